(** C108: bins of the pair histograms in rounded arithmetic. *)
Require Import ZArith QArith Qround List Bool Arith Lia Lqa Psatz SpecFloat.
From Coq Require FloatOps FloatAxioms.
Require Import Verif.Base Verif.ListX Verif.Traj_Model Verif.Particles_Model Verif.Corr_Model Verif.Bins_Model Verif.Bins_Proofs.
Import ListNotations.
Local Open Scope nat_scope.

(** The histogram counts each pair in the bin computed for it, and is written out of bounds exactly when one of these bins is not a bin. *)
Theorem C108_counts bin_of prs n :
  ((forall pq, In pq prs -> bin_of pq < n) -> exists g, count_pairs bin_of prs (repeat 0 n) = Val g /\ length g = n /\ forall k, k < n -> nth_error g k = Some (length (filter (fun pq => bin_of pq =? k) prs)))
  /\ (count_pairs bin_of prs (repeat 0 n) = UB <-> exists pq, In pq prs /\ n <= bin_of pq).
Proof.
  assert (A : (forall pq, In pq prs -> bin_of pq < n) -> exists g, count_pairs bin_of prs (repeat 0 n) = Val g /\ length g = n /\ forall k, k < n -> nth_error g k = Some (length (filter (fun pq => bin_of pq =? k) prs))).
  { intros H. destruct (count_ok bin_of prs (repeat 0 n)) as [g [E [L K]]]; [rewrite repeat_length; auto|]. exists g. rewrite repeat_length in L. split; [auto|]. split; [auto|]. intros k Hk. apply (K k 0), nth_error_repeat_x, Hk. }
  split; [exact A|]. split.
  - intros E. destruct (existsb (fun pq => n <=? bin_of pq) prs) eqn:X.
    + apply existsb_exists in X as [pq [I X]]. apply Nat.leb_le in X. eauto.
    + destruct A as [g [E' _]]; [|congruence]. intros pq I. destruct (Nat.lt_ge_cases (bin_of pq) n) as [|C]; [auto|]. apply Nat.leb_le in C. assert (existsb (fun pq => n <=? bin_of pq) prs = true) by (apply existsb_exists; eauto). congruence.
  - intros [pq [I H]]. apply (count_bad bin_of prs _ pq I). rewrite repeat_length. auto.
Qed.

Local Open Scope Q_scope.
(** Operations that round to a relative error u, as those of doubles do with u = 2^-53 while nothing overflows or underflows. *)
Record roundings (rmul rdiv : Q -> Q -> Q) (rsqrt : Q -> Q) (u : Q) : Prop := {
  r_u : 0 <= u <= 1 # 100;
  r_mul : forall x y, 0 <= x -> 0 <= y -> x * y * (1 - u) <= rmul x y <= x * y * (1 + u);
  r_div : forall x y, 0 <= x -> 0 < y -> x / y * (1 - u) <= rdiv x y <= x / y * (1 + u);
  r_sqrt : forall x, 0 <= x -> 0 <= rsqrt x /\ x * ((1 - u) * (1 - u)) <= rsqrt x * rsqrt x <= x * ((1 + u) * (1 + u))
}.
(** Whatever the roundings, a pair accepted goes at most one bin past the end, while the bins are not too many (2^50 of them for doubles). *)
Theorem C108_one_past rmul rdiv rsqrt u n cutoff d2 : roundings rmul rdiv rsqrt u -> 0 < cutoff -> 0 <= d2 -> 8 * u * inject_Z (Z.of_nat n) <= 1 ->
  rnear rmul cutoff d2 -> (rbin rmul rdiv rsqrt n cutoff d2 <= n)%nat /\ (rbin_g6 rmul rdiv rsqrt n cutoff d2 <= n)%nat.
Proof.
  intros [Hu Hm Hd Hs] Hc H2 Hn Hr. assert (N : 0 <= inject_Z (Z.of_nat n)) by (change 0 with (inject_Z 0); rewrite <- Zle_Qle; lia). unfold rbin, rbin_g6, rnear in *. split; apply floor_le.
  - destruct (pos_bounds rmul rdiv rsqrt u Hu Hm Hd Hs _ _ _ N Hc H2) as [V0 [_ V]]. eapply (below_end rmul u Hu Hm _ _ _ _ N Hc H2 Hn Hr V0 V).
  - destruct (pos_bounds_g6 rmul rdiv rsqrt u Hu Hm Hd Hs _ _ _ N Hc H2) as [V0 [_ V]]. eapply (below_end rmul u Hu Hm _ _ _ _ N Hc H2 Hn Hr V0 V).
Qed.
(** And a pair whose exact place n*distance/cutoff is in [k, k+1) by more than a few roundings (in squares) is counted in bin k. *)
Theorem C108_right_bin rmul rdiv rsqrt u n cutoff d2 k : roundings rmul rdiv rsqrt u -> 0 < cutoff -> 0 <= d2 ->
  let N := inject_Z (Z.of_nat n) in let K := inject_Z (Z.of_nat k) in
  K * K * (cutoff * cutoff) <= N * N * d2 * (1 - 8 * u) -> N * N * d2 * (1 + 8 * u) < (K + 1) * (K + 1) * (cutoff * cutoff) ->
  rbin rmul rdiv rsqrt n cutoff d2 = k /\ rbin_g6 rmul rdiv rsqrt n cutoff d2 = k.
Proof.
  intros [Hu Hm Hd Hs] Hc H2. cbv zeta. intros K1 K2. assert (N : 0 <= inject_Z (Z.of_nat n)) by (change 0 with (inject_Z 0); rewrite <- Zle_Qle; lia). unfold rbin, rbin_g6. split.
  - destruct (pos_bounds rmul rdiv rsqrt u Hu Hm Hd Hs _ _ _ N Hc H2) as [V0 [V1 V2]]. eapply (inside_bin u Hu _ _ _ _ k N Hc H2 V0 V1 V2); auto.
  - destruct (pos_bounds_g6 rmul rdiv rsqrt u Hu Hm Hd Hs _ _ _ N Hc H2) as [V0 [V1 V2]]. eapply (inside_bin u Hu _ _ _ _ k N Hc H2 V0 V1 V2); auto.
Qed.
(** In particular a pair inside the cutoff by more than a few roundings never leaves the histogram. *)
Theorem C108_inside rmul rdiv rsqrt u n cutoff d2 : roundings rmul rdiv rsqrt u -> 0 < cutoff -> 0 <= d2 -> d2 * (1 + 8 * u) < cutoff * cutoff -> (0 < n)%nat ->
  (rbin rmul rdiv rsqrt n cutoff d2 < n)%nat /\ (rbin_g6 rmul rdiv rsqrt n cutoff d2 < n)%nat.
Proof.
  intros [Hu Hm Hd Hs] Hc H2 H Hn. assert (N : 0 <= inject_Z (Z.of_nat n)) by (change 0 with (inject_Z 0); rewrite <- Zle_Qle; lia).
  assert (N1 : 0 < inject_Z (Z.of_nat n)) by (change 0 with (inject_Z 0); rewrite <- Zlt_Qlt; lia). assert (PU := pow_up u (proj1 Hu) (proj2 Hu)).
  assert (G : forall v, 0 <= v -> v * v * (cutoff * cutoff) <= inject_Z (Z.of_nat n) * inject_Z (Z.of_nat n) * d2 * ((1 + u) * (1 + u) * ((1 + u) * (1 + u)) * ((1 + u) * (1 + u))) -> (Z.to_nat (Qfloor v) < n)%nat).
  { intros v V0 V. assert (W : (1 + u) * (1 + u) * ((1 + u) * (1 + u)) * ((1 + u) * (1 + u)) <= 1 + 8 * u).
    { eapply Qle_trans; [|exact PU]. set (w := (1 + u) * (1 + u) * ((1 + u) * (1 + u)) * ((1 + u) * (1 + u))). setoid_replace ((1 + u) * (1 + u) * (1 + u) * ((1 + u) * (1 + u)) * ((1 + u) * (1 + u))) with (w * (1 + u)) by (unfold w; ring).
      assert (0 <= w) by (unfold w; assert (0 <= (1 + u) * (1 + u)) by nra; set (a := (1 + u) * (1 + u)) in *; assert (0 <= a * a) by nra; nra). nra. }
    set (wu := (1 + u) * (1 + u) * ((1 + u) * (1 + u)) * ((1 + u) * (1 + u))) in *. clearbody wu. set (m := inject_Z (Z.of_nat n)) in *. assert (CC : 0 < cutoff * cutoff) by nra. assert (MM : 0 < m * m) by nra.
    assert (L : v < m).
    { apply sq_lt; [lra|]. destruct (Qlt_le_dec (v * v) (m * m)) as [X|X]; [exact X|]. exfalso. assert (m * m * (cutoff * cutoff) <= v * v * (cutoff * cutoff)) by (apply Qmult_le_compat_r; lra).
      assert (m * m * d2 * wu <= m * m * (d2 * (1 + 8 * u))) by (setoid_replace (m * m * d2 * wu) with (m * m * (d2 * wu)) by ring; rewrite !(Qmult_comm (m * m)); apply Qmult_le_compat_r; [nra|lra]).
      assert (m * m * (d2 * (1 + 8 * u)) < m * m * (cutoff * cutoff)) by (rewrite !(Qmult_comm (m * m)); apply Qmult_lt_compat_r; auto). lra. }
    assert (B : (Qfloor v < Z.of_nat n)%Z) by (rewrite Zlt_Qlt; eapply Qle_lt_trans; [apply Qfloor_le|exact L]). lia. }
  unfold rbin, rbin_g6. split; [destruct (pos_bounds rmul rdiv rsqrt u Hu Hm Hd Hs _ _ _ N Hc H2) as [V0 [_ V]]|destruct (pos_bounds_g6 rmul rdiv rsqrt u Hu Hm Hd Hs _ _ _ N Hc H2) as [V0 [_ V]]]; apply (G _ V0 V).
Qed.

(** Exact products and quotients with a square root truncated to a relative precision of 2^-53 are such roundings. *)
Definition qsqrt (x : Q) : Q := inject_Z (Z.sqrt (Qnum x * Zpos (Qden x) * 4 ^ 53)) / inject_Z (Zpos (Qden x) * 2 ^ 53).
Definition u53 : Q := 1 # (2 ^ 53).
Example C108_roundings : roundings Qmult Qdiv qsqrt u53.
Proof.
  assert (U : 0 <= u53 <= 1 # 100) by (split; vm_compute; discriminate). constructor.
  - exact U.
  - intros x y Hx Hy. assert (0 <= x * y) by nra. split; nra.
  - intros x y Hx Hy. assert (0 <= x / y) by (apply Qle_shift_div_l; lra). split; nra.
  - intros [p q] Hx. assert (Hp : (0 <= p)%Z) by (unfold Qle in Hx; cbn in Hx; lia). unfold qsqrt. cbn [Qnum Qden].
    assert (HS : (0 <= p * Zpos q * 4 ^ 53)%Z) by (apply Z.mul_nonneg_nonneg; [apply Z.mul_nonneg_nonneg; lia|apply Z.pow_nonneg; lia]).
    destruct (Z.sqrt_spec (p * Zpos q * 4 ^ 53) HS) as [Q1 Q2]. assert (S0 := Z.sqrt_nonneg (p * Zpos q * 4 ^ 53)). set (s := Z.sqrt (p * Zpos q * 4 ^ 53)) in *.
    assert (Big : (p = 0 \/ 2 ^ 53 <= s)%Z).
    { destruct (Z.eq_dec p 0) as [|Np]; [left; auto|right]. unfold s. rewrite <- (Z.sqrt_square (2 ^ 53)) by (apply Z.pow_nonneg; lia). apply Z.sqrt_le_mono. change (2 ^ 53 * 2 ^ 53)%Z with (4 ^ 53)%Z.
      assert (1 <= p * Zpos q)%Z by nia. set (b := (4 ^ 53)%Z). assert (0 <= b)%Z by (unfold b; apply Z.pow_nonneg; lia). nia. }
    set (M := (2 ^ 53)%Z) in *. assert (HM : (1 < M)%Z) by reflexivity. change (4 ^ 53)%Z with (M * M)%Z in *.
    assert (UM : u53 == 1 / inject_Z M) by reflexivity. assert (HM' : 0 < inject_Z M) by (change 0 with (inject_Z 0); rewrite <- Zlt_Qlt; lia). assert (Hq : 0 < inject_Z (Zpos q)) by reflexivity.
    assert (X : p # q == inject_Z p / inject_Z (Zpos q)) by apply Qmake_Qdiv. rewrite !X, UM, inject_Z_mult. clear X UM U. clearbody s M.
    set (m := inject_Z M) in *. set (qq := inject_Z (Zpos q)) in *. split; [apply Qle_shift_div_l; [nra|]; setoid_replace (0 * (qq * m)) with 0 by ring; change 0 with (inject_Z 0); rewrite <- Zle_Qle; auto|].
    assert (E : inject_Z s / (qq * m) * (inject_Z s / (qq * m)) == inject_Z (s * s) / (qq * qq * (m * m))) by (rewrite inject_Z_mult; field; split; lra). rewrite E. assert (QM : 0 < qq * qq * (m * m)) by (assert (0 < qq * qq) by nra; assert (0 < m * m) by nra; nra). split.
    + apply Qle_shift_div_l; [exact QM|]. setoid_replace (inject_Z p / qq * ((1 - 1 / m) * (1 - 1 / m)) * (qq * qq * (m * m))) with (inject_Z (p * Zpos q * ((M - 1) * (M - 1)))).
      * rewrite <- Zle_Qle. destruct Big as [->|Big]; [nia|]. assert (p * Zpos q * (M * M) <= (s + 1) * (s + 1))%Z by lia. set (pq := (p * Zpos q)%Z) in *. clearbody pq.
        assert ((s + 1) * (M - 1) <= s * M)%Z by nia. assert (A : (((s + 1) * (M - 1)) * ((s + 1) * (M - 1)) <= (s * M) * (s * M))%Z) by (apply Z.mul_le_mono_nonneg; nia).
        assert (B : (pq * (M * M) * ((M - 1) * (M - 1)) <= (s + 1) * (s + 1) * ((M - 1) * (M - 1)))%Z) by (apply Z.mul_le_mono_nonneg_r; [nia|auto]).
        assert (C : (pq * ((M - 1) * (M - 1)) * (M * M) <= s * s * (M * M))%Z) by lia. apply Z.mul_le_mono_pos_r in C; [auto|nia].
      * rewrite !inject_Z_mult. setoid_replace (inject_Z (M - 1)) with (m - 1) by (unfold Z.sub; rewrite inject_Z_plus; reflexivity). fold qq. field. split; lra.
    + apply Qle_shift_div_r; [exact QM|]. eapply Qle_trans with (inject_Z (p * Zpos q * (M * M))); [rewrite <- Zle_Qle; lia|]. rewrite !inject_Z_mult. fold qq m.
      setoid_replace (inject_Z p / qq * ((1 + 1 / m) * (1 + 1 / m)) * (qq * qq * (m * m))) with (inject_Z p * qq * ((m + 1) * (m + 1))) by (field; split; lra).
      assert (0 <= inject_Z p * qq) by (assert (0 <= inject_Z p) by (change 0 with (inject_Z 0); rewrite <- Zle_Qle; auto); nra). rewrite !(Qmult_comm (inject_Z p * qq)). apply Qmult_le_compat_r; [nra|auto].
Qed.
Example C108_rounded_case : rnear Qmult 10 (50 # 1) /\ rbin Qmult Qdiv qsqrt 100 10 50 = 70%nat /\ rbin_g6 Qmult Qdiv qsqrt 100 10 50 = 70%nat.
Proof. split; [reflexivity|split; vm_compute; reflexivity]. Qed.
Local Close Scope Q_scope.

(** With doubles the end of the histogram is passed: two particles of radius 1 closer than five diameters, a hundred bins. The second
    particle is at (6, 8-2^-50, 0), exactly represented; the distance computed rounds to the cutoff although its square does not. *)
Definition pair10 : list (dbl * dbl * dbl) := [(dnum 0 0, dnum 0 0, dnum 0 0); (dnum 6 0, dnum (2 ^ 53 - 1) (-50), dnum 0 0)].
Theorem C108_double_refuted :
  nth_error pair10 1 = Some (S754_finite false 6755399441055744 (-50), S754_finite false 9007199254740991 (-50), S754_zero false)
  /\ ((6 * 2 ^ 50) * (6 * 2 ^ 50) + (2 ^ 53 - 1) * (2 ^ 53 - 1) < (10 * 2 ^ 50) * (10 * 2 ^ 50))%Z
  /\ dcount (dnum 1 0) (dnum 5 0) 100 pair10 = UB /\ dcount_g6 (dnum 5 0) 100 pair10 = UB.
Proof. split; [vm_compute; reflexivity|]. split; [vm_compute; reflexivity|]. split; vm_compute; reflexivity. Qed.
(** It is a matter of the last bit: the accepted pair is sent to bin 100 of 100; with a range of 6 diameters in 12 bins the same pair is counted, in the bin that starts at its rounded distance
    (10, exact place below), and with 3 diameters it is not selected. *)
Theorem C108_double_bin_refuted :
  let c := dcutoff (dnum 1 0) (dnum 5 0) in let d2 := dsq (ddiff (dnum 6 0, dnum (2 ^ 53 - 1) (-50), dnum 0 0) (dnum 0 0, dnum 0 0, dnum 0 0)) in
  SFltb d2 (dmul c c) = true /\ dtrunc (dmul (dsqrt d2) (ddiv (dnum 100 0) c)) = Some 100
  /\ dcount (dnum 1 0) (dnum 6 0) 12 pair10 = Val [0; 0; 0; 0; 0; 0; 0; 0; 0; 0; 2; 0] /\ dcount (dnum 1 0) (dnum 3 0) 4 pair10 = Val [0; 0; 0; 0]
  /\ dcount_g6 (dnum 6 0) 12 pair10 = Val [0; 0; 0; 0; 0; 0; 0; 0; 0; 0; 1; 0].
Proof. cbv zeta. split; [vm_compute; reflexivity|]. split; [vm_compute; reflexivity|]. split; [vm_compute; reflexivity|]. split; vm_compute; reflexivity. Qed.

(** The doubles of the two theorems above are those of the standard library of Coq (binary64): its definitions of the operations, no axiom on primitive floats. *)
Theorem C108_double_arithmetic x y m e :
  dadd x y = FloatAxioms.SF64add x y /\ dsub x y = FloatAxioms.SF64sub x y /\ dmul x y = FloatAxioms.SF64mul x y /\ ddiv x y = FloatAxioms.SF64div x y
  /\ dsqrt x = FloatAxioms.SF64sqrt x /\ dnum m e = binary_normalize FloatOps.prec FloatOps.emax m e false.
Proof. repeat split; reflexivity. Qed.

Print Assumptions C108_counts.
Print Assumptions C108_one_past.
Print Assumptions C108_right_bin.
Print Assumptions C108_inside.
Print Assumptions C108_roundings.
Print Assumptions C108_double_refuted.
Print Assumptions C108_double_bin_refuted.
Print Assumptions C108_double_arithmetic.

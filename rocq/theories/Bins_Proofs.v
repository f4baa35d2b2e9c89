Require Import ZArith QArith Qround List Bool Arith Lia Lqa Psatz.
Require Import Verif.Base Verif.ListX Verif.Traj_Model Verif.Particles_Model Verif.Particles_Proofs Verif.RTree_Model Verif.Corr_Model Verif.Bins_Model.
Import ListNotations.
Local Open Scope nat_scope.

Lemma count_ok bin_of : forall prs g, (forall pq, In pq prs -> bin_of pq < length g) ->
  exists g', count_pairs bin_of prs g = Val g' /\ length g' = length g /\ forall k x, nth_error g k = Some x -> nth_error g' k = Some (x + length (filter (fun pq => bin_of pq =? k) prs)).
Proof.
  induction prs as [|pq prs IH]; intros g H.
  - exists g. split; [reflexivity|]. split; [reflexivity|]. intros k x Hx. cbn [filter length]. rewrite Nat.add_0_r. exact Hx.
  - assert (Hb := H pq (or_introl eq_refl)). destruct (nth_error_ex g (bin_of pq) Hb) as [x Ex]. unfold count_pairs. cbn [ofold]. unfold incr at 1. rewrite Ex. cbn [obind].
    destruct (IH (set_nth (bin_of pq) (S x) g)) as [g' [E [L K]]]; [intros r Hr; rewrite set_nth_len; apply H; right; auto|]. exists g'. split; [exact E|]. rewrite set_nth_len in L. split; [auto|].
    intros k y Hy. cbn [filter]. destruct (Nat.eqb_spec (bin_of pq) k) as [F|F].
    + subst k. assert (y = x) by congruence. subst y. rewrite (K _ (S x)) by (rewrite set_nth_get by lia; rewrite Nat.eqb_refl; reflexivity). cbn [length]. f_equal. lia.
    + apply K. rewrite set_nth_get by lia. destruct (Nat.eqb_spec k (bin_of pq)); [congruence|auto].
Qed.
Lemma count_bad bin_of : forall prs g pq, In pq prs -> length g <= bin_of pq -> count_pairs bin_of prs g = UB.
Proof.
  induction prs as [|r prs IH]; intros g pq [] Hb; unfold count_pairs; cbn [ofold].
  - subst r. unfold incr. destruct (nth_error g (bin_of pq)) eqn:E; [apply nth_error_lt in E; lia|reflexivity].
  - unfold incr at 1. destruct (nth_error g (bin_of r)) eqn:E; [|reflexivity]. cbn [obind]. apply (IH _ pq); auto. rewrite set_nth_len. auto.
Qed.

Local Open Scope Q_scope.
Lemma sq_lt a b : 0 <= b -> a * a < b * b -> a < b.
Proof. intros Hb H. destruct (Qlt_le_dec a b) as [|C]; [auto|]. exfalso. assert (b * b <= a * a) by nra. lra. Qed.
Lemma sq_le a b : 0 <= a -> 0 <= b -> a * a <= b * b -> a <= b.
Proof. intros Ha Hb H. destruct (Qlt_le_dec b a) as [C|]; [|auto]. exfalso. assert (b * b < a * a) by nra. lra. Qed.
Lemma mul_mono a b c d : 0 <= a -> a <= b -> 0 <= c -> c <= d -> a * c <= b * d.
Proof. intros. nra. Qed.
Lemma pow_up u : 0 <= u -> u <= 1 # 100 -> (1 + u) * (1 + u) * (1 + u) * ((1 + u) * (1 + u)) * ((1 + u) * (1 + u)) <= 1 + 8 * u.
Proof.
  intros H0 H1. set (a := (1 + u) * (1 + u)).
  assert (A : a <= 1 + (201#100) * u) by (unfold a; nra). assert (A0 : 1 <= a) by (unfold a; nra).
  assert (B : a * a <= 1 + (407#100) * u) by nra. assert (B0 : 1 <= a * a) by nra.
  assert (C : a * (1 + u) <= 1 + (304#100) * u) by nra. assert (C0 : 1 <= a * (1 + u)) by nra.
  assert (D : a * (1 + u) * (a * a) <= (1 + (304#100) * u) * (1 + (407#100) * u)) by (apply mul_mono; lra).
  assert (E : (1 + (304#100) * u) * (1 + (407#100) * u) <= 1 + 8 * u) by nra.
  setoid_replace (a * (1 + u) * a * a) with (a * (1 + u) * (a * a)) by ring. lra.
Qed.
Lemma pow_down u : 0 <= u -> u <= 1 # 100 -> 1 - 8 * u <= (1 - u) * (1 - u) * ((1 - u) * (1 - u)) * ((1 - u) * (1 - u)).
Proof.
  intros H0 H1. set (a := (1 - u) * (1 - u)). assert (A : 1 - 2 * u <= a) by (unfold a; nra). assert (A1 : 0 <= 1 - 2 * u) by lra.
  assert (B : (1 - 2 * u) * (1 - 2 * u) <= a * a) by (apply mul_mono; lra). assert (B0 : 1 - 4 * u <= (1 - 2 * u) * (1 - 2 * u)) by nra.
  assert (C : (1 - 4 * u) * (1 - 2 * u) <= a * a * a) by (apply mul_mono; lra). nra.
Qed.

Section Rounded.
  Variables (rmul rdiv : Q -> Q -> Q) (rsqrt : Q -> Q) (u : Q).
  Hypothesis Hu : 0 <= u <= 1 # 100.
  Hypothesis Hmul : forall x y, 0 <= x -> 0 <= y -> x * y * (1 - u) <= rmul x y <= x * y * (1 + u).
  Hypothesis Hdiv : forall x y, 0 <= x -> 0 < y -> x / y * (1 - u) <= rdiv x y <= x / y * (1 + u).
  Hypothesis Hsqrt : forall x, 0 <= x -> 0 <= rsqrt x /\ x * ((1 - u) * (1 - u)) <= rsqrt x * rsqrt x <= x * ((1 + u) * (1 + u)).

  (** The square of the rounded position is the square of the exact one within six roundings, for any of the two orders of the operations. *)
  Lemma pos_bounds n c d2 : 0 <= n -> 0 < c -> 0 <= d2 -> let v := rmul (rsqrt d2) (rdiv n c) in
    0 <= v /\ n * n * d2 * ((1 - u) * (1 - u) * ((1 - u) * (1 - u)) * ((1 - u) * (1 - u))) <= v * v * (c * c) /\ v * v * (c * c) <= n * n * d2 * ((1 + u) * (1 + u) * ((1 + u) * (1 + u)) * ((1 + u) * (1 + u))).
  Proof.
    intros Hn Hc Hd. cbv zeta. destruct (Hsqrt d2 Hd) as [S0 [S1 S2]]. destruct (Hdiv n c Hn Hc) as [D1 D2]. set (s := rsqrt d2) in *. set (k := rdiv n c) in *.
    assert (Q0 : 0 <= n / c) by (apply Qle_shift_div_l; lra). assert (QC : n / c * c == n) by (field; lra). set (q := n / c) in *.
    assert (K0 : 0 <= k) by (assert (0 <= q * (1 - u)) by nra; lra). destruct (Hmul s k S0 K0) as [M1 M2]. set (v := rmul s k) in *.
    assert (SK : 0 <= s * k) by nra. assert (V0 : 0 <= v) by (assert (0 <= s * k * (1 - u)) by nra; lra). split; [exact V0|]. clearbody s k v q.
    assert (L1 : (s * k * (1 - u)) * (s * k * (1 - u)) <= v * v) by (assert (0 <= s * k * (1 - u)) by nra; apply mul_mono; lra).
    assert (L2 : v * v <= (s * k * (1 + u)) * (s * k * (1 + u))) by (apply mul_mono; lra).
    assert (K1 : (q * (1 - u)) * (q * (1 - u)) <= k * k) by (assert (0 <= q * (1 - u)) by nra; apply mul_mono; lra).
    assert (K2 : k * k <= (q * (1 + u)) * (q * (1 + u))) by (apply mul_mono; lra).
    assert (W1 : 0 <= (1 - u) * (1 - u)) by nra. assert (W2 : 0 <= (1 + u) * (1 + u)) by nra. assert (QQ : 0 <= q * q) by nra. assert (CC : 0 <= c * c) by nra.
    split.
    - assert (A : d2 * ((1 - u) * (1 - u)) * ((q * (1 - u)) * (q * (1 - u))) <= (s * s) * (k * k)) by (apply mul_mono; [nra|lra| |lra]; setoid_replace (q * (1 - u) * (q * (1 - u))) with (q * q * ((1 - u) * (1 - u))) by ring; nra).
      assert (B : d2 * ((1 - u) * (1 - u)) * ((q * (1 - u)) * (q * (1 - u))) * ((1 - u) * (1 - u)) <= v * v).
      { eapply Qle_trans; [apply Qmult_le_compat_r; [exact A|exact W1]|]. eapply Qle_trans; [|exact L1]. apply Qle_lteq. right. ring. }
      eapply Qle_trans; [|apply Qmult_le_compat_r; [exact B|exact CC]]. apply Qle_lteq. right. setoid_replace (n * n) with (q * c * (q * c)) by (rewrite QC; reflexivity). ring.
    - assert (A : (s * s) * (k * k) <= d2 * ((1 + u) * (1 + u)) * ((q * (1 + u)) * (q * (1 + u)))) by (apply mul_mono; [nra|lra|nra|lra]).
      assert (B : v * v <= d2 * ((1 + u) * (1 + u)) * ((q * (1 + u)) * (q * (1 + u))) * ((1 + u) * (1 + u))).
      { eapply Qle_trans; [exact L2|]. eapply Qle_trans; [|apply Qmult_le_compat_r; [exact A|exact W2]]. apply Qle_lteq. right. ring. }
      eapply Qle_trans; [apply Qmult_le_compat_r; [exact B|exact CC]|]. apply Qle_lteq. right. setoid_replace (n * n) with (q * c * (q * c)) by (rewrite QC; reflexivity). ring.
  Qed.
  Lemma pos_bounds_g6 n c d2 : 0 <= n -> 0 < c -> 0 <= d2 -> let v := rmul (rdiv (rsqrt d2) c) n in
    0 <= v /\ n * n * d2 * ((1 - u) * (1 - u) * ((1 - u) * (1 - u)) * ((1 - u) * (1 - u))) <= v * v * (c * c) /\ v * v * (c * c) <= n * n * d2 * ((1 + u) * (1 + u) * ((1 + u) * (1 + u)) * ((1 + u) * (1 + u))).
  Proof.
    intros Hn Hc Hd. cbv zeta. destruct (Hsqrt d2 Hd) as [S0 [S1 S2]]. destruct (Hdiv (rsqrt d2) c S0 Hc) as [D1 D2]. set (s := rsqrt d2) in *. set (k := rdiv s c) in *.
    assert (Q0 : 0 <= s / c) by (apply Qle_shift_div_l; lra). assert (QC : s / c * c == s) by (field; lra). set (q := s / c) in *.
    assert (K0 : 0 <= k) by (assert (0 <= q * (1 - u)) by nra; lra). destruct (Hmul k n K0 Hn) as [M1 M2]. set (v := rmul k n) in *.
    assert (SK : 0 <= k * n) by nra. assert (V0 : 0 <= v) by (assert (0 <= k * n * (1 - u)) by nra; lra). split; [exact V0|]. clearbody s k v q.
    assert (L1 : (k * n * (1 - u)) * (k * n * (1 - u)) <= v * v) by (assert (0 <= k * n * (1 - u)) by nra; apply mul_mono; lra).
    assert (L2 : v * v <= (k * n * (1 + u)) * (k * n * (1 + u))) by (apply mul_mono; lra).
    assert (K1 : (q * (1 - u)) * (q * (1 - u)) <= k * k) by (assert (0 <= q * (1 - u)) by nra; apply mul_mono; lra).
    assert (K2 : k * k <= (q * (1 + u)) * (q * (1 + u))) by (apply mul_mono; lra).
    assert (W1 : 0 <= (1 - u) * (1 - u)) by nra. assert (W2 : 0 <= (1 + u) * (1 + u)) by nra. assert (CC : 0 <= c * c) by nra. assert (NN : 0 <= n * n) by nra.
    assert (SS : q * q * (c * c) == s * s) by (setoid_replace (q * q * (c * c)) with (q * c * (q * c)) by ring; rewrite QC; reflexivity).
    assert (W3 : 0 <= n * n * ((1 - u) * (1 - u) * ((1 - u) * (1 - u)))) by nra. assert (W4 : 0 <= n * n * ((1 + u) * (1 + u) * ((1 + u) * (1 + u)))) by nra.
    assert (NW1 : 0 <= n * n * ((1 - u) * (1 - u))) by nra. assert (NW2 : 0 <= n * n * ((1 + u) * (1 + u))) by nra.
    split.
    - eapply Qle_trans; [|apply Qmult_le_compat_r; [exact L1|exact CC]].
      eapply Qle_trans; [|apply Qle_lteq; right; symmetry; transitivity (k * k * (n * n * ((1 - u) * (1 - u))) * (c * c)); [ring|reflexivity]].
      eapply Qle_trans; [|apply Qmult_le_compat_r; [apply Qmult_le_compat_r; [exact K1|exact NW1]|exact CC]].
      eapply Qle_trans; [|apply Qle_lteq; right; symmetry; transitivity (q * q * (c * c) * (n * n * ((1 - u) * (1 - u) * ((1 - u) * (1 - u))))); [ring|rewrite SS; reflexivity]].
      eapply Qle_trans; [|apply Qmult_le_compat_r; [exact S1|exact W3]]. apply Qle_lteq. right. ring.
    - eapply Qle_trans; [apply Qmult_le_compat_r; [exact L2|exact CC]|].
      eapply Qle_trans; [apply Qle_lteq; right; transitivity (k * k * (n * n * ((1 + u) * (1 + u))) * (c * c)); [ring|reflexivity]|].
      eapply Qle_trans; [apply Qmult_le_compat_r; [apply Qmult_le_compat_r; [exact K2|exact NW2]|exact CC]|].
      eapply Qle_trans; [apply Qle_lteq; right; transitivity (q * q * (c * c) * (n * n * ((1 + u) * (1 + u) * ((1 + u) * (1 + u))))); [ring|rewrite SS; reflexivity]|].
      eapply Qle_trans; [apply Qmult_le_compat_r; [exact S2|exact W4]|]. apply Qle_lteq. right. ring.
  Qed.
  Lemma below_end n c d2 v : 0 <= n -> 0 < c -> 0 <= d2 -> 8 * u * n <= 1 -> d2 < rmul c c -> 0 <= v ->
    v * v * (c * c) <= n * n * d2 * ((1 + u) * (1 + u) * ((1 + u) * (1 + u)) * ((1 + u) * (1 + u))) -> v < n + 1.
  Proof.
    intros Hn Hc Hd Hun Hr V0 V. destruct (Hmul c c) as [_ M]; [lra|lra|]. assert (P := pow_up u (proj1 Hu) (proj2 Hu)). assert (CC : 0 < c * c) by nra.
    apply sq_lt; [lra|]. set (w := (1 + u) * (1 + u) * ((1 + u) * (1 + u)) * ((1 + u) * (1 + u))) in *. assert (W0 : 1 <= w).
    { assert (1 <= (1 + u) * (1 + u)) by nra. unfold w. set (a := (1 + u) * (1 + u)) in *. assert (1 <= a * a) by nra. nra. }
    assert (P' : w * (1 + u) <= 1 + 8 * u) by (unfold w; eapply Qle_trans; [|exact P]; apply Qle_lteq; right; ring). clearbody w.
    assert (A : n * n * d2 * w <= n * n * (c * c * (1 + u)) * w) by (apply Qmult_le_compat_r; [|lra]; assert (0 <= n * n) by nra; assert (d2 <= c * c * (1 + u)) by lra; nra).
    assert (B : n * n * (c * c * (1 + u)) * w <= n * n * (c * c) * (1 + 8 * u)).
    { setoid_replace (n * n * (c * c * (1 + u)) * w) with (n * n * (c * c) * (w * (1 + u))) by ring. assert (0 <= n * n * (c * c)) by (assert (0 <= n * n) by nra; nra). rewrite !(Qmult_comm (n * n * (c * c))). apply Qmult_le_compat_r; auto. }
    assert (C : v * v * (c * c) <= n * n * (1 + 8 * u) * (c * c)) by (setoid_replace (n * n * (1 + 8 * u) * (c * c)) with (n * n * (c * c) * (1 + 8 * u)) by ring; lra).
    assert (D : v * v <= n * n * (1 + 8 * u)) by (destruct (Qlt_le_dec (n * n * (1 + 8 * u)) (v * v)) as [X|X]; [|exact X]; exfalso; assert (n * n * (1 + 8 * u) * (c * c) < v * v * (c * c)) by (apply Qmult_lt_compat_r; auto); lra).
    assert (F : n * n * (1 + 8 * u) <= n * n + n) by nra. lra.
  Qed.
  Lemma floor_nat v (k : nat) : inject_Z (Z.of_nat k) <= v -> v < inject_Z (Z.of_nat k) + 1 -> Z.to_nat (Qfloor v) = k.
  Proof.
    intros H1 H2. assert (A : (Z.of_nat k <= Qfloor v)%Z) by (rewrite <- (Qfloor_Z (Z.of_nat k)); apply Qfloor_resp_le; auto).
    assert (B : (Qfloor v < Z.of_nat k + 1)%Z) by (apply Zlt_Qlt in H2 || (rewrite Zlt_Qlt; rewrite inject_Z_plus; eapply Qle_lt_trans; [apply Qfloor_le|exact H2])). lia.
  Qed.
  Lemma floor_le v (n : nat) : v < inject_Z (Z.of_nat n) + 1 -> (Z.to_nat (Qfloor v) <= n)%nat.
  Proof. intros H. assert (B : (Qfloor v < Z.of_nat n + 1)%Z) by (rewrite Zlt_Qlt; rewrite inject_Z_plus; eapply Qle_lt_trans; [apply Qfloor_le|exact H]). lia. Qed.
  Lemma inside_bin n c d2 v (k : nat) : 0 <= n -> 0 < c -> 0 <= d2 -> 0 <= v ->
    n * n * d2 * ((1 - u) * (1 - u) * ((1 - u) * (1 - u)) * ((1 - u) * (1 - u))) <= v * v * (c * c) -> v * v * (c * c) <= n * n * d2 * ((1 + u) * (1 + u) * ((1 + u) * (1 + u)) * ((1 + u) * (1 + u))) ->
    inject_Z (Z.of_nat k) * inject_Z (Z.of_nat k) * (c * c) <= n * n * d2 * (1 - 8 * u) -> n * n * d2 * (1 + 8 * u) < (inject_Z (Z.of_nat k) + 1) * (inject_Z (Z.of_nat k) + 1) * (c * c) -> Z.to_nat (Qfloor v) = k.
  Proof.
    intros Hn Hc Hd V0 V1 V2 K1 K2. assert (PU := pow_up u (proj1 Hu) (proj2 Hu)). assert (PD := pow_down u (proj1 Hu) (proj2 Hu)). assert (CC : 0 < c * c) by nra. assert (ND : 0 <= n * n * d2) by (assert (0 <= n * n) by nra; nra).
    assert (KN : 0 <= inject_Z (Z.of_nat k)) by (change 0 with (inject_Z 0); rewrite <- Zle_Qle; lia). set (kk := inject_Z (Z.of_nat k)) in *.
    assert (W : (1 + u) * (1 + u) * ((1 + u) * (1 + u)) * ((1 + u) * (1 + u)) <= 1 + 8 * u).
    { eapply Qle_trans; [|exact PU]. set (w := (1 + u) * (1 + u) * ((1 + u) * (1 + u)) * ((1 + u) * (1 + u))). setoid_replace ((1 + u) * (1 + u) * (1 + u) * ((1 + u) * (1 + u)) * ((1 + u) * (1 + u))) with (w * (1 + u)) by (unfold w; ring).
      assert (0 <= w) by (unfold w; assert (0 <= (1 + u) * (1 + u)) by nra; set (a := (1 + u) * (1 + u)) in *; assert (0 <= a * a) by nra; nra). nra. }
    set (wu := (1 + u) * (1 + u) * ((1 + u) * (1 + u)) * ((1 + u) * (1 + u))) in *. set (wd := (1 - u) * (1 - u) * ((1 - u) * (1 - u)) * ((1 - u) * (1 - u))) in *. set (nd := n * n * d2) in *. clearbody wu wd nd.
    apply floor_nat; fold kk.
    - apply sq_le; [auto|auto|]. destruct (Qlt_le_dec (v * v) (kk * kk)) as [X|X]; [|exact X]. exfalso. assert (v * v * (c * c) < kk * kk * (c * c)) by (apply Qmult_lt_compat_r; auto). assert (nd * (1 - 8 * u) <= nd * wd) by nra. lra.
    - apply sq_lt; [lra|]. destruct (Qlt_le_dec (v * v) ((kk + 1) * (kk + 1))) as [X|X]; [exact X|]. exfalso. assert ((kk + 1) * (kk + 1) * (c * c) <= v * v * (c * c)) by (apply Qmult_le_compat_r; lra). assert (nd * wu <= nd * (1 + 8 * u)) by nra. lra.
  Qed.
End Rounded.

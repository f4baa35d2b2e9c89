(** The coefficients of a bond are those of the power of a quadratic form. *)
Require Import Reals ZArith List Bool Arith Lia Lra Ring.
Require Import Verif.Base Verif.Traj_Model Verif.Boo_Model Verif.Boo_Spec Verif.Wigner_Model Verif.Wigner_Proofs Verif.Euler_Model Verif.Euler_Spec Verif.Euler_Cplx Verif.Euler_Proofs Verif.Euler_Geom Verif.Euler_Turn.
Import ListNotations.
Local Open Scope R_scope.
Local Open Scope C_scope.

Lemma rc_sum f : forall n, rc (sum_f_R0 f n) = sumc (fun k => rc (f k)) (S n).
Proof. induction n as [|n IH]; [cbn [sum_f_R0 sumc]; ring|]. cbn [sum_f_R0]. rewrite rc_add, IH. reflexivity. Qed.
Lemma rc_sub x y : rc (x - y)%R = rc x - rc y. Proof. cring. Qed.
(** Taylor's formula for ((z-h)^2-1)^l *)
Lemma taylor l z h : rc (((z - h) * (z - h) - 1) ^ l)%R = sumc (fun j => rc (legendre_derivative l j z / rfact j) * rc (- h) ^ j) (S (2 * l)).
Proof.
  rewrite rc_pow. replace ((z - h) * (z - h) - 1)%R with ((z - h) * (z - h) + -1)%R by ring. rewrite rc_add, binomial_c.
  transitivity (sumc (fun k => sumc (fun j => rc (if (j <=? 2 * k)%nat then (-1) ^ (l - k) * Binomial.C l k * (rfact (2 * k) / rfact (2 * k - j)) * z ^ (2 * k - j) else 0)%R * rc (/ rfact j) * rc (- h) ^ j) (S (2 * l))) (S l)).
  - apply sumc_ext. intros k Hk. replace ((z - h) * (z - h))%R with ((z - h) * ((z - h) * 1))%R by ring. change ((z - h) * ((z - h) * 1))%R with ((z - h) ^ 2)%R. rewrite <- rc_pow, <- pow_mult. rewrite rc_pow. replace (z - h)%R with (- h + z)%R by ring. rewrite rc_add, binomial_c.
    replace (S (2 * l)) with (S (2 * k) + (2 * l - 2 * k))%nat by lia. rewrite sumc_split. rewrite (sumc_zero _ (2 * l - 2 * k)).
    2: { intros i Hi. rewrite (proj2 (Nat.leb_gt (S (2 * k) + i) (2 * k))) by lia. change (rc 0) with C0. ring. }
    match goal with |- _ = ?b + C0 => transitivity b; [|ring] end. rewrite <- sumc_scal_r, <- sumc_scal. apply sumc_ext. intros j Hj. rewrite (proj2 (Nat.leb_le j (2 * k))) by lia.
    rewrite <- (rc_pow (-1)), <- (rc_pow z). replace (rc (bin l k) * (rc (bin (2 * k) j) * (rc (- h) ^ j * rc (z ^ (2 * k - j))) * rc ((-1) ^ (l - k)))) with (rc (bin l k * bin (2 * k) j * z ^ (2 * k - j) * (-1) ^ (l - k))%R * rc (- h) ^ j) by (rewrite !rc_mul; ring).
    rewrite <- rc_mul. do 2 f_equal. unfold bin, Binomial.C, rfact. assert (P1 := fact_pos j). assert (P2 := fact_pos (2 * k - j)). assert (P3 := fact_pos k). assert (P4 := fact_pos (l - k)). field. repeat split; lra.
  - rewrite sumc_swap. apply sumc_ext. intros j _. rewrite !sumc_scal_r. change (rc (legendre_derivative l j z / rfact j)) with (rc (legendre_derivative l j z * / rfact j)). rewrite rc_mul. unfold legendre_derivative. rewrite rc_sum. auto.
Qed.
(** Powers of a quadratic form *)
Lemma poly_u x n u v : u * poly x n u v = poly (fun j => match j with O => C0 | S j => x j end) (S n) u v.
Proof. unfold poly. rewrite (sumc_first (fun j => _ * _) (S n)). rewrite <- sumc_scal. transitivity (sumc (fun j => x j * (u ^ S j * v ^ (S n - S j))) (S n)); [apply sumc_ext; intros; rewrite cpow_S; cbn [Nat.sub]; ring|ring]. Qed.
Lemma poly_v x n u v : v * poly x n u v = poly (fun j => if (j <=? n)%nat then x j else C0) (S n) u v.
Proof.
  unfold poly. change (sumc ?f (S (S n))) with (sumc f (S n) + f (S n)). cbn beta. rewrite (proj2 (Nat.leb_gt (S n) n)) by lia. rewrite <- sumc_scal. match goal with |- _ = ?b + _ => transitivity b; [|ring] end.
  apply sumc_ext. intros j Hj. rewrite (proj2 (Nat.leb_le j n)) by lia. replace (S n - j)%nat with (S (n - j)) by lia. rewrite cpow_S. ring.
Qed.
Lemma poly_lin x y a b n u v : a * poly x n u v + b * poly y n u v = poly (fun j => a * x j + b * y j) n u v.
Proof. unfold poly. rewrite <- !sumc_scal, <- sumc_add. apply sumc_ext. intros. ring. Qed.
Lemma form_pow a b c : forall l, exists x, forall u v, (a * (u * u) + b * (u * v) + c * (v * v)) ^ l = poly x (2 * l) u v.
Proof.
  induction l as [|l [x IH]].
  - exists (fun _ => C1). intros u v. unfold poly. cbn [sumc Nat.mul Nat.sub Nat.add]. rewrite !cpow_0. ring.
  - eexists. intros u v. rewrite cpow_S, IH. replace (2 * S l)%nat with (S (S (2 * l))) by lia.
    transitivity (C1 * (u * (a * (u * poly x (2 * l) u v) + b * (v * poly x (2 * l) u v))) + c * (v * (v * poly x (2 * l) u v))); [ring|].
    rewrite (poly_u x), (poly_v x), poly_lin, poly_u, poly_v, poly_lin. reflexivity.
Qed.
Lemma at_one x n u : poly x n (rc u) C1 = sumc (fun i => x i * rc u ^ i) (S n).
Proof. unfold poly. apply sumc_ext. intros. rewrite cpow_one. ring. Qed.
(** The form of the unit vector (s, 0, z) *)
Definition form0 (s z : R) (u v : C) : C := rc (- (s / 2))%R * (u * u) + rc z * (u * v) + rc (s / 2) * (v * v).
Lemma form_up s z l x : (0 <= s)%R -> (s * s + z * z = 1)%R -> (forall u v, form0 s z u v ^ l = poly x (2 * l) u v) ->
  forall m, (m <= l)%nat -> x (l + m)%nat = rc (rfact l / rfact (l + m) * legendre l m z)%R.
Proof.
  intros S0 U H m Hm. assert (Pl : (0 < rfact l)%R) by apply fact_pos. assert (Pm : (0 < rfact (l + m))%R) by apply fact_pos. assert (P2 : (0 < 2 ^ l)%R) by (apply pow_lt; lra).
  assert (SS : sqrt (1 - z * z) = s) by (replace (1 - z * z)%R with (s * s)%R by lra; apply sqrt_square; auto).
  assert (V : forall t, sumc (fun i => x i * rc t ^ i) (S (2 * l)) = rc ((z * t + s / 2 * (1 - t * t)) ^ l)%R).
  { intros t. rewrite <- at_one, <- H, rc_pow. f_equal. unfold form0. cring. }
  unfold legendre. rewrite SS. destruct (Req_dec s 0) as [->|NS].
  - (* on the axis z *)
    assert (Xj : forall j, (j < S (2 * l))%nat -> x j = if (j =? l)%nat then rc (z ^ l)%R else C0).
    { apply (poly_unique (S (2 * l)) x). intros t. rewrite V. rewrite (sumc_one _ (S (2 * l)) l); [|lia|intros i Hi Ni; destruct (Nat.eqb_spec i l); [congruence|ring]]. rewrite Nat.eqb_refl, <- rc_pow, <- rc_mul. f_equal. rewrite <- Rpow_mult_distr. f_equal. field. }
    rewrite Xj by lia. destruct (Nat.eqb_spec (l + m) l) as [E|E].
    + assert (m = 0%nat) by lia. subst m. rewrite Nat.add_0_r in *. f_equal. cbn [pow].
      assert (T : forall j, (j < S (2 * l))%nat -> rc (legendre_derivative l j z / rfact j * (-1) ^ j)%R = (if (l <=? j)%nat then rc (bin l (j - l) * (-2 * z) ^ (2 * l - j))%R else C0)).
      { apply poly_unique. intros t. transitivity (rc (((z - t) * (z - t) - 1) ^ l)%R).
        - rewrite taylor. apply sumc_ext. intros j _. rewrite <- !rc_pow, <- !rc_mul. f_equal. replace (- t)%R with (-1 * t)%R by ring. rewrite Rpow_mult_distr. ring.
        - replace ((z - t) * (z - t) - 1)%R with (t * (t + -2 * z))%R by nra. rewrite rc_pow, rc_mul, rc_add, cpow_mul, binomial_c, <- sumc_scal. replace (S (2 * l)) with (l + S l)%nat by lia. rewrite sumc_split.
          rewrite (sumc_zero _ l). 2: { intros i Hi. rewrite (proj2 (Nat.leb_gt l i)) by lia. ring. }
          match goal with |- _ = C0 + ?b => transitivity b; [|ring] end. apply sumc_ext. intros i Hi. rewrite (proj2 (Nat.leb_le l (l + i))) by lia. replace (l + i - l)%nat with i by lia. replace (2 * l - (l + i))%nat with (l - i)%nat by lia. rewrite cpow_add, (rc_mul (bin l i)), (rc_pow (-2 * z)). ring. }
      specialize (T l ltac:(lia)). rewrite Nat.leb_refl, Nat.sub_diag, bin_0 in T. apply rc_inj in T. replace (2 * l - l)%nat with l in T by lia. rewrite Rpow_mult_distr in T. replace (-2)%R with (-1 * 2)%R in T by ring. rewrite Rpow_mult_distr in T.
      assert (N1 : ((-1) ^ l * (-1) ^ l = 1)%R) by (rewrite <- Rpow_mult_distr; replace (-1 * -1)%R with 1%R by ring; apply pow1).
      assert (T2 : (legendre_derivative l l z / rfact l * ((-1) ^ l * (-1) ^ l) = ((-1) ^ l * (-1) ^ l) * (2 ^ l * z ^ l))%R) by (rewrite <- Rmult_assoc, T; ring). rewrite N1 in T2.
      assert (T3 : legendre_derivative l l z = (2 ^ l * z ^ l * rfact l)%R). { transitivity (legendre_derivative l l z / rfact l * 1 * rfact l)%R; [field; lra|]. rewrite T2. ring. }
      rewrite T3. field. lra.
    + rewrite (pow_i m) by lia. change C0 with (rc 0). f_equal. field. repeat split; lra.
  - (* elsewhere *)
    assert (X : rc ((-2 * s) ^ l)%R * x (l + m)%nat = rc (legendre_derivative l (l + m) z / rfact (l + m) * (- s) ^ (l + m))%R).
    { apply (poly_unique (S (2 * l)) (fun j => rc ((-2 * s) ^ l)%R * x j) (fun j => rc (legendre_derivative l j z / rfact j * (- s) ^ j)%R)); [|lia]. intros t.
      transitivity (rc ((-2 * s) ^ l)%R * sumc (fun i => x i * rc t ^ i) (S (2 * l))); [rewrite <- sumc_scal; apply sumc_ext; intros; ring|]. rewrite V, <- rc_mul, <- Rpow_mult_distr.
      replace (-2 * s * (z * t + s / 2 * (1 - t * t)))%R with ((z - s * t) * (z - s * t) - 1)%R by (apply (Rplus_eq_reg_r (s * s + z * z)); rewrite U at 1; field).
      rewrite taylor. apply sumc_ext. intros j _. rewrite <- !rc_pow, <- !rc_mul. f_equal. replace (- (s * t))%R with (- s * t)%R by ring. rewrite Rpow_mult_distr. ring. }
    assert (Q : ((-2 * s) ^ l <> 0)%R) by (apply pow_nonzero; lra).
    transitivity (rc (/ (-2 * s) ^ l)%R * (rc ((-2 * s) ^ l)%R * x (l + m)%nat)).
    { transitivity ((rc ((-2 * s) ^ l)%R * rc (/ (-2 * s) ^ l)%R) * x (l + m)%nat); [rewrite rc_inv by auto; ring|ring]. }
    rewrite X, <- rc_mul. f_equal. rewrite pow_add. replace (-2 * s)%R with (2 * (- s))%R by ring. rewrite Rpow_mult_distr. replace ((- s) ^ m)%R with ((-1) ^ m * s ^ m)%R by (rewrite <- Rpow_mult_distr; f_equal; ring).
    assert (Q2 : ((- s) ^ l <> 0)%R) by (apply pow_nonzero; lra). field. repeat split; lra.
Qed.
Lemma form_flip s z l x : (forall u v, form0 s z u v ^ l = poly x (2 * l) u v) -> forall j, (j <= 2 * l)%nat -> x (2 * l - j)%nat = sgn (l + j) * x j.
Proof.
  intros H j Hj. assert (E : sgn (2 * l - j) * x (2 * l - j)%nat = sgn l * x j).
  { apply (poly_same (fun j => sgn (2 * l - j) * x (2 * l - j)%nat) (fun j => sgn l * x j) (2 * l)); auto. intros u v. rewrite (poly_flip (fun j => sgn j * x j)), <- poly_neg, <- H.
    transitivity (sgn l * poly x (2 * l) u v); [|unfold poly; rewrite <- sumc_scal; apply sumc_ext; intros; ring]. rewrite <- H, <- sgn_pow, <- cpow_mul. f_equal. unfold form0. rewrite rc_opp. ring. }
  assert (S2 : sgn (2 * l - j) = sgn j). { assert (F : sgn (2 * l - j + 2 * j) = sgn (j + 2 * l)) by (f_equal; lia). rewrite !sgn_add, !sgn_double in F. transitivity (sgn (2 * l - j) * C1); [ring|rewrite F; ring]. }
  rewrite S2 in E. rewrite sgn_add. transitivity ((sgn j * sgn j) * x (2 * l - j)%nat); [rewrite sgn_sq; ring|]. transitivity (sgn j * (sgn j * x (2 * l - j)%nat)); [ring|]. rewrite E. ring.
Qed.
(** The stored coefficients of a bond *)
Lemma bond_at H v l m r th ph : spherical v = (r, th, ph) -> degree l -> (m <= l)%nat -> ratm (of_bond H v) l m = H l m th ph.
Proof.
  intros E Hl Hm. unfold of_bond. rewrite E. unfold at_m.
  assert (T : forallb (fun p => andb (Nat.ltb (lm_index p) 36) (let '(a, b) := nth (lm_index p) (combine i2l i2m) (0, 0)%nat in andb (Nat.eqb a (fst p)) (Nat.eqb b (snd p)))) lms = true) by (vm_compute; reflexivity).
  rewrite forallb_forall in T. assert (I : In (l, m) lms).
  { unfold lms. apply in_flat_map. exists l. split; [|apply in_map_iff; exists m; split; auto; apply in_seq; lia]. destruct Hl as [[k ->] Hk]. unfold even_degrees. assert (k = 0 \/ k = 1 \/ k = 2 \/ k = 3 \/ k = 4 \/ k = 5)%nat by lia. cbn [In]. lia. }
  specialize (T _ I). apply andb_true_iff in T as [T1 T2]. apply Nat.ltb_lt in T1. change (m + l * l / 4)%nat with (lm_index (l, m)). rewrite (nth_indep _ _ ((fun lm => H (fst lm) (snd lm) th ph) (0, 0)%nat)) by (rewrite map_length; exact T1).
  rewrite (map_nth (fun lm => H (fst lm) (snd lm) th ph)). destruct (nth (lm_index (l, m)) (combine i2l i2m) (0, 0)%nat) as [a b]. cbn [fst snd] in *. apply andb_true_iff in T2 as [A B]. apply Nat.eqb_eq in A, B. subst. auto.
Qed.
Lemma cis_pow x : forall n, cis x ^ n = cis (INR n * x).
Proof. induction n as [|n IH]; [rewrite cpow_0; cbn [INR]; rewrite Rmult_0_l, cis_0; auto|]. rewrite cpow_S, IH, cis_add. f_equal. rewrite S_INR. ring. Qed.
Definition norm_l (l : nat) : R := (sqrt ((2 * INR l + 1) / (4 * PI)) / rfact l)%R.
Lemma real_bond v : realq (of_bond harmonic v).
Proof.
  intros l Hl. unfold real0. destruct (spherical v) as [[r th] ph] eqn:E. rewrite (bond_at _ _ _ _ _ _ _ E Hl (Nat.le_0_l l)). unfold harmonic. cbn [snd INR]. rewrite Rmult_0_l, sin_0. ring.
Qed.
Lemma bond_length v : length (of_bond harmonic v) = 36%nat.
Proof. unfold of_bond. destruct (spherical v) as [[r th] ph]. rewrite map_length. reflexivity. Qed.
(** The form of the unit vector (x, y, z) *)
Definition form (x y z : R) (u v : C) : C := rc z * (u * v) + rc (1 / 2) * (((x, - y)%R : C) * (v * v) - ((x, y) : C) * (u * u)).
Lemma bond_angles v l r th phi : spherical v = (r, th, phi) -> (0 <= th < PI)%R -> degree l -> forall u w, pol (of_bond harmonic v) l u w = rc (norm_l l) * form (sin th * cos phi) (sin th * sin phi) (cos th) u w ^ l.
Proof.
  intros E Ht Hl u w. assert (S0 : (0 <= sin th)%R) by (apply sin_ge_0; lra). assert (U : (sin th * sin th + cos th * cos th = 1)%R) by (assert (K := sin2_cos2 th); unfold Rsqr in K; lra).
  destruct (form_pow (rc (- (sin th / 2))%R) (rc (cos th)) (rc (sin th / 2)) l) as [x Hx]. change (forall u v, form0 (sin th) (cos th) u v ^ l = poly x (2 * l) u v) in Hx.
  assert (UP := form_up _ _ _ _ S0 U Hx). assert (FL := form_flip _ _ _ _ Hx).
  assert (FF : forall m, (m <= l)%nat -> full (of_bond harmonic v) l (l + m) = rc (wt (2 * l) (l + m) * norm_l l)%R * x (l + m)%nat * cis phi ^ m).
  { intros m Hm. rewrite full_up, (bond_at _ _ _ _ _ _ _ E Hl Hm), UP, cis_pow by auto. unfold harmonic. assert (Pi := PI_RGT_0). assert (P1 : (0 < rfact (l - m))%R) by apply fact_pos. assert (P2 : (0 < rfact (l + m))%R) by apply fact_pos. assert (P3 : (0 < rfact l)%R) by apply fact_pos. assert (PL := pos_INR l).
    replace (sqrt ((2 * INR l + 1) / (4 * PI) * (rfact (l - m) / rfact (l + m)))) with (wt (2 * l) (l + m) * norm_l l * (rfact l / rfact (l + m)))%R.
    { unfold cis. rewrite <- !rc_mul. cring. }
    unfold norm_l, wt. replace (2 * l - (l + m))%nat with (l - m)%nat by lia. change (INR (fact (l + m))) with (rfact (l + m)). change (INR (fact (l - m))) with (rfact (l - m)).
    rewrite (sqrt_mult ((2 * INR l + 1) / (4 * PI))); [| |].
    - replace (rfact (l - m) / rfact (l + m))%R with (rfact (l + m) * rfact (l - m) / (rfact (l + m) * rfact (l + m)))%R by (field; lra). rewrite (sqrt_div (rfact (l + m) * rfact (l - m))); [|apply Rmult_le_pos; lra|apply Rmult_lt_0_compat; auto]. rewrite sqrt_square by lra. field. lra.
    - apply Rlt_le, Rdiv_lt_0_compat; lra.
    - apply Rlt_le, Rdiv_lt_0_compat; lra. }
  assert (XR : forall m, (m <= l)%nat -> Conj (x (l + m)%nat) = x (l + m)%nat) by (intros m Hm; rewrite UP by auto; apply conj_rc).
  assert (ALL : forall j, (j <= 2 * l)%nat -> full (of_bond harmonic v) l j = rc (wt (2 * l) j * norm_l l)%R * x j * ph (- phi) (2 * l) j).
  { intros j Hj. destruct (le_lt_dec l j) as [L|L].
    - replace j with (l + (j - l))%nat by lia. rewrite FF, ph_up, Ropp_involutive by lia. auto.
    - assert (F := FF (l - j)%nat ltac:(lia)). replace (l + (l - j))%nat with (2 * l - j)%nat in F by lia. rewrite wt_flip in F by lia.
      assert (G := full_conj _ l (2 * l - j)%nat (real_bond v l Hl) ltac:(lia)). replace (2 * l - (2 * l - j))%nat with j in G by lia. rewrite F in G.
      replace (2 * l - j)%nat with (l + (l - j))%nat in G at 1 by lia. rewrite !conj_mul, conj_rc, XR, conj_pow, cis_conj in G by lia. replace (l + (l - j))%nat with (2 * l - j)%nat in G by lia. rewrite FL in G by lia.
      assert (SG : sgn (l + (2 * l - j)) = sgn (l + j)). { assert (F2 : sgn (l + (2 * l - j) + 2 * j) = sgn (l + j + 2 * l)) by (f_equal; lia). rewrite (sgn_add _ (2 * j)), (sgn_add _ (2 * l)), !sgn_double in F2. transitivity (sgn (l + (2 * l - j)) * C1); [ring|rewrite F2; ring]. }
      rewrite SG in G. assert (PD : ph (- phi) (2 * l) j = cis (- phi) ^ (l - j)) by (rewrite <- (ph_down (- phi) l (l - j)) by lia; f_equal; lia). rewrite PD.
      set (y := full _ l j) in *. transitivity ((sgn (l + j) * sgn (l + j)) * y); [rewrite sgn_sq; ring|]. transitivity (sgn (l + j) * (sgn (l + j) * y)); [ring|]. rewrite <- G.
      transitivity ((sgn (l + j) * sgn (l + j)) * (rc (wt (2 * l) j * norm_l l)%R * x j * cis (- phi) ^ (l - j))); [ring|rewrite sgn_sq; ring]. }
  unfold pol. rewrite (poly_ext _ (fun j => rc (norm_l l) * (x j * ph (- phi) (2 * l) j))).
  2: { intros j Hj. unfold xs. rewrite ALL by auto. rewrite rc_mul. assert (W := wt_pos (2 * l) j). transitivity ((rc (wt (2 * l) j) * rc (/ wt (2 * l) j)) * (rc (norm_l l) * (x j * ph (- phi) (2 * l) j))); [ring|rewrite rc_inv by lra; ring]. }
  transitivity (rc (norm_l l) * poly x (2 * l) (cis (phi / 2) * u) (cis (- (phi / 2)) * w)).
  { unfold poly. rewrite <- sumc_scal. apply sumc_ext. intros j _. unfold ph. replace (- (- phi / 2))%R with (phi / 2)%R by field. replace (- phi / 2)%R with (- (phi / 2))%R by field. rewrite !cpow_mul. ring. }
  rewrite <- Hx. do 2 f_equal. unfold form0, form.
  assert (P1 : cis (phi / 2) * cis (phi / 2) = cis phi) by apply cis_half. assert (P2 : cis (- (phi / 2)) * cis (- (phi / 2)) = cis (- phi)) by apply cis_nhalf. assert (P3 := cis_inv (phi / 2)).
  transitivity (rc (- (sin th / 2))%R * ((cis (phi / 2) * cis (phi / 2)) * (u * u)) + rc (cos th) * ((cis (phi / 2) * cis (- (phi / 2))) * (u * w)) + rc (sin th / 2) * ((cis (- (phi / 2)) * cis (- (phi / 2))) * (w * w))); [ring|].
  rewrite P1, P2, P3. unfold cis. rewrite cos_neg, sin_neg. destruct u as [u1 u2], w as [w1 w2]. unfold Csub, Cadd, Cmul, Copp, C1, rc, cadd, cmul, copp. cbn [fst snd]. apply pair_eq; field.
Qed.
(** For any bond, in any direction *)
Lemma bond_pol x y z l : (x, y, z) <> null_vec -> degree l -> forall u w, let n := norm3 (x, y, z) in pol (of_bond harmonic (x, y, z)) l u w = rc (norm_l l) * form (x / n) (y / n) (z / n) u w ^ l.
Proof.
  intros N Hl u w n. destruct (spherical (x, y, z)) as [[r th] phi] eqn:E. destruct (spherical_ok _ _ _ _ _ _ N E) as [-> [Ht [_ [Ex [Ey [Ez E0]]]]]]. fold n in Ex, Ey, Ez. assert (P := norm3_pos _ N). fold n in P.
  rewrite (bond_angles _ _ _ _ _ E Ht Hl). f_equal.
  replace (x / n)%R with (sin th * cos phi)%R by (rewrite <- Ex; field; lra). replace (y / n)%R with (sin th * sin phi)%R by (rewrite <- Ey; field; lra).
  destruct (Rle_lt_dec 0 z) as [Z0|Z0]; [|destruct (Req_dec x 0) as [X0|X0]; [destruct (Req_dec y 0) as [Y0|Y0]|]].
  - replace (z / n)%R with (cos th) by (rewrite <- (Ez (or_introl Z0)); field; lra). auto.
  - rewrite (E0 X0 Y0), sin_0, cos_0. assert (NN := norm3_sq x y z). fold n in NN. assert (NZ : (n * n = z * z)%R) by (rewrite NN, X0, Y0; ring). assert (ZN : (z = - n)%R) by nra. replace (z / n)%R with (-1)%R by (rewrite ZN; field; lra).
    transitivity ((- C1 * form (0 * cos phi) (0 * sin phi) (-1) u w) ^ l); [f_equal|rewrite cpow_mul, sgn_pow, sgn_even by (apply degree_even; auto); ring]. unfold form. rewrite !Rmult_0_l. cring.
  - replace (z / n)%R with (cos th) by (rewrite <- Ez by auto; field; lra). auto.
  - replace (z / n)%R with (cos th) by (rewrite <- Ez by auto; field; lra). auto.
Qed.
(** The form of a vector after the change of variables of a half-turn around (a,b,c): that of the turned vector, with the opposite sign. *)
Lemma form_turned a b c x y z u v : (a * a + b * b + c * c = 1)%R -> let k := (2 * (a * x + b * y + c * z))%R in
  form x y z (tu a b c u v) (tv a b c u v) = - form (k * a - x) (k * b - y) (k * c - z) u v.
Proof.
  intros U k. assert (CC : (c * c = 1 - a * a - b * b)%R) by lra.
  assert (E : form x y z (tu a b c u v) (tv a b c u v) + form (k * a - x) (k * b - y) (k * c - z) u v = rc (a * a + b * b + c * c - 1) * form x y z u v).
  { unfold k, form, tu, tv. destruct u as [u1 u2], v as [v1 v2]. unfold Csub, Cadd, Cmul, Copp, rc, cadd, cmul, copp. cbn [fst snd]. apply pair_eq; field. }
  replace (a * a + b * b + c * c - 1)%R with 0%R in E by lra. change (rc 0) with C0 in E.
  set (f := form x y z _ _) in *. set (g := form _ _ _ u v) in *. transitivity (f + g - g); [ring|]. rewrite E. ring.
Qed.

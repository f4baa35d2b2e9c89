(** Property C135: rotations of bond order coefficients, on real numbers. *)
Require Import Reals ZArith List Bool Arith Lia Lra Ring.
Require Import Verif.Base Verif.Traj_Model Verif.Particles_Model Verif.Boo_Model Verif.Boo_Spec Verif.Boo_Props Verif.Wigner_Model Verif.Wigner_Props Verif.Euler_Model Verif.Euler_Spec Verif.Euler_Cplx Verif.Euler_Proofs Verif.Euler_Geom Verif.Euler_Turn Verif.Euler_Harm.
Import ListNotations.
Local Open Scope R_scope.

Notation inner := (inner_product R 0 1 Rplus Rmult Rminus Ropp).
Notation norms := (sum_norm R 0 1 Rplus Rmult).

(** The angles of a bond are its spherical coordinates, except on the negative z axis. *)
Theorem C135_spherical x y z r theta phi : (x, y, z) <> null_vec -> spherical (x, y, z) = (r, theta, phi) ->
  r = norm3 (x, y, z) /\ 0 <= theta < PI /\ 0 <= phi < 2 * PI /\ x = r * sin theta * cos phi /\ y = r * sin theta * sin phi /\ (0 <= z \/ x <> 0 \/ y <> 0 -> z = r * cos theta).
Proof. intros N E. destruct (spherical_ok _ _ _ _ _ _ N E) as [H1 [H2 [H3 [H4 [H5 [H6 _]]]]]]. repeat split; try tauto; try apply H2; try apply H3; auto. intros H. symmetry. auto. Qed.
Theorem C135_colatitude_refuted z : z < 0 -> spherical (0, 0, z) = (- z, 0, 0) /\ z <> - z * cos 0.
Proof.
  intros H. assert (E : norm3 (0, 0, z) = - z). { unfold norm3. replace (0 * 0 + 0 * 0 + z * z) with ((- z) * (- z)) by ring. apply sqrt_square. lra. }
  unfold spherical. rewrite E, Rabs_left by auto. destruct (Req_EM_T (- z) (- z)) as [_|N]; [|congruence]. rewrite cos_0. split; auto. lra.
Qed.

(** A half-turn of a unit vector *)
Lemma dot_norm x y z : dot (x, y, z) (x, y, z) = norm3 (x, y, z) * norm3 (x, y, z).
Proof. rewrite norm3_sq. reflexivity. Qed.
Lemma turned_ok a b c x y z : (a, b, c) <> null_vec -> (x, y, z) <> null_vec -> let m := norm3 (a, b, c) in let n := norm3 (x, y, z) in let k := 2 * (a / m * (x / n) + b / m * (y / n) + c / m * (z / n)) in
  turned (a, b, c) (x, y, z) <> null_vec /\ norm3 (turned (a, b, c) (x, y, z)) = n /\ exists x' y' z', turned (a, b, c) (x, y, z) = (x', y', z') /\ x' / n = k * (a / m) - x / n /\ y' / n = k * (b / m) - y / n /\ z' / n = k * (c / m) - z / n.
Proof.
  intros Na Nv m n k. assert (Pm := norm3_pos _ Na). fold m in Pm. assert (Pn := norm3_pos _ Nv). fold n in Pn. assert (Qm := dot_norm a b c). fold m in Qm. assert (Qn := norm3_sq x y z). fold n in Qn. assert (Qa := norm3_sq a b c). fold m in Qa.
  assert (E : norm3 (turned (a, b, c) (x, y, z)) = n).
  { unfold turned. rewrite Qm. unfold dot, scaled, minus. set (t := 2 * (a * x + b * y + c * z) / (m * m)). assert (T : t * (m * m) = 2 * (a * x + b * y + c * z)) by (unfold t; field; lra).
    unfold norm3. rewrite <- (sqrt_square n) by lra. f_equal. rewrite Qn. transitivity (t * (t * (a * a + b * b + c * c)) - 2 * t * (a * x + b * y + c * z) + (x * x + y * y + z * z)); [ring|]. rewrite <- Qa, T. ring. }
  split. { intros Z0. rewrite Z0 in E. unfold null_vec, norm3 in E. replace (0 * 0 + 0 * 0 + 0 * 0) with 0 in E by ring. rewrite sqrt_0 in E. lra. }
  split; auto. unfold turned. rewrite Qm. unfold dot, scaled, minus. eexists _, _, _. split; [reflexivity|]. unfold k. split; [field; lra|]. split; field; lra.
Qed.
Lemma pol_turned a b c x y z l u v : (a, b, c) <> null_vec -> (x, y, z) <> null_vec -> degree l -> let m := norm3 (a, b, c) in
  pol (of_bond harmonic (turned (a, b, c) (x, y, z))) l u v = pol (of_bond harmonic (x, y, z)) l (tu (a / m) (b / m) (c / m) u v) (tv (a / m) (b / m) (c / m) u v).
Proof.
  intros Na Nv Hl m. destruct (turned_ok a b c x y z Na Nv) as [NT [NN [x' [y' [z' [ET [E1 [E2 E3]]]]]]]]. rewrite ET in *. rewrite (bond_pol x' y' z' l NT Hl), (bond_pol x y z l Nv Hl). cbv zeta. rewrite NN, E1, E2, E3. fold m.
  rewrite (form_turned (a / m) (b / m) (c / m)) by (apply (unit_sq a b c Na)). cbv zeta.
  match goal with |- context [Copp ?g] => set (f := g) end. f_equal. replace (Copp f) with (Cmul (Copp C1) f) by ring. rewrite cpow_mul, sgn_pow, sgn_even by (apply degree_even; auto). ring.
Qed.
Lemma vec3 (v : vec) : exists x y z, v = (x, y, z). Proof. destruct v as [[x y] z]. eauto. Qed.

(** Rotating the coefficients of a bond gives the coefficients of the rotated bond. *)
Theorem C135_bond axis v : axis <> null_vec -> v <> null_vec -> rotate_around axis (of_bond harmonic v) = Val (of_bond harmonic (turned axis v)).
Proof.
  intros Na Nv. destruct axis as [[a b] c], v as [[x y] z]. destruct (rotate_around_ok a b c _ Na (bond_length (x, y, z)) (real_bond (x, y, z))) as [res [E [L [R T]]]]. rewrite E. f_equal.
  apply boo_same; auto; [apply bond_length|]. intros l Hl u w. rewrite (T l Hl). symmetry. apply pol_turned; auto.
Qed.
(** Sums over bonds *)
Lemma plus_length a b : length a = 36%nat -> length b = 36%nat -> length (plus_boo a b) = 36%nat.
Proof. intros La Lb. unfold plus_boo. rewrite map_length, combine_length. lia. Qed.
Lemma plus_at a b l m : length a = 36%nat -> length b = 36%nat -> degree l -> (m <= l)%nat -> ratm (plus_boo a b) l m = Cadd (ratm a l m) (ratm b l m).
Proof.
  intros La Lb Hl Hm. assert (I : (m + l * l / 4 < 36)%nat).
  { assert (H := degree_le l Hl). assert (l * l <= 100)%nat by (apply (Nat.mul_le_mono l 10 l 10); auto). assert (l * l / 4 <= 25)%nat by (apply Nat.div_le_upper_bound; lia). lia. }
  unfold at_m, plus_boo. set (i := (m + l * l / 4)%nat) in *.
  rewrite (nth_indep _ _ ((fun p : (R * R) * (R * R) => (fst (fst p) + fst (snd p), snd (fst p) + snd (snd p))) (c0 R 0, c0 R 0))) by (rewrite map_length, combine_length; lia).
  rewrite (map_nth (fun p : (R * R) * (R * R) => (fst (fst p) + fst (snd p), snd (fst p) + snd (snd p)))). rewrite combine_nth by (transitivity 36%nat; [exact La|symmetry; exact Lb]). reflexivity.
Qed.
Lemma plus_full a b l j : length a = 36%nat -> length b = 36%nat -> degree l -> (j <= 2 * l)%nat -> full (plus_boo a b) l j = Cadd (full a l j) (full b l j).
Proof.
  intros La Lb Hl Hj. unfold full, at_z. destruct (Z.leb_spec 0 (Z.of_nat j - Z.of_nat l)).
  - apply plus_at; auto. lia.
  - rewrite plus_at by (auto; lia). destruct (ratm a l _) as [x y], (ratm b l _) as [x' y']. destruct ((_ mod 2 =? 0)%Z); unfold Cadd, cadd, cconj, copp; cbn [fst snd]; apply pair_eq; ring.
Qed.
Lemma plus_pol a b l u v : length a = 36%nat -> length b = 36%nat -> degree l -> pol (plus_boo a b) l u v = Cadd (pol a l u v) (pol b l u v).
Proof. intros La Lb Hl. unfold pol, poly. rewrite <- sumc_add. apply sumc_ext. intros j Hj. unfold xs. rewrite plus_full by (auto; lia). ring. Qed.
Lemma plus_real a b : length a = 36%nat -> length b = 36%nat -> realq a -> realq b -> realq (plus_boo a b).
Proof. intros La Lb Ra Rb l Hl. unfold real0. rewrite plus_at by (auto; lia). specialize (Ra l Hl). specialize (Rb l Hl). unfold real0 in *. unfold Cadd, cadd. cbn [snd]. lra. Qed.
Lemma bonds_ok vs : length (of_bonds vs) = 36%nat /\ realq (of_bonds vs).
Proof.
  induction vs as [|v vs [IHl IHr]]; [split; auto; intros l Hl; unfold real0, at_m; change (of_bonds []) with (repeat (0, 0) 36); rewrite nth_repeat; auto|].
  change (of_bonds (v :: vs)) with (plus_boo (of_bond harmonic v) (of_bonds vs)). split; [apply plus_length|apply plus_real]; auto using bond_length, real_bond.
Qed.
Lemma bonds_pol l axis a b c u v : axis = (a, b, c) -> degree l -> axis <> null_vec -> forall vs, Forall (fun w => w <> null_vec) vs -> let m := norm3 axis in
  pol (of_bonds (map (turned axis) vs)) l u v = pol (of_bonds vs) l (tu (a / m) (b / m) (c / m) u v) (tv (a / m) (b / m) (c / m) u v).
Proof.
  intros -> Hl Na vs F m. induction F as [|w vs Nw F IH].
  - cbn [map]. change (of_bonds []) with (repeat (0, 0) 36). assert (Z : forall u v, pol (repeat (0, 0) 36) l u v = C0). { intros u' v'. unfold pol, poly. apply sumc_zero. intros j Hj. unfold xs. assert (F0 : full (repeat (0, 0) 36) l j = C0). { unfold full, at_z, at_m. change (c0 R 0) with ((0, 0) : R * R). destruct (0 <=? _)%Z; [apply nth_repeat|]. destruct (_ =? 0)%Z; rewrite nth_repeat; unfold cconj, copp, C0; cbn [fst snd]; rewrite ?Ropp_0; auto. } rewrite F0. ring. } rewrite !Z. auto.
  - cbn [map]. change (of_bonds (turned (a, b, c) w :: map (turned (a, b, c)) vs)) with (plus_boo (of_bond harmonic (turned (a, b, c) w)) (of_bonds (map (turned (a, b, c)) vs))). change (of_bonds (w :: vs)) with (plus_boo (of_bond harmonic w) (of_bonds vs)).
    rewrite !plus_pol by (auto using bond_length; apply bonds_ok). rewrite IH. f_equal. destruct w as [[x y] z]. apply pol_turned; auto.
Qed.
Theorem C135_bonds axis vs : axis <> null_vec -> Forall (fun v => v <> null_vec) vs -> rotate_around axis (of_bonds vs) = Val (of_bonds (map (turned axis) vs)).
Proof.
  intros Na F. destruct axis as [[a b] c]. destruct (bonds_ok vs) as [Lv Rv]. destruct (rotate_around_ok a b c _ Na Lv Rv) as [res [E [L [R T]]]]. rewrite E. f_equal.
  apply boo_same; auto; [apply bonds_ok|]. intros l Hl u w. rewrite (T l Hl). symmetry. apply bonds_pol; auto.
Qed.
(** The length and the orientation of a bond do not matter. *)
Lemma scaled_norm k v : norm3 (scaled k v) = Rabs k * norm3 v.
Proof. destruct v as [[x y] z]. unfold scaled, norm3. rewrite <- sqrt_Rsqr_abs. rewrite <- sqrt_mult; [|apply Rle_0_sqr|nra]. f_equal. unfold Rsqr. ring. Qed.
Lemma scaled_null k v : k <> 0 -> v <> null_vec -> scaled k v <> null_vec.
Proof.
  intros K N E. assert (P := norm3_pos _ N). assert (X := scaled_norm k v). rewrite E in X. assert (X0 : norm3 null_vec = 0) by (unfold null_vec, norm3; replace (0 * 0 + 0 * 0 + 0 * 0) with 0 by ring; apply sqrt_0). rewrite X0 in X. assert (A := Rabs_pos_lt k K). nra.
Qed.
Lemma scaled_unit k x y z : k <> 0 -> (x, y, z) <> null_vec -> let n := norm3 (x, y, z) in let n' := norm3 (scaled k (x, y, z)) in
  (k * x / n' = x / n /\ k * y / n' = y / n /\ k * z / n' = z / n) \/ (k * x / n' = - (x / n) /\ k * y / n' = - (y / n) /\ k * z / n' = - (z / n)).
Proof.
  intros K N n n'. assert (P := norm3_pos _ N). fold n in P. assert (E : n' = Rabs k * n) by apply scaled_norm. rewrite E. destruct (Rcase_abs k) as [L|L]; [right; rewrite Rabs_left by auto|left; rewrite Rabs_right by auto]; repeat split; field; lra.
Qed.
Theorem C135_direction k v : k <> 0 -> v <> null_vec -> of_bond harmonic (scaled k v) = of_bond harmonic v.
Proof.
  intros K N. destruct v as [[x y] z]. apply boo_same; auto using bond_length. intros l Hl u w. assert (N' := scaled_null k _ K N). cbn [scaled] in N' |- *. rewrite (bond_pol _ _ _ l N' Hl), (bond_pol _ _ _ l N Hl). cbv zeta.
  destruct (scaled_unit k x y z K N) as [[E1 [E2 E3]]|[E1 [E2 E3]]]; cbn [scaled] in E1, E2, E3; rewrite E1, E2, E3; [auto|]. f_equal.
  set (n := norm3 (x, y, z)). transitivity (Cpow (Cmul (Copp C1) (form (x / n) (y / n) (z / n) u w)) l); [f_equal; unfold form; cring|]. rewrite cpow_mul, sgn_pow, sgn_even by (apply degree_even; auto). ring.
Qed.
(** Nor do those of the axis; twice a half-turn changes nothing. *)
Theorem C135_axis k axis q : k <> 0 -> axis <> null_vec -> length q = 36%nat -> realq q -> rotate_around (scaled k axis) q = rotate_around axis q.
Proof.
  intros K N Lq Hq. destruct axis as [[x y] z]. assert (N' := scaled_null k _ K N). cbn [scaled] in N' |- *. destruct (rotate_around_ok _ _ _ q N Lq Hq) as [a [Ea [La [_ Ta]]]]. destruct (rotate_around_ok _ _ _ q N' Lq Hq) as [b [Eb [Lb [_ Tb]]]]. rewrite Ea, Eb. f_equal. cbv zeta in Ta, Tb.
  apply (turns_det (x / norm3 (x, y, z)) (y / norm3 (x, y, z)) (z / norm3 (x, y, z)) q); auto. destruct (scaled_unit k x y z K N) as [[E1 [E2 E3]]|[E1 [E2 E3]]]; cbn [scaled] in E1, E2, E3; rewrite E1, E2, E3 in Tb; [auto|]. apply turns_minus. auto.
Qed.
Theorem C135_twice axis q : axis <> null_vec -> length q = 36%nat -> realq q -> exists res, rotate_around axis q = Val res /\ length res = 36%nat /\ realq res /\ rotate_around axis res = Val q.
Proof.
  intros N Lq Hq. destruct axis as [[x y] z]. destruct (rotate_around_ok _ _ _ q N Lq Hq) as [a [Ea [La [Ra Ta]]]]. destruct (rotate_around_ok _ _ _ a N La Ra) as [b [Eb [Lb [_ Tb]]]]. exists a. split; auto. split; auto. split; auto. rewrite Eb. f_equal. apply boo_same; auto. apply (turns_twice _ _ _ _ _ _ (unit_sq _ _ _ N) Ta Tb).
Qed.
(** Around the z axis: the coefficient of order m is multiplied by (-1)^m. *)
Theorem C135_vertical z q : z <> 0 -> length q = 36%nat -> realq q -> exists res, rotate_around (0, 0, z) q = Val res /\
  forall l m, degree l -> (m <= l)%nat -> ratm res l m = (if Nat.even m then ratm q l m else (- fst (ratm q l m), - snd (ratm q l m))).
Proof.
  intros Z0 Lq Hq. assert (N : (0, 0, 1) <> null_vec) by (intros E; injection E; lra). replace (0, 0, z) with (scaled z (0, 0, 1)) by (cbn; f_equal; [f_equal|]; ring). rewrite C135_axis by auto.
  destruct (rotate_around_ok _ _ _ q N Lq Hq) as [a [Ea [La [Ra Ta]]]]. exists a. split; auto. intros l m Hl Hm. cbv zeta in Ta. replace (norm3 (0, 0, 1)) with 1 in Ta by (unfold norm3; replace (0 * 0 + 0 * 0 + 1 * 1) with 1 by ring; symmetry; apply sqrt_1).
  assert (X : forall j, (j <= 2 * l)%nat -> xs a l j = Cmul (sgn j) (xs q l j)).
  { apply (poly_same (xs a l) (fun j => Cmul (sgn j) (xs q l j)) (2 * l)). intros u v. rewrite <- poly_neg. change (pol a l u v = pol q l (Copp u) v). rewrite (Ta l Hl). rewrite <- pol_minus. f_equal; unfold tu, tv; replace (0 / 1) with 0 by field; replace (1 / 1) with 1 by field; cring. }
  rewrite <- !full_up, !full_xs, X by lia. assert (S2 : sgn (l + m) = sgn m) by (rewrite sgn_add, (sgn_even l) by (apply degree_even; auto); ring). rewrite S2.
  assert (G : forall Y : R * R, Cmul (sgn m) Y = (if Nat.even m then Y else (- fst Y, - snd Y))) by (intros Y; unfold sgn; destruct (Nat.even m), Y as [y1 y2]; cbn [fst snd]; cring).
  rewrite <- G. generalize (wt (2 * l) (l + m)). intros w. match goal with |- @eq _ ?a ?b => change (@eq (R * R) a b) end. ring.
Qed.

(** Products *)
Lemma ph_PI l j : (j <= 2 * l)%nat -> ph PI (2 * l) j = sgn (l + j).
Proof.
  assert (C1' : cis PI = Copp C1) by (unfold cis, Copp, copp, C1; cbn [fst snd]; rewrite cos_PI, sin_PI; apply pair_eq; ring). assert (C2' : cis (- PI) = Copp C1) by (rewrite <- cis_conj, C1'; cring).
  intros H. destruct (le_lt_dec l j) as [L|L].
  - replace j with (l + (j - l))%nat at 1 by lia. rewrite ph_up, C2', sgn_pow by lia. replace (l + j)%nat with (2 * l + (j - l))%nat by lia. rewrite (sgn_add (2 * l)), sgn_double. ring.
  - replace j with (l - (l - j))%nat at 1 by lia. rewrite ph_down, C1', sgn_pow by lia. replace (l + j)%nat with (2 * j + (l - j))%nat by lia. rewrite (sgn_add (2 * j)), sgn_double. ring.
Qed.
Lemma ph_split a b n j : (j <= n)%nat -> ph (a - b) n j = Cmul (ph a n j) (Conj (ph b n j)).
Proof.
  intros H. rewrite ph_conj by auto. unfold ph. replace (n - (n - j))%nat with j by lia. replace (- ((a - b) / 2)) with (- (a / 2) + b / 2) by field. replace ((a - b) / 2) with (a / 2 + - (b / 2)) by field. rewrite <- !cis_add, !cpow_mul. ring.
Qed.
Lemma half_hermitian theta phi l j1 j2 : (j1 <= 2 * l)%nat -> (j2 <= 2 * l)%nat -> Conj (rotD (PI - phi) (-2 * theta) phi l j1 j2) = rotD (PI - phi) (-2 * theta) phi l j2 j1.
Proof.
  intros H1 H2. unfold rotD. rewrite !conj_mul, conj_rc, mixed_conj, !ph_split, !ph_PI, !conj_mul, conj_conj, sgn_conj by auto.
  set (c := cos _). set (s := sin _). assert (M := mixed_swap c s (2 * l) j1 j2 H1 H2). assert (W1 := wt_pos (2 * l) j1). assert (W2 := wt_pos (2 * l) j2).
  assert (E : Cmul (rc (wt (2 * l) j1 / wt (2 * l) j2)) (mixed c s j2 (2 * l - j2) j1) = Cmul (sgn (j1 + j2)) (Cmul (rc (wt (2 * l) j2 / wt (2 * l) j1)) (mixed c s j1 (2 * l - j1) j2))).
  { replace (wt (2 * l) j1 / wt (2 * l) j2) with (/ (wt (2 * l) j1 * wt (2 * l) j2) * (wt (2 * l) j1 * wt (2 * l) j1)) by (field; lra). replace (wt (2 * l) j2 / wt (2 * l) j1) with (/ (wt (2 * l) j1 * wt (2 * l) j2) * (wt (2 * l) j2 * wt (2 * l) j2)) by (field; lra).
    rewrite !(rc_mul (/ _)). match goal with |- Cmul (Cmul ?k ?a) ?m = _ => transitivity (Cmul k (Cmul a m)); [ring|] end. rewrite M. ring. }
  rewrite E, !sgn_add. match goal with |- ?L = _ => transitivity (Cmul (Cmul (Cmul (sgn j1) (sgn j1)) C1) L); [rewrite sgn_sq; ring|] end.
  transitivity (Cmul (Cmul (Cmul (sgn j1) (sgn j1)) (Cmul (sgn j1) (sgn j1))) (Cmul (Cmul (Cmul (Cmul (sgn l) (sgn j2)) (Conj (ph phi (2 * l) j2))) (Cmul (rc (wt (2 * l) j2 / wt (2 * l) j1)) (mixed c s j1 (2 * l - j1) j2))) (ph phi (2 * l) j1))); [ring|rewrite !sgn_sq; ring].
Qed.
Lemma rotate_matrix axis : exists theta phi, forall q, length q = 36%nat -> realq q -> exists res, rotate_around axis q = Val res /\ length res = 36%nat /\ realq res /\
  forall l, degree l -> forall j2, (j2 <= 2 * l)%nat -> full res l j2 = sumc (fun j => Cmul (rotD (PI - phi) (-2 * theta) phi l j2 j) (full q l j)) (S (2 * l)).
Proof. unfold rotate_around. destruct (spherical (upward axis)) as [[r th] phi]. exists th, phi. intros q Lq Hq. apply rotate_ok; auto. Qed.
Lemma fst_sum f : forall n, fst (sumc f n) = ksum R 0 Rplus (map (fun j => fst (f j)) (seq 0 n)).
Proof. induction n as [|n IH]; [reflexivity|]. rewrite seq_S, map_app. cbn [map]. rewrite ksum_app, <- IH. reflexivity. Qed.
Definition herm (a b : list (R * R)) (l : nat) : R * R := sumc (fun j => Cmul (full a l j) (Conj (full b l j))) (S (2 * l)).
Lemma inner_herm a b l : length a = 36%nat -> length b = 36%nat -> degree l -> real0 a l -> real0 b l -> inner a b l = Val (fst (herm a b l)).
Proof.
  intros La Lb Hl Ra Rb. rewrite (C59_value R 0 1 Rplus Rmult Rminus Ropp RTheory a b l) by auto. f_equal. unfold herm. rewrite fst_sum. unfold zrange. rewrite map_map. replace (2 * l + 1)%nat with (S (2 * l)) by lia. f_equal. apply map_ext. intros j. unfold full, re_prod, Cmul, cmul, Conj, cconj. cbn [fst snd]. ring.
Qed.
(** A half-turn keeps the products of coefficients, and so their norms. *)
Theorem C135_products axis a b : axis <> null_vec -> length a = 36%nat -> length b = 36%nat -> realq a -> realq b ->
  exists a' b', rotate_around axis a = Val a' /\ rotate_around axis b = Val b' /\ forall l, degree l -> exists x n, inner a b l = Val x /\ inner a' b' l = Val x /\ norms a l = Val n /\ norms a' l = Val n.
Proof.
  intros Nx La Lb Ra Rb. destruct (rotate_matrix axis) as [th [phi HD]]. destruct (HD a La Ra) as [a' [Ea [La' [Ra' Va]]]]. destruct (HD b Lb Rb) as [b' [Eb [Lb' [Rb' Vb]]]]. exists a', b'. split; auto. split; auto.
  assert (G : forall a b a' b', length a = 36%nat -> length b = 36%nat -> realq a -> realq b -> rotate_around axis a = Val a' -> rotate_around axis b = Val b' -> forall l, degree l -> herm a' b' l = herm a b l).
  { clear a b a' b' La Lb Ra Rb Ea Eb La' Lb' Ra' Rb' Va Vb. intros a b a' b' La Lb Ra Rb Ea Eb l Hl. destruct (HD a La Ra) as [a2 [Ea2 [La' [Ra' Va]]]]. rewrite Ea in Ea2. injection Ea2 as <-. destruct (HD b Lb Rb) as [b2 [Eb2 [Lb' [Rb' Vb]]]]. rewrite Eb in Eb2. injection Eb2 as <-.
    destruct (HD b' Lb' Rb') as [b2 [Eb2 [_ [_ Vb2]]]]. destruct (C135_twice axis b Nx Lb Rb) as [b3 [Eb3 [_ [_ Eb4]]]]. rewrite Eb in Eb3. injection Eb3 as <-. rewrite Eb2 in Eb4. injection Eb4 as ->.
    unfold herm. transitivity (sumc (fun j2 => sumc (fun j1 => Cmul (full a l j1) (Cmul (rotD (PI - phi) (-2 * th) phi l j2 j1) (Conj (full b' l j2)))) (S (2 * l))) (S (2 * l))).
    - apply sumc_ext. intros j2 H2. rewrite (Va l Hl j2) by lia. rewrite <- sumc_scal_r. apply sumc_ext. intros. ring.
    - rewrite sumc_swap. apply sumc_ext. intros j1 H1. rewrite sumc_scal. f_equal. rewrite (Vb2 l Hl j1) by lia. rewrite conj_sum. apply sumc_ext. intros j2 H2. rewrite conj_mul, half_hermitian by lia. auto. }
  intros l Hl. destruct (C59_norm R 0 1 Rplus Rmult Rminus Ropp RTheory a l La Hl (Ra l Hl)) as [n [N1 N2]]. destruct (C59_norm R 0 1 Rplus Rmult Rminus Ropp RTheory a' l La' Hl (Ra' l Hl)) as [n' [N1' N2']].
  exists (fst (herm a b l)), n. split; [apply inner_herm; auto|]. split; [rewrite inner_herm by auto; rewrite (G a b a' b') by auto; auto|]. split; auto. rewrite N1'. f_equal. rewrite inner_herm in N2, N2' by auto. rewrite (G a a a' a') in N2' by auto. congruence.
Qed.

(** [reflect]: the azimuth of the normal is lost. *)
Lemma reflect_turns theta phi q : length q = 36%nat -> realq q -> exists res, reflect R 0 1 Rplus Rmult Rminus Rdiv Ropp sqrt rfact (euler phi theta 0) (euler 0 (- theta) (- phi)) q = Val res /\ length res = 36%nat /\ realq res /\
  turns (- sin theta) 0 (cos theta) q res.
Proof.
  intros Lq Hq. destruct (C75_reflect R 0 1 Rplus Rmult Rminus Rdiv Ropp sqrt rfact _ _ q (sized_euler phi theta 0) (sized_euler 0 (- theta) (- phi)) Lq) as [mid [res [E [Lm [Lr [Vm Vr]]]]]]. exists res. split; auto. split; auto.
  assert (W1 : forall l, degree l -> forall m2, (m2 <= l)%nat -> ratm mid l m2 = sumc (fun j => Cmul (rotD (phi + PI) theta 0 l (l + m2) j) (full q l j)) (S (2 * l))).
  { intros l Hl m2 H2. etransitivity; [apply (Vm l m2 Hl H2)|]. etransitivity; [apply (zrange_sum (fun m1 => Cmul (cscal R Rmult (if Nat.even (l - m2) then 1 else - (1)) (rD (euler phi theta 0) l m2 m1)) (rat q l m1)) l)|]. apply sumc_ext. intros j Hj. rewrite (D_ok phi theta 0 l m2 j) by (try apply degree_le; auto; lia).
    change (rat q l (Z.of_nat j - Z.of_nat l)) with (full q l j). f_equal. match goal with |- @eq _ ?a ?b => change (@eq (R * R) a b) end. unfold rotD. rewrite !ph_up by auto.
    assert (S2 : Nat.even (l - m2) = Nat.even m2). { assert (X := degree_even l Hl). replace l with (l - m2 + m2)%nat in X by lia. rewrite Nat.even_add in X. destruct (Nat.even (l - m2)), (Nat.even m2); auto; discriminate. } rewrite S2.
    replace (cis (- (phi + PI))) with (Cmul (Copp C1) (cis (- phi))).
    2: { replace (- (phi + PI)) with (- PI + - phi) by ring. rewrite <- cis_add. f_equal. rewrite <- cis_conj. unfold cis. rewrite cos_PI, sin_PI. cring. }
    rewrite cpow_mul, sgn_pow. unfold sgn. set (Y := Cmul (Cmul (Cpow (cis (- phi)) m2) _) _). transitivity (Cmul (if Nat.even m2 then C1 else Copp C1) Y); [|unfold Y; ring]. destruct (Nat.even m2), Y as [y1 y2]; unfold cscal; cbn [fst snd]; cring. }
  assert (W2 : forall l, degree l -> forall m2, (m2 <= l)%nat -> ratm res l m2 = sumc (fun j => Cmul (rotD 0 (- theta) (- phi) l (l + m2) j) (full mid l j)) (S (2 * l))).
  { intros l Hl m2 H2. etransitivity; [apply (Vr l m2 Hl H2)|]. etransitivity; [apply (zrange_sum (fun m1 => Cmul (rD (euler 0 (- theta) (- phi)) l m2 m1) (rat mid l m1)) l)|]. apply sumc_ext. intros j Hj. rewrite (D_ok 0 (- theta) (- phi) l m2 j) by (try apply degree_le; auto; lia). reflexivity. }
  assert (Hm : realq mid) by (intros l Hl; apply (apply_full _ _ _ l q mid (Hq l Hl) (W1 l Hl))).
  split; [intros l Hl; apply (apply_full _ _ _ l mid res (Hm l Hl) (W2 l Hl))|]. intros l Hl u v.
  assert (F1 := proj2 (apply_full _ _ _ l q mid (Hq l Hl) (W1 l Hl))). assert (F2 := proj2 (apply_full _ _ _ l mid res (Hm l Hl) (W2 l Hl))).
  rewrite (action _ _ _ _ _ _ F2 u v). cbv zeta. rewrite (action _ _ _ _ _ _ F1). cbv zeta.
  replace (- (0 / 2)) with 0 by field. replace (0 / 2) with 0 by field. rewrite cis_0. replace (- theta / 2) with (- (theta / 2)) by field. rewrite cos_neg, sin_neg, Ropp_involutive. replace (- (- phi / 2)) with (phi / 2) by field. replace (- phi / 2) with (- (phi / 2)) by field.
  set (p := cis (phi / 2)). set (b := cis (- (phi / 2))). assert (PB : Cmul p b = C1) by apply cis_inv. set (I := (0, 1) : R * R).
  replace (cis (- ((phi + PI) / 2))) with (Cmul (Copp I) b).
  2: { unfold b, I. replace (- ((phi + PI) / 2)) with (- (PI / 2) + - (phi / 2)) by field. rewrite <- cis_add, <- (cis_conj (PI / 2)), cis_PI2. f_equal. cring. }
  replace (cis ((phi + PI) / 2)) with (Cmul I p).
  2: { unfold p, I. replace ((phi + PI) / 2) with (PI / 2 + phi / 2) by field. rewrite <- cis_add, cis_PI2. auto. }
  set (c := cos (theta / 2)). set (s := sin (theta / 2)).
  assert (CT : cos theta = c * c - s * s) by (unfold c, s; rewrite <- cos_2a; f_equal; field). assert (ST : sin theta = 2 * s * c) by (unfold c, s; rewrite <- sin_2a; f_equal; field).
  transitivity (pol q l (Cmul (Copp I) (tu (- sin theta) 0 (cos theta) u v)) (Cmul (Copp I) (tv (- sin theta) 0 (cos theta) u v))).
  - f_equal.
    + unfold tu. replace ((- sin theta, - 0) : R * R) with (rc (- (2 * s * c))) by (unfold rc; rewrite ST, Ropp_0; auto). rewrite CT. rewrite !rc_opp, !rc_sub, !rc_mul.
      transitivity (Cmul (Cmul (Copp I) (Cmul p b)) (Cadd (Cmul (Csub (Cmul (rc c) (rc c)) (Cmul (rc s) (rc s))) u) (Cmul (Copp (Cmul (Cmul (rc 2) (rc s)) (rc c))) v))); [replace (rc 2) with (Cadd C1 C1) by cring; ring|rewrite PB; ring].
    + unfold tv. replace ((- sin theta, 0) : R * R) with (rc (- (2 * s * c))) by (unfold rc; rewrite ST; auto). rewrite CT. rewrite !rc_opp, !rc_sub, !rc_mul.
      transitivity (Cmul (Cmul (Copp I) (Cmul p b)) (Csub (Cmul (Copp (Cmul (Cmul (rc 2) (rc s)) (rc c))) u) (Cmul (Csub (Cmul (rc c) (rc c)) (Cmul (rc s) (rc s))) v))); [replace (rc 2) with (Cadd C1 C1) by cring; ring|rewrite PB; ring].
  - unfold pol. rewrite poly_scal, unit_pow; [ring| |apply degree_even; auto]. unfold I. cring.
Qed.
Theorem C135_reflect x y z q : (x, y, z) <> null_vec -> length q = 36%nat -> realq q -> reflect_by (x, y, z) q = rotate_around (- sqrt (x * x + y * y), 0, Rabs z) q.
Proof.
  intros N Lq Hq. set (s := sqrt (x * x + y * y)). assert (S2 : s * s = x * x + y * y) by (apply sqrt_sqrt; nra). assert (S0 : 0 <= s) by apply sqrt_pos. assert (ZZ : Rabs z * Rabs z = z * z) by (rewrite <- Rabs_mult; apply Rabs_pos_eq; nra).
  assert (EN : norm3 (- s, 0, Rabs z) = norm3 (x, y, z)) by (unfold norm3; f_equal; rewrite ZZ; lra). assert (P := norm3_pos _ N).
  assert (N' : (- s, 0, Rabs z) <> null_vec). { intros E. rewrite E in EN. assert (X0 : norm3 null_vec = 0) by (unfold null_vec, norm3; replace (0 * 0 + 0 * 0 + 0 * 0) with 0 by ring; apply sqrt_0). lra. }
  destruct (rotate_around_ok _ _ _ q N' Lq Hq) as [a [Ea [La [_ Ta]]]]. rewrite Ea. rewrite EN in Ta. cbv zeta in Ta.
  assert (X : exists x' y', upward (x, y, z) = (x', y', Rabs z) /\ x' * x' + y' * y' = x * x + y * y).
  { rewrite upward_ok. destruct (Rlt_dec z 0); [exists (- x), (- y); rewrite Rabs_left by auto|exists x, y; rewrite Rabs_pos_eq by lra]; split; auto; ring. }
  destruct X as [x' [y' [EU XY]]]. unfold reflect_by. rewrite EU. assert (EN' : norm3 (x', y', Rabs z) = norm3 (x, y, z)) by (unfold norm3; f_equal; rewrite ZZ; lra).
  assert (NU : (x', y', Rabs z) <> null_vec). { intros E. rewrite E in EN'. assert (X0 : norm3 null_vec = 0) by (unfold null_vec, norm3; replace (0 * 0 + 0 * 0 + 0 * 0) with 0 by ring; apply sqrt_0). lra. }
  destruct (spherical (x', y', Rabs z)) as [[r th] phi] eqn:E. destruct (spherical_ok _ _ _ _ _ _ NU E) as [Er [Ht [_ [Ex [Ey [Ez _]]]]]]. specialize (Ez (or_introl (Rabs_pos z))). rewrite EN' in Er. subst r. set (n := norm3 (x, y, z)) in *.
  assert (ST : n * sin th = s). { assert (0 <= sin th) by (apply sin_ge_0; lra). apply Rsqr_inj; [nra|auto|]. unfold Rsqr. rewrite S2, <- XY, <- Ex, <- Ey. assert (K := sin2_cos2 phi). unfold Rsqr in K. transitivity (n * sin th * (n * sin th) * (sin phi * sin phi + cos phi * cos phi)); [rewrite K; ring|ring]. }
  destruct (reflect_turns th phi q Lq Hq) as [b [Eb [Lb [_ Tb]]]]. rewrite Eb. f_equal. apply (turns_det (- sin th) 0 (cos th) q); auto.
  replace (- sin th) with (- s / n) by (rewrite <- ST; field; lra). replace (cos th) with (Rabs z / n) by (rewrite <- Ez; field; lra). replace 0 with (0 / n) at 1 by (field; lra). auto.
Qed.
(** So it is not the half-turn around the normal that its comment announces: a bond at 45 degrees of the y axis, reflected by the plane normal to y, stays where it is. *)
Theorem C135_reflect_refuted : let normal := (0, 1, 0) in let v := (0, 1, 1) in
  reflect_by normal (of_bond harmonic v) = Val (of_bond harmonic v) /\ rotate_around normal (of_bond harmonic v) = Val (of_bond harmonic (0, 1, -1)) /\ of_bond harmonic v <> of_bond harmonic (0, 1, -1).
Proof.
  cbv zeta. assert (Nn : (0, 1, 0) <> null_vec) by (intros E; injection E; lra). assert (Nv : (0, 1, 1) <> null_vec) by (intros E; injection E; lra). assert (Nw : (0, 1, -1) <> null_vec) by (intros E; injection E; lra). assert (Nx : (-1, 0, 0) <> null_vec) by (intros E; injection E; lra).
  split; [|split].
  - rewrite C135_reflect by (auto using bond_length, real_bond). replace (0 * 0 + 1 * 1) with 1 by ring. rewrite sqrt_1, Rabs_R0. rewrite C135_bond by auto. f_equal. rewrite <- (C135_direction (-1) (0, 1, 1)) by (auto; lra). f_equal. unfold turned, dot, scaled, minus. f_equal; [f_equal|]; field.
  - rewrite C135_bond by auto. do 2 f_equal. unfold turned, dot, scaled, minus. f_equal; [f_equal|]; field.
  - intros E. assert (D : degree 2) by (split; [exists 1%nat; auto|lia]). assert (P := bond_pol _ _ _ 2 Nv D C1 C1). assert (Q := bond_pol _ _ _ 2 Nw D C1 C1). cbv zeta in P, Q. rewrite E in P. rewrite P in Q. clear P E.
    assert (N2 : norm3 (0, 1, 1) = sqrt 2) by (unfold norm3; f_equal; ring). assert (N3 : norm3 (0, 1, -1) = sqrt 2) by (unfold norm3; f_equal; ring). rewrite N2, N3 in Q. assert (R2 : sqrt 2 * sqrt 2 = 2) by (apply sqrt_sqrt; lra). assert (R0 : 0 < sqrt 2) by (apply sqrt_lt_R0; lra). set (r := sqrt 2) in *.
    assert (K : 0 < norm_l 2). { unfold norm_l. apply Rdiv_lt_0_compat; [|apply fact_pos]. apply sqrt_lt_R0. assert (Pi := PI_RGT_0). apply Rdiv_lt_0_compat; [cbn [INR]; lra|lra]. }
    rewrite !cpow_S, !cpow_0 in Q. unfold form, Csub, Cadd, Cmul, Copp, C1, rc, cadd, cmul, copp in Q. cbn [fst snd] in Q. apply (f_equal snd) in Q. cbn [snd] in Q.
    assert (IR : 1 / r * (1 / r) = 1 / 2) by (rewrite <- R2; field; lra). replace (-1 / r) with (- (1 / r)) in Q by (field; lra). replace (0 / r) with 0 in Q by (field; lra). set (t := 1 / r) in *. ring_simplify in Q. nra.
Qed.
(** The functions of the specification are the successive derivatives of (x^2-1)^l. *)
Lemma lim_sum (f : nat -> R -> R) (g : nat -> R) x : (forall k, derivable_pt_lim (f k) x (g k)) -> forall n, derivable_pt_lim (fun y => sum_f_R0 (fun k => f k y) n) x (sum_f_R0 g n).
Proof. intros H. induction n as [|n IH]; cbn [sum_f_R0]; [apply H|]. apply (derivable_pt_lim_plus (fun y => sum_f_R0 (fun k => f k y) n) (f (S n))); auto. Qed.
Lemma lim_term a n k x : derivable_pt_lim (fun y => if (n <=? k)%nat then a * (rfact k / rfact (k - n)) * y ^ (k - n) else 0) x (if (S n <=? k)%nat then a * (rfact k / rfact (k - S n)) * x ^ (k - S n) else 0).
Proof.
  destruct (Nat.leb_spec n k) as [H|H].
  - replace (if (S n <=? k)%nat then a * (rfact k / rfact (k - S n)) * x ^ (k - S n) else 0) with (a * (rfact k / rfact (k - n)) * (INR (k - n) * x ^ pred (k - n))).
    + apply (derivable_pt_lim_scal (fun y => y ^ (k - n))). apply derivable_pt_lim_pow.
    + destruct (Nat.leb_spec (S n) k) as [H'|H'].
      * replace (k - n)%nat with (S (k - S n)) by lia. cbn [pred]. unfold rfact. rewrite fact_simpl, mult_INR. assert (P := fact_pos (k - S n)). assert (Q : INR (S (k - S n)) <> 0) by (apply not_0_INR; lia). field. split; lra.
      * replace (k - n)%nat with O by lia. cbn [INR]. ring.
  - rewrite (proj2 (Nat.leb_gt (S n) k)) by lia. apply derivable_pt_lim_const.
Qed.
Theorem C135_rodrigues l : (forall x, legendre_derivative l 0 x = (x * x - 1) ^ l) /\ forall n x, derivable_pt_lim (legendre_derivative l n) x (legendre_derivative l (S n) x).
Proof.
  split.
  - intros x. apply rc_inj. assert (T := taylor l x 0). rewrite Rminus_0_r in T. rewrite T. rewrite Ropp_0. rewrite (sumc_one _ (S (2 * l)) 0); [|lia|].
    + rewrite cpow_0. unfold rfact. cbn [fact INR]. replace (legendre_derivative l 0 x / 1) with (legendre_derivative l 0 x) by field. ring.
    + intros i _ Hi. destruct i as [|i]; [congruence|]. rewrite cpow_S. change (rc 0) with C0. ring.
  - intros n x. unfold legendre_derivative. apply lim_sum. intros k. apply (lim_term ((-1) ^ (l - k) * Binomial.C l k)).
Qed.
(** Two bonds, an axis that is on no axis of coordinates. *)
Example C135_case : let axis := (1, 2, 2) in let vs := [(3, 0, 0); (0, 0, -9)] in
  axis <> null_vec /\ Forall (fun v => v <> null_vec) vs /\ length (of_bonds vs) = 36%nat /\ realq (of_bonds vs) /\ map (turned axis) vs = [(2 / 3 - 3, 4 / 3, 4 / 3); (-4, -8, 1)] /\
  rotate_around axis (of_bonds vs) = Val (of_bonds [(2 / 3 - 3, 4 / 3, 4 / 3); (-4, -8, 1)]).
Proof.
  cbv zeta. assert (Na : (1, 2, 2) <> null_vec) by (intros E; injection E; lra). assert (F : Forall (fun v => v <> null_vec) [(3, 0, 0); (0, 0, -9)]) by (repeat constructor; intros E; injection E; lra).
  assert (M : map (turned (1, 2, 2)) [(3, 0, 0); (0, 0, -9)] = [(2 / 3 - 3, 4 / 3, 4 / 3); (-4, -8, 1)]). { assert (T1 : turned (1, 2, 2) (3, 0, 0) = (2 / 3 - 3, 4 / 3, 4 / 3)) by (unfold turned, dot, scaled, minus; f_equal; [f_equal|]; field).
    assert (T2 : turned (1, 2, 2) (0, 0, -9) = (-4, -8, 1)) by (unfold turned, dot, scaled, minus; f_equal; [f_equal|]; field). cbn [map]. rewrite T1, T2. reflexivity. }
  split; auto. split; auto. split; [apply bonds_ok|]. split; [apply bonds_ok|]. split; auto. rewrite <- M. apply C135_bonds; auto.
Qed.

Print Assumptions C135_spherical.
Print Assumptions C135_colatitude_refuted.
Print Assumptions C135_bond.
Print Assumptions C135_bonds.
Print Assumptions C135_direction.
Print Assumptions C135_axis.
Print Assumptions C135_twice.
Print Assumptions C135_vertical.
Print Assumptions C135_products.
Print Assumptions C135_reflect.
Print Assumptions C135_reflect_refuted.
Print Assumptions C135_rodrigues.
Print Assumptions C135_case.

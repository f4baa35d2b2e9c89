(** The half-turn around an axis, on the polynomials of the coefficients. *)
Require Import Reals ZArith List Bool Arith Lia Lra Ring.
Require Import Verif.Base Verif.Traj_Model Verif.Particles_Model Verif.Boo_Model Verif.Boo_Spec Verif.Boo_Proofs Verif.Boo_Props Verif.Wigner_Proofs Verif.Wigner_Model Verif.Wigner_Spec Verif.Wigner_Props Verif.Euler_Model Verif.Euler_Spec Verif.Euler_Cplx Verif.Euler_Proofs Verif.Euler_Geom.
Import ListNotations.
Local Open Scope R_scope.
Local Open Scope C_scope.

Definition realq (q : list C) : Prop := forall l, degree l -> real0 q l.
(** A list of 36 coefficients is known by the coefficients of each degree. *)
Lemma lists_eq (a b : list C) : length a = 36%nat -> length b = 36%nat -> (forall l m, degree l -> (m <= l)%nat -> ratm a l m = ratm b l m) -> a = b.
Proof.
  intros La Lb H. apply nth_ext with (d := c0 R 0%R) (d' := c0 R 0%R); [lia|]. intros i Hi. rewrite La in Hi.
  assert (X : exists l m, degree l /\ (m <= l)%nat /\ (m + l * l / 4)%nat = i).
  { assert (T : forallb (fun i => existsb (fun p => Nat.eqb (lm_index p) i) lms) (seq 0 36) = true) by (vm_compute; reflexivity). rewrite forallb_forall in T. specialize (T i ltac:(apply in_seq; lia)). apply existsb_exists in T. destruct T as [[l m] [Hp Ei]]. apply Nat.eqb_eq in Ei. unfold lms in Hp. apply in_flat_map in Hp. destruct Hp as [l' [Hl' Hp]]. apply in_map_iff in Hp. destruct Hp as [m' [Ep Hm']]. injection Ep as -> ->. apply in_seq in Hm'. exists l, m. split; [apply degree_of_in; auto|]. split; [lia|auto]. }
  destruct X as [l [m [Hl [Hm <-]]]]. exact (H l m Hl Hm).
Qed.
Lemma pol_same a b l : (forall u v, pol a l u v = pol b l u v) -> forall j, (j <= 2 * l)%nat -> full a l j = full b l j.
Proof. intros H j Hj. rewrite !full_xs. f_equal. apply (poly_same (xs a l) (xs b l) (2 * l)); auto. Qed.
Lemma boo_same a b : length a = 36%nat -> length b = 36%nat -> (forall l, degree l -> forall u v, pol a l u v = pol b l u v) -> a = b.
Proof. intros La Lb H. apply lists_eq; auto. intros l m Hl Hm. rewrite <- !full_up. apply pol_same; auto. lia. Qed.
Lemma degree_even l : degree l -> Nat.even l = true.
Proof. intros [[k ->] _]. rewrite Nat.even_mul. auto. Qed.
Lemma degree_le l : degree l -> (l <= 10)%nat. Proof. intros [_ H]. auto. Qed.
Lemma unit_pow a l : a * a = - C1 -> Nat.even l = true -> a ^ (2 * l) = C1.
Proof. intros E H. replace (2 * l)%nat with (l + l)%nat by lia. rewrite cpow_add, <- cpow_mul, E, sgn_pow. apply sgn_even. auto. Qed.
Lemma poly_minus x n u v : Nat.even n = true -> poly x n (- u) (- v) = poly x n u v.
Proof. intros H. replace (- u) with ((- C1) * u) by ring. replace (- v) with ((- C1) * v) by ring. rewrite poly_scal, sgn_pow, sgn_even by auto. ring. Qed.
Lemma pol_minus q l u v : pol q l (- u) (- v) = pol q l u v.
Proof. apply poly_minus. rewrite Nat.even_mul. auto. Qed.

(** A rotation from its Euler angles *)
Lemma rotate_ok a b g q : length q = 36%nat -> realq q ->
  exists res, rotate_by_Pi R 0%R 1%R Rplus Rmult Rminus Rdiv Ropp sqrt rfact (euler a b g) q = Val res /\ length res = 36%nat /\ realq res /\
    forall l, degree l -> forall j2, (j2 <= 2 * l)%nat -> full res l j2 = sumc (fun j => rotD a b g l j2 j * full q l j) (S (2 * l)).
Proof.
  intros Lq Hq. destruct (C75_rotate R 0%R 1%R Rplus Rmult Rminus Rdiv Ropp sqrt rfact (euler a b g) q (sized_euler a b g) Lq) as [res [E [L V]]]. exists res. split; auto. split; auto.
  assert (W : forall l, degree l -> forall m2, (m2 <= l)%nat -> ratm res l m2 = sumc (fun j => rotD a b g l (l + m2) j * full q l j) (S (2 * l))).
  { intros l Hl m2 H2. etransitivity; [apply (V l m2 Hl H2)|]. etransitivity; [apply (zrange_sum (fun m1 => Cmul (rD (euler a b g) l m2 m1) (rat q l m1)) l)|]. apply sumc_ext. intros j Hj. rewrite (D_ok a b g l m2 j) by (try apply degree_le; auto; lia). reflexivity. }
  split; intros l Hl; apply (apply_full a b g l q res (Hq l Hl) (W l Hl)).
Qed.
(** The change of variables of a half-turn around the unit vector (x,y,z) *)
Definition tu (x y z : R) (u v : C) : C := rc z * u + ((x, - y)%R : C) * v.
Definition tv (x y z : R) (u v : C) : C := ((x, y) : C) * u - rc z * v.
Definition turns (x y z : R) (q res : list C) : Prop := forall l, degree l -> forall u v, pol res l u v = pol q l (tu x y z u v) (tv x y z u v).
Lemma cis_parts th ph : rc (sin th) * cis ph = (sin th * cos ph, sin th * sin ph)%R.
Proof. unfold cis. cring. Qed.
Lemma cis_PI2 : cis (PI / 2) = (0, 1)%R. Proof. unfold cis. rewrite cos_PI2, sin_PI2. auto. Qed.
Lemma half_turn theta phi q res : (forall l, degree l -> forall j2, (j2 <= 2 * l)%nat -> full res l j2 = sumc (fun j => rotD (PI - phi) (-2 * theta) phi l j2 j * full q l j) (S (2 * l))) ->
  turns (sin theta * cos phi) (sin theta * sin phi) (cos theta) q res.
Proof.
  intros H l Hl u v. rewrite (action _ _ _ _ _ _ (H l Hl) u v). cbv zeta.
  replace (-2 * theta / 2)%R with (- theta)%R by field. rewrite cos_neg, sin_neg, Ropp_involutive.
  set (p := cis (phi / 2)). set (b := cis (- (phi / 2))). assert (PB : p * b = C1) by apply cis_inv. set (I := (0, 1)%R : C).
  replace (cis (- ((PI - phi) / 2))) with (- I * p).
  2: { unfold p, I. rewrite <- cis_PI2. replace (- ((PI - phi) / 2))%R with (- (PI / 2) + phi / 2)%R by field. rewrite <- cis_add, <- cis_conj, cis_PI2. cring. }
  replace (cis ((PI - phi) / 2)) with (I * b).
  2: { unfold b, I. rewrite <- cis_PI2. replace ((PI - phi) / 2)%R with (PI / 2 + - (phi / 2))%R by field. rewrite <- cis_add. auto. }
  assert (P2 : p * p = cis phi) by apply cis_half. assert (B2 : b * b = cis (- phi)) by apply cis_nhalf.
  transitivity (pol q l (- I * tu (sin theta * cos phi) (sin theta * sin phi) (cos theta) u v) (- I * tv (sin theta * cos phi) (sin theta * sin phi) (cos theta) u v)).
  - f_equal.
    + unfold tu. replace ((sin theta * cos phi, - (sin theta * sin phi))%R : C) with (rc (sin theta) * (b * b)) by (rewrite B2, cis_parts, cos_neg, sin_neg; apply pair_eq; ring).
      rewrite rc_opp. transitivity (- I * (rc (cos theta) * (p * b) * u + rc (sin theta) * (b * b) * v)); [ring|rewrite PB; ring].
    + unfold tv. rewrite <- cis_parts, <- P2. transitivity (- I * (rc (sin theta) * (p * p) * u - rc (cos theta) * (p * b) * v)); [ring|rewrite PB; ring].
  - unfold pol. rewrite poly_scal, unit_pow; [ring| |apply degree_even; auto]. unfold I. cring.
Qed.
Lemma turns_minus x y z q res : turns (- x) (- y) (- z) q res -> turns x y z q res.
Proof.
  intros H l Hl u v. rewrite (H l Hl). rewrite <- pol_minus. f_equal; unfold tu, tv; cring.
Qed.
Lemma turns_det x y z q a b : length a = 36%nat -> length b = 36%nat -> turns x y z q a -> turns x y z q b -> a = b.
Proof. intros La Lb Ha Hb. apply boo_same; auto. intros l Hl u v. rewrite (Ha l Hl), (Hb l Hl). auto. Qed.
(** The half-turn around an axis *)
Lemma upward_ok x y z : upward (x, y, z) = (if Rlt_dec z 0 then (- x, - y, - z) else (x, y, z))%R.
Proof. unfold upward. destruct (Rlt_dec z 0); repeat f_equal; ring. Qed.
Lemma norm3_opp x y z : norm3 (- x, - y, - z)%R = norm3 (x, y, z). Proof. unfold norm3. f_equal. ring. Qed.
Lemma rotate_around_ok x y z q : (x, y, z) <> null_vec -> length q = 36%nat -> realq q ->
  exists res, rotate_around (x, y, z) q = Val res /\ length res = 36%nat /\ realq res /\ let n := norm3 (x, y, z) in turns (x / n) (y / n) (z / n) q res.
Proof.
  intros N Lq Hq. unfold rotate_around. rewrite upward_ok.
  assert (G : forall x y z, (x, y, z) <> null_vec -> (0 <= z)%R -> exists res, (let '(_, theta, phi) := spherical (x, y, z) in rotate_by_Pi R 0%R 1%R Rplus Rmult Rminus Rdiv Ropp sqrt rfact (euler (PI - phi) (-2 * theta) phi) q) = Val res /\ length res = 36%nat /\ realq res /\ let n := norm3 (x, y, z) in turns (x / n) (y / n) (z / n) q res).
  { clear x y z N. intros x y z N Hz. destruct (spherical (x, y, z)) as [[r th] ph] eqn:E. destruct (spherical_ok _ _ _ _ _ _ N E) as [-> [_ [_ [Ex [Ey [Ez _]]]]]]. specialize (Ez (or_introl Hz)). assert (P := norm3_pos _ N).
    destruct (rotate_ok (PI - ph) (-2 * th) ph q Lq Hq) as [res [Er [Lr [Rr Vr]]]]. exists res. split; auto. split; auto. split; auto. cbv zeta. apply half_turn in Vr.
    set (n := norm3 (x, y, z)) in *. replace (x / n)%R with (sin th * cos ph)%R by (rewrite <- Ex; field; lra). replace (y / n)%R with (sin th * sin ph)%R by (rewrite <- Ey; field; lra). replace (z / n)%R with (cos th) by (rewrite <- Ez; field; lra). auto. }
  destruct (Rlt_dec z 0) as [L|L].
  - destruct (G (- x)%R (- y)%R (- z)%R) as [res [E [Lr [Rr T]]]]; [|lra|].
    { intros E. apply N. unfold null_vec in *. injection E as E1 E2 E3. replace x with 0%R by lra. replace y with 0%R by lra. replace z with 0%R by lra. auto. }
    exists res. split; auto. split; auto. split; auto. cbv zeta in *. rewrite norm3_opp in T. apply turns_minus. replace (- (x / norm3 (x, y, z)))%R with (- x / norm3 (x, y, z))%R by (unfold Rdiv; ring). replace (- (y / norm3 (x, y, z)))%R with (- y / norm3 (x, y, z))%R by (unfold Rdiv; ring). replace (- (z / norm3 (x, y, z)))%R with (- z / norm3 (x, y, z))%R by (unfold Rdiv; ring). auto.
  - apply G; auto. lra.
Qed.
(** A half-turn twice *)
Lemma unit_sq x y z : (x, y, z) <> null_vec -> let n := norm3 (x, y, z) in (x / n * (x / n) + y / n * (y / n) + z / n * (z / n) = 1)%R.
Proof. intros N n. assert (P := norm3_pos _ N). fold n in P. assert (Q := norm3_sq x y z). fold n in Q. transitivity ((x * x + y * y + z * z) / (n * n))%R; [field; lra|]. rewrite <- Q. field. lra. Qed.
Lemma turns_twice x y z q a b : (x * x + y * y + z * z = 1)%R -> turns x y z q a -> turns x y z a b -> forall l, degree l -> forall u v, pol b l u v = pol q l u v.
Proof.
  intros U Ha Hb l Hl u v. rewrite (Hb l Hl), (Ha l Hl).
  assert (K : rc z * rc z + ((x, - y)%R : C) * (x, y) = C1). { unfold rc, Cadd, Cmul, cadd, cmul, C1. cbn [fst snd]. apply pair_eq; [|ring]. rewrite <- U. ring. }
  f_equal; unfold tu, tv.
  - transitivity ((rc z * rc z + ((x, - y)%R : C) * (x, y)) * u); [ring|rewrite K; ring].
  - transitivity ((rc z * rc z + ((x, - y)%R : C) * (x, y)) * v); [ring|rewrite K; ring].
Qed.

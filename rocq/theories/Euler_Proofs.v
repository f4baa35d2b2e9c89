(** Rotations act on the coefficients of one degree as a linear change of variables acts on a homogeneous polynomial in two variables. *)
Require Import Reals ZArith List Bool Arith Lia Lra Ring.
Require Import Verif.Base Verif.Traj_Model Verif.Particles_Model Verif.Boo_Model Verif.Boo_Spec Verif.Wigner_Model Verif.Wigner_Spec Verif.Wigner_Props Verif.Euler_Model Verif.Euler_Cplx.
Import ListNotations.
Local Open Scope R_scope.
Local Open Scope C_scope.

Notation rd := (wigner_d R 0%R 1%R Rplus Rmult Rdiv Ropp sqrt rfact).
Notation rD := (wigner_D R 0%R 1%R Rplus Rmult Rminus Rdiv Ropp sqrt rfact).
Notation rat := (at_z R 0%R Ropp).
Notation ratm := (at_m R 0%R).

(** Sums of lists as sums of functions *)
Lemma csum_app (l : list C) x : csum R 0%R Rplus (l ++ [x]) = csum R 0%R Rplus l + x.
Proof. unfold csum. rewrite fold_left_app. reflexivity. Qed.
Lemma csum_seq (f : nat -> C) : forall n, csum R 0%R Rplus (map f (seq 0 n)) = sumc f n.
Proof. induction n as [|n IH]; [reflexivity|]. rewrite seq_S, map_app. etransitivity; [apply (csum_app (map f (seq 0 n)) (f n))|]. cbn [sumc]. rewrite <- IH. reflexivity. Qed.
Lemma ksum_app (l : list R) x : ksum R 0%R Rplus (l ++ [x]) = (ksum R 0%R Rplus l + x)%R.
Proof. unfold ksum. rewrite fold_left_app. reflexivity. Qed.
Lemma filter_app_last {A} (p : A -> bool) l x : filter p (l ++ [x]) = filter p l ++ (if p x then [x] else []).
Proof. rewrite filter_app. cbn [filter]. auto. Qed.
Lemma ksum_filter (f : Z -> R) (p : Z -> bool) : forall n, rc (ksum R 0%R Rplus (map f (filter p (map Z.of_nat (seq 0 n))))) = sumc (fun k => if p (Z.of_nat k) then rc (f (Z.of_nat k)) else C0) n.
Proof.
  induction n as [|n IH]; [reflexivity|]. rewrite seq_S, map_app. cbn [map Nat.add]. rewrite filter_app_last, map_app. cbn [sumc]. rewrite <- IH.
  destruct (p (Z.of_nat n)); [cbn [map]; rewrite ksum_app, rc_add; auto|]. cbn [map]. rewrite app_nil_r. ring.
Qed.
Definition wt (n j : nat) : R := sqrt (INR (fact j) * INR (fact (n - j))).
Lemma wt_pos n j : (0 < wt n j)%R.
Proof. unfold wt. apply sqrt_lt_R0. apply Rmult_lt_0_compat; apply fact_pos. Qed.

(** Wigner's formula: the coefficients of (c u + s v)^(l+m1) (c v - s u)^(l-m1). *)
Lemma neg_pow s : forall n, ((- s) ^ n = (if Nat.even n then 1 else -1) * s ^ n)%R.
Proof.
  induction n as [|n IH]; [cbn; lra|]. cbn [pow]. rewrite IH, Nat.even_succ, <- Nat.negb_even. destruct (Nat.even n); cbn [negb]; ring.
Qed.
Lemma d_mixed c s cp sp l m2 m1 : (forall n, (n <= 2 * l)%nat -> cp n = (c ^ n)%R) -> (forall n, (n <= 2 * l)%nat -> sp n = (s ^ n)%R) -> (Z.abs m2 <= Z.of_nat l)%Z -> (Z.abs m1 <= Z.of_nat l)%Z ->
  let j2 := Z.to_nat (Z.of_nat l + m2) in let j1 := Z.to_nat (Z.of_nat l + m1) in
  rc (rd cp sp (Z.of_nat l) m2 m1) = rc (wt (2 * l) j2 / wt (2 * l) j1) * mixed c s j1 (2 * l - j1) j2.
Proof.
  intros Hcp Hsp H2 H1 j2 j1. unfold wigner_d. rewrite rc_mul, ksum_filter.
  assert (J2 : Z.of_nat j2 = (Z.of_nat l + m2)%Z) by (unfold j2; lia). assert (J1 : Z.of_nat j1 = (Z.of_nat l + m1)%Z) by (unfold j1; lia).
  replace (Z.to_nat (2 * Z.of_nat l)) with (2 * l)%nat by lia. replace (Z.to_nat (Z.of_nat l + m2)) with j2 by auto. replace (Z.to_nat (Z.of_nat l - m2)) with (2 * l - j2)%nat by lia.
  assert (EQ : sqrt (rfact j2 * rfact (2 * l - j2) * rfact (Z.to_nat (Z.of_nat l + Z.abs m1)) * rfact (Z.to_nat (Z.of_nat l - Z.abs m1))) = (wt (2 * l) j2 * wt (2 * l) j1)%R).
  { unfold wt, rfact. rewrite <- sqrt_mult by (apply Rmult_le_pos; left; apply fact_pos). f_equal. destruct (Z.abs_spec m1) as [[_ ->]|[_ ->]].
    - replace (Z.to_nat (Z.of_nat l + m1)) with j1 by lia. replace (Z.to_nat (Z.of_nat l - m1)) with (2 * l - j1)%nat by lia. ring.
    - replace (Z.to_nat (Z.of_nat l + - m1)) with (2 * l - j1)%nat by lia. replace (Z.to_nat (Z.of_nat l - - m1)) with j1 by lia. ring. }
  rewrite EQ. assert (W1 := wt_pos (2 * l) j1). assert (W2 := wt_pos (2 * l) j2).
  assert (S1 : (wt (2 * l) j1 * wt (2 * l) j1 = INR (fact j1) * INR (fact (2 * l - j1)))%R) by (unfold wt; apply sqrt_sqrt, Rmult_le_pos; left; apply fact_pos).
  rewrite sumc_scal_r || rewrite <- sumc_scal_r. unfold mixed. rewrite <- sumc_scal.
  replace (S (2 * l)) with (S j1 + (2 * l - j1))%nat by lia. rewrite sumc_split.
  rewrite (sumc_zero _ (2 * l - j1)).
  2: { intros k Hk. cbn [d_args forallb]. rewrite (proj2 (Z.leb_gt 0 (Z.of_nat l + m1 - Z.of_nat (S j1 + k)))) by lia. cbn [andb]. ring. }
  rewrite (sumc_rev _ (S j1)).
  transitivity (sumc (fun i => rc (wt (2 * l) j2 / wt (2 * l) j1) * (if (i <=? j2)%nat && (j2 <? i + S (2 * l - j1))%nat then rc (bin j1 i * bin (2 * l - j1) (j2 - i) * c ^ i * s ^ (j1 - i) * (- s) ^ (j2 - i) * c ^ (2 * l - j1 - (j2 - i)))%R else C0)) (S j1) + C0); [|ring].
  f_equal. apply sumc_ext. intros i Hi.
  replace (S j1 - 1 - i)%nat with (j1 - i)%nat by lia.
  set (k := (j1 - i)%nat). assert (Ki : Z.of_nat k = (Z.of_nat l + m1 - Z.of_nat i)%Z) by (unfold k; lia).
  unfold d_args. cbn [forallb]. rewrite andb_true_r.
  destruct (Nat.leb_spec i j2) as [A|A]; cbn [andb].
  2: { rewrite (proj2 (Z.leb_gt 0 (m2 - m1 + Z.of_nat k))) by lia. rewrite !andb_false_r || (cbn [andb]; rewrite ?andb_false_r). ring. }
  destruct (Nat.ltb_spec j2 (i + S (2 * l - j1))) as [B|B].
  2: { rewrite (proj2 (Z.leb_gt 0 (Z.of_nat l - m2 - Z.of_nat k))) by lia. rewrite !andb_false_r. ring. }
  rewrite (proj2 (Z.leb_le 0 (Z.of_nat l + m1 - Z.of_nat k))), (proj2 (Z.leb_le 0 (Z.of_nat k))), (proj2 (Z.leb_le 0 (m2 - m1 + Z.of_nat k))), (proj2 (Z.leb_le 0 (Z.of_nat l - m2 - Z.of_nat k))) by lia. cbn [andb].
  rewrite <- !rc_mul. f_equal. unfold d_term.
  replace (Z.to_nat (Z.of_nat l + m1 - Z.of_nat k)) with i by lia. replace (Z.to_nat (Z.of_nat k)) with (j1 - i)%nat by lia. replace (Z.to_nat (m2 - m1 + Z.of_nat k)) with (j2 - i)%nat by lia. replace (Z.to_nat (Z.of_nat l - m2 - Z.of_nat k)) with (2 * l - j1 - (j2 - i))%nat by lia.
  replace (Z.to_nat (2 * Z.of_nat l + m1 - m2 - 2 * Z.of_nat k)) with (i + (2 * l - j1 - (j2 - i)))%nat by lia. replace (Z.to_nat (m2 - m1 + 2 * Z.of_nat k)) with ((j1 - i) + (j2 - i))%nat by lia.
  rewrite Hcp, Hsp by lia. rewrite !pow_add, neg_pow. replace (Z.even (m2 - m1 + Z.of_nat k)) with (Nat.even (j2 - i)).
  2: { replace (m2 - m1 + Z.of_nat k)%Z with (Z.of_nat (j2 - i)) by lia. destruct (Nat.even (j2 - i)) eqn:E.
    - apply Nat.even_spec in E as [x ->]. symmetry. apply Z.even_spec. exists (Z.of_nat x). lia.
    - assert (O : Nat.odd (j2 - i) = true) by (rewrite <- Nat.negb_even, E; auto). apply Nat.odd_spec in O as [x ->]. symmetry. rewrite <- Z.negb_odd. apply negb_false_iff. apply Z.odd_spec. exists (Z.of_nat x). lia. }
  subst k. unfold bin, rfact. assert (P1 := fact_pos i). assert (P2 := fact_pos (j1 - i)). assert (P3 := fact_pos (j2 - i)). assert (P4 := fact_pos (2 * l - j1 - (j2 - i))).
  replace (INR (fact j1) / (INR (fact i) * INR (fact (j1 - i))) * (INR (fact (2 * l - j1)) / (INR (fact (j2 - i)) * INR (fact (2 * l - j1 - (j2 - i))))))%R with (wt (2 * l) j1 * wt (2 * l) j1 / (INR (fact i) * INR (fact (j1 - i)) * (INR (fact (j2 - i)) * INR (fact (2 * l - j1 - (j2 - i))))))%R.
  2: { rewrite S1. field. repeat split; lra. }
  generalize (c ^ i)%R (c ^ (2 * l - j1 - (j2 - i)))%R (s ^ (j1 - i))%R (s ^ (j2 - i))%R. intros. destruct (Nat.even (j2 - i)); field; repeat split; lra.
Qed.

(** Phases *)
Definition cis (x : R) : C := (cos x, sin x).
Lemma cis_add x y : cis x * cis y = cis (x + y)%R.
Proof. unfold cis, Cmul, cmul. cbn [fst snd]. rewrite cos_plus, sin_plus. apply pair_eq; ring. Qed.
Lemma cis_0 : cis 0 = C1. Proof. unfold cis. rewrite cos_0, sin_0. reflexivity. Qed.
Lemma cis_inv x : cis x * cis (- x) = C1. Proof. rewrite cis_add, Rplus_opp_r. apply cis_0. Qed.
Lemma cis_conj x : Conj (cis x) = cis (- x). Proof. unfold cis, Conj, cconj. cbn [fst snd]. rewrite cos_neg, sin_neg. auto. Qed.
Lemma conj_mul x y : Conj (x * y) = Conj x * Conj y. Proof. cring. Qed.
Lemma conj_add x y : Conj (x + y) = Conj x + Conj y. Proof. cring. Qed.
Lemma conj_opp x : Conj (- x) = - Conj x. Proof. cring. Qed.
Lemma conj_conj x : Conj (Conj x) = x. Proof. cring. Qed.
Lemma conj_rc x : Conj (rc x) = rc x. Proof. cring. Qed.
Lemma conj_pow x : forall n, Conj (x ^ n) = Conj x ^ n. Proof. induction n as [|n IH]; [rewrite !cpow_0; cring|]. rewrite !cpow_S, conj_mul, IH. auto. Qed.
Lemma conj_sum f n : Conj (sumc f n) = sumc (fun i => Conj (f i)) n.
Proof. induction n as [|n IH]; [cbn [sumc]; cring|]. cbn [sumc]. rewrite conj_add, IH. auto. Qed.
(** exp(-i x (j - n/2)) *)
Definition ph (x : R) (n j : nat) : C := cis (- (x / 2)) ^ j * cis (x / 2) ^ (n - j).
Lemma cis_half x : cis (x / 2) * cis (x / 2) = cis x. Proof. rewrite cis_add. f_equal. field. Qed.
Lemma cis_nhalf x : cis (- (x / 2)) * cis (- (x / 2)) = cis (- x). Proof. rewrite cis_add. f_equal. field. Qed.
Lemma ph_up x l m : (m <= l)%nat -> ph x (2 * l) (l + m) = cis (- x) ^ m.
Proof.
  intros H. unfold ph. replace (2 * l - (l + m))%nat with (l - m)%nat by lia. replace (l + m)%nat with ((l - m) + (m + m))%nat by lia. rewrite !cpow_add, <- (cis_nhalf x), cpow_mul.
  transitivity ((cis (x / 2) * cis (- (x / 2))) ^ (l - m) * (cis (- (x / 2)) ^ m * cis (- (x / 2)) ^ m)); [rewrite cpow_mul; ring|]. rewrite cis_inv, cpow_one. ring.
Qed.
Lemma ph_down x l m : (m <= l)%nat -> ph x (2 * l) (l - m) = cis x ^ m.
Proof.
  intros H. unfold ph. replace (2 * l - (l - m))%nat with ((l - m) + (m + m))%nat by lia. rewrite !cpow_add, <- (cis_half x), cpow_mul.
  transitivity ((cis (x / 2) * cis (- (x / 2))) ^ (l - m) * (cis (x / 2) ^ m * cis (x / 2) ^ m)); [rewrite cpow_mul; ring|]. rewrite cis_inv, cpow_one. ring.
Qed.
Lemma ph_conj x n j : (j <= n)%nat -> Conj (ph x n j) = ph x n (n - j).
Proof. intros H. unfold ph. rewrite conj_mul, !conj_pow, !cis_conj, Ropp_involutive. replace (n - (n - j))%nat with j by lia. ring. Qed.

Lemma sized_euler a b g : sized R (euler a b g).
Proof. unfold sized, euler. cbn [e_a e_g c_b s_b]. rewrite !app_length, !map_length, rev_length, !seq_length. auto. Qed.
Lemma nth_map_seq {A} (f : nat -> A) d n i : (i < n)%nat -> nth i (map f (seq 0 n)) d = f i.
Proof. intros H. rewrite (nth_indep _ d (f O)) by (rewrite map_length, seq_length; auto). rewrite (map_nth f). rewrite seq_nth by auto. auto. Qed.
Lemma cinv_cis x n : cinv (cpow (cis x) n) = cis (- x) ^ n.
Proof.
  assert (E : cis x ^ n * cis (- x) ^ n = C1) by (rewrite <- cpow_mul, cis_inv, cpow_one; auto). rewrite <- cis_conj, <- conj_pow in E |- *. change (cpow (cis x) n) with (cis x ^ n). destruct (cis x ^ n) as [a b].
  unfold Conj, cconj, Cmul, cmul, C1 in E. cbn [fst snd] in E. injection E as E1 _. unfold cinv, Conj, cconj. cbn [fst snd]. replace (a * a + b * b)%R with 1%R by lra. apply pair_eq; field.
Qed.
Lemma eg_ok a b g m1 : (Z.abs m1 <= 10)%Z -> nth (Z.to_nat (10 + m1)) (e_g R (euler a b g)) (c0 R 0%R) = (if (0 <=? m1)%Z then cis (- g) ^ (Z.to_nat m1) else cis g ^ (Z.to_nat (- m1))).
Proof.
  intros H. unfold euler. cbn [e_g]. destruct (Z.leb_spec 0 m1).
  - rewrite app_nth2 by (rewrite map_length, rev_length, seq_length; lia). rewrite map_length, rev_length, seq_length. rewrite nth_map_seq by lia. replace (Z.to_nat (10 + m1) - 10)%nat with (Z.to_nat m1) by lia. reflexivity.
  - rewrite app_nth1 by (rewrite map_length, rev_length, seq_length; lia). rewrite (nth_indep _ _ (cinv (cpow (cos (- g), sin (- g)) 0))) by (rewrite map_length, rev_length, seq_length; lia).
    rewrite (map_nth (fun m => cinv (cpow (cos (- g), sin (- g)) m))). rewrite rev_nth by (rewrite seq_length; lia). rewrite seq_length, seq_nth by lia. replace (1 + (10 - S (Z.to_nat (10 + m1))))%nat with (Z.to_nat (- m1)) by lia.
    change (cos (- g), sin (- g)) with (cis (- g)). rewrite cinv_cis, Ropp_involutive. reflexivity.
Qed.
(** The matrix of a rotation between the coefficients of degree l, numbered from 0 to 2l. *)
Definition rotD (a b g : R) (l j2 j1 : nat) : C :=
  ph a (2 * l) j2 * (rc (wt (2 * l) j2 / wt (2 * l) j1) * mixed (cos (b / 2)) (sin (b / 2)) j1 (2 * l - j1) j2) * ph g (2 * l) j1.
Lemma D_ok a b g l m2 j1 : (l <= 10)%nat -> (m2 <= l)%nat -> (j1 <= 2 * l)%nat -> rD (euler a b g) l m2 (Z.of_nat j1 - Z.of_nat l) = rotD a b g l (l + m2) j1.
Proof.
  intros Hl H2 H1. unfold wigner_D. cbv zeta. rewrite eg_ok by lia.
  set (d := wigner_d _ _ _ _ _ _ _ _ _ _ _ _ _ _).
  assert (Ed : rc d = rc (wt (2 * l) (l + m2) / wt (2 * l) j1) * mixed (cos (b / 2)) (sin (b / 2)) j1 (2 * l - j1) (l + m2)).
  { unfold d. rewrite (d_mixed (cos (b / 2)) (sin (b / 2))); try lia.
    - cbv zeta. replace (Z.to_nat (Z.of_nat l + Z.of_nat m2)) with (l + m2)%nat by lia. replace (Z.to_nat (Z.of_nat l + (Z.of_nat j1 - Z.of_nat l))) with j1 by lia. auto.
    - intros n Hn. unfold euler. cbn [c_b]. apply nth_map_seq. lia.
    - intros n Hn. unfold euler. cbn [s_b]. apply nth_map_seq. lia. }
  unfold rotD. rewrite <- Ed, ph_up by auto. unfold euler at 1. cbn [e_a]. rewrite nth_map_seq by lia. change (cos (- a), sin (- a)) with (cis (- a)).
  replace (cscal R Rmult d (cpow (cis (- a)) m2)) with (cis (- a) ^ m2 * rc d) by (change (cpow (cis (- a)) m2) with (cis (- a) ^ m2); destruct (cis (- a) ^ m2) as [x y]; unfold cscal, Cmul, cmul, rc; cbn [fst snd]; apply pair_eq; ring).
  change (cmul R Rplus Rmult Rminus) with Cmul. f_equal. destruct (Z.leb_spec 0 (Z.of_nat j1 - Z.of_nat l)).
  - replace (Z.to_nat (Z.of_nat j1 - Z.of_nat l)) with (j1 - l)%nat by lia. rewrite <- (ph_up g l (j1 - l)) by lia. f_equal. lia.
  - replace (Z.to_nat (- (Z.of_nat j1 - Z.of_nat l))) with (l - j1)%nat by lia. rewrite <- (ph_down g l (l - j1)) by lia. f_equal. lia.
Qed.
(** All the coefficients of degree l, numbered from 0 to 2l *)
Definition full (q : list C) (l j : nat) : C := rat q l (Z.of_nat j - Z.of_nat l).
Lemma full_up q l m : full q l (l + m) = ratm q l m.
Proof. unfold full. replace (Z.of_nat (l + m) - Z.of_nat l)%Z with (Z.of_nat m) by lia. unfold at_z. rewrite (proj2 (Z.leb_le 0 (Z.of_nat m))) by lia. rewrite Nat2Z.id. auto. Qed.
Lemma zrange_sum (f : Z -> C) l : csum R 0%R Rplus (map f (zrange l)) = sumc (fun j => f (Z.of_nat j - Z.of_nat l)%Z) (S (2 * l)).
Proof. unfold zrange. rewrite map_map. replace (2 * l + 1)%nat with (S (2 * l)) by lia. apply csum_seq. Qed.

(** Signs *)
Definition sgn (n : nat) : C := if Nat.even n then C1 else - C1.
Lemma sgn_S n : sgn (S n) = - sgn n.
Proof. unfold sgn. rewrite Nat.even_succ, <- Nat.negb_even. destruct (Nat.even n); cbn [negb]; ring. Qed.
Lemma sgn_add m n : sgn (m + n) = sgn m * sgn n.
Proof. unfold sgn. rewrite Nat.even_add. destruct (Nat.even m), (Nat.even n); cbn; ring. Qed.
Lemma sgn_sq n : sgn n * sgn n = C1. Proof. unfold sgn. destruct (Nat.even n); ring. Qed.
Lemma sgn_conj n : Conj (sgn n) = sgn n. Proof. unfold sgn. destruct (Nat.even n); cring. Qed.
Lemma sgn_pow n : (- C1) ^ n = sgn n. Proof. induction n as [|n IH]; [reflexivity|]. rewrite cpow_S, IH, sgn_S. ring. Qed.
Lemma sgn_double n : sgn (2 * n) = C1. Proof. replace (2 * n)%nat with (n + n)%nat by lia. rewrite sgn_add, sgn_sq. auto. Qed.
Lemma sgn_even n : Nat.even n = true -> sgn n = C1. Proof. unfold sgn. intros ->. auto. Qed.

(** The coefficient m = 0 is a real number. *)
Definition real0 (q : list C) (l : nat) : Prop := snd (ratm q l 0) = 0%R.
Lemma full_conj q l j : real0 q l -> (j <= 2 * l)%nat -> Conj (full q l j) = sgn (l + j) * full q l (2 * l - j).
Proof.
  intros H0 Hj. assert (E : sgn (l + j) = sgn (if (l <=? j)%nat then j - l else l - j)).
  { destruct (Nat.leb_spec l j); [replace (l + j)%nat with (2 * l + (j - l))%nat by lia|replace (l + j)%nat with (2 * j + (l - j))%nat by lia]; rewrite sgn_add, sgn_double; ring. }
  rewrite E. clear E. unfold full, at_z.
  destruct (Nat.eq_dec j l) as [->|N].
  { replace (2 * l - l)%nat with l by lia. rewrite Nat.leb_refl, Nat.sub_diag, Z.sub_diag. cbn [Z.leb Z.compare Z.to_nat]. unfold real0 in H0. destruct (ratm q l 0) as [a b]. cbn [snd] in H0. subst b. unfold sgn. cbn [Nat.even]. cring. }
  assert (P : forall k, ((Z.of_nat k mod 2 =? 0)%Z = Nat.even k)).
  { intros k. destruct (Nat.even k) eqn:E; [apply Nat.even_spec in E as [x ->]; apply Z.eqb_eq; rewrite Nat2Z.inj_mul, Z.mul_comm; apply Z.mod_mul; lia|].
    assert (O : Nat.odd k = true) by (rewrite <- Nat.negb_even, E; auto). apply Nat.odd_spec in O as [x ->]. apply Z.eqb_neq. replace (Z.of_nat (2 * x + 1)) with (1 + Z.of_nat x * 2)%Z by lia. rewrite Z.mod_add by lia. discriminate. }
  destruct (Nat.leb_spec l j).
  - rewrite (proj2 (Z.leb_le 0 (Z.of_nat j - Z.of_nat l))) by lia. rewrite (proj2 (Z.leb_gt 0 (Z.of_nat (2 * l - j) - Z.of_nat l))) by lia.
    replace (- (Z.of_nat (2 * l - j) - Z.of_nat l))%Z with (Z.of_nat (j - l)) by lia. replace (Z.of_nat j - Z.of_nat l)%Z with (Z.of_nat (j - l)) by lia. rewrite !Nat2Z.id, P. unfold sgn. destruct (Nat.even (j - l)); destruct (ratm q l (j - l)) as [a b]; cring.
  - rewrite (proj2 (Z.leb_gt 0 (Z.of_nat j - Z.of_nat l))) by lia. rewrite (proj2 (Z.leb_le 0 (Z.of_nat (2 * l - j) - Z.of_nat l))) by lia.
    replace (Z.of_nat (2 * l - j) - Z.of_nat l)%Z with (Z.of_nat (l - j)) by lia. replace (- (Z.of_nat j - Z.of_nat l))%Z with (Z.of_nat (l - j)) by lia. rewrite !Nat2Z.id, P. unfold sgn. destruct (Nat.even (l - j)); destruct (ratm q l (l - j)) as [a b]; cring.
Qed.

(** Homogeneous polynomials *)
Definition poly (x : nat -> C) (n : nat) (u v : C) : C := sumc (fun j => x j * (u ^ j * v ^ (n - j))) (S n).
Lemma poly_same x y n : (forall u v, poly x n u v = poly y n u v) -> forall j, (j <= n)%nat -> x j = y j.
Proof.
  intros H j Hj. apply (poly_unique (S n)); [|lia]. intros u. specialize (H (rc u) C1). unfold poly in H.
  rewrite (sumc_ext _ (fun i => x i * rc u ^ i)) in H by (intros; rewrite cpow_one; ring). rewrite H. apply sumc_ext. intros i _. rewrite cpow_one. ring.
Qed.
Lemma poly_ext x y n u v : (forall j, (j <= n)%nat -> x j = y j) -> poly x n u v = poly y n u v.
Proof. intros H. apply sumc_ext. intros j Hj. rewrite H by lia. auto. Qed.
Lemma poly_flip x n u v : poly (fun j => x (n - j)%nat) n u v = poly x n v u.
Proof.
  unfold poly. rewrite sumc_rev. apply sumc_ext. intros j Hj. replace (S n - 1 - j)%nat with (n - j)%nat by lia. replace (n - (n - j))%nat with j by lia. ring.
Qed.
Lemma poly_neg x n u v : poly x n (- u) v = poly (fun j => sgn j * x j) n u v.
Proof. apply sumc_ext. intros j _. replace (- u) with ((- C1) * u) by ring. rewrite cpow_mul, sgn_pow. ring. Qed.
Lemma poly_scal x n a u v : poly x n (a * u) (a * v) = a ^ n * poly x n u v.
Proof.
  unfold poly. rewrite <- sumc_scal. apply sumc_ext. intros j Hj. rewrite !cpow_mul. replace (a ^ n) with (a ^ (j + (n - j))) by (f_equal; lia). rewrite cpow_add. ring.
Qed.
Lemma mixed_poly c s p q u v : poly (mixed c s p q) (p + q) u v = (rc c * u + rc s * v) ^ p * (rc (- s)%R * u + rc c * v) ^ q.
Proof. symmetry. apply mixed_ok. Qed.
Lemma mixed_conj c s p q n : Conj (mixed c s p q n) = mixed c s p q n.
Proof. unfold mixed. rewrite conj_sum. apply sumc_ext. intros i _. destruct (_ && _)%bool; [apply conj_rc|cring]. Qed.
(** d(-m2,-m1) = (-1)^(m2-m1) d(m2,m1) *)
Lemma mixed_flip c s p q n : (n <= p + q)%nat -> mixed c s q p (p + q - n) = sgn (p + n) * mixed c s p q n.
Proof.
  intros H. apply (poly_same (fun n => mixed c s q p (p + q - n)) (fun n => sgn (p + n) * mixed c s p q n) (p + q)); auto. intros u v.
  rewrite (poly_flip (mixed c s q p)). replace (p + q)%nat with (q + p)%nat by lia. rewrite mixed_poly.
  rewrite (poly_ext _ (fun j => sgn j * (sgn p * mixed c s p q j))) by (intros; rewrite sgn_add; ring). rewrite <- poly_neg.
  transitivity (sgn p * poly (mixed c s p q) (p + q) (- u) v).
  2: { unfold poly. rewrite <- sumc_scal. replace (q + p)%nat with (p + q)%nat by lia. apply sumc_ext. intros. ring. }
  rewrite mixed_poly, <- sgn_pow.
  transitivity (((- C1) * (rc c * - u + rc s * v)) ^ p * (rc (- s)%R * - u + rc c * v) ^ q); [|rewrite cpow_mul; ring].
  replace (- C1 * (rc c * - u + rc s * v)) with (rc (- s)%R * v + rc c * u) by (rewrite rc_opp; ring). replace (rc (- s)%R * - u + rc c * v) with (rc c * v + rc s * u) by (rewrite rc_opp; ring). ring.
Qed.
(** d(m1,m2) = (-1)^(m2-m1) d(m2,m1) *)
Lemma mixed_swap c s n j1 j2 : (j1 <= n)%nat -> (j2 <= n)%nat ->
  rc (wt n j1 * wt n j1)%R * mixed c s j2 (n - j2) j1 = sgn (j1 + j2) * (rc (wt n j2 * wt n j2)%R * mixed c s j1 (n - j1) j2).
Proof.
  assert (W : forall j, (wt n j * wt n j = INR (fact j) * INR (fact (n - j)))%R) by (intros; unfold wt; apply sqrt_sqrt, Rmult_le_pos; left; apply fact_pos).
  assert (X : forall j1 j2, (j1 <= n)%nat -> (j2 <= n)%nat -> mixed c s j2 (n - j2) j1 = sumc (fun i => if ((i <=? j1) && (i <=? j2) && (j1 + j2 <=? n + i))%nat then rc (bin j2 i * bin (n - j2) (j1 - i) * c ^ i * s ^ (j2 - i) * (- s) ^ (j1 - i) * c ^ (n - j2 - (j1 - i)))%R else C0) (S n)).
  { intros i1 i2 H1 H2. unfold mixed. replace (S n) with (S i2 + (n - i2))%nat by lia. rewrite sumc_split. rewrite (sumc_zero _ (n - i2)).
    2: { intros i Hi. rewrite (proj2 (Nat.leb_gt (S i2 + i) i2)) by lia. rewrite andb_false_r. auto. }
    match goal with |- ?a = ?b + C0 => transitivity b; [|ring] end. apply sumc_ext. intros i Hi. rewrite (proj2 (Nat.leb_le i i2)) by lia. rewrite andb_true_r.
    replace (i1 <? i + S (n - i2))%nat with (i1 + i2 <=? n + i)%nat; auto. destruct (Nat.ltb_spec i1 (i + S (n - i2))), (Nat.leb_spec (i1 + i2) (n + i)); auto; lia. }
  intros H1 H2. rewrite !X by auto. rewrite <- !sumc_scal. apply sumc_ext. intros i Hi. replace ((i <=? j2) && (i <=? j1) && (j2 + j1 <=? n + i))%nat%bool with ((i <=? j1) && (i <=? j2) && (j1 + j2 <=? n + i))%nat%bool by (rewrite (andb_comm (i <=? j2)%nat), (Nat.add_comm j2); auto).
  destruct (Nat.leb_spec i j1); cbn [andb]; [|ring]. destruct (Nat.leb_spec i j2); cbn [andb]; [|ring]. destruct (Nat.leb_spec (j1 + j2) (n + i)); [|ring].
  rewrite !W, !neg_pow. replace (sgn (j1 + j2)) with (rc (if Nat.even (j1 + j2) then 1 else -1)%R) by (unfold sgn; destruct (Nat.even (j1 + j2)); cring).
  rewrite <- !rc_mul. f_equal. replace (Nat.even (j1 + j2)) with (Bool.eqb (Nat.even (j1 - i)) (Nat.even (j2 - i))).
  2: { rewrite <- Nat.even_add. replace (j1 + j2)%nat with ((j1 - i + (j2 - i)) + 2 * i)%nat by lia. rewrite (Nat.even_add _ (2 * i)), (Nat.even_mul 2). cbn. destruct (Nat.even _); auto. }
  replace (n - j2 - (j1 - i))%nat with (n + i - (j1 + j2))%nat by lia. replace (n - j1 - (j2 - i))%nat with (n + i - (j1 + j2))%nat by lia.
  unfold bin. replace (n - j2 - (j1 - i))%nat with (n + i - (j1 + j2))%nat by lia. replace (n - j1 - (j2 - i))%nat with (n + i - (j1 + j2))%nat by lia.
  assert (P1 := fact_pos i). assert (P2 := fact_pos (j1 - i)). assert (P3 := fact_pos (j2 - i)). assert (P4 := fact_pos (n + i - (j1 + j2))).
  generalize (c ^ i)%R (c ^ (n + i - (j1 + j2)))%R (s ^ (j1 - i))%R (s ^ (j2 - i))%R. intros. destruct (Nat.even (j1 - i)), (Nat.even (j2 - i)); cbn [Bool.eqb]; field; repeat split; lra.
Qed.

Lemma wt_flip n j : (j <= n)%nat -> wt n (n - j) = wt n j.
Proof. intros H. unfold wt. replace (n - (n - j))%nat with j by lia. f_equal. ring. Qed.
Lemma rotD_conj a b g l j2 j1 : (j1 <= 2 * l)%nat -> (j2 <= 2 * l)%nat -> Conj (rotD a b g l j2 j1) = sgn (j1 + j2) * rotD a b g l (2 * l - j2) (2 * l - j1).
Proof.
  intros H1 H2. unfold rotD. rewrite !conj_mul, !ph_conj, conj_rc, mixed_conj, !wt_flip by auto. replace (2 * l - (2 * l - j1))%nat with j1 by lia.
  assert (E := mixed_flip (cos (b / 2)) (sin (b / 2)) j1 (2 * l - j1) j2). replace (j1 + (2 * l - j1))%nat with (2 * l)%nat in E by lia. rewrite E by auto.
  transitivity ((sgn (j1 + j2) * sgn (j1 + j2)) * (ph a (2 * l) (2 * l - j2) * (rc (wt (2 * l) j2 / wt (2 * l) j1) * mixed (cos (b / 2)) (sin (b / 2)) j1 (2 * l - j1) j2) * ph g (2 * l) (2 * l - j1))); [rewrite sgn_sq; ring|ring].
Qed.
(** What the code computes for m >= 0 holds for m < 0 too. *)
Lemma apply_full a b g l q res : real0 q l ->
  (forall m2, (m2 <= l)%nat -> ratm res l m2 = sumc (fun j => rotD a b g l (l + m2) j * full q l j) (S (2 * l))) ->
  real0 res l /\ forall j2, (j2 <= 2 * l)%nat -> full res l j2 = sumc (fun j => rotD a b g l j2 j * full q l j) (S (2 * l)).
Proof.
  intros H0 H.
  assert (F : forall j2, (j2 <= 2 * l)%nat -> Conj (sumc (fun j => rotD a b g l j2 j * full q l j) (S (2 * l))) = sgn (l + j2) * sumc (fun j => rotD a b g l (2 * l - j2) j * full q l j) (S (2 * l))).
  { intros j2 H2. rewrite conj_sum. rewrite (sumc_rev (fun j => rotD a b g l (2 * l - j2) j * full q l j)). rewrite <- sumc_scal. apply sumc_ext. intros j Hj. replace (S (2 * l) - 1 - j)%nat with (2 * l - j)%nat by lia.
    rewrite conj_mul, rotD_conj, full_conj by (auto; lia). rewrite (sgn_add j), (sgn_add l j), (sgn_add l j2).
    transitivity ((sgn j * sgn j) * (sgn l * sgn j2 * (rotD a b g l (2 * l - j2) (2 * l - j) * full q l (2 * l - j)))); [ring|rewrite sgn_sq; ring]. }
  assert (R0 : real0 res l).
  { unfold real0. assert (E := F l ltac:(lia)). replace (2 * l - l)%nat with l in E by lia. replace (l + l)%nat with (2 * l)%nat in E by lia. rewrite sgn_double in E. specialize (H O ltac:(lia)). rewrite Nat.add_0_r in H. rewrite <- H in E.
    destruct (ratm res l 0) as [x y]. unfold Conj, cconj, Cmul, cmul, C1 in E. cbn [fst snd] in E. injection E as _ E. cbn [snd]. lra. }
  split; auto. intros j2 H2. destruct (le_lt_dec l j2) as [L|L].
  - replace j2 with (l + (j2 - l))%nat at 1 by lia. rewrite full_up, H by lia. replace (l + (j2 - l))%nat with j2 by lia. auto.
  - assert (E := full_conj res l (2 * l - j2) R0 ltac:(lia)). replace (2 * l - (2 * l - j2))%nat with j2 in E by lia. replace (2 * l - j2)%nat with (l + (l - j2))%nat in E at 1 by lia. rewrite full_up, H in E by lia. replace (l + (l - j2))%nat with (2 * l - j2)%nat in E by lia. rewrite F in E by lia. replace (2 * l - (2 * l - j2))%nat with j2 in E by lia.
    set (x := full res l j2) in *. set (y := sumc _ _) in *. transitivity ((sgn (l + (2 * l - j2)) * sgn (l + (2 * l - j2))) * x); [rewrite sgn_sq; ring|]. transitivity ((sgn (l + (2 * l - j2)) * sgn (l + (2 * l - j2))) * y); [|rewrite sgn_sq; ring].
    transitivity (sgn (l + (2 * l - j2)) * (sgn (l + (2 * l - j2)) * x)); [ring|]. rewrite <- E. ring.
Qed.
(** The polynomial of the coefficients of degree l *)
Definition xs (q : list C) (l j : nat) : C := rc (/ wt (2 * l) j) * full q l j.
Definition pol (q : list C) (l : nat) (u v : C) : C := poly (xs q l) (2 * l) u v.
Lemma rc_inv x : x <> 0%R -> rc x * rc (/ x) = C1. Proof. intros H. rewrite <- rc_mul, Rinv_r by auto. reflexivity. Qed.
Lemma full_xs q l j : full q l j = rc (wt (2 * l) j) * xs q l j.
Proof. unfold xs. transitivity ((rc (wt (2 * l) j) * rc (/ wt (2 * l) j)) * full q l j); [|ring]. assert (W := wt_pos (2 * l) j). rewrite rc_inv by lra. ring. Qed.
Lemma action a b g l q res : (forall j2, (j2 <= 2 * l)%nat -> full res l j2 = sumc (fun j => rotD a b g l j2 j * full q l j) (S (2 * l))) ->
  forall u v, let u' := cis (- (a / 2)) * u in let v' := cis (a / 2) * v in
    pol res l u v = pol q l (cis (- (g / 2)) * (rc (cos (b / 2)) * u' + rc (sin (b / 2)) * v')) (cis (g / 2) * (rc (- sin (b / 2))%R * u' + rc (cos (b / 2)) * v')).
Proof.
  intros H u v u' v'. unfold pol. unfold poly at 1.
  transitivity (sumc (fun j2 => sumc (fun j1 => ph g (2 * l) j1 * xs q l j1 * (mixed (cos (b / 2)) (sin (b / 2)) j1 (2 * l - j1) j2 * (u' ^ j2 * v' ^ (2 * l - j2)))) (S (2 * l))) (S (2 * l))).
  - apply sumc_ext. intros j2 H2. unfold xs at 1. rewrite H by lia. rewrite <- sumc_scal, <- sumc_scal_r. apply sumc_ext. intros j1 H1. unfold rotD. rewrite full_xs. unfold u', v'. rewrite !cpow_mul. unfold ph.
    assert (W1 := wt_pos (2 * l) j1). assert (W2 := wt_pos (2 * l) j2).
    assert (E : rc (/ wt (2 * l) j2) * rc (wt (2 * l) j2 / wt (2 * l) j1) * rc (wt (2 * l) j1) = C1) by (rewrite <- !rc_mul; change C1 with (rc 1); f_equal; field; lra).
    match goal with |- _ = ?r => transitivity (rc (/ wt (2 * l) j2) * rc (wt (2 * l) j2 / wt (2 * l) j1) * rc (wt (2 * l) j1) * r); [ring|rewrite E; ring] end.
  - rewrite sumc_swap. unfold poly. apply sumc_ext. intros j1 H1. rewrite sumc_scal. unfold ph. rewrite !(cpow_mul (cis _)).
    assert (M := mixed_poly (cos (b / 2)) (sin (b / 2)) j1 (2 * l - j1) u' v'). replace (j1 + (2 * l - j1))%nat with (2 * l)%nat in M by lia. unfold poly in M. rewrite M. ring.
Qed.

(** The addition theorem of spherical harmonics, from half-turns, and sums of bonds with weights. *)
Require Import Reals ZArith List Bool Arith Lia Lra Ring.
Require Import Verif.Base Verif.Traj_Model Verif.Particles_Model Verif.Boo_Model Verif.Boo_Spec Verif.Boo_Props Verif.Wigner_Model Verif.Wigner_Props Verif.Euler_Model Verif.Euler_Spec Verif.Euler_Cplx Verif.Euler_Proofs Verif.Euler_Geom Verif.Euler_Turn Verif.Euler_Harm Verif.Euler_Props.
Require Import Verif.Angle_Model Verif.Angle_Spec.
Import ListNotations.
Local Open Scope R_scope.

(** * Legendre polynomials *)
Lemma P_even l x : degree l -> P l (- x) = P l x.
Proof.
  intros Hl. unfold P, legendre. f_equal. unfold legendre_derivative. apply sum_eq. intros k Hk. destruct (Nat.leb_spec (l + 0) (2 * k)); auto. f_equal.
  destruct Hl as [[j ->] _]. replace (2 * k - (2 * j + 0))%nat with (2 * (k - j))%nat by lia. rewrite !pow_mult. f_equal. cbn [pow]. ring.
Qed.
Lemma P_one l : P l 1 = 1.
Proof.
  assert (F : 0 < rfact l) by apply fact_pos. assert (T2 : (2 : R) ^ l <> 0) by (apply pow_nonzero; lra).
  assert (E : legendre_derivative l (l + 0) 1 = 2 ^ l * rfact l).
  { rewrite Nat.add_0_r.
    assert (X : Cmul (rc (legendre_derivative l l 1 / rfact l)) (rc ((-1) ^ l)) = rc ((-2) ^ l)).
    { assert (U := poly_unique (S (2 * l)) (fun j => Cmul (rc (legendre_derivative l j 1 / rfact j)) (rc ((-1) ^ j))) (fun j => if ((l <=? j) && (j <? l + S l))%nat then rc (bin l (j - l) * (-2) ^ (l - (j - l))) else C0)).
      rewrite U; [| |lia].
      - rewrite Nat.leb_refl, Nat.sub_diag, Nat.sub_0_r. rewrite (proj2 (Nat.ltb_lt l (l + S l))) by lia. cbn [andb]. f_equal. unfold bin. rewrite Nat.sub_0_r. cbn [fact INR]. field. assert (Q := fact_pos l). lra.
      - intros h. assert (T := taylor l 1 h). transitivity (rc (((1 - h) * (1 - h) - 1) ^ l)).
        + rewrite T. apply sumc_ext. intros i _. replace (rc (- h)) with (Cmul (rc (-1)) (rc h)) by cring. rewrite cpow_mul, rc_pow. ring.
        + replace (((1 - h) * (1 - h) - 1) ^ l) with (h ^ l * (h + -2) ^ l) by (rewrite <- Rpow_mult_distr; f_equal; ring). rewrite rc_mul, !rc_pow, rc_add.
          assert (B : Cpow (Cadd (rc h) (rc (-2))) l = sumc (fun i => rc (bin l i * (-2) ^ (l - i) * h ^ i)) (S l)).
          { rewrite <- rc_add, <- rc_pow. rewrite Binomial.binomial. rewrite rc_sum. apply sumc_ext. intros i Hi. f_equal. unfold bin, Binomial.C. ring. }
          rewrite B. rewrite <- sumc_scal. replace (S (2 * l)) with (l + S l)%nat by lia. rewrite <- (sumc_window (fun i => Cmul (Cpow (rc h) l) (rc (bin l i * (-2) ^ (l - i) * h ^ i))) l (S l) (l + S l)) by lia. apply sumc_ext. intros i Hi.
          destruct ((l <=? i) && (i <? l + S l))%nat eqn:G; [|ring]. apply andb_true_iff in G as [G _]. apply Nat.leb_le in G. rewrite <- !rc_pow, <- !rc_mul. f_equal. replace (h ^ i) with (h ^ (l + (i - l))) by (f_equal; lia). rewrite pow_add. ring. }
    rewrite <- rc_mul in X. apply rc_inj in X. replace ((-2) ^ l) with ((-1) ^ l * 2 ^ l) in X by (rewrite <- Rpow_mult_distr; f_equal; ring). assert (N1 : (-1) ^ l <> 0) by (apply pow_nonzero; lra).
    apply (Rmult_eq_reg_l ((-1) ^ l / rfact l)); [|intros Q; apply N1; apply (Rmult_eq_reg_r (/ rfact l)); [|apply Rinv_neq_0_compat; lra]; unfold Rdiv in Q; rewrite Q; ring].
    transitivity ((-1) ^ l * 2 ^ l); [rewrite <- X|]; field; lra. }
  unfold P, legendre. rewrite E. cbn [pow]. field. split; [lra|auto].
Qed.

(** * Two bonds *)
Definition ez : vec := (0, 0, 1).
Lemma ez_nonnull : ez <> null_vec. Proof. intros E. injection E. lra. Qed.
Lemma norm_ez : norm3 ez = 1. Proof. unfold norm3, ez. replace (0 * 0 + 0 * 0 + 1 * 1) with 1 by ring. apply sqrt_1. Qed.
Lemma spherical_ez : spherical ez = (1, 0, 0).
Proof. unfold spherical, ez. fold ez. change (0, 0, 1) with ez. rewrite norm_ez, Rabs_R1. destruct (Req_EM_T 1 1); [auto|congruence]. Qed.
Lemma bond_order0 x y z l : (x, y, z) <> null_vec -> degree l -> ratm (of_bond harmonic (x, y, z)) l 0 = rc (sqrt ((2 * INR l + 1) / (4 * PI)) * P l (z / norm3 (x, y, z))).
Proof.
  intros N Hl. destruct (spherical (x, y, z)) as [[r th] ph] eqn:E. rewrite (bond_at _ _ _ _ _ _ _ E Hl (Nat.le_0_l l)).
  destruct (C135_spherical _ _ _ _ _ _ N E) as [Er [_ [_ [Ex [Ey Ez]]]]]. assert (Pn := norm3_pos _ N).
  assert (X : P l (z / norm3 (x, y, z)) = P l (cos th)).
  { rewrite <- Er in *. destruct (Req_dec x 0) as [X0|X0]; [|rewrite Ez by tauto; f_equal; field; lra]. destruct (Req_dec y 0) as [Y0|Y0]; [|rewrite Ez by tauto; f_equal; field; lra].
    destruct (Rle_dec 0 z) as [Z0|Z0]; [rewrite Ez by tauto; f_equal; field; lra|].
    assert (Er2 : r = - z). { rewrite Er, X0, Y0. unfold norm3. replace (0 * 0 + 0 * 0 + z * z) with ((- z) * (- z)) by ring. apply sqrt_square. lra. }
    rewrite X0, Y0 in E. destruct (C135_colatitude_refuted z ltac:(lra)) as [E2 _]. rewrite E2 in E. injection E as _ <- _. rewrite cos_0. replace (z / r) with (- (1)) by (rewrite Er2; field; lra). apply P_even. auto. }
  rewrite X. unfold harmonic, P. rewrite Nat.sub_0_r, Nat.add_0_r. cbn [INR]. rewrite Rmult_0_l, cos_0, sin_0. unfold rc. apply pair_eq; [|ring]. rewrite Rmult_1_r. f_equal. f_equal. assert (F : 0 < rfact l) by apply fact_pos. assert (Pi := PI_RGT_0). field. lra.
Qed.
Lemma ez_orders l m : degree l -> (1 <= m <= l)%nat -> ratm (of_bond harmonic ez) l m = C0.
Proof.
  intros Hl Hm. rewrite (bond_at _ _ _ _ _ _ _ spherical_ez Hl (proj2 Hm)). unfold harmonic, legendre. rewrite cos_0. replace (1 - 1 * 1) with 0 by ring. rewrite sqrt_0. rewrite (pow_i m) by lia. unfold C0. apply pair_eq; unfold Rdiv; ring.
Qed.
Lemma full_zero q l j : ratm q l (if (l <=? j)%nat then j - l else l - j) = C0 -> full q l j = C0.
Proof.
  intros H. unfold full, at_z. destruct (Nat.leb_spec l j).
  - rewrite (proj2 (Z.leb_le 0 (Z.of_nat j - Z.of_nat l))) by lia. replace (Z.to_nat (Z.of_nat j - Z.of_nat l)) with (j - l)%nat by lia. auto.
  - rewrite (proj2 (Z.leb_gt 0 (Z.of_nat j - Z.of_nat l))) by lia. replace (Z.to_nat (- (Z.of_nat j - Z.of_nat l))) with (l - j)%nat by lia. rewrite H. destruct (_ =? 0)%Z; unfold cconj, copp, C0; cbn [fst snd]; apply pair_eq; ring.
Qed.
Definition amp (l : nat) : R := (2 * INR l + 1) / (4 * PI).
Lemma amp_pos l : 0 < amp l. Proof. unfold amp. assert (Pi := PI_RGT_0). assert (H := pos_INR l). apply Rdiv_lt_0_compat; lra. Qed.
Lemma herm_ez x y z l : (x, y, z) <> null_vec -> degree l -> herm (of_bond harmonic ez) (of_bond harmonic (x, y, z)) l = rc (amp l * P l (z / norm3 (x, y, z))).
Proof.
  intros N Hl. unfold herm. rewrite (sumc_one _ (S (2 * l)) l); [|lia|].
  - replace (full (of_bond harmonic ez) l l) with (ratm (of_bond harmonic ez) l 0) by (rewrite <- (full_up _ l 0); f_equal; lia). replace (full (of_bond harmonic (x, y, z)) l l) with (ratm (of_bond harmonic (x, y, z)) l 0) by (rewrite <- (full_up _ l 0); f_equal; lia).
    assert (E1 : ratm (of_bond harmonic ez) l 0 = rc (sqrt (amp l))). { unfold ez. rewrite bond_order0 by (auto; apply ez_nonnull). fold ez. change (0, 0, 1) with ez. rewrite norm_ez. replace (1 / 1) with 1 by field. rewrite P_one. unfold amp. f_equal. ring. }
    rewrite E1, bond_order0 by auto. fold (amp l). unfold Cmul, cmul, Conj, cconj, rc. cbn [fst snd]. apply pair_eq; [|ring]. assert (S2 := sqrt_sqrt (amp l) (Rlt_le _ _ (amp_pos l))). transitivity (sqrt (amp l) * sqrt (amp l) * P l (z / norm3 (x, y, z))); [ring|rewrite S2; auto].
  - intros j Hj Nj. rewrite full_zero; [ring|]. apply ez_orders; auto. destruct (Nat.leb_spec l j); lia.
Qed.
Lemma val_inj {A} (a b : A) : Val a = Val b -> a = b. Proof. intros E. injection E. auto. Qed.
Lemma dot_sym a b : dot a b = dot b a. Proof. destruct a as [[a1 a2] a3], b as [[b1 b2] b3]. unfold dot. ring. Qed.
Lemma herm_bonds v w l : v <> null_vec -> w <> null_vec -> degree l -> fst (herm (of_bond harmonic v) (of_bond harmonic w) l) = amp l * P l (cosine v w).
Proof.
  intros Nv Nw Hl. assert (Pv := norm3_pos _ Nv). assert (Pw := norm3_pos _ Nw).
  destruct v as [[x y] z]. set (n := norm3 (x, y, z)) in *.
  assert (U := unit_sq x y z Nv). fold n in U. cbv zeta in U. set (a := x / n) in *. set (b := y / n) in *. set (c := z / n) in *.
  destruct (Req_dec c (-1)) as [C|C].
  - (* the bond is along the negative z axis *)
    assert (A0 : a * a + b * b = 0) by (rewrite C in U; lra). assert (a = 0) by nra. assert (b = 0) by nra.
    assert (X : (x, y, z) = scaled (- n) ez). { unfold scaled, ez. assert (x = n * a) by (unfold a; field; lra). assert (y = n * b) by (unfold b; field; lra). assert (z = n * c) by (unfold c; field; lra). rewrite H1, H2, H3, H, H0, C. f_equal; [f_equal|]; ring. }
    rewrite X, C135_direction by (auto using ez_nonnull; lra). destruct w as [[x' y'] z']. rewrite herm_ez by auto. unfold rc. cbn [fst]. f_equal. rewrite <- X. unfold cosine. fold n. rewrite <- (P_even l) by auto. f_equal. unfold dot.
    assert (x = n * a) by (unfold a; field; lra). assert (y = n * b) by (unfold b; field; lra). assert (z = n * c) by (unfold c; field; lra). rewrite H1, H2, H3, H, H0, C. field. lra.
  - set (axis := (a, b, c + 1) : vec). assert (Dn : 2 + 2 * c <> 0) by lra.
    assert (Na : axis <> null_vec) by (intros E; injection E as _ _ E; lra).
    assert (DD : dot axis axis = 2 + 2 * c) by (unfold dot, axis; nra).
    assert (Ex : x = n * a) by (unfold a; field; lra). assert (Ey : y = n * b) by (unfold b; field; lra). assert (Ez : z = n * c) by (unfold c; field; lra).
    assert (DV : dot axis (x, y, z) = n * (1 + c)). { unfold dot, axis. rewrite Ex, Ey, Ez. transitivity (n * (a * a + b * b + c * c + c)); [ring|rewrite U; ring]. }
    assert (TV : turned axis (x, y, z) = scaled n ez). { unfold turned. rewrite DD, DV. replace (2 * (n * (1 + c)) / (2 + 2 * c)) with n by (field; lra). unfold axis, scaled, minus, ez. rewrite Ex, Ey, Ez. f_equal; [f_equal|]; ring. }
    destruct (C135_products axis (of_bond harmonic (x, y, z)) (of_bond harmonic w) Na (bond_length _) (bond_length _) (real_bond _) (real_bond _)) as [v' [w' [Ev [Ew K]]]]. rewrite C135_bond in Ev, Ew by auto. injection Ev as <-. injection Ew as <-.
    destruct (K l Hl) as [r [_ [K1 [K2 _]]]]. rewrite inner_herm in K1, K2 by (auto using bond_length; apply real_bond; auto). apply val_inj in K1, K2. rewrite K1, <- K2. rewrite TV, C135_direction by (auto using ez_nonnull; lra).
    destruct w as [[x' y'] z']. destruct (turned_ok a b (c + 1) x' y' z' Na Nw) as [NT [NN _]]. fold axis in NT, NN. destruct (turned axis (x', y', z')) as [[tx ty] tz] eqn:ET. rewrite herm_ez by auto. unfold rc. cbn [fst]. f_equal. f_equal. rewrite NN. unfold cosine. fold n.
    assert (TZ : tz = a * x' + b * y' + c * z'). { unfold turned in ET. rewrite DD in ET. unfold axis, dot, scaled, minus in ET. injection ET as _ _ ET. rewrite <- ET. field. auto. }
    rewrite TZ. unfold dot. rewrite Ex, Ey, Ez. field. split; lra.
Qed.

(** * Sums of bonds with weights *)
Definition wfull (ws : list (R * vec)) (l j : nat) : C := fold_right (fun p s => Cadd (Cmul (rc (fst p)) (full (of_bond harmonic (snd p)) l j)) s) C0 ws.
Definition made (b : list C) (ws : list (R * vec)) : Prop := length b = 36%nat /\ realq b /\ forall l j, degree l -> (j <= 2 * l)%nat -> full b l j = wfull ws l j.
Lemma wfull_app ws ws' l j : wfull (ws ++ ws') l j = Cadd (wfull ws l j) (wfull ws' l j).
Proof. unfold wfull. induction ws as [|p ws IH]; cbn [app fold_right]; [ring|]. rewrite IH. ring. Qed.
Lemma nth_zero i : nth i boo_zero (c0 R 0) = c0 R 0. Proof. apply nth_repeat. Qed.
Lemma wfull_cons k v ws l j : wfull ((k, v) :: ws) l j = Cadd (Cmul (rc k) (full (of_bond harmonic v) l j)) (wfull ws l j). Proof. reflexivity. Qed.
Lemma made_zero : made boo_zero [].
Proof.
  split; [apply repeat_length|]. split.
  - intros l Hl. unfold real0, at_m. rewrite nth_zero. auto.
  - intros l j Hl Hj. cbn. apply full_zero. unfold at_m. apply nth_zero.
Qed.
Lemma made_bond v : made (of_bond harmonic v) [(1, v)].
Proof. split; [apply bond_length|]. split; [apply real_bond|]. intros l j _ _. cbn [wfull fold_right fst snd]. change (rc 1) with C1. ring. Qed.
Lemma add_plus a b : boo_add a b = plus_boo a b.
Proof. reflexivity. Qed.
Lemma made_add a b ws ws' : made a ws -> made b ws' -> made (boo_add a b) (ws ++ ws').
Proof.
  intros [La [Ra Fa]] [Lb [Rb Fb]]. rewrite add_plus. split; [apply plus_length; auto|]. split; [apply plus_real; auto|]. intros l j Hl Hj. rewrite plus_full, Fa, Fb, wfull_app by auto. auto.
Qed.
Lemma div_at a n l m : ratm (boo_div a n) l m = Cmul (rc (/ INR n)) (ratm a l m).
Proof.
  unfold at_m, boo_div. set (i := (m + l * l / 4)%nat). destruct (le_lt_dec (length a) i) as [H|H].
  - rewrite !nth_overflow by (rewrite ?map_length; auto). unfold c0. cring.
  - rewrite (nth_indep _ (c0 R 0) ((fun c => (fst c / INR n, snd c / INR n)) (c0 R 0))) by (rewrite map_length; auto). rewrite (map_nth (fun c => (fst c / INR n, snd c / INR n))). change (cplx R) with (R * R)%type. generalize (nth i a (c0 R 0)). intros [x y]. unfold Cmul, cmul, rc, Rdiv. cbn [fst snd]. apply pair_eq; ring.
Qed.
Lemma div_full a n l j : full (boo_div a n) l j = Cmul (rc (/ INR n)) (full a l j).
Proof.
  unfold full, at_z. destruct (0 <=? _)%Z; [apply div_at|]. rewrite !div_at. destruct (ratm a l _) as [x y]. destruct (_ =? 0)%Z; cring.
Qed.
Definition reweigh (k : R) (ws : list (R * vec)) : list (R * vec) := map (fun p => (k * fst p, snd p)) ws.
Lemma wfull_reweigh k ws l j : wfull (reweigh k ws) l j = Cmul (rc k) (wfull ws l j).
Proof. unfold wfull, reweigh. induction ws as [|p ws IH]; cbn [map fold_right fst snd]; [cring|]. rewrite IH, rc_mul. ring. Qed.
Lemma made_div a n ws : made a ws -> made (boo_div a n) (reweigh (/ INR n) ws).
Proof.
  intros [La [Ra Fa]]. split; [unfold boo_div; rewrite map_length; auto|]. split.
  - intros l Hl. specialize (Ra l Hl). unfold real0 in *. rewrite div_at. unfold Cmul, cmul, rc. cbn [fst snd]. rewrite Ra. ring.
  - intros l j Hl Hj. rewrite div_full, wfull_reweigh, Fa by auto. auto.
Qed.
Lemma made_total bs wss : Forall2 made bs wss -> forall b ws, made b ws -> made (fold_left boo_add bs b) (ws ++ concat wss).
Proof. induction 1 as [|x xs bs wss Hx F IH]; intros b ws H; cbn [fold_left concat]; [rewrite app_nil_r; auto|]. rewrite app_assoc. apply IH. apply made_add; auto. Qed.
(** The product of two sums *)
Definition pairing (l : nat) (ws ws' : list (R * vec)) : R := sum_over ws (fun p => sum_over ws' (fun p' => fst p * fst p' * P l (cosine (snd p) (snd p')))).
Lemma conj_wfull ws l j : Conj (wfull ws l j) = fold_right (fun p s => Cadd (Cmul (rc (fst p)) (Conj (full (of_bond harmonic (snd p)) l j))) s) C0 ws.
Proof. unfold wfull. induction ws as [|p ws IH]; cbn [fold_right]; [cring|]. rewrite conj_add, conj_mul, conj_rc, IH. auto. Qed.
Definition bonds_ok' (ws : list (R * vec)) : Prop := Forall (fun p => snd p <> null_vec) ws.
Lemma fst_add x y : fst (Cadd x y) = fst x + fst y. Proof. reflexivity. Qed.
Lemma fst_rc k x : fst (Cmul (rc k) x) = k * fst x. Proof. unfold Cmul, cmul, rc. cbn [fst snd]. ring. Qed.
Lemma made_inner a b ws ws' l : made a ws -> made b ws' -> bonds_ok' ws -> bonds_ok' ws' -> degree l -> inner a b l = Val (amp l * pairing l ws ws').
Proof.
  intros [La [Ra Fa]] [Lb [Rb Fb]] Oa Ob Hl. rewrite inner_herm by auto. f_equal. unfold herm.
  rewrite (sumc_ext _ (fun j => Cmul (wfull ws l j) (Conj (wfull ws' l j)))) by (intros; rewrite Fa, Fb by (auto; lia); auto). clear La Ra Fa Lb Rb Fb a b.
  unfold pairing. revert Oa. unfold bonds_ok'. induction ws as [|[k v] ws IH]; intros Oa; cbn [sum_over fold_right].
  - rewrite (sumc_zero _ _) by (intros; cbn; ring). unfold C0. cbn [fst]. ring.
  - inversion Oa as [|? ? Nv Oa' E1]; subst. cbn [snd] in Nv. rewrite (sumc_ext _ (fun j => Cadd (Cmul (rc k) (Cmul (full (of_bond harmonic v) l j) (Conj (wfull ws' l j)))) (Cmul (wfull ws l j) (Conj (wfull ws' l j))))) by (intros; rewrite wfull_cons; ring).
    rewrite sumc_add, fst_add, (IH Oa'), sumc_scal, fst_rc. rewrite Rmult_plus_distr_l. f_equal. clear IH Oa Oa' ws. cbn [fst snd].
    revert Ob. unfold bonds_ok'. induction ws' as [|[k' w] ws' IH]; intros Ob; cbn [sum_over fold_right fst snd].
    + rewrite (sumc_zero _ _) by (intros; cbn [wfull fold_right]; replace (Conj C0) with C0 by cring; ring). unfold C0. cbn [fst]. ring.
    + inversion Ob as [|? ? Nw Ob' E1]; subst. cbn [snd] in Nw. rewrite (sumc_ext _ (fun j => Cadd (Cmul (rc k') (Cmul (full (of_bond harmonic v) l j) (Conj (full (of_bond harmonic w) l j)))) (Cmul (full (of_bond harmonic v) l j) (Conj (wfull ws' l j))))) by (intros; rewrite wfull_cons, conj_add, conj_mul, conj_rc; ring).
      rewrite sumc_add, fst_add, sumc_scal, fst_rc. rewrite Rmult_plus_distr_l, (IH Ob'). change (sumc (fun i => Cmul (full (of_bond harmonic v) l i) (Conj (full (of_bond harmonic w) l i))) (S (2 * l))) with (herm (of_bond harmonic v) (of_bond harmonic w) l). rewrite herm_bonds by auto. unfold sum_over. ring.
Qed.
Lemma made_norm a ws l : made a ws -> bonds_ok' ws -> degree l -> norms a l = Val (amp l * pairing l ws ws).
Proof.
  intros M O Hl. assert (I := made_inner a a ws ws l M M O O Hl). destruct M as [La [Ra _]]. destruct (C59_norm R 0 1 Rplus Rmult Rminus Ropp RTheory a l La Hl (Ra l Hl)) as [n [N1 N2]]. rewrite N1. rewrite I in N2. injection N2 as ->. auto.
Qed.

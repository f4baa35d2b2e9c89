(** Property C162: removing the drift gives the least mean square displacement. *)
Require Import ZArith QArith List Arith Bool Lia Lqa Sorted.
Require Import Verif.Base Verif.ListX Verif.Traj_Model Verif.Traj_Spec Verif.Cluster_Spec Verif.Particles_Model Verif.Dyn_Model Verif.Dyn_Spec Verif.Dyn_Proofs Verif.Dyn_Props Verif.Drift_Proofs
  Verif.Corr_Model Verif.Corr_Spec Verif.Corr_Proofs Verif.Corr_Props Verif.Drive_Model Verif.Drive_Props Verif.Rest_Model Verif.Rest_Spec.
Import ListNotations.
Local Open Scope Q_scope.

(** * Sums *)
Definition sumq (l : list Q) : Q := fold_right Qplus 0 l.
Lemma sumq_left l s : fold_left Qplus l s == s + sumq l.
Proof. revert s. induction l as [|x l IH]; intros s; cbn; [ring|]. rewrite IH. unfold sumq. ring. Qed.
Lemma sumq_ext {A} (f g : A -> Q) l : (forall x, In x l -> f x == g x) -> sumq (map f l) == sumq (map g l).
Proof. intros H. induction l as [|x l IH]; [reflexivity|]. unfold sumq in *. cbn. rewrite (H x) by (left; auto). rewrite IH; [reflexivity|]. intros y I. apply H. right. auto. Qed.
Lemma sumq_plus {A} (f g : A -> Q) l : sumq (map (fun x => f x + g x) l) == sumq (map f l) + sumq (map g l).
Proof. induction l as [|x l IH]; unfold sumq in *; cbn; [reflexivity|]. rewrite IH. ring. Qed.
Lemma sumq_mult {A} c (f : A -> Q) l : sumq (map (fun x => c * f x) l) == c * sumq (map f l).
Proof. induction l as [|x l IH]; unfold sumq in *; cbn; [ring|]. rewrite IH. ring. Qed.
Lemma sumq_nonneg l : (forall x, In x l -> 0 <= x) -> 0 <= sumq l.
Proof. induction l as [|x l IH]; intros H; unfold sumq in *; cbn; [apply Qle_refl|]. assert (A := H x (or_introl eq_refl)). assert (B : 0 <= fold_right Qplus 0 l) by (apply IH; intros y I; apply H; right; auto). lra. Qed.
Lemma sumq_null l : (forall x, In x l -> 0 <= x) -> sumq l == 0 -> forall x, In x l -> x == 0.
Proof.
  induction l as [|x l IH]; intros H E y I; [destruct I|]. unfold sumq in *. cbn in E. assert (A := H x (or_introl eq_refl)). assert (B : 0 <= fold_right Qplus 0 l) by (apply sumq_nonneg; intros z J; apply H; right; auto).
  destruct I as [<-|I]; [lra|]. apply IH; auto; [intros z J; apply H; right; auto|lra].
Qed.
Definition nat_q (n : nat) : Q := inject_Z (Z.of_nat n).
Lemma nat_q_S n : nat_q (S n) == nat_q n + 1.
Proof. unfold nat_q. rewrite Nat2Z.inj_succ. unfold Z.succ. rewrite inject_Z_plus. reflexivity. Qed.
Lemma nat_q_mult a b : nat_q (a * b) == nat_q a * nat_q b.
Proof. unfold nat_q. rewrite Nat2Z.inj_mul, inject_Z_mult. reflexivity. Qed.
Lemma nat_q_pos n : (0 < n)%nat -> 0 < nat_q n.
Proof. intros H. unfold nat_q. change 0 with (inject_Z 0). rewrite <- Zlt_Qlt. lia. Qed.

Lemma Forall2_weaken {A B} (R R' : A -> B -> Prop) l l' : (forall a b, R a b -> R' a b) -> Forall2 R l l' -> Forall2 R' l l'.
Proof. intros H. induction 1; constructor; auto. Qed.
Lemma Forall2_length {A B} (R : A -> B -> Prop) l l' : Forall2 R l l' -> length l = length l'.
Proof. induction 1; cbn; congruence. Qed.

(** * Positions *)
Lemma value_unique3 {V} (frames : list (list V)) T t x y : value_at frames T t x -> value_at frames T t y -> x = y.
Proof.
  intros [p [f [[k [Ek Hk]] [Ef Ep]]]] [p' [f' [[k' [Ek' Hk']] [Ef' Ep']]]]. assert (k = k') by lia. subst k'. rewrite Hk in Hk'. injection Hk' as <-. rewrite Ef in Ef'. injection Ef' as <-. rewrite Ep in Ep'. injection Ep' as <-. reflexivity.
Qed.
Lemma placed_unique3 {V} (frames : list (list V)) ti sel t ps : placed frames ti sel t ps -> forall qs, placed frames ti sel t qs -> ps = qs.
Proof.
  unfold placed. induction 1 as [|tr p sel ps [T [ET HT]] F IH]; intros qs G; inversion G as [|? q ? qs' [T' [ET' HT']] G']; subst; [reflexivity|]. rewrite ET in ET'. injection ET' as <-. f_equal; [eapply value_unique3; eauto|auto].
Qed.
Lemma value_moved us A B T t x y : frames_moved us A B -> value_at A T t x -> value_at B T t y -> moved_by (nth t us zero3) x y.
Proof.
  intros [_ [_ H]] [p [f [[k [Ek Hk]] [Ef Ep]]]] [p' [f' [[k' [Ek' Hk']] [Ef' Ep']]]]. assert (k = k') by lia. subst k'. rewrite Hk in Hk'. injection Hk' as <-.
  assert (Lt : (t < length A)%nat) by (apply nth_error_Some; congruence). specialize (H t Lt). rewrite (nth_error_nth _ _ [] Ef), (nth_error_nth _ _ [] Ef') in H.
  clear - H Ep Ep'. revert p Ep Ep'. induction H as [|u v l l' Huv F IH]; intros [|p] Ep Ep'; try discriminate; cbn [nth_error] in Ep, Ep'; [injection Ep as ->; injection Ep' as ->; auto|]. apply (IH p); auto.
Qed.
Lemma placed_moved us A B ti sel t ps : frames_moved us A B -> placed A ti sel t ps -> forall qs, placed B ti sel t qs -> Forall2 (moved_by (nth t us zero3)) ps qs.
Proof.
  intros M. unfold placed. induction 1 as [|tr p sel ps [T [ET HT]] F IH]; intros qs G; inversion G as [|? q ? qs' [T' [ET' HT']] G']; subst; [constructor|]. rewrite ET in ET'. injection ET' as <-. constructor; [eapply value_moved; eauto|auto].
Qed.
Lemma moved_sums u v ps ps' : Forall2 (moved_by u) ps ps' -> forall qs qs', Forall2 (moved_by v) qs qs' -> length qs = length ps ->
  let w (a : pos3 -> Q) := a v - a u in
  sumq (map (fun pq => square_length (fst pq) (snd pq)) (combine ps' qs')) == sumq (map (fun pq => square_length (fst pq) (snd pq)) (combine ps qs))
    + 2 * (w x_of * (sumq (map x_of qs) - sumq (map x_of ps)) + w y_of * (sumq (map y_of qs) - sumq (map y_of ps)) + w z_of * (sumq (map z_of qs) - sumq (map z_of ps)))
    + nat_q (length ps) * (w x_of * w x_of + w y_of * w y_of + w z_of * w z_of).
Proof.
  cbv zeta. induction 1 as [|p p' ps ps' Hp F IH]; intros qs qs' G L; inversion G as [|q q' rs rs' Hq G']; subst; try discriminate.
  - unfold sumq, nat_q. cbn. ring.
  - cbn [length] in L. specialize (IH rs rs' G' ltac:(lia)). cbn [combine map length fst snd]. unfold sumq in *. cbn [fold_right]. rewrite IH, nat_q_S. unfold square_length.
    rewrite (Hp x_of), (Hp y_of), (Hp z_of), (Hq x_of), (Hq y_of), (Hq z_of) by (cbn; auto). ring.
Qed.
Lemma axis_value a A T t x : value_at (axis a A) T t x -> forall p, value_at A T t p -> x = a p.
Proof.
  intros [i [f [[k [Ek Hk]] [Ef Ep]]]] p [i' [f' [[k' [Ek' Hk']] [Ef' Ep']]]]. assert (k = k') by lia. subst k'. rewrite Hk in Hk'. injection Hk' as <-.
  unfold axis in Ef. rewrite nth_error_map, Ef' in Ef. cbn in Ef. injection Ef as <-. rewrite nth_error_map, Ep' in Ep. cbn in Ep. congruence.
Qed.
Lemma total_sums a A ti l t0 t1 ps : placed A ti l t0 ps -> forall qs d, placed A ti l t1 qs -> total_displacement (axis a A) (trajs ti) l t0 t1 d -> d == sumq (map a qs) - sumq (map a ps).
Proof.
  unfold placed. induction 1 as [|tr p l ps [T [ET HT]] F IH]; intros qs d G D; inversion G as [|? q ? qs' [T' [ET' HT']] G']; subst; cbn [total_displacement] in D.
  - rewrite D. cbn. ring.
  - destruct D as [T2 [x [y [d' [E2 [Hx [Hy [D Ed]]]]]]]]. rewrite ET in ET', E2. injection ET' as <-. injection E2 as <-. rewrite (axis_value _ _ _ _ _ Hx _ HT), (axis_value _ _ _ _ _ Hy _ HT') in Ed.
    rewrite Ed, (IH qs' d' G' D). unfold sumq. cbn. ring.
Qed.

Section C162.
  Variables (ti : trajindex) (frames : list (list pos3)).
  Hypotheses (Hc : consistent ti) (Hsh : map (@length pos3) frames = map (@length nat) (inverse ti)) (Hall : all_along ti (length frames)) (H2 : (2 <= length (trajs ti))%nat).

  Lemma everyone_present t : (t < length frames)%nat -> present ti (everyone ti) t.
  Proof.
    intros Ht tr I. apply in_seq in I. destruct (nth_error (trajs ti) tr) as [T|] eqn:E; [|exfalso; apply nth_error_None in E; lia]. destruct (Hall tr T t E Ht) as [p Hp]. exists T, p. auto.
  Qed.
  Lemma seq_sorted n s : StronglySorted lt (seq s n).
  Proof. revert s. induction n as [|n IH]; intros s; cbn [seq]; constructor; auto. apply Forall_forall. intros x I. apply in_seq in I. lia. Qed.
  Lemma everyone_selected t : (t + 1 < length frames)%nat -> spanning_next ti t = Val (everyone ti).
  Proof.
    intros Ht. assert (Li : length (inverse ti) = length frames) by (apply (f_equal (@length nat)) in Hsh; rewrite !map_length in Hsh; auto).
    unfold spanning_next. destruct (C48_select_spanning ti t (t + 1) Hc) as [l [E [So Hl]]]; [lia|]. rewrite E. f_equal. apply sorted_same; auto; [apply seq_sorted|].
    intros tr. split.
    - intros I. apply Hl in I as [T [HT _]]. apply in_seq. assert (nth_error (trajs ti) tr <> None) by congruence. apply nth_error_Some in H. lia.
    - intros I. apply in_seq in I. apply Hl. destruct (nth_error (trajs ti) tr) as [T|] eqn:ET; [|exfalso; apply nth_error_None in ET; lia]. exists T. split; auto. intros u Hu. apply (Hall tr T u ET). lia.
  Qed.
  Lemma placed_all A t : map (@length pos3) A = map (@length nat) (inverse ti) -> (t < length frames)%nat -> exists ps, placed A ti (everyone ti) t ps.
  Proof.
    intros HA Ht. destruct (get_sd_ok pos3 Q 0 Qplus square_length A ti Hc HA (everyone ti) t t (everyone_present t Ht) (everyone_present t Ht)) as [v [_ [ps [_ [F _]]]]]. eauto.
  Qed.
  (** After the removal, the sum of the coordinates of all particles is the same at all times. *)
  Lemma sums_constant A a t ps qs : (0 < length frames)%nat -> remove_drift3 frames ti = Val A -> In a axes -> (t < length frames)%nat -> placed A ti (everyone ti) 0 ps -> placed A ti (everyone ti) t qs ->
    sumq (map a qs) == sumq (map a ps).
  Proof.
    intros Hpos EA Ha. destruct (shifts3_ok ti frames Hc Hsh Hpos) as [ss [E [L HA]]]. unfold remove_drift3 in EA. rewrite E in EA. cbn [omap] in EA. injection EA as <-.
    assert (SA : map (@length pos3) (shift_movie ss frames) = map (@length nat) (inverse ti)) by (rewrite shift_movie_shape; auto).
    destruct (C51_remove_drift ti (axis a frames) (spanning_next ti) Hc) as [s [fr [Ef [Ls [Efr [_ [_ H]]]]]]]; [rewrite axis_shape; auto|rewrite axis_len; auto| |].
    { rewrite axis_len. intros u Hu. exists (everyone ti). split; [apply everyone_selected; auto|]. intros tr I. apply in_seq in I. destruct (nth_error (trajs ti) tr) as [T|] eqn:ET; [|exfalso; apply nth_error_None in ET; lia].
      exists T. split; auto. intros w Hw. apply (Hall tr T w ET). lia. }
    assert (X : fr = axis a (shift_movie ss frames)).
    { unfold remove_drift in Ef. rewrite (HA a Ha) in Ef. injection Ef as <-. rewrite axis_shift by auto. unfold shifted. reflexivity. }
    rewrite X in H. revert qs. induction t as [|t IH]; intros qs Ht Hp Hq; [rewrite (placed_unique3 _ _ _ _ _ Hq _ Hp); reflexivity|].
    destruct (placed_all _ t SA ltac:(lia)) as [rs Hr]. rewrite <- (IH rs ltac:(lia) Hp Hr).
    assert (D : total_displacement (axis a (shift_movie ss frames)) (trajs ti) (everyone ti) t (t + 1) 0) by (apply H; [rewrite axis_len; lia|apply everyone_selected; lia|unfold everyone; rewrite seq_length; auto]).
    replace (t + 1)%nat with (S t) in D by lia. assert (Y := total_sums a _ ti _ t (S t) rs Hr qs 0 Hq D). lra.
  Qed.
  (** Steiner: the sum of the square displacements of the movie moved frame by frame. *)
  Lemma moved_sd A B us a b v w : (0 < length frames)%nat -> remove_drift3 frames ti = Val A -> frames_moved us A B -> (a < length frames)%nat -> (b < length frames)%nat ->
    sum_sd 0 Qplus square_length A ti (everyone ti) a b v -> sum_sd 0 Qplus square_length B ti (everyone ti) a b w -> w == v + nat_q (length (everyone ti)) * jump us a b.
  Proof.
    intros Hpos EA M La Lb [ps [qs [Fp [Fq Ev]]]] [ps' [qs' [Fp' [Fq' Ew]]]]. rewrite Ev, Ew, !sumq_left.
    assert (SA : map (@length pos3) A = map (@length nat) (inverse ti)).
    { destruct (shifts3_ok ti frames Hc Hsh Hpos) as [ss [E [L _]]]. unfold remove_drift3 in EA. rewrite E in EA. cbn [omap] in EA. injection EA as <-. rewrite shift_movie_shape; auto. }
    destruct (placed_all A 0 SA Hpos) as [rs Fr].
    assert (K : forall c, In c axes -> sumq (map c qs) - sumq (map c ps) == 0). { intros c I. rewrite (sums_constant A c a rs ps Hpos EA I La Fr Fp), (sums_constant A c b rs qs Hpos EA I Lb Fr Fq). ring. }
    assert (Lp : length ps = length (everyone ti)) by (symmetry; eapply Forall2_length; eauto). assert (Lq : length qs = length (everyone ti)) by (symmetry; eapply Forall2_length; eauto).
    rewrite (moved_sums (nth a us zero3) (nth b us zero3) ps ps' (placed_moved us A B ti _ a ps M Fp ps' Fp') qs qs' (placed_moved us A B ti _ b qs M Fq qs' Fq') ltac:(congruence)).
    rewrite (K x_of), (K y_of), (K z_of) by (cbn; auto). rewrite Lp. unfold jump. cbv zeta. ring.
  Qed.
  Lemma moved_shape us A B : frames_moved us A B -> map (@length pos3) B = map (@length pos3) A.
  Proof.
    intros [_ [L H]]. apply (nth_ext _ _ 0%nat 0%nat); [rewrite !map_length; auto|]. intros t Ht. rewrite map_length in Ht. rewrite L in Ht. change 0%nat with (@length pos3 []). rewrite !map_nth. symmetry. eapply Forall2_length. apply H. auto.
  Qed.
  Lemma msd_value A t0 t1 t3 : map (@length pos3) A = map (@length nat) (inverse ti) -> (t0 <= t1)%nat -> (if (t3 =? 0)%nat then t1 < length frames else t1 + t3 <= length frames)%nat ->
    exists SD vs, msd3 A ti (everyone ti) t0 t1 t3 = Val vs /\ length vs = (t1 - t0 + 1)%nat /\
      (forall dt, (0 < dt <= t1 - t0)%nat -> nth_error vs dt = Some (shared_by (fold_left Qplus (map (fun a => SD a (a + dt)%nat) (origins t0 t1 t3 dt)) 0) (length (origins t0 t1 t3 dt) * length (everyone ti)))) /\
      forall dt a, (0 < dt <= t1 - t0)%nat -> In a (origins t0 t1 t3 dt) -> (a + dt < length frames)%nat /\ sum_sd 0 Qplus square_length A ti (everyone ti) a (a + dt) (SD a (a + dt)%nat).
  Proof.
    intros SA Ht Hr. assert (Ne : everyone ti <> []) by (unfold everyone; destruct (length (trajs ti)) eqn:E; [lia|discriminate]). unfold origins. destruct (Nat.eqb_spec t3 0) as [->|N3].
    - destruct (C49_msd pos3 Q 0 Qplus shared_by square_length A ti (everyone ti) t0 t1 Hc SA Ne Ht) as [SD [vs [HS [E [L [_ H]]]]]]; [intros t Htt; apply everyone_present; lia|].
      exists SD, vs. split; [exact E|]. split; [exact L|]. split; [intros dt Hdt; rewrite seq_length; apply H; auto|]. intros dt a Hdt I. apply in_seq in I. split; [lia|]. apply HS; lia.
    - destruct (C49_msd_origins pos3 Q 0 Qplus shared_by square_length A ti (everyone ti) t0 t1 t3 Hc SA Ne Ht ltac:(lia)) as [SD [vs [HS [E [L [_ H]]]]]]; [intros t Htt; apply everyone_present; lia|].
      exists SD, vs. split; [exact E|]. split; [exact L|]. split; [intros dt Hdt; rewrite seq_length; apply H; auto|]. intros dt a Hdt I. apply in_seq in I. split; [lia|]. apply HS; lia.
  Qed.

  (** C162.  All trajectories being followed all along, moving the frames after the removal of the drift adds to the mean square displacement at each lag the mean over the origins of the
      square of the change of the move. *)
  Theorem C162_moved A B us t0 t1 t3 : remove_drift3 frames ti = Val A -> frames_moved us A B -> (t0 <= t1)%nat -> (if (t3 =? 0)%nat then t1 < length frames else t1 + t3 <= length frames)%nat ->
    exists va vb, msd3 A ti (everyone ti) t0 t1 t3 = Val va /\ msd3 B ti (everyone ti) t0 t1 t3 = Val vb /\ length va = (t1 - t0 + 1)%nat /\ length vb = length va /\
      forall dt, (0 < dt <= t1 - t0)%nat -> nth dt vb 0 == nth dt va 0 + mean_jump us (origins t0 t1 t3 dt) dt.
  Proof.
    intros EA M Ht Hr. assert (Hpos : (0 < length frames)%nat) by (destruct (t3 =? 0)%nat eqn:E3; [lia|apply Nat.eqb_neq in E3; lia]).
    assert (SA : map (@length pos3) A = map (@length nat) (inverse ti)).
    { destruct (shifts3_ok ti frames Hc Hsh Hpos) as [ss [E [L _]]]. assert (EA' := EA). unfold remove_drift3 in EA'. rewrite E in EA'. cbn [omap] in EA'. injection EA' as <-. rewrite shift_movie_shape; auto. }
    assert (SB : map (@length pos3) B = map (@length nat) (inverse ti)) by (rewrite (moved_shape us A B M); auto).
    destruct (msd_value A t0 t1 t3 SA Ht Hr) as [SD [va [E1 [L1 [V1 S1]]]]]. destruct (msd_value B t0 t1 t3 SB Ht Hr) as [SD' [vb [E2 [L2 [V2 S2]]]]].
    exists va, vb. split; [exact E1|]. split; [exact E2|]. split; [exact L1|]. split; [congruence|]. intros dt Hdt. rewrite (nth_error_nth _ _ 0 (V1 dt Hdt)), (nth_error_nth _ _ 0 (V2 dt Hdt)).
    assert (No : (0 < length (origins t0 t1 t3 dt))%nat). { unfold origins. destruct (Nat.eqb_spec t3 0); rewrite seq_length; lia. }
    assert (Nk : (0 < length (everyone ti))%nat) by (unfold everyone; rewrite seq_length; lia).
    assert (X : sumq (map (fun a => SD' a (a + dt)%nat) (origins t0 t1 t3 dt)) == sumq (map (fun a => SD a (a + dt)%nat) (origins t0 t1 t3 dt)) + nat_q (length (everyone ti)) * sumq (map (fun a => jump us a (a + dt)) (origins t0 t1 t3 dt))).
    { rewrite <- sumq_mult, <- sumq_plus. apply sumq_ext. intros a I. destruct (S1 dt a Hdt I) as [La Sa]. destruct (S2 dt a Hdt I) as [_ Sb]. apply (moved_sd A B us a (a + dt)%nat); auto; lia. }
    unfold shared_by. fold (nat_q (length (origins t0 t1 t3 dt) * length (everyone ti))). rewrite !sumq_left, X, nat_q_mult. unfold mean_jump. fold (nat_q (length (origins t0 t1 t3 dt))) (sumq (map (fun a => jump us a (a + dt)) (origins t0 t1 t3 dt))).
    assert (P1 := nat_q_pos _ No). assert (P2 := nat_q_pos _ Nk). field. split; lra.
  Qed.
  Lemma jump_nonneg us a b : 0 <= jump us a b.
  Proof.
    unfold jump. cbv zeta. assert (G : forall x, 0 <= x * x). { intros x. destruct (Qlt_le_dec x 0) as [N|P]; [setoid_replace (x * x) with ((- x) * (- x)) by ring; apply Qmult_le_0_compat; lra|apply Qmult_le_0_compat; auto]. }
    assert (A1 := G (x_of (nth b us zero3) - x_of (nth a us zero3))). assert (A2 := G (y_of (nth b us zero3) - y_of (nth a us zero3))). assert (A3 := G (z_of (nth b us zero3) - z_of (nth a us zero3))). lra.
  Qed.
  Lemma mean_jump_nonneg us os dt : 0 <= mean_jump us os dt.
  Proof.
    unfold mean_jump. destruct os as [|o os]; [cbn; discriminate|]. apply Qle_shift_div_l; [apply (nat_q_pos (length (o :: os))); cbn; lia|]. rewrite Qmult_0_l. apply sumq_nonneg. intros x I. apply in_map_iff in I as [a [<- _]]. apply jump_nonneg.
  Qed.
  Lemma shift_moved ss fr : length ss = length fr -> frames_moved ss fr (shift_movie ss fr).
  Proof.
    intros L. split; auto. split; [apply shift_movie_len; auto|]. revert ss L. induction fr as [|f fr IH]; intros [|s ss] L t Ht; cbn in *; try lia. destruct t as [|t]; [|apply (IH ss); lia].
    unfold shift_frame. clear. induction f as [|p f IH]; cbn; constructor; auto. intros a Ha. apply axes_in in Ha as [->|[->| ->]]; reflexivity.
  Qed.
  Definition minus3 (u s : pos3) : pos3 := (x_of u - x_of s, y_of u - y_of s, z_of u - z_of s).
  Lemma moved_between ss us fr A B : frames_moved ss fr A -> frames_moved us fr B -> exists ws, frames_moved ws A B.
  Proof.
    intros [L1 [L2 H]] [L3 [L4 K]]. exists (map (fun us => minus3 (fst us) (snd us)) (combine us ss)). split; [rewrite map_length, combine_length; lia|]. split; [lia|]. intros t Ht. rewrite L2 in Ht. specialize (H t Ht). specialize (K t Ht).
    assert (E : nth t (map (fun us => minus3 (fst us) (snd us)) (combine us ss)) zero3 = minus3 (nth t us zero3) (nth t ss zero3)).
    { assert (Lc : (t < length (combine us ss))%nat) by (rewrite combine_length; lia). rewrite (nth_indep _ _ (minus3 (fst (zero3, zero3)) (snd (zero3, zero3)))) by (rewrite map_length; auto). rewrite (map_nth (fun us => minus3 (fst us) (snd us))). rewrite List.combine_nth by lia. reflexivity. }
    rewrite E. clear - H K. revert H K. generalize (nth t us zero3), (nth t ss zero3), (nth t fr []), (nth t A []), (nth t B []). intros u s f g h H. revert h. induction H as [|p q f g Hpq F IH]; intros h K; inversion K as [|? r ? h' Hpr K']; subst; constructor; auto.
    intros a Ha. rewrite (Hpq a Ha), (Hpr a Ha). apply axes_in in Ha as [->|[->| ->]]; unfold minus3, x_of, y_of, z_of; cbn [fst snd]; ring.
  Qed.
  (** So no way of moving the frames of the movie, leaving them in place included, gives a lower mean square displacement than the removal of the drift, at any lag. *)
  Theorem C162_least A B us t0 t1 t3 : remove_drift3 frames ti = Val A -> frames_moved us frames B -> (t0 <= t1)%nat -> (if (t3 =? 0)%nat then t1 < length frames else t1 + t3 <= length frames)%nat ->
    exists va vb, msd3 A ti (everyone ti) t0 t1 t3 = Val va /\ msd3 B ti (everyone ti) t0 t1 t3 = Val vb /\ length va = (t1 - t0 + 1)%nat /\ length vb = length va /\
      forall dt, (0 < dt <= t1 - t0)%nat -> nth dt va 0 <= nth dt vb 0.
  Proof.
    intros EA M Ht Hr. assert (Hpos : (0 < length frames)%nat) by (destruct (t3 =? 0)%nat eqn:E3; [lia|apply Nat.eqb_neq in E3; lia]).
    assert (MA : exists ss, frames_moved ss frames A).
    { destruct (shifts3_ok ti frames Hc Hsh Hpos) as [ss [E [L _]]]. assert (EA' := EA). unfold remove_drift3 in EA'. rewrite E in EA'. cbn [omap] in EA'. injection EA' as <-. exists ss. apply shift_moved. auto. }
    destruct MA as [ss MA]. destruct (moved_between ss us frames A B MA M) as [ws MB]. destruct (C162_moved A B ws t0 t1 t3 EA MB Ht Hr) as [va [vb [E1 [E2 [L1 [L2 H]]]]]].
    exists va, vb. do 4 (split; [assumption|]). intros dt Hdt. rewrite (H dt Hdt). assert (X := mean_jump_nonneg ws (origins t0 t1 t3 dt) dt). lra.
  Qed.
  (** Equality at lag 1 over the whole movie: then the frames are those of the removal, all moved by the same vector. *)
  Theorem C162_unique A B us va vb : remove_drift3 frames ti = Val A -> frames_moved us frames B -> (2 <= length frames)%nat ->
    msd3 A ti (everyone ti) 0 (length frames - 1) 0 = Val va -> msd3 B ti (everyone ti) 0 (length frames - 1) 0 = Val vb -> nth 1 vb 0 == nth 1 va 0 -> exists k, Forall2 (Forall2 (moved_by k)) A B.
  Proof.
    intros EA M Hn Ea Eb Eq. assert (Hpos : (0 < length frames)%nat) by lia.
    assert (MA : exists ss, frames_moved ss frames A).
    { destruct (shifts3_ok ti frames Hc Hsh Hpos) as [ss [E [L _]]]. assert (EA' := EA). unfold remove_drift3 in EA'. rewrite E in EA'. cbn [omap] in EA'. injection EA' as <-. exists ss. apply shift_moved. auto. }
    destruct MA as [ss MA]. destruct (moved_between ss us frames A B MA M) as [ws MB]. destruct (C162_moved A B ws 0 (length frames - 1) 0 EA MB ltac:(lia) ltac:(cbn; lia)) as [va' [vb' [E1 [E2 [_ [_ H]]]]]].
    rewrite Ea in E1. injection E1 as <-. rewrite Eb in E2. injection E2 as <-. specialize (H 1%nat ltac:(lia)). assert (J : mean_jump ws (origins 0 (length frames - 1) 0 1) 1 == 0) by lra. unfold mean_jump, origins in J. cbn [Nat.eqb] in J. rewrite seq_length in J.
    replace (length frames - 1 + 1 - 0 - 1)%nat with (length frames - 1)%nat in J by lia. fold (nat_q (length frames - 1)) in J. assert (P := nat_q_pos (length frames - 1) ltac:(lia)).
    assert (J' : sumq (map (fun a => jump ws a (a + 1)) (seq 0 (length frames - 1))) == 0).
    { unfold sumq. set (x := fold_right Qplus 0 (map (fun a => jump ws a (a + 1)) (seq 0 (length frames - 1)))) in *. setoid_replace x with (x / nat_q (length frames - 1) * nat_q (length frames - 1)) by (field; lra). rewrite J. ring. }
    assert (Z0 := sumq_null _ (fun x I => match proj1 (in_map_iff _ _ _) I with ex_intro _ a (conj e _) => eq_ind _ (fun x => 0 <= x) (jump_nonneg ws a (a + 1)) x e end) J').
    assert (C : forall a t, In a axes -> (t < length frames)%nat -> a (nth t ws zero3) == a (nth 0 ws zero3)).
    { intros a t Ha. apply (const_ex (fun t => a (nth t ws zero3)) (length frames)). clear t. intros t Ht. assert (I : In (jump ws t (t + 1)) (map (fun a => jump ws a (a + 1)) (seq 0 (length frames - 1)))) by (apply (in_map (fun a => jump ws a (a + 1))); apply in_seq; lia).
      specialize (Z0 _ I). unfold jump in Z0. cbv zeta in Z0. assert (G : forall x, 0 <= x * x). { intros x. destruct (Qlt_le_dec x 0) as [N|Q0]; [setoid_replace (x * x) with ((- x) * (- x)) by ring; apply Qmult_le_0_compat; lra|apply Qmult_le_0_compat; auto]. }
      assert (A1 := G (x_of (nth (t + 1) ws zero3) - x_of (nth t ws zero3))). assert (A2 := G (y_of (nth (t + 1) ws zero3) - y_of (nth t ws zero3))). assert (A3 := G (z_of (nth (t + 1) ws zero3) - z_of (nth t ws zero3))).
      assert (G0 : forall u v, (u - v) * (u - v) == 0 -> u == v). { intros u v E. apply Qmult_integral in E as [E|E]; lra. }
      apply axes_in in Ha as [->|[->| ->]]; apply G0; lra. }
    exists (nth 0 ws zero3). destruct MB as [Lw [LB HB]]. assert (LA : length A = length frames) by (destruct MA as [_ [LA _]]; auto). clear - C HB LB LA.
    assert (K : forall t, (t < length A)%nat -> Forall2 (moved_by (nth 0 ws zero3)) (nth t A []) (nth t B [])).
    { intros t Ht. specialize (HB t Ht). eapply Forall2_weaken; [|exact HB]. intros p q Hpq a Ha. rewrite (Hpq a Ha), (C a t Ha) by lia. reflexivity. }
    clear - K LB. revert B LB K. induction A as [|f A IH]; intros [|g B] LB K; try discriminate; constructor; [apply (K 0%nat); cbn; lia|]. apply IH; [cbn in LB; lia|]. intros t Ht. apply (K (S t)). cbn. lia.
  Qed.
End C162.

(** * Cases *)
(** Two particles over three times: both drift along x, the second also moves along y. *)
Definition rest_ti : trajindex := (mkIndex [mkTraj 0 [0; 1; 0]; mkTraj 0 [1; 0; 1]] [[0; 1]; [1; 0]; [0; 1]])%nat.
Definition rest_frames : list (list pos3) := [[(0, 0, 0); (5, 0, 0)]; [(7, 2, 0); (1, 0, 0)]; [(3, 0, 0); (8, 4, 0)]].
Lemma rest_consistent : consistent rest_ti.
Proof.
  split.
  - intros t p tr. unfold invert, rest_ti. cbn [inverse trajs]. split.
    + intros H. destruct t as [|[|[|t]]]; simpl in H; try (destruct t; discriminate); destruct p as [|[|p]]; simpl in H; try discriminate; try (destruct p; discriminate); injection H as <-; eexists; (split; [reflexivity|]); unfold at_time; cbn [start steps].
      all: first [exists 0%nat; split; [lia|reflexivity] | exists 1%nat; split; [lia|reflexivity] | exists 2%nat; split; [lia|reflexivity]].
    + intros [T [HT [k [-> Hk]]]]. destruct tr as [|[|tr]]; simpl in HT; try (destruct tr; discriminate); injection HT as <-; cbn [start steps] in *; destruct k as [|[|[|k]]]; simpl in Hk; try discriminate; try (destruct k; discriminate); injection Hk as <-; reflexivity.
  - intros tr T HT. destruct tr as [|[|tr]]; simpl in HT; try (destruct tr; discriminate); injection HT as <-; cbn [start steps length]; split; try discriminate; try lia.
Qed.
Lemma rest_all : all_along rest_ti 3.
Proof.
  intros tr T t HT Ht. destruct tr as [|[|tr]]; simpl in HT; try (destruct tr; discriminate); injection HT as <-; unfold at_time; cbn [start steps].
  all: destruct t as [|[|[|t]]]; try lia; eexists; first [exists 0%nat; split; [lia|reflexivity] | exists 1%nat; split; [lia|reflexivity] | exists 2%nat; split; [lia|reflexivity]].
Qed.
Lemma unmoved fr : frames_moved (repeat zero3 (length fr)) fr fr.
Proof.
  split; [apply repeat_length|]. split; auto. intros t Ht. rewrite nth_repeat. induction (nth t fr []); constructor; auto. intros a0 Ha. apply axes_in in Ha as [->|[->| ->]]; unfold zero3, x_of, y_of, z_of; cbn [fst snd]; ring.
Qed.
Example C162_case : consistent rest_ti /\ map (@length pos3) rest_frames = map (@length nat) (inverse rest_ti) /\ all_along rest_ti (length rest_frames) /\ (2 <= length (trajs rest_ti))%nat /\
  frames_moved (repeat zero3 3) rest_frames rest_frames /\
  exists A va vb, remove_drift3 rest_frames rest_ti = Val A /\ msd3 A rest_ti (everyone rest_ti) 0 2 0 = Val va /\ msd3 rest_frames rest_ti (everyone rest_ti) 0 2 0 = Val vb /\
    Forall2 Qeq va [0; 5 # 4; 4] /\ Forall2 Qeq vb [0; 9 # 2; 17].
Proof.
  split; [apply rest_consistent|]. split; [reflexivity|]. split; [apply rest_all|]. split; [cbn; lia|]. split; [apply (unmoved rest_frames)|].
  do 3 eexists. split; [vm_compute; reflexivity|]. split; [vm_compute; reflexivity|]. split; [vm_compute; reflexivity|]. split; repeat (constructor; [vm_compute; reflexivity|]); constructor.
Qed.
(** Finding: for a part of the trajectories the removal can raise the mean square displacement.  The first particle is at rest, and the second drags the mean. *)
Definition drag_frames : list (list pos3) := [[(0, 0, 0); (5, 0, 0)]; [(7, 0, 0); (0, 0, 0)]; [(0, 0, 0); (9, 0, 0)]].
Theorem C162_selection_refuted : exists A va vb, remove_drift3 drag_frames rest_ti = Val A /\ msd3 A rest_ti [0%nat] 0 2 0 = Val va /\ msd3 drag_frames rest_ti [0%nat] 0 2 0 = Val vb /\
  Forall2 Qeq va [0; 1; 4] /\ Forall2 Qeq vb [0; 0; 0].
Proof. do 3 eexists. split; [vm_compute; reflexivity|]. split; [vm_compute; reflexivity|]. split; [vm_compute; reflexivity|]. split; repeat (constructor; [vm_compute; reflexivity|]); constructor. Qed.
Print Assumptions C162_moved.
Print Assumptions C162_least.
Print Assumptions C162_unique.
Print Assumptions C162_selection_refuted.

(** Property C160: the intermediate scattering functions, in terms of displacements. *)
Require Import Reals List Arith ZArith Lia Lra Psatz.
Require Import Verif.Base Verif.ListX Verif.Traj_Model Verif.Traj_Spec Verif.Particles_Model Verif.Traj_Proofs Verif.Cluster_Spec Verif.Dyn_Model Verif.Dyn_Spec Verif.Corr_Model Verif.Corr_Spec Verif.Corr_Proofs Verif.Corr_Props Verif.Isf_Model Verif.Isf_Props.
Require Import Verif.Euler_Model Verif.Euler_Spec Verif.Wave_Model Verif.Wave_Spec Verif.Wave_Proofs.
Import ListNotations.
Local Open Scope R_scope.

Section C160.
  Variables (frames : list (list vec)) (ti : trajindex).
  Hypotheses (Hc : consistent ti) (Hsh : map (@length vec) frames = map (@length nat) (inverse ti)).

  (** C160.  The lag dt of getSelfISF, over t3 origins, is the mean over origins and trajectories of the cosine of the product of the wave vector and the displacement. *)
  Theorem C160_self q sel t0 t1 t3 : (t0 < t1)%nat -> (0 < t3)%nat -> (forall t, t0 <= t < t1 + t3 -> present ti sel t)%nat ->
    exists D vs, (forall a dt, t0 <= a < t0 + t3 -> dt < t1 - t0 -> displacements frames ti sel a (a + dt) (D a dt))%nat /\
      self_isf q frames ti sel t0 t1 t3 = Val vs /\ length vs = (t1 - t0)%nat /\ nth_error vs 0 = Some 1 /\
      forall dt, (0 < dt < t1 - t0)%nat -> nth_error vs dt = Some (mean_of (flat_map (fun a => map (fun d => cos (dot d q)) (D a dt)) (seq t0 t3))).
  Proof.
    intros Ht Ht3 Hp. destruct (C49_self_isf vec R 0 Rplus over (R * R) (wave_of q) wave_cross 1 frames ti sel t0 t1 t3 Hc Hsh Ht Ht3 Hp) as [X [vs [HX [E [L [H0 H]]]]]].
    exists (fun a dt => map (fun yx => minus (fst yx) (snd yx)) (combine (X (a + dt)%nat) (X a))), vs.
    assert (HD : forall a dt, (t0 <= a < t0 + t3 -> dt < t1 - t0 -> displacements frames ti sel a (a + dt) (map (fun yx => minus (fst yx) (snd yx)) (combine (X (a + dt)) (X a))))%nat) by (intros a dt Ha Hdt; apply displacements_of; apply HX; lia).
    split; [exact HD|]. split; [exact E|]. split; [exact L|]. split; [exact H0|]. intros dt Hdt. rewrite (H dt Hdt). f_equal.
    rewrite total_left, Rplus_0_l. unfold mean_of. rewrite (flat_len _ _ (length sel)).
    - rewrite seq_length. unfold over. f_equal. f_equal. assert (S := flat_shift (fun a => map (fun d => cos (dot d q)) (map (fun yx => minus (fst yx) (snd yx)) (combine (X (a + dt)%nat) (X a)))) t0 t3 0). cbn [Nat.add] in S. rewrite <- S.
      apply flat_map_ext. intros a. rewrite map_map. replace (a + t0 + dt)%nat with (a + dt + t0)%nat by lia. apply map_ext. intros [y x]. cbn [fst snd]. apply cross_minus.
    - intros a Ha. apply in_seq in Ha. rewrite map_length. apply (displacements_length frames ti sel a (a + dt)%nat). apply HD; lia.
  Qed.
  (** The values are between -1 and 1, 1 at lag 0; a value is 1 exactly when all the displacements are whole numbers of wavelengths. *)
  Theorem C160_bounds q sel t0 t1 t3 : (t0 < t1)%nat -> (0 < t3)%nat -> sel <> [] -> (forall t, t0 <= t < t1 + t3 -> present ti sel t)%nat ->
    exists vs, self_isf q frames ti sel t0 t1 t3 = Val vs /\ length vs = (t1 - t0)%nat /\ nth_error vs 0 = Some 1 /\
      forall dt v, (0 < dt)%nat -> nth_error vs dt = Some v -> -1 <= v <= 1 /\
        (v = 1 <-> forall a ds d, (t0 <= a < t0 + t3)%nat -> displacements frames ti sel a (a + dt) ds -> In d ds -> whole_waves q d).
  Proof.
    intros Ht Ht3 Ne Hp. destruct (C160_self q sel t0 t1 t3 Ht Ht3 Hp) as [D [vs [HD [E [L [H0 H]]]]]]. exists vs. split; auto. split; auto. split; auto. intros dt v Hdt Ev.
    assert (B : (dt < t1 - t0)%nat) by (rewrite <- L; apply nth_error_Some; congruence). rewrite (H dt ltac:(lia)) in Ev. injection Ev as <-.
    set (l := flat_map (fun a => map (fun d => cos (dot d q)) (D a dt)) (seq t0 t3)).
    assert (Nl : l <> []). { intros X. assert (F : length l = (t3 * length sel)%nat) by (unfold l; rewrite (flat_len _ _ (length sel)), seq_length; auto; intros a Ha; apply in_seq in Ha; rewrite map_length; apply (displacements_length frames ti sel a (a + dt)%nat), HD; lia). rewrite X in F. destruct sel; [congruence|cbn in F; nia]. }
    assert (I : forall x, In x l <-> exists a d, (t0 <= a < t0 + t3)%nat /\ In d (D a dt) /\ x = cos (dot d q)).
    { intros x. unfold l. rewrite in_flat_map. split.
      - intros [a [Ha Hx]]. apply in_seq in Ha. apply in_map_iff in Hx. destruct Hx as [d [<- Hd]]. exists a, d. auto.
      - intros [a [d [Ha [Hd ->]]]]. exists a. split; [apply in_seq; lia|]. apply in_map_iff. exists d. auto. }
    split; [apply mean_bounds; auto; intros x Hx; apply I in Hx; destruct Hx as [a [d [_ [_ ->]]]]; apply COS_bound|]. rewrite mean_top by (auto; intros x Hx; apply I in Hx; destruct Hx as [a [d [_ [_ ->]]]]; apply COS_bound). split.
    - intros A a ds d Ha Hds Hd. apply cos_one. apply A. apply I. exists a, d. split; auto. split; auto. rewrite (displacements_unique _ _ _ _ _ _ (HD a dt Ha B) _ Hds). auto.
    - intros A x Hx. apply I in Hx. destruct Hx as [a [d [Ha [Hd ->]]]]. apply cos_one. apply (A a (D a dt) d); auto.
  Qed.
  (** The scattering function is bounded below by the mean square displacement over the same origins. *)
  Theorem C160_msd q sel t0 t1 t3 : (t0 < t1)%nat -> (0 < t3)%nat -> sel <> [] -> (forall t, t0 <= t < t1 + t3 -> present ti sel t)%nat ->
    exists vs ms, self_isf q frames ti sel t0 t1 t3 = Val vs /\ msd frames ti sel t0 t1 t3 = Val ms /\
      forall dt, (0 < dt < t1 - t0)%nat -> exists v m, nth_error vs dt = Some v /\ nth_error ms dt = Some m /\ 0 <= m /\ 1 - dot q q * m / 2 <= v.
  Proof.
    intros Ht Ht3 Ne Hp. destruct (C160_self q sel t0 t1 t3 Ht Ht3 Hp) as [D [vs [HD [E [L [H0 H]]]]]].
    destruct (C49_msd_origins vec R 0 Rplus over square_distance frames ti sel t0 t1 t3 Hc Hsh Ne ltac:(lia) Ht3 Hp) as [SD [ms [HS [Em [Lm [_ Hm]]]]]]. exists vs, ms. split; auto. split; auto. intros dt Hdt.
    assert (K : 0 < INR (t3 * length sel)) by (apply INR_pos; destruct sel; [congruence|cbn; nia]).
    eexists. eexists. split; [apply (H dt Hdt)|]. split; [apply Hm; lia|].
    assert (S : forall a, (t0 <= a < t0 + t3)%nat -> SD a (a + dt)%nat = total_of (map (fun d => dot d d) (D a dt))).
    { intros a Ha. destruct (HS a (a + dt)%nat ltac:(lia) ltac:(lia)) as [ps [qs [Hps [Hqs ->]]]]. rewrite total_left, Rplus_0_l. rewrite (displacements_unique _ _ _ _ _ _ (HD a dt Ha ltac:(lia)) _ (displacements_of _ _ _ _ _ _ Hps _ Hqs)). rewrite map_map. f_equal.
      clear. revert qs. induction ps as [|p ps IH]; intros [|q qs]; try reflexivity. cbn [combine map fst snd]. rewrite IH. f_equal. destruct p as [[x y] z], q as [[x' y'] z']. reflexivity. }
    assert (T : fold_left Rplus (map (fun a => SD a (a + dt)%nat) (seq t0 t3)) 0 = total_of (map (fun a => total_of (map (fun d => dot d d) (D a dt))) (seq t0 t3))).
    { rewrite total_left, Rplus_0_l. f_equal. apply map_ext_in. intros a Ha. apply in_seq in Ha. apply S. lia. }
    rewrite T. unfold over. split.
    - apply Rmult_le_pos; [|left; apply Rinv_0_lt_compat; auto]. assert (Z := total_le (fun _ : nat => 0) (fun a => total_of (map (fun d => dot d d) (D a dt))) (seq t0 t3)). rewrite total_const in Z. rewrite Rmult_0_r in Z. apply Z. intros a _. assert (Y := total_le (fun _ : vec => 0) (fun d => dot d d) (D a dt)). rewrite total_const, Rmult_0_r in Y. apply Y. intros d _. apply dot_pos.
    - unfold mean_of. rewrite (flat_len _ _ (length sel)), seq_length by (intros a Ha; apply in_seq in Ha; rewrite map_length; apply (displacements_length frames ti sel a (a + dt)%nat), HD; lia).
      apply (Rmult_le_reg_r (INR (t3 * length sel))); auto. unfold Rdiv. rewrite (Rmult_assoc (total_of (flat_map _ _))), Rinv_l, Rmult_1_r by lra. rewrite total_flat.
      apply Rle_trans with (total_of (map (fun a => INR (length sel) - dot q q / 2 * total_of (map (fun d => dot d d) (D a dt))) (seq t0 t3))).
      + right. assert (G : forall l : list nat, total_of (map (fun a => INR (length sel) - dot q q / 2 * total_of (map (fun d => dot d d) (D a dt))) l) = INR (length l) * INR (length sel) - dot q q / 2 * total_of (map (fun a => total_of (map (fun d => dot d d) (D a dt))) l)).
        { induction l as [|a l IH]; [cbn; ring|]. cbn [map length]. unfold total_of at 1. cbn [fold_right]. fold (total_of (map (fun a => INR (length sel) - dot q q / 2 * total_of (map (fun d => dot d d) (D a dt))) l)). rewrite IH, S_INR. unfold total_of at 4. cbn [fold_right]. fold (total_of (map (fun a => total_of (map (fun d => dot d d) (D a dt))) l)). ring. }
        rewrite G, seq_length, mult_INR. rewrite mult_INR in K. assert (K3 := INR_pos t3 Ht3). assert (Ks : 0 < INR (length sel)) by (apply INR_pos; destruct sel; [congruence|cbn; lia]). field. split; lra.
      + apply total_le. intros a Ha. apply in_seq in Ha. assert (Ld := displacements_length _ _ _ _ _ _ (HD a dt ltac:(lia) ltac:(lia))). rewrite <- Ld. clear. induction (D a dt) as [|d l IH]; [cbn; lra|]. cbn [map length]. rewrite S_INR. unfold total_of in *. cbn [fold_right]. assert (B := cos_dot d q). lra.
  Qed.
  (** The mean over the axes of the windowed functions is between -1 and 1, and 1 at lag 0, when every window is spanned by a trajectory. *)
  Theorem C160_windows radius t0 t1 t2 : (t0 < t1)%nat -> (t0 < t2)%nat -> (t1 + (t2 - t0) <= length (inverse ti))%nat ->
    (forall a, t0 <= a < t2 -> exists T, In T (trajs ti) /\ spans T a (a + (t1 - t0)))%nat ->
    exists vs, self_isf_xyz radius frames ti t0 t1 t2 = Val vs /\ length vs = (t1 - t0)%nat /\ nth_error vs 0 = Some 1 /\ forall v, In v vs -> -1 <= v <= 1.
  Proof.
    intros Ht Ht2 Hn Hw. destruct (Hw t0 ltac:(lia)) as [T [IT ST]].
    assert (LT : (t1 - t0 < length (steps T))%nat) by (destruct (ST t0 ltac:(lia)) as [p [k [Ek _]]]; destruct (ST (t0 + (t1 - t0))%nat ltac:(lia)) as [p' [k' [Ek' Hk']]]; assert (X : (k' < length (steps T))%nat) by (apply nth_error_Some; congruence); lia).
    destruct (C83_axes vec R 0 Rplus over (fun n x => INR n * x) (R * R) (fun d => wave_of (axis_q radius d)) wave_cross 1 frames ti t0 t1 t2 T Hc Hsh Ht Ht2 Hn IT LT) as [sels [singles [vs [W [E [L F]]]]]].
    exists vs. split; auto. split; auto.
    assert (Ne : forall a, (t0 <= a < t2)%nat -> sels a <> []). { intros a Ha N. destruct (W a Ha) as [I _]. destruct (Hw a Ha) as [T' [IT' ST']]. apply In_nth_error in IT'. destruct IT' as [tr Etr]. assert (In tr (sels a)) by (apply I; eauto). rewrite N in H. destruct H. }
    assert (SB : forall a d, (t0 <= a < t2)%nat -> nth_error (singles a d) 0 = Some 1 /\ forall dt, (dt < t1 - t0)%nat -> -1 <= nth dt (singles a d) 0 <= 1).
    { intros a d Ha. destruct (W a Ha) as [I [_ Sg]]. destruct (Sg d) as [Es Ls]. destruct (C160_bounds (axis_q radius d) (sels a) a (a + (t1 - t0))%nat 1 ltac:(lia) ltac:(lia) (Ne a Ha)) as [ws [Ew [Lw [W0 Wb]]]].
      { intros t Htt tr Htr. apply I in Htr. destruct Htr as [T' [ET' ST']]. destruct (ST' t ltac:(lia)) as [p Hp]. exists T', p. auto. }
      unfold self_isf in Ew. rewrite Es in Ew. injection Ew as <-. split; auto. intros [|dt] Hdt; [rewrite (nth_error_nth _ _ _ W0); lra|]. destruct (nth_error (singles a d) (S dt)) as [v|] eqn:Ev; [|apply nth_error_None in Ev; lia]. rewrite (nth_error_nth _ _ _ Ev). apply (Wb (S dt) v ltac:(lia) Ev). }
    set (N := list_sum (map (fun a => length (sels a)) (seq t0 (t2 - t0)))) in *.
    assert (PN : forall l, (forall a, In a l -> t0 <= a < t2)%nat -> l <> [] -> (0 < list_sum (map (fun a => length (sels a)) l))%nat).
    { intros [|a l] Hl Nl; [congruence|]. assert (Q := Ne a (Hl a (or_introl eq_refl))). unfold list_sum. cbn [map fold_right]. destruct (sels a); [congruence|cbn; lia]. }
    assert (P3 : 0 < INR (N * 3)). { apply INR_pos. assert (0 < N)%nat; [|lia]. apply PN; [intros a Ha; apply in_seq in Ha; lia|]. destruct (t2 - t0)%nat eqn:Z; [lia|discriminate]. }
    assert (G : forall lo hi f l, (forall a, In a l -> t0 <= a < t2)%nat -> (forall a d, In a l -> lo <= f a d <= hi) ->
      INR (list_sum (map (fun a => length (sels a)) l) * 3) * lo <= total_of (flat_map (fun a => map (fun d => INR (length (sels a)) * f a d) [0; 1; 2]%nat) l) <= INR (list_sum (map (fun a => length (sels a)) l) * 3) * hi).
    { intros lo hi f. induction l as [|a l IH]; intros Hl Hf; [cbn; lra|]. specialize (IH (fun x Hx => Hl x (or_intror Hx)) (fun x d Hx => Hf x d (or_intror Hx))). cbn [flat_map]. rewrite total_app. unfold list_sum in *. cbn [map fold_right]. rewrite Nat.mul_add_distr_r, plus_INR, (mult_INR (length (sels a)) 3). replace (INR 3) with 3 by (cbn; ring).
      assert (A := pos_INR (length (sels a))). assert (B : forall d, INR (length (sels a)) * lo <= INR (length (sels a)) * f a d <= INR (length (sels a)) * hi) by (intros d; destruct (Hf a d (or_introl eq_refl)); split; apply Rmult_le_compat_l; auto).
      assert (B0 := B 0%nat). assert (B1 := B 1%nat). assert (B2 := B 2%nat). set (tl := total_of (flat_map _ l)) in *. cbn [map total_of fold_right]. lra. }
    assert (V : forall lo hi dt, (dt < t1 - t0)%nat -> (forall a d, (t0 <= a < t2)%nat -> lo <= nth dt (singles a d) 0 <= hi) -> exists v, nth_error vs dt = Some v /\ lo <= v <= hi).
    { intros lo hi dt Hdt Hf. rewrite (F dt Hdt). eexists. split; [reflexivity|]. rewrite total_left, Rplus_0_l. fold N. specialize (G lo hi (fun a d => nth dt (singles a d) 0) (seq t0 (t2 - t0))). fold N in G. unfold over.
      assert (G' := G ltac:(intros a Ha; apply in_seq in Ha; lia) ltac:(intros a d Ha; apply in_seq in Ha; apply Hf; lia)). split; apply (Rmult_le_reg_r (INR (N * 3))); auto; unfold Rdiv; rewrite Rmult_assoc, Rinv_l, Rmult_1_r by lra; lra. }
    split.
    - destruct (V 1 1 0%nat ltac:(lia)) as [v [Ev Bv]]; [intros a d Ha; rewrite (nth_error_nth _ _ _ (proj1 (SB a d Ha))); lra|]. rewrite Ev. f_equal. lra.
    - intros v Hv. apply In_nth_error in Hv. destruct Hv as [dt Ev]. assert (B : (dt < t1 - t0)%nat) by (rewrite <- L; apply nth_error_Some; congruence). destruct (V (-1) 1 dt B) as [v' [Ev' Bv]]; [intros a d Ha; apply SB; auto|]. rewrite Ev in Ev'. injection Ev' as <-. auto.
  Qed.
  (** That function is the mean, over the windows, the trajectories that span them and the axes, of the cosine of pi times the displacement along the axis over the radius. *)
  Lemma axis_dot radius d v : dot v (axis_q radius d) = PI / radius * component d v.
  Proof. destruct v as [[x y] z]. destruct d as [|[|d]]; unfold axis_q, component, dot; ring. Qed.
  Theorem C160_axes radius t0 t1 t2 : (t0 < t1)%nat -> (t0 < t2)%nat -> (t1 + (t2 - t0) <= length (inverse ti))%nat ->
    (forall a, t0 <= a < t2 -> exists T, In T (trajs ti) /\ spans T a (a + (t1 - t0)))%nat ->
    exists sels D vs, (forall a, (t0 <= a < t2)%nat -> NoDup (sels a) /\ (forall tr, In tr (sels a) <-> exists T, nth_error (trajs ti) tr = Some T /\ spans T a (a + (t1 - t0))) /\ forall dt, (dt < t1 - t0)%nat -> displacements frames ti (sels a) a (a + dt) (D a dt)) /\
      self_isf_xyz radius frames ti t0 t1 t2 = Val vs /\
      forall dt, (0 < dt < t1 - t0)%nat -> nth_error vs dt = Some (mean_of (flat_map (fun a => flat_map (fun d => map (fun v => cos (PI / radius * component d v)) (D a dt)) [0; 1; 2]%nat) (seq t0 (t2 - t0)))).
  Proof.
    intros Ht Ht2 Hn Hw. destruct (Hw t0 ltac:(lia)) as [T [IT ST]].
    assert (LT : (t1 - t0 < length (steps T))%nat) by (destruct (ST t0 ltac:(lia)) as [p [k [Ek _]]]; destruct (ST (t0 + (t1 - t0))%nat ltac:(lia)) as [p' [k' [Ek' Hk']]]; assert (X : (k' < length (steps T))%nat) by (apply nth_error_Some; congruence); lia).
    destruct (C83_axes vec R 0 Rplus over (fun n x => INR n * x) (R * R) (fun d => wave_of (axis_q radius d)) wave_cross 1 frames ti t0 t1 t2 T Hc Hsh Ht Ht2 Hn IT LT) as [sels [singles [vs [W [E [L F]]]]]].
    set (X := fun sel t => value_of [] (osequence (map (fun tr => place vec frames ti tr t) sel))).
    exists sels, (fun a dt => map (fun yx => minus (fst yx) (snd yx)) (combine (X (sels a) (a + dt)%nat) (X (sels a) a))), vs.
    assert (Pr : forall a t, (t0 <= a < t2)%nat -> (a <= t <= a + (t1 - t0))%nat -> present ti (sels a) t). { intros a t Ha Htt tr Htr. destruct (W a Ha) as [I _]. apply I in Htr. destruct Htr as [T' [ET' ST']]. destruct (ST' t ltac:(lia)) as [p Hp]. exists T', p. auto. }
    assert (HD : forall a dt, (t0 <= a < t2)%nat -> (dt < t1 - t0)%nat -> displacements frames ti (sels a) a (a + dt) (map (fun yx => minus (fst yx) (snd yx)) (combine (X (sels a) (a + dt)%nat) (X (sels a) a)))).
    { intros a dt Ha Hdt. apply displacements_of; unfold X; match goal with |- placed _ _ _ ?t _ => destruct (places_ok vec frames ti Hc Hsh (sels a) t (Pr a t Ha ltac:(lia))) as [ps [-> [Pl _]]]; exact Pl end. }
    split; [intros a Ha; destruct (W a Ha) as [I [N _]]; auto|]. split; auto. intros dt Hdt. rewrite (F dt ltac:(lia)). f_equal. rewrite total_left, Rplus_0_l. unfold mean_of, over.
    assert (Ne : forall a, (t0 <= a < t2)%nat -> sels a <> []). { intros a Ha N. destruct (W a Ha) as [I _]. destruct (Hw a Ha) as [T' [IT' ST']]. apply In_nth_error in IT'. destruct IT' as [tr Etr]. assert (In tr (sels a)) by (apply I; eauto). rewrite N in H. destruct H. }
    set (D := fun a => map (fun yx => minus (fst yx) (snd yx)) (combine (X (sels a) (a + dt)%nat) (X (sels a) a))).
    assert (LD : forall a, (t0 <= a < t2)%nat -> length (D a) = length (sels a)) by (intros a Ha; apply (displacements_length frames ti (sels a) a (a + dt)%nat), HD; lia).
    assert (SG : forall a d, (t0 <= a < t2)%nat -> INR (length (sels a)) * nth dt (singles a d) 0 = total_of (map (fun v => cos (PI / radius * component d v)) (D a))).
    { intros a d Ha. destruct (W a Ha) as [_ [_ Sg]]. destruct (Sg d) as [Es Ls]. destruct (C160_self (axis_q radius d) (sels a) a (a + (t1 - t0))%nat 1 ltac:(lia) ltac:(lia)) as [D' [ws [HD' [Ew [_ [_ H']]]]]]; [intros t Htt; apply Pr; lia|].
      unfold self_isf in Ew. rewrite Es in Ew. injection Ew as <-. rewrite (nth_error_nth _ _ _ (H' dt ltac:(lia))). cbn [seq flat_map]. rewrite app_nil_r. rewrite (displacements_unique _ _ _ _ _ _ (HD' a dt ltac:(lia) ltac:(lia)) _ (HD a dt Ha ltac:(lia))). fold (D a). unfold mean_of. rewrite map_length, (LD a Ha).
      assert (K : 0 < INR (length (sels a))) by (apply INR_pos; assert (Q := Ne a Ha); destruct (sels a); [congruence|cbn; lia]). rewrite (map_ext (fun d0 => cos (dot d0 (axis_q radius d))) (fun v => cos (PI / radius * component d v))) by (intros v; rewrite axis_dot; reflexivity). field. lra. }
    assert (G : forall l, (forall a, In a l -> t0 <= a < t2)%nat -> total_of (flat_map (fun a => map (fun d => INR (length (sels a)) * nth dt (singles a d) 0) [0; 1; 2]%nat) l) = total_of (flat_map (fun a => flat_map (fun d => map (fun v => cos (PI / radius * component d v)) (D a)) [0; 1; 2]%nat) l) /\
      length (flat_map (fun a => flat_map (fun d => map (fun v => cos (PI / radius * component d v)) (D a)) [0; 1; 2]%nat) l) = (list_sum (map (fun a => length (sels a)) l) * 3)%nat).
    { induction l as [|a l IH]; intros Hl; [split; reflexivity|]. destruct (IH (fun x Hx => Hl x (or_intror Hx))) as [I1 I2]. assert (Ha := Hl a (or_introl eq_refl)). split.
      - cbn [flat_map] in I1 |- *. rewrite (total_app (map _ _)), I1, !total_app. cbn [map]. rewrite !(SG a _ Ha). set (tl := total_of (flat_map _ l)). change (total_of []) with 0. match goal with |- total_of [?x; ?y; ?z] + _ = _ => change (total_of [x; y; z]) with (x + (y + (z + 0))) end. ring.
      - cbn [flat_map] in I2 |- *. rewrite app_length, I2, app_nil_r, !app_length, !map_length, (LD a Ha). unfold list_sum. cbn [map fold_right]. lia. }
    destruct (G (seq t0 (t2 - t0))) as [G1 G2]; [intros a Ha; apply in_seq in Ha; lia|]. rewrite G1, <- G2. reflexivity.
  Qed.
  (** getISF from time 0: the mean over origins of the sum, over all pairs of trajectories, of the cosine for the vector from the one at the origin to the other at the end. *)
  Lemma rho_sum q xs : forall w, fold_left (fun w p => wave_add w (wave_of q p)) xs w = (fst w + total_of (map (fun x => cos (dot x q)) xs), snd w + total_of (map (fun x => sin (dot x q)) xs)).
  Proof.
    induction xs as [|x xs IH]; intros [a b]; [cbn; f_equal; ring|]. cbn [fold_left map]. rewrite IH. unfold wave_add. cbn [fst snd]. unfold total_of. cbn [fold_right]. assert (Ex : wave_of q x = (cos (dot x q), sin (dot x q))) by (destruct x as [[x1 x2] x3], q as [[q1 q2] q3]; reflexivity). rewrite Ex. cbn [fst snd]. f_equal; ring.
  Qed.
  Lemma cross_rho q xs ys : wave_cross (rho vec (R * R) (0, 0) wave_add (wave_of q) xs) (rho vec (R * R) (0, 0) wave_add (wave_of q) ys) = total_of (flat_map (fun x => map (fun y => cos (dot (minus x y) q)) ys) xs).
  Proof.
    unfold rho. rewrite !rho_sum. unfold wave_cross. cbn [fst snd]. rewrite !Rplus_0_l. induction xs as [|x xs IH]; [cbn; ring|]. cbn [map flat_map]. rewrite total_app, <- IH. clear IH.
    assert (G : total_of (map (fun y => cos (dot (minus x y) q)) ys) = cos (dot x q) * total_of (map (fun y => cos (dot y q)) ys) + sin (dot x q) * total_of (map (fun y => sin (dot y q)) ys)).
    { induction ys as [|y ys IH]; [cbn; ring|]. unfold total_of in *. cbn [map fold_right]. rewrite IH, dot_minus_l, cos_minus. ring. }
    rewrite G. unfold total_of at 1 3. cbn [fold_right]. fold (total_of (map (fun x => cos (dot x q)) xs)). fold (total_of (map (fun x => sin (dot x q)) xs)). ring.
  Qed.
  Theorem C160_collective q sel t1 : sel <> [] -> (forall t, t <= t1 -> present ti sel t)%nat ->
    exists X vs, (forall t, (t <= t1)%nat -> placed frames ti sel t (X t)) /\ isf q frames ti sel 0 t1 = Val vs /\ length vs = (t1 + 1)%nat /\ nth_error vs 0 = Some 1 /\
      forall dt, (0 < dt <= t1)%nat -> nth_error vs dt = Some (mean_of (map (fun a => total_of (flat_map (fun x => map (fun y => cos (dot (minus x y) q)) (X a)) (X (a + dt)%nat))) (seq 0 (t1 + 1 - dt)))).
  Proof.
    intros Ne Hp. destruct (C49_isf vec R 0 Rplus over (R * R) (0, 0) wave_add (wave_of q) wave_cross 1 frames ti sel t1 Hc Hsh Ne Hp) as [X [vs [HX [E [L [H0 H]]]]]]. exists X, vs. repeat (split; auto). intros dt Hdt. rewrite (H dt Hdt). f_equal.
    rewrite total_left, Rplus_0_l, total_flat. unfold mean_of. rewrite map_length, seq_length. unfold over. rewrite mult_INR. assert (K1 : 0 < INR (t1 + 1 - dt)) by (apply INR_pos; lia). assert (K2 : 0 < INR (length sel)) by (apply INR_pos; destruct sel; [congruence|cbn; lia]).
    replace (total_of (map (fun a => total_of (repeat (wave_cross (rho vec (R * R) (0, 0) wave_add (wave_of q) (X (a + dt)%nat)) (rho vec (R * R) (0, 0) wave_add (wave_of q) (X a))) (length sel))) (seq 0 (t1 + 1 - dt)))) with (INR (length sel) * total_of (map (fun a => total_of (flat_map (fun x => map (fun y => cos (dot (minus x y) q)) (X a)) (X (a + dt)%nat))) (seq 0 (t1 + 1 - dt)))).
    - field. split; lra.
    - rewrite <- total_map_scal. f_equal. apply map_ext. intros a. rewrite total_repeat, cross_rho. reflexivity.
  Qed.
  (** It is not normalised: for k trajectories in one plane perpendicular to the wave vector it is 1 at lag 0 and k*k at all others. *)
  Theorem C160_norm_refuted q sel t1 h : sel <> [] -> (forall t, t <= t1 -> present ti sel t)%nat -> (forall t xs x, placed frames ti sel t xs -> In x xs -> dot x q = h) ->
    exists vs, isf q frames ti sel 0 t1 = Val vs /\ nth_error vs 0 = Some 1 /\ forall dt, (0 < dt <= t1)%nat -> nth_error vs dt = Some (INR (length sel) * INR (length sel)).
  Proof.
    intros Ne Hp Hh. destruct (C160_collective q sel t1 Ne Hp) as [X [vs [HX [E [L [H0 H]]]]]]. exists vs. split; auto. split; auto. intros dt Hdt. rewrite (H dt Hdt). f_equal.
    assert (LX : forall t, (t <= t1)%nat -> length (X t) = length sel) by (intros t Htt; specialize (HX t Htt); unfold placed in HX; clear - HX; induction HX; cbn; congruence).
    assert (A : forall v, In v (map (fun a => total_of (flat_map (fun x => map (fun y => cos (dot (minus x y) q)) (X a)) (X (a + dt)%nat))) (seq 0 (t1 + 1 - dt))) -> INR (length sel) * INR (length sel) <= v <= INR (length sel) * INR (length sel)).
    { intros v Hv. apply in_map_iff in Hv. destruct Hv as [a [<- Ha]]. apply in_seq in Ha.
      assert (B := total_bounds 1 1 (flat_map (fun x => map (fun y => cos (dot (minus x y) q)) (X a)) (X (a + dt)%nat))). rewrite (flat_len _ _ (length sel)), LX, mult_INR in B by (try (intros x _; rewrite map_length; apply LX); lia).
      rewrite !Rmult_1_r in B. apply B. intros x Hx. apply in_flat_map in Hx. destruct Hx as [y [Hy Hz]]. apply in_map_iff in Hz. destruct Hz as [z [<- Hz]]. rewrite dot_minus_l, (Hh _ _ _ (HX (a + dt)%nat ltac:(lia)) Hy), (Hh _ _ _ (HX a ltac:(lia)) Hz). replace (h - h) with 0 by ring. rewrite cos_0. lra. }
    match type of A with forall v, In v ?l -> _ => assert (Nl : l <> []) by (destruct (t1 + 1 - dt)%nat eqn:Z; [lia|discriminate]) end. assert (M := mean_bounds _ _ _ Nl A). lra.
  Qed.
End C160.

(** Only the positions along the wave vector count, up to a constant and to the sense: moving the whole sample, turning it with the wave vector, any motion perpendicular to it, or taking the opposite vector changes nothing. *)
Section Seen.
  Variables (frames frames' : list (list vec)) (ti : trajindex) (q q' : vec) (s c : R).
  Hypotheses (Hs : s = 1 \/ s = -1) (Rel : Forall2 (Forall2 (fun p p' => dot p' q' = s * dot p q + c)) frames frames').
  Lemma value_seen T t x x' : value_at frames T t x -> value_at frames' T t x' -> dot x' q' = s * dot x q + c.
  Proof.
    intros [p [f [[k [Ek Hk]] [Ef Ep]]]] [p' [f' [[k' [Ek' Hk']] [Ef' Ep']]]]. assert (k = k') by lia. subst k'. rewrite Hk in Hk'. injection Hk' as <-.
    assert (F : Forall2 (fun p p' => dot p' q' = s * dot p q + c) f f'). { clear - Rel Ef Ef'. revert t Ef Ef'. induction Rel as [|g g' l l' G L IH]; intros [|t] Ef Ef'; try discriminate; cbn in Ef, Ef'; [congruence|eauto]. }
    clear - F Ep Ep'. revert p Ep Ep'. induction F as [|g g' l l' G L IH]; intros [|p] E E'; try discriminate; cbn in E, E'; [congruence|eauto].
  Qed.
  Lemma cos_seen sel a b ds : displacements frames ti sel a b ds -> forall es, displacements frames' ti sel a b es -> map (fun d => cos (dot d q)) ds = map (fun d => cos (dot d q')) es.
  Proof.
    unfold displacements. induction 1 as [|tr d sel ds [T [x [y [ET [Hx [Hy ->]]]]]] F IH]; intros es G; inversion G as [|? e ? es' [T' [x' [y' [ET' [Hx' [Hy' ->]]]]]] G']; subst; [reflexivity|]. rewrite ET in ET'. injection ET' as <-. cbn [map]. f_equal; [|auto].
    rewrite !dot_minus_l, (value_seen _ _ _ _ Hx Hx'), (value_seen _ _ _ _ Hy Hy'). destruct Hs as [-> | ->]; [f_equal; ring|]. rewrite <- cos_neg. f_equal. ring.
  Qed.
  Theorem C160_seen sel t0 t1 t3 : consistent ti -> map (@length vec) frames = map (@length nat) (inverse ti) -> (t0 < t1)%nat -> (0 < t3)%nat -> (forall t, t0 <= t < t1 + t3 -> present ti sel t)%nat ->
    self_isf q' frames' ti sel t0 t1 t3 = self_isf q frames ti sel t0 t1 t3.
  Proof.
    intros Hc Hsh Ht Ht3 Hp. assert (Hsh' : map (@length vec) frames' = map (@length nat) (inverse ti)). { rewrite <- Hsh. clear - Rel. induction Rel as [|f f' l l' F L IH]; [reflexivity|]. cbn [map]. f_equal; [|exact (IH L)]. clear - F. induction F; cbn; congruence. }
    destruct (C160_self frames ti Hc Hsh q sel t0 t1 t3 Ht Ht3 Hp) as [D [vs [HD [E [L [H0 H]]]]]]. destruct (C160_self frames' ti Hc Hsh' q' sel t0 t1 t3 Ht Ht3 Hp) as [D' [vs' [HD' [E' [L' [H0' H']]]]]]. rewrite E, E'. f_equal. apply nth_error_ext. intros [|dt]; [congruence|].
    destruct (Nat.lt_ge_cases (S dt) (t1 - t0)) as [B|B]; [|rewrite !(proj2 (nth_error_None _ _)) by lia; reflexivity]. rewrite H, H' by lia. do 2 f_equal. rewrite !flat_map_concat_map. f_equal. apply map_ext_in. intros a Ha. apply in_seq in Ha. symmetry. apply (cos_seen sel a (a + S dt)%nat); [apply HD|apply HD']; lia.
  Qed.
End Seen.

(** Two trajectories over three times, that move by 1 along x at each step; wave vectors of wavelength 2 along x and y. *)
Definition wave_ti : trajindex := (mkIndex [mkTraj 0 [0; 1; 0]; mkTraj 0 [1; 0; 1]] [[0; 1]; [1; 0]; [0; 1]])%nat.
Definition wave_frames : list (list vec) := [[(0, 0, 0); (5, 0, 0)]; [(6, 0, 0); (1, 0, 0)]; [(2, 0, 0); (7, 0, 0)]].
Lemma wave_consistent : consistent wave_ti.
Proof.
  split.
  - intros t p tr. unfold invert, wave_ti. cbn [inverse trajs]. split.
    + intros H. destruct t as [|[|[|t]]]; simpl in H; try (destruct t; discriminate); destruct p as [|[|p]]; simpl in H; try discriminate; try (destruct p; discriminate); injection H as <-; eexists; (split; [reflexivity|]); unfold at_time; cbn [start steps].
      all: first [exists 0%nat; split; [lia|reflexivity] | exists 1%nat; split; [lia|reflexivity] | exists 2%nat; split; [lia|reflexivity]].
    + intros [T [HT [k [-> Hk]]]]. destruct tr as [|[|tr]]; simpl in HT; try (destruct tr; discriminate); injection HT as <-; cbn [start steps] in *; destruct k as [|[|[|k]]]; simpl in Hk; try discriminate; try (destruct k; discriminate); injection Hk as <-; reflexivity.
  - intros tr T HT. destruct tr as [|[|tr]]; simpl in HT; try (destruct tr; discriminate); injection HT as <-; cbn [start steps length]; split; try discriminate; try lia.
Qed.
Lemma wave_present t : (t <= 2)%nat -> present wave_ti [0; 1]%nat t.
Proof.
  intros Ht tr [<-|[<-|[]]]; destruct t as [|[|[|t]]]; try lia; (eexists; eexists; split; [reflexivity|]); unfold at_time; cbn [start steps]; first [exists 0%nat; split; [lia|reflexivity] | exists 1%nat; split; [lia|reflexivity] | exists 2%nat; split; [lia|reflexivity]].
Qed.
Example C160_case : consistent wave_ti /\ map (@length vec) wave_frames = map (@length nat) (inverse wave_ti) /\ (forall t, (t <= 2)%nat -> present wave_ti [0; 1]%nat t) /\
  self_isf (PI, 0, 0) wave_frames wave_ti [0; 1]%nat 0 2 1 = Val [1; -1] /\ self_isf (2 * PI, 0, 0) wave_frames wave_ti [0; 1]%nat 0 2 1 = Val [1; 1] /\ msd wave_frames wave_ti [0; 1]%nat 0 2 1 = Val [0; 1; 4] /\
  isf (0, PI, 0) wave_frames wave_ti [0; 1]%nat 0 2 = Val [1; 4; 4].
Proof.
  assert (C1 : cos PI = -1) by apply cos_PI. assert (D01 : displacements wave_frames wave_ti [0; 1]%nat 0 1 [(1, 0, 0); (1, 0, 0)]).
  { apply Forall2_cons; [|apply Forall2_cons; [|constructor]].
    - exists (mkTraj 0 [0; 1; 0])%nat, (0, 0, 0), (1, 0, 0). split; [reflexivity|]. split; [exists 0%nat, [(0, 0, 0); (5, 0, 0)]; repeat split; exists 0%nat; auto|]. split; [exists 1%nat, [(6, 0, 0); (1, 0, 0)]; repeat split; exists 1%nat; auto|]. unfold minus. f_equal; [f_equal|]; ring.
    - exists (mkTraj 0 [1; 0; 1])%nat, (5, 0, 0), (6, 0, 0). split; [reflexivity|]. split; [exists 1%nat, [(0, 0, 0); (5, 0, 0)]; repeat split; exists 0%nat; auto|]. split; [exists 0%nat, [(6, 0, 0); (1, 0, 0)]; repeat split; exists 1%nat; auto|]. unfold minus. f_equal; [f_equal|]; ring. }
  assert (S : forall q, self_isf q wave_frames wave_ti [0; 1]%nat 0 2 1 = Val [1; cos (dot (1, 0, 0) q)]).
  { intros q. destruct (C160_self wave_frames wave_ti wave_consistent eq_refl q [0; 1]%nat 0 2 1 ltac:(lia) ltac:(lia) ltac:(intros; apply wave_present; lia)) as [D [vs [HD [E [L [H0 H]]]]]]. rewrite E. f_equal. assert (H1 := H 1%nat ltac:(lia)).
    assert (HDD := displacements_unique _ _ _ _ _ _ D01 _ (HD 0%nat 1%nat ltac:(lia) ltac:(lia))). destruct vs as [|v0 [|v1 [|]]]; try discriminate. cbn [nth_error] in H0, H1. injection H0 as ->. injection H1 as ->. f_equal. f_equal. cbn [seq flat_map]. rewrite <- HDD.
    unfold mean_of, total_of. cbn [map app length fold_right]. replace (INR 2) with 2 by (cbn; ring). field. }
  split; [apply wave_consistent|]. split; [reflexivity|]. split; [apply wave_present|]. split; [rewrite S; unfold dot; replace (1 * PI + 0 * 0 + 0 * 0) with PI by ring; rewrite C1; reflexivity|].
  split; [rewrite S; unfold dot; replace (1 * (2 * PI) + 0 * 0 + 0 * 0) with (2 * PI) by ring; rewrite cos_2PI; reflexivity|]. split.
  - unfold msd, wave_frames, wave_ti. unfold get_msd. cbn -[INR]. f_equal. unfold over. replace (INR 2) with 2 by (cbn; ring). f_equal. f_equal; [field|]. f_equal. field.
  - destruct (C160_norm_refuted wave_frames wave_ti wave_consistent eq_refl (0, PI, 0) [0; 1]%nat 2 0 ltac:(discriminate) wave_present) as [vs [E [H0 H]]].
    + intros t xs x P Hx. unfold placed in P. assert (In x (concat wave_frames)) as I. { clear - P Hx. revert Hx. induction P as [|tr p l l' [T [_ [k [f [_ [Ef Ep]]]]]] F IH]; [intros []|intros [<-|Hx]; auto]. apply in_concat. exists f. split; eapply nth_error_In; eauto. }
      cbn in I. repeat (destruct I as [<-|I]; [unfold dot; ring|]). destruct I.
    + rewrite E. f_equal. destruct (C160_collective wave_frames wave_ti wave_consistent eq_refl (0, PI, 0) [0; 1]%nat 2 ltac:(discriminate) wave_present) as [X [ws [_ [Ew [L _]]]]]. rewrite E in Ew. injection Ew as <-. assert (H1 := H 1%nat ltac:(lia)). assert (H2 := H 2%nat ltac:(lia)). destruct vs as [|v0 [|v1 [|v2 [|]]]]; try discriminate. cbn [nth_error] in *. injection H0 as ->. injection H1 as ->. injection H2 as ->. cbn [length]. replace (INR 2) with 2 by (cbn; ring). repeat f_equal; ring.
Qed.

Print Assumptions C160_self.
Print Assumptions C160_bounds.
Print Assumptions C160_msd.
Print Assumptions C160_windows.
Print Assumptions C160_axes.
Print Assumptions C160_collective.
Print Assumptions C160_norm_refuted.
Print Assumptions C160_seen.
Print Assumptions C160_case.

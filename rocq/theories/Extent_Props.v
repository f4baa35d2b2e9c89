(** C92: boxes around trajectories, frames and clusters.  C93: cluster files.  C94: orientational order of selected trajectories. *)
Require Import ZArith List Bool Arith Lia Sorted NArith Ascii Relation_Operators Operators_Properties.
Require Import Verif.Base Verif.SortU Verif.ListX Verif.Dec Verif.Box_Model Verif.Box_Spec Verif.Box_Proofs Verif.RTree_Model Verif.RTree_Proofs Verif.RTree_Heuristics Verif.Traj_Model Verif.Traj_Spec Verif.Traj_Proofs
  Verif.Particles_Model Verif.Particles_Spec Verif.Cluster_Spec Verif.Dyn_Model Verif.Dyn_Spec Verif.Drift_Proofs Verif.Corr_Model Verif.Corr_Spec Verif.Corr_Proofs Verif.Files_Model Verif.Export_Spec Verif.Export_Proofs Verif.TrajMap_Proofs Verif.Traj_Props Verif.Particles_Props Verif.RTree_Spec Verif.Cluster_Model Verif.Cluster_Proofs Verif.Cluster_Props Verif.Dyn_Proofs Verif.Extent_Model Verif.Extent_Spec Verif.Extent_Proofs.
Import ListNotations.
Local Open Scope nat_scope.

Section C92.
  Variables (frames : list (list (list Z))) (ti : trajindex).
  Hypothesis Hc : consistent ti.
  Hypothesis Hsh : map (@length (list Z)) frames = map (@length nat) (inverse ti).
  Hypothesis H3 : Forall (Forall point3) frames.

  (** C92.  boundsTrajectory: the smallest box that contains all the positions of the trajectory. *)
  Theorem C92_trajectory tr T : nth_error (trajs ti) tr = Some T ->
    exists b, bounds_traj frames ti tr = Val b /\ length b = 3 /\ smallest_box b (fun x => exists t, value_at frames T t x).
  Proof.
    intros HT. destruct (bounds_traj_ok frames ti Hc Hsh tr T HT) as [p0 [ps [E Hin]]]. eexists. split; [exact E|].
    assert (L : forall x, In x (p0 :: ps) -> length x = 3) by (intros x Hx; apply Hin in Hx; destruct Hx as [t V]; eapply value_3; eauto).
    destruct (hull_points 0 ps p0 3) as [L3 S3]; [lia|apply L; left; auto|apply Forall_forall; intros x Hx; apply L; right; auto|]. split; auto.
    eapply smallest_ext; [|exact S3]. intros x. cbn beta. split.
    - intros [p [Hi Hw]]. apply within_0 in Hw. subst. apply Hin. auto.
    - intros Hx. exists x. split; [apply Hin; auto|]. apply within_0. auto.
  Qed.
  (** DynamicClusters::bounds: the smallest box that contains the balls of the given radius around the members. *)
  Theorem C92_cluster r cl t : (0 <= r)%Z -> cl <> [] -> present ti cl t ->
    exists b, cluster_bounds frames ti r cl t = Val b /\ length b = 3 /\
      smallest_box b (fun x => exists tr T y, In tr cl /\ nth_error (trajs ti) tr = Some T /\ value_at frames T t y /\ within r y x).
  Proof.
    intros Hr Hne Hp. destruct (cluster_bounds_ok frames ti Hc Hsh r cl t Hne Hp) as [p0 [ps [E Hin]]]. eexists. split; [exact E|].
    assert (L : forall x, In x (p0 :: ps) -> length x = 3) by (intros x Hx; apply Hin in Hx; destruct Hx as [tr [T [_ [_ V]]]]; eapply value_3; eauto).
    destruct (hull_points r ps p0 3) as [L3 S3]; [lia|apply L; left; auto|apply Forall_forall; intros x Hx; apply L; right; auto|]. split; auto.
    eapply smallest_ext; [|exact S3]. intros x. cbn beta. split.
    - intros [p [Hi Hw]]. apply Hin in Hi. destruct Hi as [tr [T [A [B C]]]]. exists tr, T, p. auto.
    - intros [tr [T [y [A [B [C D]]]]]]. exists y. split; auto. apply Hin. eauto.
  Qed.
  (** A member that does not exist at that time is refused. *)
  Theorem C92_cluster_refused r cl t tr T : Forall (fun k => k < length (trajs ti)) cl -> In tr cl -> nth_error (trajs ti) tr = Some T -> (forall p, ~ at_time T t p) ->
    cluster_bounds frames ti r cl t = Throw.
  Proof.
    intros Hl Hi HT Hno.
    assert (Hm : forall k, In k cl -> member_bounds frames ti r t k = Throw \/ exists b, member_bounds frames ti r t k = Val b).
    { intros k Hk. rewrite Forall_forall in Hl. destruct (nth_error_ex (trajs ti) k (Hl k Hk)) as [K HK]. assert (Hs := proj2 Hc k K HK). destruct (exist_at K t) eqn:E.
      - apply exist_at_iff in E; auto. destruct (at_time_ex K t E) as [p Hp]. destruct (value_ex ti frames k K t p Hc Hsh HK Hp) as [x V]. right. eexists. eapply member_ok; eauto.
      - left. unfold member_bounds. rewrite HK, E. auto. }
    assert (Ht : member_bounds frames ti r t tr = Throw).
    { unfold member_bounds. rewrite HT. assert (Hs := proj2 Hc tr T HT). destruct (exist_at T t) eqn:E; auto. apply exist_at_iff in E; auto. destruct (at_time_ex T t E) as [p Hp]. destruct (Hno p Hp). }
    assert (G : forall l b, incl l cl -> In tr l -> ofold (fun tr b => omap (stretch b) (member_bounds frames ti r t tr)) l b = Throw).
    { induction l as [|k l IH]; intros b Hincl Hin; [destruct Hin|]. cbn [ofold]. destruct (Hm k) as [E|[b' E]]; [apply Hincl; left; auto|rewrite E; auto|].
      rewrite E. cbn [omap obind]. destruct Hin as [->|Hin]; [congruence|]. apply IH; auto. intros z Hz. apply Hincl. right. auto. }
    unfold cluster_bounds. destruct cl as [|k cl]; [destruct Hi|]. destruct (Hm k) as [E|[b E]]; [left; auto|rewrite E; auto|]. rewrite E. cbn [obind]. apply G; auto. apply incl_refl.
  Qed.
  (** getLargestDelta: along each axis, the largest distance between two members of a same cluster, plus a diameter; 0 without cluster. *)
  Theorem C92_delta r members t ms : (0 <= r)%Z -> nth_error members t = Some ms -> Forall (fun cl => cl <> [] /\ present ti cl t) ms ->
    exists m, largest_delta frames ti r members t = Val m /\ length m = 3 /\ (ms = [] -> m = [0; 0; 0]%Z) /\
      let same_cluster x y := exists cl tr T tr' T', In cl ms /\ In tr cl /\ In tr' cl /\ nth_error (trajs ti) tr = Some T /\ nth_error (trajs ti) tr' = Some T' /\ value_at frames T t x /\ value_at frames T' t y in
      forall d, d < 3 ->
        (forall x y, same_cluster x y -> (coord d y - coord d x + 2 * r <= coord d m)%Z) /\
        (ms <> [] -> exists x y, same_cluster x y /\ coord d m = (coord d y - coord d x + 2 * r)%Z).
  Proof.
    intros Hr Hm HF. unfold largest_delta. rewrite Hm.
    set (near cl x := exists tr T, In tr cl /\ nth_error (trajs ti) tr = Some T /\ value_at frames T t x).
    assert (Hcl : forall cl, In cl ms -> exists b, cluster_bounds frames ti r cl t = Val b /\ length b = 3 /\
      (forall d e, nth_error b d = Some e -> (exists x y, near cl x /\ near cl y /\ fst e = (coord d x - r)%Z /\ snd e = (coord d y + r)%Z) /\
         forall x, near cl x -> (fst e <= coord d x - r /\ coord d x + r <= snd e)%Z)).
    { intros cl Hi. rewrite Forall_forall in HF. destruct (HF cl Hi) as [Hne Hp]. destruct (cluster_bounds_ok frames ti Hc Hsh r cl t Hne Hp) as [p0 [ps [E Hin]]].
      assert (L : forall x, In x (p0 :: ps) -> length x = 3) by (intros x Hx; apply Hin in Hx; destruct Hx as [tr [T [_ [_ V]]]]; eapply value_3; eauto).
      assert (F : Forall (fun p => length p = 3) ps) by (apply Forall_forall; intros x Hx; apply L; right; auto). assert (L0 : length p0 = 3) by (apply L; left; auto).
      destruct (hull_points r ps p0 3) as [L3 [S3 _]]; auto. eexists. split; [exact E|]. split; auto. intros d e He. split.
      - eapply (hull_edges r d e ps (bounds p0 r) 3 (near cl)); eauto.
        + rewrite bounds_len. auto.
        + intros p Hp'. apply Hin. right. auto.
        + intros e' He'. exists p0, p0. unfold bounds in He'. rewrite nth_error_map in He'. destruct (nth_error p0 d) as [c|] eqn:Ec; [|discriminate]. injection He' as <-.
          unfold coord. rewrite (nth_error_nth _ _ 0%Z Ec). cbn. repeat split; auto; apply Hin; left; auto.
      - intros x Hx. apply Hin in Hx. assert (W : forall s, (Z.abs s <= r)%Z -> within r x (map (fun a => a + s)%Z x)) by (intros s Hs; clear - Hs; induction x; cbn; constructor; auto; lia).
        assert (D : forall s, (Z.abs s <= r)%Z -> (fst e <= coord d x + s <= snd e)%Z).
        { intros s Hs. assert (I : inside (map (fun a => a + s)%Z x) (fold_left stretch (map (fun p => bounds p r) ps) (bounds p0 r))) by (apply S3; exists x; auto).
          assert (Ld := L x Hx). assert (d < 3) by (rewrite <- L3; eapply nth_error_lt; eauto). destruct (nth_error_ex x d) as [a Ea]; [lia|].
          clear - I He Ea. unfold coord. rewrite (nth_error_nth _ _ 0%Z Ea). revert I He. generalize (fold_left stretch (map (fun p => bounds p r) ps) (bounds p0 r)). intros b I. revert x d a Ea I. induction b as [|u b IH]; intros x d a Ea I He; [destruct d; discriminate|].
          destruct x as [|z x]; [inversion I|]. inversion I as [|? ? ? ? Hz Hb]; subst. destruct d; cbn in He, Ea; [injection He as ->; injection Ea as ->; auto|]. eapply IH; eauto. }
        assert (D1 := D (- r)%Z). assert (D2 := D r). lia. }
    assert (G : forall l m0, incl l ms -> length m0 = 3 -> exists m, ofold (fun k m => omap (larger m) (cluster_bounds frames ti r k t)) l m0 = Val m /\ length m = 3 /\
      forall d, d < 3 -> (coord d m0 <= coord d m)%Z /\ (forall cl x y, In cl l -> near cl x -> near cl y -> (coord d y - coord d x + 2 * r <= coord d m)%Z) /\
        (coord d m = coord d m0 \/ exists cl x y, In cl l /\ near cl x /\ near cl y /\ coord d m = (coord d y - coord d x + 2 * r)%Z)).
    { induction l as [|k l IH]; intros m0 Hincl L0.
      - exists m0. split; [reflexivity|]. split; auto. intros d Hd. split; [lia|]. split; [intros cl x y []|auto].
      - destruct (Hcl k) as [b [E [Lb Hb]]]; [apply Hincl; left; auto|]. cbn [ofold]. rewrite E. cbn [omap obind].
        destruct (IH (larger m0 b)) as [m [Em [Lm Hm']]]; [intros z Hz; apply Hincl; right; auto|unfold larger; rewrite map_length, combine_length; lia|].
        exists m. split; auto. split; auto. intros d Hd. destruct (Hm' d Hd) as [A [B C]].
        destruct (nth_error_ex b d) as [e He]; [lia|]. destruct (nth_error_ex m0 d) as [a Ha]; [lia|]. destruct (Hb d e He) as [[x0 [y0 [Nx [Ny [E1 E2]]]]] Hall].
        assert (El : coord d (larger m0 b) = if (a <? snd e - fst e)%Z then (snd e - fst e)%Z else a).
        { unfold coord, larger. apply nth_error_nth. erewrite map_nth_error; [|apply combine_nth; eauto]. reflexivity. }
        assert (Ea : coord d m0 = a) by (apply nth_error_nth; auto). rewrite Ea. rewrite El in A, C. split; [|split].
        + destruct (Z.ltb_spec a (snd e - fst e)); lia.
        + intros cl x y [<-|Hi] Hx Hy; [|eapply B; eauto]. assert (P1 := Hall x Hx). assert (P2 := Hall y Hy). destruct (Z.ltb_spec a (snd e - fst e)); lia.
        + destruct C as [C|[cl [x [y [Hi R]]]]]; [|right; exists cl, x, y; split; [right; auto|auto]]. destruct (Z.ltb_spec a (snd e - fst e)); [|left; auto]. right. exists k, x0, y0. split; [left; auto|]. split; auto. split; auto. lia. }
    destruct (G ms [0; 0; 0]%Z (incl_refl _) eq_refl) as [m [E [L Hd]]]. exists m. split; auto. split; auto. split.
    { intros ->. cbn in E. congruence. }
    cbv zeta. intros d Hlt. destruct (Hd d Hlt) as [A [B C]]. split.
    - intros x y [cl [tr [T [tr' [T' [I1 [I2 [I3 [I4 [I5 [I6 I7]]]]]]]]]]]. eapply (B cl); auto; [exists tr, T|exists tr', T']; auto.
    - intros Hne. assert (C' : exists cl x y, In cl ms /\ near cl x /\ near cl y /\ coord d m = (coord d y - coord d x + 2 * r)%Z).
      { destruct C as [C|C]; auto. destruct ms as [|cl ms']; [congruence|]. rewrite Forall_forall in HF. destruct (HF cl (or_introl eq_refl)) as [Hn Hp]. destruct cl as [|k cl]; [congruence|].
        destruct (Hp k (or_introl eq_refl)) as [T [p [HT Ht]]]. destruct (value_ex ti frames k T t p Hc Hsh HT Ht) as [x V]. assert (N : near (k :: cl) x) by (exists k, T; split; [left; auto|auto]).
        exists (k :: cl), x, x. split; [left; auto|]. split; auto. split; auto. assert (Q := B (k :: cl) x x (or_introl eq_refl) N N). assert (coord d [0; 0; 0]%Z = 0%Z) by (destruct d as [|[|[|?]]]; auto; lia). lia. }
      destruct C' as [cl [x [y [Hi [[tr [T [A1 [A2 A3]]]] [[tr' [T' [B1 [B2 B3]]]] Ed]]]]]]. exists x, y. split; auto. exists cl, tr, T, tr', T'. auto 10.
  Qed.
End C92.
(** getMaxBox: the smallest box that contains the boxes of all the frames. *)
Theorem C92_max_box frames : frames <> [] -> Forall (fun st => length (pbb st) = 3) frames -> exists b, max_box frames = Val b /\ is_hull b (map pbb frames).
Proof.
  intros Hne F. destruct frames as [|f rest]; [congruence|]. inversion F as [|? ? Lf Fr]; subst. exists (fold_left stretch (map pbb rest) (pbb f)). split; [reflexivity|].
  assert (G : Forall (fun x => length x = length (pbb f)) (map pbb rest)).
  { rewrite Lf. apply Forall_forall. intros b Hb. apply in_map_iff in Hb. destruct Hb as [st [<- Hi]]. rewrite Forall_forall in Fr. auto. }
  split.
  - intros b [<-|Hb]; [apply fold_stretch_acc; auto|apply fold_stretch_in; auto].
  - intros c _ Hc. apply fold_stretch_least; [apply Hc; left; auto|]. apply Forall_forall. intros b Hb. apply Hc. right. auto.
Qed.
(** It does not have to contain the particles: those added one by one do not enlarge the box of their frame. *)
Theorem C92_max_box_refuted c bb r : length bb = 3 -> exists p st, point3 p /\ prun c (new_particles [] bb r) [PPush p] = Some st /\ max_box [st] = Val bb /\ pts st = [p] /\ ~ inside p bb.
Proof.
  intros L. destruct bb as [|[a1 a2] bb]; [discriminate|]. exists [a2 + 1; 0; 0]%Z. eexists. split; [do 3 eexists; reflexivity|]. split; [reflexivity|]. split; [reflexivity|]. split; [reflexivity|].
  intros I. inversion I as [|? ? ? ? H _]. cbn in H. lia.
Qed.
(** getMaxSimultaneousParticles: the largest number of particles of a frame. *)
Theorem C92_most frames : frames <> [] -> exists n st, max_simultaneous frames = Val n /\ In st frames /\ n = length (pts st) /\ forall st', In st' frames -> length (pts st') <= n.
Proof.
  intros Hne. destruct frames as [|f rest]; [congruence|]. unfold max_simultaneous. cbn [map].
  assert (G : forall l m, exists n, fold_left (fun m n => if m <? n then n else m) (map (fun f => length (pts f)) l) m = n /\ m <= n /\ (forall st, In st l -> length (pts st) <= n) /\ (n = m \/ exists st, In st l /\ n = length (pts st))).
  { induction l as [|x l IH]; intros m; cbn [map fold_left].
    - exists m. split; auto. split; auto. split; auto. intros st [].
    - destruct (IH (if m <? length (pts x) then length (pts x) else m)) as [n [E [A [B C]]]]. exists n. split; auto. destruct (Nat.ltb_spec m (length (pts x))).
      + split; [lia|]. split; [intros st [<-|Hi]; auto|]. right. destruct C as [C|[st [Hi C]]]; [exists x; split; [left; auto|auto]|exists st; split; [right; auto|auto]].
      + split; auto. split; [intros st [<-|Hi]; auto; lia|]. destruct C as [C|[st [Hi C]]]; auto. right. exists st. split; [right; auto|auto]. }
  destruct (G rest (length (pts f))) as [n [E [A [B C]]]]. exists n. assert (D : exists st, In st (f :: rest) /\ n = length (pts st)).
  { destruct C as [C|[st [Hi C]]]; [exists f; split; [left; auto|auto]|exists st; split; [right; auto|auto]]. }
  destruct D as [st [Hi Hn]]. exists st. split; [rewrite E; auto|]. split; auto. split; auto. intros st' [<-|Hi']; auto.
Qed.
(** Without frame both are undefined, and so is the box of an empty cluster. *)
Theorem C92_empty_refuted frames ti r t : max_box [] = UB /\ max_simultaneous [] = UB /\ cluster_bounds frames ti r [] t = UB.
Proof. auto. Qed.

(** C93. *)
Definition lines_of (rows : list text) : text := concat (map (fun r => r ++ [newline]) rows).
Definition one_line (r : text) : Prop := forallb not_newline r = true.
Lemma print_line n : one_line (print_nat n).
Proof.
  unfold one_line, print_nat. destruct (print_N_ok (N.of_nat n)) as [_ [B _]]. revert B. generalize (print_N (N.of_nat n)). induction t as [|c t IH]; cbn; auto. rewrite !andb_true_iff. intros [A B]. split; auto. apply digit_not_newline. auto.
Qed.
Lemma app_line a b : one_line a -> one_line b -> one_line (a ++ b).
Proof. unfold one_line. rewrite forallb_app. intros -> ->. auto. Qed.
Lemma row_ok n k ps : let r := print_nat n ++ [tab] ++ print_nat k ++ [tab] ++ flat_map (fun p => print_nat p ++ [tab]) ps in one_line r /\ words r = print_nat n :: print_nat k :: map print_nat ps.
Proof.
  cbv zeta. split.
  - apply app_line; [apply print_line|]. apply (app_line [tab]); [reflexivity|]. apply app_line; [apply print_line|]. apply (app_line [tab]); [reflexivity|].
    induction ps as [|p ps IH]; [reflexivity|]. cbn [flat_map]. apply app_line; auto. apply app_line; [apply print_line|reflexivity].
  - cbn [app]. rewrite words_head; [|apply print_word|reflexivity]. rewrite words_head; [|apply print_word|reflexivity]. do 2 f_equal.
    induction ps as [|p ps IH]; [reflexivity|]. cbn [flat_map map]. rewrite <- app_assoc. cbn [app]. rewrite words_head; [|apply print_word|reflexivity]. f_equal. exact IH.
Qed.

Section C93.
  Variables (ti c : trajindex) (members : list (list (list nat))) (ngbss : list (list (list nat))) (population : list nat).
  Hypothesis Hc : consistent ti.
  Hypothesis Hne : ngbss <> [].
  Hypothesis Hpop : forall tr, In tr population -> tr < length (trajs ti).
  Hypothesis Hn : forall t ngbs, nth_error ngbss t = Some ngbs -> (forall a b, linked ngbs a b -> linked ngbs b a) /\ (forall tr p, on_traj ti tr t p -> p < length ngbs).
  Hypothesis Ha : assign_clusters ti ngbss population = Some (members, c).

  Lemma cluster_facts : length members = length ngbss /\ map (@length nat) (inverse c) = map (@length (list nat)) members /\
    (forall t k tr, invert c t k = Some tr <-> on_traj c tr t k) /\
    (forall t ms m tr, nth_error members t = Some ms -> In m ms -> In tr m -> exists p, on_traj ti tr t p).
  Proof.
    destruct (C47_clusters ti ngbss population Hc Hne Hpop Hn) as [ms' [c' [E [L [Hpart _]]]]]. rewrite Ha in E. injection E as <- <-. split; auto.
    assert (Hpres : forall t ms m tr, nth_error members t = Some ms -> In m ms -> In tr m -> exists p, on_traj ti tr t p).
    { intros t ms m tr Ht Hm Htr. destruct (nth_error_ex ngbss t) as [ngbs Hg]; [rewrite <- L; eapply nth_error_lt; eauto|]. destruct (Hpart t ngbs ms Hg Ht) as [P1 [_ P3]].
      destruct (In_nth_error _ _ Hm) as [k Hk]. destruct (P1 k m Hk) as [Hs Hl]. assert (Hb : exists b, In b m /\ tr <> b).
      { destruct m as [|x [|y m]]; cbn in Hl; try lia. destruct (Nat.eq_dec tr x) as [->|]; [|exists x; split; [left; auto|auto]]. exists y. split; [right; left; auto|]. inversion Hs as [|? ? _ F]; subst. inversion F; lia. }
      destruct Hb as [b [Hb Hd]]. assert (R : tconnected ti ngbs population t tr b) by (apply P3; auto; exists m; auto). clear - R Hd.
      unfold tconnected in R. apply clos_rt_rt1n in R. inversion R as [|y z Hxy]; subst; [congruence|]. destruct Hxy as [_ [_ [A [B [p [q [HA [_ [Ht _]]]]]]]]]. exists p. exists A. auto. }
    unfold assign_clusters in Ha. destruct (all_some (map (fun tn => members_at ti (snd tn) population (fst tn)) (combine (seq 0 (length ngbss)) ngbss))) as [[|first rest]|]; try discriminate.
    destruct (trajmap_run (trajmap_new (length first)) (cluster_history (first :: rest))) as [tm|] eqn:Et; [|discriminate]. destruct (index_of_map tm) as [c'|] eqn:Ei; [|discriminate]. cbn in Ha. injection Ha as Hm Hc'. rewrite Hm in Et. subst c'.
    assert (Hok : history_ok (length first) (cluster_history members)).
    { eapply history_valid; [symmetry; exact Hm|]. intros ms m Hms Hm'. apply In_nth_error in Hms. destruct Hms as [t Ht]. destruct (nth_error_ex ngbss t) as [ngbs Hg]; [rewrite <- L; eapply nth_error_lt; eauto|].
      apply In_nth_error in Hm'. destruct Hm' as [k Hk]. apply (proj1 (Hpart t ngbs ms Hg Ht) k m Hk). }
    destruct (C19_index _ _ Hok) as [tm' [c' [Et' [Ei' [_ [Hinv _]]]]]]. assert (tm' = tm) by congruence. subst tm'. assert (c' = c) by congruence. subst c'.
    split; [rewrite Hinv; eapply history_sizes; symmetry; exact Hm|]. split; auto. intros t k tr. apply (C19_inverse _ _ _ _ Hok Et Ei).
  Qed.

  (** C93.  [save] writes one file per time step, with the name of that step: a line with the number of clusters, then a line per cluster with
      the number of its trajectory, its number of members and their positions in the frame. *)
  Theorem C93_save fs : exists files, save_clusters ti c members fs = Val files /\ length files = length ngbss /\
    forall t ms, nth_error members t = Some ms -> exists head rows, nth_error files t = Some (step_name fs (N.of_nat t), lines_of (head :: rows)) /\
      Forall one_line (head :: rows) /\ words head = [print_nat (length ms)] /\ length rows = length ms /\
      forall k m, nth_error ms k = Some m -> exists row tr ps, nth_error rows k = Some row /\ on_traj c tr t k /\ Forall2 (fun a p => on_traj ti a t p) m ps /\
        words row = print_nat tr :: print_nat (length m) :: map print_nat ps.
  Proof.
    destruct cluster_facts as [L [Hi [Hon Hpres]]].
    assert (Hrow : forall t ms, nth_error members t = Some ms -> exists inv, nth_error (inverse c) t = Some inv /\ length inv = length ms /\
      exists rows, osequence (map (cluster_row ti members t) (combine (seq 0 (length inv)) inv)) = Val (map (fun r => r ++ [newline]) rows) /\ length rows = length ms /\ Forall one_line rows /\
      forall k m, nth_error ms k = Some m -> exists row tr ps, nth_error rows k = Some row /\ on_traj c tr t k /\ Forall2 (fun a p => on_traj ti a t p) m ps /\ words row = print_nat tr :: print_nat (length m) :: map print_nat ps).
    { intros t ms Ht. assert (E : nth_error (map (@length nat) (inverse c)) t = Some (length ms)) by (rewrite Hi; apply map_nth_error; auto). apply nth_error_map_inv in E. destruct E as [inv [Ei Li]].
      exists inv. split; auto. split; auto.
      assert (Hconv : forall m, In m ms -> exists ps, osequence (map (convert ti t) m) = Val ps /\ Forall2 (fun a p => on_traj ti a t p) m ps).
      { intros m Hm. assert (Hp : forall a, In a m -> exists p, on_traj ti a t p) by (intros a; apply (Hpres t ms m a); auto). clear - Hp Hc. induction m as [|a m IH]; [exists []; split; constructor|].
        destruct IH as [ps [E F]]; [intros b Hb; apply Hp; right; auto|]. destruct (Hp a (or_introl eq_refl)) as [p H]. exists (p :: ps). split; [|constructor; auto].
        cbn [map osequence]. destruct H as [T [HT Hat]]. unfold convert at 1. rewrite HT. rewrite (proj2 (access_val T t p (proj2 Hc a T HT)) Hat). rewrite E. reflexivity. }
      assert (G : forall l s, (forall k tr, nth_error l k = Some tr -> on_traj c tr t (s + k)) -> s + length l = length ms -> exists rows,
        osequence (map (cluster_row ti members t) (combine (seq s (length l)) l)) = Val (map (fun r => r ++ [newline]) rows) /\ length rows = length l /\ Forall one_line rows /\
        forall k m, nth_error ms (s + k) = Some m -> exists row tr ps, nth_error rows k = Some row /\ on_traj c tr t (s + k) /\ Forall2 (fun a p => on_traj ti a t p) m ps /\ words row = print_nat tr :: print_nat (length m) :: map print_nat ps).
      { induction l as [|tr l IH]; intros s Htr Hl.
        - exists []. split; [reflexivity|]. split; auto. split; [constructor|]. intros k m Hk. apply nth_error_lt in Hk. cbn in Hl. lia.
        - cbn [length] in Hl. destruct (IH (S s)) as [rows [E [Lr [F Hk]]]]; [intros k x Hx; replace (S s + k) with (s + S k) by lia; apply Htr; auto|lia|].
          destruct (nth_error_ex ms s) as [m Hm]; [lia|]. destruct (Hconv m) as [ps [Ep Fp]]; [eapply nth_error_In; eauto|]. destruct (row_ok tr (length m) ps) as [R1 R2].
          exists ((print_nat tr ++ [tab] ++ print_nat (length m) ++ [tab] ++ flat_map (fun p => print_nat p ++ [tab]) ps) :: rows). split; [|split; [|split]].
          + cbn [length seq combine map osequence]. rewrite E. unfold cluster_row at 1. rewrite Ht. cbn [fst snd]. rewrite Hm, Ep. cbn [omap obind map]. rewrite <- !app_assoc. reflexivity.
          + cbn. auto.
          + constructor; eauto.
          + intros [|k] m' Hk'.
            * rewrite Nat.add_0_r in *. assert (m' = m) by congruence. subst m'. eexists _, tr, ps. split; [reflexivity|]. split; [|split; [auto|exact R2]]. specialize (Htr 0 tr eq_refl). rewrite Nat.add_0_r in Htr. auto.
            * replace (s + S k) with (S s + k) in * by lia. cbn [nth_error]. apply Hk. auto. }
      destruct (G inv 0) as [rows [E [Lr [F Hk]]]]; [|cbn; auto|].
      - intros k tr Hk. apply Hon. unfold invert. rewrite Ei. auto.
      - exists rows. split; auto. split; [lia|]. split; auto. }
    set (head t := print_nat (length (nth t members []))).
    assert (Li : length (inverse c) = length members) by (apply (f_equal (@length nat)) in Hi; rewrite !map_length in Hi; auto).
    assert (Hs : forall n s, s + n = length members -> exists files, osequence (map (fun t => omap (fun l => (step_name fs (N.of_nat t), l)) (cluster_text ti c members t)) (seq s n)) = Val files /\ length files = n /\
      forall t ms, nth_error members (s + t) = Some ms -> exists head rows, nth_error files t = Some (step_name fs (N.of_nat (s + t)), lines_of (head :: rows)) /\
      Forall one_line (head :: rows) /\ words head = [print_nat (length ms)] /\ length rows = length ms /\
      forall k m, nth_error ms k = Some m -> exists row tr ps, nth_error rows k = Some row /\ on_traj c tr (s + t) k /\ Forall2 (fun a p => on_traj ti a (s + t) p) m ps /\ words row = print_nat tr :: print_nat (length m) :: map print_nat ps).
    { induction n as [|n IH]; intros s Hsn.
      - exists []. split; [reflexivity|]. split; auto. intros t ms Ht. apply nth_error_lt in Ht. lia.
      - destruct (IH (S s)) as [files [E [Lf Hf]]]; [lia|]. destruct (nth_error_ex members s) as [ms Hms]; [lia|]. destruct (Hrow s ms Hms) as [inv [Ei [Lv [rows [Er [Lr [F Hk]]]]]]].
        exists ((step_name fs (N.of_nat s), lines_of (print_nat (length ms) :: rows)) :: files). split; [|split].
        + cbn [seq map osequence]. rewrite E. unfold cluster_text at 1. rewrite Ei, Er, Lv. cbn [omap obind]. f_equal. f_equal. f_equal. unfold lines_of. cbn [map concat]. rewrite <- app_assoc. reflexivity.
        + cbn. auto.
        + intros [|t] ms' Ht.
          * rewrite Nat.add_0_r in *. assert (ms' = ms) by congruence. subst ms'. exists (print_nat (length ms)), rows. split; [reflexivity|]. split; [constructor; auto; apply print_line|]. split; [apply words_one, print_word|]. auto.
          * replace (s + S t) with (S s + t) in * by lia. cbn [nth_error]. apply Hf. auto. }
    destruct (Hs (length members) 0 eq_refl) as [files [E [Lf Hf]]]. exists files. unfold save_clusters. rewrite Li. split; auto. split; [congruence|]. exact Hf.
  Qed.
End C93.

(** C94. *)
Lemma find_key_lookup {B} k (m : smap B) : find_key B k m = lookup k m.
Proof. induction m as [|[k' v] m IH]; cbn; auto. rewrite (Nat.eqb_sym k' k). destruct (k =? k'); auto. Qed.
Lemma update_keys {B} k v : forall m : smap B, map fst (map_update B k v m) = map fst m.
Proof. induction m as [|[k' v'] m IH]; cbn; auto. destruct (k' =? k); cbn; congruence. Qed.
Lemma lookup_update {B} k v k' : forall m : smap B, lookup k' (map_update B k v m) = if k' =? k then (match lookup k m with Some _ => Some v | None => None end) else lookup k' m.
Proof.
  induction m as [|[k0 v0] m IH]; cbn; [destruct (k' =? k); auto|]. destruct (Nat.eqb_spec k0 k) as [->|Hd]; cbn.
  - rewrite Nat.eqb_refl. destruct (Nat.eqb_spec k' k) as [->|]; auto.
  - rewrite IH. destruct (Nat.eqb_spec k' k0) as [->|]; auto. destruct (Nat.eqb_spec k0 k); [congruence|auto]. destruct (Nat.eqb_spec k' k) as [->|]; auto. destruct (Nat.eqb_spec k k0); [congruence|auto].
Qed.

Section C94.
  Variables (B : Type) (zero : B) (add : B -> B -> B) (divn : B -> nat -> B).
  Variables (ti : trajindex) (t : nat).
  Hypothesis Hc : consistent ti.
  (** Position p is that of a selected trajectory at time t. *)
  Definition chosen (sel : list nat) (p : nat) : Prop := exists tr, In tr sel /\ on_traj ti tr t p.

  (** makeBoo: the order parameter of each position of a selected trajectory, and nothing else. *)
  Theorem C94_order (boo : nat -> outcome B) sel : Forall (fun tr => tr < length (trajs ti)) sel -> (forall p, chosen sel p -> exists b, boo p = Val b) ->
    exists m, make_boo B ti boo t sel = Val m /\ is_map m /\ forall p b, lookup p m = Some b <-> chosen sel p /\ boo p = Val b.
  Proof.
    intros F Hb. unfold make_boo. rewrite (each_eq ti t Hc) by auto. assert (Hb' : forall p, In p (flat_map (pos_of ti t) sel) -> exists b, boo p = Val b) by (intros p Hp; apply Hb; apply pos_list_in; auto).
    assert (G : forall l m0, (forall p, In p l -> exists b, boo p = Val b) -> is_map m0 -> (forall p b, lookup p m0 = Some b -> boo p = Val b) ->
      exists m, ofold (fun p m => omap (fun b => map_insert B p b m) (boo p)) l m0 = Val m /\ is_map m /\ forall p b, lookup p m = Some b <-> (In p l \/ lookup p m0 <> None) /\ boo p = Val b).
    { induction l as [|q l IH]; intros m0 Hl Hm H0.
      - exists m0. split; [reflexivity|]. split; auto. intros p b. split; [intros H; split; auto; right; congruence|]. intros [[[]|Hd] E]. destruct (lookup p m0) as [b'|] eqn:El; [|congruence]. apply H0 in El. congruence.
      - destruct (Hl q (or_introl eq_refl)) as [b0 E0]. cbn [ofold]. rewrite E0. cbn [omap obind].
        destruct (IH (map_insert B q b0 m0)) as [m [E [Hm' Hq]]]; [intros p Hp; apply Hl; right; auto|apply insert_is_map; auto|..].
        + intros p b. rewrite lookup_insert by auto. destruct (Nat.eqb_spec p q) as [->|]; auto. destruct (lookup q m0) as [x|] eqn:El; intros H; injection H as <-; auto.
        + exists m. split; auto. split; auto. intros p b. rewrite Hq. rewrite lookup_insert by auto. destruct (Nat.eqb_spec p q) as [->|Hd].
          * split; intros [_ E1]; (split; [|auto]); [left; left; auto|]. right. destruct (lookup q m0); discriminate.
          * split; intros [[Hi|Hi] E1]; (split; [|auto]); auto; [left; right; auto|destruct Hi; [congruence|auto]]. }
    destruct (G (flat_map (pos_of ti t) sel) [] Hb') as [m [E [Hm H]]]; [constructor|discriminate|]. exists m. split; auto. split; auto. intros p b. rewrite H. unfold chosen. rewrite (pos_list_in ti t Hc). cbn. tauto.
  Qed.

  (** makeSBoo: the mean of the order parameters of the particles closer than 1.3 diameters, itself included. *)
  Definition smooth (all : smap B) (ids : list nat) (b0 : B) : B :=
    divn (fold_left (fun s q => match lookup q all with Some b => add s b | None => s end) ids b0) (length ids).
  Lemma step_ok (close : nat -> outcome (list nat)) (all : smap B) p ids m : close p = Val ids -> (forall q, In q ids -> lookup q all <> None) -> is_map m ->
    exists m', (let m := map_insert B p zero m in
      obind (close p) (fun l =>
      match find_key B p m with
      | None => UB
      | Some b => omap (fun s => map_update B p (divn s (length l)) m)
                    (ofold (fun q s => match find_key B q all with Some b => Val (add s b) | None => UB end) l b)
      end)) = Val m' /\ is_map m' /\
      forall k, lookup k m' = if k =? p then Some (smooth all ids (match lookup p m with Some b => b | None => zero end)) else lookup k m.
  Proof.
    intros E Hq Hm. cbv zeta. rewrite E. cbn [obind]. rewrite find_key_lookup, lookup_insert, Nat.eqb_refl by auto. set (b0 := match lookup p m with Some b => b | None => zero end).
    assert (Eb : match lookup p m with Some x => Some x | None => Some zero end = Some b0) by (unfold b0; destruct (lookup p m); auto). rewrite Eb.
    rewrite (ofold_ok _ (fun q s => match lookup q all with Some b => add s b | None => s end)).
    - cbn [omap obind]. eexists. split; [reflexivity|]. split.
      + unfold is_map. rewrite update_keys. apply insert_is_map. auto.
      + intros k. rewrite lookup_update. destruct (Nat.eqb_spec k p) as [->|Hd].
        * rewrite lookup_insert, Nat.eqb_refl, Eb by auto. reflexivity.
        * rewrite lookup_insert by auto. destruct (Nat.eqb_spec k p); [congruence|auto].
    - intros q s Hi. rewrite find_key_lookup. specialize (Hq q Hi). destruct (lookup q all); [auto|congruence].
  Qed.
  Lemma smoothed_ok (close : nat -> outcome (list nat)) (all : smap B) (ids : nat -> list nat) : forall l m0, NoDup l -> (forall p, In p l -> close p = Val (ids p) /\ forall q, In q (ids p) -> lookup q all <> None) -> is_map m0 ->
    (forall p, In p l -> lookup p m0 = None) ->
    exists m, ofold (fun p m =>
      let m := map_insert B p zero m in
      obind (close p) (fun l =>
      match find_key B p m with
      | None => UB
      | Some b => omap (fun s => map_update B p (divn s (length l)) m)
                    (ofold (fun q s => match find_key B q all with Some b => Val (add s b) | None => UB end) l b)
      end)) l m0 = Val m /\ is_map m /\ (forall p, In p l -> lookup p m = Some (smooth all (ids p) zero)) /\ forall p, ~ In p l -> lookup p m = lookup p m0.
  Proof.
    induction l as [|q l IH]; intros m0 Hd Hl Hm H0.
    - exists m0. split; [reflexivity|]. split; auto. split; [intros p []|auto].
    - inversion Hd as [|? ? Hq Hd']; subst. destruct (Hl q (or_introl eq_refl)) as [Eq Hin]. destruct (step_ok close all q (ids q) m0 Eq Hin Hm) as [m1 [E1 [M1 L1]]]. cbv zeta in E1. cbn [ofold]. rewrite E1. cbn [obind].
      destruct (IH m1) as [m [E [Hm' [A C]]]]; auto; [intros p Hp; apply Hl; right; auto|intros p Hp; rewrite L1; destruct (Nat.eqb_spec p q) as [->|]; [contradiction|apply H0; right; auto]|].
      exists m. split; auto. split; auto. split.
      + intros p [<-|Hp]; [|auto]. rewrite C, L1, Nat.eqb_refl by auto. rewrite H0 by (left; auto). auto.
      + intros p Hp. rewrite C by (intros H; apply Hp; right; auto). rewrite L1. destruct (Nat.eqb_spec p q) as [->|]; auto. destruct Hp. left. auto.
  Qed.

  Variables (c : config) (l : list (list Z)) (bb : box) (r : Z) (ops : list pop).
  Hypothesis Hok : config_ok c.
  Hypothesis H3 : dims c = 3.
  Hypothesis Hl : Forall point3 l.
  Hypothesis Ho : Forall pop_ok ops.
  Hypothesis Hx : indexed ops = true.
  Lemma close_ids st range : prun c (new_particles l bb r) ops = Some st -> exists ids, forall p x, nth_error (positions l ops) p = Some x -> close_to st range p = Val (ids p) /\ picks (positions l ops) (fun _ y => closer3 y x range) (ids p).
  Proof.
    intros E. destruct (C31_neighbours c l bb r ops Hok H3 Hl Ho Hx) as [st' [E' N]]. assert (st' = st) by congruence. subst st'. destruct (N range) as [N1 _].
    destruct (Particles_Proofs.history_ok c l bb r ops Hok H3 Hl Ho) as [st' [E2 [Hm [Hp _]]]]. assert (st' = st) by congruence. subst st'.
    exists (fun p => match close_to st range p with Val i => i | _ => [] end). intros p x Hpx. unfold close_to. rewrite Hm, Hpx. destruct (N1 x) as [ids [Ei Pi]]; [|rewrite Ei; auto].
    rewrite Forall_forall in Hp. rewrite Hm in Hp. apply Hp. eapply nth_error_In; eauto.
  Qed.
  Theorem C94_smoothed st range all sel : prun c (new_particles l bb r) ops = Some st -> Forall (fun tr => tr < length (trajs ti)) sel -> NoDup sel ->
    (forall tr p, on_traj ti tr t p -> p < length (positions l ops)) ->
    (forall p x q y, chosen sel p -> nth_error (positions l ops) p = Some x -> nth_error (positions l ops) q = Some y -> closer3 y x range -> lookup q all <> None) ->
    exists m, make_sboo B zero add divn ti (close_to st range) t sel all = Val m /\ is_map m /\ (forall p, lookup p m <> None <-> chosen sel p) /\
      forall p x v, lookup p m = Some v -> nth_error (positions l ops) p = Some x -> exists ids bs, picks (positions l ops) (fun _ y => closer3 y x range) ids /\
        Forall2 (fun q b => lookup q all = Some b) ids bs /\ v = divn (fold_left add bs zero) (length ids).
  Proof.
    intros E F Hd Hlt Hall. destruct (close_ids st range E) as [ids Hids]. unfold make_sboo. rewrite (each_eq ti t Hc) by auto.
    assert (Hch : forall p, In p (flat_map (pos_of ti t) sel) <-> chosen sel p) by (intros p; apply (pos_list_in ti t Hc)).
    destruct (smoothed_ok (close_to st range) all ids (flat_map (pos_of ti t) sel) []) as [m [Em [Hm [A C]]]].
    - apply (pos_list_nodup ti t Hc). auto.
    - intros p Hp. apply Hch in Hp. destruct (nth_error_ex (positions l ops) p) as [x Hpx]; [destruct Hp as [tr [_ Hp]]; eauto|]. destruct (Hids p x Hpx) as [E1 [_ P2]]. split; auto.
      intros q Hq. apply P2 in Hq. destruct Hq as [y [Hy Hcl]]. eapply Hall; eauto.
    - constructor.
    - auto.
    - exists m. split; auto. split; auto. split.
      + intros p. destruct (in_dec Nat.eq_dec p (flat_map (pos_of ti t) sel)) as [Hi|Hi].
        * rewrite A by auto. split; [intros _; apply Hch; auto|discriminate].
        * rewrite C by auto. cbn. split; [congruence|]. intros H. apply Hch in H. contradiction.
      + intros p x v Hv Hpx. destruct (in_dec Nat.eq_dec p (flat_map (pos_of ti t) sel)) as [Hi|Hi]; [|rewrite C in Hv by auto; discriminate]. rewrite A in Hv by auto. injection Hv as <-.
        destruct (Hids p x Hpx) as [_ P]. exists (ids p), (map (fun q => match lookup q all with Some b => b | None => zero end) (ids p)). split; auto. apply Hch in Hi.
        assert (Hq : forall q, In q (ids p) -> lookup q all <> None) by (intros q Hq; apply (proj2 P) in Hq; destruct Hq as [y [Hy Hcl]]; eapply Hall; eauto). split.
        * clear - Hq. induction (ids p) as [|q k IH]; cbn; constructor; [|apply IH; intros z Hz; apply Hq; right; auto]. specialize (Hq q (or_introl eq_refl)). destruct (lookup q all); [auto|congruence].
        * unfold smooth. f_equal. rewrite fold_left_map_x. apply fold_left_ext_in. intros s q Hi'. specialize (Hq q Hi'). destruct (lookup q all); [auto|congruence].
  Qed.
  (** A selection of part of the particles: as soon as a selected one has a neighbour whose trajectory is not selected, averaging the map that
      makeBoo gives is undefined. *)
  Theorem C94_neighbour_refuted st range boo sel all p x q y : prun c (new_particles l bb r) ops = Some st -> Forall (fun tr => tr < length (trajs ti)) sel ->
    (forall tr p, on_traj ti tr t p -> p < length (positions l ops)) -> (forall p, chosen sel p -> exists b, boo p = Val b) -> make_boo B ti boo t sel = Val all ->
    chosen sel p -> nth_error (positions l ops) p = Some x -> nth_error (positions l ops) q = Some y -> closer3 y x range -> ~ chosen sel q ->
    make_sboo B zero add divn ti (close_to st range) t sel all = UB.
  Proof.
    intros E F Hlt Hboo Eall Hp Hpx Hqy Hcl Hq. destruct (close_ids st range E) as [ids Hids]. unfold make_sboo. rewrite (each_eq ti t Hc) by auto.
    assert (Hmiss : lookup q all = None).
    { destruct (C94_order boo sel F Hboo) as [m [Em [_ Hm]]]. assert (m = all) by congruence. subst m. destruct (lookup q all) as [b|] eqn:El; auto. apply Hm in El. destruct El as [El _]. contradiction. }
    assert (Hin : In q (ids p)) by (apply (proj2 (proj2 (Hids p x Hpx))); exists y; auto).
    assert (Hpin : In p (flat_map (pos_of ti t) sel)) by (apply (pos_list_in ti t Hc); auto).
    assert (Hval : forall k, In k (flat_map (pos_of ti t) sel) -> close_to st range k = Val (ids k)).
    { intros k Hk. apply (pos_list_in ti t Hc) in Hk. destruct Hk as [tr [_ Hk]]. destruct (nth_error_ex (positions l ops) k) as [z Hz]; [eauto|]. apply (Hids k z Hz). }
    assert (Hbad : forall ids' b, In q ids' -> ofold (fun q s => match find_key B q all with Some b => Val (add s b) | None => UB end) ids' b = UB).
    { induction ids' as [|k k' IH]; intros b Hi; [destruct Hi|]. cbn [ofold]. rewrite find_key_lookup. destruct Hi as [->|Hi]; [rewrite Hmiss; auto|]. destruct (lookup k all); cbn [obind]; auto. }
    assert (Hany : forall ids' b, ofold (fun q s => match find_key B q all with Some b => Val (add s b) | None => UB end) ids' b = UB \/ exists s, ofold (fun q s => match find_key B q all with Some b => Val (add s b) | None => UB end) ids' b = Val s).
    { induction ids' as [|k k' IH]; intros b; cbn [ofold]; [right; eauto|]. destruct (find_key B k all); cbn [obind]; auto. }
    revert Hpin Hval. generalize (@nil (nat * B)). induction (flat_map (pos_of ti t) sel) as [|k ks IH]; intros m Hpin Hval; [destruct Hpin|]. cbn [ofold].
    rewrite (Hval k (or_introl eq_refl)). cbn [obind]. destruct (find_key B k (map_insert B k zero m)) as [b|]; [|auto].
    destruct (Nat.eq_dec k p) as [->|Hd]; [rewrite Hbad by auto; auto|]. destruct Hpin as [->|Hpin]; [congruence|].
    destruct (Hany (ids k) b) as [->|[s ->]]; auto. cbn [omap obind]. apply IH; auto. intros z Hz. apply Hval. right. auto.
  Qed.
  (** A trajectory selected twice is averaged again, with its mean as an additional term. *)
  Theorem C94_twice_refuted st range all tr p x : prun c (new_particles l bb r) ops = Some st -> tr < length (trajs ti) -> on_traj ti tr t p -> nth_error (positions l ops) p = Some x ->
    (forall q y, nth_error (positions l ops) q = Some y -> closer3 y x range -> lookup q all <> None) ->
    exists m ids, make_sboo B zero add divn ti (close_to st range) t [tr; tr] all = Val m /\ picks (positions l ops) (fun _ y => closer3 y x range) ids /\
      lookup p m = Some (smooth all ids (smooth all ids zero)).
  Proof.
    intros E Hlt Hon Hpx Hall. destruct (close_ids st range E) as [ids Hids]. unfold make_sboo. rewrite (each_eq ti t Hc) by auto. destruct (Hids p x Hpx) as [E1 P].
    assert (Hpos : pos_of ti t tr = [p]).
    { assert (H := proj2 (pos_of_in ti t Hc tr p) Hon). unfold pos_of in *. destruct (nth_error (trajs ti) tr) as [T|]; [|destruct H]. destruct (exist_at T t); [|destruct H]. destruct (access T t); cbn in H; try tauto. destruct H as [->|[]]. auto. }
    cbn [flat_map]. rewrite Hpos. cbn [app ofold].
    assert (Hq : forall q, In q (ids p) -> lookup q all <> None) by (intros q Hq; apply (proj2 P) in Hq; destruct Hq as [y [Hy Hcl]]; eapply Hall; eauto).
    destruct (step_ok (close_to st range) all p (ids p) [] E1 Hq) as [m1 [S1 [M1 L1]]]; [constructor|]. cbv zeta in S1. rewrite S1. cbn [obind]. destruct (step_ok (close_to st range) all p (ids p) m1 E1 Hq M1) as [m2 [S2 [M2 L2]]]. cbv zeta in S2. rewrite S2. cbn [obind].
    exists m2, (ids p). split; auto. split; auto. rewrite L2, Nat.eqb_refl. rewrite L1, Nat.eqb_refl. auto.
  Qed.
End C94.

Definition ex_frames : list (list (list Z)) :=
  [[[0; 0; 0]; [2; 0; 0]; [9; 9; 9]]; [[4; 1; 0]; [0; 1; 0]; [2; 1; 1]; [20; 0; 0]]; [[1; -3; 0]; [2; 8; 1]; [3; -3; 0]; [21; 0; 0]]]%Z.
Example C92_case : consistent Cluster_Props.ex_ti /\ map (@length (list Z)) ex_frames = map (@length nat) (inverse Cluster_Props.ex_ti) /\ Forall (Forall point3) ex_frames /\
  bounds_traj ex_frames Cluster_Props.ex_ti 0 = Val [(0, 1); (-3, 1); (0, 0)]%Z /\ bounds_traj ex_frames Cluster_Props.ex_ti 3 = Val [(20, 21); (0, 0); (0, 0)]%Z /\
  cluster_bounds ex_frames Cluster_Props.ex_ti 1 [0; 1; 2] 1 = Val [(-1, 5); (0, 2); (-1, 2)]%Z /\ cluster_bounds ex_frames Cluster_Props.ex_ti 1 [0; 3] 0 = Throw /\
  largest_delta ex_frames Cluster_Props.ex_ti 1 [[[0; 1]]; [[0; 1; 2]]; [[0; 2]; [1; 3]]] 2 = Val [21; 10; 3]%Z.
Proof.
  split; [exact (proj1 C47_case)|]. split; [reflexivity|]. split; [repeat constructor; do 3 eexists; reflexivity|]. do 4 (split; [vm_compute; reflexivity|]). vm_compute. reflexivity.
Qed.
Example C93_case : exists members c, assign_clusters Cluster_Props.ex_ti ex_ngbss [0; 1; 2; 3] = Some (members, c) /\
  cluster_text Cluster_Props.ex_ti c members 1 = Val (print_nat 1 ++ [newline] ++ print_nat 0 ++ [tab] ++ print_nat 3 ++ [tab] ++ print_nat 1 ++ [tab] ++ print_nat 2 ++ [tab] ++ print_nat 0 ++ [tab; newline]) /\
  forall fs, exists files, save_clusters Cluster_Props.ex_ti c members fs = Val files /\ length files = 3.
Proof.
  destruct C47_case as [Hc [Ha Hn]]. eexists _, _. split; [exact Ha|]. split; [vm_compute; reflexivity|]. intros fs.
  assert (Hne : ex_ngbss <> []) by discriminate.
  assert (Hp : forall tr, In tr [0; 1; 2; 3] -> tr < length (trajs Cluster_Props.ex_ti)) by (intros tr H; cbn in H |- *; lia).
  destruct (C93_save _ _ _ ex_ngbss [0; 1; 2; 3] Hc Hne Hp Hn Ha fs) as [files [E [L _]]]. exists files. split; [exact E|exact L].
Qed.
Definition ex_boo (p : nat) : outcome nat := Val (10 * (p + 1)).
Example C94_case : exists st, prun lib_config (new_particles (nth 1 ex_frames []) [] 1) [PIndex] = Some st /\
  make_boo nat Cluster_Props.ex_ti ex_boo 1 [2; 0; 1; 3] = Val [(0, 10); (1, 20); (2, 30); (3, 40)] /\
  make_sboo nat 0 Nat.add Nat.div Cluster_Props.ex_ti (close_to st 3) 1 [2; 0] [(0, 10); (1, 20); (2, 30); (3, 40)] = Val [(0, 20); (1, 25)] /\
  make_boo nat Cluster_Props.ex_ti ex_boo 0 [0; 3] = Val [(0, 10)] /\
  make_sboo nat 0 Nat.add Nat.div Cluster_Props.ex_ti (close_to st 3) 1 [2; 0] [(0, 10); (1, 20)] = UB.
Proof. eexists. split; [vm_compute; reflexivity|]. do 3 (split; [vm_compute; reflexivity|]). vm_compute. reflexivity. Qed.

Print Assumptions C92_trajectory. Print Assumptions C92_cluster. Print Assumptions C92_cluster_refused. Print Assumptions C92_delta. Print Assumptions C92_max_box. Print Assumptions C92_max_box_refuted.
Print Assumptions C92_most. Print Assumptions C92_empty_refuted. Print Assumptions C93_save. Print Assumptions C94_order. Print Assumptions C94_smoothed. Print Assumptions C94_neighbour_refuted. Print Assumptions C94_twice_refuted.

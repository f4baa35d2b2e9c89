(** Proofs about the evolution of clusters. *)
Require Import ZArith List Bool Arith Lia Permutation Sorted Relation_Operators Operators_Properties.
Require Import Verif.Base Verif.SortU Verif.ListX Verif.RTree_Model Verif.Traj_Model Verif.Traj_Spec Verif.Traj_Proofs Verif.TrajMap_Proofs Verif.Traj_Props Verif.Particles_Spec
  Verif.Ngb_Model Verif.Ngb_Proofs Verif.Cluster_Model Verif.Cluster_Spec Verif.Cluster_Proofs.
Import ListNotations.

Lemma population_at_ok ti t : consistent ti -> forall population acc, (forall tr, In tr population -> tr < length (trajs ti)) -> StronglySorted lt acc ->
  exists pop, population_at ti t population acc = Some pop /\ StronglySorted lt pop /\
    forall p, In p pop <-> In p acc \/ exists tr, In tr population /\ invert ti t p = Some tr.
Proof.
  intros [Hc Hs]. induction population as [|tr pl IH]; intros acc Hlt Ha.
  - exists acc. simpl. split; auto. split; auto. intros p. split; auto. intros [H|[tr [[] _]]]; auto.
  - cbn [population_at]. destruct (nth_error_ex (trajs ti) tr) as [T HT]; [apply Hlt; simpl; auto|]. rewrite HT.
    assert (Hsm : small T) by exact (Hs tr T HT). destruct (exist_at T t) eqn:Ee.
    + apply (exist_at_iff T t Hsm) in Ee. destruct (at_time_ex T t Ee) as [q Hq]. rewrite (proj2 (access_val T t q Hsm) Hq).
      destruct (IH (nset_add q acc)) as [pop [E [Hp Hin]]]; [intros; apply Hlt; simpl; auto|apply nset_add_sorted; auto|].
      exists pop. split; auto. split; auto. intros p. rewrite Hin, nset_add_in. split.
      * intros [[->|H]|[tr' [H1 H2]]]; auto.
        -- right. exists tr. split; [simpl; auto|]. apply Hc. eauto.
        -- right. exists tr'. simpl. auto.
      * intros [H|[tr' [[<-|H1] H2]]]; auto.
        -- apply Hc in H2. destruct H2 as [T' [HT' Hat]]. assert (T' = T) by congruence. subst. left. left. eapply at_time_fun; eauto.
        -- right. eauto.
    + destruct (IH acc) as [pop [E [Hp Hin]]]; [intros; apply Hlt; simpl; auto|auto|]. exists pop. split; auto. split; auto. intros p. rewrite Hin. split.
      * intros [H|[tr' [H1 H2]]]; auto. right. exists tr'. simpl. auto.
      * intros [H|[tr' [[<-|H1] H2]]]; auto; [|right; eauto]. exfalso. apply Hc in H2. destruct H2 as [T' [HT' Hat]]. assert (T' = T) by congruence. subst.
        apply at_time_range in Hat. apply (exist_at_iff T t Hsm) in Hat. congruence.
Qed.
Lemma cluster_trajs_ok ti t : forall cl acc, (forall p, In p cl -> exists tr, invert ti t p = Some tr) -> StronglySorted lt acc ->
  exists m, cluster_trajs ti t cl acc = Some m /\ StronglySorted lt m /\ forall tr, In tr m <-> In tr acc \/ exists p, In p cl /\ invert ti t p = Some tr.
Proof.
  induction cl as [|p cl IH]; intros acc Hp Ha.
  - exists acc. simpl. split; auto. split; auto. intros tr. split; auto. intros [H|[p [[] _]]]; auto.
  - cbn [cluster_trajs]. destruct (Hp p) as [tr Htr]; [simpl; auto|]. rewrite Htr. destruct (IH (nset_add tr acc)) as [m [E [Hm Hin]]]; [intros; apply Hp; simpl; auto|apply nset_add_sorted; auto|].
    exists m. split; auto. split; auto. intros tr'. rewrite Hin, nset_add_in. split.
    + intros [[->|H]|[q [H1 H2]]]; auto; [right; exists p; simpl; auto|right; exists q; simpl; auto].
    + intros [H|[q [[<-|H1] H2]]]; auto; [left; left; congruence|right; eauto].
Qed.
Lemma all_some_ok {A B} (f : A -> option B) : forall l, (forall a, In a l -> exists b, f a = Some b) -> exists r, all_some (map f l) = Some r /\ Forall2 (fun a b => f a = Some b) l r.
Proof.
  induction l as [|a l IH]; intros H; [exists []; split; auto|]. destruct (H a) as [b Hb]; [simpl; auto|]. destruct IH as [r [E F]]; [intros; apply H; simpl; auto|].
  exists (b :: r). simpl. rewrite Hb, E. split; auto.
Qed.
Lemma Forall2_nth_x {A B} (R : A -> B -> Prop) l r : Forall2 R l r -> forall k b, nth_error r k = Some b -> exists a, nth_error l k = Some a /\ R a b.
Proof. intros H. induction H as [|a b l r Hab H IH]; intros [|k] b' Hk; simpl in Hk; try discriminate; [injection Hk as <-; exists a; auto|apply IH; auto]. Qed.
Lemma Forall2_nth_l {A B} (R : A -> B -> Prop) l r : Forall2 R l r -> forall k a, nth_error l k = Some a -> exists b, nth_error r k = Some b /\ R a b.
Proof. intros H. induction H as [|a b l r Hab H IH]; intros [|k] a' Hk; simpl in Hk; try discriminate; [injection Hk as <-; exists b; auto|apply IH; auto]. Qed.
Lemma filter_index_inj {A} (f : A -> bool) : forall l k k' x y, nth_error (filter f l) k = Some x -> nth_error (filter f l) k' = Some y ->
  exists j j', nth_error l j = Some x /\ nth_error l j' = Some y /\ (j = j' -> k = k').
Proof.
  induction l as [|a l IH]; intros k k' x y Hx Hy; [destruct k; discriminate|]. simpl in Hx, Hy. destruct (f a).
  - destruct k as [|k], k' as [|k']; simpl in Hx, Hy.
    + exists 0, 0. auto.
    + destruct (IH _ _ _ _ Hy Hy) as [j [_ [H _]]]. exists 0, (S j). simpl. repeat split; auto. discriminate.
    + destruct (IH _ _ _ _ Hx Hx) as [j [_ [H _]]]. exists (S j), 0. simpl. repeat split; auto. discriminate.
    + destruct (IH _ _ _ _ Hx Hy) as [j [j' [H1 [H2 H3]]]]. exists (S j), (S j'). simpl. repeat split; auto.
  - destruct (IH _ _ _ _ Hx Hy) as [j [j' [H1 [H2 H3]]]]. exists (S j), (S j'). simpl. repeat split; auto.
Qed.
Lemma sorted_two l (a b : nat) : StronglySorted lt l -> In a l -> In b l -> a <> b -> 2 <= length l.
Proof. intros _ Ha Hb Hab. destruct l as [|x [|y l]]; simpl in *; [tauto|intuition congruence|lia]. Qed.
Lemma two_members (l : list nat) : StronglySorted lt l -> 2 <= length l -> forall a, In a l -> exists b, In b l /\ b <> a.
Proof.
  intros Hs Hl a Ha. destruct l as [|x [|y l]]; simpl in Hl; try lia. inversion Hs as [|? ? _ Hf]; subst. inversion Hf; subst.
  destruct (Nat.eq_dec a x) as [->|]; [exists y; simpl; split; [auto|lia]|exists x; simpl; split; auto].
Qed.

Section Members.
Variables (ti : trajindex) (ngbs : list (list nat)) (population : list nat) (t : nat).
Hypothesis Hcons : consistent ti.
Hypothesis Hpop : forall tr, In tr population -> tr < length (trajs ti).
Hypothesis Hlt : forall p tr, invert ti t p = Some tr -> p < length ngbs.
Hypothesis Hsym : forall a b, linked ngbs a b -> linked ngbs b a.

Lemma invert_inj p q tr : invert ti t p = Some tr -> invert ti t q = Some tr -> p = q.
Proof.
  destruct Hcons as [Hc _]. rewrite !Hc. intros [T [HT H]] [U [HU H']]. assert (U = T) by congruence. subst. eapply at_time_fun; eauto.
Qed.
Lemma connected_trajs pop : (forall p, In p pop <-> exists tr, In tr population /\ invert ti t p = Some tr) ->
  forall p q a b, invert ti t p = Some a -> invert ti t q = Some b -> In a population -> In b population ->
  (connected ngbs pop p q <-> tconnected ti ngbs population t a b).
Proof.
  intros Hin p q a b Hp Hq Ha Hb. destruct Hcons as [Hc _]. split.
  - intros [_ [_ H]]. apply clos_rt_rt1n in H. revert a Hp Ha. induction H as [p|p r q Hpr H IH]; intros a Hp Ha.
    + assert (a = b) by congruence. subst. apply rt_refl.
    + destruct Hpr as [H1 [H2 H3]]. apply Hin in H2. destruct H2 as [c [Hc' Hr]]. apply rt_trans with c; [|apply IH; auto]. apply rt_step. split; auto. split; auto.
      apply Hc in Hp. apply Hc in Hr. destruct Hp as [A [HA HA']]. destruct Hr as [C [HC HC']]. exists A, C, p, r. auto.
  - intros H. assert (Hpp : In p pop) by (apply Hin; eauto). assert (Hqq : In q pop) by (apply Hin; eauto). split; auto. split; auto.
    apply clos_rt_rt1n in H. revert p Hp Hpp. induction H as [a|a c b Hac H IH]; intros p Hp Hpp.
    + assert (p = q) by (eapply invert_inj; eauto). subst. apply rt_refl.
    + destruct Hac as [H1 [H2 [A [C [p' [r [HA [HC [Hp' [Hr Hl]]]]]]]]]]. assert (p' = p) by (eapply invert_inj; [apply Hc; eauto|eauto]). subst p'.
      assert (Hr' : invert ti t r = Some c) by (apply Hc; eauto). assert (Hrp : In r pop) by (apply Hin; eauto).
      apply rt_trans with r; [apply rt_step; split; auto|]. apply IH; auto.
Qed.
Lemma tconnected_exists a b : tconnected ti ngbs population t a b -> a <> b -> exists p q, invert ti t p = Some a /\ invert ti t q = Some b /\ In a population /\ In b population.
Proof.
  intros H Hne. destruct Hcons as [Hc _].
  assert (Hl : In a population /\ exists p, invert ti t p = Some a).
  { apply clos_rt_rt1n in H. destruct H as [|c b Hac _]; [congruence|]. destruct Hac as [H1 [H2 [A [C [p [r [HA [HC [Hp [Hr Hl]]]]]]]]]]. split; auto. exists p. apply Hc. eauto. }
  assert (Hr : In b population /\ exists p, invert ti t p = Some b).
  { apply clos_rt_rtn1 in H. destruct H as [|c b Hac _]; [congruence|]. destruct Hac as [H1 [H2 [A [C [p [r [HA [HC [Hp [Hr Hl']]]]]]]]]]. split; auto. exists r. apply Hc. eauto. }
  destruct Hl as [H1 [p H2]]. destruct Hr as [H3 [q H4]]. exists p, q. auto.
Qed.
Lemma members_at_ok : exists ms, members_at ti ngbs population t = Some ms /\ cluster_partition (tconnected ti ngbs population t) ms.
Proof.
  destruct (population_at_ok ti t Hcons population [] Hpop) as [pop [E [Hps Hin]]]; [constructor|].
  assert (Hin' : forall p, In p pop <-> exists tr, In tr population /\ invert ti t p = Some tr) by (intros p; rewrite Hin; simpl; intuition). clear Hin.
  unfold members_at. rewrite E. unfold segregate.
  destruct (segregate_ok ngbs (length pop) pop [] (le_n _) Hps) as [cls [Ec [Hcov [Hne [Huniq Hconn]]]]].
  { intros x Hx. apply Hin' in Hx. destruct Hx as [tr [_ Hx]]. eauto. }
  rewrite Ec. simpl. specialize (Hconn (fun a b _ _ => Hsym a b)). set (big := filter (fun cl => 1 <? length cl) cls).
  assert (Hall : forall cl, In cl cls -> forall p, In p cl -> exists tr, In tr population /\ invert ti t p = Some tr) by (intros cl Hcl p Hp; apply Hin'; apply Hcov; eauto).
  destruct (all_some_ok (fun cl => cluster_trajs ti t cl []) big) as [ms [Em F]].
  { intros cl Hcl. apply filter_In in Hcl. destruct (cluster_trajs_ok ti t cl []) as [m [E' _]]; [intros p Hp; destruct (Hall cl (proj1 Hcl) p Hp) as [tr [_ H]]; eauto|constructor|eauto]. }
  exists ms. split; auto.
  assert (Hm : forall k m, nth_error ms k = Some m -> exists cl, nth_error big k = Some cl /\ StronglySorted lt m /\ (forall tr, In tr m <-> exists p, In p cl /\ invert ti t p = Some tr)).
  { intros k m Hk. destruct (Forall2_nth_x _ _ _ F k m Hk) as [cl [Hcl Hcm]]. exists cl. split; auto.
    assert (Hclin : In cl cls) by (apply nth_error_In, filter_In in Hcl; tauto).
    destruct (cluster_trajs_ok ti t cl []) as [m' [E' [Hs' Hin2]]]; [intros p Hp; destruct (Hall cl Hclin p Hp) as [tr [_ H]]; eauto|constructor|].
    assert (m' = m) by congruence. subst. split; auto. intros tr. rewrite Hin2. simpl. intuition. }
  assert (Hsize : forall cl, In cl cls -> 2 <= length cl <-> In cl big).
  { intros cl Hcl. unfold big. rewrite filter_In, Nat.ltb_lt. intuition. }
  split; [|split].
  - intros k m Hk. destruct (Hm k m Hk) as [cl [Hcl [Hs Hin2]]]. split; auto. apply nth_error_In in Hcl. assert (Hclin : In cl cls) by (unfold big in Hcl; apply filter_In in Hcl; tauto).
    assert (H2 := proj2 (Hsize cl Hclin) Hcl). apply In_nth_error in Hclin. destruct Hclin as [j Hj]. destruct (Hne j cl Hj) as [Hne' Hscl]. destruct cl as [|p cl']; [congruence|].
    destruct (two_members _ Hscl H2 p) as [q [Hq Hqp]]; [simpl; auto|]. apply nth_error_In in Hj. destruct (Hall _ Hj p) as [a [_ Ha]]; [simpl; auto|]. destruct (Hall _ Hj q Hq) as [b [_ Hb]].
    apply (sorted_two m a b); auto; [apply Hin2; exists p; simpl; auto|apply Hin2; eauto|]. intros ->. apply Hqp. eapply invert_inj; eauto.
  - intros k k' m m' a Hk Hk' Ha Ha'. destruct (Hm k m Hk) as [cl [Hcl [_ Hi]]]. destruct (Hm k' m' Hk') as [cl' [Hcl' [_ Hi']]].
    apply Hi in Ha. apply Hi' in Ha'. destruct Ha as [p [Hp Hpa]]. destruct Ha' as [q [Hq Hqa]]. assert (q = p) by (eapply invert_inj; eauto). subst.
    destruct (filter_index_inj _ cls k k' cl cl' Hcl Hcl') as [j [j' [H1 [H2 H3]]]]. apply H3. eapply Huniq; eauto.
  - intros a b Hab. split.
    + intros H. destruct (tconnected_exists a b H Hab) as [p [q [Hp [Hq [Ha Hb]]]]]. assert (Hpq : connected ngbs pop p q) by (eapply connected_trajs; eauto).
      assert (Hpp : In p pop) by (apply Hin'; eauto). apply Hcov in Hpp. destruct Hpp as [cl [Hcl Hpcl]].
      assert (Hqcl : In q cl) by (apply (Hconn cl p q); auto). assert (Hbig : In cl big).
      { apply Hsize; auto. apply In_nth_error in Hcl. destruct Hcl as [j Hj]. destruct (Hne j cl Hj) as [_ Hs]. apply (sorted_two cl p q); auto. intros ->. apply Hab. congruence. }
      apply In_nth_error in Hbig. destruct Hbig as [k Hk]. destruct (Forall2_nth_l _ _ _ F k cl Hk) as [m [Hkm Hcm]]. destruct (Hm k m Hkm) as [cl' [Hcl' [_ Hi]]].
      assert (cl' = cl) by congruence. subst. exists m. split; [eapply nth_error_In; eauto|]. split; apply Hi; eauto.
    + intros [m [Hmin [Ha Hb]]]. apply In_nth_error in Hmin. destruct Hmin as [k Hk]. destruct (Hm k m Hk) as [cl [Hcl [_ Hi]]]. apply Hi in Ha. apply Hi in Hb.
      destruct Ha as [p [Hp Hpa]]. destruct Hb as [q [Hq Hqb]]. apply nth_error_In in Hcl. assert (Hclin : In cl cls) by (unfold big in Hcl; apply filter_In in Hcl; tauto).
      destruct (Hall cl Hclin p Hp) as [a' [Ha' Ea]]. destruct (Hall cl Hclin q Hq) as [b' [Hb' Eb]]. assert (a' = a) by congruence. assert (b' = b) by congruence. subst.
      eapply (connected_trajs pop Hin' p q); eauto. apply (Hconn cl p q); auto.
Qed.
End Members.

(** Histories of a TrajMap, step by step. *)
Lemma run_frames : forall h tm tm', trajmap_run tm h = Some tm' -> exists fs, frames tm' = frames tm ++ fs /\ length fs = length h.
Proof.
  induction h as [|[fol m] h IH]; intros tm tm' E; [injection E as <-; exists []; rewrite app_nil_r; auto|]. cbn [trajmap_run] in E. destruct (trajmap_push tm fol m) as [tm1|] eqn:Ep; [|discriminate].
  destruct (IH _ _ E) as [fs [Ef Lf]]. unfold trajmap_push in Ep. destruct (gather_links fol _); [|discriminate]. destruct (forallb _ _); [|discriminate].
  destruct (start_new _ _ _ _) as [f' nb']. injection Ep as <-. cbn [frames] in Ef. exists (f' :: fs). rewrite Ef, <- app_assoc. simpl. auto.
Qed.
Lemma run_app : forall h1 h2 tm, trajmap_run tm (h1 ++ h2) = match trajmap_run tm h1 with Some tm' => trajmap_run tm' h2 | None => None end.
Proof. induction h1 as [|[fol m] h1 IH]; intros h2 tm; simpl; auto. destruct (trajmap_push tm fol m); auto. Qed.
Lemma hok_app : forall h1 h2 n, history_ok n (h1 ++ h2) -> history_ok n h1.
Proof. induction h1 as [|[fol m] h1 IH]; intros h2 n; simpl; auto. intros [H1 [H2 H3]]. split; auto. split; auto. eauto. Qed.
Lemma step_facts n h1 fol m h2 tm : history_ok n (h1 ++ (fol, m) :: h2) -> trajmap_run (trajmap_new n) (h1 ++ (fol, m) :: h2) = Some tm ->
  exists g f, frame_at tm (length h1) g /\ frame_at tm (S (length h1)) f /\
    (forall p q tr, In (q, tr) g -> In (p, tr) f -> exists d mm, nth_error fol q = Some mm /\ In (d, p) mm) /\
    (forall d p q tr mm, In (q, tr) g -> nth_error fol q = Some mm -> In (d, p) mm ->
       In (p, tr) f \/ exists d' p' q' tr' mm', In (q', tr') g /\ nth_error fol q' = Some mm' /\ In (d', p') mm' /\ In (p', tr') f /\ (d' <= d)%Z /\
         ((p' = p /\ tr' <> tr) \/ (tr' = tr /\ p' <> p))).
Proof.
  intros Hok E. replace (h1 ++ (fol, m) :: h2) with ((h1 ++ [(fol, m)]) ++ h2) in Hok, E by (rewrite <- app_assoc; auto).
  assert (Hok1 := hok_app _ _ _ Hok). assert (Hok0 := hok_app _ _ _ Hok1). destruct (C18_shortest_first n h1 fol m Hok1) as [tm0 [tm1 [E0 [E1 H]]]].
  cbv zeta in H. destruct H as [Hf [Hcont [Hshort _]]]. rewrite run_app, run_app, E0 in E. cbn [trajmap_run] in E. rewrite E1 in E.
  destruct (run_frames _ _ _ E) as [fs [Ef _]]. destruct (run_frames _ _ _ E0) as [fs0 [Ef0 Lf0]]. set (g := last (frames tm0) []) in *. set (f := last (frames tm1) []) in *.
  assert (L0 : length (frames tm0) = S (length h1)) by (rewrite Ef0, app_length; simpl; lia).
  assert (Hg : nth_error (frames tm0) (length h1) = Some g).
  { unfold g. destruct (exists_last (l := frames tm0)) as [l [x Hl]]; [intros Hx; rewrite Hx in L0; discriminate|]. rewrite Hl in *. rewrite last_last.
    rewrite app_length in L0. simpl in L0. rewrite nth_error_app2 by lia. replace (length h1 - length l) with 0 by lia. auto. }
  exists g, f. unfold frame_at. rewrite Ef, Hf. split; [rewrite !nth_error_app1; auto; rewrite ?app_length; simpl; lia|].
  split; [rewrite nth_error_app1 by (rewrite app_length; simpl; lia); rewrite nth_error_app2 by lia; rewrite L0, Nat.sub_diag; auto|].
  destruct (C16_bijection n h1 Hok0) as [tm0' [E0' [_ Hbij]]]. assert (tm0' = tm0) by congruence. subst tm0'. destruct (Hbij (length h1) g Hg) as [_ [_ [Hfun [Hinj _]]]].
  split.
  - intros p q tr Hq Hp. destruct (Hcont p tr Hp) as [d [q' [mm [Hq' [Hmm Hd]]]]].
    + destruct (C17_numbering n h1 tm0 Hok0 E0) as [Hn _]. apply Hn. exists (length h1), g, q. auto.
    + assert (q' = q) by eauto. subst. eauto.
  - intros d p q tr mm Hq Hmm Hd. destruct (Hshort d p tr) as [H|[d' [p' [tr' [[q' [mm' [Hq' [Hmm' Hd']]]] [Hp' [Hle Hor]]]]]]]; [exists q, mm; auto|auto|].
    right. exists d', p', q', tr', mm'. auto 10.
Qed.

(** Sizes of intersections and unions. *)
Lemma shared_inter K S : StronglySorted lt K -> StronglySorted lt S -> length (set_inter K S) = shared K S.
Proof.
  intros HK HS. destruct (set_inter_spec K S HK HS) as [Hs Hin]. unfold shared. f_equal. apply ssorted_ext; auto; [apply filter_ssorted; auto|].
  intros x. rewrite Hin, filter_In, existsb_exists. split.
  - intros [H1 H2]. split; auto. exists x. split; auto. apply Nat.eqb_refl.
  - intros [H1 [y [H2 H3]]]. apply Nat.eqb_eq in H3. subst. auto.
Qed.
Lemma union_inter : forall a b, length (set_union a b) + length (set_inter a b) = length a + length b.
Proof.
  induction a as [|x a IHa]; intros b; [destruct b; simpl; lia|]. induction b as [|y b IHb]; [simpl; lia|].
  cbn [set_union set_inter]. destruct (x <? y); [specialize (IHa (y :: b)); simpl in *; lia|].
  destruct (y <? x); [|specialize (IHa b); simpl in *; lia]. cbn [length] in *. 
  change ((fix inner (b : list nat) : list nat := match b with [] => x :: a | y0 :: b' => if x <? y0 then x :: set_union a b else if y0 <? x then y0 :: inner b' else x :: set_union a b' end) b) with (set_union (x :: a) b).
  change ((fix inner (b : list nat) : list nat := match b with [] => [] | y0 :: b' => if x <? y0 then set_inter a b else if y0 <? x then inner b' else x :: set_inter a b' end) b) with (set_inter (x :: a) b). lia.
Qed.
Lemma common_multiple_pos n : (0 < common_multiple n)%Z.
Proof.
  unfold common_multiple. assert (H : forall n s, 1 <= s -> (0 < fold_right (fun k m => (Z.of_nat k * m)%Z) 1%Z (seq s n))%Z); [|auto].
  clear. induction n as [|n IH]; intros s Hs; cbn [seq fold_right]; [lia|]. apply Z.mul_pos_pos; [lia|]. apply IH. lia.
Qed.
Lemma common_multiple_div n i : 1 <= i <= n -> (Z.of_nat i | common_multiple n)%Z.
Proof.
  unfold common_multiple. assert (H : forall n s, s <= i < s + n -> (Z.of_nat i | fold_right (fun k m => (Z.of_nat k * m)%Z) 1%Z (seq s n))%Z).
  { clear. induction n as [|n IH]; intros s H; [lia|]. simpl. destruct (Nat.eq_dec i s) as [->|]; [apply Z.divide_factor_l|]. apply Z.divide_mul_r. apply IH. lia. }
  intros Hi. apply H. lia.
Qed.
Lemma distance_order n u i u' i' : 1 <= i <= n -> 1 <= i' <= n -> (distance (common_multiple n) u i <= distance (common_multiple n) u' i')%Z -> u * i' <= u' * i.
Proof.
  intros Hi Hi' H. unfold distance in H. destruct (common_multiple_div n i Hi) as [q Hq]. destruct (common_multiple_div n i' Hi') as [q' Hq']. pose proof (common_multiple_pos n) as Hpos.
  set (M := common_multiple n) in *. rewrite Hq in H at 1. rewrite Hq' in H. rewrite !Z.div_mul in H by lia.
  apply Nat2Z.inj_le. rewrite !Nat2Z.inj_mul. set (I := Z.of_nat i) in *. set (I' := Z.of_nat i') in *. set (U := Z.of_nat u) in *. set (U' := Z.of_nat u') in *.
  assert (0 < I)%Z by (unfold I; lia). assert (0 < I')%Z by (unfold I'; lia).
  assert (Hm : (U * q * (I * I') <= U' * q' * (I * I'))%Z) by (apply Z.mul_le_mono_nonneg_r; [apply Z.mul_nonneg_nonneg; lia|exact H]).
  apply (Z.mul_le_mono_pos_l _ _ M); auto. replace (M * (U * I'))%Z with (U * q * (I * I'))%Z by (rewrite Hq; ring).
  replace (M * (U' * I))%Z with (U' * q' * (I * I'))%Z by (rewrite Hq'; ring). auto.
Qed.
Lemma in_followers n K next d s : StronglySorted lt K -> (forall S, In S next -> StronglySorted lt S) ->
  In (d, s) (followers (common_multiple n) K next) <-> exists S, nth_error next s = Some S /\ overlap K S /\ d = distance (common_multiple n) (length K + length S - shared K S) (shared K S).
Proof.
  intros HK Hn. unfold followers. rewrite sort_by_in, in_flat_map. split.
  - intros [[s' S] [Hin H]]. cbn [fst snd] in H. assert (Hs : nth_error next s' = Some S).
    { apply In_nth_error in Hin. destruct Hin as [k Hk]. apply combine_nth_error in Hk. destruct Hk as [Hk1 Hk2]. assert (k < length next) by (eapply nth_error_lt; eauto).
      rewrite nth_error_seq in Hk1 by auto. injection Hk1 as <-. auto. }
    exists S. pose proof (shared_inter K S HK (Hn S (nth_error_In _ _ Hs))) as Esh. pose proof (union_inter K S) as Eu.
    assert (Elen : length (set_union K S) = length K + length S - shared K S) by lia.
    destruct (set_inter K S) as [|z I] eqn:EI; [destruct H|]. rewrite <- EI in *. destruct (Nat.ltb_spec (length (set_union K S)) (3 * length (set_inter K S))) as [Hlt|]; [|destruct H].
    destruct H as [H|[]]. injection H as <- <-. split; auto. split; [unfold overlap; lia|]. rewrite Elen, Esh. auto.
  - intros [S [Hs [Ho ->]]]. exists (s, S). split.
    + apply nth_error_In with s. apply combine_nth_error. assert (s < length next) by (eapply nth_error_lt; eauto). rewrite nth_error_seq by auto. auto.
    + cbn [fst snd]. pose proof (shared_inter K S HK (Hn S (nth_error_In _ _ Hs))) as Esh. pose proof (union_inter K S) as Eu. unfold overlap in Ho.
      destruct (set_inter K S) as [|z I] eqn:EI; [simpl in *; lia|]. rewrite <- EI in *. destruct (Nat.ltb_spec (length (set_union K S)) (3 * length (set_inter K S))) as [Hlt|]; [|lia].
      left. rewrite Esh. f_equal. f_equal. lia.
Qed.

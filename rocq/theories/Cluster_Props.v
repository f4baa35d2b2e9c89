(** C46, C47: clusters of neighbours and their evolution. *)
Require Import ZArith List Bool Arith Lia Permutation Sorted Relation_Operators Operators_Properties.
Require Import Verif.Base Verif.SortU Verif.ListX Verif.RTree_Model Verif.Traj_Model Verif.Traj_Spec Verif.Traj_Proofs Verif.TrajMap_Proofs Verif.Traj_Props Verif.Particles_Spec
  Verif.Ngb_Model Verif.Ngb_Proofs Verif.Cluster_Model Verif.Cluster_Spec Verif.Cluster_Proofs Verif.Cluster2_Proofs.
Import ListNotations.

(** C46: [segregate] appends the connected components of the population. *)
Theorem C46_components ngbs pop acc : StronglySorted lt pop -> (forall x, In x pop -> x < length ngbs) ->
  (forall a b, In a pop -> In b pop -> linked ngbs a b -> linked ngbs b a) ->
  exists cls, segregate ngbs pop acc = Some (acc ++ cls) /\ classes (connected ngbs pop) pop cls.
Proof.
  intros Hs Hlt Hsym. destruct (segregate_ok ngbs (length pop) pop acc (le_n _) Hs Hlt) as [cls [E [H1 [H2 [H3 H4]]]]].
  exists cls. split; auto. repeat (split; auto).
Qed.
(** Without symmetry the clusters still partition the population, but they are not the components. *)
Theorem C46_partition ngbs pop acc : StronglySorted lt pop -> (forall x, In x pop -> x < length ngbs) ->
  exists cls, segregate ngbs pop acc = Some (acc ++ cls) /\ (forall x, In x pop <-> exists cl, In cl cls /\ In x cl) /\
    (forall k cl, nth_error cls k = Some cl -> cl <> [] /\ StronglySorted lt cl) /\
    (forall k k' cl cl' x, nth_error cls k = Some cl -> nth_error cls k' = Some cl' -> In x cl -> In x cl' -> k = k').
Proof.
  intros Hs Hlt. destruct (segregate_ok ngbs (length pop) pop acc (le_n _) Hs Hlt) as [cls [E [H1 [H2 [H3 H4]]]]]. exists cls. auto.
Qed.
Theorem C46_asymmetric_refuted : segregate [[]; [0]] [0; 1] [] = Some [[0]; [1]] /\ linked [[]; [0]] 1 0.
Proof. split; [reflexivity|]. exists [0]. simpl. auto. Qed.
Lemma fold_add : forall n s acc, StronglySorted lt acc -> (forall x, In x acc -> x < s) ->
  let r := fold_left (fun s p => nset_add p s) (seq s n) acc in StronglySorted lt r /\ forall x, In x r <-> In x acc \/ s <= x < s + n.
Proof.
  induction n as [|n IH]; intros s acc Hs Hlt r; subst r; simpl; [split; auto; intros; intuition lia|].
  destruct (IH (S s) (nset_add s acc)) as [H1 H2]; [apply nset_add_sorted; auto|intros x Hx; apply nset_add_in in Hx; destruct Hx as [->|Hx]; [lia|specialize (Hlt x Hx); lia]|].
  split; auto. intros x. rewrite H2, nset_add_in. intuition lia.
Qed.
Theorem C46_all ngbs : (forall a b, linked ngbs a b -> linked ngbs b a) ->
  exists cls, segregate_all ngbs (length ngbs) = Some cls /\ classes (connected ngbs (seq 0 (length ngbs))) (seq 0 (length ngbs)) cls.
Proof.
  intros Hsym. destruct (fold_add (length ngbs) 0 []) as [H1 H2]; [constructor|intros x []|]. unfold segregate_all.
  replace (fold_left (fun s p => nset_add p s) (seq 0 (length ngbs)) []) with (seq 0 (length ngbs)).
  - apply (C46_components ngbs (seq 0 (length ngbs)) []); [apply seq_ssorted|intros x Hx; apply in_seq in Hx; lia|auto].
  - apply ssorted_ext; auto; [apply seq_ssorted|]. intros x. rewrite H2, in_seq. simpl. intuition.
Qed.
Definition ex_ngbs : list (list nat) := [[2; 3]; [4]; [0]; [0]; [1; 5]; [4]; []].
Example C46_case : segregate ex_ngbs [0; 1; 2; 4; 6] [] = Some [[0; 2]; [1; 4]; [6]] /\ segregate_all ex_ngbs 7 = Some [[0; 2; 3]; [1; 4; 5]; [6]].
Proof. split; reflexivity. Qed.

(** C47. *)
Lemma Forall2_len_x {A B} (R : A -> B -> Prop) l r : Forall2 R l r -> length l = length r.
Proof. intros H. induction H; simpl; auto. Qed.
Lemma history_nth : forall members t now next, nth_error members t = Some now -> nth_error members (S t) = Some next ->
  nth_error (cluster_history members) t = Some (map (fun K => followers (common_multiple (largest now)) K next) now, length next).
Proof.
  induction members as [|m0 [|m1 rest] IH]; intros [|t] now next H1 H2; simpl in H1, H2; try discriminate; try (destruct t; discriminate).
  - injection H1 as <-. injection H2 as <-. reflexivity.
  - cbn [cluster_history nth_error]. apply IH; auto.
Qed.
Lemma history_sizes : forall members first rest, members = first :: rest -> length first :: map snd (cluster_history members) = map (@length (list nat)) members.
Proof.
  induction members as [|m0 [|m1 rest] IH]; intros first rs H; [discriminate|injection H as <- <-; auto|injection H as <- <-].
  cbn [cluster_history map snd]. f_equal. apply (IH m1 rest). auto.
Qed.
Lemma history_valid : forall members first rest, members = first :: rest -> (forall ms m, In ms members -> In m ms -> StronglySorted lt m) -> history_ok (length first) (cluster_history members).
Proof.
  induction members as [|m0 [|m1 rest] IH]; intros first rs H Hs; [discriminate|injection H as <- <-; exact I|injection H as <- <-].
  cbn [cluster_history history_ok]. split; [rewrite map_length; auto|]. split.
  - apply Forall_forall. intros fm Hfm. apply in_map_iff in Hfm. destruct Hfm as [K [<- HK]]. apply Forall_forall. intros [d s] Hd.
    apply in_followers in Hd; [|apply (Hs m0); simpl; auto|intros S HS; apply (Hs m1); simpl; auto].
    destruct Hd as [S [HS _]]. simpl. eapply nth_error_lt; eauto.
  - eapply IH; eauto. intros ms m Hms. apply Hs. simpl. auto.
Qed.
Lemma largest_le ms m : In m ms -> length m <= largest ms.
Proof. unfold largest. induction ms as [|x ms IH]; simpl; [tauto|]. intros [->|H]; [lia|]. specialize (IH H). lia. Qed.
Lemma shared_le K S : shared K S <= length K.
Proof. apply filter_length_le_x. Qed.

Theorem C47_clusters ti ngbss population : consistent ti -> ngbss <> [] -> (forall tr, In tr population -> tr < length (trajs ti)) ->
  (forall t ngbs, nth_error ngbss t = Some ngbs -> (forall a b, linked ngbs a b -> linked ngbs b a) /\ (forall tr p, on_traj ti tr t p -> p < length ngbs)) ->
  exists members c, assign_clusters ti ngbss population = Some (members, c) /\ length members = length ngbss /\
    (** the members of the clusters at each time are the connected components of more than one particle *)
    (forall t ngbs ms, nth_error ngbss t = Some ngbs -> nth_error members t = Some ms -> cluster_partition (tconnected ti ngbs population t) ms) /\
    (** each cluster is on exactly one trajectory *)
    (forall t ms k, nth_error members t = Some ms -> (k < length ms <-> exists tr, on_traj c tr t k)) /\
    (forall t k tr tr', on_traj c tr t k -> on_traj c tr' t k -> tr = tr') /\
    (** successive clusters of a trajectory overlap *)
    (forall t now next k s K S tr, nth_error members t = Some now -> nth_error members (t + 1) = Some next -> nth_error now k = Some K -> nth_error next s = Some S ->
       on_traj c tr t k -> on_traj c tr (t + 1) s -> overlap K S) /\
    (** overlapping clusters follow each other, or one of them has a link at least as close *)
    (forall t now next k s K S, nth_error members t = Some now -> nth_error members (t + 1) = Some next -> nth_error now k = Some K -> nth_error next s = Some S -> overlap K S ->
       (exists tr, on_traj c tr t k /\ on_traj c tr (t + 1) s) \/
       (exists k' s' K' S' tr', nth_error now k' = Some K' /\ nth_error next s' = Some S' /\ on_traj c tr' t k' /\ on_traj c tr' (t + 1) s' /\
          at_least_as_close K' S' K S /\ ((k' = k /\ s' <> s) \/ (k' <> k /\ s' = s)))).
Proof.
  intros Hc Hne Hpop Hn. unfold assign_clusters.
  set (tn := combine (seq 0 (length ngbss)) ngbss).
  assert (Htn : forall t ngbs, nth_error tn t = Some (t, ngbs) <-> nth_error ngbss t = Some ngbs).
  { intros t ngbs. unfold tn. rewrite combine_nth_error. split; [tauto|]. intros H. split; auto. apply nth_error_seq. eapply nth_error_lt; eauto. }
  assert (Htn' : forall t x, nth_error tn t = Some x -> fst x = t /\ nth_error ngbss t = Some (snd x)).
  { intros t [t' ngbs] H. unfold tn in H. apply combine_nth_error in H. destruct H as [H1 H2]. assert (t < length ngbss) by (eapply nth_error_lt; eauto). rewrite nth_error_seq in H1 by auto. injection H1 as <-. auto. }
  assert (Hmem : forall t ngbs, nth_error ngbss t = Some ngbs -> exists ms, members_at ti ngbs population t = Some ms /\ cluster_partition (tconnected ti ngbs population t) ms).
  { intros t ngbs Ht. destruct (Hn t ngbs Ht) as [Hsym Hlt]. apply members_at_ok; auto. intros p tr Hp. apply (Hlt tr p). destruct Hc as [Hci _]. apply Hci in Hp. exact Hp. }
  destruct (all_some_ok (fun x => members_at ti (snd x) population (fst x)) tn) as [members [Em F]].
  { intros x Hx. apply In_nth_error in Hx. destruct Hx as [t Hx]. destruct (Htn' t x Hx) as [<- H2]. destruct (Hmem _ _ H2) as [ms [H _]]. eauto. }
  rewrite Em. assert (Hlen : length members = length ngbss).
  { rewrite <- (Forall2_len_x _ _ _ F). unfold tn. rewrite combine_length, seq_length. lia. }
  assert (Hpart : forall t ngbs ms, nth_error ngbss t = Some ngbs -> nth_error members t = Some ms -> cluster_partition (tconnected ti ngbs population t) ms).
  { intros t ngbs ms H1 H2. destruct (Forall2_nth_x _ _ _ F t ms H2) as [x [Hx Hms]]. destruct (Htn' t x Hx) as [H3 H4]. assert (snd x = ngbs) by congruence. rewrite H3, H in Hms.
    destruct (Hmem t ngbs H1) as [ms' [H5 H6]]. congruence. }
  assert (Hsort : forall ms m, In ms members -> In m ms -> StronglySorted lt m).
  { intros ms m Hms Hm. apply In_nth_error in Hms. destruct Hms as [t Ht]. destruct (nth_error_ex ngbss t) as [ngbs Hng]; [rewrite <- Hlen; eapply nth_error_lt; eauto|].
    destruct (Hpart t ngbs ms Hng Ht) as [H1 _]. apply In_nth_error in Hm. destruct Hm as [k Hk]. apply (H1 k m Hk). }
  destruct members as [|first rest]; [destruct ngbss; [congruence|discriminate]|]. set (members := first :: rest) in *.
  assert (Hok : history_ok (length first) (cluster_history members)) by (eapply history_valid; eauto; reflexivity).
  destruct (C19_index (length first) (cluster_history members) Hok) as [tm [c [Et [Ec [_ [_ Hfr]]]]]]. rewrite Et, Ec. exists members, c. split; auto. split; auto. split; auto.
  destruct (C16_bijection _ _ Hok) as [tm' [Et' [Hsz Hbij]]]. assert (tm' = tm) by congruence. subst tm'. rewrite (history_sizes members first rest eq_refl) in Hbij, Hsz.
  assert (Hframe : forall t ms, nth_error members t = Some ms -> exists f, frame_at tm t f /\ length f = length ms).
  { intros t ms Ht. assert (H : nth_error (map_frame_sizes tm) t = Some (length ms)) by (rewrite Hsz; apply map_nth_error; auto).
    unfold map_frame_sizes in H. apply nth_error_map_inv in H. destruct H as [f [Hf Hl]]. exists f. auto. }
  assert (Hon : forall t p tr, on_traj c tr t p <-> exists f, frame_at tm t f /\ In (p, tr) f) by (intros t p tr; unfold on_traj; symmetry; apply Hfr).
  assert (Hstep : forall t now next, nth_error members t = Some now -> nth_error members (t + 1) = Some next ->
    let fol := map (fun K => followers (common_multiple (largest now)) K next) now in
    exists g f, frame_at tm t g /\ frame_at tm (t + 1) f /\
      (forall p q tr, In (q, tr) g -> In (p, tr) f -> exists d mm, nth_error fol q = Some mm /\ In (d, p) mm) /\
      (forall d p q tr mm, In (q, tr) g -> nth_error fol q = Some mm -> In (d, p) mm ->
         In (p, tr) f \/ exists d' p' q' tr' mm', In (q', tr') g /\ nth_error fol q' = Some mm' /\ In (d', p') mm' /\ In (p', tr') f /\ (d' <= d)%Z /\
           ((p' = p /\ tr' <> tr) \/ (tr' = tr /\ p' <> p)))).
  { intros t now next H1 H2 fol. rewrite Nat.add_1_r in *. assert (Hh := history_nth members t now next H1 H2). destruct (nth_error_split _ _ Hh) as [h1 [h2 [Eh Lh]]].
    rewrite Eh in Hok, Et. destruct (step_facts _ _ _ _ _ _ Hok Et) as [g [f [Hg [Hf [Ha Hb]]]]]. rewrite Lh in *. exists g, f. auto. }
  assert (Hfol : forall now next K q d p mm, (exists t, nth_error members t = Some now /\ nth_error members (t + 1) = Some next) ->
    nth_error (map (fun K => followers (common_multiple (largest now)) K next) now) q = Some mm -> nth_error now q = Some K ->
    (In (d, p) mm <-> exists S, nth_error next p = Some S /\ overlap K S /\ d = distance (common_multiple (largest now)) (length K + length S - shared K S) (shared K S))).
  { intros now next K q d p mm [t [H1 H2]] Hmm HK. apply nth_error_map_inv in Hmm. destruct Hmm as [K' [HK' ->]]. assert (K' = K) by congruence. subst.
    apply nth_error_In in H1. apply nth_error_In in H2. apply nth_error_In in HK. apply in_followers; eauto. }
  split; [|split; [|split]].
  - intros t ms k Ht. destruct (Hframe t ms Ht) as [f [Hf Hl]]. destruct (Hbij t f Hf) as [_ [Hcov _]]. rewrite <- Hl, Hcov. split.
    + intros [tr H]. exists tr. apply Hon. eauto.
    + intros [tr H]. apply Hon in H. destruct H as [f' [Hf' H]]. assert (f' = f) by (unfold frame_at in *; congruence). subst. eauto.
  - intros t k tr tr' H H'. apply Hon in H. apply Hon in H'. destruct H as [f [Hf H]]. destruct H' as [f' [Hf' H']]. assert (f' = f) by (unfold frame_at in *; congruence). subst.
    destruct (Hbij t f Hf) as [_ [_ [Hfun _]]]. eauto.
  - intros t now next k s K S tr H1 H2 HK HS Hk Hs. destruct (Hstep t now next H1 H2) as [g [f [Hg [Hf [Ha _]]]]]. apply Hon in Hk. apply Hon in Hs.
    destruct Hk as [g' [Hg' Hk]]. destruct Hs as [f' [Hf' Hs]]. assert (g' = g) by (unfold frame_at in *; congruence). assert (f' = f) by (unfold frame_at in *; congruence). subst.
    destruct (Ha s k tr Hk Hs) as [d [mm [Hmm Hd]]]. apply (Hfol now next K k d s mm) in Hd; eauto. destruct Hd as [S' [HS' [Ho _]]]. congruence.
  - intros t now next k s K S H1 H2 HK HS Ho. destruct (Hstep t now next H1 H2) as [g [f [Hg [Hf [_ Hb]]]]].
    assert (Hkl : k < length now) by (eapply nth_error_lt; eauto).
    destruct (Hframe t now H1) as [g' [Hg' Hl]]. assert (g' = g) by (unfold frame_at in *; congruence). subst. destruct (Hbij t g Hg) as [_ [Hcov [Hfun [Hinj _]]]].
    rewrite <- Hl, Hcov in Hkl. destruct Hkl as [tr Hk]. assert (Hmm := map_nth_error (fun K => followers (common_multiple (largest now)) K next) k now HK).
    assert (HKS : 1 <= shared K S <= largest now).
    { unfold overlap in Ho. split; [lia|]. pose proof (shared_le K S). pose proof (largest_le now K (nth_error_In _ _ HK)). lia. }
    destruct (Hb (distance (common_multiple (largest now)) (length K + length S - shared K S) (shared K S)) s k tr _ Hk Hmm) as [Hin|[d' [s' [k' [tr' [mm' [Hk' [Hmm' [Hd' [Hs' [Hle Hor]]]]]]]]]]].
    { apply (Hfol now next K k _ s _); eauto. }
    + left. exists tr. split; apply Hon; eauto.
    + right. assert (Hkl' : k' < length now) by (apply nth_error_lt in Hmm'; rewrite map_length in Hmm'; auto). destruct (nth_error_ex now k' Hkl') as [K' HK'].
      apply (Hfol now next K' k' d' s' mm') in Hd'; eauto. destruct Hd' as [S' [HS' [Ho' Ed]]]. exists k', s', K', S', tr'. repeat split; auto; try (apply Hon; eauto).
      * assert (HKS' : 1 <= shared K' S' <= largest now).
        { unfold overlap in Ho'. split; [lia|]. pose proof (shared_le K' S'). pose proof (largest_le now K' (nth_error_In _ _ HK')). lia. }
        rewrite Ed in Hle. apply distance_order in Hle; auto. unfold at_least_as_close. rewrite !Nat.mul_sub_distr_r in Hle.
        pose proof (shared_le K S) as L1. pose proof (shared_le K' S') as L2.
        assert (shared K S * shared K' S' <= (length K + length S) * shared K' S') by (apply Nat.mul_le_mono_r; lia).
        assert (shared K' S' * shared K S <= (length K' + length S') * shared K S) by (apply Nat.mul_le_mono_r; lia). lia.
      * destruct Hor as [[-> Htr]|[-> Hp]].
        -- right. split; auto. intros ->. apply Htr. eapply Hfun; eauto.
        -- left. split; auto. eapply Hinj; eauto.
Qed.
(** Four particles over three frames: the pair (0,1) is joined by 2, then 1 leaves. *)
Definition ex_ti : trajindex := mkIndex [mkTraj 0 [0; 1; 0]; mkTraj 0 [1; 2; 1]; mkTraj 0 [2; 0; 2]; mkTraj 1 [3; 3]] [[0; 1; 2]; [2; 0; 1; 3]; [0; 1; 2; 3]].
Definition ex_ngbss : list (list (list nat)) := [[[1]; [0]; []]; [[1]; [0; 2]; [1]; []]; [[2]; []; [0]; []]].
Example C47_case : consistent ex_ti /\ assign_clusters ex_ti ex_ngbss [0; 1; 2; 3] = Some ([[[0; 1]]; [[0; 1; 2]]; [[0; 2]]], mkIndex [mkTraj 0 [0; 0; 0]] [[0]; [0]; [0]]) /\
  (forall t ngbs, nth_error ex_ngbss t = Some ngbs -> (forall a b, linked ngbs a b -> linked ngbs b a) /\ (forall tr p, on_traj ex_ti tr t p -> p < length ngbs)).
Proof.
  split; [|split; [vm_compute; reflexivity|]].
  - split.
    + intros t p tr. split.
      * intros H. destruct t as [|[|[|t]]]; [| | |destruct t; discriminate];
          (destruct p as [|[|[|[|p]]]]; vm_compute in H; try discriminate; try (destruct p; discriminate); injection H as <-; eexists; (split; [reflexivity|]); unfold at_time; cbn [start steps];
           first [exists 0; split; reflexivity|exists 1; split; reflexivity|exists 2; split; reflexivity]).
      * intros [T [HT [k [-> Hk]]]]. destruct tr as [|[|[|[|tr]]]]; [| | | |destruct tr; discriminate]; injection HT as <-;
          (destruct k as [|[|[|k]]]; simpl in Hk; try discriminate; try (destruct k; discriminate); injection Hk as <-; reflexivity).
    + intros tr T HT. destruct tr as [|[|[|[|tr]]]]; [| | | |destruct tr; discriminate]; injection HT as <-; split; try discriminate; vm_compute; discriminate.
  - intros t ngbs H. split.
    + intros a b [l [Hl Hb]]. destruct t as [|[|[|t]]]; [| | |destruct t; discriminate]; injection H as <-;
        (destruct a as [|[|[|[|a]]]]; simpl in Hl; try discriminate; try (destruct a; discriminate); injection Hl as <-; simpl in Hb;
         repeat (destruct Hb as [<-|Hb]; [eexists; split; [reflexivity|simpl; auto]|]); destruct Hb).
    + intros tr p [T [HT [k [-> Hk]]]]. destruct tr as [|[|[|[|tr]]]]; [| | | |destruct tr; discriminate]; injection HT as <-;
        (destruct k as [|[|[|k]]]; simpl in Hk; try discriminate; try (destruct k; discriminate); injection Hk as <-; simpl in H; injection H as <-; simpl; lia).
Qed.

Print Assumptions C46_components. Print Assumptions C46_partition. Print Assumptions C46_all. Print Assumptions C47_clusters.

Require Import ZArith List Bool Arith Lia Permutation Sorted.
Require Import Verif.Base Verif.SortU Verif.ListX Verif.Box_Model Verif.Box_Proofs Verif.RTree_Model Verif.RTree_Spec Verif.RTree_Proofs Verif.RTree_Props
  Verif.Traj_Model Verif.Traj_Spec Verif.Traj_Proofs Verif.MTraj_Model Verif.MTraj_Spec Verif.MTraj_Proofs
  Verif.Center_Model Verif.Center_Spec Verif.Center_Proofs Verif.Center_Props Verif.Reconstructor_Model.
Import ListNotations.

Lemma map_lid_bb bb fr : map lid (bb_leaves bb fr) = seq 0 (length fr).
Proof.
  unfold bb_leaves. rewrite map_map. cbn [lid]. rewrite (map_ext _ fst) by auto. apply map_fst_combine. rewrite seq_length. auto.
Qed.
Lemma in_combine_seq {A} (l : list A) i x : In (i, x) (combine (seq 0 (length l)) l) <-> nth_error l i = Some x.
Proof.
  split.
  - intros H. apply In_nth_error in H. destruct H as [k H]. apply combine_nth_error in H. destruct H as [H1 H2].
    pose proof (nth_error_lt _ _ _ H1) as Hl. rewrite seq_length in Hl. rewrite nth_error_seq in H1 by auto. injection H1 as <-. auto.
  - intros H. apply nth_error_In with i. apply combine_nth_error. split; auto. rewrite nth_error_seq; auto. eapply nth_error_lt; eauto.
Qed.

Lemma margin_overlap m : (0 <= m)%Z -> forall a b, length (coords a) = length (coords b) -> (0 <= radius b)%Z ->
  (csqdist a b < m * m)%Z -> overlaps (get_bb_margin half_d m a) (get_bb half_n half_d b) = true.
Proof.
  intros Hm a b Hl Hr Hd. unfold csqdist in Hd. apply sqdist_axis in Hd; auto. unfold get_bb_margin, get_bb, half_n, half_d.
  clear Hl. induction Hd as [|x y xs ys Hxy _ IH]; auto. cbn [map]. rewrite overlaps_cons, !andb_true_iff, !Z.ltb_lt. cbn [fst snd].
  repeat split; auto; lia.
Qed.

Lemma links_of_spec m fr p a : forall ngb, (forall q, In q ngb -> q < length fr) ->
  exists ls, links_of m fr p a ngb = Some ls /\
    (forall d p' q, In (d, (p', q)) ls <-> p' = p /\ In q ngb /\ exists b, nth_error fr q = Some b /\ d = csqdist a b /\ (d < m * m)%Z) /\
    (NoDup ngb -> NoDup (map snd ls)).
Proof.
  induction ngb as [|q ngb IH]; intros H.
  - exists []. split; auto. split; [|constructor]. intros d p' q. split; [intros []|]. intros [_ [[] _]].
  - destruct IH as [ls [E [Hin Hnd]]]; [intros; apply H; right; auto|]. cbn [links_of]. destruct (nth_error_ex fr q) as [b Hb]; [apply H; left; auto|].
    rewrite Hb, E. eexists. split; [reflexivity|]. destruct (Z.ltb_spec (csqdist a b) (m * m)) as [Hlt|Hge]; split.
    + intros d p' q'. split.
      * intros [Heq|Hi]; [injection Heq as <- <- <-; split; auto; split; [left; auto|eauto]|]. apply Hin in Hi.
        destruct Hi as [H1 [H2 H3]]. split; auto. split; [right; auto|auto].
      * intros [-> [[<-|H2] [b' [H3 [H4 H5]]]]]; [left|right; apply Hin; split; auto; split; auto; exists b'; auto].
        assert (b' = b) by congruence. subst. auto.
    + intros Hn. inversion Hn; subst. cbn [map]. constructor; auto. intros Hi. apply in_map_iff in Hi. destruct Hi as [[d [p' q']] [E' Hi]].
      simpl in E'. injection E' as -> ->. apply Hin in Hi. tauto.
    + intros d p' q'. rewrite Hin. split.
      * intros [H1 [H2 H3]]. split; auto. split; [right; auto|auto].
      * intros [H1 [[<-|H2] [b' [H3 [H4 H5]]]]]; [|split; auto; split; eauto]. assert (b' = b) by congruence. subst. lia.
    + intros Hn. inversion Hn; subst. auto.
Qed.

Lemma links_by_tree_spec c m fr tree : config_ok c -> (0 <= m)%Z ->
  Forall (fun p => length (coords p) = dims c /\ (0 <= radius p)%Z) fr ->
  loop_inv c (get_bb half_n half_d) tree fr ->
  forall last, Forall (fun p => length (coords (snd p)) = dims c) last -> NoDup (map fst last) ->
  exists ls, links_by_tree m fr tree last = Some ls /\
    (forall d p q, In (d, (p, q)) ls <-> exists a b, In (p, a) last /\ nth_error fr q = Some b /\ d = csqdist a b /\ (d < m * m)%Z) /\
    NoDup (map snd ls).
Proof.
  intros Hok Hm Hfr Hinv. induction last as [|[p a] last IH]; intros Hd Hn.
  - exists []. split; auto. split; [|constructor]. intros d p q. split; [intros []|]. intros [a [b [[] _]]].
  - inversion Hd as [|? ? Ha Hd']; subst. inversion Hn as [|? ? Hp Hn']; subst. cbn [snd] in Ha. destruct (IH Hd' Hn') as [ls [E [Hin Hnd]]]. clear IH.
    cbn [links_by_tree]. rewrite E. destruct Hinv as [Hr Hl].
    rewrite (C05_overlap_query_exact c tree _ Hok Hr) by (unfold get_bb_margin; rewrite map_length; auto).
    set (ngb := map lid (filter (fun l => overlaps (get_bb_margin half_d m a) (lbox l)) (tleaves tree))).
    assert (Hngb : forall q, In q ngb <-> exists b, nth_error fr q = Some b /\ overlaps (get_bb_margin half_d m a) (get_bb half_n half_d b) = true).
    { intros q. unfold ngb. rewrite in_map_iff. split.
      - intros [lf [E' H]]. apply filter_In in H. destruct H as [H1 H2]. apply (Permutation_in _ Hl) in H1. apply bb_leaves_in in H1.
        destruct H1 as [i [b [Hb ->]]]. simpl in *. subst. eauto.
      - intros [b [Hb Ho]]. exists (mkLeaf q (get_bb half_n half_d b)). split; auto. apply filter_In. split; auto.
        apply (Permutation_in _ (Permutation_sym Hl)). apply bb_leaves_in. eauto. }
    assert (Hngbd : NoDup ngb).
    { unfold ngb. apply NoDup_map_filter. eapply Permutation_NoDup; [apply Permutation_sym, Permutation_map, Hl|]. rewrite map_lid_bb. apply seq_NoDup. }
    destruct (links_of_spec m fr p a ngb) as [ls1 [E1 [Hin1 Hnd1]]]; [intros q Hq; apply Hngb in Hq; destruct Hq as [b [Hb _]]; eapply nth_error_lt; eauto|].
    rewrite E1. exists (ls1 ++ ls). split; auto. split.
    + intros d p' q. rewrite in_app_iff, Hin1, Hin. split.
      * intros [[-> [H1 [b [H2 [H3 H4]]]]]|[a' [b [H1 H2]]]].
        -- exists a, b. split; [left; auto|auto].
        -- exists a', b. split; [right; auto|auto].
      * intros [a' [b [[Heq|H1] [H2 [H3 H4]]]]].
        -- injection Heq as -> ->. left. split; auto. split; [|exists b; auto]. apply Hngb. exists b. split; auto.
           rewrite Forall_forall in Hfr. destruct (Hfr b) as [Hb1 Hb2]; [eapply nth_error_In; eauto|]. apply margin_overlap; auto; [congruence|lia].
        -- right. exists a', b. auto.
    + rewrite map_app. apply NoDup_app_x; auto. intros [p' q] H1 H2. apply in_map_iff in H1. destruct H1 as [[d [p1 q1]] [E' H1]]. simpl in E'.
      injection E' as -> ->. apply Hin1 in H1. destruct H1 as [-> _]. apply in_map_iff in H2. destruct H2 as [[d2 [p2 q2]] [E' H2]]. simpl in E'.
      injection E' as -> ->. apply Hin in H2. destruct H2 as [a' [b [H2 _]]]. apply Hp. apply in_map_fst. eauto.
Qed.

(** * Clusters *)
Lemma concat_upd {A} (x : A) : forall cls tr cls', upd tr (fun cl => cl ++ [x]) cls = Some cls' -> Permutation (concat cls') (concat cls ++ [x]).
Proof.
  unfold upd. induction cls as [|cl cls IH]; intros [|tr] cls' H; simpl in H; try discriminate.
  - injection H as <-. simpl. rewrite <- !app_assoc. apply Permutation_app_head. simpl. apply Permutation_cons_append.
  - destruct (nth_error cls tr) eqn:E; [|discriminate]. injection H as <-. simpl. specialize (IH tr). rewrite E in IH.
    specialize (IH _ eq_refl). rewrite <- app_assoc. apply Permutation_app_head. exact IH.
Qed.

Lemma cluster_loop_spec old t : forall l cls k, NoDup (map fst l) -> old <= length cls ->
  filter (fun tr => negb (tr <? old)) (map fst l) = seq (length cls) k ->
  exists cls', cluster_loop old t l cls = Some cls' /\ length cls' = length cls + k /\
    (forall tr cl, nth_error cls tr = Some cl ->
       (forall c, tr < old -> In (tr, c) l -> nth_error cls' tr = Some (cl ++ [with_z t c])) /\
       (~ In tr (map fst l) -> nth_error cls' tr = Some cl)) /\
    (forall tr c, old <= tr -> In (tr, c) l -> nth_error cls' tr = Some [with_z t c]) /\
    Permutation (concat cls') (concat cls ++ map (with_z t) (map snd l)).
Proof.
  induction l as [|[tr c] l IH]; intros cls k Hn Hold Hf.
  - destruct k; [|discriminate]. exists cls. split; auto. split; [lia|]. split; [|split].
    + intros tr cl H. split; auto. intros c _ [].
    + intros tr c _ [].
    + simpl. rewrite app_nil_r. apply Permutation_refl.
  - cbn [map fst] in Hn. inversion Hn as [|? ? Htr Hn']; subst. cbn [cluster_loop map fst filter] in *. destruct (Nat.ltb_spec tr old) as [Hlt|Hge]; cbn [negb] in Hf.
    + assert (Hl : tr < length cls) by lia. destruct (nth_error_ex cls tr Hl) as [cl Hcl].
      pose proof (@concat_upd _ (with_z t c) cls tr) as Hperm.
      unfold upd in *. rewrite Hcl in *. set (cls1 := set_nth tr (cl ++ [with_z t c]) cls) in *.
      assert (Hl1 : length cls1 = length cls) by apply set_nth_len.
      destruct (IH cls1 k Hn') as [cls' [E [L [H1 [H2 H3]]]]]; [lia|congruence|]. exists cls'. split; auto. split; [lia|]. split; [|split].
      * intros tr' cl' Hc'. destruct (Nat.eq_dec tr' tr) as [->|Hne].
        -- assert (cl' = cl) by congruence. subst. split.
           ++ intros c' _ [Heq|Hin]; [|exfalso; apply Htr, in_map_fst; eauto]. injection Heq as <-.
              apply (H1 tr (cl ++ [with_z t c])); auto. unfold cls1. rewrite set_nth_get, Nat.eqb_refl by auto. auto.
           ++ intros Hno. exfalso. apply Hno. left; auto.
        -- assert (Hc1 : nth_error cls1 tr' = Some cl') by (unfold cls1; rewrite set_nth_get by auto; destruct (Nat.eqb_spec tr' tr); [congruence|auto]).
           destruct (H1 tr' cl' Hc1) as [Ha Hb]. split.
           ++ intros c' Ho [Heq|Hin]; [congruence|auto].
           ++ intros Hno. apply Hb. intros Hi. apply Hno. right; auto.
      * intros tr' c' Ho [Heq|Hin]; [injection Heq as -> ->; lia|auto].
      * eapply Permutation_trans; [exact H3|]. cbn [map snd]. specialize (Hperm _ eq_refl).
        change (with_z t c :: map (with_z t) (map snd l)) with ([with_z t c] ++ map (with_z t) (map snd l)). rewrite app_assoc. apply Permutation_app_tail, Hperm.
    + destruct k as [|k]; [discriminate|]. simpl in Hf. injection Hf as Htr' Hf.
      destruct (IH (cls ++ [[with_z t c]]) k Hn') as [cls' [E [L [H1 [H2 H3]]]]]; [rewrite app_length; lia|rewrite app_length; simpl; rewrite Nat.add_1_r; auto|].
      exists cls'. split; auto. rewrite app_length in L. simpl in L. split; [lia|]. split; [|split].
      * intros tr' cl' Hc'. pose proof (nth_error_lt _ _ _ Hc') as Hl'. destruct (H1 tr' cl') as [Ha Hb]; [rewrite nth_error_app1; auto|]. split.
        -- intros c' Ho [Heq|Hin]; [injection Heq as -> ->; lia|auto].
        -- intros Hno. apply Hb. intros Hi. apply Hno. right; auto.
      * intros tr' c' Ho [Heq|Hin]; [|auto]. injection Heq as <- <-.
        apply (H1 tr [with_z t c]); auto. rewrite nth_error_snoc, Htr', Nat.eqb_refl. auto.
      * eapply Permutation_trans; [exact H3|]. rewrite concat_app. simpl. rewrite <- app_assoc. auto.
Qed.

(** New trajectories are numbered in the order of the positions: seen from the row of the new frame. *)
Lemma new_ids_seq x row tri : t2_ok x -> t2_ok (mkT2 tri (pos2tr x ++ [row])) ->
  (forall tr T, nth_error (tr2pos x) tr = Some T -> exists T', nth_error tri tr = Some T') ->
  (forall tr T, length (tr2pos x) <= tr -> nth_error tri tr = Some T -> exists q, nth_error row q = Some tr) ->
  (forall q q' tr tr', nth_error row q = Some tr -> nth_error row q' = Some tr' -> length (tr2pos x) <= tr -> tr < tr' -> q < q') ->
  filter (fun tr => negb (tr <? length (tr2pos x))) row = seq (length (tr2pos x)) (length tri - length (tr2pos x)).
Proof.
  intros Hok Hok' Hold Hnew Hord.
  assert (Hrow : forall q tr, nth_error row q = Some tr -> tr < length tri /\ forall q', nth_error row q' = Some tr -> q' = q).
  { intros q tr Hq. assert (Ht : table (mkT2 tri (pos2tr x ++ [row])) (length (pos2tr x)) q tr).
    { exists row. cbn [pos2tr]. rewrite nth_error_snoc, Nat.eqb_refl. auto. }
    pose proof (proj1 (ok_agree _ Hok' _ _ _) Ht) as Hf. split.
    - destruct Hf as [T [HT _]]. eapply nth_error_lt; eauto.
    - intros q' Hq'. assert (Ht' : table (mkT2 tri (pos2tr x ++ [row])) (length (pos2tr x)) q' tr).
      { exists row. cbn [pos2tr]. rewrite nth_error_snoc, Nat.eqb_refl. auto. }
      apply (ok_agree _ Hok') in Ht'. symmetry. eapply follows_fun; eauto. }
  assert (Hle : length (tr2pos x) <= length tri).
  { destruct (Nat.le_gt_cases (length (tr2pos x)) (length tri)); auto. exfalso.
    destruct (nth_error_ex (tr2pos x) (length tri)) as [T HT]; [lia|]. destruct (Hold _ _ HT) as [T' HT']. apply nth_error_lt in HT'. lia. }
  apply ssorted_interval.
  - set (nb := length (tr2pos x)) in *. clear Hle Hold Hnew Hok Hok'.
    assert (Hmon : forall q q' tr tr', nth_error row q = Some tr -> nth_error row q' = Some tr' -> nb <= tr -> nb <= tr' -> q < q' -> tr < tr').
    { intros q q' tr tr' H1 H2 H3 H4 Hlt. destruct (Nat.lt_trichotomy tr tr') as [H|[H|H]]; auto; exfalso.
      - subst. destruct (Hrow _ _ H1) as [_ Hu]. specialize (Hu _ H2). lia.
      - pose proof (Hord _ _ _ _ H2 H1 H4 H). lia. }
    clear Hord Hrow. induction row as [|a row IH]; [constructor|]. cbn [filter].
    assert (IH' : StronglySorted lt (filter (fun tr => negb (tr <? nb)) row)).
    { apply IH. intros q q' tr tr' H1 H2 H3 H4 Hlt. apply (Hmon (S q) (S q')); auto. lia. }
    destruct (Nat.ltb_spec a nb); cbn [negb]; auto. constructor; auto. apply Forall_forall. intros b Hb. apply filter_In in Hb. destruct Hb as [Hb Hb'].
    apply negb_true_iff, Nat.ltb_ge in Hb'. apply In_nth_error in Hb. destruct Hb as [q Hq]. apply (Hmon 0 (S q)); auto. lia.
  - intros tr. rewrite filter_In, negb_true_iff, Nat.ltb_ge. split.
    + intros [Hin Hge]. apply In_nth_error in Hin. destruct Hin as [q Hq]. destruct (Hrow _ _ Hq) as [Hl _]. lia.
    + intros Hr. split; [|lia]. destruct (nth_error_ex tri tr) as [T HT]; [lia|]. destruct (Hnew tr T) as [q Hq]; [lia|auto|]. eapply nth_error_In; eauto.
Qed.

(** The clusters follow the trajectories. *)
Definition follow_cluster (fs : list (list center)) (T : traj) (cl : list center) : Prop :=
  Forall2 (fun tp c => exists fr c2, nth_error fs (fst tp) = Some fr /\ nth_error fr (snd tp) = Some c2 /\ c = with_z (fst tp) c2)
    (combine (seq (start T) (length (steps T))) (steps T)) cl.
Record rec_inv (c : config) (fs : list (list center)) (st : reconstructor) : Prop := {
  ri_traj : exists x, rtrajs st = Some x /\ t2_ok x /\ map (@length nat) (pos2tr x) = map (@length center) fs /\
     length (clusters st) = length (tr2pos x) /\
     (forall tr T cl, nth_error (tr2pos x) tr = Some T -> nth_error (clusters st) tr = Some cl -> follow_cluster fs T cl);
  ri_last : last_frame st = last fs [];
  ri_ne : fs <> [];
  ri_all : Permutation (concat (clusters st)) (concat (map (fun tf => map (with_z (fst tf)) (snd tf)) (combine (seq 0 (length fs)) fs)));
  ri_dim : Forall (Forall (fun p => length (coords p) = dims c)) fs }.

Lemma Forall2_snoc_x {A B} (R : A -> B -> Prop) l l' a b : Forall2 R l l' -> R a b -> Forall2 R (l ++ [a]) (l' ++ [b]).
Proof. intros H Hab. apply Forall2_app; auto. Qed.

Lemma follow_cluster_mono fs fr T cl : follow_cluster fs T cl -> follow_cluster (fs ++ [fr]) T cl.
Proof.
  unfold follow_cluster. apply Forall2_impl_x. intros [t p] c [f [c2 [H1 H2]]]. exists f, c2. split; auto. rewrite nth_error_app1; auto. eapply nth_error_lt; eauto.
Qed.
Lemma follow_cluster_push fs fr T cl q c : follow_cluster fs T cl -> get_finish T = length fs -> nth_error fr q = Some c ->
  follow_cluster (fs ++ [fr]) (traj_push T q) (cl ++ [with_z (length fs) c]).
Proof.
  intros H Hf Hq. unfold follow_cluster. unfold traj_push. cbn [start steps]. rewrite app_length. simpl length. rewrite Nat.add_1_r, seq_S.
  replace (start T + length (steps T)) with (length fs) by (unfold get_finish in Hf; lia).
  assert (E : forall (a b : list nat) x y, length a = length b -> combine (a ++ [x]) (b ++ [y]) = combine a b ++ [(x, y)]).
  { induction a as [|u a IH]; intros [|v b] x y L; try discriminate; simpl; auto. f_equal. apply IH. injection L; auto. }
  rewrite E by (rewrite seq_length; auto). apply Forall2_snoc_x; [apply (follow_cluster_mono fs fr T cl H)|].
  exists fr, c. cbn [fst snd]. rewrite nth_error_snoc, Nat.eqb_refl. auto.
Qed.
Lemma follow_cluster_new fs fr q c : nth_error fr q = Some c -> follow_cluster (fs ++ [fr]) (mkTraj (length fs) [q]) [with_z (length fs) c].
Proof.
  intros H. unfold follow_cluster. simpl. constructor; [|constructor]. exists fr, c. cbn [fst snd]. rewrite nth_error_snoc, Nat.eqb_refl. auto.
Qed.

Definition frame_ok (c : config) (fm : list center * Z) : Prop :=
  sorted_by_intensity (fst fm) /\ (0 <= snd fm)%Z /\ Forall (fun p => length (coords p) = dims c /\ (0 <= radius p)%Z) (fst fm).

Lemma remove_ok c sorted : config_ok c -> sorted_by_intensity sorted -> Forall (fun p => length (coords p) = dims c /\ (0 <= radius p)%Z) sorted ->
  exists tree fr, remove_overlapping c half_n half_d sorted = Some (tree, fr) /\ loop_inv c (get_bb half_n half_d) tree fr /\
    Forall (fun p => length (coords p) = dims c /\ (0 <= radius p)%Z) fr.
Proof.
  intros Hok Hs Hd. assert (Hd1 : Forall (fun p => length (coords p) = dims c) sorted) by (eapply Forall_impl; [|exact Hd]; simpl; tauto).
  destruct (filter_loop_spec c (get_bb half_n half_d) (near_tol half_n half_d) Hok) with (ps := sorted) (tree := empty_tree) (filtered := @nil center) as [tree [E Hl]]; auto.
  { intros p H. unfold get_bb. rewrite map_length. auto. }
  { constructor; [exists []; split; constructor|]. simpl. constructor. }
  eexists tree, _. split; [exact E|]. split; auto.
  destruct (C25_selection c half_n half_d sorted sorted Hok) as [tree' [out [E' [[[dr [Hp _]] _] _]]]]; auto; [unfold half_d; lia|split; auto|].
  unfold remove_overlapping in E'. rewrite E in E'. injection E' as <- <-. rewrite Forall_forall in *. intros p H. apply Hd.
  apply (Permutation_in _ (Permutation_sym Hp)), in_or_app. auto.
Qed.

Lemma rec_push_first c sorted m tree fr : remove_overlapping c half_n half_d sorted = Some (tree, fr) ->
  Forall (fun p => length (coords p) = dims c) fr ->
  exists st, rec_push c rec_empty sorted m = Val st /\ rec_inv c [fr] st.
Proof.
  intros E Hd. unfold rec_push. rewrite E. cbn [rtrajs rec_empty clusters app]. eexists. split; [reflexivity|]. constructor; cbn [rtrajs clusters last_frame].
  - exists (t2_new (length fr)). split; auto. split; [apply t2_new_ok|]. split; [simpl; rewrite seq_length; auto|]. split.
    + simpl. rewrite !map_length, seq_length. auto.
    + intros tr T cl HT Hcl. cbn [t2_new tr2pos] in HT. apply nth_error_map_inv in HT. destruct HT as [p [Hp ->]].
      pose proof (nth_error_lt _ _ _ Hp) as Hl. rewrite seq_length in Hl. rewrite nth_error_seq in Hp by auto. injection Hp as <-.
      apply nth_error_map_inv in Hcl. destruct Hcl as [c2 [Hc2 ->]]. apply (follow_cluster_new [] fr tr c2). auto.
  - auto.
  - discriminate.
  - cbn [length seq combine map concat fst snd]. rewrite app_nil_r. assert (concat (map (fun c => [with_z 0 c]) fr) = map (with_z 0) fr) as ->; [|apply Permutation_refl].
    clear. induction fr; simpl; congruence.
  - repeat constructor; auto.
Qed.

Lemma rec_push_next c fs st sorted m tree fr : config_ok c -> rec_inv c fs st -> (0 <= m)%Z ->
  remove_overlapping c half_n half_d sorted = Some (tree, fr) -> loop_inv c (get_bb half_n half_d) tree fr ->
  Forall (fun p => length (coords p) = dims c /\ (0 <= radius p)%Z) fr ->
  exists st', rec_push c st sorted m = Val st' /\ rec_inv c (fs ++ [fr]) st'.
Proof.
  intros Hok Hi Hm E Hloop Hfr. destruct Hi as [[x [Ex [Hx [Hsz [Hcl Hfol]]]]] Hlast Hne Hall Hdim].
  unfold rec_push. rewrite E, Ex, Hlast.
  assert (Hlastd : Forall (fun p => length (coords p) = dims c) (last fs [])).
  { pose proof (last_nth_error fs [] Hne) as HL. rewrite Forall_forall in Hdim. apply Hdim. eapply nth_error_In; eauto. }
  destruct (links_by_tree_spec c m fr tree Hok Hm Hfr Hloop (combine (seq 0 (length (last fs []))) (last fs []))) as [ls [El [Hls _]]].
  { apply Forall_forall. intros [p a] Hp. apply in_combine_seq in Hp. cbn [snd]. rewrite Forall_forall in Hlastd. apply Hlastd. eapply nth_error_In; eauto. }
  { rewrite map_fst_combine by (rewrite seq_length; auto). apply seq_NoDup. }
  rewrite El.
  assert (Hlen : length (pos2tr x) = length fs) by (transitivity (length (map (@length nat) (pos2tr x))); [rewrite map_length; auto|rewrite Hsz, map_length; auto]).
  assert (Hprev : length (last (pos2tr x) []) = length (last fs [])).
  { pose proof (last_nth_error (pos2tr x) [] (ok_frames _ Hx)) as H1. pose proof (last_nth_error fs [] Hne) as H2.
    assert (H3 : nth_error (map (@length nat) (pos2tr x)) (length fs - 1) = Some (length (last (pos2tr x) []))) by (rewrite nth_error_map, <- Hlen, H1; auto).
    rewrite Hsz, nth_error_map, H2 in H3. injection H3 as H3. auto. }
  destruct (add_links_spec x (length fr) (map fst ls) (map (fun l => fst (snd l)) ls) (map (fun l => snd (snd l)) ls)) as [row [tri [Ea [Hrl [_ [_ [Hord [Hok' [Hold Hnew]]]]]]]]]; auto.
  { rewrite !map_length. auto. } { rewrite !map_length. auto. }
  { intros p Hp. apply in_map_iff in Hp. destruct Hp as [[d [p' q]] [<- Hp]]. apply Hls in Hp. destruct Hp as [a [b [Hp _]]]. apply in_combine_seq in Hp.
    cbn [fst snd]. rewrite Hprev. eapply nth_error_lt; eauto. }
  { intros q Hq. apply in_map_iff in Hq. destruct Hq as [[d [p' q']] [<- Hq]]. apply Hls in Hq. destruct Hq as [a [b [_ [Hq _]]]]. cbn [snd]. eapply nth_error_lt; eauto. }
  rewrite Ea. cbn [pos2tr]. rewrite last_last.
  (* what the trajectories became *)
  assert (Htab : forall q tr, nth_error row q = Some tr <-> table (mkT2 tri (pos2tr x ++ [row])) (length fs) q tr).
  { intros q tr. unfold table. cbn [pos2tr]. rewrite nth_error_snoc, Hlen, Nat.eqb_refl. split; [intros H; eauto|intros [r [Er H]]; congruence]. }
  pose proof (new_ids_seq x row tri Hx Hok') as Hseq.
  assert (Hseq' := Hseq (fun tr T H => match Hold tr T H with or_introl (ex_intro _ q (conj _ (conj E _))) => ex_intro _ _ E | or_intror (conj _ E) => ex_intro _ _ E end)
     (fun tr T H1 H2 => match Hnew tr T H1 H2 with ex_intro _ q (conj _ E) => ex_intro _ q E end) Hord). clear Hseq.
  assert (Hle : length (tr2pos x) <= length tri).
  { destruct (Nat.le_gt_cases (length (tr2pos x)) (length tri)); auto. exfalso.
    destruct (nth_error_ex (tr2pos x) (length tri)) as [T HT]; [lia|]. destruct (Hold _ _ HT) as [[q [_ [H' _]]]|[_ H']]; apply nth_error_lt in H'; lia. }
  assert (Hfst : map fst (combine row fr) = row) by (apply map_fst_combine; lia).
  assert (Hsnd : map snd (combine row fr) = fr) by (apply map_snd_combine; lia).
  assert (Hnd : NoDup row).
  { apply NoDup_nth_error. intros i j Hil Eij. destruct (nth_error_ex row i Hil) as [tr Htr]. rewrite Htr in Eij. symmetry in Eij. apply Htab in Htr. apply Htab in Eij.
    apply (ok_agree _ Hok') in Htr. apply (ok_agree _ Hok') in Eij. eapply follows_fun; eauto. }
  destruct (cluster_loop_spec (length (tr2pos x)) (length (pos2tr x)) (combine row fr) (clusters st) (length tri - length (tr2pos x))) as [cls [Ec [Hcl' [H1 [H2 H3]]]]].
  { rewrite Hfst. auto. } { lia. } { rewrite Hfst, Hcl. auto. }
  rewrite Ec. eexists. split; [reflexivity|]. constructor; cbn [rtrajs clusters last_frame].
  - exists (mkT2 tri (pos2tr x ++ [row])). split; auto. split; auto. cbn [pos2tr tr2pos]. split; [rewrite !map_app, Hsz; simpl; congruence|]. split; [lia|].
    assert (Hcomb : forall tr q c2, nth_error row q = Some tr -> nth_error fr q = Some c2 -> In (tr, c2) (combine row fr)) by (intros; apply nth_error_In with q; apply combine_nth_error; auto).
    intros tr T cl HT Hc. destruct (Nat.lt_ge_cases tr (length (tr2pos x))) as [Hlt|Hge].
    + destruct (nth_error_ex _ _ Hlt) as [T0 HT0]. destruct (nth_error_ex (clusters st) tr) as [cl0 Hc0]; [lia|]. destruct (H1 tr cl0 Hc0) as [Ha Hb].
      specialize (Hfol _ _ _ HT0 Hc0). destruct (Hold tr T0 HT0) as [[q [Hq [Eq Hf]]]|[Hno Eq]].
      * assert (Hqf : q < length fr) by (rewrite <- Hrl; eapply nth_error_lt; eauto). destruct (nth_error_ex fr q Hqf) as [c2 Hc2].
        rewrite (Ha c2 Hlt) in Hc by eauto. injection Hc as <-. rewrite Eq in HT. injection HT as <-. rewrite Hlen.
        apply follow_cluster_push; auto. lia.
      * rewrite Hb in Hc. 2:{ rewrite Hfst. intros Hin. apply In_nth_error in Hin. destruct Hin as [q Hq]. eapply Hno; eauto. }
        injection Hc as <-. rewrite Eq in HT. injection HT as <-. apply follow_cluster_mono; auto.
    + destruct (Hnew tr T Hge HT) as [q [-> Hq]]. assert (Hqf : q < length fr) by (rewrite <- Hrl; eapply nth_error_lt; eauto).
      destruct (nth_error_ex fr q Hqf) as [c2 Hc2]. rewrite (H2 tr c2 Hge) in Hc by eauto. injection Hc as <-. rewrite Hlen. apply follow_cluster_new; auto.
  - rewrite last_last. auto.
  - destruct fs; discriminate.
  - eapply Permutation_trans; [exact H3|]. rewrite Hsnd, Hlen, combine_seq_snoc, map_app, concat_app. cbn [map concat fst snd]. rewrite app_nil_r. apply Permutation_app_tail, Hall.
  - apply Forall_app. split; auto. constructor; auto. eapply Forall_impl; [|exact Hfr]. simpl; tauto.
Qed.

(** C28-C30: reconstruction of 3D objects from 2D slices. *)
Require Import ZArith List Bool Arith Lia Permutation Sorted.
Require Import Verif.Base Verif.SortU Verif.ListX Verif.Box_Model Verif.RTree_Model Verif.RTree_Spec Verif.RTree_Heuristics Verif.RTree_Props
  Verif.Traj_Model Verif.Traj_Spec Verif.Traj_Proofs Verif.MTraj_Model Verif.MTraj_Spec Verif.MTraj_Proofs
  Verif.Center_Model Verif.Center_Spec Verif.Center_Proofs Verif.Center_Props Verif.Reconstructor_Model Verif.Reconstructor_Proofs.
Import ListNotations.

(** Slices with non-negative radii and distances; [r] is slice [s] as std::sort leaves it. *)
Definition slice_sorted (c : config) (s r : list center * Z) : Prop :=
  a_sort_of (fst s) (fst r) /\ snd r = snd s /\ (0 <= snd s)%Z /\ Forall (fun p => length (coords p) = dims c /\ (0 <= radius p)%Z) (fst s).
(** The z coordinate given to the centres of slice t is t. *)
Definition lifted (fs : list (list center)) : list center := concat (map (fun tf => map (with_z (fst tf)) (snd tf)) (combine (seq 0 (length fs)) fs)).

Lemma Forall2_length_x {A B} (R : A -> B -> Prop) l l' : Forall2 R l l' -> length l = length l'.
Proof. induction 1; simpl; auto. Qed.

Lemma slice_ok c s r : config_ok c -> slice_sorted c s r -> exists tree fr, remove_overlapping c half_n half_d (fst r) = Some (tree, fr) /\
  loop_inv c (get_bb half_n half_d) tree fr /\ Forall (fun p => length (coords p) = dims c /\ (0 <= radius p)%Z) fr /\
  selection (tol_conflict 1 2) (fst s) fr.
Proof.
  intros Hok [Hso [_ [_ Hd]]]. assert (Hd' : Forall (fun p => length (coords p) = dims c /\ (0 <= radius p)%Z) (fst r)) by (eapply Forall_perm; [apply Hso|auto]).
  destruct (remove_ok c (fst r) Hok (proj2 Hso) Hd') as [tree [fr [E [Hl Hf]]]]. exists tree, fr. split; auto. split; auto. split; auto.
  destruct (C25_selection c half_n half_d (fst s) (fst r) Hok) as [tree' [out [E' [Hsel _]]]]; auto; [reflexivity|eapply Forall_impl; [|exact Hd]; simpl; tauto|].
  rewrite E in E'. injection E' as <- <-. exact Hsel.
Qed.

Lemma run_inv c : config_ok c -> forall slices h fs st, Forall2 (slice_sorted c) slices h -> rec_inv c fs st ->
  exists st' fs', rec_run c st h = Val st' /\ rec_inv c (fs ++ fs') st' /\ Forall2 (fun s f => selection (tol_conflict 1 2) (fst s) f) slices fs'.
Proof.
  intros Hok. induction slices as [|s slices IH]; intros h fs st HF Hi; inversion HF as [|? [r m] ? h' Hs HF']; subst.
  - exists st, []. simpl. rewrite app_nil_r. auto.
  - destruct (slice_ok c s (r, m) Hok Hs) as [tree [fr [E [Hl [Hfr Hsel]]]]]. destruct (rec_push_next c fs st r m tree fr) as [st1 [E1 H1]]; auto.
    { destruct Hs as [_ [Hm [H0 _]]]. simpl in Hm. lia. }
    destruct (IH h' (fs ++ [fr]) st1 HF' H1) as [st' [fs' [E' [H' Hsl]]]]. exists st', (fr :: fs'). cbn [rec_run]. rewrite E1. split; auto.
    rewrite <- app_assoc in H'. split; auto.
Qed.

(** C28. *)
Theorem C28_partition c slices h : config_ok c -> slices <> [] -> Forall2 (slice_sorted c) slices h ->
  exists st fs x, rec_run c rec_empty h = Val st /\ rtrajs st = Some x /\
    (** fs: the centres of each slice kept by removeOverlapping *)
    Forall2 (fun s f => selection (tol_conflict 1 2) (fst s) f) slices fs /\
    (** every kept centre is in exactly one cluster, once *)
    Permutation (concat (clusters st)) (lifted fs) /\
    (** each cluster is a run of consecutive slices with one centre per slice *)
    (forall cl, In cl (clusters st) -> cl <> [] /\ exists t0, forall k q, nth_error cl k = Some q ->
       exists fr p, nth_error fs (t0 + k) = Some fr /\ In p fr /\ q = with_z (t0 + k) p) /\
    (** and follows the trajectory of the same number *)
    length (clusters st) = length (tr2pos x) /\
    (forall tr k q, (exists cl, nth_error (clusters st) tr = Some cl /\ nth_error cl k = Some q) <->
       exists T fr p i, nth_error (tr2pos x) tr = Some T /\ nth_error (steps T) k = Some i /\
         nth_error fs (start T + k) = Some fr /\ nth_error fr i = Some p /\ q = with_z (start T + k) p).
Proof.
  intros Hok Hne HF. destruct slices as [|s slices]; [congruence|]. inversion HF as [|? [r m] ? h' Hs HF']; subst.
  destruct (slice_ok c s (r, m) Hok Hs) as [tree [fr [E [Hl [Hfr Hsel]]]]].
  destruct (rec_push_first c r m tree fr E) as [st1 [E1 H1]]; [eapply Forall_impl; [|exact Hfr]; simpl; tauto|].
  destruct (run_inv c Hok slices h' [fr] st1 HF' H1) as [st [fs' [E' [H' Hsl]]]].
  destruct H' as [[x [Ex [Hx [Hsz [Hcl Hfol]]]]] _ _ Hall _]. exists st, (fr :: fs'), x.
  split; [cbn [rec_run]; rewrite E1; exact E'|]. split; auto. split; [constructor; auto|]. split; [exact Hall|].
  assert (Hboth : forall tr cl, nth_error (clusters st) tr = Some cl -> exists T, nth_error (tr2pos x) tr = Some T /\ steps T <> [] /\ follow_cluster (fr :: fs') T cl).
  { intros tr cl H. destruct (nth_error_ex (tr2pos x) tr) as [T HT]; [rewrite <- Hcl; eapply nth_error_lt; eauto|]. exists T. split; auto.
    split; [eapply (ok_steps _ Hx); eauto|]. eapply Hfol; eauto. }
  assert (Hkth : forall T cl, follow_cluster (fr :: fs') T cl -> length cl = length (steps T) /\ forall k q, nth_error cl k = Some q ->
    exists fr0 p i, nth_error (steps T) k = Some i /\ nth_error (fr :: fs') (start T + k) = Some fr0 /\ nth_error fr0 i = Some p /\ q = with_z (start T + k) p).
  { intros T cl H. split.
    - apply Forall2_length_x in H. rewrite combine_length, seq_length in H. lia.
    - intros k q Hk. assert (Hx2 : exists y, nth_error (combine (seq (start T) (length (steps T))) (steps T)) k = Some y).
      { apply nth_error_ex. apply Forall2_length_x in H. rewrite H. eapply nth_error_lt; eauto. }
      destruct Hx2 as [[t i] Hy]. assert (HR : exists f c2, nth_error (fr :: fs') t = Some f /\ nth_error f i = Some c2 /\ q = with_z t c2).
      { clear - H Hk Hy. unfold follow_cluster in H. revert k Hk Hy. induction H as [|a b l l' Hab _ IH]; intros [|k] Hk Hy; simpl in *; try discriminate.
        - injection Hk as <-. injection Hy as ->. exact Hab.
        - eauto. }
      apply combine_nth_error in Hy. destruct Hy as [Hy1 Hy2]. rewrite nth_error_seq in Hy1 by (eapply nth_error_lt; eauto). injection Hy1 as <-.
      destruct HR as [f [c2 [R1 [R2 R3]]]]. exists f, c2, i. auto. }
  split; [|split; auto].
  - intros cl Hin. apply In_nth_error in Hin. destruct Hin as [tr Htr]. destruct (Hboth tr cl Htr) as [T [HT [Hst Hf]]]. destruct (Hkth T cl Hf) as [L K]. split.
    + intros ->. simpl in L. destruct (steps T); [congruence|discriminate].
    + exists (start T). intros k q Hk. destruct (K k q Hk) as [f [p [i [K1 [K2 [K3 K4]]]]]]. exists f, p. split; auto. split; auto. eapply nth_error_In; eauto.
  - intros tr k q. split.
    + intros [cl [H1' H2']]. destruct (Hboth tr cl H1') as [T [HT [_ Hf]]]. destruct (Hkth T cl Hf) as [_ K]. destruct (K k q H2') as [f [p [i [K1 [K2 [K3 K4]]]]]].
      exists T, f, p, i. auto.
    + intros [T [f [p [i [HT [K1 [K2 [K3 K4]]]]]]]]. destruct (nth_error_ex (clusters st) tr) as [cl Hc]; [rewrite Hcl; eapply nth_error_lt; eauto|].
      exists cl. split; auto. specialize (Hfol _ _ _ HT Hc). destruct (Hkth T cl Hfol) as [L K]. destruct (nth_error_ex cl k) as [q' Hq']; [rewrite L; eapply nth_error_lt; eauto|].
      destruct (K k q' Hq') as [f' [p' [i' [K1' [K2' [K3' K4']]]]]]. congruence.
Qed.

Definition config2 : config := std_config 2 4 32.
Lemma config2_ok : config_ok config2.
Proof. apply std_config_ok; lia. Qed.
Lemma sort_one p : a_sort_of [p] [p].
Proof. split; auto. intros [|[|i]] [|[|j]] a b Hij Ha Hb; simpl in *; try lia; try discriminate. Qed.
Lemma sort_two p q : (intensity p <= intensity q)%Z -> a_sort_of [q; p] [p; q].
Proof. intros H. split; [apply perm_swap|]. intros [|[|i]] [|[|[|j]]] a b Hij Ha Hb; simpl in *; try lia; try (destruct i; discriminate); try discriminate. congruence. Qed.
Definition ex_slices : list (list center * Z) :=
  [([mkCenter [0; 0] 2 (-3)], 5); ([mkCenter [30; 0] 2 (-1); mkCenter [2; 1] 2 (-2)], 5); ([mkCenter [29; 2] 2 (-1)], 5)]%Z.
Definition ex_hist : list (list center * Z) :=
  [([mkCenter [0; 0] 2 (-3)], 5); ([mkCenter [2; 1] 2 (-2); mkCenter [30; 0] 2 (-1)], 5); ([mkCenter [29; 2] 2 (-1)], 5)]%Z.
Example C28_case : config_ok config2 /\ ex_slices <> [] /\ Forall2 (slice_sorted config2) ex_slices ex_hist /\
  exists st, rec_run config2 rec_empty ex_hist = Val st /\
    clusters st = [[mkCenter [0; 0; 0] 2 (-3); mkCenter [2; 1; 1] 2 (-2)]; [mkCenter [30; 0; 1] 2 (-1); mkCenter [29; 2; 2] 2 (-1)]]%Z.
Proof.
  split; [apply config2_ok|]. split; [discriminate|]. split.
  - unfold ex_slices, ex_hist, slice_sorted. repeat constructor; simpl; auto; try lia; try apply sort_one; try (apply sort_two; simpl; lia).
  - eexists. split; vm_compute; reflexivity.
Qed.

(** The correspondence of C28 does not survive split_clusters: a later slice is added to the first piece of a split cluster,
    which is then not a run of consecutive slices any more. *)
Definition drifting : list (list center * Z) :=
  [([mkCenter [0; 0] 2 (-3)], 5); ([mkCenter [2; 0] 2 (-3)], 5); ([mkCenter [4; 0] 2 (-3)], 5); ([mkCenter [6; 0] 2 (-3)], 5); ([mkCenter [8; 0] 2 (-3)], 5)]%Z.
Theorem C28_push_after_split_refuted : exists st st', rec_run config2 rec_empty drifting = Val st /\
  rec_push config2 (mkRec (rtrajs st) (split_clusters 1 (clusters st)) (last_frame st)) [mkCenter [10; 0] 2 (-3)]%Z 5 = Val st' /\
  nth_error (clusters st') 0 = Some [mkCenter [0; 0; 0] 2 (-3); mkCenter [2; 0; 1] 2 (-3); mkCenter [10; 0; 5] 2 (-3)]%Z.
Proof. eexists. eexists. split; [|split]; vm_compute; reflexivity. Qed.

(** C29: the links proposed by the R*-tree are exactly the pairs closer than max_dist, each once. *)
Theorem C29_tree_links c slice r m last : config_ok c -> slice_sorted c slice (r, m) ->
  Forall (fun p => length (coords p) = dims c) last ->
  exists tree fr ls, remove_overlapping c half_n half_d r = Some (tree, fr) /\
    links_by_tree m fr tree (combine (seq 0 (length last)) last) = Some ls /\
    (forall d p q, In (d, (p, q)) ls <-> exists a b, nth_error last p = Some a /\ nth_error fr q = Some b /\ d = csqdist a b /\ (d < m * m)%Z) /\
    NoDup (map snd ls).
Proof.
  intros Hok Hs Hlast. destruct (slice_ok c slice (r, m) Hok Hs) as [tree [fr [E [Hl [Hfr _]]]]]. exists tree, fr.
  destruct (links_by_tree_spec c m fr tree Hok) with (last := combine (seq 0 (length last)) last) as [ls [E' [Hin Hnd]]]; auto.
  - destruct Hs as [_ [Hm [H0 _]]]. simpl in Hm. lia.
  - apply Forall_forall. intros [p a] H. apply in_combine_r in H. rewrite Forall_forall in Hlast. simpl. auto.
  - rewrite map_fst_combine by apply seq_length. apply seq_NoDup.
  - exists ls. split; auto. split; auto. split; auto. intros d p q. rewrite Hin. split; intros [a [b [H1 H2]]]; exists a, b; split; auto; apply in_combine_seq; auto.
Qed.

Lemma NoDup_flat_map {A B} (f : A -> list B) : forall l, NoDup l -> (forall x, In x l -> NoDup (f x)) ->
  (forall x y b, In x l -> In y l -> In b (f x) -> In b (f y) -> x = y) -> NoDup (flat_map f l).
Proof.
  induction l as [|a l IH]; intros Hnd H1 H2; simpl; [constructor|]. inversion Hnd; subst. apply NoDup_app_x; [apply H1; simpl; auto| |].
  - apply IH; auto; [intros; apply H1; simpl; auto|]. intros x y b Hx Hy; apply H2; simpl; auto.
  - intros b Hb Hb'. apply in_flat_map in Hb'. destruct Hb' as [y [Hy Hby]]. assert (a = y) by (apply (H2 a y b); simpl; auto). subst. contradiction.
Qed.
Lemma map_flat_map {A B C} (f : A -> list B) (g : B -> C) : forall l, map g (flat_map f l) = flat_map (fun x => map g (f x)) l.
Proof. induction l; simpl; auto. rewrite map_app. congruence. Qed.
Lemma NoDup_combine_seq {A} (l : list A) : NoDup (combine (seq 0 (length l)) l).
Proof. apply NoDup_map_inv with (f := fst). rewrite map_fst_combine by apply seq_length. apply seq_NoDup. Qed.

(** The brute force method links the pairs closer than tolerance times the sum of the radii, each once. *)
Theorem C29_brute_links tn td last fr : (0 < td)%Z ->
  (forall d p q, In (d, (p, q)) (links_by_brute_force tn td last fr) <->
    exists a b, nth_error last p = Some a /\ nth_error fr q = Some b /\ d = csqdist a b /\ 
      (d * (td * td) < (tn * (radius a + radius b)) * (tn * (radius a + radius b)))%Z) /\
  NoDup (map snd (links_by_brute_force tn td last fr)).
Proof.
  intros Htd. unfold links_by_brute_force. split.
  - intros d p q. rewrite in_flat_map. split.
    + intros [[p' a] [Ha H]]. apply in_flat_map in H. destruct H as [[q' b] [Hb H]]. cbn [fst snd] in H.
      destruct (Z.ltb_spec (csqdist a b * (td * td)) ((radius a + radius b) * tn * ((radius a + radius b) * tn))); [|destruct H].
      destruct H as [H|[]]. injection H as <- <- <-. apply in_combine_seq in Ha. apply in_combine_seq in Hb. exists a, b. repeat split; auto.
      rewrite (Z.mul_comm tn). auto.
    + intros [a [b [Ha [Hb [-> Hd]]]]]. exists (p, a). split; [apply in_combine_seq; auto|]. apply in_flat_map. exists (q, b). split; [apply in_combine_seq; auto|].
      cbn [fst snd]. rewrite (Z.mul_comm tn) in Hd. apply Z.ltb_lt in Hd. rewrite Hd. left. auto.
  - rewrite map_flat_map. apply NoDup_flat_map; [apply NoDup_combine_seq| |].
    + intros [p a] _. rewrite map_flat_map. apply NoDup_flat_map; [apply NoDup_combine_seq| |].
      * intros [q b] _. cbn [fst snd]. destruct (Z.ltb _ _); simpl; constructor; auto; constructor.
      * intros [q b] [q' b'] [u v] H1 H2 H3 H4. cbn [fst snd] in *. apply in_combine_seq in H1. apply in_combine_seq in H2.
        destruct (Z.ltb _ _); [|destruct H3]. destruct (Z.ltb _ _); [|destruct H4]. simpl in H3, H4. intuition congruence.
    + intros [p a] [p' a'] [u v] H1 H2 H3 H4. apply in_combine_seq in H1. apply in_combine_seq in H2.
      rewrite map_flat_map in H3, H4. apply in_flat_map in H3. apply in_flat_map in H4. destruct H3 as [[q b] [_ H3]]. destruct H4 as [[q' b'] [_ H4]]. cbn [fst snd] in *.
      destruct (Z.ltb _ _); [|destruct H3]. destruct (Z.ltb _ _); [|destruct H4]. simpl in H3, H4. intuition congruence.
Qed.
(** The two methods do not agree: at tolerance 1, the brute force method links what the tree method with max_dist 5 does not, and conversely. *)
Theorem C29_same_criterion_refuted : exists last fr tree,
  remove_overlapping config2 half_n half_d [mkCenter [0; 0] 9 (-2); mkCenter [40; 0] 1 (-1)]%Z = Some (tree, fr) /\
  links_by_tree 5 fr tree (combine (seq 0 (length last)) last) = Some [(9%Z, (1, 1))] /\
  links_by_brute_force 1 1 last fr = [(100%Z, (0, 0))].
Proof.
  exists [mkCenter [0; 10] 9 (-2); mkCenter [43; 0] 1 (-1)]%Z. eexists. eexists. split; [vm_compute; reflexivity|]. split; vm_compute; reflexivity.
Qed.
Example C29_case : config_ok config2 /\ slice_sorted config2 (nth 1 ex_slices ([], 0%Z)) (nth 1 ex_hist ([], 0%Z)) /\
  Forall (fun p => length (coords p) = dims config2) [mkCenter [0; 0] 2 (-3); mkCenter [27; 1] 2 (-1)]%Z.
Proof.
  split; [apply config2_ok|]. split; [|repeat constructor].
  unfold slice_sorted; simpl. split; [apply sort_two; simpl; lia|]. repeat constructor; simpl; lia.
Qed.

(** C30. *)
Definition planar (p q : center) : Z :=
  let x := (nth 0 (coords p) 0 - nth 0 (coords q) 0)%Z in let y := (nth 1 (coords p) 0 - nth 1 (coords q) 0)%Z in (x * x + y * y)%Z.

Lemma split_at_spec : forall rpts cl ps, exists hd tl, split_at rpts cl ps = (hd, ps ++ rev tl) /\ hd ++ concat tl = cl.
Proof.
  induction rpts as [|i rpts IH]; intros cl ps; simpl.
  - exists cl, []. simpl. rewrite !app_nil_r. auto.
  - destruct (IH (firstn i cl) (ps ++ [skipn i cl])) as [hd [tl [E H]]]. exists hd, (tl ++ [skipn i cl]). rewrite E. split.
    + rewrite rev_app_distr. simpl. rewrite <- app_assoc. auto.
    + rewrite concat_app. simpl. rewrite app_nil_r, app_assoc, H. apply firstn_skipn.
Qed.
Lemma filter_all {A} (f : A -> bool) l : (forall x, In x l -> f x = true) -> filter f l = l.
Proof. induction l as [|a l IH]; intros H; simpl; auto. rewrite H by (simpl; auto). f_equal. apply IH. intros; apply H; simpl; auto. Qed.
Lemma filter_none {A} (f : A -> bool) l : (forall x, In x l -> f x = false) -> filter f l = [].
Proof. induction l as [|a l IH]; intros H; simpl; auto. rewrite H by (simpl; auto). apply IH. intros; apply H; simpl; auto. Qed.
Lemma nth_repeat_x (g : Z) : forall n i, i < n -> nth i (repeat g n) 0%Z = g.
Proof. induction n; intros [|i] H; simpl; auto; try lia. apply IHn. lia. Qed.
Lemma map_add2 : forall n k, map (fun i => i + 2) (seq k n) = seq (k + 2) n.
Proof. induction n; intros k; simpl; auto. f_equal. apply IHn. Qed.
Lemma split_points_spec one cl a q : nth_error cl 0 = Some a -> nth_error cl 2 = Some q ->
  split_points one cl = if (one <? planar a q)%Z then seq 2 (length cl - 4) else [].
Proof.
  intros Ha Hq. destruct cl as [|a' [|b [|q' cl]]]; try discriminate. simpl in Ha, Hq. injection Ha as ->. injection Hq as ->.
  unfold split_points. cbn [grad_of]. fold (planar a q). rewrite repeat_length. cbn [length Nat.sub].
  assert (Hg : forall i, In i (seq 0 (S (length cl) - 2)) -> 
    ((nth i (repeat (planar a q) (S (length cl))) 0 <=? nth (i + 1) (repeat (planar a q) (S (length cl))) 0) &&
     (nth (i + 2) (repeat (planar a q) (S (length cl))) 0 <=? nth (i + 1) (repeat (planar a q) (S (length cl))) 0) &&
     (one <? nth (i + 1) (repeat (planar a q) (S (length cl))) 0))%Z = (one <? planar a q)%Z).
  { intros i Hi. apply in_seq in Hi. rewrite !nth_repeat_x by lia. rewrite Z.leb_refl. auto. }
  destruct (one <? planar a q)%Z.
  - rewrite filter_all by exact Hg. replace (S (length cl) - 2) with (length cl - 1) by lia. 
    apply map_add2.
  - rewrite filter_none by exact Hg. reflexivity.
Qed.
Lemma split_at_seq : forall k (a b : center) mid t ps, length mid = k -> t <> [] ->
  split_at (rev (seq 2 (S k))) (a :: b :: mid ++ t) ps = ([a; b], ps ++ rev (map (fun x => [x]) mid ++ [t])).
Proof.
  induction k as [|k IH]; intros a b mid t ps L Ht.
  - destruct mid; [|discriminate]. simpl. auto.
  - rewrite seq_S, rev_app_distr. change (rev [2 + S k]) with [2 + S k]. change ([2 + S k] ++ rev (seq 2 (S k))) with ((2 + S k) :: rev (seq 2 (S k))). cbn [split_at]. destruct (exists_last (l := mid)) as [mid' [x E]]; [intros ->; discriminate|].
    assert (L' : length mid' = k) by (rewrite E, app_length in L; simpl in L; lia). rewrite E.
    assert (LM : length (mid' ++ [x]) = S k) by (rewrite app_length; simpl; lia).
    assert (F : firstn (2 + S k) (a :: b :: (mid' ++ [x]) ++ t) = a :: b :: mid' ++ [x]).
    { change (a :: b :: firstn (S k) ((mid' ++ [x]) ++ t) = a :: b :: mid' ++ [x]). rewrite firstn_app, LM, Nat.sub_diag, firstn_O, app_nil_r.
      rewrite firstn_all2 by lia. auto. }
    assert (G : skipn (2 + S k) (a :: b :: (mid' ++ [x]) ++ t) = t).
    { change (skipn (S k) ((mid' ++ [x]) ++ t) = t). rewrite skipn_app, LM, Nat.sub_diag, skipn_all2 by lia. auto. }
    rewrite F, G. rewrite (IH a b mid' [x] (ps ++ [t]) L') by discriminate. f_equal.
    rewrite map_app. rewrite !rev_app_distr. simpl. rewrite <- !app_assoc. auto.
Qed.

(** What becomes of one cluster: [hd] stays in place, [tl] are the pieces cut off, in order. *)
Definition cut_into (one : Z) (cl : list center) (p : list center * list (list center)) : Prop :=
  (exists a b mid x y z q, cl = a :: b :: mid ++ [x; y; z] /\ nth_error cl 2 = Some q /\ (one < planar a q)%Z /\
     p = ([a; b], map (fun c => [c]) mid ++ [[x; y; z]])) \/
  (p = (cl, []) /\ (length cl < 5 \/ exists a q, nth_error cl 0 = Some a /\ nth_error cl 2 = Some q /\ (planar a q <= one)%Z)).

Lemma cut_one one cl : exists p, cut_into one cl p /\ split_at (rev (split_points one cl)) cl [] = (fst p, rev (snd p)).
Proof.
  destruct (le_lt_dec 5 (length cl)) as [L|L].
  - destruct cl as [|a [|b cl]]; try (simpl in L; lia). simpl in L.
    destruct (nth_error_ex (a :: b :: cl) 2) as [q Hq]; [simpl; lia|]. rewrite (split_points_spec one _ a q) by auto.
    destruct (Z.ltb_spec one (planar a q)).
    + destruct (exists_last (l := cl)) as [c1 [z E1]]; [intros ->; simpl in L; lia|]. rewrite E1, app_length in L. simpl in L.
      destruct (exists_last (l := c1)) as [c2 [y E2]]; [intros ->; simpl in L; lia|]. rewrite E2, app_length in L. simpl in L.
      destruct (exists_last (l := c2)) as [mid [x E3]]; [intros ->; simpl in L; lia|]. subst c2 c1.
      assert (E : cl = mid ++ [x; y; z]) by (rewrite E1, <- !app_assoc; auto). clear E1. subst cl.
      exists ([a; b], map (fun c => [c]) mid ++ [[x; y; z]]). split.
      * left. exists a, b, mid, x, y, z, q. auto.
      * replace (length (a :: b :: mid ++ [x; y; z]) - 4) with (S (length mid)) by (simpl; rewrite app_length; simpl; lia).
        rewrite (split_at_seq (length mid)); auto. discriminate.
    + exists (a :: b :: cl, []). split; [|reflexivity]. right. split; auto. right. exists a, q. auto.
  - exists (cl, []). split; [right; auto|]. cbn [fst snd rev]. destruct cl as [|a [|b [|q cl]]]; try reflexivity.
    rewrite (split_points_spec one _ a q) by auto. replace (length (a :: b :: q :: cl) - 4) with 0 by (simpl in *; lia). destruct (one <? planar a q)%Z; reflexivity.
Qed.
Lemma split_loop_spec one : forall todo done app, exists pieces, Forall2 (cut_into one) todo pieces /\
  split_loop one todo done app = done ++ map fst pieces ++ app ++ concat (map (fun p => rev (snd p)) pieces).
Proof.
  induction todo as [|cl todo IH]; intros dn ap; cbn [split_loop].
  - exists []. split; auto. simpl. rewrite app_nil_r. auto.
  - destruct (cut_one one cl) as [p [Hp E]]. rewrite E. destruct (IH (dn ++ [fst p]) (ap ++ rev (snd p))) as [ps [Hps E']].
    exists (p :: ps). split; auto. rewrite E'. simpl. rewrite <- !app_assoc. auto.
Qed.

Lemma cut_concat one cl p : cut_into one cl p -> fst p ++ concat (snd p) = cl.
Proof.
  intros [[a [b [mid [x [y [z [q [E [_ [_ ->]]]]]]]]]]|[-> _]]; simpl; [|apply app_nil_r].
  rewrite E, concat_app. simpl. do 2 f_equal. clear E. induction mid; simpl; auto. f_equal. auto.
Qed.

(** Nothing is lost, duplicated or reordered, and where the cuts are. *)
Theorem C30_conserves one cls : exists pieces : list (list center * list (list center)),
  split_clusters one cls = map fst pieces ++ concat (map (fun p => rev (snd p)) pieces) /\
  map (fun p => fst p ++ concat (snd p)) pieces = cls /\
  Permutation (concat (split_clusters one cls)) (concat cls).
Proof.
  destruct (split_loop_spec one cls [] []) as [ps [H E]]. exists ps. unfold split_clusters. rewrite E. simpl. split; auto.
  assert (M : map (fun p => fst p ++ concat (snd p)) ps = cls).
  { clear E. induction H as [|cl p cls ps Hp _ IH]; simpl; auto. f_equal; auto. eapply cut_concat; eauto. }
  split; auto. rewrite <- M. clear. induction ps as [|[h t] ps IH]; simpl; auto. rewrite concat_app in *. cbn [concat map fst snd]. rewrite concat_app.
  rewrite <- !app_assoc. apply Permutation_app_head. eapply perm_trans; [apply Permutation_app_swap_app|]. apply Permutation_app; auto.
  clear. induction t as [|x t IH]; simpl; auto. rewrite concat_app. simpl. rewrite app_nil_r. eapply perm_trans; [apply Permutation_app_comm|]. apply Permutation_app_head. auto.
Qed.
(** A cluster is cut when it has at least five centres and its first and third centres are more than 1 apart in the
    plane; it is then cut before every centre from the third on except the last two. *)
Theorem C30_all_or_nothing one cls : exists pieces, Forall2 (cut_into one) cls pieces /\
  split_clusters one cls = map fst pieces ++ concat (map (fun p => rev (snd p)) pieces).
Proof. destruct (split_loop_spec one cls [] []) as [ps [H E]]. exists ps. split; auto. Qed.
Definition at_x (x z : Z) : center := mkCenter [x; 0; z]%Z 2 (-1).
Example C30_case : split_clusters 1 [[at_x 0 0; at_x 2 1; at_x 4 2; at_x 4 3; at_x 4 4; at_x 4 5]; [at_x 7 0]]%Z =
  [[at_x 0 0; at_x 2 1]; [at_x 7 0]; [at_x 4 3; at_x 4 4; at_x 4 5]; [at_x 4 2]]%Z.
Proof. reflexivity. Qed.
(** The jump is not looked for: a cluster that jumps in its middle only is left whole. *)
Theorem C30_finds_jumps_refuted : split_clusters 1 [[at_x 0 0; at_x 0 1; at_x 0 2; at_x 0 3; at_x 90 4; at_x 90 5; at_x 90 6; at_x 90 7]]%Z =
  [[at_x 0 0; at_x 0 1; at_x 0 2; at_x 0 3; at_x 90 4; at_x 90 5; at_x 90 6; at_x 90 7]]%Z.
Proof. reflexivity. Qed.

Print Assumptions C28_partition. Print Assumptions C29_tree_links. Print Assumptions C29_brute_links. Print Assumptions C30_conserves. Print Assumptions C30_all_or_nothing.

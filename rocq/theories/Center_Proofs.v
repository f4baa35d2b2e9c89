Require Import ZArith List Bool Arith Lia Permutation.
Require Import Verif.Base Verif.ListX Verif.Box_Model Verif.Box_Spec Verif.Box_Proofs Verif.RTree_Model Verif.RTree_Spec Verif.RTree_Proofs
  Verif.RTree_Props Verif.Traj_Model Verif.Traj_Proofs Verif.Center_Model Verif.Center_Spec.
Import ListNotations.
Local Open Scope Z_scope.

Definition bb_leaves (bb : center -> box) (l : list center) : list leaf :=
  map (fun ip => mkLeaf (fst ip) (bb (snd ip))) (combine (seq 0 (length l)) l).

Lemma combine_seq_snoc {A} (l : list A) : forall k x, combine (seq k (length (l ++ [x]))) (l ++ [x]) = combine (seq k (length l)) l ++ [(k + length l, x)]%nat.
Proof.
  induction l as [|a l IH]; intros k x; simpl; [rewrite Nat.add_0_r; auto|]. f_equal. rewrite IH. f_equal. f_equal. f_equal. lia.
Qed.
Lemma bb_leaves_snoc bb l x : bb_leaves bb (l ++ [x]) = bb_leaves bb l ++ [mkLeaf (length l) (bb x)].
Proof. unfold bb_leaves. rewrite combine_seq_snoc, map_app. auto. Qed.
Lemma bb_leaves_in bb l lf : In lf (bb_leaves bb l) <-> exists i p, nth_error l i = Some p /\ lf = mkLeaf i (bb p).
Proof.
  unfold bb_leaves. rewrite in_map_iff. split.
  - intros [[i p] [E H]]. simpl in E. exists i, p. split; auto. apply In_nth_error in H. destruct H as [k H]. apply combine_nth_error in H.
    destruct H as [H1 H2]. pose proof (nth_error_lt _ _ _ H1) as Hl. rewrite seq_length in Hl. rewrite nth_error_seq in H1 by auto. injection H1 as <-. auto.
  - intros [i [p [H ->]]]. exists (i, p). split; auto. apply nth_error_In with i. apply combine_nth_error. split; auto.
    rewrite nth_error_seq; auto. eapply nth_error_lt; eauto.
Qed.

Lemma any_near_spec near filtered p : forall qs, (forall q, In q qs -> (q < length filtered)%nat) ->
  exists b, any_near near filtered p qs = Some b /\
    (b = true <-> exists q f, In q qs /\ nth_error filtered q = Some f /\ near p f = true).
Proof.
  induction qs as [|q qs IH]; intros H; cbn [any_near].
  - exists false. split; auto. split; [discriminate|]. intros [q [f [[] _]]].
  - destruct (nth_error_ex filtered q) as [f Hf]; [apply H; left; auto|]. rewrite Hf. destruct (near p f) eqn:E.
    + exists true. split; auto. split; auto. intros _. exists q, f. split; [left; auto|auto].
    + destruct IH as [b [Eb Hb]]; [intros; apply H; right; auto|]. exists b. split; auto. rewrite Hb. split.
      * intros [q' [f' [H1 H2]]]. exists q', f'. split; [right; auto|auto].
      * intros [q' [f' [[<-|H1] [H2 H3]]]]; [congruence|]. exists q', f'. auto.
Qed.

Record loop_inv (c : config) (bb : center -> box) (tree : rtree) (filtered : list center) : Prop := {
  lv_reach : reachable c tree;
  lv_leaves : Permutation (tleaves tree) (bb_leaves bb filtered) }.

Lemma insert_reachable c t lf : config_ok c -> reachable c t -> length (lbox lf) = dims c ->
  exists t', insert c t lf = Some t' /\ reachable c t' /\ Permutation (tleaves t') (lf :: tleaves t).
Proof.
  intros Hok Hr Hd. pose proof (reachable_wft c t Hok Hr) as Hw.
  destruct (run_spec c Hok [OpInsert lf] t Hw) as (t' & E & Hw' & Hs); [repeat constructor; auto|].
  simpl in E. destruct (insert c t lf) as [t''|] eqn:Ei; [|discriminate]. injection E as <-. exists t''. split; auto. split.
  - destruct Hr as (ops & Ho & Er). exists (ops ++ [OpInsert lf]). split; [apply Forall_app; split; auto; repeat constructor; auto|].
    clear - Er Ei. revert Er. generalize empty_tree. induction ops as [|o ops IH]; intros e Er; simpl in *.
    + injection Er as ->. rewrite Ei. auto.
    + destruct (RTree_Model.step c e o); [auto|discriminate].
  - inversion Hs as [| ? ? ? ? ? H1 H2]; subst. inversion H1; subst. inversion H2; subst.
    eapply Permutation_trans; [apply Permutation_sym; eassumption|]. auto.
Qed.

Lemma filter_loop_spec c bb near : config_ok c -> (forall p, length (coords p) = dims c -> length (bb p) = dims c) ->
  forall ps tree filtered,
  Forall (fun p => length (coords p) = dims c) ps -> loop_inv c bb tree filtered ->
  exists tree', filter_loop c bb near ps tree filtered =
      Some (tree', brute_loop (fun p f => overlaps (bb p) (bb f) && near p f) ps filtered) /\
    loop_inv c bb tree' (brute_loop (fun p f => overlaps (bb p) (bb f) && near p f) ps filtered).
Proof.
  intros Hok Hbb. induction ps as [|p ps IH]; intros tree filtered Hd Hi; cbn [filter_loop brute_loop]; [eauto|].
  inversion Hd as [|? ? Hp Hps]; subst. destruct Hi as [Hr Hl].
  rewrite (C05_overlap_query_exact c tree (bb p) Hok Hr) by auto.
  assert (Hin : forall q, In q (map lid (filter (fun l => overlaps (bb p) (lbox l)) (tleaves tree))) <->
                          exists f, nth_error filtered q = Some f /\ overlaps (bb p) (bb f) = true).
  { intros q. rewrite in_map_iff. split.
    - intros [lf [E H]]. apply filter_In in H. destruct H as [H1 H2].
      apply (Permutation_in _ Hl) in H1. apply bb_leaves_in in H1. destruct H1 as [i [f [Hf ->]]]. simpl in *. subst. eauto.
    - intros [f [Hf Ho]]. exists (mkLeaf q (bb f)). split; auto. apply filter_In. split; auto.
      apply (Permutation_in _ (Permutation_sym Hl)). apply bb_leaves_in. eauto. }
  destruct (any_near_spec near filtered p (map lid (filter (fun l => overlaps (bb p) (lbox l)) (tleaves tree)))) as [b [E Hb]].
  { intros q Hq. apply Hin in Hq. destruct Hq as [f [Hf _]]. eapply nth_error_lt; eauto. }
  rewrite E. assert (Eb : existsb (fun f => overlaps (bb p) (bb f) && near p f) filtered = b).
  { apply eq_true_iff_eq. rewrite existsb_exists, Hb. split.
    - intros [f [Hf Hn]]. apply andb_true_iff in Hn. apply In_nth_error in Hf. destruct Hf as [q Hq]. exists q, f. rewrite Hin. intuition. exists f; auto.
    - intros [q [f [Hq [Hf Hn]]]]. exists f. split; [eapply nth_error_In; eauto|]. apply Hin in Hq. destruct Hq as [f' [Hf' Ho]].
      assert (f' = f) by congruence. subst. rewrite Ho, Hn. auto. }
  rewrite Eb. destruct b; [apply IH; auto; constructor; auto|].
  destruct (insert_reachable c tree (mkLeaf (length filtered) (bb p)) Hok Hr) as [tree' [Ei [Hr' Hl']]]; [apply Hbb, Hp|]. rewrite Ei.
  apply IH; auto. constructor; auto. rewrite bb_leaves_snoc. eapply Permutation_trans; [apply Hl'|].
  eapply Permutation_trans; [apply perm_skip, Hl|]. apply Permutation_cons_append.
Qed.

(** The greedy loop. *)
Lemma sorted_tail a l : sorted_by_intensity (a :: l) -> sorted_by_intensity l /\ forall b, In b l -> intensity a <= intensity b.
Proof.
  intros H. split.
  - intros i j x y Hij Hx Hy. apply (H (S i) (S j) x y); auto. lia.
  - intros b Hb. apply In_nth_error in Hb. destruct Hb as [k Hk]. apply (H 0%nat (S k) a b); auto. lia.
Qed.

Lemma brute_loop_spec near : (forall a b, near a b = near b a) -> forall ps filtered,
  sorted_by_intensity ps -> (forall f p, In f filtered -> In p ps -> intensity f <= intensity p) ->
  (forall i j a b, nth_error filtered i = Some a -> nth_error filtered j = Some b -> i <> j -> near a b = false) ->
  let out := brute_loop near ps filtered in
  (exists kept dropped, out = filtered ++ kept /\ Permutation ps (kept ++ dropped) /\
     forall p, In p dropped -> exists q, In q out /\ near p q = true /\ intensity q <= intensity p) /\
  (forall i j a b, nth_error out i = Some a -> nth_error out j = Some b -> i <> j -> near a b = false).
Proof.
  intros Hsym. induction ps as [|p ps IH]; intros filtered Hs Hle Hap out; unfold out; cbn [brute_loop].
  - split; auto. exists [], []. rewrite app_nil_r. split; auto. split; auto. intros p [].
  - destruct (sorted_tail _ _ Hs) as [Hs' Hp]. destruct (existsb (near p) filtered) eqn:E.
    + destruct (IH filtered Hs') as [[kept [dropped [E1 [E2 E3]]]] Hap']; auto.
      { intros f q Hf Hq. apply Hle; auto. right; auto. }
      split; auto. exists kept, (p :: dropped). split; auto. split.
      * eapply Permutation_trans; [apply perm_skip, E2|]. apply Permutation_middle.
      * intros q [<-|Hq]; auto. apply existsb_exists in E. destruct E as [f [Hf Hn]]. exists f. split; [rewrite E1; apply in_or_app; auto|].
        split; auto. apply Hle; auto. left; auto.
    + assert (Hnear : forall f, In f filtered -> near p f = false).
      { intros f Hf. destruct (near p f) eqn:En; auto. assert (existsb (near p) filtered = true) by (apply existsb_exists; eauto). congruence. }
      destruct (IH (filtered ++ [p]) Hs') as [[kept [dropped [E1 [E2 E3]]]] Hap'].
      { intros f q Hf Hq. apply in_app_or in Hf. destruct Hf as [Hf|[<-|[]]]; auto. apply Hle; auto. right; auto. }
      { intros i j a b Ha Hb Hij. rewrite nth_error_snoc in Ha, Hb.
        destruct (Nat.eqb_spec i (length filtered)) as [->|], (Nat.eqb_spec j (length filtered)) as [->|]; try congruence.
        - injection Ha as <-. apply Hnear. eapply nth_error_In; eauto.
        - injection Hb as <-. rewrite Hsym. apply Hnear. eapply nth_error_In; eauto.
        - eapply Hap; eauto. }
      split; auto. exists (p :: kept), dropped. split; [rewrite E1, <- app_assoc; auto|]. split; [simpl; apply perm_skip, E2|auto].
Qed.

Lemma brute_loop_id near : forall ps filtered,
  (forall i j a b, nth_error (filtered ++ ps) i = Some a -> nth_error (filtered ++ ps) j = Some b -> i <> j -> near a b = false) ->
  brute_loop near ps filtered = filtered ++ ps.
Proof.
  induction ps as [|p ps IH]; intros filtered H; cbn [brute_loop]; [rewrite app_nil_r; auto|].
  assert (existsb (near p) filtered = false) as ->.
  { apply not_true_iff_false. rewrite existsb_exists. intros [f [Hf Hn]]. apply In_nth_error in Hf. destruct Hf as [i Hi].
    pose proof (nth_error_lt _ _ _ Hi) as Hl. rewrite (H (length filtered) i p f) in Hn; [discriminate| | |lia].
    - rewrite nth_error_app2, Nat.sub_diag by auto. auto.
    - rewrite nth_error_app1; auto. }
  rewrite IH; rewrite <- app_assoc; auto.
Qed.

Lemma sqdist_sym : forall a b, sqdist a b = sqdist b a.
Proof. induction a as [|x a IH]; intros [|y b]; simpl; auto. rewrite IH. ring. Qed.
Lemma sqdist_nonneg : forall a b, 0 <= sqdist a b.
Proof. induction a as [|x a IH]; intros [|y b]; simpl; try lia. specialize (IH b). pose proof (Z.square_nonneg (x - y)). lia. Qed.
Lemma near_tol_sym tn td a b : near_tol tn td a b = near_tol tn td b a.
Proof. unfold near_tol, csqdist. rewrite sqdist_sym, (Z.add_comm (radius a)). auto. Qed.
Lemma near_sum_sym a b : near_sum a b = near_sum b a.
Proof. unfold near_sum, csqdist. rewrite sqdist_sym, (Z.add_comm (radius a)). auto. Qed.
Lemma near_half_sym a b : near_half a b = near_half b a.
Proof. unfold near_half, csqdist. rewrite sqdist_sym, (Z.max_comm (radius a)). auto. Qed.

Lemma overlaps_bb_aux tn td ra rb : forall xs ys, length xs = length ys ->
  overlaps (map (fun x => (x * td - ra * tn, x * td + ra * tn)) xs) (map (fun x => (x * td - rb * tn, x * td + rb * tn)) ys) = true
  <-> Forall2 (fun x y => Z.abs (x * td - y * td) < tn * (ra + rb)) xs ys.
Proof.
  induction xs as [|x xs IH]; intros [|y ys] Hl; try discriminate; cbn [map].
  - split; auto. 
  - rewrite overlaps_cons, !andb_true_iff, !Z.ltb_lt. cbn [fst snd]. injection Hl as Hl. rewrite IH by auto. split.
    + intros H. constructor; [lia|tauto].
    + intros H. inversion H; subst. repeat split; auto; lia.
Qed.
Lemma Forall2_impl_x {A B} (P Q : A -> B -> Prop) : (forall x y, P x y -> Q x y) -> forall l l', Forall2 P l l' -> Forall2 Q l l'.
Proof. intros H l l' F. induction F; constructor; auto. Qed.
Lemma overlaps_bb tn td a b : 0 < td -> length (coords a) = length (coords b) ->
  overlaps (get_bb tn td a) (get_bb tn td b) = true <-> boxes_meet tn td a b.
Proof.
  intros Ht Hl. unfold get_bb. rewrite overlaps_bb_aux by auto. unfold boxes_meet.
  assert (E : forall x y, td * Z.abs (x - y) = Z.abs (x * td - y * td)).
  { intros x y. replace (x * td - y * td) with (td * (x - y)) by ring. rewrite Z.abs_mul. f_equal. lia. }
  split; intros H; (eapply Forall2_impl_x; [|exact H]); cbn beta; intros x y; rewrite E; auto.
Qed.

Lemma sqdist_axis k : forall xs ys, length xs = length ys -> sqdist xs ys < k * k -> 0 <= k -> Forall2 (fun x y => Z.abs (x - y) < k) xs ys.
Proof.
  induction xs as [|x xs IH]; intros [|y ys] Hl H Hk; try discriminate; constructor; simpl in H.
  - pose proof (sqdist_nonneg xs ys). apply Z.nle_gt. intros Hle. assert (k * k <= Z.abs (x - y) * Z.abs (x - y)) by (apply Z.square_le_mono_nonneg; auto).
    pose proof (Z.abs_square (x - y)). lia.
  - apply IH; auto. pose proof (Z.square_nonneg (x - y)). lia.
Qed.
Lemma half_near_meet a b : 0 <= radius a -> 0 <= radius b -> length (coords a) = length (coords b) ->
  near_half a b = true -> overlaps (get_bb 1 1 a) (get_bb 1 1 b) = true.
Proof.
  intros Ha Hb Hl H. unfold near_half in H. apply Z.ltb_lt in H. apply overlaps_bb; auto; [lia|]. unfold boxes_meet.
  apply sqdist_axis in H; auto; [|lia]. eapply Forall2_impl_x; [|exact H]. cbn beta. intros x y. lia.
Qed.

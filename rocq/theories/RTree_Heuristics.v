(** The geometric choices actually made by RStarTree.h, as one instance of the [config] record.
    Simplifications: areas are computed exactly; std::sort and std::partial_sort are modelled by a
    stable sort (the standard leaves the order of equivalent items open); the initial value
    numeric_limits<double>::max() of dist_overlap and dist_area (line 520) is larger than any area. *)
Require Import ZArith List Bool Arith Lia Permutation.
Require Import Verif.Base Verif.Box_Model Verif.RTree_Model Verif.RTree_Spec.
Import ListNotations.
Local Open Scope Z_scope.

(** RStarBoundingBox.h:323-334 [SortBoundedItemsByAreaEnlargement]. *)
Definition area_enlargement_lt (b : box) (n1 n2 : node) : bool :=
  (area b - area (nbox n1) <? area b - area (nbox n2)).
(** RStarBoundingBox.h:336-347 [SortBoundedItemsByOverlapEnlargement]. *)
Definition overlap_enlargement_lt (b : box) (n1 n2 : node) : bool :=
  (overlap (nbox n1) b <? overlap (nbox n2) b).

(** RStarTree.h:49 RTREE_CHOOSE_SUBTREE_P. *)
Definition choose_p : nat := 32.

(** RStarTree.h:347-392 [ChooseSubtree]. *)
Definition std_choose (M : nat) (items : list node) (b : box) : list node * nat :=
  match items with
  | NL _ _ :: _ =>
      if (choose_p * 2 / 3 <? M)%nat && (choose_p <? length items)%nat then
        let s := sort_by (area_enlargement_lt b) items in
        (s, min_index (overlap_enlargement_lt b) (firstn choose_p s))
      else (items, min_index (overlap_enlargement_lt b) items)
  | _ => (items, min_index (area_enlargement_lt b) items)
  end.

(** RStarBoundingBox.h:310-321 [SortBoundedItemsByDistanceFromCenter]. *)
Definition distance_lt (ctr : box) (l1 l2 : leaf) : bool :=
  (distance_from_center (lbox l1) ctr <? distance_from_center (lbox l2) ctr).

(** RStarTree.h:627-628. *)
Definition std_far_sort (items : list leaf) (b : box) : list leaf := sort_by (distance_lt b) items.

Section Split.
  Variable A : Type.
  Variable bx : A -> box.
  Variable d m : nat.

  (** RStarBoundingBox.h:283-307 [SortBoundedItemsByFirstEdge], [...SecondEdge]. *)
  Definition edge_key (second : bool) (axis : nat) (x : A) : Z :=
    let e := nth axis (bx x) (0, 0) in if second then snd e else fst e.
  Definition edge_lt (second : bool) (axis : nat) (x y : A) : bool :=
    (edge_key second axis x <? edge_key second axis y).

  (** Best distribution so far on an axis: dist_overlap, dist_area, dist_edge, dist_index; [None] is
      the initial state of lines 518-520. *)
  Definition dist : Type := option (Z * Z * bool * nat).

  (** RStarTree.h:541-571, one value of k: returns the margin increment and the new best. *)
  Definition try_distribution (items : list A) (second : bool) (k : nat) (best : dist) : Z * dist :=
    let R1 := cover d (map bx (firstn (m + k) items)) in
    let R2 := cover d (map bx (skipn (m + k + 1) items)) in
    let ar := area R1 + area R2 in
    let ov := overlap R1 R2 in
    let best' :=
      match best with
      | None => Some (ov, ar, second, (m + k)%nat)
      | Some (dov, dar, _, _) =>
          if (ov <? dov) || ((ov =? dov) && (ar <? dar)) then Some (ov, ar, second, (m + k)%nat) else best
      end in
    (edge_deltas R1 + edge_deltas R2, best').

  (** RStarTree.h:541-571, the loop on k for one edge; accumulates the margin of line 555. *)
  Definition try_step (items : list A) (second : bool) (mb : Z * dist) (k : nat) : Z * dist :=
    let '(dm, best') := try_distribution items second k (snd mb) in (fst mb + dm, best').
  Definition try_distributions (items : list A) (second : bool) (mb : Z * dist) : Z * dist :=
    fold_left (try_step items second) (seq 0 (length items - 2 * m + 1)) mb.

  (** RStarTree.h:513-582, one axis: reordered items and the best split over the axes so far
      (axis, margin, edge, index). *)
  Definition best_split : Type := option (nat * Z * bool * nat).
  Definition try_axis (st : list A * best_split) (axis : nat) : list A * best_split :=
    let '(items, best) := st in
    let items0 := sort_by (edge_lt false axis) items in
    let mb0 := try_distributions items0 false (0, None) in
    let items1 := sort_by (edge_lt true axis) items0 in
    let '(margin, di) := try_distributions items1 true mb0 in
    let '(dedge, dindex) := match di with Some (_, _, e, i) => (e, i) | None => (false, 0%nat) end in
    let best' :=
      match best with
      | None => Some (axis, margin, dedge, dindex)
      | Some (_, smargin, _, _) => if margin <? smargin then Some (axis, margin, dedge, dindex) else best
      end in
    (items1, best').

  (** RStarTree.h:491-595: items in their final order and split_index. *)
  Definition std_split (items : list A) : list A * nat :=
    let '(its, best) := fold_left try_axis (seq 0 d) (items, None) in
    match best with
    | None => (its, 0%nat)
    | Some (axis, _, second, i) =>
        if negb second then (sort_by (edge_lt false axis) its, i)
        else if negb (axis =? d - 1)%nat then (sort_by (edge_lt true axis) its, i)
        else (its, i)
    end.

  Lemma try_distribution_inv items second k best dm best' :
    try_distribution items second k best = (dm, best') ->
    exists ov ar e i, best' = Some (ov, ar, e, i) /\
      (i = (m + k)%nat \/ exists ov0 ar0 e0, best = Some (ov0, ar0, e0, i)).
  Proof.
    unfold try_distribution. intros H; injection H as <- <-.
    destruct best as [[[[dov dar] e0] i0]|].
    - destruct ((overlap _ _ <? dov) || _).
      + do 4 eexists; split; [reflexivity|]; auto.
      + do 4 eexists; split; [reflexivity|]. right. eauto.
    - do 4 eexists; split; [reflexivity|]; auto.
  Qed.

  Definition good (n : nat) (b : dist) : Prop :=
    match b with None => True | Some (_, _, _, i) => (m <= i /\ i + m <= n)%nat end.

  Lemma try_distributions_inv items second mb : (2 * m <= length items)%nat -> good (length items) (snd mb) ->
    good (length items) (snd (try_distributions items second mb)) /\ snd (try_distributions items second mb) <> None.
  Proof.
    intros Hn Hg. unfold try_distributions.
    set (cnt := (length items - 2 * m + 1)%nat).
    assert (Hgen : forall ks mb0, (forall k, In k ks -> (k < cnt)%nat) -> good (length items) (snd mb0) ->
      let r := fold_left (try_step items second) ks mb0 in
      good (length items) (snd r) /\ (ks <> [] \/ snd mb0 <> None -> snd r <> None)).
    { induction ks as [|k ks IH]; intros mb0 Hk Hg0; cbn [fold_left].
      - split; auto. intros [H|H]; auto; congruence.
      - unfold try_step at 2 4. destruct (try_distribution items second k (snd mb0)) as [dm best'] eqn:E.
        destruct (try_distribution_inv _ _ _ _ _ _ E) as (ov & ar & e & i & Hb & Hi).
        subst best'.
        assert (Hg' : good (length items) (Some (ov, ar, e, i))).
        { simpl. destruct Hi as [->|(ov0 & ar0 & e0 & Hb0)].
          - specialize (Hk k (or_introl eq_refl)). unfold cnt in Hk. lia.
          - rewrite Hb0 in Hg0. exact Hg0. }
        destruct (IH (fst mb0 + dm, Some (ov, ar, e, i))) as [IH1 IH2].
        + intros; apply Hk; simpl; auto.
        + exact Hg'.
        + split; [exact IH1 | intros _; apply IH2; right; simpl; discriminate]. }
    destruct (Hgen (seq 0 cnt) mb) as [H1 H2].
    - intros k Hk. apply in_seq in Hk. lia.
    - auto.
    - split; auto. apply H2. left. unfold cnt. rewrite Nat.add_1_r. simpl. discriminate.
  Qed.

  Lemma try_axis_inv items best axis n : length items = n -> (2 * m <= n)%nat ->
    (forall a mg e i, best = Some (a, mg, e, i) -> (m <= i /\ i + m <= n)%nat) ->
    exists its a mg e i, try_axis (items, best) axis = (its, Some (a, mg, e, i)) /\ Permutation its items /\
      (m <= i /\ i + m <= n)%nat.
  Proof.
    intros Hn Hm Hb. unfold try_axis.
    set (items0 := sort_by (edge_lt false axis) items).
    set (items1 := sort_by (edge_lt true axis) items0).
    assert (P0 : Permutation items0 items) by apply sort_by_perm.
    assert (P1 : Permutation items1 items0) by apply sort_by_perm.
    pose proof (Permutation_length P0) as L0. pose proof (Permutation_length P1) as L1.
    destruct (try_distributions_inv items0 false (0, None)) as [G0 _]; [lia | exact I |].
    assert (G0' : good (length items1) (snd (try_distributions items0 false (0, None)))) by (rewrite L1; exact G0).
    destruct (try_distributions_inv items1 true (try_distributions items0 false (0, None))) as [G1 N1]; [lia | exact G0' |].
    destruct (try_distributions items1 true (try_distributions items0 false (0, None))) as [margin di].
    simpl in G1, N1. destruct di as [[[[ov ar] e] i]|]; [|congruence]. simpl in G1.
    assert (P : Permutation items1 items) by (eapply Permutation_trans; eauto).
    destruct best as [[[[a0 mg0] e0] i0]|].
    - specialize (Hb _ _ _ _ eq_refl). destruct (margin <? mg0).
      + exists items1, axis, margin, e, i. repeat split; auto; lia.
      + exists items1, a0, mg0, e0, i0. repeat split; auto; lia.
    - exists items1, axis, margin, e, i. repeat split; auto; lia.
  Qed.

  Lemma fold_axis_inv n : (2 * m <= n)%nat -> forall axes items best, length items = n ->
    (forall a mg e i, best = Some (a, mg, e, i) -> (m <= i /\ i + m <= n)%nat) ->
    (axes <> [] \/ best <> None) ->
    exists its a mg e i, fold_left try_axis axes (items, best) = (its, Some (a, mg, e, i)) /\ Permutation its items /\
      (m <= i /\ i + m <= n)%nat.
  Proof.
    intros Hm. induction axes as [|ax axes IH]; intros items best Hn Hb Hne.
    - destruct Hne as [|Hne]; [congruence|]. destruct best as [[[[a0 mg0] e0] i0]|]; [|congruence].
      exists items, a0, mg0, e0, i0. repeat split; auto; eapply Hb; eauto.
    - cbn [fold_left].
      destruct (try_axis_inv items best ax n Hn Hm Hb) as (its & a & mg & e & i & E & P & Hi).
      rewrite E. destruct (IH its (Some (a, mg, e, i))) as (its2 & a2 & mg2 & e2 & i2 & E2 & P2 & Hi2).
      + pose proof (Permutation_length P); lia.
      + intros ? ? ? ? H; injection H as <- <- <- <-; auto.
      + right; discriminate.
      + exists its2, a2, mg2, e2, i2. split; auto. split; auto. eapply Permutation_trans; eauto.
  Qed.

  Lemma std_split_ok items s i : (1 <= d)%nat -> (2 * m <= length items)%nat -> std_split items = (s, i) ->
    Permutation s items /\ (m <= i /\ i + m <= length items)%nat.
  Proof.
    intros Hd Hm. unfold std_split.
    destruct (fold_axis_inv (length items) Hm (seq 0 d) items None) as (its & a & mg & e & i0 & E & P & Hi); auto.
    - intros; discriminate.
    - left. destruct d; [lia|]. simpl. discriminate.
    - rewrite E. destruct (negb e); [|destruct (negb _)]; intros H; injection H as <- <-; split; auto;
        eapply Permutation_trans; try apply sort_by_perm; auto.
  Qed.
End Split.

(** index.hpp:136 uses RStarTree<size_t, 3, 4, 32, double>. *)
Definition std_config (d m M : nat) : config :=
  mkConfig d m M (std_choose M) (std_split leaf lbox d m) (std_split node nbox d m) std_far_sort.

Lemma std_choose_ok M items b its i : items <> [] -> std_choose M items b = (its, i) ->
  Permutation its items /\ (i < length its)%nat.
Proof.
  intros Hne H.
  destruct items as [|[b0 l0|b0 l0] items]; [congruence| |];
    [|injection H as <- <-; split; [auto|]; apply (min_index_bound (area_enlargement_lt b) (NI b0 l0 :: items)); auto].
  cbn [std_choose] in H. set (L := NL b0 l0 :: items) in *.
  destruct ((choose_p * 2 / 3 <? M)%nat && (choose_p <? length L)%nat) eqn:E.
  - apply pair_equal_spec in H. destruct H as [<- <-]. split; [apply sort_by_perm|].
    pose proof (Permutation_length (sort_by_perm (area_enlargement_lt b) L)) as HL.
    set (P := sort_by (area_enlargement_lt b) L) in *. clearbody P.
    assert (HP : (0 < choose_p)%nat) by (unfold choose_p; lia). revert HP. generalize choose_p. intros p HP.
    assert (Hlen : length (firstn p P) <> 0%nat).
    { rewrite firstn_length, HL. unfold L. simpl length. lia. }
    eapply Nat.lt_le_trans; [apply min_index_bound|].
    + intros E'; rewrite E' in Hlen; simpl in Hlen; congruence.
    + rewrite firstn_length. lia.
  - apply pair_equal_spec in H. destruct H as [<- <-]. split; auto. apply min_index_bound; auto.
Qed.

Lemma std_config_ok d m M : (1 <= d)%nat -> (2 <= m)%nat -> (2 * m <= M + 1)%nat -> config_ok (std_config d m M).
Proof.
  intros Hd Hm HM. unfold config_ok; simpl. repeat split; auto; try lia.
  - eapply std_choose_ok; eauto.
  - eapply (std_choose_ok M); eauto.
  - apply (std_split_ok leaf lbox d m items s i) in H0; [tauto|lia|lia].
  - apply (std_split_ok leaf lbox d m items s i) in H0; [tauto|lia|lia].
  - apply (std_split_ok leaf lbox d m items s i) in H0; [tauto|lia|lia].
  - apply (std_split_ok node nbox d m items s i) in H0; [tauto|lia|lia].
  - apply (std_split_ok node nbox d m items s i) in H0; [tauto|lia|lia].
  - apply (std_split_ok node nbox d m items s i) in H0; [tauto|lia|lia].
  - intros; apply sort_by_perm.
Qed.

(** The configuration of lib/index.hpp:136. *)
Definition lib_config : config := std_config 3 4 32.
Lemma lib_config_ok : config_ok lib_config.
Proof. apply std_config_ok; lia. Qed.

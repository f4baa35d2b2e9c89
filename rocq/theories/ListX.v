(** More general lemmas on lists: stable sort, point updates, sorted lists. *)
Require Import List Arith Lia Permutation Bool ZArith Sorted.
Require Import Verif.Base Verif.SortU Verif.RTree_Model.
Import ListNotations.

(** [sort_by] sorts when [lt] is the strict part of a total preorder. *)
Section Sorting.
  Variable A : Type.
  Variable lt : A -> A -> bool.
  Hypothesis lt_asym : forall x y, lt x y = true -> lt y x = false.
  Hypothesis le_trans : forall x y z, lt y x = false -> lt z y = false -> lt z x = false.
  Let le x y := lt y x = false.

  Lemma ins_by_sorted x : forall l, StronglySorted le l -> StronglySorted le (ins lt x l).
  Proof.
    induction l as [|y l IH]; intros H; simpl; [repeat constructor|].
    inversion H as [|? ? Hl Hf]; subst. destruct (lt x y) eqn:E.
    - constructor; auto. constructor; [apply lt_asym, E|].
      eapply Forall_impl; [|exact Hf]. intros z Hz. eapply le_trans; [apply lt_asym, E|exact Hz].
    - constructor; auto. eapply Forall_perm; [apply Permutation_sym, ins_perm|]. constructor; auto.
  Qed.
  Lemma sort_by_sorted l : StronglySorted le (sort_by lt l).
  Proof.
    unfold sort_by. assert (H : StronglySorted le []) by constructor. revert H. generalize (@nil A).
    induction l as [|x l IH]; intros acc H; simpl; auto. apply IH, ins_by_sorted, H.
  Qed.
End Sorting.

Lemma sort_by_in {A} (lt : A -> A -> bool) l x : In x (sort_by lt l) <-> In x l.
Proof. split; apply Permutation_in; [|apply Permutation_sym]; apply sort_by_perm. Qed.

Lemma sort_nat_sorted {A} (k : A -> nat) l :
  StronglySorted (fun x y => k x <= k y) (sort_by (fun x y => k x <? k y) l).
Proof.
  pose proof (sort_by_sorted A (fun x y => k x <? k y)) as H.
  assert (H' := H (fun x y E => proj2 (Nat.ltb_ge _ _) (Nat.lt_le_incl _ _ (proj1 (Nat.ltb_lt _ _) E)))).
  clear H. assert (H2 : StronglySorted (fun x y => (k y <? k x) = false) (sort_by (fun x y => k x <? k y) l)).
  { apply H'. intros x y z. rewrite !Nat.ltb_ge. lia. }
  clear H'. induction H2 as [|x l' Hl IH Hf]; constructor; auto.
  eapply Forall_impl; [|exact Hf]. intros y Hy. apply Nat.ltb_ge, Hy.
Qed.
Lemma sort_Z_sorted {A} (k : A -> Z) l :
  StronglySorted (fun x y => (k x <= k y)%Z) (sort_by (fun x y => (k x <? k y)%Z) l).
Proof.
  assert (H2 : StronglySorted (fun x y => (k y <? k x)%Z = false) (sort_by (fun x y => (k x <? k y)%Z) l)).
  { apply sort_by_sorted; intros; rewrite ?Z.ltb_lt, ?Z.ltb_ge in *; lia. }
  induction H2 as [|x l' Hl IH Hf]; constructor; auto.
  eapply Forall_impl; [|exact Hf]. intros y Hy. apply Z.ltb_ge, Hy.
Qed.

Lemma ssorted_le_lt {A} (k : A -> nat) : forall l,
  StronglySorted (fun x y => k x <= k y) l -> NoDup (map k l) -> StronglySorted lt (map k l).
Proof.
  induction l as [|x l IH]; intros Hs Hn; simpl in *; constructor.
  - inversion Hs; inversion Hn; subst; auto.
  - inversion Hs as [|? ? _ Hf]; inversion Hn as [|? ? Hx _]; subst.
    rewrite Forall_forall in *. intros y Hy. apply in_map_iff in Hy. destruct Hy as [z [<- Hz]].
    specialize (Hf z Hz). assert (k x <> k z); [|lia]. intros E. apply Hx. rewrite E. apply in_map, Hz.
Qed.

(** A strictly sorted list with the elements of an interval is that interval. *)
Lemma ssorted_interval l a b : StronglySorted lt l -> (forall x, In x l <-> a <= x < b) -> l = seq a (b - a).
Proof.
  intros Hs H. apply ssorted_ext; auto; [apply seq_ssorted|]. intros x. rewrite H, in_seq. split; lia.
Qed.

Lemma ssorted_nth : forall l i j x y, StronglySorted lt l -> i < j ->
  nth_error l i = Some x -> nth_error l j = Some y -> x < y.
Proof.
  induction l as [|z l IH]; intros i j x y Hs Hij Hi Hj; [destruct i; discriminate|].
  inversion Hs as [|? ? Hl Hf]; subst. destruct j as [|j]; [lia|]. destruct i as [|i]; simpl in *.
  - injection Hi as ->. rewrite Forall_forall in Hf. apply Hf. eapply nth_error_In; eauto.
  - apply (IH i j); auto; lia.
Qed.

Lemma NoDup_map_inj {A B} (f : A -> B) : forall l x y, NoDup (map f l) -> In x l -> In y l -> f x = f y -> x = y.
Proof.
  induction l as [|a l IH]; intros x y Hn Hx Hy E; [destruct Hx|].
  simpl in Hn. inversion Hn as [|? ? Ha Hl]; subst. destruct Hx as [->|Hx], Hy as [->|Hy]; auto.
  - exfalso. apply Ha. rewrite E. apply in_map, Hy.
  - exfalso. apply Ha. rewrite <- E. apply in_map, Hx.
Qed.

Lemma NoDup_length_ext {A} (l1 l2 : list A) : NoDup l1 -> NoDup l2 -> (forall x, In x l1 <-> In x l2) -> length l1 = length l2.
Proof.
  intros H1 H2 H. apply Nat.le_antisymm; apply NoDup_incl_length; auto; intros x Hx; apply H; auto.
Qed.

Lemma NoDup_filter_x {A} (f : A -> bool) l : NoDup l -> NoDup (filter f l).
Proof. apply NoDup_filter. Qed.

Lemma NoDup_map_filter {A B} (g : A -> B) (f : A -> bool) : forall l, NoDup (map g l) -> NoDup (map g (filter f l)).
Proof.
  induction l as [|x l IH]; intros H; simpl in *; auto. inversion H as [|? ? Hx Hl]; subst.
  destruct (f x); simpl; auto. constructor; auto. intros Hin. apply Hx.
  apply in_map_iff in Hin. destruct Hin as [y [Ey Hy]]. apply filter_In in Hy. rewrite <- Ey. apply in_map, Hy.
Qed.

Lemma nth_error_snoc {A} (l : list A) x n : nth_error (l ++ [x]) n =
  if n =? length l then Some x else nth_error l n.
Proof.
  destruct (Nat.eqb_spec n (length l)) as [->|Hn].
  - rewrite nth_error_app2, Nat.sub_diag; auto.
  - destruct (Nat.lt_ge_cases n (length l)) as [H|H].
    + apply nth_error_app1, H.
    + assert (nth_error l n = None) as -> by (apply nth_error_None; lia).
      apply nth_error_None. rewrite app_length. simpl. lia.
Qed.

Lemma set_nth_len {A} : forall i (x : A) l, length (set_nth i x l) = length l.
Proof. induction i; intros x [|y l]; simpl; auto. Qed.
Lemma set_nth_get {A} : forall i (x : A) l j, i < length l ->
  nth_error (set_nth i x l) j = if j =? i then Some x else nth_error l j.
Proof.
  induction i as [|i IH]; intros x [|y l] j Hi; simpl in Hi; try lia.
  - destruct j; auto.
  - destruct j; auto. simpl. apply IH. lia.
Qed.
Lemma nth_error_lt {A} (l : list A) i x : nth_error l i = Some x -> i < length l.
Proof. intros H. apply nth_error_Some. congruence. Qed.
Lemma nth_error_ex {A} (l : list A) i : i < length l -> exists x, nth_error l i = Some x.
Proof. intros H. apply nth_error_Some in H. destruct (nth_error l i); [eauto|congruence]. Qed.
Lemma nth_error_repeat_x {A} (x : A) n i : i < n -> nth_error (repeat x n) i = Some x.
Proof. revert i. induction n as [|n IH]; intros [|i] H; simpl; try lia; auto. apply IH. lia. Qed.
Lemma nth_error_seq s n i : i < n -> nth_error (seq s n) i = Some (s + i).
Proof.
  revert s i. induction n as [|n IH]; intros s [|i] H; simpl; try lia; f_equal; try lia.
  rewrite IH by lia. f_equal. lia.
Qed.
Lemma nth_error_map_inv {A B} (f : A -> B) l i y : nth_error (map f l) i = Some y -> exists x, nth_error l i = Some x /\ y = f x.
Proof.
  rewrite nth_error_map. destruct (nth_error l i) as [x|] eqn:E; simpl; [|discriminate].
  intros H. injection H as <-. eauto.
Qed.

Lemma last_cons {A} : forall (l : list A) x d, last (x :: l) d = last l x.
Proof.
  induction l as [|y l IH]; intros x d; auto. change (last (x :: y :: l) d) with (last (y :: l) d). rewrite !IH. auto.
Qed.

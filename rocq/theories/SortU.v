(** Sorted duplicate-free lists of indices: [list::sort] followed by [list::unique], and the
    order-preserving facts used by several modules.  Not about a particular file. *)
Require Import List Arith Lia Permutation Bool Sorted.
Require Import Verif.Base.
Import ListNotations.

(** std::list<size_t>::sort() (any sort of numbers gives the same list). *)
Definition nsort (l : list nat) : list nat := sort_by Nat.ltb l.

(** std::list<size_t>::unique(): drop every element equal to its predecessor. *)
Fixpoint nuniq (l : list nat) : list nat :=
  match l with
  | [] => []
  | x :: l' => match l' with
               | [] => [x]
               | y :: _ => if x =? y then nuniq l' else x :: nuniq l'
               end
  end.

Definition sort_unique (l : list nat) : list nat := nuniq (nsort l).

Lemma ins_sorted x : forall l, StronglySorted le l -> StronglySorted le (ins Nat.ltb x l).
Proof.
  induction l as [|y l IH]; intros H; simpl; [constructor; constructor|].
  inversion H as [|? ? Hl Hf]; subst. destruct (Nat.ltb_spec x y).
  - constructor; auto. constructor; [lia|]. eapply Forall_impl; [|exact Hf]. simpl; lia.
  - constructor; auto. eapply Forall_perm; [apply Permutation_sym, ins_perm|]. constructor; auto.
Qed.

Lemma nsort_sorted l : StronglySorted le (nsort l).
Proof.
  unfold nsort, sort_by.
  assert (H : forall l acc, StronglySorted le acc -> StronglySorted le (fold_left (fun acc x => ins Nat.ltb x acc) l acc)).
  { clear. induction l; simpl; auto. intros. apply IHl. apply ins_sorted; auto. }
  apply H. constructor.
Qed.

Lemma nuniq_in x : forall l, In x (nuniq l) <-> In x l.
Proof.
  induction l as [|y l IH]; [tauto|]. cbn [nuniq]. destruct l as [|z l']; [tauto|].
  destruct (Nat.eqb_spec y z) as [->|Hyz].
  - rewrite IH. simpl. tauto.
  - change (y = x \/ In x (nuniq (z :: l')) <-> y = x \/ In x (z :: l')). rewrite IH. tauto.
Qed.

Lemma nuniq_sorted : forall l, StronglySorted le l -> StronglySorted lt (nuniq l).
Proof.
  induction l as [|y l IH]; intros H; [constructor|]. inversion H as [|? ? Hl Hf]; subst.
  cbn [nuniq]. destruct l as [|z l']; [constructor; constructor|].
  destruct (Nat.eqb_spec y z) as [->|Hyz]; auto.
  constructor; auto. apply Forall_forall. intros x Hx. apply (proj1 (nuniq_in x (z :: l'))) in Hx.
  inversion Hl as [|? ? _ Hz]; subst. inversion Hf; subst. rewrite Forall_forall in Hz.
  destruct Hx as [<-|Hx]; [lia|]. specialize (Hz x Hx). lia.
Qed.

Lemma sort_unique_sorted l : StronglySorted lt (sort_unique l).
Proof. apply nuniq_sorted, nsort_sorted. Qed.
Lemma sort_unique_in x l : In x (sort_unique l) <-> In x l.
Proof.
  unfold sort_unique. rewrite nuniq_in. split; apply Permutation_in; [|apply Permutation_sym]; apply sort_by_perm.
Qed.

(** A strictly increasing list is determined by its elements. *)
Lemma ssorted_ext : forall l1 l2, StronglySorted lt l1 -> StronglySorted lt l2 ->
  (forall x, In x l1 <-> In x l2) -> l1 = l2.
Proof.
  induction l1 as [|a l1 IH]; intros [|b l2] H1 H2 He; auto.
  - exfalso. apply (He b); simpl; auto.
  - exfalso. apply (He a); simpl; auto.
  - inversion H1 as [|? ? S1 F1]; inversion H2 as [|? ? S2 F2]; subst. rewrite Forall_forall in *.
    assert (a = b).
    { destruct (proj1 (He a) (or_introl eq_refl)) as [?|Ha]; auto.
      destruct (proj2 (He b) (or_introl eq_refl)) as [?|Hb]; auto.
      specialize (F1 _ Hb). specialize (F2 _ Ha). lia. }
    subst b. f_equal. apply IH; auto. intros x. split; intros Hx.
    + destruct (proj1 (He x) (or_intror Hx)) as [<-|]; auto. specialize (F1 _ Hx). lia.
    + destruct (proj2 (He x) (or_intror Hx)) as [<-|]; auto. specialize (F2 _ Hx). lia.
Qed.

Lemma ssorted_NoDup : forall l, StronglySorted lt l -> NoDup l.
Proof.
  induction 1 as [|a l S IH F]; constructor; auto. intros Hin. rewrite Forall_forall in F. specialize (F _ Hin). lia.
Qed.

Lemma seq_ssorted : forall n s, StronglySorted lt (seq s n).
Proof.
  induction n as [|n IH]; intros s; simpl; constructor; auto. apply Forall_forall. intros x Hx. apply in_seq in Hx. lia.
Qed.

Lemma filter_ssorted f : forall l, StronglySorted lt l -> StronglySorted lt (filter f l).
Proof.
  induction 1 as [|a l S IH F]; simpl; [constructor|]. destruct (f a); auto. constructor; auto.
  rewrite Forall_forall in *. intros x Hx. apply filter_In in Hx. apply F; tauto.
Qed.

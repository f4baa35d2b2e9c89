(** General lemmas and tactics on lists, not about the modelled code. *)
Require Import List Arith Lia Permutation Bool ZArith.
Import ListNotations.

(** Solving permutation goals by counting occurrences. *)
Definition count1 {A} (dec : forall x y : A, {x = y} + {x <> y}) (a x : A) : nat :=
  if dec a x then 1 else 0.

Lemma count_cons {A} (dec : forall x y : A, {x = y} + {x <> y}) a l x :
  count_occ dec (a :: l) x = count1 dec a x + count_occ dec l x.
Proof. simpl. unfold count1. destruct (dec a x); reflexivity. Qed.

Lemma count_nil {A} (dec : forall x y : A, {x = y} + {x <> y}) x : count_occ dec [] x = 0.
Proof. reflexivity. Qed.

Ltac perm dec :=
  simpl in *;
  rewrite (Permutation_count_occ dec);
  let x := fresh "x" in intros x;
  repeat match goal with
  | H : Permutation _ _ |- _ =>
      first [ rewrite (Permutation_count_occ dec) in H; specialize (H x) | clear H ]
  end;
  repeat (rewrite ?count_occ_app, ?(count_cons dec), ?(count_nil dec) in * );
  lia.

Lemma Permutation_flat_map {A B} (f : A -> list B) l l' :
  Permutation l l' -> Permutation (flat_map f l) (flat_map f l').
Proof.
  induction 1; simpl; auto.
  - apply Permutation_app_head; auto.
  - rewrite !app_assoc. apply Permutation_app_tail, Permutation_app_comm.
  - eapply Permutation_trans; eauto.
Qed.

Lemma Forall_perm {A} (P : A -> Prop) l l' : Permutation l l' -> Forall P l -> Forall P l'.
Proof.
  intros Hp Hf. rewrite Forall_forall in *. intros x Hx. apply Hf.
  eapply Permutation_in; [apply Permutation_sym; exact Hp | exact Hx].
Qed.

Lemma Forall_flat_map {A B} (f : A -> list B) (P : B -> Prop) l :
  Forall P (flat_map f l) <-> Forall (fun a => Forall P (f a)) l.
Proof.
  rewrite !Forall_forall. split.
  - intros H a Ha. rewrite Forall_forall. intros b Hb. apply H. apply in_flat_map; eauto.
  - intros H b Hb. apply in_flat_map in Hb. destruct Hb as [a [Ha Hb]].
    specialize (H a Ha). rewrite Forall_forall in H. auto.
Qed.

Lemma Forall_firstn_skipn {A} (P : A -> Prop) i l :
  Forall P l -> Forall P (firstn i l) /\ Forall P (skipn i l).
Proof. intros H. rewrite <- (firstn_skipn i l) in H. apply Forall_app in H. auto. Qed.

Lemma filter_perm {A} (f : A -> bool) l : Permutation (filter (fun x => negb (f x)) l ++ filter f l) l.
Proof.
  induction l as [|x l IH]; simpl; auto. destruct (f x); simpl.
  - apply Permutation_sym, Permutation_cons_app, Permutation_sym, IH.
  - constructor; auto.
Qed.

Lemma perm_filter {A} (f : A -> bool) l l' : Permutation l l' -> Permutation (filter f l) (filter f l').
Proof.
  induction 1; simpl; auto.
  - destruct (f x); auto.
  - destruct (f x), (f y); auto. constructor.
  - eapply Permutation_trans; eauto.
Qed.

(** Stable sort: elements are inserted one by one after all those that are not greater, as
    std::multimap does.  [lt] is the strict order. *)
Fixpoint ins {A} (lt : A -> A -> bool) (x : A) (l : list A) : list A :=
  match l with
  | [] => [x]
  | y :: l' => if lt x y then x :: l else y :: ins lt x l'
  end.
Definition sort_by {A} (lt : A -> A -> bool) (l : list A) : list A :=
  fold_left (fun acc x => ins lt x acc) l [].

Lemma ins_perm {A} (lt : A -> A -> bool) x l : Permutation (ins lt x l) (x :: l).
Proof.
  induction l as [|y l IH]; simpl; auto. destruct (lt x y); auto.
  eapply Permutation_trans; [apply perm_skip, IH | apply perm_swap].
Qed.

Lemma sort_by_perm {A} (lt : A -> A -> bool) l : Permutation (sort_by lt l) l.
Proof.
  unfold sort_by.
  assert (H : forall l acc, Permutation (fold_left (fun acc x => ins lt x acc) l acc) (acc ++ l)).
  { clear l. induction l as [|x l IH]; intros acc; simpl; [rewrite app_nil_r; auto|].
    eapply Permutation_trans; [apply IH|].
    eapply Permutation_trans; [apply Permutation_app_tail, ins_perm|].
    simpl. apply Permutation_middle. }
  apply H.
Qed.

(** Index of the first minimum, as std::min_element; 0 for the empty list. *)
Fixpoint min_index_from {A} (lt : A -> A -> bool) (best : A) (ibest i : nat) (l : list A) : nat :=
  match l with
  | [] => ibest
  | x :: l' => if lt x best then min_index_from lt x i (S i) l' else min_index_from lt best ibest (S i) l'
  end.
Definition min_index {A} (lt : A -> A -> bool) (l : list A) : nat :=
  match l with [] => 0 | x :: l' => min_index_from lt x 0 1 l' end.

Lemma min_index_from_bound {A} (lt : A -> A -> bool) : forall l best ibest i,
  ibest < i -> min_index_from lt best ibest i l < i + length l.
Proof.
  induction l as [|x l IH]; intros best ibest i H; simpl; [lia|].
  destruct (lt x best); eapply Nat.lt_le_trans; try apply IH; lia.
Qed.
Lemma min_index_bound {A} (lt : A -> A -> bool) l : l <> [] -> min_index lt l < length l.
Proof.
  destruct l as [|x l]; [congruence|]. intros _. simpl.
  pose proof (min_index_from_bound lt l x 0 1). lia.
Qed.

Lemma nth_error_ext {A} : forall l1 l2 : list A, (forall n, nth_error l1 n = nth_error l2 n) -> l1 = l2.
Proof.
  induction l1 as [|x l1 IH]; intros [|y l2] H; auto.
  - specialize (H 0); discriminate.
  - specialize (H 0); discriminate.
  - pose proof (H 0) as H0. simpl in H0. injection H0 as ->. f_equal. apply IH. intros n. apply (H (S n)).
Qed.

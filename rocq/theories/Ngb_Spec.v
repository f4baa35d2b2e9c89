(** Vocabulary for bonds and neighbour lists, independent of the model's functions.  [linked] is in Particles_Spec. *)
Require Import List Arith Sorted Permutation.
Require Import Verif.Particles_Spec.
Import ListNotations.

(** Neighbour lists as makeNgbList leaves them: sorted, in range. *)
Definition ngb_ok (ngb : list (list nat)) : Prop := forall i l, nth_error ngb i = Some l -> StronglySorted lt l /\ forall j, In j l -> j < length ngb.
Definition symmetric (ngb : list (list nat)) : Prop := forall i j, linked ngb i j -> linked ngb j i.
Definition irreflexive (ngb : list (list nat)) : Prop := forall i, ~ linked ngb i i.
(** A set of bonds is listed in lexicographic order, without repetition. *)
Definition lex (a b : nat * nat) : Prop := fst a < fst b \/ (fst a = fst b /\ snd a < snd b).
Definition bond_set (s : list (nat * nat)) : Prop := StronglySorted lex s /\ Forall (fun b => fst b <= snd b) s.
(** Exactly n things have property P. *)
Definition exactly (n : nat) (P : nat -> Prop) : Prop := exists l, NoDup l /\ length l = n /\ forall x, In x l <-> P x.
Definition common (ngb : list (list nat)) (p q c : nat) : Prop := linked ngb p c /\ linked ngb q c.
(** Every member of S has exactly two neighbours in S. *)
Definition ring (ngb : list (list nat)) (S : nat -> Prop) : Prop := forall x, S x -> exactly 2 (fun y => S y /\ linked ngb x y).
(** The members of l, in this order, are the vertices of a closed ring: linked exactly to the previous and to the next. *)
Definition closed_ring (ngb : list (list nat)) (l : list nat) : Prop :=
  forall i j x y, nth_error l i = Some x -> nth_error l j = Some y ->
    (linked ngb x y <-> j = S i \/ i = S j \/ (i = 0 /\ S j = length l) \/ (j = 0 /\ S i = length l)).

(** Vocabulary for the bond orientational order of particles, independent of the model's functions. *)
Require Import List Arith Sorted.
Require Import Verif.Particles_Spec Verif.Ngb_Spec.
Import ListNotations.

(** The bonds (p,q), p < q, of a neighbour list that satisfy a condition, each once, in lexicographic order. *)
Definition bonds_such (ngb : list (list nat)) (C : nat -> nat -> Prop) (L : list (nat * nat)) : Prop :=
  StronglySorted lex L /\ forall p q, In (p, q) L <-> (p < q /\ linked ngb p q /\ C p q).
(** Bonds of a particle; and with those between two of its neighbours (surface bonds). *)
Definition own (c p q : nat) : Prop := c = p \/ c = q.
Definition own_or_surface (ngb : list (list nat)) (c p q : nat) : Prop := own c p q \/ common ngb p q c.

(** Sum, in order, of values on a list of bonds, starting from [b]. *)
Definition total {B} (add : B -> B -> B) (b : B) (l : list B) : B := fold_left add l b.
(** The other end of a bond of [c]. *)
Definition other_end (c : nat) (b : nat * nat) : nat := if fst b =? c then snd b else fst b.
(** Mean over a list of values added, in order, to [b]; an empty list leaves [b]. *)
Definition mean_from {B} (add : B -> B -> B) (divn : B -> nat -> B) (b : B) (l : list B) : B :=
  if length l =? 0 then b else divn (total add b l) (length l).

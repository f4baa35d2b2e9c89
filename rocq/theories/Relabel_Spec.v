(** The same network of neighbours under another numbering of the particles. *)
Require Import List Arith.
Require Import Verif.Particles_Spec.
Import ListNotations.

(** The particle i of the first list is the particle [s i] of the second one; [u] is the way back. *)
Definition renumbered (s u : nat -> nat) (ngb ngb' : list (list nat)) : Prop :=
  length ngb' = length ngb /\ (forall i, i < length ngb -> s i < length ngb /\ u (s i) = i) /\ (forall i, i < length ngb -> u i < length ngb /\ s (u i) = i) /\
  forall i j, i < length ngb -> j < length ngb -> (linked ngb i j <-> linked ngb' (s i) (s j)).
(** A bond has no direction. *)
Definition joins (b : list (nat * nat)) (p q : nat) : Prop := In (p, q) b \/ In (q, p) b.
(** The same bonds through the renumbering, and as many of them. *)
Definition same_bonds (s : nat -> nat) (n : nat) (b b' : list (nat * nat)) : Prop :=
  length b' = length b /\ forall p q, p < n -> q < n -> (joins b p q <-> joins b' (s p) (s q)).

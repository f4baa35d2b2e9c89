(** Vocabulary for the bond order written by boo. *)
Require Import String.
Require Import ZArith List Arith Sorted.
Require Import Verif.Dec Verif.Ngb_Spec Verif.PBoo_Spec Verif.Export_Model.
Import ListNotations.
Local Open Scope nat_scope.

(** The particles related to [i], each once, in order. *)
Definition neighbours (R : nat -> nat -> Prop) (i : nat) (nb : list nat) : Prop := StronglySorted lt nb /\ forall j, In j nb <-> R i j.
(** The bonds of [i] and the bonds between two of its neighbours, each once, in order. *)
Definition around (R : nat -> nat -> Prop) (i : nat) (M : list (nat * nat)) : Prop :=
  StronglySorted lex M /\ forall p q, In (p, q) M <-> p < q /\ R p q /\ (i = p \/ i = q \/ (R p i /\ R q i)).

Section Values.
  Variables (B : Type) (zero : B) (add : B -> B -> B) (divn : B -> nat -> B) (harm : nat -> nat -> B).
  (** The bond order of a particle: the mean of the harmonics over its neighbours. *)
  Definition order_at (R : nat -> nat -> Prop) (i : nat) (v : B) : Prop := exists nb, neighbours R i nb /\ v = mean_from add divn zero (map (harm i) nb).
  (** The values [q] (bond order), [cg] (coarse grained) and [sf] (with surface bonds) of [n] particles,
      the first and the last for those satisfying [keep], the second for those satisfying [keep2]; null for the others. *)
  Definition orders (R : nat -> nat -> Prop) (n : nat) (keep keep2 : nat -> Prop) (q cg sf : list B) : Prop :=
    length q = n /\ length cg = n /\ length sf = n /\ forall i, i < n ->
      (keep i -> order_at R i (nth i q zero)) /\ (~ keep i -> nth i q zero = zero) /\
      (keep2 i -> exists nb, neighbours R i nb /\ nth i cg zero = divn (total add (nth i q zero) (map (fun j => nth j q zero) nb)) (1 + length nb)) /\ (~ keep2 i -> nth i cg zero = zero) /\
      (keep i -> exists M, around R i M /\ nth i sf zero = mean_from add divn zero (map (fun b => harm (fst b) (snd b)) M)) /\ (~ keep i -> nth i sf zero = zero).
  (** The mean of the bond orders of a particle and of its neighbours. *)
  Definition coarse_at (R : nat -> nat -> Prop) (i : nat) (w : B) : Prop :=
    exists nb v vs, neighbours R i nb /\ order_at R i v /\ Forall2 (order_at R) nb vs /\ w = divn (total add v vs) (1 + length nb).
End Values.

(** Vocabulary of the pairs with a ring of five common neighbours. *)
Require Import List Arith.
Require Import Verif.Ngb_Spec.
Import ListNotations.

Section Spec.
  Variable bonds : list (nat * nat).
  Definition adjacent (x y : nat) : Prop := In (x, y) bonds \/ In (y, x) bonds.
  Definition shared (b : nat * nat) (c : nat) : Prop := adjacent (fst b) c /\ adjacent (snd b) c.
  (** The two ends of the bond have exactly five common neighbours, each bonded to exactly two of the others. *)
  Definition spindle_bond (b : nat * nat) : Prop := exactly 5 (shared b) /\ forall x, shared b x -> exactly 2 (fun y => shared b y /\ adjacent x y).
  (** Seven particles: the ends of the bond, then their common neighbours, each once, in the order of the ring: each is bonded to the next and the last to the
      first, and there is no other bond between the five. *)
  Definition seven_cluster (p q : nat) (r : list nat) : Prop :=
    exists a b c d e, r = [p; q; a; b; c; d; e] /\ NoDup [a; b; c; d; e] /\ (forall x, In x [a; b; c; d; e] <-> shared (p, q) x) /\
      (adjacent a b /\ adjacent b c /\ adjacent c d /\ adjacent d e /\ adjacent e a) /\
      (~ adjacent a c /\ ~ adjacent b d /\ ~ adjacent c e /\ ~ adjacent d a /\ ~ adjacent e b).
End Spec.

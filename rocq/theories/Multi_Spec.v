(** Vocabulary of C99. *)
Require Import ZArith List Bool Arith QArith.
Require Import Verif.Multi_Model.
Import ListNotations.
Local Open Scope Q_scope.

Section Radius.
  Variables (R : Type) (times : R -> R -> R) (pow2 : Q -> R) (n : positive) (unit : R).
  (** the radius of layer s of octave o: unit * 2^((s+1)/n) * 2^(o-1) *)
  Definition radius_of (o : nat) (s : Q) : R := times unit (pow2 ((s + 1) / inject_Z (Zpos n) + (inject_Z (Z.of_nat o) - 1))).
End Radius.
(** a centre [c] of octave [o] (pixels of that octave, layer) and what is reported for it (pixels of the input), of radius [rad] *)
Definition reported {R : Type} (o : nat) (rad : R) (c : centre Q) (d : centre R) : Prop :=
  Forall2 (fun x y => y == x * Qpower 2 (Z.of_nat o - 1)) (xs c) (xs d) /\ shine d = shine c /\ r d = rad.
(** the integer p is the nearest of x *)
Definition rounds_to (x : Q) (p : Z) : Prop := inject_Z p - (1 # 2) <= x /\ x < inject_Z p + (1 # 2).

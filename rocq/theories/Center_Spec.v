(** Vocabulary of C25-C27. *)
Require Import ZArith List Arith Permutation.
Require Import Verif.Center_Model.
Import ListNotations.
Local Open Scope Z_scope.

(** [out] is a greedy selection of [inp]: [conflict] excludes two centres from being selected together. *)
Record selection (conflict : center -> center -> Prop) (inp out : list center) : Prop := {
  sel_input : exists dropped, Permutation inp (out ++ dropped) /\
    (** each dropped centre conflicts with a kept one that is at least as strong *)
    forall p, In p dropped -> exists q, In q out /\ conflict p q /\ intensity q <= intensity p;
  (** no two kept centres conflict *)
  sel_apart : forall i j a b, nth_error out i = Some a -> nth_error out j = Some b -> i <> j -> ~ conflict a b }.

(** The distance is below sqrt(k2): k2 is a squared length. *)
Definition closer (k2 : Z) (a b : center) : Prop := csqdist a b < k2.
(** On every axis the coordinates of [a] and [b] differ by less than tn/td times the sum of the radii. *)
Definition boxes_meet (tn td : Z) (a b : center) : Prop :=
  Forall2 (fun x y => td * Z.abs (x - y) < tn * (radius a + radius b)) (coords a) (coords b).

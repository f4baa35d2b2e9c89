(** Vocabulary for the pair correlation function written by rdf. *)
Require Import String.
Require Import ZArith List Arith.
Require Import Verif.Dec Verif.Export_Model.
Import ListNotations.
Local Open Scope nat_scope.
Local Open Scope list_scope.

(** The words of the file: two names, then the abscissa and the value of each bin. *)
Definition rdf_words {V} (show : V -> text) (abscissa : nat -> V) (g : list V) : list text :=
  map txt ["#r"; "g"]%string ++ flat_map (fun kv => [show (abscissa (fst kv)); show (snd kv)]) (combine (seq 0 (length g)) g).
(** Normalised by [nm] and by the square of the number of the bin; the first bin is discarded. *)
Definition normalised {V} (zero : V) (of_nat : nat -> V) (div : V -> V -> V) (nm : V) (n : nat) (count : nat -> nat) (g : list V) : Prop :=
  length g = n /\ nth_error g 0 = Some (div zero nm) /\ forall k, 0 < k < n -> nth_error g k = Some (div (div (of_nat (count k)) nm) (of_nat (k * k))).

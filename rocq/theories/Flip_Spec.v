(** Vocabulary for the values written by boo_flip. *)
Require Import String.
Require Import ZArith List Arith Sorted Ascii.
Require Import Verif.Dec Verif.PBoo_Spec Verif.Export_Model Verif.Export_Spec Verif.Order_Spec.
Import ListNotations.
Local Open Scope nat_scope.
Local Open Scope list_scope.

(** Two steps of the relation. *)
Definition two_steps (R : nat -> nat -> Prop) (i j : nat) : Prop := i <> j /\ exists k, R i k /\ R k j.
(** Exactly k elements of a list satisfy P. *)
Inductive number {A} (P : A -> Prop) : list A -> nat -> Prop :=
| number_nil : number P [] 0
| number_yes x l k : P x -> number P l k -> number P (x :: l) (S k)
| number_no x l k : ~ P x -> number P l k -> number P (x :: l) k.

Section Flips.
  Variables (B V : Type) (zero : B) (add : B -> B -> B) (divn : B -> nat -> B) (harm : nat -> nat -> B) (null : B -> bool) (turn : nat -> nat -> B -> B) (unset : V) (high : V -> bool) (product : B -> B -> V).
  (** The mean of a value and of those of the mates by [P] turned around the bond; values that are null are left alone and not counted. *)
  Definition flipped_at (P : nat -> nat -> Prop) (q : list B) (i : nat) (v : B) : Prop :=
    exists mates, neighbours (fun i j => P i j /\ null (nth i q zero) = false /\ null (nth j q zero) = false) i mates /\
      v = divn (total add (nth i q zero) (map (fun j => turn (Nat.min i j) (Nat.max i j) (nth j q zero)) mates)) (1 + length mates).
  (** Bond order [q], coarse grained [cg], with the flipped first shell [f1], with the flipped second shell [f2], of [n] particles.
      A particle without neighbours has the null value over zero. *)
  Definition flip_orders (R : nat -> nat -> Prop) (n : nat) (keep keep2 : nat -> Prop) (q cg f1 f2 : list B) : Prop :=
    length q = n /\ length cg = n /\ length f1 = n /\ length f2 = n /\ forall i, i < n ->
      (keep i -> exists nb, neighbours R i nb /\ nth i q zero = divn (total add zero (map (harm i) nb)) (length nb)) /\ (~ keep i -> nth i q zero = zero) /\
      (keep2 i -> exists nb, neighbours R i nb /\ nth i cg zero = divn (total add (nth i q zero) (map (fun j => nth j q zero) nb)) (1 + length nb)) /\ (~ keep2 i -> nth i cg zero = zero) /\
      flipped_at R q i (nth i f1 zero) /\ flipped_at (two_steps R) q i (nth i f2 zero).
  (** A bond with both ends kept and not null. *)
  Definition usable (keep : nat -> Prop) (q : list B) (b : nat * nat) : Prop :=
    keep (fst b) /\ keep (snd b) /\ null (nth (fst b) q zero) = false /\ null (nth (snd b) q zero) = false.
  (** [s], [sr]: for each bond of [bs] the product of the orders of its ends, as they are and with the second turned around the bond, or the mark of no value;
      [nb], [nbr]: for each particle the number of its bonds of high product. *)
  Definition similar (n : nat) (keep : nat -> Prop) (q : list B) (bs : list (nat * nat)) (nb nbr : list nat) (s sr : list V) : Prop :=
    let same b := product (nth (fst b) q zero) (nth (snd b) q zero) in
    let turned b := product (nth (fst b) q zero) (turn (fst b) (snd b) (nth (snd b) q zero)) in
    Forall2 (fun b v => (usable keep q b /\ v = same b) \/ (~ usable keep q b /\ v = unset)) bs s /\
    Forall2 (fun b v => (usable keep q b /\ v = turned b) \/ (~ usable keep q b /\ v = unset)) bs sr /\
    length nb = n /\ length nbr = n /\ forall p, p < n ->
      number (fun b => (fst b = p \/ snd b = p) /\ usable keep q b /\ high (same b) = true) bs (nth p nb 0) /\
      number (fun b => (fst b = p \/ snd b = p) /\ usable keep q b /\ high (turned b) = true) bs (nth p nbr 0).
End Flips.

(** The words of a field of a vtk file, and those of the file of similarities. *)
Definition field_words (name : string) (values : list text) : list text := map txt ["SCALARS"; name; "double"; "LOOKUP_TABLE"; "default"]%string ++ values.
Section Words.
  Variables (V : Type) (show : V -> text).
  Definition sim_words (ps : list (V * V * V)) (bonds : list (nat * nat)) (raw : list text) (nbr : list nat) (q6 w6 cq6 cw6 s sr : list V) : list text :=
    map txt ["#"; "vtk"; "DataFile"; "Version"; "3.0"; "similarities"; "ASCII"; "DATASET"; "POLYDATA"; "POINTS"]%string ++ [print_nat (length ps); txt "double"] ++ map show (flat_map triple ps) ++
    [txt "LINES"; print_nat (length bonds); print_nat (length bonds * 3)] ++ flat_map (fun b => [txt "2"; print_nat (fst b); print_nat (snd b)]) bonds ++
    [txt "POINT_DATA"; print_nat (length ps)] ++ field_words "nb_bonds_raw" raw ++ field_words "nb_bonds_ref" (map print_nat nbr) ++
    field_words "q6" (map show q6) ++ field_words "w6" (map show w6) ++ field_words "Q6" (map show cq6) ++ field_words "W6" (map show cw6) ++
    [txt "CELL_DATA"; print_nat (length bonds)] ++ field_words "sim6_raw" (map show s) ++ field_words "sim6_ref" (map show sr).
End Words.

(** Vocabulary for the bond order written by linkboo. *)
Require Import String.
Require Import ZArith List Arith NArith Ascii Sorted.
Require Import Verif.Base Verif.Dec Verif.Particles_Model Verif.Particles_Props Verif.Export_Spec Verif.PBoo_Spec Verif.Order_Spec Verif.Rerun_Props Verif.Perco_Spec.
Import ListNotations.
Local Open Scope nat_scope.

(** A file of numbers, separated by white space. *)
Definition lists_numbers (file : option text) (ids : list nat) : Prop :=
  exists l, file = Some l /\ words l = map print_nat ids /\ Forall (fun i => (N.of_nat i < two64)%N) ids.

Section Values.
  Variables (B : Type) (zero : B) (add : B -> B -> B) (divn : B -> nat -> B) (harm : nat -> nat -> B).
  (** The bond order [q] of [n] particles for those satisfying [keep], the mean [cg] of the values of [q] of a particle and of its neighbours for those satisfying [keep2]; null for the others. *)
  Definition two_orders (R : nat -> nat -> Prop) (n : nat) (keep keep2 : nat -> Prop) (q cg : list B) : Prop :=
    length q = n /\ length cg = n /\ forall i, i < n ->
      (keep i -> order_at B zero add divn harm R i (nth i q zero)) /\ (~ keep i -> nth i q zero = zero) /\
      (keep2 i -> exists nb, neighbours R i nb /\ nth i cg zero = divn (total add (nth i q zero) (map (fun j => nth j q zero) nb)) (1 + length nb)) /\ (~ keep2 i -> nth i cg zero = zero).
End Values.

(** 15 diameters are cut into 200 bins and the first minimum is at bin [m]: the bond length is 15 m / 200 diameters, a diameter being twice [one], all rounded down. *)
Definition bond_length (one m : Z) : Z := (15 * m * (2 * one) / 200)%Z.
(** The half of that. *)
Definition half_length (one m : Z) : Z := (15 * m * one / 200)%Z.
(** Particle number [i] is at least the margin away from all faces. *)
Definition deep_at (l : list (list Z)) (m : Z) (i : nat) : Prop := exists p, nth_error l i = Some p /\ deep l m p.
(** A point out of the smallest box that holds the positions. *)
Definition beyond (l : list (list Z)) (q : list Z) : Prop := exists k lo hi, k < 3 /\ extent l k lo hi /\ (coord k q < lo \/ hi < coord k q)%Z.

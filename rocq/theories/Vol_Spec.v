(** Vocabulary of C100 to C102. *)
Require Import ZArith List Bool Arith QArith.
Import ListNotations.
Local Open Scope Z_scope.

(** voxel (k, j, i) is in a volume *)
Definition in_volume (planes rows cols : Z) (v : Z * Z * Z) : Prop := let '(k, j, i) := v in 0 <= k < planes /\ 0 <= j < rows /\ 0 <= i < cols.
(** square distance of a voxel to a point *)
Definition distance2 (k j i : nat) (z y x : Q) : Q :=
  let d a b := (inject_Z (Z.of_nat a) - b)%Q in (d i x * d i x + d j y * d j y + d k z * d k z)%Q.
(** sum of f over 0 .. n-1 *)
Fixpoint total (n : nat) (f : nat -> Z) : Z := match n with O => 0 | S m => total m f + f m end.
(** sum of the block of factor^3 voxels *)
Definition block_total (large : nat -> nat -> nat -> Z) (factor k j i : nat) : Z :=
  total factor (fun mk => total factor (fun mj => total factor (fun m => large (factor * k + mk) (factor * j + mj) (factor * i + m))))%nat.

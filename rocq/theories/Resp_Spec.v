(** What the response at an intermediate scale means. *)
Require Import ZArith List Bool Arith.
Import ListNotations.
Local Open Scope nat_scope.

(** f 0 + ... + f (n-1) *)
Definition sum_to (n : nat) (f : nat -> Z) : Z := fold_right Z.add 0%Z (map f (seq 0 n)).
(** The pixel in row j and column i; null outside of the image. *)
Definition pixel2 (rows cols : nat) (data : list Z) (j i : Z) : Z :=
  if (0 <=? j)%Z && (j <? Z.of_nat rows)%Z && (0 <=? i)%Z && (i <? Z.of_nat cols)%Z then nth (Z.to_nat j * cols + Z.to_nat i) data 0%Z else 0%Z.
Definition pixel3 (planes rows cols : nat) (data : list Z) (k j i : Z) : Z :=
  if (0 <=? k)%Z && (k <? Z.of_nat planes)%Z && (0 <=? j)%Z && (j <? Z.of_nat rows)%Z && (0 <=? i)%Z && (i <? Z.of_nat cols)%Z then nth ((Z.to_nat k * rows + Z.to_nat j) * cols + Z.to_nat i) data 0%Z else 0%Z.
(** The position shown by element t of a kernel of m elements centred at c. *)
Definition under (m c t : nat) : Z := (Z.of_nat c + Z.of_nat (m / 2) - Z.of_nat t)%Z.
(** The value of the blurred image at one pixel. *)
Definition blurred2 (image : Z -> Z -> Z) (ker : list Z) (cx cy : nat) : Z :=
  let m := length ker in let w t := nth t ker 0%Z in
  sum_to m (fun y => sum_to m (fun x => w y * w x * image (under m cy y) (under m cx x)))%Z.
Definition blurred3 (image : Z -> Z -> Z -> Z) (ker : list Z) (cx cy cz : nat) : Z :=
  let m := length ker in let w t := nth t ker 0%Z in
  sum_to m (fun z => sum_to m (fun y => sum_to m (fun x => w z * w y * w x * image (under m cz z) (under m cy y) (under m cx x))))%Z.
(** Reflection of the positions around the first and the last of n pixels. *)
Inductive mirrored (n : nat) : Z -> nat -> Prop :=
  | Mirror_in p : p < n -> mirrored n (Z.of_nat p) p
  | Mirror_first x p : mirrored n x p -> mirrored n (- x) p
  | Mirror_last x p : mirrored n x p -> mirrored n (2 * (Z.of_nat n - 1) - x) p.

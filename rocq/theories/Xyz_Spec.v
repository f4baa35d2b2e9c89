(** Vocabulary of the tracking of an image: which pixels give particles, and what images have in common (does not use the model). *)
Require Import List Bool Arith ZArith QArith.
Require Import Verif.Tracker_Spec Verif.Peaks_Spec Verif.Newton_Spec.
Import ListNotations.
Local Open Scope nat_scope.
Definition pixel : Type := (nat * nat * nat)%type.
Section Spec.
  Variables (n0 n1 n2 : nat).
  Definition in_image (t : pixel) : Prop := let '(i, j, k) := t in i < n0 /\ j < n1 /\ k < n2.
  (** The value of a pixel in the block of memory, whose lines are padded *)
  Definition value (block : list Z) (t : pixel) : Z := let '(i, j, k) := t in match padded_pixel n1 n2 block i j k with Some x => x | None => 0%Z end.
  Definition block_of_image (block : list Z) : Prop := length block = n0 * n1 * (2 * (n2 / 2 + 1)).
  Definition pixels_Q (F : pixel -> Z) (i j k : nat) : Q := inject_Z (F (i, j, k)).
  Definition adjacent_pixels (t u : pixel) : Prop := let '(i, j, k) := t in let '(a, b, c) := u in adjacent n0 n1 n2 i j k a b c.
  Definition inner (t : pixel) : Prop := in_image t /\ let '(i, j, k) := t in interior n0 n1 n2 i j k.
  (** The threshold is per pixel of the image. *)
  Definition bright_enough (F : pixel -> Z) (threshold : Z) (t : pixel) : Prop := (threshold * Z.of_nat (n0 * n1 * n2) <= F t)%Z.
  Definition summit (F : pixel -> Z) (t : pixel) : Prop := forall u, adjacent_pixels t u -> (F u <= F t)%Z.
  Definition strict_summit (F : pixel -> Z) (t : pixel) : Prop := forall u, adjacent_pixels t u -> (F u < F t)%Z.
  Definition top_pixel (F : pixel -> Z) (t : pixel) : Prop := let '(i, j, k) := t in top n0 n1 n2 (pixels_Q F) i j k.
  (** A map of centres as the program leaves it (or blank) *)
  Definition clean_map (m : list bool) : Prop := length m = n0 * n1 * n2 /\ forall i j k, marked n0 n1 n2 m i j k -> interior n0 n1 n2 i j k.
  (** No dimension between 5 and 12 pixels *)
  Definition usual (n : nat) : Prop := 0 < n /\ ~ 5 <= n <= 12.
  Definition usual_size : Prop := usual n0 /\ usual n1 /\ usual n2.
  (** What is expected of the filter (C150): it keeps the size, *)
  Definition keeps_size (band : list Z -> list Z) : Prop := forall block, block_of_image block -> block_of_image (band block).
  (** is linear and forgets the background, *)
  Definition linear_without_mean (band : list Z -> list Z) : Prop := forall b1 b2 p q b, block_of_image b1 -> block_of_image b2 ->
    (forall t, in_image t -> (q * value b2 t = p * value b1 t + b)%Z) -> forall t, in_image t -> (q * value (band b2) t = p * value (band b1) t)%Z.
  (** and moves with the image, with periodic boundaries. *)
  Definition shifted (a t : pixel) : pixel := let '(x, y, z) := a in let '(i, j, k) := t in ((i + x) mod n0, (j + y) mod n1, (k + z) mod n2).
  Definition moves_along (band : list Z -> list Z) : Prop := forall a b1 b2, block_of_image b1 -> block_of_image b2 ->
    (forall t, in_image t -> value b2 t = value b1 (shifted a t)) -> forall t, in_image t -> value (band b2) t = value (band b1) (shifted a t).
End Spec.
(** Coordinates that differ by a whole number of pixels *)
Definition away_by (d : Z) (a b : num) : Prop := match a, b with Num p, Num q => (q == p + inject_Z d)%Q | Inf x, Inf y => x = y | NaN, NaN => True | _, _ => False end.
Definition displaced (t u : pixel) (v w : list num) : Prop :=
  let '(i, j, k) := t in let '(a, b, c) := u in
  exists x y z x' y' z', v = [x; y; z] /\ w = [x'; y'; z'] /\ away_by (Z.of_nat a - Z.of_nat i) x x' /\ away_by (Z.of_nat b - Z.of_nat j) y y' /\ away_by (Z.of_nat c - Z.of_nat k) z z'.

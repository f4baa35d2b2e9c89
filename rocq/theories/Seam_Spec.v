(** Vocabulary of C98. *)
Require Import ZArith List Bool Arith.
Require Import Verif.Seam_Model.
Import ListNotations.

(** pixel d of an image [s] times smaller is the nearest to pixel c: d - 1/2 <= c/s < d + 1/2 *)
Definition nearest (s c d : nat) : Prop := 2 * s * d <= 2 * c + s < 2 * s * (d + 1).
Definition same_place (s : nat) (h l : nat * nat * nat) : Prop :=
  let '(i, j, _) := h in let '(i2, j2, _) := l in nearest s i i2 /\ nearest s j j2.
(** the pixels of the high resolution closer than one pixel of the low resolution *)
Definition about (s : nat) (h l : nat * nat * nat) : Prop :=
  let '(i, j, _) := h in let '(i2, j2, _) := l in ((i2 - 1) * s <= i < (i2 + 1) * s) /\ ((j2 - 1) * s <= j < (j2 + 1) * s).
Definition layer_of (c : nat * nat * nat) : nat := snd c.
Definition at_center (f : finder) (c : nat * nat * nat) : Z := let '(i, j, k) := c in value f k j i.
(** the binary image of layer k shows exactly the centres of that layer, which are pixels of the image *)
Definition shows (f : finder) (k : nat) : Prop :=
  (forall i j, flag f k j i = true <-> In (i, j, k) (cs f)) /\ forall i j, In (i, j, k) (cs f) -> i < cols f /\ j < rows f.
(** same sizes and images *)
Definition same_images (f g : finder) : Prop := nl f = nl g /\ rows f = rows g /\ cols f = cols g /\ value f = value g.

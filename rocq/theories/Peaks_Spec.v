(** What the pixel centres of an image should be (does not use the model). *)
Require Import List Arith ZArith Lia.
Require Import Verif.Tracker_Spec.
Import ListNotations.

(** The n0 x n1 x n2 image [img] is stored contiguously at the beginning of [data]. *)
Definition is_image {V} (n0 n1 n2 : nat) (data : list V) (img : nat -> nat -> nat -> V) : Prop :=
  forall i j k, i < n0 -> j < n1 -> k < n2 -> flat_pixel n1 n2 data i j k = Some (img i j k).
(** Pixel (i,j,k) is marked in a map of the image. *)
Definition marked (n0 n1 n2 : nat) (m : list bool) (i j k : nat) : Prop := i < n0 /\ j < n1 /\ k < n2 /\ flat_pixel n1 n2 m i j k = Some true.
(** Dimensions of fewer than 13 pixels are considered flat. *)
Definition large (n : nat) : Prop := 13 <= n.
(** At least 6 pixels from both borders in the large dimensions. *)
Definition away (n x : nat) : Prop := large n -> 6 <= x /\ x + 6 < n.
Definition interior (n0 n1 n2 i j k : nat) : Prop := away n0 i /\ away n1 j /\ away n2 k.
(** Next pixel in one of the large dimensions. *)
Inductive next (n0 n1 n2 : nat) : nat -> nat -> nat -> nat -> nat -> nat -> Prop :=
| next0 i j k : large n0 -> next n0 n1 n2 i j k (S i) j k
| next1 i j k : large n1 -> next n0 n1 n2 i j k i (S j) k
| next2 i j k : large n2 -> next n0 n1 n2 i j k i j (S k).
Definition adjacent (n0 n1 n2 i j k i' j' k' : nat) : Prop := next n0 n1 n2 i j k i' j' k' \/ next n0 n1 n2 i' j' k' i j k.
(** The 5-pixel-wide window around a pixel is inside the image, in the dimensions where there is such a window. *)
Definition window_inside (n x : nat) : Prop := 5 <= n -> 2 <= x /\ x + 2 < n.

(** What padded images and Fourier masks should be (does not use the model). *)
Require Import List Arith.
Import ListNotations.

(** Pixel (i,j,k) in a sequence of n0*n1*n2 pixels, last dimension fastest. *)
Definition flat_pixel {V} (n1 n2 : nat) (l : list V) (i j k : nat) : option V := nth_error l ((i * n1 + j) * n2 + k).
(** Pixel (i,j,k) in a block of memory whose lines are padded to 2*(n2/2+1) values, as the Fourier transform in place needs. *)
Definition padded_pixel {V} (n1 n2 : nat) (l : list V) (i j k : nat) : option V := nth_error l ((i * n1 + j) * (2 * (n2 / 2 + 1)) + k).
(** Frequency -i in a periodic dimension of n frequencies. *)
Definition opposite (n i : nat) : nat := (n - i) mod n.
(** The mask of a real filter does not depend on the sign of the frequencies. *)
Definition symmetric {B} (n0 n1 h2 : nat) (m : nat -> nat -> nat -> B) : Prop :=
  forall i j k, i < n0 -> j < n1 -> k < h2 -> m (opposite n0 i) j k = m i j k /\ m i (opposite n1 j) k = m i j k.
(** Absolute value of the frequency of row i among n. *)
Definition freq (n i : nat) : nat := Nat.min i (n - i).

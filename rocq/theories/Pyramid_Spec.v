(** Vocabulary for the pyramid of octaves: what the up- and downscaled images should hold. *)
Require Import List Arith.
Local Open Scope nat_scope.

(** Pixel (r, c) of a flat image of W columns; pixel (p, r, c) of a flat volume of planes of H lines of W. *)
Definition at2 {A} (m : list A) (W r c : nat) : option A := nth_error m (r * W + c).
Definition at3 {A} (m : list A) (H W p r c : nat) : option A := nth_error m ((p * H + r) * W + c).

(** [interp half zero n f x]: x-th value, among 2n, of the linear interpolation of f(0), ..., f(n-1): f at even places, the mean of the two
    neighbours at odd places, zero at the last one. *)
Definition interp {A} (half : A -> A -> A) (zero : A) (n : nat) (f : nat -> A) (x : nat) : A :=
  if Nat.even x then f (x / 2) else if x + 1 <? 2 * n then half (f (x / 2)) (f (x / 2 + 1)) else zero.
(** What the 3D code does along lines instead. *)
Definition stuffed {A} (zero : A) (f : nat -> A) (x : nat) : A := if Nat.even x then f (x / 2) else zero.

(** Vocabulary for local minima of the scale space: a pixel is (scale, row, column), (scale, column) or (scale, plane, row, column). *)
Require Import ZArith List Bool Arith.
Import ListNotations.
Local Open Scope nat_scope.

Definition near (a b : nat) : Prop := a <= b + 1 /\ b <= a + 1.
Definition adjacent2 (c d : nat * nat * nat) : Prop := let '(k, j, i) := c in let '(k', j', i') := d in c <> d /\ near k k' /\ near j j' /\ near i i'.
Definition adjacent1 (c d : nat * nat) : Prop := let '(k, i) := c in let '(k', i') := d in c <> d /\ near k k' /\ near i i'.
Definition adjacent3 (c d : nat * nat * nat * nat) : Prop :=
  let '(l, k, j, i) := c in let '(l', k', j', i') := d in c <> d /\ near l l' /\ near k k' /\ near j j' /\ near i i'.
(** Blocks of scales: 1 and 2, 3 and 4, ... *)
Definition base (k : nat) : nat := 2 * ((k - 1) / 2) + 1.
(** Negative, not too small to be told from zero, not above its neighbours; strictly below its neighbours. *)
Definition minimum {C} (adjacent : C -> C -> Prop) (value : C -> Z) (tiny : Z -> bool) (c : C) : Prop :=
  (value c < 0)%Z /\ tiny (value c) = false /\ forall d, adjacent c d -> (value c <= value d)%Z.
Definition strict_minimum {C} (adjacent : C -> C -> Prop) (value : C -> Z) (tiny : Z -> bool) (c : C) : Prop :=
  (value c < 0)%Z /\ tiny (value c) = false /\ forall d, adjacent c d -> (value c < value d)%Z.
(** At least s pixels from both ends of n pixels. *)
Definition inside (s x n : nat) : Prop := s <= x /\ x + s < n.
(** The scan goes by pairs (s, s+1), (s+2, s+3), ...; pairs are visited while their first pixel is more than e pixels from the end. *)
Definition pair_start (s x : nat) : nat := s + 2 * ((x - s) / 2).
Definition scanned (s e x n : nat) : Prop := s <= x /\ pair_start s x + e < n.
(** Values read around a pixel. *)
Definition value2 (px : nat -> nat -> nat -> Z) (c : nat * nat * nat) : Z := let '(k, j, i) := c in px k j i.
Definition value1 (px : nat -> nat -> Z) (c : nat * nat) : Z := let '(k, i) := c in px k i.
(** Difference of Gaussians: [g l p j i] pixel (p, j, i) of the image blurred at scale l. *)
Definition value3 (dog : Z -> Z -> Z) (g : nat -> nat -> nat -> nat -> Z) (c : nat * nat * nat * nat) : Z := let '(l, p, j, i) := c in dog (g (l + 1) p j i) (g l p j i).
(** The square of 9 pixels around (j, i). *)
Definition square (f : nat -> nat -> Z) (j i : nat) : list Z :=
  [f (j - 1) (i - 1); f (j - 1) i; f (j - 1) (i + 1); f j (i - 1); f j i; f j (i + 1); f (j + 1) (i - 1); f (j + 1) i; f (j + 1) (i + 1)].
(** The 7 values f(x-3), ..., f(x+3). *)
Definition seven (f : nat -> Z) (x : nat) : list Z := [f (x - 3); f (x - 2); f (x - 1); f x; f (x + 1); f (x + 2); f (x + 3)].

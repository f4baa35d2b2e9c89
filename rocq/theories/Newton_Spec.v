(** What positions better than the pixel should be (does not use the model). *)
Require Import List Arith ZArith QArith Qround.
Import ListNotations.
Local Open Scope nat_scope.

(** A double: a number, an infinity of either sign, or NaN *)
Inductive num := Num (q : Q) | Inf (negative : bool) | NaN.

(** [y] is in the window around [x] in a dimension of [n] pixels: two pixels on each side, everything in dimensions of fewer than five. *)
Definition in_window (n x y : nat) : Prop := y < n /\ (5 <= n -> x <= y + 2 /\ y <= x + 2).
(** No pixel of the window is negative, none is brighter than the pixel. *)
Definition top (n0 n1 n2 : nat) (img : nat -> nat -> nat -> Q) (i j k : nat) : Prop :=
  forall a b c, in_window n0 i a -> in_window n1 j b -> in_window n2 k c -> (0 <= img a b c <= img i j k)%Q.
(** The pixel [m] further than [x] *)
Definition further (x : nat) (m : Z) : nat := Z.to_nat (Z.of_nat x + m).
(** The polynomial of degree four with these coefficients *)
Definition quartic (a0 a1 a2 a3 a4 x : Q) : Q := (a0 + a1 * x + a2 * (x * x) + a3 * (x * x * x) + a4 * (x * x * x * x))%Q.
Definition through (f : Z -> Q) (a0 a1 a2 a3 a4 : Q) : Prop := forall m, (-2 <= m <= 2)%Z -> (f m == quartic a0 a1 a2 a3 a4 (inject_Z m))%Q.
(** The step, from the middle of five pixels of values [f], of Newton's method for the extremum of the polynomial through them: minus the slope over the curvature *)
Definition newton_step (f : Z -> Q) (s : Q) : Prop := forall a0 a1 a2 a3 a4, through f a0 a1 a2 a3 a4 -> ~ (a2 == 0)%Q /\ (s == - a1 / (2 * a2))%Q.
Definition no_curvature (f : Z -> Q) : Prop := forall a0 a1 a2 a3 a4, through f a0 a1 a2 a3 a4 -> (a2 == 0)%Q.
(** The quotient of minus the slope by +0: an infinity in the direction where the brightness decreases, NaN if there is none *)
Definition without_curvature (f : Z -> Q) (r : num) : Prop := forall a0 a1 a2 a3 a4, through f a0 a1 a2 a3 a4 -> ((a1 == 0)%Q -> r = NaN) /\ ((0 < a1)%Q -> r = Inf true) /\ ((a1 < 0)%Q -> r = Inf false).

(** A coordinate found from pixel [x] of a dimension of [n] pixels, where the pixels around have the values [f] *)
Definition refined (n x : nat) (f : Z -> Q) (r : num) : Prop :=
  (n < 5 /\ exists q, r = Num q /\ (q == inject_Z (Z.of_nat x))%Q) \/
  (5 <= n /\ exists q s, r = Num q /\ newton_step f s /\ (q == inject_Z (Z.of_nat x) + s)%Q) \/
  (5 <= n /\ no_curvature f /\ (forall q, r <> Num q) /\ without_curvature f r).
(** The three coordinates found from pixel (i, j, k) *)
Definition position (n0 n1 n2 : nat) (img : nat -> nat -> nat -> Q) (t : nat * nat * nat) (v : list num) : Prop :=
  let '(i, j, k) := t in exists r0 r1 r2, v = [r0; r1; r2] /\
    refined n0 i (fun m => img (further i m) j k) r0 /\ refined n1 j (fun m => img i (further j m) k) r1 /\ refined n2 k (fun m => img i j (further k m)) r2.
(** The same double *)
Definition same (a b : num) : Prop := match a, b with Num p, Num q => (p == q)%Q | Inf x, Inf y => x = y | NaN, NaN => True | _, _ => False end.
(** A coordinate before the first pixel *)
Definition before (c : num) : Prop := match c with Num q => (q < 0)%Q | Inf b => b = true | NaN => False end.

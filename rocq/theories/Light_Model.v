(** Model of the tests that eliminate edges, multiscale/src/octavefinder.cpp, on exact numbers (pixels are fixed point numbers). *)
Require Import ZArith List Bool Arith.
Require Import Verif.Base Verif.Fill_Model.
Import ListNotations.
Local Open Scope Z_scope.

(** octavefinder.cpp:381, 1+x^2 > 1 is x <> 0 on exact numbers *)
Definition null_value (v : Z) : bool := v =? 0.
(** a/b > p/q of floating point numbers for q > 0: b = 0 gives infinities or not-a-number; [up]: the zero is positive *)
Definition ratio_above (a b p q : Z) (up : bool) : bool :=
  if b =? 0 then (if a =? 0 then false else Bool.eqb up (0 <? a)) else if 0 <? b then p * b <? a * q else a * q <? p * b.
(** octavefinder.cpp:396-408 (and 1099-1118): the nine values around the pixel, row after row; max_ratio is p/q.  4*h0*h1 is a negative zero when one is negative
    and the other null. *)
Definition keeps_shape (p q : Z) (l : list Z) : bool :=
  match l with
  | [v0; v1; v2; v3; v4; v5; v6; v7; v8] =>
      let h0 := v1 - 2 * v4 + v7 in let h1 := v3 - 2 * v4 + v5 in let h2 := v0 + v8 - v6 - v2 in
      let det := h0 * h1 - h2 * h2 in
      negb ((det <? 0) && negb (null_value det) || ratio_above ((h0 + h1) * (h0 + h1)) (4 * h0 * h1) p q ((0 <=? h0) && (0 <=? h1)))
  | _ => false
  end.
(** octavefinder.cpp:466-470: the three values around the pixel in the Gaussian layer; |a/b| > 0.5 *)
Definition keeps_slope (l : list Z) : bool :=
  match l with
  | [u; v; w] => let a := w + u - 2 * v in let b := w - u in if b =? 0 then negb (a =? 0) else Z.abs b <? 2 * Z.abs a
  | _ => false
  end.
(** octavefinder.hpp:61: a pixel of a layer, as the search reads it *)
Definition pixel_of (cols : nat) (layers : list (img Z)) (k j i : nat) : Z := match nth_error layers k with Some im => nth (j * cols + i) (pix im) 0 | None => 0 end.

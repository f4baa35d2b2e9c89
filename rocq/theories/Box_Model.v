(** Model of lib/RStarTree/RStarBoundingBox.h (multiscale/RStarTree/RStarBoundingBox.h is identical).

    A coordinate is an integer number of a common unit (see DESIGN.md, "Numbers"): every finite double is
    an integral multiple of 2^-1074.  Comparisons, min and max are then exact; sums, differences and
    products ignore rounding and overflow. *)
Require Import ZArith List Bool.
Import ListNotations.
Local Open Scope Z_scope.

(** RStarBoundingBox.h:40 [std::pair<grain, grain> edges[dimensions]]: one (first, second) pair per axis.
    Simplification: the template parameter [dimensions] is the length of the list. *)
Definition edge : Type := (Z * Z)%type.
Definition box : Type := list edge.

(** std::numeric_limits<double>::max() and ::min() (the smallest positive normal number) in units of
    2^-1074; used by RStarBoundingBox.h:47-48. *)
Definition dbl_max : Z := (2 ^ 53 - 1) * 2 ^ 2045.
Definition dbl_min : Z := 2 ^ 52.

(** RStarBoundingBox.h:43-50 [reset]: first = max(), second = min() on every axis. *)
Definition reset_box (d : nat) : box := repeat (dbl_max, dbl_min) d.

(** RStarBoundingBox.h:66-80, one axis of [stretch]: new edge and whether it changed. *)
Definition stretch_edge (e f : edge) : edge * bool :=
  let '(e1, e2) := e in
  let '(f1, f2) := f in
  let '(r1, c1) := if f1 <? e1 then (f1, true) else (e1, false) in
  let '(r2, c2) := if e2 <? f2 then (f2, true) else (e2, false) in
  ((r1, r2), c1 || c2).

(** RStarBoundingBox.h:62-83 [stretch]: the stretched box and the returned flag. *)
Fixpoint stretch_flag (a b : box) : box * bool :=
  match a, b with
  | e :: a', f :: b' =>
      let '(r, c) := stretch_edge e f in
      let '(rs, cs) := stretch_flag a' b' in
      (r :: rs, c || cs)
  | _, _ => (a, false)
  end.

Definition stretch (a b : box) : box := fst (stretch_flag a b).

(** RStarBoundingBox.h:86-93 [edgeDeltas]. *)
Definition edge_deltas (a : box) : Z := fold_left (fun s e => s + (snd e - fst e)) a 0.

(** RStarBoundingBox.h:96-103 [area]. *)
Definition area (a : box) : Z := fold_left (fun s e => s * (snd e - fst e)) a 1.

(** RStarBoundingBox.h:106-114 [encloses]: this = [a], argument = [b]. *)
Fixpoint encloses (a b : box) : bool :=
  match a, b with
  | e :: a', f :: b' =>
      if (fst f <? fst e) || (snd e <? snd f) then false else encloses a' b'
  | _, _ => true
  end.

(** RStarBoundingBox.h:117-128 [overlaps]. *)
Fixpoint overlaps (a b : box) : bool :=
  match a, b with
  | e :: a', f :: b' =>
      if negb (fst e <? snd f) || negb (fst f <? snd e) then false else overlaps a' b'
  | _, _ => true
  end.

(** RStarBoundingBox.h:137-170, one axis of [overlap]: [None] is the [return 0.0] of line 170, [Some w]
    the factor that multiplies [area]. *)
Definition overlap_axis (e f : edge) : option Z :=
  let '(x1, x2) := e in
  let '(y1, y2) := f in
  if x1 <? y1 then
    if y1 <? x2 then
      if y2 <? x2 then Some (y2 - y1) else Some (x2 - y1)
    else None
  else if x1 <? y2 then
    if x2 <? y2 then Some (x2 - x1) else Some (y2 - x1)
  else None.

(** RStarBoundingBox.h:131-174 [overlap]; the accumulator is [area], the loop stops when it is 0. *)
Fixpoint overlap_loop (acc : Z) (a b : box) : Z :=
  match a, b with
  | e :: a', f :: b' =>
      if acc =? 0 then acc else
      match overlap_axis e f with
      | Some w => overlap_loop (acc * w) a' b'
      | None => 0
      end
  | _, _ => acc
  end.
Definition overlap (a b : box) : Z := overlap_loop 1 a b.

(** RStarBoundingBox.h:177-189 [distanceFromCenter] (four times the C++ value: t is twice the C++ t). *)
Fixpoint distance_from_center (a b : box) : Z :=
  match a, b with
  | e :: a', f :: b' =>
      let t := fst e + snd e + fst f + snd f in t * t + distance_from_center a' b'
  | _, _ => 0
  end.

(** RStarBoundingBox.h:192-199 [operator==]. *)
Fixpoint box_eqb (a b : box) : bool :=
  match a, b with
  | e :: a', f :: b' =>
      if negb (fst e =? fst f) || negb (snd e =? snd f) then false else box_eqb a' b'
  | _, _ => true
  end.

(** RStarBoundingBox.h:202-210 [operator&=]: max of the lower and min of the upper edges. *)
Fixpoint inter (a b : box) : box :=
  match a, b with
  | e :: a', f :: b' => (Z.max (fst f) (fst e), Z.min (snd f) (snd e)) :: inter a' b'
  | _, _ => a
  end.

(** RStarBoundingBox.h:213-216 [operator&&]: [bb &= *this]. *)
Definition inter_op (a b : box) : box := inter b a.

(** RStarBoundingBox.h:236-244 [operator+=]. *)
Fixpoint translate (a : box) (v : list Z) : box :=
  match a, v with
  | e :: a', x :: v' => (fst e + x, snd e + x) :: translate a' v'
  | _, _ => a
  end.

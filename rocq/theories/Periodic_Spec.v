(** Vocabulary for periodic boundary conditions: the box is one cell of an infinite crystal. *)
Require Import ZArith List.
Import ListNotations.
Local Open Scope Z_scope.

Notation interval := (Z * Z)%type.
Definition width (e : interval) : Z := snd e - fst e.
Definition within (e : interval) (x : Z) : Prop := fst e <= x <= snd e.
Definition inside (e : interval) (x : Z) : Prop := fst e < x < snd e.
(** A periodic cell: three intervals of positive width. *)
Definition cell (b : list interval) : Prop := exists ex ey ez, b = [ex; ey; ez] /\ 0 < width ex /\ 0 < width ey /\ 0 < width ez.
(** The periodic images of a point: it is repeated every width of the cell, in each direction. *)
Definition image (b : list interval) (p q : list Z) : Prop :=
  match b, p with
  | [ex; ey; ez], [x; y; z] => exists i j k : Z, q = [x + i * width ex; y + j * width ey; z + k * width ez]
  | _, _ => False
  end.
Definition in_box (b : list interval) (p : list Z) : Prop := Forall2 within b p.
Definition inside_box (b : list interval) (p : list Z) : Prop := Forall2 inside b p.
(** The boxes up to one period away from the cell, on every side. *)
Definition reachable_box (b q : list interval) : Prop :=
  Forall2 (fun e f => fst e - width e <= fst f /\ snd f <= snd e + width e) b q.

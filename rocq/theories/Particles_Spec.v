(** Vocabulary for the properties of sets of particles. *)
Require Import ZArith List Bool Arith Sorted.
Require Import Verif.Particles_Model.
Import ListNotations.

(** Euclidean geometry in three dimensions; [closer a b r]: the distance from a to b is below r. *)
Definition point3 (p : list Z) : Prop := exists x y z, p = [x; y; z].
Definition dist2 (a b : list Z) : Z :=
  match a, b with
  | [x; y; z], [x'; y'; z'] => ((x - x') * (x - x') + (y - y') * (y - y') + (z - z') * (z - z'))%Z
  | _, _ => 0%Z
  end.
Definition closer3 (a b : list Z) (r : Z) : Prop := (0 < r /\ dist2 a b < r * r)%Z.

(** The positions after a history, whatever the index. *)
Definition move (l : list (list Z)) (o : pop) : list (list Z) :=
  let each f := map (fun p => match p with [x; y; z] => f x y z | _ => p end) l in
  match o with
  | PIndex => l
  | PPush p => l ++ [p]
  | PShift [a; b; d] => each (fun x y z => [x + a; y + b; z + d]%Z)
  | PScale [a; b; d] => each (fun x y z => [x * a; y * b; z * d]%Z)
  | PScaleAll m => each (fun x y z => [x * m; y * m; z * m]%Z)
  | _ => l
  end.
Definition positions (l : list (list Z)) (ops : list pop) : list (list Z) := fold_left move ops l.
Definition pop_ok (o : pop) : Prop :=
  match o with PPush p => point3 p | PShift v | PScale v => point3 v | _ => True end.
(** Whether the set has an index that has not been left behind by a change of scale. *)
Definition indexed (ops : list pop) : bool :=
  fold_left (fun b o => match o with PIndex => true | PScale _ | PScaleAll _ => false | _ => b end) ops false.

(** [ids] is the increasing list of the numbers of the positions satisfying P. *)
Definition picks (l : list (list Z)) (P : nat -> list Z -> Prop) (ids : list nat) : Prop :=
  StronglySorted lt ids /\ forall i, In i ids <-> exists p, nth_error l i = Some p /\ P i p.

(** Neighbour lists: j is in the list of i. *)
Definition linked (ngb : list (list nat)) (i j : nat) : Prop := exists ids, nth_error ngb i = Some ids /\ In j ids.

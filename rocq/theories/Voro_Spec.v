(** Vocabulary for the averages of volumes of Voronoi cells. *)
Require Import ZArith QArith List Bool Arith Sorting.Sorted.
Import ListNotations.
Local Open Scope nat_scope.

(** [ngbs]: for each particle, the other sides of the faces of its cell; negative numbers are walls.  No list: no cell. *)
Definition ngb_of (ngbs : list (list Z)) (p : nat) : list Z := nth p ngbs [].
(** A cell that touches no wall *)
Definition bulk (ngb : list Z) : bool := match ngb with [] => false | _ => forallb (fun z => (0 <=? z)%Z) ngb end.
(** The particles not near a wall that are p or have p as a neighbour (as many times as they have). *)
Definition donors (ngbs : list (list Z)) (p : nat) : list nat :=
  flat_map (fun q => if bulk (ngb_of ngbs q) then repeat q (count_occ Z.eq_dec (Z.of_nat q :: ngb_of ngbs q) (Z.of_nat p)) else []) (seq 0 (length ngbs)).
Definition Qtotal (l : list Q) : Q := fold_right Qplus 0%Q l.
Definition Qmean (l : list Q) : Q := (Qtotal l / inject_Z (Z.of_nat (length l)))%Q.
Definition value (l : list Q) (p : nat) : Q := nth p l 0%Q.
(** The neighbours that are particles *)
Definition real_ngb (ngb : list Z) : list nat := map Z.to_nat (filter (fun z => (0 <=? z)%Z) ngb).
(** Neighbours of neighbours ... up to a particle that has a donor *)
Inductive fed (ngbs : list (list Z)) : nat -> Prop :=
| fed_donor p : donors ngbs p <> [] -> fed ngbs p
| fed_ngb p q : In q (real_ngb (ngb_of ngbs p)) -> fed ngbs q -> fed ngbs p.
(** Sorted lists of the neighbours of [n] particles, none its own neighbour. *)
Record cells_ok (n : nat) (ngbs : list (list Z)) : Prop := {
  ok_n : length ngbs = n;
  ok_sorted : Forall (StronglySorted Z.le) ngbs;
  ok_range : Forall (Forall (fun z => (z < Z.of_nat n)%Z)) ngbs;
  ok_self : forall p, ~ In (Z.of_nat p) (ngb_of ngbs p) }.

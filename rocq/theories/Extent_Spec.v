(** Vocabulary for boxes around positions. *)
Require Import ZArith List.
Require Import Verif.Box_Model Verif.Box_Spec.
Import ListNotations.

(** Point [p] is in the closed box [b]. *)
Definition inside (p : list Z) (b : box) : Prop := Forall2 (fun x e => (fst e <= x <= snd e)%Z) p b.
(** [b] contains all the points of a set, and any other box that does contains [b]. *)
Definition smallest_box (b : box) (P : list Z -> Prop) : Prop :=
  (forall p, P p -> inside p b) /\ (forall c, (forall p, P p -> inside p c) -> sub b c).
(** Each coordinate of [x] is at [r] at most of that of [y]. *)
Definition within (r : Z) (y x : list Z) : Prop := Forall2 (fun a c => (Z.abs (c - a) <= r)%Z) y x.
(** Coordinate number [d]. *)
Definition coord (d : nat) (x : list Z) : Z := nth d x 0%Z.

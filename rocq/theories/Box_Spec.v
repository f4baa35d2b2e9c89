(** Geometric reading of boxes, independent of the code: a box is a set of points with rational
    coordinates. *)
Require Import ZArith QArith List.
Require Import Verif.Box_Model.
Import ListNotations.

(** A box of [d] axes. *)
Definition dim (d : nat) (b : box) : Prop := length b = d.

(** A box whose lower edges do not exceed (resp. are below) its upper edges. *)
Definition valid (b : box) : Prop := Forall (fun e => (fst e <= snd e)%Z) b.
Definition solid (b : box) : Prop := Forall (fun e => (fst e < snd e)%Z) b.

(** The point [p] lies in the closed box [b], resp. strictly inside it. *)
Definition point_in (p : list Q) (b : box) : Prop :=
  Forall2 (fun x e => inject_Z (fst e) <= x /\ x <= inject_Z (snd e))%Q p b.
Definition point_inside (p : list Q) (b : box) : Prop :=
  Forall2 (fun x e => inject_Z (fst e) < x /\ x < inject_Z (snd e))%Q p b.

(** [sub b a]: axis by axis, [b] does not stick out of [a]. *)
Definition sub (b a : box) : Prop :=
  Forall2 (fun f e => (fst e <= fst f /\ snd f <= snd e)%Z) b a.

(** Volume: product of the side lengths. *)
Fixpoint volume (b : box) : Z :=
  match b with
  | [] => 1
  | e :: b' => (snd e - fst e) * volume b'
  end%Z.

(** Smallest box around a non-empty list of boxes: per axis, the smallest lower edge and the largest
    upper edge.  [is_hull h bs] says so by its universal property. *)
Definition is_hull (h : box) (bs : list box) : Prop :=
  (forall b, In b bs -> sub b h) /\
  (forall c, length c = length h -> (forall b, In b bs -> sub b c) -> sub h c).

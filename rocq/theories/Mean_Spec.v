(** Vocabulary of averaged pair correlation functions. *)
Require Import QArith List Arith.
Import ListNotations.
Local Open Scope Q_scope.

(** Bin r of a histogram, and its sum over frames. *)
Definition bin (g : list Q) (r : nat) : Q := nth r g 0.
Definition total (frames : list (list Q)) (r : nat) : Q := fold_right (fun g s => bin g r + s) 0 frames.
(** [p] is the first of the largest bins; [m] is the first of the smallest bins from p on. *)
Definition highest (g : list Q) (p : nat) : Prop := (p < length g)%nat /\ (forall q, (q < p)%nat -> bin g q < bin g p) /\ (forall q, (q < length g)%nat -> bin g q <= bin g p).
Definition lowest_from (g : list Q) (p m : nat) : Prop :=
  (p <= m < length g)%nat /\ (forall q, (p <= q < m)%nat -> bin g m < bin g q) /\ (forall q, (p <= q < length g)%nat -> bin g m <= bin g q).

(** Vocabulary for movies whose frames are moved as wholes, independent of the model's functions. *)
Require Import ZArith QArith List.
Require Import Verif.Traj_Model Verif.Traj_Spec Verif.Drive_Model Verif.Drive_Props.
Import ListNotations.
Local Open Scope Q_scope.

(** Each frame of B is the frame of A at the same time, moved as a whole by the vector of [us] at that time. *)
Definition frames_moved (us : list pos3) (A B : list (list pos3)) : Prop :=
  length us = length A /\ length B = length A /\ forall t, (t < length A)%nat -> Forall2 (moved_by (nth t us zero3)) (nth t A []) (nth t B []).
(** Square of the distance between the vectors at two times. *)
Definition jump (us : list pos3) (a b : nat) : Q :=
  let d (f : pos3 -> Q) := f (nth b us zero3) - f (nth a us zero3) in d x_of * d x_of + d y_of * d y_of + d z_of * d z_of.
(** The origins of a lag: all those inside of the interval, or a given number of them. *)
Definition origins (t0 t1 t3 dt : nat) : list nat := if (t3 =? 0)%nat then seq t0 (t1 + 1 - t0 - dt) else seq t0 t3.
(** The mean over the origins of the square of the change of the vector during the lag. *)
Definition mean_jump (us : list pos3) (os : list nat) (dt : nat) : Q := fold_right Qplus 0 (map (fun a => jump us a (a + dt)) os) / inject_Z (Z.of_nat (length os)).
(** Every trajectory has a position at each of the first n times. *)
Definition all_along (ti : trajindex) (n : nat) : Prop := forall tr T t, nth_error (trajs ti) tr = Some T -> (t < n)%nat -> exists p, at_time T t p.
(** All trajectories. *)
Definition everyone (ti : trajindex) : list nat := seq 0 (length (trajs ti)).

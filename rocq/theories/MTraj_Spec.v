(** Vocabulary of C22-C24. *)
Require Import ZArith List Arith.
Require Import Verif.Traj_Model Verif.Traj_Spec Verif.MTraj_Model.
Import ListNotations.

(** The trajectory of position [p] of frame [t] according to the table. *)
Definition table (x : tindex2) (t p tr : nat) : Prop := exists row, nth_error (pos2tr x) t = Some row /\ nth_error row p = Some tr.
(** Trajectory number [tr] is at position [p] at time [t]. *)
Definition follows (x : tindex2) (t p tr : nat) : Prop := exists T, nth_error (tr2pos x) tr = Some T /\ at_time T t p.

(** The calls of the first form have their p_from in the previous frame (of size [n]); those of the second
    form number their new trajectories from [nb]. *)
Definition links_in_range (x : tindex2) (o : t2_op) : Prop :=
  match o with
  | AddLinks _ _ from _ => forall p, In p from -> p < length (last (pos2tr x) [])
  | AddIds l => (exists tr, In tr l /\ length (tr2pos x) <= tr) -> 0 < length (tr2pos x) /\ In (length (tr2pos x)) l
  end.
(** Every call of a history is in range in the state it meets. *)
Fixpoint history2_ok (x : tindex2) (ops : list t2_op) : Prop :=
  match ops with
  | [] => True
  | o :: ops' => links_in_range x o /\
                 match t2_step x o with Val x' => history2_ok x' ops' | Throw => history2_ok x ops' | UB => True end
  end.

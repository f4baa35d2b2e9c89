(** Vocabulary for the dynamics of particles. *)
Require Import List Arith QArith.
Require Import Verif.Traj_Model Verif.Traj_Spec.
Import ListNotations.
Local Open Scope nat_scope.

(** The trajectory has a position at every time of [a,b]. *)
Definition spans (T : traj) (a b : nat) : Prop := forall t, a <= t <= b -> exists p, at_time T t p.
(** Trajectory x is a neighbour of trajectory tr at time t. *)
Definition ngb_at (ti : trajindex) (ngbs : list (list (list nat))) (t tr x : nat) : Prop :=
  exists T p frame l q, nth_error (trajs ti) tr = Some T /\ at_time T t p /\ nth_error ngbs t = Some frame /\ nth_error frame p = Some l /\ In q l /\ invert ti t q = Some x.
(** The neighbour lists match the frames. *)
Definition ngbs_ok (ti : trajindex) (ngbs : list (list (list nat))) : Prop :=
  map (@length (list nat)) ngbs = map (@length nat) (inverse ti) /\
  forall t frame row l q, nth_error ngbs t = Some frame -> nth_error (inverse ti) t = Some row -> In l frame -> In q l -> q < length row.

(** Trajectories that follow each other without gap from time s on, none of them empty. *)
Fixpoint consecutive (s : nat) (l : list traj) : Prop :=
  match l with [] => True | c :: l' => start c = s /\ steps c <> [] /\ consecutive (s + length (steps c)) l' end.

(** The value at trajectory T and time t of a field given position by position. *)
Definition value_at {V} (frames : list (list V)) (T : traj) (t : nat) (x : V) : Prop := exists p f, at_time T t p /\ nth_error frames t = Some f /\ nth_error f p = Some x.
(** The total displacement of some trajectories from t0 to t1. *)
Fixpoint total_displacement (frames : list (list Q)) (tri : list traj) (l : list nat) (t0 t1 : nat) (d : Q) : Prop :=
  match l with
  | [] => (d == 0)%Q
  | tr :: l' => exists T x y d', nth_error tri tr = Some T /\ value_at frames T t0 x /\ value_at frames T t1 y /\ total_displacement frames tri l' t0 t1 d' /\ (d == (y - x) + d')%Q
  end.

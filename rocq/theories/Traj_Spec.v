(** Vocabulary of the trajectory properties. *)
Require Import ZArith List Arith Sorted.
Require Import Verif.Traj_Model.
Import ListNotations.

(** The trajectory [T] is at position [p] at time [t]: its [k]-th recorded position, [k] steps after its start. *)
Definition at_time (T : traj) (t p : nat) : Prop := exists k, t = start T + k /\ nth_error (steps T) k = Some p.

(** [f] pairs the positions 0..n-1 with trajectories one to one. *)
Definition bijective_frame (n : nat) (f : frame) : Prop :=
  (forall p, p < n <-> exists tr, In (p, tr) f) /\
  (forall p tr tr', In (p, tr) f -> In (p, tr') f -> tr = tr') /\
  (forall p p' tr, In (p, tr) f -> In (p', tr) f -> p = p') /\
  length f = n.

(** [f] is frame number [t] of the map. *)
Definition frame_at (tm : trajmap) (t : nat) (f : frame) : Prop := nth_error (frames tm) t = Some f.
Definition present (tm : trajmap) (t tr : nat) : Prop := exists f p, frame_at tm t f /\ In (p, tr) f.

(** Arguments of push_back are in range: one follower map per position of the last frame (of size [n]), followers
    below the new frame size. *)
Fixpoint history_ok (n : nat) (h : list (list folmap * nat)) : Prop :=
  match h with
  | [] => True
  | (fol, m) :: h' => n <= length fol /\ Forall (Forall (fun df => snd df < m)) fol /\ history_ok m h'
  end.

(** A candidate link of length [d] from trajectory [tr] (at position [q] of [f]) to the new position [p]. *)
Definition candidate (fol : list folmap) (f : frame) (d : Z) (p tr : nat) : Prop :=
  exists q m, In (q, tr) f /\ nth_error fol q = Some m /\ In (d, p) m.

(** Lookup in an association list. *)
Fixpoint lookup {T} (k : nat) (m : list (nat * T)) : option T :=
  match m with [] => None | (k', v) :: m' => if k =? k' then Some v else lookup k m' end.
(** Keys of a std::map in iteration order. *)
Definition is_map {T} (m : list (nat * T)) : Prop := StronglySorted lt (map fst m).

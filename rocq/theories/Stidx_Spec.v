(** Vocabulary for selections of trajectories in space and time. *)
Require Import ZArith List Arith Sorted.
Require Import Verif.Base Verif.Box_Model Verif.Traj_Model Verif.Traj_Spec Verif.Dyn_Spec Verif.Particles_Props Verif.Rerun_Props.
Import ListNotations.
Local Open Scope nat_scope.

(** The point is in the box, faces included. *)
Definition in_bounds (b : box) (p : list Z) : Prop := forall k e, k < 3 -> nth_error b k = Some e -> (fst e <= coord k p <= snd e)%Z.
(** All the positions of the trajectory are in the box. *)
Definition stays (frames : list (list (list Z))) (T : traj) (b : box) : Prop := forall t p, value_at frames T t p -> in_bounds b p.
(** All the positions of the trajectory are at least the margin away from the faces of the smallest box that holds all positions of all frames; an axis along which that box is not wider than twice the margin does not count, only the first [n] axes do. *)
Definition stays_deep (n : nat) (frames : list (list (list Z))) (T : traj) (margin : Z) : Prop :=
  forall t p k lo hi, value_at frames T t p -> k < n -> extent (concat frames) k lo hi -> (2 * margin < hi - lo)%Z -> (lo + margin <= coord k p <= hi - margin)%Z.

Section Contract.
  Variables (ti : trajindex) (frames : list (list (list Z))) (query : (nat * nat) * box -> list nat) (overall : box) (interval : nat * nat).
  (** What is asked of an index of the trajectories: the sorted numbers of those that have a position at each time of the interval, and all positions in the box; the smallest box that holds all positions; the smallest interval that holds all times. *)
  Definition answers : Prop :=
    (forall a b bx, a <= b -> StronglySorted lt (query ((a, b), bx)) /\ forall tr, In tr (query ((a, b), bx)) <-> exists T, nth_error (trajs ti) tr = Some T /\ spans T a b /\ stays frames T bx) /\
    (length overall = 3 /\ forall k e, nth_error overall k = Some e -> extent (concat frames) k (fst e) (snd e)) /\
    (fst interval <= snd interval /\ (forall T t p, In T (trajs ti) -> at_time T t p -> fst interval <= t <= snd interval) /\
     (exists T p, In T (trajs ti) /\ at_time T (fst interval) p) /\ exists T p, In T (trajs ti) /\ at_time T (snd interval) p).
End Contract.

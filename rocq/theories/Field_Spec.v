(** Vocabulary for sliding averages. *)
Require Import List Arith Bool.
Require Import Verif.Traj_Model.
Import ListNotations.

(** The values met by a trajectory at the given times, without the null ones. *)
Definition position_at (T : traj) (t : nat) : option nat := if start T <=? t then nth_error (steps T) (t - start T) else None.
Definition sample {V} (null : V -> bool) (frames : list (list V)) (T : traj) (t : nat) : list V :=
  match position_at T t, nth_error frames t with
  | Some p, Some f => match nth_error f p with Some x => if null x then [] else [x] | None => [] end
  | _, _ => []
  end.
Definition samples {V} (null : V -> bool) (frames : list (list V)) (T : traj) (ts : list nat) : list V := flat_map (sample null frames T) ts.
(** The times from t-h to t+h, among those from 0 to n-1. *)
Definition window (t h n : nat) : list nat := filter (fun s => (t <=? s + h) && (s <=? t + h)) (seq 0 n).
Definition sum {V} (zero : V) (add : V -> V -> V) (l : list V) : V := fold_left add l zero.

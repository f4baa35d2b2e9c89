(** What a parallel loop should compute, without threads. *)
Require Import List Arith ZArith QArith Permutation.
Import ListNotations.

(** Every iteration of the list is run by exactly one thread. *)
Definition shared_out {I} (iterations : list I) (parts : list (list I)) : Prop := Permutation (concat parts) iterations.
(** [l] is some of the values of [whole], each taken at most as many times as it is in there. *)
Definition some_of {V} (l whole : list V) : Prop := exists lost, Permutation (l ++ lost) whole.
(** The sum of rationals. *)
Definition qsum (l : list Q) : Q := fold_right Qplus 0%Q l.
(** The threads take turns only between statements: each load is followed at once by its store. *)
Definition statement_by_statement (sched : list nat) : Prop := exists turns, sched = flat_map (fun i => [i; i]) turns.
(** The values given to cell k by a list of (cell, value). *)
Definition given {V} (k : nat) (l : list (nat * V)) : list V := map snd (filter (fun kv => fst kv =? k) l).
(** The effect of statements (cell, f) on the value of cell k, in order. *)
Definition applied {V} (k : nat) (l : list (nat * (V -> V))) (x : V) : V := fold_left (fun x f => f x) (map snd (filter (fun o => fst o =? k) l)) x.
(** Different iterations work on different cells. *)
Definition own_cells {V I} (body : I -> list (nat * (V -> V))) : Prop := forall i j k f g, In (k, f) (body i) -> In (k, g) (body j) -> i = j.

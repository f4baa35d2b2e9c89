(** Model of the blur of a volume by several threads, multiscale/src/octavefinder.cpp [inplace_blurXY], [inplace_blur3D]. *)
Require Import List Bool Arith.
Require Import Verif.Base Verif.RTree_Model Verif.Traj_Model Verif.Par_Model.
Import ListNotations.
Local Open Scope nat_scope.

Section Zblur.
  (** Pixels; [alongZ]: the filter of one line of voxels along Z, [plane]: the filter of one XY plane (library functions; the borders are extrapolated from
      the line or the plane itself). *)
  Variables (P : Type) (alongZ plane : list P -> list P).
  (** octavefinder.cpp:212-215 [temp2D]: a volume of planes of [cols] pixels each (rows and columns together), seen as [cols] lines along Z *)
  Definition lines (dflt : P) (cols : nat) (vol : list (list P)) : list (list P) := map (fun c => map (fun p => nth c p dflt) vol) (seq 0 cols).
  (** octavefinder.cpp:227-232: the columns of thread t of n: Rect(t*sectionsize, ., sectionsize, .) & Rect(0, ., cols, .); an empty rectangle is not filtered *)
  Definition section (cols n t : nat) : list nat := let s := cols / n in seq (t * s) (Nat.min (t * s + s) cols - t * s).
  (** octavefinder.cpp:217-234 (with OpenMP): [n] threads, each filters the lines of its columns in place.  A line is one memory cell, that is loaded then stored;
      [sched]: the thread that runs at each step. *)
  Definition par_alongZ (n : nat) (sched : list nat) (ls : list (list P)) : option (list (list P)) :=
    parallel_for (fun c => [(c, alongZ)]) (map (section (length ls) n) (seq 0 n)) sched ls.
  (** octavefinder.cpp:235-245 (without OpenMP) *)
  Definition seq_alongZ (ls : list (list P)) : list (list P) := map alongZ ls.
  (** octavefinder.cpp:184-198 [inplace_blurXY]: omp for over the planes, shared out in some way *)
  Definition par_XY (parts : list (list nat)) (sched : list nat) (vol : list (list P)) : option (list (list P)) :=
    parallel_for (fun k => [(k, plane)]) parts sched vol.
  (** octavefinder.cpp:210-249 [inplace_blur3D] with OpenMP: the lines are the same memory as the planes *)
  Definition par_blur3D (dflt : P) (cols n : nat) (schedZ : list nat) (parts : list (list nat)) (schedXY : list nat) (vol : list (list P)) : option (list (list P)) :=
    match par_alongZ n schedZ (lines dflt cols vol) with
    | Some ls => par_XY parts schedXY (map (fun k => map (fun l => nth k l dflt) ls) (seq 0 (length vol)))
    | None => None
    end.
  (** the same without OpenMP *)
  Definition seq_blur3D (dflt : P) (cols : nat) (vol : list (list P)) : list (list P) :=
    map plane (map (fun k => map (fun l => nth k l dflt) (seq_alongZ (lines dflt cols vol))) (seq 0 (length vol))).
End Zblur.

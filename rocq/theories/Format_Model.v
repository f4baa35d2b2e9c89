(** Model of FileSerie::operator% (lib/files_series.hpp) called by several threads. *)
Require Import List Bool Arith NArith Ascii.
Require Import Verif.Base Verif.Dec Verif.RTree_Model Verif.Traj_Model Verif.Files_Model.
Import ListNotations.
Local Open Scope nat_scope.

(** The changing part of a boost::format with one directive (boost library, not /repo): has the argument been given, its text, has the result been taken. *)
Record fmt := mkFmt { fed : bool; item : text; dumped : bool }.
(** boost::format::clear *)
Definition fmt_clear (f : fmt) : fmt := mkFmt false [] false.
(** boost::format::operator% of a number: starts again if the result has been taken; throws too_many_args if the argument was already given. *)
Definition fmt_feed (w : nat) (n : N) (f : fmt) : outcome fmt :=
  let f := if dumped f then fmt_clear f else f in
  if fed f then Throw else Val (mkFmt true (pad w n) false).
(** boost::format::str: throws too_few_args if the argument is missing. *)
Definition fmt_str (before after : text) (f : fmt) : outcome (text * fmt) :=
  if fed f then Val (before ++ item f ++ after, mkFmt true (item f) true) else Throw.

(** A thread that asks for the names of steps [asks], one after the other; [phase]: where it is in the body of operator% (files_series.hpp:51: clear, then %,
    then str, each taken as atomic: a simplification, an interleaving inside of them is worse); [names]: the names it has got. *)
Record caller := mkCaller { asks : list N; phase : nat; names : list text }.
(** One of the three operations, by thread i on the format [use i]; a thread with nothing left to ask is idle.  [Throw]: an exception inside a parallel region,
    that ends the program. *)
Definition call_step (fs : serie) (use : nat -> nat) (s : list fmt * list caller) (i : nat) : outcome (list fmt * list caller) :=
  let '(formats, ths) := s in
  match nth_error ths i, nth_error formats (use i) with
  | Some (mkCaller (t :: r) ph got), Some f =>
      match ph with
      | 0 => Val (set_nth (use i) (fmt_clear f) formats, set_nth i (mkCaller (t :: r) 1 got) ths)
      | 1 => match fmt_feed (width fs) ((t + offset fs) mod two64) f with
             | Val f' => Val (set_nth (use i) f' formats, set_nth i (mkCaller (t :: r) 2 got) ths)
             | Throw => Throw
             | UB => UB
             end
      | _ => match fmt_str (before fs) (after fs) f with
             | Val (name, f') => Val (set_nth (use i) f' formats, set_nth i (mkCaller r 0 (got ++ [name])) ths)
             | Throw => Throw
             | UB => UB
             end
      end
  | _, _ => Val s
  end.
Fixpoint call_run (fs : serie) (use : nat -> nat) (s : list fmt * list caller) (sched : list nat) : outcome (list fmt * list caller) :=
  match sched with [] => Val s | i :: sched' => match call_step fs use s i with Val s' => call_run fs use s' sched' | Throw => Throw | UB => UB end end.
Definition start_calls (asked : list (list N)) : list caller := map (fun l => mkCaller l 0 []) asked.
(** A copy of the series per thread: firstprivate(...) of all_bonds.cpp:128, cgVoro.cpp:248 (two of six) and linkboo.cpp:160 (all but qlmSerie). *)
Definition private_names (fs : serie) (formats : list fmt) (asked : list (list N)) (sched : list nat) := call_run fs (fun i => i) (formats, start_calls asked) sched.
(** The same series for all threads: qlmSerie in linkboo.cpp:160-217, velSerie in cage2vtk.cpp:258-262, cgVolSerie, bondSerie, outsideSerie
    and secondOutsideSerie in cgVoro.cpp:248-305. *)
Definition shared_names (fs : serie) (format : fmt) (asked : list (list N)) (sched : list nat) := call_run fs (fun _ => 0) ([format], start_calls asked) sched.
(** #pragma omp critical around the call: lostngb.cpp:53-56, traj2vtk.cpp:380-383, cgVoro.cpp:256-259: [turns] gives the thread of each whole call. *)
Definition critical_names (fs : serie) (format : fmt) (asked : list (list N)) (turns : list nat) := shared_names fs format asked (flat_map (fun i => [i; i; i]) turns).

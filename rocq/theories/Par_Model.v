(** Model of the parallel loops of lib/dynamicParticles.cpp, lib/particles.cpp and lib/fields.hpp that update shared arrays. *)
Require Import ZArith QArith List Bool Arith.
Require Import Verif.Base Verif.RTree_Model Verif.Traj_Model Verif.Particles_Model Verif.Dyn_Model Verif.Corr_Model.
Import ListNotations.
Local Open Scope nat_scope.

(** [#pragma omp parallel for]: every thread runs the iterations it has been given, one after the other.  A statement a[k] = f(a[k]), such as a[k] += v, is
    not atomic: it loads the cell, then stores the new value.  Memory is sequentially consistent: a simplification, as the language gives no meaning at all to
    races.  [pend]: the cell and the value to store, [todo]: the statements (cell, f) still to run. *)
Section Par.
  Variable V : Type.
  Definition statement : Type := nat * (V -> V).
  Record pthread := mkPThread { ppend : option (nat * V); ptodo : list statement }.
  (** One load or one store of thread i; [None]: the thread has nothing left to do, or the cell does not exist. *)
  Definition pstep (s : list V * list pthread) (i : nat) : option (list V * list pthread) :=
    let '(mem, ths) := s in
    match nth_error ths i with
    | None => None
    | Some (mkPThread (Some (k, y)) r) => if k <? length mem then Some (set_nth k y mem, set_nth i (mkPThread None r) ths) else None
    | Some (mkPThread None ((k, f) :: r)) => match nth_error mem k with Some x => Some (mem, set_nth i (mkPThread (Some (k, f x)) r) ths) | None => None end
    | Some (mkPThread None []) => None
    end.
  Fixpoint prun (s : list V * list pthread) (sched : list nat) : option (list V * list pthread) :=
    match sched with [] => Some s | i :: sched' => match pstep s i with Some s' => prun s' sched' | None => None end end.
  Definition plaunch (mem : list V) (progs : list (list statement)) : list V * list pthread := (mem, map (mkPThread None) progs).
  Definition pdone (t : pthread) : bool := match t with mkPThread None [] => true | _ => false end.
  (** The memory at the end of a parallel loop; [parts]: the iterations given to each thread, [body]: the statements of an iteration,
      [sched]: the thread that runs at each step.  [None]: this schedule does not run the loop to its end. *)
  Definition parallel_for {I} (body : I -> list statement) (parts : list (list I)) (sched : list nat) (mem : list V) : option (list V) :=
    match prun (plaunch mem (map (flat_map body) parts)) sched with
    | Some (mem', ths) => if forallb pdone ths then Some mem' else None
    | None => None
    end.
  (** a[k] += v, a[k] = v *)
  Definition accum (add : V -> V -> V) (k : nat) (v : V) : statement := (k, fun x => add x v).
  Definition put (k : nat) (v : V) : statement := (k, fun _ => v).
End Par.
Arguments parallel_for {V I}. Arguments accum {V}. Arguments put {V}. Arguments prun {V}. Arguments pstep {V}. Arguments plaunch {V}. Arguments pdone {V}. Arguments mkPThread {V}. Arguments ppend {V}. Arguments ptodo {V}.

(** dynamicParticles.cpp:514-525 [getDrift], one axis (the three of them are three cells); [parts]: places in the selection.  [Val None]: incomplete schedule. *)
Definition par_drift (frames : list (list Q)) (ti : trajindex) (sel : list nat) (t0 t1 : nat) (parts : list (list nat)) (sched : list nat) : outcome (option Q) :=
  if length sel <? 2 then Val (Some 0%Q)
  else omap (fun ds => option_map (fun mem => (nth 0 mem 0 / inject_Z (Z.of_nat (length sel)))%Q)
                         (parallel_for (fun i => [accum Qplus 0 (nth i ds 0%Q)]) parts sched [0%Q]))
         (osequence (map (fun tr => displacement frames ti tr t0 t1) sel)).
(** dynamicParticles.cpp:671-677, one lag dt of [getMSD] with t3 > 0; [sd start]: getSD(selection,t0+start,t0+start+dt). *)
Definition par_msd (sd : nat -> Q) (t3 k : nat) (parts : list (list nat)) (sched : list nat) : option Q :=
  option_map (fun mem => (nth 0 mem 0 / inject_Z (Z.of_nat (t3 * k)))%Q) (parallel_for (fun start => [accum Qplus 0 (sd start)]) parts sched [0%Q]).
(** dynamicParticles.cpp:852-861, the sums of [getISF]; [c start stop]: A[stop]*A[start]+B[stop]*B[start], added once per trajectory of the selection (k of
    them).  The numbers of intervals are added up in the same loop in cells of their own, after those of the sums; [par_isf] is the memory before the division. *)
Definition isf_body (c : nat -> nat -> Q) (t0 t1 k start : nat) : list (statement Q) :=
  flat_map (fun stop => repeat (accum Qplus (stop - start) (c start stop)) k ++ [accum Qplus (t1 - t0 + 1 + (stop - start)) 1%Q]) (seq (S start) (t1 - start)).
Definition par_isf (c : nat -> nat -> Q) (t0 t1 k : nat) (parts : list (list nat)) (sched : list nat) : option (list Q) :=
  parallel_for (isf_body c t0 t1 k) parts sched (repeat 0%Q (t1 - t0 + 1) ++ 1%Q :: repeat 0%Q (t1 - t0)).
(** particles.cpp:145-151 [operator+=], one axis. *)
Definition par_translate (v : Z) (parts : list (list nat)) (sched : list nat) (xs : list Z) : option (list Z) :=
  parallel_for (fun p => [accum Z.add p v]) parts sched xs.
(** dynamicParticles.cpp:1496-1498, 1032-1034; velocities of mains: a[p] = f(p) *)
Definition par_fill {V} (f : nat -> V) (parts : list (list nat)) (sched : list nat) (mem : list V) : option (list V) :=
  parallel_for (fun p => [put p (f p)]) parts sched mem.
(** dynamicParticles.cpp:838-848: A[t] += cos(...) over the trajectories, t the iteration; [w tr t]: the cosine (or the sine). *)
Definition par_waves (w : nat -> nat -> Q) (sel : list nat) (parts : list (list nat)) (sched : list nat) (n : nat) : option (list Q) :=
  parallel_for (fun t => map (fun tr => accum Qplus t (w tr t)) sel) parts sched (repeat 0%Q n).

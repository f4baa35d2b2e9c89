(** Model of the parallel execution of the binners of lib/particles. *)
Require Import ZArith List Bool Arith.
Require Import Verif.Base Verif.RTree_Model Verif.Traj_Model Verif.Center_Model Verif.Particles_Model.
Import ListNotations.
Local Open Scope nat_scope.

(** particles.hpp:207-211: the bins that the iteration of the selected particle i increments, in order. *)
Definition bins_of (st : particles) (n : nat) (cutoff : Z) (i : nat) : list nat :=
  match euclid_of st i cutoff, nth_error (pts st) i with
  | Val l, Some a => flat_map (fun j => match nth_error (pts st) j with Some b => [rdf_bin n cutoff (sqdist b a)] | None => [] end) l
  | _, _ => []
  end.

(** particles.cpp:780-789 [#pragma omp parallel for schedule(dynamic)]: every thread runs the iterations it has been given.
    The statement g[k]++ (particles.hpp:209) is not atomic: it loads the bin, then stores the loaded value plus one.  Memory is
    sequentially consistent: a simplification, as the language gives no meaning at all to such a race.  [pend]: the bin loaded
    and its value, [todo]: the bins still to increment. *)
Record thread := mkThread { pend : option (nat * nat); todo : list nat }.
(** One load or one store of thread i; [None]: the thread has nothing left to do, or the bin is out of range. *)
Definition tstep (s : list nat * list thread) (i : nat) : option (list nat * list thread) :=
  let '(mem, ths) := s in
  match nth_error ths i with
  | None => None
  | Some (mkThread (Some (k, v)) r) => if k <? length mem then Some (set_nth k (S v) mem, set_nth i (mkThread None r) ths) else None
  | Some (mkThread None (k :: r)) => match nth_error mem k with Some v => Some (mem, set_nth i (mkThread (Some (k, v)) r) ths) | None => None end
  | Some (mkThread None []) => None
  end.
Fixpoint trun (s : list nat * list thread) (sched : list nat) : option (list nat * list thread) :=
  match sched with [] => Some s | i :: sched' => match tstep s i with Some s' => trun s' sched' | None => None end end.
Definition launch (n : nat) (progs : list (list nat)) : list nat * list thread := (repeat 0 n, map (mkThread None) progs).
Definition finished (s : list nat * list thread) : Prop := forall t, In t (snd s) -> t = mkThread None [].
(** The programs of the threads for a distribution of the selection among them. *)
Definition rdf_threads (st : particles) (n : nat) (cutoff : Z) (parts : list (list nat)) : list (list nat) := map (flat_map (bins_of st n cutoff)) parts.

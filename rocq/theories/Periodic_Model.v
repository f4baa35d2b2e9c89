(** Model of lib/periodic.hpp and lib/periodic.cpp: particles with periodic boundary conditions.
    A [PeriodicParticles] is the record [particles] of Particles_Model with the virtual functions overridden. *)
Require Import ZArith List Bool Arith.
Require Import Verif.Base Verif.SortU Verif.Box_Model Verif.RTree_Model Verif.Index_Model Verif.Traj_Model Verif.Center_Model Verif.Particles_Model.
Import ListNotations.
Local Open Scope Z_scope.

(** periodic.hpp:58-61 [getPeriod], for each dimension. *)
Definition periods (b : box) : list Z := map (fun e => snd e - fst e) b.
(** periodic.cpp:26-33 [periodify], one coordinate: v > P/2 is 2v > P, the second test sees the result of the first. *)
Definition periodify1 (P v : Z) : Z :=
  let v1 := if P <? 2 * v then v - P else v in
  if 2 * v1 <=? - P then v1 + P else v1.
Definition periodify (b : box) (v : list Z) : list Z := map (fun Pv => periodify1 (fst Pv) (snd Pv)) (combine (periods b) v).
(** particles.hpp:277-282 and periodic.cpp:37-43 [getDiff(Coord, size_t)]; [at] throws. *)
Definition vsub (p q : list Z) : list Z := map (fun xy => fst xy - snd xy) (combine p q).
Definition per_diff (st : particles) (from : list Z) (to : nat) : outcome (list Z) :=
  match nth_error (pts st) to with Some p => Val (periodify (pbb st) (vsub p from)) | None => Throw end.
(** periodic.cpp:65-71 [selectInside]. *)
Definition per_select_inside (st : particles) : list nat := seq 0 (length (pts st)).
(** periodic.cpp:84-113: the 27 translations, in the order of the loops. *)
Definition images27 : list (list Z) := flat_map (fun i => flat_map (fun j => map (fun k => [i; j; k]) [-1; 0; 1]) [-1; 0; 1]) [-1; 0; 1].
Definition shift_box (b : box) (t : list Z) : box := map (fun et => (fst (fst et) + snd et, snd (fst et) + snd et)) (combine b t).
(** periodic.cpp:78-116 [selectEnclosed]. *)
Definition per_select_enclosed (st : particles) (b : box) : outcome (list nat) :=
  if encloses (pbb st) b then select_enclosed st b
  else
    omap (fun ls => sort_unique (concat ls))
      (osequence (map (fun n => select_enclosed st (shift_box b (vmul n (periods (pbb st))))) images27)).
(** particles.cpp:242-247 and 260-266 with the periodic [getDiff]: dot(diff,diff) < range^2. *)
Fixpoint norm_sq (v : list Z) : Z := match v with [] => 0 | x :: v' => x * x + norm_sq v' end.
Fixpoint per_keep (st : particles) (c : list Z) (range : Z) (skip : nat -> bool) (l : list nat) : outcome (list nat) :=
  match l with
  | [] => Val []
  | i :: l' =>
      if skip i then per_keep st c range skip l' else
      obind (per_diff st c i) (fun d => omap (fun r => if norm_sq d <? range * range then i :: r else r) (per_keep st c range skip l'))
  end.
(** particles.cpp:236-249 [getEuclidianNeighbours(Coord, double)] on periodic particles. *)
Definition per_euclid (st : particles) (c : list Z) (range : Z) : outcome (list nat) :=
  obind (per_select_enclosed st (bounds c range)) (per_keep st c range (fun _ => false)).
(** particles.cpp:254-268 [getEuclidianNeighbours(size_t, double)] on periodic particles. *)
Definition per_euclid_of (st : particles) (i : nat) (range : Z) : outcome (list nat) :=
  match nth_error (pts st) i with
  | None => UB
  | Some c => obind (per_select_enclosed st (bounds c range)) (per_keep st c range (fun j => (j =? i)%nat))
  end.
(** particles.cpp:326-334 [makeNgbList(double)] on periodic particles. *)
Definition per_ngb_list (st : particles) (bn bd : Z) : outcome (list (list nat)) :=
  osequence (map (fun p => per_euclid_of st p (bond_sep st bn bd)) (seq 0 (length (pts st)))).

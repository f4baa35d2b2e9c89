(** Model of graphic/radiiTracker.cpp: neighbourhood of a particle, radius from the mean intensity.  Lengths are integers, in a unit that divides
    the voxel: [s] is the size of a voxel.  Arrays are flat lists, last dimension fastest, and every access is checked. *)
Require Import ZArith List Bool Arith.
Require Import Verif.Base Verif.Traj_Model Verif.Center_Model Verif.Particles_Model Verif.RTree_Model Verif.Corr_Model.
Import ListNotations.
Local Open Scope nat_scope.

(** A value for each dimension. *)
Definition by_dim (A : Type) : Type := (A * A * A)%type.
Definition d0 {A} (x : by_dim A) : A := fst (fst x).
Definition d1 {A} (x : by_dim A) : A := snd (fst x).
Definition d2 {A} (x : by_dim A) : A := snd x.
(** The indices of an array of this shape, in the order of the memory: the loops of radiiTracker.cpp:67-69. *)
Definition cells (w : by_dim nat) : list (by_dim nat) :=
  flat_map (fun i => flat_map (fun j => map (fun k => (i, j, k)) (seq 0 (d2 w))) (seq 0 (d1 w))) (seq 0 (d0 w)).
Definition cell_at {A} (w : by_dim nat) (l : list A) (c : by_dim nat) : option A :=
  if (d0 c <? d0 w) && (d1 c <? d1 w) && (d2 c <? d2 w) then nth_error l ((d0 c * d1 w + d1 c) * d2 w + d2 c) else None.

(** radiiTracker.cpp:40-44: the limits of the neighbourhood in one dimension, of [w] voxels among [n], around coordinate [p]; conversion to
    size_t truncates; [UB]: conversion of a number below -1, range of negative length, range longer than the neighbourhood. *)
Definition limits (s : Z) (p : Z) (w n : nat) : outcome (nat * nat) :=
  let r := Z.of_nat (w / 2) in
  let low := Z.to_nat (Z.max 0 (p - s * r) / s) in
  let h := Z.min (s * Z.of_nat n) (p + s * r + s) in
  if (h <=? - s)%Z then UB
  else let high := Z.to_nat (h / s) in
    if (low <=? high) && (high - low <=? w) then Val (low, high) else UB.
(** radiiTracker.cpp:33-55 [getNeighbourhood]: the centre in the neighbourhood, and the neighbourhood. *)
Definition neighbourhood (s : Z) (shape : by_dim nat) (data : list nat) (p : by_dim Z) (w : by_dim nat) : outcome (by_dim Z * list nat) :=
  obind (limits s (d0 p) (d0 w) (d0 shape)) (fun l0 => obind (limits s (d1 p) (d1 w) (d1 shape)) (fun l1 => obind (limits s (d2 p) (d2 w) (d2 shape)) (fun l2 =>
  omap (fun ngb => ((d0 p - s * Z.of_nat (fst l0), d1 p - s * Z.of_nat (fst l1), d2 p - s * Z.of_nat (fst l2))%Z, ngb))
    (osequence (map (fun c =>
      if (d0 c <? snd l0 - fst l0) && (d1 c <? snd l1 - fst l1) && (d2 c <? snd l2 - fst l2) then
        match cell_at shape data (fst l0 + d0 c, fst l1 + d1 c, fst l2 + d2 c) with Some x => Val x | None => UB end
      else Val 0) (cells w)))))).
(** radiiTracker.cpp:131-133: the size of the neighbourhood in one dimension, for rmax in the same unit. *)
Definition ngb_size (s rmax : Z) (n : nat) : nat := if (2 * rmax <? s * Z.of_nat n)%Z then Z.to_nat ((2 * rmax + s) / s) else 1.

(** radiiTracker.cpp:71, 86: squared distance of voxel c to the centre, in units where the ratio of voxel sizes is zn/zd. *)
Definition cell_dist (s zn zd : Z) (fortran : bool) (c : by_dim nat) (p : by_dim Z) : Z :=
  let x := (s * Z.of_nat (d0 c) - d0 p)%Z in let y := (s * Z.of_nat (d1 c) - d1 p)%Z in let z := (s * Z.of_nat (d2 c) - d2 p)%Z in
  if fortran then (x * zn * (x * zn) + y * zd * (y * zd) + z * zd * (z * zd))%Z else (x * zd * (x * zd) + y * zd * (y * zd) + z * zn * (z * zn))%Z.
Section Radius.
(** Doubles: the quotient of a sum by a count, differences, comparisons; [smooth]: the product of the Fourier transforms of :115-121. *)
Variables (V : Type) (ratio : nat -> nat -> V) (sub : V -> V -> V) (lt : V -> V -> bool) (smooth : list V -> list V).
(** radiiTracker.cpp:64-97: sums and numbers of voxels by distance; precision [pr], limit [rmax]; [UB]: bin past the end of the vectors. *)
Definition bin_voxel (dist : by_dim nat -> Z) (pr rmax : Z) (cx : by_dim nat * nat) (vn : list nat * list nat) : outcome (list nat * list nat) :=
  let d := dist (fst cx) in
  if (d <? rmax * rmax)%Z then
    let l := Z.to_nat (Z.sqrt d / pr) in
    match nth_error (fst vn) l, nth_error (snd vn) l with
    | Some v, Some n => Val (set_nth l (v + snd cx) (fst vn), set_nth l (S n) (snd vn))
    | _, _ => UB
    end
  else Val vn.
(** std::partial_sum *)
Fixpoint partial_sums (a : nat) (l : list nat) : list nat := match l with [] => [] | x :: l' => (a + x) :: partial_sums (a + x) l' end.
(** std::adjacent_difference *)
Definition differences (l : list V) : list V := match l with [] => [] | x :: l' => x :: map (fun ab => sub (snd ab) (fst ab)) (combine l l') end.
(** std::min_element: position of the first smallest. *)
Fixpoint min_pos (best : V) (at_best next : nat) (l : list V) : nat :=
  match l with [] => at_best | x :: l' => if lt x best then min_pos x next (S next) l' else min_pos best at_best (S next) l' end.
Definition min_element (l : list V) : nat := match l with [] => 0 | x :: l' => min_pos x 0 1 l' end.
(** radiiTracker.cpp:58-125 [getRadius], as a number of [pr]; [UB]: nbs[0] of an empty vector, range with its end before its beginning. *)
Definition get_radius (w : by_dim nat) (dist : by_dim nat -> Z) (pr rmin rmax : Z) (ngb : list nat) : outcome nat :=
  let n := Z.to_nat (rmax / pr) in
  obind (ofold (bin_voxel dist pr rmax) (combine (cells w) ngb) (repeat 0 n, repeat 0 n)) (fun vn =>
  match snd vn with
  | [] => UB
  | _ :: nbs' =>
      let means := map (fun vc => ratio (fst vc) (snd vc)) (combine (partial_sums 0 (fst vn)) (partial_sums 0 (1 :: nbs'))) in
      let deriv := differences (smooth means) in
      let margin := Z.to_nat (rmin / pr) in
      if margin + margin <=? n then Val (margin + min_element (firstn (n - margin - margin) (skipn margin deriv))) else UB
  end).
End Radius.

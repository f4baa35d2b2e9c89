(** Model of lib/dynamicParticles: linking of positions into trajectories, drift read from a file, construction.
    Coordinates are integers (as in Particles_Model).  Progress display and statistics on the creation rate are left out. *)
Require Import ZArith List Bool Arith.
Require Import Verif.Box_Model Verif.RTree_Model Verif.Index_Model Verif.Traj_Model Verif.Particles_Model Verif.Corr_Model.
Import ListNotations.
Local Open Scope nat_scope.

(** dynamicParticles.cpp:1484-1486: a frame without index gets one.  The frames are independent of each other: the parallel loop
    is taken as a sequential one.  [UB]: insertion in the tree undefined. *)
Definition ensure_index (c : config) (st : particles) : outcome particles :=
  match pindex st with
  | Some _ => Val st
  | None => match make_index c st with Some st' => Val st' | None => UB end
  end.
(** cpp:1495-1499: the possible followers of each position of a frame. *)
Definition followers_by_dist (now next : particles) (range : Z) : outcome (list folmap) :=
  osequence (map (fun p => euclid_by_dist next p range) (pts now)).
(** cpp:1492-1501: the loop over pairs of successive frames. *)
Fixpoint link_frames (range : Z) (frames : list particles) (tm : trajmap) : outcome trajmap :=
  match frames with
  | now :: ((next :: _) as rest) =>
      obind (followers_by_dist now next range) (fun fol =>
      match trajmap_push tm fol (length (pts next)) with
      | Some tm' => link_frames range rest tm'
      | None => UB
      end)
  | _ => Val tm
  end.
(** cpp:1477-1512 [link].  [UB] without frame: positions[0] (cpp:1491). *)
Definition link_all (c : config) (radius : Z) (frames : list particles) : outcome (list particles * trajindex) :=
  obind (osequence (map (ensure_index c) frames)) (fun fs =>
  match fs with
  | [] => UB
  | first :: _ =>
      obind (link_frames (radius * 2) fs (trajmap_new (length (pts first)))) (fun tm =>
      match index_of_map tm with Some ti => Val (fs, ti) | None => UB end)
  end).

(** cpp:572-607 [removeDrift(displFile, t_offset)].  The file is the list of the numbers that can be read from it, in order; when
    there is none left the extraction fails and the displacement stays at (or is set to) zero.  [next_num]: one extraction. *)
Definition next_num (nums : list Z) : Z * list Z := match nums with [] => (0%Z, []) | x :: nums' => (x, nums') end.
(** cpp:580-581: two numbers skipped per time step. *)
Fixpoint skip_pairs (k : nat) (nums : list Z) : list Z :=
  match k with O => nums | S k' => skip_pairs k' (snd (next_num (snd (next_num nums)))) end.
(** cpp:574, 582-583: displacements read for the steps t with t + t_offset < n, zero for the others ([m]: steps left). *)
Fixpoint read_displ (n t_offset t m : nat) (nums : list Z) : list (list Z) :=
  match m with
  | O => []
  | S m' =>
      if t + t_offset <? n then
        let (x, r1) := next_num nums in
        let (y, r2) := next_num r1 in
        [x; y; 0%Z] :: read_displ n t_offset (S t) m' r2
      else [0; 0; 0]%Z :: read_displ n t_offset (S t) m' nums
  end.
(** cpp:587: partial_sum. *)
Fixpoint running (acc : list Z) (l : list (list Z)) : list (list Z) :=
  match l with [] => [] | d :: l' => let s := Particles_Model.vadd acc d in s :: running s l' end.
Definition partial_sum (l : list (list Z)) : list (list Z) :=
  match l with [] => [] | d :: l' => d :: running d l' end.
(** cpp:589-594: the largest of the displacements and zero along x and y. *)
Definition max_displ (l : list (list Z)) : list Z :=
  fold_left (fun m d => [Z.max (nth 0 m 0%Z) (nth 0 d 0%Z); Z.max (nth 1 m 0%Z) (nth 1 d 0%Z); nth 2 m 0%Z]) l [0; 0; 0]%Z.
Definition vsub (p v : list Z) : list Z := map (fun xy => (fst xy - snd xy)%Z) (combine p v).
(** cpp:595-601: the largest is subtracted and the frames are shifted ([operator+=], Particles_Model.shift). *)
Definition drift_shifts (n t_offset : nat) (nums : list Z) : list (list Z) :=
  let sums := partial_sum (read_displ n t_offset 0 n (skip_pairs t_offset nums)) in
  map (fun d => vsub d (max_displ sums)) sums.
(** [None]: the file cannot be opened (cpp:603-604). *)
Definition remove_drift_file (file : option (list Z)) (t_offset : nat) (frames : list particles) : list particles :=
  match file with
  | None => frames
  | Some nums => map (fun fd => shift (fst fd) (snd fd)) (combine frames (drift_shifts (length frames) t_offset nums))
  end.
(** cpp:43-49 constructor from positions, 60-66 constructor from files after [fill]. *)
Definition construct (c : config) (radius : Z) (file : option (list Z)) (t_offset : nat) (frames : list particles) : outcome (list particles * trajindex) :=
  link_all c radius (remove_drift_file file t_offset frames).

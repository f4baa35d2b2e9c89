(** Model of multiscale/src/center.hpp: centres and removal of overlapping centres.
    Numbers as in Box_Model: integers in a common unit, no rounding.  The tolerance of removeOverlapping is the
    fraction tn/td; box edges are then in units td times smaller, so that they remain integers. *)
Require Import ZArith List Bool Arith.
Require Import Verif.Base Verif.Box_Model Verif.RTree_Model Verif.Traj_Model.
Import ListNotations.
Local Open Scope Z_scope.

(** center.hpp:17-53 [Center<D>]: D is the length of [coords]. *)
Record center := mkCenter { coords : list Z; radius : Z; intensity : Z }.

(** center.hpp:43-49 [operator-]: the squared distance. *)
Fixpoint sqdist (a b : list Z) : Z :=
  match a, b with
  | x :: a', y :: b' => (x - y) * (x - y) + sqdist a' b'
  | _, _ => 0
  end.
Definition csqdist (a b : center) : Z := sqdist (coords a) (coords b).

(** center.hpp:71-81 [get_bb], edges multiplied by td. *)
Definition get_bb (tn td : Z) (c : center) : box :=
  map (fun x => (x * td - radius c * tn, x * td + radius c * tn)) (coords c).
(** center.hpp:82-92 [get_bb_margin], edges multiplied by td. *)
Definition get_bb_margin (td m : Z) (c : center) : box := map (fun x => (x * td - m * td, x * td + m * td)) (coords c).

(** center.hpp:128 the test of removeOverlapping: tolsq * d^2 < (r1+r2)^2, multiplied by td^2. *)
Definition near_tol (tn td : Z) (a b : center) : bool :=
  tn * tn * csqdist a b <? td * td * ((radius a + radius b) * (radius a + radius b)).
(** center.hpp:158 the test of removeOverlapping_brute_force. *)
Definition near_sum (a b : center) : bool :=
  csqdist a b <? (radius a + radius b) * (radius a + radius b).
(** center.hpp:189-190 the test of removeHalfOverlapping. *)
Definition near_half (a b : center) : bool :=
  csqdist a b <? Z.max (radius a) (radius b) * Z.max (radius a) (radius b).

(** center.hpp:125-132 and 186-195: is one of the gathered centres too near?  [None]: filtered is read out of range. *)
Fixpoint any_near (near : center -> center -> bool) (filtered : list center) (p : center) (qs : list nat) : option bool :=
  match qs with
  | [] => Some false
  | q :: qs' => match nth_error filtered q with
                | None => None
                | Some f => if near p f then Some true else any_near near filtered p qs'
                end
  end.

(** center.hpp:117-138 and 177-201: the common loop of removeOverlapping and removeHalfOverlapping over the sorted
    centres.  [bb] is the box of a centre, [near] the norm 2 test. *)
Fixpoint filter_loop (c : config) (bb : center -> box) (near : center -> center -> bool)
    (ps : list center) (tree : rtree) (filtered : list center) : option (rtree * list center) :=
  match ps with
  | [] => Some (tree, filtered)
  | p :: ps' =>
      match any_near near filtered p (map lid (gather (AcceptOverlapping (bb p)) tree)) with
      | None => None
      | Some true => filter_loop c bb near ps' tree filtered
      | Some false =>
          match insert c tree (mkLeaf (length filtered) (bb p)) with
          | None => None
          | Some tree' => filter_loop c bb near ps' tree' (filtered ++ [p])
          end
      end
  end.

(** center.hpp:107-142 [removeOverlapping] and center.hpp:167-202 [removeHalfOverlapping], after the sort: the
    returned tree and the new content of [centers]. *)
Definition remove_overlapping (c : config) (tn td : Z) (sorted : list center) : option (rtree * list center) :=
  filter_loop c (get_bb tn td) (near_tol tn td) sorted empty_tree [].
Definition remove_half_overlapping (c : config) (sorted : list center) : option (rtree * list center) :=
  filter_loop c (get_bb 1 1) near_half sorted empty_tree [].

(** center.hpp:143-166 [removeOverlapping_brute_force], after the sort. *)
Fixpoint brute_loop (near : center -> center -> bool) (ps filtered : list center) : list center :=
  match ps with
  | [] => filtered
  | p :: ps' => if existsb (near p) filtered then brute_loop near ps' filtered else brute_loop near ps' (filtered ++ [p])
  end.
Definition remove_brute_force (sorted : list center) : list center := brute_loop near_sum sorted [].

(** center.hpp:115,150,175: std::sort by intensity is not stable; any sorted rearrangement is a possible result. *)
Definition sorted_by_intensity (l : list center) : Prop :=
  forall i j a b, (i < j)%nat -> nth_error l i = Some a -> nth_error l j = Some b -> intensity a <= intensity b.

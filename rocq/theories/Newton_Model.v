(** Model of the positions better than the pixel in graphic/tracker.cpp: centroid, getSubPixel, getIntensities and TrackerIterator::operator*.
    Pixels and coordinates are exact rationals instead of floats and doubles; infinities and NaN, that appear in divisions by zero, are kept. *)
Require Import List Bool Arith ZArith QArith Qround.
Require Import Verif.Base Verif.Traj_Model Verif.Particles_Model Verif.Boo_Model Verif.Corr_Model Verif.Peaks_Model Verif.Newton_Spec.
Import ListNotations.
Local Open Scope nat_scope.

Definition Qneg (q : Q) : bool := negb (Qle_bool 0 q).
(** tracker.cpp:728: -d/dd; a sum that cancels is +0 *)
Definition newton (d dd : Q) : num := if Qeq_bool dd 0 then (if Qeq_bool d 0 then NaN else Inf (negb (Qneg d))) else Num (- d / dd)%Q.
(** tracker.cpp:731-733 *)
Definition plus_pixel (i : nat) (c : num) : num := match c with Num q => Num (q + inject_Z (Z.of_nat i))%Q | _ => c end.
(** tracker.cpp:747: v[0]<0 *)
Definition negative (c : num) : bool := match c with Num q => Qneg q | Inf b => b | NaN => false end.
(** The product of a double by a number *)
Definition times (r : Q) (c : num) : num := match c with Num q => Num (q * r)%Q | Inf b => if Qeq_bool r 0 then NaN else Inf (xorb b (Qneg r)) | NaN => NaN end.

(** boost::minmax_element, dereferenced *)
Definition extremes (l : list Q) : outcome (Q * Q) :=
  match l with
  | [] => UB
  | x :: r => Val (fold_left (fun a b => if Qneg (b - a) then b else a) r x, fold_left (fun a b => if Qneg (a - b) then b else a) r x)%Q
  end.

Section Image.
  Variables (n0 n1 n2 : nat) (data : list Q).
  (** tracker.cpp:670-672 *)
  Definition coef_prime : list Q := [1; -8#1; 0; 8; -1]%Q.
  Definition coef_sec : list Q := [-1; 16; -30#1; 16; -1]%Q.
  Definition at_offset (l : nat) (z : Z) : outcome Q := let p := (Z.of_nat l + z)%Z in if (p <? 0)%Z then UB else at_index data (Z.to_nat p).
  (** tracker.cpp:721-727: one of the two sums over the five pixels around pixel [l] in a dimension of stride [s] *)
  Definition derivative (coefs : list Q) (l s : nat) : outcome Q :=
    omap (fun vs => fold_left Qplus (map (fun vc => (fst vc * snd vc)%Q) (combine vs coefs)) 0%Q) (osequence (map (fun mi => at_offset l (mi * Z.of_nat s)) [-2; -1; 0; 1; 2]%Z)).
  (** tracker.cpp:717-729: one dimension, of [n] pixels *)
  Definition shift (l n s : nat) : outcome num :=
    if n <? 2 * scope + 1 then Val (Num 0%Q) else obind (derivative coef_prime l s) (fun d => omap (newton d) (derivative coef_sec l s)).
  (** tracker.cpp:688-735 [centroid::operator()] *)
  Definition discarded : list num := repeat (Num (-1)%Q) 3.
  Definition centroid (l : nat) : outcome (list num) :=
    let i := l / (n1 * n2) in let j := (l mod (n1 * n2)) / n2 in let k := (l mod (n1 * n2)) mod n2 in
    obind (neighbourhood Q n0 n1 n2 data l) (fun ngb => obind (extremes ngb) (fun mm => obind (at_index data l) (fun x =>
      if Qneg (fst mm) then Val discarded
      else if negb (Qeq_bool x (snd mm)) then Val discarded
      else osequence (map (fun nsi => omap (plus_pixel (snd nsi)) (shift l (fst (fst nsi)) (snd (fst nsi)))) [(n0, n1 * n2, i); (n1, n2, j); (n2, 1, k)])))).

  (** The particles: positions and edges of the box *)
  Record tracked := mkTracked { positions : list (list num); box : list (Q * Q) }.
  (** tracker.cpp:741: swap(v[0], v[2]) *)
  Definition revert {A} (v : list A) : list A := match v with [a; b; c] => [c; b; a] | _ => v end.
  Definition edge (n : nat) : Q * Q := (0, inject_Z (Z.of_nat n))%Q.
  (** tracker.cpp:810-848, end of [getSubPixel]; [kept]: the pixel centres left by the automatic threshold (Peaks_Model), [flat_positions] of the map without it. *)
  Definition sub_pixel (fortran : bool) (kept : list nat) : outcome tracked :=
    omap (fun vs => let ps := filter (fun v => match v with c :: _ => negb (negative c) | [] => true end) vs in
      if fortran then mkTracked (map revert ps) [edge n2; edge n1; edge n0] else mkTracked ps [edge n0; edge n1; edge n2])
      (osequence (map centroid (rev kept))).

  (** tracker.cpp:447: conversion to size_t *)
  Definition to_size (c : num) : outcome nat := match c with Num q => if Qle_bool q (-1) then UB else Val (Z.to_nat (Qfloor q)) | _ => UB end.
  (** tracker.cpp:439-453 [getIntensities]; there are fewer than 2^31 pixels (the sum of the strides is an int) *)
  Definition intensity (fortran : bool) (v : list num) : outcome Q :=
    obind (osequence (map to_size (if fortran then revert v else v))) (fun cs =>
      omap (fun x => x / inject_Z (Z.of_nat (n0 * n1 * n2)))%Q (at_index data (list_sum (map (fun sc => fst sc * snd sc) (combine [n1 * n2; n2; 1] cs))))).
  Definition intensities (fortran : bool) (ps : list (list num)) : outcome (list Q) := osequence (map (intensity fortran) ps).

  (** particles.cpp:124-133, by v = (1, 1, ratio) *)
  Definition scale (ratio : Q) (c : tracked) : tracked :=
    mkTracked (map (fun v => match v with [x; y; z] => [times 1 x; times 1 y; times ratio z] | _ => v end) (positions c))
      (map (fun rb => (fst (snd rb), snd (snd rb) * fst rb)%Q) (combine [1; 1; ratio]%Q (box c))).
  (** tracker.cpp:916-955 [TrackerIterator::operator*]: the particles returned, the cache, and the intensities written if any.  [cache]: the member centers; [kept]: the result
      of the first steps of trackXYZ on the image of the time step. *)
  Definition dereference (cache : option tracked) (reached_end export fortran : bool) (ratio : Q) (no_box : list (Q * Q)) (kept : list nat) : outcome (tracked * option tracked * option (list Q)) :=
    match cache with
    | Some c => Val (c, cache, None)
    | None =>
        if reached_end then let c := mkTracked [] no_box in Val (c, Some c, None)
        else obind (sub_pixel fortran kept) (fun c =>
          obind (if export then omap Some (intensities fortran (positions c)) else Val None) (fun written =>
          let s := scale ratio c in Val (s, Some s, written)))
    end.
End Image.

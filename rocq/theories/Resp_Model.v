(** Model of the Gaussian kernels and of the response at intermediate scales, multiscale/src/octavefinder.cpp.
    Pixel values, kernels and their products are exact integers (fixed point); widths and scales are integers in a unit of 1/s. *)
Require Import ZArith List Bool Arith.
Require Import Verif.Base Verif.Traj_Model Verif.Particles_Model Verif.Corr_Model Verif.RTree_Model Verif.Boo_Model Verif.Pyramid_Model.
Import ListNotations.
Local Open Scope nat_scope.

Section Kernels.
  (** [gaussian m sigma]: cv::getGaussianKernel, m rows; [s]: the unit. *)
  Variables (K : Type) (gaussian : nat -> Z -> K) (s : Z).
  (** octavefinder.cpp:21: ((int)(sigma*4+0.5)*2 + 1)|1, for sigma >= 0 *)
  Definition kernel_rows (sigma : Z) : nat := Nat.lor (Z.to_nat ((8 * sigma + s) / (2 * s)) * 2 + 1) 1.
  (** the conversion of 100*sigma to size_t *)
  Definition kernel_key (sigma : Z) : nat := Z.to_nat (100 * sigma / s).
  (** std::map::find *)
  Fixpoint kernel_find (k : nat) (cache : list (nat * K)) : option K :=
    match cache with [] => None | (k', v) :: c => if k' =? k then Some v else kernel_find k c end.
  (** octavefinder.cpp:18-35 [get_kernel]: the kernel and the static map afterwards.  The critical section makes concurrent calls a sequence. *)
  Definition get_kernel (sigma : Z) (cache : list (nat * K)) : K * list (nat * K) :=
    match kernel_find (kernel_key sigma) cache with
    | Some k => (k, cache)
    | None => let k := gaussian (kernel_rows sigma) sigma in (k, (kernel_key sigma, k) :: cache)
    end.
  (** A history of calls from the start of the program: the kernels returned, the map. *)
  Fixpoint get_kernels (sigmas : list Z) (cache : list (nat * K)) : list K * list (nat * K) :=
    match sigmas with
    | [] => ([], cache)
    | x :: l => let (k, c) := get_kernel x cache in let (ks, c') := get_kernels l c in (k :: ks, c')
    end.
End Kernels.

(** gx[x] += v *)
Definition add_at (x : nat) (v : Z) (g : list Z) : outcome (list Z) := obind (at_index g x) (fun a => write x (a + v)%Z g).
(** octavefinder.cpp:645-648, 721-724: resp += gx[x] * *ker++ *)
Definition weighted (g ker : list Z) : Z := fold_left (fun r gk => (r + fst gk * snd gk)%Z) (combine g ker) 0%Z.
(** for(int x=a; x<b; ++x) *)
Definition span_of (a b : nat) : list nat := seq a (b - a).

(** octavefinder.cpp:629-650: [rows] x [cols] pixels of the layer, row after row; get_width() is rows and get_height() is cols (octavefinder.hpp:28-29);
    max(0, a-b) is the subtraction of natural numbers; the pixel is (cx, cy) = (ci[0], ci[1]). *)
Definition response2 (rows cols : nat) (data ker : list Z) (cx cy : nat) : outcome Z :=
  let m := length ker in let h := m / 2 in
  let xmin := cx + h + 1 - rows in let xmax := Nat.min m (cx + h + 1) in
  let ymin := cy + h + 1 - cols in let ymax := Nat.min m (cy + h + 1) in
  omap (fun gx => weighted gx ker)
    (ofold (fun y gx =>
       let v := (cy + h - y) * cols + (cx + h - xmin) in
       ofold (fun x gx => obind (at_index data (v - (x - xmin))) (fun p => obind (at_index ker y) (fun k => add_at x (p * k)%Z gx))) (span_of xmin xmax) gx)
     (span_of ymin ymax) (repeat 0%Z m)).

(** cv::borderInterpolate(p, n, BORDER_DEFAULT): reflection around the first and the last pixel (library function). *)
Definition mirror (p : Z) (n : nat) : nat :=
  if n =? 1 then 0 else let q := Z.to_nat (p mod (2 * (Z.of_nat n - 1))) in if q <? n then q else 2 * (n - 1) - q.
(** octavefinder.cpp:667-672 [OctaveFinder1D::gaussianResponse]; one row of [n] = get_height() pixels. *)
Definition response1 (n : nat) (data ker : list Z) (cx : nat) : outcome Z :=
  let m := length ker in
  ofold (fun x r => obind (at_index data (mirror (Z.of_nat cx - Z.of_nat x + Z.of_nat (m / 2)) n)) (fun p => omap (fun k => (r + p * k)%Z) (at_index ker x))) (seq 0 m) 0%Z.

(** octavefinder.cpp:688-726 [OctaveFinder3D::gaussianResponse]; get_depth() is the number of planes; [im] is m x m. *)
Definition response3 (planes rows cols : nat) (data ker : list Z) (cx cy cz : nat) : outcome Z :=
  let m := length ker in let h := m / 2 in
  let xmin := cx + h + 1 - rows in let xmax := Nat.min m (cx + h + 1) in
  let ymin := cy + h + 1 - cols in let ymax := Nat.min m (cy + h + 1) in
  let zmin := cz + h + 1 - planes in let zmax := Nat.min m (cz + h + 1) in
  obind (ofold (fun z im =>
    ofold (fun y im =>
      let v := ((cz + h - z) * rows + (cy + h - y)) * cols + (cx + h - xmin) in
      let re := y * m + xmin in
      ofold (fun x im => obind (at_index data (v - (x - xmin))) (fun p => obind (at_index ker z) (fun k => add_at (re + (x - xmin)) (p * k)%Z im))) (span_of xmin xmax) im)
    (span_of ymin ymax) im) (span_of zmin zmax) (repeat 0%Z (m * m))) (fun im =>
  omap (fun gx => weighted gx ker)
    (ofold (fun y gx =>
       ofold (fun x gx => obind (at_index im (y * m + xmin + (x - xmin))) (fun p => obind (at_index ker y) (fun k => add_at x (p * k)%Z gx))) (span_of xmin xmax) gx)
     (span_of ymin ymax) (repeat 0%Z m))).

Section Scale.
  (** [kernel scale k]: the kernel of the width get_iterative_radius(scale, k); [layersG]: the Gaussian layers. *)
  Variables (s : Z) (rows cols : nat) (layersG : list (list Z)) (kernel : Z -> nat -> list Z).
  (** octavefinder.cpp:614-650 [OctaveFinder::gaussianResponse].  [(scale-k)^2+1 == 1] is exact here: only for scale = k; [UB] without layer. *)
  Definition gaussian_response (ci : list nat) (scale : Z) : outcome Z :=
    if (scale <? 0)%Z then Throw else
    match ci with
    | cx :: cy :: _ =>
        let k := Nat.min (Z.to_nat (scale / s)) (length layersG - 1) in
        obind (at_index layersG k) (fun data =>
        if (scale =? Z.of_nat k * s)%Z then at_index data (cy * cols + cx) else response2 rows cols data (kernel scale k) cx cy)
    | _ => Throw
    end.
End Scale.

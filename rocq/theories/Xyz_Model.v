(** Model of graphic/tracker.cpp:417-436, [Tracker::trackXYZ]: the filter, the search of the pixel centres and the positions better than the pixel, one after the other on the same block of memory.
    Pixels are integers in some unit (floats, in exact arithmetic); the display and the messages are not modelled. *)
Require Import List Bool Arith ZArith QArith.
Require Import Verif.Base Verif.Traj_Model Verif.Particles_Model Verif.Tracker_Model Verif.Peaks_Model Verif.Newton_Spec Verif.Newton_Model.
Import ListNotations.
Local Open Scope nat_scope.
Section Xyz.
  Variables (n0 n1 n2 : nat).
  (** tracker.cpp:500-523 [FFTapplyMask], on the padded block; see Fft_Model *)
  Variable band : list Z -> list Z.
  (** tracker.cpp:546-644 [findPixelCenters], the threshold being multiplied by the number of pixels (556) because the transforms multiply the image by it *)
  Definition centers (threshold : Z) (data : list Z) (m : list bool) : outcome (list bool) :=
    find_pixel_centers Z (fun x => (threshold * Z.of_nat (elements n0 n1 n2) <=? x)%Z) Z.ltb n0 n1 n2 data m.
  Definition pixel_value (data : list Z) (p : nat) : Z := nth p data 0%Z.
  (** tracker.cpp:759-808, first part of [getSubPixel]: [None] when the loop of the automatic threshold does not end within the fuel *)
  Definition candidates (auto : bool) (fuel : nat) (data : list Z) (m : list bool) : outcome (option (list nat)) :=
    if auto then auto_threshold (pixel_value data) fuel (flat_positions m) else Val (Some (by_intensity (pixel_value data) (flat_positions m))).
  (** tracker.cpp:417-436; the result and the map of the centres left for the next image *)
  Definition track_xyz (threshold : Z) (auto fortran : bool) (fuel : nat) (m : list bool) (block : list Z) : outcome (option tracked * list bool) :=
    obind (unpad Z 0%Z n0 n1 n2 true (band block)) (fun u => let data := snd u in
    obind (centers threshold data m) (fun m' =>
    obind (candidates auto fuel data m') (fun kept =>
    match kept with
    | None => Val (None, m')
    | Some l => omap (fun c => (Some c, m')) (sub_pixel n0 n1 n2 (map inject_Z data) fortran l)
    end))).
End Xyz.

(** Model of the memory of the 3D finder and of the drawing and shrinking of volumes, multiscale/src/octavefinder.cpp and octavefinder.hpp. *)
Require Import ZArith List Bool Arith QArith.
Require Import Verif.Base Verif.Traj_Model Verif.Particles_Model Verif.Corr_Model Verif.Boo_Model Verif.Multi_Model.
Import ListNotations.
Local Open Scope Z_scope.

(** product of two int (32 bits); [UB] when it does not fit *)
Definition int_mul (a b : Z) : outcome Z := if (- 2 ^ 31 <=? a * b) && (a * b <? 2 ^ 31) then Val (a * b) else UB.
(** octavefinder.cpp:52-97 [OctaveFinder3D::OctaveFinder3D]: size of the allocation (or of the file), in bytes, and first byte of each image.
    sizeof(PixelType) = 4. Products of size_t are exact (less than 2^64). *)
Record memory := { allocated : Z; layersG : list Z; layers : list Z; layersG2D : list Z }.
Definition octave3D (nplanes nrows ncols : Z) (nbLayers : nat) : outcome memory :=
  omap (fun nbpixels =>
    let g := map (fun i => Z.of_nat i * nbpixels * 4) (seq 0 (nbLayers + 3)) in
    {| allocated := nbpixels * 4 * (Z.of_nat nbLayers + 3); layersG := g;
       layers := map (fun i => (Z.of_nat i + Z.of_nat (length g)) * nbpixels * 4) (seq 0 (nbLayers + 2));
       layersG2D := g |})
  (obind (int_mul nplanes nrows) (fun p => int_mul p ncols)).
(** address of pixel (k, j, i) of a contiguous OpenCV image of [rows] x [cols] pixels per plane *)
Definition voxel (base rows cols k j i : Z) : Z := base + ((k * rows + j) * cols + i) * 4.
(** address of pixel (k, p) of a contiguous two-dimensional OpenCV image of [cols] columns *)
Definition pixel (base cols k p : Z) : Z := base + (k * cols + p) * 4.

(** octavefinder.hpp:204-221 [drawsphere]: images are functions of (k, j, i); integers from the truncation of max(0, z-r) to those less than min(size, z+r+1) *)
Section Draw.
  Variable T : Type.
  Definition span (z r : Q) (size : nat) : list nat :=
    let first := Z.to_nat (trunc (if Qle_bool (z - r) 0 then 0 else z - r)%Q) in
    filter (fun k => negb (Qle_bool (z + r + 1)%Q (inject_Z (Z.of_nat k)))) (seq first (size - first)).
  Definition sq (x : Q) : Q := (x * x)%Q.
  Definition draw1 (im : nat -> nat -> nat -> T) (k j i : nat) (v : T) : nat -> nat -> nat -> T :=
    fun k' j' i' => if ((k' =? k) && (j' =? j) && (i' =? i))%nat then v else im k' j' i'.
  Definition drawsphere (planes rows cols : nat) (im : nat -> nat -> nat -> T) (z y x r : Q) (v : T) : nat -> nat -> nat -> T :=
    fold_left (fun im k => fold_left (fun im j => fold_left (fun im i =>
      if Qle_bool (r * r)%Q (sq (inject_Z (Z.of_nat i) - x) + sq (inject_Z (Z.of_nat j) - y) + sq (inject_Z (Z.of_nat k) - z))%Q then im else draw1 im k j i v)
      (span x r cols) im) (span y r rows) im) (span z r planes) im.
End Draw.

(** octavefinder.hpp:222-238 [volume_shrink]. One voxel of the small volume; [large]: [UB] outside. std::accumulate starts with the int 0: for a floating point
    type each partial sum is converted to int ([add]); the result is converted to the type of the image ([finish]).
    The sum of [factor] integer pixels is assumed to fit in an int. *)
Section Shrink.
  Variables (T : Type) (add : Z -> T -> Z) (finish : Q -> T).
  Variables (planes rows cols : nat) (large : nat -> nat -> nat -> T).
  Definition read (k j i : nat) : outcome T := if ((k <? planes) && (j <? rows) && (i <? cols))%nat then Val (large k j i) else UB.
  Definition accumulate (k j i factor : nat) : outcome Z := ofold (fun m a => omap (add a) (read k j (i + m))) (seq 0 factor) 0.
  Definition shrunk (factor k j i : nat) : outcome T :=
    omap (fun v => finish (inject_Z v / inject_Z (Z.of_nat (factor * factor * factor)) + (1 # 2))%Q)
     (ofold (fun mk v => ofold (fun mj v => omap (Z.add v) (accumulate (factor * k + mk) (factor * j + mj) (factor * i) factor)) (seq 0 factor) v) (seq 0 factor) 0).
End Shrink.
(** integer pixels *)
Definition shrunk_int := shrunk Z Z.add trunc.
(** floating point pixels (exact) *)
Definition shrunk_float := shrunk Q (fun a x => trunc (inject_Z a + x)%Q) (fun q => q).

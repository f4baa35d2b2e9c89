(** Model of the centres of all octaves, multiscale/src/multiscalefinder.hpp. *)
Require Import ZArith List Bool Arith QArith.
Require Import Verif.Base Verif.Traj_Model Verif.Particles_Model Verif.Corr_Model Verif.Boo_Model.
Import ListNotations.
Local Open Scope Q_scope.

(** center.hpp:27-53: coordinates, scale or radius (type [S]), intensity *)
Record centre (S : Type) := { xs : list Q; r : S; shine : Z }.
Arguments xs {S}. Arguments r {S}. Arguments shine {S}. Arguments Build_centre {S}.

(** conversion of a double to int: towards zero *)
Definition trunc (x : Q) : Z := Z.quot (Qnum x) (Zpos (Qden x)).
(** 2^(o-1) *)
Definition octave_step (o : nat) : Q := Qpower 2 (Z.of_nat o - 1).

Section Multi.
  (** radii, their product and the power of two of a rational: real numbers *)
  Variables (R : Type) (times : R -> R -> R) (pow2 : Q -> R).
  (** the number of layers, and prefactor * preblur_radius (the same for all octaves) *)
  Variables (n : positive) (unit : R).
  (** [found o]: what subpix gives for octave o (pixels and layers); [scale_subpix o ci] of that octave; [planar]: true in 2D *)
  Variables (octaves : nat) (found : nat -> list (centre Q)) (scale_subpix : nat -> list Z -> outcome Q) (planar : bool).

  (** octavefinder.hpp:55-57 [scale] *)
  Definition scale (c : Q) : R := times unit (pow2 ((c + 1) / inject_Z (Zpos n))).
  (** multiscalefinder.hpp:138-147 [previous_octave_coords] *)
  Definition previous_octave_coords (c : centre Q) : list Z :=
    map (fun x => trunc (x * 2 + (1 # 2))) (xs c) ++ [trunc (r c + inject_Z (Zpos n) + (1 # 2))].
  (** multiscalefinder.hpp:45, 148-156 [seam]: does nothing in 1D and 3D *)
  Definition seam (o : nat) (c : centre Q) : outcome (centre Q) :=
    if planar && negb (Qle_bool 1 (r c)) then
      omap (fun s => Build_centre (xs c) (s - inject_Z (Zpos n)) (shine c)) (scale_subpix o (previous_octave_coords c))
    else Val c.
  (** multiscalefinder.hpp:113-120: pixels and layers of octave o to lengths *)
  Definition lengths (o : nat) (c : centre Q) : centre R :=
    Build_centre (map (fun x => x * octave_step o) (xs c)) (times (scale (r c)) (pow2 (inject_Z (Z.of_nat o - 1)))) (shine c).
  (** one octave, [o0] is the first used *)
  Definition one_octave (o0 o : nat) : outcome (list (centre R)) :=
    omap (map (lengths o)) (if (o0 <? o)%nat then osequence (map (seam (o - 1)) (found o)) else Val (found o)).
  (** multiscalefinder.hpp:94-125 [subpix]; [old]: the content of the container before *)
  Definition subpix (use0 : bool) (old : list (centre R)) : outcome (list (centre R)) :=
    let o0 := if use0 then 0%nat else 1%nat in
    omap (@concat (centre R)) (osequence (map (one_octave o0) (seq o0 (octaves - o0)))).
End Multi.

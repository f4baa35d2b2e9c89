(** Model of the settings of the 3D finder: deconvolution, first blur, ratio of pixel sizes, multiscale/src/octavefinder.cpp, octavefinder.hpp and multiscalefinder.cpp. *)
Require Import List Bool Arith.
Require Import Verif.Traj_Model Verif.Particles_Model Verif.Boo_Model Verif.Corr_Model Verif.Pyramid_Model Verif.Deconv_Model.
Import ListNotations.

Section Settings.
  (** [K]: numbers of a kernel; [R]: ratios *)
  Variables (K R : Type) (one half : R).
  (** octavefinder.hpp:121-124 and the dimensions of the layers *)
  Record settings := { shape : list nat; ZXratio : R; halfZ : bool; deconv : bool; kernel : list K }.
  (** octavefinder.cpp:52-53 (incore or not) *)
  Definition create (sh : list nat) : settings := {| shape := sh; ZXratio := one; halfZ := false; deconv := false; kernel := [] |}.
  (** octavefinder.hpp:99 [get_depth] *)
  Definition get_depth (s : settings) : nat := nth (length (shape s) - 3) (shape s) 0.
  (** calls of the user *)
  Inductive call := SetDeconv (b : bool) | LoadKernel (k : list K) | SetHalfZ (b : bool) | SetZX (r : R).
  (** octavefinder.cpp:251-263, octavefinder.hpp:100-102: false when the call throws *)
  Definition apply1 (c : call) (s : settings) : bool * settings :=
    match c with
    | SetDeconv b => if b && negb (length (kernel s) =? get_depth s / 2 + 1) then (false, s)
                     else (true, {| shape := shape s; ZXratio := ZXratio s; halfZ := halfZ s; deconv := b; kernel := kernel s |})
    | LoadKernel k => if negb (length k =? get_depth s / 2 + 1) then (false, s)
                      else (true, {| shape := shape s; ZXratio := ZXratio s; halfZ := halfZ s; deconv := deconv s; kernel := k |})
    | SetHalfZ b => (true, {| shape := shape s; ZXratio := ZXratio s; halfZ := b; deconv := deconv s; kernel := kernel s |})
    | SetZX r => (true, {| shape := shape s; ZXratio := r; halfZ := halfZ s; deconv := deconv s; kernel := kernel s |})
    end.
  (** calls one after the other, exceptions being caught by the user *)
  Definition run1 (h : list call) (s : settings) : settings := fold_left (fun s c => snd (apply1 c s)) h s.

  (** multiscalefinder.cpp:67-90: the ratio is given to all octaves, the other settings to the second one if there is one *)
  Definition at_second (c : call) (os : list settings) : bool * list settings :=
    match os with
    | o0 :: o1 :: r => let x := apply1 c o1 in (fst x, o0 :: snd x :: r)
    | _ => (true, os)
    end.
  Definition apply_all (c : call) (os : list settings) : bool * list settings :=
    match c with SetZX r => (true, map (fun o => snd (apply1 (SetZX r) o)) os) | _ => at_second c os end.
  Definition run_all (h : list call) (os : list settings) : list settings := fold_left (fun os c => snd (apply_all c os)) h os.

  (** [blur3 ratio dims pixels]: inplace_blur3D by the radius of the first blur; [negative], [zero]: pixels *)
  Variables (V C : Type) (fwd : list V -> list C) (bwd : nat -> list C -> list V) (cmul : nat -> C -> K -> C).
  Variables (blur3 : R -> list nat -> list V -> list V) (negative : V -> bool) (zero : V).
  (** octavefinder.cpp:281-302 [OctaveFinder3D::preblur]: the image, modified in place; it has the dimensions of the finder (checked by the callers, 311-324) *)
  Definition preblur (s : settings) (input : list V) : outcome (list V) :=
    if deconv s then
      omap (map (fun x => if negative x then zero else x)) (convolve V C K fwd bwd cmul (shape s) 0 (kernel s) (blur3 one (shape s) input))
    else Val (blur3 (if halfZ s then half else ZXratio s) (shape s) input).
End Settings.
Arguments SetDeconv {K R}. Arguments LoadKernel {K R}. Arguments SetHalfZ {K R}. Arguments SetZX {K R}.

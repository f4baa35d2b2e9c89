(** Model of the filling of the scale space, multiscale/src/octavefinder.cpp and multiscalefinder.cpp. *)
Require Import ZArith List Bool Arith.
Require Import Verif.Base Verif.RTree_Model Verif.Traj_Model Verif.Particles_Model Verif.Corr_Model Verif.Boo_Model Verif.Pyramid_Model.
Import ListNotations.
Local Open Scope nat_scope.

(** An image: its dimensions (cv::Mat::size) and its pixels in memory order. *)
Record img (P : Type) := mkImg { dims : list nat; pix : list P }.
Arguments mkImg {P}. Arguments dims {P}. Arguments pix {P}.
(** octavefinder.hpp:61: the Gaussian layers layersG and the differences of Gaussians layers *)
Record octave (P : Type) := mkOct { lG : list (img P); lD : list (img P) }.
Arguments mkOct {P}. Arguments lG {P}. Arguments lD {P}.
(** What a call leaves: true, or false if an exception left it, with the state. *)
Definition ends (S : Type) : Type := outcome (bool * S).
(** a; b where an exception in a skips b *)
Definition andthen {S} (a : ends S) (b : S -> ends S) : ends S := obind a (fun r => if fst r then b (snd r) else Val r).

Section Fill.
  (** Pixels; [blur i]: the i-th iterative Gaussian blur, [pre]: the first blur, [sub]: the difference of images (library functions). *)
  Variables (P : Type) (blur : nat -> img P -> img P) (pre : img P -> img P) (sub : img P -> img P -> img P).
  (** octavefinder.cpp:139-151, 311-324: the dimensions are compared one by one with those of the first layer *)
  Definition matches (a b : list nat) : bool := (length a =? length b) && forallb (fun d => nth d a 0 =? nth d b 0) (seq 0 (length a)).
  (** octavefinder.cpp:160-172 [OctaveFinder::_fill_internal] *)
  Definition fill_internal2 (o : octave P) : outcome (octave P) :=
    obind (ofold (fun i G => obind (at_index G i) (fun x => write (i + 1) (blur i x) G)) (seq 0 (length (lG o) - 1)) (lG o)) (fun G =>
    obind (ofold (fun i D => obind (at_index G (i + 1)) (fun a => obind (at_index G i) (fun b => write i (sub a b) D))) (seq 0 (length (lD o))) (lD o)) (fun D =>
    Val (mkOct G D))).
  (** octavefinder.cpp:265-274 [OctaveFinder3D::_fill_internal]: the image given is blurred in place, and copied; no difference is computed *)
  Definition fill_internal3 (o : octave P) (temp : img P) : outcome (octave P * img P) :=
    omap (fun x => (mkOct (snd x) (lD o), fst x))
      (ofold (fun i st => let t := blur i (fst st) in omap (fun G => (t, G)) (write (i + 1) t (snd st))) (seq 0 (length (lG o) - 1)) (temp, lG o)).
  Definition fill_internal (three : bool) (o : octave P) (temp : img P) : outcome (octave P * img P) :=
    if three then fill_internal3 o temp else omap (fun o' => (o', temp)) (fill_internal2 o).
  (** octavefinder.cpp:137-155 [fill(Image&)]: the finder and the image given, afterwards *)
  Definition fill (three : bool) (o : octave P) (input : img P) : ends (octave P * img P) :=
    obind (at_index (lG o) 0) (fun g =>
    if matches (dims input) (dims g) then
      obind (write 0 input (lG o)) (fun G => omap (fun r => (true, r)) (fill_internal three (mkOct G (lD o)) input))
    else Val (false, (o, input))).
  (** octavefinder.cpp:309-328 [preblur_and_fill(Image&)], 276-279, 281-299 [preblur]: in 3D the image is blurred in place then copied *)
  Definition preblur_and_fill (three : bool) (o : octave P) (input : img P) : ends (octave P * img P) :=
    obind (at_index (lG o) 0) (fun g =>
    if matches (dims input) (dims g) then
      obind (write 0 (pre input) (lG o)) (fun G => omap (fun r => (true, r)) (fill_internal three (mkOct G (lD o)) (if three then pre input else input)))
    else Val (false, (o, input))).

  (** * All octaves *)
  (** An image of any pixel type is a header on a buffer; values are converted exactly.  Memory: the buffers. *)
  Record mat := mkMat { is_float : bool; buf : nat }.
  (** cv::Mat_<float>(const cv::Mat&): shares the buffer of an image of floats, converts the others to a new one *)
  Definition Mat_of (h : list (img P)) (m : mat) : outcome (list (img P) * mat) :=
    if is_float m then Val (h, m) else omap (fun b => (h ++ [b], mkMat true (length h))) (at_index h (buf m)).
  (** cv::Mat::convertTo: always a new buffer *)
  Definition convertTo (h : list (img P)) (m : mat) : outcome (list (img P) * mat) := omap (fun b => (h ++ [b], mkMat true (length h))) (at_index h (buf m)).
  (** [half]: cv::GaussianBlur or inplace_blur3D by half of the first blur; [up]: the interpolation (Pyramid_Model); [down d]: to dimensions d (Pyramid_Model) *)
  Variables (half up : img P -> img P) (down : list nat -> img P -> img P).
  (** multiscalefinder.cpp:178-183 (2D), 220-226 (1D), 246-255 (3D) [upscale]; [D]: the number of dimensions *)
  Definition upscale (D : nat) (h : list (img P)) (m : mat) : outcome (list (img P) * img P) :=
    obind (if D =? 2 then Mat_of h m else convertTo h m) (fun x =>
    let '(h, half_blurred) := x in
    obind (at_index h (buf half_blurred)) (fun b => omap (fun h => (h, up (half b))) (write (buf half_blurred) (half b) h))).
  (** multiscalefinder.hpp:24-28, 60, 69, 78: get_width, get_height of the whole *)
  Definition dim_back (k : nat) (d : list nat) : nat := nth (length d - k) d 0.
  Definition width (D : nat) (o0 : list nat) : nat := if D =? 1 then 1 else dim_back 2 o0 / 2.
  Definition height (o0 : list nat) : nat := dim_back 1 o0 / 2.
  Definition state : Type := list (octave P) * list (img P).
  Definition fill_octave (three : bool) (o : nat) (im : img P) (s : state) : ends state :=
    obind (at_index (fst s) o) (fun x => obind (fill three x im) (fun r => omap (fun os => (fst r, (os, snd s))) (write o (fst (snd r)) (fst s)))).
  (** multiscalefinder.cpp:96-124 [fill]; the state is the octaves and the memory *)
  Definition fill_all (D : nat) (use0 : bool) (m : mat) (s : state) : ends state :=
    let three := D =? 3 in
    obind (at_index (fst s) 0) (fun o0 => obind (at_index (lG o0) 0) (fun g => obind (at_index (snd s) (buf m)) (fun input =>
    if negb ((dim_back 2 (dims input) =? width D (dims g)) && (dim_back 1 (dims input) =? height (dims g))) then Val (false, s) else
    andthen (if use0 then obind (upscale D (snd s) m) (fun x => fill_octave three 0 (snd x) (fst s, fst x)) else Val (true, s)) (fun s =>
    andthen (if 1 <? length (fst s) then
               obind (at_index (fst s) 1) (fun o1 => obind (convertTo (snd s) m) (fun x => obind (at_index (fst x) (buf (snd x))) (fun copy =>
               obind (preblur_and_fill three o1 copy) (fun r => omap (fun os => (fst r, (os, snd s))) (write 1 (fst (snd r)) (fst s))))))
             else Val (true, s)) (fun s =>
    fold_left (fun acc o => andthen acc (fun s =>
        obind (at_index (fst s) (o - 1)) (fun prev => obind (at_index (lG prev) (length (lG prev) - 3)) (fun a =>
        obind (at_index (fst s) o) (fun x => obind (at_index (lG x) 0) (fun g => fill_octave three o (down (dims g) a) s))))))
      (seq 2 (length (fst s) - 2)) (Val (true, s))))))).
End Fill.

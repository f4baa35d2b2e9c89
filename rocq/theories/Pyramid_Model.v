(** Model of the pyramid of octaves, multiscale/src/multiscalefinder.cpp.  Images are flat lists of pixels in memory order (OpenCV's continuous
    row-major layout); every read and write is checked against the size of the buffer.  Pixel arithmetic is a parameter. *)
Require Import List Bool Arith.
Require Import Verif.Base Verif.Traj_Model Verif.Particles_Model Verif.Corr_Model Verif.RTree_Model Verif.Boo_Model.
Import ListNotations.
Local Open Scope nat_scope.

(** *p = x *)
Definition write {A} (p : nat) (x : A) (m : list A) : outcome (list A) := if p <? length m then Val (RTree_Model.set_nth p x m) else UB.
(** for(int j=0; f(j)<n; ++j), f increasing with f(j) >= j *)
Definition below (f : nat -> nat) (n : nat) : list nat := filter (fun j => f j <? n) (seq 0 n).

(** * Dimensions of the octaves *)
(** multiscalefinder.cpp:22-28: the while loop; [fuel] bounds the number of turns. *)
Fixpoint halves2 (fuel r c : nat) : list (nat * nat) :=
  match fuel with 0 => [] | S f => if (12 <=? r) && (12 <=? c) then (r, c) :: halves2 f (r / 2) (c / 2) else [] end.
(** multiscalefinder.cpp:16-29 [MultiscaleFinder2D::MultiscaleFinder2D]: (rows, cols) of each octave *)
Definition octaves2 (r c : nat) : list (nat * nat) := (2 * r, 2 * c) :: halves2 (S r) r c.
(** multiscalefinder.cpp:36-41, 30-42 *)
Fixpoint halves1 (fuel c : nat) : list nat := match fuel with 0 => [] | S f => if 12 <=? c then c :: halves1 f (c / 2) else [] end.
Definition octaves1 (c : nat) : list nat := 2 * c :: halves1 (S c) c.
(** multiscalefinder.cpp:49-56, 43-57 *)
Fixpoint halves3 (fuel p r c : nat) : list (nat * nat * nat) :=
  match fuel with 0 => [] | S f => if (10 <=? p) && (10 <=? r) && (10 <=? c) then (p, r, c) :: halves3 f (p / 2) (r / 2) (c / 2) else [] end.
Definition octaves3 (p r c : nat) : list (nat * nat * nat) := (2 * p, 2 * r, 2 * c) :: halves3 (S p) p r c.

Section Pixels.
  Variables (P : Type) (zero : P) (half : P -> P -> P) (mean4 : P -> P -> P -> P -> P) (mean8 : list P -> P).

  (** * Downscaling.  The 2D and 1D results start uninitialised ([None]), the 3D one with zeros. *)
  (** multiscalefinder.cpp:139-148; [a] has R x C pixels, the result r x c *)
  Definition downscale2 (R C : nat) (a : list P) (r c : nat) : outcome (list (option P)) :=
    ofold (fun j m => ofold (fun i m =>
        obind (obind (at_index a (2 * i * C + 2 * j)) (fun x => obind (at_index a ((2 * i + 1) * C + 2 * j)) (fun y =>
               obind (at_index a (2 * i * C + (2 * j + 1))) (fun z => omap (fun t => Some (mean4 x y z t)) (at_index a ((2 * i + 1) * C + (2 * j + 1)))))))
          (fun v => write (i * c + j) v m))
      (filter (fun i => 2 * i + 1 <? R) (seq 0 r)) m) (filter (fun j => 2 * j + 1 <? C) (seq 0 c)) (repeat None (r * c)).
  (** multiscalefinder.cpp:149-157 *)
  Definition downscale1 (a : list P) (c : nat) : outcome (list (option P)) :=
    ofold (fun i m => obind (obind (at_index a (2 * i)) (fun x => omap (fun y => Some (half x y)) (at_index a (2 * i + 1)))) (fun v => write i v m)) (seq 0 c) (repeat None c).
  (** multiscalefinder.cpp:158-177 *)
  Definition downscale3 (D R C : nat) (a : list P) (d r c : nat) : outcome (list P) :=
    ofold (fun k m => ofold (fun j m => ofold (fun i m =>
        obind (omap mean8 (osequence (map (fun t => let '(u, v, w) := t in at_index a (((2 * k + u) * R + (2 * j + v)) * C + (2 * i + w)))
                 [(0, 0, 0); (0, 0, 1); (0, 1, 0); (0, 1, 1); (1, 0, 0); (1, 0, 1); (1, 1, 0); (1, 1, 1)])))
          (fun x => write ((k * r + j) * c + i) x m))
      (filter (fun i => 2 * i + 1 <? C) (seq 0 c)) m) (filter (fun j => 2 * j + 1 <? R) (seq 0 r)) m) (filter (fun k => 2 * k + 1 <? D) (seq 0 d)) (repeat zero (d * r * c)).

  (** * Upscaling.  [input] is the half-blurred image (the blur is not modelled).  half x y = 0.5 * (x + y). *)
  (** *u++ = *s++; u++ from [u], reading the input from [s], while 2*i<W *)
  Definition copy_even (input : list P) (s u W : nat) (m : list P) : outcome (list P) :=
    ofold (fun i m => obind (at_index input (s + i)) (fun x => write (u + 2 * i) x m)) (below (fun i => 2 * i) W) m.
  (** *u = 0.5 * ( *(u-1) + *(u+1)), u advancing by [step] *)
  Definition interpolate (u step : nat) (is : list nat) (m : list P) : outcome (list P) :=
    ofold (fun i m => obind (obind (at_index m (u + step * i - 1)) (fun a => omap (half a) (at_index m (u + step * i + 1)))) (fun x => write (u + step * i) x m)) is m.
  (** *v++ = 0.5 * ( *u++ + *w++), n times *)
  Definition between (u v w n : nat) (m : list P) : outcome (list P) :=
    ofold (fun i m => obind (obind (at_index m (u + i)) (fun a => omap (half a) (at_index m (w + i)))) (fun x => write (v + i) x m)) (seq 0 n) m.
  (** multiscalefinder.cpp:178-219 *)
  Definition upscale2 (r c : nat) (input : list P) : outcome (list P) :=
    let H := r * 2 in let W := c * 2 in
    obind (ofold (fun j m => obind (copy_even input (j * c) (2 * j * W) W m) (interpolate (2 * j * W + 1) 2 (below (fun i => 2 * i + 2) W))) (below (fun j => 2 * j) H) (repeat zero (H * W)))
      (ofold (fun j => between (2 * j * W) ((2 * j + 1) * W) ((2 * j + 2) * W) W) (below (fun j => 2 * j + 2) H)).
  (** multiscalefinder.cpp:220-244 *)
  Definition upscale1 (c : nat) (input : list P) : outcome (list P) :=
    obind (ofold (fun i m => obind (at_index input i) (fun x => write (2 * i) x m)) (seq 0 c) (repeat zero (c * 2)))
      (interpolate 1 2 (below (fun i => i + 1) c)).
  (** multiscalefinder.cpp:245-298; the input has [d] planes, the finder was built for [fd] (fill checks rows and columns, lines 98-107, not the
      number of planes).  After the copy of a line the pointer stands at its end; then it advances by one. *)
  Definition upscale3 (fd d r c : nat) (input : list P) : outcome (list P) :=
    let D := 2 * fd in let H := 2 * r in let W := 2 * c in
    obind (ofold (fun k => ofold (fun j m =>
               obind (copy_even input ((k * r + j) * c) ((2 * k * H + 2 * j) * W) W m)
                     (interpolate ((2 * k * H + 2 * j) * W + 2 * length (below (fun i => 2 * i) W)) 1 (below (fun i => 2 * i + 2) W))) (seq 0 r))
             (seq 0 d) (repeat zero (D * H * W))) (fun m =>
    obind (ofold (fun k => ofold (fun j => between ((2 * k * H + 2 * j) * W) ((2 * k * H + (2 * j + 1)) * W) ((2 * k * H + (2 * j + 2)) * W) W) (below (fun j => 2 * j + 2) H)) (below (fun k => 2 * k) D) m)
      (ofold (fun k => between (2 * k * H * W) ((2 * k + 1) * H * W) ((2 * k + 2) * H * W) (H * W)) (below (fun k => 2 * k + 2) D))).
End Pixels.

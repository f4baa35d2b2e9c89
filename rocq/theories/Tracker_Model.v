(** Model of graphic/tracker.hpp and graphic/tracker.cpp: padded image, Fourier mask.  The block of memory is a list; every read and write is
    checked against its size.  Pixel values and their sums are parameters. *)
Require Import List Bool Arith.
Require Import Verif.Traj_Model Verif.Particles_Model Verif.RTree_Model Verif.Boo_Model Verif.Pyramid_Model.
Import ListNotations.

(** A for loop whose body does not use the counter. *)
Fixpoint oiter {W} (n : nat) (f : W -> outcome W) (w : W) : outcome W := match n with 0 => Val w | S n' => obind (f w) (oiter n' f) end.

Section Image.
(** Pixels (float), sums (long double), values given by the input iterator, and their conversion to float. *)
Variables (V T C : Type) (zero : V) (add : T -> V -> T) (zero_sum : T) (conv : C -> V).
(** centersMap.shape(): the dimensions of the image. *)
Variables n0 n1 n2 : nat.
(** tracker.cpp:67-84: FFTmask.shape()[2] is n2/2+1; the lines of the block have twice as many floats. *)
Definition line : nat := 2 * (n2 / 2 + 1).
Definition memsize : nat := n0 * n1 * line.

(** State of the loops: the block, the pointer d, the input not yet read, the sum ([None] : uninitialised). *)
Record filling := mkFill { mem : list V; ptr : nat; input : list C; sum : option T }.
(** d = first++; sum += d++ (through the pointers).  Reading past the end of the input is [UB]. *)
Definition fill_pixel (s : filling) : outcome filling :=
  match input s with
  | [] => UB
  | x :: rest => omap (fun m => mkFill m (S (ptr s)) rest (option_map (fun t => add t (conv x)) (sum s))) (write (ptr s) (conv x) (mem s))
  end.
(** The pixels of the padding: skipped, or set to zero. *)
Definition skip_pad (s : filling) : outcome filling := Val (mkFill (mem s) (S (ptr s)) (input s) (sum s)).
Definition zero_pad (s : filling) : outcome filling := omap (fun m => mkFill m (S (ptr s)) (input s) (sum s)) (write (ptr s) zero (mem s)).
Definition fill_line (pad : filling -> outcome filling) (s : filling) : outcome filling :=
  obind (oiter n2 fill_pixel s) (oiter (line - n2) pad).
(** tracker.hpp:187-206 fillImage: sum is not initialised. *)
Definition fill_image (m : list V) (inp : list C) : outcome filling := oiter n0 (oiter n1 (fill_line skip_pad)) (mkFill m 0 inp None).
(** tracker.hpp:220-243 fillImage_charToUchar *)
Definition fill_image_uchar (m : list V) (inp : list C) : outcome filling := oiter n0 (oiter n1 (fill_line zero_pad)) (mkFill m 0 inp (Some zero_sum)).
(** tracker.hpp:249-265 fillSlice; FFTmask.strides()[0] is n1*(n2/2+1); [acc] is the current value of this->mean. *)
Definition fill_slice (slice : nat) (m : list V) (inp : list C) (acc : option T) : outcome filling :=
  oiter n1 (fill_line skip_pad) (mkFill m (slice * (n1 * (n2 / 2 + 1)) * 2) inp acc).

(** tracker.hpp:284-302 copyImage of a padded image to an output iterator outside the block. *)
Record copying := mkCopy { cmem : list V; cptr : nat; out : list V }.
Definition copy_pixel (s : copying) : outcome copying := omap (fun x => mkCopy (cmem s) (S (cptr s)) (out s ++ [x])) (at_index (cmem s) (cptr s)).
Definition copy_pad (s : copying) : outcome copying := omap (fun m => mkCopy m (S (cptr s)) (out s)) (write (cptr s) zero (cmem s)).
Definition copy_image (m : list V) : outcome copying := oiter n0 (oiter n1 (fun s => obind (oiter n2 copy_pixel s) (oiter (line - n2) copy_pad))) (mkCopy m 0 []).
(** tracker.cpp:357-364 unpad: the output iterator is the beginning of the block itself. *)
Record moving := mkMove { mmem : list V; mptr : nat; res : nat }.
Definition move_pixel (s : moving) : outcome moving := obind (at_index (mmem s) (mptr s)) (fun x => omap (fun m => mkMove m (S (mptr s)) (S (res s))) (write (res s) x (mmem s))).
Definition move_pad (s : moving) : outcome moving := omap (fun m => mkMove m (S (mptr s)) (res s)) (write (mptr s) zero (mmem s)).
Definition unpad (padded : bool) (m : list V) : outcome (bool * list V) :=
  if padded then omap (fun s => (false, mmem s)) (oiter n0 (oiter n1 (fun s => obind (oiter n2 move_pixel s) (oiter (line - n2) move_pad))) (mkMove m 0 0))
  else Val (padded, m).
End Image.

Section Mask.
Variables (B : Type) (n0 n1 : nat) (h2 : nat).
(** FFTmask: a function of three indices, the first below n0, the second below n1, the third below h2 = n2/2+1. *)
Definition mask := nat -> nat -> nat -> B.
Definition set_mask (m : mask) (i j k : nat) (b : B) : mask := fun i' j' k' => if (i' =? i) && (j' =? j) && (k' =? k) then b else m i' j' k'.
(** Assignment of views of a boost::multi_array, element by element in the order of the indices of the view. *)
Definition assign (m : mask) (li lj : list nat) (src dst : nat -> nat -> nat * nat) : mask :=
  fold_left (fun m i => fold_left (fun m j => fold_left (fun m k => set_mask m (fst (dst i j)) (snd (dst i j)) k (m (fst (src i j)) (snd (src i j)) k)) (seq 0 h2) m) lj m) li m.
Definition parity (n : nat) : nat := 1 - n mod 2.
(** tracker.cpp:279-296: rows parity + x of the mask to rows n0-1-x, for x below halfdims[0]-1 = n0/2, columns below halfdims[1]. *)
Definition mirror_first (m : mask) : mask :=
  if 3 <=? n0 / 2 + 1 then assign m (seq 0 (n0 / 2)) (seq 0 (n1 / 2 + 1)) (fun x j => (parity n0 + x, j)) (fun x j => (n0 - 1 - x, j)) else m.
(** tracker.cpp:299-318: columns, on all rows. *)
Definition mirror_second (m : mask) : mask :=
  if 3 <=? n1 / 2 + 1 then assign m (seq 0 n0) (seq 0 (n1 / 2)) (fun i x => (i, parity n1 + x)) (fun i x => (i, n1 - 1 - x)) else m.
(** tracker.cpp:272-319 *)
Definition mirror_mask (m : mask) : mask := mirror_second (mirror_first m).
End Mask.

Section Draw.
Variables (n0 n1 h2 : nat).
(** std::fill on the cells from a to b of one line of the mask. *)
Definition fill_range (m : mask bool) (i j a b : nat) (v : bool) : mask bool := fold_left (fun m k => set_mask bool m i j k v) (seq a (b - a)) m.
(** tracker.cpp:155-185 (and 243-263 with kmin = 0): the first eighth of the mask.  The limits of each line, computed in floating point
    from the radii, are given by [kmin] and [kmax] before the minimum with the length of the line. *)
Variables kmin kmax : nat -> nat -> nat.
Definition draw_line (m : mask bool) (i j : nat) : mask bool :=
  let a := Nat.min h2 (kmin i j) in let b := Nat.min h2 (kmax i j) in
  fill_range (fill_range (fill_range m i j 0 a false) i j a b true) i j b h2 false.
Definition draw (m : mask bool) : mask bool := fold_left (fun m i => fold_left (fun m j => draw_line m i j) (seq 0 (n1 / 2 + 1)) m) (seq 0 (n0 / 2 + 1)) m.
(** tracker.cpp:96-190 makeBandPassMask, 195-269 makeLowPassMask *)
Definition make_band_pass (m : mask bool) : mask bool := mirror_mask bool n0 n1 h2 (draw m).
End Draw.

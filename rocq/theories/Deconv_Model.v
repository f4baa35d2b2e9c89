(** Model of multiscale/src/deconvolution.cpp: spectra and convolutions along one axis, deconvolution kernel.  Fourier transforms (fftw), square roots and sums are parameters;
    int computations do not overflow (images of fewer than 2^31 pixels). *)
Require Import List Bool Arith ZArith.
Require Import Verif.Traj_Model Verif.Particles_Model Verif.RTree_Model Verif.Boo_Model Verif.Corr_Model Verif.Pyramid_Model.
Import ListNotations.

Definition prod (l : list nat) : nat := fold_right Nat.mul 1 l.
(** lib of pointers: n cells from base, every step. *)
Definition read_line {V} (im : list V) (base step n : nat) : outcome (list V) := osequence (map (fun x => at_index im (base + x * step)) (seq 0 n)).
Definition write_line {V} (base step : nat) (vals : list V) (im : list V) : outcome (list V) :=
  ofold (fun xv m => write (base + fst xv * step) (snd xv) m) (combine (seq 0 (length vals)) vals) im.

Section Convolve.
Variables (V C K : Type).
(** fftwf_execute(forward), fftwf_execute(backward), multiplication of a complex by kernel/size. *)
Variables (fwd : list V -> list C) (bwd : nat -> list C -> list V) (cmul : nat -> C -> K -> C).
(** deconvolution.cpp:43-48 *)
Definition apply_kernel (n : nat) (kernel : list K) (f : list C) : outcome (list C) :=
  osequence (map (fun i => obind (at_index f i) (fun c => omap (cmul n c) (at_index kernel i))) (seq 0 (n / 2 + 1))).
(** deconvolution.cpp:39-55 Convolver::operator(), without window *)
Definition conv_line (n step : nat) (kernel : list K) (base : nat) (im : list V) : outcome (list V) :=
  obind (read_line im base step n) (fun l => obind (apply_kernel n kernel (fwd l)) (fun f => write_line base step (bwd n f) im)).
(** The loops over planes and lines, deconvolution.cpp:87-106 and 141-152, on a continuous matrix of dimensions [shape]; division by zero is undefined. *)
Definition for_lines {W} (shape : list nat) (axis : nat) (body : nat -> nat -> nat -> W -> outcome W) (w : W) : outcome W :=
  if length shape <=? axis then Throw else
  let n := nth axis shape 0 in let step := prod (skipn (S axis) shape) in let nbplanes := prod (firstn axis shape) in
  if nbplanes =? 0 then UB else let planestep := prod shape / nbplanes in
  ofold (fun i => ofold (fun j => body n step (i * planestep + j)) (seq 0 step)) (seq 0 nbplanes) w.
(** deconvolution.cpp:135-153 *)
Definition convolve (shape : list nat) (axis : nat) (kernel : list K) (im : list V) : outcome (list V) :=
  for_lines shape axis (fun n step base => conv_line n step kernel base) im.

(** deconvolution.cpp:56-68 fill with a window: x times window[i]; set_hanning gives window[i] from n and i. *)
Variables (S D CD : Type) (hann : nat -> nat -> V -> V) (norm : C -> S) (zero : D) (zeroc : CD) (add : D -> S -> D) (addc : CD -> C -> CD) (finish : nat -> D -> CD -> S).
Definition windowed (windowing : bool) (l : list V) : list V := if windowing then map (fun p => hann (length l) (fst p) (snd p)) (combine (seq 0 (length l)) l) else l.
(** deconvolution.cpp:31-37, 100-104: the sums of the spectra and of the transforms, for each frequency. *)
Definition add_line (windowing : bool) (im : list V) (n step base : nat) (acc : list (D * CD)) : outcome (list (D * CD)) :=
  omap (fun l => map (fun p => (add (fst (fst p)) (norm (snd p)), addc (snd (fst p)) (snd p))) (combine acc (fwd (windowed windowing l)))) (read_line im base step n).
(** deconvolution.cpp:76-111 get_spectrum_1d *)
Definition get_spectrum_1d (shape : list nat) (axis : nat) (windowing : bool) (im : list V) : outcome (list S) :=
  omap (map (fun p => finish (prod (firstn axis shape) * prod (skipn (Datatypes.S axis) shape)) (fst p) (snd p)))
    (for_lines shape axis (fun n step base => add_line windowing im n step base) (repeat (zero, zeroc) (nth axis shape 0 / 2 + 1))).
End Convolve.

Section Kernel.
Variables (V C S K D CD : Type) (fwd : list V -> list C).
Variables (hann : nat -> nat -> V -> V) (norm : C -> S) (zero : D) (zeroc : CD) (add : D -> S -> D) (addc : CD -> C -> CD) (finish : nat -> D -> CD -> S).
(** Linear interpolation (1-dq)*a + dq*b with dq the fractional part of i/qratio; the test 1+b*b > 1; sqrt(a/b); 1.0f. *)
Variables (lerp : nat -> S -> S -> S) (usable : S -> bool) (ratio : S -> S -> K) (one : K).
(** size_ratio is the fraction rn/rd, and arithmetic on doubles is exact: qratio = bad*rn / (rd*good). *)
Variables rn rd : nat.
(** (size_t)((good-1)*qratio) *)
Definition scaled_size (bad good : nat) : nat := Nat.min bad ((good - 1) * (bad * rn) / (rd * good)).
(** (size_t)(i/qratio) *)
Definition nq (bad good i : nat) : nat := i * (rd * good) / (bad * rn).
(** deconvolution.cpp:120-126 *)
Definition scaled (bad good : nat) (good_sp : list S) : outcome (list S) :=
  osequence (map (fun i => obind (at_index good_sp (nq bad good i)) (fun a => omap (lerp i a) (at_index good_sp (nq bad good i + 1)))) (seq 0 (scaled_size bad good))).
(** deconvolution.cpp:128-131 *)
Definition kernel_of (bad_sp sc : list S) : outcome (list K) :=
  osequence (map (fun i => if i <? length sc then obind (at_index bad_sp i) (fun b => if usable b then omap (fun a => ratio a b) (at_index sc i) else Val one) else Val one) (seq 0 (length bad_sp))).
(** deconvolution.cpp:113-133 get_deconv_kernel, with windows *)
Definition get_deconv_kernel (shape : list nat) (good_axis bad_axis : nat) (im : list V) : outcome (list K) :=
  obind (get_spectrum_1d V C fwd S D CD hann norm zero zeroc add addc finish shape bad_axis true im) (fun bad_sp =>
  obind (get_spectrum_1d V C fwd S D CD hann norm zero zeroc add addc finish shape good_axis true im) (fun good_sp =>
  obind (scaled (length bad_sp) (length good_sp) good_sp) (kernel_of bad_sp))).
End Kernel.

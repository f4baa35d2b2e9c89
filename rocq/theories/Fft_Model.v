(** Model of the filter in Fourier space, graphic/tracker.cpp:500-523 (FFTapplyMask).  FFTW is external: its plans are two functions on the block of memory. *)
Require Import List Arith Bool.
Require Import Verif.Tracker_Model.
Import ListNotations.
Section Fft.
  Variables (V : Type) (zero one : V) (mul : V -> V -> V).
  Variables (n0 n1 n2 : nat).
  (** fftwf_execute of forward_plan and backward_plan, in place (tracker.cpp:86-88) *)
  Variables (forward backward : list V -> list V).
  (** FFTmask.origin(): the mask in the order of the memory *)
  Definition mask_memory (m : mask bool) : list bool := flat_map (fun i => flat_map (fun j => map (m i j) (seq 0 (n2 / 2 + 1))) (seq 0 n1)) (seq 0 n0).
  (** conversion of a bool to float *)
  Definition float_of (b : bool) : V := if b then one else zero.
  (** tracker.cpp:512-519: the loop on pairs of floats; [b] advances once by pair.  The loop stops at the end of the mask, the block being at least twice as long (66-84). *)
  Fixpoint apply_mask (c : list V) (b : list bool) {struct b} : list V :=
    match b, c with
    | x :: b', re :: im :: c' => mul re (float_of x) :: mul im (float_of x) :: apply_mask c' b'
    | _, _ => c
    end.
  (** tracker.cpp:505-523 *)
  Definition fft_apply (m : mask bool) (block : list V) : list V := backward (apply_mask (forward block) (mask_memory m)).
End Fft.

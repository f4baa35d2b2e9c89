(** Model of the program of the multiscale tracker, multiscale/main.cpp: from a series of a Leica file to one file of centres by time step. *)
Require Import String.
Require Import ZArith List Bool Arith NArith Ascii.
Require Import Verif.Base Verif.Dec Verif.Traj_Model Verif.Particles_Model Verif.RTree_Model Verif.Center_Model Verif.Files_Model Verif.Export_Model Verif.Perco_Model Verif.Track_Model Verif.Settings_Model.
Import ListNotations.
Local Open Scope nat_scope.
Local Open Scope list_scope.
Local Notation length := List.length.

(** A series, as described by the header of the file (C148): sizes along x, y and z (fewer if the image is flat), number of time steps, place of the first image, bytes between images.
    [lratio z]: z multiplied by getZXratio(), in the unit of the coordinates. *)
Record leica := mkLeica { ldims : list nat; lratio : Z -> Z; lsteps : nat; lfirst : nat; linc : nat }.
(** main.cpp:66-70 with lifFile.hpp:118 [contains]: --series if there is such a series (a negative int is a large size_t), else the answer of the user (C149). *)
Definition which_serie (given : option Z) (number answer : nat) : nat :=
  match given with
  | Some z => if ((0 <=? z) && (z <? Z.of_nat number))%Z then Z.to_nat z else answer
  | None => answer
  end.
(** multiscalefinder.cpp:49-56: the octaves after the first one; sizes are divided by two until one is below 10. *)
Fixpoint smaller_octaves (fuel p r c : nat) : list (list nat) :=
  match fuel with
  | 0 => []
  | S fuel' => if (10 <=? p) && (10 <=? r) && (10 <=? c) then [p; r; c] :: smaller_octaves fuel' (p / 2) (r / 2) (c / 2) else []
  end.
(** multiscalefinder.cpp:43-57; there are fewer halvings than planes *)
Definition octave_shapes (p r c : nat) : list (list nat) := [2 * p; 2 * r; 2 * c] :: smaller_octaves p p r c.

Section Scan.
  (** Pixels, values of the kernels, ratios, memory of the finder (the layers of all octaves) *)
  Variables (P K R Mem : Type) (one : R) (showK : K -> text) (parseK : text -> option K) (show : Z -> text).
  (** The stages of the tracking on the settings of the octaves (and Octave0), the memory and the image: MultiscaleFinder::fill (C113, C114), initialize_binary (C64-C66) and subpix (C99), which clears the list of centres. *)
  Variables (fill : bool -> list (settings K R) -> Mem -> list P -> Mem) (initialize : Mem -> Mem) (subpix : Mem -> list center).
  (** get_deconv_kernel(image, 2, 0) (C72), the image having the given shape *)
  Variable kern : list nat -> list P -> outcome (list K).
  (** The R*-tree of removeHalfOverlapping and its std::sort *)
  Variables (cfg : config) (sort : list center -> list center).
  (** The Leica file; which files can be created *)
  Variables (file : list P) (writable : text -> bool).

  (** An ofstream: nothing happens when the file cannot be created (main.cpp:113, 227). *)
  Definition write_to (name content : text) (d : disk) : disk := if writable name then put_file d name content else d.
  (** lifFile.cpp:310-323 [getOffset] (linc is 0 without T) and main.cpp:121-123, 181: a view of the mapped file, undefined past its end. *)
  Definition view (s : leica) (n t : nat) : outcome (list P) :=
    if t <? lsteps s then
      let off := lfirst s + linc s * t in
      if off + n <=? length file then Val (firstn n (skipn off file)) else UB
    else Throw.
  (** main.cpp:215 *)
  Definition scale_z (f : Z -> Z) (c : center) : center :=
    match coords c with [x; y; z] => mkCenter [x; y; f z] (radius c) (intensity c) | _ => c end.
  (** main.cpp:230-232 *)
  Definition centre_line (c : center) : text := flat_map (fun x => show x ++ [tab]) (firstn 3 (coords c)) ++ show (radius c) ++ [tab] ++ show (intensity c) ++ [newline].
  (** main.cpp:223-224: setw(3) and setfill('0') *)
  Definition centre_file (out : text) (t : nat) : text := out ++ txt "_t" ++ pad 3 (N.of_nat t).
  (** multiscalefinder.hpp:129-135 [get_centers] *)
  Definition get_centers (oct0 : bool) (os : list (settings K R)) (m : Mem) (img : list P) : Mem * list center :=
    let m1 := fill oct0 os m img in let m2 := initialize m1 in (m2, subpix m2).
  (** main.cpp:183-209; without the messages *)
  Definition track_step (verbose oct0 : bool) (os : list (settings K R)) (m : Mem) (img : list P) : Mem * list center :=
    if negb verbose then get_centers oct0 os m img
    else let m1 := fill oct0 os m img in let m2 := initialize m1 in (m2, subpix m2).
  (** main.cpp:178-237, [k] time steps from [t] on.  Not modelled: the numbers of centres [nb], which are not used, the progress bar and the times. *)
  Fixpoint scan_steps (s : leica) (n : nat) (verbose oct0 : bool) (os : list (settings K R)) (out : text) (k t : nat) (m : Mem) (d : disk) : disk * outcome unit :=
    match k with
    | 0 => (d, Val tt)
    | S k' =>
        andthen (view s n t) d (fun img =>
        let (m', cs) := track_step verbose oct0 os m img in
        match cs with
        | [] => scan_steps s n verbose oct0 os out k' (S t) m' d
        | _ :: _ =>
            match remove_half_overlapping cfg (sort (map (scale_z (lratio s)) cs)) with
            | None => (d, UB)
            | Some (_, kept) => scan_steps s n verbose oct0 os out k' (S t) m' (write_to (centre_file out t) (flat_map centre_line kept) d)
            end
        end)
    end.

  (** The disks that an interruption of these time steps can leave: between two steps, or with only the beginning of the file of one step (buffers are flushed at unknown places). *)
  Inductive passes (s : leica) (n : nat) (verbose oct0 : bool) (os : list (settings K R)) (out : text) : nat -> nat -> Mem -> disk -> disk -> Prop :=
  | Pass_here k t m d : passes s n verbose oct0 os out k t m d d
  | Pass_writing k t m d img m' cs tree kept c rest : view s n t = Val img -> track_step verbose oct0 os m img = (m', cs) -> cs <> [] ->
      remove_half_overlapping cfg (sort (map (scale_z (lratio s)) cs)) = Some (tree, kept) -> flat_map centre_line kept = c ++ rest ->
      passes s n verbose oct0 os out (S k) t m d (write_to (centre_file out t) c d)
  | Pass_none k t m d img m' e : view s n t = Val img -> track_step verbose oct0 os m img = (m', []) -> passes s n verbose oct0 os out k (S t) m' d e -> passes s n verbose oct0 os out (S k) t m d e
  | Pass_done k t m d img m' cs tree kept e : view s n t = Val img -> track_step verbose oct0 os m img = (m', cs) -> cs <> [] ->
      remove_half_overlapping cfg (sort (map (scale_z (lratio s)) cs)) = Some (tree, kept) -> passes s n verbose oct0 os out k (S t) m' (write_to (centre_file out t) (flat_map centre_line kept) d) e ->
      passes s n verbose oct0 os out (S k) t m d e.

  (** A call of the finder that can throw *)
  Definition ask (c : call K R) (os : list (settings K R)) : outcome (list (settings K R)) := let (ok, os') := apply_all K R c os in if ok then Val os' else Throw.
  (** copy of an istream_iterator<float>: numbers up to the first failure; there cannot be more of them than characters. *)
  Fixpoint read_floats_loop (fuel : nat) (s : istream) : list K :=
    match fuel with
    | 0 => []
    | S fuel' => match read_with parseK s with (Some v, s') => v :: read_floats_loop fuel' s' | (None, _) => [] end
    end.
  Definition read_floats (l : text) : list K := read_floats_loop (length l) (open_text l).
  (** main.cpp:97-165, EXIT_FAILURE being written [Throw] (main.cpp:143 throws without a name if verbose, 144 returns otherwise).
      The kernel is in its file when the ofstream is destroyed, at the end of the case or by an exception. *)
  Definition prepare (s : leica) (p r c : nat) (mode : Z) (kname : option text) (os : list (settings K R)) (d : disk) : disk * outcome (list (settings K R)) :=
    if (mode =? 0)%Z then (d, ask (SetHalfZ true) os)
    else if (mode =? 1)%Z then
      match kname with
      | None => (d, Throw)
      | Some name =>
          if writable name then
            match obind (view s (p * r * c) 0) (kern [p; r; c]) with
            | Val k => (put_file d name (flat_map (fun v => showK v ++ [tab]) k), obind (ask (LoadKernel k) os) (ask (SetDeconv true)))
            | Throw => (put_file d name [], Throw)
            | UB => (put_file d name [], UB)
            end
          else (d, Throw)
      end
    else if (mode =? 2)%Z then
      match kname with
      | None => (d, Throw)
      | Some name =>
          match d name with
          | None => (d, Throw)
          | Some l => (d, obind (ask (LoadKernel (read_floats l)) os) (ask (SetDeconv true)))
          end
      end
    else (d, Val os).
  (** main.cpp:178: a negative --start is a size_t larger than any number of time steps. *)
  Definition first_step (s : leica) (start : Z) : nat := if (start <? 0)%Z then lsteps s else Z.to_nat start.
  (** main.cpp:70-250 for the series [s], [m]: the memory of the new finder; --Octave0, --deconvolution, --deconvolution-kernel, --start, --output.  --incore and --preblur-width are settings of the finder that do not change (C112). *)
  Definition scan_main (verbose oct0 : bool) (s : leica) (mode : Z) (kname : option text) (start : Z) (out : text) (m : Mem) (d : disk) : disk * outcome unit :=
    match ldims s with
    | [x; y; z] =>
        let '(d1, o) := prepare s z y x mode kname (map (create K R one) (octave_shapes z y x)) d in
        andthen o d1 (fun os => scan_steps s (z * y * x) verbose oct0 os out (lsteps s - first_step s start) (first_step s start) m d1)
    | _ => (d, Throw)
    end.
  (** main.cpp:65-70: a series that was chosen exists (C149) *)
  Definition scan_program (verbose oct0 : bool) (series : list leica) (given : option Z) (answer : nat) (mode : Z) (kname : option text) (start : Z) (out : text) (m : Mem) (d : disk) : disk * outcome unit :=
    match nth_error series (which_serie given (length series) answer) with
    | Some s => scan_main verbose oct0 s mode kname start out m d
    | None => (d, UB)
    end.
  (** A run of [scan_main] interrupted while it tracks *)
  Definition scan_interrupted (verbose oct0 : bool) (s : leica) (mode : Z) (kname : option text) (start : Z) (out : text) (m : Mem) (d e : disk) : Prop :=
    exists x y z d1 os, ldims s = [x; y; z] /\ prepare s z y x mode kname (map (create K R one) (octave_shapes z y x)) d = (d1, Val os) /\
      passes s (z * y * x) verbose oct0 os out (lsteps s - first_step s start) (first_step s start) m d1 e.
End Scan.

(** Model of the program tracker (graphic/mains/tracker.cpp): from a Leica file, or a series of image files, to the files of positions. *)
Require Import String.
Require Import List Bool Arith NArith Ascii.
Require Import Verif.Base Verif.Dec Verif.Traj_Model Verif.Particles_Model Verif.Files_Model Verif.Export_Model Verif.Cloud_Model Verif.Perco_Model Verif.Tracker_Model Verif.Serie_Model.
Import ListNotations.
Local Open Scope nat_scope.
Local Open Scope list_scope.
Local Notation length := List.length.

(** How a run ends, with the files it leaves: [Throw] is the message of the exception and EXIT_FAILURE (tracker.cpp:407-411). *)
Definition andthen {A} (o : outcome A) (d : disk) (f : A -> disk * outcome unit) : disk * outcome unit :=
  match o with Val a => f a | Throw => (d, Throw) | UB => (d, UB) end.
(** std::remove *)
Definition remove_file (d : disk) (name : text) : disk := fun n => if list_eq_dec ascii_dec n name then None else d n.

(** tracker.cpp:82-96: the text of the default configuration. *)
Definition ini_text (home : text) : text :=
  flat_map (fun l => l ++ [newline]) [
    txt "# Tracking configuration"; txt "input=" ++ home ++ txt "/Code_data/liftest/Tsuru11dm_phi=52.53_J36.lif"; txt "outputPath = " ++ home ++ txt "/Code_output/liftest/test_";
    txt "radiusMin = 3.48"; txt "radiusMax = 64"; []; txt "# Specific to file serie mode"; txt "channel = 1"; txt "xsize = 256"; txt "ysize = 256"; txt "zsize = 128"; txt "tsize = 1";
    txt "voxelWidth = 1"; txt "voxelDepth = 1"].
Definition config_dir (home : text) : text := home ++ txt "/.colloids".
(** tracker.cpp:56-99 [testTrackerIni]: the directory of the configuration. [home], [profile]: the environment variables; [status]: what system returns for MKDIR;
    [there]: whether the directory is there after this command, so that a file can be created in it. exit(EXIT_FAILURE) without any variable is written [Throw]. *)
Definition test_ini (home profile : option text) (status : nat) (there : bool) (d : disk) : disk * outcome text :=
  match (match home with Some h => Some h | None => profile end) with
  | None => (d, Throw)
  | Some h =>
      let dir := config_dir h in let file := dir ++ txt "/tracker.ini" in
      match d file with
      | Some _ => (d, Val dir)
      | None => if (status =? 0) then (d, Throw) else if there then (put_file d file (ini_text h), Val dir) else (d, Throw)
      end
  end.

(** tracker.cpp:276-277: one underscore is removed from the end; substr throws for an empty name. *)
Definition strip (out : text) : outcome text :=
  match out with
  | [] => Throw
  | _ => if list_eq_dec ascii_dec (skipn (length out - 1) out) (txt "_") then Val (firstn (length out - 1) out) else Val out
  end.
(** tracker.cpp:280-286: a file is created and removed; [writable]: whether it can be. *)
Definition test_output (writable : bool) (out : text) (d : disk) : outcome disk :=
  if writable then Val (remove_file (put_file d (out ++ txt "test.test") []) (out ++ txt "test.test")) else Throw.
(** tracker.cpp:112, 324, 369, 385-389: a series of files of results, by time steps. *)
Definition result_serie (out : text) (size : nat) (ext : text) : outcome serie := file_serie (get0th out (N.of_nat size) default_token ++ ext) default_token size 0.

Section Track.
(** Positions, sums and bytes, as in Tracker_Model and Serie_Model. *)
Variables (V T C : Type) (zero : V) (add : T -> V -> T) (zero_sum : T) (conv : C -> V) (over : T -> nat -> T) (show : V -> text).
Variables n0 n1 n2 : nat.
(** [analyse thr auto image]: Tracker::trackXYZ and the rest of graphic/tracker.cpp:918-958 [TrackerIterator::operator*] (C69, C70, C137): upper edges of the box and positions, depths multiplied by the ratio,
    and intensities; the filter made from the radii is part of it. *)
Notation parts := (V * V * V * list (V * V * V) * list V)%type.
Variable analyse : T -> bool -> list V -> outcome parts.
(** The options: --threshold, --exportIntensities. *)
Variables (threshold : option T) (asked : bool).

(** The pixels of the image in the padded block. In-place Fourier transforms do not use the padding. *)
Definition image (m : list V) : list V := map (fun q => nth (q / n2 * line n2 + q mod n2) m zero) (seq 0 (n0 * n1 * n2)).
(** graphic/tracker.cpp:928-932; [mean] not initialised: [UB]. *)
Definition tracked (m : list V) (mean : option T) : outcome parts :=
  match threshold with
  | Some thr => analyse thr false (image m)
  | None => match mean with Some v => analyse v true (image m) | None => UB end
  end.

(** graphic/tracker.cpp:939-944: copy of the intensities, one by line. *)
Definition intensity_text (l : list V) : text := flat_map (fun v => show v ++ [newline]) l.
(** for_each (C++ standard library) with [ParticlesExporter] (tracker.cpp:102-143): [k] time steps from [t] on, [counts]: what has been written to the file of numbers.
    The block is used only after it has been filled (tracking overwrites it). *)
Section Loop.
  Variables (St : Type) (next : nat -> St -> outcome St) (see : St -> outcome parts) (dat inten : serie) (nb : text).
  Fixpoint for_steps (k t : nat) (counts : text) (st : St) (d : disk) : disk * outcome unit :=
    match k with
    | 0 => (d, Val tt)
    | S k' =>
        andthen (see st) d (fun r =>
        let '(upper, ps, is) := r in
        let d1 := if asked then put_file d (step_name inten (N.of_nat t)) (intensity_text is) else d in
        let d2 := put_file d1 (step_name dat (N.of_nat t)) (export_dat V show upper ps) in
        let counts' := counts ++ print_nat (length ps) ++ [newline] in
        let d3 := put_file d2 nb counts' in
        andthen (next (S t) st) d3 (fun st' => for_steps k' (S t) counts' st' d3))
    end.
  (** tracker.cpp:110-119: the file of numbers is created before the first time step. *)
  Definition export_steps (k : nat) (st : St) (d : disk) : disk * outcome unit := for_steps k 0 [] st (put_file d nb []).
End Loop.
Definition numbers_name (out : text) : text := out ++ txt ".nb".

(** The wisdom of FFTW is saved in its file (graphic/tracker.cpp:470-479), here with the same content [wis] each time. *)
Variables (dir : text) (wis : text).
Definition save_wisdom (d : disk) : disk := put_file d (dir ++ txt "/wisdom.fftw") wis.

(** tracker.cpp:332-405, --modeLIF without --extractRadii. [file], [start], [inc], [steps]: as in Serie_Model, the serie having been chosen; [block]: the memory of the tracker;
    [xml]: the header; [only]: --onlyTimeStep. *)
Section Lif.
  Variables (file : list C) (start inc steps : nat) (block : list V) (xml input out : text).
  Notation set_step := (lif_set V T C add zero_sum conv n0 n1 n2 zero file start inc steps).
  Notation next_step := (lif_next V T C add zero_sum conv n0 n1 n2 zero file).
  (** tracker.hpp:220-243: the mean of the pixels (C67). *)
  Definition lif_see (s : lif V) : outcome parts := tracked (lmem V s) (Some (over (fold_left add (image (lmem V s)) zero_sum) (n0 * n1 * n2))).
  Definition header_name : text := stem_of input ++ txt "_header.xml".
  Definition lif_main (only : option nat) (d : disk) : disk * outcome unit :=
    let d0 := put_file d header_name xml in
    andthen (set_step 0 (mkLif V 0 0 block)) d0 (fun st =>
    let d1 := save_wisdom d0 in
    andthen (result_serie out steps (txt ".intensity")) d1 (fun inten =>
    let '(d2, o) :=
      match only with
      | None => andthen (result_serie out steps (txt ".dat")) d1 (fun dat => export_steps (lif V) (fun _ => next_step) lif_see dat inten (numbers_name out) steps st d1)
      | Some t =>
          andthen (set_step t st) d1 (fun st =>
          andthen (result_serie out steps (txt ".dat")) d1 (fun dat =>
          andthen (lif_see st) d1 (fun r =>
          let '(upper, ps, is) := r in
          let d2 := if asked then put_file d1 (step_name inten (N.of_nat t)) (intensity_text is) else d1 in
          (put_file d2 (step_name dat (N.of_nat t)) (export_dat V show upper ps), Val tt))))
      end in
    andthen o d2 (fun _ => (save_wisdom d2, Val tt)))).
End Lif.

(** tracker.cpp:299-330, --modeSerie. [e]: SerieTracker::length, which no constructor sets (serieTracker.hpp:43-59, serieTracker.cpp:161-223): any number.
    [pictures]: the images by name; [nt]: --tsize. *)
Section Serie.
  Variables (pictures : text -> option (picture C)) (channel e nt : nat) (block : list V) (input out : text).
  Notation set_step := (set_time_step V T C add zero_sum conv over n0 n1 n2 pictures).
  Definition serie_main (d : disk) : disk * outcome unit :=
    andthen (serie_pattern input n0 nt) d (fun p =>
    andthen (set_step p channel 0 block) d (fun st =>
    let d1 := save_wisdom d in
    andthen (result_serie out nt (txt ".intensity")) d1 (fun inten =>
    andthen (result_serie out nt (txt ".dat")) d1 (fun dat =>
    let '(d2, o) := export_steps (list V * option T) (fun t st => set_step p channel (N.of_nat t) (fst st)) (fun st => tracked (fst st) (snd st)) dat inten (numbers_name out) e st d1 in
    andthen o d2 (fun _ => (save_wisdom d2, Val tt)))))).
End Serie.
End Track.

(** tracker.cpp:266-290: before one mode or the other. *)
Definition with_settings (home profile : option text) (status : nat) (there writable : bool) (out : text) (run : text -> text -> disk -> disk * outcome unit) (d : disk) : disk * outcome unit :=
  let '(d1, o) := test_ini home profile status there d in
  andthen o d1 (fun dir => andthen (strip out) d1 (fun out' => andthen (test_output writable out' d1) d1 (fun d2 => run dir out' d2))).

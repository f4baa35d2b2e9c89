(** Model of the program tracker with --extractRadii: graphic/mains/tracker.cpp:147-181 (RadiiExporter), 339-353 and graphic/radiiTracker.cpp:147-294 (setCenters, LifRadiiTracker), radiiTracker.hpp:177-184. *)
Require Import String.
Require Import List Bool Arith NArith Ascii.
Require Import Verif.Base Verif.Dec Verif.Traj_Model Verif.Particles_Model Verif.Files_Model Verif.Export_Model Verif.Perco_Model Verif.Track_Model.
Import ListNotations.
Local Open Scope nat_scope.
Local Open Scope list_scope.
Local Notation length := List.length.

Section Extract.
  (** Doubles, bytes of the file, pixels (unsigned char) *)
  Variables (V C P : Type) (zero one : V) (show : V -> text) (parse : text -> option V) (conv : C -> P).
  (** [shrink z]: z multiplied by 1/getZXratio() *)
  Variable shrink : V -> V.
  Variables n0 n1 n2 : nat.
  (** [radius ratio img p]: getRadius around p (z,y,x) in the image (radiiTracker.cpp:33-145, C90 and C91), [ratio] being the member ZXratio of RadiiTracker; precision 0.1, rmin 1 and rmax 10 (radiiTracker.hpp:54-56) are never changed. *)
  Variable radius : V -> list P -> V * V * V -> outcome V.
  (** Position in the stream, image and centres of the tracker.  The time step is given by the loop.  Not modelled: the messages on the standard output (which read [quiet] before it is set), the unused [channel]. *)
  Record extracting := mkExtract { ebyte : nat; eimage : list P; ecenters : list (V * V * V) }.
  (** radiiTracker.hpp:177-184 [fillImage_charToUchar]: n bytes are read, [UB] after the end of the stream. *)
  Fixpoint read_pixels (n : nat) (inp : list C) : outcome (list P) :=
    match n, inp with
    | 0, _ => Val []
    | S _, [] => UB
    | S n', c :: inp' => omap (cons (conv c)) (read_pixels n' inp')
    end.
  (** radiiTracker.cpp:189-196, then 156-166 with fortran_order: z is divided by the ratio, then x and z are swapped. *)
  Definition set_centers (ps : list (V * V * V)) : list (V * V * V) := map (fun p => let '(x, y, z) := p in (shrink z, y, x)) ps.
  (** Particles( *centersSerie % t ), lib/particles.cpp:33-60: [Throw] without the file. *)
  Definition read_centers (centers : serie) (t : nat) (d : disk) : outcome (list (V * V * V)) :=
    match d (step_name centers (N.of_nat t)) with Some l => Val (set_centers (snd (read_dat V zero parse l))) | None => Throw end.
  Variables (file : list C) (start inc steps : nat).
  (** radiiTracker.cpp:240-254 [setTimeStep], for the first time; lifFile.cpp:302-322 throws past the last step.  A copy of the iterator is consumed, the stream moves. *)
  Definition extract_set (centers : serie) (t : nat) (d : disk) : outcome extracting :=
    if steps <=? t then Throw
    else let off := start + inc * t in
      obind (read_pixels (n0 * n1 * n2) (skipn off file)) (fun img => omap (mkExtract (off + n0 * n1 * n2) img) (read_centers centers t d)).
  (** radiiTracker.cpp:260-274 [operator++], to time step t: the image is read even after the last time step, the centres are not. *)
  Definition extract_next (centers : serie) (t : nat) (s : extracting) (d : disk) : outcome extracting :=
    obind (read_pixels (n0 * n1 * n2) (skipn (ebyte s) file)) (fun img =>
      omap (mkExtract (ebyte s + n0 * n1 * n2) img) (if t <? steps then read_centers centers t d else Val (ecenters s))).
  (** radiiTracker.cpp:205-214 [operator*], 128-144 [getRadii].  ZXratio is 1 since radiiTracker.hpp:53 (no other line of the program sets it). *)
  Definition extract_see (s : extracting) : outcome (list V) := osequence (map (radius one (eimage s)) (ecenters s)).
  (** tracker.cpp:168-180: the radii, one by line. *)
  Definition radii_text (rs : list V) : text := flat_map (fun r => show r ++ [newline]) rs.
  (** tracker.cpp:351: for_each with RadiiExporter, k time steps from t on *)
  Fixpoint radii_steps (centers radii : serie) (k t : nat) (s : extracting) (d : disk) : disk * outcome unit :=
    match k with
    | 0 => (d, Val tt)
    | S k' =>
        andthen (extract_see s) d (fun rs =>
        let d1 := put_file d (step_name radii (N.of_nat t)) (radii_text rs) in
        andthen (extract_next centers (S t) s d1) d1 (fun s' => radii_steps centers radii k' (S t) s' d1))
    end.
  (** tracker.cpp:327-353, 405; radiiTracker.cpp:217-232, the constructor of LifRadiiTracker *)
  Definition radii_main (dir wis xml input out : text) (d : disk) : disk * outcome unit :=
    let d0 := put_file d (header_name input) xml in
    andthen (result_serie out steps (txt ".dat")) d0 (fun centers =>
    andthen (extract_set centers 0 d0) d0 (fun s =>
    let d1 := save_wisdom dir wis d0 in
    andthen (result_serie out steps (txt ".radii")) d1 (fun radii =>
    let '(d2, o) := radii_steps centers radii steps 0 s d1 in
    andthen o d2 (fun _ => (save_wisdom dir wis d2, Val tt))))).
End Extract.

(** Model of mains/cutter.cpp: removal of the particles that are too close, file by file. *)
Require Import String.
Require Import ZArith List Bool Arith NArith Ascii.
Require Import Verif.Base Verif.Dec Verif.RTree_Model Verif.Box_Model Verif.Traj_Model Verif.Particles_Model Verif.Files_Model Verif.Export_Model Verif.Perco_Model.
Import ListNotations.
Local Open Scope nat_scope.
Local Open Scope list_scope.

Section Cut.
  (** [c]: the index (RTree_Model); printing and parsing of doubles as in Export_Model.  Simplification: coordinates and separations are integers. *)
  Variables (c : config) (show : Z -> text) (parse : text -> option Z).
  Definition coord_of (p : Z * Z * Z) : list Z := let '(x, y, z) := p in [x; y; z].
  Definition triple_of (p : list Z) : Z * Z * Z := (nth 0 p 0%Z, nth 1 p 0%Z, nth 2 p 0%Z).
  (** particles.cpp:33-60: the set of particles of a file, with the default radius 1; an edge of the box that cannot be read is 0. *)
  Definition load (l : text) : particles :=
    let '((hx, hy, hz), ps) := read_dat Z 0%Z parse l in
    let edge (o : option Z) := (0%Z, match o with Some v => v | None => 0%Z end) in
    new_particles (map coord_of ps) [edge hx; edge hy; edge hz] 1.
  (** particles.cpp:833-854 [exportToFile] *)
  Definition export (st : particles) : text := export_dat Z show (triple_of (map snd (pbb st))) (map triple_of (pts st)).
  (** cutter.cpp:82-84, 90, 97-99, 102: one file.  [both]: the option of that name. *)
  Definition cut_text (both : bool) (sep : Z) (l : text) : outcome text :=
    let st := load l in
    omap export
      (if both then match make_index c st with Some st' => remove_short_range 1 st' sep | None => UB end
       else cut c 1 st sep).
  (** One file read and one written.  What the program leaves on the disk, and whether it ends normally. *)
  Inductive ending := Finished | Stopped | Undefined.
  Definition cut_file (both : bool) (sep : Z) (src dst : text) (d : disk) : disk * ending :=
    match d src with
    | None => (d, Stopped)
    | Some l => match cut_text both sep l with
                | Val o => (put_file d dst o, Finished)
                | Throw => (d, Stopped)
                | UB => (d, Undefined)
                end
    end.
  (** cutter.cpp:79-93: the loop over the steps; an exception ends the program (106-110). *)
  Fixpoint cut_steps (both : bool) (sep : Z) (files : list (text * text)) (d : disk) : disk * ending :=
    match files with
    | [] => (d, Finished)
    | (src, dst) :: files' => match cut_file both sep src dst d with
                              | (d', Finished) => cut_steps both sep files' d'
                              | r => r
                              end
    end.
  (** The names, cutter.cpp:70, 76-77, 99, 102; operator% of the series. *)
  Definition cut_names (filename token : text) (span : option nat) (offset : N) (postfix : text) : outcome (list (text * text)) :=
    match span with
    | Some n => obind (file_serie filename token n offset) (fun fs =>
                omap (fun os => map (fun t => (step_name fs (N.of_nat t), step_name os (N.of_nat t))) (seq 0 n)) (add_postfix_ext fs postfix (txt ".dat")))
    | None => Val [(filename, cut_ext filename ++ postfix ++ txt ".dat")]
    end.
  (** cutter.cpp:29-112; [Help]: the message, shown when neither the input nor the separation is given (62-67).  Without input the name is empty, without separation the variable
      is not initialised.  The parsing of the options (boost::program_options) is not modelled. *)
  Inductive result := Help | Ran (d : disk) (e : ending).
  Definition cutter (input : option text) (minSep : option Z) (token : text) (span : option nat) (offset : N) (both : bool) (postfix : text) (d : disk) : result :=
    match input, minSep with
    | None, None => Help
    | _, None => Ran d Undefined
    | _, Some sep =>
        match cut_names (match input with Some f => f | None => [] end) token span offset postfix with
        | Val files => let '(d', e) := cut_steps both sep files d in Ran d' e
        | Throw => Ran d Stopped
        | UB => Ran d Undefined
        end
    end.

  (** The program is interrupted at any point: some files are written, and perhaps one is being written (its beginning is on the disk:
      the file is truncated when it is opened, particles.cpp:837). *)
  Inductive interrupted (both : bool) (sep : Z) : list (text * text) -> disk -> disk -> Prop :=
  | int_before files d : interrupted both sep files d d
  | int_inside src dst files d l o a b : d src = Some l -> cut_text both sep l = Val o -> o = a ++ b -> interrupted both sep ((src, dst) :: files) d (put_file d dst a)
  | int_after src dst files d d1 d2 : cut_file both sep src dst d = (d1, Finished) -> interrupted both sep files d1 d2 -> interrupted both sep ((src, dst) :: files) d d2.
End Cut.

(** Model of mains/linker.cpp: from a series of files of positions to a file of trajectories. *)
Require Import String.
Require Import ZArith List Bool Arith NArith Ascii.
Require Import Verif.Base Verif.Dec Verif.RTree_Model Verif.Box_Model Verif.Traj_Model Verif.Particles_Model Verif.Corr_Model Verif.Files_Model Verif.Export_Model Verif.DynFile_Model Verif.Link_Model Verif.Perco_Model Verif.Cut_Model.
Import ListNotations.
Local Open Scope nat_scope.
Local Open Scope list_scope.

(** The part of a name after its last separator (linker.cpp:47). *)
Definition file_part (l : text) : text := skipn (List.length (folder_of l)) l.
(** filename.substr(0, filename.rfind(token)), linker.cpp:46; the whole name if the token is not there. *)
Definition before_last (tok l : text) : text := match rfind tok l with Some p => firstn p l | None => l end.
Fixpoint good_prefix {A} (l : list (option A)) : list A := match l with Some v :: l' => v :: good_prefix l' | _ => [] end.

Section Linker.
  (** [c]: the index; printing and parsing of doubles as in Export_Model.  Simplification: coordinates are integers. *)
  Variables (c : config) (show : Z -> text) (parse : text -> option Z).
  (** The numbers that can be extracted one after the other (dynamicParticles.cpp:572-583); there cannot be more than characters. *)
  Definition numbers (l : text) : list Z := good_prefix (fst (read_many parse (List.length l) (open_text l))).
  (** dynamicParticles.cpp:1469-1474 [fill]; particles.cpp:33-60. *)
  Definition frame_of (radius : Z) (l : text) : particles :=
    let '((hx, hy, hz), ps) := read_dat Z 0%Z parse l in
    let edge (o : option Z) := (0%Z, match o with Some v => v | None => 0%Z end) in
    new_particles (map coord_of ps) [edge hx; edge hy; edge hz] radius.
  Definition fill (radius : Z) (d : disk) (fs : serie) : outcome (list particles) :=
    osequence (map (fun t => match d (step_name fs (N.of_nat t)) with Some l => Val (frame_of radius l) | None => Throw end) (seq 0 (nsteps fs))).
  (** linker.cpp:42-48 and dynamicParticles.cpp:60-66, 274-299: the files afterwards.  An exception comes before anything is written; [UB] in save: an empty trajectory. *)
  Definition linker (filename tok : text) (radius dt : Z) (span : nat) (off : N) (d : disk) : outcome disk :=
    obind (file_serie filename tok span off) (fun fs =>
    obind (fill radius d fs) (fun frames =>
    obind (serie_head fs) (fun h =>
    obind (construct c radius (option_map numbers (d (h ++ txt ".displ"))) (N.to_nat off) frames) (fun r =>
    match save_dyn Z show radius dt (file_part filename) tok (N.to_nat off) span (trajs (snd r)) with
    | Some l => Val (put_file d (before_last tok filename ++ txt ".traj") l)
    | None => UB
    end)))).
  (** linker.cpp:26-38; [args]: argv[1] and following.  The message is shown with less than four; the fifth is read all the same (atoi of a null pointer).
      [atof], [atoi]: C library. *)
  Inductive end_state := Usage | Ended (o : outcome disk).
  Definition linker_main (atof : text -> Z) (atoi : text -> N) (args : list text) (d : disk) : end_state :=
    match args with
    | filename :: tok :: radius :: dt :: rest =>
        Ended (match rest with
               | [] => UB
               | span :: rest' => linker filename tok (atof radius) (atof dt) (N.to_nat (atoi span)) (match rest' with [] => 0%N | o :: _ => atoi o end) d
               end)
    | _ => Usage
    end.
End Linker.

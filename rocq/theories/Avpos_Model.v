(** Model of mains/avpos.cpp: positions averaged over time, frame by frame in new files. *)
Require Import String.
Require Import ZArith QArith List Arith NArith Ascii Bool.
Require Import Verif.Base Verif.Dec Verif.Traj_Model Verif.Particles_Model Verif.Field_Model Verif.Files_Model Verif.Export_Model Verif.DynFile_Model Verif.Perco_Model Verif.Drive_Model.
Import ListNotations.
Local Open Scope nat_scope.
Local Open Scope list_scope.

(** Coord(0.0, 3), its sum and its division (fields.hpp:133, 147, 195-198). *)
Definition null3 : pos3 := (0%Q, 0%Q, 0%Q).
Definition add3 (p q : pos3) : pos3 := ((x_of p + x_of q)%Q, (y_of p + y_of q)%Q, (z_of p + z_of q)%Q).
Definition div3 (p : pos3) (n : nat) : pos3 := let d := inject_Z (Z.of_nat n) in ((x_of p / d)%Q, (y_of p / d)%Q, (z_of p / d)%Q).

(** The words of a command given to the shell by system().  Simplification: only spaces are special; other characters with a meaning for the shell are not. *)
Fixpoint shell_words (l : text) : list text :=
  match l with
  | [] => [[]]
  | c :: l' => if Ascii.eqb c spc then [] :: shell_words l' else match shell_words l' with w :: ws => (c :: w) :: ws | [] => [[c]] end
  end.
Definition same_text (a b : text) : bool := if list_eq_dec ascii_dec a b then true else false.
(** The folders after "mkdir ...": those of before and those named.  Simplification: the parents exist and can be written in. *)
Definition shell_mkdir (made : text -> bool) (cmd : text) : text -> bool := fun f => made f || existsb (same_text f) (List.tl (shell_words cmd)).

Section Avpos.
  (** Doubles as in Export_Model; [isnull]: fields.hpp:186-190, is the position at the origin or so near that one plus its squares is one. *)
  Variables (show : Q -> text) (parse : text -> option Q) (isnull : pos3 -> bool).
  (** avpos.cpp:67-74: removeDrift, then the values of the VectorDynamicField.  [UB]: access out of range. *)
  Definition averaged (tau : nat) (frames : list (list pos3)) (ti : trajindex) : outcome (list (list pos3)) :=
    obind (remove_drift3 frames ti) (fun fr =>
    match df_run pos3 add3 div3 isnull ti tau (df_new pos3 null3 ti tau) fr with Some df => Val (vals pos3 df) | None => UB end).
  (** avpos.cpp:39, 44-46: the folder of the results. *)
  Definition av_folder (filename : text) (tau : nat) : text := folder_of filename ++ txt "av" ++ print_nat tau ++ txt "/".
  (** avpos.cpp:51-63: the names of the results. *)
  Definition out_serie (d : disk) (filename : text) (tau : nat) : outcome serie :=
    match d filename with
    | None => Throw
    | Some l => match read_header Q parse l with
                | (Some _, Some _, base, token, Some off, Some size, _) => file_serie (av_folder filename tau ++ base) token (N.to_nat size) off
                | _ => UB
                end
    end.
  (** The upper edges of the box of frame t, from its file (particles.cpp:33-60; those that cannot be read taken as null), moved with the frame (particles.cpp:147). *)
  Definition upper_edges (d : disk) (fs : serie) (t : nat) (s : pos3) : pos3 :=
    let edge (o : option Q) := match o with Some v => v | None => 0%Q end in
    match d (step_name fs (N.of_nat t)) with
    | Some l => let '(hx, hy, hz) := fst (read_dat Q 0%Q parse l) in add3 (edge hx, edge hy, edge hz) s
    | None => s
    end.
  (** avpos.cpp:76-84: one file per frame. *)
  Definition av_texts (d : disk) (out : serie) (fs : serie) (ss : list pos3) (rows : list (list pos3)) : list (text * text) :=
    map (fun t => (step_name out (N.of_nat t), export_dat Q show (upper_edges d fs t (nth t ss null3)) (nth t rows []))) (seq 0 (nsteps out)).
  (** avpos.cpp:36-85: the files afterwards; [made]: the folders of before.  A folder that is not there: the first file cannot be opened and throws (particles.cpp:852-853). *)
  Definition avpos (made : text -> bool) (filename : text) (tau : nat) (d : disk) : outcome disk :=
    obind (out_serie d filename tau) (fun out =>
    obind (load_dyn Q 0%Q parse d filename) (fun p =>
    obind (shifts3 (l_frames Q p) (l_index Q p)) (fun ss =>
    obind (averaged tau (l_frames Q p) (l_index Q p)) (fun rows =>
    if shell_mkdir made (txt "mkdir " ++ av_folder filename tau) (av_folder filename tau) || (nsteps out =? 0)
    then Val (fold_left (fun d nl => put_file d (fst nl) (snd nl)) (av_texts d out (l_serie Q p) ss rows) d)
    else Throw)))).
End Avpos.

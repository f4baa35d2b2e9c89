(** Model of mains/drift.cpp and mains/dynamics.cpp: the drift of a movie, and its dynamics with or without it. *)
Require Import String.
Require Import ZArith QArith List Arith Ascii Bool.
Require Import Verif.Base Verif.Dec Verif.Traj_Model Verif.Particles_Model Verif.Dyn_Model Verif.Corr_Model Verif.Export_Model Verif.DynFile_Model Verif.Perco_Model Verif.Cloud_Model.
Import ListNotations.
Local Open Scope nat_scope.
Local Open Scope list_scope.

(** Positions with rational coordinates; one axis of a movie. *)
Notation pos3 := (Q * Q * Q)%type.
Definition x_of (p : pos3) : Q := fst (fst p).
Definition y_of (p : pos3) : Q := snd (fst p).
Definition z_of (p : pos3) : Q := snd p.
Definition axes : list (pos3 -> Q) := [x_of; y_of; z_of].
Definition axis (a : pos3 -> Q) (frames : list (list pos3)) : list (list Q) := map (map a) frames.

(** dynamicParticles.cpp:537-571 [removeDrift] without index, the three axes together: every position of frame t is moved by the shift of t. *)
Definition spanning_next (ti : trajindex) (t : nat) : outcome (list nat) := select_spanning ti t (t + 1).
Definition shift_frame (s : pos3) (f : list pos3) : list pos3 := map (fun p => ((x_of p + x_of s)%Q, (y_of p + y_of s)%Q, (z_of p + z_of s)%Q)) f.
Definition shift_movie (ss : list pos3) (frames : list (list pos3)) : list (list pos3) := map (fun sf => shift_frame (fst sf) (snd sf)) (combine ss frames).
Definition shifts3 (frames : list (list pos3)) (ti : trajindex) : outcome (list pos3) :=
  obind (shifts (spanning_next ti) (axis x_of frames) ti) (fun sx =>
  obind (shifts (spanning_next ti) (axis y_of frames) ti) (fun sy =>
  omap (fun sz => combine (combine sx sy) sz) (shifts (spanning_next ti) (axis z_of frames) ti))).
Definition remove_drift3 (frames : list (list pos3)) (ti : trajindex) : outcome (list (list pos3)) :=
  omap (fun ss => shift_movie ss frames) (shifts3 frames ti).

Section Programs.
  (** Doubles as in Export_Model; rational numbers. *)
  Variables (show : Q -> text) (parse : text -> option Q).
  (** drift.cpp:32-36: one line, the drift from t to t+1 *)
  Definition drift_at (frames : list (list pos3)) (ti : trajindex) (t : nat) : outcome pos3 :=
    obind (select_spanning ti t (t + 1)) (fun sel =>
    obind (get_drift (axis x_of frames) ti sel t (t + 1)) (fun x =>
    obind (get_drift (axis y_of frames) ti sel t (t + 1)) (fun y =>
    omap (fun z => (x, y, z)) (get_drift (axis z_of frames) ti sel t (t + 1))))).
  Definition drift_line (t : nat) (v : pos3) : text := print_nat t ++ flat_map (fun a => tab :: show (a v)) axes ++ [newline].
  Definition drift_title : text := txt "t" ++ tab :: txt "x" ++ tab :: txt "y" ++ tab :: txt "z" ++ [newline].
  (** drift.cpp:13-38: the files afterwards.  [UB] without any frame: the size minus one is then the largest size_t and the loop leaves the vectors.
      Simplification: nothing is written when something goes wrong (the lines already written would stay). *)
  Definition drift_program (filename : text) (d : disk) : outcome disk :=
    obind (load_dyn Q 0%Q parse d filename) (fun p =>
    match l_frames Q p with
    | [] => UB
    | _ => omap (fun vs => put_file d (stem_of filename ++ txt "_drift.txt") (drift_title ++ flat_map (fun tv => drift_line (fst tv) (snd tv)) (combine (seq 0 (List.length (l_frames Q p) - 1)) vs)))
             (osequence (map (drift_at (l_frames Q p) (l_index Q p)) (seq 0 (List.length (l_frames Q p) - 1))))
    end).

  (** [dyn dt frames ti]: the texts of the three files of [exportDynamics] (dynamicParticles.cpp:1107-1114; Relax_Model). *)
  Variable dyn : Q -> list (list pos3) -> trajindex -> outcome (text * text * text).
  Definition put_three (d : disk) (stem : text) (l : text * text * text) : disk :=
    put_file (put_file (put_file d (stem ++ txt ".msd") (fst (fst l))) (stem ++ txt ".isf") (snd (fst l))) (stem ++ txt ".ngp") (snd l).
  (** The disk afterwards, and how the program ended. *)
  Definition then_do (r : disk * outcome unit) (f : disk -> disk * outcome unit) : disk * outcome unit := match snd r with Val _ => f (fst r) | _ => r end.
  Definition write_dynamics (stem : text) (dt : Q) (frames : list (list pos3)) (ti : trajindex) (d : disk) : disk * outcome unit :=
    match dyn dt frames ti with Val l => (put_three d stem l, Val tt) | Throw => (d, Throw) | UB => (d, UB) end.
  (** dynamics.cpp:43-56 *)
  Definition dynamics (filename : text) (mode : nat) (d : disk) : disk * outcome unit :=
    match load_dyn Q 0%Q parse d filename with
    | Val p =>
        let ti := l_index Q p in
        then_do (if (mode =? 0) || (mode =? 2) then write_dynamics (stem_of filename ++ txt "_drift") (l_dt Q p) (l_frames Q p) ti d else (d, Val tt)) (fun d1 =>
        if (mode =? 1) || (mode =? 2) then match remove_drift3 (l_frames Q p) ti with Val fr => write_dynamics (stem_of filename) (l_dt Q p) fr ti d1 | Throw => (d1, Throw) | UB => (d1, UB) end
        else (d1, Val tt))
    | Throw => (d, Throw)
    | UB => (d, UB)
    end.
  (** dynamics.cpp:27-39; [args]: argv[1] and following.  [None]: the message about the syntax.  The default mode is never used. *)
  Definition dynamics_main (atoi : text -> nat) (args : list text) (d : disk) : option (disk * outcome unit) :=
    match args with
    | filename :: mode :: _ => Some (dynamics filename (atoi mode) d)
    | _ => None
    end.
End Programs.

(** The square of a displacement (dynamicParticles.cpp:612-625), in lowest terms. *)
Definition sqd3 (p q : pos3) : Q :=
  let dx := (x_of q - x_of p)%Q in let dy := (y_of q - y_of p)%Q in let dz := (z_of q - z_of p)%Q in Qred (dx * dx + dy * dy + dz * dz)%Q.

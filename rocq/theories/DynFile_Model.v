(** Model of lib/dynamicParticles: trajectory files (save and the constructor from a file). *)
Require Import List Arith NArith Ascii Bool.
Require Import Verif.Base Verif.Dec Verif.Traj_Model Verif.TrajFile_Model Verif.Particles_Model Verif.Export_Model Verif.Files_Model.
Import ListNotations.
Local Open Scope nat_scope.
Local Open Scope list_scope.

(** std::string::find_last_of("/\\") and the substr of dynamicParticles.cpp:72-73: up to the last separator included, nothing if
    there is none (npos+1 is 0). *)
Definition is_sep (c : ascii) : bool := (N_of_ascii c =? 47)%N || (N_of_ascii c =? 92)%N.
Fixpoint folder_of (l : text) : text :=
  match l with
  | [] => []
  | c :: l' => match folder_of l' with
               | [] => if is_sep c then [c] else []
               | f => c :: f
               end
  end.

Section DynFile.
  (** As in Export_Model. *)
  Variables (V : Type) (zero : V) (show : V -> text) (parse : text -> option V).
  (** dynamicParticles.cpp:274-299 [save]: the text written; [None]: an empty trajectory (traj.cpp:99-106). *)
  Definition save_dyn (radius dt : V) (base token : text) (off size : nat) (tri : list traj) : option text :=
    option_map (fun l =>
      show radius ++ [tab] ++ show dt ++ [newline] ++ base ++ [newline] ++ token ++ [newline] ++
      print_nat off ++ [tab] ++ print_nat size ++ [newline] ++ l) (print_index tri).
  (** cpp:71-90, the header: radius, dt, base name, token, offset, size ([None]: left without value) and the rest of the stream. *)
  Definition read_header (l : text) : option V * option V * text * text * option N * option N * istream :=
    let '(r, s1) := read_with parse (open_text l) in
    let '(d, s2) := read_with parse s1 in
    let '(base, s3) := get_line (get_char s2) in
    let '(token, s4) := get_line s3 in
    let '(off, s5) := read_num s4 in
    let '(size, s6) := read_num s5 in
    (r, d, base, token, off, size, s6).
  (** traj.cpp:207-224 [operator>>(TrajIndex)] from a stream that was already read in part (as TrajFile_Model.read_index). *)
  Definition read_index_from (s : istream) : option (list traj) :=
    let '(st, s') := read_num s in read_index_loop (S (length (buf s))) s' st [].
  (** The disk: the text of each file that can be opened. *)
  Variable disk : text -> option text.
  (** cpp:1469-1474 [fill]: the positions of each file of the series (particles.cpp:33-60); a missing file throws. *)
  Definition fill_frames (fs : serie) : outcome (list (list (V * V * V))) :=
    osequence (map (fun t => match disk (step_name fs (N.of_nat t)) with
                             | Some l => Val (snd (read_dat V zero parse l))
                             | None => Throw
                             end) (seq 0 (nsteps fs))).
  (** cpp:69-96, constructor from a trajectory file.  [UB] when a number of the header cannot be read: t_offset and t_size have no
      initial value, and radius and dt would be used.  Simplification: since C++11 a failed extraction stores zero; the project is older. *)
  Record loaded := mkLoaded { l_radius : V; l_dt : V; l_serie : serie; l_frames : list (list (V * V * V)); l_index : trajindex }.
  Definition load_dyn (filename : text) : outcome loaded :=
    match disk filename with
    | None => Throw
    | Some l =>
        match read_header l with
        | (Some r, Some d, base, token, Some off, Some size, s) =>
            obind (file_serie (folder_of filename ++ base) token (N.to_nat size) off) (fun fs =>
            obind (fill_frames fs) (fun frames =>
            match read_index_from s with
            | None => UB
            | Some tri => match make_inverse tri (map (@length _) frames) with
                          | Some inv => Val (mkLoaded r d fs frames (mkIndex tri inv))
                          | None => UB
                          end
            end))
        | _ => UB
        end
    end.
End DynFile.

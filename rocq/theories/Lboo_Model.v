(** Model of the program linkboo (mains/linkboo.cpp) up to the linking: the bond order at each time step, from positions to files.
    The pair correlation function and the bond length are in Mean_Model, the names asked by several threads in Race_Model, the linking in Link_Model and Linker_Model. *)
Require Import String.
Require Import ZArith List Bool Arith NArith Ascii.
Require Import Verif.Base Verif.Dec Verif.RTree_Model Verif.Box_Model Verif.Traj_Model Verif.Particles_Model Verif.Files_Model Verif.Boo_Model Verif.Ngb_Model
  Verif.Corr_Model Verif.Export_Model Verif.PBoo_Model Verif.Rerun_Model Verif.Cloud_Model Verif.Perco_Model Verif.Order_Model.
Import ListNotations.
Local Open Scope nat_scope.
Local Open Scope list_scope.

(** linkboo.cpp:76-82: the files of a time step. *)
Record step_files := mkStep { f_bonds : text; f_qlm : text; f_cloud : text; f_space : text; f_out : text; f_out2 : text }.
Definition link_names (dat : serie) : outcome (nat -> step_files) :=
  obind (change_ext dat (txt ".bonds")) (fun b =>
  obind (change_ext dat (txt ".qlm")) (fun q =>
  obind (change_ext dat (txt ".cloud")) (fun cl =>
  obind (add_postfix_ext dat (txt "_space") (txt ".cloud")) (fun cg =>
  obind (change_ext dat (txt ".outside")) (fun o =>
  omap (fun o2 t => let name s := step_name s (N.of_nat t) in mkStep (name b) (name q) (name cl) (name cg) (name o) (name o2)) (change_ext dat (txt ".outside2"))))))).

(** linkboo.cpp:147-152: six files are looked at, those of the first and of the last time steps.  A file that exists can be opened. *)
Definition there (d : disk) (n : text) : bool := match d n with Some _ => true | None => false end.
Definition voro_mode (nm : nat -> step_files) (span : nat) (d : disk) : bool :=
  there d (f_out (nm 0)) && there d (f_out (nm (span - 1))) && there d (f_out2 (nm 0)) && there d (f_out2 (nm (span - 1))) && there d (f_bonds (nm 0)) && there d (f_bonds (nm (span - 1))).

(** istream_iterator<size_t>: numbers up to the first failure; there cannot be more of them than characters. *)
Fixpoint read_ids_loop (fuel : nat) (s : istream) : list nat :=
  match fuel with
  | 0 => []
  | S fuel' => match read_num s with (Some n, s') => N.to_nat n :: read_ids_loop fuel' s' | (None, _) => [] end
  end.
Definition read_ids (l : text) : list nat := read_ids_loop (List.length l) (open_text l).
(** linkboo.cpp:175-187, 190-195: all the particles but those of the file; a missing file has no number. *)
Definition but_listed (n : nat) (file : option text) : list nat := set_diff (seq 0 n) (match file with Some l => read_ids l | None => [] end).

(** linkboo.cpp:143, 201, 208-209: the bond length is 15 m / 200 diameters, m the bin of the first minimum; [one] is the default radius 1.0 in the unit of the coordinates.
    The margins are that number of units, and twice that (rounded down, as in [make_ngb_list]). *)
Definition link_margin1 (one m : Z) : Z := (3 * m * one / 40)%Z.
Definition link_margin2 (one m : Z) : Z := (6 * m * one / 40)%Z.
(** linkboo.cpp:201-209 and 97-98, on particles that have the radius [one]. *)
Definition link_bonds (c : config) (m : Z) (st : particles) (name : text) (d : disk) : outcome found :=
  match make_index c st, inside_first c st (link_margin1 (pradius st) m) false, inside_first c st (link_margin2 (pradius st) m) false with
  | Some st', Some i1, Some i2 => omap (fun ngb => (ngb, i1, i2, put_file d name (save_bonds (ngb2bonds ngb)))) (make_ngb_list st' (3 * m) 40)
  | _, _, _ => UB
  end.
(** linkboo.cpp:172-196; loadBonds throws on a missing file, which ends the program (exception out of a parallel region). *)
Definition link_load (st : particles) (f : step_files) (d : disk) : outcome found :=
  match d (f_bonds f) with
  | Some l => let n := List.length (pts st) in from_file n (Some (but_listed n (d (f_out f))), Some (but_listed n (d (f_out2 f)))) l d
  | None => Throw
  end.

Section Linkboo.
  (** As in Order_Model; the harmonics of a bond at each time step. *)
  Variables (B V : Type) (zero : B) (add : B -> B -> B) (divn : B -> nat -> B) (harm : nat -> nat -> nat -> B).
  Variables (row : B -> text) (inv : nat -> B -> V * V) (show : V -> text).
  (** linkboo.cpp:212-216: unlike in boo, an empty selection is taken as it is. *)
  Definition link_order (t n : nat) (ngb : list (list nat)) (inside second : list nat) : outcome (list B * list B) :=
    obind (get_boos_surf_boos B zero add divn (harm t) n ngb [] []) (fun qs =>
    obind (PBoo_Model.remove_outside B zero n inside 0 (fst qs)) (fun q =>
    obind (PBoo_Model.remove_outside B zero n inside 0 (snd qs)) (fun _ =>
    omap (fun cg => (q, cg)) (get_cg_boos B zero add divn n ngb second q [])))).
  (** linkboo.cpp:217-250: the three files, the same line of names in both files of invariants. *)
  Definition link_write (f : step_files) (r : list B * list B) (d : disk) : disk :=
    put_file (put_file (put_file d (f_qlm f) (qlm_file B row (fst r))) (f_cloud f) (space_file B V inv show (fst r))) (f_space f) (space_file B V inv show (snd r)).
  (** linkboo.cpp:165-256: a time step. *)
  Definition link_step (c : config) (m : Z) (voro : bool) (nm : nat -> step_files) (t : nat) (st : particles) (d : disk) : outcome disk :=
    obind (if voro then link_load st (nm t) d else link_bonds c m st (f_bonds (nm t)) d) (fun x =>
    let '(ngb, i1, i2, d') := x in omap (fun r => link_write (nm t) r d') (link_order t (List.length (pts st)) ngb i1 i2)).
  (** linkboo.cpp:75-92, 146-258.  [frames]: the positions of the time steps, read with radius 1.0; [m]: the bin of the first minimum.
      Simplifications: the time steps are taken one after the other; on an exception the files already written are not told. *)
  Definition linkboo (c : config) (m : Z) (filename tok : text) (off : N) (frames : list particles) (d : disk) : outcome disk :=
    obind (file_serie filename tok (List.length frames) off) (fun dat =>
    obind (link_names dat) (fun nm =>
    match rev frames with
    | [] => UB
    | lst :: _ =>
        match pts lst with
        | [] => Throw
        | _ => let voro := voro_mode nm (List.length frames) d in ofold (fun ts d => link_step c m voro nm (fst ts) (snd ts) d) (combine (seq 0 (List.length frames)) frames) d
        end
    end)).
End Linkboo.

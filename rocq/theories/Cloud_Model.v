(** Model of the files of invariants (.cloud) written by boo and boo_flip (mains), and of the program dat2vtk that reads them. *)
Require Import String.
Require Import List Arith NArith Ascii Bool.
Require Import Verif.Base Verif.Dec Verif.Traj_Model Verif.Particles_Model Verif.Files_Model Verif.Export_Model.
Import ListNotations.
Local Open Scope nat_scope.
Local Open Scope list_scope.

(** boo.cpp:31, dat2vtk.cpp:33: substr(0, find_last_of(".")), everything without a dot *)
Definition stem_of (filename : text) : text := cut_ext filename.
(** boo.cpp:33-34: substr(0, rfind("_t")), then from there up to the end of the stem (everything if that is negative, in size_t) *)
Definition boo_head (filename : text) : text := match rfind (txt "_t") filename with Some p => firstn p filename | None => filename end.
Definition boo_neck (filename : text) : text :=
  let h := List.length (boo_head filename) in let n := List.length (stem_of filename) in
  if h <=? n then firstn (n - h) (skipn h filename) else skipn h filename.
(** boo.cpp:117: the name of the coarse grained file *)
Definition boo_space_name (filename : text) : text := boo_head filename ++ txt "_space" ++ boo_neck filename ++ txt ".cloud".
(** dat2vtk.cpp:35, 43-44; substr(npos) throws *)
Definition vtk_space_name (filename : text) : outcome text :=
  let s := stem_of filename in
  match rfind (txt "_t") s with Some p => Val (firstn p s ++ txt "_space" ++ skipn p s ++ txt ".cloud") | None => Throw end.

Section Cloud.
  (** [B]: BooData; [inv l b]: getInvarients of degree l, q then w.  Doubles as in Export_Model. *)
  Variables (B V : Type) (inv : nat -> B -> V * V) (zero : V) (show : V -> text) (parse : text -> option V).
  (** boo_data.hpp:123-136 [cloud_exporter]: q4 q6 q8 q10 w4 w6 w8 w10 *)
  Definition cloud_values (b : B) : list V := map (fun l => fst (inv l b)) [4; 6; 8; 10] ++ map (fun l => snd (inv l b)) [4; 6; 8; 10].
  Definition cloud_rows (bs : list B) : text := flat_map (fun b => flat_map (fun v => show v ++ [tab]) (cloud_values b) ++ [newline]) bs.
  (** boo.cpp:108-115, 117-124: a line of names, then one row per particle *)
  Definition names_line (q w : string) : text :=
    txt "#" ++ txt q ++ txt "4" ++ [tab] ++ txt q ++ txt "6" ++ [tab] ++ txt q ++ txt "8" ++ [tab] ++ txt q ++ txt "10" ++ [tab] ++ txt w ++ txt "4" ++ [tab] ++ txt w ++ txt "6" ++ [tab] ++ txt w ++ txt "8" ++ [tab] ++ txt w ++ txt "10".
  Definition cloud_file (bs : list B) : text := names_line "q" "w" ++ newline :: cloud_rows bs.
  Definition space_file (bs : list B) : text := names_line "Q" "W" ++ newline :: cloud_rows bs.
  (** boo.cpp:126-133: the line of names goes to the other stream, that is closed, and is lost *)
  Definition surf_file (bs : list B) : text := cloud_rows bs.
  (** boo_flip.cpp:349-356, 358-365: four names *)
  Definition flip_file (bs : list B) : text := txt "#Q4" ++ [tab] ++ txt "Q6" ++ [tab] ++ txt "W4" ++ [tab] ++ txt "W6" ++ newline :: cloud_rows bs.

  (** fields.hpp:107-113: the view of one column of a table of eight *)
  Definition table_column (n : nat) (qw : list V) (i : nat) : list V := map (fun p => nth (p * 8 + i) qw zero) (seq 0 n).
  (** dat2vtk.cpp:52-53 *)
  Definition field_name (i : nat) : text :=
    (if i / 4 =? 0 then [] else txt "cg") ++ (if i / 2 mod 2 =? 0 then txt "Q" else txt "W") ++ (if i mod 2 =? 0 then txt "4" else txt "6").
  (** dat2vtk.cpp:26-62, on a disk; [argc]: number of arguments with the name of the program.  [Val (name, l)]: the file written.
      [Throw]: an exception, nothing is written.  A missing file throws (particles.cpp:39-41, 972-973, 1003-1004). *)
  Definition dat2vtk (argc : nat) (filename : text) (disk : text -> option text) : outcome (text * text) :=
    if argc <? 3 then Throw
    else
      let stem := stem_of filename in
      let file name := match disk name with Some l => Val l | None => Throw end in
      obind (file filename) (fun dat => let ps := snd (read_dat V zero parse dat) in let n := List.length ps in
      obind (file (stem ++ txt ".bonds")) (fun bl =>
      match load_bonds bl with None => UB | Some bonds =>
      obind (file (stem ++ txt ".cloud")) (fun cl =>
      obind (load_boo V parse cl (repeat zero (n * 8))) (fun qw =>
      obind (vtk_space_name filename) (fun sname =>
      obind (file sname) (fun sl =>
      omap (fun sqw =>
        (stem ++ txt ".vtk", export_vtk V show (txt "particles") ps bonds
           (combine (map field_name (seq 0 8)) (map (table_column n qw) (seq 0 4) ++ map (table_column n sqw) (seq 0 4))) []))
      (load_boo V parse sl (repeat zero (n * 8)))))))
      end)).
End Cloud.

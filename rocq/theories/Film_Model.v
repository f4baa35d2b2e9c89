(** Model of the last stage of traj2vtk and cage2vtk (mains): the files of all the previous stages are put in one vtk file per time step. *)
Require Import String.
Require Import List Arith NArith Ascii Bool.
Require Import Verif.Base Verif.Dec Verif.Traj_Model Verif.Particles_Model Verif.Export_Model.
Import ListNotations.
Local Open Scope nat_scope.
Local Open Scope list_scope.

(** An ifstream on a file that may be missing *)
Definition stream_of (file : option text) : istream := match file with Some l => open_text l | None => mkStream [] false true end.
Definition skip_line (s : istream) : istream := snd (get_line s).

(** The files read for one time step, by series: positions, bonds, bond order, lost neighbours or jumps, volume fractions, velocities *)
Record frame_files := mkFiles { dat_file : option text; bond_file : option text; boo_file : option text; count_file : option text; phi_file : option text; vel_file : option text }.

Section Film.
  Variables (V : Type) (zero : V) (show : V -> text) (parse : text -> option V).
  (** copy(istream_iterator<double>(in), istream_iterator<double>(), x.begin()) with x of [n] null values: traj2vtk.cpp:466-474, 477-488; cage2vtk.cpp:350-358, 361-372 *)
  Definition read_values (n : nat) (s : istream) : outcome (list V) := load_boo_loop V parse (repeat zero n) s [].
  (** traj2vtk.cpp:490-498, cage2vtk.cpp:374-382: one line skipped, then index.hpp:66-71 for each particle *)
  Definition read_velocities (n : nat) (s : istream) : list (V * V * V) := read_rows V zero parse n (skip_line s).
  (** fields.hpp:107-113: a column of the table of eight columns of loadBoo *)
  Definition film_column (n : nat) (qw : list V) (i : nat) : list V := map (fun p => nth (p * 8 + i) qw zero) (seq 0 n).
  (** traj2vtk.cpp:503-505 *)
  Definition traj_name (i : nat) : text := (if i / 4 =? 0 then txt "Q" else txt "W") ++ print_nat (i mod 4 * 2 + 4).
  (** cage2vtk.cpp:389 *)
  Definition cage_name (i : nat) : text := (if i / 2 mod 2 =? 0 then txt "Q" else txt "W") ++ (if i mod 2 =? 0 then txt "4" else txt "6").

  (** traj2vtk.cpp:457-520 (eight columns, "lostNgb") and cage2vtk.cpp:340-404 (four columns, "jumps"): the text of one vtk file.
      Missing positions, bonds or bond order throw (particles.cpp:39-41, 972-973, 1003-1004). *)
  Definition film_frame (columns : nat) (name : nat -> text) (count_name : text) (have_volume : bool) (f : frame_files) : outcome text :=
    let file o := match o with Some l => Val l | None => Throw end in
    obind (file (dat_file f)) (fun dl => let ps := snd (read_dat V zero parse dl) in let n := List.length ps in
    obind (file (bond_file f)) (fun bl =>
    match load_bonds bl with None => UB | Some bonds =>
    obind (file (boo_file f)) (fun ql =>
    obind (load_boo V parse ql (repeat zero (n * 8))) (fun qw =>
    obind (read_values n (stream_of (count_file f))) (fun counts =>
    obind (if have_volume then read_values n (skip_line (skip_line (stream_of (phi_file f)))) else Val (repeat zero n)) (fun phi =>
    let vel := read_velocities n (stream_of (vel_file f)) in
    Val (export_vtk V show (txt "particles") ps bonds
      (map (fun i => (name i, film_column n qw i)) (seq 0 columns) ++ (count_name, counts) :: (if have_volume then [(txt "phi", phi)] else []))
      [(txt "velocity", vel)])))))
    end)).
  Definition traj_frame := film_frame 8 traj_name (txt "lostNgb").
  Definition cage_frame := film_frame 4 cage_name (txt "jumps").

  (** traj2vtk.cpp:455-522, cage2vtk.cpp:338-406, the loop on time steps: the files written, and how it ends *)
  Fixpoint film (frame : frame_files -> outcome text) (files : nat -> frame_files) (ts : list nat) : list (nat * text) * outcome unit :=
    match ts with
    | [] => ([], Val tt)
    | t :: ts' =>
        match frame (files t) with
        | Val l => let '(w, o) := film frame files ts' in ((t, l) :: w, o)
        | Throw => ([], Throw)
        | UB => ([], UB)
        end
    end.

  (** What the previous stages write. traj2vtk.cpp:97-102, cage2vtk.cpp:58-61: one value per line *)
  Definition count_text (vs : list V) : text := flat_map (fun v => show v ++ [newline]) vs.
  (** traj2vtk.cpp:214-222, cage2vtk.cpp:97-104: a header line, then one line per particle *)
  Definition boo_rows (rows : list (list V)) : text := flat_map (fun r => flat_map (fun v => show v ++ [tab]) r ++ [newline]) rows.
  Definition traj_header : text := txt "#Q4" ++ tab :: txt "Q6" ++ tab :: txt "Q8" ++ tab :: txt "Q10" ++ tab :: txt "W4" ++ tab :: txt "W6" ++ tab :: txt "W8" ++ tab :: txt "W10".
  Definition cage_header : text := txt "#Q4" ++ tab :: txt "Q6" ++ tab :: txt "W4" ++ tab :: txt "W6".
  Definition boo_text (header : text) (rows : list (list V)) : text := header ++ newline :: boo_rows rows.
  (** traj2vtk.cpp:246-249, cage2vtk.cpp:128-131: f<<phi[t]; traj2vtk.cpp:385-387, cage2vtk.cpp:253-255: VectorField "V" *)
  Definition phi_text (vs : list V) : text := vtk_scalar V show (txt "phi", vs).
  Definition vel_text (vs : list (V * V * V)) : text := vtk_vector V show (txt "V", vs).
End Film.

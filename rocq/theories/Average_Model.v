(** Model of the fields averaged by mains/traj2vtk.cpp and mains/cage2vtk.cpp: bond order and volume fractions, and of Particles::loadBoo that reads them. *)
Require Import ZArith QArith List Bool Arith.
Require Import Verif.Traj_Model Verif.Particles_Model Verif.Corr_Model Verif.Field_Model.
Import ListNotations.
Local Open Scope nat_scope.

(** Files are given as the numbers read by istream_iterator<double> (after the header line when there is one); a missing file gives no number. *)
Notation numbers := (list Q).

(** copy(istream_iterator<double>(f), istream_iterator<double>(), array.begin()): traj2vtk.cpp:201-204, 235-238; cage2vtk.cpp:83-86, 118-121; particles.cpp:981-984.
    More numbers than the array has places: writes out of it. *)
Definition copy_into (xs arr : numbers) : outcome numbers :=
  if length xs <=? length arr then Val (xs ++ skipn (length xs) arr) else UB.
(** boost::multi_array::resize to [n] rows, the number of columns [c] being always the same: what is in both shapes is kept, the rest is 0.  Row-major.
    traj2vtk.cpp:195-196, cage2vtk.cpp:77-78, particles.cpp:979-980. *)
Definition resize (c n : nat) (arr : numbers) : numbers := firstn (n * c) arr ++ repeat 0%Q (n * c - length arr).
(** fields.hpp:104-110: the view of one column *)
Definition column (c n : nat) (arr : numbers) (i : nat) : list Q := map (fun p => nth (p * c + i) arr 0%Q) (seq 0 n).

(** fields.hpp:173-197 for doubles, in exact arithmetic: isNull is 1+v*v==1, here v=0; /= (double)n *)
Definition qnull (v : Q) : bool := Qeq_bool v 0.
Definition qdiv (v : Q) (n : nat) : Q := (v / inject_Z (Z.of_nat n))%Q.
Notation field := (dfield Q).
Definition push (ti : trajindex) (tau : nat) (df : field) (frame : list Q) : outcome field :=
  match df_push Q Qplus qdiv qnull ti tau df frame with Some d => Val d | None => UB end.

Section Export.
  Variables (ti : trajindex) (tau : nat).
  (** traj2vtk.cpp:191-209 and cage2vtk.cpp:73-91, one iteration: the array of the previous time is resized, filled, and each column is averaged. *)
  Definition boo_step (c : nat) (row_file : list nat * numbers) (st : numbers * list field) : outcome (numbers * list field) :=
    let n := length (fst row_file) in
    obind (copy_into (snd row_file) (resize c n (fst st))) (fun arr =>
    omap (fun dfs => (arr, dfs)) (osequence (map (fun idf => push ti tau (snd idf) (column c n arr (fst idf))) (combine (seq 0 c) (snd st))))).
  (** traj2vtk.cpp:179-224 (c=8) and cage2vtk.cpp:66-107 (c=4).  The result: for each time, for each position, the c values written on its line. *)
  Definition export_timeBoo (c : nat) (files : list numbers) : outcome (list (list (list Q))) :=
    omap (fun st => map (fun t => map (fun p => map (fun df => nth p (nth t (vals Q df) []) 0%Q) (snd st)) (seq 0 (length (nth t (inverse ti) []))))
                      (seq 0 (length (inverse ti))))
      (ofold (boo_step c) (combine (inverse ti) files) ([], repeat (df_new Q 0%Q ti tau) c)).

  (** traj2vtk.cpp:226-251, cage2vtk.cpp:109-132.  4/3 is a division of integers.  [pi]: M_PI. *)
  Definition unit_volume (pi radius : Q) : Q := (inject_Z (4 / 3) * (radius * radius * radius) * pi)%Q.
  Definition phi_frame (pi radius : Q) (n : nat) (file : numbers) : outcome (list Q) :=
    omap (map (fun v => if qnull v then v else (unit_volume pi radius / v)%Q)) (copy_into file (repeat 0%Q n)).
  Definition export_phi (pi radius : Q) (files : list numbers) : outcome (list (list Q)) :=
    omap (vals Q) (ofold (fun row_file df => obind (phi_frame pi radius (length (fst row_file)) (snd row_file)) (push ti tau df))
      (combine (inverse ti) files) (df_new Q 0%Q ti tau)).
End Export.

(** particles.cpp:969-987: always eight columns, in a new array (cage2vtk.cpp:346-347, traj2vtk.cpp:462-463). *)
Definition load_boo (n : nat) (file : numbers) : outcome numbers := copy_into file (resize 8 n []).
(** cage2vtk.cpp:384-392: the four scalar fields Q4, Q6, W4, W6 of the vtk file. *)
Definition cage_scalars (n : nat) (file : numbers) : outcome (list (list Q)) := omap (fun arr => map (column 8 n arr) (seq 0 4)) (load_boo n file).
(** traj2vtk.cpp:497-508: the eight scalar fields Q4..Q10, W4..W10 of the vtk file. *)
Definition traj_scalars (n : nat) (file : numbers) : outcome (list (list Q)) := omap (fun arr => map (column 8 n arr) (seq 0 8)) (load_boo n file).

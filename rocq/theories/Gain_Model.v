(** Model of export_lostNgb of mains/traj2vtk.cpp: neighbours changed within an interval around each time step. *)
Require Import ZArith List Bool Arith NArith.
Require Import Verif.Dec Verif.Traj_Model Verif.Particles_Model Verif.Files_Model Verif.Boo_Model Verif.Corr_Model Verif.Lost_Model.
Import ListNotations.
Local Open Scope nat_scope.

Section Gain.
  Variables (ti : trajindex) (fs : text -> option text) (bonds lngb : serie).
  (** traj2vtk.cpp:80-96: the values of time step t0; [dyn]: the neighbours of all time steps (Lost_Model.load_frame, the code of 38-72 is that of lostngb.cpp).
      Counts are kept as integers; the program holds them in doubles. *)
  Definition window_changed (tau : nat) (dyn : list (list (list nat))) (t0 : nat) : outcome (list Z) :=
    obind (at_index (inverse ti) t0) (fun inv => osequence (map (fun tr =>
      match nth_error (trajs ti) tr with
      | None => UB
      | Some T =>
          let first := Nat.max (start T + tau / 2) t0 - tau / 2 in
          let last := Z.to_nat (Z.min (last_time T) (Z.of_nat (t0 + tau / 2))) in
          if first =? last then Val 0%Z
          else obind (at_index dyn last) (fun later => obind (access T last) (fun q =>
               obind (at_index dyn first) (fun before => obind (access T first) (fun p => missing later before q p))))
      end) inv)).
  (** traj2vtk.cpp:27-104: names of the files and values in them, one per line. *)
  Definition export_lost (tau : nat) : outcome (list (text * list Z)) :=
    let size := length (inverse ti) in
    obind (osequence (map (load_frame ti fs bonds) (seq 0 size))) (fun dyn =>
    osequence (map (fun t0 => omap (fun vs => (step_name lngb (N.of_nat t0), vs)) (window_changed tau dyn t0)) (seq 0 size))).
End Gain.

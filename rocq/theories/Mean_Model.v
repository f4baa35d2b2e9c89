(** Model of the programs that average pair correlation functions and take the bond length from them: mains/totalRdf.cpp, mains/all_bonds.cpp, mains/linkboo.cpp,
    mains/bonds.cpp.  The values of g(r) are exact rational numbers (the programs use doubles). *)
Require Import ZArith QArith List Bool Arith.
Require Import Verif.Base Verif.Box_Model Verif.RTree_Model Verif.Traj_Model Verif.Particles_Model Verif.Ngb_Model.
Import ListNotations.
Local Open Scope Q_scope.

Definition qlt (a b : Q) : bool := negb (Qle_bool b a).
(** totalRdf.cpp:57 transform with plus; all_bonds.cpp:100-101. *)
Definition add_bins (g tot : list Q) : list Q := map (fun xy => fst xy + snd xy) (combine g tot).

(** totalRdf.cpp:48-60: [frame t] is the pair correlation function of file t, or [None] when it cannot be opened (invalid_argument of the constructor);
    the result is the value of t after the loop and gTot.  [None]: out of fuel. *)
Fixpoint total_loop (frame : nat -> option (list Q)) (fuel t : nat) (tot : list Q) : option (nat * list Q) :=
  match fuel with
  | O => None
  | S fuel' => match frame t with None => Some (S t, tot) | Some g => total_loop frame fuel' (S t) (add_bins g tot) end
  end.
(** totalRdf.cpp:61-64, all_bonds.cpp:104-107, linkboo.cpp:125-128: the rows of the .rdf file. *)
Definition rdf_rows (nbins : nat) (range : Q) (t : nat) (tot : list Q) : list (Q * Q) :=
  map (fun rx => (inject_Z (Z.of_nat (fst rx)) / inject_Z (Z.of_nat nbins) * range, snd rx / inject_Z (Z.of_nat t))) (combine (seq 0 (length tot)) tot).
(** totalRdf.cpp:46-64 *)
Definition total_rdf (frame : nat -> option (list Q)) (fuel nbins : nat) (range : Q) : option (list (Q * Q)) :=
  match total_loop frame fuel 0 (repeat 0 nbins) with Some (t, tot) => Some (rdf_rows nbins range t tot) | None => None end.

(** std::max_element of g, then std::min_element from there: all_bonds.cpp:117-118, linkboo.cpp:138-139, bonds.cpp:50-51. *)
Definition first_peak (g : list Q) : nat := min_index (fun a b => qlt b a) g.
Definition first_min (g : list Q) : nat := (first_peak g + min_index qlt (skipn (first_peak g) g))%nat.
(** all_bonds.cpp:115-121, linkboo.cpp:136-142, bonds.cpp:48-53: the do ... while loop.  [None]: out of fuel. *)
Fixpoint search_min (fuel : nat) (g : list Q) : option nat :=
  match fuel with
  | O => None
  | S fuel' => let m := first_min g in if Qeq_bool (nth m g 0) 0 then search_min fuel' g else Some m
  end.
(** all_bonds.cpp:80-110, linkboo.cpp:101-131: total_g and the .rdf file afterwards; [file]: the rows of the file if it exists.
    A missing number leaves 0; a file ending in the middle of a row is not modelled. *)
Definition bins : nat := 200.
Definition average_rdf (file : option (list (Q * Q))) (frames : list (list Q)) : list Q * list (Q * Q) :=
  match file with
  | Some rows => (firstn bins (map snd rows ++ repeat 0 bins), rows)
  | None => let tot := fold_left (fun tot g => add_bins g tot) frames (repeat 0 bins) in (tot, rdf_rows bins 15 (length frames) tot)
  end.
(** all_bonds.cpp:79-122: the bond length, in diameters, and the file afterwards. *)
Definition bond_length (fuel : nat) (file : option (list (Q * Q))) (frames : list (list Q)) : option (Q * list (Q * Q)) :=
  let '(g, file') := average_rdf file frames in
  match search_min fuel g with Some m => Some (inject_Z (Z.of_nat m) / 200 * 15, file') | None => None end.

(** bonds.cpp:35-59: the bonds written for the positions [pos]; [arg]: the maximum bond length given on the command line, as a fraction; [rdf] gives the pair
    correlation function, [one] is the radius 1 in the unit of the coordinates.  [Val None]: out of fuel. *)
Definition bonds_program (c : config) (rdf : particles -> list Q) (fuel : nat) (pos : list (list Z)) (bb : box) (one : Z) (arg : option (Z * Z)) : outcome (option (list (nat * nat))) :=
  match make_index c (new_particles pos bb one) with
  | None => UB
  | Some st =>
      let write bn bd := omap (fun ngb => Some (ngb2bonds ngb)) (make_ngb_list st bn bd) in
      match arg with
      | Some (bn, bd) => write bn bd
      | None => match search_min fuel (rdf st) with None => Val None | Some _ => write 0%Z 1%Z end
      end
  end.

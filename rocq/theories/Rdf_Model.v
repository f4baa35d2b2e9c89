(** Model of the program rdf and of its periodic variant (mains/rdf.cpp), with getRdf on periodic particles (lib/particles.cpp, lib/periodic.cpp). *)
Require Import String.
Require Import ZArith List Bool Arith Ascii.
Require Import Verif.Base Verif.Dec Verif.Box_Model Verif.RTree_Model Verif.Index_Model Verif.Traj_Model Verif.Particles_Model Verif.Periodic_Model Verif.Density_Model
  Verif.Export_Model Verif.Cloud_Model Verif.Perco_Model.
Import ListNotations.
Local Open Scope nat_scope.
Local Open Scope list_scope.

(** particles.hpp:208-212 [RdfBinner::operator()] with periodic.cpp:45-51 [getDiff]; otherwise as rdf_pairs. *)
Fixpoint per_rdf_pairs (st : particles) (cutoff : Z) (i : nat) (l : list nat) (g : list nat * nat) : outcome (list nat * nat) :=
  match l with
  | [] => Val g
  | j :: l' =>
      match nth_error (pts st) i with
      | None => Throw
      | Some a =>
          obind (per_diff st a j) (fun v =>
          match incr (rdf_bin (length (fst g)) cutoff (norm_sq v)) (fst g) with
          | Some g' => per_rdf_pairs st cutoff i l' (g', S (snd g))
          | None => UB
          end)
      end
  end.
(** particles.cpp:780-789 [Binner::operator<<] on periodic particles. *)
Fixpoint per_rdf_loop (st : particles) (cutoff : Z) (sel : list nat) (g : list nat * nat) : outcome (list nat * nat) :=
  match sel with
  | [] => Val g
  | i :: sel' => obind (per_euclid_of st i cutoff) (fun l => obind (per_rdf_pairs st cutoff i l g) (per_rdf_loop st cutoff sel'))
  end.

Section Rdf.
  (** As in Density_Model; [show]: a double written to a stream; [abscissa k]: k/(NbOfBins/range).  The cut-off, 2 radius range (hpp:191), is given. *)
  Variables (V : Type) (zero : V) (of_nat : nat -> V) (div : V -> V -> V) (norm : nat -> Z -> nat -> Z -> nat -> V) (show : V -> text) (abscissa : nat -> V).
  (** particles.cpp:803-809 [getRdf] of a selection of periodic particles; periodic.cpp:54-57 [getNumberDensity]. *)
  Definition per_get_rdf (st : particles) (n : nat) (cutoff : Z) (sel : list nat) : outcome (list V) :=
    obind (per_rdf_loop st cutoff sel (repeat 0 n, 0)) (fun gc =>
    normalize_rdf V zero of_nat div (norm (length (pts st)) (area (pbb st)) n cutoff (length sel)) (map of_nat (fst gc))).
  (** particles.cpp:812-815 [getRdf]: getInside is that of the index, with or without periodic boundary conditions. *)
  Definition rdf_selection (st : particles) (cutoff : Z) : outcome (list nat) :=
    match pindex st with
    | None => UB
    | Some t => match rstar_inside t cutoff false with Some sel => Val sel | None => UB end
    end.
  (** rdf.cpp:73-77 *)
  Definition rdf_text (g : list V) : text :=
    txt "#r" ++ [tab] ++ txt "g" ++ newline :: flat_map (fun kv => show (abscissa (fst kv)) ++ [tab] ++ show (snd kv) ++ [newline]) (combine (seq 0 (length g)) g).
  (** rdf.cpp:40, 73 *)
  Definition rdf_name (filename : text) : text := stem_of filename ++ txt ".rdf".
  (** rdf.cpp:64-77, the particles [st] having been read. *)
  Definition rdf_main (get : particles -> nat -> Z -> list nat -> outcome (list V)) (c : config) (st : particles) (filename : text) (n : nat) (cutoff : Z) (d : disk) : outcome disk :=
    match make_index c st with
    | None => UB
    | Some st' => obind (rdf_selection st' cutoff) (fun sel => omap (fun g => put_file d (rdf_name filename) (rdf_text g)) (get st' n cutoff sel))
    end.
  Definition rdf_program := rdf_main (get_rdf V zero of_nat div norm).
  Definition periodic_rdf := rdf_main per_get_rdf.
End Rdf.

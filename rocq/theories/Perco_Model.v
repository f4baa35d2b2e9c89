(** Model of mains/percolation.cpp: clusters at each time step, from bond files or from the positions. *)
Require Import String.
Require Import ZArith List Bool Arith NArith Ascii.
Require Import Verif.Base Verif.Dec Verif.RTree_Model Verif.Box_Model Verif.Traj_Model Verif.Particles_Model Verif.Files_Model Verif.Boo_Model Verif.Ngb_Model
  Verif.Corr_Model Verif.Export_Model Verif.Cluster_Model Verif.Extent_Model.
Import ListNotations.
Local Open Scope nat_scope.
Local Open Scope list_scope.

(** The files by name. *)
Definition disk := text -> option text.
Definition put_file (d : disk) (name content : text) : disk := fun n => if list_eq_dec ascii_dec n name then Some content else d n.

Section Perco.
  (** [ti], [frames]: the trajectories and the positions, as loaded (DynFile_Model), the boxes [bb] and the radius [r];
      [bonds], [clust]: bondSerie and clustSerie; [stem]: inputPath, the name of the trajectory file without extension. *)
  Variables (c : config) (ti : trajindex) (frames : list (list (list Z))) (bb : box) (r : Z) (bonds clust : serie) (stem : text).
  (** percolation.cpp:76-80, one time step; a missing file throws, a bond out of range writes out of the list. *)
  Definition ngb_loaded (d : disk) (t : nat) : outcome (list (list nat)) :=
    match d (step_name bonds (N.of_nat t)) with
    | None => Throw
    | Some l => match load_bonds l with
                | None => UB
                | Some b => obind (at_index frames t) (fun pos => match ngb_of_bonds (List.length pos) b with Some n => Val n | None => UB end)
                end
    end.
  (** percolation.cpp:86-87, one time step: the index and the neighbours closer than 1.3 diameters. *)
  Definition ngb_computed (pos : list (list Z)) : outcome (list (list nat)) :=
    match make_index c (new_particles pos bb r) with
    | Some st => make_ngb_list st 13 10
    | None => UB
    end.
  Definition bond_name : text := stem ++ txt ".bonds".
  (** percolation.cpp:73-94: the neighbours at each time step, and the files; any missing file makes all time steps computed. *)
  Definition bonds_stage (d : disk) : outcome (list (list (list nat)) * disk) :=
    match osequence (map (ngb_loaded d) (seq 0 (List.length frames))) with
    | Val ngbss => Val (ngbss, d)
    | Throw => omap (fun ngbss => (ngbss, fold_left (fun d ngb => put_file d bond_name (save_bonds (ngb2bonds ngb))) ngbss d)) (osequence (map ngb_computed frames))
    | UB => UB
    end.
  (** percolation.cpp:49-102; [range]: argv[2]. *)
  Definition percolation (range : Z * Z) (d : disk) : outcome disk :=
    obind (bonds_stage d) (fun nd =>
    match assign_clusters ti (fst nd) (seq 0 (List.length (trajs ti))) with
    | None => UB
    | Some (members, cl) => omap (fun out => fold_left (fun d nl => put_file d (fst nl) (snd nl)) out (snd nd)) (save_clusters ti cl members clust)
    end).
End Perco.

(** Model of the program boo_flip, and of its periodic variant, as a whole (mains/boo_flip.cpp): from the positions and the files on the disk to the files on the disk. *)
Require Import String.
Require Import ZArith List Bool Arith NArith Ascii.
Require Import Verif.Base Verif.Dec Verif.RTree_Model Verif.Box_Model Verif.Traj_Model Verif.Particles_Model Verif.Files_Model Verif.Boo_Model Verif.Ngb_Model
  Verif.Corr_Model Verif.Export_Model Verif.Periodic_Model Verif.PBoo_Model Verif.Rerun_Model Verif.Cloud_Model Verif.Perco_Model Verif.Sim_Model Verif.Order_Model.
Import ListNotations.
Local Open Scope nat_scope.
Local Open Scope list_scope.

(** boo_flip.cpp:66-96, up to the selections, is boo.cpp:36-65 without noZ; the set of bonds is kept besides. *)
Definition found_bonds : Type := found * list (nat * nat).
Definition flip_from_file (n : nat) (later : option (list nat) * option (list nat)) (l : text) (d : disk) : outcome found_bonds :=
  obind (from_file n later l d) (fun f => match load_bonds l with Some b => Val (f, b) | None => UB end).
(** boo_flip.cpp:82: getBonds (Ngb_Model). *)
Definition flip_make (r : outcome found) : outcome found_bonds := omap (fun f : found => (f, ngb2bonds (fst (fst (fst f))))) r.

Section Flip.
  (** As in Order_Model, PBoo_Model and Sim_Model; [product]: normedProduct of degree 6 (boo_data.cpp); [of_count]: size_t to double; [xyz]: the coordinates of a position as doubles. *)
  Variables (B V : Type) (zero : B) (add : B -> B -> B) (divn : B -> nat -> B) (harm : nat -> nat -> B) (null : B -> bool) (turn : nat -> nat -> B -> B).
  Variables (inv : nat -> B -> V * V) (show : V -> text) (unset : V) (high : V -> bool) (product : B -> B -> V) (of_count : nat -> V) (xyz : list Z -> V * V * V).

  Definition flip_result : Type := list B * list B * list B * list B * (list nat * list nat * list V * list V).
  (** boo_flip.cpp:98-171: getBOOs, removeOutside, getCgBOOs, the flips along the two shells, the products along the bonds. *)
  Definition flip_of (n : nat) (ngb : list (list nat)) (inside second : list nat) (bonds : list (nat * nat)) : outcome flip_result :=
    obind (get_boos B zero add divn harm n ngb []) (fun q0 =>
    obind (wiped B zero n inside q0) (fun q =>
    obind (get_cg_boos B zero add divn n ngb (or_all n second) q []) (fun cg =>
    obind (get_flip_boos B add divn turn null n q bonds) (fun f1 =>
    match get_second_shell ngb with
    | None => UB
    | Some bonds2 =>
        obind (get_flip_boos B add divn turn null n q bonds2) (fun f2 =>
        omap (fun r => (q, cg, f1, f2, r))
          (sim_program V unset high n (fun p => null (nth p q zero)) (fun p r => product (nth p q zero) (nth r q zero))
            (fun p r => product (nth p q zero) (turn p r (nth r q zero))) inside bonds))
    end)))).
  (** boo_flip.cpp:195-268: the text of the vtk file *)
  Definition sim_text (ps : list (V * V * V)) (bonds : list (nat * nat)) (q cg : list B) (r : list nat * list nat * list V * list V) : text :=
    let '(nb, nbr, s, sr) := r in
    vtk_points V show (txt "similarities") ps ++ vtk_bonds bonds ++ txt "POINT_DATA " ++ print_nat (List.length ps) ++ [newline] ++
    vtk_scalar V show (txt "nb_bonds_raw", map of_count nb) ++ vtk_scalar nat print_nat (txt "nb_bonds_ref", nbr) ++
    vtk_scalar V show (txt "q6", map (fun b => fst (inv 6 b)) q) ++ vtk_scalar V show (txt "w6", map (fun b => snd (inv 6 b)) q) ++
    vtk_scalar V show (txt "Q6", map (fun b => fst (inv 6 b)) cg) ++ vtk_scalar V show (txt "W6", map (fun b => snd (inv 6 b)) cg) ++
    txt "CELL_DATA " ++ print_nat (List.length bonds) ++ [newline] ++ vtk_scalar V show (txt "sim6_raw", s) ++ vtk_scalar V show (txt "sim6_ref", sr).
  (** boo_flip.cpp:202-268, 330-365: the five files, in this order *)
  Definition write_flip (filename : text) (ps : list (V * V * V)) (bonds : list (nat * nat)) (r : flip_result) (d : disk) : disk :=
    let '(q, cg, f1, f2, s) := r in
    put_file (put_file (put_file (put_file (put_file d
      (with_mark filename "_sim" ".vtk") (sim_text ps bonds q cg s))
      (stem_of filename ++ txt ".cloud") (cloud_file B V inv show q))
      (with_mark filename "_space" ".cloud") (space_file B V inv show cg))
      (with_mark filename "_flip" ".cloud") (flip_file B V inv show f1))
      (with_mark filename "_flip2" ".cloud") (flip_file B V inv show f2).
  Definition finish_flip (ps : list (V * V * V)) (filename : text) (fb : found_bonds) : outcome disk :=
    let '((ngb, i1, i2, d), bonds) := fb in omap (fun r => write_flip filename ps bonds r d) (flip_of (List.length ps) ngb i1 i2 bonds).
  (** boo_flip.cpp:45-375 on the particles [st], the file [filename] having been read. *)
  Definition boo_flip (c : config) (st : particles) (filename : text) (d : disk) : outcome disk :=
    obind (match d (bonds_name filename) with
           | Some l => flip_from_file (List.length (pts st)) (inside_later st (margin1 st) false, inside_later st (margin2 st) false) l d
           | None => flip_make (make_bonds c st false filename d)
           end) (finish_flip (map xyz (pts st)) filename).
  Definition periodic_flip (c : config) (st : particles) (filename : text) (d : disk) : outcome disk :=
    obind (match d (bonds_name filename) with
           | Some l => flip_from_file (List.length (pts st)) (Some (per_select_inside st), Some (per_select_inside st)) l d
           | None => flip_make (make_bonds_periodic c st filename d)
           end) (finish_flip (map xyz (pts st)) filename).
End Flip.

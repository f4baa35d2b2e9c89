(** Model of the programs boo and periodic_boo as a whole (mains/boo.cpp): from the positions and the files on the disk to the files on the disk. *)
Require Import String.
Require Import ZArith List Bool Arith NArith Ascii.
Require Import Verif.Base Verif.Dec Verif.RTree_Model Verif.Box_Model Verif.Traj_Model Verif.Particles_Model Verif.Files_Model Verif.Boo_Model Verif.Ngb_Model
  Verif.Corr_Model Verif.Export_Model Verif.Periodic_Model Verif.PBoo_Model Verif.Rerun_Model Verif.Cloud_Model Verif.Perco_Model.
Import ListNotations.
Local Open Scope nat_scope.
Local Open Scope list_scope.

(** boo.cpp:41-42, 55-56: the two margins, 1.3 and 2.6 radii (rounded down, as the bond length is in [make_ngb_list]). *)
Definition margin1 (st : particles) : Z := (13 * pradius st / 10)%Z.
Definition margin2 (st : particles) : Z := (26 * pradius st / 10)%Z.
Definition bonds_name (filename : text) : text := stem_of filename ++ txt ".bonds".
(** boo.cpp:33-34, 100, 117, 126: the names of the files besides those on the stem. *)
Definition with_mark (filename : text) (mark ext : string) : text := boo_head filename ++ txt mark ++ boo_neck filename ++ txt ext.

(** What boo.cpp:36-65 leaves: the neighbour lists, the two selections, the files. *)
Definition found : Type := list (list nat) * list nat * list nat * disk.
(** boo.cpp:37-43: loadBonds throws on a missing file; [later] gives the two selections without index.  A bond out of range writes out of the lists. *)
Definition from_file (n : nat) (later : option (list nat) * option (list nat)) (l : text) (d : disk) : outcome found :=
  match load_bonds l with
  | None => UB
  | Some b =>
      match ngb_of_bonds n b, later with
      | Some ngb, (Some i1, Some i2) => Val (ngb, i1, i2, d)
      | _, _ => UB
      end
  end.
(** boo.cpp:44-58, on particles that are not periodic: index, neighbours closer than 1.3 diameters, bond file, selections. *)
Definition make_bonds (c : config) (st : particles) (noz : bool) (filename : text) (d : disk) : outcome found :=
  match make_index c st, inside_first c st (margin1 st) noz, inside_first c st (margin2 st) noz with
  | Some st', Some i1, Some i2 =>
      omap (fun ngb => (ngb, i1, i2, put_file d (bonds_name filename) (save_bonds (ngb2bonds ngb)))) (make_ngb_list st' 13 10)
  | _, _, _ => UB
  end.
(** The same with periodic boundary conditions: selectInside and selectInside_noindex give everybody (periodic.hpp:52-54, periodic.cpp:65-71). *)
Definition make_bonds_periodic (c : config) (st : particles) (filename : text) (d : disk) : outcome found :=
  match make_index c st with
  | Some st' =>
      omap (fun ngb => (ngb, per_select_inside st', per_select_inside st', put_file d (bonds_name filename) (save_bonds (ngb2bonds ngb)))) (per_ngb_list st' 13 10)
  | None => UB
  end.

Section Order.
  (** The coefficients and the harmonics of a bond as in PBoo_Model; [row]: the text of a set of coefficients (boo_data.cpp:338-344); [inv], [show]: as in Cloud_Model. *)
  Variables (B V : Type) (zero : B) (add : B -> B -> B) (divn : B -> nat -> B) (harm : nat -> nat -> B).
  Variables (row : B -> text) (inv : nat -> B -> V * V) (show : V -> text).

  (** boo.cpp:78-82: nothing is wiped when the selection was empty (59-62). *)
  Definition wiped (n : nat) (inside : list nat) (q : list B) : outcome (list B) :=
    match inside with [] => Val q | _ => PBoo_Model.remove_outside B zero n inside 0 q end.
  (** boo.cpp:59-91: the coefficients, coarse grained, with surface bonds. *)
  Definition order_of (n : nat) (ngb : list (list nat)) (inside second : list nat) : outcome (list B * list B * list B) :=
    obind (get_boos_surf_boos B zero add divn harm n ngb [] []) (fun qs =>
    obind (wiped n inside (fst qs)) (fun q =>
    obind (wiped n inside (snd qs)) (fun sf =>
    omap (fun cg => (q, cg, sf)) (get_cg_boos B zero add divn n ngb (or_all n second) q [])))).
  (** boo.cpp:93-98, 100-105: one line per particle. *)
  Definition qlm_file (bs : list B) : text := flat_map (fun b => row b ++ [newline]) bs.
  (** boo.cpp:93-133: the five files, in this order. *)
  Definition write_order (filename : text) (r : list B * list B * list B) (d : disk) : disk :=
    let '(q, cg, sf) := r in
    put_file (put_file (put_file (put_file (put_file d
      (stem_of filename ++ txt ".qlm") (qlm_file q))
      (with_mark filename "_space" ".qlm") (qlm_file cg))
      (stem_of filename ++ txt ".cloud") (cloud_file B V inv show q))
      (with_mark filename "_space" ".cloud") (space_file B V inv show cg))
      (with_mark filename "_surf" ".cloud") (surf_file B V inv show sf).
  Definition finish (n : nat) (filename : text) (f : found) : outcome disk :=
    let '(ngb, i1, i2, d) := f in omap (fun r => write_order filename r d) (order_of n ngb i1 i2).
  (** boo.cpp:29-134 [calculateBoo] on the particles [st], the file [filename] having been read. *)
  Definition boo (c : config) (st : particles) (noz : bool) (filename : text) (d : disk) : outcome disk :=
    let n := List.length (pts st) in
    obind (match d (bonds_name filename) with
           | Some l => from_file n (inside_later st (margin1 st) noz, inside_later st (margin2 st) noz) l d
           | None => make_bonds c st noz filename d
           end) (finish n filename).
  (** The same on periodic particles; the third argument noZ is not looked at. *)
  Definition periodic_boo (c : config) (st : particles) (filename : text) (d : disk) : outcome disk :=
    let n := List.length (pts st) in
    obind (match d (bonds_name filename) with
           | Some l => from_file n (Some (per_select_inside st), Some (per_select_inside st)) l d
           | None => make_bonds_periodic c st filename d
           end) (finish n filename).
End Order.

(** boo.cpp:173-174: the name cut around its last digits; find_last_of without result is npos, and npos+1 is 0. *)
Definition after_digits (filename : text) : text := rev (fst (span_while (fun c => negb (is_digit c)) (rev filename))).
Definition before_digits (filename : text) : text := rev (snd (span_while is_digit (snd (span_while (fun c => negb (is_digit c)) (rev filename))))).
(** boo.cpp:178, 190: boost::format with "%d" (a percent sign in the name is not modelled). *)
Definition series_name (filename : text) (t : nat) : text := before_digits filename ++ print_nat t ++ after_digits filename.

(** Model of mains/g6.cpp with periodic boundary conditions (use_periodic), and of the file both variants write.  The order itself is in G6_Model, periodic differences in Periodic_Model. *)
Require Import String.
Require Import ZArith List Bool Arith.
Require Import Verif.Base Verif.Dec Verif.Box_Model Verif.RTree_Model Verif.Traj_Model Verif.Particles_Model Verif.Corr_Model Verif.Boo_Model Verif.PBoo_Model Verif.Periodic_Model Verif.G6_Model Verif.Export_Model Verif.Cloud_Model Verif.Perco_Model.
Import ListNotations.
Local Open Scope nat_scope.
Local Open Scope list_scope.

(** g6.cpp:56-64: the box, and the smallest of its edges (nbDiameterCutOff before line 65). *)
Definition edges_box (edges : list Z) : box := map (fun e => (0%Z, e)) edges.
Definition smallest (edges : list Z) : Z := fold_left (fun m e => if (e <? m)%Z then e else m) edges (nth 0 edges 0%Z).
(** g6.cpp:45, 159-160: the name of the file. *)
Definition g6_name (filename : text) (coarse : bool) (degree : nat) : text := stem_of filename ++ (if coarse then txt ".cg" else txt ".g") ++ print_nat degree.

Section Pg6.
  (** Doubles; [abscissa r n L] is r/(double)n*(L/4); the coefficients of a particle as in G6_Model. *)
  Variables (V : Type) (zero : V) (add : V -> V -> V) (show : V -> text) (abscissa : nat -> nat -> Z -> V) (B : Type) (null : B -> bool) (inner : B -> B -> V).
  Variables (zeroB : B) (addB : B -> B -> B) (divn : B -> nat -> B).
  (** g6.cpp:139-148 with periodic.cpp:45-51: one pair.  2*nbDiameterCutOff is L/2, hence the factors 4.  The bin is exact (see C108).  [UB]: out of the histogram or of the orders. *)
  Definition pg6_pair (L : Z) (st : particles) (boo : list B) (ij : nat * nat) (s : list nat * list V) : outcome (list nat * list V) :=
    match nth_error (pts st) (fst ij) with
    | None => Throw
    | Some p =>
        obind (per_diff st p (snd ij)) (fun diff =>
        let d2 := (4 * norm_sq diff)%Z in
        if (d2 <? L * L)%Z then
          let r := rdf_bin (length (fst s)) L d2 in
          obind (at_index boo (fst ij)) (fun b => obind (at_index boo (snd ij)) (fun b' =>
          match incr r (fst s), nth_error (snd s) r with
          | Some nb, Some v => Val (nb, set_nth r (add v (inner b b')) (snd s))
          | _, _ => UB
          end))
        else Val s)
    end.
  (** g6.cpp:159-164 *)
  Definition g6_text (degree : nat) (rows : list (V * V * nat)) : text :=
    txt "#r" ++ [tab] ++ (txt "g" ++ print_nat degree ++ txt "(r)") ++ [tab] ++ txt "g(r)" ++ [newline] ++ flat_map (fun r => show (fst (fst r)) ++ [tab] ++ show (snd (fst r)) ++ [tab] ++ print_nat (snd r) ++ [newline]) rows.
  (** g6.cpp:53-164 with use_periodic: [pos], [raw] and [ngb] are what is read from the files; there is no selection of particles. *)
  Definition periodic_g6 (filename : text) (nbins : nat) (edges : list Z) (coarse : bool) (degree : nat) (pos : list (list Z)) (raw : list B) (ngb : list (list nat)) (d : disk) : outcome disk :=
    obind (all_boo B null zeroB addB divn coarse (length pos) raw ngb) (fun boo =>
    omap (fun s => put_file d (g6_name filename coarse degree) (g6_text degree (map (fun r => (abscissa (fst (fst r)) nbins (smallest edges), snd r, snd (fst r))) (combine (combine (seq 0 nbins) (fst s)) (snd s)))))
      (ofold (pg6_pair (smallest edges) (new_particles pos (edges_box edges) 1) boo) (pairs_of (seq 0 (length pos))) (repeat 0 nbins, repeat zero nbins))).
End Pg6.

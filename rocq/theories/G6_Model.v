(** Model of mains/g6.cpp (without periodic boundary conditions): correlation of the bond orientational order with the distance. *)
Require Import ZArith QArith List Bool Arith.
Require Import Verif.Base Verif.RTree_Model Verif.Traj_Model Verif.Center_Model Verif.Particles_Model Verif.Ngb_Model Verif.Corr_Model Verif.Boo_Model Verif.PBoo_Model.
Import ListNotations.
Local Open Scope nat_scope.

(** The pairs of two nested loops, p from the first to the last and q from the one after p. *)
Fixpoint pairs_of {A} (l : list A) : list (A * A) := match l with [] => [] | x :: l' => map (pair x) l' ++ pairs_of l' end.

Section G6.
  (** Doubles; the 36 coefficients of a particle with isnull() and innerProduct for the given l. *)
  Variables (V : Type) (zero : V) (add : V -> V -> V) (B : Type) (null : B -> bool) (inner : B -> B -> V).
  (** g6.cpp:86-95: the particles whose neighbours are all of non null order; [UB]: reading rawBoo out of range. *)
  Fixpoint no_null (raw : list B) (l : list nat) : outcome bool :=
    match l with [] => Val true | q :: l' => obind (at_index raw q) (fun b => omap (andb (negb (null b))) (no_null raw l')) end.
  Definition second_inside (raw : list B) (ngb : list (list nat)) : outcome (list nat) :=
    omap (fun flags => map fst (filter snd (combine (seq 0 (length ngb)) flags))) (osequence (map (no_null raw) ngb)).
  (** g6.cpp:82-100: allBoo; [zeroB], [addB], [divn]: BooData(), operator+=, operator/=. *)
  Definition all_boo (zeroB : B) (addB : B -> B -> B) (divn : B -> nat -> B) (coarse : bool) (n : nat) (raw : list B) (ngb : list (list nat)) : outcome (list B) :=
    if coarse then obind (second_inside raw ngb) (fun sel => get_cg_boos B zeroB addB divn n ngb sel raw []) else Val raw.

  (** g6.cpp:103-118: the slab; [zlim]: zmin and zmax if given. *)
  Definition in_slab (zlim : option (Z * Z)) (p : list Z) : bool :=
    match zlim with Some (zmin, zmax) => (zmin <? nth 2 p 0)%Z && (nth 2 p 0 <? zmax)%Z | None => true end.
  Definition slab (zlim : option (Z * Z)) (pos : list (list Z)) (boo : list B) : outcome (list nat) :=
    omap (fun flags => map fst (filter snd (combine (seq 0 (length pos)) flags)))
      (osequence (map (fun ip => if in_slab zlim (snd ip) then omap (fun b => negb (null b)) (at_index boo (fst ip)) else Val false) (combine (seq 0 (length pos)) pos))).
  (** g6.cpp:141-148: one pair; [m] is 2*nbDiameterCutOff.  The bin is exact (the program divides the square root in doubles, see C108).
      [UB]: out of the histogram. *)
  Definition g6_pair (m : Z) (cen : list (list Z)) (boo : list B) (ij : nat * nat) (s : list nat * list V) : outcome (list nat * list V) :=
    obind (at_index cen (fst ij)) (fun p => obind (at_index cen (snd ij)) (fun q =>
      let d2 := sqdist q p in
      if (d2 <? m * m)%Z then
        let r := rdf_bin (length (fst s)) m d2 in
        obind (at_index boo (fst ij)) (fun b => obind (at_index boo (snd ij)) (fun b' =>
        match incr r (fst s), nth_error (snd s) r with
        | Some nb, Some v => Val (nb, set_nth r (add v (inner b b')) (snd s))
        | _, _ => UB
        end))
      else Val s)).
  (** g6.cpp:102-157: the rows of the file: the position, gl and nb. *)
  Definition g6_rows (zlim : option (Z * Z)) (m : Z) (nbins : nat) (pos : list (list Z)) (boo : list B) : outcome (list (Q * V * nat)) :=
    obind (slab zlim pos boo) (fun sel =>
    obind (osequence (map (at_index pos) sel)) (fun cen =>
    obind (osequence (map (at_index boo) sel)) (fun boo' =>
    omap (fun s => map (fun r => (inject_Z (Z.of_nat (fst (fst r))) / inject_Z (Z.of_nat nbins) * (inject_Z m / 2), snd r, snd (fst r)))%Q (combine (combine (seq 0 nbins) (fst s)) (snd s)))
      (ofold (g6_pair m cen boo') (pairs_of (seq 0 (length cen))) (repeat 0 nbins, repeat zero nbins))))).
  (** g6.cpp:70-157: the program with its arguments; the radius is kept in the container but enters no computation of these lines. *)
  Definition g6_main (zeroB : B) (addB : B -> B -> B) (divn : B -> nat -> B) (radius : Z) (coarse : bool) (zlim : option (Z * Z)) (m : Z) (nbins : nat)
      (pos : list (list Z)) (raw : list B) (ngb : list (list nat)) : outcome (list (Q * V * nat)) :=
    obind (all_boo zeroB addB divn coarse (length pos) raw ngb) (g6_rows zlim m nbins pos).
End G6.

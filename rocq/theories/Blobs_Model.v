(** Model of the extraction of three-dimensional centres from clusters of two-dimensional ones, multiscale/src/reconstructor.cpp [get_blobs].  Coordinates are exact numbers. *)
Require Import ZArith QArith List Bool Arith.
Require Import Verif.Base Verif.Traj_Model Verif.Particles_Model Verif.Boo_Model Verif.Multi_Model.
Import ListNotations.

(** center.hpp:12-45, D = 3 *)
Record center3 := mkC3 { cx : Q; cy : Q; cz : Q; cr : Q; ci : Q }.
Section Blobs.
  (** [track n signal]: positions of the blobs found by a 1D finder made for [n] points, after removal of overlapping ones; [None]: the finder throws.  The finder is used for several
      signals; what it finds does not depend on the previous ones (property C114). *)
  Variable track : nat -> list Q -> option (list Q).
  (** reconstructor.cpp:163-172: the radii and the margins *)
  Definition signal (cl : list center3) : outcome (list Q) :=
    match cl with
    | [] => UB
    | f :: _ => Val (repeat ((9 # 10) * cr f)%Q (length cl) ++ map cr cl ++ repeat ((9 # 10) * cr (last cl f))%Q (length cl))
    end.
  (** std::vector and std::list iterators: [it] steps from the beginning, dereferenced *)
  Definition deref (cl : list center3) (it : nat) : outcome center3 := at_index cl it.
  (** reconstructor.cpp:180-198: one blob; a negative number converted to size_t is undefined *)
  Definition blob (cl : list center3) (b : Q) : outcome (option center3) :=
    if Qle_bool b (-1) then UB else
    let pos := Z.to_nat (trunc b) in let margin := length cl in
    if (pos <? margin)%nat || (length cl + margin <? pos)%nat then Val None else
    let frac := (b - inject_Z (Z.of_nat pos))%Q in
    obind (deref cl (pos - margin)) (fun c =>
    let it := (pos - margin + 1)%nat in
    if (it =? length cl)%nat then Val (Some c) else
    omap (fun n => Some (mkC3 (cx c + frac * (cx n - cx c)) (cy c + frac * (cy n - cy c)) (cz c + (frac * (cz n - cz c) - (1 # 2))) (cr c + frac * (cr n - cr c)) (ci c + frac * (ci n - ci c)))%Q) (deref cl it)).
  Definition somes (l : list (option center3)) : list center3 := flat_map (fun o => match o with Some c => [c] | None => [] end) l.
  (** reconstructor.cpp:147-205: one cluster; the cache associates to a size the number of points for which its finder was made *)
  Definition one_cluster (cache : list (nat * nat)) (cl : list center3) : outcome (list (nat * nat) * list center3) :=
    if (length cl * 3 <? 6)%nat then Val (cache, []) else
    let margin := length cl in
    let cache := match find (fun e => fst e =? length cl)%nat cache with Some _ => cache | None => (length cl, (length cl + 2 * margin)%nat) :: cache end in
    match find (fun e => fst e =? length cl)%nat cache with
    | None => UB
    | Some (_, made) => obind (signal cl) (fun s => match track made s with None => Throw | Some bs => omap (fun l => (cache, somes l)) (osequence (map (blob cl) bs)) end)
    end.
  Fixpoint clusters_from (cache : list (nat * nat)) (cls : list (list center3)) : outcome (list center3) :=
    match cls with
    | [] => Val []
    | cl :: cls' => obind (one_cluster cache cl) (fun x => omap (app (snd x)) (clusters_from (fst x) cls'))
    end.
  (** reconstructor.cpp:142-206 *)
  Definition get_blobs (cls : list (list center3)) : outcome (list center3) := clusters_from [] cls.
End Blobs.

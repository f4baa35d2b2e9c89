(** Model of lib/dynamicParticles and lib/dynamicClusters: the boxes around trajectories, series of frames and clusters, the cluster files, and
    the bond orientational order of the trajectories of a selection. *)
Require Import ZArith List Bool Arith NArith Ascii.
Require Import Verif.Base Verif.Dec Verif.Box_Model Verif.RTree_Model Verif.Traj_Model Verif.Particles_Model Verif.Corr_Model Verif.Files_Model Verif.Boo_Model Verif.PBoo_Model.
Import ListNotations.
Local Open Scope nat_scope.

Section Extent.
  Variables (frames : list (list (list Z))) (ti : trajindex).
  (** dynamicParticles.cpp:101-111 [boundsTrajectory]; trajectories[tr] is not checked; operator() is Corr_Model.place. *)
  Definition bounds_traj (tr : nat) : outcome box :=
    match nth_error (trajs ti) tr with
    | None => UB
    | Some T =>
        obind (place (list Z) frames ti tr (start T)) (fun p =>
        ofold (fun t b => omap (fun q => stretch b (bounds q 0)) (place (list Z) frames ti tr t))
          (seq (S (start T)) (Z.to_nat (last_time T) - start T)) (bounds p 0))
    end.
  (** dynamicClusters.cpp:229-244 [bounds]; [UB]: first element of an empty set. *)
  Definition member_bounds (radius : Z) (time tr : nat) : outcome box :=
    match nth_error (trajs ti) tr with
    | None => UB
    | Some T => if exist_at T time then omap (fun p => bounds p radius) (place (list Z) frames ti tr time) else Throw
    end.
  Definition cluster_bounds (radius : Z) (cluster : list nat) (time : nat) : outcome box :=
    match cluster with
    | [] => UB
    | tr :: _ => obind (member_bounds radius time tr) (fun b => ofold (fun tr b => omap (stretch b) (member_bounds radius time tr)) cluster b)
    end.
  (** dynamicClusters.cpp:247-263 [getLargestDelta] *)
  Definition larger (m : list Z) (b : box) : list Z :=
    map (fun me => let delta := (snd (snd me) - fst (snd me))%Z in if (fst me <? delta)%Z then delta else fst me) (combine m b).
  Definition largest_delta (radius : Z) (members : list (list (list nat))) (time : nat) : outcome (list Z) :=
    match nth_error members time with
    | None => UB
    | Some ms => ofold (fun k m => omap (larger m) (cluster_bounds radius k time)) ms [0; 0; 0]%Z
    end.
End Extent.
(** dynamicParticles.cpp:115-126 [getMaxBox]; [UB] without frame. *)
Definition max_box (frames : list particles) : outcome box :=
  match frames with [] => UB | f :: rest => Val (fold_left stretch (map pbb rest) (pbb f)) end.
(** dynamicParticles.cpp:129-143 [getFrameSizes], [getMaxSimultaneousParticles]; [UB] without frame: dereferences the end. *)
Definition max_simultaneous (frames : list particles) : outcome nat :=
  match map (fun f => length (pts f)) frames with [] => UB | n :: rest => Val (fold_left (fun m n => if m <? n then n else m) rest n) end.

(** dynamicClusters.cpp:173-191 [save]: the text of the file of time t.  [c] are the trajectories of the clusters, [members] their members as
    trajectories of [ti]; getInverse(t), members[t][K] and the trajectory of a member are not checked. *)
Definition cluster_row (ti : trajindex) (members : list (list (list nat))) (t : nat) (Kl : nat * nat) : outcome text :=
  match nth_error members t with
  | None => UB
  | Some ms =>
      match nth_error ms (fst Kl) with
      | None => UB
      | Some m =>
          omap (fun ps => print_nat (snd Kl) ++ [tab] ++ print_nat (length m) ++ [tab] ++ flat_map (fun p => print_nat p ++ [tab]) ps ++ [newline])
            (osequence (map (convert ti t) m))
      end
  end.
Definition cluster_text (ti c : trajindex) (members : list (list (list nat))) (t : nat) : outcome text :=
  match nth_error (inverse c) t with
  | None => UB
  | Some inv =>
      omap (fun rows => print_nat (length inv) ++ [newline] ++ concat rows) (osequence (map (cluster_row ti members t) (combine (seq 0 (length inv)) inv)))
  end.
Definition save_clusters (ti c : trajindex) (members : list (list (list nat))) (fs : serie) : outcome (list (text * text)) :=
  osequence (map (fun t => omap (fun l => (step_name fs (N.of_nat t), l)) (cluster_text ti c members t)) (seq 0 (length (inverse c)))).

Section TrajBoo.
  (** As in PBoo_Model. *)
  Variables (B : Type) (zero : B) (add : B -> B -> B) (divn : B -> nat -> B).
  Variable ti : trajindex.
  (** std::map::insert and find on association lists sorted by key are Traj_Model.map_insert and [find_key]. *)
  Fixpoint find_key (k : nat) (m : smap B) : option B :=
    match m with [] => None | (k', v) :: m' => if k' =? k then Some v else find_key k m' end.
  (** The position at time t of each trajectory of the selection that exists then. *)
  Definition each_position {W} (t : nat) (f : nat -> W -> outcome W) (selection : list nat) (w : W) : outcome W :=
    ofold (fun tr w => match nth_error (trajs ti) tr with
                       | None => UB
                       | Some T => if exist_at T t then obind (access T t) (fun p => f p w) else Val w
                       end) selection w.
  (** dynamicParticles.cpp:1368-1379 [makeBoo]; [boo]: getBOO of the frame. *)
  Definition make_boo (boo : nat -> outcome B) (t : nat) (selection : list nat) : outcome (smap B) :=
    each_position t (fun p m => omap (fun b => map_insert B p b m) (boo p)) selection [].
  (** getEuclidianNeighbours(positions[t][p], range). *)
  Definition close_to (st : particles) (range : Z) (p : nat) : outcome (list nat) :=
    match nth_error (pts st) p with Some x => euclid st x range | None => UB end.
  (** std::map: the value of an existing key is replaced through the iterator. *)
  Fixpoint map_update (k : nat) (v : B) (m : smap B) : smap B :=
    match m with [] => [] | (k', v') :: m' => if k' =? k then (k', v) :: m' else (k', v') :: map_update k v m' end.
  (** dynamicParticles.cpp:1383-1403 [makeSBoo]; [close]: getEuclidianNeighbours of the frame around its position p; [UB]: the iterator of a
      missing key is dereferenced. *)
  Definition make_sboo (close : nat -> outcome (list nat)) (t : nat) (selection : list nat) (all_boo : smap B) : outcome (smap B) :=
    each_position t (fun p m =>
      let m := map_insert B p zero m in
      obind (close p) (fun l =>
      match find_key p m with
      | None => UB
      | Some b => omap (fun s => map_update p (divn s (length l)) m)
                    (ofold (fun q s => match find_key q all_boo with Some b => Val (add s b) | None => UB end) l b)
      end)) selection [].
End TrajBoo.

(** Model of lib/dynamicClusters.cpp: clusters of neighbouring particles, and their evolution in time. *)
Require Import ZArith List Bool Arith.
Require Import Verif.Base Verif.SortU Verif.RTree_Model Verif.Traj_Model Verif.Ngb_Model.
Import ListNotations.

(** std::set<size_t> as a sorted list: insert (the hint has no effect on the result), erase, find. *)
Fixpoint nset_add (x : nat) (s : list nat) : list nat :=
  match s with
  | [] => [x]
  | y :: s' => if x <? y then x :: s else if y <? x then y :: nset_add x s' else s
  end.
Definition nset_del (x : nat) (s : list nat) : list nat := filter (fun y => negb (y =? x)) s.
Definition nset_mem (x : nat) (s : list nat) : bool := existsb (fun y => y =? x) s.

(** dynamicClusters.cpp:33-49 [growCluster]: the loop over the neighbours [todo] of the centre, with the recursive call.
    [None]: neighbour list read out of range, or recursion deeper than [fuel]. *)
Fixpoint grow (fuel : nat) (ngbs : list (list nat)) : list nat -> list nat -> list nat -> option (list nat * list nat) :=
  fix loop (todo pop cl : list nat) : option (list nat * list nat) :=
    match todo with
    | [] => Some (pop, cl)
    | n :: todo' =>
        if nset_mem n pop then
          match fuel, nth_error ngbs n with
          | S f, Some l =>
              match grow f ngbs l (nset_del n pop) (nset_add n cl) with
              | Some (pop', cl') => loop todo' pop' cl'
              | None => None
              end
          | _, _ => None
          end
        else loop todo' pop cl
    end.
(** The recursion removes a member of the population each time, so its size bounds the depth. *)
Definition grow_cluster (ngbs : list (list nat)) (center : nat) (pop cl : list nat) : option (list nat * list nat) :=
  match nth_error ngbs center with Some l => grow (length pop) ngbs l pop cl | None => None end.
(** dynamicClusters.cpp:56-67 [segregate]. *)
Fixpoint segregate_loop (fuel : nat) (ngbs : list (list nat)) (pop : list nat) (clusters : list (list nat)) : option (list (list nat)) :=
  match pop with
  | [] => Some clusters
  | c :: pop' =>
      match fuel with
      | O => None
      | S f =>
          match grow_cluster ngbs c pop' [c] with
          | Some (pop'', cl) => segregate_loop f ngbs pop'' (clusters ++ [cl])
          | None => None
          end
      end
  end.
Definition segregate (ngbs : list (list nat)) (pop : list nat) (clusters : list (list nat)) : option (list (list nat)) :=
  segregate_loop (length pop) ngbs pop clusters.
(** dynamicClusters.cpp:70-76 [segregateAll]. *)
Definition segregate_all (ngbs : list (list nat)) (n : nat) : option (list (list nat)) :=
  segregate ngbs (fold_left (fun s p => nset_add p s) (seq 0 n) []) [].

(** dynamicClusters.cpp:104-107: positions at time t of the population. *)
Fixpoint population_at (ti : trajindex) (t : nat) (population acc : list nat) : option (list nat) :=
  match population with
  | [] => Some acc
  | tr :: population' =>
      match nth_error (trajs ti) tr with
      | None => None
      | Some T =>
          if exist_at T t then
            match access T t with Val p => population_at ti t population' (nset_add p acc) | _ => None end
          else population_at ti t population' acc
      end
  end.
(** dynamicClusters.cpp:118-122: the trajectories of the positions of a cluster. *)
Fixpoint cluster_trajs (ti : trajindex) (t : nat) (cl acc : list nat) : option (list nat) :=
  match cl with
  | [] => Some acc
  | p :: cl' => match invert ti t p with Some tr => cluster_trajs ti t cl' (nset_add tr acc) | None => None end
  end.
Fixpoint all_some {A} (l : list (option A)) : option (list A) :=
  match l with
  | [] => Some []
  | Some a :: l' => option_map (cons a) (all_some l')
  | None :: _ => None
  end.
(** dynamicClusters.cpp:101-123: the members of the clusters at time t, without the single particles. *)
Definition members_at (ti : trajindex) (ngbs : list (list nat)) (population : list nat) (t : nat) : option (list (list nat)) :=
  match population_at ti t population [] with
  | None => None
  | Some pop =>
      match segregate ngbs pop [] with
      | None => None
      | Some cls => all_some (map (fun cl => cluster_trajs ti t cl []) (filter (fun cl => 1 <? length cl) cls))
      end
  end.

(** std::set_union of sorted ranges. *)
Fixpoint set_union (a : list nat) : list nat -> list nat :=
  fix inner (b : list nat) : list nat :=
    match a, b with
    | [], _ => b
    | _, [] => a
    | x :: a', y :: b' => if x <? y then x :: set_union a' b else if y <? x then y :: inner b' else x :: set_union a' b'
    end.
(** dynamicClusters.cpp:139-157: the distance between two clusters is union/intersection - 1; followers are kept below 2.
    [distance] is union/intersection times a common multiple of all the intersections, so that it is an integer; only the
    order of the distances is used. *)
Definition common_multiple (n : nat) : Z := fold_right (fun k m => (Z.of_nat k * m)%Z) 1%Z (seq 1 n).
Definition distance (m : Z) (u i : nat) : Z := (Z.of_nat u * (m / Z.of_nat i))%Z.
Definition followers (m : Z) (K : list nat) (next : list (list nat)) : folmap :=
  sort_by (fun x y => (fst x <? fst y)%Z)
    (flat_map (fun Sx =>
       let inter := set_inter K (snd Sx) in
       let union := set_union K (snd Sx) in
       match inter with
       | [] => []
       | _ => if length union <? 3 * length inter then [(distance m (length union) (length inter), fst Sx)] else []
       end) (combine (seq 0 (length next)) next)).
(** dynamicClusters.cpp:131-164: the arguments of the successive calls of TrajMap::push_back. *)
Definition largest (ms : list (list nat)) : nat := fold_right Nat.max 0 (map (@length nat) ms).
Fixpoint cluster_history (members : list (list (list nat))) : list (list folmap * nat) :=
  match members with
  | now :: ((next :: _) as rest) => (map (fun K => followers (common_multiple (largest now)) K next) now, length next) :: cluster_history rest
  | _ => []
  end.
(** dynamicClusters.cpp:96-170 [assign]: the members at each time and the trajectories of the clusters.
    [None] includes the case of no time step, where members[0] does not exist. *)
Definition assign_clusters (ti : trajindex) (ngbss : list (list (list nat))) (population : list nat) : option (list (list (list nat)) * trajindex) :=
  match all_some (map (fun tn => members_at ti (snd tn) population (fst tn)) (combine (seq 0 (length ngbss)) ngbss)) with
  | None => None
  | Some [] => None
  | Some ((first :: _) as members) =>
      match trajmap_run (trajmap_new (length first)) (cluster_history members) with
      | None => None
      | Some tm => option_map (fun c => (members, c)) (index_of_map tm)
      end
  end.

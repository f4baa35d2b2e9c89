(** Model of multiscale/src/reconstructor.hpp and reconstructor.cpp (all but get_blobs, lines 142-206, which runs a
    1D multiscale finder on each cluster). *)
Require Import ZArith List Bool Arith.
Require Import Verif.Base Verif.Box_Model Verif.RTree_Model Verif.Traj_Model Verif.MTraj_Model Verif.Center_Model.
Import ListNotations.

(** center.hpp:36-40 [Center<D>(c, additional_coord)]. *)
Definition with_z (t : nat) (c : center) : center := mkCenter (coords c ++ [Z.of_nat t]) (radius c) (intensity c).

(** reconstructor.hpp:46-48: trajectories (null pointer: [None]), clusters, last_frame. *)
Record reconstructor := mkRec { rtrajs : option tindex2; clusters : list (list center); last_frame : list center }.

(** reconstructor.cpp:18-21 and 27-32 [clear]. *)
Definition rec_empty : reconstructor := mkRec None [] [].

(** The default tolerance of removeOverlapping, 1/2 (center.hpp:108). *)
Definition half_n : Z := 1.
Definition half_d : Z := 2.

(** reconstructor.cpp:208-230 [links_by_brute_force]; tolerance = tn/td. *)
Definition links_by_brute_force (tn td : Z) (last fr : list center) : list (Z * (nat * nat)) :=
  flat_map (fun fa => flat_map (fun tb =>
    let dist := csqdist (snd fa) (snd tb) in
    if (dist * (td * td) <? ((radius (snd fa) + radius (snd tb)) * tn) * ((radius (snd fa) + radius (snd tb)) * tn))%Z
    then [(dist, (fst fa, fst tb))] else [])
    (combine (seq 0 (length fr)) fr)) (combine (seq 0 (length last)) last).

(** reconstructor.cpp:257-267, the links of one particle; [None]: fr is read out of range. *)
Fixpoint links_of (m : Z) (fr : list center) (p : nat) (a : center) (ngb : list nat) : option (list (Z * (nat * nat))) :=
  match ngb with
  | [] => Some []
  | q :: ngb' =>
      match nth_error fr q, links_of m fr p a ngb' with
      | Some b, Some ls => let dist := csqdist a b in Some (if (dist <? m * m)%Z then (dist, (p, q)) :: ls else ls)
      | _, _ => None
      end
  end.
(** reconstructor.cpp:233-270 [links_by_RStarTree]. *)
Fixpoint links_by_tree (m : Z) (fr : list center) (tree : rtree) (last : list (nat * center)) : option (list (Z * (nat * nat))) :=
  match last with
  | [] => Some []
  | (p, a) :: last' =>
      match links_of m fr p a (map lid (gather (AcceptOverlapping (get_bb_margin half_d m a)) tree)),
            links_by_tree m fr tree last' with
      | Some x, Some y => Some (x ++ y)
      | _, _ => None
      end
  end.

(** reconstructor.cpp:61-70: the positions of the new frame join their cluster. *)
Fixpoint cluster_loop (old t : nat) (l : list (nat * center)) (cls : list (list center)) : option (list (list center)) :=
  match l with
  | [] => Some cls
  | (tr, c) :: l' =>
      if tr <? old then
        match upd tr (fun cl => cl ++ [with_z t c]) cls with
        | None => None
        | Some cls' => cluster_loop old t l' cls'
        end
      else cluster_loop old t l' (cls ++ [[with_z t c]])
  end.

(** reconstructor.cpp:36-74 [push_back]; [sorted] is the frame as sorted inside removeOverlapping (std::sort is not
    stable, see Center_Model), [m] is max_dist. *)
Definition rec_push (c : config) (st : reconstructor) (sorted : list center) (m : Z) : outcome reconstructor :=
  match remove_overlapping c half_n half_d sorted with
  | None => UB
  | Some (tree, fr) =>
      match rtrajs st with
      | None => Val (mkRec (Some (t2_new (length fr))) (clusters st ++ map (fun c => [with_z 0 c]) fr) fr)
      | Some x =>
          match links_by_tree m fr tree (combine (seq 0 (length (last_frame st))) (last_frame st)) with
          | None => UB
          | Some ls =>
              match add_frame_links x (length fr) (map fst ls) (map (fun l => fst (snd l)) ls) (map (fun l => snd (snd l)) ls) with
              | Throw => Throw
              | UB => UB
              | Val x' =>
                  match cluster_loop (length (tr2pos x)) (length (pos2tr x)) (combine (last (pos2tr x') []) fr) (clusters st) with
                  | None => UB
                  | Some cls => Val (mkRec (Some x') cls fr)
                  end
              end
          end
      end
  end.
Fixpoint rec_run (c : config) (st : reconstructor) (h : list (list center * Z)) : outcome reconstructor :=
  match h with
  | [] => Val st
  | (fr, m) :: h' => match rec_push c st fr m with Val st' => rec_run c st' h' | o => o end
  end.

(** reconstructor.cpp:84-88: squared distance in the plane of p = front and q = third of the cluster, neither
    of which is advanced by the loop: every element of grad is this number. *)
Definition grad_of (cl : list center) : option Z :=
  match cl with
  | p :: _ :: q :: _ => Some ((nth 0 (coords p) 0 - nth 0 (coords q) 0) * (nth 0 (coords p) 0 - nth 0 (coords q) 0) +
                              (nth 1 (coords p) 0 - nth 1 (coords q) 0) * (nth 1 (coords p) 0 - nth 1 (coords q) 0))%Z
  | _ => None
  end.
(** reconstructor.cpp:83-93: the positions of the local maxima of grad; [one] is the square of the length 1. *)
Definition split_points (one : Z) (cl : list center) : list nat :=
  match grad_of cl with
  | None => []
  | Some g => 
      let grad := repeat g (length cl - 2) in
      map (fun i => i + 2) (filter (fun i =>
        let a := nth i grad 0%Z in let b := nth (i + 1) grad 0%Z in let e := nth (i + 2) grad 0%Z in
        (a <=? b)%Z && (e <=? b)%Z && (one <? b)%Z) (seq 0 (length grad - 2)))
  end.
(** reconstructor.cpp:95-101: split from end to begin; the pieces are appended to the clusters. *)
Fixpoint split_at (rpts : list nat) (cl : list center) (pieces : list (list center)) : list center * list (list center) :=
  match rpts with
  | [] => (cl, pieces)
  | i :: r => split_at r (firstn i cl) (pieces ++ [skipn i cl])
  end.
(** reconstructor.cpp:76-102 [split_clusters]: [done] are the clusters already visited, [app] those appended. *)
Fixpoint split_loop (one : Z) (todo done app : list (list center)) : list (list center) :=
  match todo with
  | [] => done ++ app
  | cl :: todo' => let '(cl', ps) := split_at (rev (split_points one cl)) cl [] in split_loop one todo' (done ++ [cl']) (app ++ ps)
  end.
Definition split_clusters (one : Z) (cls : list (list center)) : list (list center) := split_loop one cls [] [].

(** Model of lib/traj.hpp and lib/traj.cpp (text streams are in TrajFile_Model.v). *)
Require Import ZArith List Bool Arith.
Require Import Verif.Base Verif.SortU Verif.RTree_Model.
Import ListNotations.

(** Result of an operation that may throw a TrajError or be undefined. *)
Inductive outcome (A : Type) := Val (a : A) | Throw | UB.
Arguments Val {A} a. Arguments Throw {A}. Arguments UB {A}.

(** traj.hpp:66-84 [Traj]: start_time and steps. *)
Record traj := mkTraj { start : nat; steps : list nat }.

(** size_t is 64 bits wide. *)
Definition size_mod : Z := 2 ^ 64.

(** traj.hpp:183-186 [last_time]: start_time+steps.size()-1 modulo 2^64. *)
Definition last_time (tr : traj) : Z := ((Z.of_nat (start tr) + Z.of_nat (length (steps tr)) - 1) mod size_mod)%Z.

(** traj.hpp:207-211 [exist]. *)
Definition exist_at (tr : traj) (t : nat) : bool :=
  if (t <? start tr) || (last_time tr <? Z.of_nat t)%Z then false else true.

(** traj.hpp:214-218 [span]. *)
Definition span (tr : traj) (t0 t1 : nat) : bool :=
  if (t0 <? start tr) || (last_time tr <? Z.of_nat t1)%Z then false else true.

(** traj.hpp:189-204 [operator[]] in a build without NDEBUG (with NDEBUG, [Throw] becomes [UB]). *)
Definition access (tr : traj) (t : nat) : outcome nat :=
  if exist_at tr t then
    match nth_error (steps tr) (t - start tr) with Some p => Val p | None => UB end
  else Throw.

(** traj.hpp:221-224 [push_back]. *)
Definition traj_push (tr : traj) (p : nat) : traj := mkTraj (start tr) (steps tr ++ [p]).

(** traj.cpp:109-115 [subtraj].  Simplification: t1 is below the largest size_t (the loop would not end). *)
Fixpoint sub_steps (tr : traj) (ts : list nat) : outcome (list nat) :=
  match ts with
  | [] => Val []
  | t :: ts' =>
      match access tr t with
      | Val p => match sub_steps tr ts' with Val l => Val (p :: l) | o => o end
      | Throw => Throw
      | UB => UB
      end
  end.
Definition subtraj (tr : traj) (t0 t1 : nat) : outcome traj :=
  match sub_steps tr (seq t0 (S t1 - t0)) with
  | Val l => Val (mkTraj t0 l)
  | Throw => Throw
  | UB => UB
  end.

(** traj.hpp:93-97 [TrajMap::Frame], a boost::bimap of (position, trajectory) links: insertion is refused
    when either side is already present. *)
Notation link := (nat * nat)%type.
Notation frame := (list (nat * nat)).
Definition frame_insert (l : link) (f : frame) : frame :=
  if existsb (fun x => (fst x =? fst l) || (snd x =? snd l)) f then f else f ++ [l].
(** Views of the bimap in increasing order of position, resp. trajectory. *)
Definition by_pos (f : frame) : list link := sort_by (fun x y => fst x <? fst y) f.
Definition by_traj (f : frame) : list link := sort_by (fun x y => snd x <? snd y) f.

(** traj.hpp:90-112 [TrajMap]: the frames, newest last, and nbTraj. *)
Record trajmap := mkMap { frames : list frame; nb_traj : nat }.

(** traj.cpp:33-39 *)
Definition trajmap_new (n : nat) : trajmap :=
  mkMap [fold_left (fun f i => frame_insert (i, i) f) (seq 0 n) []] n.

(** The possible followers of one position: a std::multimap<double,size_t>, i.e. (distance, follower) in
    order of distance.  Distances are integers (only compared). *)
Notation folmap := (list (Z * nat)).

(** traj.cpp:50-53: links (distance, (new position, trajectory)) in order of insertion; [None] when a position
    has no entry in followersByDist. *)
Fixpoint gather_links (fol : list folmap) (ps : list link) : option (list (Z * link)) :=
  match ps with
  | [] => Some []
  | (p, tr) :: ps' =>
      match nth_error fol p with
      | None => None
      | Some m => match gather_links fol ps' with
                  | Some ls => Some (map (fun df => (fst df, (snd df, tr))) m ++ ls)
                  | None => None
                  end
      end
  end.
(** multimap<double, Link>: stable order by distance. *)
Definition sort_links (ls : list (Z * link)) : list (Z * link) := sort_by (fun x y => (fst x <? fst y)%Z) ls.

(** traj.cpp:60-61 *)
Definition insert_links (ls : list (Z * link)) : frame :=
  fold_left (fun f l => frame_insert (snd l) f) ls [].

(** traj.cpp:64-69: a new trajectory for each position that was not linked. *)
Fixpoint start_new (ps : list nat) (linked : nat -> bool) (f : frame) (nb : nat) : frame * nat :=
  match ps with
  | [] => (f, nb)
  | p :: ps' => if linked p then start_new ps' linked f nb
                else start_new ps' linked (frame_insert (p, nb) f) (S nb)
  end.

(** traj.cpp:47-70 [push_back].  [None]: followersByDist or linked accessed out of range. *)
Definition trajmap_push (tm : trajmap) (fol : list folmap) (frame_size : nat) : option trajmap :=
  let lastf := last (frames tm) [] in
  match gather_links fol (by_pos lastf) with
  | None => None
  | Some ls =>
      let f := insert_links (sort_links ls) in
      if forallb (fun l => fst l <? frame_size) f then
        let linked p := existsb (fun l => fst l =? p) f in
        let '(f', nb') := start_new (seq 0 frame_size) linked f (nb_traj tm) in
        Some (mkMap (frames tm ++ [f']) nb')
      else None
  end.

(** A history: the arguments of the successive push_back calls. *)
Fixpoint trajmap_run (tm : trajmap) (h : list (list folmap * nat)) : option trajmap :=
  match h with
  | [] => Some tm
  | (fol, n) :: h' => match trajmap_push tm fol n with Some tm' => trajmap_run tm' h' | None => None end
  end.

(** traj.cpp:73-81 [TrajMap::getFrameSizes]. *)
Definition map_frame_sizes (tm : trajmap) : list nat := map (@length (nat * nat)) (frames tm).

(** traj.hpp:114-161 [TrajIndex], first part: the deque of trajectories. *)
Definition upd {A} (i : nat) (f : A -> A) (l : list A) : option (list A) :=
  match nth_error l i with Some x => Some (set_nth i (f x) l) | None => None end.

(** traj.cpp:147-148 *)
Fixpoint prolong (tri : list traj) (ls : list link) : option (list traj) :=
  match ls with
  | [] => Some tri
  | (p, tr) :: ls' => match upd tr (fun T => traj_push T p) tri with
                      | Some tri' => prolong tri' ls'
                      | None => None
                      end
  end.

(** traj.cpp:140-151, one frame.  [upper_bound(size-1)]: the first link whose trajectory number is at least
    size(); on an empty index every link is new, which is the same test. *)
Definition add_frame (tri : list traj) (t : nat) (f : frame) : option (list traj) :=
  let n := length tri in
  let old := filter (fun l => snd l <? n) (by_traj f) in
  let new := filter (fun l => negb (snd l <? n)) (by_traj f) in
  match prolong tri old with
  | Some tri' => Some (tri' ++ map (fun l => mkTraj t [fst l]) new)
  | None => None
  end.
Fixpoint add_frames (tri : list traj) (t : nat) (fs : list frame) : option (list traj) :=
  match fs with
  | [] => Some tri
  | f :: fs' => match add_frame tri t f with Some tri' => add_frames tri' (S t) fs' | None => None end
  end.

(** traj.cpp:195-204 [makeInverse]: one write inverse[t][pos] = tr; [None] when out of range. *)
Definition inv_write (inv : list (list nat)) (t p tr : nat) : option (list (list nat)) :=
  match nth_error inv t with
  | None => None
  | Some row => match nth_error row p with
                | None => None
                | Some _ => Some (set_nth t (set_nth p tr row) inv)
                end
  end.
(** Writes for one trajectory; its time steps are start_time .. last_time.  Simplification: the
    trajectory is not empty, so they are the times of its steps in order. *)
Fixpoint inv_traj (inv : list (list nat)) (t tr : nat) (ps : list nat) : option (list (list nat)) :=
  match ps with
  | [] => Some inv
  | p :: ps' => match inv_write inv t p tr with Some inv' => inv_traj inv' (S t) tr ps' | None => None end
  end.
Fixpoint inv_all (inv : list (list nat)) (tr : nat) (tri : list traj) : option (list (list nat)) :=
  match tri with
  | [] => Some inv
  | T :: tri' => match inv_traj inv (start T) tr (steps T) with Some inv' => inv_all inv' (S tr) tri' | None => None end
  end.
Definition make_inverse (tri : list traj) (sizes : list nat) : option (list (list nat)) :=
  inv_all (map (fun n => repeat 0 n) sizes) 0 tri.

Record trajindex := mkIndex { trajs : list traj; inverse : list (list nat) }.

(** traj.cpp:135-154 [TrajIndex(TrajMap)]. *)
Definition index_of_map (tm : trajmap) : option trajindex :=
  match add_frames [] 0 (frames tm) with
  | None => None
  | Some tri => match make_inverse tri (map_frame_sizes tm) with
                | Some inv => Some (mkIndex tri inv)
                | None => None
                end
  end.

(** traj.cpp:159-166 [getMaxTime]. *)
Definition get_max_time (tri : list traj) : Z := fold_left (fun m T => if (m <? last_time T)%Z then last_time T else m) tri 0%Z.

(** traj.cpp:183-190 [getFrameSizes(length)] with a non-zero length; [None]: out of range.  Same simplification
    as [inv_traj]. *)
Fixpoint count_times (sizes : list nat) (ts : list nat) : option (list nat) :=
  match ts with
  | [] => Some sizes
  | t :: ts' => match upd t S sizes with Some s' => count_times s' ts' | None => None end
  end.
Fixpoint count_trajs (sizes : list nat) (tri : list traj) : option (list nat) :=
  match tri with
  | [] => Some sizes
  | T :: tri' => match count_times sizes (seq (start T) (length (steps T))) with
                 | Some s' => count_trajs s' tri'
                 | None => None
                 end
  end.
Definition index_frame_sizes (tri : list traj) (len : nat) : option (list nat) := count_trajs (repeat 0 len) tri.

(** traj.cpp:169-178 [longest_span]; [None]: max_element of an empty range is dereferenced. *)
Definition longest_span (tri : list traj) : option nat :=
  match tri with [] => None | _ => Some (fold_left Nat.max (map (fun T => length (steps T)) tri) 0) end.

(** traj.hpp:144-147 [Converter], 156-159 [Inverser]. *)
Definition convert (ti : trajindex) (t tr : nat) : outcome nat :=
  match nth_error (trajs ti) tr with Some T => access T t | None => UB end.
Definition invert (ti : trajindex) (t p : nat) : option nat :=
  match nth_error (inverse ti) t with Some row => nth_error row p | None => None end.

(** std::map<size_t,T> as a list sorted by key; insert keeps an existing entry. *)
Section Maps.
  Variable T : Type.
  Definition smap : Type := list (nat * T).
  Fixpoint map_insert (k : nat) (v : T) (m : smap) : smap :=
    match m with
    | [] => [(k, v)]
    | (k', v') :: m' => if k <? k' then (k, v) :: m else if k =? k' then m else (k', v') :: map_insert k v m'
    end.
  (** traj.hpp:227-233 [posToTraj]; [acc] is the output map passed by reference. *)
  Fixpoint pos_to_traj (ti : trajindex) (t : nat) (m acc : smap) : option smap :=
    match m with
    | [] => Some acc
    | (p, v) :: m' => match invert ti t p with
                      | Some tr => pos_to_traj ti t m' (map_insert tr v acc)
                      | None => None
                      end
    end.
  (** traj.hpp:236-250 [trajToPos]. *)
  Fixpoint traj_to_pos (ti : trajindex) (t : nat) (m acc : smap) : outcome smap :=
    match m with
    | [] => Val acc
    | (tr, v) :: m' =>
        match nth_error (trajs ti) tr with
        | None => UB
        | Some T => if exist_at T t then
                      match access T t with
                      | Val p => traj_to_pos ti t m' (map_insert p v acc)
                      | Throw => Throw
                      | UB => UB
                      end
                    else traj_to_pos ti t m' acc
        end
    end.
End Maps.

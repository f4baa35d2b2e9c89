(** Model of multiscale/src/traj.hpp and multiscale/src/traj.cpp.
    Simplification: time steps are natural numbers (the C++ type int never overflows in the model). *)
Require Import ZArith List Bool Arith.
Require Import Verif.Base Verif.SortU Verif.RTree_Model Verif.Traj_Model.
Import ListNotations.

(** traj.hpp:47-62 [Traj]: the record [traj] of Traj_Model (start_time, steps). *)
Definition get_finish (T : traj) : nat := start T + length (steps T).
(** traj.hpp:57 *)
Definition mexist (T : traj) (t : nat) : bool := (start T <=? t) && (t <? get_finish T).
(** traj.hpp:58 *)
Definition mspan (T : traj) (t0 t1 : nat) : bool := (start T <=? t0) && (t1 <=? get_finish T).
(** traj.hpp:60; [None]: the assertion fails, or steps is read out of range. *)
Definition maccess (T : traj) (t : nat) : option nat := if mexist T t then nth_error (steps T) (t - start T) else None.
(** traj.hpp:61; undefined on an empty trajectory, which no constructor makes. *)
Definition update_last (T : traj) (p : nat) : traj := mkTraj (start T) (removelast (steps T) ++ [p]).

(** traj.hpp:69-73 [TrajIndex]. *)
Record tindex2 := mkT2 { tr2pos : list traj; pos2tr : list (list nat) }.

(** traj.cpp:39-46 *)
Definition t2_new (n : nat) : tindex2 := mkT2 (map (fun p => mkTraj 0 [p]) (seq 0 n)) [seq 0 n].

(** traj.cpp:54-58: the bonds sorted by distance; std::list::sort is stable. *)
Definition make_bonds (distances : list Z) (from to : list nat) : list (Z * (nat * nat)) :=
  sort_by (fun x y => (fst x <? fst y)%Z) (combine distances (combine from to)).

(** traj.cpp:59-73: the vectors from_used, to_used, the new frame and the trajectories.  [None]: index out of range. *)
Fixpoint link_loop (prev : list nat) (bs : list (Z * (nat * nat))) (fu tu : list bool) (row : list nat) (tri : list traj)
  : option (list bool * list nat * list traj) :=
  match bs with
  | [] => Some (tu, row, tri)
  | (_, (p, q)) :: bs' =>
      match nth_error fu p, nth_error tu q with
      | Some f, Some u =>
          if negb f && negb u then
            match nth_error prev p with
            | None => None
            | Some tr => match upd tr (fun T => traj_push T q) tri with
                         | None => None
                         | Some tri' => link_loop prev bs' (set_nth p true fu) (set_nth q true tu) (set_nth q tr row) tri'
                         end
            end
          else link_loop prev bs' fu tu row tri
      | _, _ => None
      end
  end.
(** traj.cpp:76-81 *)
Fixpoint start_loop (t : nat) (ps : list nat) (tu : list bool) (row : list nat) (tri : list traj) : list nat * list traj :=
  match ps with
  | [] => (row, tri)
  | p :: ps' => if nth p tu false then start_loop t ps' tu row tri
                else start_loop t ps' tu (set_nth p (length tri) row) (tri ++ [mkTraj t [p]])
  end.
(** traj.cpp:48-82 [add_Frame(frame_size, distances, p_from, p_to)].  The exceptions precede any change. *)
Definition add_frame_links (x : tindex2) (frame_size : nat) (distances : list Z) (from to : list nat) : outcome tindex2 :=
  if negb (length distances =? length from) || negb (length from =? length to) then Throw
  else if existsb (fun q => frame_size <=? q) to then Throw
  else
    let prev := last (pos2tr x) [] in
    let bonds := make_bonds distances from to in
    match link_loop prev bonds (repeat false (length prev)) (repeat false frame_size) (repeat 0 frame_size) (tr2pos x) with
    | None => UB
    | Some (tu, row, tri) =>
        let '(row', tri') := start_loop (length (pos2tr x)) (seq 0 frame_size) tu row tri in
        Val (mkT2 tri' (pos2tr x ++ [row']))
    end.

(** traj.hpp:122-130: push_back or update_last for each position of the new frame. *)
Fixpoint update_loop (nb : nat) (l : list nat) (p : nat) (tri : list traj) : option (list traj) :=
  match l with
  | [] => Some tri
  | tr :: l' =>
      match upd tr (fun T => if tr <? nb then traj_push T p else update_last T p) tri with
      | Some tri' => update_loop nb l' (S p) tri'
      | None => None
      end
  end.
(** traj.hpp:107-109: the check of the old trajectories; [None]: no such trajectory. *)
Fixpoint check_old (tri : list traj) (nframes : nat) (old : list nat) : option bool :=
  match old with
  | [] => Some true
  | tr :: old' => match nth_error tri tr with
                  | None => None
                  | Some T => if get_finish T <? nframes then Some false else check_old tri nframes old'
                  end
  end.
(** traj.hpp:93-132 [add_Frame(first, last)]. *)
Definition add_frame_ids (x : tindex2) (l : list nat) : outcome tindex2 :=
  let input := sort_unique l in
  if length input <? length l then Throw else
  let nb := length (tr2pos x) in
  (* upper_bound(nbtrajs-1): when nbtrajs is 0 the bound is the largest size_t *)
  let old := if nb =? 0 then input else filter (fun tr => tr <? nb) input in
  let new := if nb =? 0 then [] else filter (fun tr => negb (tr <? nb)) input in
  match check_old (tr2pos x) (length (pos2tr x)) old with
  | None => UB
  | Some false => Throw
  | Some true =>
      if match new with [] => false | a :: _ => negb (last new 0 - a + 1 =? length new) end then Throw else
      let tri := tr2pos x ++ map (fun _ => mkTraj (length (pos2tr x)) [0]) new in
      match update_loop nb l 0 tri with
      | None => UB
      | Some tri' => Val (mkT2 tri' (pos2tr x ++ [l]))
      end
  end.

(** Histories of add_Frame calls; a call that throws leaves the index as it was. *)
Inductive t2_op :=
| AddLinks (frame_size : nat) (distances : list Z) (from to : list nat)
| AddIds (l : list nat).
Definition t2_step (x : tindex2) (o : t2_op) : outcome tindex2 :=
  match o with
  | AddLinks n d f t => add_frame_links x n d f t
  | AddIds l => add_frame_ids x l
  end.
Fixpoint t2_run (x : tindex2) (ops : list t2_op) : option tindex2 :=
  match ops with
  | [] => Some x
  | o :: ops' => match t2_step x o with
                 | Val x' => t2_run x' ops'
                 | Throw => t2_run x ops'
                 | UB => None
                 end
  end.

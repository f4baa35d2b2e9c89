(** Model of the functions of lib/particles that work on bonds and neighbour lists only. *)
Require Import ZArith QArith List Bool Arith.
Require Import Verif.Base Verif.SortU Verif.RTree_Model Verif.Traj_Model.
Import ListNotations.
Local Open Scope nat_scope.

(** particles.hpp:59-84 [Bond]: a pair in increasing order, [assign]. *)
Definition mk_bond (x y : nat) : nat * nat := if x <? y then (x, y) else (y, x).
(** particles.hpp:79-82 [operator<]. *)
Definition bond_lt (a b : nat * nat) : bool := (fst a <? fst b) || ((fst a =? fst b) && (snd a <? snd b)).
(** Insertion in a std::set<Bond>; the position hint has no effect on the result. *)
Fixpoint bond_insert (b : nat * nat) (s : list (nat * nat)) : list (nat * nat) :=
  match s with
  | [] => [b]
  | x :: s' => if bond_lt b x then b :: s else if bond_lt x b then x :: bond_insert b s' else s
  end.

(** ngb[i].push_back(x) (particles.cpp:342-343 insert at the end); [None]: out of range. *)
Definition ngb_push (i x : nat) (ngb : list (list nat)) : option (list (list nat)) := upd i (fun l => l ++ [x]) ngb.
(** particles.cpp:337-346 [makeNgbList(BondSet)]. *)
Fixpoint add_bonds (bonds : list (nat * nat)) (ngb : list (list nat)) : option (list (list nat)) :=
  match bonds with
  | [] => Some ngb
  | (low, high) :: bonds' =>
      match ngb_push low high ngb with
      | None => None
      | Some n1 => match ngb_push high low n1 with None => None | Some n2 => add_bonds bonds' n2 end
      end
  end.
Definition ngb_of_bonds (n : nat) (bonds : list (nat * nat)) : option (list (list nat)) := add_bonds bonds (repeat [] n).

(** std::lower_bound(l.begin(), l.end(), p+1) to l.end(), on a sorted list. *)
Fixpoint after (p : nat) (l : list nat) : list nat :=
  match l with [] => [] | x :: l' => if x <? p + 1 then after p l' else l end.
(** particles.cpp:990-998 [ngb2bonds]. *)
Definition ngb2bonds (ngb : list (list nat)) : list (nat * nat) :=
  fold_left (fun s pl => fold_left (fun s q => bond_insert (mk_bond (fst pl) q) s) (after (fst pl) (snd pl)) s)
    (combine (seq 0 (length ngb)) ngb) [].

(** std::set_intersection and std::set_difference of sorted ranges. *)
Fixpoint set_inter (a : list nat) : list nat -> list nat :=
  fix inner (b : list nat) : list nat :=
    match a, b with
    | x :: a', y :: b' => if x <? y then set_inter a' b else if y <? x then inner b' else x :: set_inter a' b'
    | _, _ => []
    end.
Fixpoint set_diff (a : list nat) : list nat -> list nat :=
  fix inner (b : list nat) : list nat :=
    match a, b with
    | [], _ => []
    | _, [] => a
    | x :: a', y :: b' => if x <? y then x :: set_diff a' b else if y <? x then inner b' else set_diff a' b'
    end.

(** particles.cpp:651-670 [is_ring].  [None]: reading the neighbour list out of range. *)
Fixpoint is_ring_loop (ngb : list (list nat)) (common todo : list nat) : option bool :=
  match todo with
  | [] => Some true
  | c :: todo' =>
      match nth_error ngb c with
      | None => None
      | Some l => if length (set_inter l common) =? 2 then is_ring_loop ngb common todo' else Some false
      end
  end.
Definition is_ring (ngb : list (list nat)) (common : list nat) : option bool := is_ring_loop ngb common common.

(** Loop over q of particles.cpp:697-711 and 739-750: the pairs of common neighbourhood of size [n] in a ring. *)
Fixpoint ring_pairs (ngb : list (list nat)) (n p : nat) (lp : list nat) (qs : list nat) (s : list (nat * nat)) : option (list (nat * nat)) :=
  match qs with
  | [] => Some s
  | q :: qs' =>
      match nth_error ngb q with
      | None => None
      | Some lq =>
          let common := set_inter lp lq in
          if negb (length common =? n) then ring_pairs ngb n p lp qs' s else
          match is_ring ngb common with
          | None => None
          | Some false => ring_pairs ngb n p lp qs' s
          | Some true => ring_pairs ngb n p lp qs' (bond_insert (mk_bond p q) s)
          end
      end
  end.
(** particles.cpp:694-713 [get1551pairs]. *)
Fixpoint pairs1551 (ngb : list (list nat)) (rows : list (nat * list nat)) (s : list (nat * nat)) : option (list (nat * nat)) :=
  match rows with
  | [] => Some s
  | (p, lp) :: rows' => match ring_pairs ngb 5 p lp (after p lp) s with None => None | Some s' => pairs1551 ngb rows' s' end
  end.
Definition get1551pairs (ngb : list (list nat)) : option (list (nat * nat)) := pairs1551 ngb (combine (seq 0 (length ngb)) ngb) [].

(** particles.cpp:720-727 and 762-769: the sorted lists of the neighbours of the neighbours. *)
Fixpoint concat_ngb (ngb : list (list nat)) (l : list nat) : option (list nat) :=
  match l with
  | [] => Some []
  | c :: l' => match nth_error ngb c, concat_ngb ngb l' with Some lc, Some r => Some (lc ++ r) | _, _ => None end
  end.
Definition second_ngb (ngb : list (list nat)) (lp : list nat) : option (list nat) := option_map sort_unique (concat_ngb ngb lp).
(** particles.cpp:715-753 [get2331pairs]. *)
Fixpoint pairs2331 (ngb : list (list nat)) (rows : list (nat * list nat)) (s : list (nat * nat)) : option (list (nat * nat)) :=
  match rows with
  | [] => Some s
  | (p, lp) :: rows' =>
      match second_ngb ngb lp with
      | None => None
      | Some sec => match ring_pairs ngb 3 p lp (after p (set_diff sec lp)) s with None => None | Some s' => pairs2331 ngb rows' s' end
      end
  end.
Definition get2331pairs (ngb : list (list nat)) : option (list (nat * nat)) := pairs2331 ngb (combine (seq 0 (length ngb)) ngb) [].

(** particles.cpp:755-775 [getSecondShell]. *)
Fixpoint shells (ngb : list (list nat)) (rows : list (nat * list nat)) (s : list (nat * nat)) : option (list (nat * nat)) :=
  match rows with
  | [] => Some s
  | (p, lp) :: rows' =>
      match second_ngb ngb lp with
      | None => None
      | Some sec => shells ngb rows' (fold_left (fun s q => bond_insert (mk_bond p q) s) (after p sec) s)
      end
  end.
Definition get_second_shell (ngb : list (list nat)) : option (list (nat * nat)) := shells ngb (combine (seq 0 (length ngb)) ngb) [].

(** particles.cpp:672-691 [getSP5c]. *)
Fixpoint sp5c_row (ngb : list (list nat)) (p : nat) (lp qs : list nat) : option (list (list nat)) :=
  match qs with
  | [] => Some []
  | q :: qs' =>
      match nth_error ngb q, sp5c_row ngb p lp qs' with
      | Some lq, Some r => let common := p :: q :: set_inter lp lq in Some (if length common =? 7 then common :: r else r)
      | _, _ => None
      end
  end.
Fixpoint sp5c_rows (ngb : list (list nat)) (rows : list (nat * list nat)) : option (list (list nat)) :=
  match rows with
  | [] => Some []
  | (p, lp) :: rows' => match sp5c_row ngb p lp (after p lp), sp5c_rows ngb rows' with Some a, Some b => Some (a ++ b) | _, _ => None end
  end.
Definition get_sp5c (ngb : list (list nat)) : option (list (list nat)) := sp5c_rows ngb (combine (seq 0 (length ngb)) ngb).

(** particles.cpp:610-628 [getAngularDistribution].  [bin a b] is trunc(angle * 180 / pi) for the neighbours a and b: acos is
    not modelled, its result in [0, pi] gives a bin from 0 to 180.  [None]: angD written out of range. *)
Definition ang_scale (nb : nat) : Q := if 2 <? nb then 1 # Pos.of_nat ((nb - 1) * (nb - 2) / 2) else 1#1.
Fixpoint ang_inner (bin : nat -> nat -> nat) (num : nat) (scale : Q) (a : nat) (bs : list nat) (d : list Q) : option (list Q) :=
  match bs with
  | [] => Some d
  | b :: bs' =>
      if num =? b then ang_inner bin num scale a bs' d
      else if bin a b <? length d then ang_inner bin num scale a bs' (set_nth (bin a b) scale d) else None
  end.
Fixpoint ang_loop (bin : nat -> nat -> nat) (num : nat) (scale : Q) (l : list nat) (d : list Q) : option (list Q) :=
  match l with
  | [] => Some d
  | a :: l' =>
      if num =? a then ang_loop bin num scale l' d
      else match ang_inner bin num scale a l' d with Some d' => ang_loop bin num scale l' d' | None => None end
  end.
Definition angular_distribution (bin : nat -> nat -> nat) (num : nat) (ngbs : list nat) : option (list Q) :=
  let d := repeat (0#1) 180 in
  if 1 <? length ngbs then ang_loop bin num (ang_scale (length ngbs)) ngbs d else Some d.

(** Model of mains/sp5c.cpp: pairs of bonded particles with a ring of five common neighbours. *)
Require Import List Bool Arith NArith.
Require Import Verif.Base Verif.Dec Verif.Traj_Model Verif.Ngb_Model Verif.Export_Model.
Import ListNotations.
Local Open Scope nat_scope.

(** ringngb[c], std::map<size_t, list<size_t> >; [None]: no such key (the list would be empty). *)
Fixpoint ring_of (r : list (nat * list nat)) (c : nat) : option (list nat) :=
  match r with [] => None | (k, l) :: r' => if k =? c then Some l else ring_of r' c end.
(** sp5c.cpp:92-107: the particles pushed back by the do ... while loop, from [current]; [None]: front() of an empty list, or out of fuel. *)
Fixpoint ring_walk (fuel : nat) (r : list (nat * list nat)) (last previous current : nat) : option (list nat) :=
  match fuel with
  | 0 => None
  | S fuel' =>
      match ring_of r current with
      | Some (front :: rest) =>
          let next := if negb (front =? previous) then front else List.last rest front in
          if current =? last then Some [next] else option_map (cons next) (ring_walk fuel' r last current next)
      | _ => None
      end
  end.
(** sp5c.cpp:65-80: ringngb; [None]: reading the neighbour list out of range. *)
Fixpoint ring_lists (ngb : list (list nat)) (common todo : list nat) : option (list (nat * list nat)) :=
  match todo with
  | [] => Some []
  | c :: todo' => match nth_error ngb c, ring_lists ngb common todo' with Some l, Some r => Some ((c, set_inter l common) :: r) | _, _ => None end
  end.
(** sp5c.cpp:85-108: the seven particles pushed back; pop_back removes the last. *)
Definition ring_record (fuel : nat) (b : nat * nat) (common : list nat) (r : list (nat * list nat)) : option (list nat) :=
  match common with
  | [] => None
  | first :: _ =>
      match ring_of r first with
      | Some (front :: rest) => let last := List.last rest front in option_map (fun w => fst b :: snd b :: removelast (first :: w)) (ring_walk fuel r last last first)
      | _ => None
      end
  end.
(** sp5c.cpp:53-114: one bond after the other; the state is (sp5c, spindle). *)
Definition spindle_step (fuel : nat) (ngb : list (list nat)) (b : nat * nat) (st : list nat * list nat) : option (list nat * list nat) :=
  match nth_error ngb (fst b), nth_error ngb (snd b) with
  | Some lp, Some lq =>
      let common := set_inter lp lq in
      if length common =? 5 then
        match ring_lists ngb common common with
        | None => None
        | Some r =>
            if forallb (fun cl => length (snd cl) =? 2) r then
              match ring_record fuel b common r, upd (fst b) S (snd st) with
              | Some rec, Some s1 => match upd (snd b) S s1 with Some s2 => Some (fst st ++ rec, s2) | None => None end
              | _, _ => None
              end
            else Some st
        end
      else Some st
  | _, _ => None
  end.
Fixpoint spindles (fuel : nat) (ngb : list (list nat)) (bonds : list (nat * nat)) (st : list nat * list nat) : option (list nat * list nat) :=
  match bonds with
  | [] => Some st
  | b :: bonds' => match spindle_step fuel ngb b st with Some st' => spindles fuel ngb bonds' st' | None => None end
  end.
(** sp5c.cpp:45-125: the numbers written in the .sp5c and .n7a files, for [n] particles; [None]: undefined behaviour or endless loop. *)
Definition sp5c_program (fuel n : nat) (bonds : list (nat * nat)) : option (list nat * list nat) :=
  match ngb_of_bonds n bonds with None => None | Some ngb => spindles fuel ngb bonds ([], repeat 0 n) end.

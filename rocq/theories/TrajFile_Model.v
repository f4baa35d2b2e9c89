(** Model of the text format of trajectories, lib/traj.cpp. *)
Require Import List Arith NArith Ascii Bool.
Require Import Verif.Dec Verif.Traj_Model.
Import ListNotations.

(** traj.cpp:99-106 [operator<<(Traj)]; [None]: steps[0] of an empty trajectory. *)
Definition print_traj (T : traj) : option text :=
  match steps T with
  | [] => None
  | p :: ps => Some (print_nat (start T) ++ [newline] ++ print_nat p ++ flat_map (fun q => tab :: print_nat q) ps)
  end.

(** traj.cpp:230-237 [operator<<(TrajIndex)]. *)
Fixpoint print_index (tri : list traj) : option text :=
  match tri with
  | [] => Some []
  | T :: tri' => match print_traj T, print_index tri' with
                 | Some a, Some b => Some (a ++ [newline] ++ b)
                 | _, _ => None
                 end
  end.

(** traj.cpp:87-96 [operator>>(Traj)]: a failed extraction that reached the end of the line leaves [index] unchanged
    (uninitialised at first), one that did not makes the loop endless; pushing an uninitialised index and an endless
    loop are both [None]. *)
Fixpoint read_steps (fuel : nat) (s : istream) (index : option nat) (acc : list nat) : option (list nat) :=
  if eof s then Some acc else
  match fuel with
  | O => None
  | S fuel' =>
      match read_num s with
      | (Some v, s') => read_steps fuel' s' (Some (N.to_nat v)) (acc ++ [N.to_nat v])
      | (None, s') => match index with
                      | Some i => read_steps fuel' s' index (acc ++ [i])
                      | None => None
                      end
      end
  end.
Definition read_line_steps (l : text) : option (list nat) := read_steps (S (length l)) (open_text l) None [].

(** traj.cpp:207-224 [operator>>(TrajIndex)]; [tri] is the previous content of the index. *)
Fixpoint read_index_loop (fuel : nat) (s : istream) (st : option N) (tri : list traj) : option (list traj) :=
  if good_stream s then
    match fuel with
    | O => None
    | S fuel' =>
        match st with
        | None => None
        | Some t0 =>
            let '(l, s2) := get_line (get_char s) in
            match read_line_steps l with
            | None => None
            | Some ps => let '(st', s3) := read_num s2 in
                         read_index_loop fuel' s3 st' (tri ++ [mkTraj (N.to_nat t0) ps])
            end
        end
    end
  else Some tri.
Definition read_index (l : text) (tri : list traj) : option (list traj) :=
  let '(st, s) := read_num (open_text l) in read_index_loop (S (length l)) s st tri.

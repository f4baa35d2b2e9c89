(** Model of the similarities of boo_flip (mains/boo_flip.cpp): products of the bond orientational order of bonded particles. *)
Require Import List Arith Bool.
Require Import Verif.Traj_Model Verif.Particles_Model.
Import ListNotations.
Local Open Scope nat_scope.

(** std::lower_bound and std::binary_search (libstdc++) on a table of particles: the range from [first] of length [len] is halved. *)
Fixpoint lower_from (fuel : nat) (l : list nat) (x first len : nat) : nat :=
  match fuel with
  | 0 => first
  | S f => if len =? 0 then first else
           let half := len / 2 in
           if nth (first + half) l 0 <? x then lower_from f l x (first + half + 1) (len - half - 1) else lower_from f l x first half
  end.
Definition binary_search (l : list nat) (x : nat) : bool :=
  let i := lower_from (S (length l)) l x 0 (length l) in (i <? length l) && negb (x <? nth i l 0).

Section Sim.
  (** [V]: doubles, [unset]: -2, [high v]: v > 0.5.  [n]: number of particles.  [null p]: q00 of p is zero; [same p q], [turned p q]: normedProduct of
      p and q, of p and q turned by Pi around the bond, degree 6 (boo_flip.cpp:149-155). *)
  Variables (V : Type) (unset : V) (high : V -> bool) (n : nat) (null : nat -> bool) (same turned : nat -> nat -> V).
  (** nb[p]++ without check *)
  Fixpoint bump (p : nat) (nb : list nat) : outcome (list nat) :=
    match nb, p with
    | [], _ => UB
    | k :: nb', 0 => Val (S k :: nb')
    | k :: nb', S p' => omap (cons k) (bump p' nb')
    end.
  (** boo_flip.cpp:157-161, 167-171 *)
  Definition count_bond (v : V) (b : nat * nat) (nb : list nat) : outcome (list nat) :=
    if high v then obind (bump (fst b) nb) (bump (snd b)) else Val nb.
  (** boo_flip.cpp:144-148: reads of qlm without check, then the two searches. *)
  Definition skipped (inside : list nat) (b : nat * nat) : outcome bool :=
    if fst b <? n then
      if null (fst b) then Val true
      else if snd b <? n then Val (null (snd b) || negb (binary_search inside (fst b)) || negb (binary_search inside (snd b))) else UB
    else UB.
  (** boo_flip.cpp:137-171: the loop over bonds.  State: the two counts and the values of sim and sim_ref for the bonds seen; a skipped bond keeps -2. *)
  Fixpoint similarities (inside : list nat) (bonds : list (nat * nat)) (nb nbr : list nat) : outcome (list nat * list nat * list V * list V) :=
    match bonds with
    | [] => Val (nb, nbr, [], [])
    | b :: bonds' =>
        obind (skipped inside b) (fun sk =>
        if sk then omap (fun r => let '(nb, nbr, s, sr) := r in (nb, nbr, unset :: s, unset :: sr)) (similarities inside bonds' nb nbr)
        else
          let v := same (fst b) (snd b) in let vr := turned (fst b) (snd b) in
          obind (count_bond v b nb) (fun nb1 => obind (count_bond vr b nbr) (fun nbr1 =>
          omap (fun r => let '(nb, nbr, s, sr) := r in (nb, nbr, v :: s, vr :: sr)) (similarities inside bonds' nb1 nbr1))))
    end.
  (** boo_flip.cpp:90-96, 135-136: nobody inside means everybody; counts start at zero. *)
  Definition sim_program (inside : list nat) (bonds : list (nat * nat)) :=
    similarities (match inside with [] => seq 0 n | _ => inside end) bonds (repeat 0 n) (repeat 0 n).
End Sim.

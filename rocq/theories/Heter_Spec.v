(** Vocabulary of the programs that count changed neighbours. *)
Require Import ZArith List Bool Arith NArith Ascii.
Require Import Verif.Dec Verif.Traj_Model Verif.Traj_Spec Verif.Files_Spec Verif.Lost_Spec.
Import ListNotations.
Local Open Scope nat_scope.
Local Open Scope list_scope.

(** The number that C reads at the beginning of an argument: white space, one sign or none, digits, then anything that is not a digit; an int. *)
Definition reads_as (arg : text) (z : Z) : Prop :=
  exists ws sign ds rest, arg = ws ++ sign ++ ds ++ rest /\ (forall c, In c ws -> is_space c = true) /\ numeral ds /\ (rest = [] \/ no_digit_first rest) /\
    (sign = ["-"%char] /\ z = (- Z.of_N (value_from 0 ds))%Z \/ (sign = ["+"%char] \/ sign = []) /\ z = Z.of_N (value_from 0 ds)) /\
    (sign = [] -> ds = [] -> forall c rest', rest = c :: rest' -> is_space c = false /\ c <> "+"%char /\ c <> "-"%char) /\ (- 2 ^ 31 <= z < 2 ^ 31)%Z.

(** How many trajectories have a position at time t. *)
Definition many (tri : list traj) (t : nat) : nat := length (filter (fun T => (start T <=? t) && (t <? start T + length (steps T))) tri).
(** Trajectories over [n] time steps, without hole, such that the positions at each time are 0, 1, 2... each in one trajectory. *)
Definition tidy (n : nat) (tri : list traj) : Prop :=
  (forall T, In T tri -> steps T <> [] /\ start T + length (steps T) <= n) /\
  (forall i j T U t p, nth_error tri i = Some T -> nth_error tri j = Some U -> at_time T t p -> at_time U t p -> i = j) /\
  (forall T t p, In T tri -> at_time T t p -> p < many tri t).
(** The content of a file: one integer by line. *)
Definition holds (content : option text) (vs : list Z) : Prop := exists l, content = Some l /\ map integer_of (file_lines [] l) = map Some vs.
(** For each particle [p] of time [t0], on line [p], the number of trajectories that satisfy [P] for its own trajectory, or -1 if this one is not there at time [t]. *)
Definition counts_file (content : option text) (tri : list traj) (t0 t : nat) (P : nat -> nat -> Prop) : Prop :=
  exists vs, holds content vs /\ length vs = many tri t0 /\
    forall tr T p, nth_error tri tr = Some T -> at_time T t0 p -> exists v, nth_error vs p = Some v /\ count_or_absent (mkIndex tri []) v tr t (P tr).

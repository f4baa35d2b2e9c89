(** Vocabulary of the counts of changed neighbours. *)
Require Import ZArith List Arith NArith Ascii.
Require Import Verif.Dec Verif.Traj_Model Verif.Traj_Spec Verif.Export_Spec.
Import ListNotations.
Local Open Scope nat_scope.

(** The index is consistent: the inverse gives the trajectory at each position, and every position of a trajectory has a place in the inverse (C19).
    Trajectories are not empty and their times fit a size_t. *)
Definition consistent (ti : trajindex) : Prop :=
  (forall t p tr, invert ti t p = Some tr <-> exists T, nth_error (trajs ti) tr = Some T /\ at_time T t p) /\
  Forall (fun T => steps T <> [] /\ (Z.of_nat (start T + length (steps T)) <= 2 ^ 64)%Z) (trajs ti).
(** The file lists the bonds, as pairs of numbers separated by any white space, at least one, between the [n] positions of the frame. *)
Definition bond_file (file : option text) (n : nat) (bonds : list (nat * nat)) : Prop :=
  exists l, file = Some l /\ words l = flat_map (fun p => [print_nat (fst p); print_nat (snd p)]) bonds /\ bonds <> [] /\
    Forall (fun p => fst p < n /\ snd p < n /\ (N.of_nat n <= two64)%N) bonds.
(** Trajectories [tr] and [x] are bonded at time [t]; [bonds t]: pairs of positions. *)
Definition bonded (ti : trajindex) (bonds : nat -> list (nat * nat)) (t tr x : nat) : Prop :=
  exists T X p q, nth_error (trajs ti) tr = Some T /\ nth_error (trajs ti) x = Some X /\ at_time T t p /\ at_time X t q /\ (In (p, q) (bonds t) \/ In (q, p) (bonds t)).
(** Exactly [n] numbers satisfy P. *)
Definition counts (n : nat) (P : nat -> Prop) : Prop := exists l, NoDup l /\ (forall x, In x l <-> P x) /\ length l = n.
(** [v] is -1 when trajectory [tr] is absent at time [t], else the number of trajectories satisfying [P]. *)
Definition count_or_absent (ti : trajindex) (v : Z) (tr t : nat) (P : nat -> Prop) : Prop :=
  (exists T q n, nth_error (trajs ti) tr = Some T /\ at_time T t q /\ v = Z.of_nat n /\ counts n P) \/
  ((forall T q, nth_error (trajs ti) tr = Some T -> ~ at_time T t q) /\ v = (-1)%Z).
(** The lines of a file, each ended by a newline, and the integer written on a line: digits, possibly after a minus sign. *)
Fixpoint file_lines (current l : text) : list text :=
  match l with
  | [] => match current with [] => [] | _ => [current] end
  | c :: l' => if N.eqb (N_of_ascii c) 10 then current :: file_lines [] l' else file_lines (current ++ [c]) l'
  end.
Definition digits_of (l : text) : option Z := match l with [] => None | _ => if forallb is_digit l then Some (Z.of_N (value_from 0 l)) else None end.
Definition integer_of (l : text) : option Z :=
  match l with c :: l' => if N.eqb (N_of_ascii c) 45 then option_map Z.opp (digits_of l') else digits_of l | [] => None end.

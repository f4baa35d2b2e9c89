(** Vocabulary for cluster files. *)
Require Import ZArith List Arith NArith Ascii Relation_Operators.
Require Import Verif.Dec Verif.Traj_Model Verif.Traj_Spec Verif.Particles_Spec Verif.Export_Spec Verif.Files_Model Verif.Cluster_Spec.
Import ListNotations.
Local Open Scope nat_scope.

(** Trajectories [a] and [b] are at time [t] on positions related by [R]. *)
Definition touching (ti : trajindex) (R : nat -> nat -> Prop) (t a b : nat) : Prop := exists p q, on_traj ti a t p /\ on_traj ti b t q /\ R p q.
(** The text [l] is, line by line: the number of clusters of at least two trajectories joined by chains of touching ones at time [t], then for each cluster a number,
    its number of members and their positions. *)
Definition cluster_file (ti : trajindex) (R : nat -> nat -> Prop) (t : nat) (l : text) : Prop :=
  exists ms head rows, l = concat (map (fun row => row ++ [newline]) (head :: rows)) /\ cluster_partition (clos_refl_trans nat (touching ti R t)) ms /\
    words head = [print_nat (length ms)] /\ length rows = length ms /\
    forall k m, nth_error ms k = Some m -> exists row tr ps, nth_error rows k = Some row /\ Forall2 (fun a p => on_traj ti a t p) m ps /\
      words row = print_nat tr :: print_nat (length m) :: map print_nat ps.
(** The file lists these bonds, in any order and layout, between [n] positions. *)
Definition lists_bonds (file : option text) (n : nat) (bonds : list (nat * nat)) : Prop :=
  exists l, file = Some l /\ words l = flat_map (fun p => [print_nat (fst p); print_nat (snd p)]) bonds /\ Forall (fun p => fst p < n /\ snd p < n) bonds /\ (N.of_nat n <= two64)%N.
(** Different positions closer than [sep]. *)
Definition close_by (pos : list (list Z)) (sep : Z) (i j : nat) : Prop := i <> j /\ exists x y, nth_error pos i = Some x /\ nth_error pos j = Some y /\ closer3 x y sep.

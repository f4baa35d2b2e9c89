(** Vocabulary for the files left by the program tracker. *)
Require Import String.
Require Import List Bool Arith NArith Ascii.
Require Import Verif.Dec Verif.Files_Spec Verif.Export_Model.
Import ListNotations.
Local Open Scope nat_scope.
Local Open Scope list_scope.
Local Notation length := List.length.

(** What is found in an image: upper edges of the box, positions, intensities. *)
Notation found_in V := (V * V * V * list (V * V * V) * list V)%type.
(** The files: the content of each name, if any. *)
Notation files := (list ascii -> option (list ascii)).

(** An image of n0*n1*n2 pixels, last dimension fastest, whose pixel (z,y,x) is the one given. *)
Definition pictures_as {V} (n0 n1 n2 : nat) (img : list V) (pixel : nat -> nat -> nat -> option V) : Prop :=
  length img = n0 * n1 * n2 /\ forall z y x, z < n0 -> y < n1 -> x < n2 -> nth_error img ((z * n1 + y) * n2 + x) = pixel z y x.
(** Numbers of time steps are written with zeros in front, to as many digits as the last of [size] time steps. *)
Definition stamp (size t : nat) (s : text) : Prop := writes (length (print_N (N.of_nat (size - 1)))) (N.of_nat t) s.
Definition step_file (out : text) (size t : nat) (ext n : text) : Prop := exists s, stamp size t s /\ n = out ++ txt "_t" ++ s ++ ext.
(** The positions of step t, and its intensities if asked for, are in the files of this step. The text of positions is the one of C79. *)
Definition exported {V} (show : V -> text) (out : text) (size : nat) (asked : bool) (t : nat) (r : found_in V) (d : files) : Prop :=
  exists s, stamp size t s /\ d (out ++ txt "_t" ++ s ++ txt ".dat") = Some (export_dat V show (fst (fst r)) (snd (fst r))) /\
    (asked = true -> d (out ++ txt "_t" ++ s ++ txt ".intensity") = Some (flat_map (fun v => show v ++ [newline]) (snd r))).
(** The number of positions of each of the first k steps, one by line. *)
Definition counted {V} (res : nat -> found_in V) (k : nat) : text := flat_map (fun t => print_nat (length (snd (fst (res t)))) ++ [newline]) (seq 0 k).
(** The names a run may write to. *)
Definition of_steps (out : text) (size : nat) (asked : bool) (steps : nat -> Prop) (n : text) : Prop :=
  exists t, steps t /\ (step_file out size t (txt ".dat") n \/ asked = true /\ step_file out size t (txt ".intensity") n).
(** The name of the results as given to the program: one underscore may end it. *)
Definition named (given out : text) : Prop := given = out ++ txt "_" \/ given = out /\ out <> [] /\ forall l, out <> l ++ txt "_".
(** What a run leaves after k time steps: the files of these steps, the file of numbers, [others], and nothing else changed. *)
Definition left_files {V} (show : V -> text) (out : text) (size : nat) (asked : bool) (res : nat -> found_in V) (k : nat) (others : list (text * option text)) (d d' : files) : Prop :=
  (forall t, t < k -> exported show out size asked t (res t) d') /\ d' (out ++ txt ".nb") = Some (counted res k) /\ (forall n c, In (n, c) others -> d' n = c) /\
  forall n, ~ of_steps out size asked (fun t => t < k) n -> n <> out ++ txt ".nb" -> ~ In n (map fst others) -> d' n = d n.

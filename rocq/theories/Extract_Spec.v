(** Vocabulary for the files of radii. *)
Require Import String.
Require Import List Bool Arith NArith Ascii.
Require Import Verif.Dec Verif.Files_Spec Verif.Export_Model Verif.Track_Spec.
Import ListNotations.
Local Open Scope nat_scope.
Local Open Scope list_scope.
Local Notation length := List.length.
(** The positions of step t are in the file of this step, as tracker writes them. *)
Definition positions_of {V} (show : V -> text) (out : text) (size t : nat) (upper : V * V * V) (ps : list (V * V * V)) (d : files) : Prop :=
  forall n, step_file out size t (txt ".dat") n -> d n = Some (export_dat V show upper ps).
Definition no_positions (out : text) (size t : nat) (d : files) : Prop := forall n, step_file out size t (txt ".dat") n -> d n = None.
(** One radius by line *)
Definition radii_of {V} (show : V -> text) (out : text) (size t : nat) (rs : list V) (d : files) : Prop :=
  forall n, step_file out size t (txt ".radii") n -> d n = Some (flat_map (fun r => show r ++ [newline]) rs).
(** After k time steps: the radii of these, [others], and nothing else changed *)
Definition left_radii {V} (show : V -> text) (out : text) (size : nat) (rs : nat -> list V) (k : nat) (others : list (text * option text)) (d d' : files) : Prop :=
  (forall t, t < k -> radii_of show out size t (rs t) d') /\ (forall n c, In (n, c) others -> d' n = c) /\
  forall n, (forall t, t < k -> ~ step_file out size t (txt ".radii") n) -> ~ In n (map fst others) -> d' n = d n.
(** An image read from the file: the pixel (z,y,x) of step t *)
Definition pixel_of {C P} (conv : C -> P) (n0 n1 n2 : nat) (file : list C) (start t z y x : nat) : option P := option_map conv (nth_error file (start + t * (n0 * n1 * n2) + ((z * n1 + y) * n2 + x))).

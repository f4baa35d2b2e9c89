(** Histogram of the intensities of the centres in 100 bins between the dimmest and the brightest (does not use the model). *)
Require Import List Bool ZArith.
Import ListNotations.
Local Open Scope Z_scope.

Definition dimmest (I : nat -> Z) (l : list nat) (lo : Z) : Prop := (exists c, In c l /\ I c = lo) /\ forall c, In c l -> lo <= I c.
Definition brightest (I : nat -> Z) (l : list nat) (hi : Z) : Prop := (exists c, In c l /\ I c = hi) /\ forall c, In c l -> I c <= hi.
(** Intensity x is at least t hundredths of the way from lo to hi. *)
Definition reaches (lo hi : Z) (t : nat) (x : Z) : bool := Z.of_nat t * (hi - lo) <=? 100 * (x - lo).
(** Number of centres in bin t. *)
Definition population (I : nat -> Z) (lo hi : Z) (l : list nat) (t : nat) : nat := length (filter (fun c => reaches lo hi t (I c) && negb (reaches lo hi (S t) (I c))) l).
(** The first of the most populated bins. *)
Definition is_peak (I : nat -> Z) (lo hi : Z) (l : list nat) (p : nat) : Prop :=
  (p < 100)%nat /\ (forall q, (q < p)%nat -> (population I lo hi l q < population I lo hi l p)%nat) /\ (forall q, (q < 100)%nat -> (population I lo hi l q <= population I lo hi l p)%nat).

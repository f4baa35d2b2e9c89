(** Vocabulary for angles at a point, independent of the model's functions. *)
Require Import Reals List Arith QArith.
Require Import Verif.Euler_Model Verif.Euler_Spec.
Import ListNotations.
Local Open Scope R_scope.

(** theta is the angle under which a and b are seen from o. *)
Definition seen_under (o a b : vec) (theta : R) : Prop := 0 <= theta <= PI /\ dot (minus a o) (minus b o) = norm3 (minus a o) * norm3 (minus b o) * cos theta.
(** o is on the segment from a to b, not at an end *)
Definition between (a o b : vec) : Prop := exists t, 0 < t < 1 /\ forall d : vec -> R, (d = (fun v => fst (fst v)) \/ d = (fun v => snd (fst v)) \/ d = snd) -> d o = (1 - t) * d a + t * d b.
(** a and b are in the same direction from o. *)
Definition same_side (o a b : vec) : Prop := exists k, 0 < k /\ minus b o = scaled k (minus a o).
(** k whole degrees *)
Definition degrees (k : nat) (theta : R) : Prop := INR k * (PI / 180) <= theta < (INR k + 1) * (PI / 180).
(** Two neighbours of a list, in order *)
Definition two_of (l : list nat) (a b : nat) : Prop := exists i j, (i < j)%nat /\ nth_error l i = Some a /\ nth_error l j = Some b.

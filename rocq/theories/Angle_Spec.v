(** Vocabulary for angles between bonds, independent of the model's functions. *)
Require Import Reals List Arith.
Require Import Verif.Euler_Model Verif.Euler_Spec.
Import ListNotations.
Local Open Scope R_scope.

Definition sum_over {A} (l : list A) (f : A -> R) : R := fold_right (fun a s => f a + s) 0 l.
(** The cosine of the angle between two vectors *)
Definition cosine (v w : vec) : R := dot v w / (norm3 v * norm3 w).
(** Legendre polynomials (Rodrigues' formula, Euler_Spec) *)
Definition P (l : nat) (x : R) : R := legendre l 0 x.
(** The mean, over all pairs of bonds, of the Legendre polynomial of their angle *)
Definition mean_P (l : nat) (vs ws : list vec) : R := sum_over vs (fun v => sum_over ws (fun w => P l (cosine v w))) / (INR (length vs) * INR (length ws)).

(** The bonds of a particle *)
Definition bonds_at (ps : list vec) (ngb : list (list nat)) (c : nat) : list vec := map (fun q => minus (nth q ps null_vec) (nth c ps null_vec)) (nth c ngb []).
(** Neighbours are at different positions. *)
Definition apart (ps : list vec) (ngb : list (list nat)) : Prop := forall c q, In q (nth c ngb []) -> nth q ps null_vec <> nth c ps null_vec.
(** Any rigid motion, mirror image or magnification of space: all distances are multiplied by the same number. *)
Definition similarity (f : vec -> vec) : Prop := exists k, 0 < k /\ forall a b, norm3 (minus (f a) (f b)) = k * norm3 (minus a b).

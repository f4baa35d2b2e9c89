(** Vocabulary for the scattering functions, independent of the model's functions. *)
Require Import Reals List Arith ZArith.
Require Import Verif.Traj_Model Verif.Traj_Spec Verif.Dyn_Spec Verif.Corr_Spec Verif.Euler_Model Verif.Euler_Spec.
Import ListNotations.
Local Open Scope R_scope.

Definition total_of (l : list R) : R := fold_right Rplus 0 l.
(** The displacements of some trajectories between two times, in order. *)
Definition displacements (frames : list (list vec)) (ti : trajindex) (sel : list nat) (a b : nat) (ds : list vec) : Prop :=
  Forall2 (fun tr d => exists T x y, nth_error (trajs ti) tr = Some T /\ value_at frames T a x /\ value_at frames T b y /\ d = minus y x) sel ds.
(** A displacement by a whole number of wavelengths. *)
Definition whole_waves (q d : vec) : Prop := exists k : Z, dot d q = 2 * IZR k * PI.
(** All positions of a movie moved by the same vector. *)
Definition translated (c : vec) (frames : list (list vec)) : list (list vec) := map (map (fun p => let '(x, y, z) := p in let '(a, b, d) := c in (x + a, y + b, z + d))) frames.
(** Mean of some numbers. *)
Definition mean_of (l : list R) : R := total_of l / INR (length l).
(** Coordinate of a vector along an axis. *)
Definition component (d : nat) (v : vec) : R := let '(x, y, z) := v in match d with O => x | S O => y | _ => z end.

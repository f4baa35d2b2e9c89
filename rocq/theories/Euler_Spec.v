(** Vocabulary for rotations of bond order coefficients: half-turns, spherical harmonics. *)
Require Import Reals ZArith List Arith.
Require Import Verif.Boo_Model Verif.Euler_Model.
Import ListNotations.
Local Open Scope R_scope.

Definition null_vec : vec := (0, 0, 0).
Definition dot (a b : vec) : R := let '(x, y, z) := a in let '(x', y', z') := b in x * x' + y * y' + z * z'.
Definition scaled (k : R) (a : vec) : vec := let '(x, y, z) := a in (k * x, k * y, k * z).
Definition minus (a b : vec) : vec := let '(x, y, z) := a in let '(x', y', z') := b in (x - x', y - y', z - z').
(** The half-turn of v around the direction of a: the component along a is kept, the rest is reversed. *)
Definition turned (a v : vec) : vec := minus (scaled (2 * dot a v / dot a a) a) v.

(** The n-th derivative of (x^2-1)^l = sum of (-1)^(l-k) C(l,k) x^(2k) *)
Definition legendre_derivative (l n : nat) (x : R) : R :=
  sum_f_R0 (fun k => if (n <=? 2 * k)%nat then (-1) ^ (l - k) * Binomial.C l k * (rfact (2 * k) / rfact (2 * k - n)) * x ^ (2 * k - n) else 0) l.
(** Rodrigues' formula for the associated Legendre functions, with the Condon-Shortley phase. *)
Definition legendre (l m : nat) (x : R) : R := (-1) ^ m * sqrt (1 - x * x) ^ m / (2 ^ l * rfact l) * legendre_derivative l (l + m) x.
(** Spherical harmonics, m >= 0 *)
Definition harmonic (l m : nat) (theta phi : R) : R * R :=
  let n := sqrt ((2 * INR l + 1) / (4 * PI) * (rfact (l - m) / rfact (l + m))) * legendre l m (cos theta) in
  (n * cos (INR m * phi), n * sin (INR m * phi)).

(** The sum of the coefficients of several bonds *)
Definition plus_boo (a b : list (R * R)) : list (R * R) := map (fun p => (fst (fst p) + fst (snd p), snd (fst p) + snd (snd p))) (combine a b).
Definition of_bonds (vs : list vec) : list (R * R) := fold_right plus_boo (repeat (0, 0) 36) (map (of_bond harmonic) vs).

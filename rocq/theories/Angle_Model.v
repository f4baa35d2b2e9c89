(** Model of the order parameters of particles at given positions (lib/particles.cpp, lib/boo_data.cpp): coefficients of each particle, Ql, normed products.
    Doubles are taken as real numbers (Reals of the standard library). *)
Require Import Reals List Arith.
Require Import Verif.Base Verif.Traj_Model Verif.Particles_Model Verif.Boo_Model Verif.PBoo_Model Verif.Euler_Model.
Import ListNotations.
Local Open Scope R_scope.

(** BooData is a valarray of 36 complex numbers (boo_data.hpp:44-50): null, operator+=, operator/= by a number. *)
Definition boo_zero : list (cplx R) := repeat (0, 0) 36.
Definition boo_add (a b : list (cplx R)) : list (cplx R) := map (fun p => cadd R Rplus (fst p) (snd p)) (combine a b).
Definition boo_div (a : list (cplx R)) (n : nat) : list (cplx R) := map (fun c => (fst c / INR n, snd c / INR n)) a.
(** particles.hpp:285-290 [getDiff(from,to)]; the test of at() is in PBoo_Model.one_bond *)
Definition get_diff (ps : list vec) (from to : nat) : vec :=
  let '(x, y, z) := nth to ps (0, 0, 0) in let '(x', y', z') := nth from ps (0, 0, 0) in (x - x', y - y', z - z').

Section Parts.
  (** boost::math::spherical_harmonic *)
  Variable harmonic : nat -> nat -> R -> R -> cplx R.
  Variables (ps : list vec) (ngb : list (list nat)).
  (** particles.cpp:350-353 [sphHarm_OneBond] *)
  Definition one_harm (p q : nat) : list (cplx R) := of_bond harmonic (get_diff ps p q).
  (** particles.cpp:359-373 [getBOO] *)
  Definition boo_at (c : nat) : outcome (list (cplx R)) := get_boo (list (cplx R)) boo_zero boo_add boo_div one_harm (length ps) ngb c.
  (** particles.cpp:396-414 [getBOOs] on a new vector *)
  Definition all_boos : outcome (list (list (cplx R))) := get_boos (list (cplx R)) boo_zero boo_add boo_div one_harm (length ps) ngb [].
  (** particles.cpp:381-391 [getCgBOO], from the coefficients of all the particles *)
  Definition cg_boo_at (c : nat) : outcome (list (cplx R)) := obind all_boos (fun boo => get_cg_boo (list (cplx R)) boo_add boo_div ngb boo c).
End Parts.

(** boo_data.cpp:190-193 [getQl] *)
Definition get_ql (q : list (cplx R)) (l : nat) : outcome R := omap (fun s => sqrt (4 * PI * s / INR (2 * l + 1))) (sum_norm R 0 1 Rplus Rmult q l).
(** boo_data.cpp:174-177 [normedProduct] *)
Definition normed_product (a b : list (cplx R)) (l : nat) : outcome R :=
  obind (inner_product R 0 1 Rplus Rmult Rminus Ropp a b l) (fun s => obind (sum_norm R 0 1 Rplus Rmult a l) (fun n => omap (fun n' => s / sqrt (n * n')) (sum_norm R 0 1 Rplus Rmult b l))).

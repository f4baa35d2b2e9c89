(** Model of the cubic order parameter on real numbers (lib/boo_data.cpp): the table of Wigner 3j symbols as numbers, getInvarients and getWl.
    Doubles are taken as real numbers (Reals of the standard library). *)
Require Import Reals Qreals QArith List.
Require Import Verif.Base Verif.Traj_Model Verif.Boo_Model.
Local Open Scope R_scope.

(** boo_data.cpp:38-81: the numbers c*sqrt(r) of the table *)
Definition w3j_real : list R := map (fun p => Q2R (fst p) * sqrt (Q2R (snd p))) w3j_table.
(** boo_data.cpp:214 and 241: the division by pow(sumNorm, 1.5).  The guard 1.0+sumNorm==1.0 is, without rounding, sumNorm==0. *)
Definition divide_15 (s : R) (w : cplx R) : cplx R := if Req_EM_T s 0 then w else (fst w / Rpower s (3 / 2), snd w / Rpower s (3 / 2)).
(** boo_data.cpp:219-242 [getInvarients], the W part *)
Definition get_w (q : list (cplx R)) (l : nat) : outcome (cplx R) := get_invarients R 0 1 Rplus Rmult Rminus Ropp divide_15 w3j_real q l.
(** boo_data.cpp:195-216 [getWl] *)
Definition get_w_short (q : list (cplx R)) (l : nat) : outcome (cplx R) := get_wl R 0 1 Rplus Rmult Rminus Ropp divide_15 w3j_real q l.

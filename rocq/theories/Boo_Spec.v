(** Vocabulary for bond orientational order: the Wigner 3j symbols (l l l; m1 m2 m3) by Racah's formula. *)
Require Import ZArith QArith List Bool Arith.
Require Import Verif.Boo_Model.
Import ListNotations.

(** The degrees that are kept, and the arguments of the symbols. *)
Definition degree (l : nat) : Prop := (exists k, l = 2 * k)%nat /\ (l <= 10)%nat.
Definition legal (l : nat) (m1 m2 : Z) : Prop := (Z.abs m1 <= Z.of_nat l /\ Z.abs m2 <= Z.of_nat l /\ Z.abs (m1 + m2) <= Z.of_nat l)%Z.

Local Open Scope Z_scope.
Definition zprod (l : list Z) : Z := fold_right Z.mul 1 l.
(** The product of the integers from 1 to z. *)
Definition zfact (z : Z) : Z := zprod (map Z.of_nat (seq 1 (Z.to_nat z))).
Definition parity_sign (z : Z) : Z := if Z.even z then 1 else -1.
(** The sum over the integers k for which no factorial has a negative argument, of (-1)^k over the product of the factorials. *)
Definition racah_args (l m1 m2 k : Z) : list Z := [k; l - k; l - m1 - k; l + m2 - k; m1 + k; k - m2].
Definition racah_term (l m1 m2 k : Z) : Q :=
  if forallb (Z.leb 0) (racah_args l m1 m2 k)
  then (parity_sign k # Z.to_pos (zprod (map zfact (racah_args l m1 m2 k))))%Q
  else 0%Q.
Definition racah_sum (l m1 m2 : Z) : Q := fold_right (fun k s => (racah_term l m1 m2 (Z.of_nat k) + s)%Q) 0%Q (seq 0 (S (Z.to_nat l))).
(** The symbol is (-1)^(m1+m2) racah_sum sqrt(racah_rad). *)
Definition racah_rad (l m1 m2 : Z) : Q :=
  (zfact l ^ 3 * zfact (l + m1) * zfact (l - m1) * zfact (l + m2) * zfact (l - m2) * zfact (l - m1 - m2) * zfact (l + m1 + m2) # Z.to_pos (zfact (3 * l + 1)))%Q.
Definition racah_coef (l m1 m2 : Z) : Q := ((parity_sign (m1 + m2) # 1) * racah_sum l m1 m2)%Q.
(** a*sqrt(r) and b*sqrt(s) are the same real number (r, s >= 0). *)
Definition same_root (a r b s : Q) : Prop := (a * a * r == b * b * s)%Q /\ Z.sgn (Qnum a) * Z.sgn (Qnum r) = Z.sgn (Qnum b) * Z.sgn (Qnum s).

(** The three arguments (m1,m2,m3), m3 = -m1-m2, of a symbol. *)
Definition args3 (m1 m2 : Z) : list Z := [m1; m2; - m1 - m2].

(** A BooData of 36 coefficients over the ring K: q(l,m) for m >= 0 is stored after the l*l/4 coefficients of the lower degrees. *)
Section Values.
  Variables (K : Type) (k0 : K) (kadd kmul : K -> K -> K) (kopp : K -> K).
  Definition at_m (q : list (cplx K)) (l m : nat) : cplx K := nth (m + l * l / 4)%nat q (c0 K k0).
  Definition at_z (q : list (cplx K)) (l : nat) (m : Z) : cplx K :=
    if 0 <=? m then at_m q l (Z.to_nat m)
    else if (- m) mod 2 =? 0 then cconj K kopp (at_m q l (Z.to_nat (- m))) else copp K kopp (cconj K kopp (at_m q l (Z.to_nat (- m)))).
  (** Sums. *)
  Definition csum (l : list (cplx K)) : cplx K := fold_left (cadd K kadd) l (c0 K k0).
  Definition ksum (l : list K) : K := fold_left kadd l k0.
  Definition krep (n : nat) (x : K) : K := ksum (repeat x n).
  (** Re(x conj(y)) *)
  Definition re_prod (x y : cplx K) : K := kadd (kmul (fst x) (fst y)) (kmul (snd x) (snd y)).
End Values.
(** How many legal arguments are rearrangements of (m1,m2,-m1-m2) up to a common sign, 0 <= m1 <= m2. *)
Definition weight (p : Z * Z) : nat := if snd p =? 0 then 1%nat else if (fst p =? 0) || (fst p =? snd p) then 6%nat else 12%nat.

(** Vocabulary for rotations: Wigner's formula. *)
Require Import ZArith List Bool Arith.
Require Import Verif.Boo_Model Verif.Boo_Spec.
Import ListNotations.
Local Open Scope Z_scope.

Section Wigner.
  Variables (K : Type) (k0 k1 : K) (kadd kmul kdiv : K -> K -> K) (kopp ksqrt : K -> K) (kfact : nat -> K).
  (** [cp n], [sp n]: the n-th powers of cos(beta/2) and sin(beta/2). *)
  Variables (cp sp : nat -> K).
  (** The sum over the integers k for which no factorial has a negative argument. *)
  Definition d_args (l m2 m1 k : Z) : list Z := [l + m1 - k; k; m2 - m1 + k; l - m2 - k].
  Definition d_term (l m2 m1 k : Z) : K :=
    kdiv (kmul (kmul (if Z.even (m2 - m1 + k) then k1 else kopp k1) (cp (Z.to_nat (2 * l + m1 - m2 - 2 * k)))) (sp (Z.to_nat (m2 - m1 + 2 * k))))
         (kmul (kmul (kmul (kfact (Z.to_nat (l + m1 - k))) (kfact (Z.to_nat k))) (kfact (Z.to_nat (m2 - m1 + k)))) (kfact (Z.to_nat (l - m2 - k)))).
  Definition wigner_d (l m2 m1 : Z) : K :=
    kmul (ksum K k0 kadd (map (d_term l m2 m1) (filter (fun k => forallb (Z.leb 0) (d_args l m2 m1 k)) (map Z.of_nat (seq 0 (S (Z.to_nat (2 * l))))))))
      (ksqrt (kmul (kmul (kmul (kfact (Z.to_nat (l + m2))) (kfact (Z.to_nat (l - m2)))) (kfact (Z.to_nat (l + Z.abs m1)))) (kfact (Z.to_nat (l - Z.abs m1))))).
End Wigner.

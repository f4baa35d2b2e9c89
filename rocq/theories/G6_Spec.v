(** Vocabulary of the correlation of bond orientational order. *)
Require Import ZArith List Bool Arith.
Require Import Verif.Particles_Spec.
Import ListNotations.
Local Open Scope nat_scope.

(** All the pairs of two different numbers below n, the smallest first, in lexicographic order. *)
Definition couples (n : nat) : list (nat * nat) := filter (fun ij => fst ij <? snd ij) (list_prod (seq 0 n) (seq 0 n)).
(** Numbers i and j of positions whose distance d satisfies k/n <= d/cutoff < (k+1)/n and d < cutoff. *)
Definition apart (l : list (list Z)) (n : nat) (cutoff : Z) (k : nat) (ij : nat * nat) : bool :=
  match nth_error l (fst ij), nth_error l (snd ij) with
  | Some p, Some q =>
      let d2 := dist2 p q in let N := Z.of_nat n in let K := Z.of_nat k in
      (d2 <? cutoff * cutoff)%Z && (K * K * (cutoff * cutoff) <=? N * N * d2)%Z && (N * N * d2 <? (K + 1) * (K + 1) * (cutoff * cutoff))%Z
  | _, _ => false
  end.
(** A particle of non null order, strictly between the two altitudes if they are given. *)
Definition eligible {B} (null : B -> bool) (zlim : option (Z * Z)) (l : list (list Z)) (boo : list B) (i : nat) : bool :=
  match nth_error l i, nth_error boo i with
  | Some p, Some b => negb (null b) && match zlim with Some (lo, hi) => (lo <? nth 2 p 0)%Z && (nth 2 p 0 <? hi)%Z | None => true end
  | _, _ => false
  end.

(** Model of the choice of a bin in the pair histograms of lib/particles.hpp and mains/g6.cpp, with rounded arithmetic. *)
Require Import ZArith QArith Qround List Bool Arith SpecFloat.
Require Import Verif.Base Verif.Traj_Model Verif.Particles_Model Verif.Corr_Model.
Import ListNotations.
Local Open Scope nat_scope.

(** particles.hpp:208-212 (RdfBinner::operator()), particles.cpp:780-789 in sequence: one count per pair selected, in the bin computed.
    [UB]: past the end of the histogram. *)
Definition count_pairs (bin_of : nat * nat -> nat) (prs : list (nat * nat)) (g : list nat) : outcome (list nat) :=
  ofold (fun pq g => match incr (bin_of pq) g with Some g' => Val g' | None => UB end) prs g.

(** The arithmetic left open: nonnegative numbers with some rounded product, quotient and square root (no overflow nor underflow). *)
Section Rounded.
  Variables (rmul rdiv : Q -> Q -> Q) (rsqrt : Q -> Q).
  (** particles.cpp:242, 246: the test of getEuclidianNeighbours on the squared distance computed. *)
  Definition rnear (cutoff d2 : Q) : Prop := (d2 < rmul cutoff cutoff)%Q.
  (** particles.hpp:206, 210, 312, 316: norm2 times scale, with scale = n/cutoff, truncated. *)
  Definition rbin (n : nat) (cutoff d2 : Q) : nat := Z.to_nat (Qfloor (rmul (rsqrt d2) (rdiv (inject_Z (Z.of_nat n)) cutoff))).
  (** g6.cpp:145: the square root divided by the cutoff, times the number of bins, truncated. *)
  Definition rbin_g6 (n : nat) (cutoff d2 : Q) : nat := Z.to_nat (Qfloor (rmul (rdiv (rsqrt d2) cutoff) (inject_Z (Z.of_nat n)))).
End Rounded.

(** The arithmetic of the type double, by the reference functions of the standard library of Coq: 53 bits, exponents up to 1024, to nearest even. *)
Definition dbl := spec_float.
Definition dadd : dbl -> dbl -> dbl := SFadd 53 1024.
Definition dsub : dbl -> dbl -> dbl := SFsub 53 1024.
Definition dmul : dbl -> dbl -> dbl := SFmul 53 1024.
Definition ddiv : dbl -> dbl -> dbl := SFdiv 53 1024.
Definition dsqrt : dbl -> dbl := SFsqrt 53 1024.
(** A number m*2^e as a double. *)
Definition dnum (m e : Z) : dbl := binary_normalize 53 1024 m e false.
(** Conversion of a double to size_t: truncation; [None]: not representable (undefined behaviour in C++). *)
Definition dtrunc (x : dbl) : option nat :=
  match x with
  | S754_zero _ => Some 0
  | S754_finite false m e => Some (Z.to_nat (if (0 <=? e)%Z then Zpos m * 2 ^ e else Zpos m / 2 ^ (- e)))
  | _ => None
  end.
(** particles.hpp:277-290 [getDiff], index.hpp:63-64 [dot], [norm2]; the sum of a valarray expression goes from the last coordinate to the first. *)
Definition ddiff (to from : dbl * dbl * dbl) : dbl * dbl * dbl :=
  match to, from with (x, y, z), (x', y', z') => (dsub x x', dsub y y', dsub z z') end.
Definition dsq (d : dbl * dbl * dbl) : dbl := match d with (x, y, z) => dadd (dadd (dmul z z) (dmul y y)) (dmul x x) end.
(** particles.hpp:186-190: the cutoff in real units. *)
Definition dcutoff (radius range : dbl) : dbl := dmul (dmul (dnum 2 0) radius) range.
(** particles.cpp:236-263: the others near a particle (the query of the index keeps all of them, see C33), particles.hpp:204-212: their bins.
    The model visits every pair in the order of the indices; [UB]: past the end of the histogram or conversion of a number without integer part. *)
Definition dcount (radius range : dbl) (n : nat) (pos : list (dbl * dbl * dbl)) : outcome (list nat) :=
  let c := dcutoff radius range in
  let scale := ddiv (dnum (Z.of_nat n) 0) c in
  ofold (fun pq g =>
      match nth_error pos (fst pq), nth_error pos (snd pq) with
      | Some p, Some q =>
          let d2 := dsq (ddiff q p) in
          if negb (fst pq =? snd pq) && SFltb d2 (dmul c c)
          then match dtrunc (dmul (dsqrt d2) scale) with
               | Some r => match incr r g with Some g' => Val g' | None => UB end
               | None => UB
               end
          else Val g
      | _, _ => UB
      end)
    (list_prod (seq 0 (length pos)) (seq 0 (length pos))) (repeat 0 n).
(** g6.cpp:135-149 with doubles: the counts of the pairs p < q; [range] in the unit of the coordinates divided by two. *)
Definition dcount_g6 (range : dbl) (n : nat) (pos : list (dbl * dbl * dbl)) : outcome (list nat) :=
  let c := dmul (dnum 2 0) range in
  ofold (fun pq g =>
      match nth_error pos (fst pq), nth_error pos (snd pq) with
      | Some p, Some q =>
          let d2 := dsq (ddiff q p) in
          if (fst pq <? snd pq) && SFltb d2 (dmul c c)
          then match dtrunc (dmul (ddiv (dsqrt d2) c) (dnum (Z.of_nat n) 0)) with
               | Some r => match incr r g with Some g' => Val g' | None => UB end
               | None => UB
               end
          else Val g
      | _, _ => UB
      end)
    (list_prod (seq 0 (length pos)) (seq 0 (length pos))) (repeat 0 n).

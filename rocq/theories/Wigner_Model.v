(** Model of the rotations of lib/boo_data: Wigner_D, rotate_by_Pi, reflect.  Numbers are any type with the operations used. *)
Require Import ZArith List Bool Arith.
Require Import Verif.Base Verif.Traj_Model Verif.Particles_Model Verif.Corr_Model Verif.RTree_Model Verif.Boo_Model.
Import ListNotations.
Local Open Scope nat_scope.

Section Wigner.
  Variables (K : Type) (k0 k1 : K) (kadd kmul ksub kdiv : K -> K -> K) (kopp ksqrt : K -> K) (kfact : nat -> K).
  Notation cplx := (cplx K).
  (** boost::math::factorial(unsigned): a negative int becomes a huge unsigned, for which it throws. *)
  Definition fact_of (z : Z) : outcome K := if (z <? 0)%Z then Throw else Val (kfact (Z.to_nat z)).
  (** l = 0, 2, .. 10 *)
  Definition even_degrees : list nat := [0; 2; 4; 6; 8; 10].
  (** boo_data.cpp:358-371 [init_prefactor]: 726 doubles, [None] when never written. *)
  Definition pre_index (l m1 m2 : nat) : nat := l / 2 + 6 * m1 + 66 * m2.
  Definition pre_value (l m1 m2 : nat) : K := ksqrt (kmul (kmul (kmul (kfact (l + m2)) (kfact (l - m2))) (kfact (l + m1))) (kfact (l - m1))).
  Definition pre_writes : list (nat * (nat * nat)) := flat_map (fun l => flat_map (fun m1 => map (fun m2 => (l, (m1, m2))) (seq 0 (S l))) (seq 0 (S l))) even_degrees.
  Definition prefactor : list (option K) :=
    fold_left (fun a w => set_nth (pre_index (fst w) (fst (snd w)) (snd (snd w))) (Some (pre_value (fst w) (fst (snd w)) (snd (snd w)))) a) pre_writes (repeat None (6 * 11 * 11)).
  (** boo_data.hpp:99-102 [getPrefactor]. *)
  Definition get_prefactor (l : nat) (m1 m2 : Z) : outcome K :=
    match nth_error prefactor (pre_index l (Z.to_nat (Z.abs m1)) (Z.to_nat (Z.abs m2))) with Some (Some x) => Val x | _ => UB end.

  (** boo_data.hpp:93-96: the tables of a Wigner_D: 11 powers of exp(-i alpha), 21 of exp(-i gamma), 21 of cos and sin of beta/2. *)
  Record wigner := { e_a : list cplx; e_g : list cplx; c_b : list K; s_b : list K }.
  Definition at_z_index {A} (l : list A) (i : Z) : outcome A := if (i <? 0)%Z then UB else at_index l (Z.to_nat i).
  (** for(int k=a; k<=b; ++k) *)
  Definition zloop (a b : Z) : list Z := map (fun i => (a + Z.of_nat i)%Z) (seq 0 (Z.to_nat (b - a + 1))).
  Definition neg1 : K := kopp k1.
  (** boo_data.cpp:398-413 [small_d]. *)
  Definition small_d (w : wigner) (l : nat) (m2 m1 : Z) : outcome K :=
    let L := Z.of_nat l in
    obind (ofold (fun k s =>
      obind (at_z_index (c_b w) (2 * L + m1 - m2 - 2 * k)) (fun c =>
      obind (at_z_index (s_b w) (m2 - m1 + 2 * k)) (fun b =>
      obind (fact_of (L + m1 - k)) (fun f1 => obind (fact_of k) (fun f2 => obind (fact_of (m2 - m1 + k)) (fun f3 => omap (fun f4 =>
        kadd s (kdiv (kmul (kmul (if (Z.rem (m2 - m1 + k) 2 =? 0)%Z then k1 else neg1) c) b) (kmul (kmul (kmul f1 f2) f3) f4))) (fact_of (L - m2 - k))))))))
      (zloop (Z.max 0 (m1 - m2)) (Z.min (L + m1) (L - m2))) k0) (fun s =>
    omap (fun p => kmul s p) (get_prefactor l m1 m2)).
  (** boo_data.hpp:107-110 operator(). *)
  Definition big_d (w : wigner) (l m2 : nat) (m1 : Z) : outcome cplx :=
    obind (at_index (e_a w) m2) (fun a => obind (small_d w l (Z.of_nat m2) m1) (fun d => omap (fun g => cmul K kadd kmul ksub (cscal K kmul d a) g) (at_z_index (e_g w) (10 + m1)))).
  (** The triple loops of boo_data.cpp:258-261, 282-285 and 288-291: res[m2+l*l/4] += f(l,m2,m1) * q(l,m1) from a null BooData. *)
  Definition add_at (i : nat) (x : cplx) (res : list cplx) : outcome (list cplx) := omap (fun y => set_nth i (cadd K kadd y x) res) (at_index res i).
  Definition apply_d (f : nat -> nat -> Z -> outcome cplx) (q : list cplx) : outcome (list cplx) :=
    ofold (fun l res => ofold (fun m2 res => ofold (fun m1 res =>
      obind (f l m2 m1) (fun d => obind (coef K kopp q l m1) (fun x => add_at (m2 + l * l / 4) (cmul K kadd kmul ksub d x) res)))
      (zrange l) res) (seq 0 (S l)) res) even_degrees (repeat (c0 K k0) 36).
  (** boo_data.cpp:244-264 [rotate_by_Pi], [w] being made of the angles of the axis. *)
  Definition rotate_by_Pi (w : wigner) (q : list cplx) : outcome (list cplx) := apply_d (big_d w) q.
  (** boo_data.cpp:271-293 [reflect]. *)
  Definition reflect (pos neg : wigner) (q : list cplx) : outcome (list cplx) :=
    obind (apply_d (fun l m2 m1 => omap (cscal K kmul (if (l - m2) mod 2 =? 0 then k1 else neg1)) (big_d pos l m2 m1)) q) (apply_d (big_d neg)).
End Wigner.

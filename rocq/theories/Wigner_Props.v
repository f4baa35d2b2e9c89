(** Property C75: rotations of the coefficients. *)
Require Import ZArith QArith Qcanon List Bool Arith Lia Ring FinFun.
Require Import Verif.Base Verif.ListX Verif.Traj_Model Verif.Particles_Model Verif.Corr_Model Verif.Corr_Proofs Verif.RTree_Model Verif.Boo_Model Verif.Boo_Spec Verif.Boo_Proofs Verif.Wigner_Model Verif.Wigner_Spec Verif.Wigner_Proofs.
Import ListNotations.
Local Open Scope nat_scope.

Section Wigner.
  Variables (K : Type) (k0 k1 : K) (kadd kmul ksub kdiv : K -> K -> K) (kopp ksqrt : K -> K) (kfact : nat -> K).
  Notation cplx := (cplx K).
  Notation wigner := (wigner K).
  (** The tables have their sizes. *)
  Definition sized (w : wigner) : Prop := length (e_a K w) = 11 /\ length (e_g K w) = 21 /\ length (c_b K w) = 21 /\ length (s_b K w) = 21.
  (** exp(-i m2 alpha) d(l,m2,m1) exp(-i m1 gamma), d by Wigner's formula. *)
  Definition wigner_D (w : wigner) (l m2 : nat) (m1 : Z) : cplx :=
    let d := wigner_d K k0 k1 kadd kmul kdiv kopp ksqrt kfact (fun n => nth n (c_b K w) k0) (fun n => nth n (s_b K w) k0) (Z.of_nat l) (Z.of_nat m2) m1 in
    cmul K kadd kmul ksub (cscal K kmul d (nth m2 (e_a K w) (c0 K k0))) (nth (Z.to_nat (10 + m1)) (e_g K w) (c0 K k0)).
  Theorem C75_rotate w q : sized w -> length q = 36 ->
    exists res, rotate_by_Pi K k0 k1 kadd kmul ksub kdiv kopp ksqrt kfact w q = Val res /\ length res = 36 /\
      forall l m2, degree l -> m2 <= l -> at_m K k0 res l m2 = csum K k0 kadd (map (fun m1 => cmul K kadd kmul ksub (wigner_D w l m2 m1) (at_z K k0 kopp q l m1)) (zrange l)).
  Proof.
    intros [Ha [Hg [Hc Hs]]] Hq. apply (apply_ok K k0 kadd kmul ksub kopp _ (wigner_D w)); auto. intros. apply (big_d_ok K k0 k1 kadd kmul ksub kdiv kopp ksqrt kfact w); auto.
  Qed.
  Theorem C75_reflect pos neg q : sized pos -> sized neg -> length q = 36 ->
    exists mid res, reflect K k0 k1 kadd kmul ksub kdiv kopp ksqrt kfact pos neg q = Val res /\ length mid = 36 /\ length res = 36 /\
      (forall l m2, degree l -> m2 <= l -> at_m K k0 mid l m2 = csum K k0 kadd (map (fun m1 => cmul K kadd kmul ksub (cscal K kmul (if Nat.even (l - m2) then k1 else kopp k1) (wigner_D pos l m2 m1)) (at_z K k0 kopp q l m1)) (zrange l))) /\
      (forall l m2, degree l -> m2 <= l -> at_m K k0 res l m2 = csum K k0 kadd (map (fun m1 => cmul K kadd kmul ksub (wigner_D neg l m2 m1) (at_z K k0 kopp mid l m1)) (zrange l))).
  Proof.
    intros [Ha [Hg [Hc Hs]]] [Ha' [Hg' [Hc' Hs']]] Hq. unfold reflect.
    destruct (apply_ok K k0 kadd kmul ksub kopp (fun l m2 m1 => omap (cscal K kmul (if (l - m2) mod 2 =? 0 then k1 else neg1 K k1 kopp)) (big_d K k0 k1 kadd kmul ksub kdiv kopp ksqrt kfact pos l m2 m1))
       (fun l m2 m1 => cscal K kmul (if Nat.even (l - m2) then k1 else kopp k1) (wigner_D pos l m2 m1)) q) as [mid [E1 [L1 V1]]]; auto.
    { intros l m2 m1 Hl H2 H1. rewrite (big_d_ok K k0 k1 kadd kmul ksub kdiv kopp ksqrt kfact pos) by auto. cbn [omap]. f_equal. unfold neg1. f_equal. assert (E : ((l - m2) mod 2 =? 0) = Nat.even (l - m2)).
      { generalize (l - m2) as n. intros n. destruct (Nat.even n) eqn:E; [apply Nat.even_spec in E; destruct E as [k ->]; rewrite Nat.mul_comm, Nat.mod_mul by lia; auto|]. apply Nat.eqb_neq. intros X. apply Nat.mod_divide in X; [|lia]. destruct X as [k ->]. rewrite Nat.even_mul in E. cbn in E. rewrite orb_true_r in E. discriminate. }
      rewrite E. auto. }
    destruct (apply_ok K k0 kadd kmul ksub kopp (big_d K k0 k1 kadd kmul ksub kdiv kopp ksqrt kfact neg) (wigner_D neg) mid) as [res [E2 [L2 V2]]]; auto.
    { intros. apply (big_d_ok K k0 k1 kadd kmul ksub kdiv kopp ksqrt kfact neg); auto. }
    exists mid, res. rewrite E1. cbn [obind]. auto.
  Qed.

  (** * Null angles *)
  Variable Kr : ring_theory k0 k1 kadd kmul ksub kopp eq.
  Add Ring KRing5 : Kr.
  (** cos 0 = 1, sin 0 = 0, exp(0) = 1: the tables of the constructor for null angles (pow(0,0) is 1). *)
  Definition null_angles : wigner := {| e_a := repeat (k1, k0) 11; e_g := repeat (k1, k0) 21; c_b := repeat k1 21; s_b := k1 :: repeat k0 20 |}.
  Hypothesis div_0 : forall x, kdiv k0 x = k0.
  Hypothesis fact_0 : kfact 0 = k1.
  (** The quotient by a product of factorials, and the square root of a square of such a product. *)
  Hypothesis div_fact : forall a b, kmul (kdiv k1 (kmul (kfact a) (kfact b))) (kmul (kfact a) (kfact b)) = k1.
  Hypothesis sqrt_fact : forall a b, ksqrt (kmul (kmul (kfact a) (kfact b)) (kmul (kfact a) (kfact b))) = kmul (kfact a) (kfact b).
  Lemma ksum_zero {A} (f : A -> K) l : (forall x, In x l -> f x = k0) -> ksum K k0 kadd (map f l) = k0.
  Proof. induction l as [|x l IH]; intros H; auto. cbn [map]. rewrite (ksum_cons K k0 k1 kadd kmul ksub kopp Kr), H, IH; [ring|intros; apply H; right; auto|left; auto]. Qed.
  Lemma csum_delta {A} (f : A -> cplx) y : forall l, NoDup l -> In y l -> (forall x, In x l -> x <> y -> f x = c0 K k0) -> csum K k0 kadd (map f l) = f y.
  Proof.
    assert (Z0 : forall l, (forall x, In x l -> f x = c0 K k0) -> csum K k0 kadd (map f l) = c0 K k0).
    { induction l as [|x l IH]; intros H; auto. cbn [map]. rewrite (csum_cons K k0 k1 kadd kmul ksub kopp Kr), H, IH; [unfold cadd, c0; cbn; f_equal; ring|intros; apply H; right; auto|left; auto]. }
    induction l as [|x l IH]; intros ND Hy H; [contradiction|]. apply NoDup_cons_iff in ND. destruct ND as [N1 N2]. cbn [map]. rewrite (csum_cons K k0 k1 kadd kmul ksub kopp Kr). destruct Hy as [->|Hy].
    - rewrite Z0; [destruct (f y); unfold cadd, c0; cbn; f_equal; ring|]. intros x Hx. apply H; [right; auto|]. intros ->. contradiction.
    - rewrite IH; auto; [|intros; apply H; auto; right; auto]. rewrite H; [destruct (f y); unfold cadd, c0; cbn; f_equal; ring|left; auto|]. intros ->. contradiction.
  Qed.
  Lemma nth_s n : nth n (k1 :: repeat k0 20) k0 = if n =? 0 then k1 else k0.
  Proof. destruct n as [|n]; [reflexivity|]. apply nth_repeat. Qed.
  Lemma nth_repeat_lt {A} (a d : A) n m : n < m -> nth n (repeat a m) d = a.
  Proof. intros H. rewrite (nth_indep _ d a) by (rewrite repeat_length; auto). apply nth_repeat. Qed.
  Lemma null_d l m2 m1 : degree l -> m2 <= l -> (Z.abs m1 <= Z.of_nat l)%Z ->
    wigner_d K k0 k1 kadd kmul kdiv kopp ksqrt kfact (fun n => nth n (c_b K null_angles) k0) (fun n => nth n (s_b K null_angles) k0) (Z.of_nat l) (Z.of_nat m2) m1 = if (m1 =? Z.of_nat m2)%Z then k1 else k0.
  Proof.
    intros Hl H2 H1. assert (L10 : l <= 10) by apply Hl. unfold wigner_d. cbn [c_b s_b null_angles].
    set (g := d_term K k1 kmul kdiv kopp kfact (fun n => nth n (repeat k1 21) k0) (fun n => nth n (k1 :: repeat k0 20) k0) (Z.of_nat l) (Z.of_nat m2) m1).
    assert (T0 : forall k, (0 <= k)%Z -> (0 <= Z.of_nat m2 - m1 + k)%Z -> (k <> 0 \/ m1 <> Z.of_nat m2)%Z -> g k = k0).
    { intros k K1 K2 K3. unfold g, d_term. rewrite nth_s. destruct (Nat.eqb_spec (Z.to_nat (Z.of_nat m2 - m1 + 2 * k)) 0); [lia|]. match goal with |- kdiv (kmul ?x k0) _ = _ => replace (kmul x k0) with k0 by ring end. apply div_0. }
    destruct (Z.eqb_spec m1 (Z.of_nat m2)).
    - subst m1. rewrite Z.abs_eq by lia. cbn [seq map filter].
      replace (forallb (Z.leb 0) (d_args (Z.of_nat l) (Z.of_nat m2) (Z.of_nat m2) (Z.of_nat 0))) with true.
      2:{ symmetry. unfold d_args. cbn [forallb]. rewrite !andb_true_iff, !Z.leb_le. repeat split; lia. }
      cbn [map]. rewrite (ksum_cons K k0 k1 kadd kmul ksub kopp Kr), ksum_zero.
      + unfold g, d_term. rewrite nth_s. replace (Z.of_nat m2 - Z.of_nat m2 + 2 * Z.of_nat 0)%Z with 0%Z by lia. replace (Z.of_nat m2 - Z.of_nat m2 + Z.of_nat 0)%Z with 0%Z by lia. cbn [Z.to_nat Nat.eqb Z.even]. rewrite nth_repeat_lt by lia. change (Z.to_nat (Z.of_nat 0)) with 0. rewrite fact_0.
        replace (Z.of_nat l - Z.of_nat m2 - Z.of_nat 0)%Z with (Z.of_nat l - Z.of_nat m2)%Z by lia. replace (Z.of_nat l + Z.of_nat m2 - Z.of_nat 0)%Z with (Z.of_nat l + Z.of_nat m2)%Z by lia.
        set (a := Z.to_nat (Z.of_nat l + Z.of_nat m2)). set (b := Z.to_nat (Z.of_nat l - Z.of_nat m2)).
        replace (kmul (kmul (kmul (kfact a) (kfact b)) (kfact a)) (kfact b)) with (kmul (kmul (kfact a) (kfact b)) (kmul (kfact a) (kfact b))) by ring. rewrite sqrt_fact.
        replace (kmul (kmul k1 k1) k1) with k1 by ring. replace (kmul (kmul (kmul (kfact a) k1) k1) (kfact b)) with (kmul (kfact a) (kfact b)) by ring.
        match goal with |- kmul (kadd ?x k0) ?y = _ => replace (kmul (kadd x k0) y) with (kmul x y) by ring end. apply div_fact.
      + intros k Hk. apply filter_In in Hk. destruct Hk as [Hk Hd]. apply in_map_iff in Hk. destruct Hk as [i [<- Hi]]. apply in_seq in Hi. apply T0; lia.
    - rewrite ksum_zero; [ring|]. intros k Hk. apply filter_In in Hk. destruct Hk as [Hk Hd]. unfold d_args in Hd. cbn [forallb] in Hd. rewrite !andb_true_iff, !Z.leb_le in Hd. apply T0; [tauto|tauto|auto].
  Qed.
  Theorem C75_identity q : length q = 36 -> rotate_by_Pi K k0 k1 kadd kmul ksub kdiv kopp ksqrt kfact null_angles q = Val q.
  Proof.
    intros Hq. destruct (C75_rotate null_angles q) as [res [E [L V]]]; auto.
    { unfold sized, null_angles. cbn [e_a e_g c_b s_b length]. rewrite !repeat_length. auto. }
    rewrite E. f_equal. apply nth_ext with (d := c0 K k0) (d' := c0 K k0); [lia|]. intros i Hi. rewrite L in Hi.
    assert (X : exists l m, degree l /\ m <= l /\ m + l * l / 4 = i).
    { assert (C : forallb (fun i => existsb (fun p => lm_index p =? i) lms) (seq 0 36) = true) by (vm_compute; reflexivity). rewrite forallb_forall in C. specialize (C i ltac:(apply in_seq; lia)). apply existsb_exists in C. destruct C as [[l m] [Hp Ei]]. apply Nat.eqb_eq in Ei. unfold lms in Hp. apply in_flat_map in Hp. destruct Hp as [l' [Hl' Hp]]. apply in_map_iff in Hp. destruct Hp as [m' [Ep Hm']]. injection Ep as -> ->. apply in_seq in Hm'. exists l, m. split; [apply degree_of_in; auto|]. split; [lia|auto]. }
    destruct X as [l [m [Hl [Hm <-]]]]. specialize (V l m Hl Hm). unfold at_m in V. rewrite V. assert (L10 : l <= 10) by apply Hl.
    assert (D : forall m1, (Z.abs m1 <= Z.of_nat l)%Z -> wigner_D null_angles l m m1 = if (m1 =? Z.of_nat m)%Z then (k1, k0) else c0 K k0).
    { intros m1 H1. unfold wigner_D. cbv zeta. rewrite null_d by auto. cbn [e_a e_g null_angles]. rewrite !nth_repeat_lt by lia. destruct (m1 =? Z.of_nat m)%Z; unfold cmul, cscal, c0; cbn [fst snd]; f_equal; ring. }
    rewrite (csum_delta _ (Z.of_nat m)).
    - rewrite D by lia. rewrite Z.eqb_refl. unfold at_z. destruct (Z.leb_spec 0 (Z.of_nat m)); [|lia]. rewrite Nat2Z.id. fold (at_m K k0 q l m). destruct (at_m K k0 q l m). unfold cmul. cbn [fst snd]. f_equal; ring.
    - unfold zrange. apply Injective_map_NoDup; [intros x y Exy; lia|apply seq_NoDup].
    - apply zrange_in. lia.
    - intros m1 H1 Hn. apply zrange_in in H1. rewrite D by auto. destruct (Z.eqb_spec m1 (Z.of_nat m)); [contradiction|]. unfold cmul, c0. cbn [fst snd]. f_equal; ring.
  Qed.
End Wigner.

(** The hypotheses of C75_identity hold for the rational numbers, with a square root that is exact on squares of integers. *)
Definition zq (z : Z) : Qc := Q2Qc (inject_Z z).
Definition qfact (n : nat) : Qc := zq (Z.of_nat (fact n)).
Definition qsqrt (x : Qc) : Qc := Q2Qc (Z.sqrt (Qnum x) # Qden x).
Lemma zq_this z : this (zq z) = (z # 1)%Q.
Proof. unfold zq, Q2Qc. cbn [this]. apply Qred_identity. cbn. apply Z.gcd_1_r. Qed.
Lemma zq_mul a b : (zq a * zq b)%Qc = zq (a * b).
Proof. apply Qc_is_canon. rewrite zq_this. transitivity (Qmult (zq a) (zq b)); [apply Qred_correct|]. rewrite !zq_this. reflexivity. Qed.
Example C75_hypotheses_met :
  (forall x, Qcdiv 0 x = 0%Qc) /\ qfact 0 = 1%Qc /\
  (forall a b, Qcmult (Qcdiv 1 (Qcmult (qfact a) (qfact b))) (Qcmult (qfact a) (qfact b)) = 1%Qc) /\
  (forall a b, qsqrt (Qcmult (Qcmult (qfact a) (qfact b)) (Qcmult (qfact a) (qfact b))) = Qcmult (qfact a) (qfact b)) /\ qfact 3 = zq 6.
Proof.
  assert (N : forall a, (0 < Z.of_nat (fact a))%Z) by (intros a; assert (X := lt_O_fact a); lia).
  split; [|split; [|split; [|split]]].
  - intros x. unfold Qcdiv. apply Qcmult_0_l.
  - apply Qc_is_canon. reflexivity.
  - intros a b. unfold qfact. rewrite zq_mul. unfold Qcdiv. rewrite Qcmult_1_l. rewrite Qcmult_comm. apply Qcmult_inv_r. intros E. apply (f_equal this) in E. rewrite zq_this in E. cbn in E. injection E as E. specialize (N a) as Na. specialize (N b) as Nb. nia.
  - intros a b. unfold qfact. rewrite !zq_mul. unfold qsqrt. rewrite zq_this. cbn [Qnum Qden]. rewrite Z.sqrt_square by (specialize (N a) as Na; specialize (N b) as Nb; nia). reflexivity.
  - apply Qc_is_canon. reflexivity.
Qed.
Example C75_identity_rationals q : length q = 36 ->
  rotate_by_Pi Qc 0%Qc 1%Qc Qcplus Qcmult Qcminus Qcdiv Qcopp qsqrt qfact (null_angles Qc 0%Qc 1%Qc) q = Val q.
Proof. destruct C75_hypotheses_met as [H1 [H2 [H3 [H4 _]]]]. apply C75_identity; auto. apply Qcrt. Qed.

Print Assumptions C75_rotate.
Print Assumptions C75_reflect.
Print Assumptions C75_identity.

(** Proofs about rotations of bond orientational order. *)
Require Import ZArith List Bool Arith Lia Ring.
Require Import Verif.Base Verif.ListX Verif.Traj_Model Verif.Particles_Model Verif.Corr_Model Verif.Corr_Proofs Verif.RTree_Model Verif.Boo_Model Verif.Boo_Spec Verif.Boo_Proofs Verif.Wigner_Model Verif.Wigner_Spec.
Import ListNotations.
Local Open Scope nat_scope.

Lemma ofold_inv {A W} (P : W -> Prop) (f : A -> W -> outcome W) (h : A -> W -> W) : forall l w, P w -> (forall a v, In a l -> P v -> f a v = Val (h a v) /\ P (h a v)) ->
  ofold f l w = Val (fold_left (fun v a => h a v) l w) /\ P (fold_left (fun v a => h a v) l w).
Proof.
  induction l as [|a l IH]; intros w Hw H; cbn [ofold fold_left]; auto. destruct (H a w (or_introl eq_refl) Hw) as [E P']. rewrite E. cbn [obind]. apply IH; auto. intros; apply H; auto. right; auto.
Qed.
Lemma nth_set {A} (d : A) i x l j : i < length l -> nth j (set_nth i x l) d = if j =? i then x else nth j l d.
Proof.
  intros H. destruct (nth_error (set_nth i x l) j) as [y|] eqn:E.
  - rewrite (nth_error_nth _ _ d E). rewrite set_nth_get in E by auto. destruct (j =? i); [congruence|]. symmetry. apply nth_error_nth. auto.
  - assert (L := proj1 (nth_error_None _ _) E). rewrite set_nth_len in L. rewrite nth_overflow by (rewrite set_nth_len; auto). destruct (Nat.eqb_spec j i); [lia|]. rewrite nth_overflow; auto.
Qed.
Lemma set_twice {A} (x y : A) : forall l i, set_nth i y (set_nth i x l) = set_nth i y l.
Proof. induction l as [|a l IH]; intros [|i]; cbn; auto. f_equal. auto. Qed.
Lemma set_same {A} (d : A) : forall l i, i < length l -> set_nth i (nth i l d) l = l.
Proof. induction l as [|a l IH]; intros [|i] H; cbn in *; try lia; auto. f_equal. apply IH. lia. Qed.
(** Updates of distinct elements. *)
Lemma fold_upd {A W} (f : W -> nat) (g : W -> A -> A) (d : A) : forall ws a, NoDup (map f ws) -> (forall w, In w ws -> f w < length a) ->
  let r := fold_left (fun a w => set_nth (f w) (g w (nth (f w) a d)) a) ws a in
  length r = length a /\ (forall w, In w ws -> nth (f w) r d = g w (nth (f w) a d)) /\ (forall i, ~ In i (map f ws) -> nth i r d = nth i a d).
Proof.
  induction ws as [|w ws IH]; intros a ND H; cbn [fold_left]; cbv zeta.
  - split; [auto|]. split; [intros w []|auto].
  - cbn [map] in ND. inversion ND as [|? ? N1 N2]; subst. assert (Hw : f w < length a) by (apply H; left; auto).
    destruct (IH (set_nth (f w) (g w (nth (f w) a d)) a) N2) as [I1 [I2 I3]]; [intros; rewrite set_nth_len; apply H; right; auto|].
    rewrite set_nth_len in I1. split; [auto|]. split.
    + intros v [<-|Hv].
      * rewrite I3 by auto. rewrite nth_set by auto. rewrite Nat.eqb_refl. auto.
      * rewrite I2 by auto. rewrite nth_set by auto. destruct (Nat.eqb_spec (f v) (f w)); auto. exfalso. apply N1. rewrite <- e. apply in_map. auto.
    + intros i Hi. rewrite I3; [|intros X; apply Hi; right; auto]. rewrite nth_set by auto. destruct (Nat.eqb_spec i (f w)); auto. exfalso. apply Hi. left. auto.
Qed.
Lemma filter_interval a b n : a <= b -> b < n -> filter (fun k => (a <=? k) && (k <=? b)) (seq 0 n) = seq a (b - a + 1).
Proof.
  intros H1 H2. replace n with (a + ((b - a + 1) + (n - b - 1))) by lia. rewrite (seq_app a), (seq_app (b - a + 1)), !filter_app. change (0 + a) with a.
  assert (F0 : forall s m, (forall k, In k (seq s m) -> (a <=? k) && (k <=? b) = false) -> filter (fun k => (a <=? k) && (k <=? b)) (seq s m) = []).
  { intros s m. generalize (seq s m) as l. induction l as [|x l IH]; intros H; auto. cbn [filter]. rewrite H by (left; auto). apply IH. intros; apply H; right; auto. }
  assert (F1 : forall s m, (forall k, In k (seq s m) -> (a <=? k) && (k <=? b) = true) -> filter (fun k => (a <=? k) && (k <=? b)) (seq s m) = seq s m).
  { intros s m. generalize (seq s m) as l. induction l as [|x l IH]; intros H; auto. cbn [filter]. rewrite H by (left; auto). f_equal. apply IH. intros; apply H; right; auto. }
  rewrite (F0 0 a), (F1 a (b - a + 1)), (F0 (a + (b - a + 1))).
  - cbn. apply app_nil_r.
  - intros k Hk. apply in_seq in Hk. apply andb_false_iff. right. apply Nat.leb_gt. lia.
  - intros k Hk. apply in_seq in Hk. apply andb_true_iff. rewrite !Nat.leb_le. lia.
  - intros k Hk. apply in_seq in Hk. apply andb_false_iff. left. apply Nat.leb_gt. lia.
Qed.
Lemma filter_map_x {A B} (f : A -> B) (p : B -> bool) : forall l, filter p (map f l) = map f (filter (fun x => p (f x)) l).
Proof. induction l as [|x l IH]; cbn [map filter]; auto. destruct (p (f x)); cbn [map]; rewrite IH; auto. Qed.
Lemma zshift n : forall z, (0 <= z)%Z -> map (fun i => (z + Z.of_nat i)%Z) (seq 0 n) = map Z.of_nat (seq (Z.to_nat z) n).
Proof.
  intros z H. assert (G : forall a, map (fun i => (Z.of_nat a + Z.of_nat i)%Z) (seq 0 n) = map Z.of_nat (seq a n)).
  { induction n as [|n IH]; intros a; auto. cbn [seq map]. f_equal; [lia|]. rewrite <- seq_shift, map_map, <- IH. apply map_ext. intros; lia. }
  rewrite <- G. apply map_ext. intros; lia.
Qed.
Lemma zloop_filter l m2 m1 : (Z.abs m1 <= l -> 0 <= m2 <= l -> zloop (Z.max 0 (m1 - m2)) (Z.min (l + m1) (l - m2)) = filter (fun k => forallb (Z.leb 0) (d_args l m2 m1 k)) (map Z.of_nat (seq 0 (S (Z.to_nat (2 * l))))))%Z.
Proof.
  intros H1 H2. rewrite filter_map_x. rewrite (filter_ext _ (fun k => (Z.to_nat (Z.max 0 (m1 - m2)) <=? k) && (k <=? Z.to_nat (Z.min (l + m1) (l - m2))))).
  - rewrite filter_interval by lia. unfold zloop. replace (Z.to_nat (Z.min (l + m1) (l - m2) - Z.max 0 (m1 - m2) + 1)) with (Z.to_nat (Z.min (l + m1) (l - m2)) - Z.to_nat (Z.max 0 (m1 - m2)) + 1) by lia.
    apply zshift. lia.
  - intros k. unfold d_args. cbn [forallb]. rewrite andb_true_r. apply eq_true_iff_eq. rewrite !andb_true_iff, !Z.leb_le, !Nat.leb_le. lia.
Qed.

Section Wigner.
  Variables (K : Type) (k0 k1 : K) (kadd kmul ksub kdiv : K -> K -> K) (kopp ksqrt : K -> K) (kfact : nat -> K).
  Notation cplx := (cplx K).
  Notation prefactor := (prefactor K kmul ksqrt kfact).
  Notation pre_value := (pre_value K kmul ksqrt kfact).
  Definition pw_index (w : nat * (nat * nat)) : nat := pre_index (fst w) (fst (snd w)) (snd (snd w)).
  Lemma pw_ok : NoDup (map pw_index pre_writes) /\ forall w, In w pre_writes -> pw_index w < 726.
  Proof.
    split.
    - assert (E : nodup Nat.eq_dec (map pw_index pre_writes) = map pw_index pre_writes) by (vm_compute; reflexivity). rewrite <- E. apply NoDup_nodup.
    - assert (F : forallb (fun w => pw_index w <? 726) pre_writes = true) by (vm_compute; reflexivity). rewrite forallb_forall in F. intros w Hw. apply Nat.ltb_lt. auto.
  Qed.
  Lemma prefactor_ok l m1 m2 : degree l -> m1 <= l -> m2 <= l -> nth_error prefactor (pre_index l m1 m2) = Some (Some (pre_value l m1 m2)).
  Proof.
    intros Hl H1 H2. destruct pw_ok as [ND LT].
    destruct (fold_upd pw_index (fun w _ => Some (pre_value (fst w) (fst (snd w)) (snd (snd w)))) None pre_writes (repeat None (6 * 11 * 11)) ND) as [E1 [E2 _]].
    { intros w Hw. rewrite repeat_length. apply LT. auto. }
    assert (I : In (l, (m1, m2)) pre_writes).
    { unfold pre_writes. apply in_flat_map. exists l. split; [apply (degree_in l Hl)|]. apply in_flat_map. exists m1. split; [apply in_seq; lia|]. apply in_map_iff. exists m2. split; auto. apply in_seq. lia. }
    specialize (E2 _ I). cbn [fst snd] in E2.
    change (fold_left _ pre_writes (repeat None (6 * 11 * 11))) with prefactor in E1. change (fold_left _ pre_writes (repeat None (6 * 11 * 11))) with prefactor in E2.
    rewrite (nth_error_nth' prefactor None).
    - f_equal. exact E2.
    - rewrite E1, repeat_length. apply (LT _ I).
  Qed.

  Variable w : wigner K.
  Hypothesis Ha : length (e_a K w) = 11.
  Hypothesis Hg : length (e_g K w) = 21.
  Hypothesis Hc : length (c_b K w) = 21.
  Hypothesis Hs : length (s_b K w) = 21.
  Notation small_d := (small_d K k0 k1 kadd kmul kdiv kopp ksqrt kfact w).
  Notation big_d := (big_d K k0 k1 kadd kmul ksub kdiv kopp ksqrt kfact w).
  Definition cp (n : nat) : K := nth n (c_b K w) k0.
  Definition sp (n : nat) : K := nth n (s_b K w) k0.
  Notation wd := (wigner_d K k0 k1 kadd kmul kdiv kopp ksqrt kfact cp sp).
  Lemma at_z_index_ok {A} (d : A) l i : (0 <= i < Z.of_nat (length l))%Z -> at_z_index l i = Val (nth (Z.to_nat i) l d).
  Proof. intros H. unfold at_z_index. destruct (Z.ltb_spec i 0); [lia|]. apply at_index_ok. lia. Qed.
  Lemma fact_ok z : (0 <= z)%Z -> fact_of K kfact z = Val (kfact (Z.to_nat z)).
  Proof. intros H. unfold fact_of. destruct (Z.ltb_spec z 0); [lia|auto]. Qed.
  Lemma rem2 z : (Z.rem z 2 =? 0)%Z = Z.even z.
  Proof.
    destruct (Z.even z) eqn:E.
    - apply Z.even_spec in E. destruct E as [k ->]. rewrite Z.mul_comm, Z.rem_mul by lia. auto.
    - apply Z.eqb_neq. intros R. apply Z.rem_divide in R; [|lia]. destruct R as [k ->]. rewrite Z.even_mul, orb_true_r in E. discriminate.
  Qed.
  Lemma small_d_ok l m2 m1 : degree l -> (0 <= m2 <= Z.of_nat l)%Z -> (Z.abs m1 <= Z.of_nat l)%Z -> small_d l m2 m1 = Val (wd (Z.of_nat l) m2 m1).
  Proof.
    intros Hl H2 H1. assert (L10 : l <= 10) by apply Hl. unfold small_d, Wigner_Model.small_d. cbv zeta. rewrite zloop_filter by auto. rewrite (ofold_ok _ (fun k s => kadd s (d_term K k1 kmul kdiv kopp kfact cp sp (Z.of_nat l) m2 m1 k))).
    - cbn [obind]. unfold get_prefactor. rewrite prefactor_ok by (auto; lia). cbn [omap]. unfold wigner_d. f_equal. f_equal.
      + unfold ksum. rewrite fold_left_map_x. auto.
      + unfold Wigner_Model.pre_value. rewrite Z.abs_eq by lia. replace (Z.to_nat (Z.of_nat l + m2)) with (l + Z.to_nat m2) by lia. replace (Z.to_nat (Z.of_nat l - m2)) with (l - Z.to_nat m2) by lia. replace (Z.to_nat (Z.of_nat l + Z.abs m1)) with (l + Z.to_nat (Z.abs m1)) by lia. replace (Z.to_nat (Z.of_nat l - Z.abs m1)) with (l - Z.to_nat (Z.abs m1)) by lia. reflexivity.
    - intros k s Hk. apply filter_In in Hk. destruct Hk as [_ Hk]. unfold d_args in Hk. cbn [forallb] in Hk. rewrite andb_true_r, !andb_true_iff, !Z.leb_le in Hk. destruct Hk as [K1 [K2 [K3 K4]]].
      rewrite (at_z_index_ok k0) by (rewrite Hc; lia). cbn [obind]. rewrite (at_z_index_ok k0) by (rewrite Hs; lia). cbn [obind]. rewrite !fact_ok by lia. cbn [obind omap]. rewrite rem2. reflexivity.
  Qed.
  Definition big (l m2 : nat) (m1 : Z) : cplx := cmul K kadd kmul ksub (cscal K kmul (wd (Z.of_nat l) (Z.of_nat m2) m1) (nth m2 (e_a K w) (c0 K k0))) (nth (Z.to_nat (10 + m1)) (e_g K w) (c0 K k0)).
  Lemma big_d_ok l m2 m1 : degree l -> m2 <= l -> (Z.abs m1 <= Z.of_nat l)%Z -> big_d l m2 m1 = Val (big l m2 m1).
  Proof.
    intros Hl H2 H1. assert (L10 : l <= 10) by apply Hl. unfold big_d, Wigner_Model.big_d. rewrite (at_index_ok (e_a K w) (c0 K k0)) by lia. cbn [obind]. rewrite small_d_ok by (auto; lia). cbn [obind]. rewrite (at_z_index_ok (c0 K k0)) by (rewrite Hg; lia). reflexivity.
  Qed.
End Wigner.

Lemma degree_of_in l : In l even_degrees -> degree l.
Proof. unfold even_degrees. cbn. intros [<-|[<-|[<-|[<-|[<-|[<-|[]]]]]]]; split; try lia; [exists 0|exists 1|exists 2|exists 3|exists 4|exists 5]; auto. Qed.
Section Apply.
  Variables (K : Type) (k0 : K) (kadd kmul ksub : K -> K -> K) (kopp : K -> K).
  Notation cplx := (cplx K).
  Notation c0 := (c0 K k0).
  Variables (f : nat -> nat -> Z -> outcome cplx) (F : nat -> nat -> Z -> cplx) (q : list cplx).
  Hypothesis HF : forall l m2 m1, degree l -> m2 <= l -> (Z.abs m1 <= Z.of_nat l)%Z -> f l m2 m1 = Val (F l m2 m1).
  Hypothesis Hq : length q = 36.
  Definition row (l m2 : nat) : list cplx := map (fun m1 => cmul K kadd kmul ksub (F l m2 m1) (at_z K k0 kopp q l m1)) (zrange l).
  Definition lm_index (p : nat * nat) : nat := snd p + fst p * fst p / 4.
  Definition lms : list (nat * nat) := flat_map (fun l => map (fun m2 => (l, m2)) (seq 0 (S l))) even_degrees.
  Lemma lms_ok : NoDup (map lm_index lms) /\ forall p, In p lms -> lm_index p < 36.
  Proof.
    split.
    - assert (E : nodup Nat.eq_dec (map lm_index lms) = map lm_index lms) by (vm_compute; reflexivity). rewrite <- E. apply NoDup_nodup.
    - assert (G : forallb (fun p => lm_index p <? 36) lms = true) by (vm_compute; reflexivity). rewrite forallb_forall in G. intros p Hp. apply Nat.ltb_lt. auto.
  Qed.
  Lemma row_fold i : forall xs res, i < length res -> fold_left (fun r x => set_nth i (cadd K kadd (nth i r c0) x) r) xs res = set_nth i (fold_left (cadd K kadd) xs (nth i res c0)) res.
  Proof.
    induction xs as [|x xs IH]; intros res H; cbn [fold_left].
    - rewrite set_same; auto.
    - rewrite IH by (rewrite set_nth_len; auto). rewrite nth_set, Nat.eqb_refl by auto. apply set_twice.
  Qed.
  Lemma apply_ok : exists res, apply_d K k0 kadd kmul ksub kopp f q = Val res /\ length res = 36 /\
    forall l m2, degree l -> m2 <= l -> at_m K k0 res l m2 = csum K k0 kadd (row l m2).
  Proof.
    set (g := fun (p : nat * nat) y => fold_left (cadd K kadd) (row (fst p) (snd p)) y).
    destruct lms_ok as [ND LT].
    destruct (fold_upd lm_index g c0 lms (repeat c0 36) ND) as [E1 [E2 _]]; [intros p Hp; rewrite repeat_length; auto|]. rewrite repeat_length in E1.
    assert (A : apply_d K k0 kadd kmul ksub kopp f q = Val (fold_left (fun a p => set_nth (lm_index p) (g p (nth (lm_index p) a c0)) a) lms (repeat c0 36))).
    { unfold apply_d, lms. rewrite fold_left_flat_map. apply (ofold_inv (fun r => length r = 36)); [apply repeat_length|]. intros l res Hl Hr. apply degree_of_in in Hl. rewrite fold_left_map_x.
      apply (ofold_inv (fun r => length r = 36) _ (fun m2 a => set_nth (lm_index (l, m2)) (g (l, m2) (nth (lm_index (l, m2)) a c0)) a)); auto. intros m2 r Hm Hr2. apply in_seq in Hm. split; [|rewrite set_nth_len; auto].
      assert (I : m2 + l * l / 4 < 36) by (apply degree_index; auto; lia). unfold lm_index, g, row. cbn [fst snd]. rewrite <- (row_fold (m2 + l * l / 4)) by (rewrite Hr2; auto). rewrite fold_left_map_x.
      destruct (ofold_inv (fun r => length r = 36) (fun m1 res => obind (f l m2 m1) (fun d => obind (coef K kopp q l m1) (fun x => add_at K kadd (m2 + l * l / 4) (cmul K kadd kmul ksub d x) res)))
        (fun m1 v => set_nth (m2 + l * l / 4) (cadd K kadd (nth (m2 + l * l / 4) v c0) (cmul K kadd kmul ksub (F l m2 m1) (at_z K k0 kopp q l m1))) v) (zrange l) r Hr2) as [X _]; [|exact X].
      intros m1 v H1 Hv. apply zrange_in in H1. rewrite set_nth_len. split; auto. rewrite HF by (auto; lia). cbn [obind]. rewrite (coef_ok K k0) by auto. cbn [obind]. unfold add_at. rewrite (at_index_ok v c0) by lia. reflexivity. }
    rewrite A. eexists. split; [reflexivity|]. split; [exact E1|]. intros l m2 Hl Hm.
    assert (I : In (l, m2) lms) by (unfold lms; apply in_flat_map; exists l; split; [apply (degree_in l Hl)|]; apply in_map_iff; exists m2; split; auto; apply in_seq; lia).
    specialize (E2 _ I). unfold at_m. unfold lm_index in E2 at 1. cbn [fst snd] in E2. rewrite E2. unfold g, csum. cbn [fst snd]. f_equal. apply nth_repeat.
  Qed.
End Apply.

(** Proofs about bond orientational order, continued: the cubic invariants, exports, Cauchy-Schwarz. *)
Require Import ZArith QArith List Bool Arith Lia Permutation Ring.
Require Import Verif.Base Verif.ListX Verif.RTree_Model Verif.Traj_Model Verif.Particles_Model Verif.Corr_Model Verif.Corr_Proofs Verif.Boo_Model Verif.Boo_Spec Verif.Boo_Proofs.
Import ListNotations.
Local Open Scope nat_scope.

Section Cubic.
  Variables (K : Type) (k0 k1 : K) (kadd kmul ksub : K -> K -> K) (kopp : K -> K).
  Variable Kr : ring_theory k0 k1 kadd kmul ksub kopp eq.
  Add Ring KRing2 : Kr.
  Notation cplx := (cplx K).
  Notation cmul := (cmul K kadd kmul ksub).
  Notation cadd := (cadd K kadd).
  Notation cconj := (cconj K kopp).
  Notation copp := (copp K kopp).
  Notation cscal := (cscal K kmul).
  Notation c0 := (c0 K k0).
  Variables (table : list K) (q : list cplx) (l : nat).
  Hypothesis Hl : degree l.
  Hypothesis Hq : length q = 36.
  Hypothesis Hre : snd (at_m K k0 q l 0) = k0.
  Notation at_z := (at_z K k0 kopp q l).
  Notation tz := (tz K k0 kadd kmul ksub kopp table q l).
  Notation csum := (csum K k0 kadd).
  Notation krep := (krep K k0 kadd).

  Definition csign (m : Z) (x : cplx) : cplx := if Z.even m then x else copp x.
  Lemma mod2_even m : (m mod 2 =? 0)%Z = Z.even m.
  Proof. rewrite Zmod_even. destruct (Z.even m); auto. Qed.
  Lemma ceq (x y : cplx) : fst x = fst y -> snd x = snd y -> x = y.
  Proof. destruct x, y. cbn. congruence. Qed.
  Ltac cring := apply ceq; cbv [Boo_Model.cadd Boo_Model.cmul Boo_Model.cconj Boo_Model.copp Boo_Model.cscal Boo_Model.c0 fst snd]; ring.
  Lemma at_z_neg m : at_z (- m) = csign m (cconj (at_z m)).
  Proof.
    clear Hl Hq. unfold Boo_Spec.at_z, csign. rewrite Z.opp_involutive, !mod2_even, Z.even_opp. destruct (Z.leb_spec 0 (- m)), (Z.leb_spec 0 m); try lia.
    - assert (m = 0%Z) by lia. subst m. cbn [Z.opp Z.to_nat Z.even]. apply ceq; cbn [fst snd Boo_Model.cconj]; auto. rewrite Hre. ring.
    - destruct (Z.even m); destruct (at_m K k0 q l (Z.to_nat (- m))); cring.
    - destruct (Z.even m); destruct (at_m K k0 q l (Z.to_nat m)); cring.
  Qed.
  Lemma index_perm a b a' b' : Permutation [Z.abs a; Z.abs b; Z.abs (a + b)] [Z.abs a'; Z.abs b'; Z.abs (a' + b')] -> index_of l a b = index_of l a' b'.
  Proof. intros H. unfold index_of. rewrite (w3j_index_perm l _ _ _ _ H). auto. Qed.
  Lemma tz_swap a b : tz b a = tz a b.
  Proof.
    unfold Boo_Proofs.tz, wz. rewrite (index_perm b a a b) by (rewrite (Z.add_comm b a); constructor). replace (- b - a)%Z with (- a - b)%Z by lia. destruct (at_z a), (at_z b), (at_z (- a - b)). cring.
  Qed.
  Lemma tz_rot a b : tz a (- a - b) = tz a b.
  Proof.
    unfold Boo_Proofs.tz, wz. rewrite (index_perm a (- a - b) a b) by (replace (a + (- a - b))%Z with (- b)%Z by lia; replace (- a - b)%Z with (- (a + b))%Z by lia; rewrite !Z.abs_opp; do 2 constructor). replace (- a - (- a - b))%Z with b by lia. destruct (at_z a), (at_z b), (at_z (- a - b)). cring.
  Qed.
  Lemma tz_neg a b : tz (- a) (- b) = cconj (tz a b).
  Proof.
    unfold Boo_Proofs.tz, wz. rewrite (index_perm (- a) (- b) a b) by (replace (- a + - b)%Z with (- (a + b))%Z by lia; rewrite !Z.abs_opp; auto). replace (- - a - - b)%Z with (- (- a - b))%Z by lia. rewrite !at_z_neg. unfold csign.
    assert (E : Z.even (- a - b) = Bool.eqb (Z.even a) (Z.even b)) by (rewrite Z.even_sub, Z.even_opp; auto). rewrite E.
    destruct (at_z a), (at_z b), (at_z (- a - b)). destruct (Z.even a), (Z.even b); cbn [Bool.eqb]; cring.
  Qed.
  Lemma tz_00 : snd (tz 0 0) = k0.
  Proof. unfold Boo_Proofs.tz. cbn [Z.opp Z.sub Z.add]. unfold Boo_Spec.at_z. cbn [Z.leb Z.compare Z.to_nat]. destruct (at_m K k0 q l 0) as [x y]. cbn in Hre. subst y. cbv [Boo_Model.cmul Boo_Model.cscal fst snd]. ring. Qed.

  Lemma orbit_sum a b : (0 <= a <= b)%Z -> csum (map (fun p => tz (fst p) (snd p)) (orbit (a, b))) = (krep (weight (a, b)) (fst (tz a b)), k0).
  Proof.
    intros Hab. assert (S1 := tz_swap a b). assert (S2 := tz_rot a b). assert (S3 := tz_swap a (- a - b)). assert (S4 := tz_rot b a). replace (- b - a)%Z with (- a - b)%Z in S4 by lia. assert (S5 := tz_swap b (- a - b)).
    assert (N1 := tz_neg a b). assert (N2 := tz_neg b a). assert (N3 := tz_neg a (- a - b)). assert (N4 := tz_neg (- a - b) a). assert (N5 := tz_neg b (- a - b)). assert (N6 := tz_neg (- a - b) b).
    rewrite S3, S2 in N4. rewrite S2 in S3, N3. rewrite S5, S4, S1 in N6. rewrite S4, S1 in S5, N5. rewrite S1 in S4, N2.
    unfold orbit, weight, Boo_Spec.krep. cbn [fst snd]. destruct (Z.eqb_spec b 0).
    - subst b. assert (a = 0)%Z by lia. subst a. cbn [map fst snd]. unfold Boo_Spec.csum, ksum. cbn [fold_left repeat]. assert (E := tz_00). destruct (tz 0 0) as [x y]. cbn in E. subst y. cring.
    - destruct (Z.eqb_spec a 0); cbn [orb].
      + subst a. replace (- 0 - b)%Z with (- b)%Z in * by lia. cbn [Z.opp] in *. rewrite N1 in S2. cbn [map fst snd]. rewrite S1, S3, N1, S4, S5. unfold Boo_Spec.csum, ksum. cbn [fold_left repeat]. destruct (tz 0 b) as [x y]. assert (E : kopp y = y) by (injection S2; auto).
        apply ceq; cbv [Boo_Model.cadd Boo_Model.cconj Boo_Model.c0 fst snd]; [ring|].
        assert (Y : kadd y y = k0) by (rewrite <- E at 1; ring). match goal with |- ?g = k0 => replace g with (kadd (kadd y y) (kadd y y)) by ring end. rewrite Y. ring.
      + destruct (Z.eqb_spec a b).
        * subst b. cbn [map fst snd]. rewrite N1, N3, N4, S3, S2. unfold Boo_Spec.csum, ksum. cbn [fold_left repeat]. destruct (tz a a) as [x y]. cring.
        * cbn [map fst snd]. rewrite N1, N2, N3, N4, N5, N6, S1, S2, S3, S4, S5. unfold Boo_Spec.csum, ksum. cbn [fold_left repeat]. destruct (tz a b) as [x y]. cring.
  Qed.
  Lemma triples_sorted p : In p (triples l) -> (0 <= fst p <= snd p)%Z.
  Proof. unfold triples. rewrite in_flat_map. intros [a [Ha H]]. apply in_map_iff in H. destruct H as [b [<- Hb]]. apply in_seq in Hb. cbn [fst snd]. lia. Qed.
  Lemma full_sum : csum (map (fun p => tz (fst p) (snd p)) (legal_pairs l)) = (ksum K k0 kadd (map (fun p => krep (weight p) (fst (tz (fst p) (snd p)))) (triples l)), k0).
  Proof.
    rewrite (csum_perm K k0 k1 kadd kmul ksub kopp Kr _ _ (Permutation_map _ (orbits_cover l Hl))). assert (S := triples_sorted). revert S. generalize (triples l) as ps. induction ps as [|[a b] ps IH]; intros S; cbn [flat_map map]; auto.
    rewrite map_app, (csum_app K k0 k1 kadd kmul ksub kopp Kr), (ksum_cons K k0 k1 kadd kmul ksub kopp Kr), IH by (intros; apply S; right; auto). rewrite orbit_sum by (apply (S (a, b)); left; auto). cring.
  Qed.
End Cubic.

(** * Products as sums over all orders *)
Section Orders.
  Variables (K : Type) (k0 k1 : K) (kadd kmul ksub : K -> K -> K) (kopp : K -> K).
  Variable Kr : ring_theory k0 k1 kadd kmul ksub kopp eq.
  Add Ring KRing4 : Kr.
  Notation ksum := (ksum K k0 kadd).
  Lemma sub_add_0 x : ksub (kmul x x) (kmul k0 k0) = kadd (kmul x x) (kmul k0 k0) /\ kadd (kmul x x) (kmul k0 k0) = kmul x x.
  Proof. split; ring. Qed.
  Lemma sub_0 x y : ksub (kmul x y) (kmul k0 k0) = kmul x y.
  Proof. ring. Qed.
  Lemma ksum_app l1 l2 : ksum (l1 ++ l2) = kadd (ksum l1) (ksum l2).
  Proof. unfold Boo_Spec.ksum. rewrite fold_left_app. apply (fold_kadd K k0 k1 kadd kmul ksub kopp Kr). Qed.
  Lemma ksum_cons' x l : ksum (x :: l) = kadd x (ksum l).
  Proof. apply (ksum_cons K k0 k1 kadd kmul ksub kopp Kr). Qed.
  Lemma zrange_S l : zrange (S l) = (- Z.of_nat (S l))%Z :: zrange l ++ [Z.of_nat (S l)].
  Proof.
    unfold zrange. replace (2 * S l + 1) with (S (S (2 * l + 1))) by lia. rewrite (seq_S (S (2 * l + 1)) 0). cbn [seq app map]. rewrite map_app. cbn [map]. replace (map (fun k => (Z.of_nat k - Z.of_nat (S l))%Z) (seq 1 (2 * l + 1))) with (map (fun k => (Z.of_nat k - Z.of_nat l)%Z) (seq 0 (2 * l + 1))) by (rewrite <- seq_shift, map_map; apply map_ext; intros; lia). replace (Z.of_nat (0 + S (2 * l + 1)) - Z.of_nat (S l))%Z with (Z.of_nat (S l)) by lia. reflexivity.
  Qed.
  Lemma ksum_zrange (f : Z -> K) l : ksum (map f (zrange l)) = kadd (ksum (map (fun m => kadd (f (Z.of_nat m)) (f (- Z.of_nat m)%Z)) (seq 1 l))) (f 0%Z).
  Proof.
    induction l as [|l IH].
    - cbn. unfold Boo_Spec.ksum. cbn. ring.
    - rewrite zrange_S, (seq_S l 1). cbn [map]. rewrite !map_app. cbn [map]. rewrite ksum_cons', !ksum_app, IH, !ksum_cons'. cbn [plus]. change (ksum []) with k0. cbn [seq map]. ring.
  Qed.
  Lemma ksum_two f g (ms : list nat) : (forall m, In m ms -> g m = kadd (f m) (f m)) -> ksum (map g ms) = kmul (ksum (map f ms)) (ktwo K k1 kadd).
  Proof.
    induction ms as [|m ms IH]; intros H; cbn [map].
    - unfold Boo_Spec.ksum, ktwo. cbn. ring.
    - rewrite !ksum_cons', IH by (intros; apply H; right; auto). rewrite H by (left; auto). unfold ktwo. ring.
  Qed.
  Lemma inner_full a b l : snd (at_m K k0 a l 0) = k0 -> snd (at_m K k0 b l 0) = k0 ->
    kadd (kmul (ksum (map (fun m => re_prod K kadd kmul (at_m K k0 a l m) (at_m K k0 b l m)) (seq 1 l))) (ktwo K k1 kadd)) (ksub (kmul (fst (at_m K k0 a l 0)) (fst (at_m K k0 b l 0))) (kmul (snd (at_m K k0 a l 0)) (snd (at_m K k0 b l 0))))
    = ksum (map (fun m => re_prod K kadd kmul (at_z K k0 kopp a l m) (at_z K k0 kopp b l m)) (zrange l)).
  Proof.
    intros Ha Hb. rewrite ksum_zrange. f_equal.
    2:{ change (at_z K k0 kopp a l 0) with (at_m K k0 a l 0). change (at_z K k0 kopp b l 0) with (at_m K k0 b l 0). unfold re_prod. rewrite Ha, Hb. ring. }
    symmetry. apply ksum_two.
    intros m Hm. rewrite !(at_z_neg K k0 k1 kadd kmul ksub kopp Kr) by auto. unfold at_z. destruct (Z.leb_spec 0 (Z.of_nat m)); [|lia]. rewrite Nat2Z.id. unfold csign. destruct (at_m K k0 a l m), (at_m K k0 b l m). destruct (Z.even _); cbv [re_prod Boo_Model.cconj Boo_Model.copp fst snd]; ring.
  Qed.
End Orders.

(** * Exports *)
Section Export.
  Variables (K : Type) (k0 : K).
  Notation cplx := (cplx K).
  Definition flat (q : list cplx) : list K := flat_map (fun x => [fst x; snd x]) q.
  Lemma flat_len q : length (flat q) = 2 * length q.
  Proof. induction q; cbn [flat flat_map app length]; [auto|]. unfold flat in IHq. rewrite IHq. lia. Qed.
  Lemma flat_nth : forall q r i x, nth_error q i = Some x -> at_index (flat q ++ r) (2 * i) = Val (fst x) /\ at_index (flat q ++ r) (2 * i + 1) = Val (snd x).
  Proof.
    unfold at_index. induction q as [|y q IH]; intros r i x H; [destruct i; discriminate|]. destruct i as [|i]; cbn [nth_error] in H.
    - injection H as ->. auto.
    - replace (2 * S i) with (S (S (2 * i))) by lia. cbn [flat flat_map app nth_error plus]. apply (IH r i x H).
  Qed.
  Lemma osequence_ok {A B} (f : A -> outcome B) (g : A -> B) l : (forall a, In a l -> f a = Val (g a)) -> osequence (map f l) = Val (map g l).
  Proof. induction l as [|a l IH]; intros H; cbn [map osequence]; auto. rewrite H by (left; auto). cbn [obind]. rewrite IH by (intros; apply H; right; auto). auto. Qed.
  Lemma of_binary_flat q r : length q = 36 -> of_binary K (flat q ++ r) = Val q.
  Proof.
    intros H. unfold of_binary. rewrite (osequence_ok _ (fun i => nth i q (k0, k0))).
    - f_equal. rewrite <- H. apply nth_ext with (d := (k0, k0)) (d' := (k0, k0)); rewrite map_length, seq_length; auto. intros n Hn. rewrite (nth_indep _ _ (nth 0 q (k0, k0))) by (rewrite map_length, seq_length; auto). rewrite (map_nth (fun i => nth i q (k0, k0)) (seq 0 (length q)) 0), seq_nth; auto.
    - intros i Hi. apply in_seq in Hi. assert (E := nth_error_nth' q (k0, k0) (n := i) ltac:(lia)). destruct (flat_nth q r i _ E) as [E1 E2]. rewrite E1. cbn [obind]. rewrite E2. cbn [omap]. destruct (nth i q (k0, k0)); auto.
  Qed.
  Variables (Ch : Type) (tab : Ch) (print : K -> list Ch) (parse : list Ch -> outcome (K * list Ch)).
  (** A number is read back, after at most one tab, when a tab follows it. *)
  Hypothesis reads : forall x s, parse (print x ++ tab :: s) = Val (x, tab :: s) /\ parse (tab :: print x ++ tab :: s) = Val (x, tab :: s).
  Lemma read_print_aux : forall q s, read_boo K Ch parse (length q) (tab :: print_boo K Ch tab print q ++ s) = Val (q, match q with [] => tab :: s | _ => tab :: s end).
  Proof.
    induction q as [|[x y] q IH]; intros s; cbn [length read_boo]; auto. unfold print_boo. cbn [flat_map fst snd]. rewrite <- !app_assoc. cbn [app]. rewrite <- !app_assoc. cbn [app].
    rewrite (proj2 (reads x _)). cbn [obind snd]. rewrite (proj2 (reads y _)). cbn [obind snd]. fold (print_boo K Ch tab print q). rewrite IH. cbn [omap fst snd]. destruct q; auto.
  Qed.
  Lemma read_print q s : q <> [] -> read_boo K Ch parse (length q) (print_boo K Ch tab print q ++ s) = Val (q, tab :: s).
  Proof.
    destruct q as [|[x y] q]; [easy|]. intros _. cbn [length read_boo]. unfold print_boo. cbn [flat_map fst snd]. rewrite <- !app_assoc. cbn [app]. rewrite <- !app_assoc. cbn [app].
    rewrite (proj1 (reads x _)). cbn [obind snd]. rewrite (proj2 (reads y _)). cbn [obind snd]. fold (print_boo K Ch tab print q). rewrite read_print_aux. cbn [omap fst snd]. destruct q; auto.
  Qed.
  Lemma set_nth_length {A} i (x : A) l : length (set_nth i x l) = length l.
  Proof. apply set_nth_len. Qed.
  Variable parse_cplx : list Ch -> cplx * list Ch.
  Lemma fill_ub : forall n a q s, length q < a + n -> n <> 0 -> fill_from K Ch parse_cplx (seq a n) q s = UB.
  Proof.
    induction n as [|n IH]; intros a q s H Hn; [lia|]. cbn [seq fill_from]. destruct (Nat.ltb_spec a (length q)); [|auto]. destruct (parse_cplx s) as [x s']. apply IH; [rewrite set_nth_length; lia|lia].
  Qed.
End Export.

(** * Positivity, over a ring where sums of squares are called non negative *)
Section Positive.
  Variables (K : Type) (k0 k1 : K) (kadd kmul ksub : K -> K -> K) (kopp : K -> K).
  Variable Kr : ring_theory k0 k1 kadd kmul ksub kopp eq.
  Add Ring KRing3 : Kr.
  Variable nonneg : K -> Prop.
  Hypothesis nn_add : forall x y, nonneg x -> nonneg y -> nonneg (kadd x y).
  Hypothesis nn_sq : forall x, nonneg (kmul x x).
  Fixpoint kdot (u v : list K) : K := match u, v with x :: u', y :: v' => kadd (kmul x y) (kdot u' v') | _, _ => k0 end.
  Lemma nn_0 : nonneg k0.
  Proof. replace k0 with (kmul k0 k0) by ring. auto. Qed.
  Lemma kdot_pos u : nonneg (kdot u u).
  Proof. induction u; cbn [kdot]; auto using nn_0. Qed.
  Lemma kdot_lin x y u : forall v, length v = length u ->
    let w := map (fun p => ksub (kmul x (snd p)) (kmul y (fst p))) (combine u v) in
    kdot w w = kadd (ksub (kmul (kmul x x) (kdot v v)) (kmul (kadd k1 k1) (kmul (kmul x y) (kdot u v)))) (kmul (kmul y y) (kdot u u)).
  Proof.
    cbv zeta. induction u as [|a u IH]; intros v H; destruct v as [|b v]; try discriminate; cbn [combine map kdot fst snd]; [ring|]. rewrite IH by (cbn in H; lia). ring.
  Qed.
  Lemma cauchy u : forall v, length v = length u -> nonneg (ksub (kmul (kdot u u) (kdot v v)) (kmul (kdot u v) (kdot u v))).
  Proof.
    induction u as [|x u IH]; intros v H; destruct v as [|y v]; try discriminate; cbn [kdot].
    - replace (ksub (kmul k0 k0) (kmul k0 k0)) with k0 by ring. apply nn_0.
    - assert (L := kdot_lin x y u v ltac:(cbn in H; lia)). cbv zeta in L. assert (P := kdot_pos (map (fun p => ksub (kmul x (snd p)) (kmul y (fst p))) (combine u v))). rewrite L in P. specialize (IH v ltac:(cbn in H; lia)).
      match goal with |- nonneg ?g => replace g with (kadd (ksub (kmul (kdot u u) (kdot v v)) (kmul (kdot u v) (kdot u v))) (kadd (ksub (kmul (kmul x x) (kdot v v)) (kmul (kadd k1 k1) (kmul (kmul x y) (kdot u v)))) (kmul (kmul y y) (kdot u u)))) by ring end. auto.
  Qed.
  (** The real vector behind the coefficients of one degree. *)
  Definition vec (a : list (cplx K)) (l : nat) : list K :=
    fst (at_m K k0 a l 0) :: flat K (map (at_m K k0 a l) (seq 1 l)) ++ flat K (map (at_m K k0 a l) (seq 1 l)).
  Lemma vec_len a b l : length (vec a l) = length (vec b l).
  Proof. unfold vec. cbn [length]. rewrite !app_length, !flat_len, !map_length. auto. Qed.
  Lemma kdot_app u1 : forall v1 u2 v2, length v1 = length u1 -> kdot (u1 ++ u2) (v1 ++ v2) = kadd (kdot u1 v1) (kdot u2 v2).
  Proof. induction u1 as [|x u1 IH]; intros [|y v1] u2 v2 H; try discriminate; cbn [app kdot]; [ring|]. rewrite IH by (cbn in H; lia). ring. Qed.
  Lemma kdot_flat f g ms : kdot (flat K (map f ms)) (flat K (map g ms)) = ksum K k0 kadd (map (fun m : nat => re_prod K kadd kmul (f m) (g m)) ms).
  Proof.
    induction ms as [|m ms IH]; cbn [map flat flat_map app kdot]; auto. unfold flat in IH. rewrite IH, (ksum_cons K k0 k1 kadd kmul ksub kopp Kr). unfold re_prod. ring.
  Qed.
  Lemma vec_dot a b l : kdot (vec a l) (vec b l) =
    kadd (kmul (ksum K k0 kadd (map (fun m => re_prod K kadd kmul (at_m K k0 a l m) (at_m K k0 b l m)) (seq 1 l))) (ktwo K k1 kadd)) (kmul (fst (at_m K k0 a l 0)) (fst (at_m K k0 b l 0))).
  Proof. unfold vec. cbn [kdot]. rewrite kdot_app by (rewrite !flat_len, !map_length; auto). rewrite kdot_flat. unfold ktwo. ring. Qed.
End Positive.

(** Proofs about bond orientational order. *)
Require Import ZArith QArith List Bool Arith Lia Permutation Ring.
Require Import Verif.Base Verif.ListX Verif.RTree_Model Verif.Traj_Model Verif.Particles_Model Verif.Corr_Model Verif.Corr_Proofs Verif.Boo_Model Verif.Boo_Spec.
Import ListNotations.
Local Open Scope nat_scope.

Definition degrees : list nat := [0; 2; 4; 6; 8; 10].
Lemma degree_in l : degree l -> In l degrees.
Proof. intros [[k ->] H]. assert (k <= 5) by lia. destruct k as [|[|[|[|[|[|k]]]]]]; [..|lia]; cbn; tauto. Qed.
Lemma zrange_in l m : In m (zrange l) <-> (Z.abs m <= Z.of_nat l)%Z.
Proof.
  unfold zrange. rewrite in_map_iff. split.
  - intros [k [<- Hk]]. apply in_seq in Hk. lia.
  - intros H. exists (Z.to_nat (m + Z.of_nat l)). split; [lia|]. apply in_seq. lia.
Qed.
Definition legalb (l : nat) (p : Z * Z) : bool := (Z.abs (fst p + snd p) <=? Z.of_nat l)%Z.
Definition legal_pairs (l : nat) : list (Z * Z) := filter (legalb l) (list_prod (zrange l) (zrange l)).
Lemma legal_in l m1 m2 : In (m1, m2) (legal_pairs l) <-> legal l m1 m2.
Proof. unfold legal_pairs, legal. rewrite filter_In, in_prod_iff, !zrange_in. unfold legalb. cbn [fst snd]. rewrite Z.leb_le. tauto. Qed.
(** A decidable property of the legal arguments, by enumeration of all of them. *)
Lemma all_legal (f : nat -> Z -> Z -> bool) : forallb (fun l => forallb (fun p => f l (fst p) (snd p)) (legal_pairs l)) degrees = true ->
  forall l m1 m2, degree l -> legal l m1 m2 -> f l m1 m2 = true.
Proof.
  intros H l m1 m2 Hl Hm. rewrite forallb_forall in H. specialize (H l (degree_in l Hl)). rewrite forallb_forall in H. exact (H (m1, m2) (proj2 (legal_in l m1 m2) Hm)).
Qed.
Lemma all_degrees (f : nat -> bool) : forallb f degrees = true -> forall l, degree l -> f l = true.
Proof. intros H l Hl. rewrite forallb_forall in H. apply H, degree_in, Hl. Qed.

Definition index_of (l : nat) (m1 m2 : Z) : nat := match w3j_index l m1 m2 with Val i => i | _ => 91 end.
Lemma w3j_range l m1 m2 : degree l -> legal l m1 m2 -> w3j_index l m1 m2 = Val (index_of l m1 m2) /\ index_of l m1 m2 < 91.
Proof.
  intros Hl Hm. assert (X := all_legal (fun l m1 m2 => match w3j_index l m1 m2 with Val i => i <? 91 | _ => false end) ltac:(vm_compute; reflexivity) l m1 m2 Hl Hm). cbv beta in X. unfold index_of. destruct (w3j_index l m1 m2); try discriminate. apply Nat.ltb_lt in X. auto.
Qed.
(** The index depends on the three absolute values only, whatever their order. *)
Lemma w3j_index_perm l m1 m2 n1 n2 : Permutation [Z.abs m1; Z.abs m2; Z.abs (m1 + m2)] [Z.abs n1; Z.abs n2; Z.abs (n1 + n2)] -> w3j_index l m1 m2 = w3j_index l n1 n2.
Proof.
  intros H. unfold w3j_index. set (s1 := sort_by Z.ltb [Z.abs m1; Z.abs m2; Z.abs (m1 + m2)]). set (s2 := sort_by Z.ltb [Z.abs n1; Z.abs n2; Z.abs (n1 + n2)]). assert (E : s1 = s2); [|rewrite E; auto].
  assert (P1 := sort_by_perm Z.ltb [Z.abs m1; Z.abs m2; Z.abs (m1 + m2)]). assert (P2 := sort_by_perm Z.ltb [Z.abs n1; Z.abs n2; Z.abs (n1 + n2)]). fold s1 in P1. fold s2 in P2.
  assert (S1 := sort_Z_sorted (fun z => z) [Z.abs m1; Z.abs m2; Z.abs (m1 + m2)]). assert (S2 := sort_Z_sorted (fun z => z) [Z.abs n1; Z.abs n2; Z.abs (n1 + n2)]).
  change (Sorted.StronglySorted Z.le s1) in S1. change (Sorted.StronglySorted Z.le s2) in S2.
  assert (P : Permutation s1 s2) by (eapply Permutation_trans; [exact P1|]; eapply Permutation_trans; [exact H|apply Permutation_sym; auto]).
  clearbody s1 s2. clear - S1 S2 P. revert s2 S2 P. induction s1 as [|x s1 IH]; intros s2 S2 P.
  - apply Permutation_nil in P. auto.
  - destruct s2 as [|y s2]; [apply Permutation_sym, Permutation_nil in P; discriminate|]. inversion S1 as [|? ? S1' F1]; subst. inversion S2 as [|? ? S2' F2]; subst. idtac. rewrite Forall_forall in F1. rewrite Forall_forall in F2.
    assert (x = y).
    { assert (A : In x (y :: s2)) by (eapply Permutation_in; [exact P|left; auto]). assert (B : In y (x :: s1)) by (eapply Permutation_in; [apply Permutation_sym; exact P|left; auto]).
      destruct A as [A|A]; [auto|]. destruct B as [B|B]; [auto|]. specialize (F1 y B). specialize (F2 x A). lia. }
    subst y. f_equal. apply IH; auto. eapply Permutation_cons_inv; eauto.
Qed.

Section Ring.
  Variables (K : Type) (k0 k1 : K) (kadd kmul ksub : K -> K -> K) (kopp : K -> K).
  Variable Kr : ring_theory k0 k1 kadd kmul ksub kopp eq.
  Add Ring KRing : Kr.
  Notation cplx := (cplx K).
  Notation cmul := (cmul K kadd kmul ksub).
  Notation cadd := (cadd K kadd).
  Notation cconj := (cconj K kopp).
  Notation cscal := (cscal K kmul).
  Notation coef := (coef K kopp).
  Notation ktwo := (ktwo K k1 kadd).
  Notation c0 := (c0 K k0).
  Notation at_m := (at_m K k0).
  Notation at_z := (at_z K k0 kopp).
  Notation csum := (csum K k0 kadd).
  Notation ksum := (ksum K k0 kadd).
  Notation re_prod := (re_prod K kadd kmul).

  Lemma degree_index l m : degree l -> m <= l -> m + l * l / 4 < 36.
  Proof. intros [[k ->] H] Hm. replace (2 * k * (2 * k) / 4) with (k * k) by (replace (2 * k * (2 * k)) with ((k * k) * 4) by lia; rewrite Nat.div_mul by lia; auto). assert (k <= 5) by lia. nia. Qed.
  Lemma at_index_ok {A} (q : list A) (d : A) i : i < length q -> at_index q i = Val (nth i q d).
  Proof. intros H. unfold at_index. rewrite (nth_error_nth' q d H). auto. Qed.
  Lemma coef_ok q l m : degree l -> length q = 36 -> (Z.abs m <= Z.of_nat l)%Z -> coef q l m = Val (at_z q l m).
  Proof.
    intros Hl Hq Hm. unfold Boo_Model.coef, Boo_Spec.at_z, Boo_Spec.at_m. destruct (Z.leb_spec 0 m).
    - rewrite (at_index_ok q c0); auto. rewrite Hq. apply degree_index; auto; lia.
    - replace (l * l / 4 + Z.to_nat (- m)) with (Z.to_nat (- m) + l * l / 4) by lia. rewrite (at_index_ok q c0) by (rewrite Hq; apply degree_index; auto; lia). destruct (_ =? 0)%Z; auto.
  Qed.

  Lemma fold_cadd l : forall x, fold_left cadd l x = cadd x (csum l).
  Proof.
    induction l as [|y l IH]; intros x; unfold Boo_Spec.csum; cbn [fold_left].
    - destruct x. unfold Boo_Model.cadd, Boo_Model.c0. cbn [fst snd]. f_equal; ring.
    - rewrite IH, (IH (cadd c0 y)). destruct x, y, (csum l). unfold Boo_Model.cadd, Boo_Model.c0. cbn [fst snd]. f_equal; ring.
  Qed.
  Lemma csum_cons x l : csum (x :: l) = cadd x (csum l).
  Proof. unfold Boo_Spec.csum at 1. cbn [fold_left]. rewrite fold_cadd. destruct x, (csum l). unfold Boo_Model.cadd, Boo_Model.c0. cbn [fst snd]. f_equal; ring. Qed.
  Lemma csum_app l1 l2 : csum (l1 ++ l2) = cadd (csum l1) (csum l2).
  Proof. unfold Boo_Spec.csum at 1. rewrite fold_left_app. apply fold_cadd. Qed.
  Lemma csum_perm l1 l2 : Permutation l1 l2 -> csum l1 = csum l2.
  Proof.
    induction 1; auto.
    - rewrite !csum_cons. congruence.
    - rewrite !csum_cons. destruct x, y, (csum l). unfold Boo_Model.cadd. cbn [fst snd]. f_equal; ring.
    - congruence.
  Qed.
  Lemma fold_kadd l : forall x, fold_left kadd l x = kadd x (ksum l).
  Proof.
    induction l as [|y l IH]; intros x; unfold Boo_Spec.ksum; cbn [fold_left]; [ring|]. rewrite IH, (IH (kadd k0 y)). ring.
  Qed.
  Lemma ksum_cons x l : ksum (x :: l) = kadd x (ksum l).
  Proof. unfold Boo_Spec.ksum at 1. cbn [fold_left]. rewrite fold_kadd. ring. Qed.

  (** * Norm and product *)
  Lemma inner_ok a b l : degree l -> length a = 36 -> length b = 36 ->
    inner_product K k0 k1 kadd kmul ksub kopp a b l =
      Val (kadd (kmul (ksum (map (fun m => re_prod (at_m a l m) (at_m b l m)) (seq 1 l))) ktwo) (ksub (kmul (fst (at_m a l 0)) (fst (at_m b l 0))) (kmul (snd (at_m a l 0)) (snd (at_m b l 0))))).
  Proof.
    intros Hl Ha Hb. unfold inner_product. rewrite (ofold_ok _ (fun m s => kadd s (re_prod (at_m a l m) (at_m b l m)))).
    - cbn [obind]. unfold Boo_Spec.at_m at 3 4 5 6. cbn [plus]. assert (I := degree_index l 0 Hl ltac:(lia)). cbn [plus] in I. rewrite (at_index_ok a c0), (at_index_ok b c0) by lia. cbn [obind omap]. unfold Boo_Spec.ksum. rewrite fold_left_map_x. reflexivity.
    - intros m s Hm. apply in_seq in Hm. rewrite !coef_ok by (auto; lia). cbn [obind omap]. unfold Boo_Spec.at_z. destruct (Z.leb_spec 0 (Z.of_nat m)); [|lia]. rewrite Nat2Z.id. f_equal. f_equal. unfold Boo_Model.cmul, Boo_Model.cconj, Boo_Spec.re_prod. cbn [fst snd]. ring.
  Qed.
  Lemma norm_ok a l : degree l -> length a = 36 ->
    sum_norm K k0 k1 kadd kmul a l = Val (kadd (kmul (ksum (map (fun m => re_prod (at_m a l m) (at_m a l m)) (seq 1 l))) ktwo) (re_prod (at_m a l 0) (at_m a l 0))).
  Proof.
    intros Hl Ha. unfold sum_norm. rewrite (ofold_ok _ (fun m s => kadd s (re_prod (at_m a l m) (at_m a l m)))).
    - cbn [obind]. unfold Boo_Spec.at_m at 3 4. cbn [plus]. assert (I := degree_index l 0 Hl ltac:(lia)). cbn [plus] in I. rewrite (at_index_ok a c0) by lia. cbn [obind omap]. unfold Boo_Spec.ksum. rewrite fold_left_map_x. reflexivity.
    - intros m s Hm. apply in_seq in Hm. rewrite (at_index_ok a c0) by (rewrite Ha; apply degree_index; auto; lia). reflexivity.
  Qed.

  (** * The cubic invariants *)
  Variables (table : list K) (q : list cplx) (l : nat).
  Hypothesis Hl : degree l.
  Hypothesis Ht : length table = 91.
  Hypothesis Hq : length q = 36.
  Definition wz (m1 m2 : Z) : K := nth (index_of l m1 m2) table k0.
  Definition tz (m1 m2 : Z) : cplx := cmul (cmul (cscal (wz m1 m2) (at_z q l m1)) (at_z q l m2)) (at_z q l (- m1 - m2)).
  Lemma term3_ok m1 m2 m3 : legal l m1 m2 -> m3 = (- m1 - m2)%Z -> term3 K kadd kmul ksub kopp table q l m1 m2 m3 = Val (tz m1 m2).
  Proof.
    intros Hm ->. unfold term3, get_w3j. destruct (w3j_range l m1 m2 Hl Hm) as [E I]. rewrite E. cbn [obind]. rewrite (at_index_ok table k0) by lia. cbn [obind]. destruct Hm as [H1 [H2 H3]]. rewrite !coef_ok by (auto; lia). reflexivity.
  Qed.
  (** The pairs of the loops of getWl. *)
  Definition triples : list (Z * Z) := flat_map (fun m1 => map (fun m2 => (Z.of_nat m1, Z.of_nat m2)) (seq m1 (l - m1 - m1 + 1))) (seq 0 (l / 2 + 1)).
  Lemma triples_legal m1 m2 : In (m1, m2) triples -> legal l m1 m2.
  Proof.
    unfold triples. rewrite in_flat_map. intros [a [Ha H]]. apply in_map_iff in H. destruct H as [b [E Hb]]. injection E as <- <-. apply in_seq in Ha, Hb. unfold legal. assert (l / 2 * 2 <= l) by (assert (X := Nat.mul_div_le l 2); lia). lia.
  Qed.
  Lemma wl_sum : ofold (fun m1 w => ofold (fun m2 w => omap (cadd w) (term3 K kadd kmul ksub kopp table q l (Z.of_nat m1) (Z.of_nat m2) (- Z.of_nat m1 - Z.of_nat m2))) (seq m1 (l - m1 - m1 + 1)) w) (seq 0 (l / 2 + 1)) c0
    = Val (csum (map (fun p => tz (fst p) (snd p)) triples)).
  Proof.
    rewrite (ofold_ok _ (fun m1 w => fold_left (fun w m2 => cadd w (tz (Z.of_nat m1) (Z.of_nat m2))) (seq m1 (l - m1 - m1 + 1)) w)).
    - f_equal. unfold Boo_Spec.csum, triples. rewrite fold_left_map_x, fold_left_flat_map. apply fold_left_ext_in. intros v a _. rewrite fold_left_map_x. reflexivity.
    - intros m1 w H1. apply (ofold_ok _ (fun m2 w => cadd w (tz (Z.of_nat m1) (Z.of_nat m2)))). intros m2 v H2. rewrite term3_ok; auto. apply triples_legal. unfold triples. apply in_flat_map. exists m1. split; auto. apply in_map_iff. eauto.
  Qed.
  Lemma inv_sum : ofold (fun m1 w => ofold (fun m2 w => let m3 := (- (m1 + m2))%Z in if ((- Z.of_nat l <=? m3) && (m3 <=? Z.of_nat l))%Z then omap (cadd w) (term3 K kadd kmul ksub kopp table q l m1 m2 m3) else Val w) (zrange l) w) (zrange l) c0
    = Val (csum (map (fun p => tz (fst p) (snd p)) (legal_pairs l))).
  Proof.
    set (g := fun m1 m2 w => if legalb l (m1, m2) then cadd w (tz m1 m2) else w). rewrite (ofold_ok _ (fun m1 w => fold_left (fun w m2 => g m1 m2 w) (zrange l) w)).
    - f_equal. unfold Boo_Spec.csum. rewrite fold_left_map_x. unfold legal_pairs. assert (G : forall l1 l2 w, fold_left (fun v m1 => fold_left (fun w m2 => g m1 m2 w) l2 v) l1 w = fold_left (fun v p => cadd v (tz (fst p) (snd p))) (filter (legalb l) (list_prod l1 l2)) w).
      { clear. induction l1 as [|m1 l1 IH]; intros l2 w; cbn [list_prod fold_left filter]; auto. rewrite filter_app, fold_left_app, <- IH. f_equal. revert w. induction l2 as [|m2 l2 IH2]; intros w; cbn [map filter fold_left]; auto. rewrite IH2. unfold g. destruct (legalb l (m1, m2)); auto. }
      apply G.
    - intros m1 w H1. apply (ofold_ok _ (fun m2 w => g m1 m2 w)). intros m2 v H2. cbv zeta. unfold g, legalb. cbn [fst snd]. apply zrange_in in H1, H2.
      destruct (Z.leb_spec (Z.abs (m1 + m2)) (Z.of_nat l)), (Z.leb_spec (- Z.of_nat l) (- (m1 + m2))), (Z.leb_spec (- (m1 + m2)) (Z.of_nat l)); cbn [andb]; try lia; auto. rewrite term3_ok; auto; [unfold legal; lia|lia].
  Qed.
  (** All the arguments that are rearrangements of (m1,m2,-m1-m2) up to a common sign, 0 <= m1 <= m2. *)
  Definition orbit (p : Z * Z) : list (Z * Z) :=
    let (a, b) := p in let c := (- a - b)%Z in
    if (b =? 0)%Z then [(a, b)]
    else if (a =? 0)%Z then [(a, b); (b, a); (a, c); (c, a); (b, c); (c, b)]
    else if (a =? b)%Z then [(a, b); (a, c); (c, a); (- a, - b); (- a, - c); (- c, - a)]%Z
    else [(a, b); (b, a); (a, c); (c, a); (b, c); (c, b); (- a, - b); (- b, - a); (- a, - c); (- c, - a); (- b, - c); (- c, - b)]%Z.
End Ring.

Definition pair_eqb (p r : Z * Z) : bool := ((fst p =? fst r) && (snd p =? snd r))%Z.
Fixpoint remove1 (x : Z * Z) (l : list (Z * Z)) : option (list (Z * Z)) :=
  match l with [] => None | y :: l' => if pair_eqb x y then Some l' else match remove1 x l' with Some m => Some (y :: m) | None => None end end.
Fixpoint permb (l1 l2 : list (Z * Z)) : bool :=
  match l1 with [] => match l2 with [] => true | _ => false end | x :: l1' => match remove1 x l2 with Some m => permb l1' m | None => false end end.
Lemma remove1_perm x : forall l m, remove1 x l = Some m -> Permutation l (x :: m).
Proof.
  induction l as [|y l IH]; intros m H; [discriminate|]. cbn [remove1] in H. destruct (pair_eqb x y) eqn:E.
  - injection H as <-. unfold pair_eqb in E. apply andb_true_iff in E. destruct E as [E1 E2]. apply Z.eqb_eq in E1, E2. destruct x, y. cbn in *. subst. auto.
  - destruct (remove1 x l) as [m'|]; [|discriminate]. injection H as <-. eapply Permutation_trans; [constructor; apply IH; reflexivity|]. constructor.
Qed.
Lemma permb_ok : forall l1 l2, permb l1 l2 = true -> Permutation l1 l2.
Proof.
  induction l1 as [|x l1 IH]; intros l2 H; cbn [permb] in H.
  - destruct l2; [auto|discriminate].
  - destruct (remove1 x l2) as [m|] eqn:E; [|discriminate]. apply Permutation_sym. eapply Permutation_trans; [apply remove1_perm; eauto|]. constructor. apply Permutation_sym. auto.
Qed.
(** The full sum runs over the orbits of the pairs of getWl. *)
Lemma orbits_cover l : degree l -> Permutation (legal_pairs l) (flat_map orbit (triples l)).
Proof. intros Hl. apply permb_ok. revert l Hl. apply all_degrees. vm_compute. reflexivity. Qed.

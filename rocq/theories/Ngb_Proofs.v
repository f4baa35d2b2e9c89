Require Import ZArith QArith List Bool Arith Lia Permutation Sorted.
Require Import Verif.Base Verif.SortU Verif.ListX Verif.RTree_Model Verif.Traj_Model Verif.Traj_Proofs Verif.Reconstructor_Proofs Verif.Particles_Spec Verif.Ngb_Model Verif.Ngb_Spec.
Import ListNotations.
Local Open Scope nat_scope.

Lemma bond_lt_lex a b : bond_lt a b = true <-> lex a b.
Proof. unfold bond_lt, lex. rewrite orb_true_iff, andb_true_iff, !Nat.ltb_lt, Nat.eqb_eq. tauto. Qed.
Lemma bond_lt_false a b : bond_lt a b = false <-> ~ lex a b.
Proof. rewrite <- bond_lt_lex. destruct (bond_lt a b); split; congruence. Qed.
Lemma lex_trans a b c : lex a b -> lex b c -> lex a c.
Proof. unfold lex. lia. Qed.
Lemma lex_irrefl a : ~ lex a a.
Proof. unfold lex. lia. Qed.
Lemma lex_total a b : ~ lex a b -> ~ lex b a -> a = b.
Proof. destruct a as [a1 a2], b as [b1 b2]. unfold lex; simpl. intros. assert (a1 = b1) by lia. assert (a2 = b2) by lia. congruence. Qed.
Lemma lex_ext : forall l1 l2, StronglySorted lex l1 -> StronglySorted lex l2 -> (forall x, In x l1 <-> In x l2) -> l1 = l2.
Proof.
  induction l1 as [|a l1 IH]; intros [|b l2] S1 S2 H; auto; [exfalso; apply (H b); simpl; auto|exfalso; apply (H a); simpl; auto|].
  apply StronglySorted_inv in S1. apply StronglySorted_inv in S2. destruct S1 as [S1 F1], S2 as [S2 F2]. rewrite Forall_forall in F1, F2.
  assert (Hab : a = b).
  { destruct (proj1 (H a) (or_introl eq_refl)) as [Hb|Hb]; auto. destruct (proj2 (H b) (or_introl eq_refl)) as [Ha|Ha]; auto.
    exfalso. apply (lex_irrefl a). eapply lex_trans; [apply F1; eauto|apply F2; auto]. }
  subst b. f_equal. apply IH; auto. intros x. split; intros Hx.
  - destruct (proj1 (H x) (or_intror Hx)) as [E|E]; auto. subst x. exfalso. apply (lex_irrefl a), F1; auto.
  - destruct (proj2 (H x) (or_intror Hx)) as [E|E]; auto. subst x. exfalso. apply (lex_irrefl a), F2; auto.
Qed.
Lemma lex_filter f : forall l, StronglySorted lex l -> StronglySorted lex (filter f l).
Proof.
  induction l as [|a l IH]; intros H; simpl; auto. apply StronglySorted_inv in H. destruct H as [H F]. destruct (f a); auto. constructor; auto.
  rewrite Forall_forall in *. intros x Hx. apply filter_In in Hx. apply F, Hx.
Qed.
Lemma bond_insert_spec b : forall s, StronglySorted lex s -> StronglySorted lex (bond_insert b s) /\ forall x, In x (bond_insert b s) <-> x = b \/ In x s.
Proof.
  induction s as [|a s IH]; intros H; simpl.
  - split; [repeat constructor|]. intros x. simpl. intuition auto.
  - apply StronglySorted_inv in H as H'. destruct H' as [Hs F]. destruct (IH Hs) as [I1 I2]. destruct (bond_lt b a) eqn:E1.
    + apply bond_lt_lex in E1. split; [|intros x; simpl; intuition auto]. constructor; auto. constructor; auto. eapply Forall_impl; [|exact F]. intros c Hc. eapply lex_trans; eauto.
    + destruct (bond_lt a b) eqn:E2.
      * apply bond_lt_lex in E2. split; [|intros x; simpl; rewrite I2; intuition auto]. constructor; auto. rewrite Forall_forall in *. intros x Hx. apply I2 in Hx. destruct Hx as [->|Hx]; auto.
      * apply bond_lt_false in E1, E2. assert (a = b) by (apply lex_total; auto). subst b. split; auto. intros x. simpl. intuition auto.
Qed.
Lemma mk_bond_lt p q : p < q -> mk_bond p q = (p, q).
Proof. intros H. unfold mk_bond. apply Nat.ltb_lt in H. rewrite H. auto. Qed.

Lemma after_spec p : forall l, StronglySorted le l -> forall x, In x (after p l) <-> In x l /\ p < x.
Proof.
  induction l as [|a l IH]; intros H x; [simpl; tauto|]. apply StronglySorted_inv in H. destruct H as [H F]. rewrite Forall_forall in F. cbn [after]. destruct (Nat.ltb_spec a (p + 1)).
  - rewrite IH by auto. simpl. split; [tauto|]. intros [[->|Hx] Hp]; [lia|tauto].
  - simpl. split; [|tauto]. intros [->|Hx]; [split; auto; lia|]. split; auto. specialize (F _ Hx). lia.
Qed.
Lemma lt_le_sorted : forall l, StronglySorted lt l -> StronglySorted le l.
Proof. induction 1; constructor; auto. eapply Forall_impl; [|eauto]. simpl. intros. lia. Qed.

Lemma set_inter_spec : forall a b, StronglySorted lt a -> StronglySorted lt b -> StronglySorted lt (set_inter a b) /\ forall x, In x (set_inter a b) <-> In x a /\ In x b.
Proof.
  induction a as [|x a IHa]; intros b Ha Hb.
  - destruct b; simpl; split; try constructor; tauto.
  - induction b as [|y b IHb]; [simpl; split; [constructor|tauto]|].
    assert (Ha' := Ha). assert (Hb' := Hb). apply StronglySorted_inv in Ha', Hb'. destruct Ha' as [Sa Fa], Hb' as [Sb Fb]. rewrite Forall_forall in Fa, Fb.
    change (set_inter (x :: a) (y :: b)) with (if x <? y then set_inter a (y :: b) else if y <? x then set_inter (x :: a) b else x :: set_inter a b).
    destruct (Nat.ltb_spec x y); [|destruct (Nat.ltb_spec y x)].
    + destruct (IHa (y :: b) Sa Hb) as [I1 I2]. split; auto. intros z. rewrite I2. simpl. split; [tauto|]. intros [[->|Hz] Hz2]; auto. exfalso. destruct Hz2 as [->|Hz2]; [lia|]. specialize (Fb _ Hz2). lia.
    + destruct (IHb Sb) as [I1 I2]. split; auto. intros z. rewrite I2. simpl. split; [tauto|]. intros [Hz1 [->|Hz]]; auto. exfalso. destruct Hz1 as [->|Hz1]; [lia|]. specialize (Fa _ Hz1). lia.
    + assert (x = y) by lia. subst y. destruct (IHa b Sa Sb) as [I1 I2]. split.
      * constructor; auto. rewrite Forall_forall. intros z Hz. apply I2 in Hz. apply Fa, Hz.
      * intros z. simpl. rewrite I2. split; [intuition auto|]. intros [[E1|Hz1] [E2|Hz2]]; auto.
Qed.
Lemma set_diff_spec : forall a b, StronglySorted lt a -> StronglySorted lt b -> StronglySorted lt (set_diff a b) /\ forall x, In x (set_diff a b) <-> In x a /\ ~ In x b.
Proof.
  induction a as [|x a IHa]; intros b Ha Hb.
  - destruct b; simpl; split; try constructor; tauto.
  - induction b as [|y b IHb]; [simpl; split; [auto|tauto]|].
    assert (Ha' := Ha). assert (Hb' := Hb). apply StronglySorted_inv in Ha', Hb'. destruct Ha' as [Sa Fa], Hb' as [Sb Fb]. rewrite Forall_forall in Fa, Fb.
    change (set_diff (x :: a) (y :: b)) with (if x <? y then x :: set_diff a (y :: b) else if y <? x then set_diff (x :: a) b else set_diff a b).
    destruct (Nat.ltb_spec x y); [|destruct (Nat.ltb_spec y x)].
    + destruct (IHa (y :: b) Sa Hb) as [I1 I2]. split.
      * constructor; auto. rewrite Forall_forall. intros z Hz. apply I2 in Hz. apply Fa, Hz.
      * intros z. cbn [In]. rewrite I2. cbn [In]. split; [|tauto]. intros [<-|Hz]; [|tauto]. split; auto. intros [->|Hz]; [lia|]. specialize (Fb _ Hz). lia.
    + destruct (IHb Sb) as [I1 I2]. split; auto. intros z. rewrite I2. simpl. split; [|tauto]. intros [Hz1 Hz2]. split; auto. intros [->|Hz3]; auto. destruct Hz1 as [->|Hz1]; [lia|]. specialize (Fa _ Hz1). lia.
    + assert (x = y) by lia. subst y. destruct (IHa b Sa Sb) as [I1 I2]. split; auto. intros z. rewrite I2. simpl. split.
      * intros [Hz1 Hz2]. split; auto. intros [->|Hz3]; auto. specialize (Fa _ Hz1). lia.
      * intros [[->|Hz1] Hz2]; [exfalso; apply Hz2; auto|]. split; auto.
Qed.

Lemma linked_iff ngb i l : nth_error ngb i = Some l -> forall j, linked ngb i j <-> In j l.
Proof. intros H j. unfold linked. split; [intros [l' [E Hj]]; congruence|eauto]. Qed.
Lemma linked_lt ngb i j : linked ngb i j -> i < length ngb.
Proof. intros [l [H _]]. eapply nth_error_lt; eauto. Qed.
Lemma exactly_list n l P : StronglySorted lt l -> (forall x, In x l <-> P x) -> (exactly n P <-> length l = n).
Proof.
  intros Hs H. split.
  - intros [l' [N [L E]]]. rewrite <- L. apply NoDup_length_ext; auto; [apply ssorted_NoDup; auto|]. intros x. rewrite H, E. tauto.
  - intros L. exists l. repeat split; auto; try (apply ssorted_NoDup; auto); apply H.
Qed.

Lemma exactly_ext n P Q : (forall x, P x <-> Q x) -> (exactly n P <-> exactly n Q).
Proof. intros H. split; intros [l [N [L E]]]; exists l; (split; [auto|split; [auto|]]); intros x; rewrite E; [|symmetry]; auto. Qed.

Lemma is_ring_spec ngb com : ngb_ok ngb -> StronglySorted lt com -> (forall c, In c com -> c < length ngb) ->
  exists b, is_ring ngb com = Some b /\ (b = true <-> ring ngb (fun x => In x com)).
Proof.
  intros Hok Hs Hin. unfold is_ring.
  assert (H : forall t, (forall c, In c t -> In c com) -> exists b, is_ring_loop ngb com t = Some b /\ (b = true <-> forall x, In x t -> exactly 2 (fun y => In y com /\ linked ngb x y))).
  { induction t as [|c t IH]; intros Ht; cbn [is_ring_loop].
    - exists true. split; auto. split; auto. intros _ x [].
    - destruct (nth_error_ex ngb c) as [l Hl]; [apply Hin, Ht; simpl; auto|]. rewrite Hl. destruct (Hok _ _ Hl) as [Sl _].
      destruct (set_inter_spec l com Sl Hs) as [I1 I2]. assert (E : exactly 2 (fun y => In y com /\ linked ngb c y) <-> length (set_inter l com) = 2).
      { apply exactly_list; auto. intros x. rewrite I2, (linked_iff _ _ _ Hl). tauto. }
      destruct (Nat.eqb_spec (length (set_inter l com)) 2) as [E2|E2].
      + destruct IH as [b [Eb Hb]]; [intros; apply Ht; simpl; auto|]. exists b. split; auto. rewrite Hb. split; [|intros H x Hx; apply H; simpl; auto]. intros H x [<-|Hx]; auto. apply E; auto.
      + exists false. split; auto. split; [discriminate|]. intros H. exfalso. apply E2, E, H. simpl; auto. }
  destruct (H com (fun _ h => h)) as [b [Eb Hb]]. exists b. split; auto.
Qed.

Section Rows.
  Variable ngb : list (list nat).
  Hypothesis Hok : ngb_ok ngb.

  (** The pair (p,q) has exactly n common neighbours, in a ring. *)
  Definition ringed (n p q : nat) : Prop := exactly n (common ngb p q) /\ ring ngb (common ngb p q).

  Lemma ring_ext S T : (forall x, S x <-> T x) -> (ring ngb S <-> ring ngb T).
  Proof.
    intros H. unfold ring. assert (X : forall x, exactly 2 (fun y => S y /\ linked ngb x y) <-> exactly 2 (fun y => T y /\ linked ngb x y)).
    { intros x. apply exactly_ext. intros y. rewrite H. tauto. }
    split; intros HR x Hx; apply X, HR, H; auto.
  Qed.
  Lemma ring_pairs_spec n p lp : nth_error ngb p = Some lp -> forall qs s, StronglySorted lex s -> (forall q, In q qs -> p < q < length ngb) ->
    exists s', ring_pairs ngb n p lp qs s = Some s' /\ StronglySorted lex s' /\ forall a b, In (a, b) s' <-> In (a, b) s \/ (a = p /\ In b qs /\ ringed n p b).
  Proof.
    intros Hp. destruct (Hok _ _ Hp) as [Sp Bp]. induction qs as [|q qs IH]; intros s Hs Hq; cbn [ring_pairs].
    - exists s. split; auto. split; auto. simpl. tauto.
    - destruct (nth_error_ex ngb q) as [lq Hlq]; [apply Hq; simpl; auto|]. rewrite Hlq. destruct (Hok _ _ Hlq) as [Sq Bq].
      destruct (set_inter_spec lp lq Sp Sq) as [I1 I2].
      assert (Hc : forall x, In x (set_inter lp lq) <-> common ngb p q x) by (intros x; rewrite I2; unfold common; rewrite (linked_iff _ _ _ Hp), (linked_iff _ _ _ Hlq); tauto).
      assert (He := exactly_list n _ _ I1 Hc). assert (Hq' : forall q', In q' qs -> p < q' < length ngb) by (intros; apply Hq; simpl; auto).
      assert (Hpq : mk_bond p q = (p, q)) by (apply mk_bond_lt, Hq; simpl; auto).
      assert (Hskip : ~ ringed n p q -> exists s', ring_pairs ngb n p lp qs s = Some s' /\ StronglySorted lex s' /\ forall a b, In (a, b) s' <-> In (a, b) s \/ (a = p /\ In b (q :: qs) /\ ringed n p b)).
      { intros Hn. destruct (IH s Hs Hq') as [s' [E [S' K]]]. exists s'. split; auto. split; auto. intros a b. rewrite K. simpl. split; [tauto|]. intros [H|[-> [[->|H] H']]]; auto. contradiction. }
      destruct (Nat.eqb_spec (length (set_inter lp lq)) n) as [E|E]; cbn [negb].
      + destruct (is_ring_spec ngb (set_inter lp lq) Hok I1) as [b [Eb Hb]]; [intros c Hi; apply I2 in Hi; apply Bp, Hi|]. rewrite Eb.
        rewrite (ring_ext _ _ Hc) in Hb. destruct b.
        * destruct (bond_insert_spec (mk_bond p q) s Hs) as [J1 J2]. destruct (IH _ J1 Hq') as [s' [E' [S' K]]]. exists s'. split; auto. split; auto. intros a b'. rewrite K, J2, Hpq.
          split; [intros [[H|H]|H]; auto; [inversion H; subst; right; simpl; repeat split; auto; [apply He; auto|apply Hb; auto]|simpl; tauto]|].
          intros [H|[-> [[->|H] H']]]; auto.
        * apply Hskip. intros [_ HR]. apply Hb in HR. discriminate.
      + apply Hskip. intros [HE _]. apply E, He, HE.
  Qed.

  Lemma concat_ngb_spec : forall l, (forall c, In c l -> c < length ngb) -> exists r, concat_ngb ngb l = Some r /\ forall x, In x r <-> exists c, In c l /\ linked ngb c x.
  Proof.
    induction l as [|c l IH]; intros H; cbn [concat_ngb].
    - exists []. split; auto. intros x. simpl. split; [tauto|]. intros [? [[] _]].
    - destruct (nth_error_ex ngb c) as [lc Hc]; [apply H; simpl; auto|]. destruct IH as [r [E K]]; [intros; apply H; simpl; auto|]. rewrite Hc, E. eexists. split; eauto. intros x. rewrite in_app_iff, K. simpl. split.
      + intros [Hx|[c' [H1 H2]]]; [exists c; split; auto; apply (linked_iff _ _ _ Hc); auto|exists c'; auto].
      + intros [c' [[<-|H1] H2]]; [left; apply (linked_iff _ _ _ Hc); auto|right; eauto].
  Qed.
  Lemma second_ngb_spec p lp : nth_error ngb p = Some lp -> exists r, second_ngb ngb lp = Some r /\ StronglySorted lt r /\ (forall x, In x r -> x < length ngb) /\
    forall x, In x r <-> exists c, linked ngb p c /\ linked ngb c x.
  Proof.
    intros Hp. destruct (Hok _ _ Hp) as [Sp Bp]. destruct (concat_ngb_spec lp Bp) as [r [E K]]. unfold second_ngb. rewrite E. exists (sort_unique r). split; auto.
    split; [apply sort_unique_sorted|]. assert (Hx : forall x, In x (sort_unique r) <-> exists c, linked ngb p c /\ linked ngb c x).
    { intros x. rewrite sort_unique_in, K. split; intros [c [H1 H2]]; exists c; split; auto; apply (linked_iff _ _ _ Hp); auto. }
    split; auto. intros x H. apply Hx in H. destruct H as [c [_ [lc [Hc Hin]]]]. eapply Hok; eauto.
  Qed.

  Lemma rows_fold (f : list (nat * list nat) -> list (nat * nat) -> option (list (nat * nat))) (g : nat -> list nat -> list (nat * nat) -> option (list (nat * nat))) (P : nat -> nat -> Prop) :
    (forall s, f [] s = Some s) -> (forall p lp rows s, f ((p, lp) :: rows) s = match g p lp s with None => None | Some s' => f rows s' end) ->
    (forall p lp s, nth_error ngb p = Some lp -> StronglySorted lex s -> exists s', g p lp s = Some s' /\ StronglySorted lex s' /\ forall a b, In (a, b) s' <-> In (a, b) s \/ (a = p /\ P p b)) ->
    (forall p b, P p b -> p < length ngb) ->
    exists s', f (combine (seq 0 (length ngb)) ngb) [] = Some s' /\ StronglySorted lex s' /\ forall a b, In (a, b) s' <-> P a b.
  Proof.
    intros F0 F1 G HP. assert (H : forall rows s, (forall p lp, In (p, lp) rows -> nth_error ngb p = Some lp) -> StronglySorted lex s ->
      exists s', f rows s = Some s' /\ StronglySorted lex s' /\ forall a b, In (a, b) s' <-> In (a, b) s \/ (In a (map fst rows) /\ P a b)).
    { induction rows as [|[p lp] rows IH]; intros s Hr Hs.
      - exists s. rewrite F0. split; auto. split; auto. simpl. tauto.
      - rewrite F1. destruct (G p lp s) as [s1 [E1 [S1 K1]]]; auto; [apply Hr; simpl; auto|]. rewrite E1. destruct (IH s1) as [s' [E [S' K]]]; auto; [intros; apply Hr; simpl; auto|].
        exists s'. split; auto. split; auto. intros a b. rewrite K, K1. simpl. split; [intros [[?|[? ?]]|[? ?]]; subst; auto|]. intros [?|[[<-|?] ?]]; auto. }
    destruct (H (combine (seq 0 (length ngb)) ngb) []) as [s' [E [S' K]]]; [intros p lp Hin; apply in_combine_seq in Hin; auto|constructor|].
    exists s'. split; auto. split; auto. intros a b. rewrite K, map_fst_combine by apply seq_length. simpl. split; [tauto|]. intros HPab. right. split; auto. apply in_seq. specialize (HP _ _ HPab). lia.
  Qed.

  Lemma fold_insert p : forall qs s, (forall q, In q qs -> p < q) -> StronglySorted lex s ->
    let r := fold_left (fun s q => bond_insert (mk_bond p q) s) qs s in StronglySorted lex r /\ forall a b, In (a, b) r <-> In (a, b) s \/ (a = p /\ In b qs).
  Proof.
    induction qs as [|q qs IH]; intros s Hq Hs; simpl.
    - split; auto. intros a b. simpl. tauto.
    - destruct (bond_insert_spec (mk_bond p q) s Hs) as [J1 J2]. destruct (IH _ (fun q' h => Hq q' (or_intror h)) J1) as [K1 K2]. split; auto.
      intros a b. rewrite K2, J2, mk_bond_lt by (apply Hq; simpl; auto). split; [intros [[H|H]|H]; auto; [inversion H; auto|tauto]|]. intros [H|[-> [->|H]]]; auto.
  Qed.
End Rows.

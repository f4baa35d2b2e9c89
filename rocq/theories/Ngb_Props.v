(** C34, C36, C37, C41, C42: bonds and neighbour lists. *)
Require Import ZArith QArith List Bool Arith Lia Permutation Sorted.
Require Import Verif.Base Verif.SortU Verif.ListX Verif.RTree_Model Verif.Traj_Model Verif.Traj_Proofs Verif.Reconstructor_Proofs Verif.Particles_Spec Verif.Ngb_Model Verif.Ngb_Spec Verif.Ngb_Proofs.
Import ListNotations.
Local Open Scope nat_scope.

(** C34. *)
Definition adj_list (i : nat) (bonds : list (nat * nat)) : list nat :=
  flat_map (fun b => (if fst b =? i then [snd b] else []) ++ (if snd b =? i then [fst b] else [])) bonds.
Lemma adj_list_in i j bonds : In j (adj_list i bonds) <-> In (i, j) bonds \/ In (j, i) bonds.
Proof.
  unfold adj_list. rewrite in_flat_map. split.
  - intros [[a b] [Hin H]]. simpl in H. apply in_app_iff in H. destruct (Nat.eqb_spec a i), (Nat.eqb_spec b i); simpl in H; destruct H as [H|H]; try tauto; destruct H as [<-|[]]; subst; auto.
  - intros [H|H]; [exists (i, j)|exists (j, i)]; split; auto; simpl; rewrite Nat.eqb_refl; apply in_app_iff; simpl; auto.
Qed.
Lemma ngb_push_spec i x ngb l : nth_error ngb i = Some l -> exists ngb', ngb_push i x ngb = Some ngb' /\ length ngb' = length ngb /\
  forall k, nth_error ngb' k = if k =? i then Some (l ++ [x]) else nth_error ngb k.
Proof. intros H. unfold ngb_push, upd. rewrite H. eexists. split; eauto. split; [apply set_nth_len|]. intros k. apply set_nth_get. eapply nth_error_lt; eauto. Qed.
Lemma add_bonds_spec : forall bonds ngb, Forall (fun b => fst b < length ngb /\ snd b < length ngb) bonds ->
  exists ngb', add_bonds bonds ngb = Some ngb' /\ length ngb' = length ngb /\ forall i l, nth_error ngb i = Some l -> nth_error ngb' i = Some (l ++ adj_list i bonds).
Proof.
  induction bonds as [|[a b] bonds IH]; intros ngb H; cbn [add_bonds].
  - exists ngb. split; auto. split; auto. intros i l Hi. simpl. rewrite app_nil_r. auto.
  - inversion H as [|? ? [Ha Hb] HF]; subst; simpl in *. destruct (nth_error_ex ngb a Ha) as [la Hla]. destruct (ngb_push_spec a b ngb la Hla) as [n1 [E1 [L1 K1]]]. rewrite E1.
    destruct (nth_error_ex n1 b) as [lb Hlb]; [lia|]. destruct (ngb_push_spec b a n1 lb Hlb) as [n2 [E2 [L2 K2]]]. rewrite E2.
    destruct (IH n2) as [n3 [E3 [L3 K3]]]; [eapply Forall_impl; [|exact HF]; simpl; intros; lia|]. exists n3. split; auto. split; [lia|]. intros i l Hi.
    assert (Hi2 : nth_error n2 i = Some (l ++ (if a =? i then [b] else []) ++ (if b =? i then [a] else []))).
    { rewrite K2. rewrite K1 in *. rewrite (Nat.eqb_sym a), (Nat.eqb_sym b). destruct (Nat.eqb_spec i b); destruct (Nat.eqb_spec i a); subst; rewrite ?Nat.eqb_refl in *; simpl; rewrite ?app_nil_r.
      - assert (la = l) by congruence. subst. inversion Hlb; subst. rewrite <- app_assoc. auto.
      - rewrite (proj2 (Nat.eqb_neq b a)) in Hlb by auto. congruence.
      - congruence.
      - auto. }
    rewrite (K3 _ _ Hi2). f_equal. simpl. rewrite !app_assoc. auto.
Qed.
Lemma adj_list_sorted i : forall bonds, bond_set bonds -> StronglySorted le (adj_list i bonds) /\ (Forall (fun b => fst b < snd b) bonds -> StronglySorted lt (adj_list i bonds)).
Proof.
  induction bonds as [|[a b] bonds IH]; intros [Hs Hf]; [split; constructor|]. apply StronglySorted_inv in Hs. destruct Hs as [Hs F]. inversion Hf as [|? ? Hab Hf']; subst. simpl in Hab.
  destruct (IH (conj Hs Hf')) as [I1 I2]. rewrite Forall_forall in F, Hf'.
  assert (Hlt : forall x y, (a = i /\ x = b) \/ (b = i /\ x = a) -> In y (adj_list i bonds) -> x < y).
  { intros x y Hx Hy. apply adj_list_in in Hy. destruct Hy as [Hy|Hy]; assert (Hl := F _ Hy); assert (Hle := Hf' _ Hy); unfold lex in Hl; simpl in *; lia. }
  change (adj_list i ((a, b) :: bonds)) with (((if a =? i then [b] else []) ++ (if b =? i then [a] else [])) ++ adj_list i bonds). split.
  - destruct (Nat.eqb_spec a i), (Nat.eqb_spec b i); simpl; auto; repeat constructor; auto; try lia; apply Forall_forall; intros y Hy; try (apply Nat.lt_le_incl, Hlt; auto; fail).
  - intros HF. inversion HF as [|? ? Hn HF']; subst. simpl in Hn. specialize (I2 HF'). destruct (Nat.eqb_spec a i), (Nat.eqb_spec b i); simpl; auto; try lia; constructor; auto; apply Forall_forall; intros y Hy; apply Hlt; auto.
Qed.
Lemma ngb2bonds_spec ngb : (forall i l, nth_error ngb i = Some l -> StronglySorted le l) -> 
  StronglySorted lex (ngb2bonds ngb) /\ forall a b, In (a, b) (ngb2bonds ngb) <-> a < b /\ linked ngb a b.
Proof.
  intros Hle. unfold ngb2bonds.
  assert (H : forall rows s, (forall p lp, In (p, lp) rows -> nth_error ngb p = Some lp) -> StronglySorted lex s ->
    let r := fold_left (fun s (pl : nat * list nat) => fold_left (fun s q => bond_insert (mk_bond (fst pl) q) s) (after (fst pl) (snd pl)) s) rows s in
    StronglySorted lex r /\ forall a b, In (a, b) r <-> In (a, b) s \/ (In a (map fst rows) /\ a < b /\ linked ngb a b)).
  { induction rows as [|[p lp] rows IH]; intros s Hr Hs; cbn [fold_left fst snd map].
    - split; auto. simpl. tauto.
    - assert (Hp : nth_error ngb p = Some lp) by (apply Hr; simpl; auto). assert (Ha := after_spec p lp (Hle _ _ Hp)).
      destruct (fold_insert p (after p lp) s) as [S1 K1]; auto; [intros q Hq; apply Ha in Hq; tauto|]. destruct (IH _ (fun p' l' h => Hr p' l' (or_intror h)) S1) as [S2 K2]. split; auto.
      intros a b. rewrite K2, K1, Ha, <- (linked_iff _ _ _ Hp). simpl. split; [intros [[?|[-> [? ?]]]|?]; tauto|]. intros [?|[[->|?] ?]]; tauto. }
  destruct (H (combine (seq 0 (length ngb)) ngb) []) as [S K]; [intros p lp Hin; apply in_combine_seq in Hin; auto|constructor|]. split; auto.
  intros a b. rewrite K, map_fst_combine by apply seq_length. simpl. split; [tauto|]. intros [H1 H2]. right. split; auto. apply in_seq. apply linked_lt in H2. lia.
Qed.

(** A set of bonds filled in any order with Bond(x,y) has each bond once, ordered, whatever the order of the two ends. *)
Theorem C34_bond_sets l : let s := fold_left (fun s xy => bond_insert (mk_bond (fst xy) (snd xy)) s) l [] in
  bond_set s /\ forall a b, In (a, b) s <-> a <= b /\ (In (a, b) l \/ In (b, a) l).
Proof.
  intros s. assert (H : forall l s0, bond_set s0 -> let s := fold_left (fun s xy => bond_insert (mk_bond (fst xy) (snd xy)) s) l s0 in
    bond_set s /\ forall a b, In (a, b) s <-> In (a, b) s0 \/ (a <= b /\ (In (a, b) l \/ In (b, a) l))).
  { clear. induction l as [|[x y] l IH]; intros s0 [B1 B2]; cbn [fold_left fst snd]; [split; [split; auto|simpl; tauto]|].
    destruct (bond_insert_spec (mk_bond x y) s0 B1) as [J1 J2]. assert (Hm : forall a b, (a, b) = mk_bond x y <-> a <= b /\ ((x, y) = (a, b) \/ (x, y) = (b, a))).
    { intros a b. unfold mk_bond. destruct (Nat.ltb_spec x y); split; intros HH; try (inversion HH; subst; split; auto; lia).
      - destruct HH as [H1 [H2|H2]]; inversion H2; subst; auto; lia.
      - destruct HH as [H1 [H2|H2]]; inversion H2; subst; auto. assert (a = b) by lia. subst. auto. }
    destruct (IH (bond_insert (mk_bond x y) s0)) as [K1 K2].
    { split; auto. rewrite Forall_forall in *. intros [a b] Hin. apply J2 in Hin. destruct Hin as [Hin|Hin]; [apply Hm in Hin; simpl; tauto|apply B2; auto]. }
    split; auto. intros a b. rewrite K2, J2, Hm. simpl. tauto. }
  destruct (H l [] (conj (SSorted_nil _) (Forall_nil _))) as [H1 H2]. split; auto. intros a b. unfold s. rewrite H2. simpl. tauto.
Qed.
(** From bonds to neighbours and back. *)
Theorem C34_round_trip n bonds : bond_set bonds -> Forall (fun b => snd b < n) bonds -> exists ngb, ngb_of_bonds n bonds = Some ngb /\ length ngb = n /\
  (forall i j, linked ngb i j <-> In (i, j) bonds \/ In (j, i) bonds) /\ symmetric ngb /\
  ngb2bonds ngb = filter (fun b => fst b <? snd b) bonds /\ (Forall (fun b => fst b < snd b) bonds -> ngb_ok ngb).
Proof.
  intros Hb Hn. destruct (add_bonds_spec bonds (repeat [] n)) as [ngb [E [L K]]].
  { rewrite repeat_length. destruct Hb as [_ Hb]. rewrite Forall_forall in *. intros b Hin. specialize (Hb _ Hin). specialize (Hn _ Hin). simpl in *. lia. }
  rewrite repeat_length in L. exists ngb. split; auto. split; auto.
  assert (Hk : forall i l, nth_error ngb i = Some l -> l = adj_list i bonds).
  { intros i l Hi. assert (Hlt := nth_error_lt _ _ _ Hi). rewrite (K i []) in Hi by (apply nth_error_repeat_x; lia). inversion Hi; auto. }
  assert (Hlk : forall i j, linked ngb i j <-> In (i, j) bonds \/ In (j, i) bonds).
  { intros i j. rewrite <- adj_list_in. split; [intros [l [Hi Hj]]; rewrite <- (Hk _ _ Hi); auto|]. intros Hj. assert (Hi : i < n).
    { destruct Hb as [_ Hb]. rewrite Forall_forall in *. apply adj_list_in in Hj. destruct Hj as [Hj|Hj]; specialize (Hb _ Hj); specialize (Hn _ Hj); simpl in *; lia. }
    destruct (nth_error_ex ngb i) as [l Hl]; [lia|]. exists l. split; auto. rewrite (Hk _ _ Hl). auto. }
  split; auto. split; [intros i j; rewrite !Hlk; tauto|]. split.
  - destruct (ngb2bonds_spec ngb) as [S J]; [intros i l Hi; rewrite (Hk _ _ Hi); apply adj_list_sorted; auto|]. apply lex_ext; auto; [apply lex_filter, Hb|].
    intros [a b]. rewrite J, Hlk, filter_In. simpl. rewrite Nat.ltb_lt. destruct Hb as [_ Hb]. rewrite Forall_forall in Hb. split; [|tauto]. intros [Hab [H|H]]; auto. apply Hb in H. simpl in H. lia.
  - intros HF i l Hi. split; [rewrite (Hk _ _ Hi); apply adj_list_sorted; auto|]. intros j Hj. rewrite L. assert (Hl : linked ngb i j) by (exists l; auto). apply Hlk in Hl.
    destruct Hb as [_ Hb]. rewrite Forall_forall in *. destruct Hl as [Hl|Hl]; specialize (Hb _ Hl); specialize (Hn _ Hl); simpl in *; lia.
Qed.
(** From neighbours to bonds and back. *)
Theorem C34_round_trip_back ngb : ngb_ok ngb -> symmetric ngb -> irreflexive ngb ->
  bond_set (ngb2bonds ngb) /\ (forall a b, In (a, b) (ngb2bonds ngb) <-> a < b /\ linked ngb a b) /\ ngb_of_bonds (length ngb) (ngb2bonds ngb) = Some ngb.
Proof.
  intros Hok Hsym Hirr. destruct (ngb2bonds_spec ngb) as [S J]; [intros i l Hi; apply lt_le_sorted; eapply Hok; eauto|].
  assert (HB : bond_set (ngb2bonds ngb)) by (split; auto; apply Forall_forall; intros [a b] H; apply J in H; simpl; lia).
  split; auto. split; auto. destruct (C34_round_trip (length ngb) (ngb2bonds ngb) HB) as [ngb' [E [L [Hl [_ [_ Hok']]]]]].
  - apply Forall_forall. intros [a b] H. apply J in H. destruct H as [_ [l [Ha Hb]]]. simpl. eapply Hok; eauto.
  - rewrite E. f_equal. apply nth_error_ext. intros i. destruct (Nat.lt_ge_cases i (length ngb)) as [Hi|Hi]; [|rewrite !(proj2 (nth_error_None _ _)); auto; lia].
    destruct (nth_error_ex ngb i Hi) as [l El]. destruct (nth_error_ex ngb' i) as [l' El']; [lia|]. rewrite El, El'. f_equal.
    assert (HF : Forall (fun b => fst b < snd b) (ngb2bonds ngb)) by (apply Forall_forall; intros [a b] H; apply J in H; simpl; lia).
    apply ssorted_ext; [eapply (Hok' HF); eauto|eapply Hok; eauto|]. intros j. rewrite <- (linked_iff _ _ _ El'), <- (linked_iff _ _ _ El), Hl, !J. split.
    + intros [[_ H]|[_ H]]; auto.
    + intros H. destruct (Nat.lt_trichotomy i j) as [Hij|[->|Hij]]; [left; auto|exfalso; eapply Hirr; eauto|right; split; auto].
Qed.
(** An end out of range writes out of the neighbour list. *)
Theorem C34_out_of_range n bonds b : In b bonds -> n <= fst b \/ n <= snd b -> ngb_of_bonds n bonds = None.
Proof.
  intros Hin Hb. unfold ngb_of_bonds. assert (H : forall bonds ngb, length ngb = n -> In b bonds -> add_bonds bonds ngb = None).
  { clear bonds Hin. induction bonds as [|[x y] bonds IH]; intros ngb L Hin; [destruct Hin|]; cbn [add_bonds]; unfold ngb_push, upd; destruct Hin as [<-|Hin]; simpl in *.
    - destruct (nth_error ngb x) as [lx|] eqn:Ex; auto. rewrite (proj2 (nth_error_None _ y)); auto. rewrite set_nth_len. apply nth_error_lt in Ex. lia.
    - destruct (nth_error ngb x) as [lx|] eqn:Ex; auto. destruct (nth_error _ y) as [ly|] eqn:Ey; auto. apply IH; auto. rewrite !set_nth_len. auto. }
  apply H; auto. apply repeat_length.
Qed.
Example C34_case : let bonds := [(0, 2); (1, 1); (1, 3); (2, 3)] in bond_set bonds /\ ngb_of_bonds 4 bonds = Some [[2]; [1; 1; 3]; [0; 3]; [1; 2]] /\
  ngb2bonds [[2]; [1; 1; 3]; [0; 3]; [1; 2]] = [(0, 2); (1, 3); (2, 3)].
Proof. split; [|split; reflexivity]. split; repeat constructor; unfold lex; simpl; lia. Qed.

(** C36. *)
Theorem C36_1551 ngb : ngb_ok ngb -> exists s, get1551pairs ngb = Some s /\ StronglySorted lex s /\
  forall p q, In (p, q) s <-> p < q /\ linked ngb p q /\ exactly 5 (common ngb p q) /\ ring ngb (common ngb p q).
Proof.
  intros Hok. apply (rows_fold ngb (pairs1551 ngb) (fun p lp s => ring_pairs ngb 5 p lp (after p lp) s) (fun p q => p < q /\ linked ngb p q /\ ringed ngb 5 p q)); auto.
  - intros p lp s Hp Hs. destruct (Hok _ _ Hp) as [Sp Bp]. assert (Ha := after_spec p lp (lt_le_sorted _ Sp)).
    destruct (ring_pairs_spec ngb Hok 5 p lp Hp (after p lp) s Hs) as [s' [E [S' K]]]; [intros q Hq; apply Ha in Hq; split; [tauto|apply Bp; tauto]|].
    exists s'. split; auto. split; auto. intros a b. rewrite K, Ha, (linked_iff _ _ _ Hp). tauto.
  - intros p b [_ [H _]]. eapply linked_lt; eauto.
Qed.
Theorem C36_2331 ngb : ngb_ok ngb -> symmetric ngb -> exists s, get2331pairs ngb = Some s /\ StronglySorted lex s /\
  forall p q, In (p, q) s <-> p < q /\ ~ linked ngb p q /\ exactly 3 (common ngb p q) /\ ring ngb (common ngb p q).
Proof.
  intros Hok Hsym. assert (Hpath : forall p q n, exactly (S n) (common ngb p q) -> exists c, linked ngb p c /\ linked ngb c q).
  { intros p q n [l [_ [L H]]]. destruct l as [|c l]; [discriminate|]. exists c. destruct (proj1 (H c) (or_introl eq_refl)). auto. }
  apply (rows_fold ngb (pairs2331 ngb) (fun p lp s => match second_ngb ngb lp with None => None | Some sec => ring_pairs ngb 3 p lp (after p (set_diff sec lp)) s end) (fun p q => p < q /\ ~ linked ngb p q /\ ringed ngb 3 p q)); auto.
  - intros p lp rows s. cbn [pairs2331]. destruct (second_ngb ngb lp); auto.
  - intros p lp s Hp Hs. destruct (Hok _ _ Hp) as [Sp Bp]. destruct (second_ngb_spec ngb Hok p lp Hp) as [sec [E [Ss [Bs Hsec]]]]. rewrite E.
    destruct (set_diff_spec sec lp Ss Sp) as [Sd Hd]. assert (Ha := after_spec p _ (lt_le_sorted _ Sd)).
    destruct (ring_pairs_spec ngb Hok 3 p lp Hp (after p (set_diff sec lp)) s Hs) as [s' [E' [S' K]]]; [intros q Hq; apply Ha in Hq; destruct Hq as [Hq Hpq]; apply Hd in Hq; split; auto; apply Bs; tauto|].
    exists s'. split; auto. split; auto. intros a b. rewrite K, Ha, Hd, <- (linked_iff _ _ _ Hp), Hsec. split; [tauto|]. intros [H|[-> [H1 [H2 H3]]]]; auto. right. repeat split; auto; try apply H3. eapply Hpath, H3.
  - intros p b [_ [_ [H _]]]. destruct (Hpath _ _ _ H) as [c [Hc _]]. eapply linked_lt; eauto.
Qed.
(** getSP5c lists every bonded pair with exactly five common neighbours, in a ring or not. *)
Theorem C36_sp5c ngb : ngb_ok ngb -> exists r, get_sp5c ngb = Some r /\ NoDup r /\
  forall v, In v r <-> exists p q l, v = p :: q :: l /\ p < q /\ linked ngb p q /\ length l = 5 /\ StronglySorted lt l /\ forall x, In x l <-> common ngb p q x.
Proof.
  intros Hok. unfold get_sp5c.
  assert (Hrow : forall p lp, nth_error ngb p = Some lp -> forall qs, NoDup qs -> (forall q, In q qs -> q < length ngb) -> exists r, sp5c_row ngb p lp qs = Some r /\ NoDup r /\
    forall v, In v r <-> exists q l, v = p :: q :: l /\ In q qs /\ length l = 5 /\ StronglySorted lt l /\ forall x, In x l <-> common ngb p q x).
  { intros p lp Hp. destruct (Hok _ _ Hp) as [Sp Bp]. induction qs as [|q qs IH]; intros Hnd Hq; cbn [sp5c_row].
    - exists []. split; auto. split; [constructor|]. intros v. simpl. split; [tauto|]. intros [q [l [_ [[] _]]]].
    - inversion Hnd as [|? ? Hnq Hnd']; subst. destruct (nth_error_ex ngb q) as [lq Hlq]; [apply Hq; simpl; auto|]. destruct (IH Hnd') as [r [E [N K]]]; [intros; apply Hq; simpl; auto|]. rewrite Hlq, E.
      destruct (Hok _ _ Hlq) as [Sq Bq]. destruct (set_inter_spec lp lq Sp Sq) as [I1 I2].
      assert (Hc : forall x, In x (set_inter lp lq) <-> common ngb p q x) by (intros x; rewrite I2; unfold common; rewrite (linked_iff _ _ _ Hp), (linked_iff _ _ _ Hlq); tauto).
      assert (Hu : forall l, StronglySorted lt l -> (forall x, In x l <-> common ngb p q x) -> l = set_inter lp lq) by (intros l Hl H; apply ssorted_ext; auto; intros x; rewrite H, Hc; tauto).
      cbv zeta. eexists. split; [reflexivity|]. cbn [length]. destruct (Nat.eqb_spec (S (S (length (set_inter lp lq)))) 7) as [E7|E7].
      + split.
        * constructor; auto. intros Hin. apply K in Hin. destruct Hin as [q' [l' [Ev [Hin _]]]]. inversion Ev; subst. auto.
        * intros v. cbn [In]. rewrite K. split.
          -- intros [<-|[q' [l' [Ev [Hin H]]]]]; [exists q, (set_inter lp lq); split; auto; split; auto; split; [lia|]; split; auto|exists q', l'; auto].
          -- intros [q' [l' [Ev [[->|Hin] [H1 [H2 H3]]]]]]; [left; rewrite Ev, (Hu l'); auto|right; exists q', l'; auto].
      + split; auto. intros v. rewrite K. cbn [In]. split.
        * intros [q' [l' [Ev [Hin H]]]]. exists q', l'; auto.
        * intros [q' [l' [Ev [[->|Hin] [H1 [H2 H3]]]]]]; [exfalso; rewrite (Hu l') in H1 by auto; lia|exists q', l'; auto]. }
  assert (H : forall rows, NoDup (map fst rows) -> (forall p lp, In (p, lp) rows -> nth_error ngb p = Some lp) -> exists r, sp5c_rows ngb rows = Some r /\ NoDup r /\
    forall v, In v r <-> exists p q l, v = p :: q :: l /\ In p (map fst rows) /\ p < q /\ linked ngb p q /\ length l = 5 /\ StronglySorted lt l /\ forall x, In x l <-> common ngb p q x).
  { induction rows as [|[p lp] rows IH]; intros Hnd Hr; cbn [sp5c_rows].
    - exists []. split; auto. split; [constructor|]. intros v. simpl. split; [tauto|]. intros [p [q [l [_ [[] _]]]]].
    - assert (Hp : nth_error ngb p = Some lp) by (apply Hr; simpl; auto). destruct (Hok _ _ Hp) as [Sp Bp]. assert (Ha := after_spec p lp (lt_le_sorted _ Sp)). simpl in Hnd. inversion Hnd as [|? ? Hnp Hnd']; subst.
      assert (Sa : NoDup (after p lp)). { clear - Sp. induction lp as [|a lp IH]; [constructor|]. cbn [after]. destruct (a <? p + 1); [apply IH; inversion Sp; auto|apply ssorted_NoDup; auto]. }
      destruct (Hrow p lp Hp (after p lp) Sa) as [r1 [E1 [N1 K1]]]; [intros q Hq; apply Ha in Hq; apply Bp; tauto|]. rewrite E1.
      destruct (IH Hnd') as [r2 [E2 [N2 K2]]]; [intros; apply Hr; simpl; auto|]. rewrite E2. eexists. split; [reflexivity|]. split.
      + apply NoDup_app_x; auto. intros v H1 H2. apply K1 in H1. apply K2 in H2. destruct H1 as [q1 [l1 [-> _]]]. destruct H2 as [p2 [q2 [l2 [Ev [Hin _]]]]]. inversion Ev; subst. auto.
      + intros v. rewrite in_app_iff, K1, K2. cbn [map fst In]. split.
        * intros [[q [l [Ev [Hin H]]]]|[p' [q [l [Ev [Hin H]]]]]]; [|exists p', q, l; tauto]. apply Ha in Hin. exists p, q, l. rewrite (linked_iff _ _ _ Hp). tauto.
        * intros [p' [q [l [Ev [[->|Hin] [H1 [H2 H3]]]]]]]; [left; exists q, l; rewrite Ha, <- (linked_iff _ _ _ Hp); tauto|right; exists p', q, l; tauto]. }
  destruct (H (combine (seq 0 (length ngb)) ngb)) as [r [E [N K]]]; [rewrite map_fst_combine by apply seq_length; apply seq_NoDup|intros p lp Hin; apply in_combine_seq in Hin; auto|].
  exists r. split; auto. split; auto. intros v. rewrite K, map_fst_combine by apply seq_length. split.
  - intros [p [q [l [Ev [_ H4]]]]]. exists p, q, l. auto.
  - intros [p [q [l [Ev [H1 [H2 H3]]]]]]. exists p, q, l. split; auto. split; [|tauto]. apply in_seq. apply linked_lt in H2. lia.
Qed.
(** Nine particles: 0 and 1 bonded, both linked to the ring 2-3-4-5-6; 7 and 8 are linked to the triangle 0-2-3. *)
Definition ex_ngb : list (list nat) :=
  [[1; 2; 3; 4; 5; 6; 7; 8]; [0; 2; 3; 4; 5; 6]; [0; 1; 3; 6; 7; 8]; [0; 1; 2; 4; 7; 8]; [0; 1; 3; 5]; [0; 1; 4; 6]; [0; 1; 2; 5]; [0; 2; 3]; [0; 2; 3]].
Lemma ngb_ok_dec ngb : forallb (fun l => forallb (fun j => j <? length ngb) l && forallb (fun ij => fst ij <? snd ij) (combine l (tl l))) ngb = true -> ngb_ok ngb.
Proof.
  intros H i l Hi. rewrite forallb_forall in H. specialize (H l (nth_error_In _ _ Hi)). apply andb_prop in H. destruct H as [H1 H2]. rewrite forallb_forall in H1. split.
  - clear - H2. induction l as [|a l IH]; constructor; [apply IH|].
    + destruct l; auto. simpl in H2. apply andb_prop in H2. apply H2.
    + clear IH. revert a H2. induction l as [|b l IH]; intros a H; constructor; simpl in H; apply andb_prop in H; destruct H as [H1 H2]; apply Nat.ltb_lt in H1; auto.
      eapply Forall_impl; [|apply IH; apply H2]. simpl. intros; lia.
  - intros j Hj. apply Nat.ltb_lt, H1; auto.
Qed.
Lemma symmetric_dec ngb : forallb (fun il => forallb (fun j => existsb (Nat.eqb (fst il)) (nth j ngb [])) (snd il)) (combine (seq 0 (length ngb)) ngb) = true -> symmetric ngb.
Proof.
  intros H i j [l [Hi Hj]]. rewrite forallb_forall in H. assert (Hin : In (i, l) (combine (seq 0 (length ngb)) ngb)) by (apply in_combine_seq; auto). specialize (H _ Hin). simpl in H.
  rewrite forallb_forall in H. specialize (H j Hj). apply existsb_exists in H. destruct H as [x [Hx E]]. apply Nat.eqb_eq in E. subst x.
  destruct (nth_error ngb j) as [lj|] eqn:Ej.
  - exists lj. split; auto. rewrite (nth_error_nth _ _ _ Ej) in Hx. auto.
  - exfalso. apply nth_error_None in Ej. rewrite nth_overflow in Hx by auto. destruct Hx.
Qed.
Example C36_case : ngb_ok ex_ngb /\ symmetric ex_ngb /\ get1551pairs ex_ngb = Some [(0, 1)] /\ get2331pairs ex_ngb = Some [(1, 7); (1, 8); (2, 4); (2, 5); (3, 5); (3, 6); (4, 6); (7, 8)] /\ get_sp5c ex_ngb = Some [[0; 1; 2; 3; 4; 5; 6]; [0; 2; 1; 3; 6; 7; 8]; [0; 3; 1; 2; 4; 7; 8]].
Proof. split; [apply ngb_ok_dec; reflexivity|]. split; [apply symmetric_dec; reflexivity|]. repeat split; vm_compute; reflexivity. Qed.

(** C37. *)
Lemma NoDup_nth_inj {A} (l : list A) i j x : NoDup l -> nth_error l i = Some x -> nth_error l j = Some x -> i = j.
Proof. intros N Hi Hj. apply (proj1 (NoDup_nth_error l) N); [eapply nth_error_lt; eauto|congruence]. Qed.
(** A closed ring of at least three particles is accepted, whatever its size. *)
Theorem C37_rings_accepted ngb com l : ngb_ok ngb -> StronglySorted lt com -> (forall c, In c com -> c < length ngb) -> 3 <= length com ->
  Permutation l com -> closed_ring ngb l -> is_ring ngb com = Some true.
Proof.
  intros Hok Hs Hin H3 HP HR. destruct (is_ring_spec ngb com Hok Hs Hin) as [b [Eb Hb]]. rewrite Eb. f_equal. apply Hb. intros x Hx.
  assert (Nl : NoDup l) by (eapply Permutation_NoDup; [symmetry; eauto|apply ssorted_NoDup; auto]). assert (Ll := Permutation_length HP).
  assert (Hxl : In x l) by (eapply Permutation_in; [symmetry; eauto|auto]). apply In_nth_error in Hxl. destruct Hxl as [i Hi]. assert (Li := nth_error_lt _ _ _ Hi).
  set (nx := if S i =? length l then 0 else S i). set (pv := if i =? 0 then length l - 1 else i - 1).
  assert (Hnx : nx < length l) by (unfold nx; destruct (Nat.eqb_spec (S i) (length l)); lia). assert (Hpv : pv < length l) by (unfold pv; destruct (Nat.eqb_spec i 0); lia).
  assert (Hne : nx <> pv) by (unfold nx, pv; destruct (Nat.eqb_spec (S i) (length l)), (Nat.eqb_spec i 0); lia).
  destruct (nth_error_ex l nx Hnx) as [a Ha]. destruct (nth_error_ex l pv Hpv) as [c Hc]. exists [a; c]. split; [|split; auto].
  - constructor; [|repeat constructor; auto]. intros [E|[]]. subst c. apply Hne. eapply NoDup_nth_inj; eauto.
  - assert (Hpos : forall j, j < length l -> (j = nx \/ j = pv <-> j = S i \/ i = S j \/ (i = 0 /\ S j = length l) \/ (j = 0 /\ S i = length l))) by (intros j Hj; unfold nx, pv; destruct (Nat.eqb_spec (S i) (length l)), (Nat.eqb_spec i 0); lia).
    intros y. split.
    + intros Hy. assert (Hj : exists j, nth_error l j = Some y /\ (j = nx \/ j = pv)) by (destruct Hy as [<-|[<-|[]]]; eauto). destruct Hj as [j [Hj Hjn]]. split.
      * eapply Permutation_in; [eauto|eapply nth_error_In; eauto].
      * apply (HR i j x y Hi Hj). apply Hpos; auto. eapply nth_error_lt; eauto.
    + intros [Hy Hl]. apply (Permutation_in _ (Permutation_sym HP)) in Hy. apply In_nth_error in Hy. destruct Hy as [j Hj]. apply (HR i j x y Hi Hj) in Hl. apply Hpos in Hl; [|eapply nth_error_lt; eauto].
      destruct Hl as [->| ->]; [left|right; left]; congruence.
Qed.
Definition closedb (f : nat -> nat -> bool) (p : list nat) : bool :=
  let n := length p in forallb (fun ix => forallb (fun jy => let i := fst ix in let j := fst jy in
    Bool.eqb (f (snd ix) (snd jy)) ((j =? S i) || (i =? S j) || ((i =? 0) && (S j =? n)) || ((j =? 0) && (S i =? n)))) (combine (seq 0 n) p)) (combine (seq 0 n) p).
Ltac perm_idx := apply NoDup_Permutation; [repeat constructor; simpl; lia|repeat constructor; simpl; lia|simpl; intros; tauto].
Lemma small_rings n f : 3 <= n <= 5 -> (forall i j, f i j = f j i) -> (forall i, f i i = false) -> (forall i, i < n -> length (filter (f i) (seq 0 n)) = 2) ->
  exists p, Permutation p (seq 0 n) /\ closedb f p = true.
Proof.
  intros Hn Hsym Hirr Hdeg. assert (Hc : n = 3 \/ n = 4 \/ n = 5) by lia.
  assert (D0 := Hdeg 0 ltac:(lia)). assert (D1 := Hdeg 1 ltac:(lia)). assert (D2 := Hdeg 2 ltac:(lia)).
  pose proof (Hsym 1 0) as S10. pose proof (Hsym 2 0) as S20. pose proof (Hsym 2 1) as S21. pose proof (Hirr 0) as I0. pose proof (Hirr 1) as I1. pose proof (Hirr 2) as I2.
  destruct Hc as [->|[->| ->]].
  - simpl in *. rewrite ?S10, ?S20, ?S21, ?I0, ?I1, ?I2 in *. exists [0; 1; 2]. split; [perm_idx|]. unfold closedb. simpl. rewrite ?S10, ?S20, ?S21, ?I0, ?I1, ?I2.
    destruct (f 0 1), (f 0 2), (f 1 2); simpl in *; try discriminate; auto.
  - assert (D3 := Hdeg 3 ltac:(lia)). pose proof (Hsym 3 0) as S30. pose proof (Hsym 3 1) as S31. pose proof (Hsym 3 2) as S32. pose proof (Hirr 3) as I3.
    clear Hdeg Hsym Hirr. simpl in *. rewrite ?S10, ?S20, ?S21, ?S30, ?S31, ?S32, ?I0, ?I1, ?I2, ?I3 in *.
    destruct (f 0 1) eqn:E01, (f 0 2) eqn:E02, (f 0 3) eqn:E03; simpl in D0; try discriminate D0; clear D0;
    destruct (f 1 2) eqn:E12, (f 1 3) eqn:E13; simpl in D1; try discriminate D1; clear D1; destruct (f 2 3) eqn:E23; simpl in D2, D3; try discriminate D2; try discriminate D3;
    match goal with |- exists p, _ /\ closedb ?f p = true =>
      first [exists [0; 1; 2; 3]; split; [perm_idx|]; unfold closedb; simpl; rewrite ?S10, ?S20, ?S21, ?S30, ?S31, ?S32, ?I0, ?I1, ?I2, ?I3, ?E01, ?E02, ?E03, ?E12, ?E13, ?E23; reflexivity
        |exists [0; 1; 3; 2]; split; [perm_idx|]; unfold closedb; simpl; rewrite ?S10, ?S20, ?S21, ?S30, ?S31, ?S32, ?I0, ?I1, ?I2, ?I3, ?E01, ?E02, ?E03, ?E12, ?E13, ?E23; reflexivity
        |exists [0; 2; 1; 3]; split; [perm_idx|]; unfold closedb; simpl; rewrite ?S10, ?S20, ?S21, ?S30, ?S31, ?S32, ?I0, ?I1, ?I2, ?I3, ?E01, ?E02, ?E03, ?E12, ?E13, ?E23; reflexivity] end.
  - assert (D3 := Hdeg 3 ltac:(lia)). assert (D4 := Hdeg 4 ltac:(lia)). pose proof (Hsym 3 0) as S30. pose proof (Hsym 3 1) as S31. pose proof (Hsym 3 2) as S32. pose proof (Hirr 3) as I3.
    pose proof (Hsym 4 0) as S40. pose proof (Hsym 4 1) as S41. pose proof (Hsym 4 2) as S42. pose proof (Hsym 4 3) as S43. pose proof (Hirr 4) as I4.
    clear Hdeg Hsym Hirr. simpl in *. rewrite ?S10, ?S20, ?S21, ?S30, ?S31, ?S32, ?S40, ?S41, ?S42, ?S43, ?I0, ?I1, ?I2, ?I3, ?I4 in *.
    Ltac try_ring p S10 S20 S21 S30 S31 S32 S40 S41 S42 S43 I0 I1 I2 I3 I4 :=
      exists p; split; [perm_idx|]; unfold closedb; simpl; rewrite ?S10, ?S20, ?S21, ?S30, ?S31, ?S32, ?S40, ?S41, ?S42, ?S43, ?I0, ?I1, ?I2, ?I3, ?I4;
      repeat match goal with H : _ = true |- _ => rewrite H; clear H | H : _ = false |- _ => rewrite H; clear H end; reflexivity.
    destruct (f 0 1) eqn:E01, (f 0 2) eqn:E02, (f 0 3) eqn:E03, (f 0 4) eqn:E04; simpl in D0; try discriminate D0; clear D0;
    destruct (f 1 2) eqn:E12, (f 1 3) eqn:E13, (f 1 4) eqn:E14; simpl in D1; try discriminate D1; clear D1;
    destruct (f 2 3) eqn:E23, (f 2 4) eqn:E24; simpl in D2; try discriminate D2; clear D2; destruct (f 3 4) eqn:E34; simpl in D3, D4; try discriminate D3; try discriminate D4; clear D3 D4;
    first [try_ring [0; 1; 2; 3; 4] S10 S20 S21 S30 S31 S32 S40 S41 S42 S43 I0 I1 I2 I3 I4
      |try_ring [0; 1; 2; 4; 3] S10 S20 S21 S30 S31 S32 S40 S41 S42 S43 I0 I1 I2 I3 I4
      |try_ring [0; 1; 3; 2; 4] S10 S20 S21 S30 S31 S32 S40 S41 S42 S43 I0 I1 I2 I3 I4
      |try_ring [0; 1; 3; 4; 2] S10 S20 S21 S30 S31 S32 S40 S41 S42 S43 I0 I1 I2 I3 I4
      |try_ring [0; 1; 4; 2; 3] S10 S20 S21 S30 S31 S32 S40 S41 S42 S43 I0 I1 I2 I3 I4
      |try_ring [0; 1; 4; 3; 2] S10 S20 S21 S30 S31 S32 S40 S41 S42 S43 I0 I1 I2 I3 I4
      |try_ring [0; 2; 1; 3; 4] S10 S20 S21 S30 S31 S32 S40 S41 S42 S43 I0 I1 I2 I3 I4
      |try_ring [0; 2; 1; 4; 3] S10 S20 S21 S30 S31 S32 S40 S41 S42 S43 I0 I1 I2 I3 I4
      |try_ring [0; 2; 3; 1; 4] S10 S20 S21 S30 S31 S32 S40 S41 S42 S43 I0 I1 I2 I3 I4
      |try_ring [0; 2; 4; 1; 3] S10 S20 S21 S30 S31 S32 S40 S41 S42 S43 I0 I1 I2 I3 I4
      |try_ring [0; 3; 1; 2; 4] S10 S20 S21 S30 S31 S32 S40 S41 S42 S43 I0 I1 I2 I3 I4
      |try_ring [0; 3; 2; 1; 4] S10 S20 S21 S30 S31 S32 S40 S41 S42 S43 I0 I1 I2 I3 I4].
Qed.
Lemma filter_len_map {A B} (g : A -> B) f : forall l, length (filter f (map g l)) = length (filter (fun x => f (g x)) l).
Proof. induction l as [|a l IH]; simpl; auto. destruct (f (g a)); simpl; auto. Qed.
(** The ring test of three, four or five particles decides whether they can be ordered in a single closed ring. *)
Theorem C37_small ngb com : ngb_ok ngb -> symmetric ngb -> irreflexive ngb -> StronglySorted lt com -> (forall c, In c com -> c < length ngb) -> 3 <= length com <= 5 ->
  exists b, is_ring ngb com = Some b /\ (b = true <-> exists l, Permutation l com /\ closed_ring ngb l).
Proof.
  intros Hok Hsym Hirr Hs Hin H3. destruct (is_ring_spec ngb com Hok Hs Hin) as [b [Eb Hb]]. exists b. split; auto. split.
  - intros ->. assert (HR := proj1 Hb eq_refl). clear Hb.
    pose (adj := fun x y => existsb (Nat.eqb y) (nth x ngb [])). assert (Hadj : forall x y, adj x y = true <-> linked ngb x y).
    { intros x y. unfold adj. rewrite existsb_exists. destruct (nth_error ngb x) as [l|] eqn:E.
      - rewrite (nth_error_nth _ _ _ E), (linked_iff _ _ _ E). split; [intros [z [H1 H2]]; apply Nat.eqb_eq in H2; congruence|]. intros H. exists y. rewrite Nat.eqb_refl. auto.
      - split; [|intros [l [El _]]; congruence]. intros [z [H1 _]]. apply nth_error_None in E. rewrite nth_overflow in H1 by auto. destruct H1. }
    pose (el := fun i => nth i com 0). assert (Hcom : map el (seq 0 (length com)) = com).
    { apply nth_error_ext. intros i. destruct (Nat.lt_ge_cases i (length com)) as [Hi|Hi].
      - rewrite (map_nth_error el i (seq 0 (length com)) (nth_error_seq 0 _ i Hi)). destruct (nth_error_ex com i Hi) as [x Hx]. rewrite Hx. simpl. unfold el. rewrite (nth_error_nth _ _ _ Hx). auto.
      - rewrite !(proj2 (nth_error_None _ _)); auto. rewrite map_length, seq_length. auto. }
    destruct (small_rings (length com) (fun i j => adj (el i) (el j)) H3) as [p [Hp Hcl]].
    + intros i j. destruct (adj (el i) (el j)) eqn:E1, (adj (el j) (el i)) eqn:E2; auto.
      * apply Hadj, Hsym, Hadj in E1. congruence.
      * apply Hadj, Hsym, Hadj in E2. congruence.
    + intros i. destruct (adj (el i) (el i)) eqn:E; auto. exfalso. eapply Hirr, Hadj, E.
    + intros i Hi. rewrite <- (filter_len_map el (adj (el i))), Hcom. assert (Hx : In (el i) com) by (unfold el; apply nth_In; auto). specialize (HR _ Hx).
      apply (exactly_list 2 (filter (adj (el i)) com)) in HR; auto; [apply filter_ssorted; auto|]. intros x. rewrite filter_In, Hadj. tauto.
    + exists (map el p). split; [eapply Permutation_trans; [apply Permutation_map, Hp|rewrite Hcom; auto]|]. intros i j x y Hx Hy. apply nth_error_map_inv in Hx, Hy. destruct Hx as [i' [Hi ->]], Hy as [j' [Hj ->]].
      rewrite <- Hadj, map_length. unfold closedb in Hcl. rewrite forallb_forall in Hcl. assert (Hci : In (i, i') (combine (seq 0 (length p)) p)) by (apply in_combine_seq; auto).
      specialize (Hcl _ Hci). rewrite forallb_forall in Hcl. assert (Hcj : In (j, j') (combine (seq 0 (length p)) p)) by (apply in_combine_seq; auto). specialize (Hcl _ Hcj). cbn [fst snd] in Hcl.
      apply Bool.eqb_prop in Hcl. rewrite Hcl, !orb_true_iff, !andb_true_iff, !Nat.eqb_eq. tauto.
  - intros [l [HP HR]]. pose proof (C37_rings_accepted ngb com l Hok Hs Hin (proj1 H3) HP HR). congruence.
Qed.
(** Two triangles pass for a ring of six. *)
Theorem C37_six_refuted : exists ngb com, ngb_ok ngb /\ symmetric ngb /\ irreflexive ngb /\ StronglySorted lt com /\ (forall c, In c com -> c < length ngb) /\ length com = 6 /\
  is_ring ngb com = Some true /\ ~ exists l, Permutation l com /\ closed_ring ngb l.
Proof.
  set (ngb := [[1; 2]; [0; 2]; [0; 1]; [4; 5]; [3; 5]; [3; 4]]). exists ngb, (seq 0 6). split; [apply ngb_ok_dec; reflexivity|]. split; [apply symmetric_dec; reflexivity|].
  split; [|split; [apply seq_ssorted|]].
  { intros i [l [Hi Hj]]. do 6 (destruct i as [|i]; [simpl in Hi; inversion Hi; subst; simpl in Hj; lia|]). destruct i; discriminate. }
  split; [intros c Hc; apply in_seq in Hc; simpl; lia|]. split; auto. split; [reflexivity|]. intros [l [HP HR]].
  assert (Ll := Permutation_length HP). simpl in Ll.
  assert (Hstep : forall i x y, nth_error l i = Some x -> nth_error l (S i) = Some y -> (x < 3 <-> y < 3)).
  { intros i x y Hx Hy. assert (Hl : linked ngb x y) by (apply (HR i (S i) x y Hx Hy); auto). destruct Hl as [lx [E Hin]].
    do 6 (destruct x as [|x]; [simpl in E; inversion E; subst; simpl in Hin; lia|]). destruct x; discriminate. }
  assert (Hall : forall i x y, nth_error l 0 = Some x -> nth_error l i = Some y -> (x < 3 <-> y < 3)).
  { induction i as [|i IH]; intros x y Hx Hy; [assert (x = y) by congruence; subst; tauto|]. destruct (nth_error_ex l i) as [z Hz]; [apply nth_error_lt in Hy; lia|]. rewrite (IH x z Hx Hz). eapply Hstep; eauto. }
  destruct (nth_error_ex l 0) as [x Hx]; [lia|]. assert (H0 : In 0 l) by (eapply Permutation_in; [symmetry; eauto|simpl; auto]). assert (H5 : In 5 l) by (eapply Permutation_in; [symmetry; eauto|simpl; auto 10]).
  apply In_nth_error in H0, H5. destruct H0 as [i Hi], H5 as [j Hj]. pose proof (Hall _ _ _ Hx Hi). pose proof (Hall _ _ _ Hx Hj). lia.
Qed.
(** No particle at all is accepted as a ring, one or two never are. *)
Theorem C37_tiny ngb com : ngb_ok ngb -> irreflexive ngb -> StronglySorted lt com -> (forall c, In c com -> c < length ngb) -> length com <= 2 -> is_ring ngb com = Some (length com =? 0).
Proof.
  intros Hok Hirr Hs Hin HL. destruct com as [|a com]; [reflexivity|]. destruct (is_ring_spec ngb (a :: com) Hok Hs Hin) as [b [Eb Hb]]. rewrite Eb. f_equal. cbn [length Nat.eqb]. destruct b; auto.
  exfalso. destruct (proj1 Hb eq_refl a (or_introl eq_refl)) as [l [N [L H]]]. assert (Hsub : incl (a :: l) (a :: com)).
  { intros x [<-|Hx]; [simpl; auto|]. apply H in Hx. apply Hx. }
  assert (Na : NoDup (a :: l)) by (constructor; auto; intros Hx; apply H in Hx; eapply Hirr, Hx). pose proof (NoDup_incl_length Na Hsub). simpl in *. lia.
Qed.
Example C37_case : irreflexive ex_ngb /\ is_ring ex_ngb [2; 3; 4; 5; 6] = Some true /\ closed_ring ex_ngb [2; 3; 4; 5; 6] /\ is_ring ex_ngb [1; 2; 3; 4] = Some false.
Proof.
  split; [|split; [reflexivity|split; [|reflexivity]]].
  - intros i [l [Hi Hj]]. do 9 (destruct i as [|i]; [simpl in Hi; inversion Hi; subst; simpl in Hj; lia|]). destruct i; discriminate.
  - intros i j x y Hx Hy. assert (Hi := nth_error_lt _ _ _ Hx). assert (Hj := nth_error_lt _ _ _ Hy). simpl in Hi, Hj. unfold linked.
    do 5 (destruct i as [|i]; [simpl in Hx; inversion Hx; subst; clear Hx; do 5 (destruct j as [|j]; [simpl in Hy; inversion Hy; subst; clear Hy; simpl; split; [intros [l [E Hin]]; inversion E; subst; simpl in Hin; lia|intros H; eexists; split; [reflexivity|simpl; lia]]|]); lia|]). lia.
Qed.

(** C41.  Two different neighbours in the list, none being the particle itself, make an angle of bin k. *)
Definition angle_in_bin (bin : nat -> nat -> nat) (num : nat) (ngbs : list nat) (k : nat) : Prop :=
  exists i j a b, i < j /\ nth_error ngbs i = Some a /\ nth_error ngbs j = Some b /\ a <> num /\ b <> num /\ bin a b = k.
Lemma ang_inner_spec bin num scale a : forall bs d, (forall b, In b bs -> b <> num -> bin a b < length d) ->
  exists d', ang_inner bin num scale a bs d = Some d' /\ length d' = length d /\
    forall k, ((exists b, In b bs /\ b <> num /\ bin a b = k) -> nth_error d' k = Some scale) /\ (~ (exists b, In b bs /\ b <> num /\ bin a b = k) -> nth_error d' k = nth_error d k).
Proof.
  induction bs as [|b bs IH]; intros d H; cbn [ang_inner].
  - exists d. split; auto. split; auto. intros k. split; auto. intros [b [[] _]].
  - destruct (Nat.eqb_spec num b) as [E|E].
    + destruct (IH d) as [d' [E' [L K]]]; [intros; apply H; simpl; auto|]. exists d'. split; auto. split; auto. intros k. destruct (K k) as [K1 K2]. split.
      * intros [b' [[->|Hb] [H1 H2]]]; [congruence|]. apply K1; eauto.
      * intros Hn. apply K2. intros [b' [Hb H1]]. apply Hn. exists b'. simpl. auto.
    + assert (Hlt : bin a b < length d) by (apply H; simpl; auto). destruct (Nat.ltb_spec (bin a b) (length d)); [|lia].
      destruct (IH (set_nth (bin a b) scale d)) as [d' [E' [L K]]]; [intros; rewrite set_nth_len; apply H; simpl; auto|]. rewrite set_nth_len in L. exists d'. split; auto. split; auto.
      intros k. destruct (K k) as [K1 K2]. rewrite set_nth_get in K2 by auto.
      assert (Hd : (exists b', In b' bs /\ b' <> num /\ bin a b' = k) \/ ~ (exists b', In b' bs /\ b' <> num /\ bin a b' = k)).
      { destruct (existsb (fun b' => negb (b' =? num) && (bin a b' =? k)) bs) eqn:X; [left|right].
        - apply existsb_exists in X. destruct X as [b' [X1 X2]]. apply andb_prop in X2. rewrite negb_true_iff, Nat.eqb_neq, Nat.eqb_eq in X2. exists b'. tauto.
        - intros [b' [X1 [X2 X3]]]. assert (existsb (fun b' => negb (b' =? num) && (bin a b' =? k)) bs = true); [|congruence]. apply existsb_exists. exists b'. split; auto. rewrite andb_true_iff, negb_true_iff, Nat.eqb_neq, Nat.eqb_eq. auto. }
      split.
      * intros [b' [[->|Hb] [H1 H2]]]; [|apply K1; eauto]. destruct Hd as [Hd|Hd]; [auto|]. rewrite (K2 Hd). rewrite (proj2 (Nat.eqb_eq _ _)); auto.
      * intros Hn. rewrite K2; [|intros [b' [Hb H1]]; apply Hn; exists b'; simpl; auto]. destruct (Nat.eqb_spec k (bin a b)); auto. exfalso. apply Hn. exists b. simpl. auto.
Qed.
Lemma angle_cons bin num a l k : angle_in_bin bin num (a :: l) k <-> (a <> num /\ exists b, In b l /\ b <> num /\ bin a b = k) \/ angle_in_bin bin num l k.
Proof.
  unfold angle_in_bin. split.
  - intros [[|i] [[|j] [x [y [Hij [Hx [Hy [H1 [H2 H3]]]]]]]]]; try lia; simpl in *.
    + left. inversion Hx; subst. split; auto. exists y. split; auto. eapply nth_error_In; eauto.
    + right. exists i, j, x, y. repeat split; auto. lia.
  - intros [[Ha [b [Hb [H1 H2]]]]|[i [j [x [y [Hij H]]]]]].
    + apply In_nth_error in Hb. destruct Hb as [j Hj]. exists 0, (S j), a, b. repeat split; auto. lia.
    + exists (S i), (S j), x, y. simpl. split; auto. lia.
Qed.
Lemma angle_dec bin num : forall l k, {angle_in_bin bin num l k} + {~ angle_in_bin bin num l k}.
Proof.
  induction l as [|a l IH]; intros k.
  - right. intros [i [j [x [y [_ [Hx _]]]]]]. destruct i; discriminate.
  - destruct (IH k) as [H|H]; [left; apply angle_cons; auto|]. destruct (Nat.eq_dec a num) as [Ha|Ha]; [right; rewrite angle_cons; tauto|].
    destruct (existsb (fun b' => negb (b' =? num) && (bin a b' =? k)) l) eqn:X; [left|right]; rewrite angle_cons.
    + left. split; auto. apply existsb_exists in X. destruct X as [b' [X1 X2]]. apply andb_prop in X2. rewrite negb_true_iff, Nat.eqb_neq, Nat.eqb_eq in X2. exists b'. tauto.
    + intros [[_ [b' [X1 [X2 X3]]]]|H']; auto. assert (existsb (fun b' => negb (b' =? num) && (bin a b' =? k)) l = true); [|congruence]. apply existsb_exists. exists b'. split; auto.
      rewrite andb_true_iff, negb_true_iff, Nat.eqb_neq, Nat.eqb_eq. auto.
Qed.
Lemma ang_loop_spec bin num scale : forall l d, (forall k, angle_in_bin bin num l k -> k < length d) ->
  exists d', ang_loop bin num scale l d = Some d' /\ length d' = length d /\
    forall k, nth_error d' k = if angle_dec bin num l k then Some scale else nth_error d k.
Proof.
  induction l as [|a l IH]; intros d H; cbn [ang_loop].
  - exists d. split; auto. split; auto. intros k. destruct (angle_dec bin num [] k) as [[i [j [x [y [_ [Hx _]]]]]]|]; auto. destruct i; discriminate.
  - assert (Hl : forall k, angle_in_bin bin num l k -> k < length d) by (intros k Hk; apply H, angle_cons; auto). destruct (Nat.eqb_spec num a) as [E|E].
    + destruct (IH d Hl) as [d' [E' [L K]]]. exists d'. split; auto. split; auto. intros k. rewrite K. destruct (angle_dec bin num l k) as [X|X], (angle_dec bin num (a :: l) k) as [Y|Y]; auto; rewrite angle_cons in Y; [tauto|]. destruct Y as [[Y _]|Y]; [congruence|contradiction].
    + destruct (ang_inner_spec bin num scale a l d) as [d1 [E1 [L1 K1]]]; [intros b Hb Hn; apply H, angle_cons; left; split; auto; eauto|]. rewrite E1.
      destruct (IH d1) as [d' [E' [L K]]]; [intros; rewrite L1; auto|]. exists d'. split; auto. split; [lia|]. intros k. rewrite K. destruct (K1 k) as [Ka Kb].
      destruct (angle_dec bin num l k) as [X|X], (angle_dec bin num (a :: l) k) as [Y|Y]; auto; rewrite angle_cons in Y; try tauto.
      apply Kb. intros Z. apply Y. left. split; auto.
Qed.
(** With all angles below 180 degrees: the bins hit, however often, hold the same weight, the others zero. *)
Theorem C41_angles bin num ngbs : (forall k, angle_in_bin bin num ngbs k -> k < 180) -> exists d, angular_distribution bin num ngbs = Some d /\ length d = 180 /\
  forall k, k < 180 -> (angle_in_bin bin num ngbs k -> nth_error d k = Some (ang_scale (length ngbs))) /\ (~ angle_in_bin bin num ngbs k -> nth_error d k = Some (0#1)).
Proof.
  intros H. unfold angular_distribution. destruct (Nat.ltb_spec 1 (length ngbs)) as [Hl|Hl].
  - destruct (ang_loop_spec bin num (ang_scale (length ngbs)) ngbs (repeat (0#1) 180)) as [d [E [L K]]]; [intros; rewrite repeat_length; auto|]. rewrite repeat_length in L. exists d. split; auto. split; auto.
    intros k Hk. rewrite K, nth_error_repeat_x by auto. destruct (angle_dec bin num ngbs k); split; tauto.
  - eexists. split; [reflexivity|]. split; [apply repeat_length|]. intros k Hk. rewrite nth_error_repeat_x by auto. split; auto.
    intros [i [j [a [b [Hij [Hi [Hj _]]]]]]]. apply nth_error_lt in Hi, Hj. lia.
Qed.
(** Two neighbours exactly opposite (angle 180, the largest value of acos) write out of the array. *)
Theorem C41_opposite_refuted : angular_distribution (fun _ _ => 180) 0 [1; 2] = None.
Proof. reflexivity. Qed.
(** The total weight depends on collisions: one angle seen three times weighs a third of three different angles; and three
    different angles weigh three, not one. *)
Definition weight (d : option (list Q)) : Q := match d with Some l => fold_right Qplus (0#1) l | None => 0#1 end.
Theorem C41_total_weight_refuted : exists bin1 bin2, weight (angular_distribution bin1 0 [1; 2; 3]) == 1#1 /\ weight (angular_distribution bin2 0 [1; 2; 3]) == 3#1.
Proof. exists (fun _ _ => 60), (fun a b => 10 * a + b). split; vm_compute; reflexivity. Qed.
Example C41_case : angle_in_bin (fun a b => 10 * a + b) 0 [1; 2; 3] 23.
Proof. exists 1, 2, 2, 3. repeat split; auto. Qed.

(** C42. *)
Theorem C42_second_shell ngb : ngb_ok ngb -> exists s, get_second_shell ngb = Some s /\ StronglySorted lex s /\
  forall p q, In (p, q) s <-> p < q /\ exists c, linked ngb p c /\ linked ngb c q.
Proof.
  intros Hok. apply (rows_fold ngb (shells ngb) (fun p lp s => match second_ngb ngb lp with None => None | Some sec => Some (fold_left (fun s q => bond_insert (mk_bond p q) s) (after p sec) s) end) (fun p q => p < q /\ exists c, linked ngb p c /\ linked ngb c q)); auto.
  - intros p lp rows s. cbn [shells]. destruct (second_ngb ngb lp); auto.
  - intros p lp s Hp Hs. destruct (second_ngb_spec ngb Hok p lp Hp) as [sec [E [Ss [Bs Hsec]]]]. rewrite E. assert (Ha := after_spec p _ (lt_le_sorted _ Ss)).
    destruct (fold_insert p (after p sec) s) as [S1 K1]; auto; [intros q Hq; apply Ha in Hq; tauto|]. eexists. split; [reflexivity|]. split; auto. intros a b. rewrite K1, Ha, Hsec. tauto.
  - intros p b [_ [c [H _]]]. eapply linked_lt; eauto.
Qed.
(** It is neither the pairs at distance two nor the pairs at distance one or two: a triangle 0-1-2 with a tail 2-3-4. *)
Theorem C42_distance_two_refuted : exists ngb s, ngb_ok ngb /\ symmetric ngb /\ get_second_shell ngb = Some s /\
  (exists p q, In (p, q) s /\ linked ngb p q) /\ (exists p q, p < q /\ linked ngb p q /\ ~ In (p, q) s).
Proof.
  exists [[1; 2]; [0; 2]; [0; 1; 3]; [2; 4]; [3]]. eexists. split; [apply ngb_ok_dec; reflexivity|]. split; [apply symmetric_dec; reflexivity|]. split; [vm_compute; reflexivity|]. split.
  - exists 0, 1. split; [simpl; auto|]. eexists. split; [reflexivity|simpl; auto].
  - exists 2, 3. split; auto. split; [eexists; split; [reflexivity|simpl; auto]|]. simpl. intuition discriminate.
Qed.
Print Assumptions C34_bond_sets. Print Assumptions C34_round_trip. Print Assumptions C34_round_trip_back. Print Assumptions C34_out_of_range.
Print Assumptions C36_1551. Print Assumptions C36_2331. Print Assumptions C36_sp5c. Print Assumptions C37_rings_accepted. Print Assumptions C37_small. Print Assumptions C37_six_refuted. Print Assumptions C37_tiny.
Print Assumptions C41_angles. Print Assumptions C42_second_shell. Print Assumptions C42_distance_two_refuted.

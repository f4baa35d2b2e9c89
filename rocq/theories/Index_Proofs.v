(** Proofs about the indexes. *)
Require Import ZArith List Bool Arith Lia Permutation Sorted.
Require Import Verif.Base Verif.SortU Verif.Box_Model Verif.Box_Spec Verif.Box_Proofs Verif.RTree_Model Verif.RTree_Spec
  Verif.RTree_Proofs Verif.RTree_Hull Verif.RTree_Props Verif.Index_Model Verif.Index_Spec.
Import ListNotations.

Definition lf_of (p : nat * box) : leaf := mkLeaf (fst p) (snd p).
Definition to_op (o : iop) : op := match o with IInsert i b => OpInsert (mkLeaf i b) | ITranslate v => OpTranslate v end.

Lemma rstar_run_run c : forall ops t, rstar_run c t ops = run c t (map to_op ops).
Proof.
  induction ops as [|o ops IH]; intros t; simpl; auto. destruct o; simpl.
  - unfold rstar_insert. destruct (insert c t _); auto.
  - apply IH.
Qed.

Lemma content_spec : forall ops S acc S', Permutation S (map lf_of acc) -> spec_run S (map to_op ops) S' ->
  Permutation S' (map lf_of (content acc ops)).
Proof.
  induction ops as [|o ops IH]; intros S acc S' Hp Hr; simpl in Hr; inversion Hr; subst; simpl.
  - eapply Permutation_trans; [apply Permutation_sym; eauto|auto].
  - destruct o; simpl in *; match goal with H : spec_step _ _ _ |- _ => inversion H; subst end.
    + eapply IH; [|eauto]. simpl. eapply Permutation_trans; [eauto|]. unfold lf_of at 1; simpl. auto.
    + eapply IH; [|eauto]. eapply Permutation_trans; [eauto|].
      rewrite map_map. simpl. eapply Permutation_trans; [apply Permutation_map; eauto|].
      rewrite map_map. apply Permutation_refl.
Qed.

Lemma rstar_run_ok c ops : config_ok c -> Forall (iop_dim (dims c)) ops ->
  exists t, rstar_run c empty_tree ops = Some t /\ reachable c t /\ Permutation (tleaves t) (map lf_of (contents ops)).
Proof.
  intros Hok Hd.
  assert (Ho : Forall (op_ok c) (map to_op ops)).
  { rewrite Forall_map. eapply Forall_impl; [|exact Hd]. intros []; simpl; auto. }
  destruct (run_spec c Hok _ empty_tree (wft_empty c) Ho) as (t & E & _ & Hr).
  exists t. rewrite rstar_run_run. split; auto. split; [exists (map to_op ops); auto|].
  eapply content_spec; [|exact Hr]. constructor.
Qed.

Lemma content_dim d : forall ops acc, Forall (iop_dim d) ops -> Forall (fun p => length (snd p) = d) acc ->
  Forall (fun p => length (snd p) = d) (content acc ops).
Proof.
  induction ops as [|o ops IH]; intros acc Ho Ha; simpl; auto. inversion Ho; subst.
  destruct o; simpl in *; apply IH; auto.
  rewrite Forall_map. eapply Forall_impl; [|exact Ha]. simpl. intros p Hp. rewrite translate_length. auto.
Qed.

Lemma overlaps_meets q : forall b, length q = length b -> overlaps q b = true <-> meets b q.
Proof.
  unfold meets. induction q as [|e q IH]; intros [|f b] Hl; simpl in Hl; try discriminate; [simpl; split; auto; constructor|].
  rewrite overlaps_cons, !andb_true_iff, !Z.ltb_lt, IH by lia. split.
  - intros [[? ?] ?]. constructor; auto.
  - intros H; inversion H; subst; auto.
Qed.

Lemma solid_meets b r : solid b -> sub b r -> meets b r.
Proof.
  unfold solid, sub, meets. intros Hs Hsub. induction Hsub; inversion Hs; subst; constructor; [lia|apply IHHsub; assumption].
Qed.

Lemma rstar_query_flat c ops t q : config_ok c -> Forall (iop_dim (dims c)) ops -> length q = dims c ->
  rstar_run c empty_tree ops = Some t -> selects_but_flat (contents ops) q (rstar_query t q).
Proof.
  intros Hok Hd Hq E. destruct (rstar_run_ok c ops Hok Hd) as (t' & E' & Hr & Hp).
  assert (t' = t) by congruence. subst t'.
  assert (Hcd : Forall (fun p => length (snd p) = dims c) (contents ops)) by (apply content_dim; auto).
  rewrite Forall_forall in Hcd.
  destruct (C06_enclosing_query_misses_only_flat_leaves c t q Hok Hr Hq) as (missed & Hpm & Hm).
  split; [apply sort_unique_sorted|]. split.
  - intros i Hi. unfold rstar_query in Hi. rewrite sort_unique_in in Hi. apply in_map_iff in Hi. destruct Hi as [l [<- Hl]].
    assert (Hin : In l (filter (fun l => encloses q (lbox l)) (tleaves t))).
    { eapply Permutation_in; [exact Hpm|]. apply in_or_app; auto. }
    apply filter_In in Hin. destruct Hin as [Hin He].
    assert (Hin' : In l (map lf_of (contents ops))) by (eapply Permutation_in; eauto).
    apply in_map_iff in Hin'. destruct Hin' as [[i b] [<- Hib]]. exists b. split; auto.
    apply encloses_sub; auto. simpl. rewrite Hq. symmetry. apply (Hcd _ Hib).
  - intros i b Hib Hsub Hmeet. unfold rstar_query. rewrite sort_unique_in. apply in_map_iff. exists (lf_of (i, b)). split; auto.
    assert (Hlq : length q = length b) by (rewrite Hq; symmetry; apply (Hcd _ Hib)).
    assert (Hin : In (lf_of (i, b)) (gather (AcceptEnclosing q) t ++ missed)).
    { eapply Permutation_in; [apply Permutation_sym; exact Hpm|]. apply filter_In. split.
      - eapply Permutation_in; [apply Permutation_sym; exact Hp|]. apply in_map; auto.
      - simpl. apply encloses_sub; auto. }
    apply in_app_or in Hin. destruct Hin as [|Hmi]; auto. exfalso.
    specialize (Hm _ Hmi). simpl in Hm. apply (proj2 (overlaps_meets q b Hlq)) in Hmeet. congruence.
Qed.

Lemma selects_flat_solid items r ids : (forall i b, In (i, b) items -> solid b) ->
  selects_but_flat items r ids -> selects items (fun b => sub b r) ids.
Proof.
  intros Hs (H1 & H2 & H3). split; auto. intros i; split; auto. intros (b & Hib & Hsub). eapply H3; eauto.
  apply solid_meets; eauto.
Qed.

Lemma selects_unique items P l1 l2 : selects items P l1 -> selects items P l2 -> l1 = l2.
Proof. intros [S1 H1] [S2 H2]. apply ssorted_ext; auto. intros i. rewrite H1, H2. tauto. Qed.

(** Brute force *)
Lemma brute_run_ok : forall ops x x' acc, b_overall x <> Uninit ->
  Permutation (b_items x) acc -> brute_run x ops = Some x' -> Permutation (b_items x') (content acc ops).
Proof.
  induction ops as [|o ops IH]; intros x x' acc Hu Hp E; simpl in E.
  - injection E as <-; auto.
  - destruct o as [i b|v]; simpl in *.
    + unfold brute_insert in E. destruct (b_overall x) eqn:Eo; [congruence| |];
        (eapply IH; [| |exact E]; simpl; [discriminate|]; eapply Permutation_trans; [apply ins_perm|]; auto).
    + eapply IH; [| |exact E]; simpl; auto. apply Permutation_map; auto.
Qed.

Lemma brute_run_defined : forall ops x, b_overall x <> Uninit -> exists x', brute_run x ops = Some x'.
Proof.
  induction ops as [|o ops IH]; intros x Hu; simpl; [eauto|].
  destruct o as [i b|v]; simpl.
  - unfold brute_insert. destruct (b_overall x); [congruence| |]; apply IH; simpl; discriminate.
  - apply IH; auto.
Qed.

Lemma brute_query_selects ops x q : Forall (iop_dim (length q)) ops ->
  brute_run (mkBrute Null []) ops = Some x -> selects (contents ops) (fun b => sub b q) (brute_query x q).
Proof.
  intros Hd E. apply (brute_run_ok ops (mkBrute Null []) x []) in E; [|discriminate|constructor].
  assert (Hcd : Forall (fun p => length (snd p) = length q) (contents ops)) by (apply content_dim; auto).
  rewrite Forall_forall in Hcd.
  split; [apply sort_unique_sorted|]. intros i. unfold brute_query. rewrite sort_unique_in, in_map_iff. split.
  - intros [[i' b] [Hi Hin]]. simpl in Hi; subst i'. apply filter_In in Hin. destruct Hin as [Hin He].
    assert (Hc : In (i, b) (contents ops)) by (eapply Permutation_in; eauto).
    exists b. split; auto. apply encloses_sub; auto. symmetry. apply (Hcd _ Hc).
  - intros (b & Hc & Hs). exists (i, b). split; auto. apply filter_In. split.
    + eapply Permutation_in; [apply Permutation_sym; exact E|auto].
    + simpl. apply encloses_sub; auto. symmetry. apply (Hcd _ Hc).
Qed.

(** getInside *)
Lemma shrink_region margin : forall k h, region margin k h (shrink margin k h).
Proof.
  induction k as [|k IH]; intros h.
  - split; [destruct h; reflexivity|]. intros n e He. destruct h; simpl shrink; rewrite He; reflexivity.
  - destruct h as [|e h]; simpl.
    + split; auto. intros n e' He. destruct n; discriminate.
    + destruct (IH h) as [IH1 IH2]. split; [simpl; rewrite IH1; auto|]. intros n e' He.
      destruct n as [|n]; simpl in *.
      * injection He as <-. destruct (2 * margin <? snd e - fst e)%Z; auto.
      * apply (IH2 n e'); auto.
Qed.

Lemma region_sub_away margin : forall k h r b, region margin k h r -> sub b h -> (sub b r <-> away margin k h b).
Proof.
  intros k h r b [Hl Hr] Hsub. split.
  - intros Hs n e f Hn He Hf Hw.
    specialize (Hr n e He). assert ((n <? k) = true) as Hnk by (apply Nat.ltb_lt; auto).
    rewrite Hnk in Hr. assert ((2 * margin <? snd e - fst e)%Z = true) as Hwt by (apply Z.ltb_lt; auto).
    rewrite Hwt in Hr. simpl in Hr.
    assert (H2 : forall b r n f g, sub b r -> nth_error b n = Some f -> nth_error r n = Some g -> (fst g <= fst f /\ snd f <= snd g)%Z).
    { clear. intros b r n f g Hs. revert n f g. induction Hs; intros [|n] f g H1 H2; simpl in *; try discriminate.
      - injection H1 as <-. injection H2 as <-. auto.
      - eapply IHHs; eauto. }
    specialize (H2 b r n f _ Hs Hf Hr). simpl in H2. auto.
  - intros Ha. revert k r Hl Hr Ha. unfold away.
    induction Hsub as [|f e b h Hf Hsub IH]; intros k r Hl Hr Ha; destruct r as [|g r]; simpl in Hl; try discriminate; [constructor|].
    constructor.
    + specialize (Hr 0 e eq_refl). cbn [nth_error] in Hr.
      apply (f_equal (fun o => match o with Some x => x | None => g end)) in Hr. cbv beta iota in Hr. rewrite Hr.
      destruct (0 <? k) eqn:Ek; cbn [andb]; auto.
      destruct (2 * margin <? snd e - fst e)%Z eqn:Ew; auto. cbn [fst snd].
      apply Nat.ltb_lt in Ek. apply Z.ltb_lt in Ew. apply (Ha 0 e f); auto.
    + apply (IH (k - 1) r); [lia| |].
      * intros n e' He. specialize (Hr (S n) e' He). simpl in Hr. rewrite Hr. 
        replace (n <? k - 1) with (S n <? k); auto.
        apply Bool.eq_iff_eq_true. rewrite !Nat.ltb_lt. lia.
      * intros n e' f' Hn He Hf'. apply (Ha (S n)); auto. lia.
Qed.

Lemma region_unique margin k h r1 r2 : region margin k h r1 -> region margin k h r2 -> r1 = r2.
Proof.
  intros [L1 H1] [L2 H2]. apply nth_error_ext. intros n. destruct (nth_error h n) as [e|] eqn:E.
  - rewrite (H1 n e E), (H2 n e E). reflexivity.
  - apply nth_error_None in E. transitivity (@None edge); [|symmetry]; apply nth_error_None; lia.
Qed.

(** numbered items *)
Lemma content_inserts : forall ps acc, content acc (map (fun p => IInsert (fst p) (snd p)) ps) = rev ps ++ acc.
Proof.
  induction ps as [|[i b] ps IH]; intros acc; simpl; auto. rewrite IH, <- app_assoc. reflexivity.
Qed.
Lemma contents_numbered items i b : In (i, b) (contents (numbered items)) <-> nth_error items i = Some b.
Proof.
  unfold contents, numbered. rewrite content_inserts, app_nil_r, <- in_rev.
  assert (H : forall (items : list box) s i (b : box), In (i, b) (combine (seq s (length items)) items) <-> s <= i /\ nth_error items (i - s) = Some b).
  { clear. induction items as [|x items IH]; intros s i b; simpl.
    - split; [tauto|]. intros [_ H]. destruct (i - s); discriminate.
    - rewrite IH. split.
      + intros [H|[H1 H2]]; [injection H as <- <-; rewrite Nat.sub_diag; auto|].
        split; [lia|]. replace (i - s) with (S (i - S s)) by lia. auto.
      + intros [H1 H2]. destruct (Nat.eq_dec s i) as [<-|Hne].
        * rewrite Nat.sub_diag in H2. simpl in H2. injection H2 as ->. auto.
        * right. split; [lia|]. replace (i - s) with (S (i - S s)) in H2 by lia. auto. }
  rewrite H, Nat.sub_0_r. split; [tauto|]. split; auto. lia.
Qed.
Lemma numbered_dim d items : Forall (fun b => length b = d) items -> Forall (iop_dim d) (numbered items).
Proof.
  intros H. unfold numbered. rewrite Forall_map. apply Forall_forall. intros [i b] Hin. simpl.
  rewrite Forall_forall in H. apply H. eapply in_combine_r; eauto.
Qed.
Lemma numbered_inserts items : map to_op (numbered items) =
  map OpInsert (map lf_of (combine (seq 0 (length items)) items)).
Proof. unfold numbered. rewrite !map_map. reflexivity. Qed.
Lemma numbered_boxes items : map lbox (map lf_of (combine (seq 0 (length items)) items)) = items.
Proof.
  rewrite map_map. simpl. generalize 0. induction items as [|b items IH]; intros s; simpl; auto. f_equal; auto.
Qed.

Lemma brute_overall_fold : forall ops x b, b_overall x = Ptr b -> (forall o, In o ops -> exists i c, o = IInsert i c) ->
  exists x', brute_run x ops = Some x' /\
   b_overall x' = Ptr (fold_left stretch (flat_map (fun o => match o with IInsert _ c => [c] | _ => [] end) ops) b).
Proof.
  induction ops as [|o ops IH]; intros x b Hb Hi; simpl; [eauto|].
  destruct (Hi o (or_introl eq_refl)) as (i & c & ->). simpl. unfold brute_insert. rewrite Hb.
  apply IH; auto. intros; apply Hi; simpl; auto.
Qed.

(** * Temporal index *)
Lemma set_nth_length {A} : forall i (x : A) l, length (set_nth i x l) = length l.
Proof. induction i; intros x [|y l]; simpl; auto. Qed.
Lemma set_nth_nth {A} : forall i (x : A) l j, i < length l ->
  nth_error (set_nth i x l) j = if j =? i then Some x else nth_error l j.
Proof.
  induction i as [|i IH]; intros x [|y l] j Hi; simpl in Hi; try lia.
  - destruct j; auto.
  - destruct j; simpl; auto. rewrite IH by lia. auto.
Qed.
Lemma upd_nth_nth {A} i (f : A -> A) l j : nth_error (upd_nth i f l) j =
  if j =? i then option_map f (nth_error l j) else nth_error l j.
Proof.
  unfold upd_nth. destruct (nth_error l i) as [x|] eqn:E.
  - rewrite set_nth_nth by (apply nth_error_Some; congruence).
    destruct (Nat.eqb_spec j i) as [->|]; auto. rewrite E. auto.
  - destruct (Nat.eqb_spec j i) as [->|]; auto. rewrite E. auto.
Qed.
Lemma upd_nth_length {A} i (f : A -> A) l : length (upd_nth i f l) = length l.
Proof. unfold upd_nth. destruct (nth_error l i); auto. apply set_nth_length. Qed.
Lemma grow_length {A} (d : A) n l : length (grow d n l) = Nat.max (length l) (S n).
Proof. unfold grow. rewrite app_length, repeat_length. lia. Qed.
Lemma grow_nth {A} (d : A) n l j : j < Nat.max (length l) (S n) ->
  nth_error (grow d n l) j = Some (match nth_error l j with Some x => x | None => d end).
Proof.
  intros Hj. unfold grow. destruct (nth_error l j) as [x|] eqn:E.
  - rewrite nth_error_app1; auto. apply nth_error_Some. congruence.
  - apply nth_error_None in E. rewrite nth_error_app2 by auto. apply nth_error_repeat. lia.
Qed.
Lemma set_insert_in x y : forall l, In y (set_insert x l) <-> y = x \/ In y l.
Proof.
  induction l as [|z l IH]; simpl; [intuition|]. destruct (x <? z); [simpl; intuition|].
  destruct (Nat.eqb_spec x z) as [->|]; [simpl; intuition|]. simpl. rewrite IH. intuition.
Qed.

(** Cell [s],[d] of the tree, empty when it does not exist. *)
Definition cell (tree : list (list (list nat))) (s d : nat) : list nat :=
  match nth_error tree s with
  | Some row => match nth_error row d with Some l => l | None => [] end
  | None => []
  end.

Definition t_content (x : tindex) (items : list (nat * (nat * nat))) : Prop :=
  (forall s d i, In i (cell (ti_tree x) s d) <-> In (i, (s, s + d)) items) /\
  (forall i s e, In (i, (s, e)) items -> s <= e) /\
  (forall n, n < length (ti_tree x) <-> exists i s e, In (i, (s, e)) items /\ n <= s).

Lemma t_insert_cell tree s e i s' d' : s <= e ->
  In i (cell (upd_nth s (fun row => upd_nth (e - s) (set_insert i) (grow [] (e - s) row)) (grow [] s tree)) s' d') <->
  (s' = s /\ d' = e - s) \/ In i (cell tree s' d').
Proof.
  intros Hse. unfold cell. rewrite upd_nth_nth.
  destruct (Nat.eqb_spec s' s) as [->|Hs].
  - rewrite grow_nth by lia. simpl. rewrite upd_nth_nth.
    assert (Hrow : forall row : list (list nat), 
      In i match (if d' =? e - s then option_map (set_insert i) (nth_error (grow [] (e - s) row) d') else nth_error (grow [] (e - s) row) d') with Some l => l | None => [] end <->
      (d' = e - s \/ In i match nth_error row d' with Some l => l | None => [] end)).
    { intros row. destruct (Nat.eqb_spec d' (e - s)) as [->|Hd].
      - rewrite grow_nth by lia. simpl. rewrite set_insert_in. tauto.
      - destruct (Nat.lt_ge_cases d' (Nat.max (length row) (S (e - s)))) as [Hlt|Hge].
        + rewrite grow_nth by auto. tauto.
        + replace (nth_error (grow [] (e - s) row) d') with (@None (list nat)).
          * replace (nth_error row d') with (@None (list nat)); [tauto|].
            symmetry. apply nth_error_None. lia.
          * symmetry. apply nth_error_None. rewrite grow_length. lia. }
    rewrite Hrow. destruct (nth_error tree s); [tauto|].
    assert (Hn : In i match nth_error (@nil (list nat)) d' with Some l => l | None => [] end <-> False) by (destruct d'; simpl; tauto).
    rewrite Hn. simpl. tauto.
  - destruct (Nat.lt_ge_cases s' (Nat.max (length tree) (S s))) as [Hlt|Hge].
    + rewrite grow_nth by auto. destruct (nth_error tree s'); [tauto|].
      destruct d'; simpl; tauto.
    + replace (nth_error (grow [] s tree) s') with (@None (list (list nat))).
      * replace (nth_error tree s') with (@None (list (list nat))); [tauto|]. symmetry. apply nth_error_None. lia.
      * symmetry. apply nth_error_None. rewrite grow_length. lia.
Qed.

Lemma t_insert_cell_other tree s e i j s' d' : s <= e -> j <> i ->
  In j (cell (upd_nth s (fun row => upd_nth (e - s) (set_insert i) (grow [] (e - s) row)) (grow [] s tree)) s' d') <->
  In j (cell tree s' d').
Proof.
  intros Hse Hji. unfold cell. rewrite upd_nth_nth.
  destruct (Nat.eqb_spec s' s) as [->|Hs].
  - rewrite grow_nth by lia. simpl. rewrite upd_nth_nth.
    assert (Hrow : forall row : list (list nat), 
      In j match (if d' =? e - s then option_map (set_insert i) (nth_error (grow [] (e - s) row) d') else nth_error (grow [] (e - s) row) d') with Some l => l | None => [] end <->
      (In j match nth_error row d' with Some l => l | None => [] end)).
    { intros row. destruct (Nat.eqb_spec d' (e - s)) as [->|Hd].
      - rewrite grow_nth by lia. simpl. rewrite set_insert_in. tauto.
      - destruct (Nat.lt_ge_cases d' (Nat.max (length row) (S (e - s)))) as [Hlt|Hge].
        + rewrite grow_nth by auto. tauto.
        + replace (nth_error (grow [] (e - s) row) d') with (@None (list nat)).
          * replace (nth_error row d') with (@None (list nat)); [tauto|].
            symmetry. apply nth_error_None. lia.
          * symmetry. apply nth_error_None. rewrite grow_length. lia. }
    rewrite Hrow. destruct (nth_error tree s); [tauto|].
    assert (Hn : In j match nth_error (@nil (list nat)) d' with Some l => l | None => [] end <-> False) by (destruct d'; simpl; tauto).
    rewrite Hn. simpl. tauto.
  - destruct (Nat.lt_ge_cases s' (Nat.max (length tree) (S s))) as [Hlt|Hge].
    + rewrite grow_nth by auto. destruct (nth_error tree s'); [tauto|].
      destruct d'; simpl; tauto.
    + replace (nth_error (grow [] s tree) s') with (@None (list (list nat))).
      * replace (nth_error tree s') with (@None (list (list nat))); [tauto|]. symmetry. apply nth_error_None. lia.
      * symmetry. apply nth_error_None. rewrite grow_length. lia.
Qed.

Lemma t_insert_spec x i s e items : ti_overall x <> Uninit -> t_content x items -> s <= e ->
  exists x', t_insert x i (s, e) = Some x' /\ t_content x' ((i, (s, e)) :: items) /\ ti_overall x' <> Uninit /\
    ti_overall x' = Ptr (match ti_overall x with Ptr (a, b) => (Nat.min a s, Nat.max b e) | _ => (s, e) end).
Proof.
  intros Hu (Hc & Hle & Hlen) Hse. unfold t_insert.
  assert ((e <? s) = false) as -> by (apply Nat.ltb_ge; auto).
  set (tree2 := upd_nth s (fun row => upd_nth (e - s) (set_insert i) (grow [] (e - s) row)) (grow [] s (ti_tree x))).
  assert (Hcont : forall o, t_content (mkTIndex tree2 o) ((i, (s, e)) :: items)).
  { intros o. split; [|split].
    - intros s' d' j. simpl ti_tree. destruct (Nat.eq_dec j i) as [->|Hji].
      + unfold tree2. rewrite t_insert_cell by auto. rewrite Hc. simpl. split; intros [H|H]; auto.
        * destruct H as [-> ->]. left. f_equal. f_equal. lia.
        * injection H as <- Hed. left. lia.
      + unfold tree2. rewrite t_insert_cell_other by auto. rewrite Hc. simpl. split; auto. intros [H|H]; auto. congruence.
    - intros j s' e' [H|H]; [injection H as <- <- <-; auto | eauto].
    - intros n. simpl ti_tree. unfold tree2. rewrite upd_nth_length, grow_length. split.
      + intros Hn. destruct (Nat.lt_ge_cases n (length (ti_tree x))) as [H|H].
        * apply Hlen in H. destruct H as (j & s' & e' & Hin & Hns). exists j, s', e'. simpl; auto.
        * exists i, s, e. simpl. split; auto. lia.
      + intros (j & s' & e' & [Hin|Hin] & Hns).
        * injection Hin as <- <- <-. lia.
        * assert (n < length (ti_tree x)) by (apply Hlen; eauto). lia. }
  destruct (ti_overall x) as [| |[a b]] eqn:Eo; [congruence| |]; eexists; (split; [reflexivity|]); (split; [apply Hcont|]); split; try discriminate; reflexivity.
Qed.

Lemma t_rows_some tree tail : forall ts, (forall t, In t ts -> t < length tree) ->
  exists r, t_rows tree tail ts = Some r /\
    forall i, In i r <-> exists t row, In t ts /\ nth_error tree t = Some row /\ In i (concat (tail row)).
Proof.
  induction ts as [|t ts IH]; intros Hb; simpl.
  - exists []. split; auto. intros i. split; [simpl; tauto|]. intros (t & row & [] & _).
  - destruct (nth_error tree t) as [row|] eqn:E.
    + destruct IH as (r & Er & Hr); [intros; apply Hb; simpl; auto|]. rewrite Er. eexists; split; [reflexivity|].
      intros i. rewrite in_app_iff, Hr. split.
      * intros [H|(t' & row' & H1 & H2 & H3)]; [exists t, row; simpl; auto | exists t', row'; simpl; auto].
      * intros (t' & row' & [<-|H1] & H2 & H3); [left; congruence|]. right. exists t', row'. auto.
    + exfalso. apply nth_error_None in E. specialize (Hb t (or_introl eq_refl)). lia.
Qed.

Lemma nth_error_skipn {A} : forall d (l : list A) n, nth_error (skipn d l) n = nth_error l (d + n).
Proof.
  induction d as [|d IH]; intros [|x l] n; simpl; auto. destruct n; auto.
Qed.

Lemma in_concat_skipn {A} (d : nat) (row : list (list A)) i :
  In i (concat (skipn d row)) <-> exists k l, d <= k /\ nth_error row k = Some l /\ In i l.
Proof.
  rewrite in_concat. split.
  - intros (l & Hl & Hi). apply In_nth_error in Hl. destruct Hl as [n Hn]. exists (d + n), l.
    rewrite nth_error_skipn in Hn. repeat split; auto. lia.
  - intros (k & l & Hk & Hn & Hi). exists l. split; auto. apply nth_error_In with (n := k - d).
    rewrite nth_error_skipn. replace (d + (k - d)) with k by lia. auto.
Qed.

Lemma t_query_spec x items a b : t_content x items -> a <= b -> a < length (ti_tree x) ->
  exists r, t_query x (a, b) = Some r /\ StronglySorted lt r /\
    forall i, In i r <-> exists s e, In (i, (s, e)) items /\ s <= a /\ b - a <= e - s.
Proof.
  intros (Hc & Hle & Hlen) Hab Ha. unfold t_query.
  assert ((b <? a) = false) as -> by (apply Nat.ltb_ge; auto).
  replace (Nat.min a (length (ti_tree x))) with a by lia.
  destruct (t_rows_some (ti_tree x) (skipn (b - a)) (seq 0 (S a))) as (r & Er & Hr).
  { intros t Ht. apply in_seq in Ht. lia. }
  rewrite Er. eexists; split; [reflexivity|]. split; [apply sort_unique_sorted|].
  intros i. rewrite sort_unique_in, Hr. split.
  - intros (t & row & Ht & Hrow & Hi). apply in_concat_skipn in Hi. destruct Hi as (k & l & Hk & Hl & Hi).
    apply in_seq in Ht. exists t, (t + k). split; [|lia].
    apply (Hc t k). unfold cell. rewrite Hrow, Hl. auto.
  - intros (s & e & Hin & Hs & He). pose proof (Hle _ _ _ Hin).
    replace e with (s + (e - s)) in Hin by lia. apply (Hc s (e - s)) in Hin. unfold cell in Hin.
    destruct (nth_error (ti_tree x) s) as [row|] eqn:Erow; [|destruct Hin].
    destruct (nth_error row (e - s)) as [l|] eqn:El; [|destruct Hin].
    exists s, row. split; [apply in_seq; lia|]. split; auto. apply in_concat_skipn. exists (e - s), l. auto.
Qed.

Lemma t_query_ub x a b : length (ti_tree x) <= a -> t_query x (a, b) = None.
Proof.
  intros Ha. unfold t_query. replace (Nat.min a (length (ti_tree x))) with (length (ti_tree x)) by lia.
  set (tail := if b <? a then _ else _).
  assert (H : forall ts, In (length (ti_tree x)) ts -> t_rows (ti_tree x) tail ts = None).
  { induction ts as [|t ts IH]; [intros []|]. intros Hin; cbn [t_rows]. destruct (nth_error (ti_tree x) t) as [row|] eqn:E; auto.
    destruct Hin as [->|Hin].
    - exfalso. assert (length (ti_tree x) < length (ti_tree x)) by (apply nth_error_Some; congruence). lia.
    - rewrite IH; auto. }
  rewrite H; auto. apply in_seq. lia.
Qed.

Lemma t_run_spec : forall its x items, ti_overall x <> Uninit -> t_content x items ->
  Forall (fun p => fst (snd p) <= snd (snd p)) its ->
  exists x', t_run x its = Some x' /\ t_content x' (rev its ++ items).
Proof.
  induction its as [|[i [s e]] its IH]; intros x items Hu Hc Hf; [simpl; eauto|].
  inversion Hf; subst. cbn [fst snd] in *.
  destruct (t_insert_spec x i s e items Hu Hc ltac:(auto)) as (x' & E & Hc' & Hu' & _). 
  cbn [t_run]. rewrite E. destruct (IH x' _ Hu' Hc' ltac:(auto)) as (x'' & E' & Hc'').
  exists x''. split; auto. simpl. rewrite <- app_assoc. auto.
Qed.

Lemma t_content_empty p : t_content (mkTIndex [] p) [].
Proof.
  split; [|split].
  - intros s d i. unfold cell. simpl. destruct s; simpl; tauto.
  - intros i s e [].
  - intros n. simpl. split; [lia|]. intros (i & s & e & [] & _).
Qed.

Require Import ZArith List Bool Arith Lia Permutation.
Require Import Verif.Base Verif.Box_Model Verif.Box_Spec Verif.Box_Proofs Verif.RTree_Model Verif.RTree_Spec.
Import ListNotations.

(** * Lists *)
Lemma set_nth_app {A} (l1 : list A) x y l2 : set_nth (length l1) y (l1 ++ x :: l2) = l1 ++ y :: l2.
Proof. induction l1; simpl; congruence. Qed.

Definition leaf_dec (x y : leaf) : {x = y} + {x <> y}.
Proof. repeat decide equality. Defined.
Ltac lperm := perm leaf_dec.

(** * Covers *)
Lemma fold_stretch_length : forall bs b, length (fold_left stretch bs b) = length b.
Proof. induction bs; simpl; intros; auto. rewrite IHbs. apply stretch_length. Qed.

Lemma cover_length d bs : length (cover d bs) = d.
Proof. unfold cover. rewrite fold_stretch_length. unfold reset_box. apply repeat_length. Qed.

Lemma fold_stretch_acc : forall bs b, Forall (fun x => length x = length b) bs ->
  sub b (fold_left stretch bs b).
Proof.
  induction bs as [|x bs IH]; simpl; intros b H; [apply sub_refl|].
  inversion H; subst. eapply sub_trans; [apply stretch_sub_l|apply IH]; auto.
  eapply Forall_impl; [|eassumption]. intros; rewrite stretch_length; auto.
Qed.

Lemma fold_stretch_in : forall bs b x, Forall (fun x => length x = length b) bs -> In x bs ->
  sub x (fold_left stretch bs b).
Proof.
  induction bs as [|y bs IH]; simpl; intros b x H Hx; [tauto|].
  inversion H; subst.
  assert (Hf : Forall (fun x => length x = length (stretch b y)) bs).
  { eapply Forall_impl; [|eassumption]. intros; rewrite stretch_length; auto. }
  destruct Hx as [<-|Hx].
  - eapply sub_trans; [|apply fold_stretch_acc; auto]. apply stretch_sub_r; auto.
  - apply IH; auto.
Qed.

Lemma cover_in d bs x : Forall (fun x => length x = d) bs -> In x bs -> sub x (cover d bs).
Proof.
  intros H Hx. apply fold_stretch_in; auto. unfold reset_box. rewrite repeat_length. auto.
Qed.

Lemma fold_stretch_least : forall bs b h, sub b h -> Forall (fun x => sub x h) bs ->
  sub (fold_left stretch bs b) h.
Proof.
  induction bs as [|x bs IH]; simpl; intros b h Hb H; auto.
  inversion H; subst. apply IH; auto. apply stretch_least; auto.
Qed.

(** * Invariant, indexed by height *)
Fixpoint wfn (c : config) (lo : nat) (h : nat) (n : node) : Prop :=
  match h, n with
  | O, NL b items =>
      length b = dims c /\ lo <= length items <= max_items c /\ Forall (fun l => sub (lbox l) b) items
  | S h', NI b items =>
      length b = dims c /\ (1 <= length items /\ lo <= length items <= max_items c) /\
      Forall (wfn c (min_items c) h') items /\
      Forall (fun l => sub (lbox l) b) (flat_map leaves items)
  | _, _ => False
  end.

Lemma wfn_box c lo h n : wfn c lo h n -> length (nbox n) = dims c.
Proof. destruct h, n; simpl; tauto. Qed.

Lemma wfn_leaves c lo h n : wfn c lo h n -> Forall (fun l => sub (lbox l) (nbox n)) (leaves n).
Proof. destruct h, n; simpl; tauto. Qed.

Lemma wfn_leaves_dim c lo h n : wfn c lo h n -> Forall (fun l => length (lbox l) = dims c) (leaves n).
Proof.
  intros H. eapply Forall_impl; [|apply (wfn_leaves _ _ _ _ H)].
  intros l Hl. apply sub_length in Hl. rewrite Hl. eapply wfn_box; eauto.
Qed.

Lemma wfn_weaken c lo lo' h n : lo' <= lo -> wfn c lo h n -> wfn c lo' h n.
Proof. destruct h, n; simpl; intros; intuition lia. Qed.

Lemma wfn_height c : 2 <= min_items c -> forall h lo n, wfn c lo h n -> height n = S h.
Proof.
  intros Hm. induction h; intros lo [b items|b items]; simpl; try tauto.
  intros (_ & Hlen & Hf & _). f_equal.
  destruct items as [|x items]; [simpl in Hlen; lia|].
  assert (Hx : forall y, In y (x :: items) -> height y = S h).
  { intros y Hy. rewrite Forall_forall in Hf. eapply IHh; eauto. }
  assert (forall l, (forall y, In y l -> height y = S h) -> list_max (map height l) <= S h).
  { intros l Hl. apply list_max_le. apply Forall_map. rewrite Forall_forall. intros y Hy. rewrite Hl; auto. }
  specialize (H (x :: items) Hx). simpl in *.
  rewrite (Hx x (or_introl eq_refl)) in *. lia.
Qed.

Definition oleaves (o : option node) : list leaf := match o with Some n => leaves n | None => [] end.

Section Ok.
  Variable c : config.
  Hypothesis Hok : config_ok c.

  Let Hm2 : 2 <= min_items c. Proof. apply Hok. Qed.
  Let HmM : 2 * min_items c <= max_items c + 1. Proof. apply Hok. Qed.

  Lemma leaf_node_wf lo items : lo <= length items <= max_items c ->
    Forall (fun l => length (lbox l) = dims c) items -> wfn c lo 0 (leaf_node c items).
  Proof.
    intros Hl Hd. unfold leaf_node; simpl. split; [apply cover_length|]. split; auto.
    rewrite Forall_forall in *. intros l Hin. apply cover_in; [|apply in_map; auto].
    rewrite Forall_forall. intros b Hb. apply in_map_iff in Hb. destruct Hb as [l' [<- Hl']]. auto.
  Qed.

  Lemma inner_node_wf lo h items : (1 <= length items /\ lo <= length items <= max_items c) ->
    Forall (wfn c (min_items c) h) items -> wfn c lo (S h) (inner_node c items).
  Proof.
    intros Hl Hd. unfold inner_node; simpl. split; [apply cover_length|]. split; [simpl in *; auto|]. split; auto.
    rewrite Forall_flat_map. rewrite Forall_forall in *. intros ch Hch.
    eapply Forall_impl; [|eapply wfn_leaves; eauto].
    intros l Hs. eapply sub_trans; [exact Hs|].
    apply cover_in; [|apply in_map; auto].
    rewrite Forall_forall. intros b Hb. apply in_map_iff in Hb. destruct Hb as [n [<- Hn]].
    eapply wfn_box; eauto.
  Qed.

  Lemma new_root_wf h a b : wfn c (min_items c) h a -> wfn c (min_items c) h b -> wfn c 0 (S h) (new_root c a b).
  Proof.
    intros Ha Hb. apply inner_node_wf; [simpl; lia|]. repeat constructor; auto.
  Qed.

  Lemma split_leaf_node_spec items n1 n2 : length items = max_items c + 1 ->
    Forall (fun l => length (lbox l) = dims c) items ->
    split_leaf_node c items = (n1, n2) ->
    wfn c (min_items c) 0 n1 /\ wfn c (min_items c) 0 n2 /\ Permutation (leaves n1 ++ leaves n2) items.
  Proof.
    intros Hl Hd. unfold split_leaf_node. destruct (split_leaves c items) as [s i] eqn:E.
    intros H; injection H as <- <-.
    destruct Hok as (_ & _ & _ & Hs & _). destruct (Hs _ _ _ Hl E) as (Hp & H1 & H2).
    pose proof (Permutation_length Hp) as Hls.
    assert (Hds : Forall (fun l => length (lbox l) = dims c) s).
    { eapply Forall_perm; [apply Permutation_sym; exact Hp|auto]. }
    destruct (Forall_firstn_skipn _ i _ Hds).
    split; [|split].
    - apply leaf_node_wf; auto. rewrite firstn_length. lia.
    - apply leaf_node_wf; auto. rewrite skipn_length. lia.
    - simpl. rewrite firstn_skipn. auto.
  Qed.

  Lemma split_inner_node_spec h items n1 n2 : length items = max_items c + 1 ->
    Forall (wfn c (min_items c) h) items ->
    split_inner_node c items = (n1, n2) ->
    wfn c (min_items c) (S h) n1 /\ wfn c (min_items c) (S h) n2 /\
    Permutation (leaves n1 ++ leaves n2) (flat_map leaves items).
  Proof.
    intros Hl Hd. unfold split_inner_node. destruct (split_nodes c items) as [s i] eqn:E.
    intros H; injection H as <- <-.
    destruct Hok as (_ & _ & _ & _ & Hs & _). destruct (Hs _ _ _ Hl E) as (Hp & H1 & H2).
    pose proof (Permutation_length Hp) as Hls.
    assert (Hds : Forall (wfn c (min_items c) h) s).
    { eapply Forall_perm; [apply Permutation_sym; exact Hp|auto]. }
    destruct (Forall_firstn_skipn _ i _ Hds).
    split; [|split].
    - apply inner_node_wf; auto. rewrite firstn_length. lia.
    - apply inner_node_wf; auto. rewrite skipn_length. lia.
    - simpl. rewrite <- flat_map_app. rewrite firstn_skipn. apply Permutation_flat_map; auto.
  Qed.

  Lemma reinsert_count_bounds n : 1 <= reinsert_count n /\ 10 * reinsert_count n <= Nat.max 10 (3 * n).
  Proof.
    unfold reinsert_count. pose proof (Nat.mul_div_le (3 * n) 10 ltac:(lia)). lia.
  Qed.

  Lemma reinsert_far_spec b items n far : length items = max_items c + 1 ->
    Forall (fun l => length (lbox l) = dims c) items ->
    reinsert_far c b items = (n, far) ->
    wfn c (min_items c) 0 n /\ Permutation (leaves n ++ far) items /\ Forall (fun l => length (lbox l) = dims c) far.
  Proof.
    intros Hl Hd. unfold reinsert_far. intros H; injection H as <- <-.
    destruct Hok as (_ & _ & _ & _ & _ & Hs). specialize (Hs items b).
    pose proof (Permutation_length Hs) as Hls.
    set (s := far_sort c items b) in *.
    assert (Hds : Forall (fun l => length (lbox l) = dims c) s).
    { eapply Forall_perm; [apply Permutation_sym; exact Hs|auto]. }
    destruct (Forall_firstn_skipn _ (length items - reinsert_count (length items)) _ Hds).
    pose proof (reinsert_count_bounds (length items)).
    split; [|split]; auto.
    - apply leaf_node_wf; auto. rewrite firstn_length. lia.
    - simpl. rewrite firstn_skipn; auto.
  Qed.

  Definition ins_post (lo h : nat) (first isroot : bool) (lf : leaf) (n : node) (res : option ins_result) : Prop :=
    exists n' sp rs, res = Some (n', sp, rs) /\
      Permutation (leaves n' ++ oleaves sp ++ rs) (lf :: leaves n) /\
      Forall (fun l => length (lbox l) = dims c) rs /\
      (first = false -> rs = []) /\
      (if isroot then sp = None /\ (wfn c lo h n' \/ wfn c 0 (S h) n')
       else wfn c (min_items c) h n' /\ (forall s, sp = Some s -> wfn c (min_items c) h s) /\
            (first = true -> sp = None)).

  Lemma overflow_leaf_post lo first isroot b items lf n :
    (isroot = false -> lo = min_items c) ->
    length items = max_items c + 1 ->
    Forall (fun l => length (lbox l) = dims c) items ->
    Permutation items (lf :: leaves n) ->
    ins_post lo 0 first isroot lf n (overflow_leaf c first isroot b items).
  Proof.
    intros Hlo Hl Hd Hp. unfold overflow_leaf.
    destruct (negb isroot && first) eqn:Ef.
    - destruct (reinsert_far c b items) as [n' far] eqn:E.
      destruct (reinsert_far_spec _ _ _ _ Hl Hd E) as (H1 & H2 & H3).
      apply andb_true_iff in Ef. destruct Ef as [Ei Ef]. destruct isroot; [discriminate|].
      exists n', None, far. repeat split; auto.
      + simpl. eapply Permutation_trans; [exact H2|exact Hp].
      + intros; congruence.
      + intros; discriminate.
    - destruct (split_leaf_node c items) as [n1 n2] eqn:E.
      destruct (split_leaf_node_spec _ _ _ Hl Hd E) as (H1 & H2 & H3).
      destruct isroot.
      + exists (new_root c n1 n2), None, []. repeat split; auto.
        * simpl. rewrite !app_nil_r. eapply Permutation_trans; [exact H3|exact Hp].
        * right. apply new_root_wf; auto.
      + exists n1, (Some n2), []. repeat split; auto.
        * simpl. rewrite !app_nil_r. eapply Permutation_trans; [exact H3|exact Hp].
        * intros s Hs; injection Hs as <-; auto.
        * simpl in Ef. intros; congruence.
  Qed.

  Lemma insert_internal_post : forall fuel h lo n first isroot lf,
    wfn c lo h n -> S h <= fuel -> length (lbox lf) = dims c ->
    (isroot = false -> lo = min_items c) ->
    ins_post lo h first isroot lf n (insert_internal c fuel first isroot lf n).
  Proof.
    induction fuel as [|fuel IH]; intros h lo n first isroot lf Hwf Hfuel Hlf Hlo; [lia|].
    destruct n as [b items|b items]; destruct h as [|h]; simpl in Hwf; try tauto.
    - (* leaf level *)
      destruct Hwf as (Hb & Hlen & Hsub). cbn [insert_internal].
      assert (Hdim : Forall (fun l => length (lbox l) = dims c) (items ++ [lf])).
      { apply Forall_app; split; [|repeat constructor; auto].
        eapply Forall_impl; [|exact Hsub]. intros l Hl; apply sub_length in Hl; simpl in Hl; congruence. }
      destruct (Nat.ltb_spec (max_items c) (length (items ++ [lf]))) as [Hov|Hov].
      + apply overflow_leaf_post; auto.
        * rewrite app_length in *; simpl in *; lia.
        * simpl. apply Permutation_sym, Permutation_cons_append.
      + rewrite app_length in Hov; simpl in Hov.
        exists (NL (stretch b (lbox lf)) (items ++ [lf])), None, []. split; auto. split.
        { simpl. rewrite app_nil_r. apply Permutation_sym, Permutation_cons_append. }
        split; auto. split; auto.
        assert (Hw : forall lo', lo' <= length items -> wfn c lo' 0 (NL (stretch b (lbox lf)) (items ++ [lf]))).
        { intros lo' Hlo'. simpl. split; [rewrite stretch_length; auto|]. rewrite app_length; simpl.
          split; [lia|]. apply Forall_app; split.
          - eapply Forall_impl; [|exact Hsub]. intros l Hl. eapply sub_trans; [exact Hl|].
            apply stretch_sub_l; congruence.
          - repeat constructor. apply stretch_sub_r; congruence. }
        destruct isroot.
        * split; auto. left. apply Hw; lia.
        * rewrite Hlo in Hlen by auto. split; [apply Hw; lia|]. split; [intros; discriminate|auto].
    - (* inner level *)
      destruct Hwf as (Hb & Hlen & Hch & Hsub). cbn [insert_internal].
      destruct items as [|it0 items0] eqn:Eitems; [simpl in Hlen; lia|]. rewrite <- Eitems in *.
      assert (Hne : items <> []) by (subst; discriminate).
      clear Eitems it0 items0.
      destruct (choose c items (lbox lf)) as [its i] eqn:Ec.
      destruct Hok as (_ & _ & Hchoose & _). destruct (Hchoose _ _ _ _ Hne Ec) as [Hp Hi].
      destruct (nth_error its i) as [ch|] eqn:En; [|apply nth_error_None in En; lia].
      destruct (nth_error_split its i En) as (l1 & l2 & Hits & Hl1).
      assert (Hchs : Forall (wfn c (min_items c) h) its) by (eapply Forall_perm; [apply Permutation_sym; exact Hp|auto]).
      assert (Hwch : wfn c (min_items c) h ch).
      { rewrite Forall_forall in Hchs. apply Hchs. rewrite Hits. apply in_or_app; simpl; auto. }
      destruct (IH h (min_items c) ch first false lf Hwch ltac:(lia) Hlf ltac:(auto))
        as (ch' & sp & rs & Hres & Hperm & Hrs & Hfirst & Hw' & Hsp & Hft).
      rewrite Hres. clear Hres IH.
      pose proof (Permutation_length Hp) as Hpl.
      assert (Hset : set_nth i ch' its = l1 ++ ch' :: l2) by (rewrite Hits, <- Hl1; apply set_nth_app).
      assert (Hlits : length its = length l1 + S (length l2)) by (rewrite Hits, app_length; reflexivity).
      assert (Hlset : length (set_nth i ch' its) = length items).
      { rewrite Hset, app_length; simpl. lia. }
      assert (Hwset : Forall (wfn c (min_items c) h) (set_nth i ch' its)).
      { rewrite Hset. rewrite Hits in Hchs. apply Forall_app in Hchs. destruct Hchs as [Hc1 Hc2].
        inversion Hc2; subst. apply Forall_app; split; auto. }
      assert (Hleaves : Permutation (flat_map leaves items) (leaves ch ++ flat_map leaves (l1 ++ l2))).
      { eapply Permutation_trans; [apply Permutation_flat_map, Permutation_sym, Hp|].
        rewrite Hits, !flat_map_app. simpl. rewrite !app_assoc. apply Permutation_app_tail, Permutation_app_comm. }
      assert (Hleaves' : Permutation (flat_map leaves (set_nth i ch' its)) (leaves ch' ++ flat_map leaves (l1 ++ l2))).
      { rewrite Hset, !flat_map_app. simpl. rewrite !app_assoc. apply Permutation_app_tail, Permutation_app_comm. }
      assert (Hall : Permutation (flat_map leaves (set_nth i ch' its) ++ oleaves sp ++ rs) (lf :: flat_map leaves items)).
      { lperm. }
      assert (Hcov : forall L, incl L (lf :: flat_map leaves items) ->
                 Forall (fun l => sub (lbox l) (stretch b (lbox lf))) L).
      { intros L HL. rewrite Forall_forall. intros l Hl. apply HL in Hl. destruct Hl as [<-|Hl].
        - apply stretch_sub_r. congruence.
        - rewrite Forall_forall in Hsub. eapply sub_trans; [apply Hsub; auto|]. apply stretch_sub_l; congruence. }
      assert (Hincl : incl (flat_map leaves (set_nth i ch' its) ++ oleaves sp ++ rs) (lf :: flat_map leaves items)).
      { intros l Hl. eapply Permutation_in; eauto. }
      destruct sp as [sp|].
      + (* the child was split *)
        assert (Ef : first = false) by (destruct first; auto; specialize (Hft eq_refl); discriminate).
        specialize (Hfirst Ef). subst rs first.
        assert (Hwall : Forall (wfn c (min_items c) h) (set_nth i ch' its ++ [sp])).
        { apply Forall_app; split; auto. }
        assert (Hleq : flat_map leaves (set_nth i ch' its ++ [sp]) = flat_map leaves (set_nth i ch' its) ++ leaves sp).
        { rewrite flat_map_app. simpl. rewrite app_nil_r. reflexivity. }
        assert (Hperm2 : Permutation (flat_map leaves (set_nth i ch' its ++ [sp])) (lf :: flat_map leaves items)).
        { rewrite Hleq. simpl in Hall. rewrite app_nil_r in Hall. exact Hall. }
        destruct (Nat.ltb_spec (max_items c) (length (set_nth i ch' its ++ [sp]))) as [Hov|Hov];
          rewrite app_length in Hov; simpl in Hov.
        * unfold overflow_node. rewrite andb_false_r.
          destruct (split_inner_node c (set_nth i ch' its ++ [sp])) as [n1 n2] eqn:E.
          assert (Hlall : length (set_nth i ch' its ++ [sp]) = max_items c + 1) by (rewrite app_length; simpl; lia).
          destruct (split_inner_node_spec h _ _ _ Hlall Hwall E) as (H1 & H2 & H3).
          destruct isroot.
          -- exists (new_root c n1 n2), None, []. repeat split; auto.
             ++ simpl. rewrite !app_nil_r. eapply Permutation_trans; [exact H3|]. exact Hperm2.
             ++ right. apply new_root_wf; auto.
          -- exists n1, (Some n2), []. repeat split; auto.
             ++ simpl. rewrite !app_nil_r. eapply Permutation_trans; [exact H3|]. exact Hperm2.
             ++ intros s Hs; injection Hs as <-; auto.
             ++ discriminate.
        * exists (NI (stretch b (lbox lf)) (set_nth i ch' its ++ [sp])), None, []. split; auto. split.
          { simpl. rewrite app_nil_r. exact Hperm2. }
          split; auto. split; auto.
          assert (Hw : forall lo', lo' <= length items -> wfn c lo' (S h) (NI (stretch b (lbox lf)) (set_nth i ch' its ++ [sp]))).
          { intros lo' Hlo'. simpl. split; [rewrite stretch_length; auto|]. rewrite app_length; simpl.
            split; [lia|]. split; auto. apply Hcov. intros l Hl. eapply Permutation_in; eauto. }
          destruct isroot.
          -- split; auto. left. apply Hw; lia.
          -- rewrite Hlo in Hlen by auto. split; [apply Hw; lia|]. split; [intros; discriminate|auto].
      + (* no split below *)
        exists (NI (stretch b (lbox lf)) (set_nth i ch' its)), None, rs. split; auto. split; auto.
        split; auto. split; auto.
        assert (Hw : forall lo', lo' <= length items -> wfn c lo' (S h) (NI (stretch b (lbox lf)) (set_nth i ch' its))).
        { intros lo' Hlo'. simpl. split; [rewrite stretch_length; auto|].
          split; [lia|]. split; auto. apply Hcov. intros l Hl. apply Hincl. apply in_or_app; auto. }
        destruct isroot.
        * split; auto. left. apply Hw; lia.
        * rewrite Hlo in Hlen by auto. split; [apply Hw; lia|]. split; [intros; discriminate|auto].
  Qed.

  (** Well-formed root of some height. *)
  Definition wfr (r : node) : Prop := exists h, wfn c 0 h r.

  Lemma insert_root_spec first r lf : wfr r -> length (lbox lf) = dims c ->
    exists r' rs, insert_root c first r lf = Some (r', rs) /\ wfr r' /\
      Permutation (leaves r' ++ rs) (lf :: leaves r) /\
      Forall (fun l => length (lbox l) = dims c) rs /\ (first = false -> rs = []).
  Proof.
    intros [h Hw] Hlf. unfold insert_root.
    pose proof (wfn_height c Hm2 _ _ _ Hw) as Hh.
    destruct (insert_internal_post (height r) h 0 r first true lf Hw ltac:(lia) Hlf ltac:(discriminate))
      as (r' & sp & rs & E & Hp & Hd & Hf & Hsp & Hwf).
    rewrite E. subst sp. exists r', rs. repeat split; auto.
    destruct Hwf; [exists h | exists (S h)]; auto.
  Qed.

  Lemma reinsert_all_spec : forall ls r, wfr r -> Forall (fun l => length (lbox l) = dims c) ls ->
    exists r', reinsert_all c r ls = Some r' /\ wfr r' /\ Permutation (leaves r') (ls ++ leaves r).
  Proof.
    induction ls as [|l ls IH]; intros r Hr Hd.
    - exists r; auto.
    - inversion Hd; subst. cbn [reinsert_all].
      destruct (insert_root_spec false r l Hr H1) as (r1 & rs & E & Hr1 & Hp & _ & Hf).
      specialize (Hf eq_refl). subst rs. rewrite E. rewrite app_nil_r in Hp.
      destruct (IH r1 Hr1 H2) as (r2 & E2 & Hr2 & Hp2).
      exists r2. repeat split; auto.
      lperm.
  Qed.

  Lemma insert_full_spec r lf : wfr r -> length (lbox lf) = dims c ->
    exists r', insert_full c r lf = Some r' /\ wfr r' /\ Permutation (leaves r') (lf :: leaves r).
  Proof.
    intros Hr Hlf. unfold insert_full.
    destruct (insert_root_spec true r lf Hr Hlf) as (r1 & rs & E & Hr1 & Hp & Hd & _).
    rewrite E. destruct (reinsert_all_spec rs r1 Hr1 Hd) as (r2 & E2 & Hr2 & Hp2).
    exists r2. repeat split; auto.
    lperm.
  Qed.

  (** * Removal *)
  Section Rem.
    Variable accN : box -> bool.
    Variable accL : leaf -> bool.
    Variable rm : leaf -> bool.
    (** [must l]: a leaf that the acceptor is guaranteed to reach. *)
    Variable must : leaf -> Prop.
    Hypothesis Hmust : forall b l, sub (lbox l) b -> length (lbox l) = dims c -> must l -> accN b = true.

    Lemma settle_false n on q : settle c false n = (on, q) ->
      Permutation (oleaves on ++ q) (leaves n) /\
      (forall n', on = Some n' -> n' = n /\ min_items c <= nitems n) /\
      (forall l, In l q -> In l (leaves n)).
    Proof.
      unfold settle. destruct (Nat.eqb_spec (nitems n) 0) as [E0|E0].
      - intros H; injection H as <- <-. repeat split; try discriminate; simpl; try tauto.
        destruct n as [b [|x l]|b [|x l]]; simpl in E0; try discriminate; auto.
      - destruct (Nat.ltb_spec (nitems n) (min_items c)); intros H'; injection H' as <- <-.
        + repeat split; try discriminate; auto.
        + split; [simpl; rewrite app_nil_r; auto|]. split; [|simpl; tauto].
          intros n' Hn'. injection Hn' as <-. auto.
    Qed.

    Definition rem_post (h : nat) (n : node) (res : option node * list leaf * list leaf) : Prop :=
      let '(on, q, dels) := res in
      Permutation (oleaves on ++ q ++ dels) (leaves n) /\
      (forall n', on = Some n' -> wfn c (min_items c) h n') /\
      Forall (fun l => accL l = true /\ rm l = true) dels /\
      Forall (fun l => accL l = true -> rm l = true -> ~ must l) (oleaves on ++ q).

    Lemma remove_leaf_items b items :
      Forall (fun l => sub (lbox l) b) items ->
      let kept := filter (fun l => negb (delete_leaf accL rm l)) items in
      let dels := filter (delete_leaf accL rm) items in
      Permutation (kept ++ dels) items /\
      Forall (fun l => accL l = true /\ rm l = true) dels /\
      Forall (fun l => accL l = true -> rm l = true -> ~ must l) kept.
    Proof.
      intros Hs kept dels. split; [apply filter_perm|]. split.
      - rewrite Forall_forall. intros l Hl. apply filter_In in Hl. destruct Hl as [_ Hl].
        apply andb_true_iff in Hl. auto.
      - rewrite Forall_forall. intros l Hl Ha Hr. apply filter_In in Hl. destruct Hl as [_ Hl].
        unfold delete_leaf in Hl. rewrite Ha, Hr in Hl. discriminate.
    Qed.

    Lemma not_reached b ls : accN b = false -> Forall (fun l => sub (lbox l) b) ls -> length b = dims c ->
      Forall (fun l => accL l = true -> rm l = true -> ~ must l) ls.
    Proof.
      intros Ha Hs Hb. eapply Forall_impl; [|exact Hs]. intros l Hl _ _ Hmu.
      rewrite (Hmust b l) in Ha; auto; [discriminate|]. apply sub_length in Hl. congruence.
    Qed.

    Lemma Forall_concat_results h (items : list node) (rs : list (option node * list leaf * list leaf)) :
      Forall2 (fun n r => rem_post h n r) items rs ->
      let kept := flat_map (fun r : option node * list leaf * list leaf => match fst (fst r) with Some x => [x] | None => [] end) rs in
      let qs := flat_map (fun r : option node * list leaf * list leaf => snd (fst r)) rs in
      let dels := flat_map snd rs in
      Permutation (flat_map leaves kept ++ qs ++ dels) (flat_map leaves items) /\
      Forall (wfn c (min_items c) h) kept /\
      Forall (fun l => accL l = true /\ rm l = true) dels /\
      Forall (fun l => accL l = true -> rm l = true -> ~ must l) (flat_map leaves kept ++ qs) /\
      length kept <= length items.
    Proof.
      induction 1 as [|n r items rs Hr Hrs IH]; simpl.
      - repeat split; auto.
      - destruct IH as (IH1 & IH2 & IH3 & IH4 & IH5). destruct r as [[on q] dels].
        destruct Hr as (R1 & R2 & R3 & R4). simpl.
        set (K := flat_map (fun r : option node * list leaf * list leaf => match fst (fst r) with Some x => [x] | None => [] end) rs) in *.
        set (Q := flat_map (fun r : option node * list leaf * list leaf => snd (fst r)) rs) in *.
        set (D := flat_map snd rs) in *.
        assert (EK : flat_map leaves (match on with Some x => [x] | None => [] end ++ K) = oleaves on ++ flat_map leaves K).
        { rewrite flat_map_app. destruct on; simpl; rewrite ?app_nil_r; auto. }
        rewrite EK. repeat split.
        + lperm.
        + apply Forall_app; split; auto. destruct on; constructor; auto.
        + apply Forall_app; auto.
        + rewrite !Forall_app in *. tauto.
        + rewrite app_length. destruct on; simpl; lia.
    Qed.

    Lemma remove_node_post : forall h n, wfn c (min_items c) h n ->
      rem_post h n (remove_node c accN accL rm false n).
    Proof.
      induction h as [|h IH]; intros [b items|b items] Hw; simpl in Hw; try tauto.
      - destruct Hw as (Hb & Hlen & Hsub). cbn [remove_node nbox].
        destruct (accN b) eqn:Ea.
        + destruct (remove_leaf_items b items Hsub) as (H1 & H2 & H3).
          set (kept := filter (fun l => negb (delete_leaf accL rm l)) items) in *.
          set (dels := filter (delete_leaf accL rm) items) in *.
          destruct (settle c false (NL b kept)) as [on q] eqn:Es.
          destruct (settle_false _ _ _ Es) as (S1 & S2 & S3). simpl in S1.
          unfold rem_post. split; [lperm|]. split; [|split; auto].
          * intros n' Hn'. destruct (S2 n' Hn') as [-> Hmi]. simpl in *.
            split; auto. split.
            -- split; auto. pose proof (Permutation_length H1) as HL. rewrite app_length in HL. lia.
            -- unfold kept. rewrite Forall_forall in *. intros l Hl. apply filter_In in Hl. apply Hsub; tauto.
          * eapply Forall_perm; [apply Permutation_sym; exact S1|auto].
        + unfold rem_post. simpl. rewrite app_nil_r. split; auto. split; [|split; auto].
          * intros n' H; injection H as <-. simpl; auto.
          * eapply not_reached; eauto.
      - destruct Hw as (Hb & Hlen & Hch & Hsub). cbn [remove_node nbox].
        destruct (accN b) eqn:Ea.
        + set (rs := map (remove_node c accN accL rm false) items).
          assert (H2 : Forall2 (fun n r => rem_post h n r) items rs).
          { unfold rs. clear - Hch IH. induction Hch; simpl; constructor; auto. }
          destruct (Forall_concat_results h items rs H2) as (K1 & K2 & K3 & K4 & K5).
          set (kept := flat_map (fun r : option node * list leaf * list leaf => match fst (fst r) with Some x => [x] | None => [] end) rs) in *.
          set (qs := flat_map (fun r : option node * list leaf * list leaf => snd (fst r)) rs) in *.
          set (dels := flat_map snd rs) in *.
          destruct (settle c false (NI b kept)) as [on q] eqn:Es.
          destruct (settle_false _ _ _ Es) as (S1 & S2 & S3). simpl in S1.
          unfold rem_post. split; [lperm|]. split; [|split; auto].
          * intros n' Hn'. destruct (S2 n' Hn') as [-> Hmi]. simpl in *.
            split; auto. split; [lia|]. split; auto.
            rewrite Forall_forall in *. intros l Hl. apply Hsub.
            eapply Permutation_in; [exact K1|]. apply in_or_app; auto.
          * eapply Forall_perm; [|exact K4].
            eapply Permutation_trans; [apply Permutation_app_tail, Permutation_sym, S1|]. lperm.
        + unfold rem_post. simpl. rewrite app_nil_r. split; auto. split; [|split; auto].
          * intros n' H; injection H as <-. simpl; auto.
          * eapply not_reached; eauto.
    Qed.

    Lemma remove_root_post r : wfr r ->
      exists r' q dels, remove_node c accN accL rm true r = (Some r', q, dels) /\
      Permutation (leaves r' ++ q ++ dels) (leaves r) /\ wfr r' /\
      Forall (fun l => length (lbox l) = dims c) q /\
      Forall (fun l => accL l = true /\ rm l = true) dels /\
      Forall (fun l => accL l = true -> rm l = true -> ~ must l) (leaves r' ++ q).
    Proof.
      intros [h Hw]. pose proof (wfn_leaves_dim _ _ _ _ Hw) as Hdim.
      assert (Hempty : wfr (NL (reset_box (dims c)) [])).
      { exists 0. simpl. split; [apply repeat_length|]. split; auto. lia. }
      destruct h as [|h]; destruct r as [b items|b items]; simpl in Hw; try tauto.
      - destruct Hw as (Hb & Hlen & Hsub). cbn [remove_node nbox].
        destruct (accN b) eqn:Ea.
        + destruct (remove_leaf_items b items Hsub) as (H1 & H2 & H3).
          set (kept := filter (fun l => negb (delete_leaf accL rm l)) items) in *.
          set (dels := filter (delete_leaf accL rm) items) in *.
          unfold settle. cbn [nitems].
          destruct (Nat.eqb_spec (length kept) 0) as [E0|E0].
          * exists (NL (reset_box (dims c)) []), [], dels.
            destruct kept; [|discriminate]. simpl in *. repeat split; auto.
          * exists (NL b kept), [], dels. simpl. rewrite app_nil_r. repeat split; auto.
            exists 0. simpl. split; auto. pose proof (Permutation_length H1) as HL. rewrite app_length in HL.
            split; [lia|]. unfold kept. rewrite Forall_forall in *. intros l Hl. apply filter_In in Hl. apply Hsub; tauto.
        + exists (NL b items), [], []. simpl. rewrite !app_nil_r. repeat split; auto.
          * exists 0; simpl; auto.
          * eapply not_reached; eauto.
      - destruct Hw as (Hb & Hlen & Hch & Hsub). cbn [remove_node nbox].
        destruct (accN b) eqn:Ea.
        + set (rs := map (remove_node c accN accL rm false) items).
          assert (H2 : Forall2 (fun n r => rem_post h n r) items rs).
          { unfold rs. clear - Hch Hmust HmM Hm2 Hok. induction Hch; simpl; constructor; auto. apply remove_node_post; auto. }
          destruct (Forall_concat_results h items rs H2) as (K1 & K2 & K3 & K4 & K5).
          set (kept := flat_map (fun r : option node * list leaf * list leaf => match fst (fst r) with Some x => [x] | None => [] end) rs) in *.
          set (qs := flat_map (fun r : option node * list leaf * list leaf => snd (fst r)) rs) in *.
          set (dels := flat_map snd rs) in *.
          assert (Hq : Forall (fun l => length (lbox l) = dims c) qs).
          { rewrite Forall_forall in *. intros l Hl. apply Hdim. simpl. eapply Permutation_in; [exact K1|].
            apply in_or_app; right. apply in_or_app; auto. }
          unfold settle. cbn [nitems].
          destruct (Nat.eqb_spec (length kept) 0) as [E0|E0].
          * exists (NL (reset_box (dims c)) []), (qs ++ []), dels. rewrite app_nil_r.
            destruct kept; [|discriminate]. simpl in *. repeat split; auto.
          * exists (NI b kept), (qs ++ []), dels. simpl. rewrite app_nil_r. repeat split; auto.
            exists (S h). simpl. split; auto. split; [lia|]. split; auto.
            rewrite Forall_forall in *. intros l Hl. apply Hsub.
            eapply Permutation_in; [exact K1|]. apply in_or_app; auto.
        + exists (NI b items), [], []. simpl. rewrite !app_nil_r. repeat split; auto.
          * exists (S h); simpl; auto.
          * eapply not_reached; eauto.
    Qed.
  End Rem.

  Lemma insert_queue_spec : forall ls r, wfr r -> Forall (fun l => length (lbox l) = dims c) ls ->
    exists r', insert_queue c r ls = Some r' /\ wfr r' /\ Permutation (leaves r') (ls ++ leaves r).
  Proof.
    induction ls as [|l ls IH]; intros r Hr Hd.
    - exists r; auto.
    - inversion Hd; subst. cbn [insert_queue].
      destruct (insert_full_spec r l Hr H1) as (r1 & E & Hr1 & Hp). rewrite E.
      destruct (IH r1 Hr1 H2) as (r2 & E2 & Hr2 & Hp2).
      exists r2. repeat split; auto. lperm.
  Qed.

  (** * Trees *)
  Definition wft (t : rtree) : Prop :=
    tsize t = length (tleaves t) /\ match troot t with None => True | Some r => wfr r end.

  Lemma wft_empty : wft empty_tree.
  Proof. split; simpl; auto. Qed.

  Lemma insert_spec t lf : wft t -> length (lbox lf) = dims c ->
    exists t', insert c t lf = Some t' /\ wft t' /\ Permutation (tleaves t') (lf :: tleaves t).
  Proof.
    intros [Hs Hr] Hlf. unfold insert. destruct (troot t) as [r|] eqn:Er.
    - destruct (insert_full_spec r lf Hr Hlf) as (r' & E & Hr' & Hp). rewrite E.
      eexists; split; [reflexivity|]. unfold tleaves in *. rewrite Er in *. simpl. split; auto.
      split; simpl; auto. unfold tleaves. simpl. rewrite (Permutation_length Hp). simpl. lia.
    - eexists; split; [reflexivity|]. unfold tleaves in *. rewrite Er in *. simpl. split; auto.
      split; simpl; auto. exists 0. simpl. split; auto. split; [lia|]. repeat constructor. apply sub_refl.
  Qed.

  Lemma must_reached a : acceptor_dim (dims c) a ->
    forall b l, sub (lbox l) b -> length (lbox l) = dims c -> touches a l -> accept_node a b = true.
  Proof.
    destruct a; simpl; intros Hd b l Hs Hl Ht; auto; eapply overlaps_sub; eauto; congruence.
  Qed.

  Lemma remove_spec t a rm : wft t -> acceptor_dim (dims c) a -> (forall q, a <> AcceptEnclosed q) ->
    exists t', remove c a rm t = Some t' /\ wft t' /\ spec_step (tleaves t) (OpRemove a rm) (tleaves t').
  Proof.
    intros [Hs Hr] Ha Hne. unfold remove. destruct (troot t) as [r|] eqn:Er.
    - destruct (remove_root_post (accept_node a) (accept_leaf a) rm (touches a) (must_reached a Ha) r Hr)
        as (r' & q & dels & E & Hp & Hr' & Hq & Hd & Hk).
      rewrite E. destruct (insert_queue_spec q r' Hr' Hq) as (r2 & E2 & Hr2 & Hp2). rewrite E2.
      eexists; split; [reflexivity|]. unfold tleaves in *. rewrite Er in *. simpl. split.
      + split; simpl; auto. unfold tleaves. simpl.
        pose proof (Permutation_length Hp) as L1. pose proof (Permutation_length Hp2) as L2.
        rewrite !app_length in *. lia.
      + eapply spec_remove with (R := dels).
        * lperm.
        * rewrite Forall_forall in Hd. auto.
        * intros l Hl. rewrite Forall_forall in Hk. apply Hk.
          apply Permutation_in with (l' := q ++ leaves r') in Hl; auto.
          apply in_app_or in Hl. apply in_or_app. tauto.
    - assert (Heq : match a with AcceptEnclosed _ => None | _ => Some t end = Some t).
      { destruct a; auto. specialize (Hne q). congruence. }
      rewrite Heq. exists t. split; auto. split; [split; [auto|rewrite Er; auto]|].
      eapply spec_remove with (R := []); [rewrite app_nil_r; auto|simpl; tauto|].
      unfold tleaves. rewrite Er. simpl. tauto.
  Qed.

  Lemma translate_leaves v : forall h lo n, wfn c lo h n ->
    leaves (translate_node v n) = map (translate_leaf v) (leaves n).
  Proof.
    induction h as [|h IH]; intros lo [b items|b items] Hw; simpl in Hw; try tauto; simpl; auto.
    destruct Hw as (_ & _ & Hch & _). induction Hch as [|x items Hx Hch IH2]; simpl; auto.
    rewrite map_app. f_equal; auto. eapply IH; eauto.
  Qed.

  Lemma translate_wf v : length v = dims c -> forall h lo n, wfn c lo h n -> wfn c lo h (translate_node v n).
  Proof.
    intros Hv. induction h as [|h IH]; intros lo n Hw.
    - destruct n as [b items|b items]; simpl in Hw; try tauto. simpl.
      destruct Hw as (Hb & Hl & Hs). rewrite map_length. split; [rewrite translate_length; auto|]. split; auto.
      rewrite Forall_map. eapply Forall_impl; [|exact Hs]. intros l Hls. simpl.
      apply translate_sub; auto. apply sub_length in Hls. congruence.
    - pose proof (translate_leaves v _ _ _ Hw) as Htl.
      destruct n as [b items|b items]; simpl in Hw; try tauto.
      destruct Hw as (Hb & Hl & Hch & Hs).
      simpl in *. rewrite map_length. split; [rewrite translate_length; auto|]. split; auto. split.
      + rewrite Forall_map. eapply Forall_impl; [|exact Hch]. intros; eapply IH; eauto.
      + rewrite Htl. rewrite Forall_map. eapply Forall_impl; [|exact Hs]. intros l Hls. simpl.
        apply translate_sub; auto. apply sub_length in Hls. congruence.
  Qed.

  Lemma translate_tleaves v t : wft t -> tleaves (translate_tree v t) = map (translate_leaf v) (tleaves t).
  Proof.
    intros [_ Hr]. unfold tleaves, translate_tree. destruct (troot t) as [r|] eqn:Er; simpl.
    - destruct Hr as [h Hh]. eapply translate_leaves; eauto.
    - rewrite Er. reflexivity.
  Qed.

  Lemma translate_spec v t : wft t -> length v = dims c -> wft (translate_tree v t).
  Proof.
    intros Hw Hv. pose proof (translate_tleaves v t Hw) as Htl. destruct Hw as [Hs Hr].
    unfold translate_tree in *. destruct (troot t) as [r|] eqn:Er.
    - split; simpl.
      + rewrite Htl, map_length. auto.
      + destruct Hr as [h Hh]. exists h. apply translate_wf; auto.
    - split; auto. rewrite Er; auto.
  Qed.

  Lemma step_spec t o : wft t -> op_ok c o ->
    exists t', step c t o = Some t' /\ wft t' /\ spec_step (tleaves t) o (tleaves t').
  Proof.
    intros Hw Ho. destruct o as [lf|a rm|v]; simpl in *.
    - destruct (insert_spec t lf Hw Ho) as (t' & E & Hw' & Hp). exists t'. repeat split; try apply Hw'; auto.
      constructor; auto.
    - destruct Ho. apply remove_spec; auto.
    - eexists; split; [reflexivity|]. split; [apply translate_spec; auto|].
      constructor. rewrite translate_tleaves by auto. auto.
  Qed.

  Lemma run_spec : forall ops t, wft t -> Forall (op_ok c) ops ->
    exists t', run c t ops = Some t' /\ wft t' /\ spec_run (tleaves t) ops (tleaves t').
  Proof.
    induction ops as [|o ops IH]; intros t Hw Ho.
    - exists t. repeat split; try apply Hw. constructor; auto.
    - inversion Ho; subst. cbn [run].
      destruct (step_spec t o Hw H1) as (t1 & E & Hw1 & Hs1). rewrite E.
      destruct (IH t1 Hw1 H2) as (t2 & E2 & Hw2 & Hs2).
      exists t2. split; auto. split; auto. econstructor; eauto.
  Qed.

  (** * Structure in the vocabulary of the specification *)
  Lemma wfn_below : forall h lo n l k, wfn c lo h n -> below n l k -> k = h /\ In l (leaves n).
  Proof.
    intros h lo n l k Hw Hb. revert h lo Hw. induction Hb as [b items l Hl|b items ch l k Hch Hb IH]; intros h lo Hw.
    - destruct h; simpl in Hw; try tauto; auto.
    - destruct h; simpl in Hw; try tauto. destruct Hw as (_ & _ & Hf & _).
      rewrite Forall_forall in Hf. destruct (IH h _ (Hf ch Hch)) as [-> Hin]. split; auto.
      simpl. apply in_flat_map; eauto.
  Qed.

  Lemma wfn_descendant n ch : descendant n ch -> forall h lo, wfn c lo h n -> exists h', wfn c (min_items c) h' ch.
  Proof.
    induction 1 as [b items ch Hch|b items ch n Hch Hd IH]; intros h lo Hw; destruct h; simpl in Hw; try tauto;
      destruct Hw as (_ & _ & Hf & _); rewrite Forall_forall in Hf; specialize (Hf ch Hch); eauto.
  Qed.

  Lemma wfr_struct r : wfr r -> balanced r /\ fanout c r /\ covering r.
  Proof.
    intros [h Hw]. split; [|split].
    - intros l1 k1 l2 k2 H1 H2. destruct (wfn_below _ _ _ _ _ Hw H1), (wfn_below _ _ _ _ _ Hw H2). congruence.
    - split.
      + destruct h, r; simpl in *; try tauto; lia.
      + intros n Hd. destruct (wfn_descendant _ _ Hd _ _ Hw) as [h' Hw']. destruct h', n; simpl in *; try tauto; lia.
    - intros n l k [->|Hd] Hb.
      + destruct (wfn_below _ _ _ _ _ Hw Hb) as [_ Hin]. pose proof (wfn_leaves _ _ _ _ Hw) as Hl.
        rewrite Forall_forall in Hl; auto.
      + destruct (wfn_descendant _ _ Hd _ _ Hw) as [h' Hw'].
        destruct (wfn_below _ _ _ _ _ Hw' Hb) as [_ Hin]. pose proof (wfn_leaves _ _ _ _ Hw') as Hl.
        rewrite Forall_forall in Hl; auto.
  Qed.

  (** * Queries *)
  Section Q.
    Variable a : acceptor.
    Hypothesis Ha : acceptor_dim (dims c) a.

    Definition gather_node (n : node) (s : list leaf) : list leaf :=
      query_node (list leaf) (accept_node a) (accept_leaf a) (fun _ => true) (fun l s => s ++ [l]) n s.

    Lemma gather_leaf_fold : forall items s,
      fold_left (fun s l => if accept_leaf a l then s ++ [l] else s) items s = s ++ filter (accept_leaf a) items.
    Proof.
      induction items as [|l items IH]; intros s; simpl; [rewrite app_nil_r; auto|].
      rewrite IH. destruct (accept_leaf a l); auto. rewrite <- app_assoc. auto.
    Qed.

    (** What a query gathers, as a list: a filter, pruned. *)
    Fixpoint reached (n : node) : list leaf :=
      if accept_node a (nbox n) then
        match n with NL _ items => filter (accept_leaf a) items | NI _ items => flat_map reached items end
      else [].

    Lemma gather_reached : forall h lo n s, wfn c lo h n -> gather_node n s = s ++ reached n.
    Proof.
      unfold gather_node. induction h as [|h IH]; intros lo [b items|b items] s Hw; simpl in Hw; try tauto.
      - simpl. destruct (accept_node a b); [apply gather_leaf_fold | rewrite app_nil_r; auto].
      - destruct Hw as (_ & _ & Hch & _). simpl. destruct (accept_node a b); [|rewrite app_nil_r; auto].
        revert s. induction Hch as [|x items Hx Hch IH2]; intros s; simpl; [rewrite app_nil_r; auto|].
        rewrite (IH (min_items c)) by auto. rewrite IH2. rewrite app_assoc. auto.
    Qed.

    (** [reached] is a sublist of the accepted leaves, and contains those that touch. *)
    Lemma reached_exact : (forall l, accept_leaf a l = true -> touches a l) ->
      forall h lo n, wfn c lo h n -> reached n = filter (accept_leaf a) (leaves n).
    Proof.
      intros Hex. induction h as [|h IH]; intros lo [b items|b items] Hw; simpl in Hw; try tauto.
      - destruct Hw as (Hb & _ & Hs). simpl. destruct (accept_node a b) eqn:E; auto.
        symmetry. clear - Hs Hex E Ha Hb. induction Hs as [|l items Hl Hs IH]; simpl; auto.
        destruct (accept_leaf a l) eqn:El; auto. exfalso.
        pose proof (sub_length _ _ Hl).
        rewrite (must_reached a Ha b l) in E; auto; congruence.
      - destruct Hw as (Hb & _ & Hch & Hs). simpl. destruct (accept_node a b) eqn:E.
        + clear Hs. induction Hch as [|x items Hx Hch IH2]; simpl; auto.
          rewrite filter_app, IH2. f_equal. eapply IH; eauto.
        + symmetry. clear - Hs Hex E Ha Hb. induction Hs as [|l items' Hl Hs IH]; simpl; auto.
          destruct (accept_leaf a l) eqn:El; auto. exfalso.
          pose proof (sub_length _ _ Hl).
          rewrite (must_reached a Ha b l) in E; auto; congruence.
    Qed.

    Lemma reached_incl : forall h lo n, wfn c lo h n -> forall l, In l (reached n) -> In l (leaves n) /\ accept_leaf a l = true.
    Proof.
      induction h as [|h IH]; intros lo [b items|b items] Hw l Hl; simpl in Hw; try tauto; simpl in Hl |- *;
      destruct (accept_node a b); simpl in Hl; try tauto.
      - apply filter_In in Hl. auto.
      - destruct Hw as (_ & _ & Hch & _). apply in_flat_map in Hl. destruct Hl as [ch [Hc Hl]].
        rewrite Forall_forall in Hch. destruct (IH _ _ (Hch ch Hc) l Hl). split; auto. apply in_flat_map; eauto.
    Qed.

    Lemma reached_sublist_perm : forall h lo n, wfn c lo h n -> exists miss,
      Permutation (reached n ++ miss) (filter (accept_leaf a) (leaves n)) /\
      (forall l, In l miss -> ~ touches a l).
    Proof.
      induction h as [|h IH]; intros lo [b items|b items] Hw; simpl in Hw; try tauto.
      - destruct Hw as (Hb & _ & Hs). simpl. destruct (accept_node a b) eqn:E.
        + exists []. rewrite app_nil_r. split; auto.
        + exists (filter (accept_leaf a) items). split; auto. intros l Hl Ht. apply filter_In in Hl.
          rewrite Forall_forall in Hs. pose proof (Hs l ltac:(tauto)) as Hsub. pose proof (sub_length _ _ Hsub).
          rewrite (must_reached a Ha b l) in E; auto; congruence.
      - destruct Hw as (Hb & _ & Hch & Hs). simpl. destruct (accept_node a b) eqn:E.
        + clear Hs. induction Hch as [|x items Hx Hch IH2]; simpl.
          * exists []. split; auto. 
          * destruct (IH _ _ Hx) as (m1 & P1 & Q1). destruct IH2 as (m2 & P2 & Q2).
            exists (m1 ++ m2). rewrite filter_app. split; [lperm|].
            intros l Hl. apply in_app_or in Hl. destruct Hl; auto.
        + exists (filter (accept_leaf a) (flat_map leaves items)). split; auto. intros l Hl Ht. apply filter_In in Hl.
          rewrite Forall_forall in Hs. pose proof (Hs l ltac:(tauto)) as Hsub. pose proof (sub_length _ _ Hsub).
          rewrite (must_reached a Ha b l) in E; auto; congruence.
    Qed.

    Definition treached (t : rtree) : list leaf := match troot t with None => [] | Some r => reached r end.

    Lemma gather_tree t : wft t -> gather a t = treached t.
    Proof.
      intros [_ Hr]. unfold gather, query, treached. destruct (troot t) as [r|]; auto.
      destruct Hr as [h Hh]. apply (gather_reached h 0 r [] Hh).
    Qed.

    Lemma gather_exact t : wft t -> (forall l, accept_leaf a l = true -> touches a l) ->
      gather a t = filter (accept_leaf a) (tleaves t).
    Proof.
      intros Hw Hex. rewrite gather_tree by auto. destruct Hw as [_ Hr]. unfold treached, tleaves.
      destruct (troot t) as [r|]; auto. destruct Hr as [h Hh]. eapply reached_exact; eauto.
    Qed.

    Lemma gather_sound_complete t : wft t -> exists miss,
      Permutation (gather a t ++ miss) (filter (accept_leaf a) (tleaves t)) /\
      (forall l, In l miss -> ~ touches a l).
    Proof.
      intros Hw. rewrite gather_tree by auto. destruct Hw as [_ Hr]. unfold treached, tleaves.
      destruct (troot t) as [r|].
      - destruct Hr as [h Hh]. eapply reached_sublist_perm; eauto.
      - exists []. simpl; auto.
    Qed.
  End Q.
End Ok.

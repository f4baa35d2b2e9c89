(** Proofs about the overall box (C09) and translation (C08). *)
Require Import ZArith List Bool Arith Lia Permutation.
Require Import Verif.Base Verif.Box_Model Verif.Box_Spec Verif.Box_Proofs Verif.RTree_Model Verif.RTree_Spec Verif.RTree_Proofs.
Import ListNotations.

(** All node boxes are enclosed by [H]. *)
Fixpoint within (H : box) (n : node) : Prop :=
  sub (nbox n) H /\
  match n with
  | NL _ ls => Forall (fun l => sub (lbox l) H) ls
  | NI _ cs => fold_right (fun ch P => within H ch /\ P) True cs
  end.

Lemma within_children H cs : fold_right (fun ch P => within H ch /\ P) True cs <-> Forall (within H) cs.
Proof.
  induction cs as [|x cs IH]; simpl; split; auto; intros Hx.
  - constructor; tauto.
  - inversion Hx; subst. tauto.
Qed.
Lemma within_NI H b cs : within H (NI b cs) <-> sub b H /\ Forall (within H) cs.
Proof. simpl. rewrite within_children. tauto. Qed.
Lemma within_NL H b ls : within H (NL b ls) <-> sub b H /\ Forall (fun l => sub (lbox l) H) ls.
Proof. reflexivity. Qed.
Lemma within_box H n : within H n -> sub (nbox n) H.
Proof. destruct n; simpl; tauto. Qed.

Section H.
  Variable c : config.
  Hypothesis Hok : config_ok c.
  Variable H : box.
  Hypothesis HdimH : length H = dims c.
  Hypothesis Hreset : sub (reset_box (dims c)) H.

  Lemma cover_within bs : Forall (fun b => sub b H) bs -> sub (cover (dims c) bs) H.
  Proof. intros; apply fold_stretch_least; auto. Qed.

  Lemma leaf_node_within ls : Forall (fun l => sub (lbox l) H) ls -> within H (leaf_node c ls).
  Proof.
    intros Hl. unfold leaf_node. rewrite within_NL. split; auto. apply cover_within. rewrite Forall_map. auto.
  Qed.
  Lemma inner_node_within cs : Forall (within H) cs -> within H (inner_node c cs).
  Proof.
    intros Hl. unfold inner_node. rewrite within_NI. split; auto. apply cover_within. rewrite Forall_map.
    eapply Forall_impl; [|exact Hl]. intros; apply within_box; auto.
  Qed.

  Definition res_within (r : option ins_result) : Prop :=
    forall n' sp rs, r = Some (n', sp, rs) ->
      within H n' /\ (forall s, sp = Some s -> within H s) /\ Forall (fun l => sub (lbox l) H) rs.

  Lemma insert_internal_within : forall fuel first isroot lf n lo h,
    wfn c lo h n -> within H n -> sub (lbox lf) H -> length (lbox lf) = dims c ->
    (isroot = false -> lo = min_items c) ->
    S h <= fuel ->
    res_within (insert_internal c fuel first isroot lf n).
  Proof.
    induction fuel as [|fuel IH]; intros first isroot lf n lo h Hw Hin Hlf Hd Hlo Hfuel; [lia|].
    destruct n as [b items|b items]; destruct h as [|h]; simpl in Hw; try tauto.
    - destruct Hw as (Hb & Hlen & Hsub). apply within_NL in Hin. destruct Hin as [Hbs Hls].
      assert (Hall : Forall (fun l => sub (lbox l) H) (items ++ [lf])) by (apply Forall_app; split; auto).
      assert (Hdim : Forall (fun l => length (lbox l) = dims c) (items ++ [lf])).
      { eapply Forall_impl; [|exact Hall]. intros l Hl. apply sub_length in Hl. congruence. }
      cbn [insert_internal].
      destruct (Nat.ltb_spec (max_items c) (length (items ++ [lf]))) as [Hov|Hov].
      + assert (HL : length (items ++ [lf]) = max_items c + 1) by (rewrite app_length in *; simpl in *; lia).
        unfold overflow_leaf. destruct (negb isroot && first).
        * unfold reinsert_far. intros n' sp rs Heq. injection Heq as <- <- <-.
          assert (Hf : Forall (fun l => sub (lbox l) H) (far_sort c (items ++ [lf]) (stretch b (lbox lf)))).
          { eapply Forall_perm; [apply Permutation_sym; apply Hok|auto]. }
          destruct (Forall_firstn_skipn _ (length (items ++ [lf]) - reinsert_count (length (items ++ [lf]))) _ Hf).
          split; [apply leaf_node_within; auto|]. split; auto. discriminate.
        * unfold split_leaf_node. destruct (split_leaves c (items ++ [lf])) as [s i] eqn:E.
          assert (Hf : Forall (fun l => sub (lbox l) H) s).
          { destruct Hok as (_ & _ & _ & Hs & _). destruct (Hs _ _ _ HL E) as (Hp & _).
            eapply Forall_perm; [apply Permutation_sym; exact Hp|auto]. }
          destruct (Forall_firstn_skipn _ i _ Hf).
          destruct isroot; intros n' sp rs Heq; injection Heq as <- <- <-.
          -- split; [|split; auto; discriminate]. apply inner_node_within.
             repeat constructor; apply leaf_node_within; auto.
          -- split; [apply leaf_node_within; auto|]. split; auto.
             intros s' Hs; injection Hs as <-. apply leaf_node_within; auto.
      + intros n' sp rs Heq. injection Heq as <- <- <-. split; [|split; auto; discriminate].
        rewrite within_NL. split; auto. apply stretch_least; auto.
    - destruct Hw as (Hb & Hlen & Hch & Hsub). apply within_NI in Hin. destruct Hin as [Hbs Hcs].
      cbn [insert_internal].
      destruct items as [|it0 items0] eqn:Eitems; [simpl in Hlen; lia|]. rewrite <- Eitems in *.
      assert (Hne : items <> []) by (subst; discriminate).
      clear Eitems it0 items0.
      destruct (choose c items (lbox lf)) as [its i] eqn:Ec.
      pose proof Hok as (_ & _ & Hchoose & _). destruct (Hchoose _ _ _ _ Hne Ec) as [Hp Hi].
      destruct (nth_error its i) as [ch|] eqn:En; [|intros ? ? ? ?; discriminate].
      destruct (nth_error_split its i En) as (l1 & l2 & Hits & Hl1).
      assert (Hchs : Forall (wfn c (min_items c) h) its) by (eapply Forall_perm; [apply Permutation_sym; exact Hp|auto]).
      assert (Hcss : Forall (within H) its) by (eapply Forall_perm; [apply Permutation_sym; exact Hp|auto]).
      assert (Hwch : wfn c (min_items c) h ch).
      { rewrite Forall_forall in Hchs. apply Hchs. rewrite Hits. apply in_or_app; simpl; auto. }
      assert (Hich : within H ch).
      { rewrite Forall_forall in Hcss. apply Hcss. rewrite Hits. apply in_or_app; simpl; auto. }
      pose proof (IH first false lf ch (min_items c) h Hwch Hich Hlf Hd ltac:(auto) ltac:(lia)) as IHr.
      destruct (insert_internal_post c Hok fuel h (min_items c) ch first false lf Hwch ltac:(lia) Hd ltac:(auto))
        as (ch' & sp & rs & Hres & _).
      rewrite Hres in *. destruct (IHr _ _ _ eq_refl) as (W1 & W2 & W3).
      assert (Hset : set_nth i ch' its = l1 ++ ch' :: l2) by (rewrite Hits, <- Hl1; apply set_nth_app).
      assert (Hwset : Forall (within H) (set_nth i ch' its)).
      { rewrite Hset. rewrite Hits in Hcss. apply Forall_app in Hcss. destruct Hcss as [Hc1 Hc2].
        inversion Hc2; subst. apply Forall_app; split; auto. }
      pose proof (Permutation_length Hp) as Hpl.
      assert (Hlset : length (set_nth i ch' its) = length items).
      { rewrite Hset, app_length; simpl. rewrite Hits, app_length in Hpl. simpl in Hpl. lia. }
      destruct sp as [sp|].
      + assert (Hwall : Forall (within H) (set_nth i ch' its ++ [sp])).
        { apply Forall_app; split; auto. }
        destruct (Nat.ltb_spec (max_items c) (length (set_nth i ch' its ++ [sp]))) as [Hov|Hov].
        * unfold overflow_node. destruct (negb isroot && first); [intros ? ? ? ?; discriminate|].
          unfold split_inner_node. destruct (split_nodes c (set_nth i ch' its ++ [sp])) as [s k] eqn:E.
          assert (HL : length (set_nth i ch' its ++ [sp]) = max_items c + 1) by (rewrite app_length in *; simpl in *; lia).
          assert (Hf : Forall (within H) s).
          { destruct Hok as (_ & _ & _ & _ & Hs & _). destruct (Hs _ _ _ HL E) as (Hp' & _).
            eapply Forall_perm; [apply Permutation_sym; exact Hp'|auto]. }
          destruct (Forall_firstn_skipn _ k _ Hf).
          destruct isroot; intros n' sp' rs' Heq; injection Heq as <- <- <-.
          -- split; [|split; auto; discriminate]. apply inner_node_within.
             repeat constructor; apply inner_node_within; auto.
          -- split; [apply inner_node_within; auto|]. split; auto.
             intros s' Hs; injection Hs as <-. apply inner_node_within; auto.
        * intros n' sp' rs' Heq. injection Heq as <- <- <-. split; [|split; auto; discriminate].
          rewrite within_NI. split; auto. apply stretch_least; auto.
      + intros n' sp' rs' Heq. injection Heq as <- <- <-. split; [|split; auto; discriminate].
        rewrite within_NI. split; auto. apply stretch_least; auto.
  Qed.

  Lemma insert_root_within first r lf r' rs : wfr c r -> within H r -> sub (lbox lf) H ->
    insert_root c first r lf = Some (r', rs) -> within H r' /\ Forall (fun l => sub (lbox l) H) rs.
  Proof.
    intros [h Hw] Hin Hlf. unfold insert_root.
    pose proof (wfn_height c ltac:(apply Hok) _ _ _ Hw) as Hh.
    destruct (insert_internal c (height r) first true lf r) as [[[n' sp] rs']|] eqn:E; [|discriminate].
    intros Heq; injection Heq as <- <-.
    assert (Hd : length (lbox lf) = dims c) by (apply sub_length in Hlf; congruence).
    pose proof (insert_internal_within (height r) first true lf r 0 h Hw Hin Hlf Hd ltac:(discriminate) ltac:(lia)) as Hres.
    destruct (Hres _ _ _ E) as (H1 & _ & H3). auto.
  Qed.

  Lemma reinsert_all_within : forall ls r r', wfr c r -> within H r -> Forall (fun l => sub (lbox l) H) ls ->
    reinsert_all c r ls = Some r' -> within H r'.
  Proof.
    induction ls as [|l ls IH]; intros r r' Hw Hin Hls; cbn [reinsert_all].
    - intros Heq; injection Heq as <-; auto.
    - inversion Hls; subst.
      assert (Hd : length (lbox l) = dims c).
      { match goal with Hs : sub (lbox l) H |- _ => apply sub_length in Hs; congruence end. }
      destruct (insert_root_spec c Hok false r l Hw Hd) as (r1 & rs & E & Hr1 & _ & _ & Hf).
      specialize (Hf eq_refl). subst rs. rewrite E.
      destruct (insert_root_within false r l r1 [] Hw Hin ltac:(auto) E) as [W _].
      intros; eapply IH; eauto.
  Qed.

  Lemma insert_full_within r lf r' : wfr c r -> within H r -> sub (lbox lf) H ->
    insert_full c r lf = Some r' -> within H r'.
  Proof.
    intros Hw Hin Hlf. unfold insert_full.
    assert (Hd : length (lbox lf) = dims c) by (apply sub_length in Hlf; congruence).
    destruct (insert_root_spec c Hok true r lf Hw Hd) as (r1 & rs & E & Hr1 & _).
    rewrite E. destruct (insert_root_within true r lf r1 rs Hw Hin Hlf E) as [W1 W2].
    apply reinsert_all_within; auto.
  Qed.

  Lemma run_insert_within : forall lfs t t', wft c t ->
    (forall r, troot t = Some r -> within H r) -> Forall (fun l => sub (lbox l) H) lfs ->
    run c t (map OpInsert lfs) = Some t' -> forall r, troot t' = Some r -> within H r.
  Proof.
    induction lfs as [|lf lfs IH]; intros t t' Hw Hin Hls; cbn [map run step].
    - intros Heq; injection Heq as <-; auto.
    - inversion Hls; subst.
      assert (Hd : length (lbox lf) = dims c).
      { match goal with Hs : sub (lbox lf) H |- _ => apply sub_length in Hs; congruence end. }
      destruct (insert_spec c Hok t lf Hw Hd) as (t1 & E & Hw1 & _). rewrite E.
      apply IH; auto. intros r Hr.
      unfold insert in E. destruct (troot t) as [r0|] eqn:Er.
      + destruct (insert_full c r0 lf) as [r1|] eqn:Ef; [|discriminate].
        injection E as <-. simpl in Hr. injection Hr as <-.
        destruct Hw as [_ Hw]. rewrite Er in Hw. eapply insert_full_within; eauto.
      + injection E as <-. simpl in Hr. injection Hr as <-. rewrite within_NL.
        split; auto.
  Qed.
End H.

(** Hull of a non-empty list of boxes. *)
Definition hull (bs : list box) : box := match bs with [] => [] | b :: bs' => fold_left stretch bs' b end.

Lemma hull_is_hull d b bs : Forall (fun x => length x = d) (b :: bs) -> is_hull (hull (b :: bs)) (b :: bs).
Proof.
  intros Hd. inversion Hd as [|? ? Hb Hbs]; subst. simpl.
  assert (Hf : Forall (fun x => length x = length b) bs) by auto.
  split.
  - intros x [<-|Hx]; [apply fold_stretch_acc; auto | apply fold_stretch_in; auto].
  - intros c0 _ Hc. apply fold_stretch_least; [apply Hc; simpl; auto|].
    rewrite Forall_forall. intros x Hx. apply Hc; simpl; auto.
Qed.

Lemma is_hull_unique h1 h2 bs : length h1 = length h2 -> is_hull h1 bs -> is_hull h2 bs -> h1 = h2.
Proof. intros Hl [A1 B1] [A2 B2]. apply sub_antisym; auto. Qed.

Lemma overall_hull c lfs t : config_ok c -> lfs <> [] ->
  Forall (fun l => length (lbox l) = dims c) lfs ->
  (exists h, is_hull h (map lbox lfs) /\ length h = dims c /\ sub (reset_box (dims c)) h) ->
  run c empty_tree (map OpInsert lfs) = Some t ->
  exists b, overall_box t = Some b /\ is_hull b (map lbox lfs).
Proof.
  intros Hok Hne Hd (h & Hh & Hlh & Hr) E.
  assert (Hops : Forall (op_ok c) (map OpInsert lfs)).
  { rewrite Forall_map. exact Hd. }
  destruct (run_spec c Hok (map OpInsert lfs) empty_tree (wft_empty c) Hops) as (t' & E' & Hw & Hs).
  assert (t' = t) by congruence. subst t'.
  assert (Hp : Permutation (tleaves t) lfs).
  { clear - Hs. rewrite <- (app_nil_r lfs). change (tleaves empty_tree) with (@nil leaf) in Hs.
    revert Hs. generalize (@nil leaf) as S0. induction lfs as [|l lfs IH]; simpl; intros S0 Hs; inversion Hs; subst.
    - apply Permutation_sym; auto.
    - match goal with H : spec_step _ _ _ |- _ => inversion H; subst end.
      specialize (IH _ H4). lperm. }
  destruct (troot t) as [r|] eqn:Er.
  - unfold overall_box. rewrite Er. exists (nbox r). split; auto.
    assert (Hin : within h r).
    { eapply run_insert_within with (t := empty_tree) (lfs := lfs); eauto.
      - apply wft_empty.
      - simpl; discriminate.
      - rewrite Forall_forall. intros l Hl. apply Hh. apply in_map; auto. }
    assert (Hwr : wfr c r) by (destruct Hw as [_ Hw]; rewrite Er in Hw; auto).
    destruct Hwr as [hh Hwn].
    pose proof (wfn_leaves _ _ _ _ Hwn) as Hlv. rewrite Forall_forall in Hlv.
    unfold tleaves in Hp. rewrite Er in Hp.
    split.
    + intros b Hb. apply in_map_iff in Hb. destruct Hb as [l [<- Hl]]. apply Hlv.
      eapply Permutation_in; [apply Permutation_sym; exact Hp|auto].
    + intros c0 Hc Hall. apply within_box in Hin. eapply sub_trans; [exact Hin|].
      apply Hh; auto. apply sub_length in Hin. congruence.
  - exfalso. unfold tleaves in Hp. rewrite Er in Hp. apply Permutation_nil in Hp. auto.
Qed.

(** Without any overflow the root box is exact whatever the signs. *)
Lemma run_small c : 2 <= min_items c -> forall lfs b items s,
  length items + length lfs <= max_items c ->
  run c (mkTree (Some (NL b items)) s) (map OpInsert lfs) =
  Some (mkTree (Some (NL (fold_left stretch (map lbox lfs) b) (items ++ lfs))) (s + length lfs)).
Proof.
  intros Hm. induction lfs as [|l lfs IH]; intros b items s Hl; cbn [map run step].
  - simpl. rewrite app_nil_r, Nat.add_0_r. auto.
  - simpl in Hl. unfold insert, insert_full, insert_root. cbn [troot height insert_internal].
    destruct (Nat.ltb_spec (max_items c) (length (items ++ [l]))) as [Hov|_];
      [rewrite app_length in Hov; simpl in Hov; lia|].
    cbn [reinsert_all tsize]. rewrite IH by (rewrite app_length; simpl; lia).
    simpl. rewrite <- app_assoc. simpl. do 2 f_equal. lia.
Qed.

(** * Translation of queries *)
Definition translate_acceptor (v : list Z) (a : acceptor) : acceptor :=
  match a with
  | AcceptOverlapping q => AcceptOverlapping (translate q v)
  | AcceptEnclosing q => AcceptEnclosing (translate q v)
  | AcceptEnclosed q => AcceptEnclosed (translate q v)
  | AcceptAny => AcceptAny
  end.

Lemma accept_node_translate d v a b : length v = d -> acceptor_dim d a -> length b = d ->
  accept_node (translate_acceptor v a) (translate b v) = accept_node a b.
Proof. destruct a; simpl; intros; auto; apply overlaps_translate; congruence. Qed.

Lemma accept_leaf_translate d v a l : length v = d -> acceptor_dim d a -> length (lbox l) = d ->
  accept_leaf (translate_acceptor v a) (translate_leaf v l) = accept_leaf a l.
Proof.
  destruct a; simpl; intros; auto; try (apply overlaps_translate; congruence); apply encloses_translate; congruence.
Qed.

Lemma reached_translate c v a : length v = dims c -> acceptor_dim (dims c) a ->
  forall h lo n, wfn c lo h n ->
  reached (translate_acceptor v a) (translate_node v n) = map (translate_leaf v) (reached a n).
Proof.
  intros Hv Ha. induction h as [|h IH]; intros lo n Hw.
  - pose proof (wfn_leaves_dim _ _ _ _ Hw) as Hd. destruct n as [b items|b items]; simpl in Hw; try tauto.
    destruct Hw as (Hb & _ & _). simpl in *. rewrite (accept_node_translate (dims c)) by auto.
    destruct (accept_node a b); auto. induction Hd as [|l items Hl Hd IH]; simpl; auto.
    rewrite (accept_leaf_translate (dims c)) by auto. rewrite IH. destruct (accept_leaf a l); auto.
  - destruct n as [b items|b items]; simpl in Hw; try tauto. destruct Hw as (Hb & _ & Hch & _).
    simpl. rewrite (accept_node_translate (dims c)) by auto. destruct (accept_node a b); auto.
    induction Hch as [|x items Hx Hch IH2]; simpl; auto. rewrite map_app. f_equal; auto. eapply IH; eauto.
Qed.

Lemma gather_translate c v a t : config_ok c -> wft c t -> length v = dims c -> acceptor_dim (dims c) a ->
  gather (translate_acceptor v a) (translate_tree v t) = map (translate_leaf v) (gather a t).
Proof.
  intros Hok Hw Hv Ha.
  pose proof (translate_spec c v t Hw Hv) as Hw'.
  rewrite !(gather_tree c) by auto.
  unfold treached, translate_tree. destruct Hw as [_ Hr]. destruct (troot t) as [r|] eqn:Er; simpl.
  - destruct Hr as [h Hh]. eapply reached_translate; eauto.
  - rewrite Er. reflexivity.
Qed.

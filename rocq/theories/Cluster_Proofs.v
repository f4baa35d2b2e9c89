(** Proofs about clusters. *)
Require Import ZArith List Bool Arith Lia Permutation Sorted Relation_Operators Operators_Properties.
Require Import Verif.Base Verif.SortU Verif.ListX Verif.RTree_Model Verif.Traj_Model Verif.Traj_Spec Verif.Traj_Proofs Verif.Particles_Spec
  Verif.Ngb_Model Verif.Ngb_Proofs Verif.Cluster_Model Verif.Cluster_Spec.
Import ListNotations.

Lemma nset_add_in x y : forall s, In y (nset_add x s) <-> y = x \/ In y s.
Proof.
  induction s as [|z s IH]; simpl; [intuition congruence|]. destruct (Nat.ltb_spec x z); [simpl; intuition congruence|].
  destruct (Nat.ltb_spec z x); [simpl; rewrite IH; tauto|]. assert (x = z) by lia. subst. simpl. intuition congruence.
Qed.
Lemma nset_add_sorted x : forall s, StronglySorted lt s -> StronglySorted lt (nset_add x s).
Proof.
  induction s as [|z s IH]; intros H; simpl; [repeat constructor|]. inversion H; subst. destruct (Nat.ltb_spec x z).
  - constructor; auto. constructor; auto. eapply Forall_impl; [|eassumption]. simpl. intros. lia.
  - destruct (Nat.ltb_spec z x); auto. constructor; auto. apply Forall_forall. intros y Hy. apply nset_add_in in Hy. rewrite Forall_forall in *. destruct Hy as [->|Hy]; auto.
Qed.
Lemma nset_del_in x y s : In y (nset_del x s) <-> y <> x /\ In y s.
Proof. unfold nset_del. rewrite filter_In, negb_true_iff, Nat.eqb_neq. tauto. Qed.
Lemma nset_mem_in x s : nset_mem x s = true <-> In x s.
Proof. unfold nset_mem. rewrite existsb_exists. split; [intros [y [H E]]; apply Nat.eqb_eq in E; subst; auto|intros H; exists x; split; auto; apply Nat.eqb_refl]. Qed.
Lemma filter_length_le_x {A} (f : A -> bool) : forall l, length (filter f l) <= length l.
Proof. induction l as [|a l IH]; simpl; auto. destruct (f a); simpl; lia. Qed.
Lemma nset_del_length x s : In x s -> length (nset_del x s) < length s.
Proof.
  unfold nset_del. induction s as [|y s IH]; simpl; [tauto|]. intros [->|H].
  - rewrite Nat.eqb_refl. simpl. pose proof (filter_length_le_x (fun y => negb (y =? x)) s). lia.
  - specialize (IH H). destruct (y =? x); simpl; lia.
Qed.

(** Depth-first search: the part taken from the population is what can be reached from [todo]. *)
Definition path (ngbs : list (list nat)) (pop : list nat) : nat -> nat -> Prop := clos_refl_trans nat (edge ngbs pop).
Lemma path_mono ngbs pop pop' a b : (forall x, In x pop' -> In x pop) -> path ngbs pop' a b -> path ngbs pop a b.
Proof.
  intros H P. induction P as [a b [H1 [H2 H3]]|a|a b c _ IH1 _ IH2]; [|apply rt_refl|eapply rt_trans; eauto]. apply rt_step. repeat split; auto.
Qed.
Record grown (ngbs : list (list nat)) (todo pop cl pop' cl' : list nat) : Prop := {
  g_sub : forall x, In x pop' -> In x pop;
  g_pop : StronglySorted lt pop -> StronglySorted lt pop';
  g_cl : forall x, In x cl' <-> In x cl \/ (In x pop /\ ~ In x pop');
  g_sorted : StronglySorted lt cl -> StronglySorted lt cl';
  g_todo : forall n, In n todo -> ~ In n pop';
  g_reach : forall x, In x pop -> ~ In x pop' -> exists n, In n todo /\ In n pop /\ path ngbs pop n x;
  g_closed : forall x y, In x pop -> ~ In x pop' -> linked ngbs x y -> ~ In y pop';
  g_len : length pop' <= length pop }.
Lemma grow_ok ngbs : forall fuel todo pop cl, length pop <= fuel -> (forall x, In x pop -> x < length ngbs) ->
  exists pop' cl', grow fuel ngbs todo pop cl = Some (pop', cl') /\ grown ngbs todo pop cl pop' cl'.
Proof.
  induction fuel as [|f IHf]; intros todo; induction todo as [|n todo IHt]; intros pop cl Hlen Hlt.
  - exists pop, cl. split; auto. constructor; auto; try tauto; firstorder.
  - destruct pop as [|z pop]; [|simpl in Hlen; lia]. simpl. destruct (IHt [] cl) as [pop' [cl' [E G]]]; auto. exists pop', cl'. split; auto.
    destruct G. assert (pop' = []) as -> by (destruct pop'; auto; exfalso; apply (g_sub0 n0); simpl; auto). constructor; auto; simpl; try tauto.
  - exists pop, cl. split; auto. constructor; auto; try tauto; firstorder.
  - simpl. destruct (nset_mem n pop) eqn:Em.
    + apply nset_mem_in in Em. destruct (nth_error_ex ngbs n) as [l Hl]; [auto|]. rewrite Hl.
      destruct (IHf l (nset_del n pop) (nset_add n cl)) as [p1 [c1 [E1 G1]]].
      { pose proof (nset_del_length n pop Em). lia. }
      { intros x Hx. apply nset_del_in in Hx. apply Hlt. tauto. }
      rewrite E1. destruct (IHt p1 c1) as [p2 [c2 [E2 G2]]].
      { destruct G1. pose proof (nset_del_length n pop Em). lia. }
      { intros x Hx. apply (g_sub _ _ _ _ _ _ G1) in Hx. apply nset_del_in in Hx. apply Hlt. tauto. }
      exists p2, c2. split; [exact E2|].
      assert (Hsub1 : forall x, In x p1 -> In x pop /\ x <> n).
      { intros x Hx. apply (g_sub _ _ _ _ _ _ G1) in Hx. apply nset_del_in in Hx. tauto. }
      assert (Hn2 : ~ In n p2) by (intros H; apply (g_sub _ _ _ _ _ _ G2) in H; apply Hsub1 in H; tauto).
      constructor.
      * intros x Hx. apply (g_sub _ _ _ _ _ _ G2) in Hx. apply Hsub1 in Hx. tauto.
      * intros Hs. apply (g_pop _ _ _ _ _ _ G2), (g_pop _ _ _ _ _ _ G1). apply filter_ssorted. auto.
      * intros x. rewrite (g_cl _ _ _ _ _ _ G2), (g_cl _ _ _ _ _ _ G1), nset_add_in, nset_del_in.
        assert (In x p2 -> In x p1) by apply (g_sub _ _ _ _ _ _ G2). assert (In x p1 -> In x pop /\ x <> n) by apply Hsub1.
        destruct (Nat.eq_dec x n) as [->|Hx]; [tauto|]. destruct (In_dec Nat.eq_dec x p1); tauto.
      * intros Hs. apply (g_sorted _ _ _ _ _ _ G2), (g_sorted _ _ _ _ _ _ G1). apply nset_add_sorted. auto.
      * intros m [<-|Hm]; auto. apply (g_todo _ _ _ _ _ _ G2). auto.
      * intros x Hx Hx2. destruct (In_dec Nat.eq_dec x p1) as [H1|H1].
        -- destruct (g_reach _ _ _ _ _ _ G2 x H1 Hx2) as [m [Hm [Hmp Hp]]]. exists m. split; [simpl; auto|]. split; [apply Hsub1; auto|].
           eapply path_mono; [|exact Hp]. intros; apply Hsub1; auto.
        -- exists n. split; [simpl; auto|]. split; auto. destruct (Nat.eq_dec x n) as [->|Hne]; [apply rt_refl|].
           destruct (g_reach _ _ _ _ _ _ G1 x) as [m [Hm [Hmp Hp]]]; auto; [apply nset_del_in; auto|].
           apply rt_trans with m; [apply rt_step|eapply path_mono; [|exact Hp]; intros y Hy; apply nset_del_in in Hy; tauto].
           apply nset_del_in in Hmp. split; auto. split; [tauto|]. exists l. auto.
      * intros x y Hx Hx2 Hl' Hy. assert (Hy1 := g_sub _ _ _ _ _ _ G2 y Hy). destruct (Nat.eq_dec x n) as [->|Hne].
        -- destruct Hl' as [l' [El' Hyl]]. assert (l' = l) by congruence. subst. apply (g_todo _ _ _ _ _ _ G1 y); auto.
        -- destruct (In_dec Nat.eq_dec x p1) as [H1|H1].
           ++ apply (g_closed _ _ _ _ _ _ G2 x y); auto.
           ++ apply (g_closed _ _ _ _ _ _ G1 x y); auto. apply nset_del_in; auto.
      * pose proof (g_len _ _ _ _ _ _ G2). pose proof (g_len _ _ _ _ _ _ G1). pose proof (nset_del_length n pop Em). lia.
    + destruct (IHt pop cl Hlen Hlt) as [p2 [c2 [E2 G2]]]. exists p2, c2. split; [exact E2|]. assert (Hn : ~ In n pop) by (rewrite <- nset_mem_in; congruence).
      destruct G2. constructor; auto.
      * intros m [<-|Hm]; auto.
      * intros x Hx Hx2. destruct (g_reach0 x Hx Hx2) as [m [Hm [Hmp Hp]]]. exists m. simpl. auto.
Qed.
Lemma grow_center ngbs c pop : StronglySorted lt (c :: pop) -> (forall x, In x (c :: pop) -> x < length ngbs) ->
  exists pop' cl, grow_cluster ngbs c pop [c] = Some (pop', cl) /\ StronglySorted lt pop' /\ StronglySorted lt cl /\ length pop' <= length pop /\
    (forall x, In x (c :: pop) <-> In x cl \/ In x pop') /\ (forall x, In x cl -> ~ In x pop') /\ In c cl /\
    (forall x, In x cl -> path ngbs (c :: pop) c x) /\ (forall x y, In x cl -> linked ngbs x y -> ~ In y pop').
Proof.
  intros Hs Hlt. inversion Hs as [|? ? Hs' Hc]; subst. unfold grow_cluster. destruct (nth_error_ex ngbs c) as [l Hl]; [apply Hlt; simpl; auto|]. rewrite Hl.
  destruct (grow_ok ngbs (length pop) l pop [c] (le_n _)) as [pop' [cl [E G]]]; [intros; apply Hlt; simpl; auto|]. exists pop', cl. split; auto.
  assert (Hnc : ~ In c pop) by (intros H; rewrite Forall_forall in Hc; specialize (Hc c H); lia).
  assert (Hcl : forall x, In x cl <-> x = c \/ In x pop /\ ~ In x pop') by (intros x; rewrite (g_cl _ _ _ _ _ _ G); simpl; intuition).
  split; [apply (g_pop _ _ _ _ _ _ G); auto|]. split; [apply (g_sorted _ _ _ _ _ _ G); repeat constructor|]. split; [apply (g_len _ _ _ _ _ _ G)|]. split.
  { intros x. rewrite Hcl. simpl. assert (In x pop' -> In x pop) by apply (g_sub _ _ _ _ _ _ G). destruct (In_dec Nat.eq_dec x pop'); intuition. }
  split. { intros x. rewrite Hcl. intros [->|[_ H]]; auto. intros H. apply Hnc. eapply g_sub; eauto. }
  split; [apply Hcl; auto|]. split.
  - intros x. rewrite Hcl. intros [->|[H1 H2]]; [apply rt_refl|]. destruct (g_reach _ _ _ _ _ _ G x H1 H2) as [n [Hn [Hnp Hp]]].
    apply rt_trans with n; [apply rt_step; split; [simpl; auto|split; [simpl; auto|exists l; auto]]|eapply path_mono; [|exact Hp]; simpl; auto].
  - intros x y. rewrite Hcl. intros [->|[H1 H2]] Hl'; [|eapply g_closed; eauto].
    destruct Hl' as [l' [El' Hy]]. assert (l' = l) by congruence. subst. apply (g_todo _ _ _ _ _ _ G). auto.
Qed.

Definition sym_in (ngbs : list (list nat)) (pop : list nat) : Prop := forall a b, In a pop -> In b pop -> linked ngbs a b -> linked ngbs b a.
Lemma path_closed ngbs (P : nat -> Prop) pop : (forall x y, edge ngbs pop x y -> P x -> P y) -> forall a b, path ngbs pop a b -> P a -> P b.
Proof. intros H a b Hp. induction Hp; auto. eauto. Qed.
Lemma path_restrict ngbs pop pop' : (forall x y, edge ngbs pop x y -> In x pop' -> In y pop') -> forall a b, path ngbs pop a b -> In a pop' -> path ngbs pop' a b.
Proof.
  intros H a b Hp. apply clos_rt_rt1n in Hp. induction Hp as [a|a b c Hab _ IH]; intros Ha; [apply rt_refl|].
  assert (Hb : In b pop') by eauto. apply rt_trans with b; [apply rt_step; split; auto; split; auto; apply Hab|exact (IH Hb)].
Qed.
Lemma path_sym ngbs pop : sym_in ngbs pop -> forall a b, path ngbs pop a b -> path ngbs pop b a.
Proof.
  intros Hs a b Hp. induction Hp as [a b [H1 [H2 H3]]|a|a b c _ IH1 _ IH2]; [|apply rt_refl|eapply rt_trans; eauto]. apply rt_step. split; auto.
Qed.

(** The new clusters appended by [segregate]. *)
Lemma segregate_ok ngbs : forall fuel pop acc, length pop <= fuel -> StronglySorted lt pop -> (forall x, In x pop -> x < length ngbs) ->
  exists cls, segregate_loop fuel ngbs pop acc = Some (acc ++ cls) /\
    (forall x, In x pop <-> exists cl, In cl cls /\ In x cl) /\
    (forall k cl, nth_error cls k = Some cl -> cl <> [] /\ StronglySorted lt cl) /\
    (forall k k' cl cl' x, nth_error cls k = Some cl -> nth_error cls k' = Some cl' -> In x cl -> In x cl' -> k = k') /\
    (sym_in ngbs pop -> forall cl x y, In cl cls -> In x cl -> (In y cl <-> connected ngbs pop x y)).
Proof.
  induction fuel as [|f IH]; intros pop acc Hlen Hs Hlt.
  - destruct pop; [|simpl in Hlen; lia]. exists []. simpl. rewrite app_nil_r. split; auto. split; [firstorder|]. split; [intros [|k]; discriminate|]. split; [intros [|k]; discriminate|]. firstorder.
  - destruct pop as [|c pop]; [exists []; simpl; rewrite app_nil_r; split; auto; split; [firstorder|]; split; [intros [|k]; discriminate|]; split; [intros [|k]; discriminate|]; firstorder|].
    cbn [segregate_loop]. destruct (grow_center ngbs c pop Hs Hlt) as [pop' [cl [E [Hs' [Hscl [Hl' [Hpart [Hdis [Hc [Hreach Hclo]]]]]]]]]]. rewrite E.
    destruct (IH pop' (acc ++ [cl])) as [cls [E' [Hcov [Hne [Huniq Hconn]]]]]; [simpl in Hlen; lia|auto|intros x Hx; apply Hlt; apply Hpart; auto|].
    exists (cl :: cls). rewrite E', <- app_assoc. split; auto. split; [|split; [|split]].
    + intros x. rewrite Hpart, Hcov. split.
      * intros [H|[cl' [H1 H2]]]; [exists cl; simpl; auto|exists cl'; simpl; auto].
      * intros [cl' [[<-|H1] H2]]; auto. right. eauto.
    + intros [|k] cl' Hk; [|eauto]. injection Hk as <-. split; auto. intros ->. destruct Hc.
    + intros [|k] [|k'] c1 c2 x H1 H2 Hx1 Hx2; simpl in H1, H2; auto.
      * injection H1 as <-. exfalso. apply (Hdis x Hx1). apply Hcov. exists c2. split; auto. eapply nth_error_In; eauto.
      * injection H2 as <-. exfalso. apply (Hdis x Hx2). apply Hcov. exists c1. split; auto. eapply nth_error_In; eauto.
      * f_equal. eauto.
    + intros Hsym c1 x y [<-|H1] Hx.
      * split.
        -- intros Hy. split; [apply Hpart; auto|]. split; [apply Hpart; auto|]. apply rt_trans with c; [apply path_sym; auto; apply Hreach; auto|apply Hreach; auto].
        -- intros [H1 [H2 Hp]]. revert Hx. revert x y Hp H1 H2. intros x y Hp _ _. apply (path_closed ngbs (fun z => In z cl) (c :: pop)); auto.
           intros u v [Hu [Hv Hl]] Hucl. apply Hpart in Hv. destruct Hv as [|Hv]; auto. exfalso. apply (Hclo u v); auto.
      * assert (Hx' : In x pop') by (apply Hcov; eauto). assert (Hsub : forall z, In z pop' -> In z (c :: pop)) by (intros; apply Hpart; auto).
        rewrite (Hconn (fun a b Ha Hb => Hsym a b (Hsub a Ha) (Hsub b Hb)) c1 x y H1 Hx). split.
        -- intros [Ha [Hb Hp]]. split; auto. split; auto. eapply path_mono; [exact Hsub|exact Hp].
        -- intros [Ha [Hb Hp]]. assert (Hstep : forall u v, edge ngbs (c :: pop) u v -> In u pop' -> In v pop').
           { intros u v [Hu [Hv Hl]] Hu'. assert (Hv' := Hv). apply Hpart in Hv'. destruct Hv' as [Hv'|]; auto. exfalso. apply (Hclo v u); auto. }
           assert (Hy : In y pop') by (apply (path_closed ngbs (fun z => In z pop') (c :: pop) Hstep x y); auto).
           split; auto. split; auto. apply (path_restrict ngbs (c :: pop) pop' Hstep); auto.
Qed.

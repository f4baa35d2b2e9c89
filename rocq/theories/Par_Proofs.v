(** Proofs about parallel loops. *)
Require Import ZArith QArith List Bool Arith Lia Permutation.
Require Import Verif.Base Verif.RTree_Model Verif.ListX Verif.Traj_Model Verif.Par_Model Verif.Par_Spec.
Import ListNotations.
Local Open Scope nat_scope.

Lemma nth_set_x : forall A (l : list A) i x j, i < length l -> nth_error (set_nth i x l) j = if j =? i then Some x else nth_error l j.
Proof.
  intros A l; induction l as [|a l IH]; intros i x j H; [cbn in H; lia|].
  destruct i, j; cbn; auto. apply IH. cbn in H; lia.
Qed.
Lemma nth_lt : forall A (l : list A) i x, nth_error l i = Some x -> i < length l.
Proof. intros A l i x H. apply nth_error_Some. rewrite H. discriminate. Qed.

Section General.
  Variable V : Type.
  Notation state := (list V * list (pthread V))%type.
  Definition touches (k : nat) (th : pthread V) : Prop :=
    (exists y, ppend th = Some (k, y)) \/ exists f, In (k, f) (ptodo th).
  Definition fs (k : nat) (l : list (statement V)) : list (V -> V) := map snd (filter (fun o => fst o =? k) l).
  Definition app_all (l : list (V -> V)) (x : V) : V := fold_left (fun x f => f x) l x.
  (** the value cell k would have if thread [th] alone went on *)
  Definition due (k : nat) (m : option V) (th : pthread V) : option V :=
    match ppend th with
    | Some (j, y) => if j =? k then Some (app_all (fs k (ptodo th)) y) else option_map (app_all (fs k (ptodo th))) m
    | None => option_map (app_all (fs k (ptodo th))) m
    end.

  Lemma pstep_len : forall (s : state) i s', pstep s i = Some s' -> length (fst s') = length (fst s) /\ length (snd s') = length (snd s).
  Proof.
    intros [mem ths] i s' H. unfold pstep in H.
    destruct (nth_error ths i) as [[[[k y]|] r]|] eqn:E; [| |discriminate].
    - destruct (k <? length mem) eqn:L; [|discriminate]. inversion H; subst. cbn. rewrite !set_nth_len. auto.
    - destruct r as [|[k f] r]; [discriminate|]. destruct (nth_error mem k) eqn:G; [|discriminate]. inversion H; subst. cbn. rewrite !set_nth_len. auto.
  Qed.
  Lemma prun_len : forall sched (s s' : state), prun s sched = Some s' -> length (fst s') = length (fst s) /\ length (snd s') = length (snd s).
  Proof.
    induction sched as [|i sched IH]; intros s s' H; cbn in H; [inversion H; auto|].
    destruct (pstep s i) as [s1|] eqn:E; [|discriminate].
    destruct (pstep_len _ _ _ E). destruct (IH _ _ H). split; congruence.
  Qed.

  Definition owned (k o : nat) (want : option V) (s : state) : Prop :=
    (forall j th, nth_error (snd s) j = Some th -> j <> o -> ~ touches k th) /\
    match nth_error (snd s) o with Some th => due k (nth_error (fst s) k) th = want | None => nth_error (fst s) k = want end.

  Lemma pstep_owned : forall k o want s i s', owned k o want s -> pstep s i = Some s' -> owned k o want s'.
  Proof.
    intros k o want [mem ths] i s' [Ho Hw] H. unfold pstep in H.
    destruct (nth_error ths i) as [[[[c y]|] r]|] eqn:E; [| |discriminate].
    - destruct (c <? length mem) eqn:L; [|discriminate]. apply Nat.ltb_lt in L.
      pose proof (nth_lt _ _ _ _ E) as Li.
      assert (Hc : i <> o -> c <> k).
      { intros N ->. apply (Ho i _ E N). left. exists y. reflexivity. }
      inversion H; subst; clear H. unfold owned in *; cbn [fst snd] in *. split.
      + intros j th Hj Nj Ht. rewrite nth_set_x in Hj by auto. destruct (Nat.eqb_spec j i) as [->|N].
        * inversion Hj; subst. apply (Ho i _ E Nj). destruct Ht as [[z Hz]|[f Hf]]; [discriminate|]. right. exists f. exact Hf.
        * exact (Ho j th Hj Nj Ht).
      + rewrite !nth_set_x by auto. destruct (Nat.eqb_spec o i) as [->|N].
        * rewrite E in Hw. cbn in Hw |- *. destruct (Nat.eqb_spec k c) as [->|Nc].
          -- rewrite Nat.eqb_refl in Hw. cbn. exact Hw.
          -- destruct (Nat.eqb_spec c k); [subst; congruence|]. exact Hw.
        * destruct (Nat.eqb_spec k c) as [->|Nc]; [exfalso; apply Hc; auto|]. exact Hw.
    - destruct r as [|[c f] r]; [discriminate|]. destruct (nth_error mem c) as [x|] eqn:G; [|discriminate].
      pose proof (nth_lt _ _ _ _ E) as Li.
      inversion H; subst; clear H. unfold owned in *; cbn [fst snd] in *. split.
      + intros j th Hj Nj Ht. rewrite nth_set_x in Hj by auto. destruct (Nat.eqb_spec j i) as [->|N].
        * inversion Hj; subst. apply (Ho i _ E Nj). destruct Ht as [[z Hz]|[g Hg]]; right.
          -- cbn in Hz. inversion Hz; subst. exists f. left. reflexivity.
          -- exists g. right. exact Hg.
        * exact (Ho j th Hj Nj Ht).
      + rewrite nth_set_x by auto. destruct (Nat.eqb_spec o i) as [->|N]; [|exact Hw].
        rewrite E in Hw. unfold due, fs in *. cbn in Hw |- *.
        destruct (Nat.eqb_spec c k) as [->|Nc]; [|exact Hw].
        rewrite G in Hw. cbn in Hw. exact Hw.
  Qed.
  Lemma prun_owned : forall k o want sched s s', owned k o want s -> prun s sched = Some s' -> owned k o want s'.
  Proof.
    induction sched as [|i sched IH]; intros s s' Ho H; cbn in H; [inversion H; subst; auto|].
    destruct (pstep s i) as [s1|] eqn:E; [|discriminate]. eapply IH; [|exact H]. eapply pstep_owned; eauto.
  Qed.

  Lemma fs_none : forall k (l : list (statement V)), (forall f, ~ In (k, f) l) -> fs k l = [].
  Proof.
    intros k l H. unfold fs. induction l as [|[c f] l IH]; [reflexivity|]. cbn.
    destruct (Nat.eqb_spec c k) as [->|N]; [exfalso; apply (H f); left; reflexivity|]. apply IH. intros g Hg. apply (H g). right. exact Hg.
  Qed.
  Lemma fs_app : forall k (a b : list (statement V)), fs k (a ++ b) = fs k a ++ fs k b.
  Proof. intros. unfold fs. rewrite filter_app, map_app. reflexivity. Qed.
  Lemma fs_concat_none : forall k (ls : list (list (statement V))), (forall j l f, nth_error ls j = Some l -> ~ In (k, f) l) -> fs k (concat ls) = [].
  Proof.
    intros k ls H. apply fs_none. intros f Hf. apply in_concat in Hf as [l [Hl Hf]].
    apply In_nth_error in Hl as [j Hj]. exact (H j l f Hj Hf).
  Qed.
  Lemma fs_concat_one : forall k (ls : list (list (statement V))) o, (forall j l f, nth_error ls j = Some l -> j <> o -> ~ In (k, f) l) ->
    fs k (concat ls) = match nth_error ls o with Some l => fs k l | None => [] end.
  Proof.
    intros k ls; induction ls as [|l ls IH]; intros o H; [destruct o; reflexivity|].
    destruct o; cbn [concat nth_error]; rewrite fs_app.
    - rewrite (fs_concat_none k ls), app_nil_r; [reflexivity|]. intros j l' f Hj. apply (H (S j) l' f Hj). lia.
    - rewrite (fs_none k l). { cbn [app]. apply IH. intros j l' f Hj N. apply (H (S j) l' f Hj). lia. }
      intros f. apply (H 0 l f); [reflexivity|lia].
  Qed.

  (** at most one thread works on each cell *)
  Definition separate (progs : list (list (statement V))) : Prop :=
    forall i j li lj k f g, i <> j -> nth_error progs i = Some li -> nth_error progs j = Some lj -> In (k, f) li -> In (k, g) lj -> False.

  Lemma owner : forall (progs : list (list (statement V))) k, separate progs -> exists o, forall j l f, nth_error progs j = Some l -> j <> o -> ~ In (k, f) l.
  Proof.
    intros progs k Hs.
    destruct (existsb (fun l => existsb (fun o => fst o =? k) l) progs) eqn:E.
    - apply existsb_exists in E as [l [Hl E]]. apply existsb_exists in E as [[c f] [Hf E]]. cbn in E. apply Nat.eqb_eq in E; subst c.
      apply In_nth_error in Hl as [o Ho]. exists o. intros j lj g Hj N Hg. exact (Hs j o lj l k g f N Hj Ho Hg Hf).
    - exists 0. intros j l f Hj N Hf. assert (existsb (fun l => existsb (fun o => fst o =? k) l) progs = true); [|congruence].
      apply existsb_exists. exists l. split; [eapply nth_error_In; eauto|]. apply existsb_exists. exists (k, f). split; [auto|apply Nat.eqb_refl].
  Qed.

  Theorem separate_exact : forall mem progs sched mem' ths, prun (plaunch mem progs) sched = Some (mem', ths) -> forallb pdone ths = true -> separate progs ->
    forall k, nth_error mem' k = option_map (app_all (fs k (concat progs))) (nth_error mem k).
  Proof.
    intros mem progs sched mem' ths H Hd Hs k. destruct (owner progs k Hs) as [o Ho].
    assert (I : owned k o (option_map (app_all (fs k (concat progs))) (nth_error mem k)) (plaunch mem progs)).
    { unfold owned, plaunch; cbn [fst snd]. split.
      - intros j th Hj N Ht. rewrite nth_error_map in Hj. destruct (nth_error progs j) as [l|] eqn:El; [|discriminate]. inversion Hj; subst.
        destruct Ht as [[y Hy]|[f Hf]]; [discriminate|]. exact (Ho j l f El N Hf).
      - rewrite nth_error_map, (fs_concat_one k progs o) by exact Ho. destruct (nth_error progs o) as [l|]; cbn; [reflexivity|].
        destruct (nth_error mem k); reflexivity. }
    pose proof (prun_owned _ _ _ _ _ _ I H) as [_ J]. cbn [fst snd] in J.
    destruct (nth_error ths o) as [th|] eqn:E; [|exact J].
    rewrite forallb_forall in Hd. specialize (Hd th (nth_error_In _ _ E)).
    destruct th as [[p|] [|q r]]; cbn in Hd; try discriminate. cbn in J. destruct (nth_error mem' k); cbn in J; exact J.
  Qed.
End General.

Section Sums.
  Variable V : Type.
  Variable add : V -> V -> V.
  Definition accums (l : list (nat * V)) : list (statement V) := map (fun kv => accum add (fst kv) (snd kv)) l.
  Definition contribs (k : nat) (l : list (nat * V)) : list V := map snd (filter (fun kv => fst kv =? k) l).
  Lemma contribs_app : forall k a b, contribs k (a ++ b) = contribs k a ++ contribs k b.
  Proof. intros. unfold contribs. rewrite filter_app, map_app. reflexivity. Qed.

  (** a thread, with the contributions it still has to make *)
  Definition rem (th : pthread V) (l : list (nat * V)) : Prop := ptodo th = accums l.
  (** value x is the sum of some of the contributions [past] to a cell that started at x0 *)
  Definition partial_sum (x0 : V) (past : list V) (x : V) : Prop := exists l, some_of l past /\ x = fold_left add l x0.
  Definition pend_ok (mem0 : list V) (past : list (nat * V)) (th : pthread V) : Prop :=
    match ppend th with None => True | Some (k, y) => exists x0, nth_error mem0 k = Some x0 /\ partial_sum x0 (contribs k past) y end.
  Definition sums_ok (mem0 : list V) (all : list (nat * V)) (s : list V * list (pthread V)) : Prop :=
    exists past todos, Permutation (past ++ concat todos) all /\ Forall2 rem (snd s) todos /\ Forall (pend_ok mem0 past) (snd s) /\
      forall k x, nth_error (fst s) k = Some x -> exists x0, nth_error mem0 k = Some x0 /\ partial_sum x0 (contribs k past) x.

  Lemma some_more : forall x0 past v x, partial_sum x0 past x -> partial_sum x0 (past ++ [v]) x.
  Proof. intros x0 past v x [l [[lost P] E]]. exists l. split; [|exact E]. exists (lost ++ [v]). rewrite app_assoc. apply Permutation_app_tail. exact P. Qed.
  Lemma some_add : forall x0 past v x, partial_sum x0 past x -> partial_sum x0 (past ++ [v]) (add x v).
  Proof.
    intros x0 past v x [l [[lost P] E]]. exists (l ++ [v]). split; [|rewrite fold_left_app; cbn; congruence].
    exists lost. rewrite <- app_assoc. cbn. rewrite <- Permutation_middle. rewrite P. apply Permutation_cons_append.
  Qed.
  Lemma contribs_snoc : forall k past c v, contribs k (past ++ [(c, v)]) = contribs k past ++ (if c =? k then [v] else []).
  Proof. intros. rewrite contribs_app. unfold contribs at 2. cbn. destruct (c =? k); reflexivity. Qed.
  Lemma some_keep : forall x0 k past c v x, partial_sum x0 (contribs k past) x -> partial_sum x0 (contribs k (past ++ [(c, v)])) x.
  Proof. intros. rewrite contribs_snoc. destruct (c =? k); [apply some_more; auto|rewrite app_nil_r; auto]. Qed.
  Lemma pend_keep : forall mem0 past c v th, pend_ok mem0 past th -> pend_ok mem0 (past ++ [(c, v)]) th.
  Proof. intros mem0 past c v th H. unfold pend_ok in *. destruct (ppend th) as [[k y]|]; [|auto]. destruct H as [x0 [A B]]. exists x0. split; [auto|apply some_keep; auto]. Qed.

  Lemma Forall2_nth : forall A B (R : A -> B -> Prop) la lb i a, Forall2 R la lb -> nth_error la i = Some a -> exists b, nth_error lb i = Some b /\ R a b.
  Proof. intros A B R la lb i a H; revert i; induction H; intros [|i] E; cbn in *; try discriminate; [inversion E; subst; eauto|eauto]. Qed.
  Lemma Forall2_set : forall A B (R : A -> B -> Prop) la lb i a b, Forall2 R la lb -> R a b -> Forall2 R (set_nth i a la) (set_nth i b lb).
  Proof. intros A B R la lb i a b H; revert i; induction H; intros [|i] E; cbn; constructor; auto. Qed.
  Lemma Forall_set : forall A (P : A -> Prop) l i a, Forall P l -> P a -> Forall P (set_nth i a l).
  Proof. intros A P l i a H; revert i; induction H; intros [|i] E; cbn; constructor; auto. Qed.
  Lemma concat_take : forall A (ls : list (list A)) i x r, nth_error ls i = Some (x :: r) -> Permutation (concat ls) (x :: concat (set_nth i r ls)).
  Proof.
    intros A ls; induction ls as [|l ls IH]; intros [|i] x r H; cbn in *; try discriminate.
    - inversion H; subst. reflexivity.
    - rewrite (IH i x r H). rewrite <- Permutation_middle. reflexivity.
  Qed.
  Lemma set_nth_same : forall A (ls : list A) i x, nth_error ls i = Some x -> set_nth i x ls = ls.
  Proof. intros A ls; induction ls as [|l ls IH]; intros [|i] x H; cbn in *; try discriminate; [congruence|rewrite IH; auto]. Qed.

  Lemma pstep_sums : forall mem0 all s i s', sums_ok mem0 all s -> pstep s i = Some s' -> sums_ok mem0 all s'.
  Proof.
    intros mem0 all [mem ths] i s' [past [todos [P [R [Pe M]]]]] H. cbn [fst snd] in *. unfold pstep in H.
    destruct (nth_error ths i) as [[[[c y]|] r]|] eqn:E; [| |discriminate].
    - destruct (c <? length mem) eqn:L; [|discriminate]. apply Nat.ltb_lt in L. inversion H; subst; clear H.
      destruct (Forall2_nth _ _ _ _ _ _ _ R E) as [b [Eb Hb]].
      pose proof (proj1 (Forall_forall _ _) Pe _ (nth_error_In _ _ E)) as Py. cbn in Py.
      exists past, todos. split; [exact P|]. cbn [fst snd]. split; [|split].
      + rewrite <- (set_nth_same _ todos i b Eb). apply Forall2_set; auto.
      + apply Forall_set; [auto|exact I].
      + intros k x Hk. rewrite nth_set_x in Hk by auto. destruct (Nat.eqb_spec k c) as [->|N]; [inversion Hk; subst; exact Py|apply M; auto].
    - destruct r as [|[c f] r]; [discriminate|]. destruct (nth_error mem c) as [x|] eqn:G; [|discriminate]. inversion H; subst; clear H.
      destruct (Forall2_nth _ _ _ _ _ _ _ R E) as [b [Eb Hb]]. unfold rem in Hb; cbn in Hb.
      destruct b as [|[c' v] b]; [discriminate|]. cbn in Hb. inversion Hb; subst.
      exists (past ++ [(c', v)]), (set_nth i b todos). cbn [fst snd]. split; [|split; [|split]].
      + rewrite <- P. rewrite <- app_assoc. apply Permutation_app_head. cbn. symmetry. apply concat_take. exact Eb.
      + apply Forall2_set; [auto|reflexivity].
      + apply Forall_set; [eapply Forall_impl; [|exact Pe]; intros; apply pend_keep; auto|].
        cbn. destruct (M c' x G) as [x0 [A B]]. exists x0. split; [auto|]. rewrite contribs_snoc, Nat.eqb_refl. apply some_add. exact B.
      + intros k z Hk. destruct (M k z Hk) as [x0 [A B]]. exists x0. split; [auto|apply some_keep; auto].
  Qed.
  Lemma prun_sums : forall mem0 all sched s s', sums_ok mem0 all s -> prun s sched = Some s' -> sums_ok mem0 all s'.
  Proof.
    intros mem0 all sched; induction sched as [|i sched IH]; intros s s' Ho H; cbn in H; [inversion H; subst; auto|].
    destruct (pstep s i) as [s1|] eqn:E; [|discriminate]. eapply IH; [|exact H]. eapply pstep_sums; eauto.
  Qed.
  Lemma partial_sum_nil : forall x, partial_sum x [] x.
  Proof. intros x. exists []. split; [exists []; reflexivity|reflexivity]. Qed.
  Lemma launch_sums : forall mem progs, sums_ok mem (concat progs) (plaunch mem (map accums progs)).
  Proof.
    intros mem progs. exists [], progs. cbn. split; [reflexivity|]. split; [|split].
    - induction progs; cbn; constructor; auto. reflexivity.
    - apply Forall_forall. intros th Ht. apply in_map_iff in Ht as [l [<- _]]. exact I.
    - intros k x Hk. exists x. split; [auto|apply partial_sum_nil].
  Qed.
  Theorem sums_partial : forall mem progs sched mem' ths, prun (plaunch mem (map accums progs)) sched = Some (mem', ths) -> forallb pdone ths = true ->
    forall k x0, nth_error mem k = Some x0 -> exists l, some_of l (contribs k (concat progs)) /\ nth_error mem' k = Some (fold_left add l x0).
  Proof.
    intros mem progs sched mem' ths H Hd k x0 Hk.
    destruct (prun_sums _ _ _ _ _ (launch_sums mem progs) H) as [past [todos [P [R [_ M]]]]]. cbn [fst snd] in *.
    assert (Ec : concat todos = []).
    { clear -R Hd. induction R as [|th l ths ls Hr R IH]; [reflexivity|]. cbn in Hd. apply andb_true_iff in Hd as [Hd Hd'].
      cbn. rewrite IH by auto. destruct th as [[p|] [|q r]]; try discriminate. unfold rem in Hr; cbn in Hr. destruct l; [reflexivity|discriminate]. }
    rewrite Ec, app_nil_r in P.
    assert (Lk : k < length mem'). { pose proof (proj1 (prun_len _ _ _ _ H)) as El. cbn in El. rewrite El. eapply nth_lt; eauto. }
    destruct (nth_error mem' k) as [x|] eqn:Ex; [|apply nth_error_None in Ex; lia].
    destruct (M k x Ex) as [x1 [A [l [[lost S] B]]]]. assert (x1 = x0) by congruence. subst x1 x.
    exists l. split; [|reflexivity]. exists lost. rewrite S.
    unfold contribs. apply Permutation_map. clear -P. induction P; cbn; auto.
    - destruct (fst x =? k); auto.
    - destruct (fst x =? k), (fst y =? k); auto using perm_swap.
    - etransitivity; eauto.
  Qed.

  (** statement by statement *)
  Definition whole_ok (mem0 : list V) (all : list (nat * V)) (s : list V * list (pthread V)) : Prop :=
    exists past todos, Permutation (past ++ concat todos) all /\ Forall2 rem (snd s) todos /\ Forall (fun th => ppend th = None) (snd s) /\
      length (fst s) = length mem0 /\ forall k x0, nth_error mem0 k = Some x0 -> nth_error (fst s) k = Some (fold_left add (contribs k past) x0).
  Lemma set_set : forall A (l : list A) i a a', set_nth i a (set_nth i a' l) = set_nth i a l.
  Proof. intros A l; induction l as [|z l IH]; intros [|j] a a'; cbn; auto. rewrite IH. auto. Qed.
  Lemma two_steps : forall mem0 all s i s1 s2, whole_ok mem0 all s -> pstep s i = Some s1 -> pstep s1 i = Some s2 -> whole_ok mem0 all s2.
  Proof.
    intros mem0 all [mem ths] i s1 s2 [past [todos [P [R [Pe [Lm M]]]]]] H1 H2. cbn [fst snd] in *. unfold pstep in H1.
    destruct (nth_error ths i) as [[[[c y]|] r]|] eqn:E; [| |discriminate].
    { pose proof (proj1 (Forall_forall _ _) Pe _ (nth_error_In _ _ E)) as Py. discriminate. }
    destruct r as [|[c f] r]; [discriminate|]. destruct (nth_error mem c) as [x|] eqn:G; [|discriminate]. inversion H1; subst; clear H1.
    unfold pstep in H2. rewrite nth_set_x, Nat.eqb_refl in H2 by (eapply nth_lt; eauto).
    destruct (c <? length mem) eqn:L; [|discriminate]. apply Nat.ltb_lt in L. inversion H2; subst; clear H2.
    destruct (Forall2_nth _ _ _ _ _ _ _ R E) as [b [Eb Hb]]. unfold rem in Hb; cbn in Hb.
    destruct b as [|[c' v] b]; [discriminate|]. cbn in Hb. inversion Hb; subst.
    exists (past ++ [(c', v)]), (set_nth i b todos). cbn [fst snd]. split; [|split; [|split; [|split]]].
    - rewrite <- P. rewrite <- app_assoc. apply Permutation_app_head. cbn. symmetry. apply concat_take. exact Eb.
    - rewrite set_set. apply Forall2_set; [auto|reflexivity].
    - rewrite set_set. apply Forall_set; [exact Pe|reflexivity].
    - rewrite set_nth_len. exact Lm.
    - intros k x0 Hk. rewrite nth_set_x by auto. rewrite contribs_snoc. destruct (Nat.eqb_spec k c') as [->|N].
      + rewrite Nat.eqb_refl. rewrite fold_left_app. cbn. rewrite (M c' x0 Hk) in G. congruence.
      + destruct (Nat.eqb_spec c' k); [subst; congruence|]. rewrite app_nil_r. apply M. exact Hk.
  Qed.
  Lemma turns_whole : forall mem0 all turns s s', whole_ok mem0 all s -> prun s (flat_map (fun i => [i; i]) turns) = Some s' -> whole_ok mem0 all s'.
  Proof.
    intros mem0 all turns; induction turns as [|i turns IH]; intros s s' Ho H; cbn in H; [inversion H; subst; auto|].
    destruct (pstep s i) as [s1|] eqn:E; [|discriminate]. destruct (pstep s1 i) as [s2|] eqn:E2; [|discriminate].
    eapply IH; [|exact H]. eapply two_steps; eauto.
  Qed.
  Lemma contribs_perm : forall k a b, Permutation a b -> Permutation (contribs k a) (contribs k b).
  Proof.
    intros k a b P. unfold contribs. apply Permutation_map. induction P; cbn; auto.
    - destruct (fst x =? k); auto.
    - destruct (fst x =? k), (fst y =? k); auto using perm_swap.
    - etransitivity; eauto.
  Qed.
  Theorem sums_whole : forall mem progs turns mem' ths, prun (plaunch mem (map accums progs)) (flat_map (fun i => [i; i]) turns) = Some (mem', ths) -> forallb pdone ths = true ->
    forall k x0, nth_error mem k = Some x0 -> exists l, Permutation l (contribs k (concat progs)) /\ nth_error mem' k = Some (fold_left add l x0).
  Proof.
    intros mem progs turns mem' ths H Hd k x0 Hk.
    assert (W : whole_ok mem (concat progs) (plaunch mem (map accums progs))).
    { exists [], progs. cbn. split; [reflexivity|]. split; [|split; [|split]].
      - clear. induction progs; cbn; constructor; auto. reflexivity.
      - apply Forall_forall. intros th Ht. apply in_map_iff in Ht as [l [<- _]]. reflexivity.
      - reflexivity.
      - auto. }
    destruct (turns_whole _ _ _ _ _ W H) as [past [todos [P [R [_ [_ M]]]]]]. cbn [fst snd] in *.
    assert (Ec : concat todos = []).
    { clear -R Hd. induction R as [|th l ths ls Hr R IH]; [reflexivity|]. cbn in Hd. apply andb_true_iff in Hd as [Hd Hd'].
      cbn. rewrite IH by auto. destruct th as [[p|] [|q r]]; try discriminate. unfold rem in Hr; cbn in Hr. destruct l; [reflexivity|discriminate]. }
    rewrite Ec, app_nil_r in P. exists (contribs k past). split; [apply contribs_perm; exact P|]. apply M. exact Hk.
  Qed.
End Sums.

(** Proofs about sets of particles: the index follows the positions. *)
Require Import ZArith List Bool Arith Lia Permutation Sorted.
Require Import Verif.Base Verif.SortU Verif.ListX Verif.Box_Model Verif.Box_Spec Verif.Box_Proofs Verif.RTree_Model Verif.RTree_Spec
  Verif.Index_Model Verif.Index_Spec Verif.Index_Proofs Verif.Traj_Model Verif.Traj_Proofs Verif.Center_Model Verif.Center_Proofs Verif.Reconstructor_Proofs
  Verif.Particles_Model Verif.Particles_Spec.
Import ListNotations.

Lemma point3_length p : point3 p <-> length p = 3.
Proof.
  split; [intros [x [y [z ->]]]; auto|]. intros H. destruct p as [|x [|y [|z [|w p]]]]; try discriminate. exists x, y, z. auto.
Qed.
Lemma sqdist_dist2 a b : point3 a -> point3 b -> sqdist a b = dist2 a b.
Proof. intros [x [y [z ->]]] [x' [y' [z' ->]]]. simpl. lia. Qed.

Record index_of (c : config) (l : list (list Z)) (t : rtree) : Prop := {
  io_ops : exists ops, Forall (iop_dim (dims c)) ops /\ rstar_run c empty_tree ops = Some t /\
     forall i b, In (i, b) (contents ops) <-> exists p, nth_error l i = Some p /\ b = bounds p 0 }.

Lemma content_app : forall ops ops' acc, content acc (ops ++ ops') = content (content acc ops) ops'.
Proof. induction ops as [|[i b|v] ops IH]; intros; simpl; auto. Qed.
Lemma rstar_run_app c : forall ops ops' t, rstar_run c t (ops ++ ops') = match rstar_run c t ops with Some t' => rstar_run c t' ops' | None => None end.
Proof. induction ops as [|o ops IH]; intros; simpl; auto. destruct (rstar_step c t o); auto. Qed.
Lemma bounds_length p r : length (bounds p r) = length p.
Proof. apply map_length. Qed.

Lemma index_empty c : index_of c [] empty_tree.
Proof. constructor. exists []. split; auto. split; auto. intros i b. split; [intros []|]. intros [p [H _]]. destruct i; discriminate. Qed.
Lemma index_push c l t p : config_ok c -> index_of c l t -> length p = dims c ->
  exists t', rstar_insert c t (length l) (bounds p 0) = Some t' /\ index_of c (l ++ [p]) t'.
Proof.
  intros Hok [[ops [Hd [E Hc]]]] Hp. assert (Hd' : Forall (iop_dim (dims c)) (ops ++ [IInsert (length l) (bounds p 0)])).
  { apply Forall_app. split; auto. constructor; auto. simpl. rewrite bounds_length. auto. }
  destruct (rstar_run_ok c _ Hok Hd') as [t' [E' _]]. rewrite rstar_run_app, E in E'. simpl in E'.
  destruct (rstar_insert c t (length l) (bounds p 0)) as [t1|] eqn:E1; [|discriminate]. exists t1. split; auto.
  constructor. exists (ops ++ [IInsert (length l) (bounds p 0)]). split; auto. split; [rewrite rstar_run_app, E; simpl; rewrite E1; auto|].
  intros i b. unfold contents. rewrite content_app. simpl. fold (contents ops). rewrite Hc. rewrite nth_error_snoc.
  destruct (Nat.eqb_spec i (length l)) as [->|Hi].
  - split.
    + intros [H|[q [H _]]]; [injection H as <-; eauto|]. apply nth_error_lt in H. lia.
    + intros [q [H ->]]. injection H as <-. auto.
  - split; [intros [H|H]; auto; injection H; intros; congruence|auto].
Qed.
Lemma bounds_shift : forall p v, length p = length v -> translate (bounds p 0) v = bounds (vadd p v) 0.
Proof.
  unfold bounds, vadd. induction p as [|x p IH]; intros [|y v] H; try discriminate; simpl; auto. rewrite IH by auto. f_equal. f_equal; lia.
Qed.
Lemma index_shift c l t v : index_of c l t -> Forall (fun p => length p = dims c) l -> length v = dims c -> index_of c (map (fun p => vadd p v) l) (translate_tree v t).
Proof.
  intros [[ops [Hd [E Hc]]]] Hl Hv. constructor. exists (ops ++ [ITranslate v]). split; [apply Forall_app; auto|]. split; [rewrite rstar_run_app, E; auto|].
  intros i b. unfold contents. rewrite content_app. simpl. fold (contents ops). rewrite in_map_iff. rewrite nth_error_map. rewrite Forall_forall in Hl. split.
  - intros [[j b'] [H1 H2]]. injection H1 as <- <-. cbn [fst snd]. apply Hc in H2. destruct H2 as [p [Hp ->]]. rewrite Hp. simpl. exists (vadd p v). split; auto.
    apply bounds_shift. rewrite Hv. eauto using nth_error_In.
  - intros [q [H ->]]. destruct (nth_error l i) as [p|] eqn:Ep; [|discriminate]. simpl in H. injection H as <-. exists (i, bounds p 0). split.
    + simpl. f_equal. apply bounds_shift. rewrite Hv. eauto using nth_error_In.
    + apply Hc. eauto.
Qed.
Lemma index_build c l : config_ok c -> Forall (fun p => length p = dims c) l ->
  exists t, rstar_build c (map (fun p => bounds p 0) l) = Some t /\ index_of c l t.
Proof.
  intros Hok Hl. assert (Hd : Forall (iop_dim (dims c)) (numbered (map (fun p => bounds p 0) l))).
  { apply numbered_dim. rewrite Forall_map. eapply Forall_impl; [|exact Hl]. intros p. simpl. rewrite bounds_length. auto. }
  destruct (rstar_run_ok c _ Hok Hd) as [t [E _]]. exists t. split; auto. constructor. exists (numbered (map (fun p => bounds p 0) l)). split; auto. split; auto.
  intros i b. rewrite contents_numbered, nth_error_map. split.
  - intros H. destruct (nth_error l i) as [p|]; [|discriminate]. injection H as <-. eauto.
  - intros [p [-> ->]]. auto.
Qed.

(** Box queries on an index of points. *)
Lemma sub_bounds : forall p q r, length p = length q -> Forall2 (fun x y => Z.abs (x - y) <= r)%Z p q -> sub (bounds p 0) (bounds q r).
Proof. unfold sub, bounds. intros p q r _ H. induction H; simpl; constructor; auto. simpl. lia. Qed.
Lemma sub_bounds_inv : forall p q r, sub (bounds p 0) (bounds q r) -> Forall2 (fun x y => Z.abs (x - y) <= r)%Z p q.
Proof.
  unfold sub, bounds. induction p as [|x p IH]; intros [|y q] r H; inversion H; subst; constructor; auto. simpl in *. lia.
Qed.
Lemma meets_bounds : forall p q r, Forall2 (fun x y => Z.abs (x - y) < r)%Z p q -> meets (bounds p 0) (bounds q r).
Proof. unfold meets, bounds. intros p q r H. induction H; simpl; constructor; auto. simpl. lia. Qed.

Lemma query_points c l t q r : config_ok c -> index_of c l t -> Forall (fun p => length p = dims c) l -> length q = dims c ->
  let ids := rstar_query t (bounds q r) in
  StronglySorted lt ids /\
  (forall i, In i ids -> exists p, nth_error l i = Some p /\ Forall2 (fun x y => Z.abs (x - y) <= r)%Z p q) /\
  (forall i p, nth_error l i = Some p -> Forall2 (fun x y => Z.abs (x - y) < r)%Z p q -> In i ids).
Proof.
  intros Hok [[ops [Hd [E Hc]]]] Hl Hq ids. assert (Hbq : length (bounds q r) = dims c) by (rewrite bounds_length; auto).
  destruct (rstar_query_flat c ops t (bounds q r) Hok Hd Hbq E) as [H1 [H2 H3]]. fold ids in H1, H2, H3. split; auto. rewrite Forall_forall in Hl. split.
  - intros i Hi. destruct (H2 i Hi) as [b [Hb Hs]]. apply Hc in Hb. destruct Hb as [p [Hp ->]]. exists p. split; auto. apply sub_bounds_inv; auto.
  - intros i p Hp Hf. apply (H3 i (bounds p 0)); [apply Hc; eauto| |apply meets_bounds; auto].
    apply sub_bounds; [rewrite Hq; eauto using nth_error_In|]. eapply Forall2_impl_x; [|exact Hf]. intros; simpl in *; lia.
Qed.

(** The filter of the euclidean searches. *)
Definition near_b (l : list (list Z)) (c : list Z) (r : Z) (i : nat) : bool :=
  match nth_error l i with Some p => (sqdist p c <? r * r)%Z | None => false end.
Definition d_of (l : list (list Z)) (c : list Z) (i : nat) : Z := match nth_error l i with Some p => sqdist p c | None => 0%Z end.
Lemma keep_close_spec st c r skip : forall l, (forall i, In i l -> i < length (pts st)) ->
  keep_close st c r skip l = Val (map (fun i => (d_of (pts st) c i, i)) (filter (fun i => negb (skip i) && near_b (pts st) c r i) l)).
Proof.
  induction l as [|i l IH]; intros H; simpl; auto. rewrite IH by (intros; apply H; simpl; auto). destruct (skip i); simpl; auto.
  destruct (nth_error_ex (pts st) i) as [p Hp]; [apply H; simpl; auto|]. unfold sq_to. rewrite Hp.
  assert (En : near_b (pts st) c r i = (sqdist p c <? r * r)%Z) by (unfold near_b; rewrite Hp; auto). rewrite En.
  assert (Ed : d_of (pts st) c i = sqdist p c) by (unfold d_of; rewrite Hp; auto).
  destruct (sqdist p c <? r * r)%Z; simpl; auto. rewrite Ed. auto.
Qed.

Definition pts_ok (c : config) (st : particles) : Prop := Forall (fun p => length p = dims c) (pts st) /\ forall t, pindex st = Some t -> index_of c (pts st) t.

(** All the searches filter the same list. *)
Lemma search_spec c st q r skip : config_ok c -> 0 < dims c -> Forall (fun p => length p = dims c) (pts st) -> length q = dims c ->
  forall t, pindex st = Some t -> index_of c (pts st) t ->
  exists ids, keep_close st q r skip (rstar_query t (bounds q r)) = Val (map (fun i => (d_of (pts st) q i, i)) ids) /\
    StronglySorted lt ids /\
    (forall i, In i ids <-> skip i = false /\ exists p, nth_error (pts st) i = Some p /\ (0 < r)%Z /\ (sqdist p q < r * r)%Z).
Proof.
  intros Hok Hd Hl Hq t Ht Hi. destruct (query_points c (pts st) t q r Hok Hi Hl Hq) as [Hs [H1 H2]].
  exists (filter (fun i => negb (skip i) && near_b (pts st) q r i) (rstar_query t (bounds q r))). split; [|split].
  - apply keep_close_spec. intros i H. destruct (H1 i H) as [p [Hp _]]. eapply nth_error_lt; eauto.
  - apply filter_ssorted. auto.
  - intros i. rewrite filter_In, andb_true_iff, negb_true_iff. unfold near_b. split.
    + intros [Hin [Hsk Hn]]. split; auto. destruct (H1 i Hin) as [p [Hp Hf]]. rewrite Hp in Hn. apply Z.ltb_lt in Hn. exists p. repeat split; auto.
      rewrite Forall_forall in Hl. assert (Hlp := Hl p (nth_error_In _ _ Hp)). destruct Hf as [|x y p q Hxy]; [simpl in Hq; lia|].
      pose proof (sqdist_nonneg (x :: p) (y :: q)). nia.
    + intros [Hsk [p [Hp [Hr Hdist]]]]. rewrite Hp. split; [|split; auto; apply Z.ltb_lt; auto]. apply (H2 i p Hp). apply sqdist_axis; [|auto|lia].
      rewrite Hq. rewrite Forall_forall in Hl. apply Hl. eapply nth_error_In; eauto.
Qed.

Lemma vadd_length p v : length p = length v -> length (vadd p v) = length p.
Proof. intros H. unfold vadd. rewrite map_length, combine_length. lia. Qed.
Lemma vmul_length p v : length p = length v -> length (vmul p v) = length p.
Proof. intros H. unfold vmul. rewrite map_length, combine_length. lia. Qed.

(** Histories. *)
Definition some_tree (c : config) (t : rtree) : Prop := exists ops, Forall (iop_dim (dims c)) ops /\ rstar_run c empty_tree ops = Some t.
Record pinv (c : config) (b : bool) (st : particles) : Prop := {
  pi_dim : Forall (fun p => length p = dims c) (pts st);
  pi_tree : forall t, pindex st = Some t -> some_tree c t;
  pi_index : b = true -> exists t, pindex st = Some t /\ index_of c (pts st) t }.
Definition flag (b : bool) (o : pop) : bool := match o with PIndex => true | PScale _ | PScaleAll _ => false | _ => b end.

Lemma some_insert c t i b : config_ok c -> some_tree c t -> length b = dims c -> exists t', rstar_insert c t i b = Some t' /\ some_tree c t'.
Proof.
  intros Hok [ops [Hd E]] Hb. assert (Hd' : Forall (iop_dim (dims c)) (ops ++ [IInsert i b])) by (apply Forall_app; split; auto).
  destruct (rstar_run_ok c _ Hok Hd') as [t' [E' _]]. pose proof E' as E2. rewrite rstar_run_app, E in E'. simpl in E'.
  destruct (rstar_insert c t i b) as [t1|] eqn:E1; [|discriminate]. injection E' as ->. exists t'. split; auto. exists (ops ++ [IInsert i b]). auto.
Qed.
Lemma some_shift c t v : some_tree c t -> length v = dims c -> some_tree c (translate_tree v t).
Proof.
  intros [ops [Hd E]] Hv. exists (ops ++ [ITranslate v]). split; [apply Forall_app; auto|]. rewrite rstar_run_app, E. auto.
Qed.
Lemma index_some c l t : index_of c l t -> some_tree c t.
Proof. intros [[ops [H1 [H2 _]]]]. exists ops. auto. Qed.

Lemma pstep_ok c b st o : config_ok c -> dims c = 3 -> pinv c b st -> pop_ok o ->
  exists st', pstep c st o = Some st' /\ pinv c (flag b o) st' /\ pts st' = move (pts st) o.
Proof.
  intros Hok H3 [Hd Ht Hi] Ho. destruct o as [|p|v|v|m]; cbn [pstep flag pop_ok] in *.
  - destruct (index_build c (pts st) Hok Hd) as [t [E Hx]]. unfold make_index. rewrite E. eexists. split; [reflexivity|]. split; auto.
    constructor; simpl; auto.
    + intros t' H. injection H as <-. eapply index_some; eauto.
    + eauto.
  - apply point3_length in Ho. unfold push_back. destruct (pindex st) as [t|] eqn:Et.
    + destruct b.
      * destruct (Hi eq_refl) as [t' [E' Hx]]. injection E' as <-. destruct (index_push c (pts st) t p Hok Hx) as [t' [E' Hx']]; [congruence|].
        rewrite E'. eexists. split; [reflexivity|]. split; auto. constructor; simpl.
        -- apply Forall_app. split; auto. constructor; auto. congruence.
        -- intros t'' H. injection H as <-. eapply index_some; eauto.
        -- eauto.
      * destruct (some_insert c t (length (pts st)) (bounds p 0) Hok (Ht t eq_refl)) as [t' [E' Hx']]; [rewrite bounds_length; congruence|].
        rewrite E'. eexists. split; [reflexivity|]. split; auto. constructor; simpl.
        -- apply Forall_app. split; auto. constructor; auto. congruence.
        -- intros t'' H. injection H as <-. auto.
        -- discriminate.
    + eexists. split; [reflexivity|]. split; auto. constructor; simpl; try discriminate.
      * apply Forall_app. split; auto. constructor; auto. congruence.
      * intros Hb. destruct (Hi Hb) as [t [H _]]. discriminate.
  - eexists. split; [reflexivity|]. assert (Hv := Ho). apply point3_length in Hv. split.
    + constructor; cbn [shift pts pindex].
      * rewrite Forall_map. eapply Forall_impl; [|exact Hd]. intros p Hp. simpl. rewrite vadd_length; congruence.
      * intros t H. destruct (pindex st) as [t0|]; [|discriminate]. injection H as <-. apply some_shift; auto. congruence.
      * intros Hb. destruct (Hi Hb) as [t [E Hx]]. rewrite E. exists (translate_tree v t). split; auto. apply index_shift; auto. congruence.
    + destruct Ho as [a [b' [d ->]]]. simpl. apply map_ext_in. intros p Hp. rewrite Forall_forall in Hd. specialize (Hd p Hp). rewrite H3 in Hd.
      apply point3_length in Hd. destruct Hd as [x [y [z ->]]]. reflexivity.
  - eexists. split; [reflexivity|]. assert (Hv := Ho). apply point3_length in Hv. split.
    + constructor; cbn [rescale pts pindex]; auto; try discriminate.
      rewrite Forall_map. eapply Forall_impl; [|exact Hd]. intros p Hp. simpl. rewrite vmul_length; congruence.
    + destruct Ho as [a [b' [d ->]]]. simpl. apply map_ext_in. intros p Hp. rewrite Forall_forall in Hd. specialize (Hd p Hp). rewrite H3 in Hd.
      apply point3_length in Hd. destruct Hd as [x [y [z ->]]]. reflexivity.
  - eexists. split; [reflexivity|]. split.
    + constructor; cbn [rescale_all rescale pts pindex]; auto; try discriminate.
      rewrite Forall_map. eapply Forall_impl; [|exact Hd]. intros p Hp. simpl. rewrite vmul_length; auto. rewrite Hp, H3. auto.
    + simpl. apply map_ext_in. intros p Hp. rewrite Forall_forall in Hd. specialize (Hd p Hp). rewrite H3 in Hd.
      apply point3_length in Hd. destruct Hd as [x [y [z ->]]]. reflexivity.
Qed.
Lemma prun_ok c : config_ok c -> dims c = 3 -> forall ops b st, pinv c b st -> Forall pop_ok ops ->
  exists st', prun c st ops = Some st' /\ pinv c (fold_left flag ops b) st' /\ pts st' = positions (pts st) ops.
Proof.
  intros Hok H3. induction ops as [|o ops IH]; intros b st Hp Ho; [exists st; auto|]. inversion Ho; subst.
  destruct (pstep_ok c b st o Hok H3 Hp) as [st1 [E [Hp1 Hm]]]; auto. destruct (IH _ st1 Hp1) as [st' [E' [Hp' Hm']]]; auto.
  exists st'. cbn [prun]. rewrite E. split; auto. split; auto. rewrite Hm', Hm. reflexivity.
Qed.
Lemma new_inv c l bb r : dims c = 3 -> Forall point3 l -> pinv c false (new_particles l bb r).
Proof.
  intros H3 Hl. constructor; simpl; try discriminate. eapply Forall_impl; [|exact Hl]. intros p Hp. apply point3_length in Hp. congruence.
Qed.
Lemma history_ok c l bb r ops : config_ok c -> dims c = 3 -> Forall point3 l -> Forall pop_ok ops ->
  exists st, prun c (new_particles l bb r) ops = Some st /\ pts st = positions l ops /\ Forall point3 (pts st) /\
    (indexed ops = true -> exists t, pindex st = Some t /\ index_of c (pts st) t).
Proof.
  intros Hok H3 Hl Ho. destruct (prun_ok c Hok H3 ops false (new_particles l bb r)) as [st [E [Hp Hm]]]; auto; [apply new_inv; auto|].
  exists st. split; auto. split; auto. destruct Hp as [Hd Ht Hi]. split.
  - eapply Forall_impl; [|exact Hd]. intros p Hp. apply point3_length. congruence.
  - intros Hb. apply Hi. exact Hb.
Qed.

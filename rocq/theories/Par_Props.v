(** C109, C110: parallel loops that add up into shared cells, and those that work on cells of their own. *)
Require Import ZArith QArith List Bool Arith Lia Permutation.
Require Import Verif.Base Verif.RTree_Model Verif.ListX Verif.Traj_Model Verif.Particles_Model Verif.Dyn_Model Verif.Dyn_Proofs Verif.Par_Model Verif.Par_Spec Verif.Par_Proofs.
Import ListNotations.
Local Open Scope nat_scope.

Lemma for_inv : forall V I (body : I -> list (statement V)) parts sched mem mem', parallel_for body parts sched mem = Some mem' ->
  exists ths, prun (plaunch mem (map (flat_map body) parts)) sched = Some (mem', ths) /\ forallb pdone ths = true.
Proof.
  intros V I body parts sched mem mem' H. unfold parallel_for in H. destruct (prun _ sched) as [[m ths]|]; [|discriminate].
  destruct (forallb pdone ths) eqn:E; [|discriminate]. inversion H; subst. eauto.
Qed.
Lemma flat_map_accums : forall V I (add : V -> V -> V) (g : I -> list (nat * V)) l,
  flat_map (fun i => map (fun kv => accum add (fst kv) (snd kv)) (g i)) l = accums V add (flat_map g l).
Proof. intros. unfold accums. induction l as [|i l IH]; [reflexivity|]. cbn. rewrite map_app, <- IH. reflexivity. Qed.
Lemma concat_flat_map : forall A B (g : A -> list B) ls, concat (map (flat_map g) ls) = flat_map g (concat ls).
Proof. intros. induction ls as [|l ls IH]; [reflexivity|]. cbn. rewrite flat_map_app, IH. reflexivity. Qed.
Lemma flat_map_perm : forall A B (g : A -> list B) a b, Permutation a b -> Permutation (flat_map g a) (flat_map g b).
Proof.
  intros A B g a b P. induction P; cbn; auto.
  - apply Permutation_app_head. auto.
  - rewrite !app_assoc. apply Permutation_app_tail. apply Permutation_app_comm.
  - etransitivity; eauto.
Qed.
Lemma given_perm : forall V k (a b : list (nat * V)), Permutation a b -> Permutation (given k a) (given k b).
Proof. intros V k a b P. exact (contribs_perm V k a b P). Qed.

Section C109.
  Context {V I : Type} (add : V -> V -> V) (g : I -> list (nat * V)).
  Let body (i : I) := map (fun kv => accum add (fst kv) (snd kv)) (g i).
  (** A parallel loop whose iterations add values to shared cells: whatever the number of threads, the way iterations are shared out and the interleaving, each
      cell ends as its first value plus some of the values that were given to it: none is counted twice, some may be lost. *)
  Theorem C109_some_of_the_values : forall its parts sched mem mem', shared_out its parts -> parallel_for body parts sched mem = Some mem' ->
    forall k x0, nth_error mem k = Some x0 -> exists l, some_of l (given k (flat_map g its)) /\ nth_error mem' k = Some (fold_left add l x0).
  Proof.
    intros its parts sched mem mem' Hs H k x0 Hk. destruct (for_inv _ _ _ _ _ _ _ H) as [ths [Hr Hd]].
    assert (E : map (flat_map body) parts = map (accums V add) (map (flat_map g) parts)).
    { rewrite map_map. apply map_ext. intros l. apply flat_map_accums. }
    rewrite E in Hr. destruct (sums_partial V add _ _ _ _ _ Hr Hd k x0 Hk) as [l [[lost P] El]].
    exists l. split; [|exact El]. exists lost. rewrite P. rewrite concat_flat_map. apply (given_perm V k). apply flat_map_perm. exact Hs.
  Qed.
  (** All of them are counted when threads never interleave within a statement (an atomic update, or one thread). *)
  Theorem C109_all_the_values_if_atomic : forall its parts sched mem mem', shared_out its parts -> parallel_for body parts sched mem = Some mem' ->
    statement_by_statement sched ->
    forall k x0, nth_error mem k = Some x0 -> exists l, Permutation l (given k (flat_map g its)) /\ nth_error mem' k = Some (fold_left add l x0).
  Proof.
    intros its parts sched mem mem' Hs H [turns ->] k x0 Hk. destruct (for_inv _ _ _ _ _ _ _ H) as [ths [Hr Hd]].
    assert (E : map (flat_map body) parts = map (accums V add) (map (flat_map g) parts)).
    { rewrite map_map. apply map_ext. intros l. apply flat_map_accums. }
    rewrite E in Hr. destruct (sums_whole V add _ _ _ _ _ Hr Hd k x0 Hk) as [l [P El]].
    exists l. split; [|exact El]. rewrite P. rewrite concat_flat_map. apply (given_perm V k). apply flat_map_perm. exact Hs.
  Qed.
End C109.

Local Open Scope Q_scope.
Lemma qsum_cons : forall a l, qsum (a :: l) = a + qsum l.
Proof. reflexivity. Qed.
Lemma fold_qsum : forall l x, fold_left Qplus l x == x + qsum l.
Proof. induction l as [|a l IH]; intros x; cbn [fold_left]; [unfold qsum; cbn [fold_right]; ring|]. rewrite IH, qsum_cons. ring. Qed.
Lemma qsum_perm : forall a b, Permutation a b -> qsum a == qsum b.
Proof. intros a b P. induction P; rewrite ?qsum_cons; [reflexivity|rewrite IHP; reflexivity|ring|rewrite IHP1; exact IHP2]. Qed.
Lemma qsum_app : forall a b, qsum (a ++ b) == qsum a + qsum b.
Proof. intros a b. induction a; cbn [app]; rewrite ?qsum_cons; [change (qsum []) with 0; ring|rewrite IHa; ring]. Qed.
Lemma qsum_nonneg : forall l, (forall x, In x l -> 0 <= x) -> 0 <= qsum l.
Proof. induction l as [|a l IH]; intros H; [apply Qle_refl|]. rewrite qsum_cons. rewrite <- (Qplus_0_r 0). apply Qplus_le_compat; [apply H; left; reflexivity|apply IH; intros; apply H; right; auto]. Qed.

Lemma given_flat : forall (f : nat -> Q) l, given 0 (flat_map (fun i => [(0%nat, f i)]) l) = map f l.
Proof. intros f l. unfold given. induction l as [|i l IH]; [reflexivity|]. cbn. f_equal. exact IH. Qed.
Lemma map_nth_seq : forall (ds : list Q) n, n = length ds -> map (fun i => nth i ds 0) (seq 0 n) = ds.
Proof.
  intros ds n ->. induction ds as [|d ds IH]; [reflexivity|]. cbn [length seq map nth]. f_equal. rewrite <- seq_shift, map_map. exact IH.
Qed.
(** one cell, one value per iteration *)
Lemma one_cell : forall (f : nat -> Q) its parts sched mem', shared_out its parts -> parallel_for (fun i => [accum Qplus 0 (f i)]) parts sched [0] = Some mem' ->
  (exists l, some_of l (map f its) /\ nth 0 mem' 0 == qsum l) /\ (statement_by_statement sched -> nth 0 mem' 0 == qsum (map f its)).
Proof.
  intros f its parts sched mem' Hs H. split.
  - destruct (C109_some_of_the_values Qplus (fun i => [(0%nat, f i)]) its parts sched [0] mem' Hs H 0%nat 0 eq_refl) as [l [S E]].
    rewrite given_flat in S. exists l. split; [exact S|]. rewrite (nth_error_nth _ _ 0 E), fold_qsum. ring.
  - intros At. destruct (C109_all_the_values_if_atomic Qplus (fun i => [(0%nat, f i)]) its parts sched [0] mem' Hs H At 0%nat 0 eq_refl) as [l [P E]].
    rewrite given_flat in P. rewrite (nth_error_nth _ _ 0 E), fold_qsum, (qsum_perm _ _ P). ring.
Qed.

(** getDrift: the mean displacement of some of the trajectories, divided by the number of all of them; the drift when updates are atomic. *)
Theorem C109_drift : forall frames ti sel t0 t1 parts sched d, (2 <= length sel)%nat -> shared_out (seq 0 (length sel)) parts ->
  par_drift frames ti sel t0 t1 parts sched = Val (Some d) ->
  exists ds, map (fun tr => displacement frames ti tr t0 t1) sel = map (@Val Q) ds /\
    (exists l, some_of l ds /\ d == qsum l / inject_Z (Z.of_nat (length sel))) /\
    (statement_by_statement sched -> d == qsum ds / inject_Z (Z.of_nat (length sel)) /\ exists d', get_drift frames ti sel t0 t1 = Val d' /\ d == d').
Proof.
  intros frames ti sel t0 t1 parts sched d H2 Hs H. unfold par_drift in H.
  destruct (Nat.ltb_spec (length sel) 2) as [B|_]; [lia|].
  destruct (osequence _) as [ds| |] eqn:E; cbn in H; try discriminate.
  destruct (parallel_for _ parts sched [0]) as [mem|] eqn:P; cbn in H; [|discriminate]. inversion H as [Hd]. clear H.
  assert (Em : map (fun tr => displacement frames ti tr t0 t1) sel = map (@Val Q) ds).
  { pose proof (osequence_inv _ _ E) as F. clear -F. induction F as [|o a l r Ho F IH]; [reflexivity|]. cbn. rewrite Ho, IH. reflexivity. }
  assert (L : length sel = length ds). { pose proof (f_equal (@length _) Em) as X. rewrite !map_length in X. exact X. }
  exists ds. split; [exact Em|].
  destruct (one_cell (fun i => nth i ds 0) _ _ _ _ Hs P) as [[l [S V]] A]. rewrite (map_nth_seq ds _ L) in S, A.
  split.
  - exists l. split; [exact S|]. cbn [nth] in V |- *. rewrite V. reflexivity.
  - intros At. specialize (A At). split; [rewrite A; reflexivity|].
    unfold get_drift. destruct (Nat.ltb_spec (length sel) 2) as [B|_]; [lia|]. rewrite E. eexists. split; [reflexivity|].
    rewrite A, fold_qsum, Qplus_0_l. reflexivity.
Qed.
(** Mean square displacement at one lag: never above the true one, and never negative, whatever is lost. *)
Theorem C109_msd_never_above : forall sd t3 k parts sched v, (forall a, 0 <= sd a) -> shared_out (seq 0 t3) parts -> par_msd sd t3 k parts sched = Some v ->
  0 <= v <= qsum (map sd (seq 0 t3)) / inject_Z (Z.of_nat (t3 * k)) /\
  (statement_by_statement sched -> v == qsum (map sd (seq 0 t3)) / inject_Z (Z.of_nat (t3 * k))).
Proof.
  intros sd t3 k parts sched v Hp Hs H. unfold par_msd in H.
  destruct (parallel_for _ parts sched [0]) as [mem|] eqn:P; cbn [option_map] in H; [|discriminate]. inversion H as [Hv]. clear H.
  destruct (one_cell sd _ _ _ _ Hs P) as [[l [[lost S] V]] A].
  assert (N : 0 <= / inject_Z (Z.of_nat (t3 * k))). { apply Qinv_le_0_compat. change 0 with (inject_Z 0). rewrite <- Zle_Qle. lia. }
  assert (In0 : forall x, In x (l ++ lost) -> 0 <= x).
  { intros x Hx. apply (Permutation_in _ S) in Hx. apply in_map_iff in Hx as [a [<- _]]. apply Hp. }
  pose proof (qsum_perm _ _ S) as Sq. rewrite qsum_app in Sq.
  assert (L0 : 0 <= qsum l) by (apply qsum_nonneg; intros; apply In0, in_or_app; auto).
  assert (L1 : 0 <= qsum lost) by (apply qsum_nonneg; intros; apply In0, in_or_app; auto).
  split; [split|].
  - unfold Qdiv. apply Qmult_le_0_compat; [rewrite V; exact L0|exact N].
  - unfold Qdiv. apply Qmult_le_compat_r; [|exact N]. rewrite V, <- Sq. rewrite <- (Qplus_0_r (qsum l)) at 1. apply Qplus_le_compat; [apply Qle_refl|exact L1].
  - intros At. rewrite (A At). reflexivity.
Qed.
(** ... but lost updates are possible: two threads, and two trajectories that both moved by 1. *)
Definition two_ti : trajindex := mkIndex [mkTraj 0 [0; 0]; mkTraj 0 [1; 1]]%nat [[0; 1]; [0; 1]]%nat.
Theorem C109_drift_refuted : exists frames ti parts sched d, shared_out (seq 0 2) parts /\ par_drift frames ti [0; 1]%nat 0 1 parts sched = Val (Some d) /\
  get_drift frames ti [0; 1]%nat 0 1 = Val (2 # 2) /\ d == 1 # 2.
Proof.
  exists [[0; 5]; [1; 6]], two_ti, [[0]; [1]]%nat, [0; 1; 0; 1]%nat. eexists.
  split; [unfold shared_out; reflexivity|]. split; [vm_compute; reflexivity|]. split; vm_compute; reflexivity.
Qed.
(** Half of the mean square displacement lost. *)
Theorem C109_msd_refuted : exists sd parts sched v, shared_out (seq 0 2) parts /\ par_msd sd 2 1 parts sched = Some v /\ v == 1 # 2 /\ qsum (map sd (seq 0 2)) / 2 == 1.
Proof.
  exists (fun _ => 1), [[0]; [1]]%nat, [0; 1; 1; 0]%nat. eexists. split; [unfold shared_out; reflexivity|]. split; [vm_compute; reflexivity|]. split; reflexivity.
Qed.
(** getISF: what is in the cells. *)
Lemma for_ext : forall V I (b b' : I -> list (statement V)) parts sched mem, (forall i, b i = b' i) -> parallel_for b parts sched mem = parallel_for b' parts sched mem.
Proof.
  intros V I b b' parts sched mem H. unfold parallel_for. replace (map (flat_map b) parts) with (map (flat_map b') parts); [reflexivity|].
  apply map_ext. intros l. induction l as [|i l IH]; [reflexivity|]. cbn. rewrite IH, H. reflexivity.
Qed.
Lemma given_app : forall V k (a b : list (nat * V)), given k (a ++ b) = given k a ++ given k b.
Proof. intros. unfold given. rewrite filter_app, map_app. reflexivity. Qed.
Lemma given_at : forall V d (f : nat -> list (nat * V)) j0 n a, (forall j, j <> j0 -> (a <= j < a + n)%nat -> given d (f j) = []) ->
  given d (flat_map f (seq a n)) = if ((a <=? j0) && (j0 <? a + n))%nat then given d (f j0) else [].
Proof.
  intros V d f j0. induction n as [|n IH]; intros a H; cbn [seq flat_map].
  - destruct (Nat.leb_spec a j0), (Nat.ltb_spec j0 (a + 0)); cbn [andb]; try reflexivity; lia.
  - rewrite given_app, IH by (intros j Hj Hr; apply H; [auto|lia]). destruct (Nat.eq_dec a j0) as [->|Na].
    + destruct (Nat.leb_spec (S j0) j0); [lia|]. cbn [andb]. rewrite app_nil_r. destruct (Nat.leb_spec j0 j0); [|lia]. destruct (Nat.ltb_spec j0 (j0 + S n)); [|lia]. reflexivity.
    + rewrite (H a) by lia. cbn [app]. destruct (Nat.leb_spec (S a) j0), (Nat.leb_spec a j0), (Nat.ltb_spec j0 (S a + n)), (Nat.ltb_spec j0 (a + S n)); cbn [andb]; try reflexivity; lia.
Qed.
Lemma given_repeat : forall V d e (v : V) k, given d (repeat (e, v) k) = if (e =? d)%nat then repeat v k else [].
Proof. intros V d e v k. unfold given. induction k as [|k IH]; cbn [repeat filter]; [destruct (e =? d)%nat; reflexivity|]. cbn [fst]. destruct (e =? d)%nat; cbn [map snd repeat]; rewrite IH; reflexivity. Qed.
Definition isf_values (c : nat -> nat -> Q) (t0 t1 k start : nat) : list (nat * Q) :=
  flat_map (fun stop => repeat ((stop - start)%nat, c start stop) k ++ [((t1 - t0 + 1 + (stop - start))%nat, 1)]) (seq (S start) (t1 - start)).
Lemma isf_body_values c t0 t1 k start : isf_body c t0 t1 k start = map (fun kv => accum Qplus (fst kv) (snd kv)) (isf_values c t0 t1 k start).
Proof.
  unfold isf_body, isf_values. induction (seq (S start) (t1 - start)) as [|j l IH]; [reflexivity|]. cbn [flat_map]. rewrite map_app, <- IH. apply f_equal2; [|reflexivity]. rewrite map_app. apply f_equal2; [|reflexivity]. clear IH.
  induction k as [|k IHk]; [reflexivity|]. cbn [repeat map]. rewrite <- IHk. reflexivity.
Qed.
Lemma given_over : forall (F : nat -> list (nat * Q)) d (v : nat -> list Q) n m t0, (forall s, (t0 <= s < t0 + n)%nat -> given d (F s) = v s) -> (forall s, (t0 + n <= s < t0 + n + m)%nat -> given d (F s) = []) ->
  given d (flat_map F (seq t0 (n + m))) = flat_map v (seq t0 n).
Proof.
  intros F d v n m t0 H1 H2. rewrite seq_app, flat_map_app, given_app. replace (given d (flat_map F (seq (t0 + n) m))) with (@nil Q).
  - rewrite app_nil_r. revert t0 H1 H2. induction n as [|n IH]; intros t0 H1 H2; [reflexivity|]. cbn [seq flat_map]. rewrite given_app, (H1 t0) by lia. f_equal. apply (IH (S t0)); intros; [apply H1; lia|apply H2; lia].
  - symmetry. clear H1. revert H2. generalize (t0 + n)%nat. induction m as [|m IH]; intros a H2; [reflexivity|]. cbn [seq flat_map]. rewrite given_app, (H2 a) by lia. apply (IH (S a)). intros. apply H2. lia.
Qed.
Lemma qsum_repeat v k : qsum (repeat v k) == inject_Z (Z.of_nat k) * v.
Proof. induction k as [|k IH]; [cbn; ring|]. cbn [repeat]. rewrite qsum_cons, IH, Nat2Z.inj_succ, <- Z.add_1_l, inject_Z_plus. change (inject_Z 1) with 1. ring. Qed.
Lemma qsum_repeats (v : nat -> Q) k l : qsum (flat_map (fun s => repeat (v s) k) l) == inject_Z (Z.of_nat k) * qsum (map v l).
Proof. induction l as [|s l IH]; [cbn; ring|]. cbn [flat_map map]. rewrite qsum_app, IH, qsum_repeat, qsum_cons. ring. Qed.
Lemma some_of_ones : forall l n, some_of l (repeat 1 n) -> exists m, (m <= n)%nat /\ qsum l == inject_Z (Z.of_nat m).
Proof.
  intros l n [lost P]. exists (length l). split.
  - apply Permutation_length in P. rewrite app_length, repeat_length in P. lia.
  - assert (H : forall x, In x l -> x = 1). { intros x Hx. apply (repeat_spec n 1). apply (Permutation_in _ P), in_or_app. auto. }
    clear P. induction l as [|a l IH]; [reflexivity|]. rewrite qsum_cons, IH by (intros; apply H; right; auto). rewrite (H a) by (left; auto). cbn [length]. rewrite Nat2Z.inj_succ, <- Z.add_1_l, inject_Z_plus. reflexivity.
Qed.
(** For each lag d, the cell of sums gets k times the correlation of each interval of d steps, or some of these; the cell of numbers counts these intervals, or some of them. *)
Theorem C109_isf : forall c t0 t1 k parts sched mem, shared_out (seq t0 (t1 - t0)) parts -> par_isf c t0 t1 k parts sched = Some mem -> forall d, (1 <= d <= t1 - t0)%nat ->
  let starts := seq t0 (t1 - t0 + 1 - d) in let sum := nth d mem 0 in let number := nth (t1 - t0 + 1 + d) mem 0 in
  (exists l, some_of l (flat_map (fun s => repeat (c s (s + d)%nat) k) starts) /\ sum == qsum l) /\
  (exists n, (n <= length starts)%nat /\ number == inject_Z (Z.of_nat n)) /\
  (statement_by_statement sched -> sum == inject_Z (Z.of_nat k) * qsum (map (fun s => c s (s + d)%nat) starts) /\ number == inject_Z (Z.of_nat (length starts))).
Proof.
  intros c t0 t1 k parts sched mem Hs H d Hd starts sum number. unfold par_isf in H. rewrite (for_ext _ _ _ _ _ _ _ (isf_body_values c t0 t1 k)) in H.
  set (mem0 := repeat 0 (t1 - t0 + 1) ++ 1 :: repeat 0 (t1 - t0)) in *.
  assert (M1 : nth_error mem0 d = Some 0). { unfold mem0. rewrite nth_error_app1 by (rewrite repeat_length; lia). apply nth_error_repeat. lia. }
  assert (M2 : nth_error mem0 (t1 - t0 + 1 + d)%nat = Some 0). { unfold mem0. rewrite nth_error_app2 by (rewrite repeat_length; lia). rewrite repeat_length. replace (t1 - t0 + 1 + d - (t1 - t0 + 1))%nat with (S (d - 1)) by lia. cbn [nth_error]. apply nth_error_repeat. lia. }
  assert (G1 : given d (flat_map (isf_values c t0 t1 k) (seq t0 (t1 - t0))) = flat_map (fun s => repeat (c s (s + d)%nat) k) starts).
  { unfold starts. replace (t1 - t0)%nat with (t1 - t0 + 1 - d + (d - 1))%nat at 1 by lia. apply given_over; intros s Hr; unfold isf_values.
    - rewrite (given_at _ d _ (s + d)); [|intros j Hj Hr2; rewrite given_app, given_repeat; destruct (Nat.eqb_spec (j - s) d); [lia|]; unfold given; cbn [filter fst map app]; destruct (Nat.eqb_spec (t1 - t0 + 1 + (j - s)) d); [lia|reflexivity]].
      destruct (Nat.leb_spec (S s) (s + d)); [|lia]. destruct (Nat.ltb_spec (s + d) (S s + (t1 - s))); [|lia]. cbn [andb]. rewrite given_app, given_repeat. destruct (Nat.eqb_spec (s + d - s) d); [|lia].
      unfold given. cbn [filter fst]. destruct (Nat.eqb_spec (t1 - t0 + 1 + (s + d - s)) d); [lia|]. cbn [map]. apply app_nil_r.
    - rewrite (given_at _ d _ (s + d)); [|intros j Hj Hr2; rewrite given_app, given_repeat; destruct (Nat.eqb_spec (j - s) d); [lia|]; unfold given; cbn [filter fst map app]; destruct (Nat.eqb_spec (t1 - t0 + 1 + (j - s)) d); [lia|reflexivity]].
      destruct (Nat.ltb_spec (s + d) (S s + (t1 - s))); [lia|]. rewrite andb_false_r. reflexivity. }
  assert (G2 : given (t1 - t0 + 1 + d) (flat_map (isf_values c t0 t1 k) (seq t0 (t1 - t0))) = flat_map (fun s => [1]) starts).
  { unfold starts. replace (t1 - t0)%nat with (t1 - t0 + 1 - d + (d - 1))%nat at 2 by lia. apply given_over; intros s Hr; unfold isf_values.
    - rewrite (given_at _ _ _ (s + d)); [|intros j Hj Hr2; rewrite given_app, given_repeat; destruct (Nat.eqb_spec (j - s) (t1 - t0 + 1 + d)); [lia|]; unfold given; cbn [filter fst map app]; destruct (Nat.eqb_spec (t1 - t0 + 1 + (j - s)) (t1 - t0 + 1 + d)); [lia|reflexivity]].
      destruct (Nat.leb_spec (S s) (s + d)); [|lia]. destruct (Nat.ltb_spec (s + d) (S s + (t1 - s))); [|lia]. cbn [andb]. rewrite given_app, given_repeat. destruct (Nat.eqb_spec (s + d - s) (t1 - t0 + 1 + d)); [lia|].
      unfold given. cbn [filter fst app]. destruct (Nat.eqb_spec (t1 - t0 + 1 + (s + d - s)) (t1 - t0 + 1 + d)); [reflexivity|lia].
    - rewrite (given_at _ _ _ (s + d)); [|intros j Hj Hr2; rewrite given_app, given_repeat; destruct (Nat.eqb_spec (j - s) (t1 - t0 + 1 + d)); [lia|]; unfold given; cbn [filter fst map app]; destruct (Nat.eqb_spec (t1 - t0 + 1 + (j - s)) (t1 - t0 + 1 + d)); [lia|reflexivity]].
      destruct (Nat.ltb_spec (s + d) (S s + (t1 - s))); [lia|]. rewrite andb_false_r. reflexivity. }
  assert (O : flat_map (fun s : nat => [1]) starts = repeat 1 (length starts)). { clear. induction starts as [|s l IH]; [reflexivity|]. cbn. f_equal. exact IH. }
  split; [|split].
  - destruct (C109_some_of_the_values Qplus _ _ _ _ _ _ Hs H d 0 M1) as [l [S0 E]]. rewrite G1 in S0. exists l. split; [exact S0|]. unfold sum. rewrite (nth_error_nth _ _ 0 E), fold_qsum. ring.
  - destruct (C109_some_of_the_values Qplus _ _ _ _ _ _ Hs H _ 0 M2) as [l [S0 E]]. rewrite G2, O in S0. destruct (some_of_ones _ _ S0) as [n [Hn Qn]]. exists n. split; [exact Hn|]. unfold number. rewrite (nth_error_nth _ _ 0 E), fold_qsum, Qn. ring.
  - intros At. destruct (C109_all_the_values_if_atomic Qplus _ _ _ _ _ _ Hs H At d 0 M1) as [l [P E]]. destruct (C109_all_the_values_if_atomic Qplus _ _ _ _ _ _ Hs H At _ 0 M2) as [l2 [P2 E2]]. rewrite G1 in P. rewrite G2, O in P2. split.
    + unfold sum. rewrite (nth_error_nth _ _ 0 E), fold_qsum, (qsum_perm _ _ P), qsum_repeats. ring.
    + unfold number. rewrite (nth_error_nth _ _ 0 E2), fold_qsum, (qsum_perm _ _ P2), qsum_repeat. ring.
Qed.
(** getISF adds up the numbers of intervals in the same way: with some of them lost, particles that never moved get a function of 2 instead of 1. *)
Theorem C109_isf_refuted : exists parts sched mem, shared_out (seq 0 2) parts /\ par_isf (fun _ _ => 1) 0 2 1 parts sched = Some mem /\ nth 1 mem 0 / nth 4 mem 0 == 2.
Proof.
  exists [[0]; [1]]%nat, [0; 0; 1; 1; 0; 1; 0; 1; 0; 0; 0; 0]%nat. eexists. split; [unfold shared_out; reflexivity|]. split; [vm_compute; reflexivity|]. reflexivity.
Qed.
Example C109_case : shared_out (seq 0 3) [[2; 0]; [1]]%nat /\ statement_by_statement [0; 0; 1; 1; 0; 0]%nat /\
  exists v, par_msd (fun a => inject_Z (Z.of_nat a)) 3 1 [[2; 0]; [1]]%nat [0; 0; 1; 1; 0; 0]%nat = Some v /\ v == 1.
Proof.
  split; [unfold shared_out; cbn; apply (perm_trans (l' := [0; 2; 1]%nat)); [constructor|constructor; constructor]|].
  split; [exists [0; 1; 0]%nat; reflexivity|]. eexists. split; [vm_compute; reflexivity|reflexivity].
Qed.

Local Open Scope nat_scope.
Lemma fs_applied : forall V k (l : list (statement V)) x, app_all V (fs V k l) x = applied k l x.
Proof. reflexivity. Qed.
Lemma parts_nodup : forall I (parts : list (list I)) i j li lj x, NoDup (concat parts) -> i <> j -> nth_error parts i = Some li -> nth_error parts j = Some lj -> In x li -> In x lj -> False.
Proof.
  intros I parts; induction parts as [|l parts IH]; intros i j li lj x N D Hi Hj Xi Xj; [destruct i; discriminate|]. cbn in N.
  assert (C : forall n l', nth_error parts n = Some l' -> In x l -> In x l' -> False).
  { intros n l' Hn A B. assert (In x (concat parts)) by (apply in_concat; exists l'; split; [eapply nth_error_In; eauto|auto]).
    clear -N A H. induction l as [|a l IHl]; [contradiction|]. cbn in N. inversion N; subst. destruct A as [->|A]; [apply H2, in_or_app; auto|auto]. }
  destruct i, j; cbn in Hi, Hj.
  - lia.
  - inversion Hi; subst. eapply C; eauto.
  - inversion Hj; subst. eapply C; eauto.
  - eapply (IH i j); eauto. clear -N. induction l; [exact N|]. inversion N; auto.
Qed.
Lemma applied_app : forall V k (a b : list (nat * (V -> V))) x, applied k (a ++ b) x = applied k b (applied k a x).
Proof. intros. unfold applied. rewrite filter_app, map_app, fold_left_app. reflexivity. Qed.
Lemma applied_none : forall V k (l : list (nat * (V -> V))) x, (forall f, ~ In (k, f) l) -> applied k l x = x.
Proof. intros V k l x H. rewrite <- fs_applied. rewrite fs_none by exact H. reflexivity. Qed.

Section C110.
  Context {V I : Type} (body : I -> list (statement V)).
  (** A parallel loop whose iterations work on cells of their own does the same as one iteration after the other, whatever the threads and the schedule: each cell
      undergoes the statements of its iteration, in order; the others do not change. *)
  Theorem C110_own_cells : forall its parts sched mem mem', own_cells body -> NoDup its -> shared_out its parts -> parallel_for body parts sched mem = Some mem' ->
    length mem' = length mem /\
    (forall i k f x, In i its -> In (k, f) (body i) -> nth_error mem k = Some x -> nth_error mem' k = Some (applied k (body i) x)) /\
    (forall k, (forall i f, In i its -> ~ In (k, f) (body i)) -> nth_error mem' k = nth_error mem k) /\
    (forall k x, nth_error mem k = Some x -> nth_error mem' k = Some (applied k (flat_map body its) x)).
  Proof.
    intros its parts sched mem mem' Ho N Hs H. destruct (for_inv _ _ _ _ _ _ _ H) as [ths [Hr Hd]].
    assert (Np : NoDup (concat parts)) by (eapply Permutation_NoDup; [symmetry; exact Hs|exact N]).
    assert (S : separate V (map (flat_map body) parts)).
    { intros i j li lj k f g D Hi Hj Fi Fj. rewrite nth_error_map in Hi, Hj.
      destruct (nth_error parts i) as [pi|] eqn:Ei; [|discriminate]. destruct (nth_error parts j) as [pj|] eqn:Ej; [|discriminate].
      inversion Hi; inversion Hj; subst. apply in_flat_map in Fi as [a [Ia Fa]]. apply in_flat_map in Fj as [b [Ib Fb]].
      assert (a = b) by (eapply Ho; eauto). subst b. exact (parts_nodup _ parts i j pi pj a Np D Ei Ej Ia Ib). }
    pose proof (separate_exact V _ _ _ _ _ Hr Hd S) as X. rewrite concat_flat_map in X.
    assert (L : length mem' = length mem). { pose proof (proj1 (prun_len _ _ _ _ Hr)) as E. exact E. }
    assert (One : forall l i k f x, NoDup l -> In i l -> In (k, f) (body i) -> applied k (flat_map body l) x = applied k (body i) x).
    { intros l; induction l as [|a l IH]; intros i k f x Nl Hi Hf; [contradiction|]. cbn [flat_map]. rewrite applied_app. inversion Nl as [|? ? Na Nl']; subst.
      destruct Hi as [->|Hi].
      - apply applied_none. intros g Hg. apply in_flat_map in Hg as [b [Hb Hg]]. assert (i = b) by (eapply Ho; eauto). subst. contradiction.
      - rewrite (applied_none _ k (body a)); [eapply IH; eauto|]. intros g Hg. assert (i = a) by (eapply Ho; eauto). subst. contradiction. }
    assert (Nil : forall l k x, (forall i f, In i l -> ~ In (k, f) (body i)) -> applied k (flat_map body l) x = x).
    { intros l k x Hn. apply applied_none. intros f Hf. apply in_flat_map in Hf as [i [Hi Hf]]. exact (Hn i f Hi Hf). }
    assert (Mem : forall i, In i (concat parts) <-> In i its).
    { intros i. split; intros Hi; [exact (Permutation_in _ Hs Hi)|exact (Permutation_in _ (Permutation_sym Hs) Hi)]. }
    split; [exact L|]. split; [|split].
    - intros i k f x Hi Hf Hx. rewrite X, Hx. cbn [option_map]. f_equal. rewrite fs_applied. apply (One _ i k f x Np); [apply Mem; exact Hi|exact Hf].
    - intros k Hn. rewrite X. destruct (nth_error mem k) as [x|] eqn:E; [|reflexivity]. cbn [option_map]. f_equal. rewrite fs_applied.
      apply Nil. intros i f Hi. apply Hn. apply Mem. exact Hi.
    - intros k x Hx. rewrite X, Hx. cbn [option_map]. f_equal. rewrite fs_applied.
      destruct (existsb (fun i => existsb (fun o => fst o =? k) (body i)) its) eqn:E.
      + apply existsb_exists in E as [i [Hi E]]. apply existsb_exists in E as [[c f] [Hf E]]. cbn in E. apply Nat.eqb_eq in E. subst c.
        rewrite (One _ i k f x Np (proj2 (Mem i) Hi) Hf). symmetry. apply (One its i k f x N Hi Hf).
      + assert (Z : forall i f, In i its -> ~ In (k, f) (body i)).
        { intros i f Hi Hf. assert (existsb (fun i => existsb (fun o => fst o =? k) (body i)) its = true); [|congruence].
          apply existsb_exists. exists i. split; [auto|]. apply existsb_exists. exists (k, f). split; [auto|apply Nat.eqb_refl]. }
        rewrite !Nil; [reflexivity|exact Z|]. intros i f Hi. apply Z, Mem, Hi.
  Qed.
End C110.
Lemma nth_error_seq_x : forall n k p, nth_error (seq 0 n) k = Some p -> p = k /\ k < n.
Proof. intros n k p H. pose proof (nth_lt _ _ _ _ H) as L. rewrite seq_length in L. rewrite nth_error_seq in H by exact L. injection H as <-. split; [reflexivity|exact L]. Qed.
Lemma nth_ext_x : forall A (a b : list A), length a = length b -> (forall k x, nth_error b k = Some x -> nth_error a k = Some x) -> a = b.
Proof.
  intros A a b; revert a. induction b as [|y b IH]; intros [|x a] L H; cbn in L; try lia; [reflexivity|].
  pose proof (H 0 y eq_refl) as E. inversion E; subst. f_equal. apply IH; [lia|]. intros k z Hk. exact (H (S k) z Hk).
Qed.
(** Particles::operator+= : every coordinate is translated exactly once. *)
Theorem C110_translate : forall v parts sched xs ys, shared_out (seq 0 (length xs)) parts -> par_translate v parts sched xs = Some ys -> ys = map (fun x => (x + v)%Z) xs.
Proof.
  intros v parts sched xs ys Hs H.
  destruct (C110_own_cells (fun p => [accum Z.add p v]) (seq 0 (length xs)) parts sched xs ys) as [L [A _]]; [|apply seq_NoDup|exact Hs|exact H|].
  { intros i j k f g [E|[]] [E'|[]]. inversion E; inversion E'; subst. congruence. }
  apply nth_ext_x; [rewrite map_length; exact L|]. intros k y Hk. rewrite nth_error_map in Hk. destruct (nth_error xs k) as [x|] eqn:E; [|discriminate].
  inversion Hk; subst. rewrite (A k k (fun z => (z + v)%Z) x); [|apply in_seq; pose proof (nth_lt _ _ _ _ E); lia|left; reflexivity|exact E].
  unfold applied. cbn. rewrite Nat.eqb_refl. reflexivity.
Qed.
(** a[p] = f(p) *)
Theorem C110_fill : forall V (f : nat -> V) parts sched mem mem', shared_out (seq 0 (length mem)) parts -> par_fill f parts sched mem = Some mem' -> mem' = map f (seq 0 (length mem)).
Proof.
  intros V f parts sched mem mem' Hs H.
  destruct (C110_own_cells (fun p => [put p (f p)]) (seq 0 (length mem)) parts sched mem mem') as [L [A _]]; [|apply seq_NoDup|exact Hs|exact H|].
  { intros i j k f0 g [E|[]] [E'|[]]. inversion E; inversion E'; subst. congruence. }
  apply nth_ext_x; [rewrite map_length, seq_length; exact L|]. intros k y Hk. rewrite nth_error_map in Hk.
  destruct (nth_error (seq 0 (length mem)) k) as [p|] eqn:E; [|discriminate]. apply nth_error_seq_x in E as [-> Lk].
  inversion Hk; subst. destruct (nth_error mem k) as [x|] eqn:Ex; [|apply nth_error_None in Ex; lia].
  rewrite (A k k (fun _ => f k) x); [|apply in_seq; lia|left; reflexivity|exact Ex].
  unfold applied. cbn. rewrite Nat.eqb_refl. reflexivity.
Qed.
(** The sums of cosines (and of sines) of getISF: one time per iteration. *)
Theorem C110_waves : forall w sel parts sched n mem', shared_out (seq 0 n) parts -> par_waves w sel parts sched n = Some mem' ->
  mem' = map (fun t => fold_left Qplus (map (fun tr => w tr t) sel) 0%Q) (seq 0 n).
Proof.
  intros w sel parts sched n mem' Hs H.
  destruct (C110_own_cells (fun t => map (fun tr => accum Qplus t (w tr t)) sel) (seq 0 n) parts sched (repeat 0%Q n) mem') as [L [_ [_ A]]]; [|apply seq_NoDup|exact Hs|exact H|].
  { intros i j k f g E E'. apply in_map_iff in E as [a [E _]]. apply in_map_iff in E' as [b [E' _]]. inversion E; inversion E'; subst. congruence. }
  apply nth_ext_x; [rewrite map_length, seq_length, L, repeat_length; reflexivity|]. intros k y Hk. rewrite nth_error_map in Hk.
  destruct (nth_error (seq 0 n) k) as [p|] eqn:E; [|discriminate]. apply nth_error_seq_x in E as [-> Lk]. inversion Hk; subst.
  rewrite (A k 0%Q).
  2: { rewrite (nth_error_nth' _ 0%Q) by (rewrite repeat_length; lia). f_equal. apply nth_repeat. }
  f_equal. generalize 0%Q as x0. clear -Lk.
  assert (M : forall l x0, applied k (map (fun tr => accum Qplus k (w tr k)) l) x0 = fold_left Qplus (map (fun tr => w tr k) l) x0).
  { induction l as [|a l IH]; intros x0; [reflexivity|]. unfold applied in *. cbn [map filter fst accum]. unfold accum at 1. cbn [fst]. rewrite Nat.eqb_refl. cbn [map snd fold_left]. exact (IH _). }
  intros x0.
  assert (G : forall m s, s <= k < s + m -> applied k (flat_map (fun t => map (fun tr => accum Qplus t (w tr t)) sel) (seq s m)) x0 = fold_left Qplus (map (fun tr => w tr k) sel) x0).
  { assert (O : forall m s x, ~ s <= k < s + m -> applied k (flat_map (fun t => map (fun tr => accum Qplus t (w tr t)) sel) (seq s m)) x = x).
    { intros m s x Hm. apply applied_none. intros f Hf. apply in_flat_map in Hf as [t [Ht Hf]]. apply in_seq in Ht.
      apply in_map_iff in Hf as [tr [Hf _]]. inversion Hf; subst. lia. }
    intros m; induction m as [|m IH]; intros s Hm; [lia|]. cbn [seq flat_map]. rewrite applied_app.
    destruct (Nat.eq_dec s k) as [->|D].
    - rewrite M. apply O. lia.
    - assert (Z : applied k (map (fun tr => accum Qplus s (w tr s)) sel) x0 = x0); [|rewrite Z; apply IH; lia].
      apply applied_none. intros f Hf. apply in_map_iff in Hf as [tr [Hf _]]. inversion Hf; subst. congruence. }
  apply G. lia.
Qed.
(** No schedule is stuck: as long as a thread has something left to do, one can go on, and the loop ends. *)
Definition work {V} (th : pthread V) : nat := 2 * length (ptodo th) + match ppend th with Some _ => 1 | None => 0 end.
Definition in_range {V} (n : nat) (th : pthread V) : Prop := (forall k f, In (k, f) (ptodo th) -> k < n) /\ match ppend th with Some (k, _) => k < n | None => True end.
Lemma sum_set : forall V (ths : list (pthread V)) i th th', nth_error ths i = Some th -> list_sum (map work (set_nth i th' ths)) + work th = list_sum (map work ths) + work th'.
Proof.
  intros V ths; induction ths as [|a ths IH]; intros [|i] th th' E; cbn [nth_error] in E; try discriminate.
  - injection E as ->. cbn [set_nth map]. change (list_sum (work th' :: map work ths)) with (work th' + list_sum (map work ths)).
    change (list_sum (work th :: map work ths)) with (work th + list_sum (map work ths)). lia.
  - specialize (IH i th th' E). cbn [set_nth map]. change (list_sum (work a :: map work (set_nth i th' ths))) with (work a + list_sum (map work (set_nth i th' ths))).
    change (list_sum (work a :: map work ths)) with (work a + list_sum (map work ths)). lia.
Qed.
Lemma go_on : forall V (mem : list V) ths, Forall (in_range (length mem)) ths -> forallb pdone ths = false ->
  exists i s', pstep (mem, ths) i = Some s' /\ Forall (in_range (length (fst s'))) (snd s') /\ list_sum (map work (snd s')) < list_sum (map work ths).
Proof.
  intros V mem ths F H.
  assert (E : exists i th, nth_error ths i = Some th /\ pdone th = false).
  { clear F. induction ths as [|th ths IH]; [discriminate|]. cbn in H. destruct (pdone th) eqn:D.
    - destruct (IH H) as [i [th' [A B]]]. exists (S i), th'. auto.
    - exists 0, th. auto. }
  destruct E as [i [th [E D]]]. pose proof (proj1 (Forall_forall _ _) F _ (nth_error_In _ _ E)) as [R1 R2].
  assert (W : forall th', work th' < work th -> list_sum (map work (set_nth i th' ths)) < list_sum (map work ths)).
  { intros th' Hw. pose proof (sum_set V ths i th th' E). lia. }
  exists i. unfold pstep. rewrite E. destruct th as [[[k y]|] [|[k' f] r]]; cbn in R1, R2, D; try discriminate.
  - apply Nat.ltb_lt in R2 as R2'. rewrite R2'. eexists. split; [reflexivity|]. cbn [fst snd]. rewrite set_nth_len. split; [|apply W; cbn; lia].
    apply Forall_set; [exact F|]. split; [exact R1|exact I].
  - apply Nat.ltb_lt in R2 as R2'. rewrite R2'. eexists. split; [reflexivity|]. cbn [fst snd]. rewrite set_nth_len. split; [|apply W; cbn; lia].
    apply Forall_set; [exact F|]. split; [exact R1|exact I].
  - assert (Lk : k' < length mem) by (eapply R1; left; reflexivity). destruct (nth_error mem k') as [x|] eqn:G; [|apply nth_error_None in G; lia].
    eexists. split; [reflexivity|]. cbn [fst snd]. split; [|apply W; cbn; lia]. apply Forall_set; [exact F|]. split; [intros; eapply R1; right; eauto|exact Lk].
Qed.
Theorem C110_always_ends : forall V I (body : I -> list (statement V)) parts mem sched s, (forall i k f, In (k, f) (body i) -> k < length mem) ->
  prun (plaunch mem (map (flat_map body) parts)) sched = Some s ->
  (exists sched' mem', parallel_for body parts (sched ++ sched') mem = Some mem') /\ length sched <= 2 * length (flat_map body (concat parts)).
Proof.
  intros V I body parts mem sched s Hc H.
  assert (App : forall a b (s : list V * list (pthread V)), prun s (a ++ b) = match prun s a with Some s' => prun s' b | None => None end).
  { intros a; induction a as [|i a IH]; intros b s0; [reflexivity|]. cbn. destruct (pstep s0 i); auto. }
  assert (Ends : forall n (s : list V * list (pthread V)), list_sum (map work (snd s)) <= n -> Forall (in_range (length (fst s))) (snd s) ->
     exists sched' mem' ths, prun s sched' = Some (mem', ths) /\ forallb pdone ths = true).
  { intros n; induction n as [|n IH]; intros [m ths] L F; cbn [fst snd] in *; destruct (forallb pdone ths) eqn:D; try (exists [], m, ths; split; [reflexivity|exact D]).
    - destruct (go_on V m ths F D) as [i [s' [_ [_ B]]]]. lia.
    - destruct (go_on V m ths F D) as [i [s' [A [F' B]]]]. destruct (IH s') as [sc [m' [th' [P Q]]]]; [lia|exact F'|]. exists (i :: sc), m', th'. cbn [prun]. rewrite A. auto. }
  assert (Step : forall (s : list V * list (pthread V)) i s', pstep s i = Some s' -> Forall (in_range (length (fst s))) (snd s) ->
     Forall (in_range (length (fst s'))) (snd s') /\ list_sum (map work (snd s')) + 1 = list_sum (map work (snd s))).
  { intros [m ths] i s' E F. unfold pstep in E. cbn [fst snd] in *. destruct (nth_error ths i) as [th|] eqn:Et; [|discriminate].
    pose proof (proj1 (Forall_forall _ _) F _ (nth_error_In _ _ Et)) as [R1 R2].
    assert (W : forall th', work th' + 1 = work th -> list_sum (map work (set_nth i th' ths)) + 1 = list_sum (map work ths)).
    { intros th' Hw. pose proof (sum_set V ths i th th' Et). lia. }
    destruct th as [[[k y]|] r].
    - destruct (k <? length m) eqn:Lk; [|discriminate]. inversion E; subst. cbn [fst snd]. rewrite set_nth_len. split; [|apply W; cbn; lia].
      apply Forall_set; [exact F|]. split; [exact R1|exact Logic.I].
    - destruct r as [|[k f] r]; [discriminate|]. destruct (nth_error m k) as [x|] eqn:G; [|discriminate]. inversion E; subst. cbn [fst snd]. split; [|apply W; cbn; lia].
      apply Forall_set; [exact F|]. split; [intros; eapply R1; right; eauto|]. cbn. eapply nth_lt; eauto. }
  assert (Run : forall sc (s s' : list V * list (pthread V)), prun s sc = Some s' -> Forall (in_range (length (fst s))) (snd s) ->
     Forall (in_range (length (fst s'))) (snd s') /\ length sc <= list_sum (map work (snd s))).
  { intros sc; induction sc as [|i sc IH]; intros s0 s' E F; cbn in E; [inversion E; subst; split; [exact F|cbn; lia]|].
    destruct (pstep s0 i) as [s1|] eqn:E1; [|discriminate]. destruct (Step _ _ _ E1 F) as [F1 W1]. destruct (IH _ _ E F1) as [F2 L2]. split; [exact F2|]. cbn [length]. lia. }
  assert (F0 : Forall (in_range (length (fst (plaunch mem (map (flat_map body) parts))))) (snd (plaunch mem (map (flat_map body) parts)))).
  { cbn [plaunch fst snd]. apply Forall_forall. intros th Ht. apply in_map_iff in Ht as [l [<- Hl]]. apply in_map_iff in Hl as [p [<- _]].
    split; [|exact Logic.I]. cbn. intros k f Hf. apply in_flat_map in Hf as [i [_ Hf]]. eapply Hc; eauto. }
  destruct (Run _ _ _ H F0) as [F1 L1]. split.
  - destruct (Ends _ s (le_n _) F1) as [sc [m' [th' [A B]]]]. exists sc, m'. unfold parallel_for. rewrite App, H, A, B. reflexivity.
  - replace (2 * length (flat_map body (concat parts))) with (list_sum (map work (snd (plaunch mem (map (flat_map body) parts))))); [exact L1|].
    cbn [plaunch snd]. clear. induction parts as [|p parts IH]; [reflexivity|]. cbn [map list_sum fold_right concat]. rewrite flat_map_app, app_length.
    unfold list_sum in IH. cbn [map] in IH. rewrite IH. unfold work. cbn. lia.
Qed.
Example C110_case : shared_out (seq 0 3) [[2; 0]; [1]] /\ par_translate 5 [[2; 0]; [1]] [0; 1; 0; 1; 0; 0] [10; 20; 30]%Z = Some [15; 25; 35]%Z.
Proof.
  split; [|reflexivity]. unfold shared_out; cbn. apply (perm_trans (l' := [0; 2; 1])); [constructor|constructor; constructor].
Qed.

Print Assumptions C109_some_of_the_values. Print Assumptions C109_all_the_values_if_atomic. Print Assumptions C109_drift. Print Assumptions C109_msd_never_above.
Print Assumptions C109_drift_refuted. Print Assumptions C109_msd_refuted. Print Assumptions C109_isf.
Print Assumptions C109_isf_refuted.
Print Assumptions C110_own_cells. Print Assumptions C110_translate. Print Assumptions C110_fill. Print Assumptions C110_waves. Print Assumptions C110_always_ends.

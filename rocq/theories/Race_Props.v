(** C40 under any schedule of the threads. *)
Require Import ZArith List Bool Arith Lia Permutation Sorting.Sorted.
Require Import Verif.Base Verif.SortU Verif.ListX Verif.Box_Model Verif.Box_Spec Verif.Box_Proofs Verif.RTree_Model Verif.RTree_Spec Verif.RTree_Heuristics
  Verif.Index_Model Verif.Index_Spec Verif.Index_Proofs Verif.Traj_Model Verif.Traj_Proofs Verif.Center_Model Verif.Center_Proofs Verif.Reconstructor_Proofs
  Verif.Particles_Model Verif.Particles_Spec Verif.Particles_Proofs Verif.Particles_Props Verif.Race_Model.
Import ListNotations.
Local Open Scope nat_scope.

Notation occ := (count_occ Nat.eq_dec).
Definition left1 (k : nat) (t : thread) : nat := occ (todo t) k + match pend t with Some (k', _) => if k' =? k then 1 else 0 | None => 0 end.
Fixpoint left (k : nat) (ths : list thread) : nat := match ths with [] => 0 | t :: ths' => left1 k t + left k ths' end.
Lemma left_set k : forall ths i t t', nth_error ths i = Some t -> left k (set_nth i t' ths) + left1 k t = left k ths + left1 k t'.
Proof. induction ths as [|a ths IH]; intros [|i] t t' H; simpl in *; try discriminate; [inversion H; subst; lia|]. specialize (IH i t t' H). lia. Qed.
Lemma left_le k : forall ths i t, nth_error ths i = Some t -> left1 k t <= left k ths.
Proof. induction ths as [|a ths IH]; intros [|i] t H; simpl in *; try discriminate; [inversion H; subst; lia|]. specialize (IH i t H). lia. Qed.
Lemma set_nth_twice {A} (x y : A) : forall l i, set_nth i y (set_nth i x l) = set_nth i y l.
Proof. induction l as [|a l IH]; intros [|i]; simpl; auto. rewrite IH. auto. Qed.
Lemma in_set_nth {A} (x : A) : forall l i t, In t (set_nth i x l) -> t = x \/ In t l.
Proof. induction l as [|a l IH]; intros [|i] t H; simpl in *; auto; destruct H as [H|H]; auto. destruct (IH i t H); auto. Qed.

Definition bounded (total : nat -> nat) (s : list nat * list thread) : Prop :=
  (forall k v, nth_error (fst s) k = Some v -> v + left k (snd s) <= total k) /\
  (forall t k v, In t (snd s) -> pend t = Some (k, v) -> v + left k (snd s) <= total k) /\
  (forall k v, nth_error (fst s) k = Some v -> 1 <= v \/ left k (snd s) = total k).
Lemma tstep_len s i s' : tstep s i = Some s' -> length (fst s') = length (fst s).
Proof.
  destruct s as [mem ths]. unfold tstep. destruct (nth_error ths i) as [[[[k v]|] r]|]; try discriminate.
  - destruct (k <? length mem); intros H; inversion H; simpl. apply set_nth_len.
  - destruct r as [|k r]; try discriminate. destruct (nth_error mem k); intros H; inversion H; auto.
Qed.
Lemma tstep_bounded total s i s' : bounded total s -> tstep s i = Some s' -> bounded total s'.
Proof.
  destruct s as [mem ths]. intros [B1 [B2 B3]]. unfold tstep. destruct (nth_error ths i) as [[[[k v]|] r]|] eqn:Ei; try discriminate.
  - destruct (k <? length mem) eqn:Hk; intros H; inversion H; subst; clear H. simpl in *. apply Nat.ltb_lt in Hk.
    assert (Hl : forall k', left k' (set_nth i (mkThread None r) ths) + (if k =? k' then 1 else 0) = left k' ths).
    { intros k'. pose proof (left_set k' ths i _ (mkThread None r) Ei) as H. unfold left1 in H. simpl in H. lia. }
    assert (Hv := B2 _ _ _ (nth_error_In _ _ Ei) eq_refl). unfold bounded; simpl. repeat split.
    + intros k' v' H. rewrite set_nth_get in H by auto. specialize (Hl k'). rewrite Nat.eqb_sym in Hl. destruct (Nat.eqb_spec k' k).
      * inversion H; subst. lia.
      * specialize (B1 _ _ H). lia.
    + intros t k' v' Hin Hp. apply in_set_nth in Hin. destruct Hin as [->|Hin]; [discriminate|]. specialize (B2 _ _ _ Hin Hp). specialize (Hl k'). lia.
    + intros k' v' H. rewrite set_nth_get in H by auto. specialize (Hl k'). rewrite Nat.eqb_sym in Hl. destruct (Nat.eqb_spec k' k).
      * inversion H; subst. lia.
      * specialize (B3 _ _ H). lia.
  - destruct r as [|k r]; try discriminate. destruct (nth_error mem k) as [v|] eqn:Ek; intros H; inversion H; subst; clear H. simpl in *.
    assert (Hl : forall k', left k' (set_nth i (mkThread (Some (k, v)) r) ths) = left k' ths).
    { intros k'. pose proof (left_set k' ths i _ (mkThread (Some (k, v)) r) Ei) as H. unfold left1 in H. simpl in H. destruct (Nat.eq_dec k k'), (Nat.eqb_spec k k'); lia. }
    unfold bounded; simpl. repeat split.
    + intros k' v' H. rewrite Hl. eauto.
    + intros t k' v' Hin Hp. rewrite Hl. apply in_set_nth in Hin. destruct Hin as [->|Hin]; [|eauto]. simpl in Hp. inversion Hp; subst. eauto.
    + intros k' v' H. rewrite Hl. eauto.
Qed.
Lemma trun_bounded total : forall sched s s', bounded total s -> trun s sched = Some s' -> bounded total s' /\ length (fst s') = length (fst s).
Proof.
  induction sched as [|i sched IH]; simpl; intros s s' B H; [inversion H; subst; auto|]. destruct (tstep s i) as [s1|] eqn:E; [|discriminate].
  destruct (IH s1 s' (tstep_bounded _ _ _ _ B E) H) as [B' L]. split; auto. rewrite L. eapply tstep_len; eauto.
Qed.
Lemma left_launch k : forall progs, left k (map (mkThread None) progs) = occ (concat progs) k.
Proof. induction progs as [|p progs IH]; simpl; auto. rewrite count_occ_app, IH. unfold left1. simpl. lia. Qed.
Lemma launch_bounded n progs : bounded (fun k => occ (concat progs) k) (launch n progs).
Proof.
  unfold bounded, launch. simpl. repeat split; intros.
  - rewrite left_launch. apply nth_error_In, repeat_spec in H. lia.
  - apply in_map_iff in H. destruct H as [p [<- _]]. discriminate.
  - right. apply left_launch.
Qed.
Lemma left_finished k ths : (forall t, In t ths -> t = mkThread None []) -> left k ths = 0.
Proof. induction ths as [|t ths IH]; simpl; intros H; auto. rewrite (H t (or_introl eq_refl)), IH; auto. Qed.

Lemma flat_map_perm {A B} (f : A -> list B) l l' : Permutation l l' -> Permutation (flat_map f l) (flat_map f l').
Proof.
  induction 1; simpl; auto; [apply Permutation_app_head; auto| |etransitivity; eauto]. rewrite !app_assoc. apply Permutation_app_tail, Permutation_app_comm.
Qed.
Lemma concat_map_flat {A B} (f : A -> list B) : forall ll, concat (map (flat_map f) ll) = flat_map f (concat ll).
Proof. induction ll as [|l ll IH]; simpl; auto. rewrite flat_map_app, IH. auto. Qed.
Lemma rdf_pairs_occ st cutoff i a : nth_error (pts st) i = Some a -> forall l g cnt g' cnt', rdf_pairs st cutoff i l (g, cnt) = Val (g', cnt') ->
  length g' = length g /\ forall k x, nth_error g k = Some x -> nth_error g' k =
    Some (x + occ (flat_map (fun j => match nth_error (pts st) j with Some b => [rdf_bin (length g) cutoff (sqdist b a)] | None => [] end) l) k).
Proof.
  intros Ha. induction l as [|j l IH]; intros g cnt g' cnt'; cbn [rdf_pairs fst snd].
  - intros H. inversion H; subst. split; auto. intros k x Hx. simpl. rewrite Nat.add_0_r. auto.
  - rewrite Ha. destruct (nth_error (pts st) j) as [b|] eqn:Hb; [|discriminate]. unfold incr. destruct (nth_error g _) as [y|] eqn:Hy; [|discriminate].
    intros H. apply IH in H. rewrite set_nth_len in H. destruct H as [L K]. split; auto. intros k x Hx.
    assert (Hlt := nth_error_lt _ _ _ Hy). rewrite (K k (if Nat.eq_dec (rdf_bin (length g) cutoff (sqdist b a)) k then S y else x)).
    + simpl. rewrite Hb. simpl. destruct (Nat.eq_dec _ k); [|auto]. subst k. f_equal. assert (x = y) by congruence. subst. lia.
    + rewrite set_nth_get by auto. destruct (Nat.eqb_spec k (rdf_bin (length g) cutoff (sqdist b a))), (Nat.eq_dec (rdf_bin (length g) cutoff (sqdist b a)) k); auto; congruence.
Qed.
Lemma rdf_loop_occ st cutoff : forall sel g cnt g' cnt', rdf_loop st cutoff sel (g, cnt) = Val (g', cnt') ->
  length g' = length g /\ forall k x, nth_error g k = Some x -> nth_error g' k = Some (x + occ (flat_map (bins_of st (length g) cutoff) sel) k).
Proof.
  induction sel as [|i sel IH]; intros g cnt g' cnt'; cbn [rdf_loop].
  - intros H. inversion H; subst. split; auto. intros k x Hx. simpl. rewrite Nat.add_0_r. auto.
  - cbn [flat_map]. unfold bins_of at 1. destruct (euclid_of st i cutoff) as [l| |] eqn:Ei; cbn [obind]; try discriminate.
    destruct (nth_error (pts st) i) as [a|] eqn:Ha.
    + destruct (rdf_pairs st cutoff i l (g, cnt)) as [[g1 c1]| |] eqn:E1; cbn [obind]; try discriminate. intros H. apply IH in H.
      destruct (rdf_pairs_occ st cutoff i a Ha _ _ _ _ _ E1) as [L1 K1]. rewrite L1 in H. destruct H as [L K]. split; auto. intros k x Hx.
      rewrite (K k _ (K1 k x Hx)). f_equal. rewrite count_occ_app. lia.
    + unfold euclid_of in Ei. rewrite Ha in Ei. discriminate.
Qed.

(** Whatever the distribution of the selection among the threads and the schedule of their loads and stores, no bin ever holds
    more than the count of the sequential execution; when the threads have finished, every bin hit is at least one. *)
Theorem C40_parallel_never_overcounts c l bb r ops n cutoff sel parts : config_ok c -> dims c = 3 -> Forall point3 l -> Forall pop_ok ops -> indexed ops = true ->
  0 < n -> (0 < cutoff)%Z -> (forall i, In i sel -> i < length (positions l ops)) -> Permutation sel (concat parts) ->
  exists st, prun c (new_particles l bb r) ops = Some st /\ forall sched s, trun (launch n (rdf_threads st n cutoff parts)) sched = Some s ->
    length (fst s) = n /\ forall k, k < n -> exists v, nth_error (fst s) k = Some v /\
      v <= length (filter (in_bin (positions l ops) n cutoff k) (all_pairs (positions l ops) sel)) /\
      (finished s -> 0 < length (filter (in_bin (positions l ops) n cutoff k) (all_pairs (positions l ops) sel)) -> 0 < v).
Proof.
  intros Hok H3 Hl Ho Hx Hn Hcut Hsel Hperm. destruct (C40_rdf c l bb r ops n cutoff sel Hok H3 Hl Ho Hx Hn Hcut Hsel) as [st [g [cnt [E [Er [L [_ K]]]]]]].
  exists st. split; auto. intros sched s Hs. unfold rdf in Er. apply rdf_loop_occ in Er. rewrite repeat_length in Er. destruct Er as [_ Ko].
  destruct (trun_bounded _ _ _ _ (launch_bounded n _) Hs) as [[B1 [_ B3]] Ls]. simpl in Ls. rewrite repeat_length in Ls. split; auto. intros k Hk.
  destruct (nth_error_ex (fst s) k) as [v Hv]; [lia|]. exists v. split; auto.
  assert (Ht : occ (concat (rdf_threads st n cutoff parts)) k = length (filter (in_bin (positions l ops) n cutoff k) (all_pairs (positions l ops) sel))).
  { unfold rdf_threads. rewrite concat_map_flat. specialize (K k Hk). rewrite (Ko k 0) in K by (apply nth_error_repeat_x; auto). inversion K as [K']. 
    apply (proj1 (Permutation_count_occ Nat.eq_dec _ _)). apply flat_map_perm. symmetry. auto. }
  specialize (B1 k v Hv). specialize (B3 k v Hv). simpl in *. rewrite Ht in *. split; [lia|]. intros Hf Hpos. rewrite (left_finished k (snd s)) in * by apply Hf. lia.
Qed.
(** If the store of every increment directly follows its load the result is the sequential count. *)
Theorem C40_atomic_counts n progs sched s : trun (launch n progs) (flat_map (fun i => [i; i]) sched) = Some s -> finished s ->
  length (fst s) = n /\ forall k v, nth_error (fst s) k = Some v -> v = occ (concat progs) k.
Proof.
  intros Hrun Hf. pose (inv := fun s : list nat * list thread => length (fst s) = n /\ (forall t, In t (snd s) -> pend t = None) /\ forall k v, nth_error (fst s) k = Some v -> v + left k (snd s) = occ (concat progs) k).
  assert (Hi : forall sched s0, inv s0 -> trun s0 (flat_map (fun i => [i; i]) sched) = Some s -> inv s).
  { clear Hrun sched. induction sched as [|i sched IH]; intros s0 I H; [simpl in H; inversion H; subst; auto|]. cbn [flat_map app trun] in H.
    destruct (tstep s0 i) as [s1|] eqn:E1; [|discriminate]. destruct (tstep s1 i) as [s2|] eqn:E2; [|discriminate]. apply (IH s2); auto. clear IH H.
    destruct s0 as [mem ths]. destruct I as [I0 [I1 I2]]. simpl in *. unfold tstep in E1. destruct (nth_error ths i) as [[p r]|] eqn:Ei; [|discriminate].
    assert (Hp : p = None) by apply (I1 _ (nth_error_In _ _ Ei)). subst p. destruct r as [|k r]; [discriminate|]. destruct (nth_error mem k) as [v|] eqn:Ek; [|discriminate].
    inversion E1; subst; clear E1. unfold tstep in E2. assert (Hlt := nth_error_lt _ _ _ Ei). rewrite set_nth_get in E2 by auto. rewrite Nat.eqb_refl in E2.
    assert (Hk := nth_error_lt _ _ _ Ek). apply Nat.ltb_lt in Hk as Hk'. rewrite Hk' in E2. inversion E2; subst; clear E2. unfold inv. cbn [fst snd]. rewrite set_nth_twice, set_nth_len. split; auto. split.
    - intros t Hin. apply in_set_nth in Hin. destruct Hin as [->|Hin]; auto.
    - intros k' v' H. pose proof (left_set k' ths i _ (mkThread None r) Ei) as Hl. unfold left1 in Hl. cbn [todo pend count_occ] in Hl.
      rewrite set_nth_get in H by auto. destruct (Nat.eqb_spec k' k); destruct (Nat.eq_dec k k'); try congruence.
      + inversion H; subst. specialize (I2 _ _ Ek). lia.
      + specialize (I2 _ _ H). lia. }
  destruct (Hi sched (launch n progs)) as [J0 [_ J2]]; auto.
  - split; [apply repeat_length|]. split.
    + intros t H. simpl in H. apply in_map_iff in H. destruct H as [p [<- _]]. auto.
    + intros k v H. simpl in *. rewrite left_launch. apply nth_error_In, repeat_spec in H. lia.
  - split; auto. intros k v H. specialize (J2 k v H). rewrite (left_finished k (snd s)) in J2 by apply Hf. lia.
Qed.
(** With the plain increments of the code counts can be lost: two particles, two threads, two ordered pairs in the same bin,
    which is left at one. *)
Theorem C40_parallel_counts_refuted : exists st parts sched s, prun lib_config (new_particles [[0; 0; 0]; [4; 0; 0]]%Z [] 1) [PIndex] = Some st /\
  Permutation [0; 1] (concat parts) /\ rdf st 2 8 [0; 1] = Val ([0; 2], 2) /\
  trun (launch 2 (rdf_threads st 2 8 parts)) sched = Some s /\ finished s /\ fst s = [0; 1].
Proof.
  eexists. exists [[0]; [1]], [0; 1; 0; 1]. eexists. split; [vm_compute; reflexivity|]. split; [auto|]. split; [vm_compute; reflexivity|]. split; [vm_compute; reflexivity|].
  split; [|reflexivity]. intros t [<-|[<-|[]]]; auto.
Qed.
Example C40_parallel_case : exists st s, prun lib_config (new_particles ex_row [] 1) [PIndex] = Some st /\
  trun (launch 4 (rdf_threads st 4 8 [[0; 1]; [2; 3]])) (flat_map (fun i => [i; i]) [0; 0; 0; 1; 1; 0; 1; 1; 1; 0]) = Some s /\ finished s /\ fst s = [0; 4; 4; 2].
Proof. eexists. eexists. split; [vm_compute; reflexivity|]. split; [vm_compute; reflexivity|]. split; [|reflexivity]. intros t [<-|[<-|[]]]; auto. Qed.
Print Assumptions C40_parallel_never_overcounts. Print Assumptions C40_atomic_counts. Print Assumptions C40_parallel_counts_refuted.

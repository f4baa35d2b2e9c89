(** Conversion of maps between positions and trajectories; frame sizes. *)
Require Import ZArith List Bool Arith Lia Sorted Permutation.
Require Import Verif.Base Verif.SortU Verif.RTree_Model Verif.ListX Verif.Traj_Model Verif.Traj_Spec Verif.Traj_Proofs.
Import ListNotations.

Section Maps.
  Variable T : Type.
  Implicit Types m acc : list (nat * T).

  Lemma lookup_insert k v k' : forall m, is_map m ->
    lookup k' (map_insert T k v m) = if k' =? k then (match lookup k m with Some x => Some x | None => Some v end) else lookup k' m.
  Proof.
    unfold is_map. induction m as [|[k0 v0] m IH]; intros Hs; simpl in *.
    - destruct (k' =? k); auto.
    - inversion Hs as [|? ? Hs' Hf]; subst. destruct (Nat.ltb_spec k k0) as [Hlt|Hge].
      + simpl. destruct (Nat.eqb_spec k' k) as [->|]; auto. destruct (Nat.eqb_spec k k0); [lia|].
        assert (lookup k m = None) as ->; auto. clear - Hf Hlt. induction m as [|[k1 v1] m IH]; simpl; auto.
        simpl in Hf. inversion Hf; subst. destruct (Nat.eqb_spec k k1); [lia|]. auto.
      + destruct (Nat.eqb_spec k k0) as [->|Hne]; simpl.
        * destruct (Nat.eqb_spec k' k0); auto.
        * rewrite IH by auto. destruct (Nat.eqb_spec k' k0) as [->|]; auto. destruct (Nat.eqb_spec k0 k); [lia|auto].
  Qed.
  Lemma insert_keys k v x : forall m, In x (map fst (map_insert T k v m)) -> x = k \/ In x (map fst m).
  Proof.
    induction m as [|[k0 v0] m IH]; simpl; [intuition|]. destruct (k <? k0); simpl; [intuition|].
    destruct (k =? k0); simpl; [intuition|]. intros [H|H]; auto. apply IH in H. intuition.
  Qed.
  Lemma insert_is_map k v : forall m, is_map m -> is_map (map_insert T k v m).
  Proof.
    unfold is_map. induction m as [|[k0 v0] m IH]; intros Hs; simpl in *; [repeat constructor|].
    inversion Hs as [|? ? Hs' Hf]; subst. destruct (Nat.ltb_spec k k0) as [Hlt|Hge].
    - simpl. constructor; auto. constructor; auto. eapply Forall_impl; [|exact Hf]. intros; lia.
    - destruct (Nat.eqb_spec k k0) as [->|Hne]; simpl; auto. constructor; auto.
      rewrite Forall_forall in *. intros x Hx. apply insert_keys in Hx. destruct Hx as [->|Hx]; [lia|auto].
  Qed.
  Lemma lookup_in k v : forall m, is_map m -> lookup k m = Some v <-> In (k, v) m.
  Proof.
    unfold is_map. induction m as [|[k0 v0] m IH]; intros Hs; simpl in *; [split; [discriminate|intros []]|].
    inversion Hs as [|? ? Hs' Hf]; subst. destruct (Nat.eqb_spec k k0) as [->|Hne].
    - split; [intros E; injection E as ->; auto|]. intros [E|Hin]; [injection E as ->; auto|].
      rewrite Forall_forall in Hf. apply (in_map fst) in Hin. apply Hf in Hin. simpl in Hin. lia.
    - rewrite IH by auto. split; auto. intros [E|]; auto. congruence.
  Qed.
  Lemma is_map_ext : forall m1 m2, is_map m1 -> is_map m2 -> (forall k, lookup k m1 = lookup k m2) -> m1 = m2.
  Proof.
    unfold is_map. intros m1. induction m1 as [|[k v] m1 IH]; intros [|[k' v'] m2] H1 H2 H; auto.
    - specialize (H k'). simpl in H. rewrite Nat.eqb_refl in H. discriminate.
    - specialize (H k). simpl in H. rewrite Nat.eqb_refl in H. discriminate.
    - simpl in H1, H2. pose proof H1 as H1'. pose proof H2 as H2'.
      inversion H1 as [|? ? Hs1 Hf1]; inversion H2 as [|? ? Hs2 Hf2]; subst.
      rewrite Forall_forall in Hf1, Hf2.
      assert (Hk : In (k, v) ((k', v') :: m2)).
      { apply (lookup_in k v ((k', v') :: m2) H2'). rewrite <- H. simpl. rewrite Nat.eqb_refl. auto. }
      assert (Hk' : In (k', v') ((k, v) :: m1)).
      { apply (lookup_in k' v' ((k, v) :: m1) H1'). rewrite H. simpl. rewrite Nat.eqb_refl. auto. }
      assert ((k, v) = (k', v')) as E.
      { destruct Hk as [E|Hk]; auto. destruct Hk' as [E|Hk']; auto.
        apply (in_map fst) in Hk. apply (in_map fst) in Hk'. apply Hf2 in Hk. apply Hf1 in Hk'. simpl in *. lia. }
      injection E as -> ->. f_equal.
      assert (Hnone : forall m, (forall y, In y (map fst m) -> k' < y) -> lookup k' m = None).
      { clear. induction m as [|[k v] m IH]; intros H; simpl; auto. destruct (Nat.eqb_spec k' k) as [->|].
        - specialize (H k (or_introl eq_refl)). lia.
        - apply IH. intros y Hy. apply H. right; auto. }
      apply IH; auto. intros x. specialize (H x). simpl in H.
      destruct (Nat.eqb_spec x k') as [E|]; auto. rewrite E, !Hnone; auto.
  Qed.

  (** Renaming the keys of a map. *)
  Definition rename (phi : nat -> option nat) m acc : list (nat * T) :=
    fold_left (fun a kv => match phi (fst kv) with Some k => map_insert T k (snd kv) a | None => a end) m acc.

  Lemma rename_is_map phi : forall m acc, is_map acc -> is_map (rename phi m acc).
  Proof.
    induction m as [|[k v] m IH]; intros acc H; simpl; auto. apply IH. destruct (phi k); auto. apply insert_is_map, H.
  Qed.
  Lemma rename_lookup phi : (forall k1 k2 k', phi k1 = Some k' -> phi k2 = Some k' -> k1 = k2) ->
    forall m acc, is_map m -> is_map acc -> (forall k k' v, In (k, v) m -> phi k = Some k' -> lookup k' acc = None) ->
    forall k' v, lookup k' (rename phi m acc) = Some v <-> (lookup k' acc = Some v \/ exists k, In (k, v) m /\ phi k = Some k').
  Proof.
    intros Hinj. induction m as [|[k v] m IH]; intros acc Hm Ha Hd k' v'; simpl.
    - split; auto. intros [H|[k [[] _]]]; auto.
    - unfold is_map in Hm. simpl in Hm. inversion Hm as [|? ? Hm' Hf]; subst. rewrite Forall_forall in Hf.
      destruct (phi k) as [k1|] eqn:E.
      + rewrite IH; auto; [|apply insert_is_map, Ha|].
        * rewrite lookup_insert by auto. rewrite (Hd k k1 v (or_introl eq_refl) E).
          destruct (Nat.eqb_spec k' k1) as [->|Hne].
          -- rewrite (Hd k k1 v (or_introl eq_refl) E). split.
             ++ intros [E'|[k2 [H1 H2]]]; [injection E' as ->; right; exists k; auto|right; exists k2; auto].
             ++ intros [E'|[k2 [[E'|H1] H2]]]; [discriminate|injection E' as -> ->; auto|right; eauto].
          -- split; intros [H|[k2 [H1 H2]]]; auto; [right; eauto|]. destruct H1 as [E'|H1]; [|right; eauto].
             injection E' as -> ->. congruence.
        * intros k2 k3 v2 H2 E2. rewrite lookup_insert by auto. destruct (Nat.eqb_spec k3 k1) as [->|Hne]; [|eapply Hd; eauto; right; eauto].
          assert (k2 = k) by (eapply Hinj; eauto). subst. apply (in_map fst) in H2. apply Hf in H2. simpl in H2. lia.
      + rewrite IH; auto; [|intros; eapply Hd; eauto; right; eauto]. split; intros [H|[k2 [H1 H2]]]; auto; [right; eauto|].
        destruct H1 as [E'|H1]; [injection E' as -> ->; congruence|right; eauto].
  Qed.
  Lemma rename_back phi psi : (forall k k', phi k = Some k' <-> psi k' = Some k) ->
    forall m, is_map m -> (forall k v, In (k, v) m -> exists k', phi k = Some k') -> rename psi (rename phi m []) [] = m.
  Proof.
    intros Hpp m Hm Hdom. assert (Hi1 : forall k1 k2 k', phi k1 = Some k' -> phi k2 = Some k' -> k1 = k2).
    { intros k1 k2 k' H1 H2. apply Hpp in H1. apply Hpp in H2. congruence. }
    assert (Hi2 : forall k1 k2 k', psi k1 = Some k' -> psi k2 = Some k' -> k1 = k2).
    { intros k1 k2 k' H1 H2. apply Hpp in H1. apply Hpp in H2. congruence. }
    assert (Hnil : is_map (@nil (nat * T))) by constructor. assert (Hr : is_map (rename phi m [])) by (apply rename_is_map, Hnil).
    apply is_map_ext; auto; [apply rename_is_map, Hnil|]. intros k.
    assert (Hiff : forall v, lookup k (rename psi (rename phi m []) []) = Some v <-> lookup k m = Some v).
    { intros v. rewrite rename_lookup; auto. simpl. split.
      - intros [H|[k' [H1 H2]]]; [discriminate|]. apply lookup_in in H1; auto. rewrite rename_lookup in H1; auto. simpl in H1.
        destruct H1 as [H1|[k2 [H1 H3]]]; [discriminate|]. apply Hpp in H2. rewrite lookup_in by auto.
        assert (k2 = k) by eauto. subst. auto.
      - intros H. right. rewrite lookup_in in H by auto. destruct (Hdom _ _ H) as [k' E]. exists k'. split; [|apply Hpp, E].
        apply lookup_in; auto. rewrite rename_lookup; auto. right. eauto. }
    destruct (lookup k m) as [v|]; [apply Hiff; auto|]. destruct (lookup k (rename psi (rename phi m []) [])) as [v|]; auto.
    symmetry. apply Hiff. auto.
  Qed.

  Lemma pos_to_traj_rename ti t : forall m acc, (forall p v, In (p, v) m -> exists tr, invert ti t p = Some tr) ->
    pos_to_traj T ti t m acc = Some (rename (invert ti t) m acc).
  Proof.
    induction m as [|[p v] m IH]; intros acc H; simpl; auto.
    destruct (H p v (or_introl eq_refl)) as [tr E]. rewrite E. apply IH. intros q w Hq. eapply H. right; eauto.
  Qed.
  Definition traj_pos (ti : trajindex) (t tr : nat) : option nat :=
    match nth_error (trajs ti) tr with
    | None => None
    | Some U => if exist_at U t then match access U t with Val p => Some p | _ => None end else None
    end.
  Lemma traj_to_pos_rename ti t : forall m acc, (forall tr v, In (tr, v) m -> tr < length (trajs ti)) ->
    (forall tr U, nth_error (trajs ti) tr = Some U -> small U) ->
    traj_to_pos T ti t m acc = Val (rename (traj_pos ti t) m acc).
  Proof.
    intros m acc H Hsm. revert acc. induction m as [|[tr v] m IH]; intros acc; simpl; auto. unfold traj_pos at 2.
    destruct (nth_error_ex (trajs ti) tr) as [U HU]; [eapply H; left; eauto|]. rewrite HU.
    assert (IH' : forall acc, traj_to_pos T ti t m acc = Val (rename (traj_pos ti t) m acc)).
    { apply IH. intros q w Hq. eapply H. right; eauto. }
    destruct (exist_at U t) eqn:E; auto. pose proof (access_not_UB U t (Hsm _ _ HU)) as Hnu.
    destruct (access U t) as [p| |] eqn:Ea; auto; [|congruence]. unfold access in Ea. rewrite E in Ea.
    destruct (nth_error (steps U) (t - start U)); discriminate.
  Qed.
End Maps.

Lemma traj_pos_at ti t tr p : (forall U, nth_error (trajs ti) tr = Some U -> small U) ->
  traj_pos ti t tr = Some p <-> exists U, nth_error (trajs ti) tr = Some U /\ at_time U t p.
Proof.
  intros Hs. unfold traj_pos. destruct (nth_error (trajs ti) tr) as [U|]; [|split; [discriminate|intros [U [E _]]; discriminate]].
  specialize (Hs U eq_refl). split.
  - destruct (exist_at U t); [|discriminate]. destruct (access U t) as [q| |] eqn:Ea; try discriminate.
    intros E. injection E as <-. exists U. split; auto. apply access_val; auto.
  - intros [U' [E Ha]]. injection E as <-. pose proof (at_time_range _ _ _ Ha) as Hr. apply (exist_at_iff U t Hs) in Hr.
    rewrite Hr. apply access_val in Ha; auto. rewrite Ha. auto.
Qed.

(** * Frame sizes *)
Definition covers (t : nat) (U : traj) : bool := (start U <=? t) && (t <? start U + length (steps U)).

Lemma count_times_ok : forall n s sizes, s + n <= length sizes -> exists r, count_times sizes (seq s n) = Some r /\
  length r = length sizes /\ forall t x, nth_error sizes t = Some x -> nth_error r t = Some (if (s <=? t) && (t <? s + n) then S x else x).
Proof.
  induction n as [|n IH]; intros s sizes H; simpl seq; cbn [count_times].
  - exists sizes. split; auto. split; auto. intros t x Hx. destruct (Nat.leb_spec s t), (Nat.ltb_spec t (s + 0)); simpl; auto; lia.
  - unfold upd. destruct (nth_error_ex sizes s) as [x Hx]; [lia|]. rewrite Hx.
    destruct (IH (S s) (set_nth s (S x) sizes)) as [r [E [L Hr]]]; [rewrite set_nth_len; lia|].
    exists r. split; auto. rewrite set_nth_len in L. split; auto. intros t y Hy.
    rewrite (Hr t (if t =? s then S x else y)); [|rewrite set_nth_get by lia; destruct (t =? s); auto].
    destruct (Nat.eqb_spec t s) as [->|].
    + rewrite Hx in Hy. injection Hy as <-. destruct (Nat.leb_spec (S s) s), (Nat.leb_spec s s), (Nat.ltb_spec s (s + S n)); simpl; auto; lia.
    + destruct (Nat.leb_spec (S s) t), (Nat.leb_spec s t), (Nat.ltb_spec t (S s + n)), (Nat.ltb_spec t (s + S n)); simpl; auto; lia.
Qed.

Lemma count_trajs_ok : forall tri sizes, (forall i U, nth_error tri i = Some U -> start U + length (steps U) <= length sizes) ->
  exists r, count_trajs sizes tri = Some r /\ length r = length sizes /\
    forall t x, nth_error sizes t = Some x -> nth_error r t = Some (x + length (filter (covers t) tri)).
Proof.
  induction tri as [|U tri IH]; intros sizes H.
  - exists sizes. split; auto. split; auto. intros t x Hx. simpl. rewrite Nat.add_0_r. auto.
  - destruct (count_times_ok (length (steps U)) (start U) sizes) as [r [E [L Hr]]]; [apply (H 0); auto|].
    cbn [count_trajs]. rewrite E. destruct (IH r) as [r2 [E2 [L2 Hr2]]].
    { intros i V HV. rewrite L. apply (H (S i)); auto. }
    exists r2. split; auto. split; [lia|]. intros t x Hx. specialize (Hr t x Hx). specialize (Hr2 t _ Hr).
    rewrite Hr2. cbn [filter]. change ((start U <=? t) && (t <? start U + length (steps U))) with (covers t U).
    destruct (covers t U); cbn [length]; f_equal; lia.
Qed.

(** Number of elements satisfying a test = number of their indices. *)
Lemma filter_index_length {A} (f : A -> bool) (l : list A) :
  length (filter f l) = length (filter (fun i => match nth_error l i with Some x => f x | None => false end) (seq 0 (length l))).
Proof.
  induction l as [|x l IH] using rev_ind; auto. rewrite filter_app, app_length, app_length. simpl.
  rewrite Nat.add_1_r, seq_S, filter_app, app_length. simpl. rewrite nth_error_snoc, Nat.eqb_refl.
  rewrite IH. f_equal; [|destruct (f x); auto]. f_equal. apply filter_ext_in. intros i Hi. apply in_seq in Hi.
  rewrite nth_error_app1 by lia. auto.
Qed.

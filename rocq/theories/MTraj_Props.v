(** C22-C24: the trajectory index of multiscale/src. *)
Require Import ZArith List Bool Arith Lia Sorted.
Require Import Verif.Base Verif.SortU Verif.ListX Verif.RTree_Model Verif.Traj_Model Verif.Traj_Spec Verif.Traj_Proofs
  Verif.MTraj_Model Verif.MTraj_Spec Verif.MTraj_Proofs.
Import ListNotations.

(** An index reached from the constructor by in-range calls of add_Frame (throwing calls included). *)
Definition reachable2 (x : tindex2) : Prop := exists n ops, history2_ok (t2_new n) ops /\ t2_run (t2_new n) ops = Some x.
Lemma reachable2_ok x : reachable2 x -> t2_ok x.
Proof. intros [n [ops [H E]]]. destruct (run_ok ops (t2_new n) (t2_new_ok n) H) as [x' [E' Hok]]. congruence. Qed.

(** C22. *)
Theorem C22_bijective n ops : history2_ok (t2_new n) ops ->
  exists x, t2_run (t2_new n) ops = Some x /\
    (forall t p tr, table x t p tr <-> follows x t p tr) /\
    (forall t row p, nth_error (pos2tr x) t = Some row -> p < length row -> exists! tr, follows x t p tr) /\
    (forall t p tr, follows x t p tr -> exists row, nth_error (pos2tr x) t = Some row /\ p < length row) /\
    (forall t p p' tr, table x t p tr -> table x t p' tr -> p = p') /\
    (forall tr, tr < length (tr2pos x) -> exists t p, follows x t p tr).
Proof.
  intros H. destruct (run_ok ops (t2_new n) (t2_new_ok n) H) as [x [E Hok]]. exists x. split; auto. split; [apply Hok|]. split; [|split; [|split]].
  - intros t row p Hr Hp. destruct (nth_error_ex row p Hp) as [tr Htr]. assert (Ht : table x t p tr) by (exists row; auto).
    exists tr. split; [apply (ok_agree _ Hok), Ht|]. intros tr' Hf. apply (ok_agree _ Hok) in Hf. eapply table_fun; eauto.
  - intros t p tr Hf. apply (ok_agree _ Hok) in Hf. destruct Hf as [row [Hr Hp]]. exists row. split; auto. eapply nth_error_lt; eauto.
  - intros t p p' tr H1 H2. apply (ok_agree _ Hok) in H1. apply (ok_agree _ Hok) in H2. eapply follows_fun; eauto.
  - intros tr Hl. destruct (nth_error_ex _ _ Hl) as [T HT]. pose proof (ok_steps _ Hok _ _ HT) as Hne.
    destruct (at_time_ex T (start T)) as [p Hp]; [destruct (steps T); [congruence|simpl; lia]|]. exists (start T), p, T. auto.
Qed.
(** Frame sizes: the first form makes a frame of the given size, the second the given list. *)
Theorem C22_new_frame x o x' : reachable2 x -> links_in_range x o -> t2_step x o = Val x' ->
  exists row, pos2tr x' = pos2tr x ++ [row] /\
    match o with AddLinks n _ _ _ => length row = n | AddIds l => row = l end.
Proof. intros Hr Hi E. pose proof (step_ok x o (reachable2_ok _ Hr) Hi) as H. rewrite E in H. apply H. Qed.
(** The first form links shortest first. *)
Theorem C22_shortest_first x n d from to x' : reachable2 x -> links_in_range x (AddLinks n d from to) ->
  add_frame_links x n d from to = Val x' ->
  let t := length (pos2tr x) in
  let candidate := fun dd p q => exists i, nth_error d i = Some dd /\ nth_error from i = Some p /\ nth_error to i = Some q in
  let linked := fun p q => exists tr, table x (t - 1) p tr /\ table x' t q tr in
  (forall p q, linked p q -> exists dd, candidate dd p q) /\
  (forall dd p q, candidate dd p q -> exists dd' p' q', candidate dd' p' q' /\ linked p' q' /\ (dd' <= dd)%Z /\ (p' = p \/ q' = q)) /\
  (forall q tr, table x' t q tr -> (exists p, linked p q) \/ length (tr2pos x) <= tr) /\
  (forall q q' tr tr', table x' t q tr -> table x' t q' tr' -> length (tr2pos x) <= tr -> tr < tr' -> q < q').
Proof.
  intros Hreach Hr E t candidate linked. pose proof (reachable2_ok _ Hreach) as Hok.
  destruct (Nat.eq_dec (length d) (length from)) as [H1|H1]; [|rewrite add_links_throw in E; auto; discriminate].
  destruct (Nat.eq_dec (length from) (length to)) as [H2|H2]; [|rewrite add_links_throw in E; auto; discriminate].
  assert (Hto : forall q, In q to -> q < n).
  { intros q Hq. apply Nat.nle_gt. intros Hle. rewrite add_links_throw in E; eauto. discriminate. }
  destruct (add_links_spec x n d from to) as [row [tri [E' [Hl [Hold [Hnew [Hord Hok']]]]]]]; auto. rewrite E in E'. injection E' as ->.
  assert (Ht' : forall q tr, table (mkT2 tri (pos2tr x ++ [row])) t q tr <-> nth_error row q = Some tr).
  { intros q tr. unfold table. cbn [pos2tr]. unfold t. rewrite nth_error_snoc, Nat.eqb_refl. split; [intros [r [Er H]]; congruence|intros H; exists row; auto]. }
  assert (Ht : forall p tr, table x (t - 1) p tr <-> nth_error (last (pos2tr x) []) p = Some tr).
  { intros p tr. unfold table, t. rewrite last_row by auto. split; [intros [r [Er H]]; congruence|intros H; eexists; eauto]. }
  assert (Hc : forall dd p q, candidate dd p q <-> In (dd, (p, q)) (make_bonds d from to)) by (intros; symmetry; apply make_bonds_in; auto).
  assert (Hlk : forall p q, linked p q <-> In (p, q) (insert_links (make_bonds d from to))).
  { intros p q. split.
    - intros [tr [Hp Hq]]. apply Ht in Hp. apply Ht' in Hq. assert (Hqn : q < n) by (rewrite <- Hl; eapply nth_error_lt; eauto).
      destruct (prev_traj x p tr Hok Hp) as [T [HT _]]. apply nth_error_lt in HT.
      destruct (in_dec Nat.eq_dec q (map snd (insert_links (make_bonds d from to)))) as [Hin|Hno].
      + apply in_map_snd in Hin. destruct Hin as [p0 Hin]. destruct (Hold p0 q Hin) as [tr0 [Hp0 Hq0]].
        assert (tr0 = tr) by congruence. subst. assert (p0 = p) by (apply (prev_inj x p0 p tr); auto). subst. auto.
      + destruct (Hnew q Hqn Hno) as [tr' [Hq' Hge]]. assert (tr' = tr) by congruence. lia.
    - intros Hin. destruct (Hold p q Hin) as [tr [H3 H4]]. exists tr. rewrite Ht, Ht'. auto. }
  split; [|split; [|split]].
  - intros p q H. apply Hlk in H. apply insert_links_in in H. destruct H as [dd H]. exists dd. apply Hc, H.
  - intros dd p q H. apply make_bonds_in in H; auto. unfold make_bonds in H. rewrite sort_by_in in H.
    destruct (insert_links_greedy _ _ _ H) as [dd' [[p' q'] [H3 [H4 [H5 H6]]]]]. exists dd', p', q'. split.
    + apply make_bonds_in; auto. unfold make_bonds. rewrite sort_by_in. exact H6.
    + split; [apply Hlk; exact H3|]. split; auto.
  - intros q tr Hq. apply Ht' in Hq. assert (Hqn : q < n) by (rewrite <- Hl; eapply nth_error_lt; eauto).
    destruct (in_dec Nat.eq_dec q (map snd (insert_links (make_bonds d from to)))) as [Hin|Hno].
    + apply in_map_snd in Hin. destruct Hin as [p Hin]. left. exists p. apply Hlk, Hin.
    + right. destruct (Hnew q Hqn Hno) as [tr' [Hq' Hge]]. assert (tr' = tr) by congruence. subst. auto.
  - intros q q' tr tr' Hq Hq'. apply Ht' in Hq. apply Ht' in Hq'. eapply Hord; eauto.
Qed.
Example C22_case :
  let ops := [AddLinks 3 [5; 1; 2]%Z [0; 1; 0] [0; 0; 2]; AddIds [4; 0; 1]; AddIds [2; 0]] in
  history2_ok (t2_new 3) ops /\
  t2_run (t2_new 3) ops
  = Some (mkT2 [mkTraj 0 [0; 2; 1]; mkTraj 0 [1; 0; 2]; mkTraj 0 [2]; mkTraj 1 [1]; mkTraj 2 [0]] [[0; 1; 2]; [1; 3; 0]; [4; 0; 1]]).
Proof.
  split; [|reflexivity]. cbn -[Nat.lt]. split; [intros p Hp; intuition (subst; lia)|]. split; [intros _; split; auto; lia|].
  split; [intros [tr [Hin Hle]]; intuition (subst; lia)|exact I].
Qed.

(** C23.  First form: the three outcomes. *)
Theorem C23_links_outcome x n d from to : reachable2 x ->
  let bad := length d <> length from \/ length from <> length to \/ (exists q, In q to /\ n <= q) in
  let outside := exists p, In p from /\ length (last (pos2tr x) []) <= p in
  (bad -> add_frame_links x n d from to = Throw) /\
  (~ bad -> outside -> add_frame_links x n d from to = UB) /\
  (~ bad -> ~ outside -> exists x', add_frame_links x n d from to = Val x').
Proof.
  intros Hr bad outside. pose proof (reachable2_ok _ Hr) as Hok. split; [apply add_links_throw|].
  assert (Hb : ~ bad -> length d = length from /\ length from = length to /\ forall q, In q to -> q < n).
  { intros H. unfold bad in H. split; [|split].
    - destruct (Nat.eq_dec (length d) (length from)); tauto.
    - destruct (Nat.eq_dec (length from) (length to)); tauto.
    - intros q Hq. apply Nat.nle_gt. intros Hle. apply H. right. right. eauto. }
  split.
  - intros H Ho. destruct (Hb H) as [H1 [H2 H3]]. apply add_links_undefined; auto.
  - intros H Ho. destruct (Hb H) as [H1 [H2 H3]]. destruct (add_links_spec x n d from to) as [row [tri [E _]]]; auto.
    + intros p Hp. apply Nat.nle_gt. intros Hle. apply Ho. exists p. auto.
    + eauto.
Qed.
(** Second form, on an index with at least one trajectory: what is rejected, what is accepted, what is undefined. *)
Theorem C23_ids_outcome x l : reachable2 x -> 0 < length (tr2pos x) ->
  let nb := length (tr2pos x) in
  let duplicate := ~ NoDup l in
  let vanished := exists tr, In tr l /\ tr < nb /\ forall p, ~ table x (length (pos2tr x) - 1) p tr in
  let hole := exists a c b, In a l /\ In b l /\ nb <= a /\ a < c < b /\ ~ In c l in
  let shifted := (exists tr, In tr l /\ nb <= tr) /\ ~ In nb l in
  (duplicate \/ vanished \/ hole -> add_frame_ids x l = Throw) /\
  (~ (duplicate \/ vanished \/ hole) -> shifted -> add_frame_ids x l = UB) /\
  (~ (duplicate \/ vanished \/ hole) -> ~ shifted -> exists x', add_frame_ids x l = Val x' /\ pos2tr x' = pos2tr x ++ [l]).
Proof.
  intros Hr Hnb nb duplicate vanished hole shifted. pose proof (reachable2_ok _ Hr) as Hok. pose proof (add_ids_spec x l Hok Hnb) as H.
  assert (Ht : forall p tr, table x (length (pos2tr x) - 1) p tr <-> nth_error (last (pos2tr x) []) p = Some tr).
  { intros p tr. unfold table. rewrite last_row by auto. split; [intros [r [Er H']]; congruence|intros H'; eexists; eauto]. }
  assert (Hcont : ~ vanished -> forall tr, In tr l -> tr < length (tr2pos x) -> exists p, nth_error (last (pos2tr x) []) p = Some tr).
  { intros Hv tr Htr Hlt. destruct (in_dec Nat.eq_dec tr (last (pos2tr x) [])) as [Hin|Hno]; [apply In_nth_error; auto|].
    exfalso. apply Hv. exists tr. split; auto. split; auto. intros p Hp. apply Ht in Hp. apply Hno. eapply nth_error_In; eauto. }
  assert (Hnd : ~ duplicate -> NoDup l) by (intros Hd; destruct (ListDec.NoDup_dec Nat.eq_dec l); auto; contradiction).
  assert (Hh : ~ hole -> forall a b tr, In a l -> In b l -> nb <= a -> a < tr < b -> In tr l).
  { intros Hh a b tr Ha Hb Hle Hlt. destruct (in_dec Nat.eq_dec tr l); auto. exfalso. apply Hh. exists a, tr, b. auto. }
  split; [|split].
  - intros Hbad. destruct (add_frame_ids x l) as [x'| |]; auto; exfalso.
    + destruct H as [[H1 [H2 H3]] _]. destruct Hbad as [Hd|[[tr [Hin [Hlt Hv]]]|[a [c [b [Ha [Hb [Hle [Hlt Hno]]]]]]]]].
      * contradiction.
      * destruct (H2 tr Hin Hlt) as [p Hp]. apply (Hv p). apply Ht, Hp.
      * apply Hno. apply (H3 b); auto. unfold nb in *. lia.
    + destruct H as [H1 [H2 [H3 _]]]. destruct Hbad as [Hd|[[tr [Hin [Hlt Hv]]]|[a [c [b [Ha [Hb [Hle [Hlt Hno]]]]]]]]].
      * contradiction.
      * destruct (H2 tr Hin Hlt) as [p Hp]. apply (Hv p). apply Ht, Hp.
      * apply Hno. apply (H3 a b); auto.
  - intros Hok' [[tr [Htr Hge]] Hno]. destruct (add_frame_ids x l) as [x'| |]; auto; exfalso.
    + destruct H as [[_ [_ H3]] _]. apply Hno. destruct (Nat.eq_dec tr nb) as [->|Hne]; auto. apply (H3 tr); auto. unfold nb in *. lia.
    + destruct H as [_ H]. apply H. split; [tauto|]. split; [tauto|]. split; [apply Hh; tauto|]. split; auto. exists tr. auto.
  - intros Hok' Hns. destruct (add_frame_ids x l) as [x'| |]; [exists x'; tauto| |]; exfalso.
    + destruct H as [H _]. apply H. split; [tauto|]. split; [tauto|]. intros tr tr' Htr Hlt.
      assert (Hnb' : In nb l) by (destruct (in_dec Nat.eq_dec nb l); auto; exfalso; apply Hns; split; auto; exists tr; split; auto; unfold nb in *; lia).
      destruct (Nat.eq_dec tr' nb) as [->|Hne]; auto. apply (Hh ltac:(tauto) nb tr); auto. unfold nb in *. lia.
    + destruct H as [_ [_ [_ [H1 H2]]]]. apply Hns. split; auto.
Qed.
(** On an index without trajectories any trajectory number is read out of range. *)
Theorem C23_ids_outcome_empty x l : reachable2 x -> length (tr2pos x) = 0 -> NoDup l -> l <> [] -> add_frame_ids x l = UB.
Proof.
  intros _ H0 Hn Hl. unfold add_frame_ids. rewrite H0. simpl (0 =? 0). cbv iota. apply sort_unique_NoDup in Hn.
  assert (length (sort_unique l) <? length l = false) as -> by (apply Nat.ltb_ge; lia).
  destruct (sort_unique l) as [|a s] eqn:E; [destruct l; simpl in Hn; [congruence|lia]|]. cbn [check_old].
  destruct (tr2pos x) as [|T tri]; [|discriminate]. destruct a; auto.
Qed.
(** The undefined case is reachable: two consecutive new numbers that leave a gap after the known ones. *)
Theorem C23_shifted_ids_undefined : exists x l, reachable2 x /\ NoDup l /\ add_frame_ids x l = UB.
Proof.
  exists (t2_new 2), [0; 3; 4]. split; [exists 2, []; split; [exact I|reflexivity]|]. split; [|reflexivity].
  repeat constructor; simpl; intuition discriminate.
Qed.
Example C23_case : let x := t2_new 2 in
  reachable2 x /\ add_frame_ids x [0; 0] = Throw /\ add_frame_ids x [2; 4] = Throw /\
  (exists x', add_frame_ids x [3; 0; 2] = Val x') /\ add_frame_links x 2 [1%Z] [0] [2] = Throw.
Proof. split; [exists 2, []; split; [exact I|reflexivity]|]. repeat split; try reflexivity. eexists. reflexivity. Qed.

(** C24. *)
Theorem C24_span T a b : a < b -> (mspan T a b = true <-> forall t, a <= t < b -> mexist T t = true).
Proof.
  intros Hab. unfold mspan, mexist. rewrite andb_true_iff, !Nat.leb_le. split.
  - intros [H1 H2] t Ht. rewrite andb_true_iff, Nat.leb_le, Nat.ltb_lt. lia.
  - intros H. pose proof (H a ltac:(lia)) as H1. pose proof (H (b - 1) ltac:(lia)) as H2.
    rewrite andb_true_iff, Nat.leb_le, Nat.ltb_lt in H1, H2. lia.
Qed.
Theorem C24_exist T t : (mexist T t = true <-> exists p, at_time T t p) /\ (forall p, maccess T t = Some p <-> at_time T t p).
Proof.
  assert (H : mexist T t = true <-> start T <= t < start T + length (steps T)).
  { unfold mexist, get_finish. rewrite andb_true_iff, Nat.leb_le, Nat.ltb_lt. tauto. }
  split.
  - rewrite H. split; [apply at_time_ex|]. intros [p Hp]. apply at_time_range in Hp. lia.
  - intros p. unfold maccess. destruct (mexist T t) eqn:E.
    + pose proof (proj1 H eq_refl) as Hr. split.
      * intros Hn. exists (t - start T). split; [lia|auto].
      * intros [i [Ei Hn]]. subst t. replace (start T + i - start T) with i by lia. auto.
    + split; [discriminate|]. intros Ha. apply at_time_range in Ha. assert (Ht : false = true) by (apply H; lia). discriminate.
Qed.
(** With b included the equivalence fails: span(0,1) holds of a trajectory that only exists at time 0. *)
Theorem C24_inclusive_span_refuted : exists T, steps T <> [] /\ mspan T 0 1 = true /\ mexist T 1 = false.
Proof. exists (mkTraj 0 [5]). repeat split; discriminate. Qed.
Example C24_case : mspan (mkTraj 2 [4; 5; 6]) 2 5 = true /\ mspan (mkTraj 2 [4; 5; 6]) 3 6 = false /\ maccess (mkTraj 2 [4; 5; 6]) 4 = Some 6.
Proof. repeat split. Qed.

Print Assumptions C22_bijective. Print Assumptions C22_shortest_first. Print Assumptions C23_links_outcome. Print Assumptions C23_ids_outcome.
Print Assumptions C24_span.

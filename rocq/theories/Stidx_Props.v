(** C145: trajectories selected in space and time. *)
Require Import ZArith List Bool Arith Lia Sorted.
Require Import Verif.Base Verif.SortU Verif.ListX Verif.Box_Model Verif.Index_Model Verif.RTree_Model Verif.Traj_Model Verif.Traj_Spec Verif.Traj_Proofs Verif.TrajMap_Proofs Verif.Cluster_Spec Verif.Particles_Model Verif.Particles_Props Verif.Dyn_Model Verif.Dyn_Spec Verif.Dyn_Proofs Verif.Dyn_Props
  Verif.Corr_Proofs Verif.Rerun_Props Verif.Stidx_Spec Verif.Stidx_Model.
Import ListNotations.
Local Open Scope nat_scope.

Definition good_index (ti : trajindex) (frames : list (list (list Z))) (x : stindex) : Prop := answers ti frames (st_query x) (st_box x) (st_iv x).

Lemma value_in (frames : list (list (list Z))) T t (p : list Z) : value_at frames T t p -> In p (concat frames).
Proof. intros [q [f [_ [Ef Ep]]]]. apply in_concat. exists f. split; eapply nth_error_In; eauto. Qed.
Lemma traj_small ti tr T : consistent ti -> nth_error (trajs ti) tr = Some T -> small T.
Proof. intros [_ H] E. apply H in E. exact E. Qed.

Section C145.
  Variables (ti : trajindex) (frames : list (list (list Z))) (x : stindex) (radius : Z) (old : option stindex).
  Hypotheses (Hc : consistent ti) (Hx : good_index ti frames x).
  Local Notation with_index := (set_index (mkDyn ti frames radius old) x).
  Local Notation without := (mkDyn ti frames radius None).

  Lemma box_holds T : stays frames T (st_box x).
  Proof. intros t p H k e Hk E. destruct Hx as [_ [[_ Hb] _]]. destruct (Hb k e E) as [_ [_ H1]]. apply H1. eapply value_in; eauto. Qed.
  (** C145.  The same trajectories with and without index. *)
  Theorem C145_spanning a b : a <= b < length (inverse ti) -> dp_spanning with_index (a, b) = dp_spanning without (a, b) /\
    exists l, dp_spanning with_index (a, b) = Val l /\ StronglySorted lt l /\ forall tr, In tr l <-> exists T, nth_error (trajs ti) tr = Some T /\ spans T a b.
  Proof.
    intros Hab. destruct (C48_select_spanning ti a b Hc Hab) as [l [E [So Hl]]]. unfold dp_spanning. cbn [set_index dp_st dp_index fst snd]. rewrite E.
    destruct Hx as [Q _]. destruct (Q a b (st_box x) (proj1 Hab)) as [So' Hl']. assert (El : st_spanning x (a, b) = l).
    { apply ssorted_ext; auto. intros tr. unfold st_spanning. rewrite Hl', Hl. split; intros [T [ET H]]; exists T; (split; [exact ET|]); [apply (proj1 H)|split; [exact H|apply box_holds]]. }
    rewrite El. split; [reflexivity|]. exists l. split; [reflexivity|]. split; [exact So|exact Hl].
  Qed.
  (** After the last frame there is nothing with an index; without one the program reads out of its data. *)
  Theorem C145_beyond a b : a <= b -> length (inverse ti) <= b -> dp_spanning with_index (a, b) = Val [] /\ dp_spanning without (a, b) = UB.
  Proof.
    intros Hab Hb. split; [|apply C48_out_of_range_refuted; exact Hb]. unfold dp_spanning. cbn [set_index dp_st]. f_equal. destruct Hx as [Q _]. destruct (Q a b (st_box x) Hab) as [_ H]. unfold st_spanning. destruct (st_query x (a, b, st_box x)) as [|tr l]; [reflexivity|]. exfalso.
    destruct (proj1 (H tr) (or_introl eq_refl)) as [T [ET [Sp _]]]. destruct (Sp b ltac:(lia)) as [p Hp]. assert (I : invert ti b p = Some tr) by (apply (proj1 Hc); exists T; auto).
    unfold invert in I. rewrite (proj2 (nth_error_None _ b)) in I by lia. discriminate.
  Qed.
  (** Those of them that stay in a box. *)
  Theorem C145_spanning_enclosed a b bx : a <= b -> exists l, dp_spanning_enclosed with_index ((a, b), bx) = Val l /\ StronglySorted lt l /\ forall tr, In tr l <-> exists T, nth_error (trajs ti) tr = Some T /\ spans T a b /\ stays frames T bx.
  Proof. intros Hab. destruct Hx as [Q _]. eexists. split; [reflexivity|]. apply Q. exact Hab. Qed.
  (** A box alone selects trajectories that stay in it and exist from the first to the last time of all trajectories. *)
  Theorem C145_enclosed bx : exists l, dp_enclosed with_index bx = Val l /\ StronglySorted lt l /\
    forall tr, In tr l <-> exists T, nth_error (trajs ti) tr = Some T /\ (forall T' t p, In T' (trajs ti) -> at_time T' t p -> exists q, at_time T t q) /\ stays frames T bx.
  Proof.
    destruct Hx as [Q [_ [Hi [Hin [[T0 [p0 [I0 A0]]] [T1 [p1 [I1 A1]]]]]]]]. eexists. split; [reflexivity|]. unfold st_enclosed. destruct (st_iv x) as [a b] eqn:Eiv. cbn [fst snd] in *. destruct (Q a b bx Hi) as [So Hl]. split; [exact So|]. intros tr. rewrite Hl.
    split; intros [T [ET [H1 H2]]]; exists T; (split; [exact ET|]); (split; [|exact H2]).
    - intros T' t p I A. apply H1. eapply Hin; eauto.
    - apply spans_ends; [exact Hi|]. split; [exact (H1 T0 a p0 I0 A0)|exact (H1 T1 b p1 I1 A1)].
  Qed.
  Lemma shrink_nth margin : forall n (b : box) k, nth_error (shrink margin n b) k = match nth_error b k with Some e => Some (if k <? n then if (2 * margin <? snd e - fst e)%Z then ((fst e + margin)%Z, (snd e - margin)%Z) else e else e) | None => None end.
  Proof.
    induction n as [|n IH]; intros b k; [replace (shrink margin 0 b) with b by (destruct b; reflexivity); destruct (nth_error b k); reflexivity|].
    destruct b as [|e b]; [destruct k; reflexivity|]. destruct k as [|k]; [reflexivity|]. cbn [shrink nth_error]. rewrite IH. destruct (nth_error b k) as [e'|]; [|reflexivity]. replace (S k <? S n) with (k <? n) by reflexivity. reflexivity.
  Qed.
  Lemma shrink_deep n T margin : n <= 3 -> (stays frames T (shrink margin n (st_box x)) <-> stays_deep n frames T margin).
  Proof.
    intros Hn. destruct Hx as [_ [[L Hb] _]]. split.
    - intros H t p k lo hi V Hk Ex W. destruct (nth_error_ex (st_box x) k ltac:(lia)) as [e E]. specialize (H t p V k). rewrite shrink_nth, E in H. specialize (H _ ltac:(lia) eq_refl). destruct (extent_fun _ _ _ _ _ _ Ex (Hb k e E)) as [-> ->].
      replace (k <? n) with true in H by (symmetry; apply Nat.ltb_lt; lia). destruct (2 * margin <? snd e - fst e)%Z eqn:X; [exact H|apply Z.ltb_ge in X; lia].
    - intros H t p V k e' Hk E'. rewrite shrink_nth in E'. destruct (nth_error (st_box x) k) as [e|] eqn:E; [|discriminate]. assert (Ex := Hb k e E). assert (I : (fst e <= coord k p <= snd e)%Z) by (destruct Ex as [_ [_ X]]; apply X; eapply value_in; eauto).
      destruct (k <? n) eqn:Kn; [apply Nat.ltb_lt in Kn|injection E' as <-; exact I]. destruct (2 * margin <? snd e - fst e)%Z eqn:X; [|injection E' as <-; exact I].
      apply Z.ltb_lt in X. injection E' as <-. apply (H t p k (fst e) (snd e) V Kn Ex X).
  Qed.
  (** Those that stay inside: the margin counts from the faces of all frames together, and at all times of the trajectory, also out of the interval. *)
  Theorem C145_inside a b margin : a <= b -> exists l, dp_spanning_inside with_index (a, b) margin = Val l /\ StronglySorted lt l /\ forall tr, In tr l <-> exists T, nth_error (trajs ti) tr = Some T /\ spans T a b /\ stays_deep 3 frames T margin.
  Proof.
    intros Hab. destruct Hx as [Q _]. eexists. split; [reflexivity|]. destruct (Q a b (shrink margin 3 (st_box x)) Hab) as [So Hl]. split; [exact So|]. intros tr. unfold st_spanning_inside. rewrite Hl.
    split; intros [T [ET [H1 H2]]]; exists T; (split; [exact ET|]); (split; [exact H1|]); apply (shrink_deep 3 T margin (le_n _)); exact H2.
  Qed.
  (** Those inside that exist from the first to the last time of all trajectories. *)
  Theorem C145_whole margin : StronglySorted lt (st_inside x margin) /\
    forall tr, In tr (st_inside x margin) <-> exists T, nth_error (trajs ti) tr = Some T /\ (forall T' t p, In T' (trajs ti) -> at_time T' t p -> exists q, at_time T t q) /\ stays_deep 3 frames T margin.
  Proof.
    destruct (C145_enclosed (shrink margin 3 (st_box x))) as [l [E [So Hl]]]. assert (El : st_inside x margin = l) by (unfold dp_enclosed in E; cbn [set_index dp_st] in E; injection E as <-; reflexivity). rewrite El. split; [exact So|]. intros tr. rewrite Hl.
    split; intros [T [ET [H1 H2]]]; exists T; (split; [exact ET|]); (split; [exact H1|]); apply (shrink_deep 3 T margin (le_n _)); exact H2.
  Qed.
  (** The drift from t to t+1: with an index on the trajectories that stay a diameter inside, without on all. *)
  Theorem C145_drift t : S t < length (inverse ti) -> exists l l', drift_selection with_index t = Val l /\ drift_selection without t = Val l' /\ StronglySorted lt l /\ StronglySorted lt l' /\
    (forall tr, In tr l' <-> exists T, nth_error (trajs ti) tr = Some T /\ spans T t (t + 1)) /\ (forall tr, In tr l <-> In tr l' /\ exists T, nth_error (trajs ti) tr = Some T /\ stays_deep 3 frames T (2 * radius)).
  Proof.
    intros Ht. destruct (C145_inside t (t + 1) (2 * radius) ltac:(lia)) as [l [E [So Hl]]]. destruct (C48_select_spanning ti t (t + 1) Hc ltac:(lia)) as [l' [E' [So' Hl']]]. exists l, l'.
    split; [exact E|]. split; [exact E'|]. split; [exact So|]. split; [exact So'|]. split; [exact Hl'|]. intros tr. rewrite Hl, Hl'. split.
    - intros [T [ET [H1 H2]]]. split; exists T; auto.
    - intros [[T [ET H1]] [T' [ET' H2]]]. assert (T' = T) by congruence. subst T'. exists T. auto.
  Qed.
  (** Slices: the positions at a time of the trajectories that stay in the box at all times. *)
  Theorem C145_slice t bx : exists l, slice_query ti x t bx = Val l /\ NoDup l /\ (forall p, In p l <-> exists T, In T (trajs ti) /\ at_time T t p /\ stays frames T bx).
  Proof.
    destruct Hx as [Q _]. destruct (Q t t bx (le_n _)) as [So Hl]. set (sel := st_query x (t, t, bx)) in *.
    set (h := fun tr => match nth_error (trajs ti) tr with Some T => nth (t - start T) (steps T) 0 | None => 0 end).
    assert (Hh : forall tr, In tr sel -> exists T, nth_error (trajs ti) tr = Some T /\ at_time T t (h tr) /\ stays frames T bx).
    { intros tr I. apply Hl in I as [T [ET [Sp St]]]. exists T. split; [exact ET|]. split; [|exact St]. destruct (Sp t ltac:(lia)) as [p Hp]. unfold h. rewrite ET. destruct Hp as [k [-> Ek]]. exists k. split; [reflexivity|]. replace (start T + k - start T) with k by lia. rewrite (nth_error_nth _ _ 0 Ek). exact Ek. }
    exists (map h sel). split; [|split].
    - unfold slice_query. fold sel. apply osequence_map_ok. intros tr I. destruct (Hh tr I) as [T [ET [A _]]]. unfold convert. rewrite ET. apply access_val; [eapply traj_small; eauto|exact A].
    - assert (ND : NoDup sel) by (apply ssorted_NoDup; exact So). clear So Hl. induction sel as [|tr sel IH]; [constructor|]. cbn [map]. apply NoDup_cons_iff in ND as [N ND]. constructor; [|apply IH; auto; intros; apply Hh; right; auto].
      intros I. apply in_map_iff in I as [tr' [E I]]. apply N. destruct (Hh tr (or_introl eq_refl)) as [T [ET [A _]]]. destruct (Hh tr' (or_intror I)) as [T' [ET' [A' _]]]. rewrite E in A'.
      assert (X : invert ti t (h tr) = Some tr) by (apply (proj1 Hc); exists T; auto). assert (Y : invert ti t (h tr) = Some tr') by (apply (proj1 Hc); exists T'; auto). assert (tr' = tr) by congruence. subst tr'. exact I.
    - intros p. rewrite in_map_iff. split.
      + intros [tr [<- I]]. destruct (Hh tr I) as [T [ET [A St]]]. exists T. split; [eapply nth_error_In; eauto|auto].
      + intros [T [IT [A St]]]. apply In_nth_error in IT as [tr ET]. assert (I : In tr sel) by (apply Hl; exists T; split; [exact ET|split; [|exact St]]; intros t' Ht'; replace t' with t by lia; eauto). exists tr. split; [|exact I].
        destruct (Hh tr I) as [T' [ET' [A' _]]]. assert (T' = T) by congruence. subst T'. destruct A as [k [E1 E2]]. destruct A' as [k' [E1' E2']]. assert (k' = k) by lia. subst k'. congruence.
  Qed.
  (** The same with a margin: the faces are those of all frames together, not those of the frame. *)
  Theorem C145_slice_inside t margin noz : exists l, slice_inside ti x t margin noz = Val l /\ NoDup l /\ (forall p, In p l <-> exists T, In T (trajs ti) /\ at_time T t p /\ stays_deep (if noz then 2 else 3) frames T margin).
  Proof.
    destruct (C145_slice t (shrink margin (if noz then 2 else 3) (st_box x))) as [l [E [N H]]]. exists l. split; [exact E|]. split; [exact N|]. intros p. rewrite H.
    split; intros [T [I [A St]]]; exists T; (split; [exact I|]); (split; [exact A|]); apply (shrink_deep (if noz then 2 else 3) T margin ltac:(destruct noz; lia)); exact St.
  Qed.
End C145.
(** Without index the other selections are refused. *)
Theorem C145_no_index p : dp_st p = None -> (forall q, dp_spanning_enclosed p q = Throw) /\ (forall b, dp_enclosed p b = Throw) /\ forall iv m, dp_spanning_inside p iv m = Throw.
Proof. intros E. unfold dp_spanning_enclosed, dp_enclosed, dp_spanning_inside. rewrite E. auto. Qed.
(** When the drift is removed the index goes: the same trajectories are selected in time as before, and the selections in space are refused until a new index is set. *)
Theorem C145_reset ti frames x radius ss : consistent ti -> good_index ti frames x -> let p := set_index (mkDyn ti frames radius None) x in
  (forall a b, a <= b < length (inverse ti) -> dp_spanning (drift_removed ss p) (a, b) = dp_spanning p (a, b)) /\
  (forall q, dp_spanning_enclosed (drift_removed ss p) q = Throw) /\ (forall b, dp_enclosed (drift_removed ss p) b = Throw) /\ forall iv m, dp_spanning_inside (drift_removed ss p) iv m = Throw.
Proof.
  intros Hc Hx p. split; [|apply (C145_no_index (drift_removed ss p)); reflexivity]. intros a b Hab. destruct (C145_spanning ti frames x radius None Hc Hx a b Hab) as [E _]. unfold p. rewrite E. reflexivity.
Qed.

(** * Such an index can be made *)
Section Make.
  Variables (ti : trajindex) (frames : list (list (list Z))).
  Definition positions_of (T : traj) : list (list Z) :=
    flat_map (fun k => match nth_error (steps T) k, nth_error frames (start T + k) with Some p, Some f => match nth_error f p with Some q => [q] | None => [] end | _, _ => [] end) (seq 0 (length (steps T))).
  Lemma positions_in T q : In q (positions_of T) <-> exists t, value_at frames T t q.
  Proof.
    unfold positions_of. rewrite in_flat_map. split.
    - intros [k [Hk I]]. destruct (nth_error (steps T) k) as [p|] eqn:Ep; [|destruct I]. destruct (nth_error frames (start T + k)) as [f|] eqn:Ef; [|destruct I]. destruct (nth_error f p) as [q'|] eqn:Eq; [|destruct I]. destruct I as [<-|[]]. exists (start T + k), p, f. split; [exists k; auto|auto].
    - intros [t [p [f [[k [-> Ek]] [Ef Ep]]]]]. exists k. split; [apply in_seq; apply nth_error_lt in Ek; lia|]. rewrite Ek, Ef, Ep. left. reflexivity.
  Qed.
  Definition in_boundsb (b : box) (q : list Z) : bool := forallb (fun k => match nth_error b k with Some e => (fst e <=? coord k q)%Z && (coord k q <=? snd e)%Z | None => true end) [0; 1; 2].
  Lemma in_boundsb_ok b q : in_boundsb b q = true <-> in_bounds b q.
  Proof.
    unfold in_boundsb, in_bounds. rewrite forallb_forall. split.
    - intros H k e Hk E. specialize (H k ltac:(destruct k as [|[|[|k]]]; cbn; lia)). rewrite E in H. apply andb_true_iff in H as [H1 H2]. lia.
    - intros H k Hk. assert (k < 3) by (cbn in Hk; lia). destruct (nth_error b k) as [e|] eqn:E; [|reflexivity]. specialize (H k e ltac:(lia) E). apply andb_true_iff. lia.
  Qed.
  Definition made_query (q : (nat * nat) * box) : list nat :=
    filter (fun tr => match nth_error (trajs ti) tr with Some T => (start T <=? fst (fst q)) && (snd (fst q) <? start T + length (steps T)) && forallb (in_boundsb (snd q)) (positions_of T) | None => false end) (seq 0 (length (trajs ti))).
  Lemma least (l : list nat) : l <> [] -> exists m, In m l /\ forall y, In y l -> m <= y.
  Proof. induction l as [|y l IH]; [congruence|]. intros _. destruct l as [|z l]; [exists y; split; [left; auto|intros ? [<-|[]]; lia]|]. destruct IH as [m [I H]]; [discriminate|]. destruct (le_lt_dec y m); [exists y|exists m]; (split; [cbn; cbn in I; tauto|]); intros w [<-|Hw]; try lia; specialize (H w Hw); lia. Qed.
  Lemma greatest (l : list nat) : l <> [] -> exists m, In m l /\ forall y, In y l -> y <= m.
  Proof. induction l as [|y l IH]; [congruence|]. intros _. destruct l as [|z l]; [exists y; split; [left; auto|intros ? [<-|[]]; lia]|]. destruct IH as [m [I H]]; [discriminate|]. destruct (le_lt_dec y m); [exists m|exists y]; (split; [cbn; cbn in I; tauto|]); intros w [<-|Hw]; try lia; specialize (H w Hw); lia. Qed.
  (** Every set of trajectories has an index that does what is asked of it. *)
  Theorem C145_possible : consistent ti -> trajs ti <> [] -> map (@length (list Z)) frames = map (@length nat) (inverse ti) -> exists x, good_index ti frames x.
  Proof.
    intros Hc Hne Hsh.
    assert (St : forall T, In T (trajs ti) -> steps T <> []) by (intros T I; apply In_nth_error in I as [tr E]; apply (proj2 Hc) in E; apply E).
    destruct (least (map start (trajs ti))) as [a [Ia La]]; [destruct (trajs ti); [congruence|discriminate]|]. destruct (greatest (map (fun T => start T + length (steps T) - 1) (trajs ti))) as [b [Ib Lb]]; [destruct (trajs ti); [congruence|discriminate]|].
    apply in_map_iff in Ia as [T0 [E0 I0]]. apply in_map_iff in Ib as [T1 [E1 I1]].
    assert (A0 : exists p, at_time T0 a p). { assert (S0 := St T0 I0). destruct (steps T0) as [|p s] eqn:Es; [congruence|]. exists p. exists 0. split; [lia|]. rewrite Es. reflexivity. }
    assert (A1 : exists p, at_time T1 b p). { assert (S1 := St T1 I1). assert (0 < length (steps T1)) by (destruct (steps T1); [congruence|cbn; lia]). destruct (nth_error_ex (steps T1) (length (steps T1) - 1) ltac:(lia)) as [p Ep]. exists p. exists (length (steps T1) - 1). split; [lia|exact Ep]. }
    assert (Cne : concat frames <> []).
    { destruct A0 as [p A0]. apply In_nth_error in I0 as [tr Etr]. assert (I : invert ti a p = Some tr) by (apply (proj1 Hc); exists T0; auto). unfold invert in I. destruct (nth_error (inverse ti) a) as [row|] eqn:Er; [|discriminate].
      assert (X := map_nth_error (@length nat) a (inverse ti) Er). rewrite <- Hsh in X. rewrite nth_error_map in X. destruct (nth_error frames a) as [f|] eqn:Ef; [|discriminate]. cbn [option_map] in X. assert (Lf : length f = length row) by congruence.
      assert (p < length f) by (rewrite Lf; apply nth_error_lt in I; exact I). destruct (nth_error_ex f p ltac:(lia)) as [q Eq]. intros C. assert (In q (concat frames)) by (apply in_concat; exists f; split; eapply nth_error_In; eauto). rewrite C in *. contradiction. }
    destruct (extent_ex (concat frames) 0 Cne) as [l0 [h0 X0]]. destruct (extent_ex (concat frames) 1 Cne) as [l1 [h1 X1]]. destruct (extent_ex (concat frames) 2 Cne) as [l2 [h2 X2]].
    exists (mkST made_query [(l0, h0); (l1, h1); (l2, h2)] (a, b)). unfold good_index. cbn [st_query st_box st_iv]. split; [|split; [split; [reflexivity|]|]].
    - intros u v bx Huv. split; [apply filter_ssorted, seq_ssorted|]. intros tr. unfold made_query. rewrite filter_In, in_seq. cbn [fst snd]. split.
      + intros [_ H]. destruct (nth_error (trajs ti) tr) as [T|]; [|discriminate]. apply andb_true_iff in H as [H F]. apply andb_true_iff in H as [H1 H2]. apply Nat.leb_le in H1. apply Nat.ltb_lt in H2. exists T. split; [reflexivity|]. split.
        * intros t Ht. destruct (nth_error_ex (steps T) (t - start T) ltac:(lia)) as [p Ep]. exists p, (t - start T). split; [lia|exact Ep].
        * intros t q V. rewrite forallb_forall in F. apply in_boundsb_ok, F, positions_in. eauto.
      + intros [T [ET [Sp Sy]]]. split; [split; [lia|apply nth_error_lt in ET; lia]|]. rewrite ET. destruct (Sp u ltac:(lia)) as [p [k [Ek Hk]]]. destruct (Sp v ltac:(lia)) as [p' [k' [Ek' Hk']]]. apply nth_error_lt in Hk. apply nth_error_lt in Hk'.
        rewrite !andb_true_iff. split; [split; [apply Nat.leb_le; lia|apply Nat.ltb_lt; lia]|]. apply forallb_forall. intros q Iq. apply positions_in in Iq as [t V]. apply in_boundsb_ok. eapply Sy; eauto.
    - intros k e E. destruct k as [|[|[|k]]]; cbn [nth_error] in E; [injection E as <-; exact X0|injection E as <-; exact X1|injection E as <-; exact X2|destruct k; discriminate].
    - assert (B : forall T t p, In T (trajs ti) -> at_time T t p -> a <= t <= b).
      { intros T t p I [k [-> Ek]]. apply nth_error_lt in Ek. specialize (La (start T) (in_map start _ _ I)). specialize (Lb _ (in_map (fun T => start T + length (steps T) - 1) _ _ I)). cbn beta in Lb. lia. }
      cbn [fst snd]. destruct A0 as [p0 A0]. destruct A1 as [p1 A1]. split; [apply (B T0 a p0 I0 A0)|]. split; [exact B|]. split; [exists T0, p0; auto|exists T1, p1; auto].
  Qed.
End Make.

(** * Cases *)
(** Four trajectories (C48_case); the first is far away at the last time, all others stay close to the origin. *)
Definition ex_frames : list (list (list Z)) := [[[1; 1; 1]; [5; 5; 5]]; [[3; 3; 3]; [2; 2; 2]]; [[2; 1; 1]; [3; 3; 4]; [6; 6; 6]]; [[20; 1; 1]; [6; 6; 7]]]%Z.
Definition ex_box : box := [(0, 10); (0, 10); (0, 10)]%Z.
Definition ex_wide : box := [(0, 30); (0, 10); (0, 10)]%Z.
Example C145_case : consistent ex_ti /\ trajs ex_ti <> [] /\ map (@length (list Z)) ex_frames = map (@length nat) (inverse ex_ti) /\ exists x, good_index ex_ti ex_frames x.
Proof. split; [exact ex_ti_consistent|]. split; [discriminate|]. split; [reflexivity|]. apply C145_possible; [exact ex_ti_consistent|discriminate|reflexivity]. Qed.
Lemma ex_values T t p : In T (trajs ex_ti) -> value_at ex_frames T t p -> T <> mkTraj 0 [0; 1; 0; 0] -> in_bounds ex_box p.
Proof.
  intros I V N. cbn [ex_ti trajs In] in I. assert (P : In p (positions_of ex_frames T)) by (apply positions_in; eauto).
  destruct I as [<-|[<-|[<-|[<-|[]]]]]; [congruence| | |]; vm_compute in P; repeat (destruct P as [<-|P]; [intros k e Hk E; destruct k as [|[|[|k]]]; cbn in E; [injection E as <-; cbn; lia|injection E as <-; cbn; lia|injection E as <-; cbn; lia|lia]|]); destruct P.
Qed.
(** "A box selects the trajectories enclosed in it" is false: three of these trajectories stay in the box, and none is selected, since none of them exists at all times. *)
Theorem C145_enclosed_refuted : forall x, good_index ex_ti ex_frames x -> dp_enclosed (set_index (mkDyn ex_ti ex_frames 1 None) x) ex_box = Val [] /\
  forall tr T, nth_error (trajs ex_ti) tr = Some T -> tr <> 0 -> stays ex_frames T ex_box.
Proof.
  intros x Hx. split.
  - destruct (C145_enclosed ex_ti ex_frames x 1 None Hx ex_box) as [l [E [_ H]]]. rewrite E. destruct l as [|tr l]; [reflexivity|]. exfalso. destruct (proj1 (H tr) (or_introl eq_refl)) as [T [ET [Sp St]]].
    assert (A : exists q, at_time T 0 q) by (apply (Sp (mkTraj 0 [0; 1; 0; 0]) 0 0); [left; reflexivity|exists 0; split; reflexivity]). assert (B : exists q, at_time T 3 q) by (apply (Sp (mkTraj 0 [0; 1; 0; 0]) 3 0); [left; reflexivity|exists 3; split; reflexivity]).
    destruct A as [q [k [Ek Hk]]]. destruct B as [q' [k' [Ek' Hk']]]. destruct tr as [|[|[|[|tr]]]]; cbn in ET; [|injection ET as <-|injection ET as <-|injection ET as <-|destruct tr; discriminate]; cbn [start steps] in *.
    + injection ET as <-. assert (V : value_at ex_frames (mkTraj 0 [0; 1; 0; 0]) 3 [20; 1; 1]%Z) by (exists 0; eexists; split; [exists 3; split; reflexivity|split; reflexivity]). specialize (St _ _ V 0 (0, 10)%Z ltac:(lia) eq_refl). cbn in St. lia.
    + lia.
    + assert (k' = 3) by lia. subst k'. discriminate.
    + lia.
  - intros tr T ET N t p V. eapply ex_values; eauto; [eapply nth_error_In; eauto|]. intros ->. destruct tr as [|[|[|[|tr]]]]; cbn in ET; try congruence. destruct tr; discriminate.
Qed.
(** "The slice of an index at a time selects the positions of that time that are in the box, in increasing order" is false, on both counts: the first trajectory is in the box at time 1 and is left out because of its position at time 3; in a larger box the positions found are 1 and then 0. *)
Theorem C145_slice_refuted : forall x, good_index ex_ti ex_frames x -> slice_query ex_ti x 1 ex_box = Val [0] /\ (exists f, nth_error ex_frames 1 = Some f /\ length f = 2 /\ forall p, In p f -> in_bounds ex_box p) /\
  slice_query ex_ti x 1 ex_wide = Val [1; 0].
Proof.
  intros x Hx. assert (Q := proj1 Hx). split; [|split].
  - assert (E : st_query x ((1, 1), ex_box) = [1]); [|unfold slice_query; rewrite E; reflexivity]. destruct (Q 1 1 ex_box (le_n _)) as [So H]. apply ssorted_ext; [exact So|repeat constructor|]. intros tr. rewrite H. cbn [In]. split.
    + intros [T [ET [Sp St]]]. destruct (Sp 1 ltac:(lia)) as [q [k [Ek Hk]]]. destruct tr as [|[|[|[|tr]]]]; cbn in ET; [|auto|injection ET as <-|injection ET as <-|destruct tr; discriminate]; cbn [start steps] in *.
      * injection ET as <-. exfalso. assert (V : value_at ex_frames (mkTraj 0 [0; 1; 0; 0]) 3 [20; 1; 1]%Z) by (exists 0; eexists; split; [exists 3; split; reflexivity|split; reflexivity]). specialize (St _ _ V 0 (0, 10)%Z ltac:(lia) eq_refl). cbn in St. lia.
      * assert (k = 1) by lia. subst k. discriminate.
      * lia.
    + intros [<-|[]]. exists (mkTraj 1 [0; 1]). split; [reflexivity|]. split; [intros t Ht; replace t with 1 by lia; exists 0, 0; split; reflexivity|]. intros t p V. eapply ex_values; eauto; [cbn; auto|discriminate].
  - eexists. split; [reflexivity|]. split; [reflexivity|]. intros p P. repeat (destruct P as [<-|P]; [intros k e Hk E; destruct k as [|[|[|k]]]; cbn in E; [injection E as <-; cbn; lia|injection E as <-; cbn; lia|injection E as <-; cbn; lia|lia]|]). destruct P.
  - assert (E : st_query x ((1, 1), ex_wide) = [0; 1]); [|unfold slice_query; rewrite E; reflexivity]. destruct (Q 1 1 ex_wide (le_n _)) as [So H]. apply ssorted_ext; [exact So|repeat constructor|]. intros tr. rewrite H. cbn [In]. split.
    + intros [T [ET [Sp St]]]. destruct (Sp 1 ltac:(lia)) as [q [k [Ek Hk]]]. destruct tr as [|[|[|[|tr]]]]; cbn in ET; [auto|auto|injection ET as <-|injection ET as <-|destruct tr; discriminate]; cbn [start steps] in *.
      * assert (k = 1) by lia. subst k. discriminate.
      * lia.
    + assert (G : forall T, In T (trajs ex_ti) -> stays ex_frames T ex_wide).
      { intros T I t p V. assert (P : In p (positions_of ex_frames T)) by (apply positions_in; eauto). cbn [ex_ti trajs In] in I.
        destruct I as [<-|[<-|[<-|[<-|[]]]]]; vm_compute in P; repeat (destruct P as [<-|P]; [intros k e Hk E; destruct k as [|[|[|k]]]; cbn in E; [injection E as <-; cbn; lia|injection E as <-; cbn; lia|injection E as <-; cbn; lia|lia]|]); destruct P. }
      intros [<-|[<-|[]]]; eexists; (split; [reflexivity|]); (split; [|apply G; cbn; auto]); intros t Ht; replace t with 1 by lia; [exists 1, 1|exists 0, 0]; split; reflexivity.
Qed.
(** "After the drift is removed the selections are about the new positions" is false of the drift read in a file, which leaves the index of the old positions in place: here the last frame moves by 100 and the trajectories that end there are still selected in the box. *)
Theorem C145_stale_refuted : forall x, good_index ex_ti ex_frames x -> let p := file_drift_removed [[0; 0; 0]; [0; 0; 0]; [0; 0; 0]; [100; 0; 0]]%Z (set_index (mkDyn ex_ti ex_frames 1 None) x) in
  (exists l, dp_spanning_enclosed p ((2, 3), ex_box) = Val l /\ In 3 l) /\ ~ stays (dp_frames p) (mkTraj 2 [2; 1]) ex_box.
Proof.
  intros x Hx p. split.
  - destruct (proj1 Hx 2 3 ex_box ltac:(lia)) as [_ H]. eexists. split; [reflexivity|]. apply H. exists (mkTraj 2 [2; 1]). split; [reflexivity|]. split.
    + intros t Ht. assert (E : t = 2 \/ t = 3) by lia. destruct E as [->| ->]; [exists 2, 0|exists 1, 1]; split; reflexivity.
    + intros t q V. eapply ex_values; eauto; [cbn; auto|discriminate].
  - intros H. assert (V : value_at (dp_frames p) (mkTraj 2 [2; 1]) 3 [106; 6; 7]%Z) by (exists 1; eexists; split; [exists 1; split; reflexivity|split; reflexivity]). specialize (H _ _ V 0 (0, 10)%Z ltac:(lia) eq_refl). cbn in H. lia.
Qed.

Print Assumptions C145_spanning.
Print Assumptions C145_beyond.
Print Assumptions C145_spanning_enclosed.
Print Assumptions C145_enclosed.
Print Assumptions C145_inside.
Print Assumptions C145_drift.
Print Assumptions C145_slice.
Print Assumptions C145_whole.
Print Assumptions C145_slice_inside.
Print Assumptions C145_no_index.
Print Assumptions C145_reset.
Print Assumptions C145_possible.
Print Assumptions C145_enclosed_refuted.
Print Assumptions C145_slice_refuted.
Print Assumptions C145_stale_refuted.

(** C45: fields averaged over a sliding interval of time. *)
Require Import ZArith List Bool Arith Lia.
Require Import Verif.Base Verif.ListX Verif.RTree_Model Verif.Traj_Model Verif.Traj_Spec Verif.Traj_Proofs Verif.Cluster_Spec Verif.Field_Model Verif.Field_Spec Verif.Field_Proofs.
Import ListNotations.

(** C45.  Whatever the values are, once every frame has been pushed: with h = averaging/2 below the number of frames, position p of
    frame t holds the sum of the non-null values its trajectory meets from t-h to t+h, in the order of time, over their number
    (over 1 if there are none). *)
Theorem C45_sliding_mean :
  forall (V : Type) (zero : V) (add : V -> V -> V) (div : V -> nat -> V) (null : V -> bool) (ti : trajindex) (averaging : nat) (frames : list (list V)),
  consistent ti -> map (@length V) frames = map (@length nat) (inverse ti) ->
  0 < averaging / 2 < length frames ->
  exists df, df_run V add div null ti averaging (df_new V zero ti averaging) frames = Some df /\
    map (@length V) (vals V df) = map (@length V) frames /\
    forall t p tr T, invert ti t p = Some tr -> nth_error (trajs ti) tr = Some T ->
      exists row, nth_error (vals V df) t = Some row /\
        let s := samples null frames T (window t (averaging / 2) (length frames)) in
        nth_error row p = Some (div (sum zero add s) (Nat.max 1 (length s))).
Proof.
  intros V zero add div null ti averaging frames Hc Hfr Hh. assert (Lf : length frames = length (inverse ti)) by (apply (f_equal (@length nat)) in Hfr; rewrite !map_length in Hfr; auto).
  destruct (run_ok V zero add div null ti averaging frames Hc Hfr ltac:(lia) (length frames) 0 (df_new V zero ti averaging)) as [df [E [L H]]].
  - lia.
  - lia.
  - apply inv_new.
  - exists df. split; auto. split.
    + rewrite Hfr. apply nth_error_ext. intros t. destruct (nth_error (inverse ti) t) as [row|] eqn:Er.
      * destruct (H t row Er) as [r [Hr [Lr _]]]. rewrite (map_nth_error (@length V) t (vals V df) Hr), (map_nth_error (@length nat) t (inverse ti) Er). congruence.
      * rewrite (proj2 (nth_error_None _ _)), (proj2 (nth_error_None _ _)); auto; rewrite map_length; apply nth_error_None in Er; lia.
    + intros t p tr T Hi HT. unfold invert in Hi. destruct (nth_error (inverse ti) t) as [row|] eqn:Er; [|discriminate].
      destruct (H t row Er) as [r [Hr [Lr Ho]]]. destruct (Ho p tr Hi) as [x [Hx Px]]. exists r. split; auto. cbv zeta.
      rewrite <- Lf in Px. rewrite (proj2 (Nat.ltb_lt (averaging / 2) (length frames))) in Px by lia. unfold is_mean, smp in Px. rewrite HT in Px. congruence.
Qed.

(** With no averaging (0 or 1) the frames are kept as they are. *)
Theorem C45_no_averaging :
  forall (V : Type) (zero : V) (add : V -> V -> V) (div : V -> nat -> V) (null : V -> bool) (ti : trajindex) (averaging : nat) (frames : list (list V)),
  map (@length V) frames = map (@length nat) (inverse ti) -> averaging / 2 = 0 ->
  exists df, df_run V add div null ti averaging (df_new V zero ti averaging) frames = Some df /\ vals V df = frames.
Proof.
  intros V zero add div null ti averaging frames Hfr Hh.
  assert (G : forall fs rest df, now V df = length fs -> vals V df = fs ++ map (fun f => repeat zero (length f)) rest ->
    exists df', df_run V add div null ti averaging df rest = Some df' /\ vals V df' = fs ++ rest).
  { intros fs rest. revert fs. induction rest as [|f rest IH]; intros fs df Hn Hv; cbn [df_run map] in *; [exists df; auto|].
    unfold df_push. rewrite Hh. cbn [Nat.eqb]. rewrite Hn, Hv. rewrite nth_error_app2, Nat.sub_diag by lia. cbn [nth_error]. rewrite repeat_length, Nat.leb_refl.
    rewrite skipn_all2 by (rewrite repeat_length; lia). rewrite app_nil_r.
    destruct (IH (fs ++ [f]) (mkField V (set_nth (length fs) f (fs ++ repeat zero (length f) :: map (fun f => repeat zero (length f)) rest)) (divs V df) (S (length fs)))) as [df' [E Hd]].
    - cbn [now]. rewrite app_length. simpl. lia.
    - cbn [vals]. rewrite <- app_assoc. simpl. clear. induction fs as [|x fs IH]; simpl; auto. f_equal. auto.
    - exists df'. split; auto. rewrite Hd, <- app_assoc. auto. }
  destruct (G [] frames (df_new V zero ti averaging)) as [df [E Hv]].
  - auto.
  - simpl. transitivity (map (fun k => repeat zero k) (map (@length nat) (inverse ti))); [rewrite map_map; auto|]. rewrite <- Hfr, map_map. auto.
  - exists df. auto.
Qed.

(** The claim fails when the movie is not longer than half the interval: nothing is ever divided and every position holds the
    bare sum over all the frames. *)
Theorem C45_short_movie_refuted :
  forall (V : Type) (zero : V) (add : V -> V -> V) (div : V -> nat -> V) (null : V -> bool) (ti : trajindex) (averaging : nat) (frames : list (list V)),
  consistent ti -> map (@length V) frames = map (@length nat) (inverse ti) -> 0 < length frames <= averaging / 2 ->
  exists df, df_run V add div null ti averaging (df_new V zero ti averaging) frames = Some df /\
    map (@length V) (vals V df) = map (@length V) frames /\
    forall t p tr T, invert ti t p = Some tr -> nth_error (trajs ti) tr = Some T ->
      exists row, nth_error (vals V df) t = Some row /\ nth_error row p = Some (sum zero add (samples null frames T (seq 0 (length frames)))).
Proof.
  intros V zero add div null ti averaging frames Hc Hfr Hh. assert (Lf : length frames = length (inverse ti)) by (apply (f_equal (@length nat)) in Hfr; rewrite !map_length in Hfr; auto).
  destruct (run_ok V zero add div null ti averaging frames Hc Hfr ltac:(lia) (length frames) 0 (df_new V zero ti averaging)) as [df [E [L H]]].
  - lia.
  - lia.
  - apply inv_new.
  - exists df. split; auto. split.
    { rewrite Hfr. apply nth_error_ext. intros t. destruct (nth_error (inverse ti) t) as [row|] eqn:Er.
      * destruct (H t row Er) as [r [Hr [Lr _]]]. rewrite (map_nth_error (@length V) t (vals V df) Hr), (map_nth_error (@length nat) t (inverse ti) Er). congruence.
      * rewrite (proj2 (nth_error_None _ _)), (proj2 (nth_error_None _ _)); auto; rewrite map_length; apply nth_error_None in Er; lia. }
    intros t p tr T Hi HT. unfold invert in Hi. destruct (nth_error (inverse ti) t) as [row|] eqn:Er; [|discriminate].
    destruct (H t row Er) as [r [Hr [Lr Ho]]]. destruct (Ho p tr Hi) as [x [Hx Px]]. exists r. split; auto.
    rewrite <- Lf in Px. rewrite (proj2 (Nat.ltb_ge (averaging / 2) (length frames))) in Px by lia. unfold is_sum, smp in Px. rewrite HT in Px.
    replace (window t (averaging / 2) (length frames)) with (seq 0 (length frames)) in Px; [congruence|].
    assert (Ht : t < length frames) by (rewrite Lf; eapply nth_error_lt; eauto). unfold window.
    assert (Hg : forall (f : nat -> bool) l, (forall x, In x l -> f x = true) -> l = filter f l).
    { induction l as [|y l IHl]; intros Hx'; auto. simpl. rewrite Hx' by (simpl; auto). f_equal. apply IHl. intros; apply Hx'; simpl; auto. }
    apply Hg. intros y Hy. apply in_seq in Hy. apply andb_true_iff. rewrite !Nat.leb_le. lia.
Qed.

(** Four frames; trajectory 0 lives from 0 to 3, trajectory 1 from 1 to 2.  Interval 3 (h = 1), values 0 are null. *)
Definition f_ti : trajindex := mkIndex [mkTraj 0 [0; 1; 0; 0]; mkTraj 1 [0; 1]] [[0]; [1; 0]; [0; 1]; [0]].
Definition f_frames : list (list nat) := [[6]; [10; 0]; [3; 20]; [9]].
Example C45_case :
  consistent f_ti /\ map (@length nat) f_frames = map (@length nat) (inverse f_ti) /\ 0 < 3 / 2 < length f_frames /\
  option_map (vals nat) (df_run nat Nat.add Nat.div (fun v => v =? 0) f_ti 3 (df_new nat 0 f_ti 3) f_frames) = Some [[6]; [15; 4]; [6; 15]; [6]] /\
  option_map (vals nat) (df_run nat Nat.add Nat.div (fun v => v =? 0) f_ti 8 (df_new nat 0 f_ti 8) f_frames) = Some [[18]; [30; 18]; [18; 30]; [18]] /\
  option_map (vals nat) (df_run nat Nat.add Nat.div (fun v => v =? 0) f_ti 1 (df_new nat 0 f_ti 1) f_frames) = Some f_frames.
Proof.
  split; [|repeat split; simpl; lia].
  split.
  - intros t p tr. unfold invert, f_ti. cbn [inverse trajs]. split.
    + intros H. destruct t as [|[|[|[|t]]]]; simpl in H; try (destruct t; discriminate);
      destruct p as [|[|p]]; simpl in H; try discriminate; try (destruct p; discriminate); injection H as <-; eexists; (split; [reflexivity|]);
      unfold at_time; cbn [start steps].
      all: first [exists 0; split; [lia|reflexivity] | exists 1; split; [lia|reflexivity] | exists 2; split; [lia|reflexivity] | exists 3; split; [lia|reflexivity]].
    + intros [T [HT [k [-> Hk]]]]. destruct tr as [|[|tr]]; simpl in HT; [| |destruct tr; discriminate]; injection HT as <-; cbn [start steps] in *;
      destruct k as [|[|[|[|k]]]]; simpl in Hk; try discriminate; try (destruct k; discriminate); injection Hk as <-; reflexivity.
  - intros tr T HT. destruct tr as [|[|tr]]; simpl in HT; [| |destruct tr; discriminate]; injection HT as <-; cbn [start steps length]; split; try discriminate; try lia.
Qed.
Print Assumptions C45_sliding_mean.
Print Assumptions C45_no_averaging.
Print Assumptions C45_short_movie_refuted.

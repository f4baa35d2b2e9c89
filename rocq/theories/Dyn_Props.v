(** C48, C50-C53, C73: selections of trajectories, cages, drift, lost neighbours, averages, velocities. *)
Require Import ZArith QArith List Bool Arith Lia Sorted.
Require Import Verif.Base Verif.SortU Verif.ListX Verif.RTree_Model Verif.Traj_Model Verif.Traj_Spec Verif.Traj_Proofs Verif.TrajMap_Proofs Verif.Cluster_Spec Verif.Particles_Model Verif.Ngb_Model Verif.Ngb_Proofs Verif.Dyn_Model Verif.Dyn_Spec Verif.Dyn_Proofs Verif.Drift_Proofs Verif.Cages_Proofs.
Import ListNotations.
Local Open Scope nat_scope.

(** C48.  selectSpanning([a,b]) without index: exactly the trajectories with a position at every time of the interval, in
    increasing order, each once. *)
Theorem C48_select_spanning ti a b : consistent ti -> a <= b < length (inverse ti) ->
  exists l, select_spanning ti a b = Val l /\ StronglySorted lt l /\
    forall tr, In tr l <-> exists T, nth_error (trajs ti) tr = Some T /\ forall t, a <= t <= b -> exists p, at_time T t p.
Proof.
  intros Hc Hab. unfold select_spanning. destruct (nth_error_ex (inverse ti) a) as [ra Ha]; [lia|]. destruct (nth_error_ex (inverse ti) b) as [rb Hb]; [lia|]. rewrite Ha, Hb.
  destruct (set_inter_spec _ _ (sort_unique_sorted ra) (sort_unique_sorted rb)) as [S I]. eexists. split; [reflexivity|]. split; auto. intros tr.
  rewrite I, !sort_unique_in, (row_in ti a ra tr Ha), (row_in ti b rb tr Hb). destruct Hc as [Hinv _]. split.
  - intros [[p Hp] [q Hq]]. apply Hinv in Hp. apply Hinv in Hq. destruct Hp as [T [HT Hp]]. destruct Hq as [T' [HT' Hq]]. assert (T' = T) by congruence. subst T'.
    exists T. split; auto. apply spans_ends; [lia|]. split; eauto.
  - intros [T [HT Hs]]. apply (spans_ends T a b) in Hs; [|lia]. destruct Hs as [[p Hp] [q Hq]]. split; [exists p|exists q]; apply Hinv; eauto.
Qed.
(** The precondition is needed: nothing checks the end of the interval. *)
Theorem C48_out_of_range_refuted ti a b : length (inverse ti) <= b -> select_spanning ti a b = UB.
Proof. intros H. unfold select_spanning. rewrite (proj2 (nth_error_None _ b)) by auto. destruct (nth_error (inverse ti) a); auto. Qed.

Definition ex_ti : trajindex := mkIndex [mkTraj 0 [0; 1; 0; 0]; mkTraj 1 [0; 1]; mkTraj 0 [1]; mkTraj 2 [2; 1]] [[0; 2]; [1; 0]; [0; 1; 3]; [0; 3]].
Lemma ex_ti_consistent : consistent ex_ti.
Proof.
  split.
  - intros t p tr. unfold invert, ex_ti. cbn [inverse trajs]. split.
    + intros H. destruct t as [|[|[|[|t]]]]; simpl in H; try (destruct t; discriminate);
      destruct p as [|[|[|p]]]; simpl in H; try discriminate; try (destruct p; discriminate); injection H as <-; eexists; (split; [reflexivity|]);
      unfold at_time; cbn [start steps].
      all: first [exists 0; split; [lia|reflexivity] | exists 1; split; [lia|reflexivity] | exists 2; split; [lia|reflexivity] | exists 3; split; [lia|reflexivity]].
    + intros [T [HT [k [-> Hk]]]]. destruct tr as [|[|[|[|tr]]]]; simpl in HT; try (destruct tr; discriminate); injection HT as <-; cbn [start steps] in *;
      destruct k as [|[|[|[|k]]]]; simpl in Hk; try discriminate; try (destruct k; discriminate); injection Hk as <-; reflexivity.
  - intros tr T HT. destruct tr as [|[|[|[|tr]]]]; simpl in HT; try (destruct tr; discriminate); injection HT as <-; cbn [start steps length]; split; try discriminate; try lia.
Qed.
Example C48_case : consistent ex_ti /\ select_spanning ex_ti 1 2 = Val [0; 1] /\ select_spanning ex_ti 2 3 = Val [0; 3] /\ select_spanning ex_ti 0 3 = Val [0].
Proof. split; [exact ex_ti_consistent|repeat split]. Qed.

(** C50.  getCages, for any separations of the sub-intervals, any positive threshold and any resolution: a trajectory is kept
    whole, or replaced by at least two non-empty trajectories that follow each other from its start, with its positions except
    the last one. *)
Theorem C50_cages sep thr res T : steps T <> [] -> (Z.of_nat (start T + length (steps T)) < 2 ^ 64)%Z -> (0 < thr)%Z ->
  cages_of sep thr res T = Val [T] \/
  exists cs, cages_of sep thr res T = Val cs /\ 2 <= length cs /\ consecutive (start T) cs /\ concat (map steps cs) = removelast (steps T).
Proof. intros H1 H2 H3. apply cages_of_ok; auto; [split; auto; unfold size_mod; lia|lia]. Qed.
(** "no time step is lost" fails: as soon as a trajectory is split, its last position is in no cage. *)
Theorem C50_last_step_lost_refuted sep thr res T cs : steps T <> [] -> (Z.of_nat (start T + length (steps T)) < 2 ^ 64)%Z -> (0 < thr)%Z ->
  cages_of sep thr res T = Val cs -> cs <> [T] ->
  (exists p, at_time T (start T + length (steps T) - 1) p) /\ forall c p, In c cs -> ~ at_time c (start T + length (steps T) - 1) p.
Proof.
  intros H1 H2 H3 E Hne. destruct (C50_cages sep thr res T H1 H2 H3) as [E'|[cs' [E' [Hl [Hc Hcat]]]]]; [congruence|]. assert (cs' = cs) by congruence. subst cs'.
  assert (Ln : 0 < length (steps T)) by (destruct (steps T); simpl; [congruence|lia]). split; [apply at_time_ex; lia|].
  assert (G : forall l s, consecutive s l -> forall c p t, In c l -> at_time c t p -> t < s + length (concat (map steps l))).
  { clear. induction l as [|c0 l IH]; intros s Hcons c p t Hin Hat; [contradiction|]. cbn [map concat consecutive] in *. destruct Hcons as [Hs [Hn Hcons]]. rewrite app_length. destruct Hin as [->|Hin].
    - apply at_time_range in Hat. lia.
    - specialize (IH _ Hcons c p t Hin Hat). lia. }
  intros c p Hin Hat. specialize (G cs (start T) Hc c p _ Hin Hat). rewrite Hcat in G. assert (length (removelast (steps T)) = length (steps T) - 1).
  { rewrite removelast_firstn_len, firstn_length. lia. } lia.
Qed.
(** The whole result: a cage is part of one trajectory, every position but those of the last step of each trajectory is in a
    cage, in one only, and the inverse index gives that cage. *)
Theorem C50_cage_index sep thr res ti sizes : consistent ti -> map (@length nat) (inverse ti) = sizes ->
  (forall tr T, nth_error (trajs ti) tr = Some T -> (Z.of_nat (length (steps T)) < 2 ^ 64)%Z) -> (0 < thr)%Z ->
  exists cages, get_cages sep thr res ti sizes = Val cages /\ map (@length nat) (inverse cages) = sizes /\
    (forall k c t p, nth_error (trajs cages) k = Some c -> at_time c t p -> invert cages t p = Some k /\ exists tr T, nth_error (trajs ti) tr = Some T /\ at_time T t p) /\
    (forall tr T t p, nth_error (trajs ti) tr = Some T -> at_time T t p -> t + 1 < start T + length (steps T) -> exists k c, nth_error (trajs cages) k = Some c /\ at_time c t p).
Proof.
  intros Hc Hsz Hl Ht. destruct (all_cages_ok sep thr res ti Hc Hl Ht (trajs ti) 0) as [cs [E [A1 [A2 A3]]]]; [auto|]. unfold get_cages. rewrite E.
  destruct (make_inverse_ok cs sizes) as [inv [Ei [Hs Hi]]].
  - intros tr c t p Htr Hat. destruct (A1 tr c t p Htr Hat) as [j [T [HT HatT]]]. assert (Hinv : invert ti t p = Some j) by (apply (proj1 Hc); eauto). unfold invert in Hinv.
    destruct (nth_error (inverse ti) t) as [row|] eqn:Er; [|discriminate]. exists (length row). split; [rewrite <- Hsz; apply map_nth_error; auto|eapply nth_error_lt; eauto].
  - intros tr tr' c d t p H1 H2 H3 H4. eapply A2; eauto.
  - rewrite Ei. exists (mkIndex cs inv). cbn [trajs inverse]. split; auto. split; auto. split.
    + intros k c t p Hk Hat. split; [eapply Hi; eauto|]. apply (A1 k c t p); auto.
    + intros tr T t p HT Hat Hlast. apply (A3 tr T t p); auto.
Qed.
(** Six positions; the best cut is after the third one, and nothing else passes the threshold.  The inverse index of the
    result then gives cage 0 for the lost position. *)
Definition cut3 (first last t : nat) : Z := if (first =? 0) && (t =? 3) then 10%Z else 1%Z.
Example C50_case :
  cages_of cut3 5 2 (mkTraj 4 [0; 1; 2; 3; 4; 5]) = Val [mkTraj 4 [0; 1; 2]; mkTraj 7 [3; 4]] /\
  cages_of cut3 50 2 (mkTraj 4 [0; 1; 2; 3; 4; 5]) = Val [mkTraj 4 [0; 1; 2; 3; 4; 5]] /\
  get_cages (fun _ => cut3) 5 2 (mkIndex [mkTraj 0 [1; 0]; mkTraj 0 [0; 1; 0; 0; 0; 0]] []) [2; 2; 1; 1; 1; 1] =
    Val (mkIndex [mkTraj 0 [1; 0]; mkTraj 0 [0; 1; 0]; mkTraj 3 [0; 0]] [[1; 0]; [0; 1]; [1]; [2]; [2]; [0]]).
Proof. repeat split. Qed.

(** C51.  getDrift of a selection of at least two trajectories is their mean displacement. *)
Theorem C51_drift ti frames l t0 t1 : consistent ti -> map (@length Q) frames = map (@length nat) (inverse ti) -> 2 <= length l ->
  (forall tr, In tr l -> exists T, nth_error (trajs ti) tr = Some T /\ (exists p, at_time T t0 p) /\ (exists p, at_time T t1 p)) ->
  exists d, get_drift frames ti l t0 t1 = Val d /\ total_displacement frames (trajs ti) l t0 t1 (d * inject_Z (Z.of_nat (length l))).
Proof. intros Hc Hsh H2 H. destruct (get_drift_ok ti frames Hc Hsh l t0 t1 H) as [d [E [D _]]]. exists d. auto. Qed.
(** removeDrift: each frame is shifted as a whole, by non-negative shifts the least of which is null; then the selected
    trajectories of each pair of successive frames, if at least two, have no total displacement. *)
Theorem C51_remove_drift ti frames sel : consistent ti -> map (@length Q) frames = map (@length nat) (inverse ti) -> 0 < length frames ->
  (forall t, t + 1 < length frames -> exists l, sel t = Val l /\ forall tr, In tr l -> exists T, nth_error (trajs ti) tr = Some T /\ spans T t (t + 1)) ->
  exists ss frames', remove_drift sel frames ti = Val frames' /\ length ss = length frames /\
    frames' = map (fun fs => map (fun x => x + snd fs)%Q (fst fs)) (combine frames ss) /\
    (forall s, In s ss -> (0 <= s)%Q) /\ (exists s, In s ss /\ (s == 0)%Q) /\
    forall t l, t + 1 < length frames -> sel t = Val l -> 2 <= length l -> total_displacement frames' (trajs ti) l t (t + 1) 0.
Proof.
  intros Hc Hsh Hpos Hsel. destruct (shifts_ok ti frames sel Hc Hsh Hpos Hsel) as [ss [E [L [H1 [H2 H3]]]]]. unfold remove_drift. rewrite E.
  exists ss. eexists. split; [reflexivity|]. split; auto. split; auto. split; auto. split; auto. intros t l Ht El Hl. destruct (H3 t l Ht El) as [s0 [s1 [N0 [N1 [D _]]]]].
  destruct (D Hl) as [d [Hd Ed]]. apply (shifted_total ti frames ss t (t + 1) s0 s1 N0 N1 l d Hd). symmetry. auto.
Qed.
(** The selection made without index meets the hypothesis. *)
Theorem C51_without_index ti frames : consistent ti -> map (@length Q) frames = map (@length nat) (inverse ti) -> 0 < length frames ->
  exists frames', remove_drift (fun t => select_spanning ti t (t + 1)) frames ti = Val frames' /\ map (@length Q) frames' = map (@length Q) frames /\
    forall t l, t + 1 < length frames -> select_spanning ti t (t + 1) = Val l -> 2 <= length l -> total_displacement frames' (trajs ti) l t (t + 1) 0.
Proof.
  intros Hc Hsh Hpos. assert (Lf : length frames = length (inverse ti)) by (apply (f_equal (@length nat)) in Hsh; rewrite !map_length in Hsh; auto).
  destruct (C51_remove_drift ti frames (fun t => select_spanning ti t (t + 1)) Hc Hsh Hpos) as [ss [frames' [E [L [Ef [_ [_ H]]]]]]].
  { intros t Ht. destruct (C48_select_spanning ti t (t + 1) Hc) as [l [El [_ Hl]]]; [lia|]. exists l. split; auto. intros tr Htr. apply Hl. auto. }
  exists frames'. split; auto. split; auto. rewrite Ef. clear - L. revert ss L. induction frames as [|f fs IH]; intros [|s ss] L; simpl in *; try discriminate; auto. rewrite map_length. f_equal. apply IH. auto.
Qed.
(** A single common trajectory is not corrected: it keeps its displacement. *)
Definition one_ti : trajindex := mkIndex [mkTraj 0 [0; 0]] [[0]; [0]].
Theorem C51_single_trajectory_refuted :
  consistent one_ti /\ select_spanning one_ti 0 1 = Val [0] /\ remove_drift (fun t => select_spanning one_ti t (t + 1)) [[1%Q]; [5%Q]] one_ti = Val [[1%Q]; [5%Q]] /\
  ~ total_displacement [[1%Q]; [5%Q]] (trajs one_ti) [0] 0 1 0.
Proof.
  split; [|split; [reflexivity|split; [vm_compute; reflexivity|]]].
  - split.
    + intros t p tr. unfold invert, one_ti. cbn [inverse trajs]. split.
      * intros H. destruct t as [|[|t]]; simpl in H; try (destruct t; discriminate); destruct p as [|p]; simpl in H; try (destruct p; discriminate); injection H as <-; eexists; (split; [reflexivity|]); unfold at_time; cbn [start steps].
        all: first [exists 0; split; [lia|reflexivity] | exists 1; split; [lia|reflexivity]].
      * intros [T [HT [k [-> Hk]]]]. destruct tr as [|tr]; simpl in HT; [|destruct tr; discriminate]. injection HT as <-. cbn [start steps] in *. destruct k as [|[|k]]; simpl in Hk; try (destruct k; discriminate); injection Hk as <-; reflexivity.
    + intros tr T HT. destruct tr as [|tr]; simpl in HT; [|destruct tr; discriminate]. injection HT as <-. cbn [start steps length]. split; [discriminate|lia].
  - intros [T [x [y [d [HT [Hx [Hy [Hd E]]]]]]]]. simpl in HT. injection HT as <-. assert (x = 1%Q).
    { apply (value_fun [[1%Q]; [5%Q]] (mkTraj 0 [0; 0]) 0); auto. exists 0, [1%Q]. split; [exists 0; auto|auto]. }
    assert (y = 5%Q). { apply (value_fun [[1%Q]; [5%Q]] (mkTraj 0 [0; 0]) 1); auto. exists 0, [5%Q]. split; [exists 1; auto|auto]. }
    subst. simpl in Hd. rewrite Hd in E. discriminate.
Qed.
(** getDrift(t0,t1) does not depend on t1: it is always the drift from t0 to t0+1. *)
Theorem C51_end_ignored_refuted sel frames ti t0 t1 t1' : get_drift_at sel frames ti t0 t1 = get_drift_at sel frames ti t0 t1'.
Proof. reflexivity. Qed.
Example C51_case : consistent ex_ti /\
  select_spanning ex_ti 1 2 = Val [0; 1] /\ select_spanning ex_ti 2 3 = Val [0; 3] /\
  exists fs, remove_drift (fun t => select_spanning ex_ti t (t + 1)) [[0; 10]; [20; 1]; [3; 24; 7]; [4; 10]]%Q ex_ti = Val fs /\
    Forall2 (Forall2 Qeq) fs [[5; 15]; [25; 6]; [5; 26; 9]; [4; 10]]%Q.
Proof.
  split; [exact ex_ti_consistent|]. split; [reflexivity|]. split; [reflexivity|]. eexists. split; [vm_compute; reflexivity|]. repeat constructor.
Qed.

(** C52.  getLostNgbs: the trajectories that are neighbours at t_from and not at t_to. *)
Theorem C52_lost_neighbours ti ngbs tr T t_from t_to p q : consistent ti -> ngbs_ok ti ngbs -> nth_error (trajs ti) tr = Some T -> at_time T t_from p -> at_time T t_to q ->
  exists l, get_lost_ngbs ti ngbs tr t_from t_to = Val l /\ StronglySorted lt l /\ forall x, In x l <-> ngb_at ti ngbs t_from tr x /\ ~ ngb_at ti ngbs t_to tr x.
Proof. intros Hc Hn HT H1 H2. apply (lost_ok ti ngbs Hc Hn tr T t_from t_to p q); auto. Qed.
(** getNbLostNgbs(t, h): for each position of frame t, the number of neighbours its trajectory loses between t-h and t+h, or
    its own start and end if it is shorter than that; times are below 2^31. *)
Theorem C52_number_lost ti ngbs t h row : consistent ti -> ngbs_ok ti ngbs -> nth_error (inverse ti) t = Some row -> (Z.of_nat (t + h) < 2 ^ 31)%Z ->
  exists nb, nb_lost_ngbs ti ngbs t h = Val nb /\ length nb = length row /\
    forall p tr T, nth_error row p = Some tr -> nth_error (trajs ti) tr = Some T ->
      exists l, nth_error nb p = Some (length l) /\ StronglySorted lt l /\
        let t_from := Nat.max (t - h) (start T) in let t_to := Nat.min (t + h) (start T + length (steps T) - 1) in
        forall x, In x l <-> ngb_at ti ngbs t_from tr x /\ ~ ngb_at ti ngbs t_to tr x.
Proof.
  intros Hc Hn Hrow Ht. unfold nb_lost_ngbs. rewrite Hrow.
  set (g := fun tr => match nth_error (trajs ti) tr with None => UB | Some T => if 1 <? length (steps T) then match get_lost_ngbs ti ngbs tr (win_start T t h) (win_stop T t h) with Val l => Val (length l) | Throw => Throw | UB => UB end else Val 0 end).
  assert (Hg : forall p tr T, nth_error row p = Some tr -> nth_error (trajs ti) tr = Some T -> exists l, g tr = Val (length l) /\ StronglySorted lt l /\
    let t_from := Nat.max (t - h) (start T) in let t_to := Nat.min (t + h) (start T + length (steps T) - 1) in forall x, In x l <-> ngb_at ti ngbs t_from tr x /\ ~ ngb_at ti ngbs t_to tr x).
  { intros p tr T Hp HT. assert (Hs : small T) by exact (proj2 Hc tr T HT). assert (Hat : at_time T t p).
    { assert (Hi : invert ti t p = Some tr) by (unfold invert; rewrite Hrow; auto). apply (proj1 Hc) in Hi. destruct Hi as [T' [HT' Hat]]. congruence. }
    assert (Hr := at_time_range T t p Hat). unfold g. rewrite HT. rewrite win_start_ok, win_stop_ok by (auto; lia). cbv zeta. destruct (Nat.ltb_spec 1 (length (steps T))) as [Hl|Hl].
    - destruct (at_time_ex T (Nat.max (t - h) (start T))) as [pa Ha]; [lia|]. destruct (at_time_ex T (Nat.min (t + h) (start T + length (steps T) - 1))) as [pb Hb]; [lia|].
      destruct (lost_ok ti ngbs Hc Hn tr T _ _ pa pb HT Ha Hb) as [l [E [S I]]]. rewrite E. exists l. auto.
    - exists []. split; auto. split; [constructor|]. replace (Nat.max (t - h) (start T)) with t by lia. replace (Nat.min (t + h) (start T + length (steps T) - 1)) with t by lia. simpl. tauto. }
  destruct (osequence_map_ex g row) as [nb [E F]].
  { intros tr Htr. apply In_nth_error in Htr. destruct Htr as [p Hp]. assert (Hi : invert ti t p = Some tr) by (unfold invert; rewrite Hrow; auto). apply (proj1 Hc) in Hi. destruct Hi as [T [HT _]].
    destruct (Hg p tr T Hp HT) as [l [E _]]. eauto. }
  exists nb. split; auto. split; [symmetry; apply (F2_len _ _ _ F)|]. intros p tr T Hp HT. destruct (Hg p tr T Hp HT) as [l [El Hl]]. exists l. split; auto.
  destruct (F2_nth _ _ _ p tr F Hp) as [k [Hk Ek]]. congruence.
Qed.
Definition ex_ngbs : list (list (list nat)) := [[[1]; [0]]; [[1]; [0]]; [[1; 2]; [0]; [0]]; [[1]; [0]]].
Example C52_case : consistent ex_ti /\ ngbs_ok ex_ti ex_ngbs /\ get_lost_ngbs ex_ti ex_ngbs 0 0 2 = Val [2] /\ get_lost_ngbs ex_ti ex_ngbs 0 2 3 = Val [1] /\ nb_lost_ngbs ex_ti ex_ngbs 2 1 = Val [1; 0; 0].
Proof.
  split; [exact ex_ti_consistent|]. split; [|repeat split]. split; [reflexivity|]. intros t frame row l q Hf Hr Hl Hq.
  destruct t as [|[|[|[|t]]]]; simpl in Hf, Hr; try (destruct t; discriminate); injection Hf as <-; injection Hr as <-; simpl in Hl; repeat (destruct Hl as [<-|Hl]; [simpl in Hq; simpl; lia|]); contradiction.
Qed.

(** C53.  makeTimeAverage: one output map per whole interval of avg frames (at least one), whose keys are the selected
    trajectories spanning that interval, with the mean of their values over exactly its avg frames. *)
Definition averaged {V} (zero : V) (add : V -> V -> V) (div : V -> nat -> V) (ti : trajindex) (data : list (list (nat * V))) (sel : list nat) (t0 n : nat) (m : list (nat * V)) : Prop :=
  is_map m /\ forall tr v, lookup tr m = Some v <->
    In tr sel /\ exists T xs, nth_error (trajs ti) tr = Some T /\ (forall t, t0 <= t <= t0 + n - 1 -> exists p, at_time T t p) /\
      Forall2 (fun t x => exists p row, at_time T t p /\ nth_error data t = Some row /\ lookup p row = Some x) (seq t0 n) xs /\ v = div (fold_left add xs zero) n.
Definition all_valued {V} (ti : trajindex) (data : list (list (nat * V))) (sel : list nat) : Prop :=
  forall tr, In tr sel -> exists T, nth_error (trajs ti) tr = Some T /\ forall t p, at_time T t p -> exists row x, nth_error data t = Some row /\ lookup p row = Some x.
Lemma all_valued_window {V} ti (data : list (list (nat * V))) sel t0 n : all_valued ti data sel -> 0 < n ->
  forall tr, In tr sel -> exists T, nth_error (trajs ti) tr = Some T /\ (spans T t0 (t0 + n - 1) -> exists xs, window_values V data T (seq t0 n) xs).
Proof.
  intros H Hn tr Htr. destruct (H tr Htr) as [T [HT Hv]]. exists T. split; auto. intros Hs. unfold window_values.
  assert (G : forall k s, (forall t, s <= t < s + k -> exists p, at_time T t p) -> exists xs, Forall2 (fun t x => exists p m, at_time T t p /\ nth_error data t = Some m /\ lookup p m = Some x) (seq s k) xs).
  { induction k as [|k IH]; intros s Hk; [exists []; constructor|]. destruct (Hk s) as [p Hp]; [lia|]. destruct (Hv s p Hp) as [row [x [Hr Hx]]]. destruct (IH (S s)) as [xs F]; [intros; apply Hk; lia|].
    exists (x :: xs). cbn [seq]. constructor; [exists p, row; auto|auto]. }
  apply G. intros t Ht. apply Hs. lia.
Qed.
Theorem C53_time_average (V : Type) (zero : V) (add : V -> V -> V) (div : V -> nat -> V) ti nbt avg sel data :
  consistent ti -> NoDup sel -> all_valued ti data sel -> 0 < avg ->
  exists ms, make_time_average V zero add div ti nbt avg sel data = Val ms /\ length ms = Nat.max (nbt / avg) 1 /\
    forall k m, nth_error ms k = Some m -> averaged zero add div ti data sel (k * avg) avg m.
Proof.
  intros Hc Hnd Hv Ha. unfold make_time_average. rewrite (proj2 (Nat.eqb_neq avg 0)) by lia.
  assert (G : forall k, exists m, average_step V zero add div UB ti data (k * avg) avg sel [] = Val m /\ averaged zero add div ti data sel (k * avg) avg m).
  { intros k. destruct (average_step_ok V zero add div UB ti data (k * avg) avg Ha Hc sel [] Hnd) as [m [E [Hm Hl]]].
    - constructor.
    - intros; auto.
    - apply all_valued_window; auto.
    - exists m. split; auto. split; auto. intros tr v. rewrite Hl. simpl. split; [intros [H|H]; [discriminate|auto]|auto]. }
  destruct (osequence_map_ex (fun k => average_step V zero add div UB ti data (k * avg) avg sel []) (seq 0 (Nat.max (nbt / avg) 1))) as [ms [E F]].
  { intros k _. destruct (G k) as [m [E _]]. eauto. }
  exists ms. split; auto. split; [rewrite <- (F2_len _ _ _ F), seq_length; auto|]. intros k m Hk. destruct (F2_nth_r _ _ _ k m F Hk) as [k' [Hk' Em]].
  assert (Hlt := nth_error_lt _ _ _ Hk'). rewrite seq_length in Hlt. rewrite nth_error_seq in Hk' by auto. injection Hk' as <-. destruct (G (0 + k)) as [m' [E' Hm']]. simpl in *. congruence.
Qed.
(** makeSlidingTimeAverage: one output map per window of avg successive frames. *)
Theorem C53_sliding_average (V : Type) (zero : V) (add : V -> V -> V) (div : V -> nat -> V) ti avg sel data :
  consistent ti -> NoDup sel -> all_valued ti data sel -> 0 < avg <= length data + 1 ->
  exists ms, make_sliding_average V zero add div ti avg sel data = Val ms /\ length ms = length data + 1 - avg /\
    forall k m, nth_error ms k = Some m -> averaged zero add div ti data sel k avg m.
Proof.
  intros Hc Hnd Hv Ha. unfold make_sliding_average. destruct (Nat.ltb_spec (length data + 1) avg); [lia|].
  assert (G : forall k, exists m, average_step V zero add div Throw ti data k avg sel [] = Val m /\ averaged zero add div ti data sel k avg m).
  { intros k. destruct (average_step_ok V zero add div Throw ti data k avg ltac:(lia) Hc sel [] Hnd) as [m [E [Hm Hl]]].
    - constructor.
    - intros; auto.
    - apply all_valued_window; auto; lia.
    - exists m. split; auto. split; auto. intros tr v. rewrite Hl. simpl. split; [intros [H'|H']; [discriminate|auto]|auto]. }
  destruct (osequence_map_ex (fun k => average_step V zero add div Throw ti data k avg sel []) (seq 0 (length data + 1 - avg))) as [ms [E F]].
  { intros k _. destruct (G k) as [m [E _]]. eauto. }
  exists ms. split; auto. split; [rewrite <- (F2_len _ _ _ F), seq_length; auto|]. intros k m Hk. destruct (F2_nth_r _ _ _ k m F Hk) as [k' [Hk' Em]].
  assert (Hlt := nth_error_lt _ _ _ Hk'). rewrite seq_length in Hlt. rewrite nth_error_seq in Hk' by auto. injection Hk' as <-. destruct (G (0 + k)) as [m' [E' Hm']]. simpl in *. congruence.
Qed.
(** A window longer than the movie by more than one frame makes the sliding average throw (it asks for nearly 2^64 maps). *)
Theorem C53_long_window_refuted (V : Type) (zero : V) (add : V -> V -> V) (div : V -> nat -> V) ti avg sel data : length data + 1 < avg -> make_sliding_average V zero add div ti avg sel data = Throw.
Proof. intros H. unfold make_sliding_average. rewrite (proj2 (Nat.ltb_lt _ _)) by auto. auto. Qed.
Definition ex_data : list (list (nat * nat)) := [[(0, 4); (1, 100)]; [(0, 10); (1, 6)]; [(0, 8); (1, 20); (2, 6)]; [(0, 12); (1, 4)]].
Example C53_case : consistent ex_ti /\ NoDup [3; 0; 1] /\ all_valued ex_ti ex_data [3; 0; 1] /\
  make_time_average nat 0 Nat.add Nat.div ex_ti 4 2 [3; 0; 1] ex_data = Val [[(0, 5)]; [(0, 10); (3, 5)]] /\
  make_sliding_average nat 0 Nat.add Nat.div ex_ti 2 [3; 0; 1] ex_data = Val [[(0, 5)]; [(0, 7); (1, 15)]; [(0, 10); (3, 5)]].
Proof.
  split; [exact ex_ti_consistent|]. split; [repeat constructor; simpl; lia|]. split; [|repeat split].
  intros tr Htr. simpl in Htr. destruct Htr as [<-|[<-|[<-|[]]]]; eexists; (split; [reflexivity|]); intros t p [k [-> Hk]]; cbn [start steps] in *;
  destruct k as [|[|[|[|k]]]]; simpl in Hk; try (destruct k; discriminate); try discriminate; injection Hk as <-; simpl; eexists; eexists; (split; [reflexivity|reflexivity]).
Qed.

(** C73.  velocities(t, h), h > 0: the displacement of the trajectory over the window [t-h,t+h] cut to its life, over the number
    of steps of that window, which is positive; the null vector for a trajectory of one step. *)
Theorem C73_velocities (V : Type) (zero : V) (sub : V -> V -> V) (div : V -> nat -> V) ti frames t h row :
  consistent ti -> map (@length V) frames = map (@length nat) (inverse ti) -> nth_error (inverse ti) t = Some row -> (Z.of_nat (t + h) < 2 ^ 31)%Z -> 0 < h ->
  exists vs, velocities V zero sub div frames ti t h = Val vs /\ length vs = length row /\
    forall p tr T, nth_error row p = Some tr -> nth_error (trajs ti) tr = Some T ->
      (length (steps T) = 1 -> nth_error vs p = Some zero) /\
      (1 < length (steps T) ->
        let a := Nat.max (t - h) (start T) in let b := Nat.min (t + h) (start T + length (steps T) - 1) in
        a <= t <= b /\ a < b /\ exists x y, value_at frames T a x /\ value_at frames T b y /\ nth_error vs p = Some (div (sub y x) (b - a))).
Proof.
  intros Hc Hsh Hrow Ht Hh. unfold velocities. rewrite Hrow.
  set (g := fun tr => match nth_error (trajs ti) tr with None => UB | Some T => if 1 <? length (steps T) then
      match position V frames T (win_stop T t h), position V frames T (win_start T t h) with Val x, Val y => Val (div (sub x y) (win_stop T t h - win_start T t h)) | UB, _ => UB | _, UB => UB | _, _ => Throw end else Val zero end).
  assert (Hg : forall p tr T, nth_error row p = Some tr -> nth_error (trajs ti) tr = Some T -> exists v, g tr = Val v /\ (length (steps T) = 1 -> v = zero) /\
    (1 < length (steps T) -> let a := Nat.max (t - h) (start T) in let b := Nat.min (t + h) (start T + length (steps T) - 1) in a <= t <= b /\ a < b /\ exists x y, value_at frames T a x /\ value_at frames T b y /\ v = div (sub y x) (b - a))).
  { intros p tr T Hp HT. assert (Hs : small T) by exact (proj2 Hc tr T HT). assert (Hat : at_time T t p).
    { assert (Hi : invert ti t p = Some tr) by (unfold invert; rewrite Hrow; auto). apply (proj1 Hc) in Hi. destruct Hi as [T' [HT' Hat]]. congruence. }
    assert (Hr := at_time_range T t p Hat). unfold g. rewrite HT. rewrite win_start_ok, win_stop_ok by (auto; lia). cbv zeta. destruct (Nat.ltb_spec 1 (length (steps T))) as [Hl|Hl].
    - destruct (at_time_ex T (Nat.max (t - h) (start T))) as [pa Ha]; [lia|]. destruct (at_time_ex T (Nat.min (t + h) (start T + length (steps T) - 1))) as [pb Hb]; [lia|].
      destruct (value_ex ti frames tr T _ pa Hc Hsh HT Ha) as [x Hx]. destruct (value_ex ti frames tr T _ pb Hc Hsh HT Hb) as [y Hy].
      rewrite (proj2 (position_val frames T _ y Hs) Hy), (proj2 (position_val frames T _ x Hs) Hx). eexists. split; [reflexivity|]. split; [lia|]. intros _. split; [lia|]. split; [lia|]. exists x, y. auto.
    - exists zero. split; auto. split; auto. lia. }
  destruct (osequence_map_ex g row) as [vs [E F]].
  { intros tr Htr. apply In_nth_error in Htr. destruct Htr as [p Hp]. assert (Hi : invert ti t p = Some tr) by (unfold invert; rewrite Hrow; auto). apply (proj1 Hc) in Hi. destruct Hi as [T [HT _]].
    destruct (Hg p tr T Hp HT) as [v [E _]]. eauto. }
  exists vs. split; auto. split; [symmetry; apply (F2_len _ _ _ F)|]. intros p tr T Hp HT. destruct (Hg p tr T Hp HT) as [v [Ev [H1 H2]]].
  destruct (F2_nth _ _ _ p tr F Hp) as [v' [Hv' Ev']]. assert (v' = v) by congruence. subst v'. split; [intros; rewrite Hv', H1 by auto; auto|].
  intros Hl. destruct (H2 Hl) as [A [B [x [y [Hx [Hy Ee]]]]]]. cbv zeta. split; auto. split; auto. exists x, y. rewrite Hv', Ee. auto.
Qed.
(** With h = 0 every trajectory of more than one step divides by zero. *)
Theorem C73_no_window_refuted T t p : steps T <> [] -> (Z.of_nat (start T + length (steps T)) < 2 ^ 31)%Z -> at_time T t p -> win_stop T t 0 - win_start T t 0 = 0.
Proof.
  intros H1 H2 Hat. assert (Hs : small T) by (split; auto; unfold size_mod; lia). apply at_time_range in Hat. rewrite win_start_ok, win_stop_ok by (auto; lia). lia.
Qed.
Example C73_case : consistent ex_ti /\ velocities nat 0 Nat.sub Nat.div [[0; 10]; [20; 1]; [30; 24; 7]; [60; 10]] ex_ti 2 1 = Val [(60 - 1) / 2; 4; 3] /\
  velocities nat 0 Nat.sub Nat.div [[0; 10]; [20; 1]; [30; 24; 7]; [60; 10]] ex_ti 0 5 = Val [60 / 3; 0].
Proof. split; [exact ex_ti_consistent|split; reflexivity]. Qed.

Print Assumptions C48_select_spanning.
Print Assumptions C48_out_of_range_refuted.
Print Assumptions C50_cages.
Print Assumptions C50_last_step_lost_refuted.
Print Assumptions C50_cage_index.
Print Assumptions C51_drift.
Print Assumptions C51_remove_drift.
Print Assumptions C51_without_index.
Print Assumptions C51_single_trajectory_refuted.
Print Assumptions C51_end_ignored_refuted.
Print Assumptions C52_lost_neighbours.
Print Assumptions C52_number_lost.
Print Assumptions C53_time_average.
Print Assumptions C53_sliding_average.
Print Assumptions C53_long_window_refuted.
Print Assumptions C73_velocities.
Print Assumptions C73_no_window_refuted.

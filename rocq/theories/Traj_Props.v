(** C15-C21: trajectories of lib/traj. *)
Require Import ZArith List Bool Arith Lia Sorted Permutation.
Require Import Verif.Base Verif.SortU Verif.RTree_Model Verif.ListX Verif.Dec Verif.Traj_Model Verif.Traj_Spec Verif.Traj_Proofs
  Verif.TrajMap_Proofs Verif.TrajFile_Model Verif.TrajFile_Proofs.
Import ListNotations.

(** * C15 *)
(** A trajectory with at least one position, whose times are size_t values. *)
Definition recorded (T : traj) : Prop := steps T <> [] /\ (Z.of_nat (start T + length (steps T)) <= 2 ^ 64)%Z.

Theorem C15_exist T t : recorded T -> exist_at T t = true <-> exists p, at_time T t p.
Proof.
  intros H. rewrite exist_at_iff by exact H. split; [apply at_time_ex|intros [p Hp]; eapply at_time_range; eauto].
Qed.
Theorem C15_span T a b : recorded T -> a <= b ->
  span T a b = true <-> forall t, a <= t <= b -> exists p, at_time T t p.
Proof.
  intros H Hab. assert (Hs : span T a b = true <-> start T <= a /\ b < start T + length (steps T)).
  { unfold span. rewrite last_time_exact by apply H. assert (0 < length (steps T)) by (destruct H as [H _]; destruct (steps T); simpl; [congruence|lia]).
    destruct (Nat.ltb_spec a (start T)); simpl; [split; [discriminate|lia]|].
    destruct (Z.ltb_spec (Z.of_nat (start T) + Z.of_nat (length (steps T)) - 1) (Z.of_nat b)); split; try discriminate; try lia; auto. }
  rewrite Hs. split.
  - intros [H1 H2] t Ht. apply at_time_ex. lia.
  - intros Hall. destruct (Hall a) as [p Hp]; [lia|]. destruct (Hall b) as [q Hq]; [lia|].
    apply at_time_range in Hp. apply at_time_range in Hq. lia.
Qed.
Theorem C15_access T t : recorded T ->
  (forall p, access T t = Val p <-> at_time T t p) /\ (access T t = Throw <-> ~ exists p, at_time T t p).
Proof.
  intros H. assert (Hv : forall p, access T t = Val p <-> at_time T t p) by (intros p; apply access_val, H).
  split; auto. destruct (access T t) as [p| |] eqn:E.
  - split; [discriminate|]. intros Hn. exfalso. apply Hn. exists p. apply Hv. auto.
  - split; auto. intros _ [p Hp]. apply Hv in Hp. discriminate.
  - exfalso. eapply access_not_UB; eauto.
Qed.
Theorem C15_push_back T p : recorded T ->
  forall t q, at_time (traj_push T p) t q <-> at_time T t q \/ (t = start T + length (steps T) /\ q = p).
Proof. intros _. apply at_time_push. Qed.
Theorem C15_subtraj T a b : recorded T -> a <= b ->
  match subtraj T a b with
  | Val U => forall t p, at_time U t p <-> a <= t <= b /\ at_time T t p
  | Throw => exists t, a <= t <= b /\ ~ exists p, at_time T t p
  | UB => False
  end /\ ((forall t, a <= t <= b -> exists p, at_time T t p) -> subtraj T a b <> Throw).
Proof.
  intros H Hab. unfold subtraj.
  destruct (Nat.le_gt_cases (start T) a) as [H1|H1]; [destruct (Nat.lt_ge_cases b (start T + length (steps T))) as [H2|H2]|].
  - rewrite (sub_steps_ok T H) by lia. split; [|discriminate]. intros t p. unfold at_time at 1. cbn [start steps]. split.
    + intros [k [-> Hk]]. pose proof (nth_error_lt _ _ _ Hk) as Hl. rewrite firstn_length in Hl. split; [lia|].
      exists (a - start T + k). split; [lia|].
      assert (Hn : forall n k (l : list nat) x, nth_error (firstn n l) k = Some x -> nth_error l k = Some x).
      { clear. induction n as [|n IH]; intros [|k] [|y l] x Hx; simpl in *; try discriminate; auto. }
      assert (Hsk : forall d (l : list nat) n, nth_error (skipn d l) n = nth_error l (d + n)).
      { clear. induction d as [|d IH]; intros [|x l] n; simpl; auto. destruct n; auto. }
      apply Hn in Hk. rewrite Hsk in Hk. auto.
    + intros [Ht [k [-> Hk]]]. exists (start T + k - a). split; [lia|].
      assert (Hn : forall n k (l : list nat), k < n -> nth_error (firstn n l) k = nth_error l k).
      { clear. induction n as [|n IH]; intros [|k] [|y l] Hx; simpl in *; try lia; auto. apply IH; lia. }
      assert (Hsk : forall d (l : list nat) n, nth_error (skipn d l) n = nth_error l (d + n)).
      { clear. induction d as [|d IH]; intros [|x l] n; simpl; auto. destruct n; auto. }
      rewrite Hn, Hsk by lia. replace (a - start T + (start T + k - a)) with k by lia. auto.
  - rewrite (sub_steps_throw T H). 
    + split.
      * exists b. split; [lia|]. intros [p Hp]. apply at_time_range in Hp. lia.
      * intros Hall. destruct (Hall b) as [p Hp]; [lia|]. apply at_time_range in Hp. lia.
    + exists b. split; [lia|]. destruct (exist_at T b) eqn:E; auto. apply (exist_at_iff T b H) in E. lia.
  - rewrite (sub_steps_throw T H).
    + split.
      * exists a. split; [lia|]. intros [p Hp]. apply at_time_range in Hp. lia.
      * intros Hall. destruct (Hall a) as [p Hp]; [lia|]. apply at_time_range in Hp. lia.
    + exists a. split; [lia|]. destruct (exist_at T a) eqn:E; auto. apply (exist_at_iff T a H) in E. lia.
Qed.
(** An empty trajectory starting at 0 claims to exist at every time step, and reading it is undefined; an
    empty trajectory starting later exists nowhere. *)
Theorem C15_empty_refuted : (forall t, (Z.of_nat t < 2 ^ 64)%Z -> exist_at (mkTraj 0 []) t = true /\ access (mkTraj 0 []) t = UB) /\
  (forall s t, 0 < s -> (Z.of_nat s <= 2 ^ 64)%Z -> exist_at (mkTraj s []) t = false).
Proof.
  assert (H64 : (0 < 2 ^ 64)%Z) by reflexivity. split.
  - intros t Ht. assert (E : exist_at (mkTraj 0 []) t = true).
    { unfold exist_at, last_time. cbn [start steps length]. change (Z.of_nat 0 + Z.of_nat 0 - 1)%Z with (-1)%Z.
      assert ((-1) mod size_mod = 2 ^ 64 - 1)%Z as -> by reflexivity.
      assert ((2 ^ 64 - 1 <? Z.of_nat t)%Z = false) as -> by (apply Z.ltb_ge; lia).
      assert ((t <? 0) = false) as -> by (apply Nat.ltb_ge; lia). reflexivity. }
    split; auto. unfold access. rewrite E. cbn [steps start]. destruct (t - 0); reflexivity.
  - intros s t Hs Hs2. unfold exist_at, last_time. cbn [start steps length]. unfold size_mod.
    rewrite Z.mod_small by lia. destruct (Nat.ltb_spec t s) as [|Hge]; [reflexivity|].
    assert ((Z.of_nat s + Z.of_nat 0 - 1 <? Z.of_nat t)%Z = true) as -> by (apply Z.ltb_lt; lia). reflexivity.
Qed.

Example C15_case : recorded (mkTraj 3 [7; 8; 4]) /\ exist_at (mkTraj 3 [7; 8; 4]) 5 = true /\ exist_at (mkTraj 3 [7; 8; 4]) 6 = false
  /\ access (mkTraj 3 [7; 8; 4]) 4 = Val 8 /\ subtraj (mkTraj 3 [7; 8; 4]) 4 5 = Val (mkTraj 4 [8; 4]) /\ subtraj (mkTraj 3 [7; 8; 4]) 4 6 = Throw.
Proof. split; [split; [discriminate|vm_compute; discriminate]|]. repeat split. Qed.

(** * Histories *)
Lemma run_sizes : forall h tm n h0, hist (frames tm) (nb_traj tm) h0 n -> history_ok n h ->
  forall tm', trajmap_run tm h = Some tm' -> map_frame_sizes tm' = map_frame_sizes tm ++ map snd h.
Proof.
  induction h as [|[fol m] h IH]; intros tm n h0 Hh Hok tm' E.
  - injection E as <-. rewrite app_nil_r. auto.
  - destruct Hok as [Hlen [Hfol Hok]]. destruct (hist_last _ _ _ _ Hh) as [_ [_ [Hpos Hub]]].
    destruct (push_step tm fol m) as [f [nb' [E' Hs]]]; auto.
    { intros p tr Hp. split; [|apply (Hub _ _ Hp)]. apply Nat.lt_le_trans with n; auto. apply Hpos, in_map_fst. eauto. }
    cbn [trajmap_run] in E. rewrite E' in E.
    rewrite (IH (mkMap (frames tm ++ [f]) nb') m (h0 ++ [(fol, m)])) with (tm' := tm'); auto.
    + unfold map_frame_sizes. cbn [frames]. rewrite map_app, <- app_assoc. simpl.
      rewrite (good_full f m); [auto|apply Hs|apply Hs].
    + cbn [frames nb_traj]. econstructor; eauto.
Qed.
Lemma sizes_new n : map_frame_sizes (trajmap_new n) = [n].
Proof.
  unfold map_frame_sizes, trajmap_new. cbn [frames map]. rewrite identity_frame; try (intros x []); [|apply good_nil].
  simpl. rewrite map_length, seq_length. auto.
Qed.
Lemma facts_bij fs nb t f : facts fs nb -> nth_error fs t = Some f -> bijective_frame (length f) f.
Proof.
  intros F E. destruct (fa_good _ _ F t f E) as [[G1 G2] Hp]. split; [|split; [|split]]; auto.
  - intros p. rewrite Hp. apply in_map_fst.
  - intros p tr tr' H1 H2. assert (Ee : (p, tr) = (p, tr')) by (eapply (NoDup_map_inj fst); eauto). congruence.
  - intros p p' tr H1 H2. assert (Ee : (p, tr) = (p', tr)) by (eapply (NoDup_map_inj snd); eauto). congruence.
Qed.

(** * C16: with in-range followers no push_back goes wrong, and every frame is a bijection. *)
Theorem C16_bijection n h : history_ok n h -> exists tm, trajmap_run (trajmap_new n) h = Some tm /\
  map_frame_sizes tm = n :: map snd h /\
  forall t f, frame_at tm t f -> nth_error (n :: map snd h) t = Some (length f) /\ bijective_frame (length f) f.
Proof.
  intros Hok. destruct (run_hist_new n h Hok) as [tm [E Hh]]. exists tm. split; auto.
  assert (Hs : map_frame_sizes tm = n :: map snd h).
  { rewrite (run_sizes h _ n [] (hist_init n) Hok tm E), sizes_new. auto. }
  split; auto. intros t f Ht. split; [|eapply facts_bij; eauto; eapply hist_facts; eauto].
  rewrite <- Hs. unfold map_frame_sizes. rewrite nth_error_map. unfold frame_at in Ht. rewrite Ht. auto.
Qed.

(** * C17 *)
Theorem C17_contiguous n h tm : history_ok n h -> trajmap_run (trajmap_new n) h = Some tm ->
  forall t1 t t2 tr, present tm t1 tr -> present tm t2 tr -> t1 <= t <= t2 -> present tm t tr.
Proof.
  intros Hok E. destruct (run_hist_new n h Hok) as [tm' [E' Hh]]. rewrite E in E'. injection E' as <-.
  apply (fa_contig _ _ (hist_facts _ _ _ _ Hh)).
Qed.
Theorem C17_numbering n h tm : history_ok n h -> trajmap_run (trajmap_new n) h = Some tm ->
  (** every number below getNbTraj, and no other, is a trajectory *)
  (forall tr, tr < nb_traj tm <-> exists t, present tm t tr) /\
  (** numbers increase with the time of first appearance *)
  (forall t tr tr', present tm t tr -> tr' < tr -> exists t', t' <= t /\ present tm t' tr') /\
  (** and, in the frame of first appearance, with the position *)
  (forall t f p tr p' tr', frame_at tm t f -> In (p, tr) f -> In (p', tr') f ->
     (forall t', t' < t -> ~ present tm t' tr) -> tr < tr' -> p < p').
Proof.
  intros Hok E. destruct (run_hist_new n h Hok) as [tm' [E' Hh]]. rewrite E in E'. injection E' as <-.
  pose proof (hist_facts _ _ _ _ Hh) as F. split; [|split].
  - intros tr. split; [apply (fa_all _ _ F)|intros [t Ht]; eapply (fa_ub _ _ F); eauto].
  - apply (fa_order _ _ F).
  - apply (fa_mono _ _ F).
Qed.
Theorem C17_first_frame n h tm : history_ok n h -> trajmap_run (trajmap_new n) h = Some tm ->
  exists f, frame_at tm 0 f /\ forall p tr, In (p, tr) f <-> p = tr /\ p < n.
Proof.
  intros Hok E. destruct (run_hist_new n h Hok) as [tm' [E' Hh]]. rewrite E in E'. injection E' as <-.
  assert (Hfirst : forall h tm tm' f, trajmap_run tm h = Some tm' -> nth_error (frames tm) 0 = Some f -> nth_error (frames tm') 0 = Some f).
  { clear. induction h as [|[fol m] h IH]; intros tm tm' f E H; [injection E as <-; auto|]. cbn [trajmap_run] in E.
    unfold trajmap_push in E. destruct (gather_links fol _); [|discriminate]. destruct (forallb _ _); [|discriminate].
    destruct (start_new _ _ _ _) as [f' nb']. eapply IH; eauto. cbn [frames]. rewrite nth_error_app1; auto. eapply nth_error_lt; eauto. }
  exists (map (fun i => (i, i)) (seq 0 n)). split.
  - unfold frame_at. eapply Hfirst; eauto. unfold trajmap_new. cbn [frames]. rewrite identity_frame; try (intros x []); [|apply good_nil]. auto.
  - intros p tr. rewrite in_map_iff. split.
    + intros [i [Ei Hi]]. injection Ei as <- <-. apply in_seq in Hi. split; [auto|lia].
    + intros [<- Hp]. exists p. split; auto. apply in_seq. lia.
Qed.

Definition demo_history : list (list folmap * nat) :=
  [([[(5%Z, 0); (9%Z, 2)]; [(3%Z, 0)]; []], 3); ([[(1%Z, 1)]; []; [(1%Z, 1); (4%Z, 0)]], 4)].
Example C16_case : history_ok 3 demo_history /\
  trajmap_run (trajmap_new 3) demo_history =
    Some (mkMap [[(0, 0); (1, 1); (2, 2)]; [(0, 1); (2, 0); (1, 3)]; [(1, 1); (0, 0); (2, 4); (3, 5)]] 6).
Proof.
  split; [|reflexivity]. simpl. repeat split; try lia; repeat (constructor; simpl; try lia).
Qed.

(** * C18 *)
Theorem C18_shortest_first n h fol m : history_ok n (h ++ [(fol, m)]) ->
  exists tm tm', trajmap_run (trajmap_new n) h = Some tm /\ trajmap_push tm fol m = Some tm' /\
    let g := last (frames tm) [] in let f := last (frames tm') [] in
    frames tm' = frames tm ++ [f] /\
    (** every link that continues a trajectory is a candidate *)
    (forall p tr, In (p, tr) f -> tr < nb_traj tm -> exists d, candidate fol g d p tr) /\
    (** a candidate is accepted, or its position or trajectory is taken by another one that is not longer *)
    (forall d p tr, candidate fol g d p tr -> In (p, tr) f \/
       exists d' p' tr', candidate fol g d' p' tr' /\ In (p', tr') f /\ (d' <= d)%Z /\
         ((p' = p /\ tr' <> tr) \/ (tr' = tr /\ p' <> p))) /\
    (** the positions left over start new trajectories *)
    (forall p tr, In (p, tr) f -> (forall tr' d, ~ candidate fol g d p tr') -> nb_traj tm <= tr).
Proof.
  intros Hok. assert (Hok1 : history_ok n h).
  { clear - Hok. revert n Hok. induction h as [|[f k] h IH]; intros n H; simpl in *; auto. intuition. }
  destruct (run_hist_new n h Hok1) as [tm [E Hh]].
  assert (Hlast : last (map snd h) n <= length fol /\ Forall (Forall (fun df => snd df < m)) fol).
  { clear - Hok. revert n Hok. induction h as [|[f k] h IH]; intros n H.
    - simpl in *. tauto.
    - destruct H as [_ [_ H]]. apply IH in H. cbn [map]. rewrite last_cons. exact H. }
  destruct (hist_last _ _ _ _ Hh) as [_ [_ [Hpos Hub]]].
  destruct (push_step tm fol m) as [f [nb' [E' Hs]]]; [|apply Hlast|].
  { intros p tr Hp. split; [|apply (Hub _ _ Hp)]. eapply Nat.lt_le_trans; [|apply Hlast]. apply Hpos, in_map_fst. eauto. }
  exists tm, (mkMap (frames tm ++ [f]) nb'). split; auto. split; auto. cbn [frames]. rewrite last_last. split; auto. split; [apply Hs|]. split.
  - intros d p tr Hc. destruct (st_greedy _ _ _ _ _ _ Hs d p tr Hc) as [d' [p' [tr' [H1 [H2 [H3 H4]]]]]].
    destruct (Nat.eq_dec p' p) as [->|Hp], (Nat.eq_dec tr' tr) as [->|Ht]; auto; right; exists d', p', tr' || (exists d', p, tr') || (exists d', p', tr); intuition.
  - intros p tr Hp Hno. destruct (Nat.lt_ge_cases tr (nb_traj tm)) as [Hlt|]; auto.
    destruct (st_old _ _ _ _ _ _ Hs p tr Hp Hlt) as [d Hd]. exfalso. eapply Hno; eauto.
Qed.

(** * C19 *)
Theorem C19_index n h : history_ok n h -> exists tm ti, trajmap_run (trajmap_new n) h = Some tm /\ index_of_map tm = Some ti /\
  length (trajs ti) = nb_traj tm /\ map (@length nat) (inverse ti) = n :: map snd h /\
  forall t p tr, (exists f, frame_at tm t f /\ In (p, tr) f) <-> (exists T, nth_error (trajs ti) tr = Some T /\ at_time T t p).
Proof.
  intros Hok. destruct (C16_bijection n h Hok) as [tm [E [Hsz _]]]. destruct (run_hist_new n h Hok) as [tm' [E' Hh]].
  rewrite E in E'. injection E' as <-. destruct (index_of_hist _ _ _ Hh) as [ti [Ei [H1 [H2 [H3 H4]]]]].
  exists tm, ti. split; auto. split; auto. split; auto. split; [congruence|]. intros t p tr. apply (H4 t p tr).
Qed.
Theorem C19_inverse n h tm ti : history_ok n h -> trajmap_run (trajmap_new n) h = Some tm -> index_of_map tm = Some ti ->
  forall t p tr, invert ti t p = Some tr <-> exists T, nth_error (trajs ti) tr = Some T /\ at_time T t p.
Proof.
  intros Hok E Ei t p tr. destruct (run_hist_new n h Hok) as [tm' [E' Hh]]. rewrite E in E'. injection E' as <-.
  destruct (index_of_hist _ _ _ Hh) as [ti' [Ei' [_ [_ [_ H]]]]]. rewrite Ei in Ei'. injection Ei' as <-.
  destruct (H t p tr) as [Ha Hb]. rewrite <- Hb. auto.
Qed.
(** makeInverse alone, for any list of trajectories (e.g. one read from a file) without two trajectories at the
    same place and with positions below the given frame sizes. *)
Theorem C19_make_inverse tri sizes :
  (forall tr T t p, nth_error tri tr = Some T -> at_time T t p -> exists n, nth_error sizes t = Some n /\ p < n) ->
  (forall tr tr' T U t p, nth_error tri tr = Some T -> nth_error tri tr' = Some U -> at_time T t p -> at_time U t p -> tr = tr') ->
  exists inv, make_inverse tri sizes = Some inv /\ map (@length nat) inv = sizes /\
    forall tr T t p, nth_error tri tr = Some T -> at_time T t p -> invert (mkIndex tri inv) t p = Some tr.
Proof. exact (make_inverse_ok tri sizes). Qed.
Theorem C19_frame_sizes n h tm ti : history_ok n h -> trajmap_run (trajmap_new n) h = Some tm -> index_of_map tm = Some ti ->
  index_frame_sizes (trajs ti) (S (length h)) = Some (n :: map snd h).
Proof.
  intros Hok E Ei. destruct (C16_bijection n h Hok) as [tm' [E' [Hsz Hbij]]]. rewrite E in E'. injection E' as <-.
  destruct (run_hist_new n h Hok) as [tm' [E' Hh]]. rewrite E in E'. injection E' as <-.
  destruct (index_of_hist _ _ _ Hh) as [ti' [Ei' [Hlen [_ [Hne H]]]]]. rewrite Ei in Ei'. injection Ei' as <-.
  assert (Hfr := fun t p tr => proj1 (H t p tr)). assert (Hiv := fun t p tr => proj2 (H t p tr)).
  assert (Hfl : length (frames tm) = S (length h)).
  { transitivity (length (map_frame_sizes tm)); [unfold map_frame_sizes; rewrite map_length; auto|]. rewrite Hsz. simpl. rewrite map_length. auto. }
  destruct (count_trajs_ok (trajs ti) (repeat 0 (S (length h)))) as [r [Er [Lr Hr]]].
  { intros tr T HT. rewrite repeat_length. destruct (at_time_ex T (start T + length (steps T) - 1)) as [p Hp].
    { specialize (Hne tr T HT). destruct (steps T); simpl in *; [congruence|lia]. }
    assert (Hf : in_frames (frames tm) (start T + length (steps T) - 1) p tr) by (apply Hfr; eauto).
    apply in_frames_lt in Hf. lia. }
  unfold index_frame_sizes. rewrite Er. f_equal. rewrite <- Hsz. apply nth_error_ext. intros t.
  rewrite repeat_length in Lr.
  destruct (Nat.lt_ge_cases t (S (length h))) as [Ht|Ht].
  - rewrite (Hr t 0) by (apply nth_error_repeat_x; auto). unfold map_frame_sizes. rewrite nth_error_map.
    destruct (nth_error_ex (frames tm) t) as [f Hf]; [lia|]. rewrite Hf. simpl. f_equal.
    pose proof (hist_facts _ _ _ _ Hh) as F. destruct (fa_good _ _ F t f Hf) as [[_ Hg] _].
    rewrite filter_index_length, <- (map_length snd f). apply NoDup_length_ext; auto.
    + apply NoDup_filter, seq_NoDup.
    + intros tr. rewrite filter_In, in_seq, in_map_snd. split.
      * intros [_ Hc]. destruct (nth_error (trajs ti) tr) as [T|] eqn:HT; [|discriminate].
        unfold covers in Hc. apply andb_true_iff in Hc. rewrite Nat.leb_le, Nat.ltb_lt in Hc.
        destruct (at_time_ex T t Hc) as [p Hp]. assert (Hi : in_frames (frames tm) t p tr) by (apply Hfr; eauto).
        destruct Hi as [f' [Ef' Hi]]. exists p. congruence.
      * intros [p Hp]. assert (Hi : in_frames (frames tm) t p tr) by (exists f; auto). apply Hfr in Hi. destruct Hi as [T [HT Ha]].
        pose proof (nth_error_lt _ _ _ HT). split; [lia|]. rewrite HT. unfold covers. apply at_time_range in Ha.
        apply andb_true_iff. rewrite Nat.leb_le, Nat.ltb_lt. auto.
  - assert (nth_error r t = None) as -> by (apply nth_error_None; lia). symmetry. apply nth_error_None. rewrite Hsz. simpl. rewrite map_length. lia.
Qed.
Example C19_case : exists ti, index_of_map (mkMap [[(0, 0); (1, 1); (2, 2)]; [(0, 1); (2, 0); (1, 3)]; [(1, 1); (0, 0); (2, 4); (3, 5)]] 6) = Some ti /\
  trajs ti = [mkTraj 0 [0; 2; 0]; mkTraj 0 [1; 0; 1]; mkTraj 0 [2]; mkTraj 1 [1]; mkTraj 2 [2]; mkTraj 2 [3]] /\
  inverse ti = [[0; 1; 2]; [1; 3; 0]; [0; 1; 4; 5]].
Proof. eexists. repeat split. Qed.

(** * C20 *)
(** Numbers below 2^64. *)
Definition size_t_traj (T : traj) : Prop :=
  steps T <> [] /\ (Z.of_nat (start T) < 2 ^ 64)%Z /\ Forall (fun p => (Z.of_nat p < 2 ^ 64)%Z) (steps T).
Lemma fits_Z n : (Z.of_nat n < 2 ^ 64)%Z -> fits n.
Proof. unfold fits, two64. change (2 ^ 64)%Z with (Z.of_N (2 ^ 64)). rewrite <- nat_N_Z. apply N2Z.inj_lt. Qed.
Theorem C20_round_trip tri : Forall size_t_traj tri ->
  exists file, print_index tri = Some file /\ read_index file [] = Some tri /\
    (** and appends to an index that was not empty *)
    forall tri0, read_index file tri0 = Some (tri0 ++ tri).
Proof.
  intros H. assert (Hf : Forall traj_fits tri).
  { eapply Forall_impl; [|exact H]. intros T [H1 [H2 H3]]. split; auto. split; [apply fits_Z, H2|].
    eapply Forall_impl; [|exact H3]. intros p. apply fits_Z. }
  destruct (read_index_ok tri [] Hf) as [l [E1 E2]]. exists l. split; auto. split; auto. intros tri0.
  destruct (read_index_ok tri tri0 Hf) as [l' [E1' E2']]. congruence.
Qed.
(** Writing an index that holds an empty trajectory is undefined. *)
Theorem C20_empty_refuted tri T : In T tri -> steps T = [] -> print_index tri = None.
Proof.
  intros Hin HT. induction tri as [|U tri IH]; [destruct Hin|]. cbn [print_index]. destruct Hin as [->|Hin].
  - unfold print_traj. rewrite HT. auto.
  - rewrite IH by auto. destruct (print_traj U); auto.
Qed.
Example C20_case : Forall size_t_traj [mkTraj 0 [12; 0; 305]; mkTraj 7 [1]] /\
  option_map (fun l => read_index l []) (print_index [mkTraj 0 [12; 0; 305]; mkTraj 7 [1]]) = Some (Some [mkTraj 0 [12; 0; 305]; mkTraj 7 [1]]).
Proof. split; [|reflexivity]. repeat constructor; simpl; try discriminate; lia. Qed.

(** * C21 *)
Theorem C21_round_trip (V : Type) n h tm ti t size (m : list (nat * V)) :
  history_ok n h -> (Z.of_nat (S (length h)) <= 2 ^ 64)%Z ->
  trajmap_run (trajmap_new n) h = Some tm -> index_of_map tm = Some ti ->
  nth_error (n :: map snd h) t = Some size -> is_map m -> (forall p v, In (p, v) m -> p < size) ->
  exists r, pos_to_traj V ti t m [] = Some r /\ is_map r /\
    (forall tr v, lookup tr r = Some v <-> exists p f, frame_at tm t f /\ In (p, tr) f /\ lookup p m = Some v) /\
    traj_to_pos V ti t r [] = Val m.
Proof.
  intros Hok Hbig E Ei Hsize Hm Hdom.
  destruct (C16_bijection n h Hok) as [tm' [E' [Hsz Hbij]]]. rewrite E in E'. injection E' as <-.
  destruct (run_hist_new n h Hok) as [tm' [E' Hh]]. rewrite E in E'. injection E' as <-.
  destruct (index_of_hist _ _ _ Hh) as [ti' [Ei' [Hlen [_ [Hne H]]]]]. rewrite Ei in Ei'. injection Ei' as <-.
  assert (Hfr := fun t p tr => proj1 (H t p tr)). assert (Hiv := fun t p tr => proj2 (H t p tr)).
  assert (Hfl : length (frames tm) = S (length h)).
  { transitivity (length (map_frame_sizes tm)); [unfold map_frame_sizes; rewrite map_length; auto|]. rewrite Hsz. simpl. rewrite map_length. auto. }
  assert (Hsmall : forall tr T, nth_error (trajs ti) tr = Some T -> small T).
  { intros tr T HT. split; [eapply Hne; eauto|]. destruct (at_time_ex T (start T + length (steps T) - 1)) as [p Hp].
    { specialize (Hne tr T HT). destruct (steps T); simpl in *; [congruence|lia]. }
    assert (Hf : in_frames (frames tm) (start T + length (steps T) - 1) p tr) by (apply Hfr; eauto).
    apply in_frames_lt in Hf. unfold size_mod. lia. }
  destruct (nth_error_ex (frames tm) t) as [f Hf]; [rewrite Hfl; apply nth_error_lt in Hsize; simpl in Hsize; rewrite map_length in Hsize; auto|].
  destruct (Hbij t f Hf) as [Hs2 Hb]. rewrite Hsize in Hs2. injection Hs2 as ->.
  assert (Hinv : forall p v, In (p, v) m -> exists tr, invert ti t p = Some tr).
  { intros p v Hp. apply Hdom in Hp. apply Hb in Hp. destruct Hp as [tr Hp]. exists tr. apply Hiv. exists f. auto. }
  assert (Hnil : is_map (@nil (nat * V))) by constructor.
  assert (Hinj : forall k1 k2 k', invert ti t k1 = Some k' -> invert ti t k2 = Some k' -> k1 = k2).
  { intros k1 k2 k' H1 H2. apply Hiv in H1. apply Hiv in H2. destruct H1 as [f1 [E1 H1]], H2 as [f2 [E2 H2]].
    assert (f2 = f1) by congruence. subst. assert (f1 = f) by congruence. subst.
    destruct Hb as [_ [_ [Hb _]]]. eapply Hb; eauto. }
  exists (rename V (invert ti t) m []). split; [apply pos_to_traj_rename, Hinv|].
  split; [apply rename_is_map, Hnil|]. 
  assert (Hlk : forall tr v, lookup tr (rename V (invert ti t) m []) = Some v <-> exists p, In (p, v) m /\ invert ti t p = Some tr).
  { intros tr v. rewrite rename_lookup; auto. simpl. split; [intros [H1|H1]; [discriminate|auto]|auto]. }
  split.
  - intros tr v. rewrite Hlk. split.
    + intros [p [H1 H2]]. exists p, f. split; auto. apply Hiv in H2. destruct H2 as [f2 [E2 H2]]. assert (f2 = f) by congruence. subst.
      split; auto. apply lookup_in; auto.
    + intros [p [f2 [E2 [H2 H3]]]]. exists p. split; [apply lookup_in; auto|]. apply Hiv. exists f2. auto.
  - rewrite traj_to_pos_rename; auto.
    + f_equal. apply rename_back; auto. intros p tr. rewrite traj_pos_at by (intros U HU; eauto). rewrite <- (Hfr t p tr). symmetry. apply Hiv.
    + intros tr v Hin. apply lookup_in in Hin; [|apply rename_is_map, Hnil]. apply Hlk in Hin. destruct Hin as [p [_ Hp]].
      apply Hiv in Hp. apply Hfr in Hp. destruct Hp as [T [HT _]]. eapply nth_error_lt; eauto.
Qed.
(** The other way: trajectories that do not exist at [t] are dropped, the others keep their value. *)
Theorem C21_traj_to_pos (V : Type) n h tm ti t (m : list (nat * V)) :
  history_ok n h -> (Z.of_nat (S (length h)) <= 2 ^ 64)%Z ->
  trajmap_run (trajmap_new n) h = Some tm -> index_of_map tm = Some ti ->
  is_map m -> (forall tr v, In (tr, v) m -> tr < nb_traj tm) ->
  exists r, traj_to_pos V ti t m [] = Val r /\ is_map r /\
    (forall p v, lookup p r = Some v <-> exists tr f, frame_at tm t f /\ In (p, tr) f /\ lookup tr m = Some v).
Proof.
  intros Hok Hbig E Ei Hm Hdom.
  destruct (C16_bijection n h Hok) as [tm' [E' [Hsz Hbij]]]. rewrite E in E'. injection E' as <-.
  destruct (run_hist_new n h Hok) as [tm' [E' Hh]]. rewrite E in E'. injection E' as <-.
  destruct (index_of_hist _ _ _ Hh) as [ti' [Ei' [Hlen [_ [Hne H]]]]]. rewrite Ei in Ei'. injection Ei' as <-.
  assert (Hfr := fun t p tr => proj1 (H t p tr)). assert (Hiv := fun t p tr => proj2 (H t p tr)).
  assert (Hfl : length (frames tm) = S (length h)).
  { transitivity (length (map_frame_sizes tm)); [unfold map_frame_sizes; rewrite map_length; auto|]. rewrite Hsz. simpl. rewrite map_length. auto. }
  assert (Hsmall : forall tr T, nth_error (trajs ti) tr = Some T -> small T).
  { intros tr T HT. split; [eapply Hne; eauto|]. destruct (at_time_ex T (start T + length (steps T) - 1)) as [p Hp].
    { specialize (Hne tr T HT). destruct (steps T); simpl in *; [congruence|lia]. }
    assert (Hf : in_frames (frames tm) (start T + length (steps T) - 1) p tr) by (apply Hfr; eauto).
    apply in_frames_lt in Hf. unfold size_mod. lia. }
  assert (Hat : forall tr p, traj_pos ti t tr = Some p <-> in_frames (frames tm) t p tr).
  { intros tr p. rewrite traj_pos_at by (intros U HU; eauto). rewrite (proj1 (H t p tr)). tauto. }
  assert (Hnil : is_map (@nil (nat * V))) by constructor.
  exists (rename V (traj_pos ti t) m []). split; [apply traj_to_pos_rename; auto; intros tr v Hin; rewrite Hlen; eauto|].
  split; [apply rename_is_map, Hnil|]. intros p v. rewrite rename_lookup; auto.
  - simpl. split.
    + intros [H1|[tr [H1 H2]]]; [discriminate|]. apply Hat in H2. destruct H2 as [f [Ef H2]]. exists tr, f. split; auto. split; auto. apply lookup_in; auto.
    + intros [tr [f [Ef [H1 H2]]]]. right. exists tr. split; [apply lookup_in; auto|]. apply Hat. exists f. auto.
  - intros k1 k2 k' H1 H2. apply Hat in H1. apply Hat in H2. destruct H1 as [f1 [E1 H1]], H2 as [f2 [E2 H2]].
    assert (f2 = f1) by congruence. subst. destruct (Hbij t f1 E1) as [_ [_ [Hb _]]]. eapply Hb; eauto.
Qed.
Example C21_case : let ti := mkIndex [mkTraj 0 [0; 2; 0]; mkTraj 0 [1; 0; 1]; mkTraj 0 [2]; mkTraj 1 [1]; mkTraj 2 [2]; mkTraj 2 [3]]
     [[0; 1; 2]; [1; 3; 0]; [0; 1; 4; 5]] in
  pos_to_traj nat ti 1 [(0, 10); (2, 30)] [] = Some [(0, 30); (1, 10)] /\
  traj_to_pos nat ti 1 [(0, 30); (1, 10); (2, 5)] [] = Val [(0, 10); (2, 30)].
Proof. split; reflexivity. Qed.

Print Assumptions C15_subtraj. Print Assumptions C16_bijection. Print Assumptions C17_numbering. Print Assumptions C18_shortest_first.
Print Assumptions C19_frame_sizes. Print Assumptions C20_round_trip. Print Assumptions C21_round_trip. Print Assumptions C21_traj_to_pos.

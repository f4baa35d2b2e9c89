(** C81, C82: linking positions into trajectories, drift read from a file. *)
Require Import ZArith List Bool Arith Lia Sorted.
Require Import Verif.Base Verif.SortU Verif.ListX Verif.Box_Model Verif.RTree_Model Verif.RTree_Spec Verif.RTree_Heuristics Verif.Index_Model Verif.Particles_Model Verif.Particles_Spec Verif.Particles_Proofs
  Verif.Traj_Model Verif.Traj_Spec Verif.Traj_Proofs Verif.TrajMap_Proofs Verif.Traj_Props Verif.Cluster_Spec Verif.Cluster2_Proofs Verif.Corr_Model Verif.Link_Model Verif.Link_Spec Verif.Link_Proofs.
Import ListNotations.
Local Open Scope nat_scope.

Lemma link_history c range : config_ok c -> dims c = 3 -> forall fs, Forall (tree_ok c) fs -> forall first rest tm, fs = first :: rest ->
  exists h, (forall tm', trajmap_run tm h = Some tm' -> link_frames range fs tm = Val tm') /\ history_ok (length (pts first)) h /\ length (pts first) :: map snd h = map (fun st => length (pts st)) fs /\
    forall t now next, nth_error fs t = Some now -> nth_error fs (S t) = Some next -> exists fol, nth_error h t = Some (fol, length (pts next)) /\
      forall p x mm, nth_error (pts now) p = Some x -> nth_error fol p = Some mm -> forall d q, In (d, q) mm <-> exists y, nth_error (pts next) q = Some y /\ closer3 y x range /\ d = dist2 y x.
Proof.
  intros Hok H3. assert (G : forall fs, Forall (tree_ok c) fs -> forall first rest, fs = first :: rest ->
    exists h, (forall tm tm', trajmap_run tm h = Some tm' -> link_frames range fs tm = Val tm') /\ history_ok (length (pts first)) h /\ length (pts first) :: map snd h = map (fun st => length (pts st)) fs /\
    forall t now next, nth_error fs t = Some now -> nth_error fs (S t) = Some next -> exists fol, nth_error h t = Some (fol, length (pts next)) /\
      forall p x mm, nth_error (pts now) p = Some x -> nth_error fol p = Some mm -> forall d q, In (d, q) mm <-> exists y, nth_error (pts next) q = Some y /\ closer3 y x range /\ d = dist2 y x).
  2:{ intros fs Hf first rest tm E. destruct (G fs Hf first rest E) as [h [H1 H2]]. exists h. split; auto. }
  induction fs as [|now [|next fs] IH]; intros Hf first rest E; [discriminate| |].
  - injection E as <- <-. exists []. cbn. split; [intros tm tm' H; injection H as <-; auto|]. split; auto. split; auto. intros t a b _ H. destruct t; discriminate.
  - injection E as <- <-. inversion Hf as [|? ? [Hp _] Hf']; subst. assert (Hn : tree_ok c next) by (inversion Hf'; auto). destruct (IH Hf' next fs eq_refl) as [h [H1 [H2 [H4 H5]]]].
    destruct (followers_ok c now next range Hok H3 Hp Hn) as [fol [Ef [Lf Kf]]]. exists ((fol, length (pts next)) :: h). split; [|split; [|split]].
    + intros tm tm' Hr. cbn [trajmap_run] in Hr. cbn [link_frames]. rewrite Ef. cbn [obind]. destruct (trajmap_push tm fol (length (pts next))) as [tm1|]; [|discriminate]. apply (H1 tm1 tm' Hr).
    + cbn [history_ok]. split; [lia|]. split; auto. apply Forall_forall. intros mm Hm. apply Forall_forall. intros [d q] Hd. apply In_nth_error in Hm. destruct Hm as [p Hm].
      destruct (nth_error_ex (pts now) p) as [x Hx]; [rewrite <- Lf; eapply nth_error_lt; eauto|]. apply (Kf p x mm Hx Hm) in Hd. destruct Hd as [y [Hy _]]. eapply nth_error_lt; eauto.
    + cbn [map snd]. f_equal. exact H4.
    + intros [|t] a b Ha Hb; cbn [nth_error] in Ha, Hb |- *; [|eapply H5; eauto]. injection Ha as <-. injection Hb as <-. exists fol. auto.
Qed.

(** C81.  [link] never fails on a non-empty serie; the positions are kept, each frame has its index; *)
Theorem C81_link c radius frames : config_ok c -> dims c = 3 -> frames <> [] -> Forall (frame_ready c) frames ->
  exists fs ti, link_all c radius frames = Val (fs, ti) /\ map pts fs = map pts frames /\ Forall (fun st => pindex st <> None) fs /\
    (** each position of each frame is on exactly one trajectory, and a trajectory is at one position at most at a time *)
    (forall t p, (exists x, pos_at frames t p x) <-> exists tr, on_traj ti tr t p) /\
    (forall t p tr tr', on_traj ti tr t p -> on_traj ti tr' t p -> tr = tr') /\
    (forall t p p' tr, on_traj ti tr t p -> on_traj ti tr t p' -> p = p') /\
    (forall t p tr, invert ti t p = Some tr <-> on_traj ti tr t p) /\
    (** successive positions of a trajectory are closer than a diameter *)
    (forall t p q x y tr, on_traj ti tr t p -> on_traj ti tr (t + 1) q -> pos_at frames t p x -> pos_at frames (t + 1) q y -> closer3 y x (2 * radius)) /\
    (** positions closer than a diameter follow each other, or one of them has a link that is not longer *)
    (forall t p q x y, pos_at frames t p x -> pos_at frames (t + 1) q y -> closer3 y x (2 * radius) ->
       (exists tr, on_traj ti tr t p /\ on_traj ti tr (t + 1) q) \/
       (exists p' q' x' y' tr', pos_at frames t p' x' /\ pos_at frames (t + 1) q' y' /\ on_traj ti tr' t p' /\ on_traj ti tr' (t + 1) q' /\
          (dist2 y' x' <= dist2 y x)%Z /\ ((p' = p /\ q' <> q) \/ (p' <> p /\ q' = q)))).
Proof.
  intros Hok H3 Hne Hr. destruct (osequence_ready c Hok H3 frames Hr) as [fs [Es [Hm Hf]]]. unfold link_all. rewrite Es. cbn [obind].
  assert (Hpos : forall t p x, pos_at frames t p x <-> exists st, nth_error fs t = Some st /\ nth_error (pts st) p = Some x).
  { intros t p x. unfold pos_at. assert (E : nth_error (map pts fs) t = nth_error (map pts frames) t) by (rewrite Hm; auto). rewrite !nth_error_map in E. destruct (nth_error fs t), (nth_error frames t); cbn in E; try discriminate.
    - injection E as E. split; intros [st [H1 H2]]; injection H1 as <-; eexists; split; eauto; congruence.
    - split; intros [st [H1 _]]; discriminate. }
  destruct fs as [|first rest]; [destruct frames; [congruence|discriminate]|]. set (fs := first :: rest) in *.
  destruct (link_history c (radius * 2) Hok H3 fs Hf first rest (trajmap_new (length (pts first))) eq_refl) as [h [Hrun [Hh [Hsz Hfol]]]].
  destruct (C19_index (length (pts first)) h Hh) as [tm [ti [Et [Ei [_ [_ Hfr]]]]]]. rewrite (Hrun tm Et). cbn [obind]. rewrite Ei. exists fs, ti. split; auto. split; auto.
  split; [eapply Forall_impl; [|exact Hf]; intros st [_ [t [E _]]]; congruence|].
  destruct (C16_bijection _ _ Hh) as [tm' [Et' [Hs Hbij]]]. assert (tm' = tm) by congruence. subst tm'. rewrite Hsz in Hbij, Hs.
  assert (Hon : forall t p tr, on_traj ti tr t p <-> exists f, frame_at tm t f /\ In (p, tr) f) by (intros t p tr; unfold on_traj; symmetry; apply Hfr).
  assert (Hframe : forall t st, nth_error fs t = Some st -> exists f, frame_at tm t f /\ length f = length (pts st)).
  { intros t st Ht. assert (H : nth_error (map_frame_sizes tm) t = Some (length (pts st))) by (rewrite Hs; apply (map_nth_error (fun st => length (pts st))); auto).
    unfold map_frame_sizes in H. apply nth_error_map_inv in H. destruct H as [f [Hf' Hl]]. exists f. auto. }
  assert (Hframe' : forall t f, frame_at tm t f -> exists st, nth_error fs t = Some st /\ length f = length (pts st)).
  { intros t f Ht. destruct (Hbij t f Ht) as [Hn _]. apply nth_error_map_inv in Hn. destruct Hn as [st [H1 H2]]. eauto. }
  assert (Hstep : forall t now next, nth_error fs t = Some now -> nth_error fs (t + 1) = Some next -> exists g f, frame_at tm t g /\ frame_at tm (t + 1) f /\
      (forall p q tr x, nth_error (pts now) q = Some x -> In (q, tr) g -> In (p, tr) f -> exists y, nth_error (pts next) p = Some y /\ closer3 y x (radius * 2)) /\
      (forall p q tr x y, nth_error (pts now) q = Some x -> nth_error (pts next) p = Some y -> closer3 y x (radius * 2) -> In (q, tr) g ->
         In (p, tr) f \/ exists p' q' tr' x' y', nth_error (pts now) q' = Some x' /\ nth_error (pts next) p' = Some y' /\ In (q', tr') g /\ In (p', tr') f /\ (dist2 y' x' <= dist2 y x)%Z /\
           ((p' = p /\ tr' <> tr) \/ (tr' = tr /\ p' <> p)))).
  { intros t now next H1 H2. rewrite Nat.add_1_r in *. destruct (Hfol t now next H1 H2) as [fol [Hht Kf]]. destruct (nth_error_split _ _ Hht) as [h1 [h2 [Eh Lh]]].
    rewrite Eh in Hh, Et. destruct (step_facts _ _ _ _ _ _ Hh Et) as [g [f [Hg [Hf' [Ha Hb]]]]]. rewrite Lh in *. exists g, f. split; auto. split; auto.
    assert (Hfl : length fol >= length (pts now)).
    { destruct (Hframe t now H1) as [g' [Hg' Hl]]. clear - Hh Hsz H1 Eh Lh. assert (Hq : forall h1 n fol m h2, history_ok n (h1 ++ (fol, m) :: h2) -> forall k, nth_error (n :: map snd (h1 ++ (fol, m) :: h2)) (length h1) = Some k -> k <= length fol).
      { induction h0 as [|[fo mm] h0 IH]; intros n fo' m' h2' H k Hk; cbn in H, Hk; [injection Hk as <-; apply H|]. destruct H as [_ [_ H]]. apply (IH mm fo' m' h2' H k Hk). }
      apply (Hq _ _ _ _ _ Hh). rewrite <- Eh, Hsz, Lh. apply (map_nth_error (fun st => length (pts st))); auto. }
    split.
    - intros p q tr x Hx Hq Hp. destruct (Ha p q tr Hq Hp) as [d [mm [Hmm Hd]]]. apply (Kf q x mm Hx Hmm) in Hd. destruct Hd as [y [Hy [Hc _]]]. eauto.
    - intros p q tr x y Hx Hy Hc Hq. destruct (nth_error_ex fol q) as [mm Hmm]; [apply nth_error_lt in Hx; lia|]. destruct (Hb (dist2 y x) p q tr mm Hq Hmm) as [H|[d' [p' [q' [tr' [mm' [Hq' [Hmm' [Hd' [Hp' [Hle Hor]]]]]]]]]]]; auto.
      { apply (Kf q x mm Hx Hmm). eauto. }
      right. destruct (Hframe t now H1) as [g' [Hg' Hl]]. assert (g' = g) by (unfold frame_at in *; congruence). subst g'. destruct (Hbij t g Hg) as [_ [Hcov _]].
      destruct (nth_error_ex (pts now) q') as [x' Hx']; [rewrite <- Hl; apply Hcov; eauto|]. apply (Kf q' x' mm' Hx' Hmm') in Hd'. destruct Hd' as [y' [Hy' [_ ->]]]. exists p', q', tr', x', y'. auto 10. }
  split; [|split; [|split; [|split; [|split]]]].
  - intros t p. split.
    + intros [x Hx]. apply Hpos in Hx. destruct Hx as [st [H1 H2]]. destruct (Hframe t st H1) as [f [Hf' Hl]]. destruct (Hbij t f Hf') as [_ [Hcov _]].
      destruct (proj1 (Hcov p)) as [tr H]; [rewrite Hl; eapply nth_error_lt; eauto|]. exists tr. apply Hon. eauto.
    + intros [tr H]. apply Hon in H. destruct H as [f [Hf' H]]. destruct (Hframe' t f Hf') as [st [H1 Hl]]. destruct (Hbij t f Hf') as [_ [Hcov _]].
      destruct (nth_error_ex (pts st) p) as [x Hx]; [rewrite <- Hl; apply Hcov; eauto|]. exists x. apply Hpos. eauto.
  - intros t p tr tr' H H'. apply Hon in H. apply Hon in H'. destruct H as [f [Hf' H]]. destruct H' as [f' [Hf'' H']]. assert (f' = f) by (unfold frame_at in *; congruence). subst.
    destruct (Hbij t f Hf') as [_ [_ [Hfun _]]]. eauto.
  - intros t p p' tr H H'. apply Hon in H. apply Hon in H'. destruct H as [f [Hf' H]]. destruct H' as [f' [Hf'' H']]. assert (f' = f) by (unfold frame_at in *; congruence). subst.
    destruct (Hbij t f Hf') as [_ [_ [_ [Hinj _]]]]. eauto.
  - intros t p tr. apply (C19_inverse _ _ _ _ Hh Et Ei).
  - intros t p q x y tr Hp Hq Hx Hy. apply Hpos in Hx. apply Hpos in Hy. destruct Hx as [now [H1 Hx]]. destruct Hy as [next [H2 Hy]].
    destruct (Hstep t now next H1 H2) as [g [f [Hg [Hf' [Ha _]]]]]. apply Hon in Hp. apply Hon in Hq. destruct Hp as [g' [Hg' Hp]]. destruct Hq as [f' [Hf'' Hq]].
    assert (g' = g) by (unfold frame_at in *; congruence). assert (f' = f) by (unfold frame_at in *; congruence). subst. destruct (Ha q p tr x Hx Hp Hq) as [y' [Hy' Hc]].
    rewrite (Z.mul_comm 2). congruence.
  - intros t p q x y Hx Hy Hc. assert (Hx0 := Hx). apply Hpos in Hx. apply Hpos in Hy. destruct Hx as [now [H1 Hx]]. destruct Hy as [next [H2 Hy]].
    destruct (Hstep t now next H1 H2) as [g [f [Hg [Hf' [_ Hb]]]]]. destruct (Hframe t now H1) as [g' [Hg' Hl]]. assert (g' = g) by (unfold frame_at in *; congruence). subst g'.
    destruct (Hbij t g Hg) as [_ [Hcov [Hfun [Hinj _]]]]. destruct (proj1 (Hcov p)) as [tr Hp]; [rewrite Hl; eapply nth_error_lt; eauto|]. rewrite (Z.mul_comm 2) in Hc.
    destruct (Hb q p tr x y Hx Hy Hc Hp) as [Hq|[q' [p' [tr' [x' [y' [Hx' [Hy' [Hp' [Hq' [Hle Hor]]]]]]]]]]].
    + left. exists tr. split; apply Hon; eauto.
    + right. exists p', q', x', y', tr'. split; [apply Hpos; eauto|]. split; [apply Hpos; eauto|]. split; [apply Hon; eauto|]. split; [apply Hon; eauto|]. split; auto.
      destruct Hor as [[-> Ht]|[-> Hq2]]; [right|left]; split; auto; [intros ->; apply Ht; eauto|eauto].
Qed.
(** Hence a particle that moves by less than a diameter, and by less than its distance to any other particle of either frame, is
    followed. *)
Theorem C81_followed c radius frames fs ti t p q x y : config_ok c -> dims c = 3 -> Forall (frame_ready c) frames -> link_all c radius frames = Val (fs, ti) ->
  pos_at frames t p x -> pos_at frames (t + 1) q y -> closer3 y x (2 * radius) ->
  (forall q' y', q' <> q -> pos_at frames (t + 1) q' y' -> (dist2 y x < dist2 y' x)%Z) -> (forall p' x', p' <> p -> pos_at frames t p' x' -> (dist2 y x < dist2 y x')%Z) ->
  exists tr, on_traj ti tr t p /\ on_traj ti tr (t + 1) q.
Proof.
  intros Hok H3 Hr E Hx Hy Hc Hq Hp. destruct (C81_link c radius frames Hok H3) as [fs' [ti' [E' [_ [_ [_ [_ [_ [_ [_ H]]]]]]]]]]; auto.
  { intros ->. destruct Hx as [st [H _]]. destruct t; discriminate. }
  rewrite E in E'. injection E' as <- <-. destruct (H t p q x y Hx Hy Hc) as [H1|[p' [q' [x' [y' [tr' [Hx' [Hy' [_ [_ [Hle Hor]]]]]]]]]]]; auto. exfalso.
  assert (Huniq : forall t p x x', pos_at frames t p x -> pos_at frames t p x' -> x = x') by (intros ? ? ? ? [s1 [A1 A2]] [s2 [B1 B2]]; congruence).
  destruct Hor as [[-> Hn]|[Hn ->]].
  - rewrite <- (Huniq _ _ _ _ Hx Hx') in Hle. specialize (Hq q' y' Hn Hy'). lia.
  - rewrite <- (Huniq _ _ _ _ Hy Hy') in Hle. specialize (Hp p' x' Hn Hx'). lia.
Qed.
(** Without frame the first one is read all the same. *)
Theorem C81_no_frame_refuted c radius : link_all c radius [] = UB.
Proof. reflexivity. Qed.
(** A frame that was indexed before a change of scale keeps its old index, and a particle that does not move is lost. *)
Theorem C81_rescaled_refuted : exists st fs ti x, prun lib_config (new_particles [[4; 4; 4]]%Z [] 1) [PIndex; PScale [10; 10; 10]%Z] = Some st /\
  link_all lib_config 1 [st; st] = Val (fs, ti) /\ pos_at [st; st] 0 0 x /\ pos_at [st; st] 1 0 x /\ ~ exists tr, on_traj ti tr 0 0 /\ on_traj ti tr 1 0.
Proof.
  eexists. eexists. eexists. exists [40; 40; 40]%Z. split; [vm_compute; reflexivity|]. split; [vm_compute; reflexivity|].
  split; [eexists; split; reflexivity|]. split; [eexists; split; reflexivity|]. intros [tr [[T [HT [k [E1 E2]]]] [T' [HT' [k' [E1' E2']]]]]].
  destruct tr as [|[|tr]]; cbn in HT, HT'; try (destruct tr; discriminate); injection HT as <-; injection HT' as <-; cbn in *; [destruct k'; [discriminate|destruct k'; discriminate]|destruct k; discriminate].
Qed.

Definition ex_f0 := new_particles [[0; 0; 0]; [10; 0; 0]; [20; 0; 0]]%Z [] 3.
Definition ex_f1 := new_particles [[19; 0; 0]; [1; 1; 0]; [40; 0; 0]]%Z [] 3.
Definition ex_f2 := new_particles [[2; 1; 0]; [41; 0; 0]; [18; 0; 0]; [5; 0; 0]]%Z [] 3.
Lemma new_ready c l bb r : Forall point3 l -> frame_ready c (new_particles l bb r).
Proof. intros H. exists l, bb, r, []. repeat split; auto. Qed.
Example C81_case : config_ok lib_config /\ dims lib_config = 3 /\ Forall (frame_ready lib_config) [ex_f0; ex_f1; ex_f2] /\
  exists fs ti, link_all lib_config 3 [ex_f0; ex_f1; ex_f2] = Val (fs, ti) /\ trajs ti = [mkTraj 0 [0; 1; 0]; mkTraj 0 [1]; mkTraj 0 [2; 0; 2]; mkTraj 1 [2; 1]; mkTraj 2 [3]].
Proof.
  split; [apply lib_config_ok|]. split; [reflexivity|]. split; [repeat constructor; apply new_ready; repeat constructor; repeat eexists|].
  eexists. eexists. split; vm_compute; reflexivity.
Qed.

(** C82.  Frame number t is moved by the sum of the displacements of the steps up to t, less the largest of these sums (or zero
    if they are all negative), along x and y.  With an offset the displacement of frame t is that of step t + offset, as long as
    t + offset is below the number of frames, and zero after. *)
Theorem C82_drift nums off frames : Forall (fun st => Forall point3 (pts st)) frames ->
  let n := length frames in
  let d h t := if t + off <? n then h (displ_at nums (t + off)) else 0%Z in
  exists mx my : Z,
    (forall h m, (h, m) = (fst, mx) \/ (h, m) = (snd, my) -> (0 <= m)%Z /\ (forall t, t < n -> (total (d h) 0 t <= m)%Z) /\ (m = 0%Z \/ exists t, t < n /\ m = total (d h) 0 t)) /\
    length (remove_drift_file (Some nums) off frames) = n /\
    (forall t p x' y' z', pos_at (remove_drift_file (Some nums) off frames) t p [x'; y'; z'] <->
       exists x y, pos_at frames t p [x; y; z'] /\ x' = (x + total (d fst) 0 t - mx)%Z /\ y' = (y + total (d snd) 0 t - my)%Z).
Proof.
  intros H3. cbv zeta. set (n := length frames). exists (top (total (used n off fst nums) 0) n), (top (total (used n off snd nums) 0) n). split; [|split].
  - intros h m [E|E]; injection E as -> ->; apply (top_spec (total (used n off _ nums) 0) n).
  - unfold remove_drift_file. rewrite map_length, combine_length, shifts_spec, map_length, seq_length. apply Nat.min_id.
  - intros t p x' y' z'. unfold pos_at, remove_drift_file. rewrite shifts_spec. fold n. cbv beta.
    change (fun t => if t + off <? n then fst (displ_at nums (t + off)) else 0%Z) with (used n off fst nums). change (fun t => if t + off <? n then snd (displ_at nums (t + off)) else 0%Z) with (used n off snd nums).
    assert (K : forall st, nth_error frames t = Some st -> nth_error (map (fun fd => shift (fst fd) (snd fd)) (combine frames (map (fun t => vec (total (used n off fst nums) 0 t - top (total (used n off fst nums) 0) n)
      (total (used n off snd nums) 0 t - top (total (used n off snd nums) 0) n)) (seq 0 n)))) t = Some (shift st (vec (total (used n off fst nums) 0 t - top (total (used n off fst nums) 0) n) (total (used n off snd nums) 0 t - top (total (used n off snd nums) 0) n)))).
    { intros st Hst. assert (t < n) by (eapply nth_error_lt; eauto). erewrite map_nth_error; [|apply combine_nth_error; split; [exact Hst|apply map_nth_error, nth_error_seq; auto]]. reflexivity. }
    split.
    + intros [st' [E1 E2]]. destruct (nth_error frames t) as [st|] eqn:Et.
      * rewrite (K st eq_refl) in E1. injection E1 as <-. cbn [shift pts] in E2. apply nth_error_map_inv in E2. destruct E2 as [q [Eq Hq]]. rewrite Forall_forall in H3. specialize (H3 st (nth_error_In _ _ Et)).
        rewrite Forall_forall in H3. destruct (H3 q (nth_error_In _ _ Eq)) as [x [y [z ->]]]. injection Hq as -> -> ->. rewrite Z.add_0_r. exists x, y. split; [eauto|]. split; lia.
      * apply nth_error_map_inv in E1. destruct E1 as [[a b] [E1 _]]. apply combine_nth_error in E1. destruct E1. congruence.
    + intros [x [y [[st [Et Eq]] [-> ->]]]]. rewrite (K st Et). eexists. split; [reflexivity|]. cbn [shift pts]. erewrite map_nth_error by eauto. unfold vec, Particles_Model.vadd. cbn [combine map fst snd]. rewrite Z.add_0_r, !Z.add_sub_assoc. reflexivity.
Qed.

(** With the first frame at time zero: the relative shift of successive frames is the displacement given in the file. *)
Lemma total_snoc f t : total f 0 (t + 1) = (total f 0 t + f (t + 1)%nat)%Z.
Proof.
  unfold total. rewrite !Nat.sub_0_r. rewrite (seq_app (t + 1) 1 0). rewrite map_app. cbn [seq map Nat.add]. generalize (map f (seq 0 (t + 1))). induction l as [|a l IH]; cbn in *; lia.
Qed.
Theorem C82_relative nums frames t p q x y z x1 y1 z1 : Forall (fun st => Forall point3 (pts st)) frames ->
  pos_at frames t p [x; y; z] -> pos_at frames (t + 1) q [x1; y1; z1] ->
  exists x' y' x1' y1', pos_at (remove_drift_file (Some nums) 0 frames) t p [x'; y'; z] /\ pos_at (remove_drift_file (Some nums) 0 frames) (t + 1) q [x1'; y1'; z1] /\
    (x1' - x' = x1 - x + fst (displ_at nums (t + 1)%nat))%Z /\ (y1' - y' = y1 - y + snd (displ_at nums (t + 1)%nat))%Z.
Proof.
  intros H3 Hp Hq. destruct (C82_drift nums 0 frames H3) as [mx [my [_ [_ K]]]]. set (n := length frames) in *.
  assert (Hn : t + 1 < n) by (destruct Hq as [st [H _]]; eapply nth_error_lt; eauto).
  do 4 eexists. split; [apply K; exists x, y; split; [exact Hp|split; reflexivity]|]. split; [apply K; exists x1, y1; split; [exact Hq|split; reflexivity]|].
  rewrite !total_snoc. rewrite Nat.add_0_r, (proj2 (Nat.ltb_lt (t + 1) n)) by lia. split; lia.
Qed.
(** No position moves towards the positive side. *)
Theorem C82_sign nums off frames t p x y z x' y' z' : Forall (fun st => Forall point3 (pts st)) frames ->
  pos_at frames t p [x; y; z] -> pos_at (remove_drift_file (Some nums) off frames) t p [x'; y'; z'] -> (x' <= x /\ y' <= y)%Z /\ z' = z.
Proof.
  intros H3 Hp Hp'. destruct (C82_drift nums off frames H3) as [mx [my [Hm [_ K]]]]. apply K in Hp'. destruct Hp' as [x0 [y0 [H [-> ->]]]].
  assert (E : [x; y; z] = [x0; y0; z']) by (destruct Hp as [s [A B]]; destruct H as [s' [A' B']]; congruence). injection E as <- <- <-. destruct Hp as [st [Hp _]]. apply nth_error_lt in Hp.
  destruct (Hm fst mx (or_introl eq_refl)) as [_ [H1 _]]. destruct (Hm snd my (or_intror eq_refl)) as [_ [H2 _]]. specialize (H1 t Hp). specialize (H2 t Hp). split; auto. lia.
Qed.
(** Without file nothing changes. *)
Theorem C82_no_file off frames : remove_drift_file None off frames = frames.
Proof. reflexivity. Qed.
(** Positions inside the image leave it on the negative side. *)
Theorem C82_negative_refuted : exists nums frames x', Forall (fun st => Forall point3 (pts st)) frames /\ pos_at frames 0 0 [0; 0; 0]%Z /\
  pos_at (remove_drift_file (Some nums) 0 frames) 0 0 [x'; 0; 0]%Z /\ (x' < 0)%Z.
Proof.
  exists [0; 0; 5; 0]%Z, [new_particles [[0; 0; 0]]%Z [] 1; new_particles [[0; 0; 0]]%Z [] 1], (-5)%Z. split; [repeat constructor; repeat eexists|].
  split; [eexists; split; reflexivity|]. split; [|lia]. eexists. split; reflexivity.
Qed.
(** With an offset, the n frames are steps offset to offset + n - 1, but the displacements of step n and after are never used. *)
Theorem C82_offset_refuted l tail off frames : length l = 2 * length frames ->
  remove_drift_file (Some (l ++ tail)) off frames = remove_drift_file (Some l) off frames.
Proof.
  intros Hl. unfold remove_drift_file. f_equal. f_equal. unfold drift_shifts. rewrite !read_spec.
  rewrite (map_ext (fun t => vec (used (length frames) off fst (l ++ tail) t) (used (length frames) off snd (l ++ tail) t)) (fun t => vec (used (length frames) off fst l t) (used (length frames) off snd l t))); auto.
  intros t. unfold used, displ_at. destruct (Nat.ltb_spec (t + off) (length frames)) as [H|H]; auto. cbn [fst snd]. rewrite !app_nth1 by lia. auto.
Qed.

(** The constructor links the shifted positions: two successive positions of a trajectory are closer than a diameter once the
    second is moved by the displacement given for its time step. *)
Lemma point3_vec x y : point3 (vec x y).
Proof. repeat eexists. Qed.
Theorem C82_then_link c radius nums frames : config_ok c -> dims c = 3 -> frames <> [] -> Forall (frame_ready c) frames ->
  exists fs ti, construct c radius (Some nums) 0 frames = Val (fs, ti) /\
    (forall t p, (exists x, pos_at frames t p x) <-> exists tr, on_traj ti tr t p) /\
    (forall t p q x y z x1 y1 z1 tr, on_traj ti tr t p -> on_traj ti tr (t + 1) q -> pos_at frames t p [x; y; z] -> pos_at frames (t + 1) q [x1; y1; z1] ->
       closer3 [x1 + fst (displ_at nums (t + 1)%nat); y1 + snd (displ_at nums (t + 1)%nat); z1]%Z [x; y; z] (2 * radius)).
Proof.
  intros Hok H3 Hne Hr. assert (Hp3 : Forall (fun st => Forall point3 (pts st)) frames) by (eapply Forall_impl; [|exact Hr]; intros st; apply ready_points; auto).
  assert (Hr' : Forall (frame_ready c) (remove_drift_file (Some nums) 0 frames)).
  { unfold remove_drift_file. rewrite shifts_spec. apply Forall_forall. intros st Hst. apply in_map_iff in Hst. destruct Hst as [[s v] [<- H]]. cbn [fst snd]. apply ready_shift; auto.
    - rewrite Forall_forall in Hr. apply Hr. eapply in_combine_l; eauto.
    - apply in_combine_r in H. apply in_map_iff in H. destruct H as [i [<- _]]. apply point3_vec. }
  assert (Hp3' : Forall (fun st => Forall point3 (pts st)) (remove_drift_file (Some nums) 0 frames)) by (eapply Forall_impl; [|exact Hr']; intros st; apply ready_points; auto).
  destruct (C82_drift nums 0 frames Hp3) as [mx [my [_ [Hl K]]]].
  destruct (C81_link c radius (remove_drift_file (Some nums) 0 frames) Hok H3) as [fs [ti [E [_ [_ [H1 [_ [_ [_ [H2 _]]]]]]]]]]; auto.
  { intros H. rewrite H in Hl. destruct frames; [congruence|discriminate]. }
  assert (P3 : forall fr t p x, Forall (fun st => Forall point3 (pts st)) fr -> pos_at fr t p x -> point3 x).
  { intros fr t p x F [st [A B]]. rewrite Forall_forall in F. specialize (F st (nth_error_In _ _ A)). rewrite Forall_forall in F. apply F. eapply nth_error_In; eauto. }
  exists fs, ti. split; auto. split.
  - intros t p. rewrite <- H1. split; intros [v Hv].
    + destruct (P3 _ _ _ _ Hp3 Hv) as [x [y [z ->]]]. eexists. apply K. exists x, y. split; [exact Hv|split; reflexivity].
    + destruct (P3 _ _ _ _ Hp3' Hv) as [x [y [z ->]]]. apply K in Hv. destruct Hv as [x0 [y0 [Hv _]]]. eauto.
  - intros t p q x y z x1 y1 z1 tr Ho Ho' Hp Hq. destruct (C82_relative nums frames t p q x y z x1 y1 z1 Hp3 Hp Hq) as [x' [y' [x1' [y1' [A [B [C D]]]]]]].
    destruct (H2 t p q _ _ tr Ho Ho' A B) as [R Dd]. split; auto. cbn [dist2] in *. 
    replace (x1 + fst (displ_at nums (t + 1)%nat) - x)%Z with (x1' - x')%Z by lia. replace (y1 + snd (displ_at nums (t + 1)%nat) - y)%Z with (y1' - y')%Z by lia. exact Dd.
Qed.
Example C82_case : Forall (frame_ready lib_config) [ex_f0; ex_f1; ex_f2] /\
  map pts (remove_drift_file (Some [7; 7; 2; 0; -5; 1]%Z) 0 [ex_f0; ex_f1; ex_f2]) = [[[-2; -1; 0]; [8; -1; 0]; [18; -1; 0]]; [[19; -1; 0]; [1; 0; 0]; [40; -1; 0]]; [[-3; 1; 0]; [36; 0; 0]; [13; 0; 0]; [0; 0; 0]]]%Z /\
  exists fs ti, construct lib_config 3 (Some [7; 7; 2; 0; -5; 1]%Z) 0 [ex_f0; ex_f1; ex_f2] = Val (fs, ti) /\
    trajs ti = [mkTraj 0 [0; 1; 3]; mkTraj 0 [1]; mkTraj 0 [2; 0]; mkTraj 1 [2; 1]; mkTraj 2 [0]; mkTraj 2 [2]].
Proof.
  split; [repeat constructor; apply new_ready; repeat constructor; repeat eexists|]. split; [vm_compute; reflexivity|]. eexists. eexists. split; vm_compute; reflexivity.
Qed.

Print Assumptions C81_link. Print Assumptions C81_followed. Print Assumptions C81_no_frame_refuted. Print Assumptions C81_rescaled_refuted.
Print Assumptions C82_drift. Print Assumptions C82_relative. Print Assumptions C82_sign. Print Assumptions C82_no_file. Print Assumptions C82_negative_refuted. Print Assumptions C82_offset_refuted. Print Assumptions C82_then_link.

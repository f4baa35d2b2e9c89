(** C165: the trajectories do not depend on the direction of time, the axes, the unit of length and the order of the positions. *)
Require Import ZArith List Bool Arith Lia.
Require Import Verif.Base Verif.ListX Verif.Box_Model Verif.RTree_Model Verif.RTree_Spec Verif.RTree_Heuristics Verif.Index_Model Verif.Particles_Model Verif.Particles_Spec Verif.Particles_Proofs
  Verif.Traj_Model Verif.Traj_Spec Verif.Traj_Proofs Verif.Cluster_Spec Verif.Link_Model Verif.Link_Spec Verif.Link_Proofs Verif.Link_Props Verif.Particles_Props Verif.Rewind_Spec.
Import ListNotations.
Local Open Scope nat_scope.

(** A set of links taken shortest first is unique when there is no tie. *)
Lemma shortest_unique (cand : nat -> nat -> Z -> Prop) (L L' : nat -> nat -> Prop) :
  (forall p q d, cand p q d -> (0 <= d)%Z) ->
  (forall p q d p' q' d', cand p q d -> cand p' q' d' -> (p' = p /\ q' <> q) \/ (p' <> p /\ q' = q) -> d <> d') ->
  (forall p q q', L p q -> L p q' -> q = q') -> (forall p p' q, L p q -> L p' q -> p = p') -> (forall p q q', L' p q -> L' p q' -> q = q') -> (forall p p' q, L' p q -> L' p' q -> p = p') ->
  (forall p q d, cand p q d -> L p q \/ exists p' q' d', cand p' q' d' /\ L p' q' /\ (d' <= d)%Z /\ ((p' = p /\ q' <> q) \/ (p' <> p /\ q' = q))) ->
  (forall p q d, cand p q d -> L' p q \/ exists p' q' d', cand p' q' d' /\ L' p' q' /\ (d' <= d)%Z /\ ((p' = p /\ q' <> q) \/ (p' <> p /\ q' = q))) ->
  forall p q d, cand p q d -> (L p q <-> L' p q).
Proof.
  intros Hd Ht A1 A2 B1 B2 GA GB. assert (G : forall n p q d, cand p q d -> (d < Z.of_nat n)%Z -> (L p q <-> L' p q)).
  { induction n as [|n IH]; intros p q d Hc Hn; [specialize (Hd _ _ _ Hc); lia|]. split; intros HL.
    - destruct (GB p q d Hc) as [H|(p' & q' & d' & Hc' & HL' & Hle & Hor)]; auto. exfalso. assert (d <> d') by (apply (Ht p q d p' q' d'); auto).
      apply (IH p' q' d' Hc') in HL'; [|lia]. destruct Hor as [[-> Hne]|[Hne ->]]; apply Hne; [apply (A1 p); auto|apply (A2 p' p q); auto].
    - destruct (GA p q d Hc) as [H|(p' & q' & d' & Hc' & HL' & Hle & Hor)]; auto. exfalso. assert (d <> d') by (apply (Ht p q d p' q' d'); auto).
      apply (IH p' q' d' Hc') in HL'; [|lia]. destruct Hor as [[-> Hne]|[Hne ->]]; apply Hne; [apply (B1 p); auto|apply (B2 p' p q); auto]. }
  intros p q d Hc. apply (G (S (Z.to_nat d)) p q d Hc). specialize (Hd _ _ _ Hc). lia.
Qed.

(** What [link] guarantees (C81). *)
Definition greedy_links (radius : Z) (frames : list particles) (ti : trajindex) : Prop :=
  (forall t p, (exists x, pos_at frames t p x) <-> exists tr, on_traj ti tr t p) /\
  (forall t p tr tr', on_traj ti tr t p -> on_traj ti tr' t p -> tr = tr') /\
  (forall t p p' tr, on_traj ti tr t p -> on_traj ti tr t p' -> p = p') /\
  (forall t p q x y tr, on_traj ti tr t p -> on_traj ti tr (t + 1) q -> pos_at frames t p x -> pos_at frames (t + 1) q y -> closer3 y x (2 * radius)) /\
  (forall t p q x y, pos_at frames t p x -> pos_at frames (t + 1) q y -> closer3 y x (2 * radius) ->
     (exists tr, on_traj ti tr t p /\ on_traj ti tr (t + 1) q) \/
     (exists p' q' x' y' tr', pos_at frames t p' x' /\ pos_at frames (t + 1) q' y' /\ on_traj ti tr' t p' /\ on_traj ti tr' (t + 1) q' /\
        (dist2 y' x' <= dist2 y x)%Z /\ ((p' = p /\ q' <> q) \/ (p' <> p /\ q' = q)))).
Lemma link_greedy c radius frames : config_ok c -> dims c = 3 -> frames <> [] -> Forall (frame_ready c) frames ->
  exists fs ti, link_all c radius frames = Val (fs, ti) /\ greedy_links radius frames ti.
Proof.
  intros Hok H3 Hne Hr. destruct (C81_link c radius frames Hok H3 Hne Hr) as (fs & ti & E & _ & _ & H1 & H2 & H4 & _ & H5 & H6). exists fs, ti. split; auto. repeat (split; auto).
Qed.
Lemma pos_fun frames t p x x' : pos_at frames t p x -> pos_at frames t p x' -> x = x'.
Proof. intros [st [A B]] [st' [A' B']]. congruence. Qed.
Lemma dist2_nonneg a b : (0 <= dist2 a b)%Z.
Proof. unfold dist2. destruct a as [|x [|y [|z [|]]]], b as [|x' [|y' [|z' [|]]]]; try lia. pose proof (Z.square_nonneg (x - x')). pose proof (Z.square_nonneg (y - y')). pose proof (Z.square_nonneg (z - z')). lia. Qed.
Lemma closer3_sym a b r : closer3 a b r -> closer3 b a r.
Proof. unfold closer3. rewrite (dist2_sym a b). auto. Qed.
(** The steps of a trajectory are contiguous. *)
Lemma between ti tr t p t' p' m : on_traj ti tr t p -> on_traj ti tr t' p' -> t <= m <= t' -> exists q, on_traj ti tr m q.
Proof.
  intros [T [HT [k [-> Hk]]]] [T' [HT' [k' [-> Hk']]]] Hm. assert (T' = T) by congruence. subst T'. destruct (nth_error_ex (steps T) (m - start T)) as [q Hq]; [apply nth_error_lt in Hk'; lia|].
  exists q, T. split; auto. exists (m - start T). split; auto. lia.
Qed.

(** If positions correspond and links go to links, then trajectories go to trajectories; [e] sends times to times. *)
Lemma together_moved (ti ti' : trajindex) (e : nat -> nat) (s : nat -> nat -> nat) :
  (forall t p p' tr, on_traj ti tr t p -> on_traj ti tr t p' -> p = p') -> (forall t p tr tr', on_traj ti' tr t p -> on_traj ti' tr' t p -> tr = tr') ->
  (forall tr t p, on_traj ti tr t p -> exists tr', on_traj ti' tr' (e t) (s t p)) ->
  (forall tr t p q, on_traj ti tr t p -> on_traj ti tr (t + 1) q -> together ti' (e t) (s t p) (e (t + 1)) (s (t + 1) q)) ->
  forall t p t' p', together ti t p t' p' -> together ti' (e t) (s t p) (e t') (s t' p').
Proof.
  intros U U' Hp Hl. assert (G : forall m t p p', together ti t p (t + m) p' -> together ti' (e t) (s t p) (e (t + m)) (s (t + m) p')).
  { induction m as [|m IH]; intros t p p' [tr [H1 H2]].
    - rewrite Nat.add_0_r in *. assert (p' = p) by (eapply U; eauto). subst p'. destruct (Hp _ _ _ H1) as [tr' H]. exists tr'. auto.
    - destruct (between ti tr t p (t + S m) p' (t + m) H1 H2) as [q Hq]; [lia|]. destruct (IH t p q) as [tr1 [A1 A2]]; [exists tr; auto|].
      replace (t + S m) with (t + m + 1) in * by lia. destruct (Hl tr (t + m) q p' Hq H2) as [tr2 [B1 B2]]. assert (tr2 = tr1) by (apply (U' (e (t + m)) (s (t + m) q)); auto). subst tr2. exists tr1. auto. }
  intros t p t' p' [tr [H1 H2]]. destruct (Nat.le_ge_cases t t') as [H|H].
  - specialize (G (t' - t) t p p'). replace (t + (t' - t)) with t' in G by lia. apply G. exists tr. auto.
  - destruct (G (t - t') t' p' p) as [tr' [A1 A2]]; [exists tr; split; auto; replace (t' + (t - t')) with t by lia; auto|]. replace (t' + (t - t')) with t in A2 by lia. exists tr'. auto.
Qed.

Definition candidate (radius : Z) (frames : list particles) (t p q : nat) (d : Z) : Prop :=
  exists x y, pos_at frames t p x /\ pos_at frames (t + 1) q y /\ closer3 y x (2 * radius) /\ d = dist2 y x.
Lemma matching_from radius frames ti : greedy_links radius frames ti -> forall t t' p q q', together ti t p t' q -> together ti t p t' q' -> q = q'.
Proof. intros (_ & U & P & _) t t' p q q' [tr [A B]] [tr' [A' B']]. assert (tr' = tr) by (apply (U t p); auto). subst. apply (P t' q q' tr); auto. Qed.
Lemma together_sym ti t p t' p' : together ti t p t' p' -> together ti t' p' t p.
Proof. intros [tr [A B]]. exists tr. auto. Qed.
Lemma candidate_greedy radius frames ti t : greedy_links radius frames ti -> forall p q d, candidate radius frames t p q d ->
  together ti t p (t + 1) q \/ exists p' q' d', candidate radius frames t p' q' d' /\ together ti t p' (t + 1) q' /\ (d' <= d)%Z /\ ((p' = p /\ q' <> q) \/ (p' <> p /\ q' = q)).
Proof.
  intros (H1 & H2 & H3 & H4 & H5) p q d (x & y & Hx & Hy & Hc & ->). destruct (H5 t p q x y Hx Hy Hc) as [H|(p' & q' & x' & y' & tr' & A1 & A2 & A3 & A4 & A5 & A6)]; [left; auto|right].
  exists p', q', (dist2 y' x'). split; [exists x', y'; split; [auto|split; [auto|split; [exact (H4 t p' q' x' y' tr' A3 A4 A1 A2)|reflexivity]]]|]. split; [exists tr'; auto|]. auto.
Qed.
Lemma candidate_tie radius frames t : no_tie radius frames -> forall p q d p' q' d', candidate radius frames t p q d -> candidate radius frames t p' q' d' ->
  (p' = p /\ q' <> q) \/ (p' <> p /\ q' = q) -> d <> d'.
Proof. intros H p q d p' q' d' (x & y & A1 & A2 & A3 & ->) (x' & y' & B1 & B2 & B3 & ->) Hor. apply (H t p q x y p' q' x' y'); auto. Qed.
Lemma link_candidate radius frames ti t p q : greedy_links radius frames ti -> together ti t p (t + 1) q -> exists d, candidate radius frames t p q d.
Proof.
  intros (H1 & H2 & H3 & H4 & H5) [tr [A B]]. destruct (proj2 (H1 t p)) as [x Hx]; eauto. destruct (proj2 (H1 (t + 1) q)) as [y Hy]; eauto. exists (dist2 y x), x, y. split; auto. split; auto. split; auto. exact (H4 t p q x y tr A B Hx Hy).
Qed.

(** Back to front. *)
Lemma pos_rev frames t p x : t < length frames -> (pos_at (rev frames) t p x <-> pos_at frames (length frames - 1 - t) p x).
Proof.
  intros H. unfold pos_at. assert (E : nth_error (rev frames) t = nth_error frames (length frames - 1 - t)).
  { destruct (nth_error_ex (rev frames) t) as [st Hs]; [rewrite rev_length; auto|]. rewrite Hs. symmetry. rewrite (nth_error_nth' frames st) by lia. f_equal.
    replace (length frames - 1 - t) with (length frames - S t) by lia. rewrite <- rev_nth by auto. apply nth_error_nth. auto. }
  rewrite E. tauto.
Qed.
Lemma pos_lt frames t p x : pos_at frames t p x -> t < length frames.
Proof. intros [st [H _]]. eapply nth_error_lt; eauto. Qed.
Lemma no_tie_rev radius frames : no_tie radius frames -> no_tie radius (rev frames).
Proof.
  intros H t p q x y p' q' x' y' Hx Hy Hx' Hy' Hc Hc' Hor. assert (L := pos_lt _ _ _ _ Hy). rewrite rev_length in L. apply pos_rev in Hx, Hy, Hx', Hy'; try lia.
  replace (length frames - 1 - t) with (length frames - 1 - (t + 1) + 1) in Hx, Hx' by lia. rewrite (dist2_sym y x), (dist2_sym y' x').
  apply (H (length frames - 1 - (t + 1)) q p y x q' p' y' x'); auto; try (apply closer3_sym; auto). tauto.
Qed.
Lemma reverse_links radius frames ti ti' : no_tie radius frames -> greedy_links radius frames ti -> greedy_links radius (rev frames) ti' ->
  forall t p t' p', together ti t p t' p' -> together ti' (length frames - 1 - t) p (length frames - 1 - t') p'.
Proof.
  intros Nt G G'. set (n := length frames). apply (together_moved ti ti' (fun t => n - 1 - t) (fun _ p => p)).
  - apply G.
  - apply G'.
  - intros tr t p H. apply (proj1 G'). destruct (proj2 (proj1 G t p)) as [x Hx]; [eauto|]. assert (L := pos_lt _ _ _ _ Hx). exists x. apply pos_rev; fold n; [lia|]. replace (n - 1 - (n - 1 - t)) with t by lia. auto.
  - intros tr t p q Hp Hq. assert (HL : together ti t p (t + 1) q) by (exists tr; auto). destruct (link_candidate _ _ _ _ _ _ G HL) as [d Hd].
    assert (L : t + 1 < n) by (destruct Hd as (x & y & _ & Hy & _); apply (pos_lt _ _ _ _ Hy)).
    assert (Ec : forall p q d, candidate radius frames t p q d <-> candidate radius (rev frames) (n - 1 - (t + 1)) q p d).
    { intros p0 q0 d0. unfold candidate. split; intros (x & y & A1 & A2 & A3 & ->); exists y, x.
      - rewrite !pos_rev by (fold n; lia). fold n. replace (n - 1 - (n - 1 - (t + 1))) with (t + 1) by lia. replace (n - 1 - (n - 1 - (t + 1) + 1)) with t by lia. split; auto. split; auto. split; [apply closer3_sym; auto|apply dist2_sym].
      - rewrite !pos_rev in A1, A2 by (fold n; lia). fold n in A1, A2. replace (n - 1 - (n - 1 - (t + 1))) with (t + 1) in A1 by lia. replace (n - 1 - (n - 1 - (t + 1) + 1)) with t in A2 by lia. split; auto. split; auto. split; [apply closer3_sym; auto|apply dist2_sym]. }
    apply together_sym. replace (n - 1 - t) with (n - 1 - (t + 1) + 1) by lia.
    revert HL. apply (shortest_unique (candidate radius frames t) (fun p q => together ti t p (t + 1) q) (fun p q => together ti' (n - 1 - (t + 1)) q (n - 1 - (t + 1) + 1) p)) with d; auto.
    + intros p0 q0 d0 (x & y & _ & _ & _ & ->). apply dist2_nonneg.
    + apply candidate_tie; auto.
    + intros p0 q0 q1. apply (matching_from _ _ _ G).
    + intros p0 p1 q0 H H'. apply (matching_from _ _ _ G (t + 1) t q0); apply together_sym; auto.
    + intros p0 q0 q1 H H'. apply (matching_from _ _ _ G' (n - 1 - (t + 1) + 1) (n - 1 - (t + 1)) p0); apply together_sym; auto.
    + intros p0 p1 q0. apply (matching_from _ _ _ G').
    + apply candidate_greedy; auto.
    + intros p0 q0 d0 Hc. apply Ec in Hc. destruct (candidate_greedy _ _ _ _ G' _ _ _ Hc) as [H|(q1 & p1 & d1 & C1 & T1 & Le & Hor)]; [left; auto|right].
      exists p1, q1, d1. rewrite Ec. repeat (split; auto). tauto.
Qed.
Theorem C165_reverse c radius frames : config_ok c -> dims c = 3 -> frames <> [] -> Forall (frame_ready c) frames -> no_tie radius frames ->
  exists fs ti fs' ti', link_all c radius frames = Val (fs, ti) /\ link_all c radius (rev frames) = Val (fs', ti') /\
    forall t p t' p', t < length frames -> t' < length frames -> (together ti t p t' p' <-> together ti' (length frames - 1 - t) p (length frames - 1 - t') p').
Proof.
  intros Hok H3 Hne Hr Nt. destruct (link_greedy c radius frames Hok H3 Hne Hr) as (fs & ti & E & G).
  assert (Hne' : rev frames <> []) by (intros H; apply (f_equal (@length _)) in H; rewrite rev_length in H; destruct frames; [congruence|discriminate]).
  destruct (link_greedy c radius (rev frames) Hok H3 Hne' (Forall_rev Hr)) as (fs' & ti' & E' & G'). exists fs, ti, fs', ti'. split; auto. split; auto. intros t p t' p' Ht Ht'. split; [apply (reverse_links radius); auto|].
  intros H. apply (reverse_links radius (rev frames) ti' ti) in H; [|apply no_tie_rev; auto|auto|rewrite rev_involutive; auto]. rewrite rev_length in H.
  replace (length frames - 1 - (length frames - 1 - t)) with t in H by lia. replace (length frames - 1 - (length frames - 1 - t')) with t' in H by lia. auto.
Qed.

(** Moved, turned, rescaled, renumbered. *)
Lemma motion_back k k' s u frames frames' : same_motion k k' s u frames frames' -> same_motion k' k u s frames' frames.
Proof.
  intros (K & K' & S1 & S2 & D). split; auto. split; auto. split; auto. split; auto. intros t p q x y x' y' Hx Hy Hx' Hy'.
  symmetry. apply (D t (u t p) (u (t + 1) q)); auto; rewrite (proj2 (S2 _ _ _ Hx)) || rewrite (proj2 (S2 _ _ _ Hy)); auto.
Qed.
Lemma motion_closer k k' r r' d d' : (0 < k)%Z -> (0 < k')%Z -> (k' * r' = k * r)%Z -> (k' * k' * d' = k * k * d)%Z -> (0 < 2 * r /\ d < 2 * r * (2 * r))%Z -> (0 < 2 * r' /\ d' < 2 * r' * (2 * r'))%Z.
Proof.
  intros K K' E D [A B]. split; [nia|]. assert (k' * k' * d' < k' * k' * (2 * r' * (2 * r')))%Z; [|nia]. rewrite D. replace (k' * k' * (2 * r' * (2 * r')))%Z with (2 * (k' * r') * (2 * (k' * r')))%Z by ring. rewrite E.
  replace (2 * (k * r) * (2 * (k * r)))%Z with (k * k * (2 * r * (2 * r)))%Z by ring. apply Z.mul_lt_mono_pos_l; nia.
Qed.
Lemma motion_candidate k k' s u frames frames' r r' t p q d : same_motion k k' s u frames frames' -> (k' * r' = k * r)%Z -> candidate r frames t p q d ->
  exists d', candidate r' frames' t (s t p) (s (t + 1) q) d' /\ (k' * k' * d' = k * k * d)%Z.
Proof.
  intros M E (x & y & Hx & Hy & Hc & ->). assert (M' := M). destruct M' as (K & K' & S1 & S2 & D). destruct (S1 _ _ _ Hx) as [[x' Hx'] _]. destruct (S1 _ _ _ Hy) as [[y' Hy'] _].
  exists (dist2 y' x'). assert (Ed := D _ _ _ _ _ _ _ Hx Hy Hx' Hy'). split; auto. exists x', y'. split; auto. split; auto. split; auto. apply (motion_closer k k' r r' (dist2 y x)); auto.
Qed.
Lemma motion_links k k' s u frames frames' r r' ti ti' : same_motion k k' s u frames frames' -> (k' * r' = k * r)%Z -> no_tie r frames -> greedy_links r frames ti -> greedy_links r' frames' ti' ->
  forall t p t' p', together ti t p t' p' -> together ti' t (s t p) t' (s t' p').
Proof.
  intros M E Nt G G'. assert (M' := M). destruct M' as (K & K' & S1 & S2 & D). apply (together_moved ti ti' (fun t => t) s).
  - apply G.
  - apply G'.
  - intros tr t p H. apply (proj1 G'). destruct (proj2 (proj1 G t p)) as [x Hx]; [eauto|]. apply (S1 _ _ _ Hx).
  - intros tr t p q Hp Hq. assert (HL : together ti t p (t + 1) q) by (exists tr; auto). destruct (link_candidate _ _ _ _ _ _ G HL) as [d Hd].
    assert (Rg : forall p q d, candidate r frames t p q d -> u t (s t p) = p /\ u (t + 1) (s (t + 1) q) = q).
    { intros p0 q0 d0 (x & y & Hx & Hy & _). split; [apply (S1 _ _ _ Hx)|apply (S1 _ _ _ Hy)]. }
    set (real := fun p q => exists d, candidate r frames t p q d).
    enough (HE : together ti t p (t + 1) q /\ real p q <-> together ti' t (s t p) (t + 1) (s (t + 1) q) /\ real p q) by (apply HE; split; [auto|exists d; auto]).
    revert d Hd. apply (shortest_unique (candidate r frames t) (fun p q => together ti t p (t + 1) q /\ real p q) (fun p q => together ti' t (s t p) (t + 1) (s (t + 1) q) /\ real p q)).
    + intros p0 q0 d0 (x & y & _ & _ & _ & ->). apply dist2_nonneg.
    + apply candidate_tie; auto.
    + intros p0 q0 q1 [H _] [H' _]. apply (matching_from _ _ _ G t (t + 1) p0); auto.
    + intros p0 p1 q0 [H _] [H' _]. apply (matching_from _ _ _ G (t + 1) t q0); apply together_sym; auto.
    + intros p0 q0 q1 [H [d0 C0]] [H' [d1 C1]]. rewrite <- (proj2 (Rg _ _ _ C0)), <- (proj2 (Rg _ _ _ C1)). f_equal. apply (matching_from _ _ _ G' t (t + 1) (s t p0)); auto.
    + intros p0 p1 q0 [H [d0 C0]] [H' [d1 C1]]. rewrite <- (proj1 (Rg _ _ _ C0)), <- (proj1 (Rg _ _ _ C1)). f_equal. apply (matching_from _ _ _ G' (t + 1) t (s (t + 1) q0)); apply together_sym; auto.
    + intros p0 q0 d0 Hc. destruct (candidate_greedy _ _ _ _ G _ _ _ Hc) as [H|(p1 & q1 & d1 & C1 & T1 & Le & Hor)]; [left; split; auto; exists d0; auto|right; exists p1, q1, d1; repeat (split; auto); exists d1; auto].
    + intros p0 q0 d0 Hc. destruct (motion_candidate _ _ _ _ _ _ _ _ _ _ _ _ M E Hc) as [d0' [Hc' Ed]].
      destruct (candidate_greedy _ _ _ _ G' _ _ _ Hc') as [H|(p1 & q1 & d1 & C1 & T1 & Le & Hor)]; [left; split; auto; exists d0; auto|right].
      assert (P1 : s t (u t p1) = p1 /\ s (t + 1) (u (t + 1) q1) = q1) by (destruct C1 as (x & y & Hx & Hy & _); split; [apply (S2 _ _ _ Hx)|apply (S2 _ _ _ Hy)]). destruct P1 as [P1 P2].
      destruct (motion_candidate k' k u s frames' frames r' r t p1 q1 d1 (motion_back _ _ _ _ _ _ M)) as [d1' [C1' Ed1]]; auto.
      exists (u t p1), (u (t + 1) q1), d1'. split; auto. split; [split; [rewrite P1, P2; auto|exists d1'; auto]|]. split; [nia|]. destruct (Rg _ _ _ Hc) as [R1 R2].
      destruct Hor as [[-> Hne]|[Hne ->]]; [left|right]; split; auto; intros X; apply Hne; congruence.
Qed.
Lemma no_tie_motion k k' s u frames frames' r r' : same_motion k k' s u frames frames' -> (k' * r' = k * r)%Z -> no_tie r frames -> no_tie r' frames'.
Proof.
  intros M E H t p q x y p' q' x' y' Hx Hy Hx' Hy' Hc Hc' Hor He. assert (Mb := motion_back _ _ _ _ _ _ M). destruct M as (K & K' & S1 & S2 & D).
  destruct (motion_candidate k' k u s frames' frames r' r t p q (dist2 y x) Mb) as [d [C1 E1]]; [auto|exists x, y; auto|].
  destruct (motion_candidate k' k u s frames' frames r' r t p' q' (dist2 y' x') Mb) as [d' [C2 E2]]; [auto|exists x', y'; auto|].
  apply (candidate_tie r frames t H _ _ _ _ _ _ C1 C2); [|nia].
  destruct Hor as [[-> Hne]|[Hne ->]]; [left|right]; split; auto; intros X; apply Hne.
  - rewrite <- (proj2 (S2 _ _ _ Hy)), <- (proj2 (S2 _ _ _ Hy')). congruence.
  - rewrite <- (proj2 (S2 _ _ _ Hx)), <- (proj2 (S2 _ _ _ Hx')). congruence.
Qed.
Theorem C165_motion c c' r r' frames frames' k k' s u : config_ok c -> dims c = 3 -> frames <> [] -> Forall (frame_ready c) frames -> config_ok c' -> dims c' = 3 -> frames' <> [] -> Forall (frame_ready c') frames' ->
  same_motion k k' s u frames frames' -> (k' * r' = k * r)%Z -> no_tie r frames ->
  exists fs ti fs' ti', link_all c r frames = Val (fs, ti) /\ link_all c' r' frames' = Val (fs', ti') /\
    forall t p t' p', (exists x, pos_at frames t p x) -> (exists x, pos_at frames t' p' x) -> (together ti t p t' p' <-> together ti' t (s t p) t' (s t' p')).
Proof.
  intros Hok H3 Hne Hr Hok' H3' Hne' Hr' M E Nt. destruct (link_greedy c r frames Hok H3 Hne Hr) as (fs & ti & El & G). destruct (link_greedy c' r' frames' Hok' H3' Hne' Hr') as (fs' & ti' & El' & G').
  exists fs, ti, fs', ti'. split; auto. split; auto. intros t p t' p' [x Hx] [x' Hx']. split; [apply (motion_links k k' s u frames frames' r r'); auto|].
  intros H. apply (motion_links k' k u s frames' frames r' r ti' ti) in H; auto; [|apply motion_back; auto|apply (no_tie_motion k k' s u frames frames' r r'); auto].
  destruct M as (K & K' & S1 & S2 & D). rewrite (proj2 (S1 _ _ _ Hx)), (proj2 (S1 _ _ _ Hx')) in H. auto.
Qed.

(** With ties the order of the positions decides. *)
Definition still (l : list (list Z)) : particles := new_particles l [] 1.
Theorem C165_ties_refuted : exists frames frames' s fs ti fs' ti', same_motion 1 1 s s frames frames' /\ link_all lib_config 3 frames = Val (fs, ti) /\ link_all lib_config 3 frames' = Val (fs', ti') /\
  together ti 0 0 1 0 /\ ~ together ti' 0 (s 0 0) 1 (s 1 0).
Proof.
  exists [still [[0; 0; 0]]%Z; still [[-1; 0; 0]; [1; 0; 0]]%Z], [still [[0; 0; 0]]%Z; still [[1; 0; 0]; [-1; 0; 0]]%Z], (fun t p => match t with 0 => p | _ => 1 - p end). eexists. eexists. eexists. eexists.
  split; [|split; [vm_compute; reflexivity|split; [vm_compute; reflexivity|split]]].
  - assert (G : forall a b : list Z, a <> b -> forall t p x, pos_at [still [[0; 0; 0]]%Z; still [a; b]] t p x ->
      (t = 0 /\ p = 0 /\ x = [0; 0; 0]%Z) \/ (t = 1 /\ p = 0 /\ x = a) \/ (t = 1 /\ p = 1 /\ x = b)).
    { intros a b _ t p x [st [A B]]. destruct t as [|[|t]]; simpl in A; [| |destruct t; discriminate]; injection A as <-; destruct p as [|[|p]]; simpl in B; try (destruct p); try discriminate; injection B as <-; auto. }
    split; [reflexivity|]. split; [reflexivity|]. split; [|split].
    + intros t p x H. apply G in H; [|discriminate]. destruct H as [(-> & -> & ->)|[(-> & -> & ->)|(-> & -> & ->)]]; (split; [eexists; eexists; split; reflexivity|reflexivity]).
    + intros t p x H. apply G in H; [|discriminate]. destruct H as [(-> & -> & ->)|[(-> & -> & ->)|(-> & -> & ->)]]; (split; [eexists; eexists; split; reflexivity|reflexivity]).
    + intros t p q x y x' y' H1 H2 H3 H4. apply G in H1; [|discriminate]. apply G in H2; [|discriminate]. apply G in H3; [|discriminate]. apply G in H4; [|discriminate].
      destruct H1 as [(-> & -> & ->)|[(-> & -> & ->)|(-> & -> & ->)]]; destruct H2 as [(E & -> & ->)|[(E & -> & ->)|(E & -> & ->)]]; try discriminate; cbn in H3, H4;
        destruct H3 as [(_ & ? & ->)|[(? & ? & ->)|(? & ? & ->)]]; try discriminate; destruct H4 as [(? & ? & ->)|[(? & ? & ->)|(? & ? & ->)]]; try discriminate; reflexivity.
  - exists 0. split; (eexists; split; [reflexivity|]); [exists 0|exists 1]; split; reflexivity.
  - intros [tr [[T [HT [j [E1 E2]]]] [T' [HT' [j' [E1' E2']]]]]]. destruct tr as [|[|tr]]; cbn in HT, HT'; try (destruct tr; discriminate); injection HT as <-; injection HT' as <-; cbn in *.
    + subst j j'. cbn in E2'. discriminate.
    + destruct j; discriminate.
Qed.

(** Two particles that cross; the movie backwards; and lengths doubled with a quarter turn and another order. *)
Definition ex_walk : list particles := [still [[0; 0; 0]; [9; 0; 0]]; still [[1; 1; 0]; [7; 0; 0]; [30; 0; 0]]; still [[6; 2; 0]; [2; 3; 0]]]%Z.
Example C165_case : Forall (frame_ready lib_config) ex_walk /\ no_tie 4 ex_walk /\ (exists fs ti fs' ti', link_all lib_config 4 ex_walk = Val (fs, ti) /\ link_all lib_config 4 (rev ex_walk) = Val (fs', ti') /\
  trajs ti = [mkTraj 0 [0; 0; 1]; mkTraj 0 [1; 1; 0]; mkTraj 1 [2]] /\ trajs ti' = [mkTraj 0 [0; 1; 1]; mkTraj 0 [1; 0; 0]; mkTraj 1 [2]]) /\
  let turned := [still [[0; 18; 0]; [0; 0; 0]]; still [[-2; 2; 0]; [0; 14; 0]; [0; 60; 0]]; still [[-4; 12; 0]; [-6; 4; 0]]]%Z in
  let s := fun t p => match t with 0 => 1 - p | _ => p end in
  Forall (frame_ready lib_config) turned /\ same_motion 2 1 s s ex_walk turned.
Proof.
  assert (P : forall a b d e f g h : list Z, forall t p x, pos_at [still [a; b]; still [d; e; f]; still [g; h]] t p x ->
    (t = 0 /\ ((p = 0 /\ x = a) \/ (p = 1 /\ x = b))) \/ (t = 1 /\ ((p = 0 /\ x = d) \/ (p = 1 /\ x = e) \/ (p = 2 /\ x = f))) \/ (t = 2 /\ ((p = 0 /\ x = g) \/ (p = 1 /\ x = h)))).
  { intros a b d e f g h t p x [st [A B]]. destruct t as [|[|[|t]]]; simpl in A; [| | |destruct t; discriminate]; injection A as <-; destruct p as [|[|[|p]]]; simpl in B; try (destruct p); try discriminate; injection B as <-; tauto. }
  assert (R : forall a b d e f g h : list Z, Forall point3 [a; b; d; e; f; g; h] -> Forall (frame_ready lib_config) [still [a; b]; still [d; e; f]; still [g; h]]).
  { intros a b d e f g h H. repeat (match goal with H : Forall _ (_ :: _) |- _ => inversion H; clear H; subst end). repeat constructor; apply new_ready; repeat constructor; auto. }
  split; [apply R; repeat constructor; repeat eexists|]. split.
  { intros t p q x y p' q' x' y' H1 H2 H3 H4 _ _ Hor. apply P in H1, H2, H3, H4.
    destruct H1 as [(-> & H1)|[(-> & H1)|(-> & H1)]]; destruct H2 as [(E2 & H2)|[(E2 & H2)|(E2 & H2)]]; try discriminate; clear E2;
    destruct H3 as [(E3 & H3)|[(E3 & H3)|(E3 & H3)]]; try discriminate; clear E3; destruct H4 as [(E4 & H4)|[(E4 & H4)|(E4 & H4)]]; try discriminate; clear E4;
    repeat (match goal with H : _ \/ _ |- _ => destruct H as [H|H] end); repeat (match goal with H : _ /\ _ |- _ => destruct H end); subst; try congruence; vm_compute; discriminate. }
  split; [eexists; eexists; eexists; eexists; split; [vm_compute; reflexivity|]; split; [vm_compute; reflexivity|]; split; reflexivity|].
  split; [apply R; repeat constructor; repeat eexists|]. split; [reflexivity|]. split; [reflexivity|]. split; [|split].
  - intros t p x H. apply P in H. repeat (match goal with H : _ \/ _ |- _ => destruct H as [H|H] | H : _ /\ _ |- _ => destruct H end); subst; (split; [eexists; eexists; split; reflexivity|reflexivity]).
  - intros t p x H. apply P in H. repeat (match goal with H : _ \/ _ |- _ => destruct H as [H|H] | H : _ /\ _ |- _ => destruct H end); subst; (split; [eexists; eexists; split; reflexivity|reflexivity]).
  - intros t p q x y x' y' H1 H2 H3 H4. apply P in H1, H2.
    destruct H1 as [(-> & H1)|[(-> & H1)|(-> & H1)]]; destruct H2 as [(E2 & H2)|[(E2 & H2)|(E2 & H2)]]; try discriminate; clear E2;
    repeat (match goal with H : _ \/ _ |- _ => destruct H as [H|H] | H : _ /\ _ |- _ => destruct H end); subst;
    destruct H3 as [st [A B]], H4 as [st' [A' B']]; cbn in A, B, A', B'; injection A as <-; injection A' as <-; cbn in B, B'; injection B as <-; injection B' as <-; reflexivity.
Qed.

Print Assumptions C165_reverse.
Print Assumptions C165_motion.
Print Assumptions C165_ties_refuted.

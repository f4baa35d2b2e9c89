(** C81, C165, C167 without the hypothesis on ties: the links of equal lengths are taken in the order of the positions. *)
Require Import ZArith List Bool Arith Lia.
Require Import Verif.Base Verif.ListX Verif.Box_Model Verif.RTree_Model Verif.RTree_Spec Verif.RTree_Heuristics Verif.Index_Model Verif.Particles_Model Verif.Particles_Spec Verif.Particles_Proofs
  Verif.Traj_Model Verif.Traj_Spec Verif.Traj_Proofs Verif.Cluster_Spec Verif.Link_Model Verif.Link_Spec Verif.Link_Proofs Verif.Link_Props Verif.Particles_Props Verif.Rewind_Spec Verif.Rewind_Props Verif.Portion_Spec Verif.Portion_Props Verif.Ties_Proofs.
Import ListNotations.
Local Open Scope nat_scope.

(** A possible link is taken, or one of its ends is taken by a shorter link, or by one of the same length that starts at a position of smaller number, or from the same position to one of smaller number. *)
Theorem C81_order c radius frames fs ti : config_ok c -> dims c = 3 -> Forall (frame_ready c) frames -> link_all c radius frames = Val (fs, ti) ->
  forall t p q x y, pos_at frames t p x -> pos_at frames (t + 1) q y -> closer3 y x (2 * radius) -> (exists tr, on_traj ti tr t p /\ on_traj ti tr (t + 1) q) \/
    exists p' q' x' y' tr, pos_at frames t p' x' /\ pos_at frames (t + 1) q' y' /\ on_traj ti tr t p' /\ on_traj ti tr (t + 1) q' /\
      ((dist2 y' x' < dist2 y x)%Z \/ (dist2 y' x' = dist2 y x /\ (p' < p \/ (p' = p /\ q' < q)))) /\ ((p' = p /\ q' <> q) \/ (p' <> p /\ q' = q)).
Proof.
  intros Hok H3 Hr E t p q x y Hx Hy Hc. destruct (link_ordered c radius frames fs ti Hok H3 Hr E t p q x y Hx Hy Hc) as [H|(p' & q' & x' & y' & tr & A1 & A2 & _ & A4 & A5 & A6 & A7)]; [left; auto|right].
  exists p', q', x', y', tr. exact (conj A1 (conj A2 (conj A4 (conj A5 (conj A6 A7))))).
Qed.

(** A set of links taken in a given order is unique. *)
Lemma ordered_unique (cand : nat -> nat -> Z -> Prop) (L L' : nat -> nat -> Prop) :
  (forall p q d, cand p q d -> (0 <= d)%Z) ->
  (forall p q q', L p q -> L p q' -> q = q') -> (forall p p' q, L p q -> L p' q -> p = p') -> (forall p q q', L' p q -> L' p q' -> q = q') -> (forall p p' q, L' p q -> L' p' q -> p = p') ->
  (forall p q d, cand p q d -> L p q \/ exists p' q' d', cand p' q' d' /\ L p' q' /\ before d' p' q' d p q /\ ((p' = p /\ q' <> q) \/ (p' <> p /\ q' = q))) ->
  (forall p q d, cand p q d -> L' p q \/ exists p' q' d', cand p' q' d' /\ L' p' q' /\ before d' p' q' d p q /\ ((p' = p /\ q' <> q) \/ (p' <> p /\ q' = q))) ->
  forall p q d, cand p q d -> (L p q <-> L' p q).
Proof.
  intros Hd A1 A2 B1 B2 GA GB.
  assert (One : forall p q d, cand p q d -> (forall p' q' d', cand p' q' d' -> before d' p' q' d p q -> (L p' q' <-> L' p' q')) -> (L p q <-> L' p q)).
  { intros p q d Hc IH. split; intros HL.
    - destruct (GB p q d Hc) as [H|(p' & q' & d' & Hc' & HL' & Hb & Hor)]; auto. exfalso. apply (IH p' q' d' Hc' Hb) in HL'. destruct Hor as [[-> Hne]|[Hne ->]]; apply Hne; [apply (A1 p); auto|apply (A2 p' p q); auto].
    - destruct (GA p q d Hc) as [H|(p' & q' & d' & Hc' & HL' & Hb & Hor)]; auto. exfalso. apply (IH p' q' d' Hc' Hb) in HL'. destruct Hor as [[-> Hne]|[Hne ->]]; apply Hne; [apply (B1 p); auto|apply (B2 p' p q); auto]. }
  assert (G : forall n p q d, cand p q d -> (d < Z.of_nat n)%Z -> (L p q <-> L' p q)).
  { induction n as [|n IHn]; intros p q d Hc Hn; [specialize (Hd _ _ _ Hc); lia|]. revert q d Hc Hn. induction p as [p IHp] using lt_wf_ind. intros q. induction q as [q IHq] using lt_wf_ind. intros d Hc Hn.
    apply (One p q d Hc). intros p' q' d' Hc' [Hb|[-> [Hb|[-> Hb]]]]; [apply (IHn p' q' d' Hc'); lia|apply (IHp p' Hb q' d Hc' Hn)|apply (IHq q' Hb d Hc' Hn)]. }
  intros p q d Hc. apply (G (S (Z.to_nat d)) p q d Hc). specialize (Hd _ _ _ Hc). lia.
Qed.
Definition ordered_links (radius : Z) (frames : list particles) (ti : trajindex) : Prop := forall t p q d, candidate radius frames t p q d ->
  together ti t p (t + 1) q \/ exists p' q' d', candidate radius frames t p' q' d' /\ together ti t p' (t + 1) q' /\ before d' p' q' d p q /\ ((p' = p /\ q' <> q) \/ (p' <> p /\ q' = q)).
Lemma link_both c radius frames : config_ok c -> dims c = 3 -> frames <> [] -> Forall (frame_ready c) frames -> exists fs ti, link_all c radius frames = Val (fs, ti) /\ greedy_links radius frames ti /\ ordered_links radius frames ti.
Proof.
  intros Hok H3 Hne Hr. destruct (link_greedy c radius frames Hok H3 Hne Hr) as (fs & ti & E & G). exists fs, ti. split; auto. split; auto. intros t p q d (x & y & A & B & C & ->).
  destruct (link_ordered c radius frames fs ti Hok H3 Hr E t p q x y A B C) as [H|(p' & q' & x' & y' & tr & A1 & A2 & A3 & A4 & A5 & A6 & A7)]; [left; auto|right].
  exists p', q', (dist2 y' x'). split; [exists x', y'; auto|]. split; [exists tr; auto|]. auto.
Qed.
Lemma reverse_ordered radius frames ti ti' : greedy_links radius frames ti -> greedy_links radius (rev frames) ti' -> ordered_links radius frames ti -> ordered_links radius (rev frames) ti' ->
  forall t p t' p', together ti t p t' p' -> together ti' (length frames - 1 - t) p (length frames - 1 - t') p'.
Proof.
  intros G G' O O'. set (n := length frames). apply (together_moved ti ti' (fun t => n - 1 - t) (fun _ p => p)).
  - apply G.
  - apply G'.
  - intros tr t p H. apply (proj1 G'). destruct (proj2 (proj1 G t p)) as [x Hx]; [eauto|]. assert (L := pos_lt _ _ _ _ Hx). exists x. apply pos_rev; fold n; [lia|]. replace (n - 1 - (n - 1 - t)) with t by lia. auto.
  - intros tr t p q Hp Hq. assert (HL : together ti t p (t + 1) q) by (exists tr; auto). destruct (link_candidate _ _ _ _ _ _ G HL) as [d Hd].
    assert (L : t + 1 < n) by (destruct Hd as (x & y & _ & Hy & _); apply (pos_lt _ _ _ _ Hy)).
    assert (Ec : forall p q d, candidate radius frames t p q d <-> candidate radius (rev frames) (n - 1 - (t + 1)) q p d).
    { intros p0 q0 d0. unfold candidate. split; intros (x & y & A1 & A2 & A3 & ->); exists y, x.
      - rewrite !pos_rev by (fold n; lia). fold n. replace (n - 1 - (n - 1 - (t + 1))) with (t + 1) by lia. replace (n - 1 - (n - 1 - (t + 1) + 1)) with t by lia. split; auto. split; auto. split; [apply closer3_sym; auto|apply dist2_sym].
      - rewrite !pos_rev in A1, A2 by (fold n; lia). fold n in A1, A2. replace (n - 1 - (n - 1 - (t + 1))) with (t + 1) in A1 by lia. replace (n - 1 - (n - 1 - (t + 1) + 1)) with t in A2 by lia. split; auto. split; auto. split; [apply closer3_sym; auto|apply dist2_sym]. }
    apply together_sym. replace (n - 1 - t) with (n - 1 - (t + 1) + 1) by lia.
    revert HL. apply (ordered_unique (candidate radius frames t) (fun p q => together ti t p (t + 1) q) (fun p q => together ti' (n - 1 - (t + 1)) q (n - 1 - (t + 1) + 1) p)) with d; auto.
    + intros p0 q0 d0 (x & y & _ & _ & _ & ->). apply dist2_nonneg.
    + intros p0 q0 q1. apply (matching_from _ _ _ G).
    + intros p0 p1 q0 H H'. apply (matching_from _ _ _ G (t + 1) t q0); apply together_sym; auto.
    + intros p0 q0 q1 H H'. apply (matching_from _ _ _ G' (n - 1 - (t + 1) + 1) (n - 1 - (t + 1)) p0); apply together_sym; auto.
    + intros p0 p1 q0. apply (matching_from _ _ _ G').
    + intros p0 q0 d0 Hc. apply Ec in Hc. destruct (O' _ _ _ _ Hc) as [H|(q1 & p1 & d1 & C1 & T1 & Le & Hor)]; [left; auto|right].
      exists p1, q1, d1. rewrite Ec. split; [exact C1|]. split; [exact T1|]. split; [|tauto]. destruct Le as [Le|[-> Le]]; [left; auto|right; split; auto]. lia.
Qed.
(** Linking backwards gives the same trajectories, ties or not. *)
Theorem C165_reverse_always c radius frames : config_ok c -> dims c = 3 -> frames <> [] -> Forall (frame_ready c) frames ->
  exists fs ti fs' ti', link_all c radius frames = Val (fs, ti) /\ link_all c radius (rev frames) = Val (fs', ti') /\
    forall t p t' p', t < length frames -> t' < length frames -> (together ti t p t' p' <-> together ti' (length frames - 1 - t) p (length frames - 1 - t') p').
Proof.
  intros Hok H3 Hne Hr. destruct (link_both c radius frames Hok H3 Hne Hr) as (fs & ti & E & G & O).
  assert (Hne' : rev frames <> []) by (intros H; apply (f_equal (@length _)) in H; rewrite rev_length in H; destruct frames; [congruence|discriminate]).
  destruct (link_both c radius (rev frames) Hok H3 Hne' (Forall_rev Hr)) as (fs' & ti' & E' & G' & O'). exists fs, ti, fs', ti'. split; auto. split; auto. intros t p t' p' Ht Ht'. split; [apply (reverse_ordered radius); auto|].
  intros H. apply (reverse_ordered radius (rev frames) ti' ti) in H; auto; try (rewrite rev_involutive; auto). rewrite rev_length in H.
  replace (length frames - 1 - (length frames - 1 - t)) with t in H by lia. replace (length frames - 1 - (length frames - 1 - t')) with t' in H by lia. auto.
Qed.

(** Another movie of the same motion whose frames keep the order of the positions. *)
Definition keeps_order (s : nat -> nat -> nat) (frames : list particles) : Prop := forall t p p' x x', pos_at frames t p x -> pos_at frames t p' x' -> p < p' -> s t p < s t p'.
Lemma motion_ordered k k' s u frames frames' r r' ti ti' : same_motion k k' s u frames frames' -> (k' * r' = k * r)%Z -> keeps_order s frames ->
  greedy_links r frames ti -> greedy_links r' frames' ti' -> ordered_links r frames ti -> ordered_links r' frames' ti' ->
  forall t p t' p', together ti t p t' p' -> together ti' t (s t p) t' (s t' p').
Proof.
  intros M E Mo G G' O O'. assert (M' := M). destruct M' as (K & K' & S1 & S2 & D). apply (together_moved ti ti' (fun t => t) s).
  - apply G.
  - apply G'.
  - intros tr t p H. apply (proj1 G'). destruct (proj2 (proj1 G t p)) as [x Hx]; [eauto|]. apply (S1 _ _ _ Hx).
  - intros tr t p q Hp Hq. assert (HL : together ti t p (t + 1) q) by (exists tr; auto). destruct (link_candidate _ _ _ _ _ _ G HL) as [d Hd].
    assert (Rg : forall p q d, candidate r frames t p q d -> u t (s t p) = p /\ u (t + 1) (s (t + 1) q) = q).
    { intros p0 q0 d0 (x & y & Hx & Hy & _). split; [apply (S1 _ _ _ Hx)|apply (S1 _ _ _ Hy)]. }
    assert (Mon : forall t p p' x x', pos_at frames t p x -> pos_at frames t p' x' -> s t p < s t p' -> p < p').
    { intros v p0 p1 x x' A B C. destruct (Nat.lt_trichotomy p0 p1) as [H|[H|H]]; auto; [subst; lia|]. assert (s v p1 < s v p0) by (apply (Mo v p1 p0 x' x); auto). lia. }
    set (real := fun p q => exists d, candidate r frames t p q d).
    enough (HE : together ti t p (t + 1) q /\ real p q <-> together ti' t (s t p) (t + 1) (s (t + 1) q) /\ real p q) by (apply HE; split; [auto|exists d; auto]).
    revert d Hd. apply (ordered_unique (candidate r frames t) (fun p q => together ti t p (t + 1) q /\ real p q) (fun p q => together ti' t (s t p) (t + 1) (s (t + 1) q) /\ real p q)).
    + intros p0 q0 d0 (x & y & _ & _ & _ & ->). apply dist2_nonneg.
    + intros p0 q0 q1 [H _] [H' _]. apply (matching_from _ _ _ G t (t + 1) p0); auto.
    + intros p0 p1 q0 [H _] [H' _]. apply (matching_from _ _ _ G (t + 1) t q0); apply together_sym; auto.
    + intros p0 q0 q1 [H [d0 C0]] [H' [d1 C1]]. rewrite <- (proj2 (Rg _ _ _ C0)), <- (proj2 (Rg _ _ _ C1)). f_equal. apply (matching_from _ _ _ G' t (t + 1) (s t p0)); auto.
    + intros p0 p1 q0 [H [d0 C0]] [H' [d1 C1]]. rewrite <- (proj1 (Rg _ _ _ C0)), <- (proj1 (Rg _ _ _ C1)). f_equal. apply (matching_from _ _ _ G' (t + 1) t (s (t + 1) q0)); apply together_sym; auto.
    + intros p0 q0 d0 Hc. destruct (O _ _ _ _ Hc) as [H|(p1 & q1 & d1 & C1 & T1 & Le & Hor)]; [left; split; auto; exists d0; auto|right; exists p1, q1, d1]. split; auto. split; [split; [auto|exists d1; auto]|]. split; auto.
    + intros p0 q0 d0 Hc. destruct (motion_candidate _ _ _ _ _ _ _ _ _ _ _ _ M E Hc) as [d0' [Hc' Ed]].
      destruct (O' _ _ _ _ Hc') as [H|(p1 & q1 & d1 & C1 & T1 & Le & Hor)]; [left; split; auto; exists d0; auto|right].
      assert (P1 : s t (u t p1) = p1 /\ s (t + 1) (u (t + 1) q1) = q1) by (destruct C1 as (x & y & Hx & Hy & _); split; [apply (S2 _ _ _ Hx)|apply (S2 _ _ _ Hy)]). destruct P1 as [P1 P2].
      destruct (motion_candidate k' k u s frames' frames r' r t p1 q1 d1 (motion_back _ _ _ _ _ _ M)) as [d1' [C1' Ed1]]; auto.
      assert (Q := C1'). destruct Q as (x1 & y1 & X1 & Y1 & _). assert (Q := Hc). destruct Q as (x0 & y0 & X0 & Y0 & _).
      exists (u t p1), (u (t + 1) q1), d1'. split; auto. split; [split; [rewrite P1, P2; auto|exists d1'; auto]|]. destruct (Rg _ _ _ Hc) as [R1 R2]. split.
      * destruct Le as [Le|[-> Le]]; [left; nia|right]. split; [nia|]. destruct Le as [Le|[Le Lq]]; [left; apply (Mon t (u t p1) p0 x1 x0); auto; rewrite P1; auto|right]. split; [rewrite Le; auto|].
        apply (Mon (t + 1) (u (t + 1) q1) q0 y1 y0); auto. rewrite P2; auto.
      * destruct Hor as [[-> Hne]|[Hne ->]]; [left|right]; split; auto; intros X; apply Hne; congruence.
Qed.
Lemma keeps_order_back k k' s u frames frames' : same_motion k k' s u frames frames' -> keeps_order s frames -> keeps_order u frames'.
Proof.
  intros (_ & _ & S1 & S2 & _) Mo t p p' x x' A B L. destruct (S2 _ _ _ A) as [[y A'] E], (S2 _ _ _ B) as [[y' B'] E']. destruct (Nat.lt_trichotomy (u t p) (u t p')) as [H|[H|H]]; auto; exfalso.
  - rewrite H in E. lia.
  - assert (K := Mo t _ _ _ _ B' A' H). lia.
Qed.
Theorem C165_motion_always c c' r r' frames frames' k k' s u : config_ok c -> dims c = 3 -> frames <> [] -> Forall (frame_ready c) frames -> config_ok c' -> dims c' = 3 -> frames' <> [] -> Forall (frame_ready c') frames' ->
  same_motion k k' s u frames frames' -> (k' * r' = k * r)%Z -> keeps_order s frames ->
  exists fs ti fs' ti', link_all c r frames = Val (fs, ti) /\ link_all c' r' frames' = Val (fs', ti') /\
    forall t p t' p', (exists x, pos_at frames t p x) -> (exists x, pos_at frames t' p' x) -> (together ti t p t' p' <-> together ti' t (s t p) t' (s t' p')).
Proof.
  intros Hok H3 Hne Hr Hok' H3' Hne' Hr' M E Mo. destruct (link_both c r frames Hok H3 Hne Hr) as (fs & ti & El & G & O). destruct (link_both c' r' frames' Hok' H3' Hne' Hr') as (fs' & ti' & El' & G' & O').
  exists fs, ti, fs', ti'. split; auto. split; auto. intros t p t' p' [x Hx] [x' Hx']. split; [apply (motion_ordered k k' s u frames frames' r r'); auto|].
  intros H. apply (motion_ordered k' k u s frames' frames r' r ti' ti) in H; auto; [|apply motion_back; auto|apply (keeps_order_back k k' s u frames frames'); auto].
  destruct M as (K & K' & S1 & S2 & D). rewrite (proj2 (S1 _ _ _ Hx)), (proj2 (S1 _ _ _ Hx')) in H. auto.
Qed.

(** A part that keeps the order of the positions. *)
Definition in_order (s : nat -> nat -> nat) : Prop := forall t p p', p < p' -> s t p < s t p'.
Lemma same_links_ordered r a s part frames ti' ti : extract (2 * r) a s part frames -> in_order s -> greedy_links r frames ti -> greedy_links r part ti' -> ordered_links r frames ti -> ordered_links r part ti' ->
  forall t p q d, candidate r part t p q d -> (together ti' t p (t + 1) q <-> together ti (a + t) (s t p) (a + t + 1) (s (t + 1) q)).
Proof.
  intros X Mo G G' O O' t. assert (X' := X). destruct X' as (P & I & F & B). assert (Inj : forall t p p', s t p = s t p' -> p = p') by (intros u p p' E; destruct (Nat.lt_trichotomy p p') as [K|[K|K]]; auto; apply (Mo u) in K; lia).
  assert (Mon : forall t p p', s t p < s t p' -> p < p') by (intros u p p' E; destruct (Nat.lt_trichotomy p p') as [K|[K|K]]; auto; [subst; lia|apply (Mo u) in K; lia]).
  apply (ordered_unique (candidate r part t) (fun p q => together ti' t p (t + 1) q) (fun p q => together ti (a + t) (s t p) (a + t + 1) (s (t + 1) q))).
  - intros p0 q0 d0 (x & y & _ & _ & _ & ->). apply dist2_nonneg.
  - intros p0 q0 q1. apply (matching_from _ _ _ G').
  - intros p0 p1 q0 H H'. apply (matching_from _ _ _ G' (t + 1) t q0); apply together_sym; auto.
  - intros p0 q0 q1 H H'. apply (Inj (t + 1)). apply (matching_from _ _ _ G (a + t) (a + t + 1) (s t p0)); auto.
  - intros p0 p1 q0 H H'. apply (Inj t). apply (matching_from _ _ _ G (a + t + 1) (a + t) (s (t + 1) q0)); apply together_sym; auto.
  - apply O'.
  - intros p0 q0 d0 Hc. destruct (O _ _ _ _ (candidate_in r a s part frames X _ _ _ _ Hc)) as [H|(p1 & q1 & d1 & C1 & T1 & Le & Hor)]; [left; auto|right].
    destruct Hc as (x & y & A1 & A2 & A3 & ->). destruct C1 as (x' & y' & B1 & B2 & B3 & ->). destruct Hor as [[-> N]|[N ->]].
    + assert (x' = x) by (apply (pos_fun frames (a + t) (s t p0)); auto). subst x'. destruct (F t p0 q1 x y' A1) as (q' & <- & Q); auto; [apply (pos_lt _ _ _ _ A2)|].
      exists p0, q', (dist2 y' x). split; [exists x, y'; auto|]. split; auto. split; [|left; split; [auto|congruence]]. destruct Le as [Le|[Le [K|[_ K]]]]; [left; auto|lia|right; split; auto; right; split; auto; apply (Mon (t + 1)); auto].
    + assert (Y : pos_at frames (a + t + 1) (s (t + 1) q0) y) by (replace (a + t + 1) with (a + (t + 1)) by lia; apply P; auto). assert (y' = y) by (apply (pos_fun frames (a + t + 1) (s (t + 1) q0)); auto). subst y'.
      destruct (B t p1 q0 x' y A2) as (p' & <- & Q); auto. exists p', q0, (dist2 y x'). split; [exists x', y; auto|]. split; auto. split; [|right; split; [congruence|auto]].
      destruct Le as [Le|[Le [K|[_ K]]]]; [left; auto|right; split; auto; left; apply (Mon t); auto|lia].
Qed.
Theorem C167_ordered c c' r a s part frames : config_ok c -> dims c = 3 -> config_ok c' -> dims c' = 3 -> frames <> [] -> part <> [] -> Forall (frame_ready c) frames -> Forall (frame_ready c') part ->
  extract (2 * r) a s part frames -> in_order s ->
  exists fs ti fs' ti', link_all c r frames = Val (fs, ti) /\ link_all c' r part = Val (fs', ti') /\
    forall t p t' p', (exists x, pos_at part t p x) -> (exists x, pos_at part t' p' x) -> (together ti' t p t' p' <-> together ti (a + t) (s t p) (a + t') (s t' p')).
Proof.
  intros Hok H3 Hok' H3' Hne Hne' Hr Hr' X Mo. destruct (link_both c r frames Hok H3 Hne Hr) as (fs & ti & E & G & O). destruct (link_both c' r part Hok' H3' Hne' Hr') as (fs' & ti' & E' & G' & O').
  exists fs, ti, fs', ti'. split; auto. split; auto. intros t p t' p'. apply (extract_core r a s part frames ti' ti X G G'). apply (same_links_ordered r a s part frames ti' ti); auto.
Qed.
(** A window in time, ties or not. *)
Theorem C167_window_always c r a n frames : config_ok c -> dims c = 3 -> Forall (frame_ready c) frames -> 0 < n -> a + n <= length frames ->
  exists fs ti fs' ti', link_all c r frames = Val (fs, ti) /\ link_all c r (firstn n (skipn a frames)) = Val (fs', ti') /\
    forall t p t' p', t < n -> t' < n -> (together ti' t p t' p' <-> together ti (a + t) p (a + t') p').
Proof.
  intros Hok H3 Hr Hn Ha. assert (Ne : frames <> []) by (intros ->; cbn in Ha; lia). assert (L : length (firstn n (skipn a frames)) = n) by (rewrite firstn_length, skipn_length; lia).
  assert (Ne' : firstn n (skipn a frames) <> []) by (intros K; rewrite K in L; cbn in L; lia). assert (Hr' : Forall (frame_ready c) (firstn n (skipn a frames))).
  { apply Forall_forall. intros st H. rewrite Forall_forall in Hr. apply Hr. rewrite <- (firstn_skipn a frames). apply in_or_app. right. rewrite <- (firstn_skipn n (skipn a frames)). apply in_or_app. auto. }
  destruct (link_greedy c r frames Hok H3 Ne Hr) as (gs & tg & Eg & G). destruct (link_greedy c r _ Hok H3 Ne' Hr') as (gs' & tg' & Eg' & G').
  destruct (C167_ordered c c r a (fun _ p => p) (firstn n (skipn a frames)) frames Hok H3 Hok H3 Ne Ne' Hr Hr') as (fs & ti & fs' & ti' & E & E' & H).
  { split; [intros t p x K; apply pos_cut in K; tauto|]. split; [auto|]. split.
    - intros t p q x y K Lt Y _. exists q. split; auto. apply pos_cut. rewrite L in Lt. split; auto. replace (a + (t + 1)) with (a + t + 1) by lia. auto.
    - intros t p q x y K Y _. exists p. split; auto. apply pos_cut. apply pos_cut in K. split; [lia|auto]. }
  { intros t p p' K. exact K. }
  exists fs, ti, fs', ti'. split; auto. split; auto. assert (ti = tg) by congruence. assert (ti' = tg') by congruence. subst tg tg'. intros t p t' p' Ht Ht'. split.
  - intros T. apply H; auto; destruct T as [tr [A B]]; apply (proj1 G'); eauto.
  - intros T. apply H; auto; destruct T as [tr [A B]]; [assert (K : exists x, pos_at frames (a + t) p x) by (apply (proj1 G); eauto)|assert (K : exists x, pos_at frames (a + t') p' x) by (apply (proj1 G); eauto)];
      destruct K as [x K]; exists x; apply pos_cut; auto.
Qed.
(** A square with ties everywhere, forwards, backwards and its last two frames. *)
Definition ex_ties : list particles := [still [[0; 0; 0]; [2; 2; 0]]; still [[2; 0; 0]; [0; 2; 0]]; still [[0; 0; 0]; [2; 2; 0]]]%Z.
Example C81_order_case : Forall (frame_ready lib_config) ex_ties /\ ~ no_tie 2 ex_ties /\ (exists fs ti, link_all lib_config 2 ex_ties = Val (fs, ti) /\ trajs ti = [mkTraj 0 [0; 0; 0]; mkTraj 0 [1; 1; 1]]) /\
  (exists fs ti, link_all lib_config 2 (rev ex_ties) = Val (fs, ti) /\ trajs ti = [mkTraj 0 [0; 0; 0]; mkTraj 0 [1; 1; 1]]) /\ exists fs ti, link_all lib_config 2 (firstn 2 (skipn 1 ex_ties)) = Val (fs, ti) /\ trajs ti = [mkTraj 0 [0; 0]; mkTraj 0 [1; 1]].
Proof.
  split; [repeat constructor; apply new_ready; repeat constructor; repeat eexists|]. split.
  { intros H. apply (H 0 0 0 [0; 0; 0]%Z [2; 0; 0]%Z 0 1 [0; 0; 0]%Z [0; 2; 0]%Z); try (eexists; split; reflexivity); try (split; vm_compute; reflexivity); try reflexivity. left. split; [auto|discriminate]. }
  split; [|split]; (eexists; eexists; split; [vm_compute; reflexivity|reflexivity]).
Qed.
(** The same moved by (1, 1, 1) and made twice as large. *)
Example C165_always_case : let moved := [still [[2; 2; 2]; [6; 6; 2]]; still [[6; 2; 2]; [2; 6; 2]]; still [[2; 2; 2]; [6; 6; 2]]]%Z in
  Forall (frame_ready lib_config) moved /\ same_motion 2 1 (fun _ p => p) (fun _ p => p) ex_ties moved /\ keeps_order (fun _ p => p) ex_ties /\ (1 * 4 = 2 * 2)%Z.
Proof.
  assert (P : forall a b d t p x, pos_at [still a; still b; still d] t p x -> (t = 0 /\ nth_error a p = Some x) \/ (t = 1 /\ nth_error b p = Some x) \/ (t = 2 /\ nth_error d p = Some x)).
  { intros a b d t p x [st [A B]]. destruct t as [|[|[|t]]]; cbn in A; [| | |destruct t; discriminate]; injection A as <-; auto. }
  cbv zeta. split; [repeat constructor; apply new_ready; repeat constructor; repeat eexists|]. split; [|split; [intros t p p' x x' _ _ H; exact H|reflexivity]].
  split; [reflexivity|]. split; [reflexivity|]. split; [|split].
  - intros t p x H. apply P in H as [[-> H]|[[-> H]|[-> H]]]; destruct p as [|[|p]]; try (destruct p); try discriminate; (split; [eexists; eexists; split; reflexivity|reflexivity]).
  - intros t p x H. apply P in H as [[-> H]|[[-> H]|[-> H]]]; destruct p as [|[|p]]; try (destruct p); try discriminate; (split; [eexists; eexists; split; reflexivity|reflexivity]).
  - intros t p q x y x' y' H1 H2 H3 H4. apply P in H1, H2, H3, H4. destruct H1 as [[-> H1]|[[-> H1]|[-> H1]]], H2 as [[E2 H2]|[[E2 H2]|[E2 H2]]], H3 as [[E3 H3]|[[E3 H3]|[E3 H3]]], H4 as [[E4 H4]|[[E4 H4]|[E4 H4]]]; try discriminate;
      destruct p as [|[|p]]; try (destruct p); try discriminate; destruct q as [|[|q]]; try (destruct q); try discriminate; cbn in H1, H2, H3, H4; injection H1 as <-; injection H2 as <-; injection H3 as <-; injection H4 as <-; reflexivity.
Qed.

Print Assumptions C81_order.
Print Assumptions C165_reverse_always.
Print Assumptions C165_motion_always.
Print Assumptions C167_ordered.
Print Assumptions C167_window_always.

(** C167: the trajectories in a part of a movie are those of the movie. *)
Require Import ZArith List Bool Arith Lia.
Require Import Verif.Base Verif.ListX Verif.Box_Model Verif.RTree_Model Verif.RTree_Spec Verif.RTree_Heuristics Verif.Index_Model Verif.Particles_Model Verif.Particles_Spec Verif.Particles_Proofs
  Verif.Traj_Model Verif.Traj_Spec Verif.Traj_Proofs Verif.Cluster_Spec Verif.Link_Model Verif.Link_Spec Verif.Link_Proofs Verif.Link_Props Verif.Particles_Props Verif.Rewind_Spec Verif.Rewind_Props Verif.Portion_Spec.
Import ListNotations.
Local Open Scope nat_scope.

Section Extract.
  Variables (r : Z) (a : nat) (s : nat -> nat -> nat) (part frames : list particles) (ti' ti : trajindex).
  Hypotheses (X : extract (2 * r) a s part frames) (G : greedy_links r frames ti) (G' : greedy_links r part ti').
  Lemma candidate_in t p q d : candidate r part t p q d -> candidate r frames (a + t) (s t p) (s (t + 1) q) d.
  Proof.
    destruct X as (P & _). intros (x & y & A & B & C & ->). exists x, y. split; [apply P; auto|]. split; [|auto]. replace (a + t + 1) with (a + (t + 1)) by lia. apply P; auto.
  Qed.
  Lemma same_links t p q d : no_tie r frames -> candidate r part t p q d -> (together ti' t p (t + 1) q <-> together ti (a + t) (s t p) (a + t + 1) (s (t + 1) q)).
  Proof.
    intros Nt Hd. assert (X' := X). destruct X' as (P & I & F & B). set (real := fun p q => exists d, candidate r part t p q d).
    assert (R : real p q) by (exists d; auto).
    enough (HE : together ti' t p (t + 1) q /\ real p q <-> together ti (a + t) (s t p) (a + t + 1) (s (t + 1) q) /\ real p q) by (clear - HE R; tauto).
    clear R. revert p q d Hd. apply (shortest_unique (candidate r part t) (fun p q => together ti' t p (t + 1) q /\ real p q) (fun p q => together ti (a + t) (s t p) (a + t + 1) (s (t + 1) q) /\ real p q)).
    - intros p0 q0 d0 (x & y & _ & _ & _ & ->). apply dist2_nonneg.
    - intros p0 q0 d0 p1 q1 d1 C0 C1 Hor. apply (candidate_tie r frames (a + t) Nt (s t p0) (s (t + 1) q0) d0 (s t p1) (s (t + 1) q1) d1); try (apply candidate_in; auto).
      destruct C0 as (x & y & A1 & A2 & _), C1 as (x' & y' & B1 & B2 & _). destruct Hor as [[-> N]|[N ->]]; [left|right]; split; auto; intros E; apply N; [apply (I (t + 1) q1 q0 y' y); auto|apply (I t p1 p0 x' x); auto].
    - intros p0 q0 q1 [H _] [H' _]. apply (matching_from _ _ _ G' t (t + 1) p0); auto.
    - intros p0 p1 q0 [H _] [H' _]. apply (matching_from _ _ _ G' (t + 1) t q0); apply together_sym; auto.
    - intros p0 q0 q1 [H [d0 (x & y & A1 & A2 & _)]] [H' [d1 (x' & y' & B1 & B2 & _)]]. apply (I (t + 1) q0 q1 y y'); auto. apply (matching_from _ _ _ G (a + t) (a + t + 1) (s t p0)); auto.
    - intros p0 p1 q0 [H [d0 (x & y & A1 & A2 & _)]] [H' [d1 (x' & y' & B1 & B2 & _)]]. apply (I t p0 p1 x x'); auto. apply (matching_from _ _ _ G (a + t + 1) (a + t) (s (t + 1) q0)); apply together_sym; auto.
    - intros p0 q0 d0 Hc. destruct (candidate_greedy _ _ _ _ G' _ _ _ Hc) as [H|(p1 & q1 & d1 & C1 & T1 & Le & Hor)]; [left; split; auto; exists d0; auto|right].
      exists p1, q1, d1. split; auto. split; [split; [auto|exists d1; auto]|]. split; auto.
    - intros p0 q0 d0 Hc. destruct (candidate_greedy _ _ _ _ G _ _ _ (candidate_in _ _ _ _ Hc)) as [H|(p1 & q1 & d1 & C1 & T1 & Le & Hor)]; [left; split; auto; exists d0; auto|right].
      destruct Hc as (x & y & A1 & A2 & A3 & ->). destruct C1 as (x' & y' & B1 & B2 & B3 & ->). destruct Hor as [[-> N]|[N ->]].
      + assert (x' = x) by (apply (pos_fun frames (a + t) (s t p0)); auto). subst x'. destruct (F t p0 q1 x y' A1) as (q' & <- & Q); auto; [apply (pos_lt _ _ _ _ A2)|].
        assert (Cn : candidate r part t p0 q' (dist2 y' x)) by (exists x, y'; auto). exists p0, q', (dist2 y' x). split; auto. split; [split; [auto|eexists; eauto]|]. split; auto. left; split; [auto|congruence].
      + assert (Y : pos_at frames (a + t + 1) (s (t + 1) q0) y) by (replace (a + t + 1) with (a + (t + 1)) by lia; apply P; auto). assert (y' = y) by (apply (pos_fun frames (a + t + 1) (s (t + 1) q0)); auto). subst y'.
        destruct (B t p1 q0 x' y A2) as (p' & <- & Q); auto. assert (Cn : candidate r part t p' q0 (dist2 y x')) by (exists x', y; auto).
        exists p', q0, (dist2 y x'). split; auto. split; [split; [auto|eexists; eauto]|]. split; auto. right; split; [congruence|auto].
  Qed.
  (** Once the links are known to be the same. *)
  Hypothesis SL : forall t p q d, candidate r part t p q d -> (together ti' t p (t + 1) q <-> together ti (a + t) (s t p) (a + t + 1) (s (t + 1) q)).
  Lemma extract_to t p t' p' : together ti' t p t' p' -> together ti (a + t) (s t p) (a + t') (s t' p').
  Proof.
    assert (X' := X). destruct X' as (P & I & F & B). apply (together_moved ti' ti (fun t => a + t) s).
    - apply G'.
    - apply G.
    - intros tr u q H. apply (proj1 G). destruct (proj2 (proj1 G' u q)) as [x Hx]; eauto.
    - intros tr u q q' H H'. assert (L : together ti' u q (u + 1) q') by (exists tr; auto). destruct (link_candidate _ _ _ _ _ _ G' L) as [d C]. apply (SL u q q' d C) in L. replace (a + (u + 1)) with (a + u + 1) by lia. auto.
  Qed.
  Lemma extract_from m : forall t p p2, (exists x, pos_at part t p x) -> t + m < length part -> together ti (a + t) (s t p) (a + (t + m)) p2 -> exists p', s (t + m) p' = p2 /\ together ti' t p (t + m) p'.
  Proof.
    assert (X' := X). destruct X' as (P & I & F & B). assert (G0 := G). destruct G0 as (H1 & H2 & H3 & H4 & _). induction m as [|m IH]; intros t p p2 [x Hx] Hm [tr [A C]].
    - rewrite Nat.add_0_r in *. exists p. split; [apply (H3 (a + t) (s t p) p2 tr); auto|]. destruct (proj1 (proj1 G' t p)) as [tr' T]; [eauto|]. exists tr'. auto.
    - destruct (between ti tr (a + t) (s t p) (a + (t + S m)) p2 (a + (t + m)) A C) as [q Q]; [lia|]. destruct (IH t p q) as [q' [<- L]]; [eauto|lia|exists tr; auto|].
      replace (a + (t + S m)) with (a + (t + m) + 1) in C by lia. replace (t + S m) with (t + m + 1) in * by lia. assert (L2 : together ti (a + (t + m)) (s (t + m) q') (a + (t + m) + 1) p2) by (exists tr; auto).
      assert (Y : exists y, pos_at part (t + m) q' y) by (destruct L as [tr' [_ L]]; apply (proj1 G'); eauto). destruct Y as [y Y].
      destruct (link_candidate _ _ _ _ _ _ G L2) as [d (x' & y' & U & V & W & _)]. assert (x' = y) by (apply (pos_fun frames (a + (t + m)) (s (t + m) q')); auto). subst x'.
      destruct (F (t + m) q' p2 y y' Y) as (p' & <- & Q'); auto. exists p'. split; auto. assert (Cn : candidate r part (t + m) q' p' (dist2 y' y)) by (exists y, y'; auto). apply (SL _ _ _ _ Cn) in L2.
      destruct L as [tr1 [L1 L1']], L2 as [tr2 [M1 M1']]. assert (tr2 = tr1) by (apply (proj1 (proj2 G') (t + m) q'); auto). subst tr2. exists tr1. auto.
  Qed.
  Lemma extract_core t p t' p' : (exists x, pos_at part t p x) -> (exists x, pos_at part t' p' x) -> (together ti' t p t' p' <-> together ti (a + t) (s t p) (a + t') (s t' p')).
  Proof.
    assert (W : forall t p t' p', t <= t' -> (exists x, pos_at part t p x) -> (exists x, pos_at part t' p' x) -> together ti (a + t) (s t p) (a + t') (s t' p') -> together ti' t p t' p').
    { clear t p t' p'. intros t p t' p' Ht Hx [x' Hx'] H. replace t' with (t + (t' - t)) in * by lia. destruct (extract_from (t' - t) t p (s (t + (t' - t)) p') Hx) as [p2 [Ep T]]; auto; [apply (pos_lt _ _ _ _ Hx')|].
      assert (Y : exists y, pos_at part (t + (t' - t)) p2 y) by (destruct T as [tr [_ T]]; apply (proj1 G'); eauto). destruct Y as [y Y]. assert (p2 = p') by (apply (proj1 (proj2 X) (t + (t' - t)) p2 p' y x'); auto). subst p2. auto. }
    intros Hx Hx'. split; [apply extract_to|]. intros H. destruct (Nat.le_ge_cases t t') as [L|L]; [apply W; auto|]. apply together_sym, W; auto. apply together_sym; auto.
  Qed.
End Extract.

Theorem C167_extract c c' r a s part frames : config_ok c -> dims c = 3 -> config_ok c' -> dims c' = 3 -> frames <> [] -> part <> [] -> Forall (frame_ready c) frames -> Forall (frame_ready c') part ->
  extract (2 * r) a s part frames -> no_tie r frames ->
  exists fs ti fs' ti', link_all c r frames = Val (fs, ti) /\ link_all c' r part = Val (fs', ti') /\
    forall t p t' p', (exists x, pos_at part t p x) -> (exists x, pos_at part t' p' x) -> (together ti' t p t' p' <-> together ti (a + t) (s t p) (a + t') (s t' p')).
Proof.
  intros Hok H3 Hok' H3' Hne Hne' Hr Hr' X Nt. destruct (link_greedy c r frames Hok H3 Hne Hr) as (fs & ti & E & G). destruct (link_greedy c' r part Hok' H3' Hne' Hr') as (fs' & ti' & E' & G').
  exists fs, ti, fs', ti'. split; auto. split; auto. intros t p t' p'. apply (extract_core r a s part frames ti' ti X G G'). intros t0 p0 q0 d0. apply (same_links r a s part frames ti' ti X G G' t0 p0 q0 d0 Nt).
Qed.
Lemma pos_cut a n frames t p x : pos_at (firstn n (skipn a frames)) t p x <-> t < n /\ pos_at frames (a + t) p x.
Proof.
  unfold pos_at. assert (E : t < n -> nth_error (firstn n (skipn a frames)) t = nth_error frames (a + t)).
  { intros H. revert a t frames H. induction n as [|n IH]; intros a t frames H; [lia|]. destruct (skipn a frames) as [|f l] eqn:K.
    - assert (length frames <= a) by (apply (f_equal (@length _)) in K; rewrite skipn_length in K; cbn in K; lia). rewrite (proj2 (nth_error_None frames (a + t))) by lia. destruct t; reflexivity.
    - assert (K1 : nth_error frames a = Some f /\ skipn (S a) frames = l).
      { clear - K. revert frames K. induction a as [|a IHa]; intros frames K; [destruct frames; cbn in K; [discriminate|injection K as -> ->; auto]|destruct frames as [|g fr]; [discriminate|]; cbn in K |- *; apply (IHa fr K)]. }
      destruct K1 as [K1 <-]. destruct t as [|t]; [rewrite Nat.add_0_r, K1; reflexivity|]. cbn [firstn nth_error]. rewrite IH by lia. f_equal. lia. }
  split.
  - intros [st [A B]]. assert (H : t < n). { apply nth_error_lt in A. rewrite firstn_length in A. lia. } split; auto. exists st. rewrite <- E; auto.
  - intros [H [st [A B]]]. exists st. rewrite E; auto.
Qed.
(** A run of successive frames, linked alone. *)
Theorem C167_window c r a n frames : config_ok c -> dims c = 3 -> Forall (frame_ready c) frames -> no_tie r frames -> 0 < n -> a + n <= length frames ->
  exists fs ti fs' ti', link_all c r frames = Val (fs, ti) /\ link_all c r (firstn n (skipn a frames)) = Val (fs', ti') /\
    forall t p t' p', t < n -> t' < n -> (together ti' t p t' p' <-> together ti (a + t) p (a + t') p').
Proof.
  intros Hok H3 Hr Nt Hn Ha. assert (Ne : frames <> []) by (intros ->; cbn in Ha; lia). assert (L : length (firstn n (skipn a frames)) = n) by (rewrite firstn_length, skipn_length; lia).
  assert (Ne' : firstn n (skipn a frames) <> []) by (intros K; rewrite K in L; cbn in L; lia). assert (Hr' : Forall (frame_ready c) (firstn n (skipn a frames))).
  { apply Forall_forall. intros st H. rewrite Forall_forall in Hr. apply Hr. rewrite <- (firstn_skipn a frames). apply in_or_app. right. rewrite <- (firstn_skipn n (skipn a frames)). apply in_or_app. auto. }
  destruct (link_greedy c r frames Hok H3 Ne Hr) as (gs & tg & Eg & G). destruct (link_greedy c r _ Hok H3 Ne' Hr') as (gs' & tg' & Eg' & G').
  destruct (C167_extract c c r a (fun _ p => p) (firstn n (skipn a frames)) frames Hok H3 Hok H3 Ne Ne' Hr Hr') as (fs & ti & fs' & ti' & E & E' & H); auto.
  { split; [intros t p x K; apply pos_cut in K; tauto|]. split; [auto|]. split.
    - intros t p q x y K Lt Y _. exists q. split; auto. apply pos_cut. rewrite L in Lt. split; auto. replace (a + (t + 1)) with (a + t + 1) by lia. auto.
    - intros t p q x y K Y _. exists p. split; auto. apply pos_cut. apply pos_cut in K. split; [lia|auto]. }
  exists fs, ti, fs', ti'. split; auto. split; auto. assert (ti = tg) by congruence. assert (ti' = tg') by congruence. subst tg tg'. intros t p t' p' Ht Ht'. split.
  - intros T. apply H; auto; destruct T as [tr [A B]]; apply (proj1 G'); eauto.
  - intros T. apply H; auto; destruct T as [tr [A B]]; [assert (K : exists x, pos_at frames (a + t) p x) by (apply (proj1 G); eauto)|assert (K : exists x, pos_at frames (a + t') p' x) by (apply (proj1 G); eauto)];
      destruct K as [x K]; exists x; apply pos_cut; auto.
Qed.
(** A position left out near one that was kept: the trajectories change. *)
Theorem C167_near_refuted : exists part frames s fs ti fs' ti', no_tie 4 frames /\ Forall (frame_ready lib_config) frames /\ Forall (frame_ready lib_config) part /\
  (forall t p x, pos_at part t p x -> pos_at frames t (s t p) x) /\ (forall t p p', s t p = s t p' -> p = p') /\
  link_all lib_config 4 frames = Val (fs, ti) /\ link_all lib_config 4 part = Val (fs', ti') /\ together ti' 0 0 1 0 /\ ~ together ti 0 (s 0 0) 1 (s 1 0).
Proof.
  exists [still [[0; 0; 0]]%Z; still [[6; 0; 0]]%Z], [still [[0; 0; 0]; [10; 0; 0]]%Z; still [[6; 0; 0]]%Z], (fun _ p => p). eexists. eexists. eexists. eexists.
  assert (P : forall a b t p x, pos_at [still a; still b] t p x -> (t = 0 /\ nth_error a p = Some x) \/ (t = 1 /\ nth_error b p = Some x)).
  { intros a b t p x [st [A B]]. destruct t as [|[|t]]; cbn in A; [| |destruct t; discriminate]; injection A as <-; auto. }
  split; [|split; [repeat constructor; apply new_ready; repeat constructor; repeat eexists|split; [repeat constructor; apply new_ready; repeat constructor; repeat eexists|]]].
  { intros t p q x y p' q' x' y' H1 H2 H3 H4 _ _ Hor. apply P in H1, H2, H3, H4. destruct H1 as [[-> H1]|[-> H1]], H2 as [[E2 H2]|[E2 H2]], H3 as [[E3 H3]|[E3 H3]], H4 as [[E4 H4]|[E4 H4]]; try lia.
    destruct q as [|[|q]]; try discriminate; destruct q' as [|[|q']]; try discriminate. destruct p as [|[|[|p]]]; try discriminate; destruct p' as [|[|[|p']]]; try discriminate; try lia; cbn in H1, H2, H3, H4; injection H1 as <-; injection H2 as <-; injection H3 as <-; injection H4 as <-; vm_compute; discriminate. }
  split.
  { intros t p x H. apply P in H as [[-> H]|[-> H]]; destruct p as [|[|p]]; try discriminate; cbn in H; injection H as <-; eexists; split; reflexivity. }
  split; [auto|]. split; [vm_compute; reflexivity|]. split; [vm_compute; reflexivity|]. split.
  - exists 0. split; (eexists; split; [reflexivity|]); [exists 0|exists 1]; split; reflexivity.
  - intros [tr [[T [HT [j [E1 E2]]]] [T' [HT' [j' [E1' E2']]]]]]. destruct tr as [|[|tr]]; cbn in HT, HT'; try (destruct tr; discriminate); injection HT as <-; injection HT' as <-; cbn in *; subst.
    + discriminate.
    + discriminate.
Qed.
(** The last two frames of the example of C165, and the whole of it without the position that comes far away. *)
Definition ex_rest : list particles := [still [[0; 0; 0]; [9; 0; 0]]; still [[1; 1; 0]; [7; 0; 0]]; still [[6; 2; 0]; [2; 3; 0]]]%Z.
Example C167_case : extract (2 * 4) 0 (fun _ p => p) ex_rest ex_walk /\ Forall (frame_ready lib_config) ex_rest /\ (exists fs ti, link_all lib_config 4 ex_rest = Val (fs, ti) /\ trajs ti = [mkTraj 0 [0; 0; 1]; mkTraj 0 [1; 1; 0]]) /\
  exists fs ti, link_all lib_config 4 (firstn 2 (skipn 1 ex_walk)) = Val (fs, ti) /\ trajs ti = [mkTraj 0 [0; 1]; mkTraj 0 [1; 0]; mkTraj 0 [2]].
Proof.
  assert (P : forall a b d t p x, pos_at [still a; still b; still d] t p x -> (t = 0 /\ nth_error a p = Some x) \/ (t = 1 /\ nth_error b p = Some x) \/ (t = 2 /\ nth_error d p = Some x)).
  { intros a b d t p x [st [A B]]. destruct t as [|[|[|t]]]; cbn in A; [| | |destruct t; discriminate]; injection A as <-; auto. }
  split; [|split; [repeat constructor; apply new_ready; repeat constructor; repeat eexists|split; (eexists; eexists; split; [vm_compute; reflexivity|reflexivity])]].
  split; [|split; [auto|split]].
  - intros t p x H. apply P in H as [[-> H]|[[-> H]|[-> H]]]; destruct p as [|[|p]]; try (destruct p); try discriminate; cbn in H; injection H as <-; eexists; split; reflexivity.
  - intros t p q x y A Lt B [_ C]. apply P in A, B. destruct A as [[-> A]|[[-> A]|[-> A]]], B as [[E B]|[[E B]|[E B]]]; try lia; exists q; (split; [reflexivity|]);
      destruct q as [|[|[|q]]]; try (destruct q); try discriminate; cbn in B; injection B as <-; try (eexists; split; reflexivity). exfalso.
      destruct p as [|[|p]]; try (destruct p); try discriminate; cbn in A; injection A as <-; vm_compute in C; discriminate.
  - intros t p q x y A B [_ C]. apply P in A, B. destruct A as [[E' A]|[[E' A]|[E' A]]], B as [[E B]|[[E B]|[E B]]]; try lia; cbn [Nat.add] in E; subst t; exists p; (split; [reflexivity|]);
      destruct p as [|[|[|p]]]; try (destruct p); try discriminate; cbn in B; injection B as <-; try (eexists; split; reflexivity). exfalso.
      destruct q as [|[|q]]; try (destruct q); try discriminate; cbn in A; injection A as <-; vm_compute in C; discriminate.
Qed.

Print Assumptions C167_extract.
Print Assumptions C167_window.
Print Assumptions C167_near_refuted.

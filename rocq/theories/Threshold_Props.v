(** C70: automatic threshold on the intensity of the centres. *)
Require Import List Bool Arith ZArith Lia Sorted Permutation.
Require Import Verif.Base Verif.ListX Verif.Traj_Model Verif.Particles_Model Verif.RTree_Model Verif.Peaks_Model Verif.Peaks_Proofs Verif.Threshold_Proofs Verif.Threshold_Spec.
Import ListNotations.

Section Link.
Variable I : nat -> Z.
Lemma bin_reaches lo hi t x : (lo < hi)%Z -> (lo <= x)%Z -> reaches lo hi t x = negb (bin lo hi x <? t).
Proof.
  intros H X. unfold reaches, bin. set (d := (hi - lo)%Z). assert (Hd : (0 < d)%Z) by (unfold d; lia). set (y := ((x - lo) * 100)%Z). replace (100 * (x - lo))%Z with y by (unfold y; lia). assert (Hy : (0 <= y)%Z) by (unfold y; lia). clearbody d y.
  assert (E := Z.div_mod y d ltac:(lia)). assert (M := Z.mod_pos_bound y d Hd). assert (Q : (0 <= y / d)%Z) by (apply Z.div_pos; lia). set (q := (y / d)%Z) in *. clearbody q.
  destruct (Nat.ltb_spec (Z.to_nat q) t) as [L|L]; cbn [negb].
  - apply Z.leb_gt. assert ((q + 1) * d <= Z.of_nat t * d)%Z by (apply Z.mul_le_mono_nonneg_r; lia). lia.
  - apply Z.leb_le. assert (Z.of_nat t * d <= q * d)%Z by (apply Z.mul_le_mono_nonneg_r; lia). lia.
Qed.
Lemma pop_population lo hi l t : (lo < hi)%Z -> (forall c, In c l -> (lo <= I c)%Z) -> pop I lo hi l t = population I lo hi l t.
Proof.
  intros H. unfold pop, population. induction l as [|c l IH]; intros X; auto. cbn [filter]. rewrite !bin_reaches by (auto; apply X; left; auto).
  assert (E : (bin lo hi (I c) =? t) = negb (bin lo hi (I c) <? t) && negb (negb (bin lo hi (I c) <? S t))). { destruct (Nat.eqb_spec (bin lo hi (I c)) t), (Nat.ltb_spec (bin lo hi (I c)) t), (Nat.ltb_spec (bin lo hi (I c)) (S t)); cbn; auto; lia. }
  rewrite E. specialize (IH ltac:(intros; apply X; right; auto)). destruct (_ && _); cbn [length]; lia.
Qed.
Lemma population_perm lo hi l l' t : Permutation l l' -> population I lo hi l t = population I lo hi l' t.
Proof. intros P. unfold population. apply Permutation_length. apply perm_filter. auto. Qed.
(** Unfolding of the function for a list with two different intensities. *)
Lemma unfold_auto l lo hi : dimmest I l lo -> brightest I l hi -> (lo < hi)%Z -> forall fuel, auto_threshold I fuel l = Val (option_map (fun t => skipn (fold_left Nat.add (firstn t (histogram I lo hi (by_intensity I l))) 0) (by_intensity I l)) (valley fuel (histogram I lo hi (by_intensity I l)))).
Proof.
  intros [[c [Hc Ec]] Hlo] [[e [He Ee]] Hhi] Lt fuel. unfold auto_threshold. assert (P : Permutation (by_intensity I l) l) by apply sort_by_perm. assert (S := by_intensity_sorted I l).
  destruct (by_intensity I l) as [|c0 r] eqn:El. { apply Permutation_nil in P. subst. destruct Hc. }
  assert (E0 : I c0 = lo). { assert (In c0 l) by (eapply Permutation_in; [exact P|left; auto]). assert (In c (c0 :: r)) by (eapply Permutation_in; [apply Permutation_sym, P|auto]). inversion S as [|a b S' F]; subst. assert (I c0 <= I c)%Z. { destruct H0 as [->|H0]; [lia|]. rewrite Forall_forall in F. apply F. auto. } specialize (Hlo c0 H). lia. }
  assert (E1 : I (last (c0 :: r) c0) = hi). { assert (F := sorted_last I (c0 :: r) c0 S). rewrite Forall_forall in F. assert (In (last (c0 :: r) c0) l) by (eapply Permutation_in; [exact P|apply last_in; congruence]). assert (In e (c0 :: r)) by (eapply Permutation_in; [apply Permutation_sym, P|auto]). specialize (F e H0). specialize (Hhi _ H). lia. }
  rewrite E0, E1. destruct (Z.eqb_spec hi lo); [lia|]. auto.
Qed.
Lemma extremes l : l <> [] -> exists lo hi, dimmest I l lo /\ brightest I l hi.
Proof.
  intros N. assert (P : Permutation (by_intensity I l) l) by apply sort_by_perm. assert (S := by_intensity_sorted I l). destruct (by_intensity I l) as [|c0 r] eqn:El. { apply Permutation_nil in P. congruence. }
  exists (I c0), (I (last (c0 :: r) c0)). assert (F := sorted_last I (c0 :: r) c0 S). rewrite Forall_forall in F. inversion S as [|a b S' G]; subst. rewrite Forall_forall in G. split; split.
  - exists c0. split; auto. eapply Permutation_in; [exact P|left; auto].
  - intros c Hc. assert (H : In c (c0 :: r)) by (eapply Permutation_in; [apply Permutation_sym, P|auto]). destruct H as [->|H]; [lia|]. apply G. auto.
  - exists (last (c0 :: r) c0). split; auto. eapply Permutation_in; [exact P|apply last_in; congruence].
  - intros c Hc. apply F. eapply Permutation_in; [apply Permutation_sym, P|auto].
Qed.
Variables (l : list nat) (lo hi : Z).
Hypothesis Dm : dimmest I l lo.
Hypothesis Br : brightest I l hi.
Hypothesis Lt : (lo < hi)%Z.
Notation s := (by_intensity I l).
Notation h := (histogram I lo hi s).
Lemma s_perm : Permutation s l.
Proof. apply sort_by_perm. Qed.
Lemma s_lo c : In c s -> (lo <= I c)%Z.
Proof. intros H. apply Dm. eapply Permutation_in; [apply s_perm|auto]. Qed.
Lemma h_pop q : q < 100 -> nth q h 0 = population I lo hi l q.
Proof. intros H. rewrite histogram_get by auto. rewrite pop_population by (auto; intros; apply s_lo; auto). apply population_perm, s_perm. Qed.
Lemma h_peak : is_peak I lo hi l (max_element h) /\ 0 < population I lo hi l (max_element h) /\ 0 < population I lo hi l 0.
Proof.
  destruct (max_element_spec h) as (A & B & C). { intros E. assert (X := histogram_len I lo hi s). rewrite E in X. discriminate. } rewrite histogram_len in *.
  assert (P : is_peak I lo hi l (max_element h)). { split; auto. split; intros q Hq; rewrite <- !h_pop by lia; auto. }
  assert (Z : 0 < population I lo hi l 0). { destruct Dm as [[c [Hc Ec]] _]. unfold population. destruct (filter _ l) eqn:E; [|cbn; lia]. exfalso. assert (X : In c []). { rewrite <- E. apply filter_In. split; auto. unfold reaches. rewrite Ec, Z.sub_diag, andb_true_iff, negb_true_iff, Z.leb_le, Z.leb_gt. lia. } destruct X. }
  split; auto. split; auto. destruct P as (P1 & P2 & P3). specialize (P3 0 ltac:(lia)). lia.
Qed.
Lemma cut_filter t : t <= 100 -> skipn (fold_left Nat.add (firstn t h) 0) s = filter (fun c => reaches lo hi t (I c)) s.
Proof.
  intros Ht. rewrite sum_firstn by auto. rewrite (skip_filter I (fun c => bin lo hi (I c) <? t)).
  - apply filter_ext_in. intros c Hc. symmetry. apply bin_reaches; auto. apply s_lo. auto.
  - apply by_intensity_sorted.
  - intros a b Hab. rewrite !Nat.ltb_lt. intros H. eapply Nat.le_lt_trans; [|exact H]. unfold bin. assert ((I a - lo) * 100 / (hi - lo) <= (I b - lo) * 100 / (hi - lo))%Z by (apply Z.div_le_mono; lia). lia.
Qed.
Lemma h_len : length h = 100.
Proof. apply histogram_len. Qed.
Lemma valley_some fuel t : valley fuel h = Some t -> t <= max_element h /\ 0 < nth t h 0 /\ t = min_element h (lower_bound (max_element h) h 0 (max_element h)) (max_element h).
Proof.
  unfold valley. destruct h_peak as ((P & _) & P1 & _). assert (LB := lower_bound_range (max_element h) h 0 (max_element h)). set (nz := lower_bound _ _ _ _) in *. clearbody nz. intros H.
  assert (Lo : min_element h nz (max_element h) <= max_element h). { destruct (Nat.lt_ge_cases nz (max_element h)) as [C|C]; [destruct (min_element_spec h nz (max_element h) C) as (A & _); [rewrite h_len; lia|lia]|]. unfold min_element. destruct (Nat.ltb_spec nz (max_element h)); lia. }
  destruct (Nat.eq_dec (nth (min_element h nz (max_element h)) h 0) 0) as [Z|Z].
  - rewrite climb_stuck in H; [discriminate|lia|rewrite h_len; lia|rewrite h_pop by auto; auto|auto].
  - destruct fuel as [|f]; [discriminate|]. rewrite climb_fix in H. destruct (Nat.eqb_spec (nth (min_element h nz (max_element h)) h 0) 0); [lia|]. injection H as <-. split; auto. split; [lia|auto].
Qed.
Lemma valley_fuel fuel : 1 <= fuel -> valley fuel h = valley 1 h.
Proof.
  intros F. unfold valley. destruct h_peak as ((P & _) & P1 & _). assert (LB := lower_bound_range (max_element h) h 0 (max_element h)). set (nz := lower_bound _ _ _ _) in *. clearbody nz.
  destruct (Nat.eq_dec (nth (min_element h nz (max_element h)) h 0) 0) as [Z|Z].
  - rewrite !climb_stuck; auto; try lia; try (rewrite h_len; lia); rewrite h_pop by auto; auto.
  - destruct fuel as [|f]; [lia|]. rewrite !climb_fix. destruct (Nat.eqb_spec (nth (min_element h nz (max_element h)) h 0) 0); [lia|]. auto.
Qed.
End Link.

(** When the function returns, there is a bin t, not empty, such that the centres kept are exactly those that reach t hundredths of the range of intensities: the
    others, all dimmer, were removed, and the centres are ordered by increasing intensity. *)
Theorem C70_cut (I : nat -> Z) fuel l kept : auto_threshold I fuel l = Val (Some kept) ->
  exists lo hi t dropped, dimmest I l lo /\ brightest I l hi /\ (lo < hi)%Z /\ t < 100 /\ 0 < population I lo hi l t /\
    Permutation (dropped ++ kept) l /\ StronglySorted (fun a b => (I a <= I b)%Z) (dropped ++ kept) /\ (forall c, In c kept <-> In c l /\ reaches lo hi t (I c) = true) /\ (forall c, In c dropped <-> In c l /\ reaches lo hi t (I c) = false).
Proof.
  intros H. assert (N : l <> []) by (intros ->; discriminate). destruct (extremes I l N) as (lo & hi & Dm & Br).
  assert (Le : (lo <= hi)%Z). { destruct Dm as [[c [Hc <-]] _]. destruct Br as [_ Br]. auto. }
  assert (Lt : (lo < hi)%Z). { destruct (Z.eq_dec lo hi) as [E|E]; [|lia]. exfalso. subst hi. assert (All : forall c, In c l -> I c = lo). { intros c Hc. destruct Dm as [_ D]. destruct Br as [_ B]. specialize (D c Hc). specialize (B c Hc). lia. }
    unfold auto_threshold in H. assert (P : Permutation (by_intensity I l) l) by apply sort_by_perm. destruct (by_intensity I l) as [|c0 r] eqn:El; [discriminate|]. rewrite (All c0), (All (last (c0 :: r) c0)), Z.eqb_refl in H; [discriminate| |]; eapply Permutation_in; [exact P|apply last_in; congruence|exact P|left; auto]. }
  rewrite (unfold_auto I l lo hi Dm Br Lt) in H. injection H as H. destruct (valley fuel _) as [t|] eqn:Ev; [|discriminate]. injection H as H.
  destruct (valley_some I l lo hi Dm Lt fuel t Ev) as (T1 & T2 & _). destruct (h_peak I l lo hi Dm Lt) as ((P & _) & _). rewrite h_pop in T2 by (auto; lia).
  assert (HS := cut_filter I l lo hi Dm Lt t ltac:(lia)). exists lo, hi, t, (firstn (fold_left Nat.add (firstn t (histogram I lo hi (by_intensity I l))) 0) (by_intensity I l)).
  set (n := fold_left Nat.add (firstn t (histogram I lo hi (by_intensity I l))) 0) in *. split; auto. split; auto. split; auto. split; [lia|]. split; auto.
  assert (P' := s_perm I l). assert (Sp : firstn n (by_intensity I l) ++ kept = by_intensity I l) by (rewrite <- H; apply firstn_skipn). rewrite Sp. split; auto. split; [apply by_intensity_sorted|].
  assert (K : forall c, In c kept <-> In c l /\ reaches lo hi t (I c) = true). { intros c. rewrite <- H, HS, filter_In. split; intros [A B]; split; auto; [eapply Permutation_in; [|exact A]; auto|eapply Permutation_in; [apply Permutation_sym|exact A]; auto]. }
  split; auto. intros c. split.
  - intros Hc. split. { eapply Permutation_in; [exact P'|]. rewrite <- Sp. apply in_app_iff. auto. }
    assert (Hn : n = length (filter (fun c => negb (reaches lo hi t (I c))) (by_intensity I l))). { unfold n. rewrite sum_firstn by lia. f_equal. apply filter_ext_in. intros a Ha. rewrite bin_reaches; auto; [now rewrite negb_involutive|]. apply Dm. eapply Permutation_in; eauto. }
    destruct (reaches lo hi t (I c)) eqn:Rc; auto. exfalso.
    assert (G : forall s n, StronglySorted (fun a b => (I a <= I b)%Z) s -> n = length (filter (fun c => negb (reaches lo hi t (I c))) s) -> In c (firstn n s) -> False).
    { clear -Rc Lt. induction s as [|x s IH]; intros n S E Hc; [rewrite firstn_nil in Hc; destruct Hc|]. inversion S as [|a b S' F]; subst. cbn [filter] in Hc. destruct (reaches lo hi t (I x)) eqn:Rx; cbn [negb] in Hc.
      - assert (Z : filter (fun c => negb (reaches lo hi t (I c))) s = []). { clear -F Rx Lt. induction F as [|y s Hy F IH]; auto. cbn [filter]. replace (reaches lo hi t (I y)) with true; [auto|]. symmetry. unfold reaches in *. apply Z.leb_le. apply Z.leb_le in Rx. lia. } rewrite Z in Hc. destruct Hc.
      - cbn [length firstn] in Hc. destruct Hc as [->|Hc]; [congruence|]. eapply IH; eauto. }
    eapply (G (by_intensity I l) n); eauto. apply by_intensity_sorted.
  - intros [Hc Rc]. assert (Hs : In c (firstn n (by_intensity I l) ++ kept)) by (rewrite Sp; eapply Permutation_in; [apply Permutation_sym, P'|auto]). apply in_app_iff in Hs. destruct Hs as [Hs|Hs]; auto. apply K in Hs. destruct Hs. congruence.
Qed.
(** The brightest centre is always kept. *)
Theorem C70_brightest (I : nat -> Z) fuel l kept c : auto_threshold I fuel l = Val (Some kept) -> In c l -> (forall c', In c' l -> (I c' <= I c)%Z) -> In c kept.
Proof.
  intros H Hc Hb. destruct (C70_cut I fuel l kept H) as (lo & hi & t & dropped & Dm & Br & Lt & Ht & _ & _ & _ & K & _). apply K. split; auto. unfold reaches. apply Z.leb_le.
  destruct Br as [[e [He <-]] Br]. specialize (Hb e He). assert (Z.of_nat t * (I e - lo) <= 100 * (I e - lo))%Z by (apply Z.mul_le_mono_nonneg_r; lia). lia.
Qed.
(** No empty bin before the peak: it ends, with the threshold at the first of the least populated bins before the peak (at 0 when the peak is the first bin). *)
Theorem C70_valley (I : nat -> Z) l lo hi p : dimmest I l lo -> brightest I l hi -> (lo < hi)%Z -> is_peak I lo hi l p -> (forall q, q < p -> 0 < population I lo hi l q) ->
  exists t kept, (forall fuel, 1 <= fuel -> auto_threshold I fuel l = Val (Some kept)) /\ (p = 0 -> t = 0) /\ (0 < p -> t < p /\ (forall q, q < t -> population I lo hi l t < population I lo hi l q) /\ (forall q, q < p -> population I lo hi l t <= population I lo hi l q)) /\
    (forall c, In c kept <-> In c l /\ reaches lo hi t (I c) = true).
Proof.
  intros Dm Br Lt Pk Full. destruct (h_peak I l lo hi Dm Lt) as (Pk' & P1 & P2). set (h := histogram I lo hi (by_intensity I l)) in *.
  assert (Ep : max_element h = p). { destruct Pk as (A & B & C). destruct Pk' as (A' & B' & C'). destruct (Nat.lt_trichotomy (max_element h) p) as [E|[E|E]]; auto. - specialize (B _ E). specialize (C' p A). lia. - specialize (B' _ E). specialize (C _ A'). lia. }
  assert (Hp : p < 100) by apply Pk. assert (Lh : length h = 100) by apply h_len.
  assert (NZ : lower_bound (max_element h) h 0 (max_element h) = 0). { apply lower_bound_full. rewrite Ep. intros q Hq. unfold h. rewrite h_pop by (auto; lia). apply Full. lia. }
  set (t := min_element h 0 p).
  assert (Ht : t <= p /\ 0 < nth t h 0 /\ (p = 0 -> t = 0) /\ (0 < p -> t < p /\ (forall q, q < t -> population I lo hi l t < population I lo hi l q) /\ (forall q, q < p -> population I lo hi l t <= population I lo hi l q))).
  { destruct (Nat.eq_dec p 0) as [E|E].
    - assert (t = 0). { unfold t, min_element. rewrite E. auto. } rewrite H. split; [lia|]. split. { unfold h. rewrite h_pop by (auto; lia). auto. } split; auto. lia.
    - destruct (min_element_spec h 0 p ltac:(lia) ltac:(lia)) as (A & B & C). fold t in A, B, C. split; [lia|]. split. { unfold h. rewrite h_pop by (auto; lia). apply Full. lia. } split; [lia|]. intros _. split; [lia|]. split.
      + intros q Hq. rewrite <- !(h_pop I l lo hi Dm Lt) by lia. apply B. lia.
      + intros q Hq. rewrite <- !(h_pop I l lo hi Dm Lt) by lia. apply C. lia. }
  destruct Ht as (T1 & T2 & T3 & T4). exists t, (filter (fun c => reaches lo hi t (I c)) (by_intensity I l)).
  assert (Ev : forall fuel, 1 <= fuel -> valley fuel h = Some t). { intros fuel F. unfold h. rewrite valley_fuel by auto. fold h. unfold valley. rewrite NZ, Ep. fold t. rewrite climb_fix. destruct (Nat.eqb_spec (nth t h 0) 0); [lia|auto]. }
  split; [|split; [auto|split; [auto|]]].
  - intros fuel F. rewrite (unfold_auto I l lo hi Dm Br Lt). fold h. rewrite Ev by auto. cbn [option_map]. f_equal. f_equal. unfold h. apply cut_filter; auto. lia.
  - intros c. rewrite filter_In. assert (P := s_perm I l). split; intros [A B]; split; auto; [eapply Permutation_in; [|exact A]; auto|eapply Permutation_in; [apply Permutation_sym|exact A]; auto].
Qed.
(** The loop of the code never helps: the function returns after the first test or never.  It never returns exactly when a bin between the result of the dichotomy and the peak is empty. *)
Theorem C70_endless (I : nat -> Z) l lo hi : dimmest I l lo -> brightest I l hi -> (lo < hi)%Z ->
  let h := histogram I lo hi (by_intensity I l) in let p := max_element h in
  (forall fuel, auto_threshold I fuel l = Val None) <-> exists t, lower_bound p h 0 p <= t < p /\ population I lo hi l t = 0.
Proof.
  intros Dm Br Lt h p. destruct (h_peak I l lo hi Dm Lt) as ((Hp & _) & P1 & P2). fold h in Hp, P1. fold p in Hp, P1. assert (Lh : length h = 100) by apply h_len.
  assert (LB := lower_bound_range p h 0 p). split.
  - intros H. specialize (H 1). rewrite (unfold_auto I l lo hi Dm Br Lt) in H. fold h in H. injection H as H. destruct (valley 1 h) as [t|] eqn:Ev; [discriminate|]. clear H. unfold valley in Ev. fold p in Ev.
    destruct (Nat.lt_ge_cases (lower_bound p h 0 p) p) as [C|C].
    + destruct (min_element_spec h (lower_bound p h 0 p) p C ltac:(lia)) as (A & _ & _). exists (min_element h (lower_bound p h 0 p) p). split; auto. rewrite climb_fix in Ev. rewrite <- (h_pop I l lo hi Dm Lt) by lia. fold h. destruct (Nat.eqb_spec (nth (min_element h (lower_bound p h 0 p) p) h 0) 0); [auto|discriminate].
    + exfalso. rewrite climb_fix in Ev. assert (Em : min_element h (lower_bound p h 0 p) p = p) by (unfold min_element; destruct (Nat.ltb_spec (lower_bound p h 0 p) p); [lia|auto]). rewrite Em in Ev.
      rewrite <- (h_pop I l lo hi Dm Lt) in P1 by lia. fold h in P1. destruct (Nat.eqb_spec (nth p h 0) 0); [lia|discriminate].
  - intros (t & Ht & Zt) fuel. rewrite (unfold_auto I l lo hi Dm Br Lt). fold h. destruct (min_element_spec h (lower_bound p h 0 p) p ltac:(lia) ltac:(lia)) as (A & B & C). specialize (C t Ht). rewrite <- (h_pop I l lo hi Dm Lt) in Zt by lia. fold h in Zt.
    unfold valley. fold p. rewrite climb_stuck; auto; try lia. rewrite <- (h_pop I l lo hi Dm Lt) in P1 by lia. auto.
Qed.
(** Refuted: thresholding does not always end. *)
Definition gaps : list nat := [0; 2; 2; 3; 3; 5; 5; 5; 5; 100].
Theorem C70_endless_refuted : exists (I : nat -> Z) l, forall fuel, auto_threshold I fuel l = Val None.
Proof.
  exists Z.of_nat, gaps. apply (C70_endless Z.of_nat gaps 0 100).
  - split. { exists 0. split; [left; auto|auto]. } intros; lia.
  - split. { exists 100. split; [cbn; tauto|auto]. } intros c Hc. cbn in Hc. lia.
  - lia.
  - exists 4. split; [|reflexivity]. vm_compute. lia.
Qed.
(** Refuted: no centre, or centres of the same intensity only (for instance a single centre): undefined behaviour. *)
Theorem C70_empty_refuted (I : nat -> Z) fuel : auto_threshold I fuel [] = UB.
Proof. reflexivity. Qed.
Theorem C70_equal_refuted (I : nat -> Z) fuel l x : (forall c, In c l -> I c = x) -> auto_threshold I fuel l = UB.
Proof.
  intros All. unfold auto_threshold. assert (P : Permutation (by_intensity I l) l) by apply sort_by_perm. destruct (by_intensity I l) as [|c0 r] eqn:El; auto. rewrite (All c0), (All (last (c0 :: r) c0)), Z.eqb_refl; auto; eapply Permutation_in; [exact P|apply last_in; congruence|exact P|left; auto].
Qed.
(** Intensities 0, 0, 0, 1, 2, 2, 2, 2, 100: peak in bin 2, valley in bin 1. *)
Example C70_witness : auto_threshold (fun c => nth c [2; 0; 1; 0; 2; 100; 0; 2; 2]%Z 0%Z) 1 (seq 0 9) = Val (Some [2; 0; 4; 7; 8; 5]).
Proof. reflexivity. Qed.

Print Assumptions C70_cut.
Print Assumptions C70_brightest.
Print Assumptions C70_valley.
Print Assumptions C70_endless.
Print Assumptions C70_endless_refuted.
Print Assumptions C70_empty_refuted.
Print Assumptions C70_equal_refuted.

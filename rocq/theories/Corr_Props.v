(** C49: time correlations. *)
Require Import ZArith List Bool Arith Lia.
Require Import Verif.Base Verif.SortU Verif.ListX Verif.RTree_Model Verif.Traj_Model Verif.Traj_Spec Verif.Traj_Proofs Verif.Cluster_Spec Verif.Particles_Model Verif.Dyn_Model Verif.Dyn_Spec Verif.Dyn_Proofs Verif.Drift_Proofs Verif.Dyn_Props Verif.Corr_Model Verif.Corr_Spec Verif.Corr_Proofs.
Import ListNotations.
Local Open Scope nat_scope.

Section Statements.
  Variables (P V : Type) (zero : V) (add : V -> V -> V) (divn : V -> nat -> V) (muln : nat -> V -> V) (sqd : P -> P -> V).
  Variables (quad : V -> V) (alpha : nat -> nat -> V -> V -> V) (divd : V -> nat -> V).
  Variables (Wave : Type) (wzero : Wave) (wadd : Wave -> Wave -> Wave) (wave : P -> Wave) (cross : Wave -> Wave -> V) (one : V).
  Variables (frames : list (list P)) (ti : trajindex).

  (** C49.  getMSD(selection,t0,t1), the greedy average: the lag dt is the sum of the square displacements over all the origins
      a from t0 to t1-dt, over the number of origins times the number of trajectories. *)
  Theorem C49_msd sel t0 t1 : consistent ti -> map (@length P) frames = map (@length nat) (inverse ti) -> sel <> [] -> t0 <= t1 -> (forall t, t0 <= t <= t1 -> present ti sel t) ->
    exists SD vs, (forall a b, t0 <= a <= t1 -> t0 <= b <= t1 -> sum_sd zero add sqd frames ti sel a b (SD a b)) /\
      get_msd P V zero add divn sqd frames ti sel t0 t1 0 = Val vs /\ length vs = t1 - t0 + 1 /\ nth_error vs 0 = Some (divn zero (length sel)) /\
      forall dt, 0 < dt <= t1 - t0 -> nth_error vs dt = Some (divn (fold_left add (map (fun a => SD a (a + dt)) (seq t0 (t1 + 1 - t0 - dt))) zero) ((t1 + 1 - t0 - dt) * length sel)).
  Proof.
    intros Hc Hsh Hne Ht Hp. set (SD := fun a b => value_of zero (get_sd P V zero add sqd frames ti sel a b)).
    assert (HSD : forall a b, t0 <= a <= t1 -> t0 <= b <= t1 -> get_sd P V zero add sqd frames ti sel a b = Val (SD a b) /\ sum_sd zero add sqd frames ti sel a b (SD a b)).
    { intros a b Ha Hb. destruct (get_sd_ok P V zero add sqd frames ti Hc Hsh sel a b (Hp a Ha) (Hp b Hb)) as [v [Ev Hv]]. unfold SD. rewrite Ev. auto. }
    destruct (accumulate_pairs (fun a b w => omap (add w) (get_sd P V zero add sqd frames ti sel a b)) (fun a b w => add w (SD a b)) zero t0 t1 Ht) as [ws [ks [E [L1 [L2 [F0 [G0 F]]]]]]].
    { intros a b w Ha Hb. rewrite (proj1 (HSD a b ltac:(lia) ltac:(lia))). auto. }
    exists SD, (map (fun vn => divn (fst vn) (snd vn * length sel)) (combine ws ks)). split; [intros; apply HSD; auto|]. split; [|split; [|split]].
    - unfold get_msd. rewrite (proj2 (Nat.ltb_ge t1 t0)) by auto. cbv zeta. replace (t1 - t0 + 1 - 1) with (t1 - t0) by lia. rewrite (match_ne sel) by auto. cbn [Nat.eqb]. rewrite E. reflexivity.
    - rewrite map_length, combine_length. lia.
    - rewrite (map_nth_error _ 0 _ (combine_nth ws ks 0 _ _ F0 G0)). cbn [fst snd]. rewrite Nat.mul_1_l. auto.
    - intros dt Hdt. destruct (F dt Hdt) as [F1 F2]. rewrite (map_nth_error _ dt _ (combine_nth ws ks dt _ _ F1 F2)). cbn [fst snd]. rewrite fold_left_map_x. auto.
  Qed.
  (** With t3 > 0: every lag is averaged over the t3 origins from t0. *)
  Theorem C49_msd_origins sel t0 t1 t3 : consistent ti -> map (@length P) frames = map (@length nat) (inverse ti) -> sel <> [] -> t0 <= t1 -> 0 < t3 -> (forall t, t0 <= t < t1 + t3 -> present ti sel t) ->
    exists SD vs, (forall a b, t0 <= a < t1 + t3 -> t0 <= b < t1 + t3 -> sum_sd zero add sqd frames ti sel a b (SD a b)) /\
      get_msd P V zero add divn sqd frames ti sel t0 t1 t3 = Val vs /\ length vs = t1 - t0 + 1 /\ nth_error vs 0 = Some zero /\
      forall dt, 0 < dt <= t1 - t0 -> nth_error vs dt = Some (divn (fold_left add (map (fun a => SD a (a + dt)) (seq t0 t3)) zero) (t3 * length sel)).
  Proof.
    intros Hc Hsh Hne Ht Ht3 Hp. set (SD := fun a b => value_of zero (get_sd P V zero add sqd frames ti sel a b)).
    assert (HSD : forall a b, t0 <= a < t1 + t3 -> t0 <= b < t1 + t3 -> get_sd P V zero add sqd frames ti sel a b = Val (SD a b) /\ sum_sd zero add sqd frames ti sel a b (SD a b)).
    { intros a b Ha Hb. destruct (get_sd_ok P V zero add sqd frames ti Hc Hsh sel a b (Hp a Ha) (Hp b Hb)) as [v [Ev Hv]]. unfold SD. rewrite Ev. auto. }
    set (h := fun dt => divn (fold_left add (map (fun a => SD a (a + dt)) (seq t0 t3)) zero) (t3 * length sel)).
    exists SD, (zero :: map h (seq 1 (t1 - t0))). split; [intros; apply HSD; auto|]. split; [|split; [|split]].
    - unfold get_msd. rewrite (proj2 (Nat.ltb_ge t1 t0)) by auto. cbv zeta. rewrite (match_ne sel) by auto. rewrite (proj2 (Nat.eqb_neq t3 0)) by lia. replace (t1 - t0 + 1 - 1) with (t1 - t0) by lia.
      rewrite (osequence_map_ok _ h); [reflexivity|]. intros dt Hdt. apply in_seq in Hdt.
      rewrite (ofold_ok _ (fun a w => add w (SD (t0 + a) (t0 + a + dt)))); [|intros a v Ha; apply in_seq in Ha; rewrite (proj1 (HSD (t0 + a) (t0 + a + dt) ltac:(lia) ltac:(lia))); auto].
      cbn [omap obind]. unfold h. f_equal. f_equal. rewrite fold_left_map_x. assert (G : forall n s z t0, fold_left (fun v a => add v (SD (t0 + a) (t0 + a + dt))) (seq s n) z = fold_left (fun v a => add v (SD a (a + dt))) (seq (t0 + s) n) z).
      { clear. induction n as [|n IH]; intros s z t0; cbn [seq fold_left]; auto. rewrite IH. replace (t0 + S s) with (S (t0 + s)) by lia. auto. }
      rewrite G, Nat.add_0_r. auto.
    - cbn [length]. rewrite map_length, seq_length. lia.
    - reflexivity.
    - intros dt Hdt. destruct dt; [lia|]. cbn [nth_error]. rewrite (map_nth_error h dt (seq 1 (t1 - t0)) (d := S dt)); auto. rewrite nth_error_seq by lia. auto.
  Qed.
  (** getMSD(t0,t1,t2), t2 > t0: the mean over the windows starting from t0 to t2-1 (hence t2-t0 of them, not t2) of the MSD of
      the trajectories spanning each, weighted by their number. *)
  Theorem C49_msd_windows t0 t1 t2 T : consistent ti -> map (@length P) frames = map (@length nat) (inverse ti) -> t0 <= t1 -> t0 < t2 -> t1 + (t2 - t0) <= length (inverse ti) ->
    In T (trajs ti) -> t1 - t0 < length (steps T) ->
    exists sels singles vs,
      (forall a, t0 <= a < t2 -> (forall tr, In tr (sels a) <-> exists T, nth_error (trajs ti) tr = Some T /\ spans T a (a + (t1 - t0))) /\ NoDup (sels a) /\
         get_msd P V zero add divn sqd frames ti (sels a) a (a + (t1 - t0)) 1 = Val (singles a) /\ length (singles a) = t1 - t0 + 1) /\
      get_msd_avg P V zero add divn muln sqd frames ti t0 t1 t2 = Val vs /\ length vs = t1 - t0 + 1 /\
      forall dt, dt <= t1 - t0 -> nth_error vs dt = Some (divn (fold_left add (map (fun a => muln (length (sels a)) (nth dt (singles a) zero)) (seq t0 (t2 - t0))) zero) (list_sum (map (fun a => length (sels a)) (seq t0 (t2 - t0))))).
  Proof.
    intros Hc Hsh Ht Ht2 Hn HT HTl. set (len := t1 - t0) in *. set (sels := fun a => value_of [] (select_spanning ti a (a + len))). set (singles := fun a => value_of [] (get_msd P V zero add divn sqd frames ti (sels a) a (a + len) 1)).
    assert (HS : forall a, t0 <= a < t2 -> select_spanning ti a (a + len) = Val (sels a) /\ (forall tr, In tr (sels a) <-> exists T, nth_error (trajs ti) tr = Some T /\ spans T a (a + len)) /\ NoDup (sels a)).
    { intros a Ha. destruct (C48_select_spanning ti a (a + len) Hc) as [l [El [Sl Il]]]; [unfold len in *; lia|]. unfold sels. rewrite El. cbn [value_of]. split; auto. split; [exact Il|]. apply ssorted_NoDup; auto. }
    assert (HM : forall a, t0 <= a < t2 -> get_msd P V zero add divn sqd frames ti (sels a) a (a + len) 1 = Val (singles a) /\ length (singles a) = len + 1).
    { intros a Ha. destruct (HS a Ha) as [_ [Is _]]. unfold singles. destruct (sels a) as [|s0 l0] eqn:Es.
      - unfold get_msd. rewrite (proj2 (Nat.ltb_ge (a + len) a)) by lia. cbv zeta. replace (a + len - a + 1) with (len + 1) by lia. cbn [value_of]. split; auto. apply repeat_length.
      - rewrite <- Es in *. destruct (C49_msd_origins (sels a) a (a + len) 1 Hc Hsh) as [SD [vs [_ [Ev [Lv _]]]]]; [congruence|lia|lia| |].
        + intros t Htt tr Htr. apply Is in Htr. destruct Htr as [T' [HT' Hs]]. destruct (Hs t) as [p Hp]; [lia|]. eauto.
        + rewrite Ev. cbn [value_of]. split; auto. lia. }
    set (f := fun dt => fold_left add (map (fun a => muln (length (sels a)) (nth dt (singles a) zero)) (seq t0 (t2 - t0))) zero).
    set (cnt := list_sum (map (fun a => length (sels a)) (seq t0 (t2 - t0)))).
    assert (W : forall m s (st : list V * nat), t0 <= s -> s + m <= t2 -> length (fst st) = len + 1 -> exists st', msd_windows P V zero add divn muln sqd frames ti len (seq s m) st = Val st' /\ length (fst st') = len + 1 /\
      snd st' = snd st + list_sum (map (fun a => length (sels a)) (seq s m)) /\
      forall dt v, nth_error (fst st) dt = Some v -> nth_error (fst st') dt = Some (fold_left add (map (fun a => muln (length (sels a)) (nth dt (singles a) zero)) (seq s m)) v)).
    { induction m as [|m IH]; intros s st Hs1 Hs2 Hl; unfold msd_windows; cbn [seq ofold].
      - exists st. repeat (split; auto).
      - destruct (HS s ltac:(lia)) as [E1 _]. destruct (HM s ltac:(lia)) as [E2 L2]. rewrite E1. cbn [obind]. rewrite E2. cbn [omap obind].
        destruct (IH (S s) (vadd V add (fst st) (map (muln (length (sels s))) (singles s)), snd st + length (sels s))) as [st' [E [L [C F]]]]; [lia|lia| |].
        + cbn [fst]. unfold vadd. rewrite map_length, combine_length, map_length. lia.
        + exists st'. split; [exact E|]. split; auto. split; [cbn [map list_sum snd] in *; unfold list_sum in *; cbn [fold_right]; lia|]. intros dt v Hv. cbn [map fold_left]. apply F. cbn [fst]. unfold vadd.
          assert (Hd : dt < length (singles s)) by (apply nth_error_lt in Hv; lia). destruct (nth_error_ex (singles s) dt Hd) as [y Ey].
          rewrite (map_nth_error _ dt _ (combine_nth _ _ dt _ _ Hv (map_nth_error (muln (length (sels s))) dt _ Ey))). cbn [fst snd]. rewrite (nth_error_nth _ _ zero Ey). auto. }
    destruct (W (t2 - t0) t0 (repeat zero (len + 1), 0)) as [st' [E [L [C F]]]]; [lia|lia|apply repeat_length|].
    exists sels, singles, (map (fun v => divn v (snd st')) (fst st')). split; [|split; [|split]].
    - intros a Ha. destruct (HS a Ha) as [_ [H1 H2]]. destruct (HM a Ha). auto.
    - unfold get_msd_avg. rewrite (proj2 (Nat.ltb_ge t1 t0)) by auto. destruct (longest_span (trajs ti)) as [s|] eqn:Es.
      + assert (Hsp : t1 - t0 + 1 <= s).
        { apply (longest_span_ge (trajs ti) s T) in Es; auto. unfold len in HTl. lia. }
        rewrite (proj2 (Nat.ltb_ge s _)) by auto. rewrite (proj2 (Nat.eqb_neq t2 0)) by lia. fold len. rewrite E. reflexivity.
      + exfalso. destruct (trajs ti); [destruct HT|discriminate].
    - rewrite map_length. auto.
    - intros dt Hdt. assert (Hz : nth_error (repeat zero (len + 1)) dt = Some zero) by (apply nth_error_repeat_x; lia). rewrite (map_nth_error _ dt _ (F dt zero Hz)). rewrite C. cbn [snd]. reflexivity.
  Qed.
  (** With 0 < t2 <= t0 no window is visited and everything is divided by zero. *)
  Theorem C49_msd_windows_refuted t0 t1 t2 T : t0 <= t1 -> 0 < t2 <= t0 -> In T (trajs ti) -> t1 - t0 < length (steps T) ->
    get_msd_avg P V zero add divn muln sqd frames ti t0 t1 t2 = Val (repeat (divn zero 0) (t1 - t0 + 1)).
  Proof.
    intros Ht Ht2 HT HTl. unfold get_msd_avg. rewrite (proj2 (Nat.ltb_ge t1 t0)) by auto. destruct (longest_span (trajs ti)) as [s|] eqn:Es.
    - assert (Hsp : t1 - t0 + 1 <= s) by (apply (longest_span_ge (trajs ti) s T) in Es; auto; lia). rewrite (proj2 (Nat.ltb_ge s _)) by auto. rewrite (proj2 (Nat.eqb_neq t2 0)) by lia. replace (t2 - t0) with 0 by lia.
      cbn [seq msd_windows ofold omap obind fst snd]. f_equal. generalize (t1 - t0 + 1). induction n; cbn; congruence.
    - exfalso. destruct (trajs ti); [destruct HT|discriminate].
  Qed.

  (** C49.  getNonGaussian and get_MSD_NGP stay in range, but every lag uses the displacements from t0 to t1: [sds] below. *)
  Definition all_terms (sds : list V) (c : nat) : V * V :=
    fold_left (fun w _ => fold_left (fun w sd => (add (fst w) sd, add (snd w) (quad sd))) sds w) (seq 0 c) (zero, zero).
  Lemma add_sd_qd_ok sel t0 t1 : consistent ti -> map (@length P) frames = map (@length nat) (inverse ti) -> present ti sel t0 -> present ti sel t1 ->
    exists ps qs, placed frames ti sel t0 ps /\ placed frames ti sel t1 qs /\
      forall w, add_sd_qd P V add sqd quad frames ti sel t0 t1 w = Val (fold_left (fun w sd => (add (fst w) sd, add (snd w) (quad sd))) (map (fun pq => sqd (fst pq) (snd pq)) (combine ps qs)) w).
  Proof.
    intros Hc Hsh Ha Hb. induction sel as [|tr sel IH].
    - exists [], []. repeat split; constructor.
    - destruct (Ha tr (or_introl eq_refl)) as [T [p [HT Hp]]]. destruct (Hb tr (or_introl eq_refl)) as [T' [q [HT' Hq]]]. assert (T' = T) by congruence. subst T'.
      destruct (square_disp_ok P V sqd frames ti Hc Hsh tr T t0 t1 p q HT Hp Hq) as [x [y [E [Hx Hy]]]]. destruct IH as [ps [qs [F [G Ef]]]]; [intros k Hk; apply Ha; right; auto|intros k Hk; apply Hb; right; auto|].
      exists (x :: ps), (y :: qs). split; [constructor; eauto|]. split; [constructor; eauto|]. intros w. unfold add_sd_qd. cbn [ofold]. rewrite E. cbn [omap obind]. unfold add_sd_qd in Ef. rewrite Ef. auto.
  Qed.
  Theorem C49_non_gaussian_refuted sel t0 t1 t3 : consistent ti -> map (@length P) frames = map (@length nat) (inverse ti) -> sel <> [] -> t0 <= t1 -> present ti sel t0 -> present ti sel t1 ->
    exists ps qs vs ms, let sds := map (fun pq => sqd (fst pq) (snd pq)) (combine ps qs) in
      placed frames ti sel t0 ps /\ placed frames ti sel t1 qs /\
      get_non_gaussian P V zero add sqd quad alpha frames ti sel t0 t1 t3 = Val vs /\ length vs = t1 - t0 + 1 /\
      get_msd_ngp P V zero add sqd quad alpha divd frames ti sel t0 t1 t3 = Val ms /\ length ms = t1 - t0 + 1 /\
      forall dt, 0 < dt <= t1 - t0 ->
        let c := if t3 =? 0 then t1 + 1 - t0 - dt else t3 in
        nth_error vs dt = Some (alpha c (length sel) (snd (all_terms sds c)) (fst (all_terms sds c))) /\
        nth_error ms dt = Some (divd (fst (all_terms sds c)) (if t3 =? 0 then c * length sel else c * length sel * length sel), alpha c (length sel) (snd (all_terms sds c)) (fst (all_terms sds c))).
  Proof.
    intros Hc Hsh Hne Ht Ha Hb. destruct (add_sd_qd_ok sel t0 t1 Hc Hsh Ha Hb) as [ps [qs [F [G E]]]]. set (sds := map (fun pq => sqd (fst pq) (snd pq)) (combine ps qs)) in *.
    set (one_pass := fun w => fold_left (fun w sd => (add (fst w) sd, add (snd w) (quad sd))) sds w) in *.
    assert (S0 : forall c s n, n = c -> fold_left (fun w (_ : nat) => one_pass w) (seq s n) (zero, zero) = all_terms sds c).
    { intros c s n ->. unfold all_terms. fold one_pass. generalize (zero, zero). assert (K : forall m s1 s2 w, fold_left (fun w (_ : nat) => one_pass w) (seq s1 m) w = fold_left (fun w (_ : nat) => one_pass w) (seq s2 m) w) by (clear; induction m; intros; cbn; auto). intros; apply K. }
    destruct (Nat.eqb_spec t3 0) as [->|H3].
    - destruct (accumulate_pairs (fun a b w => add_sd_qd P V add sqd quad frames ti sel t0 t1 w) (fun a b w => one_pass w) (zero, zero) t0 t1 Ht) as [ws [ks [Ew [L1 [L2 [F0 [G0 FF]]]]]]]; [intros; apply E|].
      exists ps, qs. eexists. eexists. cbv zeta. split; [exact F|]. split; [exact G|]. split; [|split; [|split; [|split]]].
      + unfold get_non_gaussian. rewrite (proj2 (Nat.ltb_ge t1 t0)) by auto. cbv zeta. replace (t1 - t0 + 1 - 1) with (t1 - t0) by lia. rewrite (match_ne sel) by auto. cbn [Nat.eqb]. rewrite Ew. reflexivity.
      + cbn [fst snd]. rewrite map_length, combine_length. lia.
      + unfold get_msd_ngp. rewrite (proj2 (Nat.ltb_ge t1 t0)) by auto. cbv zeta. replace (t1 - t0 + 1 - 1) with (t1 - t0) by lia. rewrite (match_ne sel) by auto. cbn [Nat.eqb]. rewrite Ew. reflexivity.
      + cbn [fst snd]. rewrite map_length, combine_length. lia.
      + intros dt Hdt. destruct (FF dt Hdt) as [F1 F2]. rewrite (S0 (t1 + 1 - t0 - dt)) in F1 by auto.
        rewrite !(map_nth_error _ dt _ (combine_nth ws ks dt _ _ F1 F2)). cbn [fst snd]. auto.
    - exists ps, qs. exists (zero :: map (fun dt => alpha t3 (length sel) (snd (all_terms sds t3)) (fst (all_terms sds t3))) (seq 1 (t1 - t0))).
      exists ((zero, zero) :: map (fun dt => (divd (fst (all_terms sds t3)) (t3 * length sel * length sel), alpha t3 (length sel) (snd (all_terms sds t3)) (fst (all_terms sds t3)))) (seq 1 (t1 - t0))).
      assert (X : ofold (fun (a : nat) w => add_sd_qd P V add sqd quad frames ti sel t0 t1 w) (seq 0 t3) (zero, zero) = Val (all_terms sds t3)).
      { rewrite (ofold_ok _ (fun _ w => one_pass w)) by (intros; apply E). rewrite (S0 t3) by auto. auto. }
      cbv zeta. split; [exact F|]. split; [exact G|]. split; [|split; [|split; [|split]]].
      + unfold get_non_gaussian. rewrite (proj2 (Nat.ltb_ge t1 t0)) by auto. cbv zeta. rewrite (match_ne sel) by auto. rewrite (proj2 (Nat.eqb_neq t3 0)) by lia. replace (t1 - t0 + 1 - 1) with (t1 - t0) by lia.
        rewrite X. cbn [omap obind]. rewrite (osequence_map_ok _ (fun dt => alpha t3 (length sel) (snd (all_terms sds t3)) (fst (all_terms sds t3)))) by reflexivity. reflexivity.
      + cbn [length]. rewrite map_length, seq_length. lia.
      + unfold get_msd_ngp. rewrite (proj2 (Nat.ltb_ge t1 t0)) by auto. cbv zeta. rewrite (match_ne sel) by auto. rewrite (proj2 (Nat.eqb_neq t3 0)) by lia. replace (t1 - t0 + 1 - 1) with (t1 - t0) by lia.
        rewrite X. cbn [omap obind]. rewrite (osequence_map_ok _ (fun dt => (divd (fst (all_terms sds t3)) (t3 * length sel * length sel), alpha t3 (length sel) (snd (all_terms sds t3)) (fst (all_terms sds t3))))) by reflexivity. reflexivity.
      + cbn [length]. rewrite map_length, seq_length. lia.
      + intros dt Hdt. destruct dt; [lia|]. cbn [nth_error]. assert (Es : nth_error (seq 1 (t1 - t0)) dt = Some (S dt)) by (rewrite nth_error_seq by lia; auto). rewrite !(map_nth_error _ dt _ Es). auto.
  Qed.

  (** C49.  getISF from time 0: with rho the sum of the waves of the selected trajectories, the lag dt is the sum over the origins,
      each counted once per trajectory, of rho(a+dt).rho(a), over the number of origins times that of trajectories. *)
  Definition rho (ps : list P) : Wave := fold_left (fun w p => wadd w (wave p)) ps wzero.
  Theorem C49_isf sel t1 : consistent ti -> map (@length P) frames = map (@length nat) (inverse ti) -> sel <> [] -> (forall t, t <= t1 -> present ti sel t) ->
    exists X vs, (forall t, t <= t1 -> placed frames ti sel t (X t)) /\
      get_isf P V zero add divn Wave wzero wadd wave cross one frames ti sel 0 t1 = Val vs /\ length vs = t1 + 1 /\ nth_error vs 0 = Some one /\
      forall dt, 0 < dt <= t1 -> nth_error vs dt =
        Some (divn (fold_left add (flat_map (fun a => repeat (cross (rho (X (a + dt))) (rho (X a))) (length sel)) (seq 0 (t1 + 1 - dt))) zero) ((t1 + 1 - dt) * length sel)).
  Proof.
    intros Hc Hsh Hne Hp. set (X := fun t => value_of [] (osequence (map (fun tr => place P frames ti tr t) sel))).
    assert (HX : forall t, t <= t1 -> placed frames ti sel t (X t) /\ forall (w : Wave), ofold (fun tr w => omap (fun p => wadd w (wave p)) (place P frames ti tr t)) sel w = Val (fold_left (fun w p => wadd w (wave p)) (X t) w)).
    { intros t Ht. destruct (places_ok P frames ti Hc Hsh sel t (Hp t Ht)) as [ps [E [F [L G]]]]. unfold X. rewrite E. cbn [value_of]. split; [exact F|]. intros w. apply (G Wave (fun w p => wadd w (wave p))). }
    destruct (isf_data_ok P Wave wadd wave frames ti sel X (t1 + 1) 0 (repeat wzero (t1 + 1))) as [ws [Ew [Lw Fw]]]; [rewrite repeat_length; lia|intros t Ht; apply HX; lia|].
    rewrite repeat_length in Lw.
    assert (Hrho : forall t, t <= t1 -> nth_error ws t = Some (rho (X t))).
    { intros t Ht. rewrite (Fw t wzero) by (apply nth_error_repeat_x; lia). destruct (Nat.ltb_spec t (0 + (t1 + 1))); [reflexivity|lia]. }
    destruct (accumulate_pairs (fun a b w => ofold (fun _ w => omap (add w) (cross_at V Wave cross ws a b)) sel w) (fun a b w => fold_left add (repeat (cross (rho (X b)) (rho (X a))) (length sel)) w) zero 0 t1 (Nat.le_0_l t1)) as [us [ks [E [L1 [L2 [F0 [G0 F]]]]]]].
    { intros a b w Ha Hb. unfold cross_at. rewrite (Hrho b Hb), (Hrho a) by lia. rewrite (ofold_ok _ (fun (_ : nat) w => add w (cross (rho (X b)) (rho (X a))))) by auto. rewrite fold_const_repeat. auto. }
    exists X. destruct us as [|u0 us]; [cbn in L1; lia|]. destruct ks as [|k0 ks]; [cbn in L2; lia|].
    exists (one :: map (fun vn => divn (fst vn) (snd vn * length sel)) (combine us ks)). split; [intros; apply HX; auto|]. split; [|split; [|split]].
    - unfold get_isf. cbn [Nat.ltb Nat.leb]. cbv zeta. replace (t1 - 0 + 1) with (t1 + 1) in * by lia. rewrite (match_ne sel) by auto. rewrite Ew. cbn [obind]. replace (t1 + 1 - 1) with (t1 - 0) by lia. rewrite E. reflexivity.
    - cbn [length] in *. rewrite map_length, combine_length. lia.
    - reflexivity.
    - intros dt Hdt. destruct (F dt ltac:(lia)) as [F1 F2]. destruct dt as [|dt]; [lia|]. cbn [nth_error] in *. rewrite (map_nth_error _ dt _ (combine_nth us ks dt _ _ F1 F2)). cbn [fst snd]. rewrite Nat.sub_0_r. rewrite fold_left_flat_map. auto.
  Qed.
  (** Any other start writes out of the buffers. *)
  Theorem C49_isf_late_start_refuted sel t0 t1 : consistent ti -> map (@length P) frames = map (@length nat) (inverse ti) -> sel <> [] -> 0 < t0 <= t1 -> (forall t, t0 <= t <= t1 -> present ti sel t) ->
    get_isf P V zero add divn Wave wzero wadd wave cross one frames ti sel t0 t1 = UB.
  Proof.
    intros Hc Hsh Hne Ht Hp. unfold get_isf. rewrite (proj2 (Nat.ltb_ge t1 t0)) by lia. cbv zeta. rewrite (match_ne sel) by auto. rewrite isf_data_ub; auto.
    - intros t Hin w. apply in_seq in Hin. destruct (places_ok P frames ti Hc Hsh sel t) as [ps [E [F [L G]]]]; [apply Hp; lia|]. eexists. apply (G Wave (fun w p => wadd w (wave p))).
    - exists t1. rewrite repeat_length. split; [apply in_seq; lia|lia].
  Qed.

  (** C49.  getSelfISF with t3 > 0 origins: the lag dt is the mean over origins and trajectories of the product of waves; the
      result has t1-t0 elements, one less than documented. *)
  Theorem C49_self_isf sel t0 t1 t3 : consistent ti -> map (@length P) frames = map (@length nat) (inverse ti) -> t0 < t1 -> 0 < t3 -> (forall t, t0 <= t < t1 + t3 -> present ti sel t) ->
    exists X vs, (forall t, t0 <= t < t1 + t3 -> placed frames ti sel t (X t)) /\
      get_self_isf P V zero add divn Wave wave cross one frames ti sel t0 t1 t3 = Val vs /\ length vs = t1 - t0 /\ nth_error vs 0 = Some one /\
      forall dt, 0 < dt < t1 - t0 -> nth_error vs dt =
        Some (divn (fold_left add (flat_map (fun a => map (fun xy => cross (wave (fst xy)) (wave (snd xy))) (combine (X (a + dt + t0)) (X (a + t0)))) (seq 0 t3)) zero) (t3 * length sel)).
  Proof.
    intros Hc Hsh Ht Ht3 Hp. set (X := fun t => value_of [] (osequence (map (fun tr => place P frames ti tr t) sel))).
    assert (HX : forall t, t0 <= t < t1 + t3 -> placed frames ti sel t (X t) /\ length (X t) = length sel /\ osequence (map (fun tr => omap wave (place P frames ti tr t)) sel) = Val (map wave (X t))).
    { intros t Htt. destruct (places_ok P frames ti Hc Hsh sel t (Hp t Htt)) as [ps [E [F [L G]]]]. unfold X. rewrite E. cbn [value_of]. split; auto. split; auto. clear - E. revert ps E. induction sel as [|tr l IH]; intros ps E.
      - cbn in *. injection E as <-. auto.
      - cbn [map osequence] in *. destruct (place P frames ti tr t) as [x| |]; cbn [obind omap] in *; try discriminate. destruct (osequence (map (fun tr => place P frames ti tr t) l)) as [qs| |]; cbn [obind omap] in *; try discriminate.
        injection E as <-. rewrite (IH qs eq_refl). auto. }
    set (n := t1 - t0) in *. set (ws := map (fun t => map wave (X (t + t0))) (seq 0 (n + t3))).
    assert (Ews : self_data P Wave wave frames ti sel t0 (n + t3) = Val ws).
    { unfold self_data, ws. apply osequence_map_ok. intros t Hin. apply in_seq in Hin. apply HX. unfold n in *; lia. }
    set (h := fun dt => divn (fold_left add (flat_map (fun a => map (fun xy => cross (wave (fst xy)) (wave (snd xy))) (combine (X (a + dt + t0)) (X (a + t0)))) (seq 0 t3)) zero) (t3 * length sel)).
    exists X, (one :: map h (seq 1 (n - 1))). split; [intros; apply HX; auto|]. split; [|split; [|split]].
    - unfold get_self_isf. rewrite (proj2 (Nat.ltb_ge t1 t0)) by lia. cbv zeta. fold n. rewrite Ews. cbn [obind]. rewrite (proj2 (Nat.eqb_neq t3 0)) by lia. assert (Hn : 0 < n) by (unfold n; lia). destruct n as [|n'] eqn:En; [lia|]. cbn [Nat.sub]. rewrite Nat.sub_0_r.
      rewrite (osequence_map_ok _ h); [reflexivity|]. intros dt Hdt. apply in_seq in Hdt. rewrite (ofold_ok _ (fun a w => fold_left add (map (fun xy => cross (wave (fst xy)) (wave (snd xy))) (combine (X (a + dt + t0)) (X (a + t0)))) w)).
      + cbn [omap obind]. unfold h. rewrite fold_left_flat_map. auto.
      + intros a v Ha. apply in_seq in Ha. assert (N : forall t, t < n + t3 -> nth_error ws t = Some (map wave (X (t + t0)))).
        { intros t Htt. unfold ws. rewrite (map_nth_error _ t _ (d := t)); auto. rewrite nth_error_seq by lia. auto. }
        rewrite (self_terms_ok add cross ws a (a + dt) _ _ (length sel) v (N (a + dt) ltac:(lia)) (N a ltac:(lia))).
        * f_equal. f_equal. generalize (X (a + t0)). induction (X (a + dt + t0)) as [|x l IH]; intros [|y m]; cbn; auto. rewrite IH. auto.
        * rewrite map_length. apply HX. unfold n in *; lia.
        * rewrite map_length. apply HX. unfold n in *; lia.
    - cbn [length]. rewrite map_length, seq_length. unfold n; lia.
    - reflexivity.
    - intros dt Hdt. destruct dt; [lia|]. cbn [nth_error]. rewrite (map_nth_error h dt (seq 1 (n - 1)) (d := S dt)); auto. rewrite nth_error_seq by lia. auto.
  Qed.
  (** The documented default, t3 = 0, is out of range for every interval. *)
  Theorem C49_self_isf_greedy_refuted sel t0 t1 : consistent ti -> map (@length P) frames = map (@length nat) (inverse ti) -> (forall t, t0 <= t <= t1 -> present ti sel t) ->
    get_self_isf P V zero add divn Wave wave cross one frames ti sel t0 t1 0 = UB.
  Proof.
    intros Hc Hsh Hp. unfold get_self_isf. destruct (Nat.ltb_spec t1 t0); auto. cbv zeta. assert (E : exists ws, self_data P Wave wave frames ti sel t0 (t1 - t0 + 0) = Val ws).
    { unfold self_data. eexists. apply (osequence_map_ok _ (fun t => value_of [] (osequence (map (fun tr => omap wave (place P frames ti tr (t + t0))) sel)))). intros t Hin. apply in_seq in Hin.
      destruct (places_ok P frames ti Hc Hsh sel (t + t0)) as [ps [E [F [L G]]]]; [apply Hp; lia|].
      assert (Q : exists qs, osequence (map (fun tr => omap wave (place P frames ti tr (t + t0))) sel) = Val qs).
      { clear - E. revert ps E. induction sel as [|tr l IH]; intros ps E; [eexists; reflexivity|]. cbn [map osequence] in *. destruct (place P frames ti tr (t + t0)) as [x| |]; cbn [obind omap] in *; try discriminate.
        destruct (osequence (map (fun tr => place P frames ti tr (t + t0)) l)) as [qs| |]; cbn [obind omap] in *; try discriminate. destruct (IH qs eq_refl) as [rs ->]. cbn. eauto. }
      destruct Q as [qs ->]. auto. }
    destruct E as [ws ->]. cbn [obind Nat.eqb]. destruct (t1 - t0) as [|n'] eqn:En; auto. rewrite accumulate_ub; auto.
    - intros a b w. unfold self_terms. apply ofold_no_throw. intros p v. destruct (nth_error ws (b - t0)) as [rb|]; try discriminate. destruct (nth_error ws (a - t0)) as [ra|]; try discriminate. destruct (nth_error rb p); try discriminate. destruct (nth_error ra p); discriminate.
    - exists t0, t1. rewrite repeat_length. split; [apply pairs_in; lia|lia].
  Qed.
End Statements.

(** A concrete case: integer positions on an axis, trajectory 0 of [ex_ti] (present at the four times) and 1 (times 1 and 2). *)
Definition ex_pos : list (list nat) := [[0; 10]; [20; 1]; [3; 24; 7]; [6; 10]].
Definition sq (x y : nat) : nat := (x - y + (y - x)) * (x - y + (y - x)).
Example C49_case :
  consistent ex_ti /\ map (@length nat) ex_pos = map (@length nat) (inverse ex_ti) /\
  (forall t, 1 <= t <= 2 -> present ex_ti [0; 1] t) /\ (forall t, t <= 3 -> present ex_ti [0] t) /\
  get_msd nat nat 0 Nat.add Nat.div sq ex_pos ex_ti [0; 1] 1 2 0 = Val [0; (2 * 2 + 4 * 4) / 2] /\
  get_msd nat nat 0 Nat.add Nat.div sq ex_pos ex_ti [0] 0 3 0 = Val [0; (1 + 4 + 9) / 3; (9 + 25) / 2; 36] /\
  get_msd nat nat 0 Nat.add Nat.div sq ex_pos ex_ti [0] 0 2 2 = Val [0; (1 + 4) / 2; (9 + 25) / 2] /\
  get_msd_avg nat nat 0 Nat.add Nat.div Nat.mul sq ex_pos ex_ti 1 2 3 = Val [0; (2 * 10 + 2 * 9) / 4] /\
  get_isf nat nat 0 Nat.add Nat.div nat 0 Nat.add S Nat.mul 100 ex_pos ex_ti [0] 0 3 = Val [100; (2 + 8 + 28) / 3; (4 + 14) / 2; 7] /\
  get_self_isf nat nat 0 Nat.add Nat.div nat S Nat.mul 100 ex_pos ex_ti [0] 0 2 2 = Val [100; (2 + 8) / 2].
Proof.
  split; [exact ex_ti_consistent|]. split; [reflexivity|]. split; [|split].
  - intros t Ht tr [<-|[<-|[]]]; destruct t as [|[|[|t]]]; try lia; (eexists; eexists; split; [reflexivity|]); unfold at_time; cbn [start steps];
      first [exists 0; split; [lia|reflexivity] | exists 1; split; [lia|reflexivity] | exists 2; split; [lia|reflexivity]].
  - intros t Ht tr [<-|[]]; destruct t as [|[|[|[|t]]]]; try lia; (eexists; eexists; split; [reflexivity|]); unfold at_time; cbn [start steps];
      first [exists 0; split; [lia|reflexivity] | exists 1; split; [lia|reflexivity] | exists 2; split; [lia|reflexivity] | exists 3; split; [lia|reflexivity]].
  - repeat split.
Qed.

Print Assumptions C49_msd.
Print Assumptions C49_msd_origins.
Print Assumptions C49_msd_windows.
Print Assumptions C49_msd_windows_refuted.
Print Assumptions C49_non_gaussian_refuted.
Print Assumptions C49_isf.
Print Assumptions C49_isf_late_start_refuted.
Print Assumptions C49_self_isf.
Print Assumptions C49_self_isf_greedy_refuted.

(** C83, C84: self intermediate scattering functions averaged over windows and axes, makeDynamics, square displacements. *)
Require Import ZArith QArith List Bool Arith Lia.
Require Import Verif.Base Verif.SortU Verif.ListX Verif.RTree_Model Verif.Traj_Model Verif.Traj_Spec Verif.Traj_Proofs Verif.Cluster_Spec Verif.Particles_Model Verif.Dyn_Model Verif.Dyn_Spec Verif.Dyn_Proofs Verif.Drift_Proofs Verif.Dyn_Props
  Verif.Corr_Model Verif.Corr_Spec Verif.Corr_Proofs Verif.Corr_Props Verif.Isf_Model.
Import ListNotations.
Local Open Scope nat_scope.

Section Statements.
  Variables (P V : Type) (zero : V) (add : V -> V -> V) (divn : V -> nat -> V) (muln : nat -> V -> V) (sqd : P -> P -> V).
  Variables (quad : V -> V) (alpha : nat -> nat -> V -> V -> V) (divd : V -> nat -> V).
  Variables (Wave : Type) (axis : nat -> P -> Wave) (cross : Wave -> Wave -> V) (one : V).
  Variables (frames : list (list P)) (ti : trajindex).
  Local Notation single d sel a b := (get_self_isf P V zero add divn Wave (axis d) cross one frames ti sel a b 1).

  (** What the windows starting from t0 to t2-1 contribute: the trajectories spanning each, their self ISF along each axis. *)
  Definition windows_are (len t0 t2 : nat) (sels : nat -> list nat) (singles : nat -> nat -> list V) : Prop :=
    forall a, t0 <= a < t2 -> (forall tr, In tr (sels a) <-> exists T, nth_error (trajs ti) tr = Some T /\ spans T a (a + len)) /\ NoDup (sels a) /\
      forall d, single d (sels a) a (a + len) = Val (singles a d) /\ length (singles a d) = len.
  Lemma windows_ok ds len t0 t2 : consistent ti -> map (@length P) frames = map (@length nat) (inverse ti) -> 0 < len -> t2 + len <= length (inverse ti) -> t0 < t2 ->
    exists sels singles st, windows_are len t0 t2 sels singles /\
      isf_windows P V zero add divn muln Wave axis cross one frames ti ds len (seq t0 (t2 - t0)) (repeat zero len, 0) = Val st /\
      length (fst st) = len /\ snd st = list_sum (map (fun a => length (sels a)) (seq t0 (t2 - t0))) /\
      forall dt, dt < len -> nth_error (fst st) dt = Some (fold_left add (flat_map (fun a => map (fun d => muln (length (sels a)) (nth dt (singles a d) zero)) ds) (seq t0 (t2 - t0))) zero).
  Proof.
    intros Hc Hsh Hlen Hn Ht2. set (sels := fun a => value_of [] (select_spanning ti a (a + len))). set (singles := fun a d => value_of [] (single d (sels a) a (a + len))).
    assert (HS : forall a, t0 <= a < t2 -> select_spanning ti a (a + len) = Val (sels a) /\ (forall tr, In tr (sels a) <-> exists T, nth_error (trajs ti) tr = Some T /\ spans T a (a + len)) /\ NoDup (sels a)).
    { intros a Ha. destruct (C48_select_spanning ti a (a + len) Hc) as [l [El [Sl Il]]]; [lia|]. unfold sels. rewrite El. cbn [value_of]. split; auto. split; [exact Il|]. apply ssorted_NoDup; auto. }
    assert (HM : forall a d, t0 <= a < t2 -> single d (sels a) a (a + len) = Val (singles a d) /\ length (singles a d) = len).
    { intros a d Ha. destruct (HS a Ha) as [_ [Is _]]. unfold singles. destruct (C49_self_isf P V zero add divn Wave (axis d) cross one frames ti (sels a) a (a + len) 1 Hc Hsh) as [X [vs [_ [Ev [Lv _]]]]]; [lia|lia| |].
      - intros t Htt tr Htr. apply Is in Htr. destruct Htr as [T' [HT' Hs]]. destruct (Hs t) as [p Hp]; [lia|]. eauto.
      - rewrite Ev. cbn [value_of]. split; auto. lia. }
    assert (A : forall a, t0 <= a < t2 -> forall l isf, length isf = len -> exists isf', ofold (fun d isf => obind (single d (sels a) a (a + len)) (add_scaled V add muln (length (sels a)) isf)) l isf = Val isf' /\ length isf' = len /\
      forall dt v, nth_error isf dt = Some v -> nth_error isf' dt = Some (fold_left add (map (fun d => muln (length (sels a)) (nth dt (singles a d) zero)) l) v)).
    { intros a Ha. induction l as [|d l IH]; intros isf Hl; cbn [ofold]; [exists isf; auto|]. destruct (HM a d Ha) as [E2 L2]. rewrite E2. cbn [obind]. unfold add_scaled at 1. rewrite (proj2 (Nat.leb_le _ _)) by lia. cbn [obind].
      destruct (IH (map (fun xy => add (fst xy) (muln (length (sels a)) (snd xy))) (combine isf (singles a d)))) as [isf' [E [L F]]]; [rewrite map_length, combine_length; lia|].
      exists isf'. split; auto. split; auto. intros dt v Hv. cbn [map fold_left]. apply F. destruct (nth_error_ex (singles a d) dt) as [y Ey]; [apply nth_error_lt in Hv; lia|].
      rewrite (map_nth_error _ dt _ (combine_nth _ _ dt _ _ Hv Ey)). cbn [fst snd]. rewrite (nth_error_nth _ _ zero Ey). auto. }
    assert (W : forall m s (st : list V * nat), t0 <= s -> s + m <= t2 -> length (fst st) = len -> exists st', isf_windows P V zero add divn muln Wave axis cross one frames ti ds len (seq s m) st = Val st' /\ length (fst st') = len /\
      snd st' = snd st + list_sum (map (fun a => length (sels a)) (seq s m)) /\
      forall dt v, nth_error (fst st) dt = Some v -> nth_error (fst st') dt = Some (fold_left add (flat_map (fun a => map (fun d => muln (length (sels a)) (nth dt (singles a d) zero)) ds) (seq s m)) v)).
    { induction m as [|m IH]; intros s st Hs1 Hs2 Hl; unfold isf_windows; cbn [seq ofold].
      - exists st. repeat (split; auto).
      - destruct (HS s ltac:(lia)) as [E1 _]. destruct (A s ltac:(lia) ds (fst st) Hl) as [isf [Ea [La Fa]]]. rewrite E1. cbn [obind]. rewrite Ea. cbn [omap obind].
        destruct (IH (S s) (isf, snd st + length (sels s))) as [st' [E [L [C F]]]]; [lia|lia|auto|].
        exists st'. split; [exact E|]. split; auto. split; [cbn [map list_sum snd] in *; unfold list_sum in *; cbn [fold_right]; lia|]. intros dt v Hv. cbn [flat_map]. rewrite fold_left_app. apply F. cbn [fst]. auto. }
    destruct (W (t2 - t0) t0 (repeat zero len, 0)) as [st' [E [L [C F]]]]; [lia|lia|apply repeat_length|]. exists sels, singles, st'. split; [|split; [|split; [|split]]]; auto.
    - intros a Ha. destruct (HS a Ha) as [_ [H1 H2]]. repeat split; auto; try apply H1; apply HM; auto.
    - intros dt Hdt. apply F. cbn [fst]. apply nth_error_repeat_x. auto.
  Qed.
  Lemma long_enough T n : In T (trajs ti) -> n < length (steps T) -> exists s, longest_span (trajs ti) = Some s /\ s <? n + 1 = false.
  Proof.
    intros HT Hl. destruct (longest_span (trajs ti)) as [s|] eqn:Es.
    - exists s. split; auto. apply Nat.ltb_ge. apply (longest_span_ge (trajs ti) s T) in Es; auto. lia.
    - exfalso. destruct (trajs ti); [destruct HT|discriminate].
  Qed.

  (** C83.  getSelfISF(q,t0,t1,t2), t2 > t0: the mean over the windows starting from t0 to t2-1 of the self ISF of the trajectories
      spanning each, weighted by their number; t1-t0 elements. *)
  Theorem C83_windows d t0 t1 t2 T : consistent ti -> map (@length P) frames = map (@length nat) (inverse ti) -> t0 < t1 -> t0 < t2 -> t1 + (t2 - t0) <= length (inverse ti) ->
    In T (trajs ti) -> t1 - t0 < length (steps T) ->
    exists sels singles vs, windows_are (t1 - t0) t0 t2 sels singles /\
      self_isf_q P V zero add divn muln Wave axis cross one frames ti d t0 t1 t2 = Val vs /\ length vs = t1 - t0 /\
      forall dt, dt < t1 - t0 -> nth_error vs dt =
        Some (divn (fold_left add (map (fun a => muln (length (sels a)) (nth dt (singles a d) zero)) (seq t0 (t2 - t0))) zero) (list_sum (map (fun a => length (sels a)) (seq t0 (t2 - t0))))).
  Proof.
    intros Hc Hsh Ht Ht2 Hn HT HTl. destruct (windows_ok [d] (t1 - t0) t0 t2 Hc Hsh) as [sels [singles [st [Hw [E [L [C F]]]]]]]; try lia.
    exists sels, singles, (map (fun v => divn v (snd st)) (fst st)). split; auto. destruct (long_enough T _ HT HTl) as [s [Es Hs]]. split; [|split].
    - unfold self_isf_q. rewrite (proj2 (Nat.ltb_ge t1 t0)) by lia. rewrite Es, Hs, (proj2 (Nat.eqb_neq t2 0)) by lia. rewrite E. reflexivity.
    - rewrite map_length. auto.
    - intros dt Hdt. rewrite (map_nth_error _ dt _ (F dt Hdt)), C. reflexivity.
  Qed.
  (** getSelfISF(t0,t1,t2), t2 > t0: the same, over the three axes. *)
  Theorem C83_axes t0 t1 t2 T : consistent ti -> map (@length P) frames = map (@length nat) (inverse ti) -> t0 < t1 -> t0 < t2 -> t1 + (t2 - t0) <= length (inverse ti) ->
    In T (trajs ti) -> t1 - t0 < length (steps T) ->
    exists sels singles vs, windows_are (t1 - t0) t0 t2 sels singles /\
      self_isf_axes P V zero add divn muln Wave axis cross one frames ti t0 t1 t2 = Val vs /\ length vs = t1 - t0 /\
      forall dt, dt < t1 - t0 -> nth_error vs dt =
        Some (divn (fold_left add (flat_map (fun a => map (fun d => muln (length (sels a)) (nth dt (singles a d) zero)) [0; 1; 2]) (seq t0 (t2 - t0))) zero) (list_sum (map (fun a => length (sels a)) (seq t0 (t2 - t0))) * 3)).
  Proof.
    intros Hc Hsh Ht Ht2 Hn HT HTl. destruct (windows_ok [0; 1; 2] (t1 - t0) t0 t2 Hc Hsh) as [sels [singles [st [Hw [E [L [C F]]]]]]]; try lia.
    exists sels, singles, (map (fun v => divn v (snd st * 3)) (fst st)). split; auto. destruct (long_enough T _ HT HTl) as [s [Es Hs]]. split; [|split].
    - unfold self_isf_axes. rewrite (proj2 (Nat.ltb_ge t1 t0)) by lia. rewrite Es, Hs, (proj2 (Nat.eqb_neq t2 0)) by lia. rewrite E. reflexivity.
    - rewrite map_length. auto.
    - intros dt Hdt. rewrite (map_nth_error _ dt _ (F dt Hdt)), C. auto.
  Qed.
  (** A window that no trajectory spans contributes null times a division by zero (not a number) for every lag but the first. *)
  Theorem C83_empty_window_refuted d a len : consistent ti -> map (@length P) frames = map (@length nat) (inverse ti) -> 0 < len ->
    single d [] a (a + len) = Val (one :: repeat (divn zero 0) (len - 1)).
  Proof.
    intros Hc Hsh Hlen. destruct (C49_self_isf P V zero add divn Wave (axis d) cross one frames ti [] a (a + len) 1 Hc Hsh) as [X [vs [HX [E [L [H0 H]]]]]]; [lia|lia|intros t _ tr []|].
    rewrite E. f_equal. apply nth_error_ext. intros [|n]; [rewrite H0; auto|]. destruct (Nat.lt_ge_cases (S n) len) as [Hn|Hn].
    - rewrite H by lia. cbn [nth_error]. rewrite nth_error_repeat_x by lia. cbn [length]. rewrite Nat.mul_0_r. f_equal. f_equal. cbn [seq flat_map].
      assert (HXn : X (0 + a) = []) by (specialize (HX (0 + a) ltac:(lia)); inversion HX; auto). rewrite HXn. destruct (X (0 + S n + a)); reflexivity.
    - rewrite (proj2 (nth_error_None vs (S n))) by lia. cbn [nth_error]. rewrite (proj2 (nth_error_None _ n)); auto. rewrite repeat_length; lia.
  Qed.
  (** The default t2 = 0 is out of range for every interval, and so are both forms. *)
  Theorem C83_default_refuted d t0 t1 T : consistent ti -> map (@length P) frames = map (@length nat) (inverse ti) -> t0 <= t1 < length (inverse ti) -> In T (trajs ti) -> t1 - t0 < length (steps T) ->
    self_isf_q P V zero add divn muln Wave axis cross one frames ti d t0 t1 0 = UB /\ self_isf_axes P V zero add divn muln Wave axis cross one frames ti t0 t1 0 = UB.
  Proof.
    intros Hc Hsh Ht HT HTl. destruct (long_enough T _ HT HTl) as [s [Es Hs]]. destruct (C48_select_spanning ti t0 t1 Hc) as [sel [El [_ Il]]]; [lia|].
    assert (U : forall d, get_self_isf P V zero add divn Wave (axis d) cross one frames ti sel t0 t1 0 = UB).
    { intros d'. apply C49_self_isf_greedy_refuted; auto. intros t Htt tr Htr. apply Il in Htr. destruct Htr as [T' [HT' Hsp]]. destruct (Hsp t) as [p Hp]; eauto. }
    unfold self_isf_q, self_isf_axes. rewrite (proj2 (Nat.ltb_ge t1 t0)) by lia. rewrite Es, Hs. cbn [Nat.eqb]. rewrite Nat.add_0_r, El. cbn [obind ofold]. rewrite !U. auto.
  Qed.
  (** makeDynamics is out of range for any sets of trajectories present all the time (one at least), and for the default one. *)
  Theorem C83_make_dynamics_refuted sets : consistent ti -> map (@length P) frames = map (@length nat) (inverse ti) -> frames <> [] -> sets <> [] ->
    (forall sel t, In sel sets -> t < length frames -> present ti sel t) ->
    make_dynamics P V zero add divn sqd quad alpha divd Wave axis cross one frames ti sets = UB.
  Proof.
    intros Hc Hsh Hne Hse Hp. unfold make_dynamics. assert (G : forall stop, stop < length frames ->
      osequence (map (fun sel => obind (get_msd_ngp P V zero add sqd quad alpha divd frames ti sel 0 stop 0) (fun m =>
          obind (osequence (map (fun d => get_self_isf P V zero add divn Wave (axis d) cross one frames ti sel 0 stop 0) [0; 1; 2])) (fun isfs =>
          omap (fun mean => (m, isfs ++ [mean])) (mean_axes V zero add divn (stop + 1) isfs)))) sets) = UB).
    2:{ destruct frames as [|f0 fr]; [congruence|]. apply G. cbn [length]. lia. }
    intros stop Hstop. destruct sets as [|sel sets]; [congruence|]. cbn [map osequence].
    assert (U : forall d, get_self_isf P V zero add divn Wave (axis d) cross one frames ti sel 0 stop 0 = UB).
    { intros d. apply C49_self_isf_greedy_refuted; auto. intros t Ht. apply Hp; [left; auto|lia]. }
    assert (M : exists m, get_msd_ngp P V zero add sqd quad alpha divd frames ti sel 0 stop 0 = Val m).
    { destruct sel as [|s0 sel]; [eexists; reflexivity|]. destruct (C49_non_gaussian_refuted P V zero add sqd quad alpha divd frames ti (s0 :: sel) 0 stop 0 Hc Hsh) as [ps [qs [vs [ms H]]]]; try discriminate; try lia; try (apply Hp; [left; auto|lia]).
      cbv zeta in H. exists ms. apply H. }
    destruct M as [m ->]. cbn [obind]. cbn [map osequence]. rewrite U. reflexivity.
  Qed.
  (** The fourth function would be the mean of the three axes at every lag; it is out of range when one of them is too short. *)
  Theorem C83_mean_of_axes n x y z : (n <= length x /\ n <= length y /\ n <= length z ->
      exists m, mean_axes V zero add divn n [x; y; z] = Val m /\ length m = n /\
        forall t a b c, t < n -> nth_error x t = Some a -> nth_error y t = Some b -> nth_error z t = Some c -> nth_error m t = Some (divn (add (add (add zero a) b) c) 3)) /\
    (length x < n \/ length y < n \/ length z < n -> mean_axes V zero add divn n [x; y; z] = UB).
  Proof.
    unfold mean_axes. assert (Short : forall l t, length x <= t \/ length y <= t \/ length z <= t -> In t l -> (forall u, In u l -> u = t \/ (exists v, ofold (fun isf w => match nth_error isf u with Some x => Val (add w x) | None => UB end) [x; y; z] zero = Val v) \/
      ofold (fun isf w => match nth_error isf u with Some x => Val (add w x) | None => UB end) [x; y; z] zero = UB) ->
      osequence (map (fun t => omap (fun v => divn v 3) (ofold (fun isf w => match nth_error isf t with Some x => Val (add w x) | None => UB end) [x; y; z] zero)) l) = UB).
    { intros l t Ht. assert (U : ofold (fun isf w => match nth_error isf t with Some x => Val (add w x) | None => UB end) [x; y; z] zero = UB).
      { cbn [ofold]. destruct (nth_error x t) as [a|] eqn:Ea; [|reflexivity]. cbn [obind]. destruct (nth_error y t) as [b|] eqn:Eb; [|reflexivity]. cbn [obind]. destruct (nth_error z t) as [c|] eqn:Ec; [|reflexivity].
        exfalso. apply nth_error_lt in Ea, Eb, Ec. lia. }
      induction l as [|u l IH]; intros Hin Hall; [destruct Hin|]. cbn [map osequence]. destruct Hin as [->|Hin]; [rewrite U; reflexivity|].
      destruct (Hall u (or_introl eq_refl)) as [->|[[v Hv]|Hv]]; [rewrite U; reflexivity| |rewrite Hv; reflexivity]. rewrite Hv. cbn [omap obind]. rewrite IH; auto. intros w Hw. apply Hall. right; auto. }
    split.
    - intros (Lx & Ly & Lz). assert (G : forall k n, k + n <= length x -> k + n <= length y -> k + n <= length z ->
        exists m, osequence (map (fun t => omap (fun v => divn v 3) (ofold (fun isf w => match nth_error isf t with Some x => Val (add w x) | None => UB end) [x; y; z] zero)) (seq k n)) = Val m /\ length m = n /\
          forall t a b c, t < n -> nth_error x (k + t) = Some a -> nth_error y (k + t) = Some b -> nth_error z (k + t) = Some c -> nth_error m t = Some (divn (add (add (add zero a) b) c) 3)).
      { clear. intros k n. revert k. induction n as [|n IH]; intros k Hx Hy Hz; [exists []; split; [reflexivity|]; split; [reflexivity|]; intros; lia|].
        destruct (IH (S k)) as [m [E [L H]]]; [lia|lia|lia|]. destruct (nth_error_ex x k) as [a Ea]; [lia|]. destruct (nth_error_ex y k) as [b Eb]; [lia|]. destruct (nth_error_ex z k) as [c Ec]; [lia|].
        cbn [seq map osequence]. rewrite E. cbn [ofold]. rewrite Ea. cbn [obind]. rewrite Eb. cbn [obind]. rewrite Ec. cbn [obind omap]. eexists. split; [reflexivity|]. split; [cbn [length]; lia|].
        intros [|t] a' b' c' Ht Ha Hb Hc; [rewrite Nat.add_0_r in *; cbn [nth_error]; congruence|]. cbn [nth_error]. replace (k + S t) with (S k + t) in * by lia. apply H; auto. lia. }
      apply (G 0 n); lia.
    - intros Hs. apply (Short (seq 0 n) (n - 1)); [lia|apply in_seq; lia|]. intros u Hu. right. cbn [ofold].
      destruct (nth_error x u); [|right; reflexivity]. cbn [obind]. destruct (nth_error y u); [|right; reflexivity]. cbn [obind]. destruct (nth_error z u); [|right; reflexivity]. left. eexists. reflexivity.
  Qed.
  Theorem C83_make_dynamics_all_refuted : consistent ti -> map (@length P) frames = map (@length nat) (inverse ti) -> frames <> [] ->
    make_dynamics_all P V zero add divn sqd quad alpha divd Wave axis cross one frames ti = UB.
  Proof.
    intros Hc Hsh Hne. unfold make_dynamics_all. assert (Hl : length frames = length (inverse ti)) by (rewrite <- (map_length (@length P) frames), Hsh, map_length; auto).
    destruct (C48_select_spanning ti 0 (length frames - 1) Hc) as [sel [El [_ Il]]]; [destruct frames; [congruence|cbn [length] in *; lia]|]. rewrite El. cbn [obind].
    assert (E := C83_make_dynamics_refuted [sel] Hc Hsh Hne ltac:(discriminate)). destruct frames as [|f0 fr] eqn:Ef; [congruence|]. rewrite <- Ef in *. apply E.
    intros s t [<-|[]] Ht tr Htr. apply Il in Htr. destruct Htr as [T' [HT' Hsp]]. destruct (Hsp t) as [p Hp]; [lia|]. eauto.
  Qed.

  (** A movie without frames: the last frame does not exist, whatever the sets. *)
  Theorem C83_no_frame sets : frames = [] -> make_dynamics P V zero add divn sqd quad alpha divd Wave axis cross one frames ti sets = UB /\
    make_dynamics_all P V zero add divn sqd quad alpha divd Wave axis cross one frames ti = UB.
  Proof. intros ->. split; reflexivity. Qed.

  (** C84.  getSD(t, h), h > 0: (2h+1) times the square of the velocity of C73. *)
  Variables (pzero : P) (sub : P -> P -> P) (pdiv : P -> nat -> P) (dot : P -> P -> V).
  Theorem C84_square_velocity t h row : consistent ti -> map (@length P) frames = map (@length nat) (inverse ti) -> nth_error (inverse ti) t = Some row -> (Z.of_nat (t + h) < 2 ^ 31)%Z -> 0 < h ->
    exists sd, sd_around P V muln frames ti pzero sub pdiv dot t h = Val sd /\ length sd = length row /\
      forall p tr T, nth_error row p = Some tr -> nth_error (trajs ti) tr = Some T ->
        (length (steps T) = 1 -> nth_error sd p = Some (muln (2 * h + 1) (dot pzero pzero))) /\
        (1 < length (steps T) ->
          let a := Nat.max (t - h) (start T) in let b := Nat.min (t + h) (start T + length (steps T) - 1) in
          exists x y, value_at frames T a x /\ value_at frames T b y /\ nth_error sd p = Some (let v := pdiv (sub y x) (b - a) in muln (2 * h + 1) (dot v v))).
  Proof.
    intros Hc Hsh Hrow Ht Hh. destruct (C73_velocities P pzero sub pdiv ti frames t h row Hc Hsh Hrow Ht Hh) as [vs [E [L H]]]. unfold sd_around. rewrite E. cbn [omap]. eexists. split; [reflexivity|].
    rewrite map_length. split; auto. rewrite (Nat.mul_comm 2 h). intros p tr T Hp HT. destruct (H p tr T Hp HT) as [H1 H2]. split.
    - intros H0. rewrite (map_nth_error _ p _ (H1 H0)). auto.
    - intros H0. destruct (H2 H0) as [_ [_ [x [y [Hx [Hy Hv]]]]]]. cbv zeta. exists x, y. split; auto. split; auto. rewrite (map_nth_error _ p _ Hv). auto.
  Qed.
End Statements.

(** For a particle moving by 1 per step, getSD over one step before and after is 3: neither the square displacement over the window
    (4) nor that over a step (1). *)
Definition ex_line : trajindex := mkIndex [mkTraj 0 [0; 0; 0]] [[0]; [0]; [0]].
Theorem C84_square_displacement_refuted :
  sd_around Z Z (fun n v => (Z.of_nat n * v)%Z) [[0]; [1]; [2]]%Z ex_line 0%Z Z.sub (fun x n => (x / Z.of_nat n)%Z) Z.mul 1 1 = Val [3%Z] /\
  get_sd Z Z 0%Z Z.add (fun x y => ((y - x) * (y - x))%Z) [[0]; [1]; [2]]%Z ex_line [0] 0 2 = Val 4%Z /\
  get_sd Z Z 0%Z Z.add (fun x y => ((y - x) * (y - x))%Z) [[0]; [1]; [2]]%Z ex_line [0] 0 1 = Val 1%Z.
Proof. repeat split; vm_compute; reflexivity. Qed.
Definition ex_axis (d x : nat) : nat := x + d.
Example C83_case : consistent ex_ti /\ map (@length nat) ex_pos = map (@length nat) (inverse ex_ti) /\ 1 < length (steps (mkTraj 0 [0; 1; 0; 0])) /\ In (mkTraj 0 [0; 1; 0; 0]) (trajs ex_ti) /\
  self_isf_q nat nat 0 Nat.add Nat.div Nat.mul nat ex_axis Nat.mul 100 ex_pos ex_ti 1 0 2 1 = Val [100; 2] /\
  self_isf_q nat nat 0 Nat.add Nat.div Nat.mul nat ex_axis Nat.mul 100 ex_pos ex_ti 0 0 2 2 = Val [100; 1] /\
  self_isf_axes nat nat 0 Nat.add Nat.div Nat.mul nat ex_axis Nat.mul 100 ex_pos ex_ti 0 2 2 = Val [100; 5].
Proof. split; [exact ex_ti_consistent|]. split; [reflexivity|]. split; [cbn; lia|]. split; [left; auto|]. repeat split; vm_compute; reflexivity. Qed.
Example C84_case : consistent ex_ti /\
  sd_around Z Z (fun n v => (Z.of_nat n * v)%Z) [[0; 10]; [20; 1]; [30; 24; 7]; [60; 10]]%Z ex_ti 0%Z Z.sub (fun x n => (x / Z.of_nat n)%Z) Z.mul 2 1 = Val [3 * 29 * 29; 3 * 4 * 4; 3 * 3 * 3]%Z.
Proof. split; [exact ex_ti_consistent|vm_compute; reflexivity]. Qed.

Print Assumptions C83_windows. Print Assumptions C83_axes. Print Assumptions C83_empty_window_refuted. Print Assumptions C83_default_refuted.
Print Assumptions C83_mean_of_axes. Print Assumptions C83_make_dynamics_refuted. Print Assumptions C83_make_dynamics_all_refuted.
Print Assumptions C83_no_frame. Print Assumptions C84_square_velocity. Print Assumptions C84_square_displacement_refuted.

(** C132: the drift of a movie, and the dynamics once it is removed. *)
Require Import String.
Require Import ZArith QArith List Arith Ascii Bool Lia Lqa.
Require Import Verif.Base Verif.ListX Verif.Dec Verif.Traj_Model Verif.Traj_Spec Verif.Cluster_Spec Verif.Particles_Model Verif.Dyn_Model Verif.Dyn_Spec Verif.Dyn_Proofs Verif.Dyn_Props Verif.Drift_Proofs
  Verif.Corr_Model Verif.Corr_Proofs Verif.Export_Model Verif.DynFile_Model Verif.Perco_Model Verif.Perco_Props Verif.Cloud_Model Verif.Drive_Model.
Require Import Sorted.
Import ListNotations.
Local Open Scope nat_scope.
Local Open Scope list_scope.

Lemma total_fun frames tri t0 t1 : forall l d d', total_displacement frames tri l t0 t1 d -> total_displacement frames tri l t0 t1 d' -> (d == d')%Q.
Proof.
  induction l as [|tr l IH]; intros d d' H H'; [simpl in *; rewrite H, H'; reflexivity|].
  destruct H as [T [x [y [e [HT [Hx [Hy [D E]]]]]]]]. destruct H' as [T' [x' [y' [e' [HT' [Hx' [Hy' [D' E']]]]]]]]. assert (T' = T) by congruence. subst T'.
  rewrite (value_fun frames T t0 x' x Hx' Hx) in E'. rewrite (value_fun frames T t1 y' y Hy' Hy) in E'. rewrite E, E', (IH e e' D D'). reflexivity.
Qed.
Lemma shifted_len frames ss : length ss = length frames -> length (shifted frames ss) = length frames.
Proof. intros H. unfold shifted. rewrite map_length, combine_length. lia. Qed.
Lemma shifted_shape : forall frames ss, length ss = length frames -> map (@length Q) (shifted frames ss) = map (@length Q) frames.
Proof. induction frames as [|f fs IH]; intros [|s ss] L; try discriminate; auto. cbn. unfold shifted in IH. cbn in IH. rewrite map_length, IH by (cbn in L; lia). reflexivity. Qed.

(** What is known of the selection: at least two trajectories, all of which have positions at both times. *)
Definition enough (ti : trajindex) (n : nat) (sel : nat -> outcome (list nat)) : Prop :=
  forall t, t + 1 < n -> exists l, sel t = Val l /\ 2 <= length l /\ forall tr, In tr l -> exists T, nth_error (trajs ti) tr = Some T /\ spans T t (t + 1).
Lemma const_ex (c : nat -> Q) n : (forall t, t + 1 < n -> (c (t + 1)%nat == c t)%Q) -> forall t, t < n -> (c t == c 0%nat)%Q.
Proof. intros H. induction t as [|t IH]; intros L; [reflexivity|]. replace (S t) with (t + 1) by lia. rewrite H by lia. apply IH. lia. Qed.
Lemma nmult_zero n (q : Q) : 2 <= n -> (inject_Z (Z.of_nat n) * q == 0)%Q -> (q == 0)%Q.
Proof. intros H E. apply Qmult_integral in E as [E|E]; auto. exfalso. unfold Qeq, inject_Z in E. simpl in E. lia. Qed.

(** One axis: whatever is added to each frame, the shifts make up for it. *)
Lemma cancel_axis ti frames us sel : consistent ti -> map (@length Q) frames = map (@length nat) (inverse ti) -> 0 < length frames -> length us = length frames ->
  enough ti (length frames) sel -> exists ss ss' k, shifts sel frames ti = Val ss /\ shifts sel (shifted frames us) ti = Val ss' /\ length ss = length frames /\ length ss' = length frames /\
    forall t, t < length frames -> (nth t us 0 + nth t ss' 0 == nth t ss 0 + k)%Q.
Proof.
  intros Hc Hsh Hpos Lu He. assert (He' : forall t, t + 1 < length frames -> exists l, sel t = Val l /\ forall tr, In tr l -> exists T, nth_error (trajs ti) tr = Some T /\ spans T t (t + 1)).
  { intros t Ht. destruct (He t Ht) as [l [E [_ H]]]. eauto. }
  destruct (shifts_ok ti frames sel Hc Hsh Hpos He') as [ss [E [L [_ [_ H]]]]].
  destruct (shifts_ok ti (shifted frames us) sel Hc) as [ss' [E' [L' [_ [_ H']]]]].
  { unfold shape. rewrite shifted_shape; auto. } { rewrite shifted_len; auto. } { rewrite shifted_len; auto. }
  rewrite (shifted_len frames us Lu) in *.
  exists ss, ss', (nth 0 us 0 + nth 0 ss' 0 - nth 0 ss 0)%Q. split; auto. split; auto. split; auto. split; auto. intros t Ht.
  assert (C : (nth t us 0 + nth t ss' 0 - nth t ss 0 == nth 0 us 0 + nth 0 ss' 0 - nth 0 ss 0)%Q); [|rewrite <- C; ring].
  apply (const_ex (fun t => nth t us 0 + nth t ss' 0 - nth t ss 0)%Q (length frames)); auto. clear t Ht. intros t Ht. destruct (He t Ht) as [l [El [H2 _]]].
  destruct (H t l Ht El) as [s0 [s1 [N0 [N1 [D _]]]]]. destruct (D H2) as [d [Td Ed]]. destruct (H' t l Ht El) as [r0 [r1 [M0 [M1 [D' _]]]]]. destruct (D' H2) as [d' [Td' Ed']].
  destruct (nth_error_ex us t) as [u0 U0]; [lia|]. destruct (nth_error_ex us (t + 1)) as [u1 U1]; [lia|].
  assert (T2 := shifted_total ti frames us t (t + 1) u0 u1 U0 U1 l d Td _ (Qeq_refl _)). assert (Ee := total_fun _ _ _ _ _ _ _ T2 Td').
  rewrite (nth_error_nth _ _ _ N0), (nth_error_nth _ _ _ N1), (nth_error_nth _ _ _ M0), (nth_error_nth _ _ _ M1), (nth_error_nth _ _ _ U0), (nth_error_nth _ _ _ U1).
  assert (Z : (u1 + r1 - s1 - (u0 + r0 - s0) == 0)%Q); [|lra].
  apply (nmult_zero (length l)); auto. rewrite <- Ee in Ed'. set (n := inject_Z (Z.of_nat (length l))) in *.
  setoid_replace (n * (u1 + r1 - s1 - (u0 + r0 - s0)))%Q with ((d + n * (u1 - u0) + n * (r1 - r0)) - (d + n * (s1 - s0)))%Q by ring. rewrite Ed, Ed'. ring.
Qed.
(** One axis: once removed, there is no drift left to remove. *)
Lemma again_axis ti frames sel ss : consistent ti -> map (@length Q) frames = map (@length nat) (inverse ti) -> 0 < length frames ->
  (forall t, t + 1 < length frames -> exists l, sel t = Val l /\ forall tr, In tr l -> exists T, nth_error (trajs ti) tr = Some T /\ spans T t (t + 1)) -> shifts sel frames ti = Val ss ->
  exists ss', shifts sel (shifted frames ss) ti = Val ss' /\ length ss' = length frames /\ forall t, t < length frames -> (nth t ss' 0 == 0)%Q.
Proof.
  intros Hc Hsh Hpos He E0. destruct (shifts_ok ti frames sel Hc Hsh Hpos He) as [ss0 [E [L [_ [_ H]]]]]. assert (ss0 = ss) by congruence. subst ss0.
  destruct (shifts_ok ti (shifted frames ss) sel Hc) as [ss' [E' [L' [_ [[z [Iz Ez]] H']]]]].
  { unfold shape. rewrite shifted_shape; auto. } { rewrite shifted_len; auto. } { rewrite shifted_len; auto. }
  rewrite (shifted_len frames ss L) in *. exists ss'. split; auto. split; auto.
  assert (C : forall t, t < length frames -> (nth t ss' 0 == nth 0 ss' 0)%Q).
  { apply (const_ex (fun t => nth t ss' 0%Q) (length frames)). intros t Ht. destruct (He t Ht) as [l [El _]].
    destruct (H t l Ht El) as [s0 [s1 [N0 [N1 [D _]]]]]. destruct (H' t l Ht El) as [r0 [r1 [M0 [M1 [D' S']]]]]. rewrite (nth_error_nth _ _ _ M0), (nth_error_nth _ _ _ M1).
    destruct (Nat.le_gt_cases 2 (length l)) as [H2|H2]; [|apply S'; auto]. destruct (D H2) as [d [Td Ed]]. destruct (D' H2) as [d' [Td' Ed']].
    assert (T2 := shifted_total ti frames ss t (t + 1) s0 s1 N0 N1 l d Td _ (Qeq_refl _)). assert (Ee := total_fun _ _ _ _ _ _ _ T2 Td').
    assert (Z : (r1 - r0 == 0)%Q); [|lra]. apply (nmult_zero (length l)); auto. rewrite Ed in Ee. rewrite <- Ee in Ed'. lra. }
  intros t Ht. apply In_nth_error in Iz as [i Hi]. assert (Li := nth_error_lt _ _ _ Hi). rewrite (C t Ht), <- (C i) by lia. rewrite (nth_error_nth _ _ _ Hi). exact Ez.
Qed.

(** From one axis to three. *)
Definition zero3 : pos3 := (0%Q, 0%Q, 0%Q).
Definition moved_by (k p q : pos3) : Prop := forall a, In a axes -> (a q == a p + a k)%Q.
Lemma axes_in a : In a axes -> a = x_of \/ a = y_of \/ a = z_of.
Proof. intros [<-|[<-|[<-|[]]]]; auto. Qed.
Lemma axis_shift a : In a axes -> forall frames ss, axis a (shift_movie ss frames) = shifted (axis a frames) (map a ss).
Proof.
  intros Ha. induction frames as [|f fs IH]; intros [|s ss]; try reflexivity. unfold axis, shift_movie, shifted in *. cbn [combine map fst snd]. cbn [map] in IH. rewrite IH. f_equal.
  unfold shift_frame. rewrite !map_map. apply map_ext. intros p. apply axes_in in Ha as [->|[->| ->]]; reflexivity.
Qed.
Lemma axis_len a frames : length (axis a frames) = length frames.
Proof. apply map_length. Qed.
Lemma axis_shape a frames : map (@length Q) (axis a frames) = map (@length pos3) frames.
Proof. unfold axis. rewrite map_map. apply map_ext. intros f. apply map_length. Qed.
Lemma shift_movie_len ss frames : length ss = length frames -> length (shift_movie ss frames) = length frames.
Proof. intros H. unfold shift_movie. rewrite map_length, combine_length. lia. Qed.
Lemma shift_movie_shape : forall frames ss, length ss = length frames -> map (@length pos3) (shift_movie ss frames) = map (@length pos3) frames.
Proof. induction frames as [|f fs IH]; intros [|s ss] L; try discriminate; auto. unfold shift_movie, shift_frame in *. cbn. rewrite map_length, IH by (cbn in L; lia). reflexivity. Qed.
Lemma combine3_map {A B C} : forall (l1 : list A) (l2 : list B) (l3 : list C), length l2 = length l1 -> length l3 = length l1 ->
  map (fun s => fst (fst s)) (combine (combine l1 l2) l3) = l1 /\ map (fun s => snd (fst s)) (combine (combine l1 l2) l3) = l2 /\ map snd (combine (combine l1 l2) l3) = l3.
Proof.
  induction l1 as [|a l1 IH]; intros [|b l2] [|c l3] H1 H2; try discriminate; auto. cbn in H1, H2. destruct (IH l2 l3) as [E1 [E2 E3]]; try lia. cbn [combine map fst snd]. rewrite E1, E2, E3. auto.
Qed.
Lemma combine3_axes sx sy sz : length sy = length sx -> length sz = length sx ->
  let ss := combine (combine sx sy) sz in length ss = length sx /\ map x_of ss = sx /\ map y_of ss = sy /\ map z_of ss = sz.
Proof. intros H1 H2. cbv zeta. split; [rewrite !combine_length; lia|]. apply (combine3_map sx sy sz); auto. Qed.
Lemma nth_axis a (ss : list pos3) t : In a axes -> nth t (map a ss) 0%Q = a (nth t ss zero3).
Proof. intros Ha. rewrite <- (map_nth a ss zero3 t). f_equal. apply axes_in in Ha as [->|[->| ->]]; reflexivity. Qed.

(** A selection of trajectories, each of which has positions at t and t+1. *)
Lemma spanning_ok ti n : consistent ti -> length (inverse ti) = n ->
  forall t, t + 1 < n -> exists l, spanning_next ti t = Val l /\ forall tr, In tr l -> exists T, nth_error (trajs ti) tr = Some T /\ spans T t (t + 1).
Proof. intros Hc Hn t Ht. destruct (C48_select_spanning ti t (t + 1) Hc) as [l [E [_ H]]]; [lia|]. exists l. split; auto. intros tr I. apply H in I. exact I. Qed.
Lemma shape_len (frames : list (list pos3)) ti : map (@length pos3) frames = map (@length nat) (inverse ti) -> length (inverse ti) = length frames.
Proof. intros H. apply (f_equal (@length nat)) in H. rewrite !map_length in H. auto. Qed.
(** The shifts of a movie, axis by axis. *)
Lemma shifts3_ok ti frames : consistent ti -> map (@length pos3) frames = map (@length nat) (inverse ti) -> 0 < length frames ->
  exists ss, shifts3 frames ti = Val ss /\ length ss = length frames /\ forall a, In a axes -> shifts (spanning_next ti) (axis a frames) ti = Val (map a ss).
Proof.
  intros Hc Hsh Hpos. assert (A : forall a, exists s, shifts (spanning_next ti) (axis a frames) ti = Val s /\ length s = length frames).
  { intros a. destruct (shifts_ok ti (axis a frames) (spanning_next ti) Hc) as [s [E [L _]]]; [unfold shape; rewrite axis_shape; auto|rewrite axis_len; auto| |rewrite axis_len in L; eauto].
    rewrite axis_len. apply spanning_ok; auto. apply shape_len. auto. }
  destruct (A x_of) as [sx [Ex Lx]]. destruct (A y_of) as [sy [Ey Ly]]. destruct (A z_of) as [sz [Ez Lz]]. unfold shifts3. rewrite Ex, Ey, Ez. cbn [obind omap].
  eexists. split; [reflexivity|]. destruct (combine3_axes sx sy sz) as [L [Mx [My Mz]]]; try lia. split; [exact (eq_trans L Lx)|]. intros a Ha. apply axes_in in Ha as [->|[->| ->]]; [rewrite Ex; f_equal; symmetry; exact Mx|rewrite Ey; f_equal; symmetry; exact My|rewrite Ez; f_equal; symmetry; exact Mz].
Qed.

(** At least two trajectories have positions at both times. *)
Definition two_follow (ti : trajindex) (n : nat) : Prop :=
  forall t, t + 1 < n -> exists i j T U, i <> j /\ nth_error (trajs ti) i = Some T /\ nth_error (trajs ti) j = Some U /\ spans T t (t + 1) /\ spans U t (t + 1).
Lemma two_enough ti n : consistent ti -> length (inverse ti) = n -> two_follow ti n -> enough ti n (spanning_next ti).
Proof.
  intros Hc Hn H t Ht. destruct (C48_select_spanning ti t (t + 1) Hc) as [l [E [_ Hl]]]; [lia|]. exists l. split; auto. split; [|intros tr I; apply Hl; auto].
  destruct (H t Ht) as [i [j [T [U [Hij [HT [HU [ST SU]]]]]]]]. assert (I : In i l) by (apply Hl; eauto). assert (J : In j l) by (apply Hl; eauto).
  destruct l as [|a [|b l]]; [destruct I| |cbn; lia]. destruct I as [<-|[]]. destruct J as [<-|[]]. destruct Hij; auto.
Qed.
Lemma moved_movie k : forall frames us ss ss', length us = length frames -> length ss = length frames -> length ss' = length frames ->
  (forall t a, t < length frames -> In a axes -> (a (nth t us zero3) + a (nth t ss' zero3) == a (nth t ss zero3) + a k)%Q) ->
  Forall2 (Forall2 (moved_by k)) (shift_movie ss frames) (shift_movie ss' (shift_movie us frames)).
Proof.
  induction frames as [|f fs IH]; intros [|u us] [|s ss] [|s' ss'] L1 L2 L3 H; try discriminate; [constructor|]. cbn in L1, L2, L3. unfold shift_movie. cbn [combine map fst snd]. constructor.
  - assert (H0 := fun a => H 0 a ltac:(cbn; lia)). cbn [nth] in H0. unfold shift_frame. clear -H0. induction f as [|p f IHf]; cbn [map]; constructor; auto. intros a Ha. specialize (H0 a Ha).
    apply axes_in in Ha as [->|[->| ->]]; unfold x_of, y_of, z_of in *; cbn [fst snd]; lra.
  - apply IH; try lia. intros t a Ht Ha. apply (H (S t) a); auto. cbn. lia.
Qed.
(** Whatever is added to each frame, the movie without drift is the same up to one translation of the whole. *)
Theorem C132_cancels ti frames us : consistent ti -> map (@length pos3) frames = map (@length nat) (inverse ti) -> 0 < length frames -> length us = length frames ->
  two_follow ti (length frames) ->
  exists A B k, remove_drift3 frames ti = Val A /\ remove_drift3 (shift_movie us frames) ti = Val B /\ Forall2 (Forall2 (moved_by k)) A B.
Proof.
  intros Hc Hsh Hpos Lu H2. assert (Li := shape_len _ _ Hsh). destruct (shifts3_ok ti frames Hc Hsh Hpos) as [ss [E [L HA]]].
  destruct (shifts3_ok ti (shift_movie us frames) Hc) as [ss' [E' [L' HB]]]; [rewrite shift_movie_shape; auto|rewrite shift_movie_len; auto|]. rewrite shift_movie_len in L' by auto.
  assert (K : forall a, In a axes -> exists k, forall t, t < length frames -> (a (nth t us zero3) + a (nth t ss' zero3) == a (nth t ss zero3) + k)%Q).
  { intros a Ha. destruct (cancel_axis ti (axis a frames) (map a us) (spanning_next ti) Hc) as [s [s' [k [F [F' [_ [_ H]]]]]]]; [rewrite axis_shape; auto|rewrite axis_len; auto|rewrite axis_len, map_length; auto| |].
    - rewrite axis_len. apply two_enough; auto.
    - rewrite <- axis_shift in F' by auto. rewrite HA in F by auto. rewrite HB in F' by auto. injection F as <-. injection F' as <-. exists k. intros t Ht. specialize (H t). rewrite axis_len in H. specialize (H Ht).
      rewrite !nth_axis in H by auto. exact H. }
  destruct (K x_of) as [kx Kx]; [cbn; auto|]. destruct (K y_of) as [ky Ky]; [cbn; auto|]. destruct (K z_of) as [kz Kz]; [cbn; auto|].
  unfold remove_drift3. rewrite E, E'. cbn [omap]. exists (shift_movie ss frames), (shift_movie ss' (shift_movie us frames)), (kx, ky, kz). split; auto. split; auto. apply moved_movie; auto.
  intros t a Ht Ha. apply axes_in in Ha as [->|[->| ->]]; auto.
Qed.
(** A movie without drift is left as it is. *)
Theorem C132_again ti frames A : consistent ti -> map (@length pos3) frames = map (@length nat) (inverse ti) -> 0 < length frames -> remove_drift3 frames ti = Val A ->
  exists B, remove_drift3 A ti = Val B /\ Forall2 (Forall2 (moved_by zero3)) A B.
Proof.
  intros Hc Hsh Hpos EA. assert (Li := shape_len _ _ Hsh). destruct (shifts3_ok ti frames Hc Hsh Hpos) as [ss [E [L HA]]]. unfold remove_drift3 in EA. rewrite E in EA. cbn [omap] in EA. injection EA as <-.
  destruct (shifts3_ok ti (shift_movie ss frames) Hc) as [ss' [E' [L' HB]]]; [rewrite shift_movie_shape; auto|rewrite shift_movie_len; auto|]. rewrite shift_movie_len in L' by auto.
  unfold remove_drift3. rewrite E'. cbn [omap]. eexists. split; [reflexivity|]. apply moved_movie; auto. intros t a Ht Ha.
  destruct (again_axis ti (axis a frames) (spanning_next ti) (map a ss) Hc) as [s' [F [_ H]]]; [rewrite axis_shape; auto|rewrite axis_len; auto|rewrite axis_len; apply spanning_ok; auto|auto|].
  rewrite <- axis_shift in F by auto. rewrite HB in F by auto. injection F as <-. specialize (H t). rewrite axis_len in H. specialize (H Ht). rewrite nth_axis in H by auto. rewrite H.
  assert (a zero3 = 0%Q) as -> by (apply axes_in in Ha as [->|[->| ->]]; reflexivity). reflexivity.
Qed.

(** The drift from t to t+1: the mean displacement along each axis of the trajectories that have positions at both times; null if there are less than two of them. *)
Definition drift_from (ti : trajindex) (frames : list (list pos3)) (t : nat) (v : pos3) : Prop :=
  exists l, StronglySorted lt l /\ (forall tr, In tr l <-> exists T, nth_error (trajs ti) tr = Some T /\ spans T t (t + 1)) /\
    forall a, In a axes -> (2 <= length l -> total_displacement (axis a frames) (trajs ti) l t (t + 1) (a v * inject_Z (Z.of_nat (length l)))%Q) /\ (length l < 2 -> a v = 0%Q).
Lemma drift_at_ok ti frames t : consistent ti -> map (@length pos3) frames = map (@length nat) (inverse ti) -> t + 1 < length frames -> exists v, drift_at frames ti t = Val v /\ drift_from ti frames t v.
Proof.
  intros Hc Hsh Ht. assert (Li := shape_len _ _ Hsh). destruct (C48_select_spanning ti t (t + 1) Hc) as [l [E [So Hl]]]; [lia|]. unfold drift_at. rewrite E. cbn [obind].
  assert (G : forall a, exists d, get_drift (axis a frames) ti l t (t + 1) = Val d /\ (2 <= length l -> total_displacement (axis a frames) (trajs ti) l t (t + 1) (d * inject_Z (Z.of_nat (length l)))%Q) /\ (length l < 2 -> d = 0%Q)).
  { intros a. apply get_drift_ok; auto; [unfold shape; rewrite axis_shape; auto|]. intros tr I. apply Hl in I as [T [HT Hs]]. exists T. split; auto. apply spans_ends in Hs; auto. lia. }
  destruct (G x_of) as [x [Ex Hx]]. destruct (G y_of) as [y [Ey Hy]]. destruct (G z_of) as [z [Ez Hz]]. rewrite Ex, Ey, Ez. cbn [obind omap]. exists (x, y, z). split; auto. exists l. split; auto. split; auto.
  intros a Ha. apply axes_in in Ha as [->|[->| ->]]; assumption.
Qed.
Lemma sorted_same : forall l l' : list nat, StronglySorted lt l -> StronglySorted lt l' -> (forall x, In x l <-> In x l') -> l = l'.
Proof.
  induction l as [|a l IH]; intros [|b l'] S1 S2 H; auto; [exfalso; apply (proj2 (H b)); left; auto|exfalso; apply (proj1 (H a)); left; auto|].
  apply StronglySorted_inv in S1 as [S1 F1]. apply StronglySorted_inv in S2 as [S2 F2]. rewrite Forall_forall in F1, F2.
  assert (a = b). { destruct (proj1 (H a) (or_introl eq_refl)) as [|I]; auto. destruct (proj2 (H b) (or_introl eq_refl)) as [|J]; auto. apply F2 in I. apply F1 in J. lia. } subst b. f_equal. apply IH; auto.
  intros x. split; intros I; [destruct (proj1 (H x) (or_intror I)) as [E|]; auto; subst; apply F1 in I; lia|destruct (proj2 (H x) (or_intror I)) as [E|]; auto; subst; apply F2 in I; lia].
Qed.

Section Programs.
  Variables (show : Q -> text) (parse : text -> option Q).
  (** drift: one line per frame but the last, with the drift to the next one; and those are the drifts that removeDrift takes away. *)
  Theorem C132_drift_file filename d p : load_dyn Q 0%Q parse d filename = Val p -> consistent (l_index Q p) -> map (@length pos3) (l_frames Q p) = map (@length nat) (inverse (l_index Q p)) -> 0 < length (l_frames Q p) ->
    exists vs ss, drift_program show parse filename d = Val (put_file d (stem_of filename ++ txt "_drift.txt") (txt "t" ++ [tab] ++ txt "x" ++ [tab] ++ txt "y" ++ [tab] ++ txt "z" ++ [newline] ++
        List.concat (map (fun t => let v := nth t vs zero3 in print_nat t ++ [tab] ++ show (x_of v) ++ [tab] ++ show (y_of v) ++ [tab] ++ show (z_of v) ++ [newline]) (seq 0 (length vs))))) /\
      S (length vs) = length (l_frames Q p) /\ (forall t, t < length vs -> drift_from (l_index Q p) (l_frames Q p) t (nth t vs zero3)) /\
      remove_drift3 (l_frames Q p) (l_index Q p) = Val (shift_movie ss (l_frames Q p)) /\ length ss = length (l_frames Q p) /\
      (forall t, t < length vs -> moved_by (nth (t + 1) ss zero3) (nth t vs zero3) (nth t ss zero3)).
  Proof.
    intros El Hc Hsh Hpos. assert (Lines : forall n (vs : list pos3), List.concat (map (fun t => let v := nth t vs zero3 in print_nat t ++ [tab] ++ show (x_of v) ++ [tab] ++ show (y_of v) ++ [tab] ++ show (z_of v) ++ [newline]) (seq 0 n)) = List.concat (map (fun t => drift_line show t (nth t vs zero3)) (seq 0 n))).
    { intros n vs. f_equal. apply map_ext. intros t. unfold drift_line, axes. cbn [flat_map]. rewrite app_nil_r. cbn [app]. rewrite <- !app_assoc. cbn [app]. rewrite <- !app_assoc. reflexivity. }
    set (frames := l_frames Q p) in *. set (ti := l_index Q p) in *. assert (Li := shape_len _ _ Hsh).
    destruct (osequence_map_ex (drift_at frames ti) (seq 0 (length frames - 1))) as [vs [E F]]; [intros t I; apply in_seq in I; destruct (drift_at_ok ti frames t Hc Hsh) as [v [Ev _]]; [lia|eauto]|].
    assert (Lv : length vs = length frames - 1) by (rewrite <- (F2_len _ _ _ F), seq_length; auto).
    assert (V : forall t, t < length vs -> drift_at frames ti t = Val (nth t vs zero3)).
    { intros t Ht. destruct (F2_nth _ _ _ t t F) as [v [Nv Ev]]; [rewrite nth_error_seq by lia; auto|]. rewrite (nth_error_nth _ _ _ Nv). exact Ev. }
    destruct (shifts3_ok ti frames Hc Hsh Hpos) as [ss [Es [Ls Ha]]]. exists vs, ss. split; [|split; [lia|split; [|split; [|split; [auto|]]]]].
    - unfold drift_program. rewrite El. cbn [obind]. fold frames. fold ti. destruct frames as [|f0 fr] eqn:Ef; [cbn in Hpos; lia|]. rewrite <- Ef in *. rewrite E. cbn [omap]. f_equal. f_equal. rewrite Lines. unfold drift_title. cbn [txt list_ascii_of_string app]. do 8 f_equal.
      rewrite <- Lv. clear. rewrite flat_map_concat_map. f_equal. assert (G : forall (l : list pos3) k, map (fun tv => drift_line show (fst tv) (snd tv)) (combine (seq k (length l)) l) = map (fun t => drift_line show t (nth (t - k) l zero3)) (seq k (length l))).
      { induction l as [|v l IH]; intros k; auto. cbn [length seq combine map fst snd]. rewrite Nat.sub_diag. cbn [nth]. f_equal. rewrite IH. apply map_ext_in. intros t I. apply in_seq in I. replace (t - k) with (S (t - S k)) by lia. reflexivity. }
      etransitivity; [exact (G vs 0)|]. apply map_ext. intros t. rewrite Nat.sub_0_r. reflexivity.
    - intros t Ht. destruct (drift_at_ok ti frames t Hc Hsh) as [v [Ev Hv]]; [lia|]. rewrite V in Ev by auto. injection Ev as <-. exact Hv.
    - unfold remove_drift3. rewrite Es. reflexivity.
    - intros t Ht. destruct (drift_at_ok ti frames t Hc Hsh) as [v [Ev [l [So [Hl Hv]]]]]; [lia|]. rewrite V in Ev by auto. injection Ev as Ev. rewrite Ev. intros a Hax. destruct (Hv a Hax) as [H2 H1].
      destruct (C48_select_spanning ti t (t + 1) Hc) as [l0 [E0 [So0 Hl0]]]; [lia|]. assert (l0 = l) by (apply sorted_same; auto; intros x; rewrite Hl0; symmetry; apply Hl). subst l0.
      destruct (shifts_ok ti (axis a frames) (spanning_next ti) Hc) as [s [F1 [F2 [_ [_ H]]]]]; [unfold shape; rewrite axis_shape; auto|rewrite axis_len; auto|rewrite axis_len; apply spanning_ok; auto|].
      rewrite Ha in F1 by auto. injection F1 as <-. destruct (H t l) as [s0 [s1 [N0 [N1 [D D']]]]]; [rewrite axis_len; lia|exact E0|].
      rewrite <- !nth_axis by auto. rewrite (nth_error_nth _ _ _ N0), (nth_error_nth _ _ _ N1). destruct (Nat.le_gt_cases 2 (length l)) as [G|G].
      + destruct (D G) as [dd [Td Ed]]. assert (Ee := total_fun _ _ _ _ _ _ _ Td (H2 G)). rewrite Ee in Ed. assert (Z : (a v + s1 - s0 == 0)%Q); [|lra]. apply (nmult_zero (length l)); auto. set (n := inject_Z (Z.of_nat (length l))) in *.
        setoid_replace (n * (a v + s1 - s0))%Q with (a v * n + n * (s1 - s0))%Q by ring. exact Ed.
      + rewrite (H1 G), (D' G). ring.
  Qed.

  Variable dyn : Q -> list (list pos3) -> trajindex -> outcome (text * text * text).
  (** [d']: the disk [d] with the three texts in the files stem.msd, stem.isf and stem.ngp, and nothing else changed *)
  Definition three_files (d d' : disk) (stem msd isf ngp : text) : Prop :=
    d' (stem ++ txt ".msd") = Some msd /\ d' (stem ++ txt ".isf") = Some isf /\ d' (stem ++ txt ".ngp") = Some ngp /\
    forall n, n <> stem ++ txt ".msd" -> n <> stem ++ txt ".isf" -> n <> stem ++ txt ".ngp" -> d' n = d n.
  Lemma three_put d stem l : three_files d (put_three d stem l) stem (fst (fst l)) (snd (fst l)) (snd l).
  Proof.
    assert (A : forall a b : text, a <> b -> stem ++ a <> stem ++ b) by (intros a b H E; apply app_inv_head in E; auto). unfold put_three. repeat split.
    - rewrite put_other by (apply A; discriminate). rewrite put_other by (apply A; discriminate). apply put_same.
    - rewrite put_other by (apply A; discriminate). apply put_same.
    - apply put_same.
    - intros n H1 H2 H3. rewrite !put_other; auto.
  Qed.
  (** C132.  dynamics: what each mode writes. *)
  Theorem C132_modes filename d p A a0 b0 c0 a1 b1 c1 : load_dyn Q 0%Q parse d filename = Val p -> remove_drift3 (l_frames Q p) (l_index Q p) = Val A ->
    dyn (l_dt Q p) (l_frames Q p) (l_index Q p) = Val (a0, b0, c0) -> dyn (l_dt Q p) A (l_index Q p) = Val (a1, b1, c1) ->
    let stem := stem_of filename in
    exists d0 d1 d2, dynamics parse dyn filename 0 d = (d0, Val tt) /\ three_files d d0 (stem ++ txt "_drift") a0 b0 c0 /\
      dynamics parse dyn filename 1 d = (d1, Val tt) /\ three_files d d1 stem a1 b1 c1 /\
      dynamics parse dyn filename 2 d = (d2, Val tt) /\ three_files d0 d2 stem a1 b1 c1 /\ three_files d1 d2 (stem ++ txt "_drift") a0 b0 c0 /\
      (forall mode, 2 < mode -> dynamics parse dyn filename mode d = (d, Val tt)).
  Proof.
    intros E EA E0 E1. cbv zeta. set (stem := stem_of filename). exists (put_three d (stem ++ txt "_drift") (a0, b0, c0)), (put_three d stem (a1, b1, c1)), (put_three (put_three d (stem ++ txt "_drift") (a0, b0, c0)) stem (a1, b1, c1)).
    unfold dynamics, write_dynamics. rewrite E, EA. split; [cbn; rewrite E0; reflexivity|]. split; [exact (three_put _ _ (a0, b0, c0))|]. split; [cbn; rewrite E1; reflexivity|]. split; [exact (three_put _ _ (a1, b1, c1))|].
    split; [cbn; rewrite E0; cbn; rewrite E1; reflexivity|]. split; [exact (three_put _ _ (a1, b1, c1))|]. split.
    - destruct (three_put (put_three d (stem ++ txt "_drift") (a0, b0, c0)) stem (a1, b1, c1)) as [H1 [H2 [H3 H4]]]. destruct (three_put d (stem ++ txt "_drift") (a0, b0, c0)) as [G1 [G2 [G3 G4]]]. destruct (three_put d stem (a1, b1, c1)) as [F1 [F2 [F3 F4]]]. cbn [fst snd] in *.
      assert (D : forall a b, stem ++ txt "_drift" ++ a <> stem ++ txt "." ++ b) by (intros a b X; apply app_inv_head in X; discriminate).
      repeat split.
      + rewrite H4; auto; rewrite <- app_assoc; apply D.
      + rewrite H4; auto; rewrite <- app_assoc; apply D.
      + rewrite H4; auto; rewrite <- app_assoc; apply D.
      + intros n N1 N2 N3. destruct (list_eq_dec ascii_dec n (stem ++ txt ".msd")) as [->|M1]; [congruence|]. destruct (list_eq_dec ascii_dec n (stem ++ txt ".isf")) as [->|M2]; [congruence|]. destruct (list_eq_dec ascii_dec n (stem ++ txt ".ngp")) as [->|M3]; [congruence|].
        rewrite H4, G4, F4; auto.
    - intros [|[|[|m]]] H; try lia. reflexivity.
  Qed.
  (** A drift added to each frame does not change the files of mode 1, if those depend on the differences between positions only. *)
  Hypothesis Hdyn : forall dt ti A B k, Forall2 (Forall2 (moved_by k)) A B -> dyn dt A ti = dyn dt B ti.
  Theorem C132_same_dynamics filename d d' p p' us : load_dyn Q 0%Q parse d filename = Val p -> load_dyn Q 0%Q parse d' filename = Val p' ->
    l_dt Q p' = l_dt Q p -> l_index Q p' = l_index Q p -> l_frames Q p' = shift_movie us (l_frames Q p) -> length us = length (l_frames Q p) ->
    consistent (l_index Q p) -> map (@length pos3) (l_frames Q p) = map (@length nat) (inverse (l_index Q p)) -> 0 < length (l_frames Q p) -> two_follow (l_index Q p) (length (l_frames Q p)) ->
    exists A, remove_drift3 (l_frames Q p) (l_index Q p) = Val A /\ dynamics parse dyn filename 1 d = write_dynamics dyn (stem_of filename) (l_dt Q p) A (l_index Q p) d /\
      dynamics parse dyn filename 1 d' = write_dynamics dyn (stem_of filename) (l_dt Q p) A (l_index Q p) d'.
  Proof.
    intros E E' Ed Ei Ef Lu Hc Hsh Hpos H2. destruct (C132_cancels (l_index Q p) (l_frames Q p) us Hc Hsh Hpos Lu H2) as [A [B [k [EA [EB HAB]]]]]. exists A. split; auto.
    unfold dynamics. rewrite E, E'. cbn [Nat.eqb orb then_do snd fst]. rewrite Ed, Ei, Ef, EA, EB. split; auto. unfold write_dynamics. rewrite (Hdyn (l_dt Q p) (l_index Q p) A B k HAB). reflexivity.
  Qed.
End Programs.

(** The mean square displacement depends on differences only: it is the same for a movie whatever the drift added to it, once removed. *)
Section Msd.
  Variables (add : Q -> Q -> Q) (divn : Q -> nat -> Q).
  Lemma ofold_ext {A W} (f g : A -> W -> outcome W) : (forall a w, f a w = g a w) -> forall l w, ofold f l w = ofold g l w.
  Proof. intros H. induction l as [|a l IH]; intros w; auto. cbn [ofold]. rewrite H. destruct (g a w); cbn [obind]; auto. Qed.
  Lemma accumulate_ext {W} (f g : nat -> nat -> W -> outcome W) : (forall a b w, f a b w = g a b w) -> forall ps st, accumulate f ps st = accumulate g ps st.
  Proof. intros H. induction ps as [|[a b] ps IH]; intros st; auto. cbn [accumulate]. destruct (nth_error (fst st) (b - a)); auto. destruct (nth_error (snd st) (b - a)); auto. rewrite H. destruct (g a b w); cbn [obind]; auto. Qed.
  Lemma get_msd_ext frames frames' ti sel t0 t1 t3 : (forall tr a b, square_disp pos3 Q sqd3 frames ti tr a b = square_disp pos3 Q sqd3 frames' ti tr a b) ->
    get_msd pos3 Q 0%Q add divn sqd3 frames ti sel t0 t1 t3 = get_msd pos3 Q 0%Q add divn sqd3 frames' ti sel t0 t1 t3.
  Proof.
    intros H. assert (G : forall a b, get_sd pos3 Q 0%Q add sqd3 frames ti sel a b = get_sd pos3 Q 0%Q add sqd3 frames' ti sel a b) by (intros a b; unfold get_sd; apply ofold_ext; intros tr w; rewrite H; auto).
    unfold get_msd. destruct (t1 <? t0); auto. cbv zeta. destruct sel as [|s0 sel]; auto. destruct (t3 =? 0).
    - f_equal. apply accumulate_ext. intros a b w. rewrite G. auto.
    - f_equal. f_equal. apply map_ext. intros dt. f_equal. apply ofold_ext. intros a w. rewrite G. auto.
  Qed.
  Lemma sqd3_moved k p q p' q' : moved_by k p p' -> moved_by k q q' -> sqd3 p q = sqd3 p' q'.
  Proof.
    intros Hp Hq. unfold sqd3. apply Qred_complete. cbv zeta. rewrite (Hp x_of), (Hp y_of), (Hp z_of), (Hq x_of), (Hq y_of), (Hq z_of) by (cbn; auto). ring.
  Qed.
  Lemma position_moved k frames frames' T t : Forall2 (Forall2 (moved_by k)) frames frames' ->
    match position pos3 frames T t, position pos3 frames' T t with Val p, Val q => moved_by k p q | Throw, Throw => True | UB, UB => True | _, _ => False end.
  Proof.
    intros H. unfold position. destruct (nth_error frames t) as [f|] eqn:Ef.
    - destruct (F2_nth _ _ _ t f H Ef) as [f' [-> Hf]]. destruct (access T t) as [i| |]; auto. destruct (nth_error f i) as [x|] eqn:Ex; [destruct (F2_nth _ _ _ i x Hf Ex) as [y [-> Hy]]; exact Hy|].
      apply nth_error_None in Ex. rewrite (F2_len _ _ _ Hf) in Ex. apply nth_error_None in Ex. rewrite Ex. auto.
    - apply nth_error_None in Ef. rewrite (F2_len _ _ _ H) in Ef. apply nth_error_None in Ef. rewrite Ef. auto.
  Qed.
  Lemma msd_moved k A B ti sel t0 t1 t3 : Forall2 (Forall2 (moved_by k)) A B -> get_msd pos3 Q 0%Q add divn sqd3 A ti sel t0 t1 t3 = get_msd pos3 Q 0%Q add divn sqd3 B ti sel t0 t1 t3.
  Proof.
    intros H. apply get_msd_ext. intros tr a b. unfold square_disp, Corr_Model.place.
    destruct (nth_error (trajs ti) tr) as [T|]; auto. assert (Ha := position_moved k A B T a H). assert (Hb := position_moved k A B T b H).
    destruct (position pos3 A T b) as [y| |], (position pos3 B T b) as [y'| |]; try contradiction; auto. cbn [obind]. destruct (position pos3 A T a) as [x| |], (position pos3 B T a) as [x'| |]; try contradiction; auto.
    cbn [omap]. f_equal. eapply sqd3_moved; eauto.
  Qed.
  Theorem C132_msd ti frames us sel t0 t1 t3 : consistent ti -> map (@length pos3) frames = map (@length nat) (inverse ti) -> 0 < length frames -> length us = length frames -> two_follow ti (length frames) ->
    exists A B, remove_drift3 frames ti = Val A /\ remove_drift3 (shift_movie us frames) ti = Val B /\
      get_msd pos3 Q 0%Q add divn sqd3 A ti sel t0 t1 t3 = get_msd pos3 Q 0%Q add divn sqd3 B ti sel t0 t1 t3.
  Proof.
    intros Hc Hsh Hpos Lu H2. destruct (C132_cancels ti frames us Hc Hsh Hpos Lu H2) as [A [B [k [EA [EB H]]]]]. exists A, B. split; auto. split; auto. eapply msd_moved; eauto.
  Qed.
  (** So the hypothesis of C132_same_dynamics holds of files made from the mean square displacement. *)
  Lemma msd_files_moved (show : Q -> text) (dt : Q) ti A B k : Forall2 (Forall2 (moved_by k)) A B ->
    let dyn (dt : Q) (fr : list (list pos3)) (ti : trajindex) := omap (fun l => (flat_map show (dt :: l), @nil ascii, @nil ascii)) (get_msd pos3 Q 0%Q add divn sqd3 fr ti (seq 0 (length (trajs ti))) 0 (length fr - 1) 0) in
    dyn dt A ti = dyn dt B ti.
  Proof. intros H. cbv beta zeta. rewrite (F2_len _ _ _ H). rewrite (msd_moved k A B ti _ _ _ _ H). reflexivity. Qed.
End Msd.

(** A single trajectory keeps its drift: the movies of a particle at rest and of one that moves are both left as they are. *)
Definition at_x (x : Q) : pos3 := (x, 0%Q, 0%Q).
Theorem C132_single_refuted :
  let rest := [[at_x 1]; [at_x 1]] in let moving := shift_movie [zero3; at_x 4] rest in
  consistent one_ti /\ remove_drift3 rest one_ti = Val rest /\ (exists A, remove_drift3 moving one_ti = Val A /\ Forall2 (Forall2 (moved_by zero3)) moving A) /\
  drift_at moving one_ti 0 = Val zero3 /\ forall k, ~ Forall2 (Forall2 (moved_by k)) rest moving.
Proof.
  cbv zeta. split; [apply C51_single_trajectory_refuted|]. split; [vm_compute; reflexivity|]. split; [eexists; split; [vm_compute; reflexivity|]|split; [vm_compute; reflexivity|]].
  - repeat constructor; intros a Ha; apply axes_in in Ha as [->|[->| ->]]; vm_compute; reflexivity.
  - intros k H. inversion H as [|a b c e F1 F2 E1 E2]; subst. inversion F1 as [|a b c e G1 G2 E1 E2]; subst. inversion F2 as [|a b c e F3 F4 E1 E2]; subst. inversion F3 as [|a b c e G3 G4 E1 E2]; subst.
    assert (X := G1 x_of (or_introl eq_refl)). assert (Y := G3 x_of (or_introl eq_refl)). unfold x_of, zero3 in X, Y. cbn in X, Y. lra.
Qed.
(** The default mode of the message cannot be had: without mode nothing is done. *)
Theorem C132_default_refuted parse dyn atoi filename d : dynamics_main parse dyn atoi [filename] d = None.
Proof. reflexivity. Qed.
(** A movie without frame: drift reads outside of its vectors. *)
Definition empty_movie : text := txt "1" ++ tab :: txt "1" ++ newline :: txt "b_t0.dat" ++ newline :: txt "_t" ++ newline :: txt "0" ++ tab :: txt "0" ++ [newline].
Theorem C132_no_frame_refuted show :
  let d n := if list_eq_dec ascii_dec n (txt "a.traj") then Some empty_movie else None in
  (exists p, load_dyn Q 0%Q (fun _ => Some 1%Q) d (txt "a.traj") = Val p /\ l_frames Q p = []) /\ drift_program show (fun _ => Some 1%Q) (txt "a.traj") d = UB.
Proof. cbv zeta. split; [eexists; split; [vm_compute; reflexivity|reflexivity]|vm_compute; reflexivity]. Qed.

(** Two particles that swap their numbers, three frames. *)
Definition ex_two : trajindex := mkIndex [mkTraj 0 [0; 0; 1]; mkTraj 0 [1; 1; 0]] [[0; 1]; [0; 1]; [1; 0]].
Definition ex_movie : list (list pos3) := [[at_x 0; at_x 10]; [at_x 1; at_x 12]; [at_x 13; at_x 1]].
Definition ex_drifts : list pos3 := [at_x 5; zero3; ((-3)%Q, 2%Q, 1%Q)].
Example C132_case : consistent ex_two /\ two_follow ex_two 3 /\ map (@length pos3) ex_movie = map (@length nat) (inverse ex_two) /\
  (exists A B, remove_drift3 ex_movie ex_two = Val A /\ remove_drift3 (shift_movie ex_drifts ex_movie) ex_two = Val B /\
    map (map (fun p => Qred (x_of p))) A = [[2; 12]; [3 # 2; 25 # 2]; [13; 1]]%Q /\ map (map (fun p => Qred (x_of p))) B = [[5; 15]; [9 # 2; 31 # 2]; [16; 4]]%Q).
Proof.
  split; [split|split; [|split]].
  - intros t p tr. unfold invert, ex_two. cbn [inverse trajs]. split.
    + intros H. destruct t as [|[|[|t]]]; simpl in H; try (destruct t; discriminate); destruct p as [|[|p]]; simpl in H; try (destruct p; discriminate); injection H as <-; eexists; (split; [reflexivity|]); unfold at_time; cbn [start steps].
      all: first [exists 0; split; [lia|reflexivity] | exists 1; split; [lia|reflexivity] | exists 2; split; [lia|reflexivity]].
    + intros [T [HT [k [-> Hk]]]]. destruct tr as [|[|tr]]; simpl in HT; [| |destruct tr; discriminate]; injection HT as <-; cbn [start steps] in *; destruct k as [|[|[|k]]]; simpl in Hk; try (destruct k; discriminate); injection Hk as <-; reflexivity.
  - intros tr T HT. destruct tr as [|[|tr]]; simpl in HT; [| |destruct tr; discriminate]; injection HT as <-; cbn [start steps length]; (split; [discriminate|lia]).
  - intros t Ht. exists 0, 1, (mkTraj 0 [0; 0; 1]), (mkTraj 0 [1; 1; 0]). split; [lia|]. split; [reflexivity|]. split; [reflexivity|].
    split; intros u Hu; assert (u = 0 \/ u = 1 \/ u = 2) as [->|[->| ->]] by lia; eexists; unfold at_time; cbn [start steps]; first [exists 0; split; [lia|reflexivity] | exists 1; split; [lia|reflexivity] | exists 2; split; [lia|reflexivity]].
  - reflexivity.
  - do 2 eexists. split; [vm_compute; reflexivity|]. split; [vm_compute; reflexivity|]. split; vm_compute; reflexivity.
Qed.

(** The square used in it is that of the distance. *)
Theorem C132_square x y z x' y' z' : (sqd3 (x, y, z) (x', y', z') == (x' - x) ^ 2 + (y' - y) ^ 2 + (z' - z) ^ 2)%Q.
Proof. unfold sqd3. cbv zeta. rewrite Qred_correct. cbn [x_of y_of z_of fst snd]. ring. Qed.

Print Assumptions C132_cancels.
Print Assumptions C132_again.
Print Assumptions C132_drift_file.
Print Assumptions C132_modes.
Print Assumptions C132_same_dynamics.
Print Assumptions C132_msd.
Print Assumptions C132_single_refuted.
Print Assumptions C132_no_frame_refuted.
Print Assumptions C132_square.

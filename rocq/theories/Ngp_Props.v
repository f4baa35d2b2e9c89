(** Property C161: the non Gaussian parameter, in terms of displacements. *)
Require Import Reals List Arith ZArith Lia Lra Psatz.
Require Import Verif.Base Verif.ListX Verif.Traj_Model Verif.Traj_Spec Verif.Particles_Model Verif.Traj_Proofs Verif.Cluster_Spec Verif.Dyn_Model Verif.Dyn_Spec Verif.Corr_Model Verif.Corr_Spec Verif.Corr_Proofs Verif.Corr_Props.
Require Import Verif.Euler_Model Verif.Euler_Spec Verif.Angle_Spec Verif.Wave_Model Verif.Wave_Spec Verif.Wave_Proofs Verif.Wave_Props Verif.Ngp_Model Verif.Ngp_Spec.
Import ListNotations.
Local Open Scope R_scope.

(** * Sums *)
Definition S1 (ds : list vec) : R := total_of (map (fun d => dot d d) ds).
Definition S2 (ds : list vec) : R := total_of (map (fun d => (dot d d) ^ 2) ds).
Lemma S1_cons d ds : S1 (d :: ds) = dot d d + S1 ds. Proof. reflexivity. Qed.
Lemma S2_cons d ds : S2 (d :: ds) = (dot d d) ^ 2 + S2 ds. Proof. reflexivity. Qed.
Lemma S1_pos ds : 0 <= S1 ds.
Proof. induction ds as [|d ds IH]; [unfold S1; cbn; lra|rewrite S1_cons; assert (A := dot_pos d); lra]. Qed.
Lemma dot_null d : dot d d = 0 -> d = null_vec.
Proof. destruct d as [[x y] z]. unfold dot, null_vec. intros E. assert (x = 0) by nra. assert (y = 0) by nra. assert (z = 0) by nra. subst. reflexivity. Qed.
Lemma null_dot : dot null_vec null_vec = 0. Proof. unfold dot, null_vec. ring. Qed.
Lemma S1_null ds : S1 ds = 0 -> forall d, In d ds -> d = null_vec.
Proof.
  induction ds as [|e ds IH]; [intros _ d []|]. rewrite S1_cons. intros E. assert (A := dot_pos e). assert (B := S1_pos ds).
  intros d [<-|I]; [apply dot_null; lra|apply IH; auto; lra].
Qed.
Lemma S1_motion ds : some_motion ds -> 0 < S1 ds.
Proof. intros [d [I N]]. destruct (S1_pos ds) as [P|E]; auto. exfalso. apply N. apply (S1_null ds); auto. Qed.
Lemma nulls ds : (forall d, In d ds -> d = null_vec) -> S1 ds = 0 /\ S2 ds = 0.
Proof.
  induction ds as [|e ds IH]; intros H; [split; reflexivity|]. rewrite S1_cons, S2_cons, (H e) by (left; auto). rewrite null_dot. destruct IH as [-> ->]; [intros d I; apply H; right; auto|]. split; ring.
Qed.
(** Sum of squared deviations. *)
Lemma deviations ds c : total_of (map (fun d => (dot d d - c) ^ 2) ds) = S2 ds - 2 * c * S1 ds + INR (length ds) * c ^ 2.
Proof.
  induction ds as [|d ds IH]; [unfold S1, S2; cbn; ring|]. change (map ?f (d :: ds)) with (f d :: map f ds). unfold total_of in *. cbn [fold_right]. rewrite IH, S1_cons, S2_cons. cbn [length]. rewrite S_INR. ring.
Qed.
Lemma deviations_pos ds c : 0 <= total_of (map (fun d => (dot d d - c) ^ 2) ds).
Proof. induction ds as [|d ds IH]; unfold total_of in *; cbn [map fold_right]; [lra|]. assert (A := pow2_ge_0 (dot d d - c)). lra. Qed.
Lemma deviations_null ds c : total_of (map (fun d => (dot d d - c) ^ 2) ds) = 0 -> forall d, In d ds -> dot d d = c.
Proof.
  induction ds as [|e ds IH]; [intros _ d []|]. intros E. assert (A := pow2_ge_0 (dot e e - c)). assert (B := deviations_pos ds c). unfold total_of in *. cbn [map fold_right] in E.
  intros d [<-|I]; [|apply IH; auto; lra]. assert (Z0 : (dot e e - c) ^ 2 = 0) by lra. destruct (Req_dec (dot e e - c) 0) as [F|F]; [lra|]. exfalso. apply (pow_nonzero _ 2 F). auto.
Qed.
Lemma least ds : ds <> [] -> S1 ds ^ 2 <= INR (length ds) * S2 ds /\ (S1 ds ^ 2 = INR (length ds) * S2 ds <-> same_lengths ds).
Proof.
  intros N. assert (L : 0 < INR (length ds)) by (apply lt_0_INR; destruct ds; [congruence|cbn; lia]). set (k := INR (length ds)) in *.
  assert (D := deviations ds (S1 ds / k)). fold k in D.
  assert (D' : k * total_of (map (fun d => (dot d d - S1 ds / k) ^ 2) ds) = k * S2 ds - S1 ds ^ 2) by (rewrite D; field; lra). clear D.
  assert (Pd := deviations_pos ds (S1 ds / k)). split.
  - assert (A := Rmult_le_pos _ _ (Rlt_le _ _ L) Pd). lra.
  - split.
    + intros E. assert (Z0 : total_of (map (fun d => (dot d d - S1 ds / k) ^ 2) ds) = 0). { destruct (Rmult_integral k (total_of (map (fun d => (dot d d - S1 ds / k) ^ 2) ds))) as [F|F]; lra. }
      intros d e I J. rewrite (deviations_null _ _ Z0 d I), (deviations_null _ _ Z0 e J). auto.
    + intros H. destruct ds as [|d ds]; [congruence|]. set (c := dot d d).
      assert (A : S1 (d :: ds) = k * c). { unfold S1. rewrite (map_ext_in _ (fun _ => c)) by (intros e I; apply H; [auto|left; auto]). rewrite total_const. auto. }
      assert (B : S2 (d :: ds) = k * c ^ 2). { unfold S2. rewrite (map_ext_in _ (fun _ => c ^ 2)) by (intros e I; f_equal; apply H; [auto|left; auto]). rewrite total_const. auto. }
      rewrite A, B. ring.
Qed.
Lemma most ds : S2 ds <= S1 ds ^ 2.
Proof. induction ds as [|d ds IH]; [unfold S1, S2; cbn; lra|]. rewrite S1_cons, S2_cons. assert (A := dot_pos d). assert (B := S1_pos ds). assert (C := Rmult_le_pos _ _ A B). nra. Qed.
Lemma most_iff ds : some_motion ds -> (S2 ds = S1 ds ^ 2 <-> lone_motion ds).
Proof.
  intros M. split.
  - assert (G : S2 ds = S1 ds ^ 2 -> S1 ds <> 0 -> lone_motion ds).
    { clear M. induction ds as [|d ds IH]; [intros _ N; exfalso; apply N; reflexivity|]. rewrite S1_cons, S2_cons. intros E N. assert (A := dot_pos d). assert (B := S1_pos ds). assert (C := Rmult_le_pos _ _ A B). assert (D := most ds).
      assert (E1 : dot d d * S1 ds = 0) by nra. assert (E2 : S2 ds = S1 ds ^ 2) by nra. destruct (Req_dec (S1 ds) 0) as [F|F].
      - exists [], d, ds. split; [reflexivity|]. split; [intros ->; rewrite null_dot in N; lra|]. intros e I. apply (S1_null ds); auto.
      - destruct (IH E2 F) as [l [e [r [-> [Ne H]]]]]. exists (d :: l), e, r. split; [reflexivity|]. split; auto. intros x [<-|I]; [|apply H; auto]. apply dot_null. destruct (Rmult_integral _ _ E1); lra. }
    intros E. apply G; auto. assert (A := S1_motion ds M). lra.
  - intros [l [d [r [-> [_ H]]]]]. assert (X : forall l r, S1 (l ++ d :: r) = S1 (l ++ r) + dot d d /\ S2 (l ++ d :: r) = S2 (l ++ r) + (dot d d) ^ 2).
    { clear. induction l as [|e l IH]; intros r; cbn [app]; [rewrite S1_cons, S2_cons; split; ring|]. destruct (IH r) as [A B]. rewrite !S1_cons, !S2_cons, A, B. split; ring. }
    destruct (X l r) as [-> ->]. destruct (nulls (l ++ r) H) as [-> ->]. ring.
Qed.
Lemma terms_aux sds n s w : fold_left (fun w (_ : nat) => fold_left (fun w sd => (fst w + sd, snd w + quartic sd)) sds w) (seq s n) w = (fst w + INR n * total_of sds, snd w + INR n * total_of (map quartic sds)).
Proof.
  assert (P1 : forall w, fold_left (fun w sd => (fst w + sd, snd w + quartic sd)) sds w = (fst w + total_of sds, snd w + total_of (map quartic sds))).
  { induction sds as [|x sds IH]; intros w0; cbn [fold_left map]; [destruct w0; unfold total_of; cbn; f_equal; ring|]. rewrite IH. cbn [fst snd]. unfold total_of. cbn [fold_right]. f_equal; ring. }
  revert s w. induction n as [|n IH]; intros s w; cbn [seq fold_left]; [destruct w; cbn [fst snd INR]; f_equal; ring|]. rewrite P1, IH. cbn [fst snd]. rewrite S_INR. f_equal; ring.
Qed.
Lemma sds_S ps qs : map (fun pq => square_distance (fst pq) (snd pq)) (combine ps qs) = map (fun d => dot d d) (map (fun yx => minus (fst yx) (snd yx)) (combine qs ps)).
Proof. revert qs. induction ps as [|[[x y] z] ps IH]; intros [|[[x' y'] z'] qs]; cbn [combine map]; auto. rewrite <- IH. reflexivity. Qed.

Section C161.
  Variables (frames : list (list vec)) (ti : trajindex).
  Hypotheses (Hc : consistent ti) (Hsh : map (@length vec) frames = map (@length nat) (inverse ti)).

  Lemma moments sel t0 t1 t3 radius ds : (t0 <= t1)%nat -> displacements frames ti sel t0 t1 ds -> some_motion ds -> 0 < radius ->
    exists vs ms, non_gaussian frames ti sel t0 t1 t3 = Val vs /\ length vs = (t1 - t0 + 1)%nat /\ msd_ngp radius frames ti sel t0 t1 t3 = Val ms /\ length ms = (t1 - t0 + 1)%nat /\
      forall dt, (0 < dt <= t1 - t0)%nat -> let v := INR (length sel) * S2 ds / (3 * S1 ds ^ 2) in
        nth_error vs dt = Some v /\ nth_error ms dt = Some (S1 ds / INR (length sel) / (2 * radius) ^ 2 / (if (t3 =? 0)%nat then 1 else INR (length sel)), v).
  Proof.
    intros Ht Hd M Hr. assert (Ls := displacements_length _ _ _ _ _ _ Hd).
    assert (Hne : sel <> []) by (intros ->; destruct M as [d [I _]]; destruct ds; [destruct I|discriminate]).
    assert (Hp : forall t, t = t0 \/ t = t1 -> present ti sel t).
    { intros t Htt tr I. unfold displacements in Hd. clear - Hd I Htt. induction Hd as [|tr' d sel ds [T [x [y [ET [Hx [Hy _]]]]]] F IH]; [destruct I|]. destruct I as [<-|I]; [|auto].
      destruct Htt as [->| ->]; [destruct Hx as [p [f [Hat _]]]|destruct Hy as [p [f [Hat _]]]]; exists T, p; split; auto. }
    assert (K : 0 < INR (length sel)) by (apply lt_0_INR; destruct sel; [congruence|cbn; lia]). assert (PS := S1_motion ds M).
    destruct (C49_non_gaussian_refuted vec R 0 Rplus square_distance quartic ngp_ratio (per_diameter radius) frames ti sel t0 t1 t3 Hc Hsh Hne Ht (Hp t0 (or_introl eq_refl)) (Hp t1 (or_intror eq_refl)))
      as [ps [qs [vs [ms0 [Fp [Fq [Ev [Lv [_ [_ Hv]]]]]]]]]].
    destruct (C49_non_gaussian_refuted vec R 0 Rplus square_distance quartic ngp_scaled (per_diameter radius) frames ti sel t0 t1 t3 Hc Hsh Hne Ht (Hp t0 (or_introl eq_refl)) (Hp t1 (or_intror eq_refl)))
      as [ps' [qs' [vs0 [ms [Fp' [Fq' [_ [_ [Em [Lm Hm]]]]]]]]]].
    assert (ps' = ps) by (eapply placed_unique; eauto). assert (qs' = qs) by (eapply placed_unique; eauto). subst ps' qs'.
    exists vs, ms. split; [exact Ev|]. split; [exact Lv|]. split; [exact Em|]. split; [exact Lm|]. intros dt Hdt v.
    specialize (Hv dt Hdt). specialize (Hm dt Hdt). cbv zeta in Hv, Hm. destruct Hv as [Hv _]. destruct Hm as [_ Hm].
    assert (Eds : ds = map (fun yx => minus (fst yx) (snd yx)) (combine qs ps)) by (eapply displacements_unique; [exact Hd|apply displacements_of; auto]).
    rewrite sds_S, <- Eds in Hv, Hm. set (c := if (t3 =? 0)%nat then (t1 + 1 - t0 - dt)%nat else t3) in *.
    assert (Pc : 0 < INR c). { apply lt_0_INR. unfold c. destruct (Nat.eqb_spec t3 0); lia. }
    assert (Eq : map quartic (map (fun d => dot d d) ds) = map (fun d => (dot d d) ^ 2) ds) by (rewrite map_map; apply map_ext; intros d; unfold quartic; ring).
    assert (At : all_terms R 0 Rplus quartic (map (fun d => dot d d) ds) c = (INR c * S1 ds, INR c * S2 ds)).
    { unfold all_terms. rewrite terms_aux, Eq. cbn [fst snd]. f_equal; unfold S1, S2; ring. }
    rewrite At in Hv, Hm. cbn [fst snd] in Hv, Hm. rewrite Hv, Hm. split.
    - f_equal. unfold ngp_ratio, v. field. split; lra.
    - f_equal. f_equal.
      + unfold per_diameter. destruct (t3 =? 0)%nat; rewrite !mult_INR; field; repeat split; lra.
      + unfold ngp_scaled, v. field. split; lra.
  Qed.

  (** C161.  At every lag from 1 to t1-t0, and whatever the number of origins, both functions give the mean fourth power of the displacements from t0 to t1 over three times the
      square of their mean square; the MSD beside it is their mean square in diameters, divided once more by the number of trajectories when the number of origins is not 0. *)
  Theorem C161_value sel t0 t1 t3 radius ds : (t0 <= t1)%nat -> displacements frames ti sel t0 t1 ds -> some_motion ds -> 0 < radius ->
    exists vs ms, non_gaussian frames ti sel t0 t1 t3 = Val vs /\ length vs = (t1 - t0 + 1)%nat /\ msd_ngp radius frames ti sel t0 t1 t3 = Val ms /\ length ms = (t1 - t0 + 1)%nat /\
      forall dt, (0 < dt <= t1 - t0)%nat -> let v := fourth_moment ds / (3 * second_moment ds ^ 2) in
        nth_error vs dt = Some v /\ nth_error ms dt = Some (second_moment ds / (2 * radius) ^ 2 / (if (t3 =? 0)%nat then 1 else INR (length sel)), v).
  Proof.
    intros Ht Hd M Hr. destruct (moments sel t0 t1 t3 radius ds Ht Hd M Hr) as [vs [ms [E1 [L1 [E2 [L2 H]]]]]]. exists vs, ms. do 4 (split; [assumption|]). intros dt Hdt v. destruct (H dt Hdt) as [H1 H2].
    assert (PS := S1_motion ds M). assert (Ls := displacements_length _ _ _ _ _ _ Hd).
    assert (K : 0 < INR (length sel)). { apply lt_0_INR. rewrite <- Ls. destruct M as [d [I _]]. destruct ds; [destruct I|cbn; lia]. }
    assert (Ev : v = INR (length sel) * S2 ds / (3 * S1 ds ^ 2)). { unfold v, fourth_moment, second_moment, mean_of. rewrite !map_length, Ls. fold (S1 ds) (S2 ds). field. split; lra. }
    rewrite Ev. split; [exact H1|]. unfold second_moment, mean_of. rewrite map_length, Ls. fold (S1 ds). exact H2.
  Qed.
  (** It lies between 1/3, when all trajectories moved by the same length, and a third of their number, when only one moved. *)
  Theorem C161_bounds sel t0 t1 t3 ds vs dt v : (t0 <= t1)%nat -> displacements frames ti sel t0 t1 ds -> some_motion ds -> non_gaussian frames ti sel t0 t1 t3 = Val vs -> (0 < dt)%nat -> nth_error vs dt = Some v ->
    1 / 3 <= v <= INR (length sel) / 3 /\ (v = 1 / 3 <-> same_lengths ds) /\ (v = INR (length sel) / 3 <-> lone_motion ds).
  Proof.
    intros Ht Hd M E Hdt Hv. destruct (moments sel t0 t1 t3 1 ds Ht Hd M ltac:(lra)) as [vs' [ms [E1 [L1 [_ [_ H]]]]]]. rewrite E in E1. injection E1 as E1. subst vs'.
    assert (Hdt' : (0 < dt <= t1 - t0)%nat). { split; auto. assert (nth_error vs dt <> None) by congruence. apply nth_error_Some in H0. lia. }
    destruct (H dt Hdt') as [H1 _]. rewrite H1 in Hv. assert (Ev : v = INR (length sel) * S2 ds / (3 * S1 ds ^ 2)) by congruence. clear Hv H1.
    assert (PS := S1_motion ds M). assert (Ls := displacements_length _ _ _ _ _ _ Hd). assert (Nd : ds <> []) by (intros ->; destruct M as [d [I _]]; destruct I).
    assert (K : 0 < INR (length sel)). { apply lt_0_INR. rewrite <- Ls. destruct ds; [congruence|cbn; lia]. }
    destruct (least ds Nd) as [A1 A2]. rewrite Ls in A1, A2. assert (B1 := most ds). assert (B2 := most_iff ds M). assert (Q : 0 < 3 * S1 ds ^ 2) by (apply Rmult_lt_0_compat; [lra|apply pow_lt; auto]).
    assert (Em : v * (3 * S1 ds ^ 2) = INR (length sel) * S2 ds) by (rewrite Ev; field; lra).
    split; [split|split].
    - apply (Rmult_le_reg_r (3 * S1 ds ^ 2)); auto. rewrite Em. lra.
    - apply (Rmult_le_reg_r (3 * S1 ds ^ 2)); auto. rewrite Em. assert (X := Rmult_le_compat_l _ _ _ (Rlt_le _ _ K) B1). lra.
    - rewrite <- A2. split; intros X; [rewrite X in Em; lra|]. apply (Rmult_eq_reg_r (3 * S1 ds ^ 2)); [|lra]. rewrite Em. lra.
    - rewrite <- B2. split; intros X.
      + rewrite X in Em. apply (Rmult_eq_reg_l (INR (length sel))); [|lra]. lra.
      + apply (Rmult_eq_reg_r (3 * S1 ds ^ 2)); [|lra]. rewrite Em, X. field.
  Qed.
  (** Finding: nothing is subtracted.  The moments of a Gaussian in three dimensions (mean fourth power 5/3 of the squared mean square) give 5/9, not 0. *)
  Theorem C161_gaussian_refuted sel t0 t1 t3 ds vs dt v : (t0 <= t1)%nat -> displacements frames ti sel t0 t1 ds -> some_motion ds -> fourth_moment ds = 5 / 3 * second_moment ds ^ 2 ->
    non_gaussian frames ti sel t0 t1 t3 = Val vs -> (0 < dt)%nat -> nth_error vs dt = Some v -> v = 5 / 9.
  Proof.
    intros Ht Hd M G E Hdt Hv. destruct (C161_value sel t0 t1 t3 1 ds Ht Hd M ltac:(lra)) as [vs' [ms [E1 [L1 [_ [_ H]]]]]]. rewrite E in E1. injection E1 as E1. subst vs'.
    assert (Hdt' : (0 < dt <= t1 - t0)%nat). { split; auto. assert (nth_error vs dt <> None) by congruence. apply nth_error_Some in H0. lia. }
    destruct (H dt Hdt') as [H1 _]. rewrite H1 in Hv. assert (Ev : v = fourth_moment ds / (3 * second_moment ds ^ 2)) by congruence. rewrite Ev, G. field.
    unfold second_moment, mean_of. fold (S1 ds). rewrite map_length. assert (PS := S1_motion ds M). assert (K : 0 < INR (length ds)) by (apply lt_0_INR; destruct M as [d [I _]]; destruct ds; [destruct I|cbn; lia]).
    assert (X := Rdiv_lt_0_compat _ _ PS K). lra.
  Qed.
End C161.

(** * Moved samples *)
Lemma moved_value (f : vec -> vec) (frames : list (list vec)) T t x : value_at frames T t x -> value_at (map (map f) frames) T t (f x).
Proof. intros [p [fr [Hat [Hf Hx]]]]. exists p, (map f fr). split; auto. split; [rewrite nth_error_map, Hf; auto|rewrite nth_error_map, Hx; auto]. Qed.
Lemma norm_dot d : norm3 d * norm3 d = dot d d.
Proof. assert (A := dot_pos d). destruct d as [[x y] z]. unfold norm3, dot in *. apply sqrt_sqrt. exact A. Qed.
Lemma moved_displacements f frames ti sel t0 t1 ds : similarity f -> displacements frames ti sel t0 t1 ds ->
  exists k es, 0 < k /\ displacements (map (map f) frames) ti sel t0 t1 es /\ map (fun d => dot d d) es = map (fun d => k * dot d d) ds.
Proof.
  intros [k [Pk Hf]] Hd. exists (k * k). unfold displacements in *. induction Hd as [|tr d sel ds [T [x [y [ET [Hx [Hy ->]]]]]] F [es [_ [IH1 IH2]]]].
  - exists []. split; [nra|]. split; [constructor|reflexivity].
  - exists (minus (f y) (f x) :: es). split; [nra|]. split.
    + constructor; auto. exists T, (f x), (f y). split; auto. split; [apply moved_value; auto|]. split; [apply moved_value; auto|reflexivity].
    + cbn [map]. rewrite IH2. f_equal. rewrite <- !norm_dot, Hf. ring.
Qed.
Lemma S2_as ds : S2 ds = total_of (map (fun x => x ^ 2) (map (fun d => dot d d) ds)).
Proof. unfold S2. rewrite map_map. reflexivity. Qed.
(** Moving, turning, reflecting or magnifying the sample does not change it. *)
Theorem C161_moved frames ti f sel t0 t1 t3 ds : consistent ti -> map (@length vec) frames = map (@length nat) (inverse ti) -> similarity f -> (t0 <= t1)%nat -> displacements frames ti sel t0 t1 ds -> some_motion ds ->
  exists vs vs', non_gaussian frames ti sel t0 t1 t3 = Val vs /\ non_gaussian (map (map f) frames) ti sel t0 t1 t3 = Val vs' /\ length vs' = length vs /\ forall dt, (0 < dt)%nat -> nth_error vs' dt = nth_error vs dt.
Proof.
  intros Hc Hsh Sf Ht Hd M. destruct (moved_displacements f frames ti sel t0 t1 ds Sf Hd) as [k [es [Pk [He Ee]]]]. assert (PS := S1_motion ds M).
  assert (X1 : S1 es = k * S1 ds) by (unfold S1; rewrite Ee, total_map_scal; auto).
  assert (X2 : S2 es = k ^ 2 * S2 ds). { rewrite S2_as, Ee, map_map. unfold S2. rewrite <- total_map_scal. f_equal. apply map_ext. intros d. ring. }
  assert (Me : some_motion es).
  { assert (P : 0 < S1 es) by (rewrite X1; apply Rmult_lt_0_compat; auto). clear - P. induction es as [|e es IH]; [unfold S1 in P; cbn in P; lra|]. rewrite S1_cons in P. destruct (Req_dec (dot e e) 0) as [F|F].
    - destruct IH as [d [I N]]; [lra|]. exists d. split; [right; auto|auto].
    - exists e. split; [left; auto|]. intros ->. apply F. apply null_dot. }
  assert (Hsh' : map (@length vec) (map (map f) frames) = map (@length nat) (inverse ti)). { rewrite map_map, <- Hsh. apply map_ext. intros l. apply map_length. }
  destruct (moments frames ti Hc Hsh sel t0 t1 t3 1 ds Ht Hd M ltac:(lra)) as [vs [ms [E1 [L1 [_ [_ H]]]]]].
  destruct (moments (map (map f) frames) ti Hc Hsh' sel t0 t1 t3 1 es Ht He Me ltac:(lra)) as [vs' [ms' [E1' [L1' [_ [_ H']]]]]].
  exists vs, vs'. do 2 (split; [assumption|]). split; [congruence|]. intros dt Hdt. destruct (le_lt_dec dt (t1 - t0)) as [Hle|Hgt].
  - rewrite (proj1 (H dt (conj Hdt Hle))), (proj1 (H' dt (conj Hdt Hle))), X1, X2. f_equal. field. split; lra.
  - rewrite !(proj2 (nth_error_None _ _)); auto; lia.
Qed.

(** * Cases *)
(** Two trajectories over three times.  Only the first has moved at time 1, and both have moved by the same length at time 2: the value is 1/3 at both lags, although the displacements
    from each time to the next have ratios 2/3 (one moved) and 2/3. *)
Definition ngp_frames : list (list vec) := [[(0, 0, 0); (5, 0, 0)]; [(5, 0, 0); (1, 0, 0)]; [(1, 0, 0); (6, 0, 0)]].
Example C161_case : let ds := [(1, 0, 0); (1, 0, 0)] in
  consistent wave_ti /\ map (@length vec) ngp_frames = map (@length nat) (inverse wave_ti) /\ displacements ngp_frames wave_ti [0; 1]%nat 0 2 ds /\ some_motion ds /\ same_lengths ds /\
  (exists vs, non_gaussian ngp_frames wave_ti [0; 1]%nat 0 2 0 = Val vs /\ nth_error vs 1 = Some (1 / 3) /\ nth_error vs 2 = Some (1 / 3)) /\
  lone_motion [(1, 0, 0); (0, 0, 0)] /\ displacements ngp_frames wave_ti [0; 1]%nat 0 1 [(1, 0, 0); (0, 0, 0)] /\ displacements ngp_frames wave_ti [0; 1]%nat 1 2 [(0, 0, 0); (1, 0, 0)] /\
  (exists vs, non_gaussian ngp_frames wave_ti [0; 1]%nat 0 1 0 = Val vs /\ nth_error vs 1 = Some (2 / 3)).
Proof.
  assert (Hs : map (@length vec) ngp_frames = map (@length nat) (inverse wave_ti)) by reflexivity.
  assert (V : forall tr a b d x y T p q, nth_error (trajs wave_ti) tr = Some T -> nth_error (steps T) a = Some p -> nth_error (steps T) b = Some q -> start T = 0%nat ->
    nth_error (nth a ngp_frames []) p = Some x -> nth_error (nth b ngp_frames []) q = Some y -> (a < 3)%nat -> (b < 3)%nat -> d = minus y x ->
    exists T x y, nth_error (trajs wave_ti) tr = Some T /\ value_at ngp_frames T a x /\ value_at ngp_frames T b y /\ d = minus y x).
  { intros tr a b d x y T p q HT Hp Hq HS Hx Hy La Lb Ed. exists T, x, y. split; auto. split; [|split; auto].
    - exists p, (nth a ngp_frames []). split; [exists a; split; [lia|auto]|]. split; auto. apply nth_error_nth'. cbn. lia.
    - exists q, (nth b ngp_frames []). split; [exists b; split; [lia|auto]|]. split; auto. apply nth_error_nth'. cbn. lia. }
  assert (D2 : displacements ngp_frames wave_ti [0; 1]%nat 0 2 [(1, 0, 0); (1, 0, 0)]).
  { constructor; [|constructor; [|constructor]]; (eapply V; [reflexivity|reflexivity|reflexivity|reflexivity|reflexivity|reflexivity|lia|lia|]); unfold minus; f_equal; [f_equal| |f_equal|]; ring. }
  assert (D1 : displacements ngp_frames wave_ti [0; 1]%nat 0 1 [(1, 0, 0); (0, 0, 0)]).
  { constructor; [|constructor; [|constructor]]; (eapply V; [reflexivity|reflexivity|reflexivity|reflexivity|reflexivity|reflexivity|lia|lia|]); unfold minus; f_equal; [f_equal| |f_equal|]; ring. }
  assert (D12 : displacements ngp_frames wave_ti [0; 1]%nat 1 2 [(0, 0, 0); (1, 0, 0)]).
  { constructor; [|constructor; [|constructor]]; (eapply V; [reflexivity|reflexivity|reflexivity|reflexivity|reflexivity|reflexivity|lia|lia|]); unfold minus; f_equal; [f_equal| |f_equal|]; ring. }
  assert (N1 : (1, 0, 0) <> null_vec) by (unfold null_vec; intros E; apply (f_equal fst) in E; cbn [fst] in E; apply (f_equal fst) in E; cbn [fst] in E; lra).
  assert (M2 : some_motion [(1, 0, 0); (1, 0, 0)]) by (exists (1, 0, 0); split; [left; auto|auto]).
  assert (M1 : some_motion [(1, 0, 0); (0, 0, 0)]) by (exists (1, 0, 0); split; [left; auto|auto]).
  assert (L1 : lone_motion [(1, 0, 0); (0, 0, 0)]) by (exists [], (1, 0, 0), [(0, 0, 0)]; split; [reflexivity|]; split; [auto|]; intros e [<-|[]]; reflexivity).
  assert (E2 : same_lengths [(1, 0, 0); (1, 0, 0)]) by (intros d e [<-|[<-|[]]] [<-|[<-|[]]]; reflexivity).
  split; [apply wave_consistent|]. do 4 (split; [assumption|]). split; [|do 3 (split; [assumption|])].
  - destruct (C161_value ngp_frames wave_ti wave_consistent Hs [0; 1]%nat 0 2 0 1 _ ltac:(lia) D2 M2 ltac:(lra)) as [vs [ms [E [L [_ [_ H]]]]]]. exists vs. split; auto.
    destruct (H 1%nat ltac:(lia)) as [H1 _]. destruct (H 2%nat ltac:(lia)) as [H2 _].
    assert (B := C161_bounds ngp_frames wave_ti wave_consistent Hs [0; 1]%nat 0 2 0 _ vs 1 _ ltac:(lia) D2 M2 E ltac:(lia) H1). destruct B as [_ [[_ B] _]]. specialize (B E2). rewrite B in H1, H2. auto.
  - destruct (C161_value ngp_frames wave_ti wave_consistent Hs [0; 1]%nat 0 1 0 1 _ ltac:(lia) D1 M1 ltac:(lra)) as [vs [ms [E [L [_ [_ H]]]]]]. exists vs. split; auto.
    destruct (H 1%nat ltac:(lia)) as [H1 _].
    assert (B := C161_bounds ngp_frames wave_ti wave_consistent Hs [0; 1]%nat 0 1 0 _ vs 1 _ ltac:(lia) D1 M1 E ltac:(lia) H1). destruct B as [_ [_ [_ B]]]. specialize (B L1). rewrite B in H1. rewrite H1. cbn [length]. f_equal.
Qed.
(** Five displacements with the moments of a Gaussian: two null and three of length 1. *)
Example C161_gaussian_case : let ds := [(0, 0, 0); (0, 0, 0); (1, 0, 0); (0, 1, 0); (0, 0, 1)] in some_motion ds /\ fourth_moment ds = 5 / 3 * second_moment ds ^ 2.
Proof.
  split; [exists (0, 0, 1); split; [do 4 right; left; auto|]; unfold null_vec; intros E; apply (f_equal snd) in E; cbn [snd] in E; lra|].
  unfold fourth_moment, second_moment, mean_of, total_of, dot. cbn [map fold_right length INR]. field.
Qed.
Print Assumptions C161_value.
Print Assumptions C161_bounds.
Print Assumptions C161_gaussian_refuted.
Print Assumptions C161_moved.

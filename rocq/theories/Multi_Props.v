(** C99: centres of all octaves. *)
Require Import ZArith List Bool Arith QArith Qfield Qround Qpower Lqa Lia.
Require Import Verif.Base Verif.Traj_Model Verif.Particles_Model Verif.Corr_Model Verif.Boo_Model Verif.Corr_Proofs Verif.Dyn_Proofs.
Require Import Verif.Multi_Model Verif.Multi_Spec.
Import ListNotations.
Local Open Scope Q_scope.

Lemma nZ : forall n : positive, ~ inject_Z (Zpos n) == 0.
Proof. intros n. unfold Qeq, inject_Z. cbn. lia. Qed.

Lemma f2_len : forall (A B : Type) (P : A -> B -> Prop) l m, Forall2 P l m -> length l = length m.
Proof. intros A B P l m F. induction F; cbn; congruence. Qed.

Section Multi.
  Variables (R : Type) (times : R -> R -> R) (pow2 : Q -> R).
  Hypothesis times_assoc : forall a b c, times (times a b) c = times a (times b c).
  Hypothesis pow2_plus : forall a b, pow2 (a + b) = times (pow2 a) (pow2 b).
  Hypothesis pow2_eq : forall a b, a == b -> pow2 a = pow2 b.
  Variables (n : positive) (unit : R).
  Let rad := radius_of R times pow2 n unit.

  (** C99: the radii of successive octaves continue each other. *)
  Theorem C99_continuous : forall o s, rad (S o) s = rad o (s + inject_Z (Zpos n)).
  Proof.
    intros o s. unfold rad, radius_of. f_equal. apply pow2_eq.
    rewrite Nat2Z.inj_succ, <- Z.add_1_r, inject_Z_plus. pose proof (nZ n). field. assumption.
  Qed.

  Section Found.
    Variables (octaves : nat) (found : nat -> list (centre Q)) (scale_subpix : nat -> list Z -> outcome Q) (planar : bool).
    Let result := subpix R times pow2 n unit octaves found scale_subpix planar.

    (** the radius that must be reported for centre c of octave o: in 2D, if its layer is below 1 and there is a previous octave, that of the scale measured in the previous octave. *)
    Definition has_radius (o0 o : nat) (c : centre Q) (R1 : R) : Prop :=
      if planar && (o0 <? o)%nat && negb (Qle_bool 1 (r c))
      then exists s, scale_subpix (o - 1)%nat (previous_octave_coords n c) = Val s /\ R1 = rad (o - 1) s
      else R1 = rad o (r c).

    Lemma lengths_radius : forall o c, r (lengths R times pow2 n unit o c) = rad o (r c).
    Proof.
      intros o c. cbn. unfold scale, rad, radius_of. rewrite times_assoc, <- pow2_plus. f_equal. apply pow2_eq.
      unfold Zminus. rewrite inject_Z_plus. unfold Qminus. change (inject_Z (-(1))) with (- (1)). reflexivity.
    Qed.
    Lemma lengths_places : forall o c, Forall2 (fun x y => y == x * Qpower 2 (Z.of_nat o - 1)) (xs c) (xs (lengths R times pow2 n unit o c)).
    Proof. intros o c. cbn. induction (xs c) as [|x l IH]; constructor; [reflexivity|exact IH]. Qed.

    Lemma one_octave_ok : forall o0 o, (o0 <= o)%nat ->
      (forall o c, In c (found (S o)) -> exists s, scale_subpix o (previous_octave_coords n c) = Val s) ->
      exists l, one_octave R times pow2 n unit found scale_subpix planar o0 o = Val l /\
        Forall2 (fun c d => exists R1, reported o R1 c d /\ has_radius o0 o c R1) (found o) l.
    Proof.
      intros o0 o Ho H. unfold one_octave. destruct (Nat.ltb_spec o0 o) as [L|L].
      - destruct (osequence_map_ex (seam n scale_subpix planar (o - 1)) (found o)) as [v [Ev Fv]].
        { intros c Ic. unfold seam. destruct (planar && negb (Qle_bool 1 (r c))); [|eexists; reflexivity].
          destruct (H (o - 1)%nat c) as [s Es]; [now replace (S (o - 1)) with o by lia|]. rewrite Es. eexists; reflexivity. }
        rewrite Ev. eexists. split; [reflexivity|]. clear Ev. induction Fv as [|c w l m E F IH]; cbn [map]; constructor.
        + exists (r (lengths R times pow2 n unit o w)). unfold seam in E. unfold has_radius.
          replace (o0 <? o)%nat with true by (symmetry; apply Nat.ltb_lt; lia). rewrite andb_true_r.
          destruct (planar && negb (Qle_bool 1 (r c))) eqn:EB.
          * destruct (scale_subpix (o - 1) (previous_octave_coords n c)) as [s| |] eqn:Es; try discriminate. injection E as <-. split.
            { split; [exact (lengths_places o (Build_centre (xs c) (s - inject_Z (Zpos n)) (shine c)))|]. split; reflexivity. }
            exists s. split; [reflexivity|]. rewrite lengths_radius. cbn. destruct o as [|o']; [lia|]. rewrite C99_continuous.
            replace (S o' - 1)%nat with o' by lia. unfold rad, radius_of. f_equal. apply pow2_eq. pose proof (nZ n). field. assumption.
          * injection E as <-. split; [split; [apply lengths_places|split; reflexivity]|apply lengths_radius].
        + exact IH.
      - eexists. split; [reflexivity|]. induction (found o) as [|c l IH]; cbn; constructor; [|exact IH].
        exists (r (lengths R times pow2 n unit o c)). split; [split; [apply lengths_places|split; reflexivity]|].
        unfold has_radius. replace (o0 <? o)%nat with false by (symmetry; apply Nat.ltb_ge; lia). rewrite andb_false_r. cbn [andb]. apply lengths_radius.
    Qed.

    (** C99: whatever was in the container, the centres reported are those of each octave in use, octave after octave and in order, one for one;
        pixels of octave o are worth 2^(o-1) pixels of the input and the radius is that of the layer in its octave. *)
    Theorem C99_centres : forall (use0 : bool) old,
      (forall o c, In c (found (S o)) -> exists s, scale_subpix o (previous_octave_coords n c) = Val s) ->
      let o0 := if use0 then 0%nat else 1%nat in
      exists per_octave, result use0 old = Val (concat per_octave) /\
        Forall2 (fun o l => Forall2 (fun c d => exists R1, reported o R1 c d /\ has_radius o0 o c R1) (found o) l) (seq o0 (octaves - o0)) per_octave.
    Proof.
      intros use0 old H o0. unfold result, subpix. fold o0.
      destruct (osequence_map_ex (one_octave R times pow2 n unit found scale_subpix planar o0) (seq o0 (octaves - o0))) as [ls [E F]].
      { intros o Io. apply in_seq in Io. destruct (one_octave_ok o0 o ltac:(lia) H) as [l [E _]]. exists l. exact E. }
      rewrite E. exists ls. split; [reflexivity|].
      assert (G : forall o, In o (seq o0 (octaves - o0)) -> (o0 <= o)%nat) by (intros o Io; apply in_seq in Io; lia). clear E.
      induction F as [|o l os ls' E F IH]; constructor.
      - destruct (one_octave_ok o0 o (G o (or_introl eq_refl)) H) as [l' [E' F']]. rewrite E in E'. injection E' as ->. exact F'.
      - apply IH. intros; apply G; now right.
    Qed.
    (** C99: their number is the number of centres of the octaves in use. *)
    Theorem C99_number : forall (use0 : bool) old l, result use0 old = Val l ->
      let o0 := if use0 then 0%nat else 1%nat in length l = fold_right Nat.add 0%nat (map (fun o => length (found o)) (seq o0 (octaves - o0))).
    Proof.
      intros use0 old l H o0. unfold result, subpix in H. fold o0 in H.
      destruct (osequence (map (one_octave R times pow2 n unit found scale_subpix planar o0) (seq o0 (octaves - o0)))) as [ls| |] eqn:E; try discriminate.
      injection H as <-. revert ls E. generalize (seq o0 (octaves - o0)). intros os. induction os as [|o os IH]; intros ls E; cbn [map osequence] in E.
      - injection E as <-. reflexivity.
      - destruct (one_octave _ _ _ _ _ _ _ _ o0 o) as [l1| |] eqn:E1; try discriminate. cbn in E.
        destruct (osequence (map (one_octave R times pow2 n unit found scale_subpix planar o0) os)) as [ls'| |] eqn:E2; try discriminate. cbn in E. injection E as <-.
        cbn [concat map fold_right]. rewrite app_length, (IH ls' eq_refl). f_equal.
        unfold one_octave in E1. destruct (o0 <? o)%nat; [|injection E1 as <-; apply map_length].
        destruct (osequence (map (seam n scale_subpix planar (o - 1)) (found o))) as [v| |] eqn:Ev; try discriminate. injection E1 as <-. rewrite map_length.
        apply osequence_inv in Ev. apply f2_len in Ev. now rewrite map_length in Ev.
    Qed.
    (** C99: without the first octave, an image of less than 12 pixels (whose only octave is the first) has no centre. *)
    Theorem C99_none : forall old, (octaves <= 1)%nat -> result false old = Val [].
    Proof. intros old H. unfold result, subpix. replace (octaves - 1)%nat with 0%nat by lia. reflexivity. Qed.
  End Found.
End Multi.

Lemma trunc_floor : forall x, 0 <= x -> trunc x = Qfloor x.
Proof. intros [a b] H. unfold trunc, Qfloor. cbn. apply Z.quot_div_nonneg; unfold Qle in H; cbn in H; lia. Qed.
Lemma trunc_rounds : forall x, 0 <= x + (1 # 2) -> rounds_to x (trunc (x + (1 # 2))).
Proof.
  intros x H. rewrite trunc_floor by exact H. unfold rounds_to. pose proof (Qfloor_le (x + (1 # 2))) as A. pose proof (Qlt_floor (x + (1 # 2))) as B.
  rewrite inject_Z_plus in B. change (inject_Z 1) with 1 in B. lra.
Qed.
(** C99: the pixel of the previous octave looked at for a centre of layer below 1 is the nearest of the double of its coordinates, and the layer is n+1 (for layers from 1/2). *)
Theorem C99_seam_pixel : forall n c, (forall x, In x (xs c) -> - (1 # 4) <= x) -> (1 # 2) <= r c -> r c < 1 ->
  exists ps, previous_octave_coords n c = ps ++ [Z.pos n + 1]%Z /\ Forall2 (fun x p => rounds_to (2 * x) p) (xs c) ps.
Proof.
  intros n c Hx H1 H2. exists (map (fun x => trunc (x * 2 + (1 # 2))) (xs c)). split.
  - unfold previous_octave_coords. f_equal. f_equal.
    assert (P : 0 <= inject_Z (Zpos n)) by (change 0 with (inject_Z 0); rewrite <- Zle_Qle; lia).
    rewrite trunc_floor by lra. pose proof (Qfloor_le (r c + inject_Z (Zpos n) + (1 # 2))) as A. pose proof (Qlt_floor (r c + inject_Z (Zpos n) + (1 # 2))) as B.
    set (f := Qfloor _) in *. clearbody f.
    assert (U : inject_Z f < inject_Z (Zpos n + 2)) by (rewrite inject_Z_plus; change (inject_Z 2) with 2; lra).
    assert (V : inject_Z (Zpos n) < inject_Z f) by (rewrite inject_Z_plus in B; change (inject_Z 1) with 1 in B; lra).
    rewrite <- Zlt_Qlt in U, V. lia.
  - revert Hx. induction (xs c) as [|x l IH]; intros Hx; cbn; constructor.
    + pose proof (Hx x (or_introl eq_refl)). pose proof (trunc_rounds (x * 2) ltac:(lra)) as T. unfold rounds_to in *. lra.
    + apply IH. intros; apply Hx; now right.
Qed.
(** Finding: a centre with a negative coordinate (possible by C97_far_refuted) is looked for in the previous octave at a negative pixel, out of the image. *)
Theorem C99_seam_pixel_refuted : forall n (c : centre Q) x, In x (xs c) -> x <= - (3 # 4) -> exists p, In p (previous_octave_coords n c) /\ (p < 0)%Z.
Proof.
  intros n c x I H. exists (trunc (x * 2 + (1 # 2))). split.
  - unfold previous_octave_coords. apply in_or_app. left. apply (in_map (fun x => trunc (x * 2 + (1 # 2)))), I.
  - assert (E : x * 2 + (1 # 2) <= - (1)) by lra. generalize dependent (x * 2 + (1 # 2)). intros [a b] E. unfold Qle in E. cbn in E. unfold trunc. cbn.
    pose proof (Z.quot_opp_l a (Zpos b) ltac:(lia)) as Q1. rewrite Z.quot_div_nonneg in Q1 by lia.
    pose proof (Z.div_le_lower_bound (- a) (Zpos b) 1 ltac:(lia) ltac:(lia)). lia.
Qed.

(** A case with two octaves, in 2D: the centre of octave 1 of layer 3/4 gets the radius of layer 16/5 of octave 0. Radii are given by their logarithm. *)
Definition ex_found (o : nat) : list (centre Q) := match o with
  | 0%nat => [Build_centre [40 # 1; 21 # 2] (5 # 4) (-3)%Z] | 1%nat => [Build_centre [50 # 1; 23 # 4] (3 # 4) (-4)%Z; Build_centre [12 # 1; 13 # 1] (2 # 1) (-5)%Z] | _ => [] end.
Definition ex_scale (o : nat) (ci : list Z) : outcome Q := match o, ci with 0%nat, [100; 12; 4]%Z => Val (16 # 5) | _, _ => Val 0 end.
Example C99_case : exists l, subpix Q Qplus (fun q => q) 3 0 2 ex_found ex_scale true true [] = Val l /\ length l = 3%nat /\
  Forall2 (fun d x => Forall2 Qeq (xs d) (fst x) /\ r d == snd x) l
   [([20 # 1; 21 # 4], (9 # 4) / 3 - 1); ([50 # 1; 23 # 4], (21 # 5) / 3 - 1); ([12 # 1; 13 # 1], 1)].
Proof.
  eexists. split; [vm_compute; reflexivity|]. split; [reflexivity|].
  repeat constructor; cbn; try reflexivity.
Qed.

(** The hypotheses on radii hold for instance of radii given by their logarithm in base two. *)
Require Import Qcanon.
Example C99_laws : (forall a b c : Qc, Qcplus (Qcplus a b) c = Qcplus a (Qcplus b c)) /\ (forall a b : Q, Q2Qc (a + b) = Qcplus (Q2Qc a) (Q2Qc b)) /\ forall a b : Q, a == b -> Q2Qc a = Q2Qc b.
Proof.
  split; [intros; symmetry; apply Qcplus_assoc|]. split.
  - intros a b. apply Qc_is_canon. unfold Qcplus, Q2Qc. cbn [this]. rewrite !Qred_correct. reflexivity.
  - intros a b H. apply Qc_is_canon. unfold Q2Qc. cbn [this]. rewrite !Qred_correct. exact H.
Qed.

Print Assumptions C99_continuous.
Print Assumptions C99_centres.
Print Assumptions C99_number.
Print Assumptions C99_none.
Print Assumptions C99_seam_pixel.
Print Assumptions C99_seam_pixel_refuted.

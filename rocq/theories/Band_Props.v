(** C151: the sizes selected by the band-pass and low-pass filters. *)
Require Import Reals ZArith List Arith Bool Lia Lra Ring.
Require Import Verif.Traj_Model Verif.Particles_Model Verif.Tracker_Model Verif.Tracker_Spec Verif.Tracker_Props Verif.Fft_Model Verif.Fft_Spec Verif.Fft_Props Verif.Band_Model Verif.Band_Spec.
Import ListNotations.
Local Open Scope R_scope.

Lemma floor_lt (k : nat) x : 0 <= x -> (k < Z.to_nat (Int_part (1 + x)))%nat <-> INR k <= x.
Proof.
  intros Hx. destruct (base_Int_part (1 + x)) as [A B]. rewrite INR_IZR_INZ. set (p := Int_part (1 + x)) in *.
  assert (P : (0 <= p)%Z). { assert (-1 < p)%Z; [|lia]. apply lt_IZR. lra. }
  split; intros H.
  - assert (IZR (Z.of_nat k + 1) <= IZR p) by (apply IZR_le; lia). rewrite plus_IZR in H0. lra.
  - assert (Z.of_nat k < p)%Z; [|lia]. assert (Z.of_nat k - 1 < p - 1)%Z; [|lia]. apply lt_IZR. rewrite !minus_IZR. assert (IZR p > x) by lra. lra.
Qed.
Lemma to_size_ok x : 0 <= x -> 1 + x < IZR 18446744073709551616 -> to_size (1 + x) = Val (Z.to_nat (Int_part (1 + x))).
Proof. intros A B. unfold to_size. destruct (Rle_dec (1 + x) (-1)); [lra|]. destruct (Rle_dec _ (1 + x)); [lra|reflexivity]. Qed.
(** Inside of an ellipsoid *)
Definition within (f : radii) (i j k : nat) : Prop := (INR i / fst (fst f)) ^ 2 + (INR j / snd (fst f)) ^ 2 + (INR k / snd f) ^ 2 <= 1.
Lemma limit_ok f i j other : 0 < snd f -> 1 + snd f < IZR 18446744073709551616 -> exists b, limit f i j other = Val b /\
  ((1 < (INR i / fst (fst f)) ^ 2 + (INR j / snd (fst f)) ^ 2 /\ b = other) \/ ((INR i / fst (fst f)) ^ 2 + (INR j / snd (fst f)) ^ 2 <= 1 /\ forall k, (k < b)%nat <-> within f i j k)).
Proof.
  intros Hf Hs. unfold limit. set (a := (INR i / fst (fst f)) ^ 2). set (c := (INR j / snd (fst f)) ^ 2). cbv zeta.
  assert (A : 0 <= a) by (apply pow2_ge_0). assert (C : 0 <= c) by (apply pow2_ge_0).
  destruct (Rlt_dec 1 (a + c)) as [O|I]; [exists other; split; [reflexivity|left; split; [exact O|reflexivity]]|].
  assert (S0 : 0 <= sqrt (1 - a - c)) by apply sqrt_pos. assert (S1 : sqrt (1 - a - c) <= 1) by (rewrite <- sqrt_1 at 2; apply sqrt_le_1_alt; lra).
  assert (X0 : 0 <= snd f * sqrt (1 - a - c)) by (apply Rmult_le_pos; lra). assert (X1 : snd f * sqrt (1 - a - c) <= snd f * 1) by (apply Rmult_le_compat_l; lra).
  rewrite to_size_ok by lra. eexists. split; [reflexivity|]. right. split; [lra|]. intros k. rewrite floor_lt by exact X0. unfold within. fold a c.
  assert (K := pos_INR k). replace (INR k) with (snd f * (INR k / snd f)) at 1 by (field; lra). set (q := INR k / snd f). assert (Q : 0 <= q) by (unfold q; apply Rmult_le_pos; [lra|apply Rlt_le, Rinv_0_lt_compat; lra]).
  assert (E : sqrt (1 - a - c) * sqrt (1 - a - c) = 1 - a - c) by (apply sqrt_sqrt; lra).
  split; intros H.
  - apply Rmult_le_reg_l in H; [|exact Hf]. assert (q * q <= sqrt (1 - a - c) * sqrt (1 - a - c)) by (apply Rmult_le_compat; assumption). cbn [pow]. lra.
  - apply Rmult_le_compat_l; [lra|]. apply Rsqr_incr_0_var; [unfold Rsqr; cbn [pow] in H; lra|exact S0].
Qed.
Lemma within_outer (f g : radii) i j k : 0 < fst (fst f) <= fst (fst g) -> 0 < snd (fst f) <= snd (fst g) -> 0 < snd f <= snd g -> within f i j k -> within g i j k.
Proof.
  intros H0 H1 H2. unfold within.
  assert (Q : forall n a b, 0 < a <= b -> (INR n / b) ^ 2 <= (INR n / a) ^ 2).
  { intros n a b [A B]. apply pow_incr. assert (P := pos_INR n). unfold Rdiv. split; [apply Rmult_le_pos; [exact P|apply Rlt_le, Rinv_0_lt_compat; lra]|]. apply Rmult_le_compat_l; [exact P|]. apply Rinv_le_contravar; assumption. }
  assert (A := Q i _ _ H0). assert (B := Q j _ _ H1). assert (C := Q k _ _ H2). lra.
Qed.
Lemma within_0 f i j : within f i j 0 <-> (INR i / fst (fst f)) ^ 2 + (INR j / snd (fst f)) ^ 2 <= 1.
Proof. unfold within. replace (INR 0 / snd f) with 0 by (cbn [INR]; unfold Rdiv; ring). split; intros H; [|]; replace (0 ^ 2) with 0 in * by ring; lra. Qed.
Lemma within_less f i j k : within f i j k -> within f i j 0.
Proof. intros H. apply within_0. unfold within in H. assert (P := pow2_ge_0 (INR k / snd f)). lra. Qed.
(** A line whose limits are [l] and [r]: cells of [g] that are not of [f] *)
Lemma band_line_ok n2 f g i j : 0 < fst (fst f) <= fst (fst g) -> 0 < snd (fst f) <= snd (fst g) -> 0 < snd f <= snd g -> 1 + snd g < IZR 18446744073709551616 ->
  exists a b, band_line n2 f g i j = Val (a, b) /\ (a <= b)%nat /\ forall k, (a <= k < b)%nat <-> within g i j k /\ ~ within f i j k.
Proof.
  intros H0 H1 H2 Hs. destruct (limit_ok f i j 0) as [a [Ea A]]; [lra|lra|]. unfold band_line. rewrite Ea. cbn [obind].
  destruct (limit_ok g i j (Nat.min (n2 / 2 + 1) a)) as [b [Eb B]]; [lra|exact Hs|]. rewrite Eb. cbn [obind].
  assert (I : forall k, within f i j k -> within g i j k) by (intros k; apply within_outer; assumption).
  assert (HA : forall k, (k < a)%nat <-> within f i j k).
  { destruct A as [[A ->]|[_ A]]; [|exact A]. intros k. split; [lia|]. intros W. apply within_less, within_0 in W. lra. }
  assert (HB : forall k, (k < b)%nat <-> within g i j k).
  { destruct B as [[B ->]|[_ B]]; [|exact B]. intros k. destruct a as [|a']; [rewrite Nat.min_0_r; split; [lia|]; intros W; apply within_less, within_0 in W; lra|].
    assert (W : within g i j 0) by (apply I, HA; lia). apply within_0 in W. lra. }
  assert (L : (a <= b)%nat). { destruct (le_lt_dec a b) as [L|L]; [exact L|]. apply HA, I, HB in L. lia. }
  exists a, b. split; [|split; [exact L|]].
  - destruct (Nat.ltb_spec (Nat.min (n2 / 2 + 1) b) (Nat.min (n2 / 2 + 1) a)); [lia|reflexivity].
  - intros k. rewrite <- HA, <- HB. lia.
Qed.
Lemma low_line_ok g i j : 0 < snd g -> 1 + snd g < IZR 18446744073709551616 -> exists b, low_line g i j = Val (0%nat, b) /\ forall k, (k < b)%nat <-> within g i j k.
Proof.
  intros Hg Hs. unfold low_line. destruct (limit_ok g i j 0 Hg Hs) as [b [Eb B]]. rewrite Eb. exists b. split; [reflexivity|].
  destruct B as [[B ->]|[_ B]]; [|exact B]. intros k. split; [lia|]. intros W. apply within_less, within_0 in W. lra.
Qed.
Lemma draw_lines_ok n0 n1 n2 line m (P : nat -> nat -> nat -> Prop) : (n0 mod 2 = 0 \/ n0 = 1)%nat -> (n1 mod 2 = 0 \/ n1 = 1)%nat ->
  (forall i j, exists a b, line i j = Val (a, b) /\ (a <= b)%nat /\ forall k, (a <= k < b)%nat <-> P i j k) ->
  exists kmin kmax, draw_lines n0 n1 n2 line m = Val (make_band_pass n0 n1 (n2 / 2 + 1) kmin kmax m) /\ (forall i j, kmin i j <= kmax i j)%nat /\ (forall i j k, (kmin i j <= k < kmax i j)%nat <-> P i j k) /\
    forall i j k, (i < n0)%nat -> (j < n1)%nat -> (k <= n2 / 2)%nat -> make_band_pass n0 n1 (n2 / 2 + 1) kmin kmax m i j k = true <-> P (freq n0 i) (freq n1 j) k.
Proof.
  intros H0 H1 H. unfold draw_lines. set (get := fun i j => match line i j with Val ab => ab | _ => (0%nat, 0%nat) end).
  assert (G : forall i j, (fst (get i j) <= snd (get i j))%nat /\ forall k, (fst (get i j) <= k < snd (get i j))%nat <-> P i j k).
  { intros i j. unfold get. destruct (H i j) as [a [b [-> [L K]]]]. split; assumption. }
  replace (forallb _ _) with true.
  2:{ symmetry. apply forallb_forall. intros [i j] _. cbn [fst snd]. destruct (H i j) as [a [b [-> _]]]. reflexivity. }
  exists (fun i j => fst (get i j)), (fun i j => snd (get i j)). split; [reflexivity|]. split; [intros i j; exact (proj1 (G i j))|]. split; [intros i j; exact (proj2 (G i j))|].
  intros i j k Hi Hj Hk. rewrite C68_band_pass; [exact (proj2 (G _ _) k)|assumption|assumption|intros x y _ _; exact (proj1 (G x y))|assumption|assumption|lia].
Qed.
Lemma freq_low2 n k : (k <= n / 2)%nat -> freq n k = k.
Proof. intros H. unfold freq. assert (D := Nat.div_mod n 2 ltac:(lia)). assert (M := Nat.mod_upper_bound n 2 ltac:(lia)). lia. Qed.
Section Masks.
  Variables (n0 n1 n2 : nat).
  Hypotheses (P0 : (0 < n0)%nat) (P1 : (0 < n1)%nat) (P2 : (0 < n2)%nat) (E0 : (n0 mod 2 = 0 \/ n0 = 1)%nat) (E1 : (n1 mod 2 = 0 \/ n1 = 1)%nat).
  (** Radii [z] across slices and [r] in slices, as half a period of [r] for slices that are r/z apart *)
  Lemma within_period (z r : R) i j k : 0 < z -> 0 < r -> (k <= n2 / 2)%nat -> within (freqs n0 n1 n2 (z, r, r)) (freq n0 i) (freq n1 j) k <-> half_period_at_least 1 (wavenumber2 n0 n1 n2 (1 / z) (1 / r) (i, j, k)).
  Proof.
    intros Hz Hr Hk. unfold within, freqs, half_period_at_least, wavenumber2. cbn [fst snd]. rewrite (freq_low2 n2 k Hk). apply lt_INR in P0, P1, P2. cbn [INR] in P0, P1, P2.
    match goal with |- ?a <= 1 <-> ?b <= 1 => replace b with a; [reflexivity|] end. field. lra.
  Qed.
  Lemma freqs_order (r s : radii) : 0 < fst (fst r) < fst (fst s) -> 0 < snd (fst r) < snd (fst s) -> 0 < snd r < snd s ->
    0 < fst (fst (freqs n0 n1 n2 s)) <= fst (fst (freqs n0 n1 n2 r)) /\ 0 < snd (fst (freqs n0 n1 n2 s)) <= snd (fst (freqs n0 n1 n2 r)) /\ 0 < snd (freqs n0 n1 n2 s) <= snd (freqs n0 n1 n2 r).
  Proof.
    apply lt_INR in P0, P1, P2. cbn [INR] in P0, P1, P2. intros A B C. unfold freqs. cbn [fst snd].
    assert (Q : forall n a b, 0 < n -> 0 < a < b -> 0 < n / b / 2 <= n / a / 2).
    { intros n a b Hn [Ha Hb]. assert (/ b <= / a) by (apply Rinv_le_contravar; lra). assert (0 < / b) by (apply Rinv_0_lt_compat; lra). assert (0 < n * / b) by (apply Rmult_lt_0_compat; assumption). assert (n * / b <= n * / a) by (apply Rmult_le_compat_l; lra). unfold Rdiv. lra. }
    split; [apply Q; assumption|]. split; apply Q; assumption.
  Qed.
  Lemma aniso_lines zmin zmax rmin rmax m : 0 < zmin < zmax -> 0 < rmin < rmax -> 1 + INR n2 / (2 * rmin) < 2 ^ 64 ->
    exists kmin kmax, anisotropic_band_pass n0 n1 n2 rmin rmax zmin zmax m = Val (make_band_pass n0 n1 (n2 / 2 + 1) kmin kmax m) /\ (forall i j, kmin i j <= kmax i j)%nat /\
      forall i j k, (i < n0)%nat -> (j < n1)%nat -> (k <= n2 / 2)%nat -> make_band_pass n0 n1 (n2 / 2 + 1) kmin kmax m i j k = true <->
        half_period_at_least 1 (wavenumber2 n0 n1 n2 (1 / zmin) (1 / rmin) (i, j, k)) /\ half_period_less 1 (wavenumber2 n0 n1 n2 (1 / zmax) (1 / rmax) (i, j, k)).
  Proof.
    intros Hz Hr Hs. unfold anisotropic_band_pass, make_band. cbn [fst snd]. destruct (Rlt_dec zmin zmax); [|lra]. destruct (Rlt_dec rmin rmax); [|lra]. destruct (Req_EM_T rmin 0); [lra|]. destruct (Req_EM_T rmax 0); [lra|].
    destruct (freqs_order (zmin, rmin, rmin) (zmax, rmax, rmax) Hz Hr Hr) as [F0 [F1 F2]].
    destruct (draw_lines_ok n0 n1 n2 (band_line n2 (freqs n0 n1 n2 (zmax, rmax, rmax)) (freqs n0 n1 n2 (zmin, rmin, rmin))) m
      (fun i j k => within (freqs n0 n1 n2 (zmin, rmin, rmin)) i j k /\ ~ within (freqs n0 n1 n2 (zmax, rmax, rmax)) i j k) E0 E1) as [kmin [kmax [E [L [_ K]]]]].
    { intros i j. apply band_line_ok; try assumption. unfold freqs. cbn [fst snd]. replace (INR n2 / rmin / 2) with (INR n2 / (2 * rmin)) by (field; lra). eapply Rlt_le_trans; [exact Hs|]. right. ring. }
    exists kmin, kmax. split; [exact E|]. split; [exact L|]. intros i j k Hi Hj Hk. rewrite K by assumption. rewrite !within_period by (assumption || lra). unfold half_period_at_least, half_period_less. split; intros [A B]; split; lra.
  Qed.
  (** * Custom band-pass *)
  Theorem C151_anisotropic zmin zmax rmin rmax m : 0 < zmin < zmax -> 0 < rmin < rmax -> 1 + INR n2 / (2 * rmin) < 2 ^ 64 ->
    exists m', anisotropic_band_pass n0 n1 n2 rmin rmax zmin zmax m = Val m' /\ symmetric n0 n1 (n2 / 2 + 1) m' /\ forall i j k, (i < n0)%nat -> (j < n1)%nat -> (k <= n2 / 2)%nat ->
      m' i j k = true <-> half_period_at_least 1 (wavenumber2 n0 n1 n2 (1 / zmin) (1 / rmin) (i, j, k)) /\ half_period_less 1 (wavenumber2 n0 n1 n2 (1 / zmax) (1 / rmax) (i, j, k)).
  Proof.
    intros Hz Hr Hs. destruct (aniso_lines zmin zmax rmin rmax m Hz Hr Hs) as [kmin [kmax [E [_ K]]]]. eexists. split; [exact E|]. split; [|exact K]. unfold make_band_pass. apply C68_symmetric; assumption.
  Qed.
  (** * The same sizes in all directions *)
  Lemma period_scale (ratio r : R) f : 0 < ratio -> 0 < r -> wavenumber2 n0 n1 n2 (1 / (r / ratio)) (1 / r) f * (2 * 1) ^ 2 = wavenumber2 n0 n1 n2 ratio 1 f * (2 * r) ^ 2.
  Proof. intros H Hr. unfold wavenumber2. apply lt_INR in P0, P1, P2. cbn [INR] in P0, P1, P2. field. lra. Qed.
  Lemma iso_aniso ratio rmin rmax m : isotropic_band_pass n0 n1 n2 ratio rmin rmax m = anisotropic_band_pass n0 n1 n2 rmin rmax (rmin / ratio) (rmax / ratio) m.
  Proof. reflexivity. Qed.
  Lemma div_order ratio a b : 0 < ratio -> 0 < a < b -> 0 < a / ratio < b / ratio.
  Proof. intros H [A B]. assert (I : 0 < / ratio) by (apply Rinv_0_lt_compat; exact H). unfold Rdiv. split; [apply Rmult_lt_0_compat; assumption|apply Rmult_lt_compat_r; assumption]. Qed.
  Theorem C151_isotropic ratio rmin rmax m : 0 < ratio -> 0 < rmin < rmax -> 1 + INR n2 / (2 * rmin) < 2 ^ 64 ->
    exists m', isotropic_band_pass n0 n1 n2 ratio rmin rmax m = Val m' /\ symmetric n0 n1 (n2 / 2 + 1) m' /\ forall i j k, (i < n0)%nat -> (j < n1)%nat -> (k <= n2 / 2)%nat ->
      m' i j k = true <-> let q := wavenumber2 n0 n1 n2 ratio 1 (i, j, k) in half_period_at_least rmin q /\ half_period_less rmax q.
  Proof.
    intros Hq Hr Hs. rewrite iso_aniso. destruct (C151_anisotropic (rmin / ratio) (rmax / ratio) rmin rmax m) as [m' [E [S' K]]]; [apply div_order; assumption|exact Hr|exact Hs|].
    exists m'. split; [exact E|]. split; [exact S'|]. intros i j k Hi Hj Hk. rewrite (K i j k Hi Hj Hk). cbv zeta. unfold half_period_at_least, half_period_less. rewrite !period_scale by lra. reflexivity.
  Qed.
  Theorem C151_low ratio rmin m : 0 < ratio -> 0 < rmin -> 1 + INR n2 / (2 * rmin) < 2 ^ 64 ->
    exists m', isotropic_low_pass n0 n1 n2 ratio rmin m = Val m' /\ symmetric n0 n1 (n2 / 2 + 1) m' /\ forall i j k, (i < n0)%nat -> (j < n1)%nat -> (k <= n2 / 2)%nat ->
      m' i j k = true <-> half_period_at_least rmin (wavenumber2 n0 n1 n2 ratio 1 (i, j, k)).
  Proof.
    intros Hq Hr Hs. unfold isotropic_low_pass, make_low. cbn [snd]. destruct (Req_EM_T rmin 0); [lra|]. assert (Z0 : 0 < rmin / ratio) by (apply (div_order ratio rmin (rmin + 1)); lra).
    assert (G : 0 < snd (freqs n0 n1 n2 (rmin / ratio, rmin, rmin))) by (unfold freqs; cbn [snd]; assert (N := lt_INR _ _ P2); cbn [INR] in N; assert (0 < / rmin) by (apply Rinv_0_lt_compat; lra); assert (0 < INR n2 * / rmin) by (apply Rmult_lt_0_compat; lra); unfold Rdiv; lra).
    assert (H' : 1 + snd (freqs n0 n1 n2 (rmin / ratio, rmin, rmin)) < IZR 18446744073709551616).
    { unfold freqs. cbn [fst snd]. replace (INR n2 / rmin / 2) with (INR n2 / (2 * rmin)) by (field; lra). eapply Rlt_le_trans; [exact Hs|]. right. ring. }
    destruct (draw_lines_ok n0 n1 n2 (low_line (freqs n0 n1 n2 (rmin / ratio, rmin, rmin))) m (within (freqs n0 n1 n2 (rmin / ratio, rmin, rmin))) E0 E1) as [kmin [kmax [E [_ [_ K]]]]].
    { intros i j. destruct (low_line_ok _ i j G H') as [b [Eb B]]. exists 0%nat, b. split; [exact Eb|]. split; [lia|]. intros k. rewrite <- B. lia. }
    eexists. split; [exact E|]. split; [unfold make_band_pass; apply C68_symmetric; assumption|]. intros i j k Hi Hj Hk. rewrite K by assumption. rewrite within_period by assumption. unfold half_period_at_least. rewrite period_scale by assumption. reflexivity.
  Qed.
End Masks.
(** Radii that are not in order are refused, whatever the dimensions. *)
Theorem C151_refused n0 n1 n2 rmin rmax zmin zmax m : anisotropic_band_pass n0 n1 n2 rmin rmax zmin zmax m = Throw <-> ~ (rmin < rmax /\ zmin < zmax).
Proof.
  unfold anisotropic_band_pass, make_band. cbn [fst snd]. destruct (Rlt_dec zmin zmax); [|split; [intros _ [_ H]; contradiction|reflexivity]]. destruct (Rlt_dec rmin rmax); [|split; [intros _ [H _]; contradiction|reflexivity]].
  split; [|intros H; exfalso; apply H; split; assumption]. destruct (Req_EM_T rmin 0); [discriminate|]. destruct (Req_EM_T rmax 0); [discriminate|]. unfold draw_lines. destruct (forallb _ _); discriminate.
Qed.
(** With slices [ratio] apart, so is it for the same sizes in all directions; a negative distance is always refused. *)
Theorem C151_refused_isotropic n0 n1 n2 ratio rmin rmax m : ratio <> 0 -> isotropic_band_pass n0 n1 n2 ratio rmin rmax m = Throw <-> ~ (rmin < rmax /\ 0 < ratio).
Proof.
  intros Hq. rewrite iso_aniso, C151_refused. destruct (Rtotal_order ratio 0) as [N|[Z|P]]; [|contradiction|].
  - split; [intros _ [_ H]; lra|]. intros _ [A B]. assert (/ ratio < 0) by (apply Rinv_lt_0_compat; exact N). unfold Rdiv in B. assert (rmax * / ratio < rmin * / ratio); [|lra]. apply Ropp_lt_cancel. rewrite !Ropp_mult_distr_r. apply Rmult_lt_compat_r; lra.
  - assert (I : 0 < / ratio) by (apply Rinv_0_lt_compat; lra). split; intros H [A B]; apply H; (split; [exact A|]); [unfold Rdiv; apply Rmult_lt_compat_r; assumption|lra].
Qed.
(** Refuted: that radii accepted by the test are safe.  A negative or null smallest radius passes it, and a negative or null radius of the low-pass is not tested; a negative or infinite number is then converted to size_t. *)
Lemma draw_lines_ub n0 n1 n2 line m : line 0%nat 0%nat = UB -> draw_lines n0 n1 n2 line m = UB.
Proof. intros H. unfold draw_lines. replace (forallb _ _) with false; [reflexivity|]. rewrite !Nat.add_1_r. cbn [seq list_prod map app forallb fst snd]. rewrite H. reflexivity. Qed.
Lemma limit_negative f other : snd f <= -2 -> limit f 0 0 other = UB.
Proof.
  intros H. unfold limit. cbn [INR]. unfold Rdiv. rewrite !Rmult_0_l. replace (0 ^ 2) with 0 by ring. destruct (Rlt_dec 1 (0 + 0)); [lra|]. replace (1 - 0 - 0) with 1 by ring. rewrite sqrt_1. unfold to_size. destruct (Rle_dec _ _); [reflexivity|lra].
Qed.
Theorem C151_negative_refuted n0 n1 n2 ratio rmin rmax m : 0 < ratio -> rmin <= 0 -> 0 < rmax -> - INR n2 <= 4 * rmin ->
  isotropic_band_pass n0 n1 n2 ratio rmin rmax m = UB /\ isotropic_low_pass n0 n1 n2 ratio rmin m = UB.
Proof.
  intros Hq Hm HM Hn. destruct (Req_EM_T rmin 0) as [Z|N0].
  - unfold isotropic_band_pass, isotropic_low_pass, make_band, make_low. cbn [fst snd]. subst rmin. assert (0 / ratio < rmax / ratio) by (unfold Rdiv; apply Rmult_lt_compat_r; [apply Rinv_0_lt_compat; exact Hq|exact HM]). destruct (Rlt_dec (0 / ratio) (rmax / ratio)); [|contradiction]. destruct (Rlt_dec 0 rmax); [|contradiction]. destruct (Req_EM_T 0 0); [split; reflexivity|contradiction].
  - assert (F : INR n2 / rmin / 2 <= -2).
    { assert (0 < / - rmin) by (apply Rinv_0_lt_compat; lra). assert (INR n2 * / - rmin >= 4 * - rmin * / - rmin) by (apply Rle_ge, Rmult_le_compat_r; lra). rewrite Rmult_assoc, Rinv_r in H0 by lra. replace (INR n2 / rmin / 2) with (- (INR n2 * / - rmin) / 2) by (field; lra). lra. }
    split.
    + unfold isotropic_band_pass, make_band. cbn [fst snd]. assert (rmin / ratio < rmax / ratio) by (unfold Rdiv; apply Rmult_lt_compat_r; [apply Rinv_0_lt_compat; exact Hq|lra]). destruct (Rlt_dec (rmin / ratio) (rmax / ratio)); [|contradiction]. destruct (Rlt_dec rmin rmax); [|lra]. destruct (Req_EM_T rmin 0); [contradiction|]. destruct (Req_EM_T rmax 0); [lra|].
      apply draw_lines_ub. unfold band_line. destruct (limit _ 0 0 0) as [a| |] eqn:Ea.
      * cbn [obind]. rewrite limit_negative by (unfold freqs; cbn [snd]; exact F). reflexivity.
      * exfalso. unfold limit in Ea. destruct (Rlt_dec _ _) in Ea; [discriminate|]. unfold to_size in Ea. destruct (Rle_dec _ _) in Ea; [discriminate|]. destruct (Rle_dec _ _) in Ea; discriminate.
      * reflexivity.
    + unfold isotropic_low_pass, make_low. cbn [snd]. destruct (Req_EM_T rmin 0); [contradiction|]. apply draw_lines_ub. unfold low_line. rewrite limit_negative by (unfold freqs; cbn [snd]; exact F). reflexivity.
Qed.

(** * Complex numbers: the filter of C150 with exp(2 i pi / n) *)
Lemma ring_R : ring_theory 0 1 Rplus Rmult (fun a b => a + - b) Ropp eq.
Proof. constructor; intros; ring. Qed.
Notation cmulR := (Fft_Spec.cmul R Rplus Rmult Ropp).
Notation cpowR := (Fft_Spec.cpow R 0 1 Rplus Rmult Ropp).
Notation csumR := (Fft_Spec.csum R 0 Rplus).
Lemma moivre t k : cpowR (cos t, sin t) k = (cos (INR k * t), sin (INR k * t)).
Proof.
  induction k as [|k IH]; [cbn [Fft_Spec.cpow INR]; unfold c1; rewrite Rmult_0_l, cos_0, sin_0; reflexivity|]. cbn [Fft_Spec.cpow]. rewrite IH. unfold Fft_Spec.cmul. cbn [fst snd]. rewrite S_INR.
  replace ((INR k + 1) * t) with (t + INR k * t) by ring. rewrite cos_plus, sin_plus. f_equal; ring.
Qed.
Lemma geometric t n : let s := csumR (seq 0 n) (fun a => (cos (INR a * t), sin (INR a * t))) in
  (cos t - 1) * fst s - sin t * snd s = cos (INR n * t) - 1 /\ (cos t - 1) * snd s + sin t * fst s = sin (INR n * t).
Proof.
  assert (G : forall n b, let s := csumR (seq b n) (fun a => (cos (INR a * t), sin (INR a * t))) in
    (cos t - 1) * fst s - sin t * snd s = cos (INR (b + n) * t) - cos (INR b * t) /\ (cos t - 1) * snd s + sin t * fst s = sin (INR (b + n) * t) - sin (INR b * t)).
  { clear n. induction n as [|n IH]; intros b; cbn [seq]; [unfold Fft_Spec.csum; cbn [fold_right]; unfold c0; cbn [fst snd]; rewrite Nat.add_0_r; split; ring|].
    specialize (IH (S b)). cbv zeta in IH |- *. unfold Fft_Spec.csum in *. cbn [fold_right]. set (s := fold_right _ _ _) in *. unfold cadd. cbn [fst snd]. destruct IH as [A B]. replace (b + S n)%nat with (S b + n)%nat by lia.
    rewrite S_INR in A, B. replace ((INR b + 1) * t) with (INR b * t + t) in A, B by ring. rewrite cos_plus in A. rewrite sin_plus in B. split; lra. }
  specialize (G n 0%nat). cbv zeta in *. cbn [Nat.add INR] in G. rewrite Rmult_0_l, cos_0, sin_0 in G. destruct G as [A B]. split; [exact A|rewrite B; ring].
Qed.
Theorem C151_roots n : (0 < n)%nat -> Fft_Spec.root R 0 1 Rplus Rmult Ropp n (unit_root n).
Proof.
  intros Hn. assert (N : 0 < INR n) by (apply (lt_INR 0); exact Hn). unfold unit_root. set (t := 2 * PI / INR n). split; [|split].
  - unfold Fft_Spec.cmul, Fft_Spec.conj, c1. cbn [fst snd]. assert (E := sin2_cos2 t). unfold Rsqr in E. f_equal; lra.
  - rewrite moivre. replace (INR n * t) with (2 * PI) by (unfold t; field; lra). rewrite cos_2PI, sin_2PI. reflexivity.
  - intros d [D0 D1]. rewrite (csum_ext R 0 Rplus _ _ (fun a => (cos (INR a * (INR d * t)), sin (INR a * (INR d * t))))).
    2:{ intros a _. rewrite moivre, mult_INR, Rmult_assoc. reflexivity. }
    set (u := INR d * t). destruct (geometric u n) as [A B]. set (s := csumR _ _) in *.
    replace (INR n * u) with (0 + 2 * INR d * PI) in A, B by (unfold u, t; field; lra). rewrite cos_period, cos_0 in A. rewrite sin_period, sin_0 in B.
    assert (U : 0 < sin (u / 2)).
    { apply lt_INR in D0, D1. cbn [INR] in D0. assert (P := PI_RGT_0). replace (u / 2) with (PI * (INR d / INR n)) by (unfold u, t; field; lra). assert (0 < INR d / INR n < 1).
      { split; [apply Rdiv_lt_0_compat; assumption|]. apply (Rmult_lt_reg_r (INR n)); [exact N|]. unfold Rdiv. rewrite Rmult_assoc, Rinv_l by lra. lra. }
      apply sin_gt_0; [apply Rmult_lt_0_compat; lra|]. rewrite <- (Rmult_1_r PI) at 2. apply Rmult_lt_compat_l; lra. }
    assert (C : cos u = 1 - 2 * sin (u / 2) * sin (u / 2)) by (replace u with (2 * (u / 2)) at 1 by field; apply cos_2a_sin).
    assert (E := sin2_cos2 u). unfold Rsqr in E. assert (Q : 0 < 2 * (1 - cos u)) by (assert (0 < sin (u / 2) * sin (u / 2)) by (apply Rmult_lt_0_compat; exact U); lra).
    assert (X : 2 * (1 - cos u) * fst s = 0). { replace (2 * (1 - cos u) * fst s) with ((cos u - 1) * ((cos u - 1) * fst s - sin u * snd s) + sin u * ((cos u - 1) * snd s + sin u * fst s) + (1 - (sin u * sin u + cos u * cos u)) * fst s) by ring. rewrite A, B, E. ring. }
    assert (Y : 2 * (1 - cos u) * snd s = 0). { replace (2 * (1 - cos u) * snd s) with ((cos u - 1) * ((cos u - 1) * snd s + sin u * fst s) - sin u * ((cos u - 1) * fst s - sin u * snd s) + (1 - (sin u * sin u + cos u * cos u)) * snd s) by ring. rewrite A, B, E. ring. }
    apply Rmult_integral in X as [X|X]; [lra|]. apply Rmult_integral in Y as [Y|Y]; [lra|]. rewrite (surjective_pairing s), X, Y. reflexivity.
Qed.
(** The whole filter on images: the result is the sum of the waves of the image whose half period is between the radii, for slices [ratio] apart, times the number of pixels; it does not depend on the mean brightness. *)
Section Images.
  Variables (n0 n1 n2 : nat).
  Hypotheses (P0 : (0 < n0)%nat) (P1 : (0 < n1)%nat) (P2 : (0 < n2)%nat) (E0 : (n0 mod 2 = 0 \/ n0 = 1)%nat) (E1 : (n1 mod 2 = 0 \/ n1 = 1)%nat).
  Notation image := (Fft_Spec.image R 0 n1 n2).
  Notation pixels := (Fft_Spec.pixels n0 n1 n2).
  Notation block_size := (Fft_Spec.block_size n0 n1 n2).
  Notation filtered := (Fft_Spec.filtered R 0 1 Rplus Rmult Ropp n0 n1 n2 (unit_root n0) (unit_root n1) (unit_root n2)).
  Notation run := (fft_apply R 0 1 Rmult n0 n1 n2).
  Variables (forward backward : list R -> list R).
  Hypotheses (Hf : r2c R 0 1 Rplus Rmult Ropp n0 n1 n2 (unit_root n0) (unit_root n1) (unit_root n2) forward) (Hb : c2r R 0 1 Rplus Rmult Ropp n0 n1 n2 (unit_root n0) (unit_root n1) (unit_root n2) backward).
  Lemma wavenumber_freq ratio i j k : (k < n2)%nat -> wavenumber2 n0 n1 n2 ratio 1 (i, j, freq n2 k) = wavenumber2 n0 n1 n2 ratio 1 (i, j, k).
  Proof. intros K. unfold wavenumber2. cbn [fst snd]. rewrite (freq_low2 n2 (freq n2 k)) by (apply freq_half; exact K). reflexivity. Qed.
  Lemma run_keep m keep block x : symmetric n0 n1 (n2 / 2 + 1) m -> length block = block_size -> In x pixels -> (forall f, In f pixels -> kept3 n2 m f = keep f) -> image (run forward backward m block) x = filtered keep (image block) x.
  Proof.
    intros Hs Hl Hx Hk. destruct (C150_filter R 0 1 Rplus Rmult Ropp ring_R n0 n1 n2 (unit_root n0) (unit_root n1) (unit_root n2) (C151_roots n0 P0) (C151_roots n1 P1) (C151_roots n2 P2) P0 P1 P2 forward backward m block Hf Hb Hs Hl) as [_ E].
    rewrite (E x Hx). unfold Fft_Spec.filtered. apply csum_ext. intros f Hin. rewrite (Hk f Hin). reflexivity.
  Qed.
  Lemma pixel_bounds i j k : In (i, j, k) pixels -> (i < n0 /\ j < n1 /\ k < n2)%nat.
  Proof. unfold Fft_Spec.pixels. intros H. apply in_prod_iff in H as [H K]. apply in_prod_iff in H as [I J]. apply in_seq in I, J, K. lia. Qed.
  Theorem C151_image ratio rmin rmax m keep block : 0 < ratio -> 0 < rmin < rmax -> 1 + INR n2 / (2 * rmin) < 2 ^ 64 -> length block = block_size ->
    (forall f, keep f = true <-> half_period_at_least rmin (wavenumber2 n0 n1 n2 ratio 1 f) /\ half_period_less rmax (wavenumber2 n0 n1 n2 ratio 1 f)) ->
    exists m', isotropic_band_pass n0 n1 n2 ratio rmin rmax m = Val m' /\ forall x, In x pixels -> image (run forward backward m' block) x = filtered keep (image block) x.
  Proof.
    intros Hq Hr Hs Hl Hk. destruct (C151_isotropic n0 n1 n2 P0 P1 P2 E0 E1 ratio rmin rmax m Hq Hr Hs) as [m' [E [S' K]]]. exists m'. split; [exact E|]. intros x Hx. apply run_keep; try assumption.
    intros [[i j] k] Hin. apply pixel_bounds in Hin as [I [J K']]. unfold kept3. cbn [fst snd]. assert (H := K i j (freq n2 k) I J (freq_half n2 k K')). cbv zeta in H. rewrite wavenumber_freq in H by exact K'. rewrite <- (Hk (i, j, k)) in H. destruct (m' i j (freq n2 k)), (keep (i, j, k)); try reflexivity; [symmetry; apply H; reflexivity|apply H; reflexivity].
  Qed.
  Theorem C151_low_image ratio rmin m keep block : 0 < ratio -> 0 < rmin -> 1 + INR n2 / (2 * rmin) < 2 ^ 64 -> length block = block_size ->
    (forall f, keep f = true <-> half_period_at_least rmin (wavenumber2 n0 n1 n2 ratio 1 f)) ->
    exists m', isotropic_low_pass n0 n1 n2 ratio rmin m = Val m' /\ forall x, In x pixels -> image (run forward backward m' block) x = filtered keep (image block) x.
  Proof.
    intros Hq Hr Hs Hl Hk. destruct (C151_low n0 n1 n2 P0 P1 P2 E0 E1 ratio rmin m Hq Hr Hs) as [m' [E [S' K]]]. exists m'. split; [exact E|]. intros x Hx. apply run_keep; try assumption.
    intros [[i j] k] Hin. apply pixel_bounds in Hin as [I [J K']]. unfold kept3. cbn [fst snd]. assert (H := K i j (freq n2 k) I J (freq_half n2 k K')). rewrite wavenumber_freq in H by exact K'. rewrite <- (Hk (i, j, k)) in H. destruct (m' i j (freq n2 k)), (keep (i, j, k)); try reflexivity; [symmetry; apply H; reflexivity|apply H; reflexivity].
  Qed.
  Theorem C151_brightness ratio rmin rmax m c b1 b2 : 0 < ratio -> 0 < rmin < rmax -> 1 + INR n2 / (2 * rmin) < 2 ^ 64 -> length b1 = block_size -> length b2 = block_size -> (forall x, In x pixels -> image b2 x = (fst (image b1 x) + c, 0)) ->
    exists m', isotropic_band_pass n0 n1 n2 ratio rmin rmax m = Val m' /\ forall x, In x pixels -> image (run forward backward m' b2) x = image (run forward backward m' b1) x.
  Proof.
    intros Hq Hr Hs L1 L2 H. destruct (C151_isotropic n0 n1 n2 P0 P1 P2 E0 E1 ratio rmin rmax m Hq Hr Hs) as [m' [E [S' K]]]. exists m'. split; [exact E|]. intros x Hx.
    apply (C150_brightness R 0 1 Rplus Rmult Ropp ring_R n0 n1 n2 (unit_root n0) (unit_root n1) (unit_root n2) (C151_roots n0 P0) (C151_roots n1 P1) (C151_roots n2 P2) P0 P1 P2 forward backward m' Hf Hb S' (c, 0) b1 b2 L1 L2); [| |exact Hx].
    - destruct (m' 0 0 0)%nat eqn:E'; [|reflexivity]. apply (K 0 0 0)%nat in E' as [_ A]; [|assumption|assumption|lia]. exfalso. unfold half_period_less, wavenumber2, freq in A. cbn [fst snd Nat.min INR] in A. unfold Rdiv in A. rewrite !Rmult_0_l in A. replace (0 ^ 2) with 0 in A by ring. lra.
    - intros y Hy. rewrite (H y Hy). unfold cadd. cbn [fst snd]. f_equal. unfold Fft_Spec.image. cbn [snd]. ring.
  Qed.
End Images.
(** Transforms that meet the hypotheses exist (C150_fftw), for every dimensions. *)
Example C151_fftw n0 n1 n2 : (0 < n0)%nat -> (0 < n1)%nat -> (0 < n2)%nat -> exists forward backward,
  r2c R 0 1 Rplus Rmult Ropp n0 n1 n2 (unit_root n0) (unit_root n1) (unit_root n2) forward /\ c2r R 0 1 Rplus Rmult Ropp n0 n1 n2 (unit_root n0) (unit_root n1) (unit_root n2) backward.
Proof.
  intros P0 P1 P2. eexists. eexists. apply (C150_fftw R 0 1 Rplus Rmult Ropp ring_R n0 n1 n2 (unit_root n0) (unit_root n1) (unit_root n2)); try apply C151_roots; try assumption. intros a H. lra.
Qed.
(** 4 slices 2 pixels apart, of 8 x 8 pixels; radii between 1 and 3 *)
Example C151_case m : exists m', isotropic_band_pass 4 8 8 2 1 3 m = Val m' /\ m' 0%nat 0%nat 0%nat = false /\ m' 0%nat 0%nat 1%nat = false /\ m' 0%nat 7%nat 1%nat = true /\ m' 1%nat 0%nat 1%nat = true /\ m' 0%nat 0%nat 2%nat = true /\ m' 2%nat 4%nat 4%nat = false.
Proof.
  destruct (C151_isotropic 4 8 8 ltac:(lia) ltac:(lia) ltac:(lia) ltac:(left; reflexivity) ltac:(left; reflexivity) 2 1 3 m ltac:(lra) ltac:(lra) ltac:(cbn [INR]; lra)) as [m' [E [_ K]]]. exists m'. split; [exact E|].
  assert (T : forall i j k, (i < 4)%nat -> (j < 8)%nat -> (k <= 8 / 2)%nat -> let q := wavenumber2 4 8 8 2 1 (i, j, k) in (q * 4 <= 1 /\ 1 < q * 36 -> m' i j k = true) /\ (1 < q * 4 \/ q * 36 <= 1 -> m' i j k = false)).
  { intros i j k Hi Hj Hk. specialize (K i j k Hi Hj Hk). cbv zeta in *. unfold half_period_at_least, half_period_less in K. split; intros H; [apply K; lra|]. destruct (m' i j k); [|reflexivity]. destruct (proj1 K eq_refl). lra. }
  cbv zeta in T. unfold wavenumber2, freq in T.
  split; [apply T; try (cbn; lia); right; cbn [fst snd Nat.min Nat.sub INR]; lra|]. split; [apply T; try (cbn; lia); right; cbn [fst snd Nat.min Nat.sub INR]; lra|].
  split; [apply T; try (cbn; lia); cbn [fst snd Nat.min Nat.sub INR]; lra|]. split; [apply T; try (cbn; lia); cbn [fst snd Nat.min Nat.sub INR]; lra|]. split; [apply T; try (cbn; lia); cbn [fst snd Nat.min Nat.sub INR]; lra|].
  apply T; try (cbn; lia); left; cbn [fst snd Nat.min Nat.sub INR]; lra.
Qed.
Print Assumptions C151_anisotropic. Print Assumptions C151_isotropic. Print Assumptions C151_low. Print Assumptions C151_refused. Print Assumptions C151_refused_isotropic. Print Assumptions C151_negative_refuted. Print Assumptions C151_roots. Print Assumptions C151_image. Print Assumptions C151_low_image. Print Assumptions C151_brightness.

(** C133: the scales of an octave, and the radius of a centre. *)
Require Import Reals ZArith Arith Lia Lra Psatz.
Require Import Verif.Scale_Model.
Local Open Scope R_scope.

Section Facts.
  Variable n : nat.
  Hypothesis Hn : (0 < n)%nat.
  Lemma n_pos : 0 < INR n.
  Proof. apply lt_0_INR. exact Hn. Qed.
  Lemma ln2_pos : 0 < ln 2.
  Proof. rewrite <- ln_1. apply ln_increasing; lra. Qed.
  Lemma power_lt x y : x < y -> Rpower 2 x < Rpower 2 y.
  Proof. apply Rpower_lt. lra. Qed.
  Lemma power_pos x : 0 < Rpower 2 x.
  Proof. unfold Rpower. apply exp_pos. Qed.
  Lemma div_lt x y : x < y -> x / INR n < y / INR n.
  Proof. intros H. apply Rmult_lt_compat_r; auto. apply Rinv_0_lt_compat, n_pos. Qed.
  (** The ratio of two successive widths, and its square. *)
  Definition ratio : R := Rpower 2 (1 / INR n).
  Lemma ratio_one : 1 < ratio.
  Proof. unfold ratio. apply (Rle_lt_trans _ (Rpower 2 0)); [rewrite Rpower_O; lra|]. apply power_lt. unfold Rdiv. rewrite Rmult_1_l. apply Rinv_0_lt_compat, n_pos. Qed.
  Lemma ratio_sq : Rpower 2 (2 / INR n) = ratio * ratio.
  Proof. unfold ratio. rewrite <- Rpower_plus. f_equal. lra. Qed.
  Lemma ratio_ln : ln ratio = ln 2 / INR n.
  Proof. unfold ratio, Rpower. rewrite ln_exp. unfold Rdiv. ring. Qed.
  (** The prefactor of the three dimensions. *)
  Lemma prefactor_ok dim : (1 <= dim <= 3)%nat -> prefactor n dim = sqrt (2 * INR dim * ln ratio / (ratio * ratio - 1)).
  Proof.
    intros H. assert (P := n_pos). assert (Q := ratio_one). assert (A : 0 < ratio * ratio - 1) by nra. rewrite ratio_ln. unfold prefactor. rewrite ratio_sq. assert (L := ln2_pos).
    destruct dim as [|[|[|[|dim]]]]; try lia; cbn [INR].
    - f_equal. field. split; lra.
    - replace 2 with (sqrt (2 * 2)) at 1 by (apply sqrt_square; lra). rewrite <- sqrt_mult_alt by lra. f_equal. field. split; lra.
    - f_equal. field. split; lra.
  Qed.
  Lemma prefactor_pos dim : (1 <= dim <= 3)%nat -> 0 < prefactor n dim.
  Proof.
    intros H. rewrite prefactor_ok by auto. assert (Q := ratio_one). apply sqrt_lt_R0. apply Rmult_lt_0_compat; [|apply Rinv_0_lt_compat; nra].
    apply Rmult_lt_0_compat; [|rewrite <- ln_1; apply ln_increasing; lra]. assert (0 < INR dim) by (apply lt_0_INR; lia). lra.
  Qed.
End Facts.

(** The blurs. *)
Section Blurs.
  Variables (n : nat) (k : R).
  Hypothesis Hn : (0 < n)%nat.
  Hypothesis Hk : 0 < k.
  Lemma sigma_pos s : 0 < sigma_at n k s.
  Proof. apply Rmult_lt_0_compat; auto. apply power_pos. Qed.
  Lemma sigma_lt s s' : s < s' -> sigma_at n k s < sigma_at n k s'.
  Proof. intros H. apply Rmult_lt_compat_l; auto. apply power_lt, div_lt; auto. Qed.
  Lemma sigma_nat i : sigma n k i = sigma_at n k (INR i).
  Proof. reflexivity. Qed.
  Lemma sigma_double s : sigma_at n k (s + INR n) = 2 * sigma_at n k s.
  Proof. assert (P := n_pos n Hn). unfold sigma_at. replace ((s + INR n) / INR n) with (s / INR n + 1) by (field; lra). rewrite Rpower_plus, Rpower_1 by lra. ring. Qed.
  (** Sum of squares of the first radii. *)
  Fixpoint squares (i : nat) : R := match i with O => 0 | S j => squares j + iterative_radius n k j * iterative_radius n k j end.
  Lemma radius_sq i : iterative_radius n k i * iterative_radius n k i = sigma n k (S i) * sigma n k (S i) - sigma n k i * sigma n k i.
  Proof.
    unfold iterative_radius. apply sqrt_sqrt. rewrite !sigma_nat. assert (A := sigma_pos (INR i)). assert (B := sigma_lt (INR i) (INR (S i))). rewrite S_INR in *. specialize (B ltac:(lra)). nra.
  Qed.
  (** Blurs add up by their squares: the first one and the i following ones make the width of layer i; that of layer n is twice the first, as if the image were half as large. *)
  Theorem C133_blurs i : k * k + squares i = sigma n k i * sigma n k i /\ sigma n k 0 = k /\ sigma n k (i + n) = 2 * sigma n k i /\ 0 < iterative_radius n k i.
  Proof.
    assert (P := n_pos n Hn). assert (Z : sigma n k 0 = k) by (unfold sigma; replace (INR 0 / INR n) with 0 by (cbn [INR]; unfold Rdiv; ring); rewrite Rpower_O by lra; ring).
    split; [|split; [auto|split]].
    - induction i as [|i IH]; [cbn [squares]; rewrite Z; ring|]. cbn [squares]. rewrite <- Rplus_assoc, IH, radius_sq. ring.
    - rewrite !sigma_nat, plus_INR. apply sigma_double.
    - unfold iterative_radius. apply sqrt_lt_R0. rewrite !sigma_nat. assert (A := sigma_pos (INR i)). assert (B := sigma_lt (INR i) (INR (S i))). rewrite S_INR in *. specialize (B ltac:(lra)). nra.
  Qed.
  (** Between any two scales, and the radii of the layers are those between successive scales. *)
  Theorem C133_between larger smaller : smaller <= larger ->
    sigma_at n k smaller * sigma_at n k smaller + radius_between n k larger smaller * radius_between n k larger smaller = sigma_at n k larger * sigma_at n k larger.
  Proof.
    intros H. assert (P := n_pos n Hn). assert (D : forall s, Rpower 2 (2 * s / INR n) = Rpower 2 (s / INR n) * Rpower 2 (s / INR n)) by (intros s; rewrite <- Rpower_plus; f_equal; lra).
    assert (G : 0 <= Rpower 2 (2 * larger / INR n) - Rpower 2 (2 * smaller / INR n)).
    { destruct H as [H| ->]; [|lra]. assert (X := power_lt (2 * smaller / INR n) (2 * larger / INR n) ltac:(apply div_lt; auto; lra)). lra. }
    unfold radius_between, sigma_at. set (q := sqrt (Rpower 2 (2 * larger / INR n) - Rpower 2 (2 * smaller / INR n))). assert (E : q * q = Rpower 2 (2 * larger / INR n) - Rpower 2 (2 * smaller / INR n)) by (apply sqrt_sqrt; auto).
    rewrite !D in E. replace (k * q * (k * q)) with (k * k * (q * q)) by ring. rewrite E. ring.
  Qed.
  Theorem C133_iterative i : iterative_radius n k i = radius_between n k (INR (S i)) (INR i).
  Proof.
    apply Rsqr_inj; [apply sqrt_pos|apply Rmult_le_pos; [lra|apply sqrt_pos]|]. unfold Rsqr. rewrite radius_sq. assert (X := C133_between (INR (S i)) (INR i)). rewrite S_INR in *. specialize (X ltac:(lra)). rewrite !sigma_nat, S_INR. lra.
  Qed.
  (** The sizes grow with the layers, and double (within a pixel) with the octave. *)
  Lemma int_part_le x y : x <= y -> (Int_part x <= Int_part y)%Z.
  Proof.
    intros H. destruct (base_Int_part x) as [A1 A2]. destruct (base_Int_part y) as [B1 B2]. assert (G : IZR (Int_part x) < IZR (Int_part y + 1)) by (rewrite plus_IZR; lra). apply lt_IZR in G. lia.
  Qed.
  Theorem C133_sizes dim i j : (1 <= dim <= 3)%nat -> ((i <= j)%nat -> (0 <= blob_size n k dim i <= blob_size n k dim j)%Z) /\ (2 * blob_size n k dim i - 1 <= blob_size n k dim (i + n) <= 2 * blob_size n k dim i + 1)%Z.
  Proof.
    intros Hd. assert (P := prefactor_pos n Hn dim Hd). assert (S0 := fun i => sigma_pos (INR i)). split.
    - intros Hij. split.
      + change 0%Z with (0)%Z. assert (X : (Int_part 0 <= blob_size n k dim i)%Z). { apply int_part_le. assert (X := S0 i). rewrite <- sigma_nat in X. nra. } assert (Z : Int_part 0 = 0%Z).
        { destruct (base_Int_part 0) as [A1 A2]. assert (G1 : (Int_part 0 <= 0)%Z) by (apply le_IZR; lra). assert (G2 : IZR (-1) < IZR (Int_part 0)) by lra. apply lt_IZR in G2. lia. } lia.
      + apply int_part_le. apply Rplus_le_compat_r. apply Rmult_le_compat_r; [lra|]. rewrite !sigma_nat. destruct (Nat.eq_dec i j) as [->|Hne]; [lra|]. apply Rlt_le, sigma_lt, lt_INR. lia.
    - unfold blob_size. rewrite (sigma_nat (i + n)), plus_INR, sigma_double, <- sigma_nat. set (x := sigma n k i * prefactor n dim). replace (2 * sigma n k i * prefactor n dim + 0.5) with (2 * x + 0.5) by (unfold x; ring).
      destruct (base_Int_part (x + 0.5)) as [A1 A2]. destruct (base_Int_part (2 * x + 0.5)) as [B1 B2].
      assert (G1 : IZR (2 * Int_part (x + 0.5) - 2) < IZR (Int_part (2 * x + 0.5))) by (rewrite minus_IZR, mult_IZR; lra).
      assert (G2 : IZR (Int_part (2 * x + 0.5)) < IZR (2 * Int_part (x + 0.5) + 2)) by (rewrite plus_IZR, mult_IZR; lra). apply lt_IZR in G1. apply lt_IZR in G2. lia.
  Qed.
End Blurs.

(** The centre of a ball (segment, disc, sphere) of radius r, blurred by a Gaussian of width s, has the intensity B(r/s): the part of the Gaussian at less than r/s widths.
    In dimension dim the derivative of B is proportional to x^(dim-1) exp(-x*x/2). *)
Definition ball_profile (dim : nat) (B : R -> R) : Prop := exists c, 0 < c /\ forall x, 0 < x -> derivable_pt_lim B x (c * x ^ (dim - 1) * exp (- (x * x / 2))).
(** octavefinder.cpp:167-168, at the centre of the ball: the difference between the blurs of scales s+1 and s. *)
Definition difference (n : nat) (k : R) (B : R -> R) (r s : R) : R := B (r / sigma_at n k (s + 1)) - B (r / sigma_at n k s).

Section Ball.
  Variables (n : nat) (k : R) (dim : nat) (B : R -> R).
  Hypothesis Hn : (0 < n)%nat.
  Hypothesis Hk : 0 < k.
  Hypothesis Hd : (1 <= dim <= 3)%nat.
  Hypothesis HB : ball_profile dim B.
  Notation q := (ratio n).
  (** As a function of x = r / sigma. *)
  Definition diff_x (x : R) : R := B (x / q) - B x.
  Definition best : R := 2 * INR dim * ln q * (q * q) / (q * q - 1).
  Lemma diff_deriv : exists c, 0 < c /\ forall x, 0 < x -> derivable_pt_lim diff_x x (c * x ^ (dim - 1) * (exp (- (INR dim * ln q + x * x / (2 * (q * q)))) - exp (- (x * x / 2)))).
  Proof.
    destruct HB as [c [Hc H]]. exists c. split; auto. intros x Hx. assert (Q := ratio_one n Hn).
    assert (Hxq : 0 < x / q) by (apply Rmult_lt_0_compat; [auto|apply Rinv_0_lt_compat; lra]).
    assert (L : derivable_pt_lim (fun y => y / q) x (/ q)).
    { replace (/ q) with (1 * / q + x * 0) by ring. apply (derivable_pt_lim_mult (fun y => y) (fun _ => / q) x 1 0); [apply derivable_pt_lim_id|apply derivable_pt_lim_const]. }
    assert (C := derivable_pt_lim_comp (fun y => y / q) B x (/ q) _ L (H (x / q) Hxq)).
    assert (M := derivable_pt_lim_minus _ _ x _ _ C (H x Hx)).
    match type of M with derivable_pt_lim _ _ ?e => replace e with (c * x ^ (dim - 1) * (exp (- (INR dim * ln q + x * x / (2 * (q * q)))) - exp (- (x * x / 2)))) in M end; [exact M|].
    assert (E : exp (- (INR dim * ln q + x * x / (2 * (q * q)))) = (/ q) ^ dim * exp (- (x * x / (2 * (q * q))))).
    { rewrite Ropp_plus_distr, exp_plus. f_equal. rewrite <- Rpower_pow by (apply Rinv_0_lt_compat; lra). unfold Rpower. rewrite ln_Rinv by lra. f_equal. ring. }
    rewrite E. replace (x / q * (x / q) / 2) with (x * x / (2 * (q * q))) by (field; lra). replace dim with (S (dim - 1)) at 2 by lia. cbn [pow]. replace ((x / q) ^ (dim - 1)) with (x ^ (dim - 1) * (/ q) ^ (dim - 1)) by (unfold Rdiv; rewrite Rpow_mult_distr; reflexivity). ring.
  Qed.
  (** The sign of the derivative. *)
  Lemma sign_below x : 0 < x -> x * x < best -> exp (- (INR dim * ln q + x * x / (2 * (q * q)))) < exp (- (x * x / 2)).
  Proof.
    intros Hx H. assert (Q := ratio_one n Hn). apply exp_increasing. assert (A : 0 < q * q - 1) by nra. unfold best in H.
    assert (G : x * x * (q * q - 1) < 2 * INR dim * ln q * (q * q)). { apply (Rmult_lt_compat_r (q * q - 1)) in H; auto. unfold Rdiv in H. rewrite (Rmult_assoc _ (/ _)), Rinv_l in H by lra. lra. }
    assert (E : x * x / 2 - x * x / (2 * (q * q)) = x * x * (q * q - 1) / (2 * (q * q))) by (field; lra).
    assert (F : x * x * (q * q - 1) / (2 * (q * q)) < INR dim * ln q). { apply (Rmult_lt_reg_r (2 * (q * q))); [nra|]. unfold Rdiv. rewrite (Rmult_assoc _ (/ _)), Rinv_l by nra. lra. }
    lra.
  Qed.
  Lemma sign_above x : 0 < x -> best < x * x -> exp (- (x * x / 2)) < exp (- (INR dim * ln q + x * x / (2 * (q * q)))).
  Proof.
    intros Hx H. assert (Q := ratio_one n Hn). apply exp_increasing. assert (A : 0 < q * q - 1) by nra. unfold best in H.
    assert (G : 2 * INR dim * ln q * (q * q) < x * x * (q * q - 1)). { apply (Rmult_lt_compat_r (q * q - 1)) in H; auto. unfold Rdiv in H. rewrite (Rmult_assoc _ (/ _)), Rinv_l in H by lra. lra. }
    assert (E : x * x / 2 - x * x / (2 * (q * q)) = x * x * (q * q - 1) / (2 * (q * q))) by (field; lra).
    assert (F : INR dim * ln q < x * x * (q * q - 1) / (2 * (q * q))). { apply (Rmult_lt_reg_r (2 * (q * q))); [nra|]. unfold Rdiv. rewrite (Rmult_assoc _ (/ _)), Rinv_l by nra. lra. }
    lra.
  Qed.
  Lemma diff_min x y : 0 < x -> x * x = best -> 0 < y -> y <> x -> diff_x x < diff_x y.
  Proof.
    intros Hx Ex Hy Hne. destruct diff_deriv as [c [Hc D]]. destruct (Rtotal_order y x) as [L|[E|G]]; [|contradiction|].
    - destruct (MVT_cor2 diff_x (fun x => c * x ^ (dim - 1) * (exp (- (INR dim * ln q + x * x / (2 * (q * q)))) - exp (- (x * x / 2)))) y x L) as [z [Ez Hz]]; [intros z Hz; apply D; lra|].
      assert (S := sign_below z ltac:(lra) ltac:(rewrite <- Ex; nra)). assert (P : 0 < z ^ (dim - 1)) by (apply pow_lt; lra). assert (N : 0 < c * z ^ (dim - 1) * (exp (- (z * z / 2)) - exp (- (INR dim * ln q + z * z / (2 * (q * q))))) * (x - y)).
      { apply Rmult_lt_0_compat; [apply Rmult_lt_0_compat; [apply Rmult_lt_0_compat|]|]; lra. } cbv beta in Ez. lra.
    - destruct (MVT_cor2 diff_x (fun x => c * x ^ (dim - 1) * (exp (- (INR dim * ln q + x * x / (2 * (q * q)))) - exp (- (x * x / 2)))) x y G) as [z [Ez Hz]]; [intros z Hz; apply D; lra|].
      assert (S := sign_above z ltac:(lra) ltac:(rewrite <- Ex; nra)). assert (P : 0 < z ^ (dim - 1)) by (apply pow_lt; lra). assert (N : 0 < c * z ^ (dim - 1) * (exp (- (INR dim * ln q + z * z / (2 * (q * q)))) - exp (- (z * z / 2))) * (y - x)).
      { apply Rmult_lt_0_compat; [apply Rmult_lt_0_compat; [apply Rmult_lt_0_compat|]|]; lra. } cbv beta in Ez. lra.
  Qed.
  Lemma sigma_next s : sigma_at n k (s + 1) = q * sigma_at n k s.
  Proof. unfold sigma_at, ratio. replace ((s + 1) / INR n) with (1 / INR n + s / INR n) by (unfold Rdiv; ring). rewrite Rpower_plus. ring. Qed.
  Lemma difference_x r s : difference n k B r s = diff_x (r / sigma_at n k s).
  Proof. unfold difference, diff_x. rewrite sigma_next. assert (P := sigma_pos n k Hk s). assert (Q := ratio_one n Hn). do 2 f_equal. field. lra. Qed.
  Lemma radius_eq s : radius_of_scale n k dim s = prefactor n dim * q * sigma_at n k s.
  Proof. unfold radius_of_scale. assert (E := sigma_next s). unfold sigma_at in *. rewrite Rmult_assoc, E. ring. Qed.
  (** The response at the centre of a ball is lowest at the one scale that scale() converts to the radius of the ball. *)
  Theorem C133_radius s s' : s' <> s -> let r := radius_of_scale n k dim s in 0 < r /\ difference n k B r s < difference n k B r s'.
  Proof.
    intros Hne. cbv zeta. assert (Q := ratio_one n Hn). assert (P := prefactor_pos n Hn dim Hd). assert (S1 := sigma_pos n k Hk s). assert (S2 := sigma_pos n k Hk s'). set (r := radius_of_scale n k dim s).
    assert (Hr : 0 < r). { unfold r. rewrite radius_eq. apply Rmult_lt_0_compat; auto. apply Rmult_lt_0_compat; lra. } split; auto. rewrite !difference_x. apply diff_min.
    - apply Rmult_lt_0_compat; auto. apply Rinv_0_lt_compat; auto.
    - unfold r. rewrite radius_eq. replace (prefactor n dim * q * sigma_at n k s / sigma_at n k s) with (prefactor n dim * q) by (field; lra).
      replace (prefactor n dim * q * (prefactor n dim * q)) with (prefactor n dim * prefactor n dim * (q * q)) by ring. rewrite prefactor_ok by auto. rewrite sqrt_sqrt; [unfold best, Rdiv; ring|].
      assert (L : 0 < ln q) by (rewrite <- ln_1; apply ln_increasing; lra). assert (D : 0 < INR dim) by (apply lt_0_INR; lia). apply Rmult_le_pos; [nra|]. apply Rlt_le, Rinv_0_lt_compat. nra.
    - apply Rmult_lt_0_compat; auto. apply Rinv_0_lt_compat; auto.
    - intros E. apply Hne. assert (F : sigma_at n k s' = sigma_at n k s).
      { apply (Rmult_eq_reg_l (r * / (sigma_at n k s' * sigma_at n k s))). - replace (r * / (sigma_at n k s' * sigma_at n k s) * sigma_at n k s') with (r / sigma_at n k s) by (field; lra). rewrite <- E. field. lra.
        - apply Rgt_not_eq. apply Rmult_lt_0_compat; auto. apply Rinv_0_lt_compat. nra. }
      destruct (Rtotal_order s' s) as [L|[Es|G]]; auto; exfalso; [assert (X := sigma_lt n k Hn Hk s' s L)|assert (X := sigma_lt n k Hn Hk s s' G)]; lra.
  Qed.
  (** Every radius is that of one scale, and larger balls are at larger scales. *)
  Theorem C133_scale_of r : 0 < r -> exists s, radius_of_scale n k dim s = r /\ forall s', (radius_of_scale n k dim s' < r <-> s' < s) /\ (s' <> s -> difference n k B r s < difference n k B r s').
  Proof.
    intros Hr. assert (Q := ratio_one n Hn). assert (P := prefactor_pos n Hn dim Hd). assert (N := n_pos n Hn). set (s := INR n * (ln (r / (prefactor n dim * k)) / ln 2) - 1).
    assert (L := ln2_pos). assert (Hpk : 0 < prefactor n dim * k) by nra.
    assert (E : radius_of_scale n k dim s = r).
    { unfold radius_of_scale, s. replace ((INR n * (ln (r / (prefactor n dim * k)) / ln 2) - 1 + 1) / INR n) with (ln (r / (prefactor n dim * k)) / ln 2) by (field; lra).
      unfold Rpower. replace (ln (r / (prefactor n dim * k)) / ln 2 * ln 2) with (ln (r / (prefactor n dim * k))) by (field; lra). rewrite exp_ln by (apply Rmult_lt_0_compat; [auto|apply Rinv_0_lt_compat; auto]). field. lra. }
    exists s. split; auto. intros s'. assert (M : forall a b, a < b -> radius_of_scale n k dim a < radius_of_scale n k dim b).
    { intros a b H. rewrite !radius_eq. apply Rmult_lt_compat_l; [nra|]. apply sigma_lt; auto. }
    split.
    - rewrite <- E at 1. split; intros H; [|apply M; auto]. destruct (Rtotal_order s' s) as [|[->|G]]; auto; [lra|apply M in G; lra].
    - intros Hne. rewrite <- E. apply C133_radius. auto.
  Qed.
  (** It is a negative minimum, for a ball brighter than what surrounds it. *)
  Theorem C133_negative r s : 0 < r -> difference n k B r s < 0.
  Proof.
    intros Hr. rewrite difference_x. assert (P := sigma_pos n k Hk s). set (x := r / sigma_at n k s). assert (Hx : 0 < x) by (apply Rmult_lt_0_compat; [auto|apply Rinv_0_lt_compat; auto]). assert (Q := ratio_one n Hn).
    unfold diff_x. destruct HB as [c [Hc H]]. assert (L : 0 < x / q < x). { split; [apply Rmult_lt_0_compat; [auto|apply Rinv_0_lt_compat; lra]|]. apply (Rmult_lt_reg_r q); [lra|]. unfold Rdiv. rewrite Rmult_assoc, Rinv_l by lra. nra. }
    destruct (MVT_cor2 B (fun x => c * x ^ (dim - 1) * exp (- (x * x / 2))) (x / q) x (proj2 L)) as [z [Ez Hz]]; [intros z Hz; apply H; lra|].
    assert (N : 0 < c * z ^ (dim - 1) * exp (- (z * z / 2)) * (x - x / q)). { apply Rmult_lt_0_compat; [|lra]. apply Rmult_lt_0_compat; [|apply exp_pos]. apply Rmult_lt_0_compat; auto. apply pow_lt. lra. } cbv beta in Ez. lra.
  Qed.
End Ball.

(** Such profiles exist: the integral of the Gaussian over the ball, up to the (constant) measure of the unit sphere. *)
Definition weight (dim : nat) (x : R) : R := x ^ (dim - 1) * exp (- (x * x / 2)).
Lemma weight_continuous dim x : continuity_pt (weight dim) x.
Proof.
  apply derivable_continuous_pt. unfold weight. apply (derivable_pt_mult (fun x => x ^ (dim - 1)) (fun x => exp (- (x * x / 2)))).
  - apply derivable_pt_pow.
  - apply (derivable_pt_comp (fun x => - (x * x / 2)) exp); [|apply derivable_pt_exp]. apply derivable_pt_opp. apply (derivable_pt_mult (fun x => x * x) (fun _ => / 2)); [|apply derivable_pt_const]. apply (derivable_pt_mult (fun x => x) (fun x => x)); apply derivable_pt_id.
Qed.
Definition weight_int (dim : nat) (x : R) (h : 0 <= x) : Riemann_integrable (weight dim) 0 x := continuity_implies_RiemannInt h (fun y _ => weight_continuous dim y).
Definition mass (dim : nat) (x : R) : R := match Rle_dec 0 x with left h => RiemannInt (weight_int dim x h) | right _ => 0 end.
Theorem C133_profile dim : ball_profile dim (mass dim).
Proof.
  exists 1. split; [lra|]. intros x Hx. rewrite Rmult_1_l. fold (weight dim x). assert (h : 0 <= 2 * x) by lra. pose (C0 := fun y (_ : 0 <= y <= 2 * x) => weight_continuous dim y).
  assert (D := RiemannInt_P28 h C0 (x := x) ltac:(lra)). intros eps He. destruct (D eps He) as [delta Hd]. assert (Hm : 0 < Rmin delta x) by (apply Rmin_pos; [apply cond_pos|auto]). exists (mkposreal _ Hm). cbn [pos]. intros y Hy0 Hy.
  assert (E : forall z, 0 < z < 2 * x -> mass dim z = primitive h (FTC_P1 h C0) z).
  { intros z Hz. unfold mass, primitive. destruct (Rle_dec 0 z) as [h1|]; [|lra]. destruct (Rle_dec z (2 * x)) as [h2|]; [|lra]. apply RiemannInt_P5. }
  assert (M1 := Rmin_l delta x). assert (M2 := Rmin_r delta x). assert (Hy' : - x < y < x) by (apply Rabs_def2 in Hy; lra). rewrite !E by lra. apply Hd; auto. lra.
Qed.

(** Three layers and a first blur of 1.6 pixels, in three dimensions: a ball of 4 pixels is lowest at a single scale. *)
Example C133_case : exists s, radius_of_scale 3 1.6 3 s = 4 /\ forall s', s' <> s -> difference 3 1.6 (mass 3) 4 s < difference 3 1.6 (mass 3) 4 s' /\ difference 3 1.6 (mass 3) 4 s < 0.
Proof.
  destruct (C133_scale_of 3 1.6 3 (mass 3) ltac:(lia) ltac:(lra) ltac:(lia) (C133_profile 3) 4 ltac:(lra)) as [s [E H]]. exists s. split; auto. intros s' Hne. split; [apply H; auto|].
  apply (C133_negative 3 1.6 3); [lia|lra|apply C133_profile|lra].
Qed.

Print Assumptions C133_blurs.
Print Assumptions C133_between.
Print Assumptions C133_iterative.
Print Assumptions C133_sizes.
Print Assumptions C133_radius.
Print Assumptions C133_scale_of.
Print Assumptions C133_negative.
Print Assumptions C133_profile.
Print Assumptions C133_case.

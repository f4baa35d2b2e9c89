(** The spherical coordinates of a vector. *)
Require Import Reals ZArith List Arith Lia Lra.
Require Import Verif.Euler_Model Verif.Euler_Spec.
Local Open Scope R_scope.

Lemma norm3_sq x y z : norm3 (x, y, z) * norm3 (x, y, z) = x * x + y * y + z * z.
Proof. unfold norm3. apply sqrt_sqrt. nra. Qed.
Lemma norm3_ge v : 0 <= norm3 v.
Proof. destruct v as [[x y] z]. apply sqrt_pos. Qed.
Lemma norm3_pos v : v <> null_vec -> 0 < norm3 v.
Proof.
  destruct v as [[x y] z]. intros N. destruct (Rle_lt_or_eq_dec 0 (norm3 (x, y, z)) (norm3_ge _)) as [|E]; auto. exfalso. assert (S := norm3_sq x y z). rewrite <- E in S. apply N. unfold null_vec.
  assert (x * x = 0) by nra. assert (y * y = 0) by nra. assert (z * z = 0) by nra. replace x with 0 by nra. replace y with 0 by nra. replace z with 0 by nra. auto.
Qed.
Lemma atan2_ok x y : x * x + y * y <> 0 -> let r := sqrt (x * x + y * y) in r * cos (atan2 y x) = x /\ r * sin (atan2 y x) = y /\ - PI < atan2 y x <= PI.
Proof.
  intros N r. assert (P := PI_RGT_0). assert (Q : 0 < x * x + y * y) by nra. assert (R0 : 0 < r) by (apply sqrt_lt_R0; auto). assert (RR : r * r = x * x + y * y) by (apply sqrt_sqrt; lra).
  assert (A : forall x, x <> 0 -> r * r = x * x + y * y -> sqrt (1 + (y / x)²) = r / Rabs x).
  { intros x' H E. assert (0 < Rabs x') by (apply Rabs_pos_lt; auto). apply Rsqr_inj; [apply sqrt_pos|unfold Rdiv; apply Rlt_le, Rmult_lt_0_compat; [auto|apply Rinv_0_lt_compat; auto]|]. rewrite Rsqr_sqrt by (assert (G := Rle_0_sqr (y / x')); lra).
    rewrite (Rsqr_div' r (Rabs x')), <- Rsqr_abs. unfold Rsqr. rewrite E. field. auto. }
  unfold atan2. destruct (Rlt_dec 0 x) as [L|L].
  - rewrite cos_atan, sin_atan, A, Rabs_pos_eq by lra. assert (B := atan_bound (y / x)). split; [field; lra|]. split; [field; lra|lra].
  - destruct (Rlt_dec x 0) as [L'|L'].
    + assert (B := atan_bound (y / x)). assert (K : r / Rabs x = - r / x) by (rewrite Rabs_left by auto; field; lra).
      assert (CS : r * cos (atan (y / x)) = - x /\ r * sin (atan (y / x)) = - y). { rewrite cos_atan, sin_atan, A, K by lra. split; field; lra. }
      destruct (Rle_dec 0 y) as [Y|Y].
      * rewrite neg_cos, neg_sin. split; [lra|]. split; [lra|]. split; [lra|]. assert (y / x <= 0). { unfold Rdiv. assert (/ x < 0) by (apply Rinv_lt_0_compat; auto). nra. }
        assert (atan (y / x) <= 0). { destruct H as [H| ->]; [left; rewrite <- atan_0; apply atan_increasing; auto|rewrite atan_0; lra]. } lra.
      * unfold Rminus. replace (atan (y / x) + - PI) with (atan (y / x) + PI - 2 * PI) by ring. assert (G := cos_period (atan (y / x) + PI - 2 * PI) 1). assert (G' := sin_period (atan (y / x) + PI - 2 * PI) 1). cbn [INR] in G, G'. replace (atan (y / x) + PI - 2 * PI + 2 * 1 * PI) with (atan (y / x) + PI) in G, G' by ring.
        rewrite <- G, <- G', neg_cos, neg_sin. split; [lra|]. split; [lra|]. split; [|lra]. assert (0 < y / x). { unfold Rdiv. assert (/ x < 0) by (apply Rinv_lt_0_compat; auto). nra. }
        assert (0 < atan (y / x)) by (rewrite <- atan_0; apply atan_increasing; auto). lra.
    + assert (x = 0) by lra. subst x. assert (RY : r * r = y * y) by lra. destruct (Rlt_dec 0 y) as [Y|Y].
      * rewrite cos_PI2, sin_PI2. assert (r = y) by nra. split; [lra|]. split; lra.
      * destruct (Rlt_dec y 0) as [Y'|Y']; [|exfalso; apply N; nra]. rewrite cos_neg, sin_neg, cos_PI2, sin_PI2. assert (r = - y) by nra. split; [lra|]. split; lra.
Qed.
(** On the axis z both angles are null; elsewhere they are the spherical coordinates. *)
Lemma spherical_ok x y z r theta phi : (x, y, z) <> null_vec -> spherical (x, y, z) = (r, theta, phi) ->
  r = norm3 (x, y, z) /\ 0 <= theta < PI /\ 0 <= phi < 2 * PI /\ r * sin theta * cos phi = x /\ r * sin theta * sin phi = y /\ (0 <= z \/ x <> 0 \/ y <> 0 -> r * cos theta = z) /\ (x = 0 -> y = 0 -> theta = 0).
Proof.
  intros N. assert (R0 := norm3_pos _ N). assert (RR := norm3_sq x y z). assert (P := PI_RGT_0). unfold spherical. set (n := norm3 (x, y, z)) in *.
  destruct (Req_EM_T (Rabs z) n) as [E|E].
  - intros [= <- <- <-]. assert (ZZ : z * z = n * n) by (rewrite <- E; destruct (Rcase_abs z); [rewrite Rabs_left by auto|rewrite Rabs_right by auto]; ring). assert (x = 0) by nra. assert (y = 0) by nra. subst x y. rewrite sin_0, cos_0. split; auto. split; [lra|]. split; [lra|]. split; [ring|]. split; [ring|]. split; auto.
    intros [Z|[Z|Z]]; try lra. rewrite Rabs_pos_eq in E by auto. lra.
  - destruct (Req_EM_T (n * n + 1) 1) as [E1|E1]; [exfalso; nra|]. intros [= <- <- <-].
    assert (XY : x * x + y * y <> 0). { intros X0. assert (ZZ : z * z = n * n) by lra. apply E. unfold Rabs. destruct (Rcase_abs z); nra. }
    assert (ZN : -1 < z / n < 1). { assert (z * z < n * n) by nra. assert (- n < z < n) by nra. split; apply (Rmult_lt_reg_r n); auto; unfold Rdiv; rewrite Rmult_assoc, Rinv_l by lra; lra. }
    destruct (atan2_ok x y XY) as [A1 [A2 A3]]. set (s := sqrt (x * x + y * y)) in *.
    assert (SN : n * sin (acos (z / n)) = s).
    { rewrite sin_acos by lra. apply Rsqr_inj; [apply Rmult_le_pos; [lra|apply sqrt_pos]|apply sqrt_pos|]. rewrite Rsqr_mult, Rsqr_sqrt; [unfold s; rewrite Rsqr_sqrt by nra; unfold Rsqr; replace (n * n * (1 - z / n * (z / n))) with (n * n - z * z) by (field; lra); lra|]. unfold Rsqr. nra. }
    assert (B := acos_bound (z / n)). assert (B1 : acos (z / n) <> PI). { intros E2. assert (C := cos_acos (z / n) ltac:(lra)). rewrite E2, cos_PI in C. lra. }
    split; auto. split; [lra|]. rewrite SN, cos_acos by lra.
    assert (F : forall w, (if Rlt_dec w 0 then w + 2 * PI else w) = (if Rlt_dec w 0 then w + 2 * INR 1 * PI else w)) by (intros w; destruct (Rlt_dec w 0); cbn [INR]; lra).
    destruct (Rlt_dec (atan2 y x) 0) as [L|L]; rewrite ?F.
    + replace (atan2 y x + 2 * PI) with (atan2 y x + 2 * INR 1 * PI) by (cbn [INR]; ring). rewrite cos_period, sin_period. cbn [INR]. split; [lra|]. split; auto. split; auto. split; [intros _; field; lra|]. intros -> ->. exfalso. apply XY. ring.
    + split; [lra|]. split; auto. split; auto. split; [intros _; field; lra|]. intros -> ->. exfalso. apply XY. ring.
Qed.

(** Property C158: angles between bonds and their distribution. *)
Require Import Reals ZArith QArith List Bool Arith Lia Lra Psatz.
Require Import Verif.Base Verif.ListX Verif.Ngb_Spec Verif.Ngb_Model Verif.Ngb_Props Verif.Euler_Model Verif.Euler_Spec Verif.Euler_Geom Verif.Euler_Props.
Require Import Verif.Angle_Model Verif.Angle_Spec Verif.Angle_Proofs Verif.Angle_Props Verif.Bend_Model Verif.Bend_Spec.
Import ListNotations.
Local Open Scope R_scope.

Lemma dot3_dot a b : dot3 a b = dot a b. Proof. destruct a as [[x y] z], b as [[x' y'] z']. auto. Qed.
Lemma dot_self v : dot v v = norm3 v * norm3 v. Proof. destruct v as [[x y] z]. apply dot_norm. Qed.
Lemma cauchy v w : (dot v w) * (dot v w) <= (norm3 v * norm3 w) * (norm3 v * norm3 w).
Proof.
  replace (norm3 v * norm3 w * (norm3 v * norm3 w)) with (dot v v * dot w w) by (rewrite !dot_self; ring). destruct v as [[x y] z], w as [[x' y'] z']. unfold dot.
  assert (A := Rle_0_sqr (x * y' - y * x')). assert (B := Rle_0_sqr (x * z' - z * x')). assert (C := Rle_0_sqr (y * z' - z * y')). unfold Rsqr in *. nra.
Qed.
Lemma cosine_range v w : v <> null_vec -> w <> null_vec -> -1 <= cosine v w <= 1.
Proof.
  intros Nv Nw. assert (Pv := norm3_pos v Nv). assert (Pw := norm3_pos w Nw). assert (C := cauchy v w). unfold cosine. set (n := norm3 v * norm3 w) in *. assert (Pn : 0 < n) by (unfold n; nra).
  assert (E : dot v w = dot v w / n * n) by (field; lra). set (c := dot v w / n) in *. rewrite E in C. assert (c * c <= 1) by (apply Rmult_le_reg_l with (n * n); nra). split; nra.
Qed.
Lemma angle_value ps o a b : nth a ps null_vec <> nth o ps null_vec -> nth b ps null_vec <> nth o ps null_vec ->
  get_angle ps o a b = acos (cosine (minus (nth a ps null_vec) (nth o ps null_vec)) (minus (nth b ps null_vec) (nth o ps null_vec))).
Proof.
  intros Na Nb. unfold get_angle. rewrite !diff_minus, !dot3_dot. unfold cosine. rewrite !dot_self. set (v := minus _ _). set (w := minus (nth b ps null_vec) _).
  replace (norm3 v * norm3 v * (norm3 w * norm3 w)) with (norm3 v * norm3 w * (norm3 v * norm3 w)) by ring. rewrite sqrt_square; auto.
  assert (0 < norm3 v) by (apply norm3_pos; unfold v; rewrite minus_null; auto). assert (0 < norm3 w) by (apply norm3_pos; unfold w; rewrite minus_null; auto). nra.
Qed.
(** getAngle gives the angle under which the two particles are seen, the only one; so the law of cosines holds. *)
Theorem C158_angle ps o a b : let at_ i := nth i ps null_vec in at_ a <> at_ o -> at_ b <> at_ o ->
  seen_under (at_ o) (at_ a) (at_ b) (get_angle ps o a b) /\ (forall theta, seen_under (at_ o) (at_ a) (at_ b) theta -> get_angle ps o a b = theta) /\
  let d i j := norm3 (minus (at_ i) (at_ j)) in d a b * d a b = d a o * d a o + d b o * d b o - 2 * d a o * d b o * cos (get_angle ps o a b).
Proof.
  cbv zeta. intros Na Nb. rewrite angle_value by auto. set (A := nth a ps null_vec) in *. set (B := nth b ps null_vec) in *. set (O := nth o ps null_vec) in *.
  assert (Pa : 0 < norm3 (minus A O)) by (apply norm3_pos; rewrite minus_null; auto). assert (Pb : 0 < norm3 (minus B O)) by (apply norm3_pos; rewrite minus_null; auto).
  assert (R1 : -1 <= cosine (minus A O) (minus B O) <= 1) by (apply cosine_range; rewrite minus_null; auto). split; [|split].
  - split; [apply acos_bound|]. rewrite cos_acos by auto. unfold cosine. field. lra.
  - intros t [T E]. unfold cosine. rewrite E. replace (norm3 (minus A O) * norm3 (minus B O) * cos t / (norm3 (minus A O) * norm3 (minus B O))) with (cos t) by (field; lra). apply acos_cos. auto.
  - rewrite cos_acos by auto. unfold cosine. assert (E : forall n m d, n <> 0 -> m <> 0 -> 2 * n * m * (d / (n * m)) = 2 * d) by (intros; field; auto). rewrite E by lra. clear.
    rewrite <- !dot_self. destruct A as [[x y] z], B as [[x' y'] z'], O as [[x'' y''] z'']. unfold dot, minus. ring.
Qed.
(** The order of the two particles does not matter, nor does any motion, mirror image or magnification. *)
Theorem C158_moved f ps o a b : similarity f -> (o < length ps)%nat -> (a < length ps)%nat -> (b < length ps)%nat -> nth a ps null_vec <> nth o ps null_vec -> nth b ps null_vec <> nth o ps null_vec ->
  get_angle (map f ps) o a b = get_angle ps o a b /\ get_angle ps o b a = get_angle ps o a b.
Proof.
  intros Sf Ho Ha Hb Na Nb. split.
  - rewrite !angle_value; rewrite ?nth_moved by auto; auto using similar_inj. rewrite cosine_similar by auto. auto.
  - rewrite !angle_value by auto. f_equal. unfold cosine. rewrite dot_sym. f_equal. ring.
Qed.
(** Equality in Cauchy-Schwarz *)
Lemma cross_null v w : (dot v w) * (dot v w) = (norm3 v * norm3 w) * (norm3 v * norm3 w) -> v <> null_vec -> w = scaled (dot v w / dot v v) v.
Proof.
  intros E Nv. assert (Pv := norm3_pos v Nv). assert (D : 0 < dot v v) by (rewrite dot_self; nra).
  replace (norm3 v * norm3 w * (norm3 v * norm3 w)) with (dot v v * dot w w) in E by (rewrite !dot_self; ring). destruct v as [[x y] z], w as [[x' y'] z'].
  assert (K : (x * y' - y * x') * (x * y' - y * x') + (x * z' - z * x') * (x * z' - z * x') + (y * z' - z * y') * (y * z' - z * y') = 0) by (unfold dot in E; nra).
  assert (Sq : forall p q r, p * p + q * q + r * r = 0 -> p = 0 /\ q = 0 /\ r = 0) by (intros; nra). destruct (Sq _ _ _ K) as [K1 [K2 K3]].
  assert (G : forall n d p q : R, 0 < d -> q * d = n * p -> q = n / d * p) by (intros n d p q Hd H; apply Rmult_eq_reg_r with d; [|lra]; rewrite H; field; lra).
  unfold scaled. unfold dot in *. f_equal; [f_equal|]; apply G; auto.
  - apply Rminus_diag_uniq. replace (_ - _) with (- y * (x * y' - y * x') - z * (x * z' - z * x')) by ring. rewrite K1, K2. ring.
  - apply Rminus_diag_uniq. replace (_ - _) with (x * (x * y' - y * x') - z * (y * z' - z * y')) by ring. rewrite K1, K3. ring.
  - apply Rminus_diag_uniq. replace (_ - _) with (x * (x * z' - z * x') + y * (y * z' - z * y')) by ring. rewrite K2, K3. ring.
Qed.
Lemma scaled_dot k v : dot v (scaled k v) = k * dot v v. Proof. destruct v as [[x y] z]. unfold dot, scaled. ring. Qed.
Lemma scaled_norm k v : norm3 (scaled k v) = Rabs k * norm3 v.
Proof. destruct v as [[x y] z]. unfold scaled, norm3. replace (k * x * (k * x) + k * y * (k * y) + k * z * (k * z)) with (k * k * (x * x + y * y + z * z)) by ring. rewrite sqrt_mult_alt by nra. f_equal. apply sqrt_Rsqr_abs. Qed.
Lemma scaled_cosine k v : v <> null_vec -> (0 < k -> cosine v (scaled k v) = 1) /\ (k < 0 -> cosine v (scaled k v) = -1).
Proof.
  intros Nv. assert (Pv := norm3_pos v Nv). unfold cosine. rewrite scaled_dot, scaled_norm, dot_self. split; intros H; [rewrite Rabs_pos_eq by lra|rewrite Rabs_left by auto]; field; lra.
Qed.
Lemma cosine_scaled v w e : v <> null_vec -> w <> null_vec -> (e = 1 \/ e = -1) -> cosine v w = e -> exists k, 0 < e * k /\ w = scaled k v.
Proof.
  intros Nv Nw He E. assert (Pv := norm3_pos v Nv). assert (Pw := norm3_pos w Nw). assert (D : dot v w = e * (norm3 v * norm3 w)) by (rewrite <- E; unfold cosine; field; lra).
  assert (D2 : 0 < dot v v) by (rewrite dot_self; nra). exists (dot v w / dot v v). split.
  - rewrite D. unfold Rdiv. replace (e * (e * (norm3 v * norm3 w) * / dot v v)) with (e * e * ((norm3 v * norm3 w) * / dot v v)) by ring. replace (e * e) with 1 by (destruct He as [-> | ->]; ring). assert (0 < / dot v v) by (apply Rinv_0_lt_compat; auto). assert (0 < norm3 v * norm3 w) by nra. nra.
  - apply cross_null; auto. rewrite D. destruct He as [-> | ->]; ring.
Qed.
Lemma between_scaled a o b : between a o b <-> exists k, k < 0 /\ minus b o = scaled k (minus a o).
Proof.
  destruct a as [[a1 a2] a3], o as [[o1 o2] o3], b as [[b1 b2] b3]. split.
  - intros [t [T H]]. assert (H1 := H _ (or_introl eq_refl)). assert (H2 := H _ (or_intror (or_introl eq_refl))). assert (H3 := H _ (or_intror (or_intror eq_refl))). cbn [fst snd] in *. exists (- (1 - t) / t). split.
    + unfold Rdiv. assert (0 < / t) by (apply Rinv_0_lt_compat; lra). nra.
    + subst. unfold minus, scaled. f_equal; [f_equal|]; field; lra.
  - intros [k [Hk E]]. unfold minus, scaled in E. injection E as E1 E2 E3. exists (/ (1 - k)). assert (I : 0 < / (1 - k)) by (apply Rinv_0_lt_compat; lra). split; [split; auto|].
    + rewrite <- Rinv_1. apply Rinv_lt_contravar; lra.
    + assert (X : forall x y z, y - x = k * (z - x) -> x = (1 - / (1 - k)) * z + / (1 - k) * y). { intros x y z F. replace y with (x + k * (z - x)) by lra. field. lra. }
      intros d [-> | [-> | ->]]; cbn [fst snd]; apply X; auto.
Qed.
(** A straight angle exactly when the particle is between the two others; a null angle exactly when they are in the same direction. *)
Theorem C158_straight ps o a b : let at_ i := nth i ps null_vec in at_ a <> at_ o -> at_ b <> at_ o ->
  (get_angle ps o a b = PI <-> between (at_ a) (at_ o) (at_ b)) /\ (get_angle ps o a b = 0 <-> same_side (at_ o) (at_ a) (at_ b)).
Proof.
  cbv zeta. intros Na Nb. rewrite angle_value by auto. set (A := nth a ps null_vec) in *. set (B := nth b ps null_vec) in *. set (O := nth o ps null_vec) in *.
  assert (Va : minus A O <> null_vec) by (rewrite minus_null; auto). assert (Vb : minus B O <> null_vec) by (rewrite minus_null; auto). assert (R1 := cosine_range _ _ Va Vb). split.
  - rewrite between_scaled. split.
    + intros E. assert (C : cosine (minus A O) (minus B O) = -1) by (rewrite <- (cos_acos _ R1), E; apply cos_PI). destruct (cosine_scaled _ _ (-1) Va Vb (or_intror eq_refl) C) as [k [Hk Ek]]. exists k. split; auto. lra.
    + intros [k [Hk ->]]. rewrite (proj2 (scaled_cosine k _ Va) Hk). rewrite <- cos_PI. apply acos_cos. assert (X := PI_RGT_0). lra.
  - split.
    + intros E. assert (C : cosine (minus A O) (minus B O) = 1) by (rewrite <- (cos_acos _ R1), E; apply cos_0). destruct (cosine_scaled _ _ 1 Va Vb (or_introl eq_refl) C) as [k [Hk Ek]]. exists k. split; auto. lra.
    + intros [k [Hk ->]]. rewrite (proj1 (scaled_cosine k _ Va) Hk). apply acos_1.
Qed.
(** The angles of a triangle of three different particles add up to a half-turn. *)
Lemma sides_angle A B O : A <> O -> B <> O -> cosine (minus A O) (minus B O) = (norm3 (minus A O) * norm3 (minus A O) + norm3 (minus B O) * norm3 (minus B O) - norm3 (minus A B) * norm3 (minus A B)) / (2 * norm3 (minus A O) * norm3 (minus B O)).
Proof.
  intros Na Nb. assert (Pa : 0 < norm3 (minus A O)) by (apply norm3_pos; rewrite minus_null; auto). assert (Pb : 0 < norm3 (minus B O)) by (apply norm3_pos; rewrite minus_null; auto).
  assert (E : 2 * dot (minus A O) (minus B O) = norm3 (minus A O) * norm3 (minus A O) + norm3 (minus B O) * norm3 (minus B O) - norm3 (minus A B) * norm3 (minus A B)) by (rewrite <- !dot_self; destruct A as [[x y] z], B as [[x' y'] z'], O as [[x'' y''] z'']; unfold dot, minus; ring).
  rewrite <- E. unfold cosine. field. lra.
Qed.
Lemma norm_flip a b : norm3 (minus a b) = norm3 (minus b a).
Proof. destruct a as [[x y] z], b as [[x' y'] z']. unfold minus, norm3. f_equal. ring. Qed.
Lemma triangle_sides A B O : norm3 (minus A B) <= norm3 (minus A O) + norm3 (minus B O).
Proof.
  assert (C := cauchy (minus A O) (minus B O)). assert (Pos : forall v, 0 <= norm3 v) by (intros [[x y] z]; apply sqrt_pos). assert (P1 := Pos (minus A O)). assert (P2 := Pos (minus B O)). assert (P3 := Pos (minus A B)).
  assert (E : 2 * dot (minus A O) (minus B O) = norm3 (minus A O) * norm3 (minus A O) + norm3 (minus B O) * norm3 (minus B O) - norm3 (minus A B) * norm3 (minus A B)) by (rewrite <- !dot_self; destruct A as [[x y] z], B as [[x' y'] z'], O as [[x'' y''] z'']; unfold dot, minus; ring).
  set (p := norm3 (minus A O)) in *. set (q := norm3 (minus B O)) in *. set (r := norm3 (minus A B)) in *. set (d := dot (minus A O) (minus B O)) in *. assert (D : - (p * q) <= d) by (apply Rsqr_neg_pos_le_0; [exact C|apply Rmult_le_pos; auto]). apply Rsqr_incr_0_var; [|lra]. unfold Rsqr. lra.
Qed.
Lemma half_turn a b c x y z : 0 < a -> 0 < b -> 0 < c -> a <= b + c -> b <= a + c -> c <= a + b ->
  x = (b * b + c * c - a * a) / (2 * b * c) -> y = (a * a + c * c - b * b) / (2 * a * c) -> z = (a * a + b * b - c * c) / (2 * a * b) -> acos x + acos y + acos z = PI.
Proof.
  intros Pa Pb Pc Ta Tb Tc Ex Ey Ez.
  set (K := (a + b + c) * (b + c - a) * (a + c - b) * (a + b - c)). assert (K0 : 0 <= K) by (unfold K; repeat apply Rmult_le_pos; lra).
  assert (Sx : 1 - x * x = K / ((2 * b * c) * (2 * b * c))) by (rewrite Ex; unfold K; field; lra). assert (Sy : 1 - y * y = K / ((2 * a * c) * (2 * a * c))) by (rewrite Ey; unfold K; field; lra). assert (Sz : 1 - z * z = K / ((2 * a * b) * (2 * a * b))) by (rewrite Ez; unfold K; field; lra).
  assert (Q : forall u v, 0 < u -> 1 - v * v = K / (u * u) -> -1 <= v <= 1 /\ sqrt (1 - v * v) = sqrt K / u).
  { intros u v Hu E. split. - assert (0 <= K / (u * u)) by (unfold Rdiv; apply Rmult_le_pos; auto; apply Rlt_le, Rinv_0_lt_compat; nra). split; nra.
    - rewrite E, sqrt_div_alt by nra. f_equal. apply sqrt_square. lra. }
  assert (P1 : 0 < b * c) by nra. assert (P2 : 0 < a * c) by nra. assert (P3 : 0 < a * b) by nra.
  destruct (Q (2 * b * c) x ltac:(lra) Sx) as [Rx Qx]. destruct (Q (2 * a * c) y ltac:(lra) Sy) as [Ry Qy]. destruct (Q (2 * a * b) z ltac:(lra) Sz) as [Rz Qz].
  assert (Bx := acos_bound x). assert (By := acos_bound y). assert (Bz := acos_bound z).
  assert (C1 : cos (acos x + acos y) = - z). { rewrite cos_plus, !cos_acos, !sin_acos by auto. change (Rsqr x) with (x * x). change (Rsqr y) with (y * y). rewrite Qx, Qy. replace (sqrt K / (2 * b * c) * (sqrt K / (2 * a * c))) with ((sqrt K * sqrt K) / ((2 * b * c) * (2 * a * c))) by (field; lra). rewrite sqrt_sqrt by auto. rewrite Ex, Ey, Ez. unfold K. field. lra. }
  assert (L : acos x + acos y <= PI). { assert (X : x + y = (a + b) * ((a + c - b) * (b + c - a)) / (2 * a * b * c)) by (rewrite Ex, Ey; field; lra).
    assert (0 <= x + y). { rewrite X. unfold Rdiv. apply Rmult_le_pos; [apply Rmult_le_pos; [lra|apply Rmult_le_pos; lra]|]. apply Rlt_le, Rinv_0_lt_compat. nra. }
    assert (Y : acos x <= PI - acos y); [|lra]. apply cos_decr_0; try lra. rewrite cos_minus, cos_PI, sin_PI, !cos_acos by auto. lra. }
  assert (W : acos x + acos y = PI - acos z); [|lra]. apply cos_inj; try lra. rewrite C1, cos_minus, cos_PI, sin_PI, cos_acos by auto. lra.
Qed.
Theorem C158_triangle ps i j k : let at_ p := nth p ps null_vec in at_ i <> at_ j -> at_ j <> at_ k -> at_ k <> at_ i -> get_angle ps i j k + get_angle ps j k i + get_angle ps k i j = PI.
Proof.
  cbv zeta. intros N1 N2 N3. rewrite !angle_value by auto. set (A := nth i ps null_vec) in *. set (B := nth j ps null_vec) in *. set (C := nth k ps null_vec) in *.
  assert (P : forall u v, u <> v -> 0 < norm3 (minus u v)) by (intros; apply norm3_pos; rewrite minus_null; auto). rewrite !sides_angle by auto.
  assert (T1 := triangle_sides B C A). assert (T2 := triangle_sides C A B). assert (T3 := triangle_sides A B C). rewrite (norm_flip B A) in *. rewrite (norm_flip C B) in *. rewrite (norm_flip A C) in *.
  assert (Pa := P B C N2). assert (Pb := P C A N3). assert (Pc := P A B N1). apply (half_turn (norm3 (minus B C)) (norm3 (minus C A)) (norm3 (minus A B))); auto; try lra; field; lra.
Qed.

(** * The distribution *)
Lemma bin_degrees ps o a b k : angle_bin ps o a b = k <-> degrees k (get_angle ps o a b).
Proof.
  unfold angle_bin. assert (T : 0 <= get_angle ps o a b) by (unfold get_angle; apply acos_bound). set (t := get_angle ps o a b) in *. assert (Pp := PI_RGT_0). destruct (base_Int_part (t * 180 / PI)) as [B1 B2]. set (x := t * 180 / PI) in *. assert (X0 : 0 <= x) by (unfold x, Rdiv; apply Rmult_le_pos; [lra|apply Rlt_le, Rinv_0_lt_compat; auto]).
  assert (Tx : t = x * (PI / 180)) by (unfold x; field; lra). assert (Z0 : (0 <= Int_part x)%Z). { assert ((-1 < Int_part x)%Z); [|lia]. apply lt_IZR. lra. }
  assert (U : 0 < PI / 180) by lra. unfold degrees. rewrite Tx. split.
  - intros <-. rewrite INR_IZR_INZ, Z2Nat.id by auto. split; [apply Rmult_le_compat_r; lra|apply Rmult_lt_compat_r; lra].
  - intros [H1 H2]. apply Rmult_le_reg_r in H1; auto. apply Rmult_lt_reg_r in H2; auto. rewrite INR_IZR_INZ in *. apply Nat2Z.inj. rewrite Z2Nat.id by auto.
    assert ((Int_part x < Z.of_nat k + 1)%Z) by (apply lt_IZR; rewrite plus_IZR; lra). assert ((Z.of_nat k < Int_part x + 1)%Z) by (apply lt_IZR; rewrite plus_IZR; lra). lia.
Qed.
Lemma ang_inner_ext bin bin' num scale a : forall bs d, (forall b, In b bs -> bin a b = bin' a b) -> ang_inner bin num scale a bs d = ang_inner bin' num scale a bs d.
Proof. induction bs as [|b bs IH]; intros d H; cbn [ang_inner]; auto. rewrite (H b (or_introl eq_refl)). rewrite !IH by (intros; apply H; right; auto). auto. Qed.
Lemma ang_loop_ext bin bin' num scale : forall l d, (forall a b, In a l -> In b l -> bin a b = bin' a b) -> ang_loop bin num scale l d = ang_loop bin' num scale l d.
Proof.
  induction l as [|a l IH]; intros d H; cbn [ang_loop]; auto. rewrite (ang_inner_ext bin bin') by (intros; apply H; [left|right]; auto). destruct (num =? a)%nat; [apply IH; intros; apply H; right; auto|]. destruct (ang_inner bin' num scale a l d); auto. apply IH. intros. apply H; right; auto.
Qed.
Lemma ang_inner_none bin num scale a : forall bs d, (exists b, In b bs /\ b <> num /\ (length d <= bin a b)%nat) -> ang_inner bin num scale a bs d = None.
Proof.
  induction bs as [|b bs IH]; intros d [c [I [N L]]]; [destruct I|]. cbn [ang_inner]. destruct (Nat.eqb_spec num b) as [E|E].
  - destruct I as [->|I]; [congruence|]. apply IH. eauto.
  - destruct (Nat.ltb_spec (bin a b) (length d)) as [F|F]; auto. destruct I as [->|I]; [lia|]. apply IH. exists c. rewrite set_nth_len. auto.
Qed.
Lemma ang_inner_len bin num scale a : forall bs d d', ang_inner bin num scale a bs d = Some d' -> length d' = length d.
Proof.
  induction bs as [|b bs IH]; intros d d' E; cbn [ang_inner] in E; [congruence|]. destruct (num =? b)%nat; [eauto|]. destruct (bin a b <? length d)%nat; [|discriminate]. apply IH in E. rewrite set_nth_len in E. auto.
Qed.
Lemma ang_loop_none bin num scale : forall l d k, angle_in_bin bin num l k -> (length d <= k)%nat -> ang_loop bin num scale l d = None.
Proof.
  induction l as [|a l IH]; intros d k A L; cbn [ang_loop].
  - destruct A as [i [j [x [y [_ [H _]]]]]]. destruct i; discriminate.
  - apply angle_cons in A as [[Na [b [I [Nb E]]]]|A].
    + rewrite (proj2 (Nat.eqb_neq num a)) by auto. rewrite ang_inner_none; auto. exists b. subst k. auto.
    + destruct (num =? a)%nat; [eauto|]. destruct (ang_inner bin num scale a l d) as [d'|] eqn:E; auto. apply ang_inner_len in E. apply (IH d' k); auto. lia.
Qed.
Lemma two_in l a b : two_of l a b -> In a l /\ In b l.
Proof. intros [i [j [_ [A B]]]]. split; eapply nth_error_In; eauto. Qed.
Lemma angle_two ps ngb num k : apart ps ngb -> angle_in_bin (angle_bin ps num) num (nth num ngb []) k <-> exists a b theta, two_of (nth num ngb []) a b /\ seen_under (nth num ps null_vec) (nth a ps null_vec) (nth b ps null_vec) theta /\ degrees k theta.
Proof.
  intros A. split.
  - intros [i [j [a [b [L [Ha [Hb [Na [Nb E]]]]]]]]]. assert (T : two_of (nth num ngb []) a b) by (exists i, j; auto). destruct (two_in _ _ _ T) as [Ia Ib]. exists a, b, (get_angle ps num a b). split; auto. split; [apply C158_angle; apply A; auto|]. apply bin_degrees. auto.
  - intros [a [b [t [T [Se D]]]]]. destruct (two_in _ _ _ T) as [Ia Ib]. assert (Na := A _ _ Ia). assert (Nb := A _ _ Ib). destruct T as [i [j [L [Ha Hb]]]]. exists i, j, a, b. split; auto. split; auto. split; auto. split; [congruence|]. split; [congruence|]. apply bin_degrees. rewrite (proj1 (proj2 (C158_angle ps num a b Na Nb)) t Se). auto.
Qed.
Lemma scale_value n : let w := ang_scale n in ((n <= 3)%nat -> (w == 1)%Q) /\ ((3 <= n)%nat -> (w * inject_Z (Z.of_nat ((n - 1) * (n - 2))) == 2)%Q).
Proof.
  cbv zeta. unfold ang_scale. split; intros H.
  - destruct n as [|[|[|[|n]]]]; try reflexivity. lia.
  - rewrite (proj2 (Nat.ltb_lt 2 n)) by lia. assert (E : exists m, (0 < m)%nat /\ ((n - 1) * (n - 2) = 2 * m)%nat).
    { destruct (Nat.Even_or_Odd n) as [[m ->]|[m ->]]; [exists ((2 * m - 1) * (m - 1))%nat|exists (m * (2 * m - 1))%nat]; split; nia. }
    destruct E as [m [M ->]]. replace (2 * m / 2)%nat with m by (rewrite Nat.mul_comm, Nat.div_mul; auto). unfold Qeq, Qmult, inject_Z. cbn [Qnum Qden]. assert (Z.pos (Pos.of_nat m) = Z.of_nat m) by (rewrite <- positive_nat_Z, Nat2Pos.id by lia; auto). rewrite Pos.mul_1_r, H0. lia.
Qed.
(** Unless the particle is exactly between two neighbours: 180 values, the one of k degrees is null unless two neighbours are seen under k whole degrees. *)
Theorem C158_distribution ps ngb num : apart ps ngb -> let l := nth num ngb [] in let at_ i := nth i ps null_vec in
  (forall a b, two_of l a b -> ~ between (at_ a) (at_ num) (at_ b)) ->
  exists d w, angles_around ps ngb num = Some d /\ length d = 180%nat /\
    ((length l <= 3)%nat -> (w == 1)%Q) /\ ((3 <= length l)%nat -> (w * inject_Z (Z.of_nat ((length l - 1) * (length l - 2))) == 2)%Q) /\
    forall k, (k < 180)%nat -> let hit := exists a b theta, two_of l a b /\ seen_under (at_ num) (at_ a) (at_ b) theta /\ degrees k theta in
      (hit -> nth_error d k = Some w) /\ (~ hit -> nth_error d k = Some 0%Q).
Proof.
  cbv zeta. intros A NB. destruct (C41_angles (angle_bin ps num) num (nth num ngb [])) as [d [E [L H]]].
  - intros k [i [j [a [b [Lij [Ha [Hb [Na [Nb E]]]]]]]]]. assert (T : two_of (nth num ngb []) a b) by (exists i, j; auto). destruct (two_in _ _ _ T) as [Ia Ib]. specialize (NB _ _ T).
    assert (Ang : get_angle ps num a b < PI). { assert (X := proj1 (C158_straight ps num a b (A _ _ Ia) (A _ _ Ib))). destruct (proj1 (C158_angle ps num a b (A _ _ Ia) (A _ _ Ib))) as [[_ U] _]. destruct U as [U|U]; auto. tauto. }
    apply bin_degrees in E. destruct E as [E _]. apply INR_lt. assert (Pp := PI_RGT_0). apply Rmult_lt_reg_r with (PI / 180); [lra|]. replace (INR 180) with 180 by (rewrite INR_IZR_INZ; auto). replace (180 * (PI / 180)) with PI by field. lra.
  - exists d, (ang_scale (length (nth num ngb []))). destruct (scale_value (length (nth num ngb []))) as [W1 W2]. split; auto. split; auto. split; auto. split; auto. intros k Hk. destruct (H k Hk) as [H1 H2]. rewrite <- (angle_two ps ngb num k A). auto.
Qed.
(** With a particle exactly between two neighbours, it writes out of the array. *)
Theorem C158_opposite ps ngb num a b : apart ps ngb -> two_of (nth num ngb []) a b -> between (nth a ps null_vec) (nth num ps null_vec) (nth b ps null_vec) -> angles_around ps ngb num = None.
Proof.
  intros A T B. destruct (two_in _ _ _ T) as [Ia Ib]. assert (E := proj2 (proj1 (C158_straight ps num a b (A _ _ Ia) (A _ _ Ib))) B).
  unfold angles_around, angular_distribution. assert (L : (1 <? length (nth num ngb []))%nat = true). { apply Nat.ltb_lt. destruct T as [i [j [Lij [_ Hj]]]]. apply nth_error_lt in Hj. lia. } rewrite L. apply (ang_loop_none _ _ _ _ _ 180%nat); [|rewrite repeat_length; auto].
  destruct T as [i [j [Lij [Ha Hb]]]]. exists i, j, a, b. split; auto. split; auto. split; auto. split; [intros ->; exact (A _ _ Ia eq_refl)|]. split; [intros ->; exact (A _ _ Ib eq_refl)|]. apply bin_degrees. rewrite E. assert (Pp := PI_RGT_0). unfold degrees. replace (INR 180) with 180 by (rewrite INR_IZR_INZ; auto). split; lra.
Qed.
(** It does not change when the sample is moved, turned, mirrored or magnified. *)
Theorem C158_moved_distribution f ps ngb num : similarity f -> length ngb = length ps -> ngb_ok ngb -> apart ps ngb -> (num < length ps)%nat -> angles_around (map f ps) ngb num = angles_around ps ngb num.
Proof.
  intros Sf Hn Hok A Hc. unfold angles_around, angular_distribution. destruct (1 <? length (nth num ngb []))%nat; auto. apply ang_loop_ext. intros a b Ia Ib. unfold angle_bin.
  assert (Hc' : (num < length ngb)%nat) by lia. destruct (Hok num (nth num ngb []) (nth_error_nth' _ _ Hc')) as [_ R1]. rewrite (proj1 (C158_moved f ps num a b Sf Hc ltac:(rewrite <- Hn; apply R1; auto) ltac:(rewrite <- Hn; apply R1; auto) (A _ _ Ia) (A _ _ Ib))). auto.
Qed.
(** Three neighbours along the axes, none opposite: the right angle is the only one; two opposite ones. *)
Example C158_case : let ps := [(0, 0, 0); (1, 0, 0); (0, 2, 0); (0, 0, 3)] in let ngb := [[1; 2; 3]; [0]; [0]; [0]]%nat in apart ps ngb /\ seen_under (0, 0, 0) (1, 0, 0) (0, 2, 0) (PI / 2) /\ degrees 90 (PI / 2) /\
  (forall a b, two_of [1; 2; 3]%nat a b -> ~ between (nth a ps null_vec) (0, 0, 0) (nth b ps null_vec)) /\ between (1, 0, 0) (0, 0, 0) (-1, 0, 0).
Proof.
  cbv zeta. split; [intros [|[|[|[|c]]]] q I; cbn [nth] in I; try (destruct c; destruct I); repeat (destruct I as [<-|I]; [cbn [nth]; intros E; injection E; lra|]); destruct I|].
  split; [|split; [|split]].
  - split; [assert (X := PI_RGT_0); lra|]. rewrite cos_PI2. unfold dot, minus. ring.
  - assert (X := PI_RGT_0). unfold degrees. replace (INR 90) with 90 by (rewrite INR_IZR_INZ; auto). split; lra.
  - intros a b [i [j [L [Ha Hb]]]] [t [T H]]. assert (H1 := H _ (or_introl eq_refl)). assert (H2 := H _ (or_intror (or_introl eq_refl))). assert (H3 := H _ (or_intror (or_intror eq_refl))).
    destruct i as [|[|[|i]]]; try (destruct i; discriminate); injection Ha as <-; (destruct j as [|[|[|j]]]; try lia; try (destruct j; discriminate); injection Hb as <-); cbn [nth fst snd] in *; lra.
  - exists (1 / 2). split; [lra|]. intros d [-> | [-> | ->]]; cbn [fst snd]; lra.
Qed.

Print Assumptions C158_angle.
Print Assumptions C158_moved.
Print Assumptions C158_straight.
Print Assumptions C158_triangle.
Print Assumptions C158_distribution.
Print Assumptions C158_opposite.
Print Assumptions C158_moved_distribution.
Print Assumptions C158_case.

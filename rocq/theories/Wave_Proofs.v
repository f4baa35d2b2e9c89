(** Sums of numbers, cosines, uniqueness of positions: lemmas for C160. *)
Require Import Reals List Arith ZArith Lia Lra Psatz.
Require Import Verif.Base Verif.ListX Verif.Traj_Model Verif.Traj_Spec Verif.Dyn_Spec Verif.Corr_Spec Verif.Euler_Model Verif.Euler_Spec Verif.Wave_Model Verif.Wave_Spec.
Import ListNotations.
Local Open Scope R_scope.

Lemma total_app a b : total_of (a ++ b) = total_of a + total_of b. Proof. unfold total_of. induction a as [|x a IH]; cbn [app fold_right]; [ring|rewrite IH; ring]. Qed.
Lemma total_left l s : fold_left Rplus l s = s + total_of l. Proof. revert s. induction l as [|x l IH]; intros s; cbn; [ring|rewrite IH; unfold total_of; ring]. Qed.
Lemma total_map_scal {A} c (f : A -> R) l : total_of (map (fun x => c * f x) l) = c * total_of (map f l).
Proof. unfold total_of. induction l as [|x l IH]; cbn [map fold_right]; [ring|rewrite IH; ring]. Qed.
Lemma total_le {A} (f g : A -> R) l : (forall x, In x l -> f x <= g x) -> total_of (map f l) <= total_of (map g l).
Proof. unfold total_of. induction l as [|x l IH]; intros H; cbn [map fold_right]; [lra|]. assert (H1 := H x (or_introl eq_refl)). assert (H2 := IH (fun y Hy => H y (or_intror Hy))). lra. Qed.
Lemma total_const {A} c (l : list A) : total_of (map (fun _ => c) l) = INR (length l) * c.
Proof. unfold total_of. induction l as [|x l IH]; [cbn; ring|]. cbn [map fold_right length]. rewrite S_INR, IH. ring. Qed.
Lemma total_flat {A} (f : A -> list R) l : total_of (flat_map f l) = total_of (map (fun x => total_of (f x)) l).
Proof. induction l as [|x l IH]; [reflexivity|]. cbn [flat_map map]. rewrite total_app, IH. reflexivity. Qed.
Lemma total_repeat c n : total_of (repeat c n) = INR n * c.
Proof. induction n as [|n IH]; [cbn; ring|]. cbn [repeat]. unfold total_of in *. cbn [fold_right]. rewrite IH, S_INR. ring. Qed.
Lemma total_bounds lo hi l : (forall x, In x l -> lo <= x <= hi) -> INR (length l) * lo <= total_of l <= INR (length l) * hi.
Proof. unfold total_of. induction l as [|x l IH]; intros H; [cbn; lra|]. cbn [length fold_right]. rewrite S_INR. assert (H1 := H x (or_introl eq_refl)). assert (H2 := IH (fun y Hy => H y (or_intror Hy))). lra. Qed.
Lemma total_top l : (forall x, In x l -> x <= 1) -> total_of l = INR (length l) -> forall x, In x l -> x = 1.
Proof.
  induction l as [|y l IH]; intros H E x Hx; [destruct Hx|]. cbn [length] in E. rewrite S_INR in E. unfold total_of in *. cbn [fold_right] in E. assert (H1 := H y (or_introl eq_refl)).
  assert (B : fold_right Rplus 0 l <= INR (length l)). { clear - H. assert (H' := fun z Hz => H z (or_intror Hz)). clear H. induction l as [|z l IH]; [cbn; lra|]. cbn [length fold_right]. rewrite S_INR. assert (A := H' z (or_introl eq_refl)). assert (B := IH (fun w Hw => H' w (or_intror Hw))). lra. }
  destruct Hx as [<-|Hx]; [lra|]. apply IH; auto; [intros; apply H; right; auto|lra].
Qed.
Lemma INR_pos n : (0 < n)%nat -> 0 < INR n. Proof. apply lt_0_INR. Qed.
Lemma mean_bounds lo hi l : l <> [] -> (forall x, In x l -> lo <= x <= hi) -> lo <= mean_of l <= hi.
Proof.
  intros N H. assert (P : 0 < INR (length l)) by (apply INR_pos; destruct l; [congruence|cbn; lia]). assert (B := total_bounds lo hi l H). unfold mean_of. split; apply (Rmult_le_reg_r (INR (length l))); auto; unfold Rdiv; rewrite Rmult_assoc, Rinv_l by lra; lra.
Qed.
Lemma mean_top l : l <> [] -> (forall x, In x l -> x <= 1) -> (mean_of l = 1 <-> forall x, In x l -> x = 1).
Proof.
  intros N H. assert (P : 0 < INR (length l)) by (apply INR_pos; destruct l; [congruence|cbn; lia]). split.
  - intros E. apply total_top; auto. unfold mean_of in E. apply (f_equal (fun x => x * INR (length l))) in E. unfold Rdiv in E. rewrite Rmult_assoc, Rinv_l in E by lra. lra.
  - intros E. assert (B := mean_bounds 1 1 l N ltac:(intros x Hx; rewrite (E x Hx); lra)). lra.
Qed.
Lemma flat_shift {A} (f : nat -> list A) t0 n s : flat_map (fun a => f (a + t0)%nat) (seq s n) = flat_map f (seq (s + t0) n).
Proof. revert s. induction n as [|n IH]; intros s; [reflexivity|]. cbn [seq flat_map]. rewrite IH. reflexivity. Qed.
Lemma flat_len {A B} (f : A -> list B) l k : (forall x, In x l -> length (f x) = k) -> length (flat_map f l) = (length l * k)%nat.
Proof. induction l as [|x l IH]; intros H; [reflexivity|]. cbn [flat_map length]. rewrite app_length, (H x (or_introl eq_refl)), IH by (intros; apply H; right; auto). lia. Qed.

(** * Cosines *)
Lemma cos_pi_half x : 1 - cos x = 2 * (sin (x / 2) * sin (x / 2)).
Proof. replace (cos x) with (cos (2 * (x / 2))) by (f_equal; field). rewrite cos_2a_sin. ring. Qed.
Lemma cos_one x : cos x = 1 <-> exists k : Z, x = 2 * IZR k * PI.
Proof.
  split.
  - intros E. assert (H := cos_pi_half x). rewrite E in H. assert (S0 : sin (x / 2) = 0) by (apply Rsqr_0_uniq; unfold Rsqr; lra). apply sin_eq_0_0 in S0. destruct S0 as [k K]. exists k. lra.
  - intros [k ->]. assert (H := cos_pi_half (2 * IZR k * PI)). assert (S0 : sin (2 * IZR k * PI / 2) = 0) by (apply sin_eq_0_1; exists k; field). rewrite S0 in H. lra.
Qed.
Lemma sin_sq y : sin y * sin y <= y * y.
Proof.
  assert (G : forall y, 0 <= y -> sin y * sin y <= y * y).
  { clear y. intros y Hy. assert (B := SIN_bound y). destruct (Req_dec y 0) as [->|N]; [rewrite sin_0; lra|]. assert (L := sin_lt_x y ltac:(lra)). assert (L2 : - y <= sin y). { destruct (Rle_dec 1 y); [lra|]. assert (P := PI_RGT_0). assert (Q := PI2_1). assert (S := sin_ge_0 y ltac:(lra) ltac:(lra)). lra. } nra. }
  destruct (Rle_dec 0 y) as [H|H]; [auto|]. specialize (G (- y) ltac:(lra)). rewrite sin_neg in G. lra.
Qed.
Lemma cos_low x : 1 - x * x / 2 <= cos x.
Proof. assert (H := cos_pi_half x). assert (S := sin_sq (x / 2)). replace (x / 2 * (x / 2)) with (x * x / 4) in S by field. lra. Qed.
Lemma cauchy_dot a b : dot a b * dot a b <= dot a a * dot b b.
Proof.
  destruct a as [[x y] z], b as [[x' y'] z']. unfold dot. assert (H1 := Rle_0_sqr (x * y' - y * x')). assert (H2 := Rle_0_sqr (x * z' - z * x')). assert (H3 := Rle_0_sqr (y * z' - z * y')). unfold Rsqr in *.
  apply Rminus_le. match goal with |- ?e <= 0 => replace e with (- ((x * y' - y * x') * (x * y' - y * x') + (x * z' - z * x') * (x * z' - z * x') + (y * z' - z * y') * (y * z' - z * y'))) by ring end. lra.
Qed.
Lemma cos_dot d q : 1 - dot q q * dot d d / 2 <= cos (dot d q).
Proof. assert (A := cos_low (dot d q)). assert (B := cauchy_dot d q). lra. Qed.
Lemma dot_pos d : 0 <= dot d d. Proof. destruct d as [[x y] z]. unfold dot. nra. Qed.
Lemma dot_minus_l a b c : dot (minus a b) c = dot a c - dot b c. Proof. destruct a as [[x y] z], b as [[x' y'] z'], c as [[t u] v]. unfold dot, minus. ring. Qed.
Lemma cross_minus q x y : wave_cross (wave_of q x) (wave_of q y) = cos (dot (minus x y) q).
Proof. rewrite dot_minus_l, cos_minus. destruct x as [[x1 x2] x3], y as [[y1 y2] y3], q as [[q1 q2] q3]. reflexivity. Qed.

(** * Positions *)
Lemma value_unique {V} (frames : list (list V)) T t x y : value_at frames T t x -> value_at frames T t y -> x = y.
Proof.
  intros [p [f [[k [Ek Hk]] [Ef Ep]]]] [p' [f' [[k' [Ek' Hk']] [Ef' Ep']]]]. assert (k = k') by lia. subst k'. rewrite Hk in Hk'. injection Hk' as <-. rewrite Ef in Ef'. injection Ef' as <-. rewrite Ep in Ep'. injection Ep' as <-. reflexivity.
Qed.
Lemma placed_unique {V} (frames : list (list V)) ti sel t ps : placed frames ti sel t ps -> forall qs, placed frames ti sel t qs -> ps = qs.
Proof.
  unfold placed. induction 1 as [|tr p sel ps [T [ET HT]] F IH]; intros qs G; inversion G as [|? q ? qs' [T' [ET' HT']] G']; subst; [reflexivity|]. rewrite ET in ET'. injection ET' as <-. f_equal; [eapply value_unique; eauto|auto].
Qed.
Lemma displacements_of frames ti sel a b xs : placed frames ti sel a xs -> forall ys, placed frames ti sel b ys -> displacements frames ti sel a b (map (fun yx => minus (fst yx) (snd yx)) (combine ys xs)).
Proof.
  unfold placed, displacements. induction 1 as [|tr x sel xs [T [ET HT]] F IH]; intros ys G; inversion G as [|? y ? ys' [T' [ET' HT']] G']; subst; [constructor|]. rewrite ET in ET'. injection ET' as <-. cbn [combine map]. constructor; [exists T, x, y; auto|auto].
Qed.
Lemma displacements_unique frames ti sel a b ds : displacements frames ti sel a b ds -> forall es, displacements frames ti sel a b es -> ds = es.
Proof.
  unfold displacements. induction 1 as [|tr d sel ds [T [x [y [ET [Hx [Hy ->]]]]]] F IH]; intros es G; inversion G as [|? e ? es' [T' [x' [y' [ET' [Hx' [Hy' ->]]]]]] G']; subst; [reflexivity|]. rewrite ET in ET'. injection ET' as <-. f_equal; [rewrite (value_unique _ _ _ _ _ Hx Hx'), (value_unique _ _ _ _ _ Hy Hy'); reflexivity|auto].
Qed.
Lemma displacements_length frames ti sel a b ds : displacements frames ti sel a b ds -> length ds = length sel.
Proof. unfold displacements. induction 1; cbn; congruence. Qed.

(** The sum of getInvarients is the trilinear invariant of Cubic_Proofs. *)
Require Import Reals Qreals QArith ZArith List Bool Arith Lia Lra Ring.
Require Import Verif.Base Verif.Traj_Model Verif.Particles_Model Verif.Boo_Model Verif.Boo_Spec Verif.Boo_Proofs Verif.Boo_Props Verif.Euler_Model Verif.Euler_Cplx Verif.Euler_Proofs.
Require Import Verif.Cubic_Model Verif.Cubic_Proofs.
Import ListNotations.
Local Open Scope R_scope.
Local Open Scope C_scope.

(** * The table *)
Lemma at_index_map {A B} (f : A -> B) l i x : at_index l i = Val x -> at_index (map f l) i = Val (f x).
Proof. unfold at_index. rewrite nth_error_map. destruct (nth_error l i); [|discriminate]. intros E. injection E as <-. auto. Qed.
Lemma same_sign x y : (x * x = y * y)%R -> (0 <= x * y)%R -> x = y.
Proof. intros E H. assert (D : ((x - y) * (x + y) = 0)%R) by lra. apply Rmult_integral in D as [D|D]; [lra|]. assert (x = (- y)%R) by lra. subst x. assert (y * y <= 0)%R by lra. assert (0 <= y * y)%R by apply Rle_0_sqr. assert (Y : (y * y = 0)%R) by lra. apply Rmult_integral in Y. destruct Y; lra. Qed.
Lemma Q2R_sign a : exists d, (0 < d)%R /\ Q2R a = (IZR (Qnum a) * d)%R.
Proof. exists (/ IZR (Zpos (Qden a)))%R. split; [apply Rinv_0_lt_compat, IZR_lt; lia|reflexivity]. Qed.
Lemma root_equal a r b s : same_root a r b s -> (0 < Qnum r)%Z -> (0 < Qnum s)%Z -> (Q2R a * sqrt (Q2R r) = Q2R b * sqrt (Q2R s))%R.
Proof.
  intros [E S] Hr Hs. apply Qeq_eqR in E. rewrite !Q2R_mult in E.
  assert (Pr : (0 < Q2R r)%R) by (destruct (Q2R_sign r) as [d [D ->]]; apply Rmult_lt_0_compat; auto; apply IZR_lt; auto). assert (Ps : (0 < Q2R s)%R) by (destruct (Q2R_sign s) as [d [D ->]]; apply Rmult_lt_0_compat; auto; apply IZR_lt; auto).
  assert (Sr := sqrt_sqrt _ (Rlt_le _ _ Pr)). assert (Ss := sqrt_sqrt _ (Rlt_le _ _ Ps)). assert (Tr := sqrt_lt_R0 _ Pr). assert (Ts := sqrt_lt_R0 _ Ps). set (x := sqrt (Q2R r)) in *. set (y := sqrt (Q2R s)) in *.
  apply same_sign; [rewrite <- Sr, <- Ss in E; transitivity (Q2R a * Q2R a * (x * x))%R; [ring|rewrite E; ring]|].
  rewrite (Z.sgn_pos (Qnum r)), (Z.sgn_pos (Qnum s)), !Z.mul_1_r in S by auto. destruct (Q2R_sign a) as [d [D Ea]], (Q2R_sign b) as [d' [D' Eb]].
  replace (Q2R a * x * (Q2R b * y))%R with (Q2R a * Q2R b * (x * y))%R by ring. apply Rmult_le_pos; [|apply Rlt_le, Rmult_lt_0_compat; auto]. rewrite Ea, Eb. replace (IZR (Qnum a) * d * (IZR (Qnum b) * d'))%R with (IZR (Qnum a * Qnum b) * (d * d'))%R by (rewrite mult_IZR; ring).
  apply Rmult_le_pos; [|apply Rlt_le, Rmult_lt_0_compat; auto]. apply IZR_le. destruct (Qnum a), (Qnum b); cbn in S; lia.
Qed.
Lemma w3j_value l m1 m2 : degree l -> legal l m1 m2 -> get_w3j w3j_real l m1 m2 = Val (Q2R (racah_coef (Z.of_nat l) m1 m2) * sqrt (Q2R (racah_rad (Z.of_nat l) m1 m2)))%R.
Proof.
  intros Hl Hm. destruct (C74_table_is_wigner_3j l m1 m2 Hl Hm) as [c [r [E S]]]. destruct (C74_radicands l m1 m2 c r Hl Hm E) as [P1 P2]. rewrite <- (root_equal _ _ _ _ S P1 P2). unfold get_w3j in *. destruct (w3j_index l m1 m2) as [i| |]; try discriminate. cbn [obind] in *. exact (at_index_map (fun p => (Q2R (fst p) * sqrt (Q2R (snd p)))%R) _ _ _ E).
Qed.
Lemma real_table_length : length w3j_real = 91%nat. Proof. unfold w3j_real. rewrite map_length. reflexivity. Qed.

(** * Factorials *)
Lemma zprod_app l1 l2 : zprod (l1 ++ l2) = (zprod l1 * zprod l2)%Z.
Proof. unfold zprod. induction l1 as [|a l1 IH]; cbn [app fold_right]; [destruct (fold_right Z.mul 1%Z l2); auto|]. rewrite IH. ring. Qed.
Lemma zfact_nat n : zfact (Z.of_nat n) = Z.of_nat (fact n).
Proof.
  unfold zfact. rewrite Nat2Z.id. induction n as [|n IH]; [reflexivity|]. rewrite seq_S, map_app, zprod_app, IH. unfold zprod. cbn [map fold_right]. replace (1 + n)%nat with (S n) by lia. cbn [fact]. lia.
Qed.
Lemma zfact_pos z : (0 < zfact z)%Z.
Proof. unfold zfact. generalize (Z.to_nat z). intros n. assert (E := zfact_nat n). unfold zfact in E. rewrite Nat2Z.id in E. rewrite E. assert (H := lt_O_fact n). lia. Qed.
Lemma zfact_R z n : z = Z.of_nat n -> IZR (zfact z) = INR (fact n). Proof. intros ->. rewrite zfact_nat, <- INR_IZR_INZ. auto. Qed.
Lemma Q2R_frac a p : (0 < p)%Z -> Q2R (a # Z.to_pos p) = (IZR a / IZR p)%R.
Proof. intros H. unfold Q2R. cbn [Qnum Qden]. rewrite Z2Pos.id by auto. reflexivity. Qed.

(** * The symbols *)
Definition scale3 (l : nat) : R := sqrt (INR (fact l) ^ 3 / INR (fact (3 * l + 1))).
Lemma wt_fw n j : (wt n j * wt n j = fw n j)%R. Proof. unfold wt, fw. apply sqrt_sqrt, Rmult_le_pos; left; apply fact_pos. Qed.
Lemma rad_value l j1 j2 j3 : (j1 <= 2 * l)%nat -> (j2 <= 2 * l)%nat -> (j3 <= 2 * l)%nat -> (j1 + j2 + j3 = 3 * l)%nat ->
  sqrt (Q2R (racah_rad (Z.of_nat l) (Z.of_nat j1 - Z.of_nat l) (Z.of_nat j2 - Z.of_nat l))) = (scale3 l * (wt (2 * l) j1 * wt (2 * l) j2 * wt (2 * l) j3))%R.
Proof.
  intros H1 H2 H3 H. unfold racah_rad. rewrite Q2R_frac by apply zfact_pos. rewrite !mult_IZR. change 3%Z with (Z.of_nat 3). rewrite <- pow_IZR.
  rewrite (zfact_R _ l eq_refl), (zfact_R _ j1), (zfact_R _ (2 * l - j1)%nat), (zfact_R _ j2), (zfact_R _ (2 * l - j2)%nat), (zfact_R _ j3), (zfact_R _ (2 * l - j3)%nat), (zfact_R _ (3 * l + 1)%nat) by lia.
  assert (F := fun n => fact_pos n). unfold scale3, wt.
  assert (N3 : forall n m, (0 <= INR (fact n) * INR (fact m))%R) by (intros; apply Rmult_le_pos; left; apply fact_pos).
  rewrite <- !sqrt_mult; auto using Rmult_le_pos.
  - f_equal. field. assert (X := F (3 * l + 1)%nat). lra.
  - left. apply Rdiv_lt_0_compat; [apply pow_lt|]; apply fact_pos.
Qed.
Lemma parity_add a b : (parity_sign a * parity_sign b)%Z = parity_sign (a + b). Proof. unfold parity_sign. rewrite Z.even_add. destruct (Z.even a), (Z.even b); auto. Qed.
Lemma even_nat n : Z.even (Z.of_nat n) = Nat.even n.
Proof.
  destruct (Nat.even n) eqn:E.
  - apply Nat.even_spec in E as [x ->]. apply Z.even_spec. exists (Z.of_nat x). lia.
  - assert (O : Nat.odd n = true) by (rewrite <- Nat.negb_even, E; auto). apply Nat.odd_spec in O as [x ->]. rewrite <- Z.negb_odd. apply negb_false_iff. apply Z.odd_spec. exists (Z.of_nat x). lia.
Qed.
Lemma parity_nat z n h : z = (Z.of_nat n - 2 * h)%Z -> rc (IZR (parity_sign z)) = sgn n.
Proof. intros ->. unfold parity_sign, sgn. rewrite Z.even_sub, even_nat. rewrite Z.even_mul. cbn [Z.even orb]. destruct (Nat.even n); cbn [eqb]; unfold rc, C1; [auto|]. cring. Qed.
Definition win (l k j1 j2 : nat) : bool := (((l - k <=? j1) && (j1 <? l - k + S l)) && ((k <=? j2) && (j2 <? k + S l)))%nat.
Lemma coef_value l j1 j2 : (j1 <= 2 * l)%nat -> (j2 <= 2 * l)%nat ->
  rc (Q2R (racah_coef (Z.of_nat l) (Z.of_nat j1 - Z.of_nat l) (Z.of_nat j2 - Z.of_nat l))) =
  rc (/ INR (fact l) ^ 3) * sumc (fun k => if win l k j1 j2 then sgn (k + (j1 - (l - k)) + (l - (j2 - k))) * (rc (bin l k) * rc (bin l (j1 - (l - k))) * rc (bin l (l - (j2 - k)))) else C0) (S l).
Proof.
  intros H1 H2. unfold racah_coef, racah_sum. set (s := parity_sign _). rewrite Q2R_mult, rc_mul, Nat2Z.id.
  assert (G : forall f n a, rc (Q2R (fold_right (fun k s => (f k + s)%Q) 0%Q (seq a n))) = sumc (fun k => rc (Q2R (f (a + k)%nat))) n).
  { clear. intros f. induction n as [|n IH]; intros a; cbn [seq fold_right]; [cbn [sumc]; unfold rc, C0; f_equal; unfold Q2R; cbn; lra|]. rewrite Q2R_plus, rc_add, IH, sumc_first. rewrite Nat.add_0_r. f_equal. apply sumc_ext. intros i _. do 3 f_equal. lia. }
  rewrite (G (fun k => racah_term (Z.of_nat l) (Z.of_nat j1 - Z.of_nat l) (Z.of_nat j2 - Z.of_nat l) (Z.of_nat k))). rewrite <- !sumc_scal. apply sumc_ext. intros k Hk. cbn [Nat.add]. unfold racah_term.
  unfold win. unfold racah_args. cbn [forallb].
  destruct (Nat.leb_spec (l - k) j1) as [A1|A1]; cbn [andb].
  2: { rewrite (proj2 (Z.leb_gt 0 (Z.of_nat j1 - Z.of_nat l + Z.of_nat k))) by lia. rewrite !andb_false_r || (cbn [andb]; rewrite ?andb_false_r). unfold Q2R at 2. cbn [Qnum Qden]. replace (0 * / 1)%R with 0%R by ring. change (rc 0) with C0. ring. }
  destruct (Nat.ltb_spec j1 (l - k + S l)) as [A2|A2]; cbn [andb].
  2: { rewrite (proj2 (Z.leb_gt 0 (Z.of_nat l - (Z.of_nat j1 - Z.of_nat l) - Z.of_nat k))) by lia. rewrite !andb_false_r || (cbn [andb]; rewrite ?andb_false_r). unfold Q2R at 2. cbn [Qnum Qden]. replace (0 * / 1)%R with 0%R by ring. change (rc 0) with C0. ring. }
  destruct (Nat.leb_spec k j2) as [A3|A3]; cbn [andb].
  2: { rewrite (proj2 (Z.leb_gt 0 (Z.of_nat l + (Z.of_nat j2 - Z.of_nat l) - Z.of_nat k))) by lia. rewrite !andb_false_r || (cbn [andb]; rewrite ?andb_false_r). unfold Q2R at 2. cbn [Qnum Qden]. replace (0 * / 1)%R with 0%R by ring. change (rc 0) with C0. ring. }
  destruct (Nat.ltb_spec j2 (k + S l)) as [A4|A4]; cbn [andb].
  2: { rewrite (proj2 (Z.leb_gt 0 (Z.of_nat k - (Z.of_nat j2 - Z.of_nat l)))) by lia. rewrite !andb_false_r || (cbn [andb]; rewrite ?andb_false_r). unfold Q2R at 2. cbn [Qnum Qden]. replace (0 * / 1)%R with 0%R by ring. change (rc 0) with C0. ring. }
  rewrite !(fun z => proj2 (Z.leb_le 0 z)) by lia. cbn [andb].
  assert (PP : forall zs, (0 < zprod (map zfact zs))%Z) by (induction zs as [|z zs IHz]; cbn [map zprod fold_right]; [lia|]; apply Z.mul_pos_pos; [apply zfact_pos|exact IHz]).
  rewrite Q2R_frac by apply PP. unfold zprod. cbn [map fold_right]. rewrite !mult_IZR.
  set (q := (j1 - (l - k))%nat). set (r := (l - (j2 - k))%nat).
  rewrite (zfact_R _ k eq_refl), (zfact_R _ (l - k)%nat), (zfact_R _ (l - q)%nat), (zfact_R _ (l - r)%nat), (zfact_R _ q), (zfact_R _ r) by (unfold q, r; lia).
  assert (S2 : sgn (k + q + r) = rc (Q2R (s # 1)) * rc (IZR (parity_sign (Z.of_nat k)))).
  { unfold Q2R. cbn [Qnum Qden]. replace (IZR s * / 1)%R with (IZR s) by field. rewrite <- rc_mul, <- mult_IZR. unfold s. rewrite parity_add. symmetry. apply (parity_nat _ _ (Z.of_nat r)). unfold q, r. lia. }
  rewrite S2. unfold bin. rewrite <- !rc_mul. f_equal. assert (P0 := fact_pos l). assert (P1 := fact_pos k). assert (P2 := fact_pos (l - k)). assert (P3 := fact_pos q). assert (P4 := fact_pos (l - q)). assert (P5 := fact_pos r). assert (P6 := fact_pos (l - r)). field. repeat split; lra.
Qed.

(** * The sum *)
Notation rsum := (csum R 0%R Rplus).
Lemma rsum_cons (x : C) l : rsum (x :: l) = x + rsum l. Proof. exact (csum_cons R 0%R 1%R Rplus Rmult Rminus Ropp RTheory x l). Qed.
Lemma rsum_cat (l1 l2 : list C) : rsum (l1 ++ l2) = rsum l1 + rsum l2. Proof. exact (Boo_Proofs.csum_app R 0%R 1%R Rplus Rmult Rminus Ropp RTheory l1 l2). Qed.
Lemma zero_add (x : C) : x = C0 + x. Proof. ring. Qed.
Lemma rsum_prod {A B} (f : A * B -> C) (p : A * B -> bool) (l1 : list A) (l2 : list B) :
  rsum (map f (filter p (list_prod l1 l2))) = rsum (map (fun a => rsum (map (fun b => if p (a, b) then f (a, b) else C0) l2)) l1).
Proof.
  induction l1 as [|a l1 IH]; cbn [list_prod filter map]; [reflexivity|]. rewrite filter_app, map_app, rsum_cat, rsum_cons, IH. f_equal. clear. induction l2 as [|b l2 IH]; cbn [map filter]; [reflexivity|]. rewrite rsum_cons, <- IH. destruct (p (a, b)); [cbn [map]; apply rsum_cons|apply zero_add].
Qed.
Lemma cscal_rc k (x : C) : cscal R Rmult k x = rc k * x. Proof. destruct x as [a b]. unfold cscal, Cmul, cmul, rc. cbn [fst snd]. apply pair_eq; ring. Qed.
Lemma val_eq {A} (a b : A) : Val a = Val b -> a = b. Proof. intros E. injection E. auto. Qed.
Definition piece (l : nat) (x : nat -> C) (k q r : nat) : C := sgn (k + q + r) * (rc (bin l k) * rc (bin l q) * rc (bin l r)) *
      ((rc (fw (2 * l) (l + q - k)) * x (l + q - k)%nat) * (rc (fw (2 * l) (l + k - r)) * x (l + k - r)%nat) * (rc (fw (2 * l) (l + r - q)) * x (l + r - q)%nat)).
Lemma term_value q l j1 j2 : degree l -> length q = 36%nat -> (j1 <= 2 * l)%nat -> (j2 <= 2 * l)%nat -> let m1 := (Z.of_nat j1 - Z.of_nat l)%Z in let m2 := (Z.of_nat j2 - Z.of_nat l)%Z in
  (if legalb l (m1, m2) then tz R 0%R Rplus Rmult Rminus Ropp w3j_real q l m1 m2 else C0) =
  rc (scale3 l * / INR (fact l) ^ 3) * sumc (fun k => if win l k j1 j2 then piece l (xs q l) k (j1 - (l - k)) (l - (j2 - k)) else C0) (S l).
Proof.
  intros Hl Lq H1 H2 m1 m2. unfold legalb. cbn [fst snd]. destruct (Z.leb_spec (Z.abs (m1 + m2)) (Z.of_nat l)) as [L|L].
  - assert (LG : legal l m1 m2) by (unfold legal, m1, m2 in *; lia). assert (W := w3j_value l m1 m2 Hl LG). unfold get_w3j in W. destruct (w3j_range l m1 m2 Hl LG) as [E I]. rewrite E in W. cbn [obind] in W. rewrite (at_index_ok w3j_real 0%R) in W by (rewrite real_table_length; auto). apply val_eq in W.
    set (j3 := (3 * l - j1 - j2)%nat). assert (H3 : (j3 <= 2 * l)%nat) by (unfold j3, m1, m2 in *; lia). assert (HS : (j1 + j2 + j3 = 3 * l)%nat) by (unfold j3, m1, m2 in *; lia).
    unfold tz, wz. rewrite W. change (cmul R Rplus Rmult Rminus) with Cmul. rewrite cscal_rc.
    replace (rat q l m1) with (full q l j1) by reflexivity. replace (rat q l m2) with (full q l j2) by reflexivity. replace (rat q l (- m1 - m2)) with (full q l j3) by (unfold full; f_equal; unfold m1, m2, j3 in *; lia).
    rewrite rc_mul. unfold m1, m2. rewrite (rad_value l j1 j2 j3), coef_value by auto. rewrite !full_xs, !rc_mul.
    set (X1 := rc (fw (2 * l) j1) * xs q l j1). set (X2 := rc (fw (2 * l) j2) * xs q l j2). set (X3 := rc (fw (2 * l) j3) * xs q l j3).
    transitivity (rc (scale3 l) * rc (/ INR (fact l) ^ 3) * (sumc (fun k => if win l k j1 j2 then sgn (k + (j1 - (l - k)) + (l - (j2 - k))) * (rc (bin l k) * rc (bin l (j1 - (l - k))) * rc (bin l (l - (j2 - k)))) else C0) (S l) * (X1 * X2 * X3))).
    { unfold X1, X2, X3. rewrite <- !wt_fw, !rc_mul. match goal with |- @eq _ ?a ?b => change (@eq C a b) end. ring. }
    rewrite <- sumc_scal_r. f_equal. apply sumc_ext. intros k Hk. unfold win. destruct (Nat.leb_spec (l - k) j1) as [A1|A1]; cbn [andb]; [|ring]. destruct (Nat.ltb_spec j1 (l - k + S l)) as [A2|A2]; cbn [andb]; [|ring]. destruct (Nat.leb_spec k j2) as [A3|A3]; cbn [andb]; [|ring]. destruct (Nat.ltb_spec j2 (k + S l)) as [A4|A4]; cbn [andb]; [|ring].
    unfold piece. replace (l + (j1 - (l - k)) - k)%nat with j1 by lia. replace (l + k - (l - (j2 - k)))%nat with j2 by lia. replace (l + (l - (j2 - k)) - (j1 - (l - k)))%nat with j3 by (unfold j3; lia). reflexivity.
  - rewrite sumc_zero; [match goal with |- @eq _ ?a ?b => change (@eq C a b) end; ring|]. intros k Hk. unfold win. destruct (Nat.leb_spec (l - k) j1) as [A1|A1]; cbn [andb]; auto. destruct (Nat.ltb_spec j1 (l - k + S l)) as [A2|A2]; cbn [andb]; auto. destruct (Nat.leb_spec k j2) as [A3|A3]; cbn [andb]; auto. destruct (Nat.ltb_spec j2 (k + S l)) as [A4|A4]; cbn [andb]; auto. unfold m1, m2 in L. lia.
Qed.
Lemma reindex l (A : nat -> nat -> nat -> C) :
  sumc (fun j1 => sumc (fun j2 => sumc (fun k => if win l k j1 j2 then A k (j1 - (l - k))%nat (l - (j2 - k))%nat else C0) (S l)) (S (2 * l))) (S (2 * l)) = sumc (fun k => sumc (fun q => sumc (fun r => A k q r) (S l)) (S l)) (S l).
Proof.
  rewrite (sumc_ext _ (fun j1 => sumc (fun k => sumc (fun j2 => if win l k j1 j2 then A k (j1 - (l - k))%nat (l - (j2 - k))%nat else C0) (S (2 * l))) (S l))) by (intros; apply (sumc_swap (fun j2 k => if win l k _ j2 then A k _ _ else C0))).
  rewrite sumc_swap. apply sumc_ext. intros k Hk.
  rewrite <- (sumc_window (fun q => sumc (fun r => A k q r) (S l)) (l - k) (S l) (S (2 * l))) by lia. apply sumc_ext. intros j1 _. unfold win.
  destruct ((l - k <=? j1) && (j1 <? l - k + S l))%nat; cbn [andb]; [|apply sumc_zero; auto].
  rewrite (sumc_window (fun i => A k (j1 - (l - k))%nat (l - i)%nat) k (S l) (S (2 * l))) by lia. rewrite sumc_rev. apply sumc_ext. intros i Hi. f_equal. lia.
Qed.
Definition kappa (l : nat) : C := rc (scale3 l * / INR (fact l) ^ 3).
Lemma inv_tri q l : degree l -> length q = 36%nat -> rsum (map (fun p => tz R 0%R Rplus Rmult Rminus Ropp w3j_real q l (fst p) (snd p)) (legal_pairs l)) = kappa l * tri l (xs q l) (xs q l) (xs q l).
Proof.
  intros Hl Lq. unfold legal_pairs. rewrite rsum_prod, zrange_sum. cbn [fst snd].
  rewrite (sumc_ext _ (fun j1 => sumc (fun j2 => kappa l * sumc (fun k => if win l k j1 j2 then piece l (xs q l) k (j1 - (l - k)) (l - (j2 - k)) else C0) (S l)) (S (2 * l)))).
  2: { intros j1 Hj1. rewrite zrange_sum. apply sumc_ext. intros j2 Hj2. apply term_value; auto; lia. }
  rewrite (sumc_ext _ (fun j1 => kappa l * sumc (fun j2 => sumc (fun k => if win l k j1 j2 then piece l (xs q l) k (j1 - (l - k)) (l - (j2 - k)) else C0) (S l)) (S (2 * l)))) by (intros; apply sumc_scal).
  rewrite sumc_scal. f_equal. rewrite reindex. reflexivity.
Qed.
Lemma get_w_value q l n : degree l -> length q = 36%nat -> sum_norm R 0%R 1%R Rplus Rmult q l = Val n -> get_w q l = Val (divide_15 n (kappa l * tri l (xs q l) (xs q l) (xs q l))).
Proof.
  intros Hl Lq N. unfold get_w, get_invarients. rewrite N. cbn [obind]. assert (I := inv_sum R 0%R Rplus Rmult Rminus Ropp w3j_real q l Hl real_table_length Lq). cbn [obind] in I |- *. rewrite I. cbn [omap]. rewrite inv_tri by auto. auto.
Qed.

(** Complex numbers as pairs of real numbers, finite sums, binomials, uniqueness of the coefficients of a polynomial. *)
Require Import Reals ZArith List Arith Lia Lra Ring.
Require Import Verif.Boo_Model Verif.Euler_Model.
Import ListNotations.
Local Open Scope R_scope.

Notation C := (prod R R).
Definition Cadd : C -> C -> C := cadd R Rplus.
Definition Cmul : C -> C -> C := cmul R Rplus Rmult Rminus.
Definition Copp : C -> C := copp R Ropp.
Definition Csub (x y : C) : C := Cadd x (Copp y).
Definition Conj : C -> C := cconj R Ropp.
Definition C0 : C := (0, 0).
Definition C1 : C := (1, 0).
Definition Cpow (z : C) (n : nat) : C := cpow z n.
Definition rc (x : R) : C := (x, 0).
Declare Scope C_scope.
Delimit Scope C_scope with C.
Infix "+" := Cadd : C_scope.
Infix "*" := Cmul : C_scope.
Infix "-" := Csub : C_scope.
Notation "- x" := (Copp x) : C_scope.
Infix "^" := Cpow : C_scope.
Lemma pair_eq (a b c d : R) : a = c -> b = d -> (a, b) = (c, d).
Proof. intros -> ->. reflexivity. Qed.
Ltac cring := intros; repeat match goal with x : prod R R |- _ => destruct x end; unfold Csub, Cadd, Cmul, Copp, Conj, C0, C1, rc, cadd, cmul, copp, cconj in *; cbn [fst snd] in *; apply pair_eq; ring.
Lemma C_ring : ring_theory C0 C1 Cadd Cmul Csub Copp (@eq C).
Proof. constructor; try cring. Qed.
Add Ring Cring : C_ring.
Local Open Scope C_scope.

Lemma rc_add x y : rc (x + y)%R = rc x + rc y. Proof. cring. Qed.
Lemma rc_mul x y : rc (x * y)%R = rc x * rc y. Proof. cring. Qed.
Lemma rc_opp x : rc (- x)%R = - rc x. Proof. cring. Qed.
Lemma rc_pow x : forall n, rc (x ^ n)%R = rc x ^ n. Proof. induction n as [|n IH]; [reflexivity|]. cbn [pow]. unfold Cpow in *. cbn [cpow]. rewrite rc_mul, IH. reflexivity. Qed.
Lemma rc_inj x y : rc x = rc y -> x = y. Proof. unfold rc. intros E. injection E. auto. Qed.
Lemma cpow_S z n : z ^ S n = z * z ^ n. Proof. reflexivity. Qed.
Lemma cpow_0 z : z ^ 0 = C1. Proof. reflexivity. Qed.
Lemma cpow_add z m : forall n, z ^ (m + n) = z ^ m * z ^ n.
Proof. intros n. induction m as [|m IH]; [cbn [Nat.add]; rewrite cpow_0; ring|]. cbn [Nat.add]. rewrite !cpow_S, IH. ring. Qed.
Lemma cpow_mul x y : forall n, (x * y) ^ n = x ^ n * y ^ n.
Proof. induction n as [|n IH]; [rewrite !cpow_0; ring|]. rewrite !cpow_S, IH. ring. Qed.
Lemma cpow_one : forall n, C1 ^ n = C1. Proof. induction n as [|n IH]; [reflexivity|]. rewrite cpow_S, IH. ring. Qed.

(** Sums of f 0 .. f (n-1) *)
Fixpoint sumc (f : nat -> C) (n : nat) : C := match n with O => C0 | S n => sumc f n + f n end.
Lemma sumc_ext f g n : (forall i, (i < n)%nat -> f i = g i) -> sumc f n = sumc g n.
Proof. induction n as [|n IH]; intros H; cbn; auto. rewrite IH by (intros; apply H; lia). rewrite H by lia. auto. Qed.
Lemma sumc_add f g n : sumc (fun i => f i + g i) n = sumc f n + sumc g n.
Proof. induction n as [|n IH]; cbn; [ring|]. rewrite IH. ring. Qed.
Lemma sumc_sub f g n : sumc (fun i => f i - g i) n = sumc f n - sumc g n.
Proof. induction n as [|n IH]; cbn; [ring|]. rewrite IH. ring. Qed.
Lemma sumc_scal a f n : sumc (fun i => a * f i) n = a * sumc f n.
Proof. induction n as [|n IH]; cbn; [ring|]. rewrite IH. ring. Qed.
Lemma sumc_scal_r a f n : sumc (fun i => f i * a) n = sumc f n * a.
Proof. induction n as [|n IH]; cbn; [ring|]. rewrite IH. ring. Qed.
Lemma sumc_zero f n : (forall i, (i < n)%nat -> f i = C0) -> sumc f n = C0.
Proof. induction n as [|n IH]; intros H; cbn; auto. rewrite IH by (intros; apply H; lia). rewrite H by lia. ring. Qed.
Lemma sumc_swap f m n : sumc (fun i => sumc (f i) n) m = sumc (fun j => sumc (fun i => f i j) m) n.
Proof. induction m as [|m IH]; cbn; [symmetry; apply sumc_zero; auto|]. rewrite IH. rewrite <- sumc_add. auto. Qed.
Lemma sumc_split f m n : sumc f (m + n) = sumc f m + sumc (fun i => f (m + i)%nat) n.
Proof. induction n as [|n IH]; cbn; [rewrite Nat.add_0_r; ring|]. rewrite Nat.add_succ_r. cbn. rewrite IH. ring. Qed.
Lemma sumc_first f n : sumc f (S n) = f O + sumc (fun i => f (S i)) n.
Proof. change (S n) with (1 + n)%nat. rewrite sumc_split. cbn. ring. Qed.
Lemma sumc_rev f n : sumc f n = sumc (fun i => f (n - 1 - i)%nat) n.
Proof.
  induction n as [|n IH]; [reflexivity|]. rewrite (sumc_first (fun i => f (S n - 1 - i)%nat)). replace (S n - 1 - 0)%nat with n by lia. cbn [sumc]. rewrite IH.
  rewrite (sumc_ext (fun i => f (S n - 1 - S i)%nat) (fun i => f (n - 1 - i)%nat)) by (intros; f_equal; lia). ring.
Qed.
Lemma sumc_one f n k : (k < n)%nat -> (forall i, (i < n)%nat -> i <> k -> f i = C0) -> sumc f n = f k.
Proof.
  intros Hk H. replace n with (k + (1 + (n - k - 1)))%nat by lia. rewrite !sumc_split. rewrite (sumc_zero f k) by (intros; apply H; lia).
  rewrite (sumc_zero (fun i => f (k + (1 + i))%nat)) by (intros; apply H; lia). cbn. rewrite Nat.add_0_r. ring.
Qed.
Lemma sumc_mul f g m n : sumc f m * sumc g n = sumc (fun i => sumc (fun j => f i * g j) n) m.
Proof. rewrite <- sumc_scal_r. apply sumc_ext. intros i _. rewrite <- sumc_scal. auto. Qed.
(** A part of a longer sum *)
Lemma sumc_window f a m n : (a + m <= n)%nat -> sumc (fun i => if andb (Nat.leb a i) (Nat.ltb i (a + m)) then f (i - a)%nat else C0) n = sumc f m.
Proof.
  intros H. replace n with (a + (m + (n - a - m)))%nat by lia. rewrite !sumc_split. rewrite (sumc_zero _ a).
  2: { intros i Hi. rewrite (proj2 (Nat.leb_gt a i)) by lia. reflexivity. }
  rewrite (sumc_ext _ f m).
  2: { intros i Hi. rewrite (proj2 (Nat.leb_le a (a + i))), (proj2 (Nat.ltb_lt (a + i) (a + m))) by lia. cbn [andb]. f_equal. lia. }
  rewrite (sumc_zero _ (n - a - m)); [ring|]. intros i _. rewrite (proj2 (Nat.ltb_ge (a + (m + i)) (a + m))) by lia. rewrite Bool.andb_false_r. reflexivity.
Qed.

(** Binomials *)
Definition bin (n i : nat) : R := (INR (fact n) / (INR (fact i) * INR (fact (n - i))))%R.
Lemma fact_pos n : (0 < INR (fact n))%R. Proof. apply lt_0_INR, lt_O_fact. Qed.
Lemma bin_0 n : bin n 0 = 1%R. Proof. unfold bin. rewrite Nat.sub_0_r. cbn [fact]. assert (P := fact_pos n). change (INR 1) with 1%R. field. lra. Qed.
Lemma bin_n n : bin n n = 1%R. Proof. unfold bin. rewrite Nat.sub_diag. cbn [fact]. assert (P := fact_pos n). change (INR 1) with 1%R. field. lra. Qed.
Lemma bin_pascal n i : (i < n)%nat -> (bin n i + bin n (S i) = bin (S n) (S i))%R.
Proof. intros H. exact (pascal n i H). Qed.
Lemma binomial_c x y : forall n, (x + y) ^ n = sumc (fun i => rc (bin n i) * (x ^ i * y ^ (n - i))) (S n).
Proof.
  induction n as [|n IH].
  - cbn [sumc Nat.sub]. rewrite !cpow_0, bin_0. change (rc 1) with C1. ring.
  - rewrite cpow_S, IH. rewrite (sumc_first _ (S n)). rewrite bin_0, cpow_0, Nat.sub_0_r.
    cbn [sumc]. rewrite (sumc_ext (fun i => rc (bin (S n) (S i)) * (x ^ S i * y ^ (S n - S i))) (fun i => (x * (rc (bin n i) * (x ^ i * y ^ (n - i)))) + (y * (rc (bin n (S i)) * (x ^ S i * y ^ (n - S i))))) n).
    2: { intros i Hi. rewrite <- bin_pascal by auto. rewrite rc_add, cpow_S. cbn [Nat.sub]. replace (n - i)%nat with (S (n - S i)) by lia. rewrite cpow_S. ring. }
    rewrite sumc_add, !sumc_scal. rewrite !bin_n, !Nat.sub_diag.
    assert (E : y * (sumc (fun i => rc (bin n i) * (x ^ i * y ^ (n - i))) n + rc 1 * (x ^ n * y ^ 0)) = rc 1 * (C1 * y ^ S n) + y * sumc (fun i => rc (bin n (S i)) * (x ^ S i * y ^ (n - S i))) n).
    { assert (F := sumc_first (fun i => rc (bin n i) * (x ^ i * y ^ (n - i))) n). cbn [sumc] in F. rewrite bin_n, Nat.sub_diag in F. rewrite F. rewrite bin_0, cpow_0, Nat.sub_0_r, cpow_S. ring. }
    rewrite cpow_S in E |- *. rewrite cpow_0 in *. change (rc 1) with C1 in *.
    transitivity (x * sumc (fun i => rc (bin n i) * (x ^ i * y ^ (n - i))) n + x * x ^ n + y * (sumc (fun i => rc (bin n i) * (x ^ i * y ^ (n - i))) n + C1 * (x ^ n * C1))); [ring|]. rewrite E. rewrite cpow_S. ring.
Qed.

(** A polynomial that is null at all real numbers has null coefficients. *)
Definition cnorm1 (z : C) : R := (Rabs (fst z) + Rabs (snd z))%R.
Lemma cnorm1_add x y : (cnorm1 (x + y)%C <= cnorm1 x + cnorm1 y)%R.
Proof. unfold cnorm1, Cadd, cadd. cbn [fst snd]. assert (H1 := Rabs_triang (fst x) (fst y)). assert (H2 := Rabs_triang (snd x) (snd y)). lra. Qed.
Lemma cnorm1_scal a x : cnorm1 (rc a * x)%C = (Rabs a * cnorm1 x)%R.
Proof. unfold cnorm1, Cmul, cmul, rc. cbn [fst snd]. rewrite !Rmult_0_l, Rminus_0_r, Rplus_0_r, !Rabs_mult. ring. Qed.
Lemma cnorm1_pos x : (0 <= cnorm1 x)%R. Proof. unfold cnorm1. assert (H1 := Rabs_pos (fst x)). assert (H2 := Rabs_pos (snd x)). lra. Qed.
Lemma cnorm1_zero x : (cnorm1 x <= 0)%R -> x = C0.
Proof. unfold cnorm1. destruct x as [a b]. cbn [fst snd]. intros H. assert (H1 := Rabs_pos a). assert (H2 := Rabs_pos b). unfold C0. apply pair_eq.
  - destruct (Req_dec a 0) as [|N]; auto. apply Rabs_pos_lt in N. lra.
  - destruct (Req_dec b 0) as [|N]; auto. apply Rabs_pos_lt in N. lra.
Qed.
Lemma poly_bound a n : exists M, (0 <= M)%R /\ forall u, (Rabs u <= 1)%R -> (cnorm1 (sumc (fun i => a i * rc u ^ i)%C n) <= M)%R.
Proof.
  induction n as [|n [M [M0 HM]]].
  - exists 0%R. split; [lra|]. intros. cbn [sumc]. unfold cnorm1, C0. cbn [fst snd]. rewrite Rabs_R0. lra.
  - exists (M + cnorm1 (a n))%R. assert (P := cnorm1_pos (a n)). split; [lra|]. intros u Hu. cbn [sumc]. eapply Rle_trans; [apply cnorm1_add|]. apply Rplus_le_compat; [auto|].
    rewrite <- rc_pow. replace (a n * rc (u ^ n)%R) with (rc (u ^ n)%R * a n) by ring. rewrite cnorm1_scal. rewrite <- (Rmult_1_l (cnorm1 (a n))) at 2. apply Rmult_le_compat_r; auto.
    rewrite <- RPow_abs. rewrite <- (pow1 n). apply pow_incr. split; auto. apply Rabs_pos.
Qed.
Lemma poly_zero : forall n a, (forall u, u <> 0%R -> sumc (fun i => a i * rc u ^ i) n = C0) -> forall i, (i < n)%nat -> a i = C0.
Proof.
  induction n as [|n IH]; intros a H i Hi; [lia|].
  assert (A0 : a O = C0).
  { apply cnorm1_zero. destruct (poly_bound (fun i => a (S i)) n) as [M [M0 HM]]. apply Rnot_lt_le. intros L. set (N := cnorm1 (a O)) in *.
    set (u := Rmin 1 (N / (2 * (M + 1)))). assert (D : (0 < N / (2 * (M + 1)))%R) by (apply Rdiv_lt_0_compat; lra).
    assert (U0 : (0 < u)%R) by (unfold u; apply Rmin_glb_lt; lra). assert (U1 : (u <= 1)%R) by apply Rmin_l. assert (U2 : (u <= N / (2 * (M + 1)))%R) by apply Rmin_r.
    specialize (H u ltac:(lra)). rewrite sumc_first in H. rewrite cpow_0 in H.
    assert (E : a O = rc (- u)%R * sumc (fun i => a (S i) * rc u ^ i) n).
    { rewrite <- sumc_scal. rewrite (sumc_ext _ (fun i => (rc (-1)%R) * (a (S i) * rc u ^ S i))). 2: { intros j _. rewrite cpow_S. replace (rc (- u)%R) with (rc (-1)%R * rc u) by cring. ring. }
      rewrite sumc_scal. transitivity (a O * C1 + sumc (fun i => a (S i) * rc u ^ S i) n - sumc (fun i => a (S i) * rc u ^ S i) n); [ring|]. rewrite H. replace (rc (-1)%R) with (- C1) by cring. ring. }
    assert (F : (N <= u * M)%R). { unfold N. rewrite E, cnorm1_scal, Rabs_Ropp, Rabs_pos_eq by lra. apply Rmult_le_compat_l; [lra|]. apply HM. rewrite Rabs_pos_eq; lra. }
    assert (G : (u * M <= N / (2 * (M + 1)) * M)%R) by (apply Rmult_le_compat_r; auto).
    assert (G2 : (N / (2 * (M + 1)) * M = N * (M / (2 * (M + 1))))%R) by (field; lra). assert (G3 : (M / (2 * (M + 1)) < 1)%R). { apply (Rmult_lt_reg_r (2 * (M + 1))); [lra|]. unfold Rdiv. rewrite Rmult_assoc, Rinv_l by lra. lra. }
    assert (G4 : (N * (M / (2 * (M + 1))) < N * 1)%R) by (apply Rmult_lt_compat_l; auto). lra. }
  destruct i as [|i]; auto. apply (IH (fun i => a (S i))); [|lia]. intros u Hu. specialize (H u Hu). rewrite sumc_first, A0 in H.
  assert (E : rc u * sumc (fun i => a (S i) * rc u ^ i) n = C0).
  { rewrite <- sumc_scal. rewrite (sumc_ext _ (fun i => a (S i) * rc u ^ S i)) by (intros j _; rewrite cpow_S; ring). rewrite <- H. ring. }
  assert (X : rc (/ u) * (rc u * sumc (fun i => a (S i) * rc u ^ i) n) = C0) by (rewrite E; ring).
  transitivity (rc (/ u) * rc u * sumc (fun i => a (S i) * rc u ^ i) n); [|rewrite <- X; ring]. rewrite <- rc_mul, Rinv_l by auto. change (rc 1) with C1. ring.
Qed.
Lemma poly_unique n a b : (forall u, sumc (fun i => a i * rc u ^ i) n = sumc (fun i => b i * rc u ^ i) n) -> forall i, (i < n)%nat -> a i = b i.
Proof.
  intros H i Hi. assert (E : a i - b i = C0). { apply (poly_zero n (fun i => a i - b i)); auto. intros u _. rewrite (sumc_ext _ (fun i => a i * rc u ^ i - b i * rc u ^ i)) by (intros; ring). rewrite sumc_sub, H. ring. }
  transitivity (a i - b i + b i); [ring|]. rewrite E. ring.
Qed.

(** The product of (c u + s v)^p and (-s u + c v)^q *)
Definition mixed (c s : R) (p q n : nat) : C :=
  sumc (fun i => if andb (Nat.leb i n) (Nat.ltb n (i + S q)) then rc (bin p i * bin q (n - i) * c ^ i * s ^ (p - i) * (- s) ^ (n - i) * c ^ (q - (n - i)))%R else C0) (S p).
Lemma mixed_ok c s u v p q : (rc c * u + rc s * v) ^ p * (rc (- s)%R * u + rc c * v) ^ q = sumc (fun n => mixed c s p q n * (u ^ n * v ^ (p + q - n))) (S (p + q)).
Proof.
  rewrite !binomial_c, sumc_mul. unfold mixed.
  transitivity (sumc (fun i => sumc (fun n => (if andb (Nat.leb i n) (Nat.ltb n (i + S q)) then rc (bin p i * bin q (n - i) * c ^ i * s ^ (p - i) * (- s) ^ (n - i) * c ^ (q - (n - i)))%R else C0) * (u ^ n * v ^ (p + q - n))) (S (p + q))) (S p)).
  2: { rewrite sumc_swap. apply sumc_ext. intros n _. rewrite sumc_scal_r. auto. }
  apply sumc_ext. intros i Hi.
  transitivity (sumc (fun n => if andb (Nat.leb i n) (Nat.ltb n (i + S q)) then (fun j => rc (bin p i * bin q j * c ^ i * s ^ (p - i) * (- s) ^ j * c ^ (q - j))%R * (u ^ (i + j) * v ^ (p - i + (q - j)))) (n - i)%nat else C0) (S (p + q))).
  - rewrite (sumc_window (fun j => rc (bin p i * bin q j * c ^ i * s ^ (p - i) * (- s) ^ j * c ^ (q - j))%R * (u ^ (i + j) * v ^ (p - i + (q - j)))) i (S q) (S (p + q))) by lia. apply sumc_ext. intros j Hj. rewrite !cpow_mul, <- !rc_pow, !rc_mul, !cpow_add. ring.
  - apply sumc_ext. intros n Hn. destruct (Nat.leb_spec i n); cbn [andb]; [|ring]. destruct (Nat.ltb_spec n (i + S q)); [|ring]. do 2 f_equal; f_equal; lia.
Qed.

(** The cubic invariant of binary forms: a trilinear function of coefficients that is unchanged by changes of variables of determinant 1 or -1. *)
Require Import Reals ZArith List Bool Arith Lia Lra Ring.
Require Import Verif.Base Verif.Boo_Model Verif.Euler_Model Verif.Euler_Cplx Verif.Euler_Proofs.
Import ListNotations.
Local Open Scope R_scope.
Local Open Scope C_scope.

(** Linear functions of the coefficients 0 .. n *)
Definition lin (n : nat) (F : (nat -> C) -> C) : Prop := exists phi, forall x, F x = sumc (fun i => x i * phi i) (S n).
Lemma lin_at n j c : (j <= n)%nat -> lin n (fun x => x j * c).
Proof.
  intros H. exists (fun i => if Nat.eqb i j then c else C0). intros x. rewrite (sumc_one _ (S n) j); [rewrite Nat.eqb_refl; auto|lia|]. intros i _ N. rewrite (proj2 (Nat.eqb_neq i j) N). ring.
Qed.
Lemma lin_ext n F G : lin n F -> (forall x, G x = F x) -> lin n G.
Proof. intros [phi H] E. exists phi. intros x. rewrite E. auto. Qed.
Lemma lin_zero n : lin n (fun _ => C0). Proof. exists (fun _ => C0). intros x. symmetry. apply sumc_zero. intros. ring. Qed.
Lemma lin_add n F G : lin n F -> lin n G -> lin n (fun x => F x + G x).
Proof. intros [f Hf] [g Hg]. exists (fun i => f i + g i). intros x. rewrite Hf, Hg, <- sumc_add. apply sumc_ext. intros. ring. Qed.
Lemma lin_sum n (F : nat -> (nat -> C) -> C) : forall m, (forall p, (p < m)%nat -> lin n (F p)) -> lin n (fun x => sumc (fun p => F p x) m).
Proof. induction m as [|m IH]; intros H; cbn [sumc]; [apply lin_zero|]. apply lin_add; [apply IH; intros; apply H; lia|apply H; lia]. Qed.
Lemma lin_map n F (M : nat -> nat -> C) : lin n F -> lin n (fun x => F (fun j => sumc (fun i => x i * M i j) (S n))).
Proof.
  intros [phi H]. exists (fun i => sumc (fun j => M i j * phi j) (S n)). intros x. rewrite H.
  rewrite (sumc_ext _ (fun j => sumc (fun i => x i * M i j * phi j) (S n))) by (intros; rewrite sumc_scal_r; auto). rewrite sumc_swap. apply sumc_ext. intros i _. rewrite <- sumc_scal. apply sumc_ext. intros. ring.
Qed.
Lemma lin_depends n F x y : lin n F -> (forall i, (i <= n)%nat -> x i = y i) -> F x = F y.
Proof. intros [phi H] E. rewrite !H. apply sumc_ext. intros i Hi. rewrite E by lia. auto. Qed.
(** The coefficients of (a u + b v)^n *)
Definition power (n : nat) (a b : C) (j : nat) : C := rc (bin n j) * (a ^ j * b ^ (n - j)).
Lemma bin_pos n j : (0 < bin n j)%R.
Proof. unfold bin. apply Rdiv_lt_0_compat; [apply fact_pos|]. apply Rmult_lt_0_compat; apply fact_pos. Qed.
Lemma power_poly n a b u v : poly (power n a b) n u v = (a * u + b * v) ^ n.
Proof. rewrite binomial_c. unfold poly, power. apply sumc_ext. intros j _. rewrite !cpow_mul. ring. Qed.
(** Linear functions that agree on powers are equal. *)
Lemma lin_powers n F G : lin n F -> lin n G -> (forall a b, F (power n a b) = G (power n a b)) -> forall x, F x = G x.
Proof.
  intros [f Hf] [g Hg] H x. rewrite Hf, Hg. apply sumc_ext. intros i Hi. f_equal.
  assert (E : rc (bin n i) * f i = rc (bin n i) * g i).
  { apply (poly_same (fun i => rc (bin n i) * f i) (fun i => rc (bin n i) * g i) n); [|lia]. intros u v. specialize (H u v). rewrite Hf, Hg in H. unfold poly.
    rewrite (sumc_ext _ (fun i => power n u v i * f i)) by (intros; unfold power; ring). rewrite H. apply sumc_ext. intros. unfold power. ring. }
  assert (B := bin_pos n i). transitivity (rc (/ bin n i) * (rc (bin n i) * f i)).
  - transitivity ((rc (bin n i) * rc (/ bin n i)) * f i); [rewrite rc_inv by lra; ring|ring].
  - rewrite E. transitivity ((rc (bin n i) * rc (/ bin n i)) * g i); [ring|rewrite rc_inv by lra; ring].
Qed.

(** * Changes of variables *)
(** The coefficients of (a u + b v) times a polynomial of degree m *)
Definition timesl (a b : C) (m : nat) (h : nat -> C) (j : nat) : C := (match j with O => C0 | S i => a * h i end) + (if (j <=? m)%nat then b * h j else C0).
Lemma timesl_ok a b m h u v : poly (timesl a b m h) (S m) u v = (a * u + b * v) * poly h m u v.
Proof.
  unfold poly, timesl. rewrite (sumc_ext _ (fun j => (match j with O => C0 | S i => a * h i end) * (u ^ j * v ^ (S m - j)) + (if (j <=? m)%nat then b * h j else C0) * (u ^ j * v ^ (S m - j)))) by (intros; ring). rewrite sumc_add.
  rewrite (sumc_first _ (S m)). cbn [sumc]. rewrite (proj2 (Nat.leb_gt (S m) m)) by lia.
  assert (A : sumc (fun i => a * h i * (u ^ S i * v ^ (S m - S i))) (S m) = a * u * sumc (fun j => h j * (u ^ j * v ^ (m - j))) (S m)).
  { rewrite <- sumc_scal. apply sumc_ext. intros i _. rewrite cpow_S. cbn [Nat.sub]. ring. }
  assert (B : sumc (fun j => (if (j <=? m)%nat then b * h j else C0) * (u ^ j * v ^ (S m - j))) (S m) = b * v * sumc (fun j => h j * (u ^ j * v ^ (m - j))) (S m)).
  { rewrite <- sumc_scal. apply sumc_ext. intros i Hi. rewrite (proj2 (Nat.leb_le i m)) by lia. replace (S m - i)%nat with (S (m - i)) by lia. rewrite cpow_S. ring. }
  cbn [sumc] in A, B. rewrite A, B. ring.
Qed.
(** The coefficients of (a u + b v)^i (c u + d v)^k *)
Fixpoint col2 (c d : C) (k : nat) : nat -> C := match k with O => fun _ => C1 | S k => timesl c d k (col2 c d k) end.
Fixpoint col (a b c d : C) (i k : nat) : nat -> C := match i with O => col2 c d k | S i => timesl a b (i + k) (col a b c d i k) end.
Lemma col2_ok c d k u v : poly (col2 c d k) k u v = (c * u + d * v) ^ k.
Proof. induction k as [|k IH]; cbn [col2]; [unfold poly; cbn [sumc Nat.sub]; rewrite !cpow_0; ring|]. rewrite timesl_ok, IH, cpow_S. auto. Qed.
Lemma col_ok a b c d i k u v : poly (col a b c d i k) (i + k) u v = (a * u + b * v) ^ i * (c * u + d * v) ^ k.
Proof. induction i as [|i IH]; cbn [col Nat.add]; [rewrite col2_ok, cpow_0; ring|]. rewrite timesl_ok, IH, cpow_S. ring. Qed.
(** The coefficients after the change of variables u -> a u + b v, v -> c u + d v *)
Definition changed (a b c d : C) (n : nat) (x : nat -> C) (j : nat) : C := sumc (fun i => x i * col a b c d i (n - i) j) (S n).
Lemma changed_ok a b c d n x u v : poly (changed a b c d n x) n u v = poly x n (a * u + b * v) (c * u + d * v).
Proof.
  unfold poly at 1. unfold changed. rewrite (sumc_ext _ (fun j => sumc (fun i => x i * col a b c d i (n - i) j * (u ^ j * v ^ (n - j))) (S n))) by (intros; rewrite sumc_scal_r; auto). rewrite sumc_swap. unfold poly. apply sumc_ext. intros i Hi.
  assert (E := col_ok a b c d i (n - i) u v). replace (i + (n - i))%nat with n in E by lia. rewrite <- E. unfold poly. rewrite <- sumc_scal. apply sumc_ext. intros. ring.
Qed.
Lemma changed_only a b c d n x y : (forall u v, poly y n u v = poly x n (a * u + b * v) (c * u + d * v)) -> forall j, (j <= n)%nat -> y j = changed a b c d n x j.
Proof. intros H. apply poly_same. intros u v. rewrite H, changed_ok. auto. Qed.
Lemma changed_power a b c d n s t j : (j <= n)%nat -> changed a b c d n (power n s t) j = power n (a * s + c * t) (b * s + d * t) j.
Proof. intros Hj. symmetry. apply (changed_only a b c d n (power n s t) (power n (a * s + c * t) (b * s + d * t))); auto. intros u v. rewrite !power_poly. f_equal. ring. Qed.

(** * The trilinear function *)
Definition fw (n j : nat) : R := (INR (fact j) * INR (fact (n - j)))%R.
Section Tri.
  Variable l : nat.
  Definition tri (x y z : nat -> C) : C :=
    sumc (fun p => sumc (fun q => sumc (fun r => sgn (p + q + r) * (rc (bin l p) * rc (bin l q) * rc (bin l r)) *
      ((rc (fw (2 * l) (l + q - p)) * x (l + q - p)%nat) * (rc (fw (2 * l) (l + p - r)) * y (l + p - r)%nat) * (rc (fw (2 * l) (l + r - q)) * z (l + r - q)%nat))) (S l)) (S l)) (S l).
  Lemma lin_sum3 n (F : nat -> nat -> nat -> (nat -> C) -> C) m : (forall p q r, (p < m)%nat -> (q < m)%nat -> (r < m)%nat -> lin n (F p q r)) -> lin n (fun x => sumc (fun p => sumc (fun q => sumc (fun r => F p q r x) m) m) m).
  Proof.
    intros H. apply (lin_sum n (fun p x => sumc (fun q => sumc (fun r => F p q r x) m) m)). intros p Hp. apply (lin_sum n (fun q x => sumc (fun r => F p q r x) m)). intros q Hq. apply (lin_sum n (fun r x => F p q r x)). auto.
  Qed.
  Lemma tri_lin1 y z : lin (2 * l) (fun x => tri x y z).
  Proof. unfold tri. apply (lin_sum3 (2 * l) (fun p q r x => sgn (p + q + r) * (rc (bin l p) * rc (bin l q) * rc (bin l r)) * ((rc (fw (2 * l) (l + q - p)) * x (l + q - p)%nat) * (rc (fw (2 * l) (l + p - r)) * y (l + p - r)%nat) * (rc (fw (2 * l) (l + r - q)) * z (l + r - q)%nat)))). intros p q r Hp Hq Hr. eapply lin_ext; [apply (lin_at (2 * l) (l + q - p)%nat (sgn (p + q + r) * (rc (bin l p) * rc (bin l q) * rc (bin l r)) * (rc (fw (2 * l) (l + q - p)) * (rc (fw (2 * l) (l + p - r)) * y (l + p - r)%nat) * (rc (fw (2 * l) (l + r - q)) * z (l + r - q)%nat)))); lia|]. intros x. cbv beta. ring. Qed.
  Lemma tri_lin2 x z : lin (2 * l) (fun y => tri x y z).
  Proof. unfold tri. apply (lin_sum3 (2 * l) (fun p q r y => sgn (p + q + r) * (rc (bin l p) * rc (bin l q) * rc (bin l r)) * ((rc (fw (2 * l) (l + q - p)) * x (l + q - p)%nat) * (rc (fw (2 * l) (l + p - r)) * y (l + p - r)%nat) * (rc (fw (2 * l) (l + r - q)) * z (l + r - q)%nat)))). intros p q r Hp Hq Hr. eapply lin_ext; [apply (lin_at (2 * l) (l + p - r)%nat (sgn (p + q + r) * (rc (bin l p) * rc (bin l q) * rc (bin l r)) * (rc (fw (2 * l) (l + p - r)) * (rc (fw (2 * l) (l + q - p)) * x (l + q - p)%nat) * (rc (fw (2 * l) (l + r - q)) * z (l + r - q)%nat)))); lia|]. intros y. cbv beta. ring. Qed.
  Lemma tri_lin3 x y : lin (2 * l) (fun z => tri x y z).
  Proof. unfold tri. apply (lin_sum3 (2 * l) (fun p q r z => sgn (p + q + r) * (rc (bin l p) * rc (bin l q) * rc (bin l r)) * ((rc (fw (2 * l) (l + q - p)) * x (l + q - p)%nat) * (rc (fw (2 * l) (l + p - r)) * y (l + p - r)%nat) * (rc (fw (2 * l) (l + r - q)) * z (l + r - q)%nat)))). intros p q r Hp Hq Hr. eapply lin_ext; [apply (lin_at (2 * l) (l + r - q)%nat (sgn (p + q + r) * (rc (bin l p) * rc (bin l q) * rc (bin l r)) * (rc (fw (2 * l) (l + r - q)) * (rc (fw (2 * l) (l + q - p)) * x (l + q - p)%nat) * (rc (fw (2 * l) (l + p - r)) * y (l + p - r)%nat)))); lia|]. intros z. cbv beta. ring. Qed.
  Lemma fw_power n a b j : (j <= n)%nat -> rc (fw n j) * power n a b j = rc (INR (fact n)) * (a ^ j * b ^ (n - j)).
  Proof.
    intros H. unfold power. transitivity (rc (fw n j * bin n j) * (a ^ j * b ^ (n - j))); [rewrite rc_mul; ring|]. f_equal. f_equal. unfold fw, bin. assert (P1 := fact_pos j). assert (P2 := fact_pos (n - j)). field. lra.
  Qed.
  Lemma bracket x y n : sumc (fun p => sgn p * rc (bin n p) * (x ^ p * y ^ (n - p))) (S n) = (y - x) ^ n.
  Proof. replace (y - x) with ((- C1) * x + y) by ring. rewrite binomial_c. apply sumc_ext. intros p _. rewrite cpow_mul, sgn_pow. ring. Qed.
  (** On powers: the product of three determinants *)
  Lemma tri_powers a1 a2 b1 b2 c1 c2 : let N := rc (INR (fact (2 * l))) in
    tri (power (2 * l) a1 a2) (power (2 * l) b1 b2) (power (2 * l) c1 c2) = N * N * N * ((a1 * b2 - a2 * b1) ^ l * (a2 * c1 - a1 * c2) ^ l * (b1 * c2 - b2 * c1) ^ l).
  Proof.
    intros N. replace ((a1 * b2 - a2 * b1) ^ l) with (sumc (fun p => sgn p * rc (bin l p) * ((a2 * b1) ^ p * (a1 * b2) ^ (l - p))) (S l)) by apply bracket.
    replace ((a2 * c1 - a1 * c2) ^ l) with (sumc (fun q => sgn q * rc (bin l q) * ((a1 * c2) ^ q * (a2 * c1) ^ (l - q))) (S l)) by apply bracket.
    replace ((b1 * c2 - b2 * c1) ^ l) with (sumc (fun r => sgn r * rc (bin l r) * ((b2 * c1) ^ r * (b1 * c2) ^ (l - r))) (S l)) by apply bracket.
    unfold tri.
    transitivity (sumc (fun p => sumc (fun q => sumc (fun r => N * N * N * ((sgn p * rc (bin l p) * ((a2 * b1) ^ p * (a1 * b2) ^ (l - p))) * (sgn q * rc (bin l q) * ((a1 * c2) ^ q * (a2 * c1) ^ (l - q))) * (sgn r * rc (bin l r) * ((b2 * c1) ^ r * (b1 * c2) ^ (l - r))))) (S l)) (S l)) (S l)).
    - apply sumc_ext. intros p Hp. apply sumc_ext. intros q Hq. apply sumc_ext. intros r Hr. rewrite !fw_power by lia. fold N. rewrite !sgn_add, !cpow_mul.
      replace (l + q - p)%nat with (q + (l - p))%nat by lia. replace (l + p - r)%nat with (p + (l - r))%nat by lia. replace (l + r - q)%nat with (r + (l - q))%nat by lia.
      replace (2 * l - (q + (l - p)))%nat with (p + (l - q))%nat by lia. replace (2 * l - (p + (l - r)))%nat with (r + (l - p))%nat by lia. replace (2 * l - (r + (l - q)))%nat with (q + (l - r))%nat by lia. rewrite !cpow_add. ring.
    - set (f := fun p => sgn p * rc (bin l p) * ((a2 * b1) ^ p * (a1 * b2) ^ (l - p))). set (g := fun q => sgn q * rc (bin l q) * ((a1 * c2) ^ q * (a2 * c1) ^ (l - q))). set (h := fun r => sgn r * rc (bin l r) * ((b2 * c1) ^ r * (b1 * c2) ^ (l - r))).
      change (sumc (fun p => sumc (fun q => sumc (fun r => N * N * N * (f p * g q * h r)) (S l)) (S l)) (S l) = N * N * N * (sumc f (S l) * sumc g (S l) * sumc h (S l))).
      rewrite (sumc_ext _ (fun p => N * N * N * (f p * (sumc g (S l) * sumc h (S l))))); [rewrite sumc_scal, sumc_scal_r; ring|]. intros p _. rewrite (sumc_ext _ (fun q => N * N * N * f p * (g q * sumc h (S l)))); [rewrite sumc_scal, sumc_scal_r; ring|]. intros q _. rewrite (sumc_ext _ (fun r => N * N * N * f p * g q * h r)) by (intros; ring). rewrite sumc_scal. ring.
  Qed.
  (** Invariance *)
  Lemma tri_changed a b c d x y z : (a * d - b * c) * (a * d - b * c) = C1 -> Nat.even l = true -> tri (changed a b c d (2 * l) x) (changed a b c d (2 * l) y) (changed a b c d (2 * l) z) = tri x y z.
  Proof.
    intros D Ev. set (g := changed a b c d (2 * l)).
    assert (L1 : forall y z, lin (2 * l) (fun x => tri (g x) (g y) (g z))) by (intros; apply (lin_map (2 * l) (fun x => tri x _ _) (fun i j => col a b c d i (2 * l - i) j)); apply tri_lin1).
    assert (L2 : forall x z, lin (2 * l) (fun y => tri (g x) (g y) (g z))) by (intros; apply (lin_map (2 * l) (fun y => tri _ y _) (fun i j => col a b c d i (2 * l - i) j)); apply tri_lin2).
    assert (L3 : forall x y, lin (2 * l) (fun z => tri (g x) (g y) (g z))) by (intros; apply (lin_map (2 * l) (fun z => tri _ _ z) (fun i j => col a b c d i (2 * l - i) j)); apply tri_lin3).
    revert z. apply (lin_powers (2 * l) (fun z => tri (g x) (g y) (g z)) (fun z => tri x y z) (L3 x y) (tri_lin3 x y)). intros c1 c2. revert y. apply (lin_powers (2 * l) (fun y => tri (g x) (g y) (g (power (2 * l) c1 c2))) (fun y => tri x y _) (L2 x _) (tri_lin2 x _)). intros b1 b2. revert x.
    apply (lin_powers (2 * l) (fun x => tri (g x) (g (power (2 * l) b1 b2)) (g (power (2 * l) c1 c2))) (fun x => tri x _ _) (L1 _ _) (tri_lin1 _ _)). intros a1 a2.
    assert (G : forall s t i, (i <= 2 * l)%nat -> g (power (2 * l) s t) i = power (2 * l) (a * s + c * t) (b * s + d * t) i) by (intros; apply changed_power; auto).
    rewrite (lin_depends _ (fun x => tri x (g (power (2 * l) b1 b2)) (g (power (2 * l) c1 c2))) _ (power (2 * l) (a * a1 + c * a2) (b * a1 + d * a2)) (tri_lin1 _ _)) by (intros; apply G; auto).
    rewrite (lin_depends _ (fun y => tri _ y (g (power (2 * l) c1 c2))) _ (power (2 * l) (a * b1 + c * b2) (b * b1 + d * b2)) (tri_lin2 _ _)) by (intros; apply G; auto).
    rewrite (lin_depends _ (fun z => tri _ _ z) _ (power (2 * l) (a * c1 + c * c2) (b * c1 + d * c2)) (tri_lin3 _ _)) by (intros; apply G; auto).
    rewrite !tri_powers. f_equal.
    assert (K : forall s t s' t', ((a * s + c * t) * (b * s' + d * t') - (b * s + d * t) * (a * s' + c * t')) ^ l = (a * d - b * c) ^ l * (s * t' - t * s') ^ l) by (intros; rewrite <- cpow_mul; f_equal; ring).
    assert (D1 : (a * d - b * c) ^ l = C1). { apply Nat.even_spec in Ev as [k ->]. replace (2 * k)%nat with (k + k)%nat by lia. rewrite cpow_add, <- cpow_mul, D, cpow_one. auto. }
    assert (K' : forall s t s' t', ((b * s + d * t) * (a * s' + c * t') - (a * s + c * t) * (b * s' + d * t')) ^ l = (a * d - b * c) ^ l * (t * s' - s * t') ^ l) by (intros; rewrite <- cpow_mul; f_equal; ring).
    rewrite !K, !K', !D1. ring.
  Qed.
End Tri.

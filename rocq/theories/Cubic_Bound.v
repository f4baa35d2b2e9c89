(** A bound on the cubic order parameter: Cauchy-Schwarz with the orthonormality of the table of 3j symbols. *)
Require Import Reals Qreals QArith ZArith List Bool Arith Lia Lra Ring.
Require Import Verif.Base Verif.ListX Verif.Traj_Model Verif.Particles_Model Verif.Boo_Model Verif.Boo_Spec Verif.Boo_Proofs Verif.Boo_Props Verif.Euler_Model Verif.Euler_Spec Verif.Euler_Cplx Verif.Euler_Proofs.
Require Import Verif.Cubic_Model Verif.Cubic_Proofs Verif.Cubic_Link.
Import ListNotations.
Local Open Scope R_scope.

Fixpoint rs {A} (f : A -> R) (l : list A) : R := match l with [] => 0 | a :: l' => f a + rs f l' end.
Lemma rs_ext {A} (f g : A -> R) l : (forall a, In a l -> f a = g a) -> rs f l = rs g l.
Proof. induction l as [|a l IH]; intros H; cbn [rs]; [auto|]. rewrite H, IH; cbn; auto. intros. apply H. right. auto. Qed.
Lemma rs_pos {A} (f : A -> R) l : (forall a, In a l -> 0 <= f a) -> 0 <= rs f l.
Proof. induction l as [|a l IH]; intros H; cbn [rs]; [lra|]. assert (0 <= f a) by (apply H; left; auto). assert (0 <= rs f l) by (apply IH; intros; apply H; right; auto). lra. Qed.
Lemma rs_app {A} (f : A -> R) l m : rs f (l ++ m) = rs f l + rs f m.
Proof. induction l as [|a l IH]; cbn [rs app]; [|rewrite IH]; ring. Qed.
Lemma rs_map {A B} (g : A -> B) (f : B -> R) l : rs f (map g l) = rs (fun a => f (g a)) l.
Proof. induction l as [|a l IH]; cbn [rs map]; [|rewrite IH]; auto. Qed.
Lemma rs_scal {A} (f : A -> R) k l : rs (fun a => k * f a) l = k * rs f l.
Proof. induction l as [|a l IH]; cbn [rs]; [ring|]. rewrite IH. ring. Qed.
Lemma rs_in {A} (f : A -> R) l a : (forall a, In a l -> 0 <= f a) -> In a l -> f a <= rs f l.
Proof.
  induction l as [|b l IH]; intros H I; [destruct I|]. cbn [rs]. assert (P : 0 <= f b) by (apply H; left; auto). assert (Q : 0 <= rs f l) by (apply rs_pos; intros; apply H; right; auto).
  destruct I as [->|I]; [lra|]. assert (f a <= rs f l) by (apply IH; auto; intros; apply H; right; auto). lra.
Qed.
Lemma rs_filter {A} (f g : A -> R) p l : (forall a, In a l -> 0 <= g a) -> (forall a, In a l -> p a = true -> f a <= g a) -> rs f (filter p l) <= rs g l.
Proof.
  induction l as [|a l IH]; intros H1 H2; cbn [filter rs]; [lra|]. assert (P := H1 a (or_introl eq_refl)). assert (X : rs f (filter p l) <= rs g l) by (apply IH; intros; [apply H1; right; auto|apply H2; auto; right; auto]).
  destruct (p a) eqn:E; cbn [rs]; [|lra]. assert (f a <= g a) by (apply H2; auto; left; auto). lra.
Qed.
Lemma rs_prod {A B} (f : A -> R) (g : B -> R) l m : rs (fun p => f (fst p) * g (snd p)) (list_prod l m) = rs f l * rs g m.
Proof. induction l as [|a l IH]; cbn [list_prod rs]; [ring|]. rewrite rs_app, IH, rs_map. cbn [fst snd]. rewrite rs_scal. ring. Qed.
Lemma two_means a b c : 0 <= a -> 0 <= b -> c * c <= a * b -> 2 * c <= a + b.
Proof. intros Ha Hb H. apply Rsqr_incr_0_var; [|lra]. unfold Rsqr. assert (0 <= (a - b) * (a - b)) by apply Rle_0_sqr. lra. Qed.
Lemma rs_cauchy {A} (f g : A -> R) l : rs (fun a => f a * g a) l * rs (fun a => f a * g a) l <= rs (fun a => f a * f a) l * rs (fun a => g a * g a) l.
Proof.
  induction l as [|a l IH]; cbn [rs]; [lra|]. set (P := rs (fun a => f a * g a) l) in *. assert (PF : 0 <= rs (fun a => f a * f a) l) by (apply rs_pos; intros; apply Rle_0_sqr). assert (PG : 0 <= rs (fun a => g a * g a) l) by (apply rs_pos; intros; apply Rle_0_sqr).
  set (F := rs (fun a => f a * f a) l) in *. set (G := rs (fun a => g a * g a) l) in *. set (x := f a). set (y := g a). assert (PX : 0 <= x * x) by apply Rle_0_sqr. assert (PY : 0 <= y * y) by apply Rle_0_sqr.
  assert (T : 2 * (x * y * P) <= x * x * G + y * y * F).
  { apply two_means; [apply Rmult_le_pos; auto|apply Rmult_le_pos; auto|]. replace (x * y * P * (x * y * P)) with ((x * x * (y * y)) * (P * P)) by ring. replace (x * x * G * (y * y * F)) with ((x * x * (y * y)) * (F * G)) by ring. apply Rmult_le_compat_l; auto. apply Rmult_le_pos; auto. }
  lra.
Qed.

Definition msq (z : C) : R := fst z * fst z + snd z * snd z.
Lemma msq_pos z : 0 <= msq z. Proof. unfold msq. assert (0 <= fst z * fst z) by apply Rle_0_sqr. assert (0 <= snd z * snd z) by apply Rle_0_sqr. lra. Qed.
Lemma msq_mul (x y : C) : msq (x * y)%C = msq x * msq y.
Proof. destruct x, y. unfold msq, Cmul, cmul. cbn [fst snd]. ring. Qed.
Lemma fst_rsum {A} (f : A -> C) l : fst (rsum (map f l)) = rs (fun a => fst (f a)) l.
Proof. induction l as [|a l IH]; [reflexivity|]. cbn [map]. rewrite rsum_cons. cbn [rs]. rewrite <- IH. destruct (f a), (rsum (map f l)). reflexivity. Qed.
Lemma ksum_rs {A} (f : A -> R) l : ksum R 0 Rplus (map f l) = rs f l.
Proof.
  unfold ksum. assert (G : forall s, fold_left Rplus (map f l) s = s + rs f l); [|rewrite G; ring]. induction l as [|a l IH]; intros s; cbn [map fold_left rs]; [ring|]. rewrite IH. ring.
Qed.
(** The sum of the norms is over all orders. *)
Lemma norm_orders q l n : degree l -> length q = 36%nat -> snd (ratm q l 0) = 0 -> sum_norm R 0 1 Rplus Rmult q l = Val n -> n = rs (fun m => msq (rat q l m)) (zrange l).
Proof.
  intros Hl Lq R0 N. destruct (C59_norm R 0 1 Rplus Rmult Rminus Ropp RTheory q l Lq Hl R0) as [n' [N' I]]. rewrite N in N'. apply val_eq in N'. subst n'. rewrite (C59_value R 0 1 Rplus Rmult Rminus Ropp RTheory q q l Lq Lq Hl R0 R0) in I. apply val_eq in I. rewrite <- I, ksum_rs. reflexivity.
Qed.

(** * The squares of the symbols of a degree add up to 1. *)
Definition sq_entry (l : nat) (p : Z * Z) : Q := let e := nth (index_of l (fst p) (snd p)) w3j_table (0, 0)%Q in (fst e * fst e * snd e)%Q.
Definition qsum (l : nat) : Q := fold_right (fun p s => Qred (sq_entry l p + s)) 0%Q (legal_pairs l).
Lemma rad_pos : forallb (fun e => Qle_bool 0 (snd e)) w3j_table = true. Proof. vm_compute. reflexivity. Qed.
Lemma qsum_one l : degree l -> (qsum l == 1)%Q.
Proof. intros Hl. assert (X := all_degrees (fun l => Qeq_bool (qsum l) 1) ltac:(vm_compute; reflexivity) l Hl). apply Qeq_bool_iff in X. auto. Qed.
Notation w3 := (wz R 0 w3j_real).
Lemma sq_real l m1 m2 : degree l -> legal l m1 m2 -> w3 l m1 m2 * w3 l m1 m2 = Q2R (sq_entry l (m1, m2)).
Proof.
  intros Hl Hm. destruct (w3j_range l m1 m2 Hl Hm) as [_ I]. unfold wz, w3j_real, sq_entry. cbn [fst snd]. set (i := index_of l m1 m2) in *.
  set (f := fun p : Q * Q => Q2R (fst p) * sqrt (Q2R (snd p))). rewrite (nth_indep _ 0 (f (0, 0)%Q)) by (rewrite map_length; exact I). rewrite map_nth. unfold f. set (e := nth i w3j_table (0, 0)%Q).
  assert (P : 0 <= Q2R (snd e)). { assert (X := rad_pos). rewrite forallb_forall in X. specialize (X e (nth_In w3j_table (0, 0)%Q (I : (i < length w3j_table)%nat))). apply Qle_bool_iff, Qle_Rle in X. replace (Q2R 0) with 0 in X by (unfold Q2R; cbn; lra). auto. }
  rewrite !Q2R_mult. transitivity (Q2R (fst e) * Q2R (fst e) * (sqrt (Q2R (snd e)) * sqrt (Q2R (snd e)))); [ring|]. rewrite sqrt_sqrt by auto. auto.
Qed.
Lemma squares_one l : degree l -> rs (fun p => w3 l (fst p) (snd p) * w3 l (fst p) (snd p)) (legal_pairs l) = 1.
Proof.
  intros Hl. transitivity (Q2R (qsum l)); [|rewrite (Qeq_eqR _ _ (qsum_one l Hl)); unfold Q2R; cbn; lra].
  assert (G : forall ps, (forall p, In p ps -> legal l (fst p) (snd p)) -> rs (fun p => w3 l (fst p) (snd p) * w3 l (fst p) (snd p)) ps = Q2R (fold_right (fun p s => Qred (sq_entry l p + s)) 0%Q ps)).
  { induction ps as [|p ps IH]; intros H; cbn [rs fold_right]; [unfold Q2R; cbn; lra|]. rewrite (Qeq_eqR _ _ (Qred_correct _)), Q2R_plus, <- IH by (intros; apply H; right; auto). f_equal. destruct p as [m1 m2]. cbn [fst snd]. apply sq_real; auto. apply (H (m1, m2)). left. auto. }
  apply G. intros [m1 m2] I. apply legal_in in I. auto.
Qed.

(** The square of the real part of the sum is at most the cube of the sum of the norms. *)
Lemma sum_bound q l n : degree l -> length q = 36%nat -> snd (ratm q l 0) = 0 -> sum_norm R 0 1 Rplus Rmult q l = Val n ->
  let w := fst (rsum (map (fun p => tz R 0 Rplus Rmult Rminus Ropp w3j_real q l (fst p) (snd p)) (legal_pairs l))) in 0 <= n /\ w * w <= n * n * n.
Proof.
  intros Hl Lq R0 N w. assert (EN := norm_orders q l n Hl Lq R0 N). assert (P : 0 <= n) by (rewrite EN; apply rs_pos; intros; apply msq_pos). split; auto.
  set (z := fun m => rat q l m : C). set (c := fun p => fst (z (fst p) * z (snd p) * z (- fst p - snd p)%Z)%C).
  assert (E : w = rs (fun p => w3 l (fst p) (snd p) * c p) (legal_pairs l)).
  { unfold w. rewrite fst_rsum. apply rs_ext. intros p _. unfold tz, c, z. destruct (rat q l (fst p)), (rat q l (snd p)), (rat q l (- fst p - snd p)). unfold Cmul, cmul, cscal. cbn [fst snd]. ring. }
  rewrite E. eapply Rle_trans; [apply (rs_cauchy (fun p => w3 l (fst p) (snd p)) c)|]. cbv beta. rewrite squares_one by auto. rewrite Rmult_1_l.
  apply Rle_trans with (rs (fun p => (n * msq (z (fst p))) * msq (z (snd p))) (list_prod (zrange l) (zrange l))).
  - unfold legal_pairs. apply rs_filter.
    + intros p _. apply Rmult_le_pos; [apply Rmult_le_pos; auto|]; apply msq_pos.
    + intros p I Lg. unfold legalb in Lg. apply Z.leb_le in Lg. apply Rle_trans with (msq (z (fst p) * z (snd p) * z (- fst p - snd p)%Z)%C).
      * unfold c. set (x := (z (fst p) * z (snd p) * z (- fst p - snd p)%Z)%C). unfold msq. assert (0 <= snd x * snd x) by apply Rle_0_sqr. lra.
      * rewrite !msq_mul. rewrite (Rmult_comm (msq (z (fst p)) * msq (z (snd p)))). rewrite Rmult_assoc. apply Rmult_le_compat_r; [apply Rmult_le_pos; apply msq_pos|]. rewrite EN. apply (rs_in (fun m => msq (rat q l m))); [intros; apply msq_pos|]. apply zrange_in. lia.
  - rewrite (rs_prod (fun m => n * msq (z m)) (fun m => msq (z m))), rs_scal. unfold z. rewrite <- EN. lra.
Qed.

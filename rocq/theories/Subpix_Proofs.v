(** Proofs about the sub-pixel resolution. *)
Require Import ZArith List Bool Arith QArith Qfield Lqa Lia.
Require Import Verif.Base Verif.Traj_Model Verif.Particles_Model Verif.Corr_Model Verif.Boo_Model.
Require Import Verif.Subpix_Model Verif.Subpix_Spec.
Import ListNotations.
Local Open Scope Q_scope.

Lemma qlt_spec : forall a b, qlt a b = true <-> a < b.
Proof.
  intros a b. unfold qlt. destruct (Qle_bool b a) eqn:E; cbn.
  - apply Qle_bool_iff in E. split; [discriminate|]. intros H. exfalso. lra.
  - split; [|reflexivity]. intros _. apply Qnot_le_lt. intros H. apply Qle_bool_iff in H. congruence.
Qed.
Lemma qlt_false : forall a b, qlt a b = false <-> b <= a.
Proof.
  intros a b. destruct (qlt a b) eqn:E.
  - apply qlt_spec in E. split; [discriminate|]. intros. exfalso. lra.
  - split; [|reflexivity]. intros _. apply Qnot_lt_le. intros H. apply qlt_spec in H. congruence.
Qed.

Lemma saturate_between : forall lo hi x, lo <= hi -> saturate lo hi x = NaN \/ between lo hi (saturate lo hi x).
Proof.
  intros lo hi x H. unfold saturate. destruct x as [q| | |]; cbn.
  - destruct (qlt hi q) eqn:E; cbn.
    + destruct (qlt hi lo) eqn:E2; cbn; right; split; lra.
    + apply qlt_false in E. destruct (qlt q lo) eqn:E2; cbn; right; [split; lra|]. apply qlt_false in E2. split; lra.
  - destruct (qlt hi lo) eqn:E2; cbn; right; split; lra.
  - right. cbn. split; lra.
  - left; reflexivity.
Qed.
Lemma saturate_is : forall lo hi x q, is x q -> lo <= q -> q <= hi -> is (saturate lo hi x) q.
Proof.
  intros lo hi [y| | |] q H H1 H2; cbn in H; try contradiction. unfold saturate; cbn.
  destruct (qlt hi y) eqn:E; [apply qlt_spec in E; exfalso; lra|]. cbn.
  destruct (qlt y lo) eqn:E2; [apply qlt_spec in E2; exfalso; lra|]. exact H.
Qed.
Lemma quot_is : forall a b q, ~ b == 0 -> a == q * b -> is (quot a b) q.
Proof.
  intros a b q Hb H. unfold quot. destruct (Qeq_bool b 0) eqn:E; [apply Qeq_bool_eq in E; contradiction|].
  cbn. rewrite H. field. exact Hb.
Qed.
Lemma minus_is : forall c x q r, is x q -> c - q == r -> is (minus c x) r.
Proof. intros c [y| | |] q r H Hr; cbn in H |- *; try contradiction. rewrite H. exact Hr. Qed.

Lemma nonzero_of : forall a, ~ a == 0 -> ~ 2 * a == 0.
Proof. intros a H E. apply H. lra. Qed.

Lemma vertex_parabola : forall i w c e alpha t beta, ~ alpha == 0 ->
  inject_Z w == parabola alpha t beta (-1) -> inject_Z c == parabola alpha t beta 0 -> inject_Z e == parabola alpha t beta 1 ->
  vertex i w c e == nat_Q i + (1 # 2) + t.
Proof.
  intros i w c e alpha t beta Ha Hw Hc He. unfold vertex, parabola in *.
  assert (H2 : inject_Z (e - 2 * c + w) == 2 * alpha).
  { unfold Zminus. rewrite !inject_Z_plus, inject_Z_opp, inject_Z_mult. rewrite Hw, Hc, He. ring. }
  assert (H1 : inject_Z (e - w) == - 4 * alpha * t).
  { unfold Zminus. rewrite !inject_Z_plus, inject_Z_opp. rewrite Hw, He. ring. }
  destruct (Qeq_bool _ 0) eqn:E.
  - apply Qeq_bool_eq in E. rewrite H2 in E. exfalso. apply (nonzero_of _ Ha E).
  - rewrite H1, H2. unfold nat_Q. field. exact Ha.
Qed.

Lemma injle : forall a b, (a <= b)%Z -> inject_Z a <= inject_Z b.
Proof. intros a b H. now rewrite <- Zle_Qle. Qed.

Lemma vertex_within : forall i w c e, extremal w c e -> nat_Q i <= vertex i w c e /\ vertex i w c e <= nat_Q i + 1.
Proof.
  intros i w c e H. unfold vertex. fold (nat_Q i). generalize (nat_Q i); intros p.
  destruct (Qeq_bool _ 0) eqn:E; [split; lra|].
  assert (Hne : (e - 2 * c + w <> 0)%Z).
  { intros F. rewrite F in E. cbn in E. discriminate. }
  assert (HB : - (1 # 2) <= inject_Z (e - w) / 2 / inject_Z (e - 2 * c + w) /\ inject_Z (e - w) / 2 / inject_Z (e - 2 * c + w) <= (1 # 2)).
  { set (n := (e - w)%Z). set (d := (e - 2 * c + w)%Z) in *.
    assert (Hnd : (- Z.abs d <= n <= Z.abs d)%Z) by (unfold n, d, extremal in *; lia).
    clearbody n d. clear H E.
    assert (Hd : ~ inject_Z d == 0) by (intros F; apply Hne; unfold Qeq in F; cbn in F; lia).
    assert (EQ : inject_Z n / 2 / inject_Z d == (1 # 2) * (inject_Z n / inject_Z d)) by (field; exact Hd).
    assert (HL : (-1) <= inject_Z n / inject_Z d /\ inject_Z n / inject_Z d <= 1).
    { destruct (Z_lt_le_dec 0 d) as [P|P].
      - assert (Pd : 0 < inject_Z d) by (change (inject_Z 0 < inject_Z d); rewrite <- Zlt_Qlt; exact P).
        split.
        + apply Qle_shift_div_l; [exact Pd|]. setoid_replace (-1 * inject_Z d) with (inject_Z (- d)) by (rewrite inject_Z_opp; ring). apply injle. lia.
        + apply Qle_shift_div_r; [exact Pd|]. setoid_replace (1 * inject_Z d) with (inject_Z d) by ring. apply injle. lia.
      - assert (Pd : 0 < inject_Z (- d)) by (change (inject_Z 0 < inject_Z (- d)); rewrite <- Zlt_Qlt; lia).
        assert (EO : inject_Z n / inject_Z d == inject_Z (- n) / inject_Z (- d)) by (rewrite !inject_Z_opp; field; exact Hd).
        rewrite EO. split.
        + apply Qle_shift_div_l; [exact Pd|]. setoid_replace (-1 * inject_Z (- d)) with (inject_Z d) by (rewrite inject_Z_opp; ring). apply injle. lia.
        + apply Qle_shift_div_r; [exact Pd|]. setoid_replace (1 * inject_Z (- d)) with (inject_Z (- d)) by ring. apply injle. lia. }
    rewrite EQ. lra. }
  lra.
Qed.

Lemma newton_parabola : forall a alpha m beta x0, ~ alpha == 0 ->
  (forall u, (u < 5)%nat -> inject_Z (at_u a u) == parabola alpha m beta (x0 + (nat_Q u - 2) / 2)) -> is (newton a) (x0 - m).
Proof.
  intros a alpha m beta x0 Ha H. unfold newton.
  pose proof (H 0%nat ltac:(lia)) as H0. pose proof (H 1%nat ltac:(lia)) as H1. pose proof (H 2%nat ltac:(lia)) as H2.
  pose proof (H 3%nat ltac:(lia)) as H3. pose proof (H 4%nat ltac:(lia)) as H4.
  unfold parabola, nat_Q in *. cbn [Z.of_nat Pos.of_succ_nat Pos.succ] in *.
  assert (HD : inject_Z (at_u a 4 - 2 * at_u a 2 + at_u a 0) == 2 * alpha).
  { unfold Zminus. rewrite !inject_Z_plus, !inject_Z_opp, inject_Z_mult, H0, H2, H4. unfold inject_Z. field. }
  apply quot_is.
  - rewrite HD. apply nonzero_of, Ha.
  - rewrite HD. unfold Zminus. rewrite !inject_Z_plus, !inject_Z_opp, !inject_Z_mult, H0, H1, H3, H4. unfold inject_Z. field.
Qed.
Lemma linear_parabola : forall a alpha m beta x0, ~ alpha == 0 ->
  (forall u, (u < 5)%nat -> inject_Z (at_u a u) == parabola alpha m beta (x0 + (nat_Q u - 2) / 2)) ->
  is (quot (inject_Z (at_u a 3 - at_u a 1)) (inject_Z (at_u a 4 - 2 * at_u a 2 + at_u a 0))) (x0 - m).
Proof.
  intros a alpha m beta x0 Ha H.
  pose proof (H 0%nat ltac:(lia)) as H0. pose proof (H 1%nat ltac:(lia)) as H1. pose proof (H 2%nat ltac:(lia)) as H2.
  pose proof (H 3%nat ltac:(lia)) as H3. pose proof (H 4%nat ltac:(lia)) as H4.
  unfold parabola, nat_Q in *. cbn [Z.of_nat Pos.of_succ_nat Pos.succ] in *.
  assert (HD : inject_Z (at_u a 4 - 2 * at_u a 2 + at_u a 0) == 2 * alpha).
  { unfold Zminus. rewrite !inject_Z_plus, !inject_Z_opp, inject_Z_mult, H0, H2, H4. unfold inject_Z. field. }
  apply quot_is.
  - rewrite HD. apply nonzero_of, Ha.
  - rewrite HD. unfold Zminus. rewrite !inject_Z_plus, !inject_Z_opp, H1, H3. unfold inject_Z. field.
Qed.

Lemma sublayers_ok : forall response s, (forall r, (0 <= r)%Z -> exists v, response r = Val v) -> (2 <= s)%Z ->
  exists a, sublayers response s = Val a /\ length a = 5%nat /\
    forall u, (u < 5)%nat -> exists x y, response (s - 2 + Z.of_nat u)%Z = Val x /\ response (s + Z.of_nat u)%Z = Val y /\ at_u a u = (y - x)%Z.
Proof.
  intros response s H Hs. unfold sublayers.
  assert (EX : forall l, exists g, osequence (map (fun u => response (s - 2 + Z.of_nat u)%Z) l) = Val g /\ Forall2 (fun u x => response (s - 2 + Z.of_nat u)%Z = Val x) l g).
  { induction l as [|u l [g [IH F]]]; cbn [map osequence]; [exists []; split; [reflexivity|constructor]|].
    destruct (H (s - 2 + Z.of_nat u)%Z ltac:(lia)) as [v E]. rewrite E, IH. cbn. exists (v :: g). split; [reflexivity|constructor; assumption]. }
  destruct (EX (seq 0 8)) as [g [E F]]. rewrite E. cbn [omap]. eexists. split; [reflexivity|]. split; [reflexivity|].
  intros u Hu. cbn [seq] in F.
  repeat match goal with H : Forall2 _ (_ :: _) _ |- _ => inversion H; clear H; subst end.
  repeat match goal with H : Forall2 _ [] _ |- _ => inversion H; clear H; subst end.
  unfold at_u.
  destruct u as [|[|[|[|[|u]]]]]; [..|lia]; cbn [map seq nth plus];
  match goal with |- exists x y, response ?A = _ /\ response ?B = _ /\ _ => idtac end;
  eexists _, _; (split; [eassumption|]); (split; [|reflexivity]);
  match goal with |- response ?B = _ => replace B with (s - 2 + Z.of_nat 2)%Z by lia; eassumption | |- response ?B = _ => replace B with (s - 2 + Z.of_nat 3)%Z by lia; eassumption
   | |- response ?B = _ => replace B with (s - 2 + Z.of_nat 4)%Z by lia; eassumption | |- response ?B = _ => replace B with (s - 2 + Z.of_nat 5)%Z by lia; eassumption
   | |- response ?B = _ => replace B with (s - 2 + Z.of_nat 6)%Z by lia; eassumption end.
Qed.

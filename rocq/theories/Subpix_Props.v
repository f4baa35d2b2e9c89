(** C97: positions and scales better than the pixel. *)
Require Import ZArith List Bool Arith QArith Qfield Lqa Lia.
Require Import Verif.Base Verif.Traj_Model Verif.Particles_Model Verif.Corr_Model Verif.Boo_Model.
Require Import Verif.Subpix_Model Verif.Subpix_Spec Verif.Subpix_Proofs.
Import ListNotations.
Local Open Scope Q_scope.

(** The Gaussian layer used: the one below the detected scale. *)
Definition layer_below (k : nat) : nat := (k - 1)%nat.

(** C97 in 2D: a pixel that is not on the border gets two coordinates and the intensity of its difference of Gaussians.
    Each coordinate is in the pixel if the pixel is an extremum of the Gaussian layer along this dimension,
    and is the extremum of the parabola if the three pixels are on a parabola (pixel i spans from i to i+1). *)
Theorem C97_position : forall rows cols G D i j k, (1 <= i)%nat -> (i + 1 < cols)%nat -> (1 <= j)%nat -> (j + 1 < rows)%nat ->
  exists x y, spatial2 rows cols G D (i, j, k) = Val (x, y, D k j i) /\
    (extremal (G (layer_below k) j (i - 1)%nat) (G (layer_below k) j i) (G (layer_below k) j (i + 1)%nat) -> nat_Q i <= x /\ x <= nat_Q i + 1) /\
    (extremal (G (layer_below k) (j - 1)%nat i) (G (layer_below k) j i) (G (layer_below k) (j + 1)%nat i) -> nat_Q j <= y /\ y <= nat_Q j + 1) /\
    (forall alpha t beta, ~ alpha == 0 -> (forall d, (d <= 2)%nat -> inject_Z (G (layer_below k) j (i + d - 1)%nat) == parabola alpha t beta (nat_Q d - 1)) -> x == nat_Q i + (1 # 2) + t) /\
    (forall alpha t beta, ~ alpha == 0 -> (forall d, (d <= 2)%nat -> inject_Z (G (layer_below k) (j + d - 1)%nat i) == parabola alpha t beta (nat_Q d - 1)) -> y == nat_Q j + (1 # 2) + t).
Proof.
  intros rows cols G D i j k Hi Hi' Hj Hj'. destruct i as [|i0]; [lia|]. destruct j as [|j0]; [lia|].
  unfold spatial2, px.
  repeat match goal with |- context [(?a <? ?b)%nat] => replace (a <? b)%nat with true by (symmetry; apply Nat.ltb_lt; lia) end.
  cbn [andb obind omap].
  replace (match k with O => k | S k0 => k0 end) with (layer_below k) by (unfold layer_below; clear; destruct k; cbn; [reflexivity|now rewrite Nat.sub_0_r]).
  replace (S i0 - 1)%nat with i0 by lia. replace (S j0 - 1)%nat with j0 by lia.
  eexists _, _. split; [reflexivity|]. split; [apply vertex_within|]. split; [apply vertex_within|].
  split; intros alpha t beta Ha H.
  - pose proof (H 0%nat ltac:(lia)) as H0. pose proof (H 1%nat ltac:(lia)) as H1. pose proof (H 2%nat ltac:(lia)) as H2.
    replace (S i0 + 0 - 1)%nat with i0 in H0 by lia. replace (S i0 + 1 - 1)%nat with (S i0) in H1 by lia. replace (S i0 + 2 - 1)%nat with (S i0 + 1)%nat in H2 by lia.
    eapply vertex_parabola; [exact Ha| | |]; [rewrite H0|rewrite H1|rewrite H2]; reflexivity.
  - pose proof (H 0%nat ltac:(lia)) as H0. pose proof (H 1%nat ltac:(lia)) as H1. pose proof (H 2%nat ltac:(lia)) as H2.
    replace (S j0 + 0 - 1)%nat with j0 in H0 by lia. replace (S j0 + 1 - 1)%nat with (S j0) in H1 by lia. replace (S j0 + 2 - 1)%nat with (S j0 + 1)%nat in H2 by lia.
    eapply vertex_parabola; [exact Ha| | |]; [rewrite H0|rewrite H1|rewrite H2]; reflexivity.
Qed.

(** Finding: a pixel of the border of the image is read out of bounds. *)
Theorem C97_border_refuted : forall rows cols G D i j k, (i = 0 \/ j = 0 \/ cols <= i + 1 \/ rows <= j + 1)%nat -> spatial2 rows cols G D (i, j, k) = UB.
Proof.
  intros rows cols G D i j k H. destruct i as [|i0]; [reflexivity|]. destruct j as [|j0]; [reflexivity|].
  destruct H as [H|[H|[H|H]]]; try lia; unfold spatial2, px.
  - replace (S i0 + 1 <? cols)%nat with false by (symmetry; apply Nat.ltb_ge; lia). now rewrite andb_false_r.
  - replace (S j0 + 1 <? rows)%nat with false by (symmetry; apply Nat.ltb_ge; lia). cbn [andb].
    destruct ((S j0 <? rows)%nat && (S i0 + 1 <? cols)%nat); [|reflexivity]. destruct ((S j0 <? rows)%nat && (i0 <? cols)%nat); reflexivity.
Qed.

(** Finding: the minimum is one of the differences of Gaussians, the position that of the Gaussian layer below, which need not be extremal there:
    the position may then be at any distance from the pixel, even out of the image. *)
Theorem C97_far_refuted : forall b : nat, exists G D x y, spatial2 3 3 G D (1, 1, 1)%nat = Val (x, y, D 1%nat 1%nat 1%nat) /\
  (forall j i, D 1%nat 1%nat 1%nat <= D 1%nat j i)%Z /\ (D 1%nat 1%nat 1%nat < D 0%nat 1%nat 1%nat /\ D 1%nat 1%nat 1%nat < D 2%nat 1%nat 1%nat)%Z /\ x == 1 - nat_Q b.
Proof.
  intros b. exists (fun _ _ i => match i with O => 0 | 1%nat => Z.of_nat b | _ => 2 * Z.of_nat b + 1 end)%Z.
  exists (fun k j i => match k, j, i with 1%nat, 1%nat, 1%nat => -1 | _, _, _ => 0 end)%Z.
  eexists _, _. split; [reflexivity|]. split; [|split].
  - intros [|[|j]] [|[|i]]; lia.
  - lia.
  - unfold vertex. change (1 + 1)%nat with 2%nat. cbv iota. replace (2 * Z.of_nat b + 1 - 2 * Z.of_nat b + 0)%Z with 1%Z by lia.
    change (Qeq_bool (inject_Z 1) 0) with false. cbv iota.
    unfold nat_Q. replace (2 * Z.of_nat b + 1 - 0)%Z with (2 * Z.of_nat b + 1)%Z by lia. generalize (Z.of_nat b); intros z. rewrite inject_Z_plus, inject_Z_mult. cbn [Z.of_nat Pos.of_succ_nat]. unfold inject_Z. field.
Qed.

(** C97 in 1D: when the three pixels are not aligned the coordinate is that of 2D. *)
Theorem C97_line : forall cols G D i k, (1 <= i)%nat -> (i + 1 < cols)%nat ->
  let w := G (layer_below k) 0%nat (i - 1)%nat in let c := G (layer_below k) 0%nat i in let e := G (layer_below k) 0%nat (i + 1)%nat in
  (e - c <> c - w)%Z ->
  exists x, omap fst (spatial1 1 cols G D (i, k)) = Val (Fin x) /\ (extremal w c e -> nat_Q i <= x /\ x <= nat_Q i + 1) /\
    (forall alpha t beta, ~ alpha == 0 -> (forall d, (d <= 2)%nat -> inject_Z (G (layer_below k) 0%nat (i + d - 1)%nat) == parabola alpha t beta (nat_Q d - 1)) -> x == nat_Q i + (1 # 2) + t).
Proof.
  intros cols G D i k Hi Hi' w c e Hne. destruct i as [|i0]; [lia|]. unfold spatial1, px.
  repeat match goal with |- context [(?a <? ?b)%nat] => replace (a <? b)%nat with true by (symmetry; apply Nat.ltb_lt; lia) end.
  cbn [andb obind omap].
  replace (match k with O => k | S k0 => k0 end) with (layer_below k) by (unfold layer_below; clear; destruct k; cbn; [reflexivity|now rewrite Nat.sub_0_r]).
  assert (Ew : w = G (layer_below k) 0%nat i0) by (unfold w; f_equal; lia). rewrite <- Ew.
  change (G (layer_below k) 0%nat (S i0)) with c. change (G (layer_below k) 0%nat (S i0 + 1)%nat) with e.
  assert (HQ : Qeq_bool (inject_Z (e - 2 * c + w)) 0 = false).
  { destruct (Qeq_bool (inject_Z (e - 2 * c + w)) 0) eqn:E; [|reflexivity]. apply Qeq_bool_eq in E. unfold Qeq, inject_Z in E. cbn [Qnum Qden] in E. lia. }
  unfold quot. rewrite HQ. cbn [minus fst].
  assert (EV : inject_Z (Z.of_nat (S i0)) + (1 # 2) - inject_Z (e - w) / 2 / inject_Z (e - 2 * c + w) = vertex (S i0) w c e) by (unfold vertex; now rewrite HQ).
  rewrite EV. eexists. split; [reflexivity|]. split; [apply vertex_within|].
  intros alpha t beta Ha H.
  pose proof (H 0%nat ltac:(lia)) as H0. pose proof (H 1%nat ltac:(lia)) as H1. pose proof (H 2%nat ltac:(lia)) as H2.
  replace (S i0 + 0 - 1)%nat with (S i0 - 1)%nat in H0 by lia. replace (S i0 + 1 - 1)%nat with (S i0) in H1 by lia. replace (S i0 + 2 - 1)%nat with (S i0 + 1)%nat in H2 by lia.
  eapply vertex_parabola; [exact Ha| | |]; [rewrite <- (Qplus_0_r (inject_Z w))|rewrite <- (Qplus_0_r (inject_Z c))|rewrite <- (Qplus_0_r (inject_Z e))]; unfold w, c, e; rewrite Qplus_0_r; [rewrite H0|rewrite H1|rewrite H2]; reflexivity.
Qed.
(** The intensity reported in 1D at position x: the difference of Gaussians of the pixel, less a quarter of the difference between the two neighbours times the displacement in the pixel. *)
Theorem C97_line_intensity : forall cols G D i k, (1 <= i)%nat -> (i + 1 < cols)%nat ->
  let w := G (layer_below k) 0%nat (i - 1)%nat in let c := G (layer_below k) 0%nat i in let e := G (layer_below k) 0%nat (i + 1)%nat in
  (e - c <> c - w)%Z ->
  exists x y, spatial1 1 cols G D (i, k) = Val (Fin x, Fin y) /\ y == inject_Z (D k 0%nat i) - (x - nat_Q i) * (inject_Z e - inject_Z w) / 4.
Proof.
  intros cols G D i k Hi Hi' w c e Hne. destruct i as [|i0]; [lia|]. unfold spatial1, px.
  repeat match goal with |- context [(?a <? ?b)%nat] => replace (a <? b)%nat with true by (symmetry; apply Nat.ltb_lt; lia) end.
  cbn [andb obind omap].
  replace (match k with O => k | S k0 => k0 end) with (layer_below k) by (unfold layer_below; clear; destruct k; cbn; [reflexivity|now rewrite Nat.sub_0_r]).
  assert (Ew : w = G (layer_below k) 0%nat i0) by (unfold w; f_equal; lia). rewrite <- Ew.
  change (G (layer_below k) 0%nat (S i0)) with c. change (G (layer_below k) 0%nat (S i0 + 1)%nat) with e.
  assert (HQ : Qeq_bool (inject_Z (e - 2 * c + w)) 0 = false).
  { destruct (Qeq_bool (inject_Z (e - 2 * c + w)) 0) eqn:E; [|reflexivity]. apply Qeq_bool_eq in E. unfold Qeq, inject_Z in E. cbn [Qnum Qden] in E. lia. }
  unfold quot. rewrite HQ. cbn [minus]. eexists _, _. split; [reflexivity|]. match goal with |- _ - _ * (?X - _) * _ == _ => generalize X end. intros X. unfold nat_Q, Zminus. rewrite inject_Z_plus, inject_Z_opp. field.
Qed.
(** Finding: three equal pixels give not-a-number in 1D, and three aligned different pixels an infinite position of infinite intensity. *)
Theorem C97_line_refuted : forall cols G D i k, (1 <= i)%nat -> (i + 1 < cols)%nat ->
  let w := G (layer_below k) 0%nat (i - 1)%nat in let c := G (layer_below k) 0%nat i in let e := G (layer_below k) 0%nat (i + 1)%nat in
  (e - c = c - w)%Z -> spatial1 1 cols G D (i, k) = Val (if (c =? w)%Z then (NaN, NaN) else if (w <? c)%Z then (Minf, Pinf) else (Pinf, Pinf)).
Proof.
  intros cols G D i k Hi Hi' w c e Hne. destruct i as [|i0]; [lia|]. unfold spatial1, px.
  repeat match goal with |- context [(?a <? ?b)%nat] => replace (a <? b)%nat with true by (symmetry; apply Nat.ltb_lt; lia) end.
  cbn [andb obind omap].
  replace (match k with O => k | S k0 => k0 end) with (layer_below k) by (unfold layer_below; clear; destruct k; cbn; [reflexivity|now rewrite Nat.sub_0_r]).
  assert (Ew : w = G (layer_below k) 0%nat i0) by (unfold w; f_equal; lia). rewrite <- Ew.
  change (G (layer_below k) 0%nat (S i0)) with c. change (G (layer_below k) 0%nat (S i0 + 1)%nat) with e.
  replace (e - 2 * c + w)%Z with 0%Z by lia. unfold quot. change (Qeq_bool (inject_Z 0) 0) with true. cbv iota.
  assert (HE : inject_Z (e - w) / 2 == inject_Z (c - w)).
  { replace (e - w)%Z with (2 * (c - w))%Z by lia. rewrite inject_Z_mult. unfold inject_Z. field. }
  destruct (Z.eqb_spec c w) as [E|E]; [|destruct (Z.ltb_spec w c) as [L|L]].
  - replace (qlt 0 (inject_Z (e - w) / 2)) with false; [replace (qlt (inject_Z (e - w) / 2) 0) with false; [reflexivity|]|];
      symmetry; apply qlt_false; rewrite HE; change 0 with (inject_Z 0); apply injle; lia.
  - replace (qlt 0 (inject_Z (e - w) / 2)) with true; [reflexivity|]. symmetry. apply qlt_spec. rewrite HE. change 0 with (inject_Z 0). rewrite <- Zlt_Qlt. lia.
  - replace (qlt 0 (inject_Z (e - w) / 2)) with false; [replace (qlt (inject_Z (e - w) / 2) 0) with true; [reflexivity|]|]; symmetry.
    + apply qlt_spec. rewrite HE. change 0 with (inject_Z 0). rewrite <- Zlt_Qlt. lia.
    + apply qlt_false. rewrite HE. change 0 with (inject_Z 0). apply injle. lia.
Qed.

(** C97: the scale in 2D is not more than half a layer away from the detected one, or not a number; no response is asked at a negative scale. *)
Theorem C97_scale : forall response l, (1 <= l)%nat -> (forall r, (0 <= r)%Z -> exists v, response r = Val v) ->
  exists s, scale2 response l = Val s /\ (s = NaN \/ between (nat_Q l - (1 # 2)) (nat_Q l + (1 # 2)) s).
Proof.
  intros response l Hl H. unfold scale2. fold (nat_Q l). cbv zeta.
  destruct (sublayers_ok response (2 * Z.of_nat l) H ltac:(lia)) as [a [Ea _]]. rewrite Ea. cbn [obind].
  set (s0 := saturate _ _ (minus (nat_Q l) (newton a))).
  assert (Hs : s0 = NaN \/ between (nat_Q l - (1 # 2)) (nat_Q l + (1 # 2)) s0) by (apply saturate_between; lra).
  clearbody s0.
  assert (GO : forall x, exists s, omap (saturate (nat_Q l - (1 # 2)) (nat_Q l + (1 # 2))) (Val x) = Val s /\ (s = NaN \/ between (nat_Q l - (1 # 2)) (nat_Q l + (1 # 2)) s)).
  { intros x. cbn [omap]. eexists. split; [reflexivity|]. apply saturate_between. lra. }
  destruct (ge_num s0 1) eqn:E1.
  - destruct (lt_num s0 (nat_Q l - (1 # 10))) eqn:E2; [|apply GO].
    assert (2 <= l)%nat.
    { destruct Hs as [->|Hs]; [discriminate|]. destruct s0 as [q| | |]; cbn in Hs; try contradiction. cbn [ge_num lt_num] in E1, E2.
      apply Qle_bool_iff in E1. apply qlt_spec in E2. destruct l as [|[|l]]; [lia| |lia].
      exfalso. change (nat_Q 1) with 1 in *. lra. }
    destruct (sublayers_ok response (2 * Z.of_nat l - 1) H ltac:(lia)) as [b [Eb _]]. rewrite Eb. cbn [omap]. apply GO.
  - destruct (lt_num s0 (nat_Q l - (1 # 4))); apply GO.
Qed.
(** C97: when the responses at the half layers are such that their differences are on a parabola with its extremum at most half a layer away, the scale is that of the extremum. *)
Theorem C97_scale_exact : forall R l alpha m beta, (1 <= l)%nat -> ~ alpha == 0 -> nat_Q l - (1 # 2) <= m -> m <= nat_Q l + (1 # 2) ->
  (forall h, (0 <= h)%Z -> inject_Z (R (h + 2) - R h)%Z == parabola alpha m beta (inject_Z h / 2)) ->
  exists s, scale2 (fun h => if (h <? 0)%Z then Throw else Val (R h)) l = Val s /\ is s m.
Proof.
  intros R l alpha m beta Hl Ha Hm1 Hm2 H.
  set (response := fun h => if (h <? 0)%Z then Throw else Val (R h)).
  assert (HR : forall r, (0 <= r)%Z -> response r = Val (R r)).
  { intros r Hr. unfold response. destruct (Z.ltb_spec r 0); [lia|reflexivity]. }
  assert (HX : forall r, (0 <= r)%Z -> exists v, response r = Val v) by (intros r Hr; eexists; apply HR, Hr).
  assert (PAR : forall s a, (2 <= s)%Z -> (forall u, (u < 5)%nat -> exists x y, response (s - 2 + Z.of_nat u)%Z = Val x /\ response (s + Z.of_nat u)%Z = Val y /\ at_u a u = (y - x)%Z) ->
    forall u, (u < 5)%nat -> inject_Z (at_u a u) == parabola alpha m beta (inject_Z s / 2 + (nat_Q u - 2) / 2)).
  { intros s a Hs F u Hu. destruct (F u Hu) as [x [y [Ex [Ey ->]]]]. rewrite HR in Ex by lia. rewrite HR in Ey by lia.
    injection Ex as <-. injection Ey as <-. pose proof (H (s - 2 + Z.of_nat u)%Z ltac:(lia)) as E.
    replace (s - 2 + Z.of_nat u + 2)%Z with (s + Z.of_nat u)%Z in E by lia. rewrite E. unfold parabola.
    assert (EX : inject_Z (s - 2 + Z.of_nat u) / 2 == inject_Z s / 2 + (nat_Q u - 2) / 2).
    { unfold Zminus, nat_Q. rewrite !inject_Z_plus. unfold inject_Z. cbn [Z.opp]. field. }
    rewrite EX. reflexivity. }
  unfold scale2. fold (nat_Q l). cbv zeta.
  destruct (sublayers_ok response (2 * Z.of_nat l) HX ltac:(lia)) as [a [Ea [_ Fa]]]. rewrite Ea. cbn [obind].
  assert (E2l : inject_Z (2 * Z.of_nat l) / 2 == nat_Q l) by (unfold nat_Q; rewrite inject_Z_mult; unfold inject_Z; field).
  assert (Pa : forall u, (u < 5)%nat -> inject_Z (at_u a u) == parabola alpha m beta (nat_Q l + (nat_Q u - 2) / 2)).
  { intros u Hu. rewrite (PAR (2 * Z.of_nat l)%Z a ltac:(lia) Fa u Hu). unfold parabola. rewrite E2l. reflexivity. }
  assert (I0 : is (saturate (nat_Q l - (1 # 2)) (nat_Q l + (1 # 2)) (minus (nat_Q l) (newton a))) m).
  { apply saturate_is; [|lra|lra]. eapply minus_is; [eapply newton_parabola; [exact Ha|exact Pa]|]. ring. }
  set (s0 := saturate _ _ (minus (nat_Q l) (newton a))) in *. clearbody s0.
  assert (GO : forall x, is x m -> exists s, omap (saturate (nat_Q l - (1 # 2)) (nat_Q l + (1 # 2))) (Val x) = Val s /\ is s m).
  { intros x Hx. cbn [omap]. eexists. split; [reflexivity|]. apply saturate_is; [exact Hx|lra|lra]. }
  destruct (ge_num s0 1) eqn:E1.
  - destruct (lt_num s0 (nat_Q l - (1 # 10))) eqn:E2; [|apply GO, I0].
    assert (2 <= l)%nat.
    { destruct s0 as [q| | |]; cbn in I0; try contradiction. cbn [ge_num lt_num] in E1, E2.
      apply Qle_bool_iff in E1. apply qlt_spec in E2. destruct l as [|[|l]]; [lia| |lia].
      exfalso. change (nat_Q 1) with 1 in *. lra. }
    destruct (sublayers_ok response (2 * Z.of_nat l - 1) HX ltac:(lia)) as [b [Eb [_ Fb]]]. rewrite Eb. cbn [omap].
    apply (GO (minus (nat_Q l - (1 # 2)) (newton b))). eapply minus_is.
    + eapply (newton_parabola b alpha m beta (nat_Q l - (1 # 2))); [exact Ha|]. intros u Hu. rewrite (PAR (2 * Z.of_nat l - 1)%Z b ltac:(lia) Fb u Hu). unfold parabola.
      assert (EX : inject_Z (2 * Z.of_nat l - 1) / 2 == nat_Q l - (1 # 2)).
      { unfold nat_Q, Zminus. rewrite inject_Z_plus, inject_Z_mult. unfold inject_Z. cbn [Z.opp]. field. }
      rewrite EX. reflexivity.
    + ring.
  - destruct (lt_num s0 (nat_Q l - (1 # 4))) eqn:E2; [|apply GO, I0].
    apply GO. eapply minus_is; [eapply linear_parabola; [exact Ha|exact Pa]|]. ring.
Qed.
(** C97: the scale of the first layer is not defined: its neighbour below has a negative scale and this throws. *)
Theorem C97_first_layer : forall response, (forall r, (r < 0)%Z -> response r = Throw) -> scale2 response 0 = Throw.
Proof. intros response H. unfold scale2, sublayers. cbn [seq map osequence]. rewrite (H (2 * Z.of_nat 0 - 2 + Z.of_nat 0)%Z) by lia. reflexivity. Qed.
(** Finding: when the differences of Gaussians do not change between scales (a uniform image) the scale is not a number. *)
Theorem C97_scale_nan_refuted : forall v l, (1 <= l)%nat -> scale2 (fun h => if (h <? 0)%Z then Throw else Val v) l = Val NaN.
Proof.
  intros v l Hl. unfold scale2. cbv zeta.
  destruct (sublayers_ok (fun h => if (h <? 0)%Z then Throw else Val v) (2 * Z.of_nat l)) as [a [Ea [_ F]]].
  { intros r Hr. destruct (Z.ltb_spec r 0); [lia|]. now exists v. } { lia. }
  rewrite Ea. cbn [obind].
  assert (Z0 : forall u, (u < 5)%nat -> at_u a u = 0%Z).
  { intros u Hu. destruct (F u Hu) as [x [y [Ex [Ey ->]]]]. cbv beta in Ex, Ey.
    destruct (Z.ltb_spec (2 * Z.of_nat l - 2 + Z.of_nat u) 0); [lia|]. destruct (Z.ltb_spec (2 * Z.of_nat l + Z.of_nat u) 0); [lia|].
    injection Ex as <-. injection Ey as <-. lia. }
  unfold newton. rewrite !Z0 by lia. reflexivity.
Qed.

(** C97 in 3D: each coordinate of a centre at least three voxels away from the ends is less than one voxel and a half away from its voxel, or not a number; nothing is read out of bounds. *)
Theorem C97_volume : forall planes rows cols G i j k l, (3 <= i)%nat -> (i + 3 < cols)%nat -> (3 <= j)%nat -> (j + 3 < rows)%nat -> (3 <= k)%nat -> (k + 3 < planes)%nat ->
  exists x y z, spatial3 planes rows cols G (i, j, k, l) = Val (x, y, z) /\
    (x = NaN \/ between (nat_Q i - (9 # 16)) (nat_Q i + (23 # 16)) x) /\ (y = NaN \/ between (nat_Q j - (9 # 16)) (nat_Q j + (23 # 16)) y) /\ (z = NaN \/ between (nat_Q k - (9 # 16)) (nat_Q k + (23 # 16)) z) /\
    forall alpha t beta, ~ alpha == 0 -> -1 <= t -> t <= 1 ->
    ((forall u, (u < 7)%nat -> inject_Z (G (l - 1) k j (i - 3 + u))%nat == parabola alpha t beta (nat_Q u - 3)) -> is x (nat_Q i + (7 # 16) + t)) /\
    ((forall u, (u < 7)%nat -> inject_Z (G (l - 1) k (j - 3 + u) i)%nat == parabola alpha t beta (nat_Q u - 3)) -> is y (nat_Q j + (7 # 16) + t)) /\
    ((forall u, (u < 7)%nat -> inject_Z (G (l - 1) (k - 3 + u) j i)%nat == parabola alpha t beta (nat_Q u - 3)) -> is z (nat_Q k + (7 # 16) + t)).
Proof.
  intros planes rows cols G i j k l Hi1 Hi2 Hj1 Hj2 Hk1 Hk2.
  assert (SEV : forall f n p, (3 <= p)%nat -> (p + 3 < n)%nat -> (forall q, (q < n)%nat -> exists v, f q = Val v) ->
    exists a, seven f p = Val a /\ forall u, (u < 7)%nat -> f (p - 3 + u)%nat = Val (nth u a 0%Z)).
  { intros f n p H1 H2 F. unfold seven. replace (p <? 3)%nat with false by (symmetry; apply Nat.ltb_ge; lia).
    assert (EX : forall L, (forall u, In u L -> (u < 7)%nat) -> exists g, osequence (map (fun u => f (p - 3 + u)%nat) L) = Val g /\ Forall2 (fun u x => f (p - 3 + u)%nat = Val x) L g).
    { induction L as [|u L IH]; intros HL; cbn [map osequence]; [exists []; split; [reflexivity|constructor]|].
      destruct (F (p - 3 + u)%nat) as [v E]; [pose proof (HL u (or_introl eq_refl)); lia|].
      destruct IH as [g [IH1 IH2]]; [intros; apply HL; now right|]. rewrite E, IH1. exists (v :: g). split; [reflexivity|constructor; assumption]. }
    destruct (EX (seq 0 7)) as [g [E FF]]; [intros u Hu; apply in_seq in Hu; lia|]. rewrite E. exists g. split; [reflexivity|].
    intros u Hu. cbn [seq] in FF.
    repeat match goal with H : Forall2 _ (_ :: _) _ |- _ => inversion H; clear H; subst end.
    destruct u as [|[|[|[|[|[|[|u]]]]]]]; [..|lia]; cbn [nth]; assumption. }
  destruct (SEV (fun i => px3 planes rows cols G (l - 1) k j i) cols i Hi1 Hi2) as [x [Ex Fx]].
  { intros q Hq. unfold px3. repeat match goal with |- context [(?a <? ?b)%nat] => replace (a <? b)%nat with true by (symmetry; apply Nat.ltb_lt; lia) end. eexists; reflexivity. }
  destruct (SEV (fun j => px3 planes rows cols G (l - 1) k j i) rows j Hj1 Hj2) as [y [Ey Fy]].
  { intros q Hq. unfold px3. repeat match goal with |- context [(?a <? ?b)%nat] => replace (a <? b)%nat with true by (symmetry; apply Nat.ltb_lt; lia) end. eexists; reflexivity. }
  destruct (SEV (fun k => px3 planes rows cols G (l - 1) k j i) planes k Hk1 Hk2) as [z [Ez Fz]].
  { intros q Hq. unfold px3. repeat match goal with |- context [(?a <? ?b)%nat] => replace (a <? b)%nat with true by (symmetry; apply Nat.ltb_lt; lia) end. eexists; reflexivity. }
  unfold spatial3. rewrite Ex. cbn [obind]. rewrite Ey. cbn [obind]. rewrite Ez. cbn [omap].
  assert (BND : forall p a, let r := plus_num (inject_Z (Z.of_nat p)) (shift7 a) in
    r = NaN \/ between (nat_Q p - (9 # 16)) (nat_Q p + (23 # 16)) r).
  { intros p a. cbv zeta. unfold shift7. destruct (saturate_between (-1) 1 (quot (derivative1 a) (derivative2 a))) as [E|E]; [lra| |].
    - rewrite E. now left.
    - right. destruct (saturate (-1) 1 _) as [q| | |]; cbn in E; try contradiction. cbn. unfold nat_Q. lra. }
  assert (PAR : forall p a alpha t beta, ~ alpha == 0 -> -1 <= t -> t <= 1 -> (forall u, (u < 7)%nat -> inject_Z (nth u a 0%Z) == parabola alpha t beta (nat_Q u - 3)) ->
     is (plus_num (inject_Z (Z.of_nat p)) (shift7 a)) (nat_Q p + (7 # 16) + t)).
  { intros p a alpha t beta Ha T1 T2 F. unfold shift7.
    assert (I : is (minus (7 # 16) (saturate (-1) 1 (quot (derivative1 a) (derivative2 a)))) ((7 # 16) + t)).
    { apply (minus_is _ _ (- t)); [|ring]. apply saturate_is; [|lra|lra].
      pose proof (F 0%nat ltac:(lia)) as H0. pose proof (F 1%nat ltac:(lia)) as H1. pose proof (F 2%nat ltac:(lia)) as H2. pose proof (F 3%nat ltac:(lia)) as H3.
      pose proof (F 4%nat ltac:(lia)) as H4. pose proof (F 5%nat ltac:(lia)) as H5. pose proof (F 6%nat ltac:(lia)) as H6.
      unfold parabola, nat_Q in *. cbn [Z.of_nat Pos.of_succ_nat Pos.succ] in *.
      assert (D2 : derivative2 a == 2 * alpha) by (unfold derivative2; rewrite H0, H1, H2, H3, H4, H5, H6; unfold inject_Z; field).
      assert (D1 : derivative1 a == - (2) * alpha * t).
      { unfold derivative1, Zminus. rewrite !inject_Z_plus, !inject_Z_opp, !inject_Z_mult, H0, H1, H2, H4, H5, H6. unfold inject_Z. field. }
      apply quot_is; [rewrite D2; apply nonzero_of, Ha|]. rewrite D1, D2. ring. }
    destruct (minus _ _) as [q| | |]; cbn in I; try contradiction. cbn. rewrite I. unfold nat_Q. ring. }
  assert (VAL : forall kk jj ii, (kk < planes)%nat -> (jj < rows)%nat -> (ii < cols)%nat -> forall v, px3 planes rows cols G (l - 1) kk jj ii = Val v -> v = G (l - 1)%nat kk jj ii).
  { intros kk jj ii A B C v E. unfold px3 in E. replace (kk <? planes)%nat with true in E by (symmetry; apply Nat.ltb_lt; lia).
    replace (jj <? rows)%nat with true in E by (symmetry; apply Nat.ltb_lt; lia). replace (ii <? cols)%nat with true in E by (symmetry; apply Nat.ltb_lt; lia).
    cbn in E. now injection E as <-. }
  eexists _, _, _. split; [reflexivity|]. split; [apply BND|]. split; [apply BND|]. split; [apply BND|].
  intros alpha t beta Ha T1 T2. split; [|split]; intros F; apply (PAR _ _ alpha t beta Ha T1 T2); intros u Hu.
  - rewrite (VAL k j (i - 3 + u)%nat ltac:(lia) ltac:(lia) ltac:(lia) _ (Fx u Hu)). apply F, Hu.
  - rewrite (VAL k (j - 3 + u)%nat i ltac:(lia) ltac:(lia) ltac:(lia) _ (Fy u Hu)). apply F, Hu.
  - rewrite (VAL (k - 3 + u)%nat j i ltac:(lia) ltac:(lia) ltac:(lia) _ (Fz u Hu)). apply F, Hu.
Qed.
(** Less than three voxels away from the ends of a row or of a column, voxels out of the row or of the column are read. *)
Theorem C97_volume_border_refuted : forall planes rows cols G i j k l, (i < 3 \/ j < 3 \/ cols <= i + 3 \/ rows <= j + 3)%nat -> spatial3 planes rows cols G (i, j, k, l) = UB.
Proof.
  intros planes rows cols G i j k l H.
  assert (S1 : forall f p, (forall q, f q <> Throw) -> (exists a, seven f p = Val a) \/ seven f p = UB).
  { intros f p F. unfold seven. destruct (p <? 3)%nat; [now right|]. induction (seq 0 7) as [|u L IH]; cbn [map osequence]; [left; eexists; reflexivity|].
    destruct (f (p - 3 + u)%nat) eqn:E; [|exfalso; eapply F; eauto|now right]. cbn [obind]. destruct IH as [[a9 ->]| ->]; [left; eexists; reflexivity|now right]. }
  assert (S2 : forall f p n, (forall q, f q <> Throw) -> (forall q, (n <= q)%nat -> f q = UB) -> (p < 3 \/ n <= p + 3)%nat -> seven f p = UB).
  { intros f p n F U [C|C]; [unfold seven; replace (p <? 3)%nat with true by (symmetry; apply Nat.ltb_lt; lia); reflexivity|].
    destruct (S1 f p F) as [[a E]|E]; auto. exfalso. unfold seven in E. destruct (p <? 3)%nat eqn:E3; [discriminate|]. apply Nat.ltb_ge in E3. cbn [seq map osequence] in E. rewrite (U (p - 3 + 6)%nat) in E by lia.
    repeat match type of E with context [f ?q] => let v := fresh in destruct (f q) as [v| |]; cbn [obind omap] in E; try discriminate end. }
  assert (F : forall l k j i, px3 planes rows cols G l k j i <> Throw) by (intros; unfold px3; destruct (_ && _); discriminate).
  unfold spatial3. destruct (S1 (fun i => px3 planes rows cols G (l - 1) k j i) i (fun _ => F _ _ _ _)) as [[x Ex]|Ex]; rewrite Ex; cbn [obind]; [|reflexivity].
  destruct (S1 (fun j => px3 planes rows cols G (l - 1) k j i) j (fun _ => F _ _ _ _)) as [[y Ey]|Ey]; rewrite Ey; cbn [obind]; [|reflexivity]. exfalso.
  assert (U1 : forall q, (cols <= q)%nat -> px3 planes rows cols G (l - 1) k j q = UB) by (intros q Hq; unfold px3; replace (q <? cols)%nat with false by (symmetry; apply Nat.ltb_ge; lia); now rewrite andb_false_r).
  assert (U2 : forall q, (rows <= q)%nat -> px3 planes rows cols G (l - 1) k q i = UB) by (intros q Hq; unfold px3; replace (q <? rows)%nat with false by (symmetry; apply Nat.ltb_ge; lia); now rewrite andb_false_r).
  destruct H as [H|[H|[H|H]]].
  - rewrite (S2 _ i cols (fun _ => F _ _ _ _) U1) in Ex by lia. discriminate.
  - rewrite (S2 _ j rows (fun _ => F _ _ _ _) U2) in Ey by lia. discriminate.
  - rewrite (S2 _ i cols (fun _ => F _ _ _ _) U1) in Ex by lia. discriminate.
  - rewrite (S2 _ j rows (fun _ => F _ _ _ _) U2) in Ey by lia. discriminate.
Qed.
(** C97 in 3D: the shift in scale is at most half a layer, or not a number. *)
Theorem C97_volume_scale : forall ml size lo c hi, shift_scale ml size (lo, c, hi) = NaN \/ between (- (1 # 2)) (1 # 2) (shift_scale ml size (lo, c, hi)).
Proof.
  intros ml size lo c hi. unfold shift_scale. destruct (quot _ _); [|now left|now left|now left]. apply saturate_between. lra.
Qed.
(** Finding: seven equal voxels give a coordinate that is not a number, and three aligned differences of Gaussians a scale that is not a number. *)
Theorem C97_volume_nan_refuted : (forall v, shift7 (repeat v 7) = NaN) /\ forall ml size lo c hi, (hi - c = c - lo)%Z -> shift_scale ml size (lo, c, hi) = NaN.
Proof.
  split.
  - intros v. unfold shift7.
    assert (D1 : derivative1 (repeat v 7) == 0) by (unfold derivative1; cbn [repeat nth]; replace (v - 9 * v + 45 * v - 45 * v + 9 * v - v)%Z with 0%Z by lia; reflexivity).
    assert (D2 : derivative2 (repeat v 7) == 0) by (unfold derivative2; cbn [repeat nth]; field).
    unfold quot. destruct (Qeq_bool (derivative2 (repeat v 7)) 0) eqn:E; [|apply Qeq_bool_neq in E; contradiction].
    destruct (qlt 0 _) eqn:E1; [apply qlt_spec in E1; exfalso; lra|]. destruct (qlt _ 0) eqn:E2; [apply qlt_spec in E2; exfalso; lra|]. reflexivity.
  - intros ml size lo c hi H. unfold shift_scale. replace (hi - 2 * c + lo)%Z with 0%Z by lia. unfold quot. change (Qeq_bool (inject_Z 0) 0) with true. cbv iota.
    destruct (qlt 0 _); [reflexivity|]. destruct (qlt _ 0); reflexivity.
Qed.

(** A case: a bright spot between columns 2 and 3. *)
Definition ex_spot (k j i : nat) : Z := nth i (nth j [[0; 0; 0; 0; 0]; [0; 1; 4; 3; 0]; [0; 2; 9; 7; 1]; [0; 1; 4; 3; 0]; [0; 0; 0; 0; 0]]%Z []) 0%Z.
Example C97_case : (exists x y, spatial2 5 5 ex_spot (fun _ j i => - ex_spot 0%nat j i)%Z (2, 2, 1)%nat = Val (x, y, -9)%Z /\ x == 25 # 9 /\ y == 5 # 2) /\
  extremal (ex_spot 0 2 1) (ex_spot 0 2 2) (ex_spot 0 2 3).
Proof.
  split.
  - eexists _, _. split; [reflexivity|]. split; reflexivity.
  - unfold extremal. cbn. lia.
Qed.
(** A case of the exact scale: differences 4x^2 - 16x, extremum at layer 2. *)
Definition ex_R (h : Z) : Z := let p := (h / 2)%Z in
  if Z.even h then (4 * (p * (p - 1) * (2 * p - 1) / 6) - 8 * (p * (p - 1)))%Z else (4 * (p * (p - 1) * (2 * p - 1) / 6) - 6 * (p * (p - 1)) - 7 * p)%Z.
Example C97_scale_case : exists q, scale2 (fun h => if (h <? 0)%Z then Throw else Val (ex_R h)) 2 = Val (Fin q) /\ q == 2.
Proof. eexists. split; [vm_compute; reflexivity|]. vm_compute. reflexivity. Qed.

Print Assumptions C97_position.
Print Assumptions C97_border_refuted.
Print Assumptions C97_far_refuted.
Print Assumptions C97_line.
Print Assumptions C97_line_refuted.
Print Assumptions C97_scale.
Print Assumptions C97_scale_exact.
Print Assumptions C97_first_layer.
Print Assumptions C97_scale_nan_refuted.
Print Assumptions C97_volume.
Print Assumptions C97_volume_scale.
Print Assumptions C97_volume_nan_refuted.
Print Assumptions C97_line_intensity.
Print Assumptions C97_volume_border_refuted.

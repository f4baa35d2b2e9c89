(** C142: the scales of blobs on a line and in a volume. *)
Require Import ZArith List Bool Arith QArith Lqa Lia.
Require Import Verif.Base Verif.Traj_Model Verif.Particles_Model Verif.Corr_Model Verif.Boo_Model Verif.Subpix_Model Verif.Subpix_Spec Verif.Scale1_Model Verif.Scale1_Spec.
Require Import Verif.Corr_Proofs Verif.Subpix_Proofs.
Import ListNotations.
Local Open Scope Q_scope.

Lemma thirds_ok response l : (1 <= l)%nat -> forall R, (forall h, (0 <= h)%Z -> response h = Val (R h)) ->
  thirds response l = Val (map (fun u => R (3 * Z.of_nat l - 3 + Z.of_nat u)%Z) (seq 0 7)).
Proof.
  intros Hl R H. unfold thirds. cbn [seq map osequence]. rewrite !H by lia. reflexivity.
Qed.
Lemma inj_sub a b : inject_Z (a - b) == inject_Z a - inject_Z b.
Proof. unfold Zminus. rewrite inject_Z_plus, inject_Z_opp. reflexivity. Qed.
Lemma injlt a b : (a < b)%Z -> inject_Z a < inject_Z b.
Proof. intros H. rewrite <- Zlt_Qlt. exact H. Qed.

(** a null denominator is seen whatever its form *)
Lemma quot_zero a b : b == 0 -> quot a b = if qlt 0 a then Pinf else if qlt a 0 then Minf else NaN.
Proof. intros H. unfold quot. destruct (Qeq_bool b 0) eqn:E; [reflexivity|]. apply Qeq_bool_neq in E. contradiction. Qed.
Lemma quot_fin a b : ~ b == 0 -> quot a b = Fin (a / b).
Proof. intros H. unfold quot. destruct (Qeq_bool b 0) eqn:E; [apply Qeq_bool_iff in E; contradiction|reflexivity]. Qed.
Lemma qlt_iff a b a' b' : (a < b <-> a' < b') -> qlt a b = qlt a' b'.
Proof.
  intros H. destruct (qlt a b) eqn:E1, (qlt a' b') eqn:E2; try reflexivity.
  - apply qlt_spec in E1. apply H, qlt_spec in E1. congruence.
  - apply qlt_spec in E2. apply H, qlt_spec in E2. congruence.
Qed.
Lemma quot_scaled k a b a' b' : 0 < k -> a' == k * a -> b' == k * b -> same (quot a' b') (quot a b).
Proof.
  intros Hk Ha Hb. destruct (Qeq_dec b 0) as [E|E].
  - rewrite (quot_zero a b E), (quot_zero a' b') by (rewrite Hb, E; ring).
    assert (E1 : qlt 0 a' = qlt 0 a) by (apply qlt_iff; rewrite Ha; split; intros; nra).
    assert (E2 : qlt a' 0 = qlt a 0) by (apply qlt_iff; rewrite Ha; split; intros; nra).
    rewrite E1, E2. destruct (qlt 0 a); [exact I|]. destruct (qlt a 0); exact I.
  - rewrite (quot_fin a b E), (quot_fin a' b') by (rewrite Hb; nra). cbn [same]. rewrite Ha, Hb. field. split; [exact E|lra].
Qed.

(** C142: on a line, when the responses to scales follow a cubic, the step found is the distance from its steepest slope to the layer, whatever this distance. *)
Theorem C142_line response R corr l alpha m gamma delta : (1 <= l)%nat -> ~ alpha == 0 ->
  (forall h, (0 <= h)%Z -> response h = Val (R h) /\ inject_Z (R h) == cubic alpha m gamma delta (inject_Z h / 3)) ->
  exists s, scale1 response corr l = Val s /\ is s (line_law corr (nat_Q l) (nat_Q l - m)).
Proof.
  intros Hl Ha H. unfold scale1. rewrite (thirds_ok response l Hl R) by (intros; apply H; assumption). cbn [omap]. eexists. split; [reflexivity|].
  set (a := map _ _).
  assert (A : forall u : nat, (u < 7)%nat -> inject_Z (at_u a u) == cubic alpha m gamma delta (nat_Q l - 1 + nat_Q u / 3)).
  { intros u Hu. assert (E : at_u a u = R (3 * Z.of_nat l - 3 + Z.of_nat u)%Z) by (do 7 (destruct u as [|u]; [reflexivity|]); lia).
    rewrite E. rewrite (proj2 (H (3 * Z.of_nat l - 3 + Z.of_nat u)%Z ltac:(lia))).
    assert (EX : inject_Z (3 * Z.of_nat l - 3 + Z.of_nat u) / 3 == nat_Q l - 1 + nat_Q u / 3).
    { unfold nat_Q. rewrite inject_Z_plus, inj_sub, inject_Z_mult. change (inject_Z 3) with 3. field. }
    unfold cubic. rewrite EX. reflexivity. }
  assert (S1 : is (step1 a) (nat_Q l - m)).
  { assert (D : inject_Z (at_u a 6 - 3 * at_u a 4 + 3 * at_u a 2 - at_u a 0) == (16 # 9) * alpha).
    { rewrite !inj_sub, inject_Z_plus, inj_sub, !inject_Z_mult. rewrite !A by lia. unfold cubic, nat_Q. unfold inject_Z. cbn [Z.of_nat Pos.of_succ_nat Pos.succ]. field. }
    unfold step1. apply quot_is; rewrite D; [intros C; apply Ha; lra|].
    rewrite inject_Z_plus, inj_sub, !inject_Z_mult. rewrite !A by lia. unfold cubic, nat_Q. unfold inject_Z. cbn [Z.of_nat Pos.of_succ_nat Pos.succ]. field. }
  destruct (step1 a) as [q| | |]; cbn [is] in S1; try contradiction. cbn [corrected is]. unfold line_law. rewrite S1. unfold nat_Q. ring.
Qed.

(** C142: the scale on a line does not depend on the brightness (c) and the contrast (k). *)
Theorem C142_line_contrast response R response' corr l k c : (1 <= l)%nat -> (0 < k)%Z ->
  (forall h, (0 <= h)%Z -> response h = Val (R h) /\ response' h = Val (k * R h + c)%Z) ->
  exists s s', scale1 response corr l = Val s /\ scale1 response' corr l = Val s' /\ same s' s.
Proof.
  intros Hl Hk H. unfold scale1. rewrite (thirds_ok response l Hl R) by (intros; apply H; assumption).
  rewrite (thirds_ok response' l Hl (fun h => k * R h + c)%Z) by (intros; apply H; assumption). cbn [omap].
  eexists _, _. split; [reflexivity|]. split; [reflexivity|].
  match goal with |- same (corrected _ _ (step1 ?x)) (corrected _ _ (step1 ?y)) => set (a' := x); set (a := y) end.
  assert (Q : same (step1 a') (step1 a)).
  { unfold step1. apply (quot_scaled (inject_Z k)).
    - change 0 with (inject_Z 0). apply injlt. lia.
    - unfold a, a'. cbn [at_u nth map seq]. rewrite !inject_Z_plus, !inj_sub, !inject_Z_plus, !inject_Z_mult, !inject_Z_plus, !inject_Z_mult. ring.
    - unfold a, a'. cbn [at_u nth map seq]. rewrite <- inject_Z_mult. apply inject_Z_injective. ring. }
  destruct (step1 a'), (step1 a); cbn [same] in Q; try contradiction; cbn [corrected same]; try exact I. rewrite Q. reflexivity.
Qed.
(** C142: the first layer throws, since a response is asked below it. *)
Theorem C142_first_layer response corr : (forall h, (h < 0)%Z -> response h = Throw) -> scale1 response corr 0 = Throw.
Proof. intros H. unfold scale1, thirds. cbn [seq map osequence]. rewrite H by lia. reflexivity. Qed.
(** Finding: on a line the scale is not kept near the layer, it may be any number of layers above. *)
Theorem C142_line_far_refuted corr l b : (1 <= l)%nat -> 0 <= corr <= 1 ->
  exists R s, scale1 (fun h => if (h <? 0)%Z then Throw else Val (R h)) corr l = Val (Fin s) /\ nat_Q l + nat_Q b < s.
Proof.
  intros Hl Hc. set (M := (l + b + 1)%nat). set (R := fun h => ((h - 3 * Z.of_nat M) * (h - 3 * Z.of_nat M) * (h - 3 * Z.of_nat M))%Z).
  destruct (C142_line (fun h => if (h <? 0)%Z then Throw else Val (R h)) R corr l 27 (nat_Q M) 0 0 Hl) as (s & Es & Is).
  - discriminate.
  - intros h Hh. split; [destruct (Z.ltb_spec h 0); [lia|reflexivity]|]. unfold R, cubic, nat_Q. rewrite !inject_Z_mult, !inj_sub, !inject_Z_mult. change (inject_Z 3) with 3. field.
  - destruct s as [q| | |]; cbn [is] in Is; try contradiction. exists R, q. split; [exact Es|]. rewrite Is. unfold line_law.
    assert (EM : nat_Q M == nat_Q l + nat_Q b + 1) by (unfold M, nat_Q; rewrite !Nat2Z.inj_add, !inject_Z_plus; reflexivity).
    assert (Ed : nat_Q l - nat_Q M == - (nat_Q b + 1)) by (rewrite EM; ring). rewrite Ed.
    assert (1 <= nat_Q l) by (unfold nat_Q; change 1 with (inject_Z 1); apply injle; lia).
    assert (0 <= nat_Q b) by (unfold nat_Q; change 0 with (inject_Z 0); apply injle; lia). nra.
Qed.
(** Finding: when the slope of the responses changes steadily, the scale is infinite if it decreases, and not a number otherwise; a uniform response is such a case. *)
Theorem C142_line_nan_refuted R corr l : (1 <= l)%nat -> let r u := R (3 * Z.of_nat l + u)%Z in (r 3 - 3 * r 1 + 3 * r (-1) - r (-3) = 0)%Z ->
  scale1 (fun h => if (h <? 0)%Z then Throw else Val (R h)) corr l = Val (if (r 2 - 2 * r 0 + r (-2) <? 0)%Z then Pinf else NaN).
Proof.
  intros Hl r H. unfold scale1. rewrite (thirds_ok _ l Hl R) by (intros h Hh; destruct (Z.ltb_spec h 0); [lia|reflexivity]).
  cbn [omap]. f_equal. set (a := map _ _).
  assert (A : forall u : nat, (u < 7)%nat -> at_u a u = r (Z.of_nat u - 3)%Z).
  { intros u Hu. assert (E : at_u a u = R (3 * Z.of_nat l - 3 + Z.of_nat u)%Z) by (do 7 (destruct u as [|u]; [reflexivity|]); lia).
    rewrite E. unfold r. f_equal. lia. }
  unfold step1. rewrite !A by lia. cbn [Z.of_nat Pos.of_succ_nat Pos.succ Z.sub Z.add Z.opp Z.pos_sub Pos.pred_double Z.succ_double Z.pred_double Z.double].
  rewrite quot_zero by (change 0 with (inject_Z 0); apply inject_Z_injective; exact H). clear. set (x := (r 2 - 2 * r 0 + r (-2))%Z). clearbody x.
  assert (X : (x <? 0)%Z = qlt ((2 # 3) * inject_Z x) 0).
  { destruct (Z.ltb_spec x 0) as [L|L]; symmetry.
    - apply qlt_spec. apply injlt in L. change (inject_Z 0) with 0 in L. lra.
    - apply qlt_false. apply injle in L. change (inject_Z 0) with 0 in L. lra. }
  rewrite X. destruct (qlt 0 _) eqn:E1; [|destruct (qlt _ 0); reflexivity].
  apply qlt_spec in E1. destruct (qlt _ 0) eqn:E2; [apply qlt_spec in E2; exfalso; lra|reflexivity].
Qed.

(** the shift in a volume: depends on the ratio only *)
Lemma shift_same ml n lo c hi lo' c' hi' : same (quot (inject_Z (- (hi' - lo')) / 2) (inject_Z (hi' - 2 * c' + lo'))) (quot (inject_Z (- (hi - lo)) / 2) (inject_Z (hi - 2 * c + lo))) ->
  same (shift_scale ml n (lo', c', hi')) (shift_scale ml n (lo, c, hi)).
Proof.
  unfold shift_scale. intros H. destruct (quot _ _) as [q'| | |], (quot _ _) as [q| | |]; cbn [same] in H; try contradiction; try exact I. cbv zeta.
  assert (S : forall x y, x == y -> same (saturate (- (1 # 2)) (1 # 2) (Fin x)) (saturate (- (1 # 2)) (1 # 2) (Fin y))).
  { intros x y E. unfold saturate. cbn [gt_num]. rewrite (qlt_iff (1 # 2) x (1 # 2) y) by (rewrite E; reflexivity).
    destruct (qlt (1 # 2) y); cbn [lt_num]; [reflexivity|]. rewrite (qlt_iff x _ y (- (1 # 2))) by (rewrite E; reflexivity).
    destruct (qlt y _); cbn [same]; [reflexivity|exact E]. }
  apply S. rewrite H. reflexivity.
Qed.
Lemma plus_same q x y : same x y -> same (plus_num q x) (plus_num q y).
Proof. destruct x, y; cbn [same plus_num]; intros H; try contradiction; try exact I. rewrite H. reflexivity. Qed.
Lemma scale3_eq n G l : (1 <= l <= Pos.to_nat n)%nat ->
  scale3 n G l = Val (plus_num (nat_Q l) (shift_scale l n ((G l - G (l - 1)%nat)%Z, (G (l + 1)%nat - G l)%Z, (G (l + 2)%nat - G (l + 1)%nat)%Z))).
Proof.
  intros [H1 H2]. unfold scale3. destruct (Nat.eqb_spec l 0); [lia|]. destruct (Nat.ltb_spec (Pos.to_nat n) l); [lia|]. cbn [orb].
  replace (l - 1 + 0 + 1)%nat with l by lia. replace (l - 1 + 0)%nat with (l - 1)%nat by lia. replace (l - 1 + 1)%nat with l by lia.
  replace (l - 1 + 2)%nat with (l + 1)%nat by lia. replace (l + 1 + 1)%nat with (l + 2)%nat by lia. reflexivity.
Qed.
(** C142: in a volume the scale is at most half a layer away from the detected one, or not a number. *)
Theorem C142_volume n G l : (1 <= l <= Pos.to_nat n)%nat -> exists s, scale3 n G l = Val s /\ (s = NaN \/ between (nat_Q l - (1 # 2)) (nat_Q l + (1 # 2)) s).
Proof.
  intros Hl. rewrite (scale3_eq n G l Hl). eexists. split; [reflexivity|].
  match goal with |- context [shift_scale ?a ?b ?c] => assert (D : shift_scale a b c = NaN \/ between (- (1 # 2)) (1 # 2) (shift_scale a b c)) end.
  { unfold shift_scale. destruct (quot _ _); [|now left|now left|now left]. apply saturate_between. lra. }
  destruct D as [-> | D]; [now left|right]. destruct (shift_scale _ _ _); cbn [between plus_num] in *; try contradiction. destruct D. split; lra.
Qed.
(** C142: other layers have no neighbour on one side: a layer that does not exist would be read. *)
Theorem C142_volume_ends n G l : (l = 0 \/ Pos.to_nat n < l)%nat -> scale3 n G l = UB.
Proof. intros [-> | H]; unfold scale3; [reflexivity|]. destruct (Nat.ltb_spec (Pos.to_nat n) l); [|lia]. rewrite orb_true_r. reflexivity. Qed.
(** C142: in a volume, when the differences of Gaussians are on a parabola, the scale is given by the law of the distance from the layer to the extremum, reduced by 0.045 l/n, brought to at most half a layer. *)
Theorem C142_volume_law n G l alpha m beta : (1 <= l <= Pos.to_nat n)%nat -> ~ alpha == 0 ->
  (forall u, (u < Pos.to_nat n + 2)%nat -> inject_Z (G (u + 1)%nat - G u) == parabola alpha m beta (nat_Q u)) ->
  exists r, scale3 n G l = Val (Fin r) /\
    brought (nat_Q l - (1 # 2)) (nat_Q l + (1 # 2)) (nat_Q l + volume_law (m - nat_Q l - (45 # 1000) * nat_Q l / inject_Z (Zpos n))) r.
Proof.
  intros Hl Ha H. rewrite (scale3_eq n G l Hl).
  assert (B0 : inject_Z (G l - G (l - 1)%nat) == parabola alpha m beta (nat_Q l - 1)).
  { pose proof (H (l - 1)%nat ltac:(lia)) as E. replace (l - 1 + 1)%nat with l in E by lia. rewrite E. unfold parabola.
    assert (EX : nat_Q (l - 1) == nat_Q l - 1) by (unfold nat_Q; rewrite Nat2Z.inj_sub by lia; rewrite inj_sub; reflexivity). rewrite EX. reflexivity. }
  assert (B1 : inject_Z (G (l + 1)%nat - G l) == parabola alpha m beta (nat_Q l)) by (apply H; lia).
  assert (B2 : inject_Z (G (l + 2)%nat - G (l + 1)%nat) == parabola alpha m beta (nat_Q l + 1)).
  { pose proof (H (l + 1)%nat ltac:(lia)) as E. replace (l + 1 + 1)%nat with (l + 2)%nat in E by lia. rewrite E. unfold parabola.
    assert (EX : nat_Q (l + 1) == nat_Q l + 1) by (unfold nat_Q; rewrite Nat2Z.inj_add, inject_Z_plus; reflexivity). rewrite EX. reflexivity. }
  unfold shift_scale. set (b0 := (G l - G (l - 1)%nat)%Z) in *. set (b1 := (G (l + 1)%nat - G l)%Z) in *. set (b2 := (G (l + 2)%nat - G (l + 1)%nat)%Z) in *.
  assert (Q : is (quot (inject_Z (- (b2 - b0)) / 2) (inject_Z (b2 - 2 * b1 + b0))) (m - nat_Q l)).
  { assert (D : inject_Z (b2 - 2 * b1 + b0) == 2 * alpha).
    { rewrite inject_Z_plus, inj_sub, inject_Z_mult, B0, B1, B2. unfold parabola. change (inject_Z 2) with 2. ring. }
    apply quot_is; rewrite D; [intros C; apply Ha; lra|]. rewrite inject_Z_opp, inj_sub, B0, B2. unfold parabola. field. }
  destruct (quot _ _) as [q| | |]; cbn [is] in Q; try contradiction. cbv zeta.
  match goal with |- context [Fin ((107 # 100) * ?x + _ - _ - _)] => set (d := x) end.
  assert (Ed : d == m - nat_Q l - (45 # 1000) * nat_Q l / inject_Z (Zpos n)) by (unfold d; rewrite Q; reflexivity).
  assert (EV : (107 # 100) * d + (235 # 1000) * d * d - (29 # 100) * d ^ 3 - (30 # 100) * d ^ 4 == volume_law (m - nat_Q l - (45 # 1000) * nat_Q l / inject_Z (Zpos n))).
  { unfold volume_law. rewrite <- Ed. ring. }
  set (v := volume_law _) in *. set (w := (107 # 100) * d + _ - _ - _) in *. clearbody v w. clear - EV. unfold saturate. cbn [gt_num].
  destruct (qlt (1 # 2) w) eqn:E1.
  - apply qlt_spec in E1. change (lt_num (Fin (1 # 2)) (- (1 # 2))) with false. cbv iota. cbn [plus_num]. eexists. split; [reflexivity|].
    split; [intros; lra|]. split; intros; [lra|reflexivity].
  - apply qlt_false in E1. cbn [lt_num]. destruct (qlt w (- (1 # 2))) eqn:E2; cbn [plus_num]; (eexists; split; [reflexivity|]).
    + apply qlt_spec in E2. split; [intros; lra|]. split; intros; [|lra]. lra.
    + apply qlt_false in E2. split; [intros; lra|]. split; intros; lra.
Qed.
(** C142: nor does the scale in a volume depend on brightness and contrast. *)
Theorem C142_volume_contrast n G l k c : (0 < k)%Z -> (1 <= l <= Pos.to_nat n)%nat ->
  exists s s', scale3 n G l = Val s /\ scale3 n (fun u => k * G u + c)%Z l = Val s' /\ same s' s.
Proof.
  intros Hk Hl. rewrite !(scale3_eq n _ l Hl). eexists _, _. split; [reflexivity|]. split; [reflexivity|].
  apply plus_same, shift_same. apply (quot_scaled (inject_Z k)).
  - change 0 with (inject_Z 0). apply injlt. lia.
  - rewrite <- (Qmult_inj_l _ _ 2) by discriminate. rewrite !inject_Z_opp, !inj_sub, !inject_Z_plus, !inject_Z_mult. field.
  - rewrite <- inject_Z_mult. apply inject_Z_injective. ring.
Qed.
(** Finding: when the differences of Gaussians of the three scales are aligned, the scale in a volume is not a number; this is so in a uniform image. *)
Theorem C142_volume_nan_refuted n G l : (1 <= l <= Pos.to_nat n)%nat -> (G (l + 2)%nat - 3 * G (l + 1)%nat + 3 * G l - G (l - 1)%nat = 0)%Z -> scale3 n G l = Val NaN.
Proof.
  intros Hl H. rewrite (scale3_eq n G l Hl). unfold shift_scale.
  match goal with |- context [quot ?a ?b] => assert (Q : quot a b = Pinf \/ quot a b = Minf \/ quot a b = NaN) end.
  { rewrite quot_zero.
    - destruct (qlt 0 _); [auto|]. destruct (qlt _ 0); auto.
    - change 0 with (inject_Z 0). apply inject_Z_injective. lia. }
  destruct Q as [-> | [-> | ->]]; reflexivity.
Qed.

(** Cases: responses with the steepest slope at scale 7/3, seen from layer 2; a parabola of extremum 2 in 3 layers. *)
Definition ex_line (h : Z) : Z := ((h - 7) * (h - 7) * (h - 7) - 30 * h)%Z.
Example C142_line_case : exists q, scale1 (fun h => if (h <? 0)%Z then Throw else Val (ex_line h)) (1 # 4) 2 = Val (Fin q) /\ q == line_law (1 # 4) 2 (- (1 # 3)).
Proof. eexists. split; [vm_compute; reflexivity|]. vm_compute. reflexivity. Qed.
Definition ex_vol (u : nat) : Z := nth u [0; 0; -6; -14; -20; -20]%Z 0%Z.
Example C142_volume_case : (forall u, (u < 3 + 2)%nat -> inject_Z (ex_vol (u + 1) - ex_vol u) == parabola 2 2 (- (8)) (nat_Q u)) /\
  exists q, scale3 3 ex_vol 2 = Val (Fin q) /\ q == 2 + volume_law (- (3 # 100)).
Proof.
  split.
  - intros u Hu. do 5 (destruct u as [|u]; [reflexivity|]). lia.
  - eexists. split; [vm_compute; reflexivity|]. vm_compute. reflexivity.
Qed.

Print Assumptions C142_line.
Print Assumptions C142_line_contrast.
Print Assumptions C142_first_layer.
Print Assumptions C142_line_far_refuted.
Print Assumptions C142_line_nan_refuted.
Print Assumptions C142_volume.
Print Assumptions C142_volume_ends.
Print Assumptions C142_volume_law.
Print Assumptions C142_volume_contrast.
Print Assumptions C142_volume_nan_refuted.

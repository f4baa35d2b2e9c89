(** Lemmas on the positions better than the pixel. *)
Require Import List Bool Arith ZArith QArith Qround Lia Lqa.
Require Import Verif.Base Verif.ListX Verif.Traj_Model Verif.Particles_Model Verif.Boo_Model Verif.Corr_Model Verif.Corr_Proofs Verif.Tracker_Spec Verif.Peaks_Model Verif.Peaks_Spec Verif.Newton_Model Verif.Newton_Spec.
Import ListNotations.
Local Open Scope nat_scope.

Lemma Qneg_iff q : Qneg q = true <-> (q < 0)%Q.
Proof. unfold Qneg. rewrite negb_true_iff. split; intros H. - destruct (Qlt_le_dec q 0) as [L|L]; auto. apply Qle_bool_iff in L. congruence. - destruct (Qle_bool 0 q) eqn:E; auto. apply Qle_bool_iff in E. lra. Qed.
Lemma Qneg_false q : Qneg q = false <-> (0 <= q)%Q.
Proof. unfold Qneg. rewrite negb_false_iff. apply Qle_bool_iff. Qed.

(** The polynomial through five pixels *)
Definition slope12 (f : Z -> Q) : Q := (f (-2)%Z - 8 * f (-1)%Z + 8 * f 1%Z - f 2%Z)%Q.
Definition curv12 (f : Z -> Q) : Q := (- f (-2)%Z + 16 * f (-1)%Z - 30 * f 0%Z + 16 * f 1%Z - f 2%Z)%Q.
Lemma through_coefs f a0 a1 a2 a3 a4 : through f a0 a1 a2 a3 a4 -> (12 * a1 == slope12 f)%Q /\ (24 * a2 == curv12 f)%Q.
Proof.
  intros H. unfold slope12, curv12. rewrite (H (-2)%Z), (H (-1)%Z), (H 0%Z), (H 1%Z), (H 2%Z) by lia. unfold quartic, inject_Z. split; ring.
Qed.
Lemma through_ex f : exists a0 a1 a2 a3 a4, through f a0 a1 a2 a3 a4.
Proof.
  exists (f 0%Z), (slope12 f / 12)%Q, (curv12 f / 24)%Q, ((- f (-2)%Z + 2 * f (-1)%Z - 2 * f 1%Z + f 2%Z) / 12)%Q, ((f (-2)%Z - 4 * f (-1)%Z + 6 * f 0%Z - 4 * f 1%Z + f 2%Z) / 24)%Q.
  intros m Hm. unfold quartic, slope12, curv12. assert (C : (m = -2 \/ m = -1 \/ m = 0 \/ m = 1 \/ m = 2)%Z) by lia. destruct C as [->|[->|[->|[->| ->]]]]; unfold inject_Z; field.
Qed.
Lemma step_iff f s : newton_step f s <-> ~ (curv12 f == 0)%Q /\ (s == - (2 * slope12 f) / (2 * curv12 f))%Q.
Proof.
  split.
  - intros H. destruct (through_ex f) as (a0 & a1 & a2 & a3 & a4 & T). destruct (H _ _ _ _ _ T) as [N E]. destruct (through_coefs _ _ _ _ _ _ T) as [E1 E2]. rewrite <- E1, <- E2. split; [lra|]. rewrite E. field. auto.
  - intros [N E] a0 a1 a2 a3 a4 T. destruct (through_coefs _ _ _ _ _ _ T) as [E1 E2]. rewrite <- E2 in N. assert (~ (a2 == 0)%Q) by (intros Z; apply N; rewrite Z; ring). split; auto. rewrite E, <- E1, <- E2. field. auto.
Qed.
Lemma flat_iff f : no_curvature f <-> (curv12 f == 0)%Q.
Proof.
  split.
  - intros H. destruct (through_ex f) as (a0 & a1 & a2 & a3 & a4 & T). specialize (H _ _ _ _ _ T). destruct (through_coefs _ _ _ _ _ _ T) as [_ E2]. rewrite <- E2, H. ring.
  - intros H a0 a1 a2 a3 a4 T. destruct (through_coefs _ _ _ _ _ _ T) as [_ E2]. rewrite H in E2. lra.
Qed.

Section Image.
  Variables (n0 n1 n2 : nat) (data : list Q) (img : nat -> nat -> nat -> Q).
  Hypothesis Himg : is_image n0 n1 n2 data img.
  Lemma at_pixel a b c : a < n0 -> b < n1 -> c < n2 -> at_index data (a * (n1 * n2) + b * n2 + c) = Val (img a b c).
  Proof. intros A B C. assert (E := Himg a b c A B C). unfold flat_pixel in E. unfold at_index. replace (a * (n1 * n2) + b * n2 + c) with ((a * n1 + b) * n2 + c) by lia. rewrite E. auto. Qed.

  Lemma derivative_ok coefs l s f : (forall m, (-2 <= m <= 2)%Z -> at_offset data l (m * Z.of_nat s) = Val (f m)) ->
    derivative data coefs l s = Val (fold_left Qplus (map (fun vc => (fst vc * snd vc)%Q) (combine (map f [-2; -1; 0; 1; 2]%Z) coefs)) 0%Q).
  Proof. intros H. unfold derivative. rewrite (osequence_map_ok _ f); [reflexivity|]. intros m Hm. apply H. cbn [In] in Hm. lia. Qed.
  Lemma shift_ok l n s x f : (5 <= n -> forall m, (-2 <= m <= 2)%Z -> at_offset data l (m * Z.of_nat s) = Val (f m)) -> exists r, omap (plus_pixel x) (shift data l n s) = Val r /\ refined n x f r.
  Proof.
    intros H. unfold shift, scope. destruct (Nat.ltb_spec n (2 * 2 + 1)) as [L|L].
    - eexists. split; [reflexivity|]. left. split; [lia|]. eexists. split; [reflexivity|]. ring.
    - specialize (H ltac:(lia)). rewrite !(derivative_ok _ l s f H). cbn [obind omap map combine fold_left coef_prime coef_sec fst snd].
      eexists. split; [reflexivity|]. set (d := (0 + f (-2)%Z * 1 + _ + _ + _ + _)%Q). set (dd := (0 + f (-2)%Z * -1 + _ + _ + _ + _)%Q).
      assert (Ed : (d == slope12 f)%Q) by (unfold d, slope12; ring). assert (Edd : (dd == curv12 f)%Q) by (unfold dd, curv12; ring). clearbody d dd. right. unfold newton. destruct (Qeq_bool dd 0) eqn:B.
      + right. split; [lia|]. apply Qeq_bool_iff in B. split; [apply flat_iff; rewrite <- Edd; auto|]. split; [intros q; destruct (Qeq_bool d 0); discriminate|].
        intros a0 a1 a2 a3 a4 T. destruct (through_coefs _ _ _ _ _ _ T) as [E1 _]. rewrite <- Ed in E1. destruct (Qeq_bool d 0) eqn:D; [apply Qeq_bool_iff in D|apply Qeq_bool_neq in D]; cbn [plus_pixel].
        * split; [reflexivity|split; intros Ha; exfalso; lra].
        * split; [intros Ha; exfalso; apply D; lra|]. split; intros Ha; (destruct (Qneg d) eqn:Nd; [apply Qneg_iff in Nd|apply Qneg_false in Nd]); try reflexivity; exfalso; lra.
      + left. split; [lia|]. apply Qeq_bool_neq in B. cbn [plus_pixel]. eexists. exists (- d / dd)%Q. split; [reflexivity|]. split; [|ring].
        apply step_iff. rewrite <- Edd, <- Ed. split; auto. field. auto.
  Qed.

  Lemma range_ok n x : x < n -> window_inside n x -> exists l, range n x = Val l /\ forall y, In y l <-> in_window n x y.
  Proof.
    intros Hx W. unfold window_inside in W. unfold range, scope, in_window. destruct (Nat.ltb_spec n (2 * 2 + 1)). { exists (seq 0 n). split; auto. intros y. rewrite in_seq. lia. }
    destruct (Nat.ltb_spec x 2); [lia|]. destruct (Nat.ltb_spec n (x + 2 + 1)); [lia|]. cbn [orb]. eexists. split; [reflexivity|]. intros y. rewrite in_seq. lia.
  Qed.
  Lemma decode i j k : i < n0 -> j < n1 -> k < n2 -> ((i * n1 + j) * n2 + k) / (n1 * n2) = i /\ (((i * n1 + j) * n2 + k) mod (n1 * n2)) / n2 = j /\ (((i * n1 + j) * n2 + k) mod (n1 * n2)) mod n2 = k.
  Proof.
    intros Hi Hj Hk. assert (J : j * n2 + k < n1 * n2). { assert ((j + 1) * n2 <= n1 * n2) by (apply Nat.mul_le_mono_r; lia). lia. }
    assert (C0 : ((i * n1 + j) * n2 + k) / (n1 * n2) = i) by (replace ((i * n1 + j) * n2 + k) with (n1 * n2 * i + (j * n2 + k)) by lia; symmetry; apply Nat.div_unique with (r := j * n2 + k); auto).
    assert (C1 : ((i * n1 + j) * n2 + k) mod (n1 * n2) = j * n2 + k) by (replace ((i * n1 + j) * n2 + k) with (n1 * n2 * i + (j * n2 + k)) by lia; symmetry; apply Nat.mod_unique with (q := i); auto).
    rewrite C1. split; auto. replace (j * n2 + k) with (n2 * j + k) by lia. split; symmetry; [apply Nat.div_unique with (r := k)|apply Nat.mod_unique with (q := j)]; auto.
  Qed.
  Lemma neighbourhood_ok i j k : i < n0 -> j < n1 -> k < n2 -> window_inside n0 i -> window_inside n1 j -> window_inside n2 k ->
    exists ngb, neighbourhood Q n0 n1 n2 data ((i * n1 + j) * n2 + k) = Val ngb /\ forall x, In x ngb <-> exists a b c, in_window n0 i a /\ in_window n1 j b /\ in_window n2 k c /\ x = img a b c.
  Proof.
    intros Hi Hj Hk W0 W1 W2. destruct (range_ok n0 i Hi W0) as (l0 & E0 & I0). destruct (range_ok n1 j Hj W1) as (l1 & E1 & I1). destruct (range_ok n2 k Hk W2) as (l2 & E2 & I2).
    unfold neighbourhood. destruct (decode i j k Hi Hj Hk) as (D0 & D1 & D2). rewrite D0, D1, D2, E0, E1, E2. cbn [obind].
    set (ad := flat_map _ l0). set (val := fun p => match nth_error data p with Some x => x | None => 0%Q end).
    assert (A : forall p, In p ad <-> exists a b c, in_window n0 i a /\ in_window n1 j b /\ in_window n2 k c /\ p = a * (n1 * n2) + b * n2 + c).
    { intros p. unfold ad. rewrite in_flat_map. split.
      - intros (a & Ia & H). apply in_flat_map in H. destruct H as (b & Ib & H). apply in_map_iff in H. destruct H as (c & <- & Ic). exists a, b, c. rewrite <- I0, <- I1, <- I2. auto.
      - intros (a & b & c & Ia & Ib & Ic & ->). exists a. rewrite I0. split; auto. apply in_flat_map. exists b. rewrite I1. split; auto. apply in_map_iff. exists c. rewrite I2. auto. }
    assert (Vp : forall a b c, in_window n0 i a -> in_window n1 j b -> in_window n2 k c -> at_index data (a * (n1 * n2) + b * n2 + c) = Val (img a b c)) by (intros a b c [Ha _] [Hb _] [Hc _]; apply at_pixel; auto).
    rewrite (osequence_map_ok _ val).
    2:{ intros p Hp. apply A in Hp. destruct Hp as (a & b & c & Ia & Ib & Ic & ->). assert (V := Vp a b c Ia Ib Ic). unfold at_index in V |- *. unfold val. destruct (nth_error data _); auto. discriminate. }
    eexists. split; [reflexivity|]. intros x. rewrite in_map_iff. split.
    - intros (p & <- & Hp). apply A in Hp. destruct Hp as (a & b & c & Ia & Ib & Ic & ->). exists a, b, c. split; auto. split; auto. split; auto. assert (V := Vp a b c Ia Ib Ic). unfold at_index in V. unfold val. destruct (nth_error data _); congruence.
    - intros (a & b & c & Ia & Ib & Ic & ->). exists (a * (n1 * n2) + b * n2 + c). split; [|apply A; exists a, b, c; auto]. assert (V := Vp a b c Ia Ib Ic). unfold at_index in V. unfold val. destruct (nth_error data _); congruence.
  Qed.

  Lemma least_ok : forall l x, let m := fold_left (fun a b => if Qneg (b - a) then b else a) l x in In m (x :: l) /\ forall y, In y (x :: l) -> (m <= y)%Q.
  Proof.
    induction l as [|y l IH]; intros x; cbn [fold_left]; [split; [left; auto|intros z [<-|[]]; lra]|]. cbv zeta in IH |- *. set (x' := if Qneg (y - x) then y else x). destruct (IH x') as [I L].
    assert (B : (x' <= x)%Q /\ (x' <= y)%Q /\ (x' = x \/ x' = y)). { unfold x'. destruct (Qneg (y - x)) eqn:E; [apply Qneg_iff in E|apply Qneg_false in E]; repeat split; auto; lra. } destruct B as (B1 & B2 & B3). split.
    - destruct I as [<-|I]; [destruct B3 as [->| ->]; cbn [In]; auto|cbn [In]; auto].
    - assert (L0 := L x' (or_introl eq_refl)). intros z [<-|[<-|Hz]]; [lra|lra|apply L; right; auto].
  Qed.
  Lemma greatest_ok : forall l x, let m := fold_left (fun a b => if Qneg (a - b) then b else a) l x in In m (x :: l) /\ forall y, In y (x :: l) -> (y <= m)%Q.
  Proof.
    induction l as [|y l IH]; intros x; cbn [fold_left]; [split; [left; auto|intros z [<-|[]]; lra]|]. cbv zeta in IH |- *. set (x' := if Qneg (x - y) then y else x). destruct (IH x') as [I L].
    assert (B : (x <= x')%Q /\ (y <= x')%Q /\ (x' = x \/ x' = y)). { unfold x'. destruct (Qneg (x - y)) eqn:E; [apply Qneg_iff in E|apply Qneg_false in E]; repeat split; auto; lra. } destruct B as (B1 & B2 & B3). split.
    - destruct I as [<-|I]; [destruct B3 as [->| ->]; cbn [In]; auto|cbn [In]; auto].
    - assert (L0 := L x' (or_introl eq_refl)). intros z [<-|[<-|Hz]]; [lra|lra|apply L; right; auto].
  Qed.
  Lemma inside_self n x : x < n -> in_window n x x.
  Proof. unfold in_window. lia. Qed.

  Lemma centroid_ok i j k : i < n0 -> j < n1 -> k < n2 -> window_inside n0 i -> window_inside n1 j -> window_inside n2 k ->
    exists v, centroid n0 n1 n2 data ((i * n1 + j) * n2 + k) = Val v /\
      ((top n0 n1 n2 img i j k /\ exists r0 r1 r2, v = [r0; r1; r2] /\ refined n0 i (fun m => img (further i m) j k) r0 /\ refined n1 j (fun m => img i (further j m) k) r1 /\ refined n2 k (fun m => img i j (further k m)) r2) \/
       (~ top n0 n1 n2 img i j k /\ v = discarded)).
  Proof.
    intros Hi Hj Hk W0 W1 W2. destruct (neighbourhood_ok i j k Hi Hj Hk W0 W1 W2) as (ngb & En & Hn). unfold centroid. rewrite En. cbn [obind].
    destruct (decode i j k Hi Hj Hk) as (D0 & D1 & D2). rewrite D0, D1, D2.
    assert (Ex : at_index data ((i * n1 + j) * n2 + k) = Val (img i j k)) by (rewrite <- (at_pixel i j k) by auto; f_equal; lia).
    assert (Is : In (img i j k) ngb) by (apply Hn; exists i, j, k; repeat split; auto; try lia).
    destruct ngb as [|x0 ngb]; [destruct Is|]. cbn [extremes obind fst snd]. rewrite Ex. cbn [obind]. destruct (least_ok ngb x0) as [Il Ll]. destruct (greatest_ok ngb x0) as [Ig Lg]. cbv zeta in Il, Ll, Ig, Lg.
    set (lo := fold_left _ ngb x0) in *. set (hi := fold_left (fun a b => if Qneg (a - b) then b else a) ngb x0) in *. clearbody lo hi.
    destruct (Qneg lo) eqn:Bl.
    { eexists. split; [reflexivity|]. right. split; auto. intros T. apply Qneg_iff in Bl. apply Hn in Il. destruct Il as (a & b & c & Ia & Ib & Ic & El). destruct (T a b c Ia Ib Ic) as [T1 _]. rewrite <- El in T1. lra. }
    apply Qneg_false in Bl. destruct (Qeq_bool (img i j k) hi) eqn:Bg; cbn [negb].
    2:{ eexists. split; [reflexivity|]. right. split; auto. intros T. apply Qeq_bool_neq in Bg. apply Bg. apply Hn in Ig. destruct Ig as (a & b & c & Ia & Ib & Ic & Eg). destruct (T a b c Ia Ib Ic) as [_ T1]. rewrite <- Eg in T1. specialize (Lg _ Is). lra. }
    apply Qeq_bool_iff in Bg. assert (T : top n0 n1 n2 img i j k). { intros a b c Ia Ib Ic. assert (I : In (img a b c) (x0 :: ngb)) by (apply Hn; exists a, b, c; auto). specialize (Ll _ I). specialize (Lg _ I). split; lra. }
    assert (Off : forall z p x, (Z.of_nat ((i * n1 + j) * n2 + k) + z = Z.of_nat p)%Z -> at_index data p = Val x -> at_offset data ((i * n1 + j) * n2 + k) z = Val x).
    { intros z p x Ez Ep. unfold at_offset. rewrite Ez. destruct (Z.ltb_spec (Z.of_nat p) 0); [lia|]. rewrite Nat2Z.id. auto. }
    destruct (shift_ok ((i * n1 + j) * n2 + k) n0 (n1 * n2) i (fun m => img (further i m) j k)) as (r0 & E0 & R0).
    { intros N m Hm. unfold window_inside in W0. specialize (W0 N). apply (Off _ (further i m * (n1 * n2) + j * n2 + k)); [unfold further; rewrite ?Nat2Z.inj_add, ?Nat2Z.inj_mul; rewrite Z2Nat.id by lia; rewrite ?Nat2Z.inj_add, ?Nat2Z.inj_mul; ring|apply at_pixel; auto; unfold further; lia]. }
    destruct (shift_ok ((i * n1 + j) * n2 + k) n1 n2 j (fun m => img i (further j m) k)) as (r1 & E1 & R1).
    { intros N m Hm. unfold window_inside in W1. specialize (W1 N). apply (Off _ (i * (n1 * n2) + further j m * n2 + k)); [unfold further; rewrite ?Nat2Z.inj_add, ?Nat2Z.inj_mul; rewrite Z2Nat.id by lia; rewrite ?Nat2Z.inj_add, ?Nat2Z.inj_mul; ring|apply at_pixel; auto; unfold further; lia]. }
    destruct (shift_ok ((i * n1 + j) * n2 + k) n2 1 k (fun m => img i j (further k m))) as (r2 & E2 & R2).
    { intros N m Hm. unfold window_inside in W2. specialize (W2 N). apply (Off _ (i * (n1 * n2) + j * n2 + further k m)); [unfold further; rewrite ?Nat2Z.inj_add, ?Nat2Z.inj_mul; rewrite Z2Nat.id by lia; rewrite ?Nat2Z.inj_add, ?Nat2Z.inj_mul; ring|apply at_pixel; auto; unfold further; lia]. }
    exists [r0; r1; r2]. cbn [map osequence fst snd]. rewrite E0, E1, E2. cbn [obind omap]. split; [reflexivity|]. left. split; auto. exists r0, r1, r2. auto.
  Qed.
End Image.

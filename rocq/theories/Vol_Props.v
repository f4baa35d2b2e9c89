(** C100: memory of the 3D finder. C101: drawing a sphere. C102: shrinking a volume. *)
Require Import ZArith List Bool Arith QArith Qround Lqa Lia.
Require Import Verif.Base Verif.Traj_Model Verif.Particles_Model Verif.Corr_Model Verif.Boo_Model Verif.Multi_Model Verif.Multi_Spec Verif.Multi_Props.
Require Import Verif.Vol_Model Verif.Vol_Spec.
Import ListNotations.
Local Open Scope Z_scope.

Lemma int_mul_ok : forall a b, 0 <= a * b < 2 ^ 31 -> int_mul a b = Val (a * b).
Proof.
  intros a b H. unfold int_mul. replace (- 2 ^ 31 <=? a * b) with true by (symmetry; apply Z.leb_le; lia).
  replace (a * b <? 2 ^ 31) with true by (symmetry; apply Z.ltb_lt; lia). reflexivity.
Qed.
Lemma octave3D_val : forall nplanes nrows ncols n, 0 < nplanes -> 0 < nrows -> 0 < ncols -> nplanes * nrows * ncols < 2 ^ 31 ->
  octave3D nplanes nrows ncols n = Val {| allocated := nplanes * nrows * ncols * 4 * (Z.of_nat n + 3);
    layersG := map (fun i => Z.of_nat i * (nplanes * nrows * ncols) * 4) (seq 0 (n + 3));
    layers := map (fun i => (Z.of_nat i + Z.of_nat (n + 3)) * (nplanes * nrows * ncols) * 4) (seq 0 (n + 2));
    layersG2D := map (fun i => Z.of_nat i * (nplanes * nrows * ncols) * 4) (seq 0 (n + 3)) |}.
Proof.
  intros p r c n Hp Hr Hc H. unfold octave3D. rewrite int_mul_ok by nia. cbn [obind]. rewrite int_mul_ok by nia. cbn [omap]. rewrite map_length, seq_length. reflexivity.
Qed.
Lemma nth_error_seq_map : forall (f : nat -> Z) n l b, nth_error (map f (seq 0 n)) l = Some b <-> (l < n)%nat /\ b = f l.
Proof.
  intros f n l b. rewrite nth_error_map. destruct (Nat.ltb_spec l n) as [L|L].
  - rewrite (nth_error_nth' (seq 0 n) 0%nat) by (now rewrite seq_length). rewrite seq_nth by exact L. cbn. split; [intros [= <-]; auto|intros [_ ->]; reflexivity].
  - rewrite (proj2 (nth_error_None (seq 0 n) l)) by (now rewrite seq_length). cbn. split; [discriminate|lia].
Qed.

(** C100: for positive sizes of product less than 2^31, each voxel of each Gaussian layer is in the memory, no two voxels of one or two layers share memory,
    every pixel of the memory is a voxel of some layer, and the two-dimensional headers show the same voxels. *)
Theorem C100_memory : forall nplanes nrows ncols n, 0 < nplanes -> 0 < nrows -> 0 < ncols -> nplanes * nrows * ncols < 2 ^ 31 ->
  exists m, octave3D nplanes nrows ncols n = Val m /\ length (layersG m) = (n + 3)%nat /\ length (layersG2D m) = (n + 3)%nat /\
    (forall l b k j i, nth_error (layersG m) l = Some b -> in_volume nplanes nrows ncols (k, j, i) ->
       0 <= voxel b nrows ncols k j i /\ voxel b nrows ncols k j i + 4 <= allocated m) /\
    (forall l b v l' b' v', nth_error (layersG m) l = Some b -> nth_error (layersG m) l' = Some b' -> in_volume nplanes nrows ncols v -> in_volume nplanes nrows ncols v' ->
       (let '(k, j, i) := v in let '(k', j', i') := v' in Z.abs (voxel b nrows ncols k j i - voxel b' nrows ncols k' j' i') < 4) -> l = l' /\ v = v') /\
    (forall p, 0 <= p < allocated m -> exists l b k j i, nth_error (layersG m) l = Some b /\ in_volume nplanes nrows ncols (k, j, i) /\ voxel b nrows ncols k j i <= p < voxel b nrows ncols k j i + 4) /\
    (forall l b b2 k j i, nth_error (layersG m) l = Some b -> nth_error (layersG2D m) l = Some b2 -> pixel b2 (nrows * ncols) k (j * ncols + i) = voxel b nrows ncols k j i).
Proof.
  intros p r c n Hp Hr Hc H. rewrite octave3D_val by assumption. eexists. split; [reflexivity|]. cbn [layersG layersG2D allocated].
  split; [now rewrite map_length, seq_length|]. split; [now rewrite map_length, seq_length|].
  assert (IDX : forall k j i, in_volume p r c (k, j, i) -> 0 <= (k * r + j) * c + i < p * r * c).
  { intros k j i [[K1 K2] [[J1 J2] [I1 I2]]]. split; [nia|]. assert (k * r + j <= p * r - 1) by nia. nia. }
  split; [|split; [|split]].
  - intros l b k j i E V. apply nth_error_seq_map in E. destruct E as [L ->]. specialize (IDX k j i V). unfold voxel.
    set (N := p * r * c) in *. clearbody N. set (x := (k * r + j) * c + i) in *. clearbody x. split; [nia|].
    assert (Z.of_nat l <= Z.of_nat n + 2) by lia. nia.
  - intros l b [[k j] i] l' b' [[k' j'] i'] E E' V V' A. apply nth_error_seq_map in E. destruct E as [L ->]. apply nth_error_seq_map in E'. destruct E' as [L' ->].
    pose proof (IDX k j i V) as X. pose proof (IDX k' j' i' V') as X'. unfold voxel in A.
    assert (EQ : Z.of_nat l * (p * r * c) + ((k * r + j) * c + i) = Z.of_nat l' * (p * r * c) + ((k' * r + j') * c + i')) by lia.
    set (N := p * r * c) in *. assert (HN : 0 < N) by nia. clearbody N.
    set (x := (k * r + j) * c + i) in *. set (x' := (k' * r + j') * c + i') in *.
    assert (El : Z.of_nat l = Z.of_nat l').
    { assert (D1 : Z.of_nat l = (Z.of_nat l * N + x) / N) by (apply (Z.div_unique _ _ _ x); lia).
      assert (D2 : Z.of_nat l' = (Z.of_nat l' * N + x') / N) by (apply (Z.div_unique _ _ _ x'); lia). congruence. }
    assert (Ex : x = x') by (rewrite El in EQ; lia).
    destruct V as [[K1 K2] [[J1 J2] [I1 I2]]]. destruct V' as [[K1' K2'] [[J1' J2'] [I1' I2']]]. unfold x, x' in Ex.
    assert (D1 : k * r + j = ((k * r + j) * c + i) / c) by (apply (Z.div_unique _ _ _ i); lia).
    assert (D2 : k' * r + j' = ((k' * r + j') * c + i') / c) by (apply (Z.div_unique _ _ _ i'); lia).
    assert (Ekj : k * r + j = k' * r + j') by congruence.
    assert (D3 : k = (k * r + j) / r) by (apply (Z.div_unique _ _ _ j); lia).
    assert (D4 : k' = (k' * r + j') / r) by (apply (Z.div_unique _ _ _ j'); lia).
    assert (k = k') by congruence. split; [lia|]. subst k'. f_equal; [f_equal; lia|lia].
  - intros q [Q1 Q2]. set (N := p * r * c) in *. assert (HN : 0 < N) by nia.
    set (y := q / 4). set (l := y / N). set (x := y mod N). set (kj := x / c).
    assert (Y : 4 * y <= q < 4 * y + 4) by (unfold y; pose proof (Z.div_mod q 4 ltac:(lia)); pose proof (Z.mod_pos_bound q 4 ltac:(lia)); lia).
    assert (YX : y = N * l + x) by (unfold l, x; apply Z.div_mod; lia). assert (X : 0 <= x < N) by (apply Z.mod_pos_bound; lia).
    assert (XC : x = c * kj + x mod c) by (apply Z.div_mod; lia). assert (C : 0 <= x mod c < c) by (apply Z.mod_pos_bound; lia).
    assert (KJ : kj = r * (kj / r) + kj mod r) by (apply Z.div_mod; lia). assert (RR : 0 <= kj mod r < r) by (apply Z.mod_pos_bound; lia).
    assert (Hl : 0 <= l) by (unfold l; apply Z.div_pos; [unfold y; apply Z.div_pos; lia|lia]).
    assert (Hl2 : l < Z.of_nat n + 3) by (clearbody N y; nia).
    assert (Hkj : 0 <= kj) by (unfold kj; apply Z.div_pos; lia). assert (Hkj2 : kj < p * r) by (unfold N in X; nia).
    assert (HK : 0 <= kj / r < p) by (split; [apply Z.div_pos; lia|apply Z.div_lt_upper_bound; lia]).
    exists (Z.to_nat l), (l * N * 4), (kj / r), (kj mod r), (x mod c). split; [|split].
    + apply nth_error_seq_map. split; [lia|]. rewrite Z2Nat.id by lia. reflexivity.
    + repeat split; lia.
    + unfold voxel. replace (kj / r * r + kj mod r) with kj by lia. replace (kj * c + x mod c) with x by lia. lia.
  - intros l b b2 k j i E E2. rewrite E in E2. injection E2 as <-. unfold pixel, voxel. ring.
Qed.

(** Finding: all voxels of the difference of Gaussian layers are out of the memory (get_layers gives headers that must not be read). *)
Theorem C100_layers_refuted : forall nplanes nrows ncols n m l b k j i, 0 < nplanes -> 0 < nrows -> 0 < ncols -> nplanes * nrows * ncols < 2 ^ 31 ->
  octave3D nplanes nrows ncols n = Val m -> nth_error (layers m) l = Some b -> in_volume nplanes nrows ncols (k, j, i) -> allocated m <= voxel b nrows ncols k j i.
Proof.
  intros p r c n m l b k j i Hp Hr Hc H E L [[K1 K2] [[J1 J2] [I1 I2]]]. rewrite octave3D_val in E by assumption. injection E as <-. cbn [layers allocated] in *.
  apply nth_error_seq_map in L. destruct L as [L ->]. unfold voxel. rewrite Nat2Z.inj_add. change (Z.of_nat 3) with 3.
  assert (0 <= (k * r + j) * c + i) by nia. set (N := p * r * c) in *. assert (0 < N) by (unfold N; nia). clearbody N. nia.
Qed.
(** Finding: a volume of 2^31 voxels or more is undefined (the product is an int), even when it fits in the memory or in a file. *)
Theorem C100_overflow_refuted : forall nplanes nrows ncols n, 0 < nplanes -> 0 < nrows -> 0 < ncols -> 2 ^ 31 <= nplanes * nrows * ncols -> octave3D nplanes nrows ncols n = UB.
Proof.
  intros p r c n Hp Hr Hc H. unfold octave3D, int_mul. destruct ((- 2 ^ 31 <=? p * r) && (p * r <? 2 ^ 31)); [|reflexivity]. cbn [obind].
  replace (p * r * c <? 2 ^ 31) with false by (symmetry; apply Z.ltb_ge; lia). rewrite andb_false_r. reflexivity.
Qed.
Example C100_case : (exists m, octave3D 20 30 40 3 = Val m /\ allocated m = 576000 /\ nth_error (layersG m) 5 = Some 480000) /\ octave3D (2 * 512) (2 * 1024) (2 * 1024) 3 = UB.
Proof. split; [eexists; split; [vm_compute; reflexivity|]; split; reflexivity|reflexivity]. Qed.

(** spheres *)
Lemma span_in : forall z r size k, (0 <= r)%Q -> (k < size)%nat -> (z - r < inject_Z (Z.of_nat k))%Q -> (inject_Z (Z.of_nat k) < z + r)%Q -> In k (span z r size).
Proof.
  intros z r size k Hr Hk H1 H2. unfold span. apply filter_In. split.
  - set (first := trunc _). assert (F : (Z.to_nat first <= k)%nat).
    { unfold first. destruct (Qle_bool (z - r) 0) eqn:E; [cbn; lia|].
      assert (P : (0 <= z - r)%Q). { apply Qnot_lt_le. intros L. assert (Qle_bool (z - r) 0 = true) by (apply Qle_bool_iff; lra). congruence. }
      rewrite trunc_floor by exact P. pose proof (Qfloor_le (z - r)) as A. assert (B : (inject_Z (Qfloor (z - r)) < inject_Z (Z.of_nat k))%Q) by lra. rewrite <- Zlt_Qlt in B. lia. }
    apply in_seq. lia.
  - apply negb_true_iff. destruct (Qle_bool (z + r + 1) (inject_Z (Z.of_nat k))) eqn:E; [|reflexivity]. apply Qle_bool_iff in E. exfalso. lra.
Qed.
Lemma span_lt : forall z r size k, In k (span z r size) -> (k < size)%nat.
Proof. intros z r size k H. unfold span in H. apply filter_In in H. destruct H as [H _]. apply in_seq in H. lia. Qed.

Section Draw.
  Variable T : Type.
  (** painting the cells of a list: a cell is changed iff some element paints it *)
  Lemma paint : forall (A : Type) (l : list A) (step : (nat -> nat -> nat -> T) -> A -> nat -> nat -> nat -> T) (hit : A -> nat -> nat -> nat -> bool) v,
    (forall im a k j i, step im a k j i = if hit a k j i then v else im k j i) ->
    forall im k j i, fold_left step l im k j i = if existsb (fun a => hit a k j i) l then v else im k j i.
  Proof.
    intros A l step hit v H. induction l as [|a l IH]; intros im k j i; cbn; [reflexivity|]. rewrite IH, H.
    destruct (hit a k j i), (existsb (fun a0 => hit a0 k j i) l); reflexivity.
  Qed.
  Definition far (r : Q) (k j i : nat) (z y x : Q) : bool :=
    Qle_bool (r * r)%Q (sq (inject_Z (Z.of_nat i) - x) + sq (inject_Z (Z.of_nat j) - y) + sq (inject_Z (Z.of_nat k) - z))%Q.
  Lemma drawsphere_hit : forall planes rows cols (im : nat -> nat -> nat -> T) z y x r v k j i,
    drawsphere T planes rows cols im z y x r v k j i =
    if existsb (fun k0 => existsb (fun j0 => existsb (fun i0 => negb (far r k0 j0 i0 z y x) && ((k =? k0) && (j =? j0) && (i =? i0))%nat) (span x r cols)) (span y r rows)) (span z r planes) then v else im k j i.
  Proof.
    intros. unfold drawsphere.
    apply (paint nat (span z r planes) _ (fun k0 k j i => existsb (fun j0 => existsb (fun i0 => negb (far r k0 j0 i0 z y x) && ((k =? k0) && (j =? j0) && (i =? i0))%nat) (span x r cols)) (span y r rows))).
    clear. intros im k0 k j i.
    apply (paint nat (span y r rows) _ (fun j0 k j i => existsb (fun i0 => negb (far r k0 j0 i0 z y x) && ((k =? k0) && (j =? j0) && (i =? i0))%nat) (span x r cols))).
    clear. intros im j0 k j i.
    apply (paint nat (span x r cols) _ (fun i0 k j i => negb (far r k0 j0 i0 z y x) && ((k =? k0) && (j =? j0) && (i =? i0))%nat)).
    clear. intros im i0 k j i. fold (far r k0 j0 i0 z y x). destruct (far r k0 j0 i0 z y x); cbn; reflexivity.
  Qed.

  (** C101: exactly the voxels of the volume closer to the point than the radius get the value, all others keep theirs. *)
  Theorem C101_sphere : forall planes rows cols (im : nat -> nat -> nat -> T) z y x r v k j i, (0 <= r)%Q ->
    ((k < planes)%nat -> (j < rows)%nat -> (i < cols)%nat -> (distance2 k j i z y x < r * r)%Q -> drawsphere T planes rows cols im z y x r v k j i = v) /\
    (~ ((k < planes)%nat /\ (j < rows)%nat /\ (i < cols)%nat /\ (distance2 k j i z y x < r * r)%Q) -> drawsphere T planes rows cols im z y x r v k j i = im k j i).
  Proof.
    intros planes rows cols im z y x r v k j i Hr. rewrite drawsphere_hit.
    assert (FAR : far r k j i z y x = false <-> (distance2 k j i z y x < r * r)%Q).
    { unfold far, sq, distance2. cbv zeta. split.
      - intros E. apply Qnot_le_lt. intros L. apply Qle_bool_iff in L. congruence.
      - intros L. match goal with |- Qle_bool ?a ?b = false => destruct (Qle_bool a b) eqn:E end; [|reflexivity]. apply Qle_bool_iff in E. exfalso. lra. }
    split.
    - intros Hk Hj Hi D.
      assert (SQ : forall a b : Q, (0 <= b)%Q -> (a * a < b * b)%Q -> (- b < a)%Q /\ (a < b)%Q) by (intros a b Hb L; split; apply Qnot_le_lt; intros C; nra).
      pose proof D as D'. unfold distance2 in D'. cbv zeta in D'.
      set (dx := (inject_Z (Z.of_nat i) - x)%Q) in *. set (dy := (inject_Z (Z.of_nat j) - y)%Q) in *. set (dz := (inject_Z (Z.of_nat k) - z)%Q) in *.
      assert (S1 : (0 <= dx * dx)%Q) by nra. assert (S2 : (0 <= dy * dy)%Q) by nra. assert (S3 : (0 <= dz * dz)%Q) by nra.
      destruct (SQ dx r Hr ltac:(lra)) as [X1 X2]. destruct (SQ dy r Hr ltac:(lra)) as [Y1 Y2]. destruct (SQ dz r Hr ltac:(lra)) as [Z1 Z2].
      unfold dx, dy, dz in X1, X2, Y1, Y2, Z1, Z2.
      match goal with |- (if ?b then _ else _) = _ => assert (E : b = true); [|now rewrite E] end.
      apply existsb_exists. exists k. split; [apply span_in; try assumption; lra|].
      apply existsb_exists. exists j. split; [apply span_in; try assumption; lra|].
      apply existsb_exists. exists i. split; [apply span_in; try assumption; lra|].
      rewrite !Nat.eqb_refl, (proj2 FAR D). reflexivity.
    - intros N. match goal with |- (if ?b then _ else _) = _ => destruct b eqn:E; [|reflexivity] end. exfalso. apply N.
      apply existsb_exists in E. destruct E as [k0 [Ik E]]. apply existsb_exists in E. destruct E as [j0 [Ij E]]. apply existsb_exists in E. destruct E as [i0 [Ii E]].
      rewrite !andb_true_iff, !Nat.eqb_eq in E. destruct E as [F [[-> ->] ->]]. apply span_lt in Ik, Ij, Ii. apply negb_true_iff in F.
      repeat split; try assumption. apply FAR, F.
  Qed.
  (** C101: a radius of -1 or less draws nothing. *)
  Theorem C101_negative : forall planes rows cols (im : nat -> nat -> nat -> T) z y x r v k j i, (r <= -1)%Q -> drawsphere T planes rows cols im z y x r v k j i = im k j i.
  Proof.
    intros planes rows cols im z y x r v k j i Hr. rewrite drawsphere_hit.
    assert (E : span z r planes = []); [|now rewrite E]. unfold span.
    match goal with |- filter ?f ?l = [] => assert (A : forall k, In k l -> f k = false) end.
    { intros k0 I. apply in_seq in I. apply negb_false_iff, Qle_bool_iff.
      destruct (Qle_bool (z - r) 0) eqn:EZ.
      - apply Qle_bool_iff in EZ. assert (0 <= inject_Z (Z.of_nat k0))%Q by (change 0%Q with (inject_Z 0); rewrite <- Zle_Qle; lia). lra.
      - assert (P : (0 <= z - r)%Q). { apply Qnot_lt_le. intros L. assert (Qle_bool (z - r) 0 = true) by (apply Qle_bool_iff; lra). congruence. }
        rewrite trunc_floor in I by exact P. pose proof (Qlt_floor (z - r)) as B. rewrite inject_Z_plus in B. change (inject_Z 1) with 1%Q in B.
        assert (C : (Qfloor (z - r) <= Z.of_nat k0)%Z) by lia. rewrite Zle_Qle in C. lra. }
    induction (seq _ _) as [|a l IH]; [reflexivity|]. cbn. rewrite (A a (or_introl eq_refl)). apply IH. intros; apply A; now right.
  Qed.
End Draw.
(** Finding: a negative radius larger than -1 still draws (its square is positive). *)
Theorem C101_negative_refuted : exists planes rows cols z y x r k j i, (r < 0)%Q /\ drawsphere bool planes rows cols (fun _ _ _ => false) z y x r true k j i = true.
Proof. exists 3%nat, 3%nat, 3%nat, 1%Q, 1%Q, 1%Q, (- (1 # 2))%Q, 1%nat, 1%nat, 1%nat. split; [reflexivity|vm_compute; reflexivity]. Qed.
Example C101_case : drawsphere bool 5 5 5 (fun _ _ _ => false) 2 2 2 (3 # 2) true 2 3 3 = true /\ drawsphere bool 5 5 5 (fun _ _ _ => false) 2 2 2 (3 # 2) true 3 3 3 = false /\
  drawsphere bool 5 5 5 (fun _ _ _ => false) 0 2 2 (3 # 2) true 1 2 2 = true.
Proof. repeat split; vm_compute; reflexivity. Qed.

(** shrinking *)
Lemma ofold_total : forall (f : nat -> Z -> outcome Z) (g : nat -> Z) n a, (forall m v, (m < n)%nat -> f m v = Val (v + g m)) -> ofold f (seq 0 n) a = Val (a + total n g).
Proof.
  intros f g n. induction n as [|n IH]; intros a H; [cbn; f_equal; lia|].
  assert (AP : forall (A W : Type) (h : A -> W -> outcome W) l1 l2 w, ofold h (l1 ++ l2) w = obind (ofold h l1 w) (ofold h l2)).
  { clear. intros A W h l1. induction l1 as [|x l1 IH]; intros l2 w; cbn; [reflexivity|]. destruct (h x w); cbn; auto. }
  rewrite seq_S, AP. cbn [plus]. rewrite IH by (intros; apply H; lia). cbn [obind ofold]. rewrite H by lia. cbn [obind total]. f_equal. lia.
Qed.
Lemma read_val : forall (T : Type) planes rows cols (large : nat -> nat -> nat -> T) k j i, (k < planes)%nat -> (j < rows)%nat -> (i < cols)%nat -> read T planes rows cols large k j i = Val (large k j i).
Proof.
  intros. unfold read. replace (k <? planes)%nat with true by (symmetry; apply Nat.ltb_lt; lia). replace (j <? rows)%nat with true by (symmetry; apply Nat.ltb_lt; lia).
  replace (i <? cols)%nat with true by (symmetry; apply Nat.ltb_lt; lia). reflexivity.
Qed.

Lemma total_ext : forall n f g, (forall m, (m < n)%nat -> f m = g m) -> total n f = total n g.
Proof. induction n as [|n IH]; intros f g H; cbn; [reflexivity|]. rewrite (IH f g) by (intros; apply H; lia). now rewrite H by lia. Qed.
Lemma shrunk_int_val : forall planes rows cols large factor k j i, (factor * (k + 1) <= planes)%nat -> (factor * (j + 1) <= rows)%nat -> (factor * (i + 1) <= cols)%nat ->
  shrunk_int planes rows cols large factor k j i = Val (trunc (inject_Z (block_total large factor k j i) / inject_Z (Z.of_nat (factor * factor * factor)) + (1 # 2))%Q).
Proof.
  intros planes rows cols large factor k j i Hk Hj Hi. unfold shrunk_int, shrunk.
  rewrite (ofold_total _ (fun mk => total factor (fun mj => total factor (fun m => large (factor * k + mk) (factor * j + mj) (factor * i + m))))%nat).
  - reflexivity.
  - intros mk v Hmk. apply (ofold_total _ (fun mj => total factor (fun m => large (factor * k + mk) (factor * j + mj) (factor * i + m)))%nat).
    intros mj w Hmj. unfold accumulate. rewrite (ofold_total _ (fun m => large (factor * k + mk) (factor * j + mj) (factor * i + m))%nat); [reflexivity|].
    intros m a Hm. rewrite read_val by nia. reflexivity.
Qed.
(** C102: with integer pixels, when the block is inside of the large volume and its sum is not negative, the pixel of the small volume is the mean of the block rounded to the nearest integer. *)
Theorem C102_mean : forall planes rows cols large factor k j i, (0 < factor)%nat -> (factor * (k + 1) <= planes)%nat -> (factor * (j + 1) <= rows)%nat -> (factor * (i + 1) <= cols)%nat ->
  0 <= block_total large factor k j i ->
  exists v, shrunk_int planes rows cols large factor k j i = Val v /\
    rounds_to (inject_Z (block_total large factor k j i) / inject_Z (Z.of_nat (factor * factor * factor)))%Q v.
Proof.
  intros planes rows cols large factor k j i Hf Hk Hj Hi HB. rewrite shrunk_int_val by assumption. eexists. split; [reflexivity|]. apply trunc_rounds.
  assert (P : (0 < inject_Z (Z.of_nat (factor * factor * factor)))%Q) by (change 0%Q with (inject_Z 0); rewrite <- Zlt_Qlt; nia).
  assert (S0 : (0 <= inject_Z (block_total large factor k j i) / inject_Z (Z.of_nat (factor * factor * factor)))%Q); [|lra].
  apply Qle_shift_div_l; [exact P|]. rewrite Qmult_0_l. change 0%Q with (inject_Z 0). rewrite <- Zle_Qle. exact HB.
Qed.
Lemma total_const : forall n c, total n (fun _ => c) = Z.of_nat n * c.
Proof. induction n as [|n IH]; intros c; [reflexivity|]. cbn [total]. rewrite IH. lia. Qed.
(** C102: a uniform volume of non-negative pixels keeps its value. *)
Theorem C102_uniform : forall planes rows cols c factor k j i, (0 < factor)%nat -> (factor * (k + 1) <= planes)%nat -> (factor * (j + 1) <= rows)%nat -> (factor * (i + 1) <= cols)%nat -> 0 <= c ->
  shrunk_int planes rows cols (fun _ _ _ => c) factor k j i = Val c.
Proof.
  intros planes rows cols c factor k j i Hf Hk Hj Hi Hc.
  assert (B : block_total (fun _ _ _ => c) factor k j i = Z.of_nat (factor * factor * factor) * c).
  { unfold block_total. rewrite (total_ext factor _ (fun _ => Z.of_nat factor * (Z.of_nat factor * c))); [rewrite total_const; lia|].
    intros. rewrite (total_ext factor _ (fun _ => Z.of_nat factor * c)); [apply total_const|]. intros. apply total_const. }
  destruct (C102_mean planes rows cols (fun _ _ _ => c) factor k j i Hf Hk Hj Hi ltac:(nia)) as [v [E [R1 R2]]]. rewrite E. f_equal. rewrite B in R1, R2.
  assert (P : (0 < inject_Z (Z.of_nat (factor * factor * factor)))%Q) by (change 0%Q with (inject_Z 0); rewrite <- Zlt_Qlt; nia).
  assert (Q1 : (inject_Z (Z.of_nat (factor * factor * factor) * c) / inject_Z (Z.of_nat (factor * factor * factor)) == inject_Z c)%Q) by (rewrite inject_Z_mult; field; lra).
  rewrite Q1 in R1, R2.
  assert (L1 : (inject_Z v < inject_Z (c + 1))%Q) by (rewrite inject_Z_plus; change (inject_Z 1) with 1%Q; lra).
  assert (L2 : (inject_Z c < inject_Z (v + 1))%Q) by (rewrite inject_Z_plus; change (inject_Z 1) with 1%Q; lra).
  rewrite <- Zlt_Qlt in L1, L2. lia.
Qed.
(** C102: a block that is not entirely inside is read out of bounds, when some voxel of the small volume needs a column beyond. *)
Theorem C102_outside : forall planes rows cols large factor k j i, (0 < factor)%nat -> (cols < factor * (i + 1))%nat -> shrunk_int planes rows cols large factor k j i = UB.
Proof.
  intros planes rows cols large factor k j i Hf Hi. unfold shrunk_int, shrunk.
  assert (AC : forall kk jj, accumulate Z Z.add planes rows cols large kk jj (factor * i) factor = UB).
  { intros kk jj. unfold accumulate.
    assert (G : forall n a, (cols < factor * i + n)%nat -> ofold (fun m a => omap (Z.add a) (read Z planes rows cols large kk jj (factor * i + m))) (seq 0 n) a = UB \/ (n = 0)%nat).
    { induction n as [|n IH]; intros a L; [now right|]. left.
      assert (AP : forall (A W : Type) (h : A -> W -> outcome W) l1 l2 w, ofold h (l1 ++ l2) w = obind (ofold h l1 w) (ofold h l2)).
      { clear. intros A W h l1. induction l1 as [|x l1 IH]; intros l2 w; cbn; [reflexivity|]. destruct (h x w); cbn; auto. }
      rewrite seq_S, AP. cbn [plus].
      assert (NT : forall l w, (exists v, ofold (fun m a => omap (Z.add a) (read Z planes rows cols large kk jj (factor * i + m))) l w = Val v) \/ ofold (fun m a => omap (Z.add a) (read Z planes rows cols large kk jj (factor * i + m))) l w = UB).
      { clear. induction l as [|x l IH]; intros w; cbn; [left; eexists; reflexivity|]. unfold read. destruct ((kk <? planes) && (jj <? rows) && (factor * i + x <? cols))%nat; cbn; [apply IH|now right]. }
      destruct (NT (seq 0 n) a) as [[v E]|E]; rewrite E; [|reflexivity]. cbn [obind ofold]. unfold read.
      replace (factor * i + n <? cols)%nat with false by (symmetry; apply Nat.ltb_ge; lia). rewrite andb_false_r. reflexivity. }
    destruct (G factor 0) as [E|E]; [nia|exact E|lia]. }
  destruct factor as [|f]; [lia|]. cbn [seq ofold]. rewrite AC. reflexivity.
Qed.
(** Finding: negative means are not rounded to the nearest: a uniform volume of -2 becomes -1. *)
Theorem C102_negative_refuted : forall planes rows cols factor k j i, (0 < factor)%nat -> (factor * (k + 1) <= planes)%nat -> (factor * (j + 1) <= rows)%nat -> (factor * (i + 1) <= cols)%nat ->
  shrunk_int planes rows cols (fun _ _ _ => -2) factor k j i = Val (-1).
Proof.
  intros planes rows cols factor k j i Hf Hk Hj Hi. rewrite shrunk_int_val by assumption.
  assert (B : block_total (fun _ _ _ => -2) factor k j i = Z.of_nat (factor * factor * factor) * -2).
  { unfold block_total. rewrite (total_ext factor _ (fun _ => Z.of_nat factor * (Z.of_nat factor * -2))); [rewrite total_const; lia|].
    intros. rewrite (total_ext factor _ (fun _ => Z.of_nat factor * -2)); [apply total_const|]. intros. apply total_const. }
  rewrite B. f_equal. destruct (factor * factor * factor)%nat as [|c] eqn:E; [nia|]. rewrite Nat2Z.inj_succ.
  assert (EQ : (inject_Z (Z.succ (Z.of_nat c) * -2) / inject_Z (Z.succ (Z.of_nat c)) + (1 # 2) == - (3 # 2))%Q).
  { rewrite inject_Z_mult. assert (P : (0 < inject_Z (Z.succ (Z.of_nat c)))%Q) by (change 0%Q with (inject_Z 0); rewrite <- Zlt_Qlt; lia). field. lra. }
  generalize dependent (inject_Z (Z.succ (Z.of_nat c) * -2) / inject_Z (Z.succ (Z.of_nat c)) + (1 # 2))%Q. intros [a b] EQ. unfold Qeq in EQ. cbn in EQ. unfold trunc. cbn.
  rewrite <- (Z.opp_involutive a), Z.quot_opp_l by lia. rewrite Z.quot_div_nonneg by lia. rewrite <- (Z.div_unique (- a) (Zpos b) 1 (- a - Zpos b)); [reflexivity|lia|lia].
Qed.
(** Finding: with floating point pixels one half is added without being truncated, and the fractional parts of the pixels are lost:
    a uniform volume of 3/4 becomes one of 1/2, a uniform volume of an integer c one of c + 1/2. *)
Theorem C102_float_refuted :
  (forall planes rows cols c factor k j i, (0 < factor)%nat -> (factor * (k + 1) <= planes)%nat -> (factor * (j + 1) <= rows)%nat -> (factor * (i + 1) <= cols)%nat -> 
     exists q, shrunk_float planes rows cols (fun _ _ _ => inject_Z c) factor k j i = Val q /\ (q == inject_Z c + (1 # 2))%Q) /\
  exists q, shrunk_float 2 2 2 (fun _ _ _ => 3 # 4)%Q 2 0 0 0 = Val q /\ (q == 1 # 2)%Q.
Proof.
  split; [|eexists; split; [vm_compute; reflexivity|vm_compute; reflexivity]].
  intros planes rows cols c factor k j i Hf Hk Hj Hi. unfold shrunk_float, shrunk.
  rewrite (ofold_total _ (fun mk => Z.of_nat factor * (Z.of_nat factor * c))).
  - cbn [omap]. eexists. split; [reflexivity|]. rewrite total_const, Z.add_0_l.
    assert (P : (0 < inject_Z (Z.of_nat (factor * factor * factor)))%Q) by (change 0%Q with (inject_Z 0); rewrite <- Zlt_Qlt; nia).
    replace (Z.of_nat factor * (Z.of_nat factor * (Z.of_nat factor * c))) with (Z.of_nat (factor * factor * factor) * c) by lia.
    rewrite inject_Z_mult. field. lra.
  - intros mk v Hmk. rewrite (ofold_total _ (fun mj => Z.of_nat factor * c)); [now rewrite total_const|].
    intros mj w Hmj. unfold accumulate. rewrite (ofold_total _ (fun m => c)); [now rewrite total_const|].
    intros m a Hm. rewrite read_val by nia. cbn [omap]. f_equal. unfold trunc, Qplus, inject_Z. cbn [Qnum Qden]. rewrite Z.quot_1_r. lia.
Qed.
Example C102_case : shrunk_int 4 4 4 (fun k j i => Z.of_nat (16 * k + 4 * j + i)) 2 1 1 0 = Val 51 /\ block_total (fun k j i => Z.of_nat (16 * k + 4 * j + i)) 2 1 1 0 = 404.
Proof. split; vm_compute; reflexivity. Qed.

Print Assumptions C100_memory.
Print Assumptions C100_layers_refuted.
Print Assumptions C100_overflow_refuted.
Print Assumptions C101_sphere.
Print Assumptions C101_negative.
Print Assumptions C101_negative_refuted.
Print Assumptions C102_mean.
Print Assumptions C102_uniform.
Print Assumptions C102_outside.
Print Assumptions C102_negative_refuted.
Print Assumptions C102_float_refuted.

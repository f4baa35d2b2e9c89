(** Neighbourhoods and radii of particles in an image. *)
Require Import ZArith List Bool Arith Lia.
Require Import Verif.Base Verif.ListX Verif.Traj_Model Verif.Center_Model Verif.Particles_Model Verif.RTree_Model Verif.Corr_Model Verif.Corr_Proofs Verif.Tracker_Spec Verif.Tracker_Props Verif.Radii_Model Verif.Radii_Proofs.
Import ListNotations.
Local Open Scope nat_scope.

(** Voxel v is at most r voxels away from coordinate p. *)
Definition near (s p : Z) (r v : nat) : Prop := (p - s * Z.of_nat r <= s * Z.of_nat v <= p + s * Z.of_nat r)%Z.
Definition in_image (s p : Z) (n : nat) : Prop := (0 <= p < s * Z.of_nat n)%Z.

(** A neighbourhood of odd sizes 2r+1 around a particle of the image: it is the part of the image that begins at voxel [low], the position of
    the centre is given with respect to [low], all voxels at most r away in each dimension are there, and the rest is null. *)
Theorem C90_neighbourhood s n0 n1 n2 data p0 p1 p2 r0 r1 r2 : (0 < s)%Z -> length data = n0 * n1 * n2 -> in_image s p0 n0 -> in_image s p1 n1 -> in_image s p2 n2 ->
  exists l0 l1 l2 c0 c1 c2 ngb, neighbourhood s (n0, n1, n2) data (p0, p1, p2) (2 * r0 + 1, 2 * r1 + 1, 2 * r2 + 1) = Val ((c0, c1, c2), ngb) /\
    length ngb = (2 * r0 + 1) * (2 * r1 + 1) * (2 * r2 + 1) /\ (c0 = p0 - s * Z.of_nat l0 /\ c1 = p1 - s * Z.of_nat l1 /\ c2 = p2 - s * Z.of_nat l2)%Z /\
    (forall v0 v1 v2, v0 < n0 -> v1 < n1 -> v2 < n2 -> near s p0 r0 v0 -> near s p1 r1 v1 -> near s p2 r2 v2 ->
      (l0 <= v0 < l0 + (2 * r0 + 1) /\ l1 <= v1 < l1 + (2 * r1 + 1) /\ l2 <= v2 < l2 + (2 * r2 + 1)) /\
      flat_pixel (2 * r1 + 1) (2 * r2 + 1) ngb (v0 - l0) (v1 - l1) (v2 - l2) = flat_pixel n1 n2 data v0 v1 v2) /\
    (forall i j k x, i < 2 * r0 + 1 -> j < 2 * r1 + 1 -> k < 2 * r2 + 1 -> flat_pixel (2 * r1 + 1) (2 * r2 + 1) ngb i j k = Some x -> x <> 0 ->
      l0 + i < n0 /\ l1 + j < n1 /\ l2 + k < n2 /\ flat_pixel n1 n2 data (l0 + i) (l1 + j) (l2 + k) = Some x).
Proof.
  intros Hs L I0 I1 I2. destruct (limits_ok s p0 r0 n0 Hs I0) as [l0 [h0 (E0 & A0 & B0 & W0 & V0)]]. destruct (limits_ok s p1 r1 n1 Hs I1) as [l1 [h1 (E1 & A1 & B1 & W1 & V1)]]. destruct (limits_ok s p2 r2 n2 Hs I2) as [l2 [h2 (E2 & A2 & B2 & W2 & V2)]].
  set (w0 := 2 * r0 + 1) in *. set (w1 := 2 * r1 + 1) in *. set (w2 := 2 * r2 + 1) in *.
  set (inside := fun c : by_dim nat => (d0 c <? h0 - l0) && (d1 c <? h1 - l1) && (d2 c <? h2 - l2)).
  set (g := fun c : by_dim nat => if inside c then nth ((((l0 + d0 c) * n1 + (l1 + d1 c)) * n2) + (l2 + d2 c)) data 0 else 0).
  assert (Idx : forall a b c, a < n0 -> b < n1 -> c < n2 -> (a * n1 + b) * n2 + c < length data).
  { intros a b c Ha Hb Hc. rewrite L. assert ((a + 1) * n1 <= n0 * n1) by (apply Nat.mul_le_mono_r; lia). assert (X : (a * n1 + b + 1) * n2 <= (n0 * n1) * n2) by (apply Nat.mul_le_mono_r; lia). lia. }
  unfold neighbourhood. cbn [d0 d1 d2 fst snd]. rewrite E0, E1, E2. cbn [obind fst snd].
  rewrite (osequence_map_ok _ g).
  2:{ intros [[a b] c] _. unfold g, inside. cbn [d0 d1 d2 fst snd]. destruct (Nat.ltb_spec a (h0 - l0)), (Nat.ltb_spec b (h1 - l1)), (Nat.ltb_spec c (h2 - l2)); cbn [andb]; auto.
      rewrite cell_at_flat by (cbn; lia). unfold flat_pixel. cbn [d0 d1 d2 fst snd]. rewrite (nth_error_nth' _ 0); [auto|]. apply Idx; lia. }
  cbn [omap]. exists l0, l1, l2. eexists _, _, _, _. split; [reflexivity|]. split; [rewrite map_length, cells_len; auto|]. split; [auto|].
  assert (At : forall i j k, i < w0 -> j < w1 -> k < w2 -> flat_pixel w1 w2 (map g (cells (w0, w1, w2))) i j k = Some (g (i, j, k))).
  { intros i j k Hi Hj Hk. unfold flat_pixel. rewrite nth_error_map. assert (X := cells_nth (w0, w1, w2) i j k Hi Hj Hk). cbn [d0 d1 d2 fst snd] in X. unfold d1, d2 in X. cbn [fst snd] in X. rewrite X. auto. }
  split.
  - intros v0 v1 v2 H0 H1 H2 N0 N1 N2. assert (X0 : l0 <= v0 < h0) by (apply V0; split; [auto|unfold near in N0; lia]). assert (X1 : l1 <= v1 < h1) by (apply V1; split; [auto|unfold near in N1; lia]). assert (X2 : l2 <= v2 < h2) by (apply V2; split; [auto|unfold near in N2; lia]).
    split; [lia|]. rewrite At by lia. unfold g, inside. cbn [d0 d1 d2 fst snd]. destruct (Nat.ltb_spec (v0 - l0) (h0 - l0)), (Nat.ltb_spec (v1 - l1) (h1 - l1)), (Nat.ltb_spec (v2 - l2) (h2 - l2)); try lia. cbn [andb].
    replace (l0 + (v0 - l0)) with v0 by lia. replace (l1 + (v1 - l1)) with v1 by lia. replace (l2 + (v2 - l2)) with v2 by lia. unfold flat_pixel. rewrite (nth_error_nth' _ 0); auto.
  - intros i j k x Hi Hj Hk. rewrite At by auto. intros E Hx. injection E as E. unfold g, inside in E. cbn [d0 d1 d2 fst snd] in E. destruct (Nat.ltb_spec i (h0 - l0)), (Nat.ltb_spec j (h1 - l1)), (Nat.ltb_spec k (h2 - l2)); cbn [andb] in E; try congruence.
    split; [lia|]. split; [lia|]. split; [lia|]. unfold flat_pixel. rewrite (nth_error_nth' _ 0) by (apply Idx; lia). congruence.
Qed.
(** The size used for the radii: odd and large enough for rmax when 2 rmax is below the size and rmax is a whole number of voxels; one voxel, without any
    of the other slices, when the image is thinner. *)
Theorem C90_size s r n : (0 < s)%Z -> (ngb_size s (s * Z.of_nat r) n = if 2 * r <? n then 2 * r + 1 else 1).
Proof.
  intros Hs. unfold ngb_size. assert (X : (2 * (s * Z.of_nat r) <? s * Z.of_nat n)%Z = (2 * r <? n)).
  { apply eq_true_iff_eq. rewrite Z.ltb_lt, Nat.ltb_lt. rewrite Z.mul_shuffle3. rewrite <- Z.mul_lt_mono_pos_l by auto. lia. }
  rewrite X. destruct (2 * r <? n); auto. replace (2 * (s * Z.of_nat r) + s)%Z with ((2 * Z.of_nat r + 1) * s)%Z by ring. rewrite Z.div_mul by lia. lia.
Qed.
(** An rmax of r-1/2 voxels gives a neighbourhood of 2r voxels, and memory outside of it is written around all particles far from the sides. *)
Theorem C90_half_refuted s r n shape data p w : (0 < s)%Z -> (Z.even s = true) -> 0 < r -> 2 * r <= n -> d0 w = ngb_size s (s * Z.of_nat r - s / 2) n -> d0 shape = n -> (s * Z.of_nat r <= d0 p)%Z -> (d0 p + s * Z.of_nat r + s <= s * Z.of_nat n)%Z ->
  d0 w = 2 * r /\ neighbourhood s shape data p w = UB.
Proof.
  intros Hs Ev Hr Hn Ew En H1 H2. assert (W : d0 w = 2 * r).
  { rewrite Ew. unfold ngb_size. apply Z.even_spec in Ev as [h ->]. rewrite (Z.mul_comm 2 h), Z.div_mul by lia. destruct (Z.ltb_spec (2 * (h * 2 * Z.of_nat r - h)) (h * 2 * Z.of_nat n)) as [X|X]; [|nia].
    replace (2 * (h * 2 * Z.of_nat r - h) + h * 2)%Z with (2 * Z.of_nat r * (h * 2))%Z by ring. rewrite Z.div_mul by lia. lia. }
  split; [auto|]. unfold neighbourhood. rewrite W, En, limits_even by auto. auto.
Qed.
(** So is a particle that is farther than the neighbourhood from the last voxel. *)
Theorem C90_outside_refuted s shape data p w : (0 < s)%Z -> (s * (Z.of_nat (d0 shape) + Z.of_nat (d0 w / 2) + 1) <= d0 p)%Z -> neighbourhood s shape data p w = UB.
Proof. intros Hs H. unfold neighbourhood. rewrite limits_outside by auto. auto. Qed.
Example C90_case : neighbourhood 2 (1, 1, 6) [1; 2; 3; 4; 5; 6] (0, 0, 9)%Z (1, 1, 3) = Val ((0, 0, 3)%Z, [4; 5; 6]) /\ in_image 2 9 6 /\ neighbourhood 2 (1, 1, 6) [1; 2; 3; 4; 5; 6] (0, 0, 1)%Z (1, 1, 5) = Val ((0, 0, 1)%Z, [1; 2; 3; 0; 0]).
Proof. repeat split; vm_compute; try reflexivity; intros; discriminate. Qed.

Section Radius.
Variables (V : Type) (ratio : nat -> nat -> V) (sub : V -> V -> V) (lt : V -> V -> bool) (smooth : list V -> list V).
(** A strict weak order (doubles that are not NaN), and a smoothing that keeps the number of values. *)
Hypothesis lt_irrefl : forall x, lt x x = false.
Hypothesis lt_trans : forall x y z, lt x y = true -> lt y z = true -> lt x z = true.
Hypothesis lt_neg : forall x y z, lt x y = false -> lt y z = false -> lt x z = false.
Hypothesis smooth_len : forall l, length (smooth l) = length l.
(** Voxels at distance at least pr and closer than (b+1) pr. *)
Definition beyond_first (dist : by_dim nat -> Z) (pr : Z) (b : nat) (cx : by_dim nat * nat) : bool := (pr * pr <=? dist (fst cx))%Z && closer dist pr b cx.
(** Mean intensity inside (b+1) pr: the sum of the intensities over 1 plus the number of voxels not in the first bin. *)
Definition mean_inside (dist : by_dim nat -> Z) (pr : Z) (voxels : list (by_dim nat * nat)) (b : nat) : V :=
  ratio (total (map snd (filter (closer dist pr b) voxels))) (1 + length (filter (beyond_first dist pr b) voxels)).
(** The derivative of a curve: its first value, then the differences. *)
Definition slope (l : list V) (b : nat) : option V :=
  match b with 0 => nth_error l 0 | S b' => match nth_error l b', nth_error l b with Some x, Some y => Some (sub y x) | _, _ => None end end.

Lemma differences_nth l b : nth_error (differences V sub l) b = slope l b.
Proof.
  destruct l as [|x l]; [destruct b as [|b]; cbn; auto; destruct b; auto|]. unfold differences. destruct b as [|b]; [auto|]. cbn [nth_error slope]. rewrite nth_error_map.
  assert (G : forall (l m : list V) b, nth_error (combine l m) b = match nth_error l b, nth_error m b with Some x, Some y => Some (x, y) | _, _ => None end).
  { clear. induction l as [|x l IH]; intros [|y m] [|b]; cbn; auto; try (destruct (nth_error l b); auto). }
  rewrite G. destruct (nth_error (x :: l) b) as [y|] eqn:E1; [|auto]. destruct (nth_error l b) eqn:E2; auto.
Qed.
Lemma differences_len l : length (differences V sub l) = length l.
Proof. destruct l as [|x l]; auto. cbn [differences length]. rewrite map_length, combine_length. cbn [length]. lia. Qed.
Lemma nth_firstn {A} : forall n (l : list A) j, j < n -> nth_error (firstn n l) j = nth_error l j.
Proof. induction n; intros [|x l] [|j] H; cbn; auto; try lia. apply IHn. lia. Qed.
Lemma nth_skip {A} : forall n (l : list A) k, nth_error (skipn n l) k = nth_error l (n + k).
Proof. induction n; intros [|x l] j; cbn; auto; destruct j; auto. Qed.

(** With rmax = n pr, the radius is l pr where l is the first place, between the margins, where the slope of the smoothed curve of mean
    intensities is the smallest. *)
Theorem C91_radius w dist pr rmin rmax n ngb : (0 < pr)%Z -> (rmax = Z.of_nat n * pr)%Z -> 0 < n -> (0 <= rmin)%Z -> (forall c, 0 <= dist c)%Z -> length ngb = d0 w * d1 w * d2 w ->
  let margin := Z.to_nat (rmin / pr) in margin + margin < n ->
  let curve := smooth (map (mean_inside dist pr (combine (cells w) ngb)) (seq 0 n)) in
  exists l v, get_radius V ratio sub lt smooth w dist pr rmin rmax ngb = Val l /\ margin <= l < n - margin /\ slope curve l = Some v /\
    (forall b y, margin <= b < n - margin -> slope curve b = Some y -> lt y v = false) /\ (forall b y, margin <= b < l -> slope curve b = Some y -> lt v y = true).
Proof.
  intros Hp Hr Hn Hmin Hd Ln. cbv zeta. set (margin := Z.to_nat (rmin / pr)). intros Hm. set (voxels := combine (cells w) ngb).
  unfold get_radius. fold voxels. fold margin. assert (Hq : Z.to_nat (rmax / pr) = n) by (rewrite Hr, Z.div_mul, Nat2Z.id by lia; auto). rewrite Hq.
  destruct (bins_ok dist pr rmax n Hp Hr Hd voxels (repeat 0 n) (repeat 0 n) (repeat_length _ _) (repeat_length _ _)) as [vs [ns (E & L1 & L2 & K1 & K2)]]. rewrite E. cbn [obind fst snd].
  assert (Z0 : forall b, b < n -> nth_error (repeat 0 n) b = Some 0) by (intros; apply nth_error_repeat_x; auto).
  assert (Ev : vs = map (fun b => total (map snd (filter (fun cx => bin_of dist pr cx =? b) voxels))) (seq 0 n)).
  { rewrite <- L1 at 1. apply firstn_seq_map. intros b Hb. rewrite (K1 b 0) by (apply Z0; lia). auto. }
  assert (En : ns = map (fun b => length (filter (fun cx => bin_of dist pr cx =? b) voxels)) (seq 0 n)).
  { rewrite <- L2 at 1. apply firstn_seq_map. intros b Hb. rewrite (K2 b 0) by (apply Z0; lia). auto. }
  destruct ns as [|k0 ns'] eqn:Ens; [cbn in L2; lia|]. destruct (Nat.leb_spec (margin + margin) n); [|lia].
  assert (Em : map (fun vc => ratio (fst vc) (snd vc)) (combine (partial_sums 0 vs) (partial_sums 0 (1 :: ns'))) = map (mean_inside dist pr voxels) (seq 0 n)).
  { apply nth_error_ext. intros b. rewrite !nth_error_map. destruct (lt_dec b n) as [B|B].
    2:{ assert (X : forall A (l : list A), length l = n -> nth_error l b = None) by (intros; apply nth_error_None; lia). rewrite !X; auto; [apply seq_length|]. rewrite combine_length, !partial_sums_len. cbn [length] in *. lia. }
    assert (P1 := partial_sums_nth vs 0 b ltac:(lia)). assert (P2 := partial_sums_nth (1 :: ns') 0 b ltac:(cbn [length] in *; lia)). rewrite (nth_error_combine_x _ _ _ _ _ P1 P2).
    rewrite (nth_error_nth' _ 0) by (rewrite seq_length; auto). rewrite seq_nth by auto. cbn [option_map plus fst snd]. f_equal. unfold mean_inside. f_equal.
    - rewrite Ev, firstn_map, firstn_seq by lia. rewrite total_bins. f_equal. f_equal. apply filter_ext. intros cx. symmetry. apply closer_bin; auto.
    - cbn [firstn total fold_right]. change (fold_right Nat.add 0) with total. f_equal.
      assert (T1 : total (firstn (S b) (k0 :: ns')) = k0 + total (firstn b ns')) by auto. rewrite En, firstn_map, firstn_seq in T1 by lia.
      assert (G : map (fun m => length (filter (fun cx => bin_of dist pr cx =? m) voxels)) (seq 0 (S b)) = map (fun m => total (map (fun _ => 1) (filter (fun cx => bin_of dist pr cx =? m) voxels))) (seq 0 (S b))).
      { apply map_ext. intros m. clear. induction (filter (fun cx => bin_of dist pr cx =? m) voxels); cbn; auto. }
      rewrite G, total_bins in T1. assert (K0 : k0 = length (filter (fun cx => bin_of dist pr cx =? 0) voxels)) by (destruct n; [lia|]; cbn in En; congruence).
      assert (C : forall vx : list (by_dim nat * nat), total (map (fun _ => 1) (filter (fun cx => bin_of dist pr cx <=? b) vx)) = length (filter (fun cx => bin_of dist pr cx =? 0) vx) + length (filter (beyond_first dist pr b) vx)).
      { induction vx as [|cx vx IH]; [auto|]. cbn [filter]. unfold beyond_first at 1. rewrite closer_bin by auto. assert (SB := proj1 (sqrt_bin pr (dist (fst cx)) (bin_of dist pr cx) Hp (Hd _)) eq_refl).
        assert (Q : (pr * pr <=? dist (fst cx))%Z = negb (bin_of dist pr cx =? 0)).
        { apply eq_true_iff_eq. rewrite Z.leb_le, negb_true_iff, Nat.eqb_neq. split; intros H1; [intros H2; rewrite H2 in SB; lia|].
          assert (1 <= Z.of_nat (bin_of dist pr cx))%Z by lia. assert (pr <= Z.of_nat (bin_of dist pr cx) * pr)%Z by nia. nia. }
        rewrite Q. destruct (Nat.eqb_spec (bin_of dist pr cx) 0) as [E0|E0]; cbn [negb andb]; destruct (Nat.leb_spec (bin_of dist pr cx) b); try lia; cbn [map total fold_right length]; unfold total in *; lia. }
      rewrite C in T1. unfold total. unfold total in T1. lia. }
  rewrite Em. set (curve := smooth (map (mean_inside dist pr voxels) (seq 0 n))). assert (Lc : length curve = n) by (unfold curve; rewrite smooth_len, map_length, seq_length; auto).
  set (part := firstn (n - margin - margin) (skipn margin (differences V sub curve))). assert (Lp : length part = n - margin - margin) by (unfold part; rewrite firstn_length, skipn_length, differences_len; lia).
  assert (At : forall b, margin <= b < n - margin -> nth_error part (b - margin) = slope curve b). { intros b Hb. unfold part. rewrite nth_firstn by lia. rewrite nth_skip, differences_nth. f_equal. lia. }
  destruct part as [|x part'] eqn:Ep; [cbn in Lp; lia|]. cbn [min_element].
  destruct (min_pos_ok lt lt_irrefl lt_trans lt_neg part' [x] x 0 eq_refl) as [v (M1 & M2 & M3)]. { intros [|[|j]] y Y; cbn in Y; try discriminate. injection Y as <-. auto. } { intros; lia. }
  cbn [length app] in M1, M2, M3. set (q := min_pos V lt x 0 1 part') in *. assert (Q : q < n - margin - margin) by (assert (X := nth_error_lt _ _ _ M1); cbn [length] in *; lia).
  exists (margin + q), v. split; [auto|]. split; [lia|]. split; [rewrite <- At by lia; replace (margin + q - margin) with q by lia; auto|]. split.
  - intros b y Hb Y. rewrite <- At in Y by lia. eapply M2; eauto.
  - intros b y Hb Y. rewrite <- At in Y by lia. eapply (M3 (b - margin)); [lia|eauto].
Qed.
(** When rmax is not a multiple of the precision, any voxel beyond the last whole bin is counted out of the bounds of the vectors. *)
Theorem C91_overrun_refuted w dist pr rmin rmax ngb : (0 < pr)%Z -> (0 <= rmax)%Z -> (forall c, 0 <= dist c)%Z ->
  (exists cx, In cx (combine (cells w) ngb) /\ (rmax / pr * pr * (rmax / pr * pr) <= dist (fst cx) < rmax * rmax)%Z) -> get_radius V ratio sub lt smooth w dist pr rmin rmax ngb = UB.
Proof.
  intros Hp H0 Hd [cx [I [A B]]]. unfold get_radius. set (n := Z.to_nat (rmax / pr)). assert (Hn : (rmax / pr = Z.of_nat n)%Z) by (unfold n; rewrite Z2Nat.id; auto; apply Z.div_pos; auto). rewrite Hn in A.
  assert (Bin : n <= bin_of dist pr cx). { assert (S := proj1 (sqrt_bin pr (dist (fst cx)) (bin_of dist pr cx) Hp (Hd _)) eq_refl). destruct (le_lt_dec n (bin_of dist pr cx)) as [|L]; auto. exfalso. assert ((Z.of_nat (bin_of dist pr cx) + 1) * pr <= Z.of_nat n * pr)%Z by nia. assert (0 <= (Z.of_nat (bin_of dist pr cx) + 1) * pr)%Z by nia. nia. }
  assert (G : forall prs vn, In cx prs -> length (fst vn) = n -> ofold (bin_voxel dist pr rmax) prs vn = UB).
  { induction prs as [|c prs IH]; intros vn Hi Hl; [destruct Hi|]. cbn [ofold]. unfold bin_voxel at 1. fold (bin_of dist pr c). destruct Hi as [->|Hi].
    - apply Z.ltb_lt in B. rewrite B. rewrite (proj2 (nth_error_None (fst vn) (bin_of dist pr cx))) by lia. auto.
    - destruct (dist (fst c) <? rmax * rmax)%Z; cbn [obind]; [|auto]. destruct (nth_error (fst vn) (bin_of dist pr c)); [|auto]. destruct (nth_error (snd vn) (bin_of dist pr c)); [|auto]. cbn [obind]. apply IH; auto. cbn [fst]. rewrite set_nth_len. auto. }
  rewrite G; auto. cbn. apply repeat_length.
Qed.
(** So is a margin of more than half of the range. *)
Theorem C91_margin_refuted w dist pr rmin rmax ngb l : Z.to_nat (rmax / pr) < Z.to_nat (rmin / pr) + Z.to_nat (rmin / pr) -> get_radius V ratio sub lt smooth w dist pr rmin rmax ngb <> Val l.
Proof.
  intros H E. unfold get_radius in E. destruct (ofold _ _ _) as [vn| |]; cbn [obind] in E; try discriminate. destruct (snd vn); try discriminate. destruct (Nat.leb_spec (Z.to_nat (rmin / pr) + Z.to_nat (rmin / pr)) (Z.to_nat (rmax / pr))); [lia|discriminate].
Qed.
(** The first value of the curve is not a mean as soon as several voxels are closer than the precision: their sum is divided by one. *)
Theorem C91_first_bin_refuted w dist pr ngb : let voxels := combine (cells w) ngb in mean_inside dist pr voxels 0 = ratio (total (map snd (filter (closer dist pr 0) voxels))) 1.
Proof.
  cbv zeta. unfold mean_inside. f_equal. assert (X : filter (beyond_first dist pr 0) (combine (cells w) ngb) = []); [|rewrite X; auto].
  induction (combine (cells w) ngb) as [|cx l IH]; [auto|]. cbn [filter]. unfold beyond_first at 1, closer at 1. cbn [Z.of_nat Z.add]. rewrite Z.mul_1_l.
  destruct (Z.leb_spec (pr * pr) (dist (fst cx))), (Z.ltb_spec (dist (fst cx)) (pr * pr)); cbn [andb]; auto; lia.
Qed.
End Radius.
(** The distance in the lengths of the sample: the dimension of z is the first of the array in Fortran order and the last otherwise; a step along z
    is zn/zd voxels long.  All is in units of 1/(s zd) voxel. *)
Definition z_dim (fortran : bool) : nat := if fortran then 0 else 2.
Definition dim3 {A} (d : nat) (v : by_dim A) : A := match d with 0 => d0 v | 1 => d1 v | _ => d2 v end.
Definition step_length (zn zd : Z) (fortran : bool) (d : nat) : Z := if d =? z_dim fortran then zn else zd.
Theorem C91_distance s zn zd fortran c p : let away d := ((s * Z.of_nat (dim3 d c) - dim3 d p) * step_length zn zd fortran d)%Z in
  cell_dist s zn zd fortran c p = (away 0%nat * away 0%nat + away 1%nat * away 1%nat + away 2%nat * away 2%nat)%Z /\ (0 <= cell_dist s zn zd fortran c p)%Z.
Proof. cbv zeta. assert (E : forall x y z : Z, (0 <= x * x + y * y + z * z)%Z) by (intros; nia). unfold cell_dist, step_length, z_dim, dim3. destruct fortran; cbn [Nat.eqb]; split; auto. Qed.
(** A bright bar from voxel 2 to voxel 4 in a line of 7 voxels: the radius is found at its border, without smoothing. *)
Example C91_case : let dist c := cell_dist 1 1 1 true c (0, 0, 3)%Z in
  get_radius Z (fun v n => Z.of_nat v * 840 / Z.of_nat n)%Z Z.sub Z.ltb (fun l => l) (1, 1, 7) dist 1 1 4 [0; 0; 9; 9; 9; 0; 0] = Val 2 /\ forall c, (0 <= dist c)%Z.
Proof. cbv zeta. split; [vm_compute; reflexivity|]. intros c. unfold cell_dist. set (x := (1 * Z.of_nat (d0 c) - d0 (0, 0, 3))%Z). set (y := (1 * Z.of_nat (d1 c) - d1 (0, 0, 3))%Z). set (z := (1 * Z.of_nat (d2 c) - d2 (0, 0, 3))%Z). nia. Qed.

Print Assumptions C90_neighbourhood. Print Assumptions C90_size. Print Assumptions C90_half_refuted. Print Assumptions C90_outside_refuted.
Print Assumptions C91_radius. Print Assumptions C91_distance. Print Assumptions C91_overrun_refuted. Print Assumptions C91_margin_refuted. Print Assumptions C91_first_bin_refuted.

(** Proofs about neighbourhoods and radii. *)
Require Import ZArith List Bool Arith Lia.
Require Import Verif.Base Verif.ListX Verif.Traj_Model Verif.Center_Model Verif.Particles_Model Verif.RTree_Model Verif.Corr_Model Verif.Corr_Proofs Verif.Tracker_Spec Verif.Radii_Model.
Import ListNotations.
Local Open Scope nat_scope.

(** * Cells *)
Lemma nth_blocks {A} (f : nat -> list A) L : forall n a i q, (forall x, a <= x < a + n -> length (f x) = L) -> i < n -> q < L -> nth_error (flat_map f (seq a n)) (i * L + q) = nth_error (f (a + i)) q.
Proof.
  induction n as [|n IH]; intros a i q H Hi Hq; [lia|]. cbn [seq flat_map]. assert (La : length (f a) = L) by (apply H; lia). destruct i as [|i].
  - rewrite nth_error_app1 by (cbn; lia). rewrite Nat.add_0_r. auto.
  - cbn [Nat.mul]. rewrite nth_error_app2 by lia. replace (L + i * L + q - length (f a)) with (i * L + q) by lia. rewrite IH; [|intros; apply H; lia|lia|auto]. f_equal. f_equal. lia.
Qed.
Lemma len_blocks {A} (f : nat -> list A) L : forall n a, (forall x, a <= x < a + n -> length (f x) = L) -> length (flat_map f (seq a n)) = n * L.
Proof. induction n as [|n IH]; intros a H; [auto|]. cbn [seq flat_map Nat.mul]. rewrite app_length, H, IH by (try lia; intros; apply H; lia). auto. Qed.
Lemma cells_len w : length (cells w) = d0 w * d1 w * d2 w.
Proof.
  unfold cells. rewrite (len_blocks _ (d1 w * d2 w)); [lia|]. intros x _. rewrite (len_blocks _ (d2 w)); [auto|]. intros y _. rewrite map_length, seq_length. auto.
Qed.
Lemma cells_nth w i j k : i < d0 w -> j < d1 w -> k < d2 w -> nth_error (cells w) ((i * d1 w + j) * d2 w + k) = Some (i, j, k).
Proof.
  intros Hi Hj Hk. unfold cells. assert (L : forall x y : nat, length (map (fun k : nat => (x, y, k)) (seq 0 (d2 w))) = d2 w) by (intros; rewrite map_length, seq_length; auto).
  replace ((i * d1 w + j) * d2 w + k) with (i * (d1 w * d2 w) + (j * d2 w + k)) by lia.
  assert (B : j * d2 w + k < d1 w * d2 w). { assert ((j + 1) * d2 w <= d1 w * d2 w) by (apply Nat.mul_le_mono_r; lia). lia. }
  rewrite nth_blocks by (auto; intros x _; apply len_blocks; auto). rewrite nth_blocks by auto. cbn [plus]. rewrite nth_error_map. rewrite (nth_error_nth' _ 0) by (rewrite seq_length; auto). rewrite seq_nth by auto. auto.
Qed.
Lemma in_cells w c : In c (cells w) <-> d0 c < d0 w /\ d1 c < d1 w /\ d2 c < d2 w.
Proof.
  unfold cells. rewrite in_flat_map. setoid_rewrite in_flat_map. setoid_rewrite in_map_iff. setoid_rewrite in_seq. destruct c as [[i j] k]. cbn. split.
  - intros [x [Hx [y [Hy [z [E Hz]]]]]]. injection E as -> -> ->. lia.
  - intros (Hi & Hj & Hk). exists i. split; [lia|]. exists j. split; [lia|]. exists k. split; [auto|lia].
Qed.
Lemma cell_at_flat {A} w (l : list A) i j k : i < d0 w -> j < d1 w -> k < d2 w -> cell_at w l (i, j, k) = flat_pixel (d1 w) (d2 w) l i j k.
Proof. intros Hi Hj Hk. unfold cell_at, flat_pixel. cbn [d0 d1 d2 fst snd]. apply Nat.ltb_lt in Hi, Hj, Hk. cbn [d0 d1 d2 fst snd] in *. rewrite Hi, Hj, Hk. auto. Qed.

(** * Limits *)
Lemma limits_ok s p r n : (0 < s)%Z -> (0 <= p < s * Z.of_nat n)%Z -> exists low high, limits s p (2 * r + 1) n = Val (low, high) /\ low < high /\ high <= n /\ high - low <= 2 * r + 1 /\
  (forall v : nat, low <= v < high <-> v < n /\ (p - s * (Z.of_nat r + 1) < s * Z.of_nat v <= p + s * Z.of_nat r)%Z).
Proof.
  intros Hs Hp. unfold limits. assert (E : (2 * r + 1) / 2 = r) by (rewrite (Nat.mul_comm 2 r), Nat.div_add_l by lia; cbn; lia). rewrite E. set (R := Z.of_nat r). assert (HR : (0 <= R)%Z) by (unfold R; lia).
  set (a := (Z.max 0 (p - s * R) / s)%Z). set (h := Z.min (s * Z.of_nat n) (p + s * R + s)).
  assert (SR : (0 <= s * R)%Z) by (apply Z.mul_nonneg_nonneg; lia).
  destruct (Z.leb_spec h (- s)) as [X|X]; [unfold h in X; lia|]. set (b := (h / s)%Z).
  assert (A0 : (0 <= a)%Z) by (apply Z.div_pos; lia). assert (B0 : (0 <= b)%Z) by (apply Z.div_pos; unfold h; lia).
  assert (A1 : (s * a <= Z.max 0 (p - s * R) < s * a + s)%Z). { unfold a. assert (Q := Z.div_mod (Z.max 0 (p - s * R)) s). assert (Q2 := Z.mod_pos_bound (Z.max 0 (p - s * R)) s). lia. }
  assert (B1 : (s * b <= h < s * b + s)%Z). { unfold b. assert (Q := Z.div_mod h s). assert (Q2 := Z.mod_pos_bound h s). lia. }
  assert (V : forall v : Z, (0 <= v)%Z -> (a <= v < b <-> v < Z.of_nat n /\ p - s * (R + 1) < s * v <= p + s * R)%Z).
  { intros v Hv. split.
    - intros [H1 H2]. assert (s * a <= s * v)%Z by (apply Z.mul_le_mono_nonneg_l; lia). assert (s * (v + 1) <= s * b)%Z by (apply Z.mul_le_mono_nonneg_l; lia). split; [|unfold h in *; split; lia].
      assert (s * (v + 1) <= s * Z.of_nat n)%Z by (unfold h in *; lia). apply Z.mul_le_mono_pos_l in H3; auto. lia.
    - intros [H1 [H2 H3]]. split.
      + apply Z.nlt_ge. intros H. assert (s * (v + 1) <= s * a)%Z by (apply Z.mul_le_mono_nonneg_l; lia). lia.
      + apply Z.nle_gt. intros H. assert (s * b <= s * v)%Z by (apply Z.mul_le_mono_nonneg_l; lia). assert (s * (v + 1) <= s * Z.of_nat n)%Z by (apply Z.mul_le_mono_nonneg_l; lia). unfold h in *. lia. }
  assert (P0 : (0 <= p / s)%Z) by (apply Z.div_pos; lia). assert (Pd := Z.div_mod p s). assert (Pm := Z.mod_pos_bound p s).
  assert (M : (a <= p / s < b)%Z). { apply V; [auto|]. split; [|split; lia]. apply Z.div_lt_upper_bound; lia. }
  assert (Bn : (b <= Z.of_nat n)%Z). { assert (s * b <= s * Z.of_nat n)%Z by (unfold h in *; lia). apply Z.mul_le_mono_pos_l in H; auto. }
  assert (W : (b - a <= 2 * R + 1)%Z). { assert (s * (b - a) < s * (2 * R + 2))%Z by (unfold h in *; lia). apply Z.mul_lt_mono_pos_l in H; auto. lia. }
  destruct (Nat.leb_spec (Z.to_nat a) (Z.to_nat b)); [|lia]. destruct (Nat.leb_spec (Z.to_nat b - Z.to_nat a) (2 * r + 1)); [|lia]. cbn [andb].
  exists (Z.to_nat a), (Z.to_nat b). split; [auto|]. split; [lia|]. split; [lia|]. split; [lia|]. intros v.
  assert (Vv := V (Z.of_nat v)). split; [intros H1|intros H1].
  - assert (a <= Z.of_nat v < b)%Z by lia. apply Vv in H2; lia.
  - assert (a <= Z.of_nat v < b)%Z by (apply Vv; lia). lia.
Qed.
(** An even size: one voxel too many around a particle far from the sides. *)
Lemma limits_even s p r n : (0 < s)%Z -> 0 < r -> (s * Z.of_nat r <= p)%Z -> (p + s * Z.of_nat r + s <= s * Z.of_nat n)%Z -> limits s p (2 * r) n = UB.
Proof.
  intros Hs Hr H1 H2. unfold limits. rewrite (Nat.mul_comm 2 r), Nat.div_mul by lia. set (R := Z.of_nat r) in *. rewrite Z.max_r, Z.min_r by lia. assert (0 < s * R)%Z by (apply Z.mul_pos_pos; lia).
  destruct (Z.leb_spec (p + s * R + s) (- s)); [lia|].
  assert (E1 : ((p - s * R) / s = p / s - R)%Z). { replace (p - s * R)%Z with (p + (- R) * s)%Z by ring. rewrite Z.div_add by lia. lia. }
  assert (E2 : ((p + s * R + s) / s = p / s + R + 1)%Z). { replace (p + s * R + s)%Z with (p + (R + 1) * s)%Z by ring. rewrite Z.div_add by lia. lia. }
  rewrite E1, E2. assert (R <= p / s)%Z by (apply Z.div_le_lower_bound; lia).
  destruct (Nat.leb_spec (Z.to_nat (p / s + R + 1) - Z.to_nat (p / s - R)) (r * 2)); [lia|]. rewrite andb_false_r. auto.
Qed.
(** A particle farther than r from the last voxel. *)
Lemma limits_outside s p w n : (0 < s)%Z -> (s * (Z.of_nat n + Z.of_nat (w / 2) + 1) <= p)%Z -> limits s p w n = UB.
Proof.
  intros Hs H. unfold limits. set (R := Z.of_nat (w / 2)) in *. assert (0 <= s * R)%Z by (apply Z.mul_nonneg_nonneg; unfold R; lia). assert (0 <= s * Z.of_nat n)%Z by (apply Z.mul_nonneg_nonneg; lia).
  rewrite Z.max_r, Z.min_l by lia. destruct (Z.leb_spec (s * Z.of_nat n) (- s)); [auto|]. rewrite (Z.mul_comm s (Z.of_nat n)), Z.div_mul, Nat2Z.id by lia.
  assert (Z.of_nat n + 1 <= (p - s * R) / s)%Z by (apply Z.div_le_lower_bound; lia). destruct (Nat.leb_spec (Z.to_nat ((p - s * R) / s)) n); [lia|]. auto.
Qed.

(** * Bins *)
Lemma sqrt_bin pr d l : (0 < pr)%Z -> (0 <= d)%Z -> Z.to_nat (Z.sqrt d / pr) = l <-> (Z.of_nat l * pr * (Z.of_nat l * pr) <= d < (Z.of_nat l + 1) * pr * ((Z.of_nat l + 1) * pr))%Z.
Proof.
  intros Hp Hd. destruct (Z.sqrt_spec d Hd) as [S1 S2]. assert (S0 := Z.sqrt_nonneg d). set (q := Z.sqrt d) in *. assert (Q := Z.div_mod q pr). assert (Qm := Z.mod_pos_bound q pr). assert (Q0 : (0 <= q / pr)%Z) by (apply Z.div_pos; lia).
  set (a := (q / pr)%Z) in *. split.
  - intros <-. rewrite Z2Nat.id by auto. split.
    + assert (a * pr <= q)%Z by lia. assert (0 <= a * pr)%Z by (apply Z.mul_nonneg_nonneg; lia). nia.
    + assert (q + 1 <= (a + 1) * pr)%Z by lia. nia.
  - intros [H1 H2]. assert (a = Z.of_nat l); [|lia]. apply Z.le_antisymm.
    + apply Z.nlt_ge. intros H. assert ((Z.of_nat l + 1) * pr <= q)%Z by nia. nia.
    + apply Z.nlt_ge. intros H. assert (q + 1 <= Z.of_nat l * pr)%Z by nia. nia.
Qed.
Definition total (l : list nat) : nat := fold_right Nat.add 0 l.
(** The voxels closer than (b+1) pr. *)
Definition closer (dist : by_dim nat -> Z) (pr : Z) (b : nat) (cx : by_dim nat * nat) : bool := (dist (fst cx) <? (Z.of_nat b + 1) * pr * ((Z.of_nat b + 1) * pr))%Z.
Definition bin_of (dist : by_dim nat -> Z) (pr : Z) (cx : by_dim nat * nat) : nat := Z.to_nat (Z.sqrt (dist (fst cx)) / pr).
Lemma closer_bin dist pr b cx : (0 < pr)%Z -> (0 <= dist (fst cx))%Z -> closer dist pr b cx = (bin_of dist pr cx <=? b).
Proof.
  intros Hp Hd. unfold closer, bin_of. apply eq_true_iff_eq. rewrite Z.ltb_lt, Nat.leb_le. set (l := Z.to_nat (Z.sqrt (dist (fst cx)) / pr)).
  assert (X := proj1 (sqrt_bin pr (dist (fst cx)) l Hp Hd) eq_refl). split; intros H.
  - destruct (le_lt_dec l b) as [|B]; auto. exfalso. assert ((Z.of_nat b + 1) * pr <= Z.of_nat l * pr)%Z by nia. assert (0 <= (Z.of_nat b + 1) * pr)%Z by nia. nia.
  - assert ((Z.of_nat l + 1) * pr <= (Z.of_nat b + 1) * pr)%Z by nia. assert (0 <= (Z.of_nat l + 1) * pr)%Z by nia. nia.
Qed.
Lemma bins_ok dist pr rmax n : (0 < pr)%Z -> (rmax = Z.of_nat n * pr)%Z -> (forall c, 0 <= dist c)%Z -> forall prs vs ns, length vs = n -> length ns = n ->
  exists vs' ns', ofold (bin_voxel dist pr rmax) prs (vs, ns) = Val (vs', ns') /\ length vs' = n /\ length ns' = n /\
    (forall b x, nth_error vs b = Some x -> nth_error vs' b = Some (x + total (map snd (filter (fun cx => bin_of dist pr cx =? b) prs)))) /\
    (forall b x, nth_error ns b = Some x -> nth_error ns' b = Some (x + length (filter (fun cx => bin_of dist pr cx =? b) prs))).
Proof.
  intros Hp Hr Hd. induction prs as [|cx prs IH]; intros vs ns Lv Ln.
  - exists vs, ns. cbn. repeat split; auto; intros b x Hx; rewrite Nat.add_0_r; auto.
  - cbn [ofold]. unfold bin_voxel at 1. cbn [fst snd]. fold (bin_of dist pr cx). assert (SB := sqrt_bin pr (dist (fst cx)) (bin_of dist pr cx) Hp (Hd _)). destruct SB as [SB _]. specialize (SB eq_refl).
    destruct (Z.ltb_spec (dist (fst cx)) (rmax * rmax)) as [H|H].
    + assert (B : bin_of dist pr cx < n). { destruct (le_lt_dec n (bin_of dist pr cx)) as [X|X]; auto. exfalso. assert (Z.of_nat n * pr <= Z.of_nat (bin_of dist pr cx) * pr)%Z by nia. assert (0 <= Z.of_nat n * pr)%Z by nia. nia. }
      destruct (nth_error_ex vs (bin_of dist pr cx)) as [v Ev]; [lia|]. destruct (nth_error_ex ns (bin_of dist pr cx)) as [m Em]; [lia|]. rewrite Ev, Em. cbn [obind].
      destruct (IH (set_nth (bin_of dist pr cx) (v + snd cx) vs) (set_nth (bin_of dist pr cx) (S m) ns)) as [vs' [ns' (E & L1 & L2 & K1 & K2)]]; [rewrite set_nth_len; auto|rewrite set_nth_len; auto|].
      exists vs', ns'. split; [auto|]. split; [auto|]. split; [auto|]. split; intros b x Hx; cbn [filter].
      * rewrite (K1 b (if bin_of dist pr cx =? b then x + snd cx else x)). { destruct (bin_of dist pr cx =? b); cbn [map total fold_right]; f_equal; unfold total; lia. }
        rewrite set_nth_get by lia. rewrite (Nat.eqb_sym b). destruct (Nat.eqb_spec (bin_of dist pr cx) b) as [<-|]; [congruence|auto].
      * rewrite (K2 b (if bin_of dist pr cx =? b then S x else x)). { destruct (bin_of dist pr cx =? b); cbn [length]; f_equal; lia. }
        rewrite set_nth_get by lia. rewrite (Nat.eqb_sym b). destruct (Nat.eqb_spec (bin_of dist pr cx) b) as [<-|]; [congruence|auto].
    + cbn [obind]. destruct (IH vs ns Lv Ln) as [vs' [ns' (E & L1 & L2 & K1 & K2)]]. exists vs', ns'. split; [auto|]. split; [auto|]. split; [auto|].
      assert (B : forall b, b < n -> bin_of dist pr cx =? b = false). { intros b Hb. apply Nat.eqb_neq. intros Eb. rewrite Eb in SB. assert ((Z.of_nat b + 1) * pr <= rmax)%Z by nia. assert (0 <= (Z.of_nat b + 1) * pr)%Z by nia. nia. }
      split; intros b x Hx; cbn [filter]; rewrite B by (assert (X := nth_error_lt _ _ _ Hx); lia); auto.
Qed.
Lemma partial_sums_len : forall l a, length (partial_sums a l) = length l.
Proof. induction l; intros; cbn; auto. Qed.
Lemma partial_sums_nth : forall l a b, b < length l -> nth_error (partial_sums a l) b = Some (a + total (firstn (S b) l)).
Proof.
  induction l as [|x l IH]; intros a b H; [cbn in H; lia|]. cbn [partial_sums]. destruct b as [|b]; cbn [nth_error]; [cbn; f_equal; lia|]. rewrite IH by (cbn in H; lia). f_equal. cbn [firstn total fold_right]. unfold total. lia.
Qed.
Lemma total_app l l' : total (l ++ l') = total l + total l'.
Proof. induction l; cbn; auto. unfold total in *. lia. Qed.
Lemma total_bins {A} (f : A -> nat) (g : A -> nat) prs : forall b, total (map (fun m => total (map g (filter (fun x => f x =? m) prs))) (seq 0 (S b))) = total (map g (filter (fun x => f x <=? b) prs)).
Proof.
  induction b as [|b IH].
  - cbn. rewrite Nat.add_0_r. f_equal. f_equal. apply filter_ext. intros x. destruct (f x); auto.
  - rewrite seq_S, map_app, total_app, IH. cbn [map total fold_right plus]. rewrite Nat.add_0_r. clear IH. induction prs as [|x prs IH]; [auto|]. cbn [filter].
    destruct (Nat.leb_spec (f x) b), (Nat.leb_spec (f x) (S b)), (Nat.eqb_spec (f x) (S b)); try lia; cbn [map total fold_right]; unfold total in *; lia.
Qed.
Lemma firstn_seq_map (vs : list nat) (g : nat -> nat) : (forall b, b < length vs -> nth_error vs b = Some (g b)) -> vs = map g (seq 0 (length vs)).
Proof.
  intros H. apply nth_error_ext. intros b. destruct (lt_dec b (length vs)) as [L|L].
  - rewrite H by auto. rewrite nth_error_map, (nth_error_nth' _ 0) by (rewrite seq_length; auto). rewrite seq_nth by auto. auto.
  - transitivity (@None nat); [|symmetry]; apply nth_error_None; rewrite ?map_length, ?seq_length; lia.
Qed.
Lemma firstn_seq n m a : m <= n -> firstn m (seq a n) = seq a m.
Proof. revert n a. induction m as [|m IH]; intros [|n] a H; cbn; auto; try lia. f_equal. apply IH. lia. Qed.
Lemma min_pos_ok {V} (lt : V -> V -> bool) : (forall x, lt x x = false) -> (forall x y z, lt x y = true -> lt y z = true -> lt x z = true) -> (forall x y z, lt x y = false -> lt y z = false -> lt x z = false) ->
  forall rest pre best at_best, nth_error pre at_best = Some best -> (forall j y, nth_error pre j = Some y -> lt y best = false) -> (forall j y, j < at_best -> nth_error pre j = Some y -> lt best y = true) ->
  exists v, let m := min_pos V lt best at_best (length pre) rest in nth_error (pre ++ rest) m = Some v /\ (forall j y, nth_error (pre ++ rest) j = Some y -> lt y v = false) /\ (forall j y, j < m -> nth_error (pre ++ rest) j = Some y -> lt v y = true).
Proof.
  intros Ir Tr Nt. induction rest as [|x rest IH]; intros pre best p Hp Hm Hf; cbn [min_pos].
  - exists best. cbv zeta. rewrite app_nil_r. auto.
  - replace (pre ++ x :: rest) with ((pre ++ [x]) ++ rest) by (rewrite <- app_assoc; auto). replace (S (length pre)) with (length (pre ++ [x])) by (rewrite app_length; cbn; lia).
    assert (Last : forall j y, nth_error (pre ++ [x]) j = Some y -> (j < length pre /\ nth_error pre j = Some y) \/ (j = length pre /\ y = x)).
    { intros j y H. destruct (lt_dec j (length pre)) as [L|L]; [left; rewrite nth_error_app1 in H; auto|right]. assert (B := nth_error_lt _ _ _ H). rewrite app_length in B. cbn in B. assert (j = length pre) by lia. subst j. rewrite nth_error_app2, Nat.sub_diag in H by lia. cbn in H. split; congruence. }
    destruct (lt x best) eqn:El; apply IH.
    + rewrite nth_error_app2, Nat.sub_diag by lia. auto.
    + intros j y H. destruct (Last _ _ H) as [[L H1]|[_ ->]]; [|auto]. destruct (lt y x) eqn:E; auto. specialize (Hm _ _ H1). rewrite (Tr _ _ _ E El) in Hm. discriminate.
    + intros j y Hj H. destruct (Last _ _ H) as [[L H1]|[-> _]]; [|lia]. destruct (lt x y) eqn:E; auto. assert (F := Nt _ _ _ E (Hm _ _ H1)). congruence.
    + rewrite nth_error_app1; auto. apply nth_error_Some. congruence.
    + intros j y H. destruct (Last _ _ H) as [[L H1]|[_ ->]]; eauto.
    + intros j y Hj H. assert (p < length pre) by (apply nth_error_Some; congruence). destruct (Last _ _ H) as [[L H1]|[-> _]]; [eauto|lia].
Qed.
Lemma nth_error_combine_x {A B} : forall (l : list A) (m : list B) k a b, nth_error l k = Some a -> nth_error m k = Some b -> nth_error (combine l m) k = Some (a, b).
Proof. induction l as [|x l IH]; intros m [|k] a b Ha Hb; try discriminate; destruct m as [|y m]; try discriminate; cbn in *; [congruence|auto]. Qed.

(** Proofs about the slices of a series. *)
Require Import String OrderedTypeEx.
Require Import List Bool Arith ZArith Lia Permutation.
Require Import Verif.ListX Verif.Lif_Model Verif.Lif_Spec.
Import ListNotations.
Local Open Scope Z_scope.

(** * The map of dimensions does not depend on the order of the XML *)
Lemma cmp_trans : forall a b c, String.compare a b = Lt -> String.compare b c = Lt -> String.compare a c = Lt.
Proof. intros a b c H1 H2. apply String_as_OT.cmp_lt in H1. apply String_as_OT.cmp_lt in H2. apply String_as_OT.cmp_lt. eapply String_as_OT.lt_trans; eauto. Qed.
Lemma cmp_gt : forall a b, String.compare a b = Gt <-> String.compare b a = Lt.
Proof. intros. rewrite String.compare_antisym. destruct (String.compare b a); cbn; split; congruence. Qed.
Lemma cmp_refl : forall a, String.compare a a = Eq.
Proof. intros. apply String_as_OT.cmp_eq. auto. Qed.
Lemma cmp_lt_gt : forall a b, String.compare a b = Lt -> String.compare b a = Gt.
Proof. intros. apply cmp_gt. auto. Qed.
Lemma insert_lt : forall k d k' d' m, String.compare k k' = Lt -> map_insert k d ((k', d') :: m) = (k, d) :: (k', d') :: m.
Proof. intros. cbn [map_insert]. rewrite H. auto. Qed.
Lemma insert_eq : forall k d d' m, map_insert k d ((k, d') :: m) = (k, d') :: m.
Proof. intros. cbn [map_insert]. rewrite cmp_refl. auto. Qed.
Lemma insert_gt : forall k d k' d' m, String.compare k' k = Lt -> map_insert k d ((k', d') :: m) = (k', d') :: map_insert k d m.
Proof. intros. cbn [map_insert]. rewrite (cmp_lt_gt _ _ H). auto. Qed.
Lemma cmp_cases : forall a b, a = b \/ String.compare a b = Lt \/ String.compare b a = Lt.
Proof. intros. destruct (String.compare a b) eqn:E; auto. { left. apply String.compare_eq_iff. auto. } right. right. apply cmp_gt. auto. Qed.
Lemma insert_comm : forall m k1 d1 k2 d2, k1 <> k2 -> map_insert k1 d1 (map_insert k2 d2 m) = map_insert k2 d2 (map_insert k1 d1 m).
Proof.
  intros m k1 d1 k2 d2 N. revert k1 d1 k2 d2 N.
  assert (W : forall m k1 d1 k2 d2, String.compare k1 k2 = Lt -> map_insert k1 d1 (map_insert k2 d2 m) = map_insert k2 d2 (map_insert k1 d1 m)).
  { induction m0 as [|[k d] m0 IH]; intros k1 d1 k2 d2 L.
    - cbn [map_insert]. rewrite L, (cmp_lt_gt _ _ L). auto.
    - destruct (cmp_cases k k1) as [->|[L1|L1]].
      + rewrite insert_eq, (insert_gt k2), insert_eq, ?(insert_gt k2); auto.
      + assert (L2 := cmp_trans _ _ _ L1 L). rewrite !(insert_gt _ _ k) by auto. f_equal. auto.
      + rewrite (insert_lt k1 _ k) by auto. rewrite (insert_gt k2 _ k1) by auto. destruct (cmp_cases k k2) as [->|[L2|L2]].
        * rewrite !insert_eq, insert_lt; auto.
        * rewrite !(insert_gt k2 _ k), insert_lt by auto. auto.
        * rewrite !(insert_lt k2 _ k), insert_lt by auto. auto. }
  intros k1 d1 k2 d2 N. destruct (cmp_cases k1 k2) as [->|[L|L]]; [easy|auto|symmetry; auto].
Qed.
Lemma dimensions_of_perm : forall ds ds', Permutation ds ds' -> NoDup (map dim_name ds) -> dimensions_of ds = dimensions_of ds'.
Proof.
  intros ds ds' P. unfold dimensions_of. generalize (@nil (string * dimension)). induction P; intros m N; auto.
  - cbn [fold_left]. apply IHP. inversion N. auto.
  - cbn [fold_left]. rewrite insert_comm; auto. cbn [map] in N. inversion N as [|? ? N1]. subst. intro. apply N1. left. auto.
  - rewrite IHP1 by auto. apply IHP2. eapply Permutation_NoDup; [apply Permutation_map; eauto|auto].
Qed.

(** * Packed series *)
Section Packed.
Variables nx ny nz nt nch ix iy iz inc_t off : Z.
Hypothesis (Hx : 1 <= nx) (Hy : 1 <= ny) (Hz : 1 <= nz) (Ht : 1 <= nt) (Hc : 1 <= nch) (Hi : 0 <= inc_t) (Ho : 0 <= off).
Hypothesis Hsmall : nx * ny * nz < two31.
Hypothesis Hnt : nt < two31.
Variable ds : list dimension.
(** The Z and T dimensions may be missing from the header if they have one element. *)
Variables has_z has_t : bool.
Hypothesis Pds : Permutation ds ([mkDim 1 nx ix; mkDim 2 ny iy] ++ (if has_z then [mkDim 3 nz iz] else []) ++ (if has_t then [mkDim 4 nt inc_t] else [])).
Hypothesis (Nz : has_z = false -> nz = 1) (Nt : has_t = false -> nt = 1).
Let s := mkSerie (dimensions_of ds) nch off.

Lemma dims_eq : dimensions_of ds = (if has_t then [("T"%string, mkDim 4 nt inc_t)] else []) ++ [("X"%string, mkDim 1 nx ix); ("Y"%string, mkDim 2 ny iy)] ++ (if has_z then [("Z"%string, mkDim 3 nz iz)] else []).
Proof.
  rewrite (dimensions_of_perm _ _ Pds).
  - destruct has_z, has_t; reflexivity.
  - apply (Permutation_NoDup (Permutation_map dim_name (Permutation_sym Pds))). clear. destruct has_z, has_t; cbn; repeat constructor; cbn; intuition discriminate.
Qed.
Lemma prod_bounds : nx * ny <= nx * ny * nz /\ nx <= nx * ny /\ ny <= nx * ny /\ nz <= nx * ny * nz.
Proof. clear - Hx Hy Hz. assert (1 <= nx * ny) by nia. repeat split; nia. Qed.
Lemma spatial_eq : spatial_dimensions s = [nx; ny] ++ (if has_z then [nz] else []).
Proof.
  unfold spatial_dimensions, s. cbn [dimensions]. rewrite dims_eq. pose proof prod_bounds. unfold two31 in *.
  clear Pds. destruct has_z, has_t; cbn [app filter map snd dim_id n_elements]; cbn; rewrite ?Z.mod_small by (unfold two64; lia); auto.
Qed.
Lemma nb_t : nb_time_steps s = nt.
Proof.
  unfold nb_time_steps, s. cbn [dimensions]. rewrite dims_eq. clear Pds. destruct has_z, has_t; cbn [app map_find String.eqb]; cbn; try (rewrite Z.mod_small by (unfold two64, two31 in *; lia); auto); symmetry; auto.
Qed.
Lemma to_int_small : forall a b, 1 <= a -> 0 <= b -> a * b < two31 -> a < two31 -> b < two31 -> to_int (((a mod two64) * b) mod two64) = a * b.
Proof.
  intros a b Ha Hb Hab La Lb. unfold to_int, two31, two32, two64 in *. rewrite (Z.mod_small a) by lia. rewrite (Z.mod_small (a * b)) by (split; [apply Z.mul_nonneg_nonneg; lia|lia]). rewrite Z.mod_small; [lia|]. split; [|lia]. assert (0 <= a * b) by (apply Z.mul_nonneg_nonneg; lia). lia.
Qed.
Lemma nb_slice : nb_pixels_slice s = nx * ny.
Proof.
  unfold nb_pixels_slice. rewrite spatial_eq. replace (resize2 ([nx; ny] ++ (if has_z then [nz] else []))) with [nx; ny] by (destruct has_z; reflexivity).
  pose proof prod_bounds. unfold accumulate. cbn [fold_left]. rewrite (to_int_small 1 nx) by (unfold two31 in *; lia). rewrite Z.mul_1_l. rewrite to_int_small by (unfold two31 in *; lia). apply Z.mod_small. unfold two31, two64 in *. lia.
Qed.
Lemma nb_step : nb_pixels_time_step s = nx * ny * nz.
Proof.
  unfold nb_pixels_time_step. rewrite spatial_eq. pose proof prod_bounds. unfold accumulate. cbn [app fold_left]. rewrite (to_int_small 1 nx) by (unfold two31 in *; lia). rewrite Z.mul_1_l. rewrite (to_int_small nx ny) by (unfold two31 in *; lia).
  destruct has_z; cbn [fold_left].
  - rewrite (to_int_small (nx * ny) nz) by (unfold two31 in *; lia). apply Z.mod_small. unfold two31, two64 in *. lia.
  - rewrite Nz by auto. rewrite Z.mul_1_r. apply Z.mod_small. unfold two31, two64 in *. lia.
Qed.
Lemma get_offset_eq : forall t, 0 <= t < nt -> off + t * inc_t < two63 -> get_offset s t = Ok (off + t * inc_t).
Proof.
  intros t H1 H2. unfold get_offset. rewrite nb_t. destruct (Z.leb_spec nt t); [lia|]. destruct (Z.eqb_spec t 0) as [->|]. { unfold s. cbn. f_equal. lia. }
  assert (Ht' : has_t = true) by (destruct has_t; auto; specialize (Nt eq_refl); lia). assert (0 <= t * inc_t) by (apply Z.mul_nonneg_nonneg; lia).
  unfold s. cbn [dimensions offset]. rewrite dims_eq, Ht'. clear Pds. destruct has_z; cbn [app map_find String.eqb]; cbn -[Z.mul Z.modulo Z.add]; rewrite !Z.mod_small by (rewrite ?Z.mod_small; unfold two63, two64 in *; lia); f_equal; lia.
Qed.
Lemma get_offset_out : forall t, nt <= t -> get_offset s t = Refused.
Proof. intros t H. unfold get_offset. rewrite nb_t. destruct (Z.leb_spec nt t); [auto|lia]. Qed.

Variable file : list Z.
Hypothesis Hfile : size file < two63.
Lemma sub_length : forall p n, 0 <= p -> 0 <= n -> p + n <= size file -> length (sub file p n) = Z.to_nat n.
Proof. clear. intros p n H1 H2 H3. unfold sub, size in *. rewrite firstn_length, skipn_length. lia. Qed.
Lemma to_long_small : forall n, 0 <= n < two63 -> to_long n = n.
Proof. clear. intros. unfold to_long. rewrite Z.mod_small; unfold two63, two64 in *; lia. Qed.
Lemma fill_buffer_eq : forall p n buffer st, 0 <= p -> 0 <= n -> p + n <= size file -> length buffer = Z.to_nat n -> failed st = false ->
  fill_buffer file p n buffer st = Ok (sub file p n, mkStream (p + n) false).
Proof.
  intros p n buffer st H1 H2 H3 Hb F. clear - Hfile H1 H2 H3 Hb F. unfold fill_buffer. rewrite !to_long_small by lia. unfold seek_to. rewrite F. destruct (Z.ltb_spec p 0); [lia|].
  unfold read. cbn [failed]. unfold rest. cbn [pos]. fold (sub file p n). pose proof (sub_length p n H1 H2 H3). rewrite H0. rewrite Z2Nat.id by auto. rewrite Z.eqb_refl. cbn [negb].
  destruct (Z.ltb_spec (Z.of_nat (length buffer)) n); [lia|]. rewrite skipn_all2 by lia. now rewrite app_nil_r.
Qed.
Lemma n_slice : (nb_pixels_slice s * n_channels s) mod two64 = (nx * ny * nch) mod two64.
Proof. rewrite nb_slice. auto. Qed.
Lemma fill2_eq : forall t z buffer st, 0 <= t < nt -> 0 <= z < nz -> off + t * inc_t + nx * ny * nz * nch <= size file -> Z.of_nat (length buffer) = nx * ny * nch -> failed st = false ->
  fill2 file s buffer t z st = Ok (sub file (off + t * inc_t + z * (nx * ny * nch)) (nx * ny * nch), mkStream (off + t * inc_t + z * (nx * ny * nch) + nx * ny * nch) false).
Proof.
  intros t z buffer st Kt Kz Hf Hb F. assert (P := prod_bounds). assert (1 <= nx * ny) by lia. assert (1 <= nx * ny * nch) by (clear - H Hc; nia).
  assert (0 <= t * inc_t) by (apply Z.mul_nonneg_nonneg; lia). assert (Kzz : z * (nx * ny * nch) + nx * ny * nch <= nx * ny * nz * nch). { clear - Kz H0. replace (nx * ny * nz * nch) with (nz * (nx * ny * nch)) by ring. nia. }
  assert (0 <= z * (nx * ny * nch)) by (apply Z.mul_nonneg_nonneg; lia).
  unfold fill2. cbv zeta. rewrite n_slice. rewrite get_offset_eq by (auto; lia). cbn [bind]. rewrite (Z.mod_small (nx * ny * nch)) by (unfold two63, two64 in *; lia).
  rewrite (Z.mod_small (z * (nx * ny * nch))) by (unfold two63, two64 in *; lia). rewrite Z.mod_small by (unfold two63, two64 in *; lia). apply fill_buffer_eq; auto; lia.
Qed.
Lemma fill3_eq : forall t buffer st, 0 <= t < nt -> off + t * inc_t + nx * ny * nz * nch <= size file -> Z.of_nat (length buffer) = nx * ny * nz * nch -> failed st = false ->
  fill3 file s buffer t st = Ok (sub file (off + t * inc_t) (nx * ny * nz * nch), mkStream (off + t * inc_t + nx * ny * nz * nch) false).
Proof.
  intros t buffer st Kt Hf Hb F. assert (P := prod_bounds). assert (1 <= nx * ny * nz) by lia. assert (1 <= nx * ny * nz * nch) by (clear - H Hc; nia). assert (0 <= t * inc_t) by (apply Z.mul_nonneg_nonneg; lia).
  unfold fill3. cbv zeta. rewrite nb_step. unfold s at 1. cbn [n_channels]. rewrite get_offset_eq by (auto; lia). cbn [bind]. rewrite (Z.mod_small (nx * ny * nz * nch)) by (unfold two63, two64 in *; lia). apply fill_buffer_eq; auto; lia.
Qed.
End Packed.
Lemma nth_error_firstn_z {A} : forall n (l : list A) k, (k < n)%nat -> nth_error (firstn n l) k = nth_error l k.
Proof. induction n; intros [|x l] [|k] Hk; cbn; auto; try lia. apply IHn. lia. Qed.
Lemma nth_error_skipn_z {A} : forall n (l : list A) k, nth_error (skipn n l) k = nth_error l (n + k).
Proof. induction n; intros [|x l] k; cbn; auto. destruct k; auto. Qed.
Lemma nth_sub : forall file p n k, 0 <= p -> 0 <= k < n -> nth_error (sub file p n) (Z.to_nat k) = nth_error file (Z.to_nat (p + k)).
Proof. intros file p n k H1 H2. unfold sub. rewrite nth_error_firstn_z by lia. rewrite nth_error_skipn_z. f_equal. lia. Qed.
(** Indices of pixels. *)
Lemma index2 : forall nx ny nch y x c, 0 <= x < nx -> 0 <= y < ny -> 0 <= c < nch -> 0 <= (y * nx + x) * nch + c < nx * ny * nch.
Proof.
  intros nx ny nch y x c H1 H2 H3. assert (0 <= y * nx + x < nx * ny). { split; [nia|]. assert (y * nx + nx <= ny * nx) by nia. nia. }
  split; [nia|]. assert ((y * nx + x) * nch + nch <= (nx * ny) * nch) by nia. lia.
Qed.
Lemma skipn_skipn_z {A} : forall b (l : list A) a, skipn a (skipn b l) = skipn (b + a) l.
Proof. induction b; intros [|x l] a; cbn; auto. now rewrite skipn_nil. Qed.
Lemma sub_app : forall file p a b, 0 <= p -> 0 <= a -> 0 <= b -> sub file p (a + b) = sub file p a ++ sub file (p + a) b.
Proof.
  intros file p a b Hp Ha Hb. unfold sub. rewrite !Z2Nat.inj_add by auto. rewrite <- (firstn_skipn (Z.to_nat a) (firstn _ _)) at 1. rewrite firstn_firstn, Nat.min_l by lia. f_equal.
  rewrite skipn_firstn_comm, Nat.add_comm, Nat.add_sub. f_equal. apply skipn_skipn_z.
Qed.

(** * The locator *)
Section Locator.
Variables (file : list Z) (s : serie) (nx ny nz nt off : Z).
Hypothesis (Hx : 1 <= nx) (Hy : 1 <= ny) (Hz : 1 <= nz).
Hypothesis Hdims : exists l, spatial_dimensions s = nx :: ny :: l /\ nz = match l with d :: _ => d | [] => 1 end.
Hypothesis Hnt : nb_time_steps s = nt.
Hypothesis Hfill : forall z buffer st, 0 <= z < nz -> Z.of_nat (length buffer) = nx * ny -> failed st = false ->
  exists st', fill2 file s buffer 0 z st = Ok (sub file (off + z * (nx * ny)) (nx * ny), st') /\ failed st' = false.
Hypothesis Hlen : forall z, 0 <= z < nz -> Z.of_nat (length (sub file (off + z * (nx * ny)) (nx * ny))) = nx * ny.
Definition loc_ok (l : locator) : Prop := 0 <= loc_t l < nt /\ total_t l = nt /\ total_z l = nz /\ rows l = nx /\ cols l = ny /\ Z.of_nat (length (slice l)) = nx * ny /\ failed (loc_file l) = false.
Lemma new_locator_ok : forall st, failed st = false -> 0 < nt -> exists l, new_locator s st = Ok l /\ loc_ok l /\ loc_t l = 0 /\ pushed l = [].
Proof.
  intros st F Ht. destruct Hdims as [l [E1 E2]]. unfold new_locator. rewrite E1. eexists. split; [reflexivity|]. unfold loc_ok. cbn [loc_t total_t total_z rows cols slice loc_file pushed]. rewrite repeat_length. assert (0 <= nx * ny) by (apply Z.mul_nonneg_nonneg; lia). repeat split; auto; try lia.
Qed.
Lemma fill_slices_ok : forall n l, loc_ok l -> Z.of_nat (length (pushed l) + n) <= nz ->
  exists l', fill_slices file s n l = Ok l' /\ loc_ok l' /\ loc_t l' = loc_t l /\ pushed l' = pushed l ++ map (fun z => sub file (off + Z.of_nat z * (nx * ny)) (nx * ny)) (seq (length (pushed l)) n).
Proof.
  induction n as [|n IH]; intros l Ok_l Hn.
  - exists l. cbn. rewrite app_nil_r. auto.
  - cbn [fill_slices]. destruct Ok_l as (L1 & L2 & L3 & L4 & L5 & L6 & L7). unfold fill_next_slice. destruct (Z.leb_spec (total_t l) (loc_t l)); [lia|]. destruct (Z.leb_spec (total_z l) (Z.of_nat (length (pushed l)))); [lia|]. cbn [orb].
    destruct (Hfill (Z.of_nat (length (pushed l))) (slice l) (loc_file l)) as [st' [E F]]; auto; [lia|]. rewrite E. cbn [bind].
    match goal with |- context[fill_slices file s n ?x] => set (l1 := x) end.
    assert (Ok1 : loc_ok l1). { unfold loc_ok, l1. cbn [loc_t total_t total_z rows cols slice loc_file]. repeat split; auto; try lia. apply Hlen. lia. }
    destruct (IH l1 Ok1) as [l' (E' & O' & T' & P')]. { unfold l1. cbn [pushed]. rewrite app_length. cbn [length]. lia. }
    exists l'. split; auto. split; auto. split; auto. rewrite P'. unfold l1. cbn [pushed]. rewrite app_length, <- app_assoc. cbn [length seq map app]. rewrite Nat.add_1_r. auto.
Qed.
Lemma fill_time_step_ok : forall l, loc_ok l -> exists l', fill_time_step file s l = Ok l' /\ loc_ok l' /\ loc_t l' = loc_t l /\ pushed l' = map (fun z => sub file (off + Z.of_nat z * (nx * ny)) (nx * ny)) (seq 0 (Z.to_nat nz)).
Proof.
  intros l Ok_l. assert (Ok_l' := Ok_l). destruct Ok_l' as (L1 & L2 & L3 & L4 & L5 & L6 & L7). unfold fill_time_step. rewrite L3. destruct (fill_slices_ok (Z.to_nat nz) (clear l)) as [l' (E & O & T & P)].
  - unfold loc_ok, clear. cbn [loc_t total_t total_z rows cols slice loc_file]. rewrite repeat_length. repeat split; auto; lia.
  - cbn [clear pushed length]. lia.
  - exists l'. split; auto.
Qed.
End Locator.

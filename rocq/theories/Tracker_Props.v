(** C67, C68: padded images and Fourier masks of the tracker. *)
Require Import List Bool Arith Lia.
Require Import Verif.Base Verif.ListX Verif.Traj_Model Verif.Particles_Model Verif.RTree_Model Verif.Boo_Model Verif.Pyramid_Model Verif.Pyramid_Proofs Verif.Tracker_Model Verif.Tracker_Spec Verif.Tracker_Proofs.
Import ListNotations.

Lemma fill_all {V T C} (zero : V) (add : T -> V -> T) (conv : C -> V) n0 n1 n2 (zp : bool) m inp su : length m = memsize n0 n1 n2 -> n0 * n1 * n2 <= length inp ->
  exists s, oiter n0 (oiter n1 (fill_line V T C add conv n2 (if zp then zero_pad V T C zero else skip_pad V T C))) (mkFill V T C m 0 inp su) = Val s /\ length (mem V T C s) = memsize n0 n1 n2 /\ input V T C s = skipn (n0 * n1 * n2) inp /\
    (forall i j k, i < n0 -> j < n1 -> k < n2 -> padded_pixel n1 n2 (mem V T C s) i j k = option_map conv (flat_pixel n1 n2 inp i j k)) /\
    sum V T C s = option_map (fun t => fold_left (fun t x => add t (conv x)) (firstn (n0 * n1 * n2) inp) t) su.
Proof.
  intros Lm Li. rewrite oiter_mul. destruct (fill_lines_ok V T C zero add conv n2 zp (n0 * n1) m 0 inp su) as [s (E & _ & Ei & El & Ea & _ & Es)]. { rewrite Lm. unfold memsize. lia. } { auto. }
  exists s. split; auto. split; [lia|]. split; auto. split; auto. intros i j k Hi Hj Hk. apply (Ea (i * n1 + j) k); auto. apply idx2; auto.
Qed.

(** Filling from a sequence of at least n0*n1*n2 values succeeds, puts every pixel at its place in the padded block, and leaves the iterator after the last pixel. *)
Theorem C67_fill (V T C : Type) (add : T -> V -> T) (conv : C -> V) n0 n1 n2 (block : list V) (inp : list C) : length block = n0 * n1 * (2 * (n2 / 2 + 1)) -> n0 * n1 * n2 <= length inp ->
  exists s, fill_image V T C add conv n0 n1 n2 block inp = Val s /\ length (mem V T C s) = length block /\ input V T C s = skipn (n0 * n1 * n2) inp /\
    forall i j k, i < n0 -> j < n1 -> k < n2 -> padded_pixel n1 n2 (mem V T C s) i j k = option_map conv (flat_pixel n1 n2 inp i j k).
Proof.
  intros L I.
  destruct inp as [|x inp'] eqn:Ex.
  - cbn in I. assert (Z : n0 * n1 * n2 = 0) by lia. unfold fill_image. rewrite oiter_mul.
    destruct (oiter_inv (fun (L : nat) s => mem V T C s = block /\ input V T C s = []) (fill_line V T C add conv n2 (skip_pad V T C)) (n0 * n1) 0 (mkFill V T C block 0 [] None)) as [s [E [M N]]]. { auto. }
    { intros q s Hq [M N]. assert (N0 : n2 = 0). { destruct n2; auto. exfalso. clear -Hq Z. assert (1 * S n2 <= (n0 * n1) * S n2) by (apply Nat.mul_le_mono_r; lia). lia. }
      subst n2. unfold fill_line. cbn [oiter obind].
      destruct (oiter_inv (fun (L : nat) s => mem V T C s = block /\ input V T C s = []) (skip_pad V T C) (line 0 - 0) 0 s) as [s' [E [M' N']]]; auto. { intros k w _ [A B]. exists (mkFill V T C (mem V T C w) (S (ptr V T C w)) (input V T C w) (sum V T C w)). auto. } exists s'. auto. }
    exists s. split; auto. rewrite M, N, skipn_nil. split; auto. split; auto. intros i j k Hi Hj Hk. exfalso. assert (B := idx2 n0 n1 i j Hi Hj). assert (1 * n2 <= (n0 * n1) * n2) by (apply Nat.mul_le_mono_r; lia). lia.
  - destruct (fill_all (conv x) add conv n0 n1 n2 false block (x :: inp') None) as [s (E & A & B & D & _)]; auto. exists s. split; auto. split; [rewrite A; auto|]. split; auto.
Qed.
(** The same for unsigned bytes read through signed characters; here the sum of the pixels is the sum of the converted values. *)
Theorem C67_fill_uchar (V T C : Type) (zero : V) (add : T -> V -> T) (zero_sum : T) (conv : C -> V) n0 n1 n2 (block : list V) (inp : list C) : length block = n0 * n1 * (2 * (n2 / 2 + 1)) -> n0 * n1 * n2 <= length inp ->
  exists s, fill_image_uchar V T C zero add zero_sum conv n0 n1 n2 block inp = Val s /\ length (mem V T C s) = length block /\ input V T C s = skipn (n0 * n1 * n2) inp /\
    (forall i j k, i < n0 -> j < n1 -> k < n2 -> padded_pixel n1 n2 (mem V T C s) i j k = option_map conv (flat_pixel n1 n2 inp i j k)) /\
    sum V T C s = Some (fold_left add (map conv (firstn (n0 * n1 * n2) inp)) zero_sum).
Proof.
  intros L I. destruct (fill_all zero add conv n0 n1 n2 true block inp (Some zero_sum)) as [s (E & A & B & D & S)]; auto. exists s. split; auto. split; [rewrite A; auto|]. split; auto. split; auto. rewrite S. cbn. f_equal.
  clear. revert zero_sum. induction (firstn (n0 * n1 * n2) inp) as [|x l IH]; intros t; cbn; auto.
Qed.
(** Refuted: fillImage adds the pixels to an uninitialised variable, so the mean is never defined. *)
Theorem C67_mean_refuted (V T C : Type) (add : T -> V -> T) (conv : C -> V) n0 n1 n2 (block : list V) (inp : list C) s : fill_image V T C add conv n0 n1 n2 block inp = Val s -> sum V T C s = None.
Proof.
  unfold fill_image. rewrite oiter_mul. intros H.
  assert (G : forall (f : filling V T C -> outcome (filling V T C)), (forall w w', f w = Val w' -> sum V T C w = None -> sum V T C w' = None) -> forall n w w', oiter n f w = Val w' -> sum V T C w = None -> sum V T C w' = None).
  { intros f Hf. induction n as [|n IH]; intros w w' E N; cbn [oiter] in E. { injection E as <-. auto. } destruct (f w) eqn:Ef; cbn [obind] in E; try discriminate. eapply IH; eauto. }
  eapply G; [|exact H|reflexivity]. clear H. intros w w' E N. revert E. unfold fill_line. destruct (oiter n2 (fill_pixel V T C add conv) w) as [w1| |] eqn:E1; cbn [obind]; try discriminate. intros E2.
  apply G in E1; auto. { apply G in E2; auto. intros a b X Y. injection X as <-. auto. }
  clear -add. intros a b X Y. unfold fill_pixel in X. destruct (input V T C a); try discriminate. destruct (write _ _ _); cbn [omap] in X; try discriminate. injection X as <-. cbn. rewrite Y. auto.
Qed.
(** An input with fewer values than the image is read past its end. *)
Theorem C67_short (V T C : Type) (zero : V) (add : T -> V -> T) (zero_sum : T) (conv : C -> V) n0 n1 n2 (block : list V) (inp : list C) : length inp < n0 * n1 * n2 ->
  fill_image V T C add conv n0 n1 n2 block inp = UB /\ fill_image_uchar V T C zero add zero_sum conv n0 n1 n2 block inp = UB.
Proof.
  intros L. unfold fill_image, fill_image_uchar. rewrite !oiter_mul. split.
  - destruct (fill_lines_len V T C zero add conv n2 false (n0 * n1) (mkFill V T C block 0 inp None)) as [E|[s [E N]]]; auto. cbn [input] in N. lia.
  - destruct (fill_lines_len V T C zero add conv n2 true (n0 * n1) (mkFill V T C block 0 inp (Some zero_sum))) as [E|[s [E N]]]; auto. cbn [input] in N. lia.
Qed.
(** Filling one slice sets the pixels of this slice and leaves the pixels of all others. *)
Theorem C67_slice (V T C : Type) (zero : V) (add : T -> V -> T) (conv : C -> V) n0 n1 n2 (block : list V) (inp : list C) acc z : length block = n0 * n1 * (2 * (n2 / 2 + 1)) -> z < n0 -> n1 * n2 <= length inp ->
  exists s, fill_slice V T C add conv n1 n2 z block inp acc = Val s /\ length (mem V T C s) = length block /\ input V T C s = skipn (n1 * n2) inp /\
    (forall j k, j < n1 -> k < n2 -> padded_pixel n1 n2 (mem V T C s) z j k = option_map conv (flat_pixel n1 n2 inp 0 j k)) /\
    (forall i j k, i <> z -> j < n1 -> k < n2 -> padded_pixel n1 n2 (mem V T C s) i j k = padded_pixel n1 n2 block i j k).
Proof.
  intros L Hz I. assert (LP := line_ge n2). unfold fill_slice. fold (line n2) in L. set (d := z * (n1 * (n2 / 2 + 1)) * 2). assert (Ed : d = (z * n1) * line n2) by (unfold d, line; lia).
  assert (Hz1 : (z + 1) * n1 <= n0 * n1) by (apply Nat.mul_le_mono_r; lia). assert (Hz2 : ((z + 1) * n1) * line n2 <= (n0 * n1) * line n2) by (apply Nat.mul_le_mono_r; lia).
  destruct (fill_lines_ok V T C zero add conv n2 false n1 block d inp acc) as [s (E & _ & Ei & El & Ea & Eb & _)]. { lia. } { auto. }
  exists s. split; auto. split; auto. split; auto. split.
  - intros j k Hj Hk. unfold padded_pixel, flat_pixel. fold (line n2). replace ((z * n1 + j) * line n2 + k) with (d + j * line n2 + k) by lia. rewrite Ea by auto. cbn [Nat.mul plus]. auto.
  - intros i j k Hi Hj Hk. unfold padded_pixel. fold (line n2). apply Eb. assert (C1 : i < z \/ z < i) by lia. destruct C1 as [C1|C1].
    + left. assert (B := idx2 z n1 i j C1 Hj). assert ((i * n1 + j + 1) * line n2 <= (z * n1) * line n2) by (apply Nat.mul_le_mono_r; lia). lia.
    + right. assert (B : (z + 1) * n1 <= i * n1) by (apply Nat.mul_le_mono_r; lia). assert (((z + 1) * n1) * line n2 <= (i * n1 + j) * line n2) by (apply Nat.mul_le_mono_r; lia). lia.
Qed.
(** unpad in place: whatever the content of the block, pixel (i,j,k) of the padded block becomes pixel (i,j,k) of the contiguous image; no access outside the block. *)
Theorem C67_unpad (V : Type) (zero : V) n0 n1 n2 (block : list V) : length block = n0 * n1 * (2 * (n2 / 2 + 1)) ->
  exists block', unpad V zero n0 n1 n2 true block = Val (false, block') /\ length block' = length block /\
    forall i j k, i < n0 -> j < n1 -> k < n2 -> flat_pixel n1 n2 block' i j k = padded_pixel n1 n2 block i j k.
Proof.
  intros L. unfold unpad. rewrite oiter_mul. destruct (move_lines_ok V zero n2 (n0 * n1) block) as [s (E & El & Ea)]. { rewrite L. unfold line. lia. }
  rewrite E. cbn [omap]. exists (mmem V s). split; auto. split; auto. intros i j k Hi Hj Hk. apply (Ea (i * n1 + j) k); auto. apply idx2; auto.
Qed.
(** A second unpad changes nothing. *)
Theorem C67_unpad_twice (V : Type) (zero : V) n0 n1 n2 padded (block : list V) r : unpad V zero n0 n1 n2 padded block = Val r -> unpad V zero n0 n1 n2 (fst r) (snd r) = Val r.
Proof. unfold unpad at 1. destruct padded; intros H; [|injection H as <-; auto]. destruct (oiter _ _ _) eqn:E; cbn [omap] in H; try discriminate. injection H as <-. auto. Qed.

Lemma in_flat {V} n0 n1 n2 (l1 l2 : list V) : (forall i j k, i < n0 -> j < n1 -> k < n2 -> flat_pixel n1 n2 l1 i j k = flat_pixel n1 n2 l2 i j k) -> forall q, q < n0 * n1 * n2 -> nth_error l1 q = nth_error l2 q.
Proof.
  intros H q Hq. assert (N2 : n2 <> 0) by (intros ->; lia). assert (N1 : n1 <> 0) by (intros ->; lia).
  assert (X := H (q / n2 / n1) (q / n2 mod n1) (q mod n2)). unfold flat_pixel in X.
  replace ((q / n2 / n1 * n1 + q / n2 mod n1) * n2 + q mod n2) with q in X. 2:{ assert (D1 := Nat.div_mod_eq q n2). assert (D2 := Nat.div_mod_eq (q / n2) n1). replace (q / n2 / n1 * n1 + q / n2 mod n1) with (q / n2) by lia. lia. }
  apply X; try (apply Nat.mod_upper_bound; auto). apply Nat.div_lt_upper_bound; auto. apply Nat.div_lt_upper_bound; auto. lia.
Qed.
Lemma firstn_ext {V} : forall n (l1 l2 : list V), n <= length l1 -> n <= length l2 -> (forall q, q < n -> nth_error l1 q = nth_error l2 q) -> firstn n l1 = firstn n l2.
Proof.
  induction n as [|n IH]; intros [|x l1] [|y l2] A B H; cbn in *; auto; try lia. assert (X := H 0 ltac:(lia)). cbn in X. injection X as ->. f_equal. apply IH; try lia. intros q Hq. apply (H (S q)). lia.
Qed.
(** Round trip: fill then unpad, and the block begins with the pixels that were given, in their order. *)
Theorem C67_round_trip (V T : Type) (zero : V) (add : T -> V -> T) n0 n1 n2 (block inp : list V) : length block = n0 * n1 * (2 * (n2 / 2 + 1)) -> n0 * n1 * n2 <= length inp ->
  exists s block', fill_image V T V add (fun x => x) n0 n1 n2 block inp = Val s /\ unpad V zero n0 n1 n2 true (mem V T V s) = Val (false, block') /\ firstn (n0 * n1 * n2) block' = firstn (n0 * n1 * n2) inp.
Proof.
  intros L I. destruct (C67_fill V T V add (fun x => x) n0 n1 n2 block inp L I) as [s (E & El & _ & Ea)]. destruct (C67_unpad V zero n0 n1 n2 (mem V T V s)) as [b' (E2 & L2 & A2)]; [lia|].
  exists s, b'. split; auto. split; auto. apply firstn_ext; auto.
  - rewrite L2, El, L. assert (LP := line_ge n2). unfold line in LP. apply Nat.mul_le_mono_l. lia.
  - apply (in_flat n0 n1 n2). intros i j k Hi Hj Hk. rewrite A2, Ea by auto. now destruct (flat_pixel n1 n2 inp i j k).
Qed.
(** Copying a padded image to an output gives the n0*n1*n2 pixels in order and keeps the pixels in the block. *)
Theorem C67_copy (V : Type) (zero : V) n0 n1 n2 (block : list V) : length block = n0 * n1 * (2 * (n2 / 2 + 1)) ->
  exists s, copy_image V zero n0 n1 n2 block = Val s /\ length (out V s) = n0 * n1 * n2 /\
    forall i j k, i < n0 -> j < n1 -> k < n2 -> flat_pixel n1 n2 (out V s) i j k = padded_pixel n1 n2 block i j k /\ padded_pixel n1 n2 (cmem V s) i j k = padded_pixel n1 n2 block i j k.
Proof.
  intros L. unfold copy_image. rewrite oiter_mul. destruct (copy_lines_ok V zero n2 (n0 * n1) block) as [s (E & _ & Eo & Ea)]. { rewrite L. unfold line. lia. }
  exists s. split; auto. split; auto. intros i j k Hi Hj Hk. apply (Ea (i * n1 + j) k); auto. apply idx2; auto.
Qed.
Example C67_witness : fill_image nat nat nat Nat.add (fun x => x) 1 2 3 (repeat 9 8) [1; 2; 3; 4; 5; 6; 7] = Val (mkFill nat nat nat [1; 2; 3; 9; 4; 5; 6; 9] 8 [7] None) /\
  unpad nat 0 1 2 3 true [1; 2; 3; 9; 4; 5; 6; 9] = Val (false, [1; 2; 3; 4; 5; 6; 6; 0]).
Proof. split; reflexivity. Qed.

(** C68. *)
Lemma fld_even n i : n mod 2 = 0 \/ n = 1 -> i < n -> fld n i = freq n i.
Proof.
  intros H Hi. unfold fld, freq, parity. destruct (div2 n) as [D M].
  destruct (Nat.leb_spec 3 (n / 2 + 1)); cbn [andb].
  - destruct (Nat.ltb_spec (n / 2) i); lia.
  - assert (n <= 3) by lia. destruct H as [H| ->]; [|lia]. assert (n = 2 \/ n = 0) by lia. lia.
Qed.
Lemma freq_half n i : i < n -> freq n i <= n / 2.
Proof. intros H. unfold freq. destruct (div2 n). lia. Qed.

(** Dimensions that are even (or 1): after mirroring, every cell holds the value drawn for the absolute values of its frequencies. *)
Theorem C68_even (B : Type) n0 n1 h2 (m : mask B) i j k : n0 mod 2 = 0 \/ n0 = 1 -> n1 mod 2 = 0 \/ n1 = 1 -> i < n0 -> j < n1 -> k < h2 ->
  mirror_mask B n0 n1 h2 m i j k = m (freq n0 i) (freq n1 j) k.
Proof.
  intros H0 H1 Hi Hj Hk. rewrite mirror_mask_get by auto. rewrite (fld_even n1 j), (fld_even n0 i) by auto. assert (F := freq_half n1 j Hj). apply Nat.leb_le in F. rewrite F. auto.
Qed.
Lemma freq_opposite n i : i < n -> freq n (opposite n i) = freq n i /\ opposite n i < n.
Proof.
  intros H. unfold opposite, freq. destruct (Nat.eq_dec i 0) as [->|N]. { rewrite Nat.sub_0_r, Nat.mod_same by lia. lia. } rewrite Nat.mod_small by lia. lia.
Qed.
Theorem C68_symmetric (B : Type) n0 n1 h2 (m : mask B) : n0 mod 2 = 0 \/ n0 = 1 -> n1 mod 2 = 0 \/ n1 = 1 -> symmetric n0 n1 h2 (mirror_mask B n0 n1 h2 m).
Proof.
  intros H0 H1 i j k Hi Hj Hk. destruct (freq_opposite n0 i Hi) as [F0 L0]. destruct (freq_opposite n1 j Hj) as [F1 L1]. rewrite !C68_even by auto. rewrite F0, F1. auto.
Qed.
(** In all dimensions the part that was drawn is kept. *)
Theorem C68_kept (B : Type) n0 n1 h2 (m : mask B) i j k : i < n0 -> j < n1 -> k < h2 -> i <= n0 / 2 -> j <= n1 / 2 -> mirror_mask B n0 n1 h2 m i j k = m i j k.
Proof. intros Hi Hj Hk I J. rewrite mirror_mask_get by auto. rewrite !fld_le by auto. now destruct (j <=? n1 / 2). Qed.
(** Band-pass and low-pass masks: with the limits kmin, kmax of each drawn line, cell (i,j,k) is let through exactly when kmin <= k < kmax for the absolute frequencies of i and j,
    whatever the mask was before. *)
Theorem C68_band_pass n0 n1 h2 (kmin kmax : nat -> nat -> nat) (m : mask bool) i j k : n0 mod 2 = 0 \/ n0 = 1 -> n1 mod 2 = 0 \/ n1 = 1 -> (forall i j, i <= n0 / 2 -> j <= n1 / 2 -> kmin i j <= kmax i j) ->
  i < n0 -> j < n1 -> k < h2 -> make_band_pass n0 n1 h2 kmin kmax m i j k = true <-> kmin (freq n0 i) (freq n1 j) <= k < kmax (freq n0 i) (freq n1 j).
Proof.
  intros H0 H1 H Hi Hj Hk. unfold make_band_pass. rewrite C68_even by auto. rewrite draw_get by auto.
  assert (A := freq_half n0 i Hi). assert (C := freq_half n1 j Hj). apply Nat.leb_le in A, C. rewrite A, C. cbn [andb]. rewrite andb_true_iff, Nat.leb_le, Nat.ltb_lt. tauto.
Qed.
(** Nothing is written outside of the mask. *)
Lemma fold_outside {A C} (P : C -> Prop) (f : (nat -> nat -> nat -> A) -> C -> nat -> nat -> nat -> A) i j k : (forall m c, P c -> f m c i j k = m i j k) -> forall l m, Forall P l -> fold_left f l m i j k = m i j k.
Proof. intros H. induction l as [|c l IH]; intros m F; [reflexivity|]. inversion F; subst. cbn [fold_left]. rewrite IH by auto. apply H; auto. Qed.
Lemma set_outside (B : Type) (m : mask B) i j k b i' j' k' : i' <> i \/ j' <> j \/ k' <> k -> set_mask B m i j k b i' j' k' = m i' j' k'.
Proof. intros H. unfold set_mask. destruct (Nat.eqb_spec i' i), (Nat.eqb_spec j' j), (Nat.eqb_spec k' k); cbn [andb]; auto. subst. exfalso. destruct H as [H|[H|H]]; apply H; reflexivity. Qed.
Lemma forall_seq a n : Forall (fun x => a <= x < a + n) (seq a n).
Proof. apply Forall_forall. intros x I. apply in_seq in I. exact I. Qed.
Lemma assign_outside (B : Type) n0 n1 h2 (m : mask B) a b src dst i j k : (forall x y, x < a -> y < b -> fst (dst x y) < n0 /\ snd (dst x y) < n1) -> n0 <= i \/ n1 <= j \/ h2 <= k ->
  assign B h2 m (seq 0 a) (seq 0 b) src dst i j k = m i j k.
Proof.
  intros D O. unfold assign. apply (fold_outside (fun x => 0 <= x < 0 + a)); [|apply forall_seq]. intros m1 x Hx. apply (fold_outside (fun y => 0 <= y < 0 + b)); [|apply forall_seq]. intros m2 y Hy.
  destruct (D x y) as [D1 D2]; [lia|lia|]. apply (fold_outside (fun z => 0 <= z < 0 + h2)); [|apply forall_seq]. intros m3 z Hz. apply set_outside. lia.
Qed.
Theorem C68_outside n0 n1 h2 (kmin kmax : nat -> nat -> nat) (m : mask bool) i j k : 0 < n0 -> 0 < n1 -> n0 <= i \/ n1 <= j \/ h2 <= k ->
  make_band_pass n0 n1 h2 kmin kmax m i j k = m i j k.
Proof.
  intros H0 H1 O. assert (X0 : n0 / 2 < n0) by (apply Nat.div_lt; lia). assert (X1 : n1 / 2 < n1) by (apply Nat.div_lt; lia).
  unfold make_band_pass, mirror_mask, mirror_second, mirror_first.
  assert (E : draw n0 n1 h2 kmin kmax m i j k = m i j k).
  { unfold draw. apply (fold_outside (fun x => 0 <= x < 0 + (n0 / 2 + 1))); [|apply forall_seq]. intros m1 x Hx. apply (fold_outside (fun y => 0 <= y < 0 + (n1 / 2 + 1))); [|apply forall_seq]. intros m2 y Hy.
    unfold draw_line. assert (G : forall a b v (m' : mask bool), b <= h2 -> fill_range m' x y a b v i j k = m' i j k).
    { intros a b v m' Hb. unfold fill_range. apply (fold_outside (fun z => a <= z < a + (b - a))); [|apply forall_seq]. intros m3 z Hz. apply set_outside. lia. }
    rewrite !G by lia. reflexivity. }
  assert (F : forall m' : mask bool, (if 3 <=? n1 / 2 + 1 then assign bool h2 m' (seq 0 n0) (seq 0 (n1 / 2)) (fun i x => (i, parity n1 + x)) (fun i x => (i, n1 - 1 - x)) else m') i j k = m' i j k).
  { intros m'. destruct (3 <=? n1 / 2 + 1); [|reflexivity]. apply (assign_outside bool n0 n1); [|exact O]. intros x y Hx Hy. cbn [fst snd]. lia. }
  rewrite F. destruct (3 <=? n0 / 2 + 1); [|exact E]. rewrite (assign_outside bool n0 n1); [exact E| |exact O]. intros x y Hx Hy. cbn [fst snd]. lia.
Qed.
Example C68_outside_case : make_band_pass 4 6 2 (fun _ _ => 0) (fun i j => 5) (fun _ _ _ => false) 0 0 1 = true /\ make_band_pass 4 6 2 (fun _ _ => 0) (fun i j => 5) (fun _ _ _ => false) 0 0 2 = false.
Proof. split; reflexivity. Qed.
(** Odd dimensions of at least 5: the mirror is shifted by one frequency. *)
Theorem C68_odd (B : Type) n0 n1 h2 (m : mask B) i j k : n0 mod 2 = 1 -> 5 <= n0 -> n0 / 2 < i < n0 -> j < n1 -> j <= n1 / 2 -> k < h2 ->
  mirror_mask B n0 n1 h2 m i j k = m (freq n0 i - 1) j k.
Proof.
  intros H0 H5 Hi Hj J Hk. rewrite mirror_mask_get by (auto; lia). rewrite (fld_le n1 j) by auto. apply Nat.leb_le in J. rewrite J. unfold fld, parity, freq. destruct (div2 n0) as [D M].
  destruct (Nat.leb_spec 3 (n0 / 2 + 1)); [|lia]. destruct (Nat.ltb_spec (n0 / 2) i); [|lia]. cbn [andb]. f_equal. lia.
Qed.
Theorem C68_odd_refuted : exists n0 n1 h2 (m : mask bool), 5 <= n0 /\ n0 mod 2 = 1 /\ ~ symmetric n0 n1 h2 (mirror_mask bool n0 n1 h2 m).
Proof. exists 5, 1, 1, (fun i _ _ => i =? 0). split; [lia|]. split; [reflexivity|]. intros H. destruct (H 1 0 0) as [A _]; [lia|lia|lia|]. vm_compute in A. discriminate. Qed.
(** A dimension of 3: the third row is never written. *)
Theorem C68_three_refuted (B : Type) h2 (m : mask B) n1 j k : j < n1 -> j <= n1 / 2 -> k < h2 -> mirror_mask B 3 n1 h2 m 2 j k = m 2 j k.
Proof. intros Hj J Hk. rewrite mirror_mask_get by (auto; lia). rewrite (fld_le n1 j) by auto. replace (fld 3 2) with 2 by reflexivity. now destruct (_ <=? _). Qed.
Theorem C68_three_band_refuted : exists n0 n1 h2 kmin kmax, n0 = 3 /\ let m := make_band_pass n0 n1 h2 kmin kmax (fun _ _ _ => false) in m 1 0 0 = true /\ m 2 0 0 = false.
Proof. exists 3, 1, 1, (fun _ _ => 0), (fun _ _ => 1). split; [reflexivity|]. cbv zeta. split; reflexivity. Qed.
Example C68_witness : let m := make_band_pass 4 6 2 (fun _ _ => 0) (fun i j => 2 - i - j) (fun _ _ _ => false) in map (fun i => map (fun j => m i j 0) (seq 0 6)) (seq 0 4) =
  [[true; true; false; false; false; true]; [true; false; false; false; false; false]; [false; false; false; false; false; false]; [true; false; false; false; false; false]].
Proof. reflexivity. Qed.

Print Assumptions C67_fill.
Print Assumptions C67_fill_uchar.
Print Assumptions C67_mean_refuted.
Print Assumptions C67_short.
Print Assumptions C67_slice.
Print Assumptions C67_unpad.
Print Assumptions C67_unpad_twice.
Print Assumptions C67_round_trip.
Print Assumptions C67_copy.
Print Assumptions C68_even.
Print Assumptions C68_symmetric.
Print Assumptions C68_kept.
Print Assumptions C68_band_pass.
Print Assumptions C68_odd.
Print Assumptions C68_odd_refuted.
Print Assumptions C68_three_refuted.
Print Assumptions C68_three_band_refuted.
Print Assumptions C68_outside.

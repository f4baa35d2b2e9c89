(** C69: pixel centres of the tracker. *)
Require Import List Bool Arith Lia.
Require Import Verif.Base Verif.ListX Verif.Traj_Model Verif.Particles_Model Verif.RTree_Model Verif.Boo_Model Verif.Corr_Model Verif.Pyramid_Model Verif.Pyramid_Proofs Verif.Tracker_Spec Verif.Peaks_Model Verif.Peaks_Spec Verif.Peaks_Proofs.
Import ListNotations.

Definition at_flat {V} (n1 n2 : nat) (img : nat -> nat -> nat -> V) (p : nat) : V := img (p / n2 / n1) (p / n2 mod n1) (p mod n2).
Section Link.
Variables (V : Type) (above : V -> bool) (lt : V -> V -> bool) (n0 n1 n2 : nat) (data : list V) (img : nat -> nat -> nat -> V).
Hypothesis Himg : is_image n0 n1 n2 data img.
Notation D := (at_flat n1 n2 img).
Lemma D_idx i j k : j < n1 -> k < n2 -> D (idx n1 n2 i j k) = img i j k.
Proof.
  intros Hj Hk. unfold at_flat, idx. assert (E1 : ((i * n1 + j) * n2 + k) / n2 = i * n1 + j). { rewrite Nat.div_add_l by lia. rewrite Nat.div_small by auto. lia. }
  rewrite E1. assert (E2 : ((i * n1 + j) * n2 + k) mod n2 = k). { rewrite Nat.add_comm, Nat.mod_add by lia. apply Nat.mod_small. auto. } rewrite E2.
  rewrite Nat.div_add_l by lia. rewrite Nat.div_small, Nat.add_0_r by auto. rewrite Nat.add_comm, Nat.mod_add by lia. rewrite Nat.mod_small by auto. auto.
Qed.
Lemma HD p : p < elements n0 n1 n2 -> nth_error data p = Some (D p).
Proof. intros H. destruct (idx_ex n0 n1 n2 p H) as (i & j & k & Hi & Hj & Hk & ->). rewrite D_idx by auto. apply Himg; auto. Qed.
Lemma marked_nth m i j k : length m = elements n0 n1 n2 -> marked n0 n1 n2 m i j k <-> i < n0 /\ j < n1 /\ k < n2 /\ nth (idx n1 n2 i j k) m false = true.
Proof.
  intros L. unfold marked, flat_pixel. fold (idx n1 n2 i j k). split; intros (Hi & Hj & Hk & H); repeat split; auto.
  - now apply nth_error_nth.
  - rewrite <- H. apply nth_error_nth'. rewrite L. apply idx_bound; auto.
Qed.
Lemma step0 i j k : idx n1 n2 (S i) j k = idx n1 n2 i j k + n1 * n2.
Proof. rewrite !idx_flat. lia. Qed.
Lemma step1 i j k : idx n1 n2 i (S j) k = idx n1 n2 i j k + n2.
Proof. rewrite !idx_flat. lia. Qed.
Lemma step2 i j k : idx n1 n2 i j (S k) = idx n1 n2 i j k + 1.
Proof. rewrite !idx_flat. lia. Qed.
Lemma next_stride i j k i' j' k' : next n0 n1 n2 i j k i' j' k' -> exists s, In s (strides n0 n1 n2) /\ idx n1 n2 i' j' k' = idx n1 n2 i j k + s.
Proof.
  intros H. destruct H as [i j k L|i j k L|i j k L]; unfold large in L; apply thick_iff in L.
  - exists (n1 * n2). split; [|apply step0]. unfold strides. rewrite L, !in_app_iff. cbn. auto.
  - exists n2. split; [|apply step1]. unfold strides. rewrite L, !in_app_iff. cbn. auto.
  - exists 1. split; [|apply step2]. unfold strides. rewrite L, !in_app_iff. cbn. auto.
Qed.
Lemma stride_next i j k s : interior n0 n1 n2 i j k -> i < n0 -> j < n1 -> k < n2 -> In s (strides n0 n1 n2) -> exists i' j' k', i' < n0 /\ j' < n1 /\ k' < n2 /\ next n0 n1 n2 i j k i' j' k' /\ idx n1 n2 i' j' k' = idx n1 n2 i j k + s.
Proof.
  intros (A0 & A1 & A2) Hi Hj Hk H. unfold away, large in *. destruct (stride_in n0 n1 n2 s H) as [[T ->]|[[T ->]|[T ->]]]; apply thick_iff in T.
  - exists (S i), j, k. specialize (A0 T). repeat split; try lia. { now constructor. } apply step0.
  - exists i, (S j), k. specialize (A1 T). repeat split; try lia. { now constructor. } apply step1.
  - exists i, j, (S k). specialize (A2 T). repeat split; try lia. { now constructor. } apply step2.
Qed.
Lemma stride_prev i j k s : interior n0 n1 n2 i j k -> i < n0 -> j < n1 -> k < n2 -> In s (strides n0 n1 n2) -> exists i' j' k', i' < n0 /\ j' < n1 /\ k' < n2 /\ next n0 n1 n2 i' j' k' i j k /\ idx n1 n2 i' j' k' = idx n1 n2 i j k - s.
Proof.
  intros (A0 & A1 & A2) Hi Hj Hk H. unfold away, large in *. destruct (stride_in n0 n1 n2 s H) as [[T ->]|[[T ->]|[T ->]]]; apply thick_iff in T.
  - destruct i as [|i]; [lia|]. exists i, j, k. repeat split; try lia. { now constructor. } rewrite step0. lia.
  - destruct j as [|j]; [lia|]. exists i, j, k. repeat split; try lia. { now constructor. } rewrite step1. lia.
  - destruct k as [|k]; [lia|]. exists i, j, k. repeat split; try lia. { now constructor. } rewrite step2. lia.
Qed.
Hypothesis pos : 0 < n0 /\ 0 < n1 /\ 0 < n2.
Variable m : list bool.
Hypothesis Lm : length m = elements n0 n1 n2.
Hypothesis Hm : forall i j k, marked n0 n1 n2 m i j k -> interior n0 n1 n2 i j k.
Variable m' : list bool.
Hypothesis Run : find_pixel_centers V above lt n0 n1 n2 data m = Val m'.
Lemma outside q : q < offset n0 n1 n2 \/ elements n0 n1 n2 - offset n0 n1 n2 <= q -> nth q m false = false.
Proof.
  intros H. destruct (Nat.lt_ge_cases q (elements n0 n1 n2)) as [L|L]; [|apply nth_overflow; lia]. destruct (nth q m false) eqn:E; auto. exfalso.
  destruct (idx_ex n0 n1 n2 q L) as (i & j & k & Hi & Hj & Hk & ->). assert (I : interior n0 n1 n2 i j k) by (apply Hm, marked_nth; auto). apply interior_range in I; auto. lia.
Qed.
Lemma facts : exists m1, length m1 = elements n0 n1 n2 /\ length m' = elements n0 n1 n2 /\
  (forall q, q < offset n0 n1 n2 \/ elements n0 n1 n2 - offset n0 n1 n2 <= q -> nth q m1 false = false) /\
  (forall q, offset n0 n1 n2 <= q < elements n0 n1 n2 - offset n0 n1 n2 -> nth q m1 false = decide V above lt n0 n1 n2 D m1 q) /\
  (forall i j k, marked n0 n1 n2 m' i j k <-> i < n0 /\ j < n1 /\ k < n2 /\ nth (idx n1 n2 i j k) m1 false = true /\ interior n0 n1 n2 i j k).
Proof.
  destruct (find_ok V above lt n0 n1 n2 data D HD pos m Lm) as (m1 & m2 & E & L1 & L2 & A & B & C). rewrite Run in E. injection E as <-.
  assert (Z : forall q, q < offset n0 n1 n2 \/ elements n0 n1 n2 - offset n0 n1 n2 <= q -> nth q m1 false = false) by (intros q Hq; rewrite A by auto; apply outside; auto).
  exists m1. split; auto. split; auto. split; auto. split; auto. intros i j k. rewrite marked_nth by auto. split.
  - intros (Hi & Hj & Hk & H). apply C in H; auto. destruct H as (H & A1 & A2). split; auto. split; auto. split; auto. split; auto. split; [|split; auto].
    destruct (Nat.lt_ge_cases (idx n1 n2 i j k) (offset n0 n1 n2)); [rewrite Z in H by auto; discriminate|]. destruct (Nat.lt_ge_cases (idx n1 n2 i j k) (elements n0 n1 n2 - offset n0 n1 n2)); [|rewrite Z in H by auto; discriminate]. eapply range_away0; eauto.
  - intros (Hi & Hj & Hk & H & I0 & I1 & I2). repeat split; auto. apply C; auto.
Qed.
End Link.

(** On any image of positive dimensions the search reads and writes only inside the image and the map. *)
Theorem C69_total (V : Type) (above : V -> bool) (lt : V -> V -> bool) n0 n1 n2 (data : list V) img m : 0 < n0 /\ 0 < n1 /\ 0 < n2 -> is_image n0 n1 n2 data img -> length m = n0 * n1 * n2 ->
  exists m', find_pixel_centers V above lt n0 n1 n2 data m = Val m' /\ length m' = length m.
Proof. intros P HI L. destruct (find_ok V above lt n0 n1 n2 data _ (HD V n0 n1 n2 data img HI) P m L) as (m1 & m' & E & _ & L' & _). exists m'. split; auto. rewrite L. auto. Qed.

(** Every centre is at least 6 pixels from the borders of the large dimensions, not below the threshold, and no adjacent pixel is brighter.
    The hypothesis on the previous map is met by the blank map and by the result of a previous search. *)
Theorem C69_marked (V : Type) (above : V -> bool) (lt : V -> V -> bool) n0 n1 n2 (data : list V) img m m' i j k : 0 < n0 /\ 0 < n1 /\ 0 < n2 -> is_image n0 n1 n2 data img -> length m = n0 * n1 * n2 ->
  (forall i j k, marked n0 n1 n2 m i j k -> interior n0 n1 n2 i j k) -> find_pixel_centers V above lt n0 n1 n2 data m = Val m' -> marked n0 n1 n2 m' i j k ->
  interior n0 n1 n2 i j k /\ above (img i j k) = true /\ forall i' j' k', adjacent n0 n1 n2 i j k i' j' k' -> lt (img i j k) (img i' j' k') = false.
Proof.
  intros P HI L Hm R M. destruct (facts V above lt n0 n1 n2 data img HI P m L Hm m' R) as (m1 & L1 & L2 & Z & B & C). apply C in M. destruct M as (Hi & Hj & Hk & M & I). split; auto.
  assert (Rg := interior_range n0 n1 n2 P i j k Hi Hj Hk I). rewrite B in M by auto. unfold decide in M. apply andb_true_iff in M. destruct M as [M _]. apply andb_true_iff in M. destruct M as [M1 M2]. rewrite D_idx in M1 by auto. split; auto.
  apply negb_true_iff in M2. intros i' j' k' Ad. destruct (lt (img i j k) (img i' j' k')) eqn:E; auto. exfalso. rewrite <- not_true_iff_false in M2. apply M2. apply existsb_exists.
  destruct I as (I0 & I1 & I2). unfold away, large in I0, I1, I2.
  assert (Hb : j' < n1 /\ k' < n2) by (destruct Ad as [Ad|Ad]; inversion Ad; subst; unfold large in *; lia).
  destruct Ad as [Ad|Ad]; destruct (next_stride n0 n1 n2 _ _ _ _ _ _ Ad) as (s & Hs & Es); exists s; split; auto; apply orb_true_iff; [right; rewrite <- Es|left; replace (idx n1 n2 i j k - s) with (idx n1 n2 i' j' k') by lia]; rewrite !D_idx by tauto; auto.
Qed.
(** No two adjacent pixels are centres. *)
Theorem C69_apart (V : Type) (above : V -> bool) (lt : V -> V -> bool) n0 n1 n2 (data : list V) img m m' i j k i' j' k' : 0 < n0 /\ 0 < n1 /\ 0 < n2 -> is_image n0 n1 n2 data img -> length m = n0 * n1 * n2 ->
  (forall i j k, marked n0 n1 n2 m i j k -> interior n0 n1 n2 i j k) -> find_pixel_centers V above lt n0 n1 n2 data m = Val m' -> adjacent n0 n1 n2 i j k i' j' k' -> ~ (marked n0 n1 n2 m' i j k /\ marked n0 n1 n2 m' i' j' k').
Proof.
  intros P HI L Hm R Ad [M M']. destruct (facts V above lt n0 n1 n2 data img HI P m L Hm m' R) as (m1 & L1 & L2 & Z & B & C). apply C in M, M'. destruct M as (Hi & Hj & Hk & M & I). destruct M' as (Hi' & Hj' & Hk' & M' & I').
  assert (G : forall i j k i' j' k', i' < n0 -> j' < n1 -> k' < n2 -> next n0 n1 n2 i j k i' j' k' -> interior n0 n1 n2 i' j' k' -> nth (idx n1 n2 i j k) m1 false = true -> nth (idx n1 n2 i' j' k') m1 false = true -> False).
  { clear -B P. intros i j k i' j' k' Hi' Hj' Hk' Nx I' M M'. assert (Rg := interior_range n0 n1 n2 P i' j' k' Hi' Hj' Hk' I'). rewrite B in M' by auto. unfold decide in M'. apply andb_true_iff in M'. destruct M' as [_ M']. apply negb_true_iff in M'. rewrite <- not_true_iff_false in M'. apply M'. apply existsb_exists.
    destruct (next_stride n0 n1 n2 _ _ _ _ _ _ Nx) as (s & Hs & Es). exists s. split; auto. replace (idx n1 n2 i' j' k' - s) with (idx n1 n2 i j k) by lia. auto. }
  destruct Ad as [Ad|Ad]; [apply (G i j k i' j' k')|apply (G i' j' k' i j k)]; auto.
Qed.
(** Every interior pixel not below the threshold and brighter than all adjacent pixels is a centre. *)
Theorem C69_found (V : Type) (above : V -> bool) (lt : V -> V -> bool) n0 n1 n2 (data : list V) img m m' i j k : (forall x y, lt x y = true -> lt y x = false) -> 0 < n0 /\ 0 < n1 /\ 0 < n2 -> is_image n0 n1 n2 data img -> length m = n0 * n1 * n2 ->
  (forall i j k, marked n0 n1 n2 m i j k -> interior n0 n1 n2 i j k) -> find_pixel_centers V above lt n0 n1 n2 data m = Val m' ->
  i < n0 -> j < n1 -> k < n2 -> interior n0 n1 n2 i j k -> above (img i j k) = true -> (forall i' j' k', adjacent n0 n1 n2 i j k i' j' k' -> lt (img i' j' k') (img i j k) = true) -> marked n0 n1 n2 m' i j k.
Proof.
  intros As P HI L Hm R Hi Hj Hk I Ab St. destruct (facts V above lt n0 n1 n2 data img HI P m L Hm m' R) as (m1 & L1 & L2 & Z & B & C). apply C. repeat (split; [assumption|]). split; auto.
  assert (Rg := interior_range n0 n1 n2 P i j k Hi Hj Hk I). rewrite B by auto. unfold decide. rewrite D_idx by auto. rewrite Ab. cbn [andb]. apply andb_true_iff. split.
  - apply negb_true_iff. apply not_true_iff_false. intros E. apply existsb_exists in E. destruct E as (s & Hs & E). apply orb_true_iff in E. destruct E as [E|E].
    + destruct (stride_prev n0 n1 n2 i j k s I Hi Hj Hk Hs) as (i' & j' & k' & Hi' & Hj' & Hk' & Nx & Es). rewrite <- Es, D_idx in E by auto. rewrite As in E; [discriminate|]. apply St. right. auto.
    + destruct (stride_next n0 n1 n2 i j k s I Hi Hj Hk Hs) as (i' & j' & k' & Hi' & Hj' & Hk' & Nx & Es). rewrite <- Es, D_idx in E by auto. rewrite As in E; [discriminate|]. apply St. left. auto.
  - apply negb_true_iff. apply not_true_iff_false. intros E. apply existsb_exists in E. destruct E as (s & Hs & E).
    destruct (stride_prev n0 n1 n2 i j k s I Hi Hj Hk Hs) as (i' & j' & k' & Hi' & Hj' & Hk' & Nx & Es). rewrite <- Es in E.
    destruct (Nat.lt_ge_cases (idx n1 n2 i' j' k') (offset n0 n1 n2)) as [Lo|Lo]. { rewrite Z in E by auto. discriminate. }
    rewrite B in E by lia. unfold decide in E. apply andb_true_iff in E. destruct E as [E _]. apply andb_true_iff in E. destruct E as [_ E]. apply negb_true_iff in E. rewrite <- not_true_iff_false in E. apply E. apply existsb_exists. exists s. split; auto.
    assert (S6 := stride_le n0 n1 n2 s Hs). rewrite Es. replace (idx n1 n2 i j k - s + s) with (idx n1 n2 i j k) by lia. rewrite <- Es, !D_idx by auto. rewrite orb_true_iff. right. apply St. right. auto.
Qed.
(** The result meets the hypothesis on the previous map, so that a map can be used for all the images of a series, starting blank. *)
Theorem C69_reuse (V : Type) (above : V -> bool) (lt : V -> V -> bool) n0 n1 n2 (images : list (list V)) : 0 < n0 /\ 0 < n1 /\ 0 < n2 -> Forall (fun data => exists img, is_image n0 n1 n2 data img) images ->
  exists m', ofold (fun data m => find_pixel_centers V above lt n0 n1 n2 data m) images (repeat false (n0 * n1 * n2)) = Val m' /\ length m' = n0 * n1 * n2 /\ forall i j k, marked n0 n1 n2 m' i j k -> interior n0 n1 n2 i j k.
Proof.
  intros P F. assert (B : forall i j k, marked n0 n1 n2 (repeat false (n0 * n1 * n2)) i j k -> interior n0 n1 n2 i j k).
  { intros i j k (_ & _ & _ & H). exfalso. apply nth_error_In, repeat_spec in H. discriminate. }
  assert (L := repeat_length false (n0 * n1 * n2)). revert L B. generalize (repeat false (n0 * n1 * n2)) as m. induction F as [|data l [img HI] F IH]; intros m L B; cbn [ofold]. { exists m. auto. }
  destruct (C69_total V above lt n0 n1 n2 data img m P HI L) as (m1 & E & L1). rewrite E. cbn [obind]. apply IH. { lia. } intros i j k M. apply (C69_marked V above lt n0 n1 n2 data img m m1 i j k P HI L B E M).
Qed.
(** Images smaller than 13 pixels in all dimensions: all pixels not below the threshold are centres, whatever their neighbours. *)
Theorem C69_small (V : Type) (above : V -> bool) (lt : V -> V -> bool) n0 n1 n2 (data : list V) img m m' i j k : 0 < n0 < 13 /\ 0 < n1 < 13 /\ 0 < n2 < 13 -> is_image n0 n1 n2 data img -> length m = n0 * n1 * n2 ->
  find_pixel_centers V above lt n0 n1 n2 data m = Val m' -> i < n0 -> j < n1 -> k < n2 -> marked n0 n1 n2 m' i j k <-> above (img i j k) = true.
Proof.
  intros P HI L R Hi Hj Hk. assert (P' : 0 < n0 /\ 0 < n1 /\ 0 < n2) by lia.
  assert (Int : forall i j k, interior n0 n1 n2 i j k) by (intros a b c; unfold interior, away, large; lia).
  destruct (facts V above lt n0 n1 n2 data img HI P' m L (fun i j k _ => Int i j k) m' R) as (m1 & L1 & L2 & Z & B & C). rewrite C.
  assert (Rg := interior_range n0 n1 n2 P' i j k Hi Hj Hk (Int i j k)). rewrite B by auto. unfold decide. rewrite D_idx by auto.
  assert (S : strides n0 n1 n2 = []). { unfold strides, thick, margin. destruct (Nat.leb_spec (2 * 6 + 1) n0); [lia|]. destruct (Nat.leb_spec (2 * 6 + 1) n1); [lia|]. destruct (Nat.leb_spec (2 * 6 + 1) n2); [lia|]. auto. }
  rewrite S. cbn [existsb negb]. rewrite !andb_true_r. split; [tauto|]. intros A. split; [exact Hi|]. split; [exact Hj|]. split; [exact Hk|]. split; [exact A|apply Int].
Qed.
(** Refuted: a maximum made of several equal pixels can be missed entirely.  Here two equal bright pixels on a black image, one inside and one in the margin. *)
Definition plateau : list nat := map (fun p => if (p =? 7 * 14 + 5) || (p =? 7 * 14 + 6) then 9 else 0) (seq 0 (14 * 14)).
Theorem C69_plateau_refuted : is_image 1 14 14 plateau (fun _ j k => if (j =? 7) && ((k =? 5) || (k =? 6)) then 9 else 0) /\ interior 1 14 14 0 7 6 /\
  exists m', find_pixel_centers nat (fun x => 5 <=? x) Nat.ltb 1 14 14 plateau (repeat false 196) = Val m' /\ forall i j k, ~ marked 1 14 14 m' i j k.
Proof.
  split; [|split].
  - intros i j k Hi Hj Hk. unfold plateau, flat_pixel. assert (i = 0) by lia. subst i. cbn [Nat.mul plus]. rewrite (map_nth_error _ (j * 14 + k)) with (d := j * 14 + k).
    + f_equal. destruct (Nat.eqb_spec j 7); destruct (Nat.eqb_spec k 5); destruct (Nat.eqb_spec k 6); destruct (Nat.eqb_spec (j * 14 + k) 103); destruct (Nat.eqb_spec (j * 14 + k) 104); cbn [andb orb]; auto; lia.
    + rewrite nth_error_nth' with (d := 0) by (rewrite seq_length; lia). rewrite seq_nth by lia. auto.
  - unfold interior, away, large. lia.
  - eexists. split; [vm_compute; reflexivity|]. intros i j k (_ & _ & _ & H). apply nth_error_In in H. cbn [In] in H. repeat (destruct H as [H|H]; [discriminate|]). auto.
Qed.
(** The window read around a centre to refine it is inside the image, and read in order, when no dimension has 5 to 12 pixels. *)
Theorem C69_window (V : Type) (above : V -> bool) (lt : V -> V -> bool) n0 n1 n2 (data : list V) img m m' i j k : 0 < n0 /\ 0 < n1 /\ 0 < n2 -> is_image n0 n1 n2 data img -> length m = n0 * n1 * n2 ->
  (forall i j k, marked n0 n1 n2 m i j k -> interior n0 n1 n2 i j k) -> find_pixel_centers V above lt n0 n1 n2 data m = Val m' -> marked n0 n1 n2 m' i j k ->
  ~ 5 <= n0 <= 12 -> ~ 5 <= n1 <= 12 -> ~ 5 <= n2 <= 12 -> window_inside n0 i /\ window_inside n1 j /\ window_inside n2 k /\ exists l, neighbourhood V n0 n1 n2 data ((i * n1 + j) * n2 + k) = Val l /\ In (img i j k) l.
Proof.
  intros P HI L Hm R M W0 W1 W2. destruct (C69_marked V above lt n0 n1 n2 data img m m' i j k P HI L Hm R M) as ((I0 & I1 & I2) & _ & _). destruct M as (Hi & Hj & Hk & _). unfold away, large in I0, I1, I2.
  assert (X0 : window_inside n0 i) by (unfold window_inside; lia). assert (X1 : window_inside n1 j) by (unfold window_inside; lia). assert (X2 : window_inside n2 k) by (unfold window_inside; lia). split; auto. split; auto. split; auto.
  assert (G : forall n x, x < n -> window_inside n x -> exists l, range n x = Val l /\ In x l /\ forall y, In y l -> y < n).
  { clear. intros n x Hx W. unfold window_inside in W. unfold range, scope. destruct (Nat.ltb_spec n (2 * 2 + 1)). { exists (seq 0 n). split; auto. split; [apply in_seq; lia|]. intros y. rewrite in_seq. lia. }
    destruct (Nat.ltb_spec x 2); [lia|]. destruct (Nat.ltb_spec n (x + 2 + 1)); [lia|]. cbn [orb]. eexists. split; [reflexivity|]. split; [apply in_seq; lia|]. intros y. rewrite in_seq. lia. }
  destruct (G n0 i Hi X0) as (l0 & E0 & J0 & B0). destruct (G n1 j Hj X1) as (l1 & E1 & J1 & B1). destruct (G n2 k Hk X2) as (l2 & E2 & J2 & B2).
  assert (C : ((i * n1 + j) * n2 + k) / (n1 * n2) = i /\ ((i * n1 + j) * n2 + k) mod (n1 * n2) = j * n2 + k).
  { assert (J : j * n2 + k < n1 * n2). { assert ((j + 1) * n2 <= n1 * n2) by (apply Nat.mul_le_mono_r; lia). lia. } replace ((i * n1 + j) * n2 + k) with (n1 * n2 * i + (j * n2 + k)) by lia. split; symmetry; [apply Nat.div_unique with (r := j * n2 + k)|apply Nat.mod_unique with (q := i)]; auto. }
  destruct C as [C0 C1]. assert (C2 : (j * n2 + k) / n2 = j /\ (j * n2 + k) mod n2 = k). { replace (j * n2 + k) with (n2 * j + k) by lia. split; symmetry; [apply Nat.div_unique with (r := k)|apply Nat.mod_unique with (q := j)]; auto. } destruct C2 as [C2 C3].
  unfold neighbourhood. rewrite C0, C1, C2, C3, E0, E1, E2. cbn [obind]. set (ad := flat_map _ l0).
  assert (HA : forall p, In p ad -> exists a b c, a < n0 /\ b < n1 /\ c < n2 /\ p = (a * n1 + b) * n2 + c /\ at_index data p = Val (img a b c)).
  { intros p Hp. unfold ad in Hp. apply in_flat_map in Hp. destruct Hp as (a & Ha & Hp). apply in_flat_map in Hp. destruct Hp as (b & Hb & Hp). apply in_map_iff in Hp. destruct Hp as (c & <- & Hc). exists a, b, c. specialize (B0 a Ha). specialize (B1 b Hb). specialize (B2 c Hc). repeat split; auto; try lia.
    assert (Q := HI a b c B0 B1 B2). unfold flat_pixel in Q. unfold at_index. replace (a * (n1 * n2) + b * n2 + c) with ((a * n1 + b) * n2 + c) by lia. rewrite Q. auto. }
  assert (HO : forall l, (forall p, In p l -> exists a b c, a < n0 /\ b < n1 /\ c < n2 /\ p = (a * n1 + b) * n2 + c /\ at_index data p = Val (img a b c)) -> exists r, osequence (map (fun p => at_index data p) l) = Val r /\ forall p x, In p l -> at_index data p = Val x -> In x r).
  { clear. induction l as [|p l IH]; intros H; cbn [map osequence]. { exists []. split; auto. } destruct (H p (or_introl eq_refl)) as (a & b & c & _ & _ & _ & _ & E). destruct IH as (r & Er & Ir). { intros; apply H; right; auto. }
    rewrite E. cbn [obind]. rewrite Er. cbn [obind omap]. eexists. split; [reflexivity|]. intros q x [<-|Iq] Ex; [left; congruence|right; eapply Ir; eauto]. }
  destruct (HO ad HA) as (r & Er & Ir). exists r. split; auto. apply (Ir ((i * n1 + j) * n2 + k)).
  - unfold ad. apply in_flat_map. exists i. split; auto. apply in_flat_map. exists j. split; auto. apply in_map_iff. exists k. split; auto. lia.
  - unfold at_index. assert (Q := HI i j k Hi Hj Hk). unfold flat_pixel in Q. rewrite Q. auto.
Qed.
(** Refuted: with a dimension of 5 to 12 pixels, the window around a centre can be out of the image. *)
Theorem C69_window_refuted : exists n0 n1 n2 (data : list nat) m', 5 <= n2 <= 12 /\ find_pixel_centers nat (fun x => 5 <=? x) Nat.ltb n0 n1 n2 data (repeat false (n0 * n1 * n2)) = Val m' /\ marked n0 n1 n2 m' 0 0 0 /\ neighbourhood nat n0 n1 n2 data 0 = UB.
Proof. exists 1, 1, 5, [9; 0; 0; 0; 0], [true; false; false; false; false]. repeat split; auto; lia. Qed.

(** A 14 x 14 image with one bright spot and a plateau of two pixels inside. *)
Definition spots : list nat := map (fun p => if (p =? 7 * 14 + 7) || (p =? 6 * 14 + 7) then 9 else if p =? 0 then 20 else 0) (seq 0 (14 * 14)).
Example C69_witness : exists m', find_pixel_centers nat (fun x => 5 <=? x) Nat.ltb 1 14 14 spots (repeat false 196) = Val m' /\ flat_positions m' = [6 * 14 + 7].
Proof. eexists. split; [vm_compute; reflexivity|]. vm_compute. reflexivity. Qed.

Print Assumptions C69_total.
Print Assumptions C69_marked.
Print Assumptions C69_apart.
Print Assumptions C69_found.
Print Assumptions C69_reuse.
Print Assumptions C69_small.
Print Assumptions C69_plateau_refuted.
Print Assumptions C69_window.
Print Assumptions C69_window_refuted.

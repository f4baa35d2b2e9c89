(** Proofs about pixel centres. *)
Require Import List Bool Arith Lia.
Require Import Verif.Base Verif.ListX Verif.Traj_Model Verif.Particles_Model Verif.RTree_Model Verif.Boo_Model Verif.Corr_Model Verif.Pyramid_Model Verif.Pyramid_Proofs Verif.Tracker_Spec Verif.Peaks_Model Verif.Peaks_Spec.
Import ListNotations.

Lemma any_o_ok {A} (f : A -> outcome bool) (g : A -> bool) l : (forall x, In x l -> f x = Val (g x)) -> any_o f l = Val (existsb g l).
Proof. induction l as [|x l IH]; intros H; cbn [any_o existsb]; auto. rewrite H by (left; auto). cbn [obind]. destruct (g x); cbn [orb]; auto. apply IH. intros; apply H; right; auto. Qed.
Lemma at_nth {A} (l : list A) p d : p < length l -> at_index l p = Val (nth p l d).
Proof. intros H. unfold at_index. rewrite (nth_error_nth' l d H). auto. Qed.
Lemma nth_set {A} p (x : A) l q d : p < length l -> nth q (RTree_Model.set_nth p x l) d = if q =? p then x else nth q l d.
Proof.
  intros H. destruct (Nat.lt_ge_cases q (length l)) as [L|L].
  - apply nth_error_nth. rewrite set_nth_get by auto. destruct (q =? p); auto. apply nth_error_nth'. auto.
  - destruct (Nat.eqb_spec q p); [lia|]. rewrite !nth_overflow; auto. rewrite set_nth_len. auto.
Qed.
Lemma write_val {A} p (x : A) m : p < length m -> write p x m = Val (RTree_Model.set_nth p x m).
Proof. intros H. unfold write. destruct (Nat.ltb_spec p (length m)); [auto|lia]. Qed.

Lemma clear_ok : forall l m, Forall (fun p => p < length m) l -> exists m', clear l m = Val m' /\ length m' = length m /\ forall q, nth q m' false = if existsb (Nat.eqb q) l then false else nth q m false.
Proof.
  unfold clear. induction l as [|p l IH]; intros m H; cbn [ofold existsb]. { exists m. auto. }
  inversion H as [|a b Hp Hl]; subst. rewrite write_val by auto. cbn [obind]. destruct (IH (RTree_Model.set_nth p false m)) as [m' (E & L & N)]. { rewrite set_nth_len. auto. }
  exists m'. split; auto. rewrite set_nth_len in L. split; auto. intros q. rewrite N, nth_set by auto. destruct (q =? p); cbn [orb]; auto. now destruct (existsb (Nat.eqb q) l).
Qed.

Section Centers.
Variables (V : Type) (above : V -> bool) (lt : V -> V -> bool) (n0 n1 n2 : nat).
Notation N := (elements n0 n1 n2).
Notation off := (offset n0 n1 n2).
Notation st := (strides n0 n1 n2).
Variables (data : list V) (D : nat -> V).
Hypothesis HD : forall p, p < N -> nth_error data p = Some (D p).

Definition decide (m : list bool) (p : nat) : bool :=
  above (D p) && negb (existsb (fun s => lt (D p) (D (p - s)) || lt (D p) (D (p + s))) st) && negb (existsb (fun s => nth (p - s) m false) st).

Lemma offset_eq : off = 6 * ((if thick n0 then n1 * n2 else 0) + (if thick n1 then n2 else 0) + (if thick n2 then 1 else 0)).
Proof. unfold offset, strides, margin. destruct (thick n0), (thick n1), (thick n2); cbn [app fold_left]; lia. Qed.
Lemma stride_in s : In s st -> (thick n0 = true /\ s = n1 * n2) \/ (thick n1 = true /\ s = n2) \/ (thick n2 = true /\ s = 1).
Proof. unfold strides. rewrite !in_app_iff. destruct (thick n0), (thick n1), (thick n2); cbn; intuition auto. Qed.
Lemma stride_le s : In s st -> 6 * s <= off.
Proof. intros H. rewrite offset_eq. destruct (stride_in s H) as [[T ->]|[[T ->]|[T ->]]]; rewrite T; lia. Qed.
Lemma thick_iff n : thick n = true <-> 13 <= n.
Proof. unfold thick, margin. rewrite Nat.leb_le. lia. Qed.
Hypothesis pos : 0 < n0 /\ 0 < n1 /\ 0 < n2.
Lemma stride_pos s : In s st -> 0 < s.
Proof. intros H. destruct (stride_in s H) as [[T ->]|[[T ->]|[T ->]]]; lia. Qed.
Lemma offset_bound : 2 * off <= N.
Proof.
  rewrite offset_eq. unfold elements.
  assert (A : (if thick n0 then 12 * (n1 * n2) else 0) + n1 * n2 <= n0 * (n1 * n2)). { destruct (thick n0) eqn:T. - apply thick_iff in T. assert (13 * (n1 * n2) <= n0 * (n1 * n2)) by (apply Nat.mul_le_mono_r; lia). lia. - assert (1 * (n1 * n2) <= n0 * (n1 * n2)) by (apply Nat.mul_le_mono_r; lia). lia. }
  assert (B : (if thick n1 then 12 * n2 else 0) + n2 <= n1 * n2). { destruct (thick n1) eqn:T. - apply thick_iff in T. assert (13 * n2 <= n1 * n2) by (apply Nat.mul_le_mono_r; lia). lia. - assert (1 * n2 <= n1 * n2) by (apply Nat.mul_le_mono_r; lia). lia. }
  assert (C : (if thick n2 then 12 else 0) <= n2). { destruct (thick n2) eqn:T; [apply thick_iff in T|]; lia. }
  rewrite <- Nat.mul_assoc. destruct (thick n0), (thick n1), (thick n2); lia.
Qed.

Lemma is_center_ok m p : length m = N -> off <= p < N - off -> is_center V above lt n0 n1 n2 data m p = Val (decide m p).
Proof.
  intros L Hp. unfold is_center, decide. unfold at_index at 1. rewrite HD by lia. cbn [obind]. destruct (above (D p)); cbn [andb]; auto.
  rewrite (any_o_ok _ (fun s => lt (D p) (D (p - s)) || lt (D p) (D (p + s)))).
  - cbn [obind]. destruct (existsb _ st); cbn [negb andb]; auto. rewrite (any_o_ok _ (fun s => nth (p - s) m false)); auto.
    intros s Hs. assert (B := stride_le s Hs). unfold back. destruct (Nat.ltb_spec p s); [lia|]. apply at_nth. lia.
  - intros s Hs. assert (B := stride_le s Hs). unfold back, forth. destruct (Nat.ltb_spec p s); [lia|]. unfold at_index. rewrite !HD by lia. cbn [obind omap]. destruct (lt (D p) (D (p - s))); auto.
Qed.
Lemma decide_ext m m' p : (forall q, q < p -> nth q m false = nth q m' false) -> off <= p -> decide m p = decide m' p.
Proof.
  intros H Hp. unfold decide. f_equal. f_equal. assert (G : forall l, (forall s, In s l -> In s st) -> existsb (fun s => nth (p - s) m false) l = existsb (fun s => nth (p - s) m' false) l).
  { induction l as [|s l IH]; intros I; cbn [existsb]; auto. rewrite IH by (intros; apply I; right; auto). f_equal. apply H. assert (A := stride_pos s (I s (or_introl eq_refl))). assert (B := stride_le s (I s (or_introl eq_refl))). lia. }
  apply G. auto.
Qed.
Lemma scan_ok m : length m = N -> exists m1, scan V above lt n0 n1 n2 data m = Val m1 /\ length m1 = N /\ (forall q, q < off \/ N - off <= q -> nth q m1 false = nth q m false) /\ (forall q, off <= q < N - off -> nth q m1 false = decide m1 q).
Proof.
  intros L. assert (B := offset_bound). unfold scan. destruct (Nat.ltb_spec N (2 * off)); [lia|].
  destruct (ofold_seq_inv (fun p w => length w = N /\ (forall q, q < off \/ p <= q -> nth q w false = nth q m false) /\ (forall q, off <= q < p -> nth q w false = decide w q))
    (fun p m => obind (is_center V above lt n0 n1 n2 data m p) (fun b => write p b m)) (N - 2 * off) off m) as [m1 (E & L1 & A1 & A2)].
  - split; auto. split; auto. intros; lia.
  - intros p w Hp (Lw & B1 & B2). rewrite is_center_ok by (auto; lia). cbn [obind]. rewrite write_val by lia. eexists. split; [reflexivity|]. rewrite set_nth_len. split; auto.
    split.
    + intros q Hq. rewrite nth_set by lia. destruct (Nat.eqb_spec q p); [lia|]. apply B1. lia.
    + intros q Hq. rewrite nth_set by lia. destruct (Nat.eqb_spec q p) as [->|Nq].
      * apply decide_ext; [|lia]. intros r Hr. rewrite nth_set by lia. destruct (Nat.eqb_spec r p); [lia|auto].
      * rewrite B2 by lia. apply decide_ext; [|lia]. intros r Hr. rewrite nth_set by lia. destruct (Nat.eqb_spec r p); [lia|auto].
  - exists m1. replace (off + (N - 2 * off)) with (N - off) in * by lia. auto.
Qed.
End Centers.

Lemma existsb_eqb q l : existsb (Nat.eqb q) l = true <-> In q l.
Proof. rewrite existsb_exists. split. { intros (x & I & E). apply Nat.eqb_eq in E. now subst. } intros I. exists q. now rewrite Nat.eqb_refl. Qed.
(** Coordinates. *)
Section Coord.
Variables n0 n1 n2 : nat.
Definition idx (i j k : nat) : nat := (i * n1 + j) * n2 + k.
Lemma idx_flat i j k : idx i j k = i * (n1 * n2) + j * n2 + k.
Proof. unfold idx. lia. Qed.
Lemma idx_bound i j k : i < n0 -> j < n1 -> k < n2 -> idx i j k < elements n0 n1 n2.
Proof. intros Hi Hj Hk. unfold idx, elements. assert (i * n1 + j < n0 * n1). { assert ((i + 1) * n1 <= n0 * n1) by (apply Nat.mul_le_mono_r; lia). lia. } assert ((i * n1 + j + 1) * n2 <= (n0 * n1) * n2) by (apply Nat.mul_le_mono_r; lia). lia. Qed.
Lemma idx_eq i j k i' j' k' : j < n1 -> k < n2 -> j' < n1 -> k' < n2 -> idx i j k = idx i' j' k' -> i = i' /\ j = j' /\ k = k'.
Proof.
  unfold idx. intros Hj Hk Hj' Hk' E. assert (A : i * n1 + j = i' * n1 + j' /\ k = k'). { rewrite (Nat.mul_comm _ n2), (Nat.mul_comm (i' * n1 + j') n2) in E. apply Nat.div_mod_unique in E; auto. }
  destruct A as [A ->]. rewrite (Nat.mul_comm i n1), (Nat.mul_comm i' n1) in A. apply Nat.div_mod_unique in A; auto. tauto.
Qed.
Lemma idx_ex p : p < elements n0 n1 n2 -> exists i j k, i < n0 /\ j < n1 /\ k < n2 /\ p = idx i j k.
Proof.
  unfold elements. intros H. assert (N2 : n2 <> 0) by (intros ->; lia). assert (N1 : n1 <> 0) by (intros ->; lia).
  exists (p / n2 / n1), (p / n2 mod n1), (p mod n2). split; [|split; [|split]].
  - apply Nat.div_lt_upper_bound; auto. apply Nat.div_lt_upper_bound; auto. lia.
  - apply Nat.mod_upper_bound. auto.
  - apply Nat.mod_upper_bound. auto.
  - unfold idx. assert (D1 := Nat.div_mod_eq p n2). assert (D2 := Nat.div_mod_eq (p / n2) n1). replace (p / n2 / n1 * n1 + p / n2 mod n1) with (p / n2) by lia. lia.
Qed.
Hypothesis pos : 0 < n0 /\ 0 < n1 /\ 0 < n2.

Lemma interior_range i j k : i < n0 -> j < n1 -> k < n2 -> interior n0 n1 n2 i j k -> offset n0 n1 n2 <= idx i j k < elements n0 n1 n2 - offset n0 n1 n2.
Proof.
  intros Hi Hj Hk (A0 & A1 & A2). rewrite offset_eq, idx_flat. unfold away, large in *.
  assert (B0 : thick n0 = true -> 6 <= i /\ i + 6 < n0) by (intros T; apply A0, thick_iff, T). assert (B1 : thick n1 = true -> 6 <= j /\ j + 6 < n1) by (intros T; apply A1, thick_iff, T). assert (B2 : thick n2 = true -> 6 <= k /\ k + 6 < n2) by (intros T; apply A2, thick_iff, T). clear A0 A1 A2.
  set (di := if thick n0 then 6 else 0). set (dj := if thick n1 then 6 else 0). set (dk := if thick n2 then 6 else 0).
  replace (6 * ((if thick n0 then n1 * n2 else 0) + (if thick n1 then n2 else 0) + (if thick n2 then 1 else 0))) with (di * (n1 * n2) + dj * n2 + dk) by (unfold di, dj, dk; destruct (thick n0), (thick n1), (thick n2); lia).
  assert (Hdi : di <= i /\ i + di < n0) by (unfold di; destruct (thick n0); [auto|lia]). assert (Hdj : dj <= j /\ j + dj < n1) by (unfold dj; destruct (thick n1); [auto|lia]). assert (Hdk : dk <= k /\ k + dk < n2) by (unfold dk; destruct (thick n2); [auto|lia]).
  clearbody di dj dk. split.
  - assert (di * (n1 * n2) <= i * (n1 * n2)) by (apply Nat.mul_le_mono_r; lia). assert (dj * n2 <= j * n2) by (apply Nat.mul_le_mono_r; lia). lia.
  - assert (X := idx_bound (i + di) (j + dj) (k + dk)). rewrite idx_flat, !Nat.mul_add_distr_r in X. lia.
Qed.
Lemma range_away0 i j k : i < n0 -> j < n1 -> k < n2 -> offset n0 n1 n2 <= idx i j k < elements n0 n1 n2 - offset n0 n1 n2 -> away n0 i.
Proof.
  intros Hi Hj Hk [A B] L. rewrite offset_eq in *. apply thick_iff in L. rewrite L in *. rewrite idx_flat in *. unfold elements in *.
  assert (J : j * n2 + k < n1 * n2). { assert ((j + 1) * n2 <= n1 * n2) by (apply Nat.mul_le_mono_r; lia). lia. } rewrite <- Nat.mul_assoc in B. set (W := n1 * n2) in *. clearbody W.
  split.
  - destruct (Nat.lt_ge_cases i 6); auto. exfalso. assert ((i + 1) * W <= 6 * W) by (apply Nat.mul_le_mono_r; lia). lia.
  - destruct (Nat.lt_ge_cases (i + 6) n0); auto. exfalso. assert (n0 * W <= (i + 6) * W) by (apply Nat.mul_le_mono_r; lia). lia.
Qed.


Lemma margin1_in i j k : i < n0 -> j < n1 -> k < n2 -> In (idx i j k) (margin1 n0 n1 n2) <-> ~ away n1 j.
Proof.
  intros Hi Hj Hk. unfold margin1, away, large, margin. destruct (thick n1) eqn:T.
  - apply thick_iff in T. rewrite in_flat_map. setoid_rewrite in_app_iff. setoid_rewrite in_seq. split.
    + intros (i' & Hi' & H) A. specialize (A T). rewrite idx_flat in H.
      assert (Ei : i = i').
      { assert (J : j * n2 + k < n1 * n2). { assert ((j + 1) * n2 <= n1 * n2) by (apply Nat.mul_le_mono_r; lia). lia. }
        assert (J6 : 6 * n2 <= n1 * n2) by (apply Nat.mul_le_mono_r; lia). rewrite Nat.mul_sub_distr_r in H. set (W := n1 * n2) in *. clearbody W.
        destruct (Nat.lt_trichotomy i i') as [C|[C|C]]; auto; exfalso.
        - assert ((i + 1) * W <= i' * W) by (apply Nat.mul_le_mono_r; lia). lia.
        - assert ((i' + 1) * W <= i * W) by (apply Nat.mul_le_mono_r; lia). lia. }
      subst i'. assert (J6 : 6 * n2 <= j * n2) by (apply Nat.mul_le_mono_r; lia). assert (J7 : (j + 7) * n2 <= n1 * n2) by (apply Nat.mul_le_mono_r; lia). rewrite Nat.mul_sub_distr_r in H. lia.
    + intros A. exists i. split; [lia|]. rewrite idx_flat. assert (C : j < 6 \/ n1 <= j + 6) by lia. destruct C as [C|C].
      * left. assert ((j + 1) * n2 <= 6 * n2) by (apply Nat.mul_le_mono_r; lia). lia.
      * right. assert ((n1 - 6) * n2 <= j * n2) by (apply Nat.mul_le_mono_r; lia). assert ((j + 1) * n2 <= n1 * n2) by (apply Nat.mul_le_mono_r; lia). assert (J6 : 6 * n2 <= n1 * n2) by (apply Nat.mul_le_mono_r; lia). rewrite Nat.mul_sub_distr_r in *. lia.
  - split; [intros []|]. intros A. exfalso. apply A. intros L. apply thick_iff in L. congruence.
Qed.
Lemma margin1_bound : Forall (fun p => p < elements n0 n1 n2) (margin1 n0 n1 n2).
Proof.
  apply Forall_forall. unfold margin1, margin, elements. destruct (thick n1) eqn:T; [|intros p []]. apply thick_iff in T. intros p. rewrite in_flat_map. setoid_rewrite in_app_iff. setoid_rewrite in_seq. intros (i & Hi & H).
  assert ((i + 1) * (n1 * n2) <= n0 * (n1 * n2)) by (apply Nat.mul_le_mono_r; lia). assert (J6 : 6 * n2 <= n1 * n2) by (apply Nat.mul_le_mono_r; lia). rewrite Nat.mul_sub_distr_r in *. rewrite <- Nat.mul_assoc. lia.
Qed.
Lemma margin2_in i j k : i < n0 -> j < n1 -> k < n2 -> In (idx i j k) (margin2 n0 n1 n2) <-> ~ away n2 k.
Proof.
  intros Hi Hj Hk. unfold margin2, away, large, margin. destruct (thick n2) eqn:T.
  - apply thick_iff in T. rewrite in_flat_map. setoid_rewrite in_flat_map. setoid_rewrite in_app_iff. setoid_rewrite in_map_iff. setoid_rewrite in_seq. split.
    + intros (i' & Hi' & j' & Hj' & H) A. specialize (A T). destruct H as [H|(q & E & Hq)].
      * assert (E : idx i j k = idx i' j' (idx i j k - (i' * (n1 * n2) + j' * n2))) by (rewrite (idx_flat i' j'); lia). apply idx_eq in E; lia.
      * assert (E' : idx i j k = idx i' j' (n2 - 1 - q)) by (rewrite (idx_flat i' j'); lia). apply idx_eq in E'; lia.
    + intros A. exists i. split; [lia|]. exists j. split; [lia|]. rewrite idx_flat. assert (C : k < 6 \/ n2 <= k + 6) by lia. destruct C as [C|C]; [left; lia|]. right. exists (n2 - 1 - k). lia.
  - split; [intros []|]. intros A. exfalso. apply A. intros L. apply thick_iff in L. congruence.
Qed.
Lemma margin2_bound : Forall (fun p => p < elements n0 n1 n2) (margin2 n0 n1 n2).
Proof.
  apply Forall_forall. unfold margin2, margin. destruct (thick n2) eqn:T; [|intros p []]. apply thick_iff in T. intros p. rewrite in_flat_map. setoid_rewrite in_flat_map. setoid_rewrite in_app_iff. setoid_rewrite in_map_iff. setoid_rewrite in_seq.
  intros (i & Hi & j & Hj & H). assert (exists k, k < n2 /\ p = idx i j k) as (k & Hk & ->). { destruct H as [H|(q & <- & Hq)]. - exists (p - (i * (n1 * n2) + j * n2)). rewrite idx_flat. lia. - exists (n2 - 1 - q). rewrite idx_flat. lia. }
  apply idx_bound; lia.
Qed.
End Coord.

Section Main.
Variables (V : Type) (above : V -> bool) (lt : V -> V -> bool) (n0 n1 n2 : nat) (data : list V) (D : nat -> V).
Hypothesis HD : forall p, p < elements n0 n1 n2 -> nth_error data p = Some (D p).
Hypothesis pos : 0 < n0 /\ 0 < n1 /\ 0 < n2.
Notation off := (offset n0 n1 n2).
Notation N := (elements n0 n1 n2).
Lemma find_ok m : length m = N -> exists m1 m', find_pixel_centers V above lt n0 n1 n2 data m = Val m' /\ length m1 = N /\ length m' = N /\
  (forall q, q < off \/ N - off <= q -> nth q m1 false = nth q m false) /\ (forall q, off <= q < N - off -> nth q m1 false = decide V above lt n0 n1 n2 D m1 q) /\
  (forall i j k, i < n0 -> j < n1 -> k < n2 -> nth (idx n1 n2 i j k) m' false = true <-> nth (idx n1 n2 i j k) m1 false = true /\ away n1 j /\ away n2 k).
Proof.
  intros L. destruct (scan_ok V above lt n0 n1 n2 data D HD pos m L) as [m1 (E1 & L1 & A1 & B1)]. unfold find_pixel_centers. rewrite E1. cbn [obind].
  destruct (clear_ok (margin1 n0 n1 n2) m1) as [m2 (E2 & L2 & A2)]. { rewrite L1. apply margin1_bound; auto. } rewrite E2. cbn [obind].
  destruct (clear_ok (margin2 n0 n1 n2) m2) as [m3 (E3 & L3 & A3)]. { rewrite L2, L1. apply margin2_bound; auto. } exists m1, m3. split; auto. split; auto. split; [lia|]. split; auto. split; auto.
  intros i j k Hi Hj Hk. rewrite A3, A2.
  assert (M1 := margin1_in n0 n1 n2 pos i j k Hi Hj Hk). assert (M2 := margin2_in n0 n1 n2 pos i j k Hi Hj Hk). rewrite <- existsb_eqb in M1. rewrite <- existsb_eqb in M2.
  assert (D1 : away n1 j \/ ~ away n1 j) by (unfold away, large; lia). assert (D2 : away n2 k \/ ~ away n2 k) by (unfold away, large; lia).
  destruct (existsb (Nat.eqb (idx n1 n2 i j k)) (margin2 n0 n1 n2)). { split; [discriminate|]. intuition congruence. }
  destruct (existsb (Nat.eqb (idx n1 n2 i j k)) (margin1 n0 n1 n2)). { split; [discriminate|]. intuition congruence. }
  destruct D1 as [D1|D1]; [|apply M1 in D1; discriminate]. destruct D2 as [D2|D2]; [|apply M2 in D2; discriminate]. tauto.
Qed.
End Main.

Require Import ZArith QArith Lqa List Bool Arith Lia.
Require Import Verif.Base Verif.Threshold_Proofs Verif.Mean_Model Verif.Mean_Spec.
Import ListNotations.
Local Open Scope Q_scope.

Lemma qlt_lt a b : qlt a b = true <-> a < b.
Proof. unfold qlt. rewrite negb_true_iff. split; intros H; [apply Qnot_le_lt; intros C; apply Qle_bool_iff in C; congruence|]. destruct (Qle_bool b a) eqn:E; auto. apply Qle_bool_iff in E. exfalso. apply (Qlt_not_le _ _ H); auto. Qed.
Lemma qlt_ge a b : qlt a b = false <-> b <= a.
Proof. unfold qlt. rewrite negb_false_iff. apply Qle_bool_iff. Qed.
Lemma min_spec (g : list Q) : g <> [] -> let r := min_index qlt g in (r < length g)%nat /\ (forall q, (q < r)%nat -> bin g r < bin g q) /\ (forall q, (q < length g)%nat -> bin g r <= bin g q).
Proof.
  intros H. destruct (min_index_spec Q qlt 0) with (l := g) as (A & B & C); auto.
  - intros x. apply qlt_ge. lra.
  - intros x y z. rewrite !qlt_lt. lra.
  - intros x y z. rewrite !qlt_ge. lra.
  - cbv zeta. split; auto. split; intros q Hq; [apply qlt_lt, B; auto|apply qlt_ge, C; auto].
Qed.
Lemma peak_spec (g : list Q) : g <> [] -> highest g (first_peak g).
Proof.
  intros H. unfold first_peak. destruct (min_index_spec Q (fun a b => qlt b a) 0) with (l := g) as (A & B & C); auto.
  - intros x. apply qlt_ge. lra.
  - intros x y z. rewrite !qlt_lt. lra.
  - intros x y z. rewrite !qlt_ge. lra.
  - split; auto. split; intros q Hq; [apply qlt_lt, B; auto|apply qlt_ge, C; auto].
Qed.
Lemma nth_skipn {A} (d : A) : forall n l i, nth i (skipn n l) d = nth (n + i) l d.
Proof. induction n as [|n IH]; intros l i; [reflexivity|]. destruct l; cbn; [destruct i; auto|apply IH]. Qed.
Lemma first_min_spec (g : list Q) : g <> [] -> exists p, highest g p /\ lowest_from g p (first_min g).
Proof.
  intros H. assert (P := peak_spec g H). exists (first_peak g). split; auto. unfold first_min. set (p := first_peak g) in *. clearbody p. destruct P as [P _].
  destruct (min_spec (skipn p g)) as (A & B & C). { intros E. apply (f_equal (@length _)) in E. rewrite skipn_length in E. cbn in E. lia. }
  rewrite skipn_length in *. set (k := min_index qlt (skipn p g)) in *. clearbody k. unfold bin in *. split; [lia|]. split; intros q Hq.
  - specialize (B (q - p)%nat ltac:(lia)). rewrite !nth_skipn in B. replace (p + (q - p))%nat with q in B by lia. auto.
  - specialize (C (q - p)%nat ltac:(lia)). rewrite !nth_skipn in C. replace (p + (q - p))%nat with q in C by lia. auto.
Qed.
Lemma highest_fun g p p' : highest g p -> highest g p' -> p = p'.
Proof. intros [A [B C]] [A' [B' C']]. destruct (Nat.lt_trichotomy p p') as [H|[H|H]]; auto; exfalso. - specialize (B' p H). specialize (C p' A'). lra. - specialize (B p' H). specialize (C' p A). lra. Qed.
Lemma lowest_fun g p m m' : lowest_from g p m -> lowest_from g p m' -> m = m'.
Proof. intros [A [B C]] [A' [B' C']]. destruct (Nat.lt_trichotomy m m') as [H|[H|H]]; auto; exfalso. - specialize (B' m ltac:(lia)). specialize (C m' ltac:(lia)). lra. - specialize (B m' ltac:(lia)). specialize (C' m ltac:(lia)). lra. Qed.
(** The loop tests the same bin for ever. *)
Lemma search_once g : forall fuel, (0 < fuel)%nat -> search_min fuel g = if Qeq_bool (bin g (first_min g)) 0 then None else Some (first_min g).
Proof. unfold bin. induction fuel as [|f IH]; intros H; [lia|]. cbn [search_min]. destruct (Qeq_bool (nth (first_min g) g 0) 0) eqn:E; auto. destruct f; [reflexivity|apply IH; lia]. Qed.
Lemma search_none g fuel : Qeq_bool (bin g (first_min g)) 0 = true -> search_min fuel g = None.
Proof. intros H. destruct fuel; [reflexivity|]. rewrite search_once, H by lia. reflexivity. Qed.
(** Values in the same ratio. *)
Lemma scaled_min g h k : 0 < k -> length h = length g -> (forall r, (r < length g)%nat -> bin h r == bin g r * k) -> g <> [] -> first_min h = first_min g.
Proof.
  intros Hk L E H. assert (H' : h <> []) by (intros ->; destruct g; [congruence|discriminate]).
  destruct (first_min_spec g H) as [p [[P1 [P2 P3]] [M1 [M2 M3]]]]. destruct (first_min_spec h H') as [p' [P' M']].
  assert (mono : forall x y, x < y -> x * k < y * k) by (intros x y X; apply Qmult_lt_compat_r; auto). assert (mono' : forall x y, x <= y -> x * k <= y * k) by (intros x y X; apply Qmult_le_compat_r; [auto|lra]).
  assert (Q : highest h p). { split; [lia|]. split; intros q Hq; rewrite !E by lia; auto. apply mono', P3; lia. }
  assert (p' = p) by (eapply highest_fun; eauto). subst p'. eapply lowest_fun; [exact M'|]. split; [lia|]. split; intros q Hq; rewrite !E by lia; auto. apply mono', M3; lia.
Qed.

Lemma add_bins_len g tot : length g = length tot -> length (add_bins g tot) = length tot.
Proof. intros H. unfold add_bins. rewrite map_length, combine_length. lia. Qed.
Lemma add_bins_bin g tot r : length g = length tot -> bin (add_bins g tot) r == bin g r + bin tot r.
Proof.
  unfold bin. intros H. destruct (Nat.lt_ge_cases r (length g)) as [L|L].
  - unfold add_bins. assert (E : nth_error (map (fun xy => fst xy + snd xy) (combine g tot)) r = Some (nth r g 0 + nth r tot 0)); [|rewrite (nth_error_nth _ _ 0 E); lra].
    rewrite nth_error_map, (nth_error_nth' _ (0, 0)) by (rewrite combine_length; lia). rewrite combine_nth by auto. reflexivity.
  - rewrite !nth_overflow; try lia; try lra. rewrite add_bins_len by auto. lia.
Qed.
Lemma total_cons g frames r : total (g :: frames) r = bin g r + total frames r.
Proof. reflexivity. Qed.
Lemma total_nil r : total [] r = 0.
Proof. reflexivity. Qed.
Lemma fold_bins n : forall frames tot, Forall (fun g => length g = n) frames -> length tot = n ->
  let s := fold_left (fun tot g => add_bins g tot) frames tot in length s = n /\ forall r, bin s r == total frames r + bin tot r.
Proof.
  induction frames as [|g frames IH]; intros tot F L; cbn [fold_left]; [split; [auto|]; intros r; rewrite total_nil; lra|].
  pose proof (Forall_inv F) as G. apply Forall_inv_tail in F. cbn beta in G. destruct (IH (add_bins g tot) F) as [A B]; [rewrite add_bins_len; lia|]. split; auto. intros r. rewrite B, add_bins_bin, total_cons by lia. lra.
Qed.
Lemma zero_bin n r : bin (repeat 0 n) r == 0.
Proof. unfold bin. rewrite nth_repeat. lra. Qed.
Lemma rows_nth nbins range t tot r : (r < length tot)%nat -> nth_error (rdf_rows nbins range t tot) r = Some (inject_Z (Z.of_nat r) / inject_Z (Z.of_nat nbins) * range, bin tot r / inject_Z (Z.of_nat t)).
Proof.
  intros H. unfold rdf_rows. rewrite nth_error_map. assert (E : nth_error (combine (seq 0 (length tot)) tot) r = Some (r, bin tot r)); [|rewrite E; reflexivity].
  rewrite (nth_error_nth' _ (0%nat, 0)) by (rewrite combine_length, seq_length, Nat.min_id; auto). rewrite combine_nth by apply seq_length. rewrite seq_nth by auto. reflexivity.
Qed.
Lemma rows_len nbins range t tot : length (rdf_rows nbins range t tot) = length tot.
Proof. unfold rdf_rows. rewrite map_length, combine_length, seq_length. lia. Qed.
Lemma total_loop_ok frame n : forall frames t fuel tot, Forall (fun g => length g = n) frames -> length tot = n ->
  (forall k g, nth_error frames k = Some g -> frame (t + k)%nat = Some g) -> frame (t + length frames)%nat = None -> (length frames < fuel)%nat ->
  exists s, total_loop frame fuel t tot = Some (S (t + length frames), s) /\ length s = n /\ forall r, bin s r == total frames r + bin tot r.
Proof.
  induction frames as [|g frames IH]; intros t fuel tot F L Ok Ko Hf; cbn [length] in *; (destruct fuel as [|fuel]; [lia|]); cbn [total_loop].
  - rewrite Nat.add_0_r in *. rewrite Ko. exists tot. split; [auto|]. split; [auto|]. intros r. rewrite total_nil. lra.
  - specialize (Ok 0%nat g eq_refl) as Ok0. rewrite Nat.add_0_r in Ok0. rewrite Ok0. pose proof (Forall_inv F) as G. apply Forall_inv_tail in F. cbn beta in G.
    destruct (IH (S t) fuel (add_bins g tot) F) as [s [E [A B]]]; [rewrite add_bins_len; lia| | |lia|].
    + intros k h Hk. rewrite <- (Ok (S k) h Hk). f_equal. lia.
    + rewrite <- Ko. f_equal. lia.
    + exists s. rewrite E. split; [f_equal; f_equal; lia|]. split; auto. intros r. rewrite B, add_bins_bin, total_cons by lia. lra.
Qed.

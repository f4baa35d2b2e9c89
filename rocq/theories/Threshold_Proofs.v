(** Proofs about the automatic threshold. *)
Require Import List Bool Arith ZArith Lia Sorted Permutation.
Require Import Verif.Base Verif.ListX Verif.Traj_Model Verif.Particles_Model Verif.RTree_Model Verif.Peaks_Model Verif.Peaks_Proofs.
Import ListNotations.

Section T.
Variable I : nat -> Z.
Notation le_I := (fun a b => (I a <= I b)%Z).
Lemma ins_by x : forall l, StronglySorted le_I l -> StronglySorted le_I (ins (fun a b => (I a <? I b)%Z) x l).
Proof.
  induction l as [|y l IH]; intros S; cbn [ins]. { repeat constructor. }
  inversion S as [|a b S' F]; subst. destruct (Z.ltb_spec (I x) (I y)) as [H|H].
  - constructor; auto. constructor; [lia|]. eapply Forall_impl; [|exact F]. cbn. intros; lia.
  - constructor; auto. eapply Forall_perm; [apply Permutation_sym, ins_perm|]. constructor; auto.
Qed.
Lemma by_intensity_sorted l : StronglySorted le_I (by_intensity I l).
Proof.
  unfold by_intensity, sort_by. assert (G : forall l acc, StronglySorted le_I acc -> StronglySorted le_I (fold_left (fun acc x => ins (fun a b => (I a <? I b)%Z) x acc) l acc)).
  { clear l. induction l as [|x l IH]; intros acc S; cbn [fold_left]; auto. apply IH, ins_by, S. } apply G. constructor.
Qed.
Lemma last_in : forall (l : list nat) d, l <> [] -> In (last l d) l.
Proof. induction l as [|x l IH]; intros d H; [congruence|]. destruct l as [|y l]; [left; auto|]. right. apply IH. congruence. Qed.
Lemma sorted_last : forall l d, StronglySorted le_I l -> Forall (fun x => (I x <= I (last l d))%Z) l.
Proof.
  induction l as [|x l IH]; intros d S; [constructor|]. inversion S as [|a b S' F]; subst. destruct l as [|y l]; [repeat constructor; cbn; lia|].
  change (last (x :: y :: l) d) with (last (y :: l) d). constructor; auto. rewrite Forall_forall in F. apply F, last_in. congruence.
Qed.

(** Histogram. *)
Lemma incr_get k h q : nth q (incr k h) 0 = nth q h 0 + (if (q =? k) && (q <? length h) then 1 else 0).
Proof.
  unfold incr. destruct (Nat.ltb_spec k (length h)) as [H|H].
  - rewrite nth_set by auto. destruct (Nat.eqb_spec q k) as [->|N]; cbn [andb]; [|lia]. destruct (Nat.ltb_spec k (length h)); lia.
  - destruct (Nat.eqb_spec q k) as [->|N]; cbn [andb]; [|lia]. destruct (Nat.ltb_spec k (length h)); lia.
Qed.
Lemma incr_len k h : length (incr k h) = length h.
Proof. unfold incr. destruct (k <? length h); auto. apply set_nth_len. Qed.
Definition pop (lo hi : Z) (l : list nat) (q : nat) : nat := length (filter (fun c => bin lo hi (I c) =? q) l).
Lemma histogram_len lo hi l : length (histogram I lo hi l) = 100.
Proof. unfold histogram. assert (G : forall l h, length (fold_left (fun h c => incr (bin lo hi (I c)) h) l h) = length h) by (clear; induction l as [|c l IH]; intros h; cbn [fold_left]; auto; rewrite IH; apply incr_len). rewrite G. apply repeat_length. Qed.
Lemma histogram_get lo hi l q : q < 100 -> nth q (histogram I lo hi l) 0 = pop lo hi l q.
Proof.
  intros Hq. unfold histogram, pop.
  assert (G : forall l h, length h = 100 -> nth q (fold_left (fun h c => incr (bin lo hi (I c)) h) l h) 0 = nth q h 0 + length (filter (fun c => bin lo hi (I c) =? q) l)).
  { clear l. induction l as [|c l IH]; intros h Lh; cbn [fold_left filter length]; [lia|]. rewrite IH by (rewrite incr_len; auto). rewrite incr_get, Lh. apply Nat.ltb_lt in Hq. rewrite Hq, andb_true_r, (Nat.eqb_sym q). destruct (bin lo hi (I c) =? q); cbn [length]; lia. }
  rewrite G by apply repeat_length. assert (Z : nth q (repeat 0 100) 0 = 0) by (clear; generalize 100 as n; revert q; induction q; intros [|n]; cbn [repeat nth]; auto). lia.
Qed.
Lemma sum_add : forall l a, fold_left Nat.add l a = a + fold_left Nat.add l 0.
Proof. induction l as [|x l IH]; intros a; cbn [fold_left]; [lia|]. rewrite IH, (IH (0 + x)). lia. Qed.
Lemma firstn_snoc {A} (d : A) : forall n l, n < length l -> firstn (S n) l = firstn n l ++ [nth n l d].
Proof. induction n as [|n IH]; intros [|x l] H; cbn [length firstn nth app] in *; try lia; auto. f_equal. apply IH. lia. Qed.
Lemma sum_firstn lo hi l t : t <= 100 -> fold_left Nat.add (firstn t (histogram I lo hi l)) 0 = length (filter (fun c => bin lo hi (I c) <? t) l).
Proof.
  induction t as [|t IH]; intros Ht.
  - cbn [firstn fold_left]. induction l as [|c l IHl]; auto. 
  - rewrite (firstn_snoc 0) by (rewrite histogram_len; lia). rewrite fold_left_app. cbn [fold_left]. rewrite IH by lia. rewrite histogram_get by lia. unfold pop.
    clear. induction l as [|c l IHl]; auto. cbn [filter]. destruct (Nat.ltb_spec (bin lo hi (I c)) t), (Nat.eqb_spec (bin lo hi (I c)) t), (Nat.ltb_spec (bin lo hi (I c)) (S t)); cbn [length]; lia.
Qed.
Lemma skip_filter (P : nat -> bool) : forall l, StronglySorted le_I l -> (forall a b, (I a <= I b)%Z -> P b = true -> P a = true) -> skipn (length (filter P l)) l = filter (fun c => negb (P c)) l.
Proof.
  induction l as [|x l IH]; intros S H; auto. inversion S as [|a b S' F]; subst. cbn [filter]. destruct (P x) eqn:E; cbn [negb length skipn]; auto.
  assert (Z : forall y, In y l -> P y = false). { intros y Hy. rewrite Forall_forall in F. destruct (P y) eqn:Ey; auto. rewrite (H x y) in E; auto. }
  assert (Z1 : filter P l = []). { clear -Z. induction l as [|y l IHl]; auto. cbn [filter]. rewrite Z by (left; auto). apply IHl. intros; apply Z; right; auto. }
  assert (Z2 : filter (fun c => negb (P c)) l = l). { clear -Z. induction l as [|y l IHl]; auto. cbn [filter]. rewrite Z by (left; auto). cbn [negb]. f_equal. apply IHl. intros; apply Z; right; auto. }
  rewrite Z1, Z2. auto.
Qed.
End T.

(** First extremum. *)
Section Min.
Variables (A : Type) (lt : A -> A -> bool) (d : A).
Hypothesis irr : forall x, lt x x = false.
Hypothesis tr : forall x y z, lt x y = true -> lt y z = true -> lt x z = true.
Hypothesis neg : forall x y z, lt x y = false -> lt y z = false -> lt x z = false.
Lemma min_from : forall l pre best ib, nth ib pre d = best -> ib < length pre -> (forall q, q < ib -> lt best (nth q pre d) = true) -> (forall q, q < length pre -> lt (nth q pre d) best = false) ->
  let r := min_index_from lt best ib (length pre) l in let w := pre ++ l in r < length w /\ (forall q, q < r -> lt (nth r w d) (nth q w d) = true) /\ (forall q, q < length w -> lt (nth q w d) (nth r w d) = false).
Proof.
  induction l as [|x l IH]; intros pre best ib Eb Hb Hs Hn; cbn [min_index_from].
  - cbv zeta. rewrite app_nil_r. subst best. auto.
  - destruct (lt x best) eqn:E.
    + specialize (IH (pre ++ [x]) x (length pre)). rewrite app_length, <- app_assoc in IH. cbn [length app] in IH. rewrite Nat.add_1_r in IH. apply IH.
      * rewrite app_nth2, Nat.sub_diag by lia. auto.
      * lia.
      * intros q Hq. rewrite app_nth1 by auto. specialize (Hn q Hq). destruct (lt x (nth q pre d)) eqn:F; auto. rewrite (neg _ _ _ F Hn) in E. discriminate.
      * intros q Hq. assert (C : q < length pre \/ q = length pre) by lia. destruct C as [C| ->].
        { rewrite app_nth1 by auto. specialize (Hn q C). destruct (lt (nth q pre d) x) eqn:F; auto. rewrite (tr _ _ _ F E) in Hn. discriminate. }
        rewrite app_nth2, Nat.sub_diag by lia. apply irr.
    + specialize (IH (pre ++ [x]) best ib). rewrite app_length, <- app_assoc in IH. cbn [length app] in IH. rewrite Nat.add_1_r in IH. apply IH.
      * rewrite app_nth1 by auto. auto.
      * lia.
      * intros q Hq. rewrite app_nth1 by lia. auto.
      * intros q Hq. assert (C : q < length pre \/ q = length pre) by lia. destruct C as [C| ->]; [rewrite app_nth1 by auto; auto|]. rewrite app_nth2, Nat.sub_diag by lia. auto.
Qed.
Lemma min_index_spec l : l <> [] -> let r := min_index lt l in r < length l /\ (forall q, q < r -> lt (nth r l d) (nth q l d) = true) /\ (forall q, q < length l -> lt (nth q l d) (nth r l d) = false).
Proof.
  destruct l as [|x l]; [congruence|]. intros _. apply (min_from l [x] x 0). { reflexivity. } { cbn; lia. } { intros; lia. } intros [|q] Hq; cbn in *; [apply irr|lia].
Qed.
End Min.

Lemma max_element_spec h : h <> [] -> let p := max_element h in p < length h /\ (forall q, q < p -> nth q h 0 < nth p h 0) /\ (forall q, q < length h -> nth q h 0 <= nth p h 0).
Proof.
  intros H. destruct (min_index_spec nat (fun a b => b <? a) 0) with (l := h) as (A & B & C); auto.
  - intros; apply Nat.ltb_irrefl.
  - intros x y z. rewrite !Nat.ltb_lt. lia.
  - intros x y z. rewrite !Nat.ltb_ge. lia.
  - unfold max_element. split; auto. split; intros q Hq; [apply Nat.ltb_lt|apply Nat.ltb_ge]; auto.
Qed.
Lemma min_element_spec h a b : a < b -> b <= length h -> let r := min_element h a b in a <= r < b /\ (forall q, a <= q < r -> nth r h 0 < nth q h 0) /\ (forall q, a <= q < b -> nth r h 0 <= nth q h 0).
Proof.
  intros H L. unfold min_element. destruct (Nat.ltb_spec a b); [|lia]. set (s := firstn (b - a) (skipn a h)).
  assert (Ls : length s = b - a) by (unfold s; rewrite firstn_length, skipn_length; lia).
  assert (N : forall q, q < b - a -> nth q s 0 = nth (a + q) h 0).
  { intros q Hq. unfold s. clear -Hq. assert (G1 : forall n (l : list nat) q, q < n -> nth q (firstn n l) 0 = nth q l 0) by (induction n; intros [|x l] [|p] Hp; cbn; auto; try lia; apply IHn; lia). rewrite G1 by auto. clear. revert h. induction a as [|a IH]; intros [|x h]; cbn [skipn plus nth]; auto. destruct q; auto. }
  destruct (min_index_spec nat Nat.ltb 0) with (l := s) as (A & B & C).
  - intros; apply Nat.ltb_irrefl.
  - intros x y z. rewrite !Nat.ltb_lt. lia.
  - intros x y z. rewrite !Nat.ltb_ge. lia.
  - intros E. rewrite E in Ls. cbn in Ls. lia.
  - cbv zeta. set (r := min_index Nat.ltb s) in *. split; [lia|]. split.
    + intros q Hq. specialize (B (q - a)). rewrite !N in B by lia. replace (a + (q - a)) with q in B by lia. apply Nat.ltb_lt. apply B. lia.
    + intros q Hq. specialize (C (q - a)). rewrite !N in C by lia. replace (a + (q - a)) with q in C by lia. apply Nat.ltb_ge. apply C. lia.
Qed.
(** Dichotomy: the result is in the range; all bins full: the first. *)
Lemma lower_bound_range : forall fuel h first len, first <= lower_bound fuel h first len <= first + len.
Proof.
  induction fuel as [|f IH]; intros h first len; cbn [lower_bound]; [lia|]. destruct (Nat.eqb_spec len 0); [lia|]. cbv zeta. assert (D := Nat.div_lt len 2 ltac:(lia) ltac:(lia)).
  destruct (_ <? 1). - specialize (IH h (first + len / 2 + 1) (len - len / 2 - 1)). lia. - specialize (IH h first (len / 2)). lia.
Qed.
Lemma lower_bound_full : forall fuel h first len, (forall q, first <= q < first + len -> 1 <= nth q h 0) -> lower_bound fuel h first len = first.
Proof.
  induction fuel as [|f IH]; intros h first len H; cbn [lower_bound]; auto. destruct (Nat.eqb_spec len 0); auto. cbv zeta. assert (D := Nat.div_lt len 2 ltac:(lia) ltac:(lia)).
  assert (X := H (first + len / 2) ltac:(lia)). destruct (Nat.ltb_spec (nth (first + len / 2) h 0) 1); [lia|]. apply IH. intros; apply H; lia.
Qed.
Lemma climb_fix fuel h low peak : climb (S fuel) h low peak = if nth low h 0 =? 0 then climb fuel h (min_element h low peak) peak else Some low.
Proof. reflexivity. Qed.
(** The loop never changes the bin it starts from. *)
Lemma climb_stuck h a peak : a <= peak -> peak < length h -> 0 < nth peak h 0 -> nth (min_element h a peak) h 0 = 0 -> forall fuel, climb fuel h (min_element h a peak) peak = None.
Proof.
  intros Ha Hp P Z. assert (L : min_element h a peak < peak). { assert (min_element h a peak <= peak). { destruct (Nat.lt_ge_cases a peak) as [C|C]. - destruct (min_element_spec h a peak C) as (A & _); lia. - unfold min_element. destruct (Nat.ltb_spec a peak); lia. } destruct (Nat.eq_dec (min_element h a peak) peak) as [E|]; [rewrite E in Z; lia|lia]. }
  set (low := min_element h a peak) in *. clearbody low. induction fuel as [|f IH]; auto. rewrite climb_fix, Z. cbn [Nat.eqb].
  replace (min_element h low peak) with low; auto. destruct (min_element_spec h low peak L ltac:(lia)) as (A & B & C). destruct (Nat.eq_dec low (min_element h low peak)) as [E|E]; auto. specialize (B low ltac:(lia)). lia.
Qed.

(** Proofs about the dynamics of particles. *)
Require Import ZArith QArith List Bool Arith Lia Sorted Permutation.
Require Import Verif.Base Verif.SortU Verif.ListX Verif.RTree_Model Verif.Traj_Model Verif.Traj_Spec Verif.Traj_Proofs Verif.TrajMap_Proofs Verif.Cluster_Spec Verif.Particles_Model Verif.Ngb_Model Verif.Ngb_Proofs Verif.Dyn_Model Verif.Dyn_Spec.
Import ListNotations.
Local Open Scope nat_scope.

Lemma osequence_ok {A} : forall (l : list (outcome A)) r, Forall2 (fun o a => o = Val a) l r -> osequence l = Val r.
Proof. induction l as [|o l IH]; intros r H; inversion H; subst; simpl; auto. rewrite (IH l'); auto. Qed.
Lemma osequence_inv {A} : forall (l : list (outcome A)) r, osequence l = Val r -> Forall2 (fun o a => o = Val a) l r.
Proof.
  induction l as [|o l IH]; intros r H; simpl in H; [injection H as <-; constructor|]. destruct o; simpl in H; try discriminate.
  destruct (osequence l) eqn:E; simpl in H; try discriminate. injection H as <-. constructor; auto.
Qed.
Lemma osequence_map_ex {A B} (f : A -> outcome B) : forall l, (forall a, In a l -> exists b, f a = Val b) -> exists r, osequence (map f l) = Val r /\ Forall2 (fun a b => f a = Val b) l r.
Proof.
  induction l as [|a l IH]; intros H; simpl; [exists []; auto|]. destruct (H a) as [b Hb]; [simpl; auto|]. destruct IH as [r [E F]]; [intros; apply H; simpl; auto|].
  exists (b :: r). rewrite Hb, E. auto.
Qed.
Lemma F2_nth {A B} (R : A -> B -> Prop) l r i a : Forall2 R l r -> nth_error l i = Some a -> exists b, nth_error r i = Some b /\ R a b.
Proof. intros H. revert i. induction H; intros [|i] Hi; simpl in *; try discriminate; [injection Hi as <-; eauto|eauto]. Qed.
Lemma F2_nth_r {A B} (R : A -> B -> Prop) l r i b : Forall2 R l r -> nth_error r i = Some b -> exists a, nth_error l i = Some a /\ R a b.
Proof. intros H. revert i. induction H; intros [|i] Hi; simpl in *; try discriminate; [injection Hi as <-; eauto|eauto]. Qed.
Lemma F2_in_r {A B} (R : A -> B -> Prop) l r b : Forall2 R l r -> In b r -> exists a, In a l /\ R a b.
Proof. intros H Hb. apply In_nth_error in Hb. destruct Hb as [i Hi]. destruct (F2_nth_r R l r i b H Hi) as [a [Ha Hr]]. exists a. split; auto. eapply nth_error_In; eauto. Qed.
Lemma F2_in_l {A B} (R : A -> B -> Prop) l r a : Forall2 R l r -> In a l -> exists b, In b r /\ R a b.
Proof. intros H Hb. apply In_nth_error in Hb. destruct Hb as [i Hi]. destruct (F2_nth R l r i a H Hi) as [b [Ha Hr]]. exists b. split; auto. eapply nth_error_In; eauto. Qed.
Lemma F2_len {A B} (R : A -> B -> Prop) l r : Forall2 R l r -> length l = length r.
Proof. induction 1; simpl; auto. Qed.

(** ** Spanning trajectories *)
Lemma row_in ti t row tr : nth_error (inverse ti) t = Some row -> (In tr row <-> exists p, invert ti t p = Some tr).
Proof.
  intros H. unfold invert. rewrite H. split; [apply In_nth_error|]. intros [p Hp]. eapply nth_error_In; eauto.
Qed.
Lemma spans_ends T a b : a <= b -> (spans T a b <-> (exists p, at_time T a p) /\ (exists p, at_time T b p)).
Proof.
  intros Hab. split; [intros H; split; apply H; lia|]. intros [[p Hp] [q Hq]] t Ht. apply at_time_range in Hp. apply at_time_range in Hq. apply at_time_ex. lia.
Qed.
Lemma span_iff T a b : small T -> a <= b -> (span T a b = true <-> spans T a b).
Proof.
  intros H Hab. unfold span. rewrite last_time_exact by apply H. assert (L : 0 < length (steps T)) by (destruct H as [H _]; destruct (steps T); simpl; [congruence|lia]).
  assert (E : spans T a b <-> start T <= a /\ b < start T + length (steps T)).
  { rewrite spans_ends by auto. split; [intros [[p Hp] [q Hq]]; apply at_time_range in Hp; apply at_time_range in Hq; lia|]. intros [H1 H2]. split; apply at_time_ex; lia. }
  rewrite E. destruct (Nat.ltb_spec a (start T)), (Z.ltb_spec (Z.of_nat (start T) + Z.of_nat (length (steps T)) - 1) (Z.of_nat b)); simpl; split; intros Hx; try discriminate; try lia; auto.
Qed.

(** ** Windows *)
Lemma to_int_small z : (0 <= z < 2 ^ 31)%Z -> to_int z = z.
Proof. intros H. unfold to_int. rewrite Z.mod_small by lia. lia. Qed.
Lemma to_int_neg z : (- 2 ^ 31 <= z < 0)%Z -> to_int (z mod size_mod) = z.
Proof.
  intros H. unfold to_int, size_mod. replace (z mod 2 ^ 64)%Z with (z + 2 ^ 64)%Z by (apply Z.mod_unique with (-1)%Z; lia).
  replace (z + 2 ^ 64 + 2 ^ 31)%Z with (z + 2 ^ 31 + 2 ^ 32 * 2 ^ 32)%Z by lia. rewrite Z_mod_plus_full, Z.mod_small by lia. lia.
Qed.
Lemma win_start_ok T t h : (Z.of_nat t < 2 ^ 31)%Z -> (Z.of_nat h < 2 ^ 31)%Z -> (Z.of_nat (start T) < 2 ^ 31)%Z -> win_start T t h = Nat.max (t - h) (start T).
Proof.
  intros Ht Hh Hs. unfold win_start. rewrite (to_int_small (Z.of_nat (start T))) by lia. destruct (Nat.le_gt_cases h t) as [Hle|Hgt].
  - rewrite (Z.mod_small (Z.of_nat t - Z.of_nat h)) by (unfold size_mod; lia). rewrite to_int_small by lia. rewrite Z.mod_small by (unfold size_mod; lia). lia.
  - rewrite to_int_neg by lia. rewrite Z.mod_small by (unfold size_mod; lia). lia.
Qed.
Lemma win_stop_ok T t h : small T -> (Z.of_nat t < 2 ^ 31)%Z -> (Z.of_nat h < 2 ^ 31)%Z -> win_stop T t h = Nat.min (t + h) (start T + length (steps T) - 1).
Proof.
  intros Hsm Ht Hh. unfold win_stop. rewrite last_time_exact by apply Hsm. assert (0 < length (steps T)) by (destruct Hsm as [H _]; destruct (steps T); simpl; [congruence|lia]).
  rewrite Z.mod_small by (unfold size_mod; lia). lia.
Qed.

(** ** Lost neighbours *)
Section Lost.
  Variables (ti : trajindex) (ngbs : list (list (list nat))).
  Hypothesis Hc : consistent ti.
  Hypothesis Hn : ngbs_ok ti ngbs.
  Lemma traj_ngbs_ok tr T t p : nth_error (trajs ti) tr = Some T -> at_time T t p ->
    exists l, traj_ngbs ti ngbs tr t = Val l /\ StronglySorted lt l /\ forall x, In x l <-> ngb_at ti ngbs t tr x.
  Proof.
    intros HT Hp. destruct Hc as [Hinv Hsm]. assert (Hs : small T) by exact (Hsm tr T HT). destruct Hn as [Hlen Hrange].
    assert (Hi : invert ti t p = Some tr) by (apply Hinv; eauto). unfold invert in Hi. destruct (nth_error (inverse ti) t) as [row|] eqn:Er; [|discriminate].
    assert (Hlr : nth_error (map (@length (list nat)) ngbs) t = Some (length row)) by (rewrite Hlen; apply map_nth_error; auto).
    apply nth_error_map_inv in Hlr. destruct Hlr as [frame [Hf Lf]]. destruct (nth_error_ex frame p) as [l Hl]; [rewrite <- Lf; eapply nth_error_lt; eauto|].
    unfold traj_ngbs, convert. rewrite Hf, HT, (proj2 (access_val T t p Hs) Hp), Hl.
    destruct (osequence_map_ex (fun q => match invert ti t q with Some x => Val x | None => UB end) l) as [xs [E F]].
    { intros q Hq. assert (Hlt : q < length row) by (eapply Hrange; eauto; eapply nth_error_In; eauto). destruct (nth_error_ex row q Hlt) as [x Hx]. exists x. unfold invert. rewrite Er, Hx. auto. }
    rewrite E. exists (sort_unique xs). split; auto. split; [apply sort_unique_sorted|]. intros x. rewrite sort_unique_in. split.
    - intros Hx. destruct (F2_in_r _ _ _ _ F Hx) as [q [Hq Eq]]. exists T, p, frame, l, q. repeat (split; auto). destruct (invert ti t q); [injection Eq as <-; auto|discriminate].
    - intros [T' [p' [frame' [l' [q [HT' [Hp' [Hf' [Hl' [Hq Hx]]]]]]]]]]. assert (T' = T) by congruence. subst T'. assert (p' = p) by (eapply at_time_fun; eauto). subst p'.
      assert (frame' = frame) by congruence. subst frame'. assert (l' = l) by congruence. subst l'. destruct (F2_in_l _ _ _ _ F Hq) as [y [Hy Ey]]. rewrite Hx in Ey. injection Ey as <-. auto.
  Qed.
  Lemma lost_ok tr T t1 t2 p q : nth_error (trajs ti) tr = Some T -> at_time T t1 p -> at_time T t2 q ->
    exists l, get_lost_ngbs ti ngbs tr t1 t2 = Val l /\ StronglySorted lt l /\ forall x, In x l <-> ngb_at ti ngbs t1 tr x /\ ~ ngb_at ti ngbs t2 tr x.
  Proof.
    intros HT H1 H2. unfold get_lost_ngbs. destruct (Nat.eqb_spec t1 t2) as [->|Hne].
    - exists []. split; auto. split; [constructor|]. intros x. simpl. tauto.
    - destruct (traj_ngbs_ok tr T t1 p HT H1) as [a [Ea [Sa Ia]]]. destruct (traj_ngbs_ok tr T t2 q HT H2) as [b [Eb [Sb Ib]]]. rewrite Ea, Eb.
      destruct (set_diff_spec a b Sa Sb) as [S I]. exists (set_diff a b). split; auto. split; auto. intros x. rewrite I, Ia, Ib. tauto.
  Qed.
End Lost.

(** ** Cages *)
Section Jumps.
  Variable sep : nat -> nat -> nat -> Z.
  Lemma max_from_ok : forall l best i, let '(k, b) := max_from best i l in
    (snd best <= b)%Z /\ (forall x, In x l -> (x <= b)%Z) /\ ((k, b) = best \/ exists j, k = i + j /\ nth_error l j = Some b).
  Proof.
    induction l as [|x l IH]; intros best i; simpl; [destruct best; simpl; split; [lia|split; [tauto|auto]]|].
    generalize (IH (if (snd best <? x)%Z then (i, x) else best) (S i)). destruct (max_from _ (S i) l) as [k b]. intros [H1 [H2 H3]].
    destruct (Z.ltb_spec (snd best) x) as [Hlt|Hge]; simpl in H1.
    - split; [lia|]. split; [intros y [<-|Hy]; auto|]. right. destruct H3 as [E|[j [-> Hj]]]; [injection E as -> ->; exists 0; split; [lia|auto]|]. exists (S j). split; [lia|auto].
    - split; [lia|]. split; [intros y [<-|Hy]; [lia|auto]|]. destruct H3 as [E|[j [-> Hj]]]; [auto|]. right. exists (S j). split; [lia|auto].
  Qed.
  (** A cut strictly inside the interval, whenever the best separation is positive. *)
  Lemma best_cut thr first last : (0 < thr)%Z -> first <= last ->
    exists x l, separations sep first last = x :: l /\ let '(k, b) := max_from (0, x) 1 l in (thr <= b)%Z -> 0 < k /\ first + k < last.
  Proof.
    intros Ht Hfl. destruct (separations sep first last) as [|x l] eqn:E; [unfold separations in E; apply app_eq_nil in E; destruct E; discriminate|].
    exists x, l. split; auto. generalize (max_from_ok l (0, x) 1). destruct (max_from (0, x) 1 l) as [k b]. intros [_ [_ Hk]] Hb.
    assert (Hn : nth_error (separations sep first last) k = Some b).
    { rewrite E. destruct Hk as [Ek|[j [-> Hj]]]; [injection Ek as -> ->; auto|]. auto. }
    unfold separations in Hn. set (m := last - first) in *. destruct (Nat.lt_ge_cases k m) as [Hkm|Hkm].
    - rewrite nth_error_app1 in Hn by (rewrite map_length, seq_length; auto). apply nth_error_map_inv in Hn. destruct Hn as [t [Ht' Eb]].
      rewrite nth_error_seq in Ht' by auto. injection Ht' as <-. destruct (Nat.eqb_spec (first + k) first) as [E0|E0]; [subst b; lia|]. lia.
    - rewrite nth_error_app2 in Hn by (rewrite map_length, seq_length; auto). rewrite map_length, seq_length in Hn. destruct (k - m) as [|j]; simpl in Hn; [injection Hn as <-; lia|destruct j; discriminate].
  Qed.
  Lemma split_jumps_ok thr res : (0 < thr)%Z -> forall fuel first last, first <= last -> last - first < fuel ->
    exists js, split_jumps sep fuel thr res first last = Val js /\ NoDup js /\ forall j, In j js -> first < j < last.
  Proof.
    intros Ht. induction fuel as [|fuel IH]; intros first last Hfl Hf; [lia|]. cbn [split_jumps]. destruct (best_cut thr first last Ht Hfl) as [x [l [E Hcut]]]. rewrite E.
    revert Hcut. destruct (max_from (0, x) 1 l) as [k b]. intros Hcut. destruct (Z.leb_spec thr b) as [Hb|Hb]; [|exists []; repeat split; [constructor|contradiction|contradiction]].
    specialize (Hcut Hb). destruct (Nat.leb_spec last (first + k)); [lia|]. set (tc := first + k) in *.
    assert (H1 : exists j1, (if res <? tc - first then split_jumps sep fuel thr res first tc else Val []) = Val j1 /\ NoDup j1 /\ forall j, In j j1 -> first < j < tc).
    { destruct (res <? tc - first); [apply IH; lia|exists []; repeat split; [constructor|contradiction|contradiction]]. }
    assert (H2 : exists j2, (if res <? last - (tc + 1) then split_jumps sep fuel thr res (tc + 1) last else Val []) = Val j2 /\ NoDup j2 /\ forall j, In j j2 -> tc + 1 < j < last).
    { destruct (res <? last - (tc + 1)); [apply IH; lia|exists []; repeat split; [constructor|contradiction|contradiction]]. }
    destruct H1 as [j1 [E1 [N1 R1]]]. destruct H2 as [j2 [E2 [N2 R2]]]. rewrite E1, E2. exists (tc :: j1 ++ j2). split; auto. split.
    - constructor.
      + rewrite in_app_iff. intros [Hj|Hj]; [apply R1 in Hj|apply R2 in Hj]; lia.
      + apply NoDup_app_x; auto. intros j Hj1 Hj2. apply R1 in Hj1. apply R2 in Hj2. lia.
    - intros j [<-|Hj]; [lia|]. apply in_app_iff in Hj. destruct Hj as [Hj|Hj]; [apply R1 in Hj|apply R2 in Hj]; lia.
  Qed.
End Jumps.

Lemma skipn_skipn_x {A} (l : list A) a b : skipn a (skipn b l) = skipn (b + a) l.
Proof. revert l. induction b as [|b IH]; intros l; auto. destruct l; simpl; [destruct a; auto|]. apply IH. Qed.
Lemma firstn_skipn_cat {A} (l : list A) a b : firstn a l ++ firstn b (skipn a l) = firstn (a + b) l.
Proof. revert l. induction a as [|a IH]; intros l; auto. destruct l; simpl; [destruct b; auto|]. f_equal. apply IH. Qed.
Lemma subtraj_ok T i j : small T -> i < j -> j <= length (steps T) -> subtraj T (i + start T) (j + start T - 1) = Val (mkTraj (i + start T) (firstn (j - i) (skipn i (steps T)))).
Proof.
  intros Hs Hij Hj. unfold subtraj. replace (S (j + start T - 1) - (i + start T)) with (j - i) by lia. rewrite sub_steps_ok by (auto; lia). replace (i + start T - start T) with i by lia. auto.
Qed.
Lemma pieces_ok T : small T -> forall js i, StronglySorted lt (i :: js) -> (forall j, In j js -> j <= length (steps T)) -> js <> [] ->
  exists cs, pieces T i js = Val cs /\ consecutive (start T + i) cs /\ length cs = length js /\ concat (map steps cs) = firstn (last js 0 - i) (skipn i (steps T)).
Proof.
  intros Hs. induction js as [|j js IH]; intros i Hi Hj Hne; [congruence|]. cbn [pieces]. inversion Hi as [|? ? Hs' Hf]; subst. inversion Hf as [|? ? Hij _]; subst.
  rewrite subtraj_ok by (auto; apply Hj; simpl; auto). assert (Lj : length (firstn (j - i) (skipn i (steps T))) = j - i).
  { rewrite firstn_length, skipn_length. specialize (Hj j (or_introl eq_refl)). lia. }
  destruct js as [|j' js].
  - exists [mkTraj (i + start T) (firstn (j - i) (skipn i (steps T)))]. cbn [pieces]. split; auto. cbn [consecutive start steps map concat last length]. rewrite app_nil_r. split; [|auto].
    split; [lia|]. split; auto. intros E. rewrite E in Lj. simpl in Lj. lia.
  - destruct (IH j Hs') as [cs [E [Hc [Hl Hcat]]]]; [intros; apply Hj; simpl in *; auto|discriminate|]. rewrite E. exists (mkTraj (i + start T) (firstn (j - i) (skipn i (steps T))) :: cs). split; auto.
    cbn [consecutive start steps map concat]. split; [|split].
    + split; [lia|]. split; [intros E'; rewrite E' in Lj; simpl in Lj; lia|]. rewrite Lj. replace (start T + i + (j - i)) with (start T + j) by lia. auto.
    + cbn [length] in *. lia.
    + rewrite Hcat. replace (last (j :: j' :: js) 0) with (last (j' :: js) 0) by auto. set (z := last (j' :: js) 0).
      assert (Hz : j < z). { inversion Hs' as [|? ? _ Hf']; subst. rewrite Forall_forall in Hf'. apply Hf'. unfold z. clear. revert j'. induction js as [|y js IH]; intros j'; simpl; auto. right. apply IH. }
      replace (skipn j (steps T)) with (skipn (j - i) (skipn i (steps T))) by (rewrite skipn_skipn_x; do 2 f_equal; lia). rewrite firstn_skipn_cat. replace (j - i + (z - j)) with (z - i) by lia. auto.
Qed.
Lemma sorted_snoc_lt l x : StronglySorted lt l -> (forall y, In y l -> y < x) -> StronglySorted lt (l ++ [x]).
Proof.
  induction l as [|a l IH]; intros Hs H; simpl; [repeat constructor|]. inversion Hs; subst. constructor; [apply IH; auto; intros; apply H; simpl; auto|].
  apply Forall_app. split; auto. constructor; auto. apply H. simpl. auto.
Qed.
Lemma sort_nat_lt l : NoDup l -> StronglySorted lt (sort_by Nat.ltb l).
Proof.
  intros Hn. assert (Hs : StronglySorted le (sort_by Nat.ltb l)) by exact (nsort_sorted l). assert (Hp := sort_by_perm Nat.ltb l). assert (Hn' : NoDup (sort_by Nat.ltb l)) by (eapply Permutation_NoDup; [apply Permutation_sym; eauto|auto]).
  revert Hs Hn'. generalize (sort_by Nat.ltb l). clear. induction l as [|a l IH]; intros Hs Hn; constructor; inversion Hs; inversion Hn; subst; auto.
  rewrite Forall_forall in *. intros x Hx. assert (a <= x) by auto. assert (a <> x) by (intros ->; contradiction). lia.
Qed.

Lemma cages_of_ok sep thr res T : small T -> (Z.of_nat (length (steps T)) < 2 ^ 64)%Z -> (0 < thr)%Z ->
  cages_of sep thr res T = Val [T] \/
  exists cs, cages_of sep thr res T = Val cs /\ 2 <= length cs /\ consecutive (start T) cs /\ concat (map steps cs) = removelast (steps T).
Proof.
  intros Hs Hl Ht. unfold cages_of. assert (Ln : 0 < length (steps T)) by (destruct Hs as [H _]; destruct (steps T); simpl; [congruence|lia]).
  assert (En : (((last_time T + 1) mod size_mod - Z.of_nat (start T)) mod size_mod)%Z = Z.of_nat (length (steps T))).
  { rewrite last_time_exact by apply Hs. rewrite Zminus_mod_idemp_l. replace (Z.of_nat (start T) + Z.of_nat (length (steps T)) - 1 + 1 - Z.of_nat (start T))%Z with (Z.of_nat (length (steps T))) by lia.
    apply Z.mod_small. unfold size_mod. lia. }
  rewrite En. destruct (Z.ltb_spec (Z.of_nat (length (steps T))) (Z.of_nat res)); [auto|]. rewrite Nat2Z.id. set (m := length (steps T) - 1).
  destruct (split_jumps_ok sep thr res Ht (S m) 0 m ltac:(lia) ltac:(lia)) as [js [E [Hn Hr]]]. rewrite E. destruct js as [|j0 js0]; [auto|]. right.
  set (js := j0 :: js0) in *. assert (Hp := sort_by_perm Nat.ltb js). assert (Hss := sort_nat_lt js Hn). destruct (sort_by Nat.ltb js) as [|j r] eqn:Es.
  { apply Permutation_length in Hp. discriminate. }
  assert (Hin : forall x, In x (j :: r) -> 0 < x < m) by (intros x Hx; apply Hr; eapply Permutation_in; eauto).
  assert (Hj : 0 < j < m) by (apply Hin; simpl; auto).
  assert (Efirst : subtraj T (start T) (j + start T - 1) = Val (mkTraj (start T) (firstn j (steps T)))).
  { pose proof (subtraj_ok T 0 j Hs ltac:(lia) ltac:(lia)) as H'. simpl in H'. rewrite Nat.sub_0_r in H'. auto. }
  rewrite Efirst. destruct (pieces_ok T Hs (r ++ [m]) j) as [cs [Ec [Hcons [Hlen Hcat]]]].
  - apply (sorted_snoc_lt (j :: r) m Hss). intros y Hy. apply Hin in Hy. lia.
  - intros x Hx. apply in_app_iff in Hx. destruct Hx as [Hx|[<-|[]]]; [|lia]. specialize (Hin x (or_intror Hx)). lia.
  - destruct r; discriminate.
  - rewrite Ec. exists (mkTraj (start T) (firstn j (steps T)) :: cs). split; auto. assert (Lf : length (firstn j (steps T)) = j) by (rewrite firstn_length; lia).
    split; [|split].
    + cbn [length]. rewrite Hlen, app_length. simpl. lia.
    + cbn [consecutive start steps]. split; auto. split; [intros E'; rewrite E' in Lf; simpl in Lf; lia|]. rewrite Lf. auto.
    + cbn [map concat steps]. rewrite Hcat, last_last, firstn_skipn_cat. replace (j + (m - j)) with m by lia. rewrite removelast_firstn_len. f_equal. unfold m. lia.
Qed.

(** ** Averages over time *)
Section AverageProofs.
  Variables (V : Type) (zero : V) (add : V -> V -> V) (div : V -> nat -> V).
  Lemma mfind_lookup k (m : list (nat * V)) : mfind V k m = lookup k m.
  Proof. induction m as [|[k' v] m IH]; simpl; auto. rewrite IH. auto. Qed.
  Lemma mset_keys k v (m : list (nat * V)) : map fst (mset V k v m) = map fst m.
  Proof. unfold mset. rewrite map_map. apply map_ext. intros [k' w]. simpl. destruct (Nat.eqb_spec k' k); auto. Qed.
  Lemma mset_lookup k v k' (m : list (nat * V)) : lookup k' (mset V k v m) = if k' =? k then option_map (fun _ => v) (lookup k m) else lookup k' m.
  Proof.
    induction m as [|[k1 w] m IH]; simpl; [destruct (k' =? k); auto|]. destruct (Nat.eqb_spec k1 k) as [->|Hk]; simpl.
    - rewrite Nat.eqb_refl. destruct (Nat.eqb_spec k' k) as [->|Hk']; auto.
    - destruct (Nat.eqb_spec k' k1) as [->|Hk'].
      + rewrite (proj2 (Nat.eqb_neq k1 k)) by auto. auto.
      + rewrite IH. destruct (Nat.eqb_spec k' k) as [->|Hk2]; auto. rewrite (proj2 (Nat.eqb_neq k k1)) by auto. auto.
  Qed.
  Lemma window_sum_ok miss data T : small T -> forall ts xs acc,
    Forall2 (fun t x => exists p m, at_time T t p /\ nth_error data t = Some m /\ lookup p m = Some x) ts xs -> window_sum V add miss data T ts acc = Val (fold_left add xs acc).
  Proof.
    intros Hs. induction ts as [|t ts IH]; intros xs acc F; inversion F as [|? x ? xs' [p [m [Hp [Hm Hx]]]] F']; subst; simpl; auto.
    rewrite (proj2 (access_val T t p Hs) Hp), Hm, mfind_lookup, Hx. auto.
  Qed.
  (** The values of the trajectory over the window. *)
  Definition window_values (data : list (list (nat * V))) (T : traj) (ts : list nat) (xs : list V) : Prop :=
    Forall2 (fun t x => exists p m, at_time T t p /\ nth_error data t = Some m /\ lookup p m = Some x) ts xs.
  Lemma window_values_fun data T : forall ts xs ys, window_values data T ts xs -> window_values data T ts ys -> xs = ys.
  Proof.
    induction ts as [|t ts IH]; intros xs ys Hx Hy; inversion Hx as [|? x ? xs' [p [m [Hp [Hm Hv]]]] F]; inversion Hy as [|? y ? ys' [p' [m' [Hp' [Hm' Hv']]]] F']; subst; auto.
    assert (p' = p) by (eapply at_time_fun; eauto). subst. f_equal; [congruence|]. apply IH; auto.
  Qed.
  Lemma average_step_ok miss ti data t0 n : 0 < n -> consistent ti -> forall sel m, NoDup sel -> is_map m -> (forall tr, In tr sel -> lookup tr m = None) ->
    (forall tr, In tr sel -> exists T, nth_error (trajs ti) tr = Some T /\ (spans T t0 (t0 + n - 1) -> exists xs, window_values data T (seq t0 n) xs)) ->
    exists m', average_step V zero add div miss ti data t0 n sel m = Val m' /\ is_map m' /\
      forall tr v, lookup tr m' = Some v <-> lookup tr m = Some v \/
        (In tr sel /\ exists T xs, nth_error (trajs ti) tr = Some T /\ spans T t0 (t0 + n - 1) /\ window_values data T (seq t0 n) xs /\ v = div (fold_left add xs zero) n).
  Proof.
    intros Hn Hc. induction sel as [|tr sel IH]; intros m Hnd Hm Hfresh Hval.
    - exists m. cbn [average_step]. split; auto. split; auto. intros tr v. split; auto. intros [H|[[] _]]; auto.
    - cbn [average_step]. inversion Hnd as [|? ? Hni Hnd']; subst. destruct (Hval tr (or_introl eq_refl)) as [T [HT Hw]]. rewrite HT.
      assert (Hs : small T) by exact (proj2 Hc tr T HT). assert (Hspan := span_iff T t0 (t0 + n - 1) Hs ltac:(lia)). destruct (span T t0 (t0 + n - 1)) eqn:Esp.
      + destruct Hw as [xs Hxs]; [apply Hspan; auto|]. assert (Hl : lookup tr (map_insert V tr zero m) = Some zero).
        { rewrite lookup_insert by auto. rewrite Nat.eqb_refl, Hfresh by (simpl; auto). auto. }
        rewrite mfind_lookup, Hl. rewrite (window_sum_ok miss data T Hs (seq t0 n) xs zero Hxs).
        set (m1 := mset V tr (div (fold_left add xs zero) n) (map_insert V tr zero m)).
        assert (Hm1 : is_map m1) by (unfold is_map, m1; rewrite mset_keys; apply insert_is_map; auto).
        assert (Hlk : forall k, lookup k m1 = if k =? tr then Some (div (fold_left add xs zero) n) else lookup k m).
        { intros k. unfold m1. rewrite mset_lookup, Hl, lookup_insert by auto. destruct (Nat.eqb_spec k tr); auto. }
        destruct (IH m1 Hnd' Hm1) as [m' [E [Hm' Hlook]]].
        { intros k Hk. rewrite Hlk. destruct (Nat.eqb_spec k tr) as [->|]; [contradiction|]. apply Hfresh. simpl. auto. }
        { intros k Hk. apply Hval. simpl. auto. }
        exists m'. split; auto. split; auto. intros k v. rewrite Hlook, Hlk. destruct (Nat.eqb_spec k tr) as [->|Hk].
        * split.
          -- intros [Hv|[Hin _]]; [|contradiction]. injection Hv as <-. right. split; [simpl; auto|]. exists T, xs. split; auto. split; [apply Hspan; auto|auto].
          -- intros [Hv|[_ [T' [xs' [HT' [_ [Hx' ->]]]]]]]; [rewrite Hfresh in Hv by (simpl; auto); discriminate|]. left. assert (T' = T) by congruence. subst T'.
             rewrite (window_values_fun _ _ _ _ _ Hx' Hxs). auto.
        * split; intros [Hv|[Hin R]]; auto; [right; split; [simpl; auto|auto]|]. destruct Hin as [Hin|Hin]; [congruence|]. right. auto.
      + destruct (IH m Hnd' Hm) as [m' [E [Hm' Hlook]]].
        { intros k Hk. apply Hfresh. simpl. auto. }
        { intros k Hk. apply Hval. simpl. auto. }
        exists m'. split; auto. split; auto. intros k v. rewrite Hlook. split; intros [Hv|[Hin R]]; auto; [right; split; [simpl; auto|auto]|].
        destruct Hin as [<-|Hin]; [|right; auto]. destruct R as [T' [xs [HT' [Hsp _]]]]. assert (T' = T) by congruence. subst T'. apply Hspan in Hsp. discriminate.
  Qed.
End AverageProofs.

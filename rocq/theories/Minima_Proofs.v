(** Proofs about the detection of local minima. *)
Require Import ZArith List Bool Arith Lia.
Require Import Verif.Base Verif.ListX Verif.Traj_Model Verif.Particles_Model Verif.Corr_Model Verif.Corr_Proofs Verif.RTree_Model Verif.Boo_Model Verif.Minima_Model Verif.Minima_Spec.
Import ListNotations.
Local Open Scope nat_scope.

Lemma min_from_spec : forall l best v pos pre, best < pos -> length pre = pos -> nth best pre 0%Z = v ->
  (forall j, j < pos -> (v <= nth j pre 0%Z)%Z) -> (forall j, j < best -> (v < nth j pre 0%Z)%Z) ->
  let m := min_from best v pos l in m < pos + length l /\ (forall j, j < pos + length l -> (nth m (pre ++ l) 0%Z <= nth j (pre ++ l) 0%Z)%Z) /\ (forall j, j < m -> (nth m (pre ++ l) 0%Z < nth j (pre ++ l) 0%Z)%Z).
Proof.
  induction l as [|x l IH]; intros best v pos pre H1 H2 H3 H4 H5; cbn [min_from length]; cbv zeta.
  - rewrite app_nil_r, Nat.add_0_r. rewrite H3. auto.
  - assert (E : pre ++ x :: l = (pre ++ [x]) ++ l) by (rewrite <- app_assoc; auto). rewrite E. replace (pos + S (length l)) with (S pos + length l) by lia.
    assert (L : length (pre ++ [x]) = S pos) by (rewrite app_length; cbn; lia).
    assert (N : nth pos (pre ++ [x]) 0%Z = x) by (rewrite app_nth2 by lia; replace (pos - length pre) with 0 by lia; auto).
    assert (M : forall j, j < pos -> nth j (pre ++ [x]) 0%Z = nth j pre 0%Z) by (intros; apply app_nth1; lia).
    destruct (Z.ltb_spec x v).
    + apply IH; auto; intros j Hj.
      * assert (j = pos \/ j < pos) as [->|Hj'] by lia; [rewrite N; lia|]. rewrite M by auto. specialize (H4 j Hj'). lia.
      * rewrite M by auto. specialize (H4 j Hj). lia.
    + apply IH; auto; try lia.
      * rewrite M by auto. auto.
      * intros j Hj. assert (j = pos \/ j < pos) as [->|Hj'] by lia; [rewrite N; lia|]. rewrite M by auto. auto.
      * intros j Hj. rewrite M by lia. auto.
Qed.
Lemma min_pos_spec l : l <> [] -> min_pos l < length l /\ (forall j, j < length l -> (nth (min_pos l) l 0%Z <= nth j l 0%Z)%Z) /\ (forall j, j < min_pos l -> (nth (min_pos l) l 0%Z < nth j l 0%Z)%Z).
Proof.
  destruct l as [|x l]; [easy|]. intros _. unfold min_pos. apply (min_from_spec l 0 x 1 [x]); auto; intros j Hj; [|lia]. assert (j = 0) by lia. subst j. cbn. lia.
Qed.
Lemma range2_in a b x : In x (range2 a b) <-> exists t, x = a + 2 * t /\ (Z.of_nat x < b)%Z.
Proof.
  unfold range2. rewrite in_map_iff. split.
  - intros [t [<- Ht]]. apply in_seq in Ht. exists t. split; auto. assert (X := Z.mul_div_le (b - Z.of_nat a + 1) 2). lia.
  - intros [t [-> Ht]]. exists t. split; auto. apply in_seq. split; [lia|]. apply Z2Nat.inj_lt with (n := Z.of_nat t) in Ht || idtac.
    assert (Z.of_nat t < (b - Z.of_nat a + 1) / 2)%Z by (apply Z.lt_le_trans with (m := (Z.of_nat t + 1)%Z); [lia|]; apply Z.div_le_lower_bound; lia). lia.
Qed.
Lemma range2_NoDup a b : NoDup (range2 a b).
Proof. unfold range2. apply FinFun.Injective_map_NoDup; [intros x y; lia|apply seq_NoDup]. Qed.
Lemma NoDup_flat_map_x {A B} (f : A -> list B) : forall l, NoDup l -> (forall x, In x l -> NoDup (f x)) ->
  (forall x y b, In x l -> In y l -> In b (f x) -> In b (f y) -> x = y) -> NoDup (flat_map f l).
Proof.
  induction l as [|x l IH]; intros ND Hf Hd; cbn [flat_map]; [constructor|]. apply NoDup_cons_iff in ND. destruct ND as [N1 N2].
  assert (G : forall (l1 l2 : list B), NoDup l1 -> NoDup l2 -> (forall b, In b l1 -> ~ In b l2) -> NoDup (l1 ++ l2)).
  { clear. induction l1 as [|a l1 IH]; intros l2 H1 H2 H; auto. apply NoDup_cons_iff in H1. destruct H1. cbn. constructor; [rewrite in_app_iff; intros [?|?]; [auto|apply (H a); auto; left; auto]|]. apply IH; auto. intros b Hb. apply H. right. auto. }
  apply G.
  - apply Hf. left. auto.
  - apply IH; auto; [intros; apply Hf; right; auto|]. intros y z b Hy Hz. apply Hd; right; auto.
  - intros b Hb Hb2. apply in_flat_map in Hb2. destruct Hb2 as [y [Hy Hy2]]. apply N1. rewrite (Hd x y b); auto; [left; auto|right; auto].
Qed.
Lemma osequence_ok_x {A B} (f : A -> outcome B) (g : A -> B) l : (forall a, In a l -> f a = Val (g a)) -> osequence (map f l) = Val (map g l).
Proof. induction l as [|a l IH]; intros H; cbn [map osequence]; auto. rewrite H by (left; auto). cbn [obind]. rewrite IH by (intros; apply H; right; auto). auto. Qed.

Section Visit.
  Variables (C : Type) (d : C) (read : C -> outcome Z) (value : C -> Z) (drop tiny : Z -> bool) (allowed keep : C -> outcome bool) (allow kp : C -> bool).
  Variables (rc : list C) (name : nat -> C) (refval : Z -> C -> outcome Z) (outside : C -> list C).
  Hypothesis Hdec : forall x y : C, {x = y} + {x <> y}.
  Hypothesis Hne : rc <> [].
  Hypothesis Hread : forall c, In c rc -> read c = Val (value c).
  Hypothesis Hname : forall m, m < length rc -> name m = nth m rc d.
  Hypothesis Hallow : forall c, In c rc -> allowed c = Val (allow c).
  Hypothesis Hout : forall c n, In c rc -> allow c = true -> In n (outside c) -> read n = Val (value n).
  Hypothesis Hkeep : forall c, In c rc -> allow c = true -> keep c = Val (kp c).
  Hypothesis Href : forall c, In c rc -> allow c = true -> refval (value c) c = Val (value c).
  Definition chosen : C := nth (min_pos (map value rc)) rc d.
  Definition pure_visit : option (C * bool) :=
    if drop (value chosen) then None else if allow chosen then if tiny (value chosen) then Some (chosen, false) else Some (chosen, forallb (fun n => (value chosen <=? value n)%Z) (outside chosen) && kp chosen) else None.
  Lemma above_ok v : forall ns, (forall n, In n ns -> read n = Val (value n)) -> above C read v ns = Val (forallb (fun n => (v <=? value n)%Z) ns).
  Proof.
    induction ns as [|n ns IH]; intros H; cbn [above forallb]; auto. rewrite H by (left; auto). cbn [obind]. destruct (v <=? value n)%Z; auto. apply IH. intros; apply H; right; auto.
  Qed.
  Lemma map_value_ne : map value rc <> [].
  Proof. clear -Hne. destruct rc; [easy|discriminate]. Qed.
  Lemma chosen_lt : min_pos (map value rc) < length rc.
  Proof. destruct (min_pos_spec (map value rc) map_value_ne) as [H _]. rewrite map_length in H. auto. Qed.
  Lemma chosen_in : In chosen rc.
  Proof. apply nth_In, chosen_lt. Qed.
  Lemma chosen_val : nth (min_pos (map value rc)) (map value rc) 0%Z = value chosen.
  Proof. unfold chosen. rewrite (nth_indep _ 0%Z (value d)) by (rewrite map_length; apply chosen_lt). apply map_nth. Qed.
  Lemma chosen_min c : In c rc -> (value chosen <= value c)%Z.
  Proof.
    intros H. destruct (In_nth rc c d H) as [j [Hj E]]. destruct (min_pos_spec (map value rc) map_value_ne) as [_ [M _]]. rewrite map_length in M. specialize (M j Hj). rewrite chosen_val in M. rewrite (nth_indep _ 0%Z (value d)), map_nth, E in M by (rewrite map_length; auto). auto.
  Qed.
  Lemma chosen_strict c : In c rc -> (forall c', In c' rc -> c' <> c -> (value c < value c')%Z) -> chosen = c.
  Proof.
    intros H S. assert (M := chosen_min c H). destruct (Hdec chosen c) as [E|E]; auto. specialize (S chosen chosen_in E). lia.
  Qed.
  Lemma visit_ok : visit C read drop tiny allowed keep rc name refval outside = Val pure_visit.
  Proof.
    unfold visit, pure_visit. rewrite (osequence_ok_x read value rc Hread). cbn [obind]. cbv zeta. rewrite Hname by apply chosen_lt. fold chosen. rewrite chosen_val.
    destruct (drop (value chosen)); auto. assert (I := chosen_in). rewrite Hallow by auto. cbn [obind].
    destruct (allow chosen) eqn:EA; auto. destruct (tiny (value chosen)); auto. rewrite Href by auto. cbn [obind].
    rewrite above_ok by (intros n Hn; apply (Hout chosen); auto). cbn [obind]. destruct (forallb _ (outside chosen)); auto. rewrite Hkeep by auto. auto.
  Qed.
  Lemma pure_in c b : pure_visit = Some (c, b) -> In c rc /\ allow c = true.
  Proof.
    unfold pure_visit. destruct (drop _); [easy|]. destruct (allow chosen) eqn:EA; [|easy]. destruct (tiny _); intros E; injection E as <- _; split; auto; apply chosen_in.
  Qed.
  Lemma pure_sound c : pure_visit = Some (c, true) ->
    In c rc /\ allow c = true /\ drop (value c) = false /\ tiny (value c) = false /\ kp c = true /\ (forall n, In n rc \/ In n (outside c) -> (value c <= value n)%Z).
  Proof.
    unfold pure_visit. destruct (drop _) eqn:ED; [easy|]. destruct (allow chosen) eqn:EA; [|easy]. destruct (tiny _) eqn:ET; [easy|]. intros E. injection E as <- E.
    apply andb_true_iff in E. destruct E as [E1 E2]. rewrite forallb_forall in E1.
    split; [apply chosen_in|]. split; [auto|]. split; [auto|]. split; [auto|]. split; [auto|].
    intros n [Hn|Hn]; [apply chosen_min; auto|]. specialize (E1 n Hn). apply Z.leb_le in E1. auto.
  Qed.
  Lemma pure_complete c : In c rc -> allow c = true -> drop (value c) = false -> tiny (value c) = false -> kp c = true ->
    (forall n, In n rc -> n <> c -> (value c < value n)%Z) -> (forall n, In n (outside c) -> (value c <= value n)%Z) -> pure_visit = Some (c, true).
  Proof.
    intros H1 H2 H3 H4 H5 H6 H7. assert (E := chosen_strict c H1 H6). unfold pure_visit. rewrite E, H3, H2, H4, H5, andb_true_r. f_equal. f_equal. apply forallb_forall. intros n Hn. apply Z.leb_le. auto.
  Qed.
End Visit.

Section Collect.
  Variables (B C : Type) (f : B -> option (C * bool)) (cells : B -> list C) (bl : list B).
  Hypothesis ND : NoDup bl.
  Hypothesis Hin : forall b c t, In b bl -> f b = Some (c, t) -> In c (cells b).
  Hypothesis Hdis : forall b b' c, In b bl -> In b' bl -> In c (cells b) -> In c (cells b') -> b = b'.
  Lemma collect_in c t : In (c, t) (collect (map f bl)) <-> exists b, In b bl /\ f b = Some (c, t).
  Proof.
    unfold collect. rewrite in_flat_map. split.
    - intros [o [Ho Hc]]. apply in_map_iff in Ho. destruct Ho as [b [E Hb]]. exists b. split; auto. destruct o; [destruct Hc as [->|[]]; auto|easy].
    - intros [b [Hb E]]. exists (Some (c, t)). split; [apply in_map_iff; exists b; auto|left; auto].
  Qed.
  Lemma collect_NoDup : NoDup (map fst (collect (map f bl))).
  Proof.
    assert (E : map fst (collect (map f bl)) = flat_map (fun b => match f b with Some x => [fst x] | None => [] end) bl).
    { clear. unfold collect. induction bl as [|b l IH]; auto. cbn [map flat_map]. rewrite map_app, IH. destruct (f b); auto. }
    rewrite E. apply NoDup_flat_map_x; auto.
    - intros b _. destruct (f b); [|constructor]. constructor; [intros []|constructor].
    - intros b b' c Hb Hb' H1 H2. destruct (f b) as [[c1 t1]|] eqn:E1; [|easy]. destruct (f b') as [[c2 t2]|] eqn:E2; [|easy]. destruct H1 as [H1|[]], H2 as [H2|[]]. cbn in H1, H2. subst c1 c2.
      apply (Hdis b b' c); auto; [apply (Hin b c t1)|apply (Hin b' c t2)]; auto.
  Qed.
End Collect.
Lemma centers_in {C} (ws : list (C * bool)) c : In c (centers_of ws) <-> In (c, true) ws.
Proof.
  unfold centers_of. rewrite in_map_iff. split.
  - intros [[c' t] [E H]]. cbn in E. subst c'. apply filter_In in H. destruct H as [H E]. cbn in E. subst t. auto.
  - intros H. exists (c, true). split; auto. apply filter_In. auto.
Qed.
Lemma centers_NoDup {C} (ws : list (C * bool)) : NoDup (map fst ws) -> NoDup (centers_of ws).
Proof.
  unfold centers_of. induction ws as [|[c t] ws IH]; cbn [map filter fst snd]; intros H; [constructor|]. apply NoDup_cons_iff in H. destruct H as [H1 H2]. destruct t; auto. cbn [map fst]. constructor; auto.
  intros X. apply H1. apply in_map_iff in X. destruct X as [x [E X]]. apply filter_In in X. apply in_map_iff. exists x. tauto.
Qed.
Lemma flags_ok {C} (eqb : C -> C -> bool) (Heqb : forall x y, eqb x y = true <-> x = y) (ws : list (C * bool)) c :
  NoDup (map fst ws) -> flag_after eqb ws c = true <-> In c (centers_of ws).
Proof.
  intros ND. rewrite centers_in. unfold flag_after.
  assert (G : forall b, fold_left (fun b w => if eqb (fst w) c then snd w else b) ws b = true <-> In (c, true) ws \/ (b = true /\ ~ In c (map fst ws))).
  { induction ws as [|[d t] ws IH]; intros b; cbn [fold_left map fst snd]; [cbn; tauto|]. apply NoDup_cons_iff in ND. destruct ND as [N1 N2]. rewrite IH by auto. cbn [In]. destruct (eqb d c) eqn:E.
    - apply Heqb in E. subst d. split.
      + intros [H|[-> H]]; auto.
      + intros [[H|H]|[_ H]]; [injection H as ->; auto|auto|tauto].
    - assert (d <> c) by (intros X; apply Heqb in X; congruence). split.
      + intros [H'|[H1 H2]]; [auto|right; split; auto; tauto].
      + intros [[H'|H']|[H1 H2]]; [congruence|auto|right; tauto]. }
  rewrite G. split; [intros [H|[H _]]; [auto|discriminate]|auto].
Qed.

(** * Blocks *)
Lemma base_spec k a t : a = 1 + 2 * t -> a <= k <= a + 1 -> base k = a.
Proof. intros -> H. unfold base. replace ((k - 1) / 2) with t; [lia|]. apply Nat.div_unique with (r := k - 1 - 2 * t); lia. Qed.
Lemma base_bounds k : 1 <= k -> base k <= k <= base k + 1 /\ exists t, base k = 1 + 2 * t.
Proof. intros H. unfold base. assert (X := Nat.div_mod_eq (k - 1) 2). assert (Y := Nat.mod_upper_bound (k - 1) 2 ltac:(lia)). split; [lia|]. exists ((k - 1) / 2). lia. Qed.
Lemma near_around x n : 1 <= x -> In n (around x) <-> near x n.
Proof. intros H. unfold around, near. cbn [In]. lia. Qed.
Lemma pair_start_spec s x t : s + 2 * t <= x <= s + 2 * t + 1 -> pair_start s x = s + 2 * t.
Proof. intros H. unfold pair_start. replace ((x - s) / 2) with t; [lia|]. apply Nat.div_unique with (r := x - s - 2 * t); lia. Qed.
Lemma pair_start_bounds s x : s <= x -> pair_start s x <= x <= pair_start s x + 1.
Proof. intros H. unfold pair_start. assert (X := Nat.div_mod_eq (x - s) 2). assert (Y := Nat.mod_upper_bound (x - s) 2 ltac:(lia)). lia. Qed.
Lemma scanned_iff s e n x : scanned s e x n <-> exists j, In j (range2 s (Z.of_nat n - Z.of_nat e)) /\ j <= x <= j + 1.
Proof.
  split.
  - intros [H1 H2]. assert (X := pair_start_bounds s x H1). exists (pair_start s x). split; [|lia]. apply range2_in. exists ((x - s) / 2). split; auto. lia.
  - intros [j [Hj H]]. apply range2_in in Hj. destruct Hj as [t [-> Ht]]. split; [lia|]. rewrite (pair_start_spec s x t) by lia. lia.
Qed.
Lemma range2_same s n j j' x : In j (range2 s n) -> In j' (range2 s n) -> j <= x <= j + 1 -> j' <= x <= j' + 1 -> j = j'.
Proof. rewrite !range2_in. intros [t [-> _]] [t' [-> _]] H H'. lia. Qed.

(** * Two dimensions *)
Section Two.
  Variables (nl rows cols : nat) (px : nat -> nat -> nat -> Z) (sizes : list nat) (tiny : Z -> bool) (hessian : list Z -> bool).
  Definition val2 (c : cell) : Z := let '(k, j, i) := c in px k j i.
  Lemma in_block2 k j i c : In c (block2 k j i) <-> let '(k', j', i') := c in k <= k' <= k + 1 /\ j <= j' <= j + 1 /\ i <= i' <= i + 1.
  Proof.
    destruct c as [[k' j'] i']. unfold block2. cbn [In]. split.
    - intros H. repeat (destruct H as [H|H]; [injection H as <- <- <-; lia|]). easy.
    - intros (H1 & H2 & H3). assert (k' = k \/ k' = S k) as [->| ->] by lia; assert (j' = j \/ j' = S j) as [->| ->] by lia; assert (i' = i \/ i' = S i) as [->| ->] by lia; tauto.
  Qed.
  Lemma name2_ok k j i m : m < length (block2 k j i) -> name2 k j i m = nth m (block2 k j i) (0, 0, 0).
  Proof.
    unfold block2. cbn [length]. intros H. do 8 (destruct m as [|m]; [unfold name2, bit; cbn -[Nat.add]; f_equal; [f_equal|]; lia|]). lia.
  Qed.
  Definition allow2 (c : cell) : bool := let '(mk, mj, mi) := c in (mk <=? nl) && (nth mk sizes 0 <=? mj) && (mj + nth mk sizes 0 <? rows) && (nth mk sizes 0 <=? mi) && (mi + nth mk sizes 0 <? cols).
  Definition patch2 (c : cell) : list Z := let '(mk, mj, mi) := c in map val2 (flat_map (fun j2 => map (fun i2 => (mk, j2, i2)) (around mi)) (around mj)).
  Hypothesis Hsizes : nl < length sizes.
  Lemma allowed2_ok c : allowed2 nl rows cols sizes c = Val (allow2 c).
  Proof.
    destruct c as [[k j] i]. unfold allowed2, allow2. destruct (Nat.ltb_spec nl k), (Nat.leb_spec k nl); try lia; cbn [andb]; auto.
    unfold at_index. rewrite (nth_error_nth' sizes 0) by lia. cbn [omap obind]. f_equal.
  Qed.
  Lemma allow2_spec k j i : allow2 (k, j, i) = true <-> k <= nl /\ inside (nth k sizes 0) j rows /\ inside (nth k sizes 0) i cols.
  Proof. unfold allow2, inside. rewrite !andb_true_iff, !Nat.leb_le, !Nat.ltb_lt. tauto. Qed.
  Lemma in_outside2 k j i mk mj mi n : 1 <= mk -> 1 <= mj -> 1 <= mi -> In (mk, mj, mi) (block2 k j i) ->
    In n (outside2 k j i (mk, mj, mi)) <-> adjacent2 (mk, mj, mi) n /\ ~ In n (block2 k j i).
  Proof.
    intros H1 H2 H3 Hb. destruct n as [[k' j'] i']. rewrite in_block2 in Hb. unfold outside2. rewrite filter_In, in_flat_map, in_block2. unfold adjacent2. rewrite !orb_true_iff, !Nat.ltb_lt.
    assert (N : near mk k' /\ near mj j' /\ near mi i' <-> exists x, In x (around mk) /\ In (k', j', i') (flat_map (fun j2 => map (fun i2 => (x, j2, i2)) (around mi)) (around mj))).
    { split.
      - intros (A & B & D). exists k'. split; [apply near_around; auto|]. apply in_flat_map. exists j'. split; [apply near_around; auto|]. apply in_map_iff. exists i'. split; auto. apply near_around; auto.
      - intros [x [Hx H]]. apply in_flat_map in H. destruct H as [y [Hy H]]. apply in_map_iff in H. destruct H as [z [E Hz]]. injection E as -> -> ->. rewrite near_around in Hx, Hy, Hz by auto. auto. }
    rewrite <- N. split.
    - intros [(A & B & D) O]. split; [|lia]. split; auto. intros E. injection E as -> -> ->. lia.
    - intros [[E (A & B & D)] O]. split; auto. lia.
  Qed.
  Lemma block2_bounds b : In b (blocks2 nl rows cols sizes) -> let '(k, j, i) := b in exists s, s = si2 sizes k /\ 3 <= s /\ 1 <= k <= nl /\ s <= j /\ j + s < rows /\ s <= i /\ i + s < cols.
  Proof.
    destruct b as [[k j] i]. unfold blocks2. rewrite in_flat_map. intros [k' [Hk H]]. apply in_flat_map in H. destruct H as [j' [Hj H]]. apply in_map_iff in H. destruct H as [i' [E Hi]]. injection E as -> -> ->.
    rewrite range2_in in Hk. rewrite range2_in in Hj. rewrite range2_in in Hi. destruct Hk as [a [Ea Ha]], Hj as [b [Eb Hb]], Hi as [c [Ec Hc]]. exists (si2 sizes k). unfold si2 in *. lia.
  Qed.
  Lemma blocks2_NoDup : NoDup (blocks2 nl rows cols sizes).
  Proof.
    unfold blocks2. apply NoDup_flat_map_x; [apply range2_NoDup| |].
    - intros k _. apply NoDup_flat_map_x; [apply range2_NoDup| |].
      + intros j _. apply FinFun.Injective_map_NoDup; [|apply range2_NoDup]. intros x y E. injection E. auto.
      + intros j j' b _ _ H H'. apply in_map_iff in H. apply in_map_iff in H'. destruct H as [x [<- _]], H' as [y [E _]]. injection E. auto.
    - intros k k' b _ _ H H'. apply in_flat_map in H. apply in_flat_map in H'. destruct H as [x [_ H]], H' as [y [_ H']]. apply in_map_iff in H. apply in_map_iff in H'. destruct H as [z [<- _]], H' as [w [E _]]. injection E. auto.
  Qed.
  Lemma in_blocks2 k j i : In (k, j, i) (blocks2 nl rows cols sizes) <-> In k (range2 1 (Z.of_nat nl + 1)) /\ In j (range2 (si2 sizes k) (Z.of_nat rows - Z.of_nat (si2 sizes k))) /\ In i (range2 (si2 sizes k) (Z.of_nat cols - Z.of_nat (si2 sizes k))).
  Proof.
    unfold blocks2. rewrite in_flat_map. split.
    - intros [k' [Hk H]]. apply in_flat_map in H. destruct H as [j' [Hj H]]. apply in_map_iff in H. destruct H as [i' [E Hi]]. injection E as -> -> ->. auto.
    - intros (A & B & D). exists k. split; auto. apply in_flat_map. exists j. split; auto. apply in_map_iff. exists i. auto.
  Qed.
  Lemma blocks2_disjoint b b' c : In b (blocks2 nl rows cols sizes) -> In b' (blocks2 nl rows cols sizes) ->
    In c (let '(k, j, i) := b in block2 k j i) -> In c (let '(k, j, i) := b' in block2 k j i) -> b = b'.
  Proof.
    destruct b as [[k j] i], b' as [[k' j'] i'], c as [[x y] z]. rewrite !in_blocks2, !in_block2. intros (A & B & D) (A' & B' & D') H H'.
    assert (k = k') by (apply (range2_same 1 (Z.of_nat nl + 1) k k' x); tauto). subst k'.
    assert (j = j') by (eapply range2_same with (x := y); [apply B|apply B'| |]; tauto). assert (i = i') by (eapply range2_same with (x := z); [apply D|apply D'| |]; tauto). congruence.
  Qed.
  Lemma read2_ok k j i : k < nl + 2 -> j < rows -> i < cols -> read2 nl rows cols px (k, j, i) = Val (px k j i).
  Proof. intros H1 H2 H3. unfold read2. apply Nat.ltb_lt in H1, H2, H3. rewrite H1, H2, H3. auto. Qed.
  Definition pure2 (b : cell) : option (cell * bool) := let '(k, j, i) := b in
    pure_visit cell (0, 0, 0) val2 (fun v => 0 <=? v)%Z tiny allow2 (fun c => hessian (patch2 c)) (block2 k j i) (outside2 k j i).
  Lemma visit2_ok b : In b (blocks2 nl rows cols sizes) -> visit2 nl rows cols px sizes tiny hessian b = Val (pure2 b).
  Proof.
    intros Hb. assert (X := block2_bounds b Hb). destruct b as [[k j] i]. destruct X as [s (Es & S3 & K & J1 & J2 & I1 & I2)]. clear Es Hb.
    unfold visit2, pure2. apply visit_ok with (d := (0, 0, 0)); [unfold block2; discriminate| | | | | |].
    - intros [[k' j'] i'] H. apply in_block2 in H. apply read2_ok; lia.
    - apply name2_ok.
    - intros. apply allowed2_ok.
    - intros [[k' j'] i'] [[k2 j2] i2] H Ha H'. assert (H0 := H). apply in_block2 in H0. apply in_outside2 in H'; auto; try lia. destruct H' as [[_ (A & B & D)] _]. unfold near in *.
      apply allow2_spec in Ha. apply read2_ok; lia.
    - intros [[k' j'] i'] H Ha. apply in_block2 in H. apply allow2_spec in Ha. unfold keep2, patch2. rewrite (osequence_ok_x _ val2); [auto|].
      intros [[k2 j2] i2] H'. apply in_flat_map in H'. destruct H' as [y [Hy H']]. apply in_map_iff in H'. destruct H' as [z [E Hz]]. injection E as -> -> ->. rewrite near_around in Hy by lia. rewrite near_around in Hz by lia. unfold near in *.
      rewrite read2_ok by lia. auto.
    - auto.
  Qed.
  Lemma find2_ok : find2 nl rows cols px sizes tiny hessian = Val (collect (map pure2 (blocks2 nl rows cols sizes))).
  Proof. unfold find2. rewrite (osequence_ok_x _ pure2) by apply visit2_ok. auto. Qed.
  Lemma cell_dec : forall x y : cell, {x = y} + {x <> y}.
  Proof. repeat decide equality. Qed.
  Theorem find2_spec : exists ws, find2 nl rows cols px sizes tiny hessian = Val ws /\ NoDup (map fst ws) /\
    (forall k j i, In (k, j, i) (centers_of ws) -> 1 <= k <= nl /\ inside (nth k sizes 0) j rows /\ inside (nth k sizes 0) i cols /\ scanned (si2 sizes (base k)) (si2 sizes (base k)) j rows /\ scanned (si2 sizes (base k)) (si2 sizes (base k)) i cols /\
       minimum adjacent2 val2 tiny (k, j, i) /\ hessian (patch2 (k, j, i)) = true) /\
    (forall k j i, 1 <= k <= nl -> scanned (si2 sizes (base k)) (si2 sizes (base k)) j rows -> scanned (si2 sizes (base k)) (si2 sizes (base k)) i cols -> inside (nth k sizes 0) j rows -> inside (nth k sizes 0) i cols ->
       strict_minimum adjacent2 val2 tiny (k, j, i) -> hessian (patch2 (k, j, i)) = true -> In (k, j, i) (centers_of ws)).
  Proof.
    exists (collect (map pure2 (blocks2 nl rows cols sizes))). split; [apply find2_ok|]. split; [|split].
    - apply collect_NoDup with (cells := fun b => let '(k, j, i) := b in block2 k j i); [apply blocks2_NoDup| |apply blocks2_disjoint].
      intros [[k j] i] c t _ E. apply pure_in in E; [tauto|unfold block2; discriminate].
    - intros k j i H. apply centers_in, collect_in in H. destruct H as [b [Hb E]]. assert (X := block2_bounds b Hb). destruct b as [[kb jb] ib]. destruct X as [s (Es & S3 & K & J1 & J2 & I1 & I2)].
      apply pure_sound in E; [|unfold block2; discriminate]. destruct E as (E1 & E2 & E3 & E4 & E5 & E6). assert (Y := E1). apply in_block2 in Y. apply allow2_spec in E2.
      apply in_blocks2 in Hb. destruct Hb as (B1 & B2 & B3). assert (B1' := B1). apply range2_in in B1'. destruct B1' as [t [Bt _]]. rewrite (base_spec k kb t) by lia.
      split; [lia|]. split; [tauto|]. split; [tauto|]. split; [apply scanned_iff; exists jb; split; [auto|lia]|]. split; [apply scanned_iff; exists ib; split; [auto|lia]|]. split; [|auto]. split; [apply Z.leb_gt in E3; auto|]. split; [auto|]. intros n Hn. apply E6.
      destruct (in_dec cell_dec n (block2 kb jb ib)) as [I|I]; [left; auto|right]. apply in_outside2; auto; lia.
    - intros k j i Hk Hj Hi Hj2 Hi2 (M1 & M2 & M3) Hh. apply centers_in, collect_in. destruct (base_bounds k ltac:(lia)) as [Bk [t Bt]].
      destruct (proj1 (scanned_iff _ _ _ _) Hj) as [jb [J1 J2]]. destruct (proj1 (scanned_iff _ _ _ _) Hi) as [ib [I1 I2]]. exists (base k, jb, ib).
      assert (Hb : In (base k, jb, ib) (blocks2 nl rows cols sizes)). { apply in_blocks2. split; [|auto]. apply range2_in. exists t. split; auto. lia. }
      split; auto. assert (X := block2_bounds _ Hb). destruct X as [s (Es & S3 & K & X)]. assert (HB : In (k, j, i) (block2 (base k) jb ib)) by (apply in_block2; lia).
      apply pure_complete; [apply cell_dec|unfold block2; discriminate|auto|apply allow2_spec; split; [lia|auto]|apply Z.leb_gt; auto|auto|auto| |].
      + intros [[k' j'] i'] Hn Ne. apply M3. split; [auto|]. apply in_block2 in Hn. apply in_block2 in HB. unfold near. lia.
      + intros n Hn. apply in_outside2 in Hn; auto; try lia. apply Z.lt_le_incl, M3. tauto.
  Qed.
End Two.

(** * One dimension *)
Section One.
  Variables (nl cols : nat) (px pg : nat -> nat -> Z) (sizes : list nat) (tiny : Z -> bool) (gradient : list Z -> bool).
  Definition val1 (c : cell1) : Z := let '(k, i) := c in px k i.
  Definition patch1 (c : cell1) : list Z := let '(k, i) := c in map (pg k) (around i).
  Lemma in_block1 k i c : In c (block1 k i) <-> let '(k', i') := c in k <= k' <= k + 1 /\ i <= i' <= i + 1.
  Proof.
    destruct c as [k' i']. unfold block1. cbn [In]. split.
    - intros H. repeat (destruct H as [H|H]; [injection H as <- <-; lia|]). easy.
    - intros (H1 & H3). assert (k' = k \/ k' = S k) as [->| ->] by lia; assert (i' = i \/ i' = S i) as [->| ->] by lia; tauto.
  Qed.
  Lemma name1_ok k i m : m < length (block1 k i) -> name1 k i m = nth m (block1 k i) (0, 0).
  Proof. unfold block1. cbn [length]. intros H. do 4 (destruct m as [|m]; [unfold name1, bit; cbn -[Nat.add]; f_equal; lia|]). lia. Qed.
  Definition allow1 (c : cell1) : bool := let '(mk, mi) := c in (mk <=? nl) && (nth mk sizes 0 <=? mi) && (mi + nth mk sizes 0 <? cols).
  Hypothesis Hsizes : nl < length sizes.
  Hypothesis Haligned : forall k, k <= nl -> Nat.Odd k -> 2 <= nth k sizes 0.
  Lemma allowed1_ok c : allowed1 nl cols sizes c = Val (allow1 c).
  Proof.
    destruct c as [k i]. unfold allowed1, allow1. destruct (Nat.ltb_spec nl k), (Nat.leb_spec k nl); try lia; cbn [andb]; auto.
    unfold at_index. rewrite (nth_error_nth' sizes 0) by lia. cbn [omap obind]. f_equal.
  Qed.
  Lemma allow1_spec k i : allow1 (k, i) = true <-> k <= nl /\ inside (nth k sizes 0) i cols.
  Proof. unfold allow1, inside. rewrite !andb_true_iff, !Nat.leb_le, !Nat.ltb_lt. tauto. Qed.
  Lemma in_outside1 k i mk mi n : 1 <= mk -> 1 <= mi -> In (mk, mi) (block1 k i) -> In n (outside1 k i (mk, mi)) <-> adjacent1 (mk, mi) n /\ ~ In n (block1 k i).
  Proof.
    intros H1 H3 Hb. destruct n as [k' i']. rewrite in_block1 in Hb. unfold outside1. rewrite filter_In, in_flat_map, in_block1. unfold adjacent1. rewrite !orb_true_iff, !Nat.ltb_lt.
    assert (N : near mk k' /\ near mi i' <-> exists x, In x (around mk) /\ In (k', i') (map (fun i2 => (x, i2)) (around mi))).
    { split.
      - intros (A & D). exists k'. split; [apply near_around; auto|]. apply in_map_iff. exists i'. split; auto. apply near_around; auto.
      - intros [x [Hx H]]. apply in_map_iff in H. destruct H as [z [E Hz]]. injection E as -> ->. rewrite near_around in Hx by auto. rewrite near_around in Hz by auto. auto. }
    rewrite <- N. split.
    - intros [(A & D) O]. split; [|lia]. split; auto. intros E. injection E as -> ->. lia.
    - intros [[E (A & D)] O]. split; auto. lia.
  Qed.
  Lemma in_blocks1 k i : In (k, i) (blocks1 nl cols sizes) <-> In k (range2 1 (Z.of_nat nl + 1)) /\ In i (range2 (si1 sizes k) (Z.of_nat cols - Z.of_nat (si1 sizes k))).
  Proof.
    unfold blocks1. rewrite in_flat_map. split.
    - intros [k' [Hk H]]. apply in_map_iff in H. destruct H as [i' [E Hi]]. injection E as -> ->. auto.
    - intros (A & D). exists k. split; auto. apply in_map_iff. exists i. auto.
  Qed.
  Lemma block1_bounds k i : In (k, i) (blocks1 nl cols sizes) -> exists s, s = si1 sizes k /\ 3 <= s /\ 1 <= k <= nl /\ Nat.Odd k /\ s <= i /\ i + s < cols.
  Proof.
    rewrite in_blocks1, !range2_in. intros [[a [Ea Ha]] [c [Ec Hc]]]. exists (si1 sizes k). split; [auto|]. split; [unfold si1; lia|]. split; [lia|]. split; [exists a; lia|]. lia.
  Qed.
  Lemma blocks1_NoDup : NoDup (blocks1 nl cols sizes).
  Proof.
    unfold blocks1. apply NoDup_flat_map_x; [apply range2_NoDup| |].
    - intros k _. apply FinFun.Injective_map_NoDup; [|apply range2_NoDup]. intros x y E. injection E. auto.
    - intros k k' b _ _ H H'. apply in_map_iff in H. apply in_map_iff in H'. destruct H as [z [<- _]], H' as [w [E _]]. injection E. auto.
  Qed.
  Lemma blocks1_disjoint b b' c : In b (blocks1 nl cols sizes) -> In b' (blocks1 nl cols sizes) -> In c (let '(k, i) := b in block1 k i) -> In c (let '(k, i) := b' in block1 k i) -> b = b'.
  Proof.
    destruct b as [k i], b' as [k' i'], c as [x z]. rewrite !in_blocks1, !in_block1. intros (A & D) (A' & D') H H'.
    assert (k = k') by (apply (range2_same 1 (Z.of_nat nl + 1) k k' x); tauto). subst k'. assert (i = i') by (eapply range2_same with (x := z); [apply D|apply D'| |]; tauto). congruence.
  Qed.
  Lemma read1_ok k i : k < nl + 2 -> i < cols -> read1 nl cols px (k, i) = Val (px k i).
  Proof. intros H1 H3. unfold read1. apply Nat.ltb_lt in H1, H3. rewrite H1, H3. auto. Qed.
  Definition pure1 (b : cell1) : option (cell1 * bool) := let '(k, i) := b in
    pure_visit cell1 (0, 0) val1 (fun v => 0 <=? v)%Z tiny allow1 (fun c => gradient (patch1 c)) (block1 k i) (outside1 k i).
  Lemma visit1_ok b : In b (blocks1 nl cols sizes) -> visit1 nl cols px pg sizes tiny gradient b = Val (pure1 b).
  Proof.
    destruct b as [k i]. intros Hb. assert (X := block1_bounds k i Hb). destruct X as [s (Es & S3 & K & O & I1 & I2)]. clear Hb.
    assert (A := Haligned k ltac:(lia) O). unfold visit1, pure1. replace (nth k sizes 0 + 1 + (i - si1 sizes k)) with i by (unfold si1 in *; lia).
    apply visit_ok with (d := (0, 0)); [unfold block1; discriminate| | | | | |].
    - intros [k' i'] H. apply in_block1 in H. apply read1_ok; lia.
    - apply name1_ok.
    - intros. apply allowed1_ok.
    - intros [k' i'] [k2 i2] H Ha H'. assert (H0 := H). apply in_block1 in H0. apply in_outside1 in H'; auto; try lia. destruct H' as [[_ (A' & D)] _]. unfold near in *.
      apply allow1_spec in Ha. apply read1_ok; lia.
    - intros [k' i'] H Ha. apply in_block1 in H. apply allow1_spec in Ha. unfold keep1, patch1. rewrite (osequence_ok_x _ (pg k')); [auto|].
      intros i2 H'. rewrite near_around in H' by lia. unfold near in *. unfold readG1. replace (k' <? nl + 3) with true by (symmetry; apply Nat.ltb_lt; lia). replace (i2 <? cols) with true by (symmetry; apply Nat.ltb_lt; lia). auto.
    - intros [k' i'] H Ha. apply in_block1 in H. apply read1_ok; lia.
  Qed.
  Lemma find1_ok : find1 nl cols px pg sizes tiny gradient = Val (collect (map pure1 (blocks1 nl cols sizes))).
  Proof. unfold find1. rewrite (osequence_ok_x _ pure1) by apply visit1_ok. auto. Qed.
  Lemma cell1_dec : forall x y : cell1, {x = y} + {x <> y}.
  Proof. repeat decide equality. Qed.
  Theorem find1_spec : exists ws, find1 nl cols px pg sizes tiny gradient = Val ws /\ NoDup (map fst ws) /\
    (forall k i, In (k, i) (centers_of ws) -> 1 <= k <= nl /\ inside (nth k sizes 0) i cols /\ scanned (nth (base k) sizes 0 + 1) (nth (base k) sizes 0 + 1) i cols /\
       minimum adjacent1 val1 tiny (k, i) /\ gradient (patch1 (k, i)) = true) /\
    (forall k i, 1 <= k <= nl -> scanned (nth (base k) sizes 0 + 1) (nth (base k) sizes 0 + 1) i cols -> inside (nth k sizes 0) i cols ->
       strict_minimum adjacent1 val1 tiny (k, i) -> gradient (patch1 (k, i)) = true -> In (k, i) (centers_of ws)).
  Proof.
    assert (SI : forall k, 1 <= k <= nl -> nth (base k) sizes 0 + 1 = si1 sizes (base k)).
    { intros k Hk. destruct (base_bounds k ltac:(lia)) as [Bk [t Bt]]. assert (A := Haligned (base k) ltac:(lia)). unfold si1. specialize (A ltac:(exists t; lia)). lia. }
    exists (collect (map pure1 (blocks1 nl cols sizes))). split; [apply find1_ok|]. split; [|split].
    - apply collect_NoDup with (cells := fun b => let '(k, i) := b in block1 k i); [apply blocks1_NoDup| |apply blocks1_disjoint].
      intros [k i] c t _ E. apply pure_in in E; [tauto|unfold block1; discriminate].
    - intros k i H. apply centers_in, collect_in in H. destruct H as [[kb ib] [Hb E]]. assert (X := block1_bounds _ _ Hb). destruct X as [s (Es & S3 & K & O & I1 & I2)].
      apply pure_sound in E; [|unfold block1; discriminate]. destruct E as (E1 & E2 & E3 & E4 & E5 & E6). assert (Y := E1). apply in_block1 in Y. apply allow1_spec in E2.
      apply in_blocks1 in Hb. destruct Hb as (B1 & B3). assert (B1' := B1). apply range2_in in B1'. destruct B1' as [t [Bt _]]. assert (BS := base_spec k kb t Bt ltac:(lia)). rewrite SI by lia. rewrite BS.
      split; [lia|]. split; [tauto|]. split; [apply scanned_iff; exists ib; split; [auto|lia]|]. split; [|auto]. split; [apply Z.leb_gt in E3; auto|]. split; [auto|]. intros n Hn. apply E6.
      destruct (in_dec cell1_dec n (block1 kb ib)) as [I|I]; [left; auto|right]. apply in_outside1; auto; lia.
    - intros k i Hk Hi Hi2 (M1 & M2 & M3) Hh. apply centers_in, collect_in. destruct (base_bounds k ltac:(lia)) as [Bk [t Bt]]. rewrite SI in Hi by auto.
      destruct (proj1 (scanned_iff _ _ _ _) Hi) as [ib [I1 I2]]. exists (base k, ib).
      assert (Hb : In (base k, ib) (blocks1 nl cols sizes)). { apply in_blocks1. split; [|auto]. apply range2_in. exists t. split; auto. lia. }
      split; auto. assert (X := block1_bounds _ _ Hb). destruct X as [s (Es & S3 & K & X)]. assert (HB : In (k, i) (block1 (base k) ib)) by (apply in_block1; lia).
      apply pure_complete; [apply cell1_dec|unfold block1; discriminate|auto|apply allow1_spec; split; [lia|auto]|apply Z.leb_gt; auto|auto|auto| |].
      + intros [k' i'] Hn Ne. apply M3. split; [auto|]. apply in_block1 in Hn. apply in_block1 in HB. unfold near. lia.
      + intros n Hn. apply in_outside1 in Hn; auto; try lia. apply Z.lt_le_incl, M3. tauto.
  Qed.
End One.

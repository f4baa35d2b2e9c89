(** Lemmas on mains/cgVoro.cpp. *)
Require Import ZArith QArith List Bool Arith Lia Lqa Sorting.Sorted Permutation.
Require Import Verif.Base Verif.ListX Verif.Traj_Model Verif.Particles_Model Verif.Boo_Model Verif.Corr_Model Verif.RTree_Model Verif.Voro_Model Verif.Voro_Spec.
Import ListNotations.
Local Open Scope nat_scope.

Lemma at_ok {A} (d : A) l i : i < length l -> at_index l i = Val (nth i l d).
Proof. intros H. unfold at_index. rewrite (nth_error_nth' l d H). reflexivity. Qed.
Lemma as_index_ok z : (0 <= z)%Z -> as_index z = Val (Z.to_nat z).
Proof. intros H. unfold as_index. rewrite (proj2 (Z.ltb_ge z 0)) by lia. reflexivity. Qed.
Lemma nth_set {A} (d : A) l i x j : i < length l -> nth j (set_nth i x l) d = if j =? i then x else nth j l d.
Proof.
  intros H. assert (G := set_nth_get i x l j H). destruct (Nat.eqb_spec j i) as [->|Hj].
  - apply nth_error_nth with (d := d) in G. auto.
  - destruct (Nat.lt_ge_cases j (length l)) as [L|L].
    + rewrite (nth_error_nth' l d L) in G. apply nth_error_nth with (d := d) in G. auto.
    + rewrite !nth_overflow; auto. rewrite set_nth_len. auto.
Qed.

Lemma ofold_cons {A W} (f : A -> W -> outcome W) a l w : ofold f (a :: l) w = obind (f a w) (ofold f l).
Proof. reflexivity. Qed.

(** Halving *)
Lemma lower_part before l : forall fuel first len k, len <= fuel -> first <= k <= first + len -> first + len <= length l ->
  (forall i, first <= i < k -> before (nth i l 0%Z) = true) -> (forall i, k <= i < first + len -> before (nth i l 0%Z) = false) -> lower fuel before l first len = k.
Proof.
  induction fuel as [|fuel IH]; intros first len k Hf Hk Hl T F; cbn [lower]; [lia|].
  destruct (Nat.eqb_spec len 0) as [->|Hn]; [lia|]. assert (H2 : len / 2 < len) by (apply Nat.div_lt; lia).
  destruct (Nat.lt_ge_cases (first + len / 2) k) as [L|L].
  - rewrite T by lia. apply IH; try lia; intros; [apply T|apply F]; lia.
  - rewrite F by lia. apply IH; try lia; intros; [apply T|apply F]; lia.
Qed.
Lemma lower_bound_part before a b : Forall (fun z => before z = true) a -> Forall (fun z => before z = false) b -> lower_bound before (a ++ b) = length a.
Proof.
  intros Ha Hb. rewrite Forall_forall in Ha, Hb. unfold lower_bound. apply lower_part; rewrite ?app_length; try lia; intros i Hi.
  - rewrite app_nth1 by lia. apply Ha, nth_In. lia.
  - rewrite app_nth2 by lia. apply Hb, nth_In. lia.
Qed.
(** ... where the elements at the beginning are false too *)
Lemma lower_zero before l : forall fuel len, (forall i, i < len -> before (nth i l 0%Z) = false) -> lower fuel before l 0 len = 0.
Proof.
  induction fuel as [|fuel IH]; intros len F; cbn [lower]; auto. destruct (Nat.eqb_spec len 0) as [->|Hn]; auto. assert (H2 : len / 2 < len) by (apply Nat.div_lt; lia).
  rewrite F by lia. apply IH. intros. apply F. lia.
Qed.
Lemma lower_three before l w k : (forall i, i < w -> before (nth i l 0%Z) = false) -> (forall i, w <= i < k -> before (nth i l 0%Z) = true) -> (forall i, k <= i < length l -> before (nth i l 0%Z) = false) ->
  w <= k -> forall fuel len, len <= fuel -> k <= len <= length l -> lower fuel before l 0 len = 0 \/ lower fuel before l 0 len = k.
Proof.
  intros F1 T F2 Hw. induction fuel as [|fuel IH]; intros len Hf Hl; cbn [lower]; auto. destruct (Nat.eqb_spec len 0) as [->|Hn]; auto. assert (H2 : len / 2 < len) by (apply Nat.div_lt; lia). cbn [Nat.add].
  destruct (Nat.lt_ge_cases (len / 2) k) as [L|L].
  - destruct (Nat.lt_ge_cases (len / 2) w) as [M|M].
    + rewrite F1 by lia. left. apply lower_zero. intros. apply F1. lia.
    + rewrite T by lia. right. apply lower_part; try lia; intros; [apply T|apply F2]; lia.
  - rewrite F2 by lia. apply IH; lia.
Qed.
Lemma sorted_split ngb k : StronglySorted Z.le ngb -> ngb = filter (fun z => (z <? k)%Z) ngb ++ filter (fun z => (k <=? z)%Z) ngb.
Proof.
  induction 1 as [|z l S IH H]; auto. cbn [filter]. destruct (Z.ltb_spec z k) as [L|L].
  - rewrite (proj2 (Z.leb_gt k z)) by lia. cbn. f_equal. auto.
  - rewrite (proj2 (Z.leb_le k z)) by lia. assert (E : filter (fun z => (z <? k)%Z) l = []).
    { rewrite Forall_forall in H. clear IH S. induction l as [|y l IH]; auto. cbn. assert (z <= y)%Z by (apply H; left; auto). rewrite (proj2 (Z.ltb_ge y k)) by lia. apply IH. intros. apply H. right. auto. }
    rewrite E in *. cbn in IH |- *. f_equal. auto.
Qed.
Lemma skip_app {A} (a b : list A) : skipn (length a) (a ++ b) = b.
Proof. rewrite skipn_app, skipn_all, Nat.sub_diag. reflexivity. Qed.
Lemma filter_true {A} (f : A -> bool) l : Forall (fun x => f x = true) (filter f l).
Proof. apply Forall_forall. intros x H. apply filter_In in H. tauto. Qed.
Lemma centres_ok ngb : StronglySorted Z.le ngb -> centres ngb = filter (fun z => (0 <=? z)%Z) ngb.
Proof.
  intros S0. unfold centres. assert (E := sorted_split ngb 0 S0). rewrite E at 1 2. rewrite lower_bound_part, skip_app; auto; [apply filter_true|].
  eapply Forall_impl; [|apply filter_true]. intros z H. cbv beta in H. apply Z.leb_le in H. apply Z.ltb_ge. auto.
Qed.
Lemma near_wall_bulk ngb : StronglySorted Z.le ngb -> near_wall ngb = negb (bulk ngb).
Proof.
  intros H. destruct ngb as [|z l]; auto. cbn [near_wall bulk forallb]. inversion H as [|? ? _ F]; subst. destruct (Z.ltb_spec z 0) as [L|L].
  - rewrite (proj2 (Z.leb_gt 0 z)) by lia. auto.
  - rewrite (proj2 (Z.leb_le 0 z)) by lia. cbn. symmetry. rewrite negb_false_iff. apply forallb_forall. intros y Hy. rewrite Forall_forall in F. apply Z.leb_le. specialize (F y Hy). lia.
Qed.

(** Sums *)
Lemma total_app a b : (Qtotal (a ++ b) == Qtotal a + Qtotal b)%Q.
Proof. induction a as [|x a IH]; [change (Qtotal b == 0 + Qtotal b)%Q; ring|]. change (x + Qtotal (a ++ b) == x + Qtotal a + Qtotal b)%Q. rewrite IH. ring. Qed.

Section First.
  Variable n : nat.
  Definition gives (zs : list Z) (v : Q) (st st' : list Q * list nat) : Prop :=
    length (fst st') = n /\ length (snd st') = n /\ forall p, p < n -> let k := count_occ Z.eq_dec zs (Z.of_nat p) in
      (value (fst st') p == value (fst st) p + Qtotal (repeat v k))%Q /\ nth p (snd st') 0 = nth p (snd st) 0 + k /\ (k = 0 -> value (fst st') p = value (fst st) p).
  Lemma give_one v z st : length (fst st) = n -> length (snd st) = n -> (0 <= z < Z.of_nat n)%Z -> exists st', give v z st = Val st' /\ gives [z] v st st'.
  Proof.
    intros L1 L2 Hz. unfold give, increase, count_up. rewrite as_index_ok by lia. cbn [obind]. rewrite (at_ok 0%Q) by lia. cbn [omap obind]. rewrite (at_ok 0) by lia. cbn [omap obind].
    eexists. split; [reflexivity|]. unfold gives. cbn [fst snd]. rewrite !set_nth_len. split; auto. split; auto. intros p Hp. cbv zeta. unfold value. rewrite !nth_set by lia. cbn [count_occ].
    destruct (Z.eq_dec z (Z.of_nat p)) as [E|E].
    - subst z. rewrite Nat2Z.id, Nat.eqb_refl. cbn [repeat Qtotal fold_right]. split; [ring|]. split; [lia|discriminate].
    - assert (N : (p =? Z.to_nat z) = false) by (apply Nat.eqb_neq; lia). rewrite N. cbn [repeat Qtotal fold_right]. split; [ring|]. split; auto.
  Qed.
  Lemma repeat_total v a b : (Qtotal (repeat v (a + b)) == Qtotal (repeat v a) + Qtotal (repeat v b))%Q.
  Proof. rewrite repeat_app. apply total_app. Qed.
  Lemma give_many v : forall zs st, length (fst st) = n -> length (snd st) = n -> Forall (fun z => (0 <= z < Z.of_nat n)%Z) zs -> exists st', ofold (fun z st => give v z st) zs st = Val st' /\ gives zs v st st'.
  Proof.
    induction zs as [|z zs IH]; intros st L1 L2 F.
    - exists st. split; auto. split; auto. split; auto. intros p Hp. cbn [count_occ repeat Qtotal fold_right]. split; [ring|]. split; auto.
    - inversion F as [|? ? Hz F']; subst. destruct (give_one v z st L1 L2 Hz) as [s1 [E1 [A1 [A2 A3]]]]. destruct (IH s1 A1 A2 F') as [s2 [E2 [B1 [B2 B3]]]].
      exists s2. cbn [ofold]. rewrite E1. cbn [obind]. split; auto. split; auto. split; auto. intros p Hp. cbv zeta in *. destruct (A3 p Hp) as [V1 [D1 Z1]], (B3 p Hp) as [V2 [D2 Z2]].
      change (z :: zs) with ([z] ++ zs). rewrite count_occ_app. split; [|split].
      + rewrite V2, V1, repeat_total. ring.
      + lia.
      + intros H. rewrite Z2 by lia. apply Z1. lia.
  Qed.
  Variables (vols : list Q) (ngbs : list (list Z)).
  Hypothesis (Lv : length vols = n) (Ok : cells_ok n ngbs).
  Lemma ngb_sorted p : StronglySorted Z.le (ngb_of ngbs p).
  Proof. unfold ngb_of. destruct (Nat.lt_ge_cases p (length ngbs)) as [L|L]; [|rewrite nth_overflow by auto; constructor]. destruct Ok as [_ S0 _ _]. rewrite Forall_forall in S0. apply S0, nth_In. auto. Qed.
  Lemma ngb_range p z : In z (ngb_of ngbs p) -> (z < Z.of_nat n)%Z.
  Proof. unfold ngb_of. destruct (Nat.lt_ge_cases p (length ngbs)) as [L|L]; [|rewrite nth_overflow by auto; cbn; tauto]. destruct Ok as [_ _ S0 _]. rewrite Forall_forall in S0. specialize (S0 _ (nth_In ngbs [] L)). rewrite Forall_forall in S0. auto. Qed.
  Definition donors_in (qs : list nat) (p : nat) : list nat :=
    flat_map (fun q => if bulk (ngb_of ngbs q) then repeat q (count_occ Z.eq_dec (Z.of_nat q :: ngb_of ngbs q) (Z.of_nat p)) else []) qs.
  Definition given (qs : list nat) (st st' : list Q * list nat) : Prop :=
    length (fst st') = n /\ length (snd st') = n /\ forall p, p < n ->
      (value (fst st') p == value (fst st) p + Qtotal (map (value vols) (donors_in qs p)))%Q /\ nth p (snd st') 0 = nth p (snd st) 0 + length (donors_in qs p) /\ (donors_in qs p = [] -> value (fst st') p = value (fst st) p).
  Lemma map_rep (f : nat -> Q) q k : map f (repeat q k) = repeat (f q) k.
  Proof. induction k; cbn; congruence. Qed.
  Lemma bulk_in z ngb : bulk ngb = true -> In z ngb -> (0 <= z)%Z.
  Proof. destruct ngb as [|y l]; [discriminate|]. intros H I. unfold bulk in H. rewrite forallb_forall in H. apply Z.leb_le. auto. Qed.
  Lemma given_ok : forall qs st, Forall (fun q => q < n) qs -> length (fst st) = n -> length (snd st) = n ->
    exists st', ofold (fun p st => obind (at_index ngbs p) (fun ngb => if near_wall ngb then Val st else obind (at_index vols p) (fun v => ofold (fun z st => give v z st) (Z.of_nat p :: ngb) st))) qs st = Val st' /\ given qs st st'.
  Proof.
    induction qs as [|q qs IH]; intros st F L1 L2.
    - exists st. split; auto. split; auto. split; auto. intros p Hp. cbn. split; [ring|]. split; auto.
    - apply Forall_cons_iff in F. destruct F as [Hq F']. rewrite ofold_cons. cbv beta. rewrite (at_ok []) by (rewrite (ok_n _ _ Ok); auto). cbn [obind]. change (nth q ngbs []) with (ngb_of ngbs q). rewrite near_wall_bulk by apply ngb_sorted.
      destruct (bulk (ngb_of ngbs q)) eqn:B; cbn [negb].
      + rewrite (at_ok 0%Q) by lia. cbn [obind]. change (nth q vols 0%Q) with (value vols q).
        assert (R : Forall (fun z => (0 <= z < Z.of_nat n)%Z) (Z.of_nat q :: ngb_of ngbs q)).
        { constructor; [lia|]. apply Forall_forall. intros z Hz. split; [eapply bulk_in; eauto|eapply ngb_range; eauto]. }
        destruct (give_many (value vols q) _ st L1 L2 R) as [s1 [E1 [A1 [A2 A3]]]]. rewrite E1. cbn [obind]. destruct (IH s1 F' A1 A2) as [s2 [E2 [B1 [B2 B3]]]]. exists s2. split; auto. split; auto. split; auto.
        intros p Hp. destruct (A3 p Hp) as [V1 [D1 Z1]], (B3 p Hp) as [V2 [D2 Z2]]. unfold donors_in. cbn [flat_map]. rewrite B. fold (donors_in qs p). rewrite map_app, app_length, repeat_length. split; [|split].
        * rewrite V2, V1, total_app, map_rep. ring.
        * lia.
        * intros H. apply app_eq_nil in H. destruct H as [H1 H2]. rewrite Z2 by auto. apply Z1. apply (f_equal (@length nat)) in H1. rewrite repeat_length in H1. auto.
      + destruct (IH st F' L1 L2) as [s2 [E2 B0]]. exists s2. split; auto. unfold given, donors_in in *. cbn [flat_map]. rewrite B. auto.
  Qed.
  Lemma first_pass : exists st, give_all vols ngbs (repeat 0%Q n, repeat 0 n) = Val st /\ length (fst st) = n /\ length (snd st) = n /\
    forall p, p < n -> (value (fst st) p == Qtotal (map (value vols) (donors ngbs p)))%Q /\ nth p (snd st) 0 = length (donors ngbs p) /\ (donors ngbs p = [] -> value (fst st) p = 0%Q).
  Proof.
    unfold give_all. cbn [fst]. rewrite repeat_length. destruct (given_ok (seq 0 n) (repeat 0%Q n, repeat 0 n)) as [st [E [A [B C]]]].
    - apply Forall_forall. intros q Hq. apply in_seq in Hq. lia.
    - apply repeat_length.
    - apply repeat_length.
    - exists st. split; auto. split; auto. split; auto. intros p Hp. unfold donors. rewrite (ok_n _ _ Ok). fold (donors_in (seq 0 n) p). destruct (C p Hp) as [V [D Z0]]. cbn [fst snd] in *. unfold value in *. rewrite nth_repeat in V, D, Z0. split; [|split; auto]. rewrite V. ring.
  Qed.
  (** The means *)
  Lemma mean_first st p : length (fst st) = n -> length (snd st) = n -> p < n -> value (first_means st) p = divided (value (fst st) p) (nth p (snd st) 0).
  Proof.
    intros A B H. unfold first_means, value. rewrite (nth_indep _ 0%Q (divided (fst (0%Q, 0)) (snd (0%Q, 0)))) by (rewrite map_length, combine_length; lia).
    rewrite (map_nth (fun xd => divided (fst xd) (snd xd))). rewrite combine_nth by lia. reflexivity.
  Qed.
  Lemma first_length st : length (fst st) = n -> length (snd st) = n -> length (first_means st) = n.
  Proof. intros A B. unfold first_means. rewrite map_length, combine_length. lia. Qed.
  Lemma after_first : exists cg queue, give_all vols ngbs (repeat 0%Q n, repeat 0 n) = Val (fst (cg, queue), snd (cg, queue)) /\ length cg = n /\ length (first_means (cg, queue)) = n /\
    (forall p, p < n -> donors ngbs p <> [] -> (value (first_means (cg, queue)) p == Qmean (map (value vols) (donors ngbs p)))%Q) /\
    (forall p, p < n -> donors ngbs p = [] -> value (first_means (cg, queue)) p = 0%Q) /\
    left_over ngbs queue = filter (fun p => match donors ngbs p with [] => have_cell ngbs p | _ => false end) (seq 0 n).
  Proof.
    destruct first_pass as [[cg d] [E [A [B C]]]]. exists cg, d. cbn [fst snd] in *. split; auto. split; auto. split; [apply first_length; auto|]. split; [|split].
    - intros p Hp N. destruct (C p Hp) as [V [D _]]. rewrite mean_first by auto. cbn [fst snd]. rewrite D. unfold divided. destruct (Nat.eqb_spec (length (donors ngbs p)) 0) as [Z0|Z0].
      + destruct (donors ngbs p); [congruence|discriminate].
      + rewrite V. unfold Qmean. rewrite map_length. reflexivity.
    - intros p Hp N. destruct (C p Hp) as [V [D Z0]]. rewrite mean_first by auto. cbn [fst snd]. rewrite D, N. cbn. auto.
    - unfold left_over. rewrite B. apply filter_ext_in. intros p Hp. apply in_seq in Hp. destruct (C p ltac:(lia)) as [_ [D _]]. rewrite D. destruct (donors ngbs p); auto.
  Qed.
End First.

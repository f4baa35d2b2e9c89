(** C164: bonds, pairs with a ring of common neighbours, spindles, second shell and clusters do not depend on the numbering. *)
Require Import ZArith QArith List Bool Arith Lia Permutation Sorted Relation_Operators Operators_Properties.
Require Import Verif.Base Verif.SortU Verif.ListX Verif.Box_Model Verif.RTree_Model Verif.RTree_Spec Verif.RTree_Heuristics Verif.Traj_Model Verif.Particles_Model Verif.Particles_Spec Verif.Particles_Props
  Verif.Ngb_Model Verif.Ngb_Spec Verif.Ngb_Proofs Verif.Ngb_Props Verif.Cluster_Model Verif.Cluster_Spec Verif.Cluster_Proofs Verif.Cluster_Props Verif.Alike_Spec Verif.Alike_Props Verif.Relabel_Spec.
Import ListNotations.
Local Open Scope nat_scope.

Lemma renumbered_back s u ngb ngb' : renumbered s u ngb ngb' -> renumbered u s ngb' ngb.
Proof.
  intros (L & S1 & S2 & K). split; [auto|]. rewrite L. split; [auto|]. split; [auto|]. intros i j Hi Hj. destruct (S2 i Hi) as [A1 A2]. destruct (S2 j Hj) as [B1 B2].
  rewrite (K (u i) (u j)) by auto. rewrite A2, B2. tauto.
Qed.
Lemma in_range ngb i j : ngb_ok ngb -> linked ngb i j -> i < length ngb /\ j < length ngb.
Proof. intros H [l [Hi Hj]]. split; [eapply nth_error_lt; eauto|]. eapply H; eauto. Qed.
Lemma exactly_ext n (P Q : nat -> Prop) : (forall x, P x <-> Q x) -> exactly n P -> exactly n Q.
Proof. intros H [l [A [B D]]]. exists l. split; auto. split; auto. intros x. rewrite D. auto. Qed.
Lemma map_nodup (s : nat -> nat) l : (forall i j, In i l -> In j l -> s i = s j -> i = j) -> NoDup l -> NoDup (map s l).
Proof.
  induction l as [|a l IH]; intros Hi Hn; simpl; constructor.
  - rewrite in_map_iff. intros [b [Eb Hb]]. inversion Hn; subst. apply Hi in Eb; simpl; auto. subst; auto.
  - inversion Hn; subst. apply IH; auto. intros; apply Hi; simpl; auto.
Qed.
Lemma rel_length {A B} (R : A -> B -> Prop) : forall (a : list A) (b : list B),
  (forall k k' x x' y, nth_error a k = Some x -> nth_error a k' = Some x' -> R x y -> R x' y -> k = k') -> (forall x, In x a -> exists y, In y b /\ R x y) -> length a <= length b.
Proof.
  induction a as [|x a IH]; intros b Hi Ht; [simpl; lia|]. destruct (Ht x (or_introl eq_refl)) as [y [Hy Hr]]. apply in_split in Hy. destruct Hy as [b1 [b2 ->]].
  rewrite app_length. simpl. enough (length a <= length (b1 ++ b2)) by (rewrite app_length in *; lia). apply IH.
  - intros k k' z z' w H1 H2 H3 H4. assert (S k = S k') by (apply (Hi (S k) (S k') z z' w); auto). lia.
  - intros z Hz. destruct (Ht z (or_intror Hz)) as [w [Hw Hrw]]. exists w. split; auto. apply in_app_iff in Hw. apply in_app_iff. destruct Hw as [Hw|[<-|Hw]]; auto. exfalso.
    apply In_nth_error in Hz. destruct Hz as [m Hm]. assert (S m = 0) by (apply (Hi (S m) 0 z x y); auto). lia.
Qed.

Section Relabel.
  Variables (s u : nat -> nat) (ngb ngb' : list (list nat)).
  Hypotheses (R : renumbered s u ngb ngb') (Ok : ngb_ok ngb) (Ok' : ngb_ok ngb').
  Lemma s_inj i j : i < length ngb -> j < length ngb -> s i = s j -> i = j.
  Proof. intros Hi Hj E. destruct R as (_ & S1 & _). rewrite <- (proj2 (S1 i Hi)), <- (proj2 (S1 j Hj)). congruence. Qed.
  Lemma exactly_moved n (P P' : nat -> Prop) : (forall x, P x -> x < length ngb) -> (forall x, P' x -> x < length ngb) -> (forall x, x < length ngb -> (P x <-> P' (s x))) ->
    exactly n P -> exactly n P'.
  Proof.
    intros HP HP' H [l [N [L I]]]. exists (map s l). destruct R as (Le & S1 & S2 & K). split; [|split; [rewrite map_length; auto|]].
    - apply map_nodup; auto. intros i j Hi Hj. apply I in Hi. apply I in Hj. apply s_inj; auto.
    - intros x. rewrite in_map_iff. split.
      + intros [y [<- Hy]]. apply I in Hy. apply H; auto.
      + intros Hx. destruct (S2 x (HP' x Hx)) as [A1 A2]. exists (u x). split; auto. apply I. apply H; auto. rewrite A2. auto.
  Qed.
  Lemma common_moved p q x : p < length ngb -> q < length ngb -> x < length ngb -> (common ngb p q x <-> common ngb' (s p) (s q) (s x)).
  Proof. intros. destruct R as (Le & S1 & S2 & K). unfold common. rewrite !K by auto. tauto. Qed.
  Lemma common_range p q x : common ngb p q x -> x < length ngb.
  Proof. intros [H _]. apply (in_range ngb p x); auto. Qed.
  Lemma common_range' p q x : common ngb' p q x -> x < length ngb.
  Proof. intros [H _]. destruct R as (Le & _). rewrite <- Le. apply (in_range ngb' p x); auto. Qed.
  Lemma exactly_common n p q : p < length ngb -> q < length ngb -> exactly n (common ngb p q) -> exactly n (common ngb' (s p) (s q)).
  Proof. intros Hp Hq. apply exactly_moved; [apply common_range|apply common_range'|]. intros x Hx. apply common_moved; auto. Qed.
  Lemma ring_moved p q : p < length ngb -> q < length ngb -> ring ngb (common ngb p q) -> ring ngb' (common ngb' (s p) (s q)).
  Proof.
    intros Hp Hq H y Hy. destruct R as (Le & S1 & S2 & K). destruct (S2 y (common_range' _ _ _ Hy)) as [A1 A2]. rewrite <- A2 in Hy |- *. apply common_moved in Hy; auto.
    specialize (H _ Hy). revert H. apply exactly_moved.
    - intros x [Hx _]. apply (common_range p q); auto.
    - intros x [Hx _]. apply (common_range' (s p) (s q)); auto.
    - intros x Hx. rewrite (common_moved p q x), (K (u y) x) by auto. tauto.
  Qed.
  Lemma pairs_moved (T T' : nat -> nat -> Prop) b b' : (forall p q, T p q -> p < length ngb /\ q < length ngb) -> (forall p q, p < length ngb -> q < length ngb -> T p q -> T' (s p) (s q)) ->
    (forall p q, T' p q -> T' q p) -> NoDup b -> (forall p q, In (p, q) b <-> p < q /\ T p q) -> (forall p q, In (p, q) b' <-> p < q /\ T' p q) ->
    length b <= length b' /\ forall p q, joins b p q -> joins b' (s p) (s q).
  Proof.
    intros HT HTT Hsym N I I'. assert (J : forall p q, joins b p q -> joins b' (s p) (s q)).
    { assert (G : forall p q, In (p, q) b -> joins b' (s p) (s q)).
      { intros p q Hpq. apply I in Hpq. destruct Hpq as [Hlt Ht]. destruct (HT _ _ Ht) as [Hp Hq]. assert (Hne : s p <> s q) by (intros E; apply s_inj in E; auto; lia).
        destruct (Nat.lt_ge_cases (s p) (s q)); [left|right]; apply I'; split; auto; lia. }
      intros p q [H|H]; [auto|]. destruct (G _ _ H); [right|left]; auto. }
    split; auto. apply (rel_length (fun x y => fst y < snd y /\ ((fst y = s (fst x) /\ snd y = s (snd x)) \/ (fst y = s (snd x) /\ snd y = s (fst x))))).
    - intros k k' [p q] [p' q'] [a c] H1 H2 [Hac E1] [_ E2]. cbn [fst snd] in *. assert (B1 := proj1 (I p q) (nth_error_In _ _ H1)). assert (B2 := proj1 (I p' q') (nth_error_In _ _ H2)).
      destruct B1 as [L1 T1]. destruct B2 as [L2 T2]. destruct (HT _ _ T1). destruct (HT _ _ T2). assert (E : p = p' /\ q = q').
      { destruct E1 as [[-> ->]|[-> ->]], E2 as [[E3 E4]|[E3 E4]]; apply s_inj in E3; auto; apply s_inj in E4; auto; lia. }
      destruct E as [-> ->]. apply (proj1 (NoDup_nth_error b) N); [eapply nth_error_lt; eauto|congruence].
    - intros [p q] Hpq. destruct (J p q (or_introl Hpq)) as [H|H]; eexists; (split; [exact H|]); apply I' in H; cbn [fst snd]; split; try tauto.
  Qed.
End Relabel.

Lemma pairs_same s u ngb ngb' (T T' : nat -> nat -> Prop) b b' : renumbered s u ngb ngb' ->
  (forall p q, T p q -> p < length ngb /\ q < length ngb) -> (forall p q, T' p q -> p < length ngb' /\ q < length ngb') ->
  (forall p q, p < length ngb -> q < length ngb -> T p q -> T' (s p) (s q)) -> (forall p q, p < length ngb' -> q < length ngb' -> T' p q -> T (u p) (u q)) ->
  (forall p q, T p q -> T q p) -> (forall p q, T' p q -> T' q p) -> NoDup b -> NoDup b' ->
  (forall p q, In (p, q) b <-> p < q /\ T p q) -> (forall p q, In (p, q) b' <-> p < q /\ T' p q) -> same_bonds s (length ngb) b b'.
Proof.
  intros R H1 H2 H3 H4 H5 H6 N N' I I'. destruct (pairs_moved s u ngb ngb' R T T' b b') as [A1 A2]; auto.
  destruct (pairs_moved u s ngb' ngb (renumbered_back _ _ _ _ R) T' T b' b) as [B1 B2]; auto.
  split; [lia|]. intros p q Hp Hq. split; auto. intros J. apply B2 in J. destruct R as (_ & S1 & _). rewrite (proj2 (S1 p Hp)), (proj2 (S1 q Hq)) in J. auto.
Qed.
Lemma lex_nodup b : StronglySorted lex b -> NoDup b.
Proof.
  induction 1; constructor; auto. intros Hin. rewrite Forall_forall in H0. apply H0 in Hin. apply lex_irrefl in Hin. auto.
Qed.
Lemma common_swap ngb p q x : common ngb p q x <-> common ngb q p x.
Proof. unfold common. tauto. Qed.
Lemma ring_swap ngb p q : ring ngb (common ngb p q) -> ring ngb (common ngb q p).
Proof. intros H x Hx. apply common_swap in Hx. specialize (H x Hx). revert H. apply exactly_ext. intros y. rewrite common_swap. tauto. Qed.
Lemma sym_moved s u ngb ngb' : renumbered s u ngb ngb' -> ngb_ok ngb' -> symmetric ngb -> symmetric ngb'.
Proof.
  intros R Ok' Hs i j Hl. destruct (in_range _ _ _ Ok' Hl) as [Hi Hj]. destruct R as (L & S1 & S2 & K). rewrite L in Hi, Hj. destruct (S2 i Hi) as [A1 A2]. destruct (S2 j Hj) as [B1 B2].
  rewrite <- A2, <- B2 in Hl |- *. apply K; auto. apply Hs. apply K; auto.
Qed.
Lemma exactly_some n (P : nat -> Prop) : exactly (S n) P -> exists x, P x.
Proof. intros [[|a l] [_ [L I]]]; [discriminate|]. exists a. apply I. simpl; auto. Qed.

Theorem C164_bonds s u ngb ngb' : ngb_ok ngb -> ngb_ok ngb' -> symmetric ngb -> irreflexive ngb -> irreflexive ngb' -> renumbered s u ngb ngb' ->
  same_bonds s (length ngb) (ngb2bonds ngb) (ngb2bonds ngb').
Proof.
  intros Ok Ok' Hs Hi Hi' R. assert (Hs' := sym_moved _ _ _ _ R Ok' Hs). destruct (C34_round_trip_back ngb Ok Hs Hi) as ([B1 _] & B2 & _). destruct (C34_round_trip_back ngb' Ok' Hs' Hi') as ([D1 _] & D2 & _).
  apply (pairs_same s u ngb ngb' (linked ngb) (linked ngb')); auto; try (intros; apply in_range; auto); try (apply lex_nodup; auto).
  - intros p q Hp Hq. apply R; auto.
  - intros p q Hp Hq. apply (renumbered_back _ _ _ _ R); auto.
Qed.
Theorem C164_1551 s u ngb ngb' : ngb_ok ngb -> ngb_ok ngb' -> symmetric ngb -> renumbered s u ngb ngb' ->
  exists b b', get1551pairs ngb = Some b /\ get1551pairs ngb' = Some b' /\ same_bonds s (length ngb) b b'.
Proof.
  intros Ok Ok' Hs R. assert (Hs' := sym_moved _ _ _ _ R Ok' Hs). assert (Rb := renumbered_back _ _ _ _ R). destruct (C36_1551 ngb Ok) as (b & E & B1 & B2). destruct (C36_1551 ngb' Ok') as (b' & E' & D1 & D2).
  exists b, b'. split; auto. split; auto.
  apply (pairs_same s u ngb ngb' (fun p q => linked ngb p q /\ exactly 5 (common ngb p q) /\ ring ngb (common ngb p q)) (fun p q => linked ngb' p q /\ exactly 5 (common ngb' p q) /\ ring ngb' (common ngb' p q)));
    auto; try (intros p q [H _]; apply in_range; auto); try (apply lex_nodup; auto).
  - intros p q Hp Hq (H1 & H2 & H3). split; [apply R; auto|]. split; [apply (exactly_common s u ngb ngb'); auto|apply (ring_moved s u ngb ngb'); auto].
  - intros p q Hp Hq (H1 & H2 & H3). split; [apply Rb; auto|]. split; [apply (exactly_common u s ngb' ngb); auto|apply (ring_moved u s ngb' ngb); auto].
  - intros p q (H1 & H2 & H3). split; auto. split; [|apply ring_swap; auto]. revert H2. apply exactly_ext. apply common_swap.
  - intros p q (H1 & H2 & H3). split; auto. split; [|apply ring_swap; auto]. revert H2. apply exactly_ext. apply common_swap.
Qed.
Theorem C164_2331 s u ngb ngb' : ngb_ok ngb -> ngb_ok ngb' -> symmetric ngb -> renumbered s u ngb ngb' ->
  exists b b', get2331pairs ngb = Some b /\ get2331pairs ngb' = Some b' /\ same_bonds s (length ngb) b b'.
Proof.
  intros Ok Ok' Hs R. assert (Hs' := sym_moved _ _ _ _ R Ok' Hs). assert (Rb := renumbered_back _ _ _ _ R). destruct (C36_2331 ngb Ok Hs) as (b & E & B1 & B2). destruct (C36_2331 ngb' Ok' Hs') as (b' & E' & D1 & D2).
  exists b, b'. split; auto. split; auto.
  assert (Rg : forall g p q, ngb_ok g -> exactly 3 (common g p q) -> p < length g /\ q < length g).
  { intros g p q Og H. apply exactly_some in H. destruct H as [x [H1 H2]]. split; [apply (in_range g p x)|apply (in_range g q x)]; auto. }
  apply (pairs_same s u ngb ngb' (fun p q => ~ linked ngb p q /\ exactly 3 (common ngb p q) /\ ring ngb (common ngb p q)) (fun p q => ~ linked ngb' p q /\ exactly 3 (common ngb' p q) /\ ring ngb' (common ngb' p q)));
    auto; try (intros p q (_ & H & _); apply Rg; auto); try (apply lex_nodup; auto).
  - intros p q Hp Hq (H1 & H2 & H3). split; [intros Hl; apply H1; apply R; auto|]. split; [apply (exactly_common s u ngb ngb'); auto|apply (ring_moved s u ngb ngb'); auto].
  - intros p q Hp Hq (H1 & H2 & H3). split; [intros Hl; apply H1; apply Rb; auto|]. split; [apply (exactly_common u s ngb' ngb); auto|apply (ring_moved u s ngb' ngb); auto].
  - intros p q (H1 & H2 & H3). split; auto. split; [|apply ring_swap; auto]. revert H2. apply exactly_ext. apply common_swap.
  - intros p q (H1 & H2 & H3). split; auto. split; [|apply ring_swap; auto]. revert H2. apply exactly_ext. apply common_swap.
Qed.
Theorem C164_second_shell s u ngb ngb' : ngb_ok ngb -> ngb_ok ngb' -> symmetric ngb -> renumbered s u ngb ngb' ->
  exists b b', get_second_shell ngb = Some b /\ get_second_shell ngb' = Some b' /\ same_bonds s (length ngb) b b'.
Proof.
  intros Ok Ok' Hs R. assert (Hs' := sym_moved _ _ _ _ R Ok' Hs). assert (Rb := renumbered_back _ _ _ _ R). destruct (C42_second_shell ngb Ok) as (b & E & B1 & B2). destruct (C42_second_shell ngb' Ok') as (b' & E' & D1 & D2).
  exists b, b'. split; auto. split; auto.
  apply (pairs_same s u ngb ngb' (fun p q => exists c, linked ngb p c /\ linked ngb c q) (fun p q => exists c, linked ngb' p c /\ linked ngb' c q));
    auto; try (intros p q [x [H1 H2]]; split; [apply (in_range _ p x)|apply (in_range _ x q)]; auto); try (apply lex_nodup; auto).
  - intros p q Hp Hq [x [H1 H2]]. destruct (in_range _ _ _ Ok H1) as [_ Hx]. exists (s x). split; apply R; auto.
  - intros p q Hp Hq [x [H1 H2]]. destruct (in_range _ _ _ Ok' H1) as [_ Hx]. exists (u x). split; apply Rb; auto.
  - intros p q [x [H1 H2]]. exists x. split; apply Hs; auto.
  - intros p q [x [H1 H2]]. exists x. split; apply Hs'; auto.
Qed.

(** The pairs of axis and shell of the spindles: the two ends of the axis are bonded and have exactly five common neighbours. *)
Theorem C164_sp5c s u ngb ngb' : ngb_ok ngb -> ngb_ok ngb' -> symmetric ngb -> renumbered s u ngb ngb' ->
  exists r r', get_sp5c ngb = Some r /\ get_sp5c ngb' = Some r' /\ length r' = length r /\
    forall p q l, In (p :: q :: l) r -> exists p' q' l', In (p' :: q' :: l') r' /\ ((p' = s p /\ q' = s q) \/ (p' = s q /\ q' = s p)) /\ Permutation l' (map s l).
Proof.
  intros Ok Ok' Hs R. assert (Hs' := sym_moved _ _ _ _ R Ok' Hs). assert (Rb := renumbered_back _ _ _ _ R). destruct (C36_sp5c ngb Ok) as (r & E & N & B). destruct (C36_sp5c ngb' Ok') as (r' & E' & N' & B').
  exists r, r'. split; auto. split; auto. set (ax := fun v : list nat => (nth 0 v 0, nth 1 v 0)).
  assert (G : forall g r, ngb_ok g -> NoDup r -> (forall v, In v r <-> exists p q l, v = p :: q :: l /\ p < q /\ linked g p q /\ length l = 5 /\ StronglySorted lt l /\ forall x, In x l <-> common g p q x) ->
    NoDup (map ax r) /\ forall p q, In (p, q) (map ax r) <-> p < q /\ linked g p q /\ exactly 5 (common g p q)).
  { clear. intros g r Og N B. split.
    - assert (I : forall v w, In v r -> In w r -> ax v = ax w -> v = w).
      { intros v w Hv Hw He. apply B in Hv. apply B in Hw. destruct Hv as (p & q & l & -> & _ & _ & _ & Sl & Il). destruct Hw as (p' & q' & l' & -> & _ & _ & _ & Sl' & Il'). unfold ax in He. simpl in He. injection He as <- <-.
        f_equal. f_equal. apply ssorted_ext; auto. intros x. rewrite Il, Il'. tauto. }
      clear B. induction N as [|v r Hv N IH]; simpl; constructor.
      + rewrite in_map_iff. intros [w [Ew Hw]]. apply I in Ew; simpl; auto. subst. auto.
      + apply IH. intros; apply I; simpl; auto.
    - intros p q. rewrite in_map_iff. split.
      + intros [v [Ev Hv]]. apply B in Hv. destruct Hv as (p' & q' & l & -> & H1 & H2 & H3 & H4 & H5). unfold ax in Ev. simpl in Ev. injection Ev as <- <-. split; auto. split; auto. exists l. split; [|auto]. clear -H4.
        induction H4; constructor; auto. intros Hin. rewrite Forall_forall in H. apply H in Hin. lia.
      + intros (H1 & H2 & H3). destruct (Og p) with (l := nth p g []) as [Sp _]; [apply nth_error_nth'; apply (in_range g p q); auto|]. destruct (Og q) with (l := nth q g []) as [Sq _]; [apply nth_error_nth'; apply (in_range g p q); auto|].
        destruct H3 as [l [Nl [Ll Il]]]. destruct (set_inter_spec (nth p g []) (nth q g []) Sp Sq) as [I1 I2]. set (l' := set_inter (nth p g []) (nth q g [])) in *.
        destruct (in_range g p q Og H2) as [Hp Hq].
        assert (Il' : forall x, In x l' <-> common g p q x).
        { intros x. rewrite I2. unfold common, linked. split.
          - intros [A1 A2]. split; [exists (nth p g [])|exists (nth q g [])]; (split; [apply nth_error_nth'; auto|auto]).
          - intros [[a [A1 A2]] [b [B1 B2]]]. rewrite (nth_error_nth _ _ _ A1), (nth_error_nth _ _ _ B1). auto. }
        exists (p :: q :: l'). split; [reflexivity|]. apply B. exists p, q, l'. split; auto. split; auto. split; auto. split; [|auto]. rewrite <- Ll. apply Nat.le_antisymm; apply NoDup_incl_length; auto.
        * clear -I1. induction I1; constructor; auto. intros Hin. rewrite Forall_forall in H. apply H in Hin. lia.
        * intros x Hx. apply Il, Il'. auto.
        * intros x Hx. apply Il', Il. auto. }
  destruct (G ngb r Ok N B) as [M J]. destruct (G ngb' r' Ok' N' B') as [M' J'].
  assert (SB : same_bonds s (length ngb) (map ax r) (map ax r')).
  { apply (pairs_same s u ngb ngb' (fun p q => linked ngb p q /\ exactly 5 (common ngb p q)) (fun p q => linked ngb' p q /\ exactly 5 (common ngb' p q))); auto; try (intros p q [H _]; apply in_range; auto).
    - intros p q Hp Hq (H1 & H2). split; [apply R; auto|apply (exactly_common s u ngb ngb'); auto].
    - intros p q Hp Hq (H1 & H2). split; [apply Rb; auto|apply (exactly_common u s ngb' ngb); auto].
    - intros p q (H1 & H2). split; auto. revert H2. apply exactly_ext. apply common_swap.
    - intros p q (H1 & H2). split; auto. revert H2. apply exactly_ext. apply common_swap. }
  destruct SB as [SL SJ]. rewrite !map_length in SL. split; auto. intros p q l Hv. assert (Hax : joins (map ax r) p q) by (left; apply in_map_iff; exists (p :: q :: l); auto).
  assert (Hv' := proj1 (B _) Hv). destruct Hv' as (p0 & q0 & l0 & Ev & H1 & H2 & H3 & H4 & H5). injection Ev as <- <- <-. destruct (in_range _ _ _ Ok H2) as [Hp Hq].
  apply SJ in Hax; auto. assert (Nl : forall m, StronglySorted lt m -> NoDup m). { clear. induction 1; constructor; auto. intros Hin. rewrite Forall_forall in H0. apply H0 in Hin. lia. }
  assert (Hl : forall p' q' l', (forall x, In x l' <-> common ngb' p' q' x) -> StronglySorted lt l' -> ((p' = s p /\ q' = s q) \/ (p' = s q /\ q' = s p)) -> Permutation l' (map s l)).
  { intros p' q' l' Il Sl Hor. assert (Il2 : forall x, In x l' <-> common ngb' (s p) (s q) x) by (intros x; rewrite Il; destruct Hor as [[-> ->]|[-> ->]]; [tauto|apply common_swap]).
    apply NoDup_Permutation; auto.
    - apply map_nodup; auto. intros i j Hi Hj. apply (s_inj s u ngb ngb' R); eapply (common_range ngb Ok p q); apply H5; auto.
    - intros x. rewrite Il2, in_map_iff. split.
      + intros Hx. assert (Hxr := common_range' s u ngb ngb' R Ok' _ _ _ Hx). destruct R as (L & S1 & S2 & K). destruct (S2 x Hxr) as [A1 A2]. exists (u x). split; auto. apply H5. rewrite <- A2 in Hx.
        apply (common_moved s u ngb ngb' (conj L (conj S1 (conj S2 K)))) in Hx; auto.
      + intros [y [<- Hy]]. apply H5 in Hy. apply (common_moved s u ngb ngb' R); auto. apply (common_range ngb Ok p q); auto. }
  destruct Hax as [Ha|Ha]; apply in_map_iff in Ha; destruct Ha as [v [Ev Hin]]; assert (Hin' := proj1 (B' _) Hin); destruct Hin' as (p' & q' & l' & -> & K1 & K2 & K3 & K4 & K5); unfold ax in Ev; simpl in Ev; injection Ev as Ep Eq;
    exists p', q', l'; (split; [auto|]); (split; [auto|]); apply (Hl p' q'); auto.
Qed.

Lemma connected_moved s u ngb ngb' x y : renumbered s u ngb ngb' ->
  connected ngb (seq 0 (length ngb)) x y -> connected ngb' (seq 0 (length ngb')) (s x) (s y).
Proof.
  intros R (Hx & Hy & H). assert (R' := R). destruct R' as (L & S1 & S2 & K). assert (G : forall z, In z (seq 0 (length ngb)) -> In (s z) (seq 0 (length ngb'))).
  { intros z Hz. apply in_seq in Hz. apply in_seq. rewrite L. assert (Hz' : z < length ngb) by lia. apply S1 in Hz'. lia. }
  split; auto. split; auto. clear Hx Hy. induction H as [a b H|a|a b c H1 IH1 H2 IH2]; [|apply rt_refl|eapply rt_trans; eauto].
  apply rt_step. destruct H as (Ha & Hb & Hl). split; auto. split; auto. apply K; auto; apply in_seq in Ha; apply in_seq in Hb; lia.
Qed.
Theorem C164_clusters s u ngb ngb' : ngb_ok ngb -> ngb_ok ngb' -> symmetric ngb -> renumbered s u ngb ngb' ->
  exists cls cls', segregate_all ngb (length ngb) = Some cls /\ segregate_all ngb' (length ngb') = Some cls' /\ length cls' = length cls /\
    forall cl, In cl cls -> exists cl', In cl' cls' /\ Permutation cl' (map s cl).
Proof.
  assert (G : forall s u ngb ngb' cls cls', renumbered s u ngb ngb' -> classes (connected ngb (seq 0 (length ngb))) (seq 0 (length ngb)) cls -> classes (connected ngb' (seq 0 (length ngb'))) (seq 0 (length ngb')) cls' ->
    length cls <= length cls' /\ forall cl, In cl cls -> exists cl', In cl' cls' /\ Permutation cl' (map s cl)).
  { clear. intros s u ngb ngb' cls cls' R (A1 & A2 & A3 & A4) (B1 & B2 & B3 & B4). assert (Rb := renumbered_back _ _ _ _ R). assert (R' := R). destruct R' as (L & S1 & S2 & K).
    assert (Nl : forall m, StronglySorted lt m -> NoDup m). { clear. induction 1; constructor; auto. intros Hin. rewrite Forall_forall in H0. apply H0 in Hin. lia. }
    assert (Rg : forall cl x, In cl cls -> In x cl -> x < length ngb). { intros cl x H1 H2. assert (In x (seq 0 (length ngb))) by (apply A1; eauto). apply in_seq in H. lia. }
    assert (Rg' : forall cl x, In cl cls' -> In x cl -> x < length ngb). { intros cl x H1 H2. assert (In x (seq 0 (length ngb'))) by (apply B1; eauto). apply in_seq in H. lia. }
    assert (M : forall cl, In cl cls -> exists cl', In cl' cls' /\ Permutation cl' (map s cl)).
    { intros cl Hcl. destruct (In_nth_error _ _ Hcl) as [k Hk]. destruct (A2 k cl Hk) as [Hne Hss]. destruct cl as [|x cl0] eqn:Ecl; [congruence|]. rewrite <- Ecl in *.
      assert (Hx : In x cl) by (subst; simpl; auto). assert (Hsx : In (s x) (seq 0 (length ngb'))) by (apply in_seq; rewrite L; specialize (Rg _ _ Hcl Hx); apply S1 in Rg; lia).
      apply B1 in Hsx. destruct Hsx as [cl' [Hcl' Hin']]. exists cl'. split; auto. destruct (In_nth_error _ _ Hcl') as [k' Hk']. destruct (B2 k' cl' Hk') as [_ Hss'].
      apply NoDup_Permutation; auto.
      - apply map_nodup; auto. intros i j Hi Hj. apply (s_inj s u ngb ngb' R); eapply Rg; eauto.
      - intros y. rewrite in_map_iff. split.
        + intros Hy. destruct (S2 y (Rg' _ _ Hcl' Hy)) as [U1 U2]. exists (u y). split; auto. apply (A4 cl x); auto. apply (B4 cl' (s x)) in Hy; auto. apply (connected_moved u s ngb' ngb) in Hy; auto.
          rewrite (proj2 (S1 x (Rg _ _ Hcl Hx))) in Hy. auto.
        + intros [z [<- Hz]]. apply (B4 cl' (s x)); auto. apply (connected_moved s u ngb ngb'); auto. apply (A4 cl); auto. }
    split; auto. apply (rel_length (fun cl cl' => Permutation cl' (map s cl))); auto.
    intros k k' cl cl2 cl' H1 H2 P1 P2. destruct (A2 k cl H1) as [Hne _]. destruct cl as [|x cl0] eqn:Ecl; [congruence|]. rewrite <- Ecl in *. assert (Hx : In x cl) by (subst; simpl; auto).
    assert (Hs : In (s x) (map s cl2)) by (apply (Permutation_in _ P2), (Permutation_in _ (Permutation_sym P1)), in_map; auto). apply in_map_iff in Hs. destruct Hs as [y [Ey Hy]].
    apply (s_inj s u ngb ngb' R) in Ey; [|eapply Rg; eauto; eapply nth_error_In; eauto|eapply Rg; eauto; eapply nth_error_In; eauto]. subst y. eapply A3; eauto. }
  intros Ok Ok' Hs R. assert (Hs' := sym_moved _ _ _ _ R Ok' Hs). destruct (C46_all ngb Hs) as [cls [E F]]. destruct (C46_all ngb' Hs') as [cls' [E' F']]. exists cls, cls'. split; auto. split; auto.
  destruct (G s u ngb ngb' cls cls' R F F') as [L1 M]. destruct (G u s ngb' ngb cls' cls (renumbered_back _ _ _ _ R) F' F) as [L2 _]. split; auto. lia.
Qed.

(** The neighbour lists of two samples with the same distances up to a factor meet all these hypotheses. *)
Theorem C164_samples c c' l l' bb bb' r r' ops ops' bn bd bn' bd' k s :
  config_ok c -> dims c = 3 -> Forall point3 l -> Forall pop_ok ops -> indexed ops = true ->
  config_ok c' -> dims c' = 3 -> Forall point3 l' -> Forall pop_ok ops' -> indexed ops' = true ->
  alike k s (positions l ops) (positions l' ops') ->
  exists st st' ngb ngb', prun c (new_particles l bb r) ops = Some st /\ prun c' (new_particles l' bb' r') ops' = Some st' /\
    make_ngb_list st bn bd = Val ngb /\ make_ngb_list st' bn' bd' = Val ngb' /\
    ((2 * bn' * pradius st' / bd')%Z = (k * (2 * bn * pradius st / bd))%Z ->
      ngb_ok ngb /\ ngb_ok ngb' /\ symmetric ngb /\ irreflexive ngb /\ irreflexive ngb' /\ exists u, renumbered s u ngb ngb').
Proof.
  intros O1 D1 F1 P1 I1 O2 D2 F2 P2 I2 A.
  destruct (C163_neighbours c c' l l' bb bb' r r' ops ops' bn bd bn' bd' k s O1 D1 F1 P1 I1 O2 D2 F2 P2 I2 A) as (st & st' & ngb & ngb' & E & E' & M & M' & K).
  exists st, st', ngb, ngb'. repeat (split; [assumption|]). intros Hsep. destruct (K Hsep) as [K1 _].
  destruct (C33_ngb_list c l bb r ops bn bd O1 D1 F1 P1 I1) as (st1 & ngb1 & E1 & N1 & L1 & S1 & Q1 & Y1). rewrite E in E1. injection E1 as <-. rewrite M in N1. injection N1 as <-.
  destruct (C33_ngb_list c' l' bb' r' ops' bn' bd' O2 D2 F2 P2 I2) as (st2 & ngb2 & E2 & N2 & L2 & S2 & Q2 & Y2). rewrite E' in E2. injection E2 as <-. rewrite M' in N2. injection N2 as <-.
  split. { intros i ids Hi. split; eauto. intros j Hj. rewrite L1. destruct (proj1 (Q1 i j)) as (p & q & _ & Hq & _); [exists ids; auto|]. eapply nth_error_lt; eauto. }
  split. { intros i ids Hi. split; eauto. intros j Hj. rewrite L2. destruct (proj1 (Q2 i j)) as (p & q & _ & Hq & _); [exists ids; auto|]. eapply nth_error_lt; eauto. }
  split. { intros i j. apply Y1. }
  split. { intros i Hi. apply Q1 in Hi. destruct Hi as (p & q & _ & _ & H & _). congruence. }
  split. { intros i Hi. apply Q2 in Hi. destruct Hi as (p & q & _ & _ & H & _). congruence. }
  destruct A as (_ & LL & T1 & T2 & _). set (n := length (positions l ops)) in *. exists (fun j => hd 0 (filter (fun i => s i =? j) (seq 0 n))).
  assert (U : forall j, j < n -> let i := hd 0 (filter (fun i => s i =? j) (seq 0 n)) in i < n /\ s i = j).
  { intros j Hj i. assert (Hin : In j (map s (seq 0 n))) by (apply (Permutation_in _ (Permutation_sym (renumber_all n s T1 T2))), in_seq; lia). apply in_map_iff in Hin. destruct Hin as [i0 [E0 H0]].
    assert (Hf : In i0 (filter (fun i => s i =? j) (seq 0 n))) by (apply filter_In; split; auto; apply Nat.eqb_eq; auto). subst i. destruct (filter (fun i => s i =? j) (seq 0 n)) as [|a m] eqn:Em; [destruct Hf|]. simpl.
    assert (Ha : In a (filter (fun i => s i =? j) (seq 0 n))) by (rewrite Em; simpl; auto). apply filter_In in Ha. destruct Ha as [Ha Hb]. apply in_seq in Ha. apply Nat.eqb_eq in Hb. split; [lia|auto]. }
  split; [congruence|]. rewrite L1. split; [|split; auto].
  intros i Hi. split; auto. destruct (U (s i) (T1 i Hi)) as [U1 U2]. apply T2; auto.
Qed.

(** A triangle with a tail and a lone particle, numbered backwards. *)
Definition ex_net : list (list nat) := [[1; 2]; [0; 2]; [0; 1; 3]; [2]; []].
Definition ex_net' : list (list nat) := [[]; [2]; [1; 3; 4]; [2; 4]; [2; 3]].
Definition ex_rev (i : nat) : nat := 4 - i.
Example C164_case : ngb_ok ex_net /\ ngb_ok ex_net' /\ symmetric ex_net /\ renumbered ex_rev ex_rev ex_net ex_net' /\ segregate_all ex_net 5 = Some [[0; 1; 2; 3]; [4]] /\ segregate_all ex_net' 5 = Some [[0]; [1; 2; 3; 4]] /\
  get_second_shell ex_net = Some [(0, 1); (0, 2); (0, 3); (1, 2); (1, 3)] /\ get_second_shell ex_net' = Some [(1, 3); (1, 4); (2, 3); (2, 4); (3, 4)].
Proof.
  split; [apply ngb_ok_dec; reflexivity|]. split; [apply ngb_ok_dec; reflexivity|]. split; [apply symmetric_dec; reflexivity|]. split; [|repeat split].
  split; [reflexivity|]. split; [intros i Hi; unfold ex_rev; change (length ex_net) with 5 in *; lia|]. split; [intros i Hi; unfold ex_rev; change (length ex_net) with 5 in *; lia|].
  intros i j Hi Hj. assert (D : forall g i j, linked g i j <-> existsb (Nat.eqb j) (nth i g []) = true).
  { clear. intros g i j. unfold linked. rewrite existsb_exists. split.
    - intros [l [H1 H2]]. rewrite (nth_error_nth _ _ _ H1). exists j. split; auto. apply Nat.eqb_refl.
    - intros [x [H1 H2]]. apply Nat.eqb_eq in H2. subst x. exists (nth i g []). split; auto. apply nth_error_nth'. destruct (Nat.lt_ge_cases i (length g)); auto. rewrite nth_overflow in H1 by auto. destruct H1. }
  rewrite !D. simpl in Hi, Hj. destruct i as [|[|[|[|[|i]]]]]; try lia; (destruct j as [|[|[|[|[|j]]]]]; try lia); vm_compute; split; auto.
Qed.

Print Assumptions C164_bonds.
Print Assumptions C164_1551.
Print Assumptions C164_2331.
Print Assumptions C164_second_shell.
Print Assumptions C164_sp5c.
Print Assumptions C164_clusters.
Print Assumptions C164_samples.

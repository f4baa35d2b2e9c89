(** C163: the neighbours, the pair distribution and the removal of close particles depend on the distances between particles only. *)
Require Import ZArith List Bool Arith Lia Sorted Permutation.
Require Import Verif.Base Verif.SortU Verif.ListX Verif.Box_Model Verif.Box_Spec Verif.RTree_Model Verif.RTree_Spec Verif.RTree_Heuristics
  Verif.Index_Model Verif.Index_Spec Verif.Traj_Model Verif.Particles_Model Verif.Particles_Spec Verif.Particles_Proofs Verif.Particles_Props Verif.Alike_Spec.
Import ListNotations.

Lemma alike_closer k s l l' sep i j p q p' q' : alike k s l l' -> nth_error l i = Some p -> nth_error l j = Some q -> nth_error l' (s i) = Some p' -> nth_error l' (s j) = Some q' ->
  (closer3 p q sep <-> closer3 p' q' (k * sep)).
Proof.
  intros (Hk & _ & _ & _ & Hd) Hp Hq Hp' Hq'. unfold closer3. rewrite (Hd i j p q p' q') by auto. split; intros [A B]; split; try nia.
Qed.
Lemma alike_at k s l l' i p : alike k s l l' -> nth_error l i = Some p -> exists p', nth_error l' (s i) = Some p'.
Proof. intros (_ & L & Hs & _) Hp. apply nth_error_ex. rewrite L. apply Hs. eapply nth_error_lt; eauto. Qed.

Theorem C163_neighbours c c' l l' bb bb' r r' ops ops' bn bd bn' bd' k s :
  config_ok c -> dims c = 3 -> Forall point3 l -> Forall pop_ok ops -> indexed ops = true ->
  config_ok c' -> dims c' = 3 -> Forall point3 l' -> Forall pop_ok ops' -> indexed ops' = true ->
  alike k s (positions l ops) (positions l' ops') ->
  exists st st' ngb ngb', prun c (new_particles l bb r) ops = Some st /\ prun c' (new_particles l' bb' r') ops' = Some st' /\
    make_ngb_list st bn bd = Val ngb /\ make_ngb_list st' bn' bd' = Val ngb' /\
    ((2 * bn' * pradius st' / bd')%Z = (k * (2 * bn * pradius st / bd))%Z ->
      (forall i j, i < length (positions l ops) -> j < length (positions l ops) -> (linked ngb i j <-> linked ngb' (s i) (s j))) /\
      ((forall i, s i = i) -> ngb' = ngb)).
Proof.
  intros O1 D1 F1 P1 I1 O2 D2 F2 P2 I2 A.
  destruct (C33_ngb_list c l bb r ops bn bd O1 D1 F1 P1 I1) as (st & ngb & E1 & N1 & L1 & S1 & K1 & _).
  destruct (C33_ngb_list c' l' bb' r' ops' bn' bd' O2 D2 F2 P2 I2) as (st' & ngb' & E2 & N2 & L2 & S2 & K2 & _).
  exists st, st', ngb, ngb'. repeat (split; auto).
  - intros Hl. rewrite K1 in Hl. destruct Hl as (p & q & Hp & Hq & Hne & Hc). rewrite K2. destruct (alike_at _ _ _ _ _ _ A Hp) as [p' Hp']. destruct (alike_at _ _ _ _ _ _ A Hq) as [q' Hq'].
    exists p', q'. split; auto. split; auto. split; [intros E; apply Hne; apply A; auto|]. rewrite H. apply (alike_closer k s (positions l ops) (positions l' ops') _ i j p q p' q'); auto.
  - intros Hl. rewrite K2 in Hl. destruct Hl as (p' & q' & Hp' & Hq' & Hne & Hc). rewrite K1. destruct (nth_error_ex (positions l ops) i) as [p Hp]; auto. destruct (nth_error_ex (positions l ops) j) as [q Hq]; auto.
    exists p, q. split; auto. split; auto. split; [congruence|]. rewrite H in Hc. apply (alike_closer k s (positions l ops) (positions l' ops') _ i j p q p' q') in Hc; auto.
  - intros Hid. assert (Hlen : length ngb' = length ngb) by (destruct A as (_ & L & _); congruence).
    assert (Hlk : forall i j, linked ngb' i j <-> linked ngb i j).
    { intros i j. rewrite K1, K2. split; intros (p & q & Hp & Hq & Hne & Hc).
      - destruct A as (A1 & AL & A2). assert (Hi := nth_error_lt _ _ _ Hp). assert (Hj := nth_error_lt _ _ _ Hq). rewrite AL in Hi, Hj.
        destruct (nth_error_ex _ _ Hi) as [p0 Hp0]. destruct (nth_error_ex _ _ Hj) as [q0 Hq0]. exists p0, q0. repeat (split; auto).
        + rewrite H in Hc. apply (alike_closer k s (positions l ops) (positions l' ops') _ i j p0 q0 p q) in Hc; try rewrite Hid; auto; [apply Hc|split; auto].
        + rewrite H in Hc. apply (alike_closer k s (positions l ops) (positions l' ops') _ i j p0 q0 p q) in Hc; try rewrite Hid; auto; [apply Hc|split; auto].
      - destruct (alike_at _ _ _ _ _ _ A Hp) as [p' Hp']. destruct (alike_at _ _ _ _ _ _ A Hq) as [q' Hq']. exists p', q'. rewrite Hid in Hp', Hq'. split; auto. split; auto. split; auto.
        rewrite H. apply (alike_closer k s (positions l ops) (positions l' ops') _ i j p q p' q'); try rewrite Hid; auto. }
    apply nth_error_ext. intros i. destruct (nth_error ngb i) as [ids|] eqn:Ei.
    + destruct (nth_error_ex ngb' i) as [ids' Ei']; [rewrite Hlen; eapply nth_error_lt; eauto|]. rewrite Ei'. f_equal. apply ssorted_ext; eauto.
      intros j. specialize (Hlk i j). unfold linked in Hlk. split; intros Hj.
      * destruct (proj1 Hlk) as [x [X Y]]; [eauto|]. congruence.
      * destruct (proj2 Hlk) as [x [X Y]]; [eauto|]. congruence.
    + apply nth_error_None. rewrite Hlen. apply nth_error_None. auto.
Qed.

(** A renumbering visits every particle once. *)
Lemma renumber_all (n : nat) (s : nat -> nat) : (forall i, i < n -> s i < n) -> (forall i j, i < n -> j < n -> s i = s j -> i = j) -> Permutation (map s (seq 0 n)) (seq 0 n).
Proof.
  intros Hs Hi. apply NoDup_Permutation_bis.
  - assert (G : forall l, NoDup l -> (forall i, In i l -> i < n) -> NoDup (map s l)).
    { induction l as [|a l IH]; intros Hn Hl; simpl; constructor.
      - rewrite in_map_iff. intros [b [Eb Hb]]. inversion Hn; subst. apply Hi in Eb; [subst; auto| |]; apply Hl; simpl; auto.
      - inversion Hn; subst. apply IH; auto. intros; apply Hl; simpl; auto. }
    apply G; [apply seq_NoDup|]. intros i H. apply in_seq in H. lia.
  - rewrite map_length. auto.
  - intros x Hx. apply in_map_iff in Hx. destruct Hx as [i [<- H]]. apply in_seq in H. apply in_seq. specialize (Hs i). lia.
Qed.
Lemma count_perm {A} (f : A -> bool) l l' : Permutation l l' -> length (filter f l) = length (filter f l').
Proof. induction 1; simpl; auto; try congruence; [destruct (f x); simpl; congruence|]. destruct (f x), (f y); reflexivity. Qed.
Lemma count_ext {A B} (f : A -> bool) (g : B -> bool) (h : A -> B) : forall l, (forall x, In x l -> g (h x) = f x) -> length (filter g (map h l)) = length (filter f l).
Proof. induction l as [|x l IH]; simpl; auto. intros H. rewrite (H x) by auto. destruct (f x); simpl; rewrite IH; auto. Qed.
Lemma count_pairs n s l l' sel (f g : nat * nat -> bool) : length l = n -> length l' = n -> (forall i, i < n -> s i < n) -> (forall i j, i < n -> j < n -> s i = s j -> i = j) ->
  (forall i, In i sel -> i < n) -> (forall i j, i < n -> j < n -> g (s i, s j) = f (i, j)) ->
  length (filter g (all_pairs l' (map s sel))) = length (filter f (all_pairs l sel)).
Proof.
  intros <- L Hs Hi. unfold all_pairs. rewrite L. induction sel as [|i sel IH]; intros Hsel Hfg; [reflexivity|].
  cbn [map]. rewrite !list_prod_cons, !filter_app, !app_length. f_equal; [|apply IH; auto; intros; apply Hsel; simpl; auto].
  rewrite (count_perm g _ (map (fun y => (s i, y)) (map s (seq 0 (length l))))).
  - rewrite map_map, filter_map_x, map_length. rewrite filter_map_x, map_length. f_equal. apply filter_ext_in. intros j Hj. apply in_seq in Hj. apply Hfg; [apply Hsel; simpl; auto|lia].
  - apply Permutation_map, Permutation_sym, renumber_all; auto.
Qed.

Theorem C163_rdf c c' l l' bb bb' r r' ops ops' n cutoff sel k s :
  config_ok c -> dims c = 3 -> Forall point3 l -> Forall pop_ok ops -> indexed ops = true ->
  config_ok c' -> dims c' = 3 -> Forall point3 l' -> Forall pop_ok ops' -> indexed ops' = true ->
  alike k s (positions l ops) (positions l' ops') -> 0 < n -> (0 < cutoff)%Z -> (forall i, In i sel -> i < length (positions l ops)) ->
  exists st st' g count, prun c (new_particles l bb r) ops = Some st /\ prun c' (new_particles l' bb' r') ops' = Some st' /\
    rdf st n cutoff sel = Val (g, count) /\ rdf st' n (k * cutoff) (map s sel) = Val (g, count).
Proof.
  intros O1 D1 F1 P1 I1 O2 D2 F2 P2 I2 A Hn Hc Hsel. assert (A' := A). destruct A as (Hk & L & Hs & Hi & Hd).
  destruct (C40_rdf c l bb r ops n cutoff sel O1 D1 F1 P1 I1 Hn Hc Hsel) as (st & g & count & E1 & R1 & L1 & C1 & G1).
  destruct (C40_rdf c' l' bb' r' ops' n (k * cutoff) (map s sel) O2 D2 F2 P2 I2 Hn) as (st' & g' & count' & E2 & R2 & L2 & C2 & G2); [nia| |].
  { intros i H. apply in_map_iff in H. destruct H as [j [<- H]]. rewrite L. auto. }
  assert (HD : forall i j, i < length (positions l ops) -> j < length (positions l ops) -> exists p q p' q', nth_error (positions l ops) i = Some p /\ nth_error (positions l ops) j = Some q /\
    nth_error (positions l' ops') (s i) = Some p' /\ nth_error (positions l' ops') (s j) = Some q' /\ dist2 q' p' = (k * k * dist2 q p)%Z /\ (s i =? s j) = (i =? j)).
  { intros i j Li Lj. destruct (nth_error_ex _ _ Li) as [p Hp]. destruct (nth_error_ex _ _ Lj) as [q Hq]. destruct (alike_at _ _ _ _ _ _ A' Hp) as [p' Hp']. destruct (alike_at _ _ _ _ _ _ A' Hq) as [q' Hq'].
    exists p, q, p', q'. repeat (split; auto); [apply (Hd j i); auto|]. destruct (Nat.eqb_spec i j) as [->|Hne]; [apply Nat.eqb_refl|]. apply Nat.eqb_neq. intros E; apply Hne; auto. }
  assert (Hlt : forall a b, (k * k * a <? k * k * b)%Z = (a <? b)%Z).
  { intros a b. destruct (Z.ltb_spec a b); [apply Z.ltb_lt; apply Z.mul_lt_mono_pos_l; nia|apply Z.ltb_ge; apply Z.mul_le_mono_nonneg_l; nia]. }
  assert (Hle : forall a b, (k * k * a <=? k * k * b)%Z = (a <=? b)%Z).
  { intros a b. rewrite !Z.leb_antisym, Hlt. reflexivity. }
  exists st, st', g, count. repeat (split; auto). rewrite R2. f_equal. f_equal.
  - apply nth_error_ext. intros b. destruct (Nat.lt_ge_cases b n) as [Hb|Hb]; [|rewrite (proj2 (nth_error_None g' b)), (proj2 (nth_error_None g b)) by lia; reflexivity].
    rewrite (G1 b Hb), (G2 b Hb). f_equal. apply (count_pairs (length (positions l ops))); auto. intros i j Li Lj.
    destruct (HD i j Li Lj) as (p & q & p' & q' & H1 & H2 & H3 & H4 & H5 & H6). unfold in_bin. cbn [fst snd]. rewrite H1, H2, H3, H4, H5, H6. cbv zeta.
    replace (k * cutoff * (k * cutoff))%Z with (k * k * (cutoff * cutoff))%Z by ring. rewrite Hlt.
    replace (Z.of_nat b * Z.of_nat b * (k * k * (cutoff * cutoff)))%Z with (k * k * (Z.of_nat b * Z.of_nat b * (cutoff * cutoff)))%Z by ring.
    replace (Z.of_nat n * Z.of_nat n * (k * k * dist2 q p))%Z with (k * k * (Z.of_nat n * Z.of_nat n * dist2 q p))%Z by ring.
    replace ((Z.of_nat b + 1) * (Z.of_nat b + 1) * (k * k * (cutoff * cutoff)))%Z with (k * k * ((Z.of_nat b + 1) * (Z.of_nat b + 1) * (cutoff * cutoff)))%Z by ring.
    rewrite Hlt, Hle. reflexivity.
  - rewrite C1, C2. apply (count_pairs (length (positions l ops))); auto. intros i j Li Lj.
    destruct (HD i j Li Lj) as (p & q & p' & q' & H1 & H2 & H3 & H4 & H5 & H6). unfold close_pair. cbn [fst snd]. rewrite H1, H2, H3, H4, H5, H6.
    replace (k * cutoff * (k * cutoff))%Z with (k * k * (cutoff * cutoff))%Z by ring. rewrite Hlt. reflexivity.
Qed.

Lemma kept_count {A} : forall (flags : list bool) (l : list A), length flags = length l -> length (kept flags l) = length (filter (fun i => nth i flags false) (seq 0 (length l))).
Proof.
  intros flags l H. unfold kept. rewrite map_length. revert l H. induction flags as [|b flags IH]; intros [|x l] H; try discriminate; [reflexivity|].
  cbn [length seq combine filter]. injection H as H. rewrite <- seq_shift, filter_map_x. destruct b; cbn [fst nth length]; rewrite map_length, (IH l H); reflexivity.
Qed.
Theorem C163_short_range c c' l l' bb bb' r r' ops ops' one one' sep k s :
  config_ok c -> dims c = 3 -> Forall point3 l -> Forall pop_ok ops -> indexed ops = true ->
  config_ok c' -> dims c' = 3 -> Forall point3 l' -> Forall pop_ok ops' -> indexed ops' = true ->
  alike k s (positions l ops) (positions l' ops') ->
  exists st st' out out' flags flags', prun c (new_particles l bb r) ops = Some st /\ prun c' (new_particles l' bb' r') ops' = Some st' /\
    remove_short_range one st sep = Val out /\ remove_short_range one' st' (k * sep) = Val out' /\
    pts out = kept flags (positions l ops) /\ pts out' = kept flags' (positions l' ops') /\ length flags = length (positions l ops) /\ length flags' = length (positions l' ops') /\
    (forall i, i < length (positions l ops) -> nth (s i) flags' false = nth i flags false) /\ length (pts out') = length (pts out).
Proof.
  intros O1 D1 F1 P1 I1 O2 D2 F2 P2 I2 A. assert (A' := A). destruct A as (Hk & L & Hs & Hi & Hd).
  destruct (C35_remove_short_range c l bb r ops one sep O1 D1 F1 P1 I1) as (st & out & flags & E1 & R1 & _ & L1 & K1 & G1).
  destruct (C35_remove_short_range c' l' bb' r' ops' one' (k * sep) O2 D2 F2 P2 I2) as (st' & out' & flags' & E2 & R2 & _ & L2 & K2 & G2).
  assert (HF : forall i, i < length (positions l ops) -> nth (s i) flags' false = nth i flags false).
  { intros i Li. destruct (nth_error_ex _ _ Li) as [p Hp]. destruct (alike_at _ _ _ _ _ _ A' Hp) as [p' Hp']. specialize (G1 i p Hp). specialize (G2 (s i) p' Hp').
    assert (X : nth (s i) flags' false = true <-> nth i flags false = true).
    { assert (N1 : nth_error flags i = Some (nth i flags false)) by (apply nth_error_nth'; lia). assert (N2 : nth_error flags' (s i) = Some (nth (s i) flags' false)) by (apply nth_error_nth'; rewrite L2, L; auto).
      rewrite N1 in G1. rewrite N2 in G2. assert (B : forall x : bool, Some x = Some true <-> x = true) by (intros; split; congruence). rewrite B in G1, G2. rewrite G1, G2. split.
      - intros H j q Hne Hq Hc. destruct (alike_at _ _ _ _ _ _ A' Hq) as [q' Hq']. apply (H (s j) q'); auto; [intros E; apply Hne, Hi; auto; eapply nth_error_lt; eauto|].
        apply (alike_closer k s (positions l ops) (positions l' ops') _ j i q p q' p'); auto.
      - intros H j' q' Hne Hq' Hc. assert (Hj' := nth_error_lt _ _ _ Hq'). rewrite L in Hj'.
        assert (Hin : In j' (map s (seq 0 (length (positions l ops))))) by (apply (Permutation_in _ (Permutation_sym (renumber_all _ s Hs Hi))), in_seq; lia).
        apply in_map_iff in Hin. destruct Hin as [j [<- Hj]]. apply in_seq in Hj. destruct (nth_error_ex (positions l ops) j) as [q Hq]; [lia|].
        apply (H j q); [congruence|exact Hq|]. apply (alike_closer k s (positions l ops) (positions l' ops') _ j i q p q' p'); auto. }
    destruct (nth (s i) flags' false), (nth i flags false); auto; [symmetry|]; apply X; auto. }
  exists st, st', out, out', flags, flags'. repeat (split; [assumption|]). rewrite K1, K2, !kept_count by auto. rewrite L. rewrite (count_perm _ _ _ (Permutation_sym (renumber_all _ s Hs Hi))).
  apply count_ext. intros i H. apply in_seq in H. apply HF. lia.
Qed.

(** The greedy removal keeps the same particles as long as they are numbered the same way. *)
Theorem C163_cut c c' one one' st st' sep k : config_ok c -> dims c = 3 -> Forall point3 (pts st) -> config_ok c' -> dims c' = 3 -> Forall point3 (pts st') ->
  alike k (fun i => i) (pts st) (pts st') ->
  exists out out' flags, cut c one st sep = Val out /\ cut c' one' st' (k * sep) = Val out' /\ length flags = length (pts st) /\
    pts out = kept flags (pts st) /\ pts out' = kept flags (pts st').
Proof.
  intros O1 D1 F1 O2 D2 F2 A. destruct (C35_cut c one st sep O1 D1 F1) as (out & flags & R1 & [L1 G1] & K1 & _).
  destruct (C35_cut c' one' st' (k * sep) O2 D2 F2) as (out' & flags' & R2 & [L2 G2] & K2 & _). assert (A' := A). destruct A as (Hk & L & _ & _ & _).
  exists out, out', flags. repeat (split; auto). rewrite K2. f_equal. apply nth_error_ext.
  assert (G : forall m i, i < m -> i < length (pts st) -> nth_error flags' i = nth_error flags i).
  { induction m as [|m IH]; intros i Him Li; [lia|]. destruct (nth_error_ex _ _ Li) as [p Hp]. destruct (alike_at _ _ _ _ _ _ A' Hp) as [p' Hp'].
    specialize (G1 i p Hp). specialize (G2 i p' Hp'). destruct (nth_error_ex flags i) as [b Hb]; [lia|]. destruct (nth_error_ex flags' i) as [b' Hb']; [lia|].
    assert (X : nth_error flags' i = Some false <-> nth_error flags i = Some false).
    { rewrite G1, G2. split; intros (j & q & Hj & Hf & Hq & Hc).
      - destruct (nth_error_ex (pts st) j) as [q0 Hq0]; [lia|]. exists j, q0. split; auto. split; [rewrite <- (IH j); auto; lia|]. split; auto.
        apply (alike_closer k (fun i => i) (pts st) (pts st') _ i j p q0 p' q); auto.
      - destruct (alike_at _ _ _ _ _ _ A' Hq) as [q' Hq']. exists j, q'. split; auto. split; [rewrite (IH j); auto; lia|]. split; auto.
        apply (alike_closer k (fun i => i) (pts st) (pts st') _ i j p q p' q'); auto. }
    rewrite Hb, Hb' in *. destruct b, b'; auto; exfalso; [destruct X as [X _]|destruct X as [_ X]]; specialize (X eq_refl); discriminate. }
  intros i. destruct (Nat.lt_ge_cases i (length (pts st))) as [Hl|Hl]; [eapply G; eauto|].
  rewrite (proj2 (nth_error_None flags' i)), (proj2 (nth_error_None flags i)) by lia. reflexivity.
Qed.
(** With another numbering it may keep other particles, and another number of them. *)
Definition ex_three : list (list Z) := [[0; 0; 0]; [2; 0; 0]; [4; 0; 0]]%Z.
Definition ex_three' : list (list Z) := [[2; 0; 0]; [0; 0; 0]; [4; 0; 0]]%Z.
Definition ex_swap (i : nat) : nat := match i with 0 => 1 | 1 => 0 | _ => i end.
Lemma ex_alike : alike 1 ex_swap ex_three ex_three'.
Proof.
  split; [reflexivity|]. split; [reflexivity|]. split; [|split].
  - intros [|[|[|i]]] H; simpl in *; lia.
  - intros [|[|[|i]]] [|[|[|j]]] H H'; simpl in *; lia.
  - intros [|[|[|i]]] [|[|[|j]]] p q p' q' H1 H2 H3 H4; simpl in *; try (destruct i); try (destruct j); try discriminate; injection H1 as <-; injection H2 as <-; injection H3 as <-; injection H4 as <-; reflexivity.
Qed.
Theorem C163_cut_numbering_refuted : alike 1 ex_swap ex_three ex_three' /\
  (exists out, cut lib_config 1 (new_particles ex_three [] 1) 3 = Val out /\ pts out = [[0; 0; 0]; [4; 0; 0]]%Z) /\
  (exists out, cut lib_config 1 (new_particles ex_three' [] 1) 3 = Val out /\ pts out = [[2; 0; 0]]%Z).
Proof. split; [apply ex_alike|]. split; eexists; split; vm_compute; reflexivity. Qed.

(** A quarter turn, a shift, another numbering and lengths doubled. *)
Definition ex_tri : list (list Z) := [[0; 0; 0]; [3; 0; 0]; [0; 4; 0]; [9; 9; 9]]%Z.
Definition ex_tri' : list (list Z) := [[1; 7; 0]; [1; 1; 0]; [-7; 1; 0]; [-17; 19; 18]]%Z.
Example C163_case : alike 2 ex_swap ex_tri ex_tri' /\ Forall point3 ex_tri /\ Forall point3 ex_tri' /\
  (exists st, prun lib_config (new_particles ex_tri [] 1) [PIndex] = Some st /\ make_ngb_list st 5 2 = Val [[1; 2]; [0]; [0]; []] /\ rdf st 3 6 [0; 1] = Val ([0; 2; 2], 4) /\
    exists out, remove_short_range 1 st 5 = Val out /\ pts out = [[9; 9; 9]]%Z) /\
  (exists st, prun lib_config (new_particles ex_tri' [] 2) [PIndex] = Some st /\ make_ngb_list st 5 2 = Val [[1]; [0; 2]; [1]; []] /\ rdf st 3 12 [1; 0] = Val ([0; 2; 2], 4) /\
    exists out, remove_short_range 1 st 10 = Val out /\ pts out = [[-17; 19; 18]]%Z).
Proof.
  split.
  { split; [reflexivity|]. split; [reflexivity|]. split; [|split].
    - intros [|[|[|[|i]]]] H; simpl in *; lia.
    - intros [|[|[|[|i]]]] [|[|[|[|j]]]] H H'; simpl in *; lia.
    - intros [|[|[|[|i]]]] [|[|[|[|j]]]] p q p' q' H1 H2 H3 H4; simpl in *; try (destruct i); try (destruct j); try discriminate; injection H1 as <-; injection H2 as <-; injection H3 as <-; injection H4 as <-; reflexivity. }
  split; [repeat constructor; repeat eexists|]. split; [repeat constructor; repeat eexists|].
  split; eexists; (split; [vm_compute; reflexivity|]; split; [vm_compute; reflexivity|]; split; [vm_compute; reflexivity|]; eexists; split; vm_compute; reflexivity).
Qed.

Print Assumptions C163_neighbours.
Print Assumptions C163_rdf.
Print Assumptions C163_short_range.
Print Assumptions C163_cut.
Print Assumptions C163_cut_numbering_refuted.

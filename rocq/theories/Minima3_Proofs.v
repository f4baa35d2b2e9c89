(** Proofs about the detection of local minima in three dimensions. *)
Require Import ZArith List Bool Arith Lia.
Require Import Verif.Base Verif.ListX Verif.Traj_Model Verif.Particles_Model Verif.Corr_Model Verif.Corr_Proofs Verif.RTree_Model Verif.Boo_Model Verif.Minima_Model Verif.Minima_Spec Verif.Minima_Proofs.
Import ListNotations.
Local Open Scope nat_scope.

(** The window of 8 planes: the slot of offset [o] holds plane k+o, for lo <= o <= hi. *)
Definition shows (lo hi : Z) (st : circ) (k : nat) : Prop :=
  length (slots st) = 8 /\ In (z0 st) [1; 3; 5; 7] /\ forall o, (lo <= o <= hi)%Z -> nth_error (slots st) (slot st o) = Some (Some (Z.to_nat (Z.of_nat k + o))).
Lemma len8 {A} (l : list A) : length l = 8 -> exists a b c d e f g h, l = [a; b; c; d; e; f; g; h].
Proof. intros H. do 8 (destruct l as [|? l]; [discriminate|]). destruct l; [|discriminate]. do 8 eexists. reflexivity. Qed.
Lemma load_ok depth st k : shows (-3) 2 st k -> k + 5 <= depth -> exists st', loadplanes depth (Z.of_nat k + 3) 3 2 st = Val st' /\ shows (-3) 4 st' k.
Proof.
  intros (L & Z0 & H) D. destruct st as [z sl]. cbn [z0 slots] in *. destruct (len8 sl L) as (a & b & c & d & e & f & g & h & ->).
  unfold loadplanes. replace (8 <? slot {| z0 := z; slots := [a; b; c; d; e; f; g; h] |} 3 + 2) with false by (destruct Z0 as [<-|[<-|[<-|[<-|[]]]]]; reflexivity).
  replace ((Z.of_nat k + 3 <? 0)%Z || (Z.of_nat depth <? Z.of_nat k + 3 + Z.of_nat 2)%Z) with false by (symmetry; apply orb_false_iff; split; apply Z.ltb_ge; lia).
  eexists. split; [reflexivity|]. cbn [z0 slots map seq].
  assert (P : forall o, (-3 <= o <= 4)%Z -> In o [-3; -2; -1; 0; 1; 2; 3; 4]%Z) by (intros o Ho; cbn [In]; lia).
  assert (E3 : Z.to_nat (Z.of_nat k + 3) + 0 = Z.to_nat (Z.of_nat k + 3)) by lia. assert (E4 : Z.to_nat (Z.of_nat k + 3) + 1 = Z.to_nat (Z.of_nat k + 4)) by lia. rewrite E3, E4.
  split; [|split; [exact Z0|]].
  - destruct Z0 as [<-|[<-|[<-|[<-|[]]]]]; reflexivity.
  - intros o Ho. assert (Q : (o <= 2)%Z -> nth_error [a; b; c; d; e; f; g; h] (slot {| z0 := z; slots := [a; b; c; d; e; f; g; h] |} o) = Some (Some (Z.to_nat (Z.of_nat k + o)))) by (intros; apply H; lia).
    clear H. apply P in Ho. destruct Z0 as [<-|[<-|[<-|[<-|[]]]]]; destruct Ho as [<-|[<-|[<-|[<-|[<-|[<-|[<-|[<-|[]]]]]]]]]; first [exact (Q ltac:(lia))|reflexivity].
Qed.
Lemma advance_ok st k : shows (-3) 4 st k -> shows (-3) 2 (advance st) (k + 2).
Proof.
  intros (L & Z0 & H). destruct st as [z sl]. unfold shows, advance. cbn [z0 slots] in *. split; [auto|]. split.
  - destruct Z0 as [<-|[<-|[<-|[<-|[]]]]]; cbn; tauto.
  - intros o Ho. specialize (H (o + 2)%Z ltac:(lia)). replace (Z.of_nat (k + 2) + o)%Z with (Z.of_nat k + (o + 2))%Z by lia. rewrite <- H. f_equal. unfold slot. cbn [z0]. clear H.
    assert (P : In o [-3; -2; -1; 0; 1; 2]%Z) by (cbn [In]; lia). destruct Z0 as [<-|[<-|[<-|[<-|[]]]]]; destruct P as [<-|[<-|[<-|[<-|[<-|[<-|[]]]]]]]; reflexivity.
Qed.
Lemma first_ok depth s : 3 <= s -> s + 3 <= depth -> exists st, loadplanes depth (Z.of_nat s - 3) (-3) 6 circ_init = Val st /\ shows (-3) 2 st s.
Proof.
  intros H D. unfold loadplanes. change (8 <? slot circ_init (-3) + 6) with false. cbv iota.
  replace ((Z.of_nat s - 3 <? 0)%Z || (Z.of_nat depth <? Z.of_nat s - 3 + Z.of_nat 6)%Z) with false by (symmetry; apply orb_false_iff; split; apply Z.ltb_ge; lia).
  eexists. split; [reflexivity|]. change (slot circ_init (-3)) with 0. cbn [z0 slots map seq circ_init]. split; [reflexivity|]. split; [cbn; tauto|]. intros o Ho.
  assert (P : In o [-3; -2; -1; 0; 1; 2]%Z) by (cbn [In]; lia). destruct P as [<-|[<-|[<-|[<-|[<-|[<-|[]]]]]]]; 
    (match goal with |- nth_error _ (slot ?st ?o) = _ => let v := eval vm_compute in (slot {| z0 := 3; slots := [] |} o) in change (slot st o) with v end);
    cbn -[Z.of_nat Z.to_nat Z.add Z.sub Nat.add]; match goal with |- Some (Some ?x) = Some (Some ?y) => replace y with x by lia; reflexivity end.
Qed.

Section Three.
  Variables (nl depth rows cols : nat) (g : nat -> nat -> nat -> nat -> Z) (dog : Z -> Z -> Z) (sizes : list nat) (tiny : Z -> bool) (hessian : list Z -> bool).
  Notation pixel := (nat * nat * nat * nat)%type.
  (** values in the image *)
  Definition val3 (c : pixel) : Z := let '(l, p, j, i) := c in dog (g (S l) p j i) (g l p j i).
  Definition abs (k : nat) (c : cell3) : pixel := let '(l, o, j, i) := c in (l, Z.to_nat (o + Z.of_nat k), j, i).
  Definition patch3 (c : pixel) : list Z := let '(l, p, j, i) := c in map val3 (flat_map (fun j2 => map (fun i2 => (l, p, j2, i2)) (around i)) (around j)).
  Definition lines3 (c : pixel) : list (list Z) := let '(l, p, j, i) := c in
    [map (fun u => g (l - 1) p j (i - 3 + u)) (seq 0 7); map (fun u => g (l - 1) p (j - 3 + u) i) (seq 0 7); map (fun u => g (l - 1) (p - 3 + u) j i) (seq 0 7); map (fun u => val3 (l - 1 + u, p, j, i)) (seq 0 3)].
  Lemma getG_ok st k l o j i : shows (-3) 4 st k -> (-3 <= o <= 4)%Z -> l < nl + 3 -> j < rows -> i < cols -> getG nl rows cols g st (l, o, j, i) = Val (g l (Z.to_nat (Z.of_nat k + o)) j i).
  Proof.
    intros (L & Z0 & H) Ho H1 H2 H3. unfold getG. apply Nat.ltb_lt in H1, H2, H3. rewrite H1, H2, H3. cbn [andb]. replace (0 <=? o + Z.of_nat (z0 st) + 8)%Z with true by (symmetry; apply Z.leb_le; lia). rewrite H by auto. auto.
  Qed.
  Lemma getDoG_ok st k l o j i : shows (-3) 4 st k -> (-3 <= o <= 4)%Z -> l < nl + 2 -> j < rows -> i < cols -> getDoG nl rows cols g dog st (l, o, j, i) = Val (val3 (abs k (l, o, j, i))).
  Proof. intros W Ho H1 H2 H3. unfold getDoG. rewrite (getG_ok st k) by (auto; lia). cbn [obind]. rewrite (getG_ok st k) by (auto; lia). cbn [omap obind abs val3]. rewrite (Z.add_comm o). auto. Qed.
  Lemma in_block3 l j i c : In c (block3 l j i) <-> let '(l', o, j', i') := c in l <= l' <= l + 1 /\ (0 <= o <= 1)%Z /\ j <= j' <= j + 1 /\ i <= i' <= i + 1.
  Proof.
    destruct c as [[[l' o] j'] i']. unfold block3. cbn [flat_map map app In]. split.
    - intros H. repeat (destruct H as [H|H]; [injection H as <- <- <- <-; lia|]). easy.
    - intros (H1 & H2 & H3 & H4). assert (l' = l + 0 \/ l' = l + 1) as [->| ->] by lia; assert (o = 0 \/ o = 1)%Z as [->| ->] by lia; assert (j' = j + 0 \/ j' = j + 1) as [->| ->] by lia; assert (i' = i + 0 \/ i' = i + 1) as [->| ->] by lia; tauto.
  Qed.
  Lemma name3_ok l j i m : m < length (block3 l j i) -> name3 l j i m = nth m (block3 l j i) (0, 0%Z, 0, 0).
  Proof. unfold block3. cbn [flat_map map app length]. intros H. do 16 (destruct m as [|m]; [reflexivity|]). lia. Qed.
  Definition allow3 (k : nat) (c : cell3) : bool := let '(ml, mk, mj, mi) := c in
    (ml <=? nl) && (Z.of_nat (nth ml sizes 0%nat) <=? mk + Z.of_nat k)%Z && (mk + Z.of_nat k + Z.of_nat (nth ml sizes 0%nat) <? Z.of_nat depth)%Z && (nth ml sizes 0 <=? mj) && (mj + nth ml sizes 0 <? rows) && (nth ml sizes 0 <=? mi) && (mi + nth ml sizes 0 <? cols).
  Hypothesis Hsizes : nl < length sizes.
  Lemma allowed3_ok k c : allowed3 nl depth rows cols sizes k c = Val (allow3 k c).
  Proof.
    destruct c as [[[l o] j] i]. unfold allowed3, allow3. destruct (Nat.ltb_spec nl l), (Nat.leb_spec l nl); try lia; cbn [andb]; auto.
    unfold at_index. rewrite (nth_error_nth' sizes 0) by lia. cbn [omap obind]. f_equal.
  Qed.
  Lemma allow3_spec k l o j i : (0 <= o)%Z -> allow3 k (l, o, j, i) = true <-> l <= nl /\ inside (nth l sizes 0) (Z.to_nat (o + Z.of_nat k)) depth /\ inside (nth l sizes 0) j rows /\ inside (nth l sizes 0) i cols.
  Proof. intros Ho. unfold allow3, inside. rewrite !andb_true_iff, !Nat.leb_le, !Nat.ltb_lt, Z.leb_le, Z.ltb_lt. lia. Qed.
  (** adjacency of cells relative to the current plane *)
  Definition adj_rel (c n : cell3) : Prop := let '(l, o, j, i) := c in let '(l', o', j', i') := n in c <> n /\ near l l' /\ (o - 1 <= o' <= o + 1)%Z /\ near j j' /\ near i i'.
  Lemma in_outside3 l j i ml mo mj mi n : 1 <= ml -> 1 <= mj -> 1 <= mi -> In (ml, mo, mj, mi) (block3 l j i) ->
    In n (outside3 l j i (ml, mo, mj, mi)) <-> adj_rel (ml, mo, mj, mi) n /\ ~ In n (block3 l j i).
  Proof.
    intros H1 H2 H3 Hb. destruct n as [[[l' o'] j'] i']. rewrite in_block3 in Hb. unfold outside3. rewrite filter_In, in_flat_map, in_block3. unfold adj_rel. rewrite !orb_true_iff, !Nat.ltb_lt, !Z.ltb_lt.
    assert (N : near ml l' /\ (mo - 1 <= o' <= mo + 1)%Z /\ near mj j' /\ near mi i' <-> exists x, In x (around ml) /\ In (l', o', j', i') (flat_map (fun k2 => flat_map (fun j2 => map (fun i2 => (x, k2, j2, i2)) (around mi)) (around mj)) (around_z mo))).
    { split.
      - intros (A & B & D & F). exists l'. split; [apply near_around; auto|]. apply in_flat_map. exists o'. split; [unfold around_z; cbn [In]; lia|]. apply in_flat_map. exists j'. split; [apply near_around; auto|]. apply in_map_iff. exists i'. split; auto. apply near_around; auto.
      - intros [x [Hx H]]. apply in_flat_map in H. destruct H as [w [Hw H]]. apply in_flat_map in H. destruct H as [y [Hy H]]. apply in_map_iff in H. destruct H as [z [E Hz]]. injection E as -> -> -> ->.
        rewrite near_around in Hx by auto. rewrite near_around in Hy by auto. rewrite near_around in Hz by auto. unfold around_z in Hw. cbn [In] in Hw. split; auto. split; [lia|auto]. }
    rewrite <- N. split.
    - intros [(A & B & D & F) O]. split; [|lia]. split; auto. intros E. injection E as -> -> -> ->. lia.
    - intros [[E (A & B & D & F)] O]. split; auto. lia.
  Qed.
  Lemma in_blocks3 l j i : In (l, j, i) (blocks3 nl rows cols sizes) <-> In l (range2 1 (Z.of_nat nl + 1)) /\ In j (range2 (si3 sizes l) (Z.of_nat rows - Z.of_nat (si3 sizes l + 1))) /\ In i (range2 (si3 sizes l) (Z.of_nat cols - Z.of_nat (si3 sizes l + 1))).
  Proof.
    unfold blocks3. rewrite in_flat_map. rewrite !Nat2Z.inj_add, !Z.sub_add_distr. split.
    - intros [k' [Hk H]]. apply in_flat_map in H. destruct H as [j' [Hj H]]. apply in_map_iff in H. destruct H as [i' [E Hi]]. injection E as -> -> ->. auto.
    - intros (A & B & D). exists l. split; auto. apply in_flat_map. exists j. split; auto. apply in_map_iff. exists i. auto.
  Qed.
  Lemma block3_bounds l j i : In (l, j, i) (blocks3 nl rows cols sizes) -> exists s, s = si3 sizes l /\ 3 <= s /\ 1 <= l <= nl /\ s <= j /\ j + s + 1 < rows /\ s <= i /\ i + s + 1 < cols.
  Proof.
    rewrite in_blocks3, !range2_in. intros ([a [Ea Ha]] & [b [Eb Hb]] & [c [Ec Hc]]). exists (si3 sizes l). unfold si3 in *. lia.
  Qed.
  Lemma blocks3_NoDup : NoDup (blocks3 nl rows cols sizes).
  Proof.
    unfold blocks3. apply NoDup_flat_map_x; [apply range2_NoDup| |].
    - intros k _. apply NoDup_flat_map_x; [apply range2_NoDup| |].
      + intros j _. apply FinFun.Injective_map_NoDup; [|apply range2_NoDup]. intros x y E. injection E. auto.
      + intros j j' b _ _ H H'. apply in_map_iff in H. apply in_map_iff in H'. destruct H as [x [<- _]], H' as [y [E _]]. injection E. auto.
    - intros k k' b _ _ H H'. apply in_flat_map in H. apply in_flat_map in H'. destruct H as [x [_ H]], H' as [y [_ H']]. apply in_map_iff in H. apply in_map_iff in H'. destruct H as [z [<- _]], H' as [w [E _]]. injection E. auto.
  Qed.
  Definition pure3 (k : nat) (b : nat * nat * nat) : option (cell3 * bool) := let '(l, j, i) := b in
    pure_visit cell3 (0, 0%Z, 0, 0) (fun c => val3 (abs k c)) (fun v => (0 <? v)%Z || tiny v) (fun _ => false) (allow3 k) (fun c => hessian (patch3 (abs k c))) (block3 l j i) (outside3 l j i).
  Definition full3 (k : nat) (b : nat * nat * nat) : option (pixel * list (list Z)) :=
    match pure3 k b with Some (c, true) => Some (abs k c, lines3 (abs k c)) | _ => None end.
  Lemma visit3_ok st k b : shows (-3) 4 st k -> 3 <= k -> In b (blocks3 nl rows cols sizes) -> visit3 nl depth rows cols g dog sizes tiny hessian st k b = Val (full3 k b).
  Proof.
    destruct b as [[l j] i]. intros W K3 Hb. assert (X := block3_bounds _ _ _ Hb). destruct X as [s (Es & S3 & K & J1 & J2 & I1 & I2)]. clear Es Hb.
    assert (V : visit cell3 (getDoG nl rows cols g dog st) (fun v => (0 <? v)%Z || tiny v) (fun _ => false) (allowed3 nl depth rows cols sizes k) (keep3 nl rows cols g dog hessian st) (block3 l j i) (name3 l j i) (fun v _ => Val v) (outside3 l j i) = Val (pure3 k (l, j, i))).
    { apply visit_ok with (d := (0, 0%Z, 0, 0)); [unfold block3; discriminate| | | | | |].
      - intros [[[l' o'] j'] i'] H. apply in_block3 in H. apply getDoG_ok; auto; lia.
      - apply name3_ok.
      - intros. apply allowed3_ok.
      - intros [[[l' o'] j'] i'] [[[l2 o2] j2] i2] H Ha H'. assert (H0 := H). apply in_block3 in H0. apply in_outside3 in H'; auto; try lia. destruct H' as [[_ (A & B & D & F)] _]. unfold near in *.
        apply allow3_spec in Ha; [|lia]. apply getDoG_ok; auto; lia.
      - intros [[[l' o'] j'] i'] H Ha. apply in_block3 in H. apply allow3_spec in Ha; [|lia]. unfold keep3, patch3, abs. rewrite (osequence_ok_x _ (fun c => val3 (abs k c))).
        + reflexivity.
        + intros [[[l2 o2] j2] i2] H'. apply in_flat_map in H'. destruct H' as [y [Hy H']]. apply in_map_iff in H'. destruct H' as [z [E Hz]]. injection E as -> -> -> ->. rewrite near_around in Hy by lia. rewrite near_around in Hz by lia. unfold near in *.
          apply getDoG_ok; auto; lia.
      - auto. }
    unfold visit3. rewrite V. cbn [obind]. unfold full3. destruct (pure3 k (l, j, i)) as [[[[[l' o'] j'] i'] t]|] eqn:E; auto. destruct t; auto.
    unfold pure3 in E. apply pure_in in E; [|unfold block3; discriminate]. destruct E as [H Ha]. apply in_block3 in H. apply allow3_spec in Ha; [|lia].
    assert (SV : shift_values nl rows cols g dog st (l', o', j', i') = Val (lines3 (abs k (l', o', j', i')))).
    { unfold shift_values. replace (Z.of_nat k) with (Z.of_nat k) by auto.
      rewrite (osequence_ok_x _ (fun u => g (l' - 1) (Z.to_nat (Z.of_nat k + o')) j' (i' - 3 + u))) by (intros u Hu; apply in_seq in Hu; apply (getG_ok st k); auto; lia). cbn [obind].
      rewrite (osequence_ok_x _ (fun u => g (l' - 1) (Z.to_nat (Z.of_nat k + o')) (j' - 3 + u) i')) by (intros u Hu; apply in_seq in Hu; apply (getG_ok st k); auto; lia). cbn [obind].
      rewrite (osequence_ok_x _ (fun u => g (l' - 1) (Z.to_nat (Z.of_nat k + (o' - 3 + Z.of_nat u))) j' i')) by (intros u Hu; apply in_seq in Hu; apply (getG_ok st k); auto; lia). cbn [obind].
      rewrite (osequence_ok_x _ (fun u => val3 (abs k (l' - 1 + u, o', j', i')))) by (intros u Hu; apply in_seq in Hu; apply (getDoG_ok st k); auto; lia). cbn [omap obind].
      unfold lines3, abs. f_equal. rewrite (Z.add_comm o'). f_equal. f_equal. f_equal. apply map_ext_in. intros u Hu. apply in_seq in Hu. f_equal. lia. }
    rewrite SV. reflexivity.
  Qed.
  Definition found3 (k : nat) : list (pixel * list (list Z)) := flat_map (fun b => match full3 k b with Some x => [x] | None => [] end) (blocks3 nl rows cols sizes).
  Lemma loop3_ok : forall n k st acc, shows (-3) 2 st k -> 3 <= k -> (forall t, t < n -> k + 2 * t + 5 <= depth) ->
    loop3 nl depth rows cols g dog sizes tiny hessian (map (fun t => k + 2 * t) (seq 0 n)) st acc = Val (acc ++ flat_map found3 (map (fun t => k + 2 * t) (seq 0 n))).
  Proof.
    induction n as [|n IH]; intros k st acc W K3 D; cbn [seq map loop3 flat_map].
    - rewrite app_nil_r. auto.
    - rewrite Nat.mul_0_r, Nat.add_0_r. specialize (D 0 ltac:(lia)) as D0. destruct (load_ok depth st k W ltac:(lia)) as [st' [E W']]. rewrite E. cbn [obind].
      rewrite (osequence_ok_x _ (full3 k)) by (intros b Hb; apply visit3_ok; auto). cbn [obind].
      rewrite <- seq_shift, map_map. rewrite (map_ext (fun x => k + 2 * S x) (fun t => (k + 2) + 2 * t)) by (intros; lia).
      rewrite IH; [|apply advance_ok; auto|lia|intros t Ht; specialize (D (S t) ltac:(lia)); lia].
      rewrite <- app_assoc. f_equal. f_equal. f_equal. unfold found3. rewrite flat_map_concat_map, map_map, <- flat_map_concat_map. auto.
  Qed.
  Hypothesis Hs3 : 3 <= nth 1 sizes 0.
  Hypothesis Hdepth : nth 1 sizes 0 + 3 <= depth.
  Definition planes3 : list nat := range2 (nth 1 sizes 0) (Z.of_nat depth - Z.of_nat (nth 1 sizes 0%nat + 1)).
  Lemma find3_ok : find3 nl depth rows cols g dog sizes tiny hessian = Val (flat_map found3 planes3).
  Proof.
    unfold find3. destruct (first_ok depth (nth 1 sizes 0%nat) Hs3 Hdepth) as [st [E W]]. rewrite E. cbn [obind]. unfold planes_visited, z_first. rewrite Nat.max_l by lia.
    unfold planes3. replace (Z.of_nat depth - Z.of_nat (nth 1 sizes 0%nat + 1))%Z with (Z.of_nat depth - Z.of_nat (nth 1 sizes 0%nat) - 1)%Z by lia. unfold range2. rewrite loop3_ok; auto.
    intros t Ht. set (q := ((Z.of_nat depth - Z.of_nat (nth 1 sizes 0%nat) - 1 - Z.of_nat (nth 1 sizes 0%nat) + 1) / 2)%Z) in *.
    assert (X := Z.mul_div_le (Z.of_nat depth - Z.of_nat (nth 1 sizes 0%nat) - 1 - Z.of_nat (nth 1 sizes 0%nat) + 1) 2 ltac:(lia)). fold q in X. lia.
  Qed.
  Lemma windows_from_ok : forall n k st, shows (-3) 2 st k -> 3 <= k -> (forall t, t < n -> k + 2 * t + 5 <= depth) ->
    exists sts, windows_from depth (map (fun t => k + 2 * t) (seq 0 n)) st = Val sts /\ length sts = n /\ forall t w, nth_error sts t = Some w -> shows (-3) 4 w (k + 2 * t) /\ k + 2 * t + 5 <= depth.
  Proof.
    clear. induction n as [|n IH]; intros k st W K3 D; cbn [seq map windows_from].
    - exists []. split; auto. split; auto. intros [|t] w; discriminate.
    - rewrite Nat.mul_0_r, Nat.add_0_r. specialize (D 0 ltac:(lia)) as D0. destruct (load_ok depth st k W ltac:(lia)) as [st' [E W']]. rewrite E. cbn [obind].
      rewrite <- seq_shift, map_map. rewrite (map_ext (fun x => k + 2 * S x) (fun t => (k + 2) + 2 * t)) by (intros; lia).
      destruct (IH (k + 2) (advance st')) as [sts (E2 & L & H)]; [apply advance_ok; auto|lia|intros t Ht; specialize (D (S t) ltac:(lia)); lia|].
      rewrite E2. exists (st' :: sts). split; auto. split; [cbn; auto|]. intros [|t] w Ht; cbn [nth_error] in Ht.
      + injection Ht as <-. rewrite Nat.mul_0_r, Nat.add_0_r. split; [auto|lia].
      + apply H in Ht. replace (k + 2 * S t) with (k + 2 + 2 * t) by lia. auto.
  Qed.
  Lemma windows_ok : exists sts, windows depth sizes = Val sts /\ length sts = length (planes_visited depth sizes) /\
    forall t w, nth_error sts t = Some w -> nth_error (planes_visited depth sizes) t = Some (nth 1 sizes 0 + 2 * t) /\ shows (-3) 4 w (nth 1 sizes 0 + 2 * t) /\ nth 1 sizes 0 + 2 * t + 5 <= depth.
  Proof.
    clear Hsizes. unfold windows. destruct (first_ok depth (nth 1 sizes 0) Hs3 Hdepth) as [st [E W]]. rewrite E. cbn [obind]. unfold planes_visited, z_first. rewrite Nat.max_l by lia. unfold range2.
    set (q := ((Z.of_nat depth - Z.of_nat (nth 1 sizes 0%nat) - 1 - Z.of_nat (nth 1 sizes 0%nat) + 1) / 2)%Z) in *.
    assert (X := Z.mul_div_le (Z.of_nat depth - Z.of_nat (nth 1 sizes 0%nat) - 1 - Z.of_nat (nth 1 sizes 0%nat) + 1) 2 ltac:(lia)). fold q in X.
    destruct (windows_from_ok (Z.to_nat q) (nth 1 sizes 0) st W Hs3) as [sts (E2 & L & H)]; [intros t Ht; lia|]. rewrite E2. exists sts. split; auto. split; [rewrite map_length, seq_length; auto|].
    intros t w Ht. split; [|apply H; auto]. assert (t < Z.to_nat q) by (rewrite <- L; apply nth_error_Some; congruence). rewrite nth_error_map, nth_error_nth' with (d := 0) by (rewrite seq_length; auto). rewrite seq_nth by auto. auto.
  Qed.
  Lemma cell3_dec : forall x y : cell3, {x = y} + {x <> y}.
  Proof. intros. decide equality; [apply Nat.eq_dec|]. decide equality; [apply Nat.eq_dec|]. decide equality; [apply Z.eq_dec|apply Nat.eq_dec]. Qed.
  Lemma in_found3 k c v : In (c, v) (found3 k) <-> exists b r, In b (blocks3 nl rows cols sizes) /\ pure3 k b = Some (r, true) /\ c = abs k r /\ v = lines3 c.
  Proof.
    unfold found3. rewrite in_flat_map. unfold full3. split.
    - intros [b [Hb H]]. destruct (pure3 k b) as [[r [|]]|] eqn:E; try easy. destruct H as [H|[]]. injection H as <- <-. exists b, r. auto.
    - intros [b [r (Hb & E & -> & ->)]]. exists b. split; auto. rewrite E. left. auto.
  Qed.
  Lemma pure3_in k b r t : pure3 k b = Some (r, t) -> In r (let '(l, j, i) := b in block3 l j i).
  Proof. destruct b as [[l j] i]. unfold pure3. intros E. apply pure_in in E; [tauto|unfold block3; discriminate]. Qed.
  Lemma found3_plane k l p j i v : In ((l, p, j, i), v) (found3 k) -> k <= p <= k + 1.
  Proof. rewrite in_found3. intros [b [r (Hb & E & Ec & _)]]. apply pure3_in in E. destruct b as [[lb jb] ib], r as [[[l' o'] j'] i']. apply in_block3 in E. unfold abs in Ec. injection Ec as -> -> -> ->. lia. Qed.
  Lemma find3_NoDup : NoDup (map fst (flat_map found3 planes3)).
  Proof.
    assert (E : map fst (flat_map found3 planes3) = flat_map (fun k => map fst (found3 k)) planes3).
    { induction planes3 as [|k l IH]; auto. cbn [flat_map]. rewrite map_app, IH. auto. }
    rewrite E. apply NoDup_flat_map_x; [apply range2_NoDup| |].
    - intros k _. unfold found3.
      assert (E' : forall bl, map fst (flat_map (fun b => match full3 k b with Some x => [x] | None => [] end) bl) = flat_map (fun b => match full3 k b with Some x => [fst x] | None => [] end) bl).
      { induction bl as [|b bl IH]; auto. cbn [flat_map]. rewrite map_app, IH. destruct (full3 k b); auto. }
      rewrite E'. apply NoDup_flat_map_x; [apply blocks3_NoDup| |].
      + intros b _. destruct (full3 k b); [|constructor]. constructor; [intros []|constructor].
      + intros [[l j] i] [[l' j'] i'] [[[cl cp] cj] ci] Hb Hb' H H'. unfold full3 in *.
        destruct (pure3 k (l, j, i)) as [[r [|]]|] eqn:P; try easy. destruct (pure3 k (l', j', i')) as [[r' [|]]|] eqn:P'; try easy. destruct H as [H|[]], H' as [H'|[]]. cbn [fst] in *.
        apply pure3_in in P. apply pure3_in in P'. destruct r as [[[rl ro] rj] ri], r' as [[[rl' ro'] rj'] ri']. apply in_block3 in P. apply in_block3 in P'. unfold abs in *. injection H as -> _ -> ->. injection H' as -> _ -> ->.
        apply in_blocks3 in Hb. apply in_blocks3 in Hb'. destruct Hb as (A & B & D), Hb' as (A' & B' & D').
        assert (l = l') by (apply (range2_same 1 (Z.of_nat nl + 1) l l' cl); tauto). subst l'.
        assert (j = j') by (eapply range2_same with (x := cj); [apply B|apply B'| |]; tauto). assert (i = i') by (eapply range2_same with (x := ci); [apply D|apply D'| |]; tauto). congruence.
    - intros k k' [[[l p] j] i] Hk Hk' H H'. apply in_map_iff in H. apply in_map_iff in H'. destruct H as [[c v] [Ec H]], H' as [[c' v'] [Ec' H']]. cbn [fst] in *. subst c c'.
      apply found3_plane in H. apply found3_plane in H'. apply (range2_same _ _ k k' p Hk Hk'); auto.
  Qed.
  Hypothesis Htiny : tiny 0%Z = true.
  Theorem find3_spec : exists res, find3 nl depth rows cols g dog sizes tiny hessian = Val res /\ NoDup (map fst res) /\
    (forall l p j i v, In ((l, p, j, i), v) res -> 1 <= l <= nl /\ inside (nth l sizes 0) p depth /\ inside (nth l sizes 0) j rows /\ inside (nth l sizes 0) i cols /\
       scanned (nth 1 sizes 0) (nth 1 sizes 0 + 1) p depth /\ scanned (si3 sizes (base l)) (si3 sizes (base l) + 1) j rows /\ scanned (si3 sizes (base l)) (si3 sizes (base l) + 1) i cols /\
       minimum adjacent3 val3 tiny (l, p, j, i) /\ hessian (patch3 (l, p, j, i)) = true /\ v = lines3 (l, p, j, i)) /\
    (forall l p j i, 1 <= l <= nl -> inside (nth l sizes 0) p depth -> inside (nth l sizes 0) j rows -> inside (nth l sizes 0) i cols ->
       scanned (nth 1 sizes 0) (nth 1 sizes 0 + 1) p depth -> scanned (si3 sizes (base l)) (si3 sizes (base l) + 1) j rows -> scanned (si3 sizes (base l)) (si3 sizes (base l) + 1) i cols ->
       strict_minimum adjacent3 val3 tiny (l, p, j, i) -> hessian (patch3 (l, p, j, i)) = true -> In (l, p, j, i) (map fst res)).
  Proof.
    exists (flat_map found3 planes3). split; [apply find3_ok|]. split; [apply find3_NoDup|]. split.
    - intros l p j i v H. apply in_flat_map in H. destruct H as [k [Hk H]]. assert (Hk' := Hk). apply range2_in in Hk'. destruct Hk' as [tk [Ek Bk]]. apply in_found3 in H. destruct H as [[[lb jb] ib] [[[[rl ro] rj] ri] (Hb & E & Ec & Ev)]].
      unfold abs in Ec. injection Ec as -> -> -> ->. assert (X := block3_bounds _ _ _ Hb). destruct X as [s (Es & S3 & K & J1 & J2 & I1 & I2)].
      unfold pure3 in E. apply pure_sound in E; [|unfold block3; discriminate]. destruct E as (E1 & E2 & E3 & _ & E5 & E6). assert (Y := E1). apply in_block3 in Y. apply allow3_spec in E2; [|lia].
      apply in_blocks3 in Hb. destruct Hb as (B1 & B2 & B3). assert (B1' := B1). apply range2_in in B1'. destruct B1' as [t [Bt _]]. rewrite (base_spec rl lb t) by lia.
      split; [lia|]. split; [tauto|]. split; [tauto|]. split; [tauto|]. split; [apply scanned_iff; exists k; split; [exact Hk|lia]|]. split; [apply scanned_iff; exists jb; split; [auto|lia]|]. split; [apply scanned_iff; exists ib; split; [auto|lia]|].
      split; [|auto]. apply orb_false_iff in E3. destruct E3 as [E3 E4]. cbn [abs] in E3, E4, E6. split; [|split; [auto|]].
      + apply Z.ltb_ge in E3. assert (val3 (rl, Z.to_nat (ro + Z.of_nat k), rj, ri) <> 0%Z) by (intros Q; rewrite Q in E4; congruence). lia.
      + intros [[[l' p'] j'] i'] (N1 & N2 & N3 & N4 & N5). unfold near in *. specialize (E6 (l', (Z.of_nat p' - Z.of_nat k)%Z, j', i')). cbn [abs] in E6. replace (Z.to_nat (Z.of_nat p' - Z.of_nat k + Z.of_nat k)) with p' in E6 by lia. apply E6.
        destruct (in_dec cell3_dec (l', (Z.of_nat p' - Z.of_nat k)%Z, j', i') (block3 lb jb ib)) as [I|I]; [left; auto|right]. apply in_outside3; auto; try lia. split; [|auto]. split; [|unfold near; lia].
        intros Q. injection Q as -> Q -> ->. apply N1. f_equal. f_equal. f_equal. lia.
    - intros l p j i Hl Hp Hj Hi Sp Sj Si (M1 & M2 & M3) Hh. destruct (base_bounds l ltac:(lia)) as [Bl [t Bt]].
      destruct (proj1 (scanned_iff _ _ _ _) Sp) as [kb [K1 K2]]. destruct (proj1 (scanned_iff _ _ _ _) Sj) as [jb [J1 J2]]. destruct (proj1 (scanned_iff _ _ _ _) Si) as [ib [I1 I2]].
      assert (Hb : In (base l, jb, ib) (blocks3 nl rows cols sizes)). { apply in_blocks3. split; [|auto]. apply range2_in. exists t. split; auto. lia. }
      assert (K3 : 3 <= kb). { apply range2_in in K1. destruct K1 as [tk [Ek _]]. lia. }
      apply in_map_iff. exists ((l, p, j, i), lines3 (l, p, j, i)). split; auto. apply in_flat_map. exists kb. split; [exact K1|]. apply in_found3. exists (base l, jb, ib), (l, (Z.of_nat p - Z.of_nat kb)%Z, j, i).
      assert (EA : abs kb (l, (Z.of_nat p - Z.of_nat kb)%Z, j, i) = (l, p, j, i)). { unfold abs. f_equal. f_equal. f_equal. lia. }
      split; auto. split; [|split; auto]. assert (X := block3_bounds _ _ _ Hb). destruct X as [s (Es & S3 & K & X)].
      assert (HB : In (l, (Z.of_nat p - Z.of_nat kb)%Z, j, i) (block3 (base l) jb ib)) by (apply in_block3; lia).
      unfold pure3. apply pure_complete; [apply cell3_dec|unfold block3; discriminate|auto| | |auto|rewrite EA; auto| |].
      + apply allow3_spec; [lia|]. replace (Z.to_nat (Z.of_nat p - Z.of_nat kb + Z.of_nat kb)) with p by lia. split; [lia|auto].
      + rewrite EA, M2, orb_false_r. apply Z.ltb_ge. lia.
      + intros [[[l' o'] j'] i'] Hn Ne. rewrite EA. apply M3. apply in_block3 in Hn. unfold abs. split; [|unfold near; lia]. intros Q. injection Q as <- Q <- <-. apply Ne. f_equal. f_equal. f_equal. lia.
      + intros [[[l' o'] j'] i'] Hn. apply in_outside3 in Hn; auto; try lia. destruct Hn as [(N1 & N2 & N3 & N4 & N5) _]. rewrite EA. apply Z.lt_le_incl, M3. unfold abs. split; [|unfold near in *; lia]. intros Q. injection Q as <- Q <- <-. apply N1. f_equal. f_equal. f_equal. lia.
  Qed.
End Three.

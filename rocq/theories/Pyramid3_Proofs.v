(** Proofs about upscaling in three dimensions. *)
Require Import List Bool Arith Lia.
Require Import Verif.Base Verif.ListX Verif.Traj_Model Verif.Particles_Model Verif.Corr_Model Verif.RTree_Model Verif.Boo_Model Verif.Pyramid_Model Verif.Pyramid_Spec Verif.Pyramid_Proofs.
Import ListNotations.
Local Open Scope nat_scope.

Section Three.
  Variables (P : Type) (zero : P) (half : P -> P -> P).
  Hypothesis Hzero : half zero zero = zero.
  Lemma junk_ok v n m : 1 <= v -> (forall p, v <= p + 1 <= v + n + 1 -> nth_error m p = Some zero) ->
    exists m', interpolate P half v 1 (seq 0 n) m = Val m' /\ length m' = length m /\ forall p, nth_error m' p = nth_error m p.
  Proof.
    intros Hv Z. unfold interpolate. destruct (ofold_seq_inv (fun _ (m' : list P) => length m' = length m /\ forall p, nth_error m' p = nth_error m p)
      (fun i m => obind (obind (at_index m (v + 1 * i - 1)) (fun a => omap (half a) (at_index m (v + 1 * i + 1)))) (fun x => write (v + 1 * i) x m)) n 0 m) as [m' (E & L & A)]; [auto| |exists m'; auto].
    intros i m1 Hi (L & A). destruct n as [|n]; [lia|]. exists (RTree_Model.set_nth (v + 1 * i) zero m1).
    assert (X : forall p, v <= p + 1 <= v + S n + 1 -> nth_error m1 p = Some zero) by (intros; rewrite A; apply Z; lia).
    assert (B : v + 1 * i < length m1) by (apply nth_error_Some; rewrite X by lia; discriminate).
    rewrite (at_some m1 _ zero) by (apply X; lia). cbn [obind]. rewrite (at_some m1 (v + 1 * i + 1) zero) by (apply X; lia). cbn [omap obind]. rewrite Hzero. unfold write. replace (v + 1 * i <? length m1) with true by (symmetry; apply Nat.ltb_lt; auto).
    split; auto. rewrite set_nth_len. split; auto. intros p. rewrite set_nth_get by auto. rewrite <- A. destruct (Nat.eqb_spec p (v + 1 * i)); auto. subst p. symmetry. apply X. lia.
  Qed.
  Lemma line3_ok input s u c m g : u + 4 * c <= length m -> (forall x, x < 4 * c -> nth_error m (u + x) = Some zero) -> (forall i, i < c -> nth_error input (s + i) = Some (g i)) ->
    exists m', obind (copy_even P input s u (2 * c) m) (interpolate P half (u + 2 * c) 1 (seq 0 (c - 1))) = Val m' /\ length m' = length m /\
      (forall x, x < 2 * c -> nth_error m' (u + x) = Some (stuffed zero g x)) /\ (forall p, p < u \/ u + 2 * c <= p -> nth_error m' p = nth_error m p).
  Proof.
    intros L Z H. destruct (copy_even_ok P input s u (2 * c) c m g eq_refl ltac:(lia) H) as [m1 (E1 & L1 & A1 & B1)]. rewrite E1. cbn [obind]. destruct c as [|c].
    - exists m1. split; [reflexivity|]. split; auto. split; [lia|]. intros p Hp. apply B1. lia.
    - destruct (junk_ok (u + 2 * S c) (S c - 1) m1) as [m2 (E2 & L2 & A2)]; [lia| |].
      + intros p Hp. rewrite B1 by lia. replace p with (u + (p - u)) by lia. apply Z. lia.
      + exists m2. split; auto. split; [congruence|]. split.
        * intros x Hx. rewrite A2. unfold stuffed. destruct (even_cases x) as [[i ->]|[i ->]]; [rewrite even_2, half_even; apply A1; lia|]. rewrite even_21. rewrite B1 by lia. apply Z. lia.
        * intros p Hp. rewrite A2. apply B1. lia.
  Qed.
  Lemma other_line H W p y p0 y0 x : y < H -> y0 < H -> (p, y) <> (p0, y0) -> x < W -> (p * H + y) * W + x < (p0 * H + y0) * W \/ (p0 * H + y0) * W + W <= (p * H + y) * W + x.
  Proof.
    intros H1 H2 Ne Hx. assert (p * H + y <> p0 * H + y0) by (intros E; apply idx_inj in E; auto; destruct E; congruence).
    destruct (Nat.lt_ge_cases (p * H + y) (p0 * H + y0)); [left|right].
    - apply Nat.lt_le_trans with ((p * H + y + 1) * W); [lia|]. apply Nat.mul_le_mono_r. lia.
    - replace ((p0 * H + y0) * W + W) with ((p0 * H + y0 + 1) * W) by lia. apply Nat.le_trans with ((p * H + y) * W); [apply Nat.mul_le_mono_r; lia|lia].
  Qed.
  (** the volume holds F *)
  Definition holds (D H W : nat) (m : list P) (F : nat -> nat -> nat -> P) : Prop := length m = D * H * W /\ forall p y x, p < D -> y < H -> x < W -> at3 m H W p y x = Some (F p y x).
  Lemma line_end D H W p y : p < D -> y < H -> (p * H + y) * W + W <= D * H * W.
  Proof. intros. replace ((p * H + y) * W + W) with ((p * H + y + 1) * W) by lia. apply Nat.mul_le_mono_r. assert (p * H + y < D * H) by (apply idx_lt; auto). lia. Qed.
  Variables (r c : nat) (input : list P) (g : nat -> nat -> nat -> P).
  Notation H := (2 * r).
  Notation W := (2 * c).
  Definition even_lines (k : nat) : list P -> outcome (list P) := ofold (fun j m =>
    obind (copy_even P input ((k * r + j) * c) ((2 * k * H + 2 * j) * W) W m) (interpolate P half ((2 * k * H + 2 * j) * W + 2 * c) 1 (seq 0 (c - 1)))) (seq 0 r).
  Definition after_lines (k : nat) (p y x : nat) : P := if Nat.even p && Nat.even y && (p / 2 <? k) then stuffed zero (g (p / 2) (y / 2)) x else zero.
  Lemma even_lines_ok D k m : 2 * k < D -> (forall j i, j < r -> i < c -> at3 input r c k j i = Some (g k j i)) -> holds D H W m (after_lines k) -> exists m', even_lines k m = Val m' /\ holds D H W m' (after_lines (S k)).
  Proof.
    intros Hk Hin Hm. unfold even_lines.
    destruct (ofold_seq_inv (fun j m => holds D H W m (fun p y x => if Nat.even p && Nat.even y && ((p / 2 <? k) || (p / 2 =? k) && (y / 2 <? j)) then stuffed zero (g (p / 2) (y / 2)) x else zero))
      (fun j m => obind (copy_even P input ((k * r + j) * c) ((2 * k * H + 2 * j) * W) W m) (interpolate P half ((2 * k * H + 2 * j) * W + 2 * c) 1 (seq 0 (c - 1)))) r 0 m) as [m' (E & L & A)].
    - destruct Hm as [L A]. split; auto. intros p y x Hp Hy Hx. rewrite A by auto. unfold after_lines. replace (y / 2 <? 0) with false by (symmetry; apply Nat.ltb_ge; lia). rewrite andb_false_r, orb_false_r. auto.
    - intros j m0 Hj (L & A). destruct (line3_ok input ((k * r + j) * c) ((2 * k * H + 2 * j) * W) c m0 (g k j)) as [m1 (E & L1 & A1 & B1)].
      + rewrite L. assert (X := line_end D H W (2 * k) (2 * j + 1) ltac:(lia) ltac:(lia)). lia.
      + intros x Hx. destruct (Nat.lt_ge_cases x W) as [XW|XW].
        * fold (at3 m0 H W (2 * k) (2 * j) x). rewrite A by lia. rewrite !even_2, !half_even. replace (k <? k) with false by (symmetry; apply Nat.ltb_ge; lia). replace (j <? j) with false by (symmetry; apply Nat.ltb_ge; lia). rewrite andb_false_r. auto.
        * replace ((2 * k * H + 2 * j) * W + x) with ((2 * k * H + (2 * j + 1)) * W + (x - W)) by lia. fold (at3 m0 H W (2 * k) (2 * j + 1) (x - W)). rewrite A by lia. rewrite even_21, andb_false_r. auto.
      + intros i Hi. apply (Hin j i); lia.
      + exists m1. split; [exact E|]. split; [congruence|]. intros p y x Hp Hy Hx. destruct (Nat.eq_dec p (2 * k)) as [->|Np]; [destruct (Nat.eq_dec y (2 * j)) as [->|Ny]|].
        * rewrite !even_2, !half_even, Nat.eqb_refl. replace (j <? S j) with true by (symmetry; apply Nat.ltb_lt; lia). rewrite orb_true_r. apply A1. auto.
        * unfold at3. rewrite B1 by (apply other_line; auto; [lia|congruence]). fold (at3 m0 H W (2 * k) y x). rewrite A by auto. destruct (even_cases y) as [[i ->]|[i ->]]; [rewrite !half_even, (ltb_iff i j i (S j)) by lia; auto|rewrite even_21, andb_false_r; auto].
        * unfold at3. rewrite B1 by (apply other_line; auto; [lia|congruence]). fold (at3 m0 H W p y x). rewrite A by auto. destruct (even_cases p) as [[i ->]|[i ->]]; [|rewrite even_21; auto]. rewrite half_even. replace (i =? k) with false by (symmetry; apply Nat.eqb_neq; lia). auto.
    - exists m'. split; auto. split; auto. intros p y x Hp Hy Hx. rewrite A by auto. unfold after_lines. cbn [Nat.add]. destruct (even_cases y) as [[i ->]|[i ->]]; [|rewrite even_21, !andb_false_r; auto]. rewrite !half_even. replace (i <? r) with true by (symmetry; apply Nat.ltb_lt; lia).
      rewrite andb_true_r. replace ((p / 2 <? k) || (p / 2 =? k)) with (p / 2 <? S k); auto. destruct (Nat.ltb_spec (p / 2) (S k)) as [?F|?F], (Nat.ltb_spec (p / 2) k) as [?F|?F], (Nat.eqb_spec (p / 2) k) as [?F|?F]; auto; lia.
  Qed.
  Definition plane3 (k y x : nat) : P := interp half zero r (fun j => stuffed zero (g k j) x) y.
  Definition odd_lines (k : nat) : list P -> outcome (list P) := ofold (fun j => between P half ((2 * k * H + 2 * j) * W) ((2 * k * H + (2 * j + 1)) * W) ((2 * k * H + (2 * j + 2)) * W) W) (seq 0 (r - 1)).
  Definition after_planes (d k : nat) (p y x : nat) : P := if Nat.even p && (p / 2 <? k) then plane3 (p / 2) y x else after_lines d p y x.
  Lemma odd_lines_ok D d k m : D = 2 * d -> k < d -> holds D H W m (after_planes d k) -> exists m', odd_lines k m = Val m' /\ holds D H W m' (after_planes d (S k)).
  Proof.
    intros HD Hk Hm. unfold odd_lines.
    destruct (ofold_seq_inv (fun j m => holds D H W m (fun p y x => if (p =? 2 * k) && negb (Nat.even y) && (y / 2 <? j) then plane3 k y x else after_planes d k p y x))
      (fun j => between P half ((2 * k * H + 2 * j) * W) ((2 * k * H + (2 * j + 1)) * W) ((2 * k * H + (2 * j + 2)) * W) W) (r - 1) 0 m) as [m' (E & L & A)].
    - destruct Hm as [L A]. split; auto. intros p y x Hp Hy Hx. rewrite A by auto. replace (y / 2 <? 0) with false by (symmetry; apply Nat.ltb_ge; lia). rewrite andb_false_r. auto.
    - intros j m0 Hj (L & A).
      assert (EV : forall j x, j < r -> x < W -> nth_error m0 ((2 * k * H + 2 * j) * W + x) = Some (stuffed zero (g k j) x)).
      { intros q x Hq Hx. fold (at3 m0 H W (2 * k) (2 * q) x). rewrite A by lia. rewrite even_2. cbn [negb]. rewrite andb_false_r. cbn [andb]. unfold after_planes, after_lines. rewrite !half_even, !even_2. replace (k <? k) with false by (symmetry; apply Nat.ltb_ge; lia). replace (k <? d) with true by (symmetry; apply Nat.ltb_lt; lia). auto. }
      destruct (between_ok P half ((2 * k * H + 2 * j) * W) ((2 * k * H + (2 * j + 1)) * W) ((2 * k * H + (2 * j + 2)) * W) W m0 (stuffed zero (g k j)) (stuffed zero (g k (j + 1)))) as [m1 (E & L1 & A1 & B1)]; [right; lia|left; lia| | | |].
      + rewrite L. apply line_end; lia.
      + intros x Hx. apply EV; lia.
      + intros x Hx. replace (2 * j + 2) with (2 * (j + 1)) by lia. apply EV; lia.
      + exists m1. split; [exact E|]. split; [congruence|]. intros p y x Hp Hy Hx. destruct (Nat.eq_dec p (2 * k)) as [->|Np]; [destruct (Nat.eq_dec y (2 * j + 1)) as [->|Ny]|].
        * rewrite Nat.eqb_refl, even_21, half_odd. replace (j <? S j) with true by (symmetry; apply Nat.ltb_lt; lia). cbn [negb andb]. unfold plane3, interp. rewrite even_21, half_odd. replace (2 * j + 1 + 1 <? 2 * r) with true by (symmetry; apply Nat.ltb_lt; lia). apply A1. auto.
        * unfold at3. rewrite B1 by (apply other_line; auto; [lia|congruence]). fold (at3 m0 H W (2 * k) y x). rewrite A by auto. destruct (even_cases y) as [[i ->]|[i ->]]; [rewrite even_2; cbn [negb]; rewrite !andb_false_r; auto|rewrite half_odd, (ltb_iff i j i (S j)) by lia; auto].
        * unfold at3. rewrite B1 by (apply other_line; auto; [lia|congruence]). fold (at3 m0 H W p y x). rewrite A by auto. replace (p =? 2 * k) with false by (symmetry; apply Nat.eqb_neq; lia). auto.
    - exists m'. split; auto. split; auto. intros p y x Hp Hy Hx. rewrite A by auto. cbn [Nat.add]. destruct (Nat.eq_dec p (2 * k)) as [->|Np].
      + rewrite Nat.eqb_refl. cbn [andb]. unfold after_planes, after_lines. rewrite even_2, half_even. replace (k <? k) with false by (symmetry; apply Nat.ltb_ge; lia). replace (k <? S k) with true by (symmetry; apply Nat.ltb_lt; lia). replace (k <? d) with true by (symmetry; apply Nat.ltb_lt; lia). cbn [andb].
        destruct (even_cases y) as [[i ->]|[i ->]].
        * rewrite even_2, half_even. cbn [negb andb]. unfold plane3, interp. rewrite even_2, half_even. auto.
        * rewrite even_21, half_odd. cbn [negb andb]. destruct (Nat.ltb_spec i (r - 1)) as [IR|IR]; auto. unfold plane3, interp. rewrite even_21. replace (2 * i + 1 + 1 <? 2 * r) with false by (symmetry; apply Nat.ltb_ge; lia). auto.
      + replace (p =? 2 * k) with false by (symmetry; apply Nat.eqb_neq; lia). cbn [andb]. unfold after_planes. destruct (even_cases p) as [[i ->]|[i ->]]; [|rewrite even_21; auto]. rewrite half_even, (ltb_iff i k i (S k)) by lia. auto.
  Qed.
  Definition volume3 (d p y x : nat) : P := interp half zero d (fun k => plane3 k y x) p.
  Lemma odd_planes_ok D d m : D = 2 * d -> holds D H W m (after_planes d d) ->
    exists m', ofold (fun k => between P half (2 * k * H * W) ((2 * k + 1) * H * W) ((2 * k + 2) * H * W) (H * W)) (seq 0 (d - 1)) m = Val m' /\ holds D H W m' (volume3 d).
  Proof.
    intros HD Hm.
    destruct (ofold_seq_inv (fun k m => holds D H W m (fun p y x => if Nat.even p then plane3 (p / 2) y x else if p / 2 <? k then half (plane3 (p / 2) y x) (plane3 (p / 2 + 1) y x) else zero))
      (fun k => between P half (2 * k * H * W) ((2 * k + 1) * H * W) ((2 * k + 2) * H * W) (H * W)) (d - 1) 0 m) as [m' (E & L & A)].
    - destruct Hm as [L A]. split; auto. intros p y x Hp Hy Hx. rewrite A by auto. unfold after_planes, after_lines. destruct (even_cases p) as [[i ->]|[i ->]]; [rewrite even_2, half_even|rewrite even_21; auto]. replace (i <? d) with true by (symmetry; apply Nat.ltb_lt; lia). auto.
    - intros k m0 Hk (L & A). assert (FL : forall q i, q < D -> i < H * W -> nth_error m0 (q * H * W + i) = at3 m0 H W q (i / W) (i mod W)).
      { intros q i Hq Hi. unfold at3. f_equal. assert (W0 : W <> 0) by (intros Z; rewrite Z, Nat.mul_0_r in Hi; lia). assert (X := Nat.div_mod_eq i W). lia. }
      assert (RG : forall i, i < H * W -> i / W < H /\ i mod W < W). { intros i Hi. assert (W0 : W <> 0) by (intros Z; rewrite Z, Nat.mul_0_r in Hi; lia). split; [apply Nat.div_lt_upper_bound; [auto|lia]|apply Nat.mod_upper_bound; auto]. }
      destruct (between_ok P half (2 * k * H * W) ((2 * k + 1) * H * W) ((2 * k + 2) * H * W) (H * W) m0 (fun i => plane3 k (i / W) (i mod W)) (fun i => plane3 (k + 1) (i / W) (i mod W))) as [m1 (E & L1 & A1 & B1)]; [right; lia|left; lia| | | |].
      + rewrite L, HD. replace ((2 * k + 1) * H * W + H * W) with ((2 * k + 2) * (H * W)) by lia. replace (2 * d * H * W) with ((2 * d) * (H * W)) by lia. apply Nat.mul_le_mono_r. lia.
      + intros i Hi. rewrite FL by lia. destruct (RG i Hi) as [R1 R2]. rewrite A by lia. rewrite even_2, half_even. auto.
      + intros i Hi. rewrite FL by lia. destruct (RG i Hi) as [R1 R2]. rewrite A by lia. replace (2 * k + 2) with (2 * (k + 1)) by lia. rewrite even_2, half_even. auto.
      + exists m1. split; [exact E|]. split; [congruence|]. intros p y x Hp Hy Hx. assert (YX : y * W + x < H * W) by (apply idx_lt; auto). destruct (Nat.eq_dec p (2 * k + 1)) as [->|Np].
        * rewrite even_21, half_odd. replace (k <? S k) with true by (symmetry; apply Nat.ltb_lt; lia). unfold at3. replace (((2 * k + 1) * H + y) * W + x) with ((2 * k + 1) * H * W + (y * W + x)) by lia. rewrite A1 by auto.
          rewrite Nat.div_add_l, Nat.div_small, Nat.add_0_r by lia. rewrite Nat.add_comm, Nat.mod_add, Nat.mod_small by lia. auto.
        * unfold at3. rewrite B1.
          -- fold (at3 m0 H W p y x). rewrite A by auto. destruct (even_cases p) as [[i ->]|[i ->]]; [rewrite even_2; auto|]. rewrite even_21, half_odd, (ltb_iff i k i (S k)) by lia. auto.
          -- replace ((p * H + y) * W + x) with (p * (H * W) + (y * W + x)) by lia. replace ((2 * k + 1) * H * W) with ((2 * k + 1) * (H * W)) by lia. set (Q := H * W) in *. destruct (Nat.lt_ge_cases p (2 * k + 1)) as [PK|PK]; [left|right].
             ++ apply Nat.lt_le_trans with ((p + 1) * Q); [lia|]. apply Nat.mul_le_mono_r. lia.
             ++ replace ((2 * k + 1) * Q + Q) with ((2 * k + 2) * Q) by lia. apply Nat.le_trans with (p * Q); [apply Nat.mul_le_mono_r; lia|lia].
    - exists m'. split; auto. split; auto. intros p y x Hp Hy Hx. rewrite A by auto. unfold volume3, interp at 1. cbn [Nat.add]. destruct (even_cases p) as [[i ->]|[i ->]]; [rewrite even_2; auto|]. rewrite even_21, half_odd. rewrite (ltb_iff (2 * i + 1 + 1) (2 * d) i (d - 1)); auto. lia.
  Qed.
  Lemma even_planes_ok fd d : d <= fd -> (forall k j i, k < d -> j < r -> i < c -> at3 input r c k j i = Some (g k j i)) ->
    exists m, ofold even_lines (seq 0 d) (repeat zero (2 * fd * H * W)) = Val m /\ holds (2 * fd) H W m (after_lines d).
  Proof.
    intros Hd Hin. apply (ofold_seq_inv (fun k m => holds (2 * fd) H W m (after_lines k)) even_lines d 0).
    - split; [apply repeat_length|]. intros p y x Hp Hy Hx. unfold after_lines. replace (p / 2 <? 0) with false by (symmetry; apply Nat.ltb_ge; lia). rewrite andb_false_r. apply nth_error_repeat_x. apply idx_lt; auto. apply idx_lt; auto.
    - intros k m Hk Hm. apply even_lines_ok; auto; [lia|]. intros. apply Hin; lia.
  Qed.
  Lemma upscale3_unfold fd d : upscale3 P zero half fd d r c input =
    obind (ofold even_lines (seq 0 d) (repeat zero (2 * fd * H * W))) (fun m => obind (ofold odd_lines (seq 0 fd) m) (ofold (fun k => between P half (2 * k * H * W) ((2 * k + 1) * H * W) ((2 * k + 2) * H * W) (H * W)) (seq 0 (fd - 1)))).
  Proof. unfold upscale3, even_lines, odd_lines. cbv zeta. rewrite !below_even, !below_odd, seq_length. reflexivity. Qed.
  Lemma upscale3_ok d : (forall k j i, k < d -> j < r -> i < c -> at3 input r c k j i = Some (g k j i)) ->
    exists m, upscale3 P zero half d d r c input = Val m /\ holds (2 * d) H W m (volume3 d).
  Proof.
    intros Hin. rewrite upscale3_unfold. destruct (even_planes_ok d d (le_n d) Hin) as [m1 [E1 H1]]. rewrite E1. cbn [obind].
    destruct (ofold_seq_inv (fun k m => holds (2 * d) H W m (after_planes d k)) odd_lines d 0 m1) as [m2 [E2 H2]].
    - destruct H1 as [L A]. split; auto. intros p y x Hp Hy Hx. rewrite A by auto. unfold after_planes. replace (p / 2 <? 0) with false by (symmetry; apply Nat.ltb_ge; lia). rewrite andb_false_r. auto.
    - intros k m Hk Hm. apply odd_lines_ok with (D := 2 * d); auto. lia.
    - rewrite E2. cbn [obind]. apply odd_planes_ok; auto.
  Qed.
  (** an image deeper than the finder *)
  Lemma upscale3_ub fd d : fd < d -> 0 < r -> 0 < c -> (forall k j i, k < d -> j < r -> i < c -> at3 input r c k j i = Some (g k j i)) -> upscale3 P zero half fd d r c input = UB.
  Proof.
    intros Hd Hr Hc Hin. rewrite upscale3_unfold. replace d with (fd + S (d - fd - 1)) by lia. rewrite seq_app, ofold_app. destruct (even_planes_ok fd fd (le_n fd)) as [m1 [E1 [L1 _]]]; [intros; apply Hin; lia|]. rewrite E1. cbn [obind seq ofold].
    replace (even_lines (0 + fd) m1) with (@UB (list P)); [reflexivity|]. symmetry. unfold even_lines. cbn [Nat.add]. destruct r as [|r'] eqn:Er; [lia|]. cbn [seq ofold]. rewrite <- Er in *. unfold copy_even. rewrite below_even. destruct c as [|c'] eqn:Ec; [lia|]. cbn [seq ofold]. rewrite <- Ec in *.
    rewrite (at_some input _ (g fd 0 0)). 2: { rewrite <- (Hin fd 0 0) by lia. unfold at3. f_equal. }
    cbn [obind]. unfold write. replace ((2 * fd * H + 2 * 0) * W + 2 * 0 <? length m1) with false by (symmetry; apply Nat.ltb_ge; lia). reflexivity.
  Qed.
End Three.

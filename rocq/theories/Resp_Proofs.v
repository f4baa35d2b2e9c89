(** Proofs about the kernels and the response at intermediate scales. *)
Require Import ZArith List Bool Arith Lia.
Require Import Verif.Base Verif.SortU Verif.ListX Verif.Traj_Model Verif.Particles_Model Verif.Corr_Model Verif.RTree_Model Verif.Boo_Model Verif.Pyramid_Model Verif.Pyramid_Proofs Verif.Resp_Model Verif.Resp_Spec.
Import ListNotations.
Local Open Scope nat_scope.

(** Sums over lists. *)
Definition sumL {A} (l : list A) (f : A -> Z) : Z := fold_right Z.add 0%Z (map f l).
Lemma sumL_cons {A} (a : A) l f : sumL (a :: l) f = (f a + sumL l f)%Z.
Proof. auto. Qed.
Lemma sumL_app {A} (l l' : list A) f : sumL (l ++ l') f = (sumL l f + sumL l' f)%Z.
Proof. induction l as [|a l IH]; auto. cbn [app]. rewrite !sumL_cons, IH. lia. Qed.
Lemma sumL_ext {A} (l : list A) f g : (forall a, In a l -> f a = g a) -> sumL l f = sumL l g.
Proof. induction l as [|a l IH]; intros H; auto. rewrite !sumL_cons, H, IH; [auto| |left; auto]. intros b Hb. apply H. right. auto. Qed.
Lemma sumL_0 {A} (l : list A) f : (forall a, In a l -> f a = 0%Z) -> sumL l f = 0%Z.
Proof. induction l as [|a l IH]; intros H; auto. rewrite sumL_cons, H, IH; [auto| |left; auto]. intros b Hb. apply H. right. auto. Qed.
Lemma sumL_map {A B} (h : A -> B) l f : sumL (map h l) f = sumL l (fun a => f (h a)).
Proof. unfold sumL. rewrite map_map. auto. Qed.
Lemma sumL_add {A} (l : list A) f g : sumL l (fun a => f a + g a)%Z = (sumL l f + sumL l g)%Z.
Proof. induction l as [|a l IH]; auto. rewrite !sumL_cons, IH. lia. Qed.
Lemma sumL_scale {A} (l : list A) f c : sumL l (fun a => f a * c)%Z = (sumL l f * c)%Z.
Proof. induction l as [|a l IH]; auto. rewrite !sumL_cons, IH. lia. Qed.
Lemma sumL_prod {A B} (l : list A) (l' : list B) f : sumL (list_prod l l') f = sumL l (fun a => sumL l' (fun b => f (a, b))).
Proof. induction l as [|a l IH]; auto. cbn [list_prod]. rewrite sumL_app, sumL_cons, sumL_map, IH. auto. Qed.
Lemma sumL_swap {A B} (l : list A) (l' : list B) f : sumL l (fun a => sumL l' (fun b => f a b)) = sumL l' (fun b => sumL l (fun a => f a b)).
Proof.
  induction l as [|a l IH]; [symmetry; apply sumL_0; auto|]. rewrite sumL_cons, IH, <- sumL_add. apply sumL_ext. intros b _. rewrite sumL_cons. auto.
Qed.
Lemma sumL_pick a n p g : sumL (seq a n) (fun x => if x =? p then g x else 0%Z) = if (a <=? p) && (p <? a + n) then g p else 0%Z.
Proof.
  revert a. induction n as [|n IH]; intros a.
  - destruct (Nat.leb_spec a p), (Nat.ltb_spec p (a + 0)); cbn [andb]; auto; lia.
  - cbn [seq]. rewrite sumL_cons, IH. destruct (Nat.eqb_spec a p) as [E|N].
    + subst p. destruct (Nat.leb_spec (S a) a); [lia|]. destruct (Nat.leb_spec a a); [|lia]. destruct (Nat.ltb_spec a (a + S n)); [|lia]. cbn [andb]. lia.
    + rewrite Z.add_0_l. destruct (Nat.leb_spec (S a) p), (Nat.leb_spec a p); try lia; cbn [andb]; auto. replace (S a + n) with (a + S n) by lia. auto.
Qed.
(** A sum over a part of [0, m) is a sum over [0, m) with null terms. *)
Lemma sumL_span a b m g : b <= m -> sumL (span_of a b) g = sumL (seq 0 m) (fun x => if (a <=? x) && (x <? b) then g x else 0%Z).
Proof.
  intros H. unfold span_of. destruct (le_lt_dec a b) as [L|L].
  - replace m with (a + (b - a) + (m - b)) by lia. rewrite !seq_app, !sumL_app. cbn [plus].
    rewrite (sumL_0 (seq 0 a)), (sumL_0 (seq (a + (b - a)) (m - b))).
    + rewrite Z.add_0_l, Z.add_0_r. apply sumL_ext. intros x Hx. apply in_seq in Hx. destruct (Nat.leb_spec a x), (Nat.ltb_spec x b); auto; lia.
    + intros x Hx. apply in_seq in Hx. destruct (Nat.leb_spec a x), (Nat.ltb_spec x b); auto; lia.
    + intros x Hx. apply in_seq in Hx. destruct (Nat.leb_spec a x), (Nat.ltb_spec x b); auto; lia.
  - replace (b - a) with 0 by lia. cbn [seq]. symmetry. apply sumL_0. intros x _. destruct (Nat.leb_spec a x), (Nat.ltb_spec x b); auto; lia.
Qed.
Lemma sum_to_L n f : sum_to n f = sumL (seq 0 n) f.
Proof. auto. Qed.

(** Accumulation in an array. *)
Lemma add_at_ok x v g : x < length g -> add_at x v g = Val (RTree_Model.set_nth x (nth x g 0%Z + v)%Z g).
Proof.
  intros H. unfold add_at, at_index. destruct (nth_error g x) as [a|] eqn:E; [|apply nth_error_None in E; lia]. cbn [obind]. unfold write. destruct (Nat.ltb_spec x (length g)); [|lia].
  rewrite (nth_error_nth g x 0%Z E). auto.
Qed.
Lemma nth_of_error (g : list Z) x : nth x g 0%Z = match nth_error g x with Some v => v | None => 0%Z end.
Proof. revert x. induction g as [|a g IH]; intros [|x]; cbn; auto. Qed.
Lemma add_loop {A} (addr : A -> nat) (val : A -> Z) (f : A -> list Z -> outcome (list Z)) n :
  forall L g, length g = n -> (forall a g', In a L -> length g' = n -> f a g' = add_at (addr a) (val a) g') -> (forall a, In a L -> addr a < n) ->
  exists g', ofold f L g = Val g' /\ length g' = n /\ forall p, p < n -> nth p g' 0%Z = (nth p g 0 + sumL L (fun a => if (addr a =? p)%nat then val a else 0))%Z.
Proof.
  induction L as [|a L IH]; intros g Hn Hf Ha.
  - exists g. split; auto. split; auto. intros p _. unfold sumL. cbn. lia.
  - cbn [ofold]. rewrite Hf by (auto; left; auto). rewrite add_at_ok by (rewrite Hn; apply Ha; left; auto). cbn [obind].
    destruct (IH (RTree_Model.set_nth (addr a) (nth (addr a) g 0 + val a)%Z g)) as [g' [E [L' Hp]]]; [rewrite set_nth_len; auto|intros b g' Hb; apply Hf; right; auto|intros b Hb; apply Ha; right; auto|].
    exists g'. split; auto. split; auto. intros p Lp. rewrite Hp by auto. rewrite sumL_cons. assert (Ha' : addr a < length g) by (rewrite Hn; apply Ha; left; auto).
    rewrite (nth_of_error (RTree_Model.set_nth _ _ _)), set_nth_get by auto. rewrite (Nat.eqb_sym (addr a) p). destruct (Nat.eqb_spec p (addr a)) as [->|].
    + lia.
    + rewrite <- nth_of_error. lia.
Qed.
Lemma nth_repeat0 n p : nth p (repeat 0%Z n) 0%Z = 0%Z.
Proof. revert p. induction n as [|n IH]; intros [|p]; cbn; auto. Qed.
Lemma weighted_sum : forall g ker, length g = length ker -> weighted g ker = sumL (seq 0 (length ker)) (fun x => nth x g 0 * nth x ker 0)%Z.
Proof.
  assert (G : forall g ker r, length g = length ker -> fold_left (fun r gk => (r + fst gk * snd gk)%Z) (combine g ker) r = (r + sumL (seq 0 (length ker)) (fun x => nth x g 0 * nth x ker 0))%Z).
  { induction g as [|a g IH]; intros [|k ker] r H; try discriminate; [cbn; lia|]. injection H as H. cbn [combine fold_left fst snd length seq]. rewrite IH by auto. rewrite sumL_cons. cbn [nth]. rewrite <- seq_shift, sumL_map. cbn [nth]. lia. }
  intros g ker H. unfold weighted. rewrite G by auto. lia.
Qed.

Section Two.
  Variables (rows cols : nat) (data ker : list Z) (cx cy : nat).
  Hypothesis Hdata : length data = rows * cols.
  Let m := length ker.
  Let h := m / 2.
  Hypothesis Hcx : cx < cols.
  Hypothesis Hcy : cy < rows.
  (** The limits of the loops are those of the image. *)
  Hypothesis Hx : cx + h + 1 - rows = cx + h + 1 - cols.
  Hypothesis Hy : cy + h + 1 - cols = cy + h + 1 - rows.
  Lemma response2_ok : response2 rows cols data ker cx cy = Val (blurred2 (pixel2 rows cols data) ker cx cy).
  Proof.
    unfold response2. fold m. fold h. set (xmin := cx + h + 1 - rows) in *. set (ymin := cy + h + 1 - cols) in *. set (xmax := Nat.min m (cx + h + 1)). set (ymax := Nat.min m (cy + h + 1)).
    assert (X1 : xmax <= m /\ xmax <= cx + h + 1 /\ (m <= xmax \/ cx + h + 1 <= xmax) /\ xmin = cx + h + 1 - cols) by (unfold xmax; lia). assert (Y1 : ymax <= m /\ ymax <= cy + h + 1 /\ (m <= ymax \/ cy + h + 1 <= ymax) /\ ymin = cy + h + 1 - rows) by (unfold ymax; lia).
    clearbody xmin xmax ymin ymax. cbv zeta. rewrite (ofold_nest (fun y x gx => obind (at_index data ((cy + h - y) * cols + (cx + h - xmin) - (x - xmin))) (fun p => obind (at_index ker y) (fun k => add_at x (p * k)%Z gx)))).
    set (val := fun yx : nat * nat => (nth ((cy + h - fst yx) * cols + (cx + h - snd yx)) data 0 * nth (fst yx) ker 0)%Z).
    assert (Hin : forall yx, In yx (list_prod (span_of ymin ymax) (span_of xmin xmax)) -> ymin <= fst yx < ymax /\ xmin <= snd yx < xmax).
    { intros [y x] Hi. apply in_prod_iff in Hi. destruct Hi as [A B]. unfold span_of in *. apply in_seq in A. apply in_seq in B. cbn [fst snd]. lia. }
    assert (Hpix : forall yx, ymin <= fst yx < ymax /\ xmin <= snd yx < xmax -> at_index data ((cy + h - fst yx) * cols + (cx + h - xmin) - (snd yx - xmin)) = Val (nth ((cy + h - fst yx) * cols + (cx + h - snd yx)) data 0%Z)).
    { intros [y x] H. cbn [fst snd] in *. unfold at_index. assert (Q : (cy + h - y) * cols + (cx + h - xmin) - (x - xmin) = (cy + h - y) * cols + (cx + h - x)) by (generalize ((cy + h - y) * cols); lia). rewrite Q. clear Q.
      destruct (nth_error data ((cy + h - y) * cols + (cx + h - x))) eqn:E; [rewrite (nth_error_nth _ _ 0%Z E); auto|]. apply nth_error_None in E. rewrite Hdata in E.
      assert (cy + h - y < rows) by lia. assert (cx + h - x < cols) by lia. assert (B := idx_lt cols rows (cy + h - y) (cx + h - x)). lia. }
    assert (Hker : forall y, y < m -> at_index ker y = Val (nth y ker 0%Z)).
    { intros y H. unfold at_index. destruct (nth_error ker y) eqn:E; [rewrite (nth_error_nth _ _ 0%Z E); auto|]. apply nth_error_None in E. unfold m in H. lia. }
    destruct (add_loop snd val (fun yx gx => obind (at_index data ((cy + h - fst yx) * cols + (cx + h - xmin) - (snd yx - xmin))) (fun p => obind (at_index ker (fst yx)) (fun k => add_at (snd yx) (p * k)%Z gx))) m
      (list_prod (span_of ymin ymax) (span_of xmin xmax)) (repeat 0%Z m)) as [gx [E [Lg Hg]]].
    - apply repeat_length.
    - intros a g' Ha _. apply Hin in Ha. rewrite Hpix by auto. cbn [obind]. rewrite Hker by lia. reflexivity.
    - intros a Ha. apply Hin in Ha. lia.
    - rewrite E. cbn [omap obind]. f_equal. rewrite weighted_sum by auto. fold m. unfold blurred2. fold m. rewrite sum_to_L.
      rewrite (sumL_ext _ (fun y => sum_to m _) (fun y => sumL (seq 0 m) (fun x => nth y ker 0 * nth x ker 0 * pixel2 rows cols data (under m cy y) (under m cx x))%Z)) by auto.
      rewrite sumL_swap. apply sumL_ext. intros x Hxm. apply in_seq in Hxm. rewrite Hg by lia. rewrite nth_repeat0, Z.add_0_l, sumL_prod. cbn [snd]. rewrite <- sumL_scale.
      rewrite (sumL_span ymin ymax m) by lia. apply sumL_ext. intros y Hym. apply in_seq in Hym. unfold span_of. rewrite sumL_pick. unfold val. cbn [fst snd]. unfold pixel2, under. fold h.
      destruct (Nat.leb_spec ymin y), (Nat.ltb_spec y ymax), (Nat.leb_spec xmin x), (Nat.ltb_spec x (xmin + (xmax - xmin))); cbn [andb].
      1:{ destruct (Z.leb_spec 0 (Z.of_nat cy + Z.of_nat h - Z.of_nat y)); [|lia]. destruct (Z.ltb_spec (Z.of_nat cy + Z.of_nat h - Z.of_nat y) (Z.of_nat rows)); [|lia].
          destruct (Z.leb_spec 0 (Z.of_nat cx + Z.of_nat h - Z.of_nat x)); [|lia]. destruct (Z.ltb_spec (Z.of_nat cx + Z.of_nat h - Z.of_nat x) (Z.of_nat cols)); [|lia]. cbn [andb].
          replace (Z.to_nat (Z.of_nat cy + Z.of_nat h - Z.of_nat y)) with (cy + h - y) by lia. replace (Z.to_nat (Z.of_nat cx + Z.of_nat h - Z.of_nat x)) with (cx + h - x) by lia. lia. }
      all: match goal with |- context [if ?b then _ else _] => replace b with false; [lia|] end; symmetry; rewrite !andb_false_iff, !Z.leb_gt, !Z.ltb_ge; lia.
  Qed.
End Two.

Lemma at_nth (l : list Z) p : p < length l -> at_index l p = Val (nth p l 0%Z).
Proof. intros H. unfold at_index. destruct (nth_error l p) eqn:E; [rewrite (nth_error_nth _ _ 0%Z E); auto|]. apply nth_error_None in E. lia. Qed.
Lemma in_span a b x : In x (span_of a b) <-> a <= x < b.
Proof. unfold span_of. rewrite in_seq. lia. Qed.
Lemma sumL_span_pick a b p g : sumL (span_of a b) (fun x => if x =? p then g x else 0%Z) = if (a <=? p) && (p <? b) then g p else 0%Z.
Proof.
  unfold span_of. rewrite sumL_pick. destruct (Nat.leb_spec a p); cbn [andb]; auto. replace (p <? a + (b - a)) with (p <? b); auto. destruct (Nat.ltb_spec p b), (Nat.ltb_spec p (a + (b - a))); auto; lia.
Qed.
Lemma ofold_ext_in {A W} (f g : A -> W -> outcome W) : forall l w, (forall a w, In a l -> f a w = g a w) -> ofold f l w = ofold g l w.
Proof. induction l as [|a l IH]; intros w H; cbn [ofold]; auto. rewrite H by (left; auto). destruct (g a w); cbn [obind]; auto. apply IH. intros b v Hb. apply H. right. auto. Qed.

Section Three.
  Variables (planes rows cols : nat) (data ker : list Z) (cx cy cz : nat).
  Hypothesis Hdata : length data = planes * rows * cols.
  Let m := length ker.
  Let h := m / 2.
  Hypothesis Hcx : cx < cols.
  Hypothesis Hcy : cy < rows.
  Hypothesis Hcz : cz < planes.
  Hypothesis Hx : cx + h + 1 - rows = cx + h + 1 - cols.
  Hypothesis Hy : cy + h + 1 - cols = cy + h + 1 - rows.
  Lemma response3_ok : response3 planes rows cols data ker cx cy cz = Val (blurred3 (pixel3 planes rows cols data) ker cx cy cz).
  Proof.
    unfold response3. fold m. fold h. set (xmin := cx + h + 1 - rows) in *. set (ymin := cy + h + 1 - cols) in *. set (zmin := cz + h + 1 - planes) in *.
    set (xmax := Nat.min m (cx + h + 1)). set (ymax := Nat.min m (cy + h + 1)). set (zmax := Nat.min m (cz + h + 1)).
    assert (X1 : xmax <= m /\ xmax <= cx + h + 1 /\ (m <= xmax \/ cx + h + 1 <= xmax) /\ xmin = cx + h + 1 - cols) by (unfold xmax; lia).
    assert (Y1 : ymax <= m /\ ymax <= cy + h + 1 /\ (m <= ymax \/ cy + h + 1 <= ymax) /\ ymin = cy + h + 1 - rows) by (unfold ymax; lia).
    assert (Z1 : zmax <= m /\ zmax <= cz + h + 1 /\ (m <= zmax \/ cz + h + 1 <= zmax) /\ zmin = cz + h + 1 - planes) by (unfold zmax, zmin; lia).
    clearbody xmin xmax ymin ymax zmin zmax. cbv zeta.
    assert (Hpix : forall z y x, zmin <= z < zmax -> ymin <= y < ymax -> xmin <= x < xmax ->
      at_index data (((cz + h - z) * rows + (cy + h - y)) * cols + (cx + h - xmin) - (x - xmin)) = Val (nth (((cz + h - z) * rows + (cy + h - y)) * cols + (cx + h - x)) data 0%Z)).
    { intros z y x Az Ay Ax. assert (Q : forall A, A + (cx + h - xmin) - (x - xmin) = A + (cx + h - x)) by lia. rewrite Q. apply at_nth. rewrite Hdata.
      assert (B1 : (cz + h - z) * rows + (cy + h - y) < planes * rows) by (apply idx_lt; lia). apply idx_lt; [exact B1|lia]. }
    assert (Hker : forall y, y < m -> at_index ker y = Val (nth y ker 0%Z)) by (intros; apply at_nth; auto).
    set (vol := fun z y x => (nth (((cz + h - z) * rows + (cy + h - y)) * cols + (cx + h - x)) data 0 * nth z ker 0)%Z).
    set (L2 := list_prod (span_of ymin ymax) (span_of xmin xmax)).
    set (f1 := fun (z : nat) (yx : nat * nat) im => obind (at_index data (((cz + h - z) * rows + (cy + h - fst yx)) * cols + (cx + h - xmin) - (snd yx - xmin))) (fun p => obind (at_index ker z) (fun k => add_at (fst yx * m + xmin + (snd yx - xmin)) (p * k)%Z im))).
    rewrite (ofold_ext_in _ (fun z im => ofold (f1 z) L2 im)).
    2:{ intros z im _. unfold L2. symmetry. rewrite <- (ofold_nest (fun y x im => f1 z (y, x) im)). symmetry. apply ofold_ext_in. intros y w _. reflexivity. }
    rewrite (ofold_nest f1). destruct (add_loop (fun c : nat * (nat * nat) => fst (snd c) * m + snd (snd c)) (fun c => vol (fst c) (fst (snd c)) (snd (snd c))) (fun c im => f1 (fst c) (snd c) im) (m * m) (list_prod (span_of zmin zmax) L2) (repeat 0%Z (m * m))) as [im [E [Li Hi]]].
    - apply repeat_length.
    - intros [z [y x]] g Hc _. apply in_prod_iff in Hc. destruct Hc as [Cz Cyx]. apply in_prod_iff in Cyx. destruct Cyx as [Cy Cx]. rewrite in_span in *. cbn [fst snd]. unfold f1. cbn [fst snd]. rewrite Hpix by auto. cbn [obind]. rewrite Hker by lia. cbn [obind].
      replace (y * m + xmin + (x - xmin)) with (y * m + x) by lia. reflexivity.
    - intros [z [y x]] Hc. apply in_prod_iff in Hc. destruct Hc as [Cz Cyx]. apply in_prod_iff in Cyx. destruct Cyx as [Cy Cx]. rewrite in_span in *. cbn [fst snd]. apply idx_lt; lia.
    - rewrite E. cbn [obind].
      assert (Him : forall y x, ymin <= y < ymax -> xmin <= x < xmax -> nth (y * m + x) im 0%Z = sumL (span_of zmin zmax) (fun z => vol z y x)).
      { intros y x Ay Ax. rewrite Hi by (apply idx_lt; lia). rewrite nth_repeat0, Z.add_0_l, sumL_prod. apply sumL_ext. intros z Az. cbn [fst snd]. unfold L2. rewrite sumL_prod.
        rewrite (sumL_ext _ _ (fun y' => if y' =? y then vol z y' x else 0%Z)).
        - rewrite sumL_span_pick. destruct (Nat.leb_spec ymin y), (Nat.ltb_spec y ymax); cbn [andb]; auto; lia.
        - intros y' Ay'. apply in_span in Ay'. cbn [fst snd]. rewrite (sumL_ext _ _ (fun x' => if x' =? x then (if y' =? y then vol z y' x' else 0%Z) else 0%Z)).
          + rewrite sumL_span_pick. destruct (Nat.leb_spec xmin x), (Nat.ltb_spec x xmax); cbn [andb]; auto; lia.
          + intros x' Ax'. apply in_span in Ax'. destruct (Nat.eqb_spec (y' * m + x') (y * m + x)) as [Q|Q].
            * apply idx_inj in Q; [|lia|lia]. destruct Q as [-> ->]. rewrite !Nat.eqb_refl. auto.
            * destruct (Nat.eqb_spec x' x), (Nat.eqb_spec y' y); subst; auto. congruence. }
      set (f2 := fun y x gx => obind (at_index im (y * m + xmin + (x - xmin))) (fun p => obind (at_index ker y) (fun k => add_at x (p * k)%Z gx))).
      rewrite (ofold_nest f2). fold L2. destruct (add_loop snd (fun yx => nth (fst yx * m + snd yx) im 0 * nth (fst yx) ker 0)%Z (fun yx gx => f2 (fst yx) (snd yx) gx) m L2 (repeat 0%Z m)) as [gx [E2 [Lg Hg]]].
      + apply repeat_length.
      + intros [y x] g Hc _. apply in_prod_iff in Hc. destruct Hc as [Cy Cx]. rewrite in_span in *. cbn [fst snd]. unfold f2. replace (y * m + xmin + (x - xmin)) with (y * m + x) by lia. rewrite at_nth by (rewrite Li; apply idx_lt; lia). cbn [obind]. rewrite Hker by lia. reflexivity.
      + intros [y x] Hc. apply in_prod_iff in Hc. destruct Hc as [Cy Cx]. rewrite in_span in *. cbn [snd]. lia.
      + rewrite E2. cbn [omap obind]. f_equal. rewrite weighted_sum by auto. fold m. unfold blurred3. fold m. rewrite sum_to_L. symmetry.
        rewrite (sumL_ext _ (fun z => sum_to m _) (fun z => sumL (seq 0 m) (fun y => sumL (seq 0 m) (fun x => nth z ker 0 * nth y ker 0 * nth x ker 0 * pixel3 planes rows cols data (under m cz z) (under m cy y) (under m cx x))%Z))) by auto.
        rewrite (sumL_ext (seq 0 m) _ (fun z => sumL (seq 0 m) (fun x => sumL (seq 0 m) (fun y => nth z ker 0 * nth y ker 0 * nth x ker 0 * pixel3 planes rows cols data (under m cz z) (under m cy y) (under m cx x))%Z))) by (intros; apply sumL_swap).
        rewrite sumL_swap. apply sumL_ext. intros x Hxm. apply in_seq in Hxm. rewrite sumL_swap. rewrite Hg by lia. rewrite nth_repeat0, Z.add_0_l. unfold L2. rewrite sumL_prod. cbn [fst snd]. rewrite <- sumL_scale.
        rewrite (sumL_span ymin ymax m) by lia. apply sumL_ext. intros y Hym. apply in_seq in Hym. rewrite sumL_span_pick.
        assert (Hall : forall z, z < m -> pixel3 planes rows cols data (under m cz z) (under m cy y) (under m cx x) = if (zmin <=? z) && (z <? zmax) && ((ymin <=? y) && (y <? ymax)) && ((xmin <=? x) && (x <? xmax)) then nth (((cz + h - z) * rows + (cy + h - y)) * cols + (cx + h - x)) data 0%Z else 0%Z).
        { intros z Hz. unfold pixel3, under. fold h. match goal with |- (if ?b then _ else _) = (if ?c then _ else _) => replace b with c end.
          - destruct (_ && _ && _) eqn:C; auto. rewrite !andb_true_iff, !Nat.leb_le, !Nat.ltb_lt in C.
            replace (Z.to_nat (Z.of_nat cz + Z.of_nat h - Z.of_nat z)) with (cz + h - z) by lia. replace (Z.to_nat (Z.of_nat cy + Z.of_nat h - Z.of_nat y)) with (cy + h - y) by lia. replace (Z.to_nat (Z.of_nat cx + Z.of_nat h - Z.of_nat x)) with (cx + h - x) by lia. auto.
          - apply eq_true_iff_eq. rewrite !andb_true_iff, !Nat.leb_le, !Nat.ltb_lt, !Z.leb_le, !Z.ltb_lt. lia. }
        destruct ((ymin <=? y) && (y <? ymax)) eqn:Cy; [destruct ((xmin <=? x) && (x <? xmax)) eqn:Cx|].
        * rewrite andb_true_iff, Nat.leb_le, Nat.ltb_lt in Cx, Cy. rewrite Him by auto. rewrite <- !sumL_scale. rewrite (sumL_span zmin zmax m) by lia. apply sumL_ext. intros z Hz. apply in_seq in Hz. rewrite Hall by lia.
          rewrite !andb_true_r. unfold vol. destruct ((zmin <=? z) && (z <? zmax)); lia.
        * apply sumL_0. intros z Hz. apply in_seq in Hz. rewrite Hall by lia. rewrite andb_false_r. lia.
        * apply sumL_0. intros z Hz. apply in_seq in Hz. rewrite Hall by lia. rewrite andb_false_r. cbn [andb]. lia.
  Qed.
End Three.

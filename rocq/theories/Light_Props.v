(** C115: detection does not depend on the light. *)
Require Import ZArith List Bool Arith Lia.
Require Import Verif.Base Verif.RTree_Model Verif.ListX Verif.Traj_Model Verif.Particles_Model Verif.Corr_Model Verif.Boo_Model Verif.Minima_Model Verif.Pyramid_Model Verif.Par_Props Verif.Fill_Model Verif.Fill_Spec Verif.Fill_Proofs Verif.Fill_Props Verif.Pyramid_Spec Verif.Pyramid_Props Verif.Light_Model.
Import ListNotations.
Local Open Scope Z_scope.

(** [a] times brighter, plus [b]. *)
Definition light (a b : Z) (im : img Z) : img Z := mkImg (dims im) (map (fun x => a * x + b) (pix im)).

Section Scale.
  Variable a : Z.
  Hypothesis Ha : 0 < a.
  Lemma le_scale : forall x y, (a * x <=? a * y) = (x <=? y).
  Proof. intros x y. destruct (Z.leb_spec x y); [apply Z.leb_le|apply Z.leb_gt]; nia. Qed.
  Lemma lt_scale : forall x y, (a * x <? a * y) = (x <? y).
  Proof. intros x y. destruct (Z.ltb_spec x y); [apply Z.ltb_lt|apply Z.ltb_ge]; nia. Qed.
  Lemma eq0_scale : forall x, (a * x =? 0) = (x =? 0).
  Proof. intros x. destruct (Z.eqb_spec x 0) as [->|N]; [rewrite Z.mul_0_r; reflexivity|apply Z.eqb_neq; nia]. Qed.
  Lemma lt0_scale : forall x, (0 <? a * x) = (0 <? x).
  Proof. intros x. rewrite <- (lt_scale 0 x), Z.mul_0_r. reflexivity. Qed.
  Lemma ge0_scale : forall x, (0 <=? a * x) = (0 <=? x).
  Proof. intros x. rewrite <- (le_scale 0 x), Z.mul_0_r. reflexivity. Qed.
  Lemma min_from_scale : forall l b v p, min_from b (a * v) p (map (Z.mul a) l) = min_from b v p l.
  Proof. induction l as [|x l IH]; intros b v p; [reflexivity|]. cbn [map min_from]. rewrite lt_scale. destruct (x <? v); apply IH. Qed.
  Lemma min_pos_scale : forall l, min_pos (map (Z.mul a) l) = min_pos l.
  Proof. intros [|x l]; [reflexivity|]. cbn [map min_pos]. apply min_from_scale. Qed.
  Lemma osequence_map_o : forall A (f : A -> outcome Z) (l : list A), osequence (map (fun x => omap (Z.mul a) (f x)) l) = omap (map (Z.mul a)) (osequence (map f l)).
  Proof.
    intros A f l. induction l as [|x l IH]; [reflexivity|]. cbn [map osequence]. rewrite IH. destruct (f x); cbn; [|reflexivity|reflexivity].
    destruct (osequence (map f l)); reflexivity.
  Qed.
  Section Visit.
    Context {C : Type} (read read' : C -> outcome Z) (drop tiny : Z -> bool) (allowed keep keep' : C -> outcome bool).
    Hypothesis Hr : forall c, read' c = omap (Z.mul a) (read c).
    Hypothesis Hd : forall v, drop (a * v) = drop v.
    Hypothesis Ht : forall v, tiny (a * v) = tiny v.
    Hypothesis Hk : forall c, keep' c = keep c.
    Lemma above_scale : forall ns v, above C read' (a * v) ns = above C read v ns.
    Proof.
      induction ns as [|n ns IH]; intros v; [reflexivity|]. cbn [above]. rewrite Hr. destruct (read n) as [x| |]; cbn [omap obind]; [|reflexivity|reflexivity].
      rewrite le_scale. destruct (v <=? x); [apply IH|reflexivity].
    Qed.
    Lemma visit_scale : forall rc name refval refval' outside, (forall v c, refval' (a * v) c = omap (Z.mul a) (refval v c)) ->
      visit C read' drop tiny allowed keep' rc name refval' outside = visit C read drop tiny allowed keep rc name refval outside.
    Proof.
      intros rc name refval refval' outside Hv. unfold visit. rewrite (map_ext _ _ Hr), (osequence_map_o C).
      destruct (osequence (map read rc)) as [ngb| |]; cbn [omap obind]; [|reflexivity|reflexivity]. rewrite min_pos_scale. set (m := min_pos ngb).
      assert (E : nth m (map (Z.mul a) ngb) 0 = a * nth m ngb 0). { rewrite <- (map_nth (Z.mul a)). rewrite Z.mul_0_r. reflexivity. }
      rewrite E, Hd. destruct (drop (nth m ngb 0)); [reflexivity|]. destruct (allowed (name m)) as [[|]| |]; cbn [obind]; try reflexivity.
      rewrite Ht. destruct (tiny (nth m ngb 0)); [reflexivity|]. rewrite Hv. destruct (refval (nth m ngb 0) (name m)) as [u| |]; cbn [omap obind]; try reflexivity.
      rewrite above_scale. destruct (above C read u (outside (name m))) as [[|]| |]; cbn [obind]; try reflexivity. rewrite Hk. reflexivity.
    Qed.
  End Visit.
  Lemma ratio_scale : forall x y p q up, ratio_above (a * (a * x)) (a * (a * y)) p q up = ratio_above x y p q up.
  Proof.
    intros x y p q up. unfold ratio_above. rewrite !eq0_scale, !lt0_scale. destruct (y =? 0); [destruct (x =? 0); reflexivity|].
    replace (p * (a * (a * y))) with (a * (a * (p * y))) by ring. replace (a * (a * x) * q) with (a * (a * (x * q))) by ring. rewrite !lt_scale. reflexivity.
  Qed.
  Lemma shape_scale : forall p q l, keeps_shape p q (map (Z.mul a) l) = keeps_shape p q l.
  Proof.
    intros p q l. destruct l as [|v0 [|v1 [|v2 [|v3 [|v4 [|v5 [|v6 [|v7 [|v8 [|? ?]]]]]]]]]]; try reflexivity. cbn [map keeps_shape]. cbv zeta.
    set (h0 := v1 - 2 * v4 + v7). set (h1 := v3 - 2 * v4 + v5). set (h2 := v0 + v8 - v6 - v2).
    replace (a * v1 - 2 * (a * v4) + a * v7) with (a * h0) by (unfold h0; ring). replace (a * v3 - 2 * (a * v4) + a * v5) with (a * h1) by (unfold h1; ring).
    replace (a * v0 + a * v8 - a * v6 - a * v2) with (a * h2) by (unfold h2; ring).
    replace (a * h0 * (a * h1) - a * h2 * (a * h2)) with (a * (a * (h0 * h1 - h2 * h2))) by ring.
    replace ((a * h0 + a * h1) * (a * h0 + a * h1)) with (a * (a * ((h0 + h1) * (h0 + h1)))) by ring. replace (4 * (a * h0) * (a * h1)) with (a * (a * (4 * h0 * h1))) by ring.
    rewrite ratio_scale, !ge0_scale. unfold null_value. rewrite !eq0_scale.
    replace (a * (a * (h0 * h1 - h2 * h2)) <? 0) with (h0 * h1 - h2 * h2 <? 0); [reflexivity|].
    rewrite <- (lt_scale _ 0), <- (lt_scale _ (a * 0)), !Z.mul_0_r. reflexivity.
  Qed.
  Lemma slope_light : forall b l, keeps_slope (map (fun x => a * x + b) l) = keeps_slope l.
  Proof.
    intros b l. destruct l as [|u [|v [|w [|? ?]]]]; try reflexivity. cbn [map keeps_slope]. cbv zeta.
    replace (a * w + b + (a * u + b) - 2 * (a * v + b)) with (a * (w + u - 2 * v)) by ring. replace (a * w + b - (a * u + b)) with (a * (w - u)) by ring.
    rewrite !eq0_scale, !Z.abs_mul. rewrite (Z.abs_eq a) by lia. replace (2 * (a * Z.abs (w + u - 2 * v))) with (a * (2 * Z.abs (w + u - 2 * v))) by ring. rewrite lt_scale. reflexivity.
  Qed.

  (** ** The same minima in two dimensions, *)
  Theorem C115_minima2 : forall nl rows cols px px' sizes p q, (forall k j i, px' k j i = a * px k j i) ->
    find2 nl rows cols px' sizes null_value (keeps_shape p q) = find2 nl rows cols px sizes null_value (keeps_shape p q).
  Proof.
    intros nl rows cols px px' sizes p q Hp. unfold find2. f_equal. f_equal. apply map_ext. intros [[k j] i]. unfold visit2.
    assert (R : forall c, read2 nl rows cols px' c = omap (Z.mul a) (read2 nl rows cols px c)).
    { intros [[k' j'] i']. unfold read2. destruct (_ && _ && _); cbn; [rewrite Hp; reflexivity|reflexivity]. }
    apply visit_scale; [exact R|apply ge0_scale|apply eq0_scale| |reflexivity].
    intros [[mk mj] mi]. unfold keep2. rewrite (map_ext _ _ R), (osequence_map_o cell). destruct (osequence _) as [l| |]; cbn [omap]; [rewrite shape_scale; reflexivity|reflexivity|reflexivity].
  Qed.
  (** in one dimension, *)
  Theorem C115_minima1 : forall nl cols px px' pg pg' sizes b, (forall k i, px' k i = a * px k i) -> (forall k i, (k < nl + 3)%nat -> (i < cols)%nat -> pg' k i = a * pg k i + b) ->
    find1 nl cols px' pg' sizes null_value keeps_slope = find1 nl cols px pg sizes null_value keeps_slope.
  Proof.
    intros nl cols px px' pg pg' sizes b Hp Hg. unfold find1. f_equal. f_equal. apply map_ext. intros [k i]. unfold visit1.
    assert (R : forall c, read1 nl cols px' c = omap (Z.mul a) (read1 nl cols px c)).
    { intros [k' i']. unfold read1. destruct (_ && _); cbn; [rewrite Hp; reflexivity|reflexivity]. }
    apply visit_scale; [exact R|apply ge0_scale|apply eq0_scale| |intros; apply R].
    intros [mk mi]. unfold keep1.
    assert (G : forall l, osequence (map (fun i2 => readG1 nl cols pg' (mk, i2)) l) = omap (map (fun x => a * x + b)) (osequence (map (fun i2 => readG1 nl cols pg (mk, i2)) l))).
    { intros l. induction l as [|x l IH]; [reflexivity|]. cbn [map osequence]. rewrite IH. unfold readG1 at 1 3. destruct ((mk <? nl + 3)%nat && (x <? cols)%nat) eqn:B; cbn [omap obind]; [|reflexivity].
      apply andb_true_iff in B as [B1 B2]. apply Nat.ltb_lt in B1, B2. rewrite Hg by assumption. destruct (osequence (map (fun i2 => readG1 nl cols pg (mk, i2)) l)); reflexivity. }
    rewrite G. destruct (osequence _) as [l| |]; cbn [omap]; [rewrite slope_light; reflexivity|reflexivity|reflexivity].
  Qed.
  (** and in three dimensions (a change of gain only), where the values used for sub-pixel resolution are multiplied. *)
  Theorem C115_minima3 : forall nl depth rows cols g g' sizes p q, (forall l k j i, g' l k j i = a * g l k j i) ->
    find3 nl depth rows cols g' Z.sub sizes null_value (keeps_shape p q) = omap (map (fun x => (fst x, map (map (Z.mul a)) (snd x)))) (find3 nl depth rows cols g Z.sub sizes null_value (keeps_shape p q)).
  Proof.
    intros nl depth rows cols g g' sizes p q Hg. unfold find3. destruct (loadplanes _ _ _ _ _) as [st| |]; cbn [omap obind]; [|reflexivity|reflexivity].
    assert (G : forall st c, getG nl rows cols g' st c = omap (Z.mul a) (getG nl rows cols g st c)).
    { intros st0 [[[l k] j] i]. unfold getG. destruct (_ && _); [|reflexivity]. destruct (nth_error _ _) as [[pl|]|]; cbn [omap]; [rewrite Hg; reflexivity|rewrite Z.mul_0_r; reflexivity|reflexivity]. }
    assert (Dg : forall st c, getDoG nl rows cols g' Z.sub st c = omap (Z.mul a) (getDoG nl rows cols g Z.sub st c)).
    { intros st0 [[[l k] j] i]. unfold getDoG. rewrite !G. destruct (getG _ _ _ g st0 (S l, k, j, i)); cbn [omap obind]; [|reflexivity|reflexivity].
      destruct (getG _ _ _ g st0 (l, k, j, i)); cbn [omap obind]; [|reflexivity|reflexivity]. f_equal. ring. }
    assert (Vs : forall st c, shift_values nl rows cols g' Z.sub st c = omap (map (map (Z.mul a))) (shift_values nl rows cols g Z.sub st c)).
    { intros st0 [[[l k] j] i]. unfold shift_values.
      assert (Q : forall (f : nat -> cell3) us, osequence (map (fun u => getG nl rows cols g' st0 (f u)) us) = omap (map (Z.mul a)) (osequence (map (fun u => getG nl rows cols g st0 (f u)) us))).
      { intros f us. rewrite (map_ext _ _ (fun u => G st0 (f u))). apply (osequence_map_o nat). }
      rewrite (Q (fun u => (l - 1, k, j, i - 3 + u)%nat)). destruct (osequence _); cbn [omap obind]; [|reflexivity|reflexivity].
      rewrite (Q (fun u => (l - 1, k, j - 3 + u, i)%nat)). destruct (osequence _); cbn [omap obind]; [|reflexivity|reflexivity].
      rewrite (Q (fun u => ((l - 1)%nat, k - 3 + Z.of_nat u, j, i))). destruct (osequence _); cbn [omap obind]; [|reflexivity|reflexivity].
      rewrite (map_ext _ _ (fun u => Dg st0 ((l - 1 + u)%nat, k, j, i))), (osequence_map_o nat). destruct (osequence _); cbn [omap]; reflexivity. }
    assert (Vi : forall st k b, visit3 nl depth rows cols g' Z.sub sizes null_value (keeps_shape p q) st k b
        = omap (option_map (fun x => (fst x, map (map (Z.mul a)) (snd x)))) (visit3 nl depth rows cols g Z.sub sizes null_value (keeps_shape p q) st k b)).
    { intros st0 k [[l j] i]. unfold visit3.
      assert (Dr : forall v, ((0 <? a * v) || null_value (a * v)) = ((0 <? v) || null_value v)) by (intros v; unfold null_value; rewrite lt0_scale, eq0_scale; reflexivity).
      rewrite (visit_scale (getDoG nl rows cols g Z.sub st0) (getDoG nl rows cols g' Z.sub st0) (fun v => (0 <? v) || null_value v) (fun _ => false) _ (keep3 nl rows cols g Z.sub (keeps_shape p q) st0) (keep3 nl rows cols g' Z.sub (keeps_shape p q) st0) (Dg st0) Dr (fun _ => eq_refl)) with (refval := fun v _ => Val v).
      - destruct (visit _ _ _ _ _ _ _ _ _ _) as [[[c [|]]|]| |]; cbn [obind omap option_map]; try reflexivity. destruct c as [[[ml mk] mj] mi]. rewrite Vs. destruct (shift_values _ _ _ _ _ _ _); reflexivity.
      - intros [[[ml mk] mj] mi]. unfold keep3. rewrite (map_ext _ _ (Dg st0)), (osequence_map_o cell3). destruct (osequence _); cbn [omap]; [rewrite shape_scale; reflexivity|reflexivity|reflexivity].
      - reflexivity. }
    assert (Os : forall st k bs, osequence (map (visit3 nl depth rows cols g' Z.sub sizes null_value (keeps_shape p q) st k) bs)
        = omap (map (option_map (fun x => (fst x, map (map (Z.mul a)) (snd x))))) (osequence (map (visit3 nl depth rows cols g Z.sub sizes null_value (keeps_shape p q) st k) bs))).
    { intros st0 k bs. induction bs as [|b bs IH]; [reflexivity|]. cbn [map osequence]. rewrite IH, Vi. destruct (visit3 _ _ _ _ g _ _ _ _ _ _ b); cbn [omap obind]; [|reflexivity|reflexivity]. destruct (osequence (map (visit3 nl depth rows cols g Z.sub sizes null_value (keeps_shape p q) st0 k) bs)); reflexivity. }
    assert (Lp : forall ks st acc, loop3 nl depth rows cols g' Z.sub sizes null_value (keeps_shape p q) ks st (map (fun x => (fst x, map (map (Z.mul a)) (snd x))) acc)
        = omap (map (fun x => (fst x, map (map (Z.mul a)) (snd x)))) (loop3 nl depth rows cols g Z.sub sizes null_value (keeps_shape p q) ks st acc)).
    { intros ks. induction ks as [|k ks IH]; intros st0 acc; [reflexivity|]. cbn [loop3]. destruct (loadplanes _ _ _ _ _) as [s1| |]; cbn [omap obind]; [|reflexivity|reflexivity].
      rewrite Os. destruct (osequence _) as [os| |]; cbn [omap obind]; [|reflexivity|reflexivity]. rewrite <- IH. f_equal. rewrite map_app. f_equal.
      induction os as [|[x|] os IHo]; [reflexivity|cbn; f_equal; exact IHo|exact IHo]. }
    exact (Lp (planes_visited depth sizes) st []).
  Qed.

  (** ** The whole octave: blurs with a normalised kernel transform a brighter image in the brighter blurred image. *)
  Section Octave.
    Context (blur : nat -> img Z -> img Z) (b : Z).
    Hypothesis blur_len : forall i im, length (pix (blur i im)) = length (pix im).
    Hypothesis blur_light : forall i im, blur i (light a b im) = light a b (blur i im).
    Lemma blurred_light : forall im i, blurred blur (light a b im) i = light a b (blurred blur im i).
    Proof. intros im i. induction i as [|i IH]; [reflexivity|]. cbn [blurred]. rewrite IH. apply blur_light. Qed.
    Lemma minus_light : forall x y, minus (light a b x) (light a b y) = mkImg (dims x) (map (Z.mul a) (pix (minus x y))).
    Proof.
      intros [dx x] [dy y]. unfold minus, light. cbn [dims pix]. f_equal. revert y. induction x as [|u x IH]; intros [|v y]; try reflexivity.
      cbn [map combine fst snd]. f_equal; [ring|apply IH].
    Qed.
    (** A brighter image, with or without background, gives the same centres in the same order (2D), and its differences of Gaussians are multiplied. *)
    Theorem C115_octave2 : forall o im g0 nl rows cols sizes p q, nth_error (lG o) 0 = Some g0 -> (length (lD o) < length (lG o))%nat -> dims im = dims g0 ->
      exists o1 o2, fill Z blur minus false o im = Val (true, (o1, im)) /\ fill Z blur minus false o (light a b im) = Val (true, (o2, light a b im)) /\
        (forall k j i, pixel_of cols (lD o2) k j i = a * pixel_of cols (lD o1) k j i) /\
        find2 nl rows cols (pixel_of cols (lD o2)) sizes null_value (keeps_shape p q) = find2 nl rows cols (pixel_of cols (lD o1)) sizes null_value (keeps_shape p q).
    Proof.
      intros o im g0 nl rows cols sizes p q H0 L Hd. rewrite (fill_ok blur minus false o im g0 H0 L Hd), (fill_ok blur minus false o (light a b im) g0 H0 L Hd).
      eexists. eexists. split; [reflexivity|]. split; [reflexivity|].
      assert (E : forall k j i, pixel_of cols (lD (filled blur minus false o (light a b im))) k j i = a * pixel_of cols (lD (filled blur minus false o im)) k j i).
      { intros k j i. unfold pixel_of, filled. cbn [lD]. rewrite !nth_error_map. destruct (nth_error (seq 0 (length (lD o))) k) as [t|]; cbn [option_map]; [|ring].
        rewrite !blurred_light, minus_light. cbn [pix]. rewrite <- (map_nth (Z.mul a)), Z.mul_0_r. reflexivity. }
      split; [exact E|]. apply C115_minima2. exact E.
    Qed.
    (** The same for a signal. *)
    Theorem C115_octave1 : forall o im g0 nl cols sizes, nth_error (lG o) 0 = Some g0 -> length (lG o) = (nl + 3)%nat -> length (lD o) = (nl + 2)%nat -> dims im = dims g0 -> length (pix im) = cols ->
      exists o1 o2, fill Z blur minus false o im = Val (true, (o1, im)) /\ fill Z blur minus false o (light a b im) = Val (true, (o2, light a b im)) /\
        find1 nl cols (fun k => pixel_of cols (lD o2) k 0) (fun k => pixel_of cols (lG o2) k 0) sizes null_value keeps_slope
        = find1 nl cols (fun k => pixel_of cols (lD o1) k 0) (fun k => pixel_of cols (lG o1) k 0) sizes null_value keeps_slope.
    Proof.
      intros o im g0 nl cols sizes H0 LG LD Hd Lc. rewrite (fill_ok blur minus false o im g0 H0 ltac:(lia) Hd), (fill_ok blur minus false o (light a b im) g0 H0 ltac:(lia) Hd).
      eexists. eexists. split; [reflexivity|]. split; [reflexivity|].
      set (o1 := filled blur minus false o im). set (o2 := filled blur minus false o (light a b im)).
      assert (Lb : forall t, length (pix (blurred blur im t)) = cols). { intros t; induction t as [|t IH]; [exact Lc|]. cbn. rewrite blur_len. exact IH. }
      assert (E : forall k i, pixel_of cols (lD o2) k 0 i = a * pixel_of cols (lD o1) k 0 i).
      { intros k i. unfold pixel_of, o1, o2, filled. cbn [lD]. rewrite !nth_error_map. destruct (nth_error (seq 0 (length (lD o))) k) as [t|]; cbn [option_map]; [|ring].
        rewrite !blurred_light, minus_light. cbn [pix]. rewrite <- (map_nth (Z.mul a)), Z.mul_0_r. reflexivity. }
      assert (G : forall k i, (k < nl + 3)%nat -> (i < cols)%nat -> pixel_of cols (lG o2) k 0 i = a * pixel_of cols (lG o1) k 0 i + b).
      { intros k i Hk Hi. unfold pixel_of, o1, o2, filled. cbn [lG]. rewrite !nth_error_map, nth_error_seq by lia. cbn [option_map].
        rewrite blurred_light. unfold light. cbn [pix]. change (0 * cols + i)%nat with i. rewrite (nth_indep _ 0 ((fun x => a * x + b) 0)) by (rewrite map_length, Lb; exact Hi). rewrite (map_nth (fun x => a * x + b)). reflexivity. }
      apply (C115_minima1 nl cols _ _ _ _ sizes b); [exact E|exact G].
    Qed.
  End Octave.
End Scale.

(** ** The first octave: interpolation leaves the last column and row to zero, whatever the background. *)
Theorem C115_first_octave_refuted : forall (half : Z -> Z -> Z) r c (input : list Z) b, (0 < r)%nat -> (0 < c)%nat -> length input = (r * c)%nat -> b <> 0 ->
  exists m m', upscale2 Z 0 half r c input = Val m /\ upscale2 Z 0 half r c (map (fun x => x + b) input) = Val m' /\
    nth_error m (2 * c - 1) = Some 0 /\ nth_error m' (2 * c - 1) = Some 0 /\ m' <> map (fun x => x + b) m.
Proof.
  intros half r c input b Hr Hc L Hb.
  assert (Q : forall inp : list Z, length inp = (r * c)%nat -> exists m, upscale2 Z 0 half r c inp = Val m /\ nth_error m (2 * c - 1) = Some 0).
  { intros inp Li. destruct (C64_upscale2 Z 0 half r c inp (fun j i => nth (j * c + i) inp 0)) as [m (E & _ & A)].
    - intros j i Hj Hi. unfold at2. apply nth_error_nth'. nia.
    - exists m. split; [exact E|]. specialize (A 0%nat (2 * c - 1)%nat ltac:(lia) ltac:(lia)). unfold at2 in A. cbn [Nat.mul Nat.add] in A. replace (c + (c + 0) - 1)%nat with (2 * c - 1)%nat in * by lia.
      rewrite A. f_equal. unfold interp. cbn [Nat.even]. change (0 / 2)%nat with 0%nat.
      destruct (Nat.even (2 * c - 1)) eqn:Ev.
      + exfalso. apply Nat.even_spec in Ev. destruct Ev as [u Hu]. lia.
      + assert (Dv : ((2 * c - 1) / 2 = c - 1)%nat) by (symmetry; apply (Nat.div_unique _ 2 _ 1); lia). rewrite ?Dv.
        destruct (Nat.ltb_spec (2 * c - 1 + 1) (2 * c)); [lia|]. reflexivity. }
  destruct (Q input L) as [m [E A]]. destruct (Q (map (fun x => x + b) input)) as [m' [E' A']]; [rewrite map_length; exact L|].
  exists m, m'. do 4 (split; [assumption|]). intros F. rewrite F, nth_error_map, A in A'. cbn in A'. injection A' as A'. lia.
Qed.

(** ** Example: a blob seen with a gain of 3 and a background of 7; the only blur that does something has weights of sum one. *)
Definition ex_lap (im : img Z) : img Z :=
  let p := fun j i => nth ((j mod 9) * 9 + i mod 9)%nat (pix im) 0 in
  mkImg (dims im) (map (fun u => let j := (u / 9)%nat in let i := (u mod 9)%nat in p (j + 1)%nat i + p (j + 8)%nat i + p j (i + 1)%nat + p j (i + 8)%nat - 3 * p j i) (seq 0 (length (pix im)))).
Definition ex_lblur (i : nat) (im : img Z) : img Z := if (i =? 1)%nat && (length (pix im) =? 81)%nat then ex_lap im else im.
Definition ex_blob : img Z := mkImg [9; 9]%nat (map (fun u => let j := (u / 9)%nat in let i := (u mod 9)%nat in if (j =? 4)%nat && (i =? 4)%nat then 9 else if ((j =? 4)%nat && ((i =? 3)%nat || (i =? 5)%nat)) || ((i =? 4)%nat && ((j =? 3)%nat || (j =? 5)%nat)) then 2 else 0) (seq 0 81)).
Definition ex_empty : octave Z := mkOct (repeat (mkImg [9; 9]%nat (repeat 0 81)) 4) (repeat (mkImg [9; 9]%nat (repeat 0 81)) 3).
Example C115_hypotheses_met : (forall i im, length (pix (ex_lblur i im)) = length (pix im)) /\ (forall i im, ex_lblur i (light 3 7 im) = light 3 7 (ex_lblur i im)).
Proof.
  split; intros i im; unfold ex_lblur.
  - destruct (_ && _); [|reflexivity]. unfold ex_lap. cbn [pix]. rewrite map_length, seq_length. reflexivity.
  - unfold light at 1 2. cbn [pix dims]. rewrite map_length. destruct (_ && _) eqn:B; [|reflexivity].
    apply andb_true_iff in B as [_ B]. apply Nat.eqb_eq in B. unfold ex_lap, light. cbn [pix dims]. f_equal. rewrite map_length, map_map. apply map_ext. intros u. cbv zeta.
    assert (Q : forall j i0, nth (j mod 9 * 9 + i0 mod 9) (map (fun x => 3 * x + 7) (pix im)) 0 = 3 * nth (j mod 9 * 9 + i0 mod 9) (pix im) 0 + 7).
    { intros j i0. pose proof (Nat.mod_upper_bound j 9 ltac:(lia)). pose proof (Nat.mod_upper_bound i0 9 ltac:(lia)).
      rewrite (nth_indep _ 0 (3 * 0 + 7)) by (rewrite map_length, B; lia). apply (map_nth (fun x => 3 * x + 7)). }
    rewrite !Q. ring.
Qed.
Example C115_blob : exists o1 o2, fill Z ex_lblur minus false ex_empty ex_blob = Val (true, (o1, ex_blob)) /\ fill Z ex_lblur minus false ex_empty (light 3 7 ex_blob) = Val (true, (o2, light 3 7 ex_blob)) /\
  find2 1 9 9 (pixel_of 9 (lD o1)) [1; 1; 1; 1]%nat null_value (keeps_shape 3 2) = Val [((1, 4, 4)%nat, true)] /\ find2 1 9 9 (pixel_of 9 (lD o2)) [1; 1; 1; 1]%nat null_value (keeps_shape 3 2) = Val [((1, 4, 4)%nat, true)].
Proof. eexists. eexists. split; [vm_compute; reflexivity|]. split; [vm_compute; reflexivity|]. split; vm_compute; reflexivity. Qed.
(** The shape test of octavefinder.cpp:396-408 is not empty: a round blob is kept, a line and a saddle are not. *)
Example C115_shapes : keeps_shape 3 2 [-1; -2; -1; -2; -9; -2; -1; -2; -1] = true /\ keeps_shape 3 2 [0; -9; 0; -1; -9; -1; 0; -9; 0] = false /\ keeps_shape 3 2 [0; -12; 0; -1; -9; -1; 0; -12; 0] = false.
Proof. vm_compute. auto. Qed.
Example C115_slopes : keeps_slope [1; 5; 2] = true /\ keeps_slope [1; 2; 3] = false.
Proof. vm_compute. auto. Qed.

Print Assumptions C115_minima2.
Print Assumptions C115_minima1.
Print Assumptions C115_minima3.
Print Assumptions C115_octave2.
Print Assumptions C115_octave1.
Print Assumptions C115_first_octave_refuted.
Print Assumptions C115_blob.

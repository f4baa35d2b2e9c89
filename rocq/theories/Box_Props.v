(** Properties C01 and C02: bounding boxes. *)
Require Import ZArith QArith List Bool Lia SpecFloat.
From Coq Require FloatOps.
Require Import Verif.Box_Model Verif.Box_Spec Verif.Box_Proofs.
Import ListNotations.
Local Open Scope Z_scope.

(** C01. After [a.stretch(b)] the result contains every point of a and of b, is axis-wise the least such
    box, and the returned flag says whether [a] changed. *)
Theorem C01_stretch_least_enclosing : forall a b r changed,
  length a = length b ->
  stretch_flag a b = (r, changed) ->
  sub a r /\ sub b r /\
  (forall c, sub a c -> sub b c -> sub r c) /\
  (forall p, point_in p a \/ point_in p b -> valid a -> valid b -> point_in p r) /\
  (changed = true <-> r <> a).
Proof.
  intros a b r changed Hl E.
  assert (Hr : r = stretch a b) by (unfold stretch; rewrite E; reflexivity).
  assert (Hc : changed = snd (stretch_flag a b)) by (rewrite E; reflexivity).
  subst. repeat split.
  - apply stretch_sub_l; auto.
  - apply stretch_sub_r; auto.
  - intros; apply stretch_least; auto.
  - intros p [Hp|Hp] Va Vb.
    + revert p Hp. apply sub_points; auto; [apply stretch_length | apply stretch_sub_l; auto].
    + revert p Hp. apply sub_points; auto; [rewrite stretch_length; auto | apply stretch_sub_r; auto].
  - apply stretch_flag_spec; auto.
  - apply stretch_flag_spec; auto.
Qed.

(** [encloses] is exactly inclusion of point sets (non-empty argument). *)
Theorem C01_encloses_iff_points : forall a b,
  valid b -> length a = length b ->
  (encloses a b = true <-> forall p, point_in p b -> point_in p a).
Proof. intros. rewrite encloses_sub by auto. apply sub_points; auto. Qed.

(** C02. *)
Theorem C02_overlaps_iff_common_interior_point : forall a b,
  solid a -> solid b -> length a = length b ->
  (overlaps a b = true <-> exists p, point_inside p a /\ point_inside p b).
Proof. exact overlaps_points. Qed.

Theorem C02_overlaps_symmetric : forall a b, overlaps a b = overlaps b a.
Proof. exact overlaps_sym. Qed.

Theorem C02_overlap_area : forall a b,
  solid a -> solid b -> length a = length b ->
  (overlaps a b = true -> overlap a b = volume (inter_op a b) /\ 0 < overlap a b) /\
  (overlaps a b = false -> overlap a b = 0).
Proof.
  intros a b Ha Hb Hl. rewrite overlap_oprod by auto using solid_valid. split; intros Ho.
  - split; [|apply oprod_pos; auto].
    rewrite overlaps_sym in Ho. unfold inter_op. rewrite volume_inter by auto using overlaps_inter_solid.
    clear. revert b. induction a as [|e a IH]; intros [|f b]; simpl; auto. rewrite IH. f_equal. unfold olen. lia.
  - pose proof (oprod_nonneg a b). destruct (Z.eq_dec (oprod a b) 0); auto.
    assert (overlaps a b = true) by (apply oprod_pos; auto; lia). congruence.
Qed.

Theorem C02_intersection_largest : forall a b,
  length a = length b ->
  sub (inter a b) a /\ sub (inter a b) b /\
  (forall c, sub c a -> sub c b -> sub c (inter a b)) /\
  (forall p, point_in p (inter a b) <-> point_in p a /\ point_in p b).
Proof.
  intros a b Hl. split; [apply inter_sub_l; auto|]. split; [apply inter_sub_r; auto|].
  split; [intros; apply inter_greatest; auto|]. intros; apply inter_points; auto.
Qed.

(** Two boxes are equal exactly when they have the same points; the area is the product of the lengths of the edges. *)
Theorem C02_equal a b : length a = length b -> (box_eqb a b = true <-> a = b) /\ (valid a -> valid b -> (box_eqb a b = true <-> forall p, point_in p a <-> point_in p b)).
Proof.
  intros Hl. assert (E := box_eqb_eq a b Hl). split; auto. intros Va Vb. rewrite E. split; [intros ->; tauto|]. intros H.
  assert (Sab : sub b a) by (apply (sub_points a b); auto; intros p; apply H). assert (Sba : sub a b) by (apply (sub_points b a); auto; intros p; apply H).
  clear - Sab Sba. revert b Sab Sba. induction a as [|[x y] a IH]; intros b H1 H2; inversion H1; subst; auto. inversion H2; subst. f_equal; auto. destruct x0. cbn in *. f_equal; lia.
Qed.
Theorem C02_area a : area a = fold_right Z.mul 1 (map (fun e => snd e - fst e) a).
Proof. rewrite area_volume. induction a as [|e a IH]; [reflexivity|]. cbn [map fold_right volume]. rewrite <- IH. reflexivity. Qed.

(** A concrete case meeting the hypotheses: two 3D boxes sharing a 1x2x3 corner. *)
Definition ex_a : box := [(0, 4); (0, 5); (0, 6)].
Definition ex_b : box := [(3, 9); (3, 9); (3, 9)].
Example C02_case : solid ex_a /\ solid ex_b /\ length ex_a = length ex_b /\
  overlaps ex_a ex_b = true /\ overlap ex_a ex_b = 6 /\ stretch_flag ex_a ex_b = ([(0,9);(0,9);(0,9)], true).
Proof. repeat split; try reflexivity; repeat constructor. Qed.

Lemma digits_bound p : Zpos p < 2 ^ Zpos (digits2_pos p).
Proof.
  induction p as [p IH|p IH|]; cbn [digits2_pos]; [| |reflexivity]; rewrite Pos2Z.inj_succ, Z.pow_succ_r by lia; lia.
Qed.
Lemma digits_low p : 2 ^ (Zpos (digits2_pos p) - 1) <= Zpos p.
Proof.
  induction p as [p IH|p IH|]; cbn [digits2_pos]; [| |reflexivity]; rewrite Pos2Z.inj_succ;
    replace (Z.succ (Zpos (digits2_pos p)) - 1) with (Z.succ (Zpos (digits2_pos p) - 1)) by lia; rewrite Z.pow_succ_r by lia; lia.
Qed.
(** The numbers that [reset] puts in a box are the largest double and the smallest positive normal one. *)
Theorem C01_reset : (forall m e, bounded FloatOps.prec FloatOps.emax m e = true -> Zpos m * 2 ^ (e + 1074) <= dbl_max)
  /\ (exists m e, bounded FloatOps.prec FloatOps.emax m e = true /\ Zpos m * 2 ^ (e + 1074) = dbl_max)
  /\ (forall m e, bounded FloatOps.prec FloatOps.emax m e = true -> Zpos (digits2_pos m) = FloatOps.prec -> dbl_min <= Zpos m * 2 ^ (e + 1074))
  /\ (exists m e, bounded FloatOps.prec FloatOps.emax m e = true /\ Zpos (digits2_pos m) = FloatOps.prec /\ Zpos m * 2 ^ (e + 1074) = dbl_min).
Proof.
  assert (B : forall m e, bounded FloatOps.prec FloatOps.emax m e = true -> Zpos (digits2_pos m) <= 53 /\ -1074 <= e <= 971).
  { intros m e H. apply andb_true_iff in H as [H1 H2]. apply Zeq_bool_eq in H1. apply Zle_bool_imp_le in H2. unfold fexp, emin, FloatOps.prec, FloatOps.emax in *. lia. }
  split; [|split; [|split]].
  - intros m e H. apply B in H as [H1 H2]. assert (X := digits_bound m). assert (Y := Z.pow_le_mono_r 2 (Zpos (digits2_pos m)) 53 ltac:(lia) H1).
    unfold dbl_max. apply Z.mul_le_mono_nonneg; [lia|lia|apply Z.pow_nonneg; lia|apply Z.pow_le_mono_r; lia].
  - exists 9007199254740991%positive, 971. split; vm_compute; reflexivity.
  - intros m e H D. apply B in H as [H1 H2]. assert (X := digits_low m). rewrite D in X. unfold FloatOps.prec in X. change (53 - 1) with 52 in X. unfold dbl_min.
    assert (0 < 2 ^ (e + 1074)) by (apply Z.pow_pos_nonneg; lia). nia.
  - exists 4503599627370496%positive, (-1074). split; [|split]; vm_compute; reflexivity.
Qed.

Print Assumptions C01_stretch_least_enclosing.
Print Assumptions C01_encloses_iff_points.
Print Assumptions C02_overlaps_iff_common_interior_point.
Print Assumptions C02_overlaps_symmetric.
Print Assumptions C02_overlap_area.
Print Assumptions C02_intersection_largest.
Print Assumptions C02_equal.
Print Assumptions C02_area.
Print Assumptions C01_reset.

Require Import ZArith QArith Qminmax List Bool Lia Lqa.
Require Import Verif.Box_Model Verif.Box_Spec.
Import ListNotations.
Local Open Scope Z_scope.

Lemma stretch_edge_spec e f :
  stretch_edge e f =
  ((Z.min (fst e) (fst f), Z.max (snd e) (snd f)),
   (fst f <? fst e) || (snd e <? snd f)).
Proof.
  destruct e as [e1 e2], f as [f1 f2]; unfold stretch_edge; simpl.
  destruct (Z.ltb_spec f1 e1), (Z.ltb_spec e2 f2); simpl; repeat f_equal; lia.
Qed.

Lemma stretch_nil_l b : stretch [] b = [].
Proof. reflexivity. Qed.

Lemma stretch_cons e a f b :
  stretch (e :: a) (f :: b) = (Z.min (fst e) (fst f), Z.max (snd e) (snd f)) :: stretch a b.
Proof.
  unfold stretch. cbn [stretch_flag]. rewrite stretch_edge_spec.
  destruct (stretch_flag a b); reflexivity.
Qed.

Lemma stretch_flag_cons e a f b :
  snd (stretch_flag (e :: a) (f :: b)) =
  ((fst f <? fst e) || (snd e <? snd f)) || snd (stretch_flag a b).
Proof. cbn [stretch_flag]. rewrite stretch_edge_spec. destruct (stretch_flag a b); reflexivity. Qed.

Lemma stretch_length : forall a b, length (stretch a b) = length a.
Proof.
  induction a as [|e a IH]; intros [|f b]; try reflexivity.
  rewrite stretch_cons; simpl; rewrite IH; reflexivity.
Qed.

Lemma sub_length a b : sub a b -> length a = length b.
Proof. induction 1; simpl; congruence. Qed.

Lemma sub_refl a : sub a a.
Proof. induction a; constructor; auto; lia. Qed.

Lemma sub_trans a b c : sub a b -> sub b c -> sub a c.
Proof.
  intros H; revert c; induction H; intros c Hc; inversion Hc; subst; constructor; [lia | apply IHForall2; assumption].
Qed.

Lemma sub_antisym a b : sub a b -> sub b a -> a = b.
Proof.
  induction 1; intros Hc; inversion Hc; subst; auto.
  f_equal; [ destruct x, y; simpl in *; f_equal; lia | apply IHForall2; auto ].
Qed.

Lemma stretch_sub_l : forall a b, length a = length b -> sub a (stretch a b).
Proof.
  induction a as [|e a IH]; intros [|f b] H; simpl in H; try discriminate; [constructor|].
  rewrite stretch_cons; constructor; simpl; [lia | apply IH; lia].
Qed.

Lemma stretch_sub_r : forall a b, length a = length b -> sub b (stretch a b).
Proof.
  induction a as [|e a IH]; intros [|f b] H; simpl in H; try discriminate; [constructor|].
  rewrite stretch_cons; constructor; simpl; [lia | apply IH; lia].
Qed.

Lemma stretch_least : forall a b c, sub a c -> sub b c -> sub (stretch a b) c.
Proof.
  induction a as [|e a IH]; intros b c Ha Hb; inversion Ha; subst; inversion Hb; subst; [constructor|].
  rewrite stretch_cons; constructor; simpl; [lia | apply IH; auto].
Qed.

Lemma stretch_flag_spec : forall a b, length a = length b ->
  (snd (stretch_flag a b) = true <-> stretch a b <> a).
Proof.
  induction a as [|e a IH]; intros [|f b] H; simpl in H; try discriminate.
  - cbn. split; [discriminate | congruence].
  - rewrite stretch_flag_cons, stretch_cons. specialize (IH b ltac:(lia)).
    rewrite orb_true_iff, IH, orb_true_iff, !Z.ltb_lt.
    split.
    + intros [[Hlt|Hlt]|Hne] Heq; inversion Heq as [[Hh Ht]]; auto;
      rewrite <- Hh in Hlt; simpl in Hlt; lia.
    + intros Hne.
      destruct (list_eq_dec (fun x y : edge => ltac:(decide equality; apply Z.eq_dec)) (stretch a b) a)
        as [Heq|]; [|auto].
      left. destruct (Z_lt_dec (fst f) (fst e)); auto. destruct (Z_lt_dec (snd e) (snd f)); auto.
      exfalso; apply Hne. rewrite Heq.
      replace (Z.min (fst e) (fst f)) with (fst e) by lia.
      replace (Z.max (snd e) (snd f)) with (snd e) by lia. destruct e; reflexivity.
Qed.

Lemma encloses_cons e a f b : encloses (e :: a) (f :: b) = (fst e <=? fst f) && (snd f <=? snd e) && encloses a b.
Proof.
  cbn [encloses].
  destruct (Z.ltb_spec (fst f) (fst e)), (Z.leb_spec (fst e) (fst f)),
    (Z.ltb_spec (snd e) (snd f)), (Z.leb_spec (snd f) (snd e)); simpl; auto; lia.
Qed.

Lemma sub_cons f b e a : sub (f :: b) (e :: a) <-> fst e <= fst f /\ snd f <= snd e /\ sub b a.
Proof.
  split; [intros H; inversion H; subst; tauto | intros (? & ? & ?); constructor; auto].
Qed.

Lemma encloses_sub : forall a b, length a = length b -> (encloses a b = true <-> sub b a).
Proof.
  induction a as [|e a IH]; intros [|f b] H; simpl in H; try discriminate.
  - split; constructor.
  - rewrite encloses_cons, sub_cons, !andb_true_iff, !Z.leb_le, IH by lia. tauto.
Qed.

Lemma overlaps_cons e a f b :
  overlaps (e :: a) (f :: b) = (fst e <? snd f) && (fst f <? snd e) && overlaps a b.
Proof.
  cbn [overlaps]. destruct (fst e <? snd f), (fst f <? snd e); reflexivity.
Qed.

Lemma overlaps_sym : forall a b, overlaps a b = overlaps b a.
Proof.
  induction a as [|e a IH]; intros [|f b]; try reflexivity.
  rewrite !overlaps_cons, IH. rewrite (andb_comm (fst e <? snd f)). reflexivity.
Qed.

(** Overlap is monotone with respect to enclosure. *)
Lemma overlaps_sub : forall a b c, sub b c -> overlaps a b = true -> length a = length b ->
  overlaps a c = true.
Proof.
  intros a b c H; revert a; induction H; intros [|g a] Ho Hl; simpl in Hl; try discriminate; auto.
  rewrite overlaps_cons in *. rewrite !andb_true_iff, !Z.ltb_lt in *.
  destruct Ho as [[? ?] ?]. repeat split; try lia. apply IHForall2; auto.
Qed.

(** Point-set readings. *)
Lemma point_in_cons x p e b :
  point_in (x :: p) (e :: b) <-> (inject_Z (fst e) <= x)%Q /\ (x <= inject_Z (snd e))%Q /\ point_in p b.
Proof. split; [intros H; inversion H; subst; tauto | intros (? & ? & ?); constructor; auto]. Qed.

Lemma point_in_nil p : point_in p [] <-> p = [].
Proof. split; [intros H; inversion H; auto | intros ->; constructor]. Qed.

Lemma point_in_inv p e b : point_in p (e :: b) ->
  exists x q, p = x :: q /\ (inject_Z (fst e) <= x)%Q /\ (x <= inject_Z (snd e))%Q /\ point_in q b.
Proof. intros H; inversion H as [|x ? q ? [H1 H2] H3]; subst. exists x, q; auto. Qed.

Lemma point_inside_inv p e b : point_inside p (e :: b) ->
  exists x q, p = x :: q /\ (inject_Z (fst e) < x)%Q /\ (x < inject_Z (snd e))%Q /\ point_inside q b.
Proof. intros H; inversion H as [|x ? q ? [H1 H2] H3]; subst. exists x, q; auto. Qed.

Lemma point_inside_cons x p e b :
  (inject_Z (fst e) < x)%Q -> (x < inject_Z (snd e))%Q -> point_inside p b -> point_inside (x :: p) (e :: b).
Proof. intros; constructor; auto. Qed.

Lemma valid_point b : valid b -> exists q, point_in q b.
Proof.
  induction 1; [exists []; constructor|]. destruct IHForall as [q Hq].
  exists (inject_Z (fst x) :: q). apply point_in_cons.
  repeat split; auto; [apply Qle_refl| rewrite <- Zle_Qle; auto].
Qed.

Lemma sub_points_1 : forall b a p, sub b a -> point_in p b -> point_in p a.
Proof.
  induction b as [|f b IH]; intros [|e a] p Hs Hp; try (inversion Hs; fail); auto.
  apply sub_cons in Hs. destruct Hs as (H1 & H2 & H3).
  apply point_in_inv in Hp. destruct Hp as (x & q & -> & H4 & H5 & H6).
  apply point_in_cons. repeat split.
  - apply Qle_trans with (inject_Z (fst f)); auto; rewrite <- Zle_Qle; auto.
  - apply Qle_trans with (inject_Z (snd f)); auto; rewrite <- Zle_Qle; auto.
  - apply IH; auto.
Qed.

Lemma sub_points_2 : forall b a, valid b -> length a = length b ->
  (forall p, point_in p b -> point_in p a) -> sub b a.
Proof.
  induction b as [|f b IH]; intros [|e a] Hv Hl Hp; simpl in Hl; try discriminate; [constructor|].
  inversion Hv as [|? ? Hf Hv']; subst.
  destruct (valid_point b Hv') as [q Hq].
  apply sub_cons.
  assert (H1 : point_in (inject_Z (fst f) :: q) (e :: a)).
  { apply Hp. apply point_in_cons. repeat split; auto; [apply Qle_refl | rewrite <- Zle_Qle; auto]. }
  assert (H2 : point_in (inject_Z (snd f) :: q) (e :: a)).
  { apply Hp. apply point_in_cons. repeat split; auto; [rewrite <- Zle_Qle; auto | apply Qle_refl]. }
  apply point_in_cons in H1, H2. destruct H1 as (H1 & _ & _), H2 as (_ & H2 & _).
  rewrite <- Zle_Qle in H1, H2.
  repeat split; auto.
  apply IH; auto. intros p Hpp.
  assert (H3 : point_in (inject_Z (fst f) :: p) (e :: a)).
  { apply Hp. apply point_in_cons. repeat split; auto; [apply Qle_refl | rewrite <- Zle_Qle; auto]. }
  apply point_in_cons in H3. tauto.
Qed.

Lemma sub_points : forall a b, valid b -> length a = length b ->
  (sub b a <-> forall p, point_in p b -> point_in p a).
Proof.
  intros a b Hv Hl; split; [intros; eapply sub_points_1; eauto | apply sub_points_2; auto].
Qed.

Lemma overlaps_points : forall a b, solid a -> solid b -> length a = length b ->
  (overlaps a b = true <-> exists p, point_inside p a /\ point_inside p b).
Proof.
  induction a as [|e a IH]; intros [|f b] Ha Hb Hl; simpl in Hl; try discriminate.
  - split; [exists []; split; constructor | reflexivity].
  - inversion Ha as [|? ? He Ha']; subst. inversion Hb as [|? ? Hf Hb']; subst.
    rewrite overlaps_cons, !andb_true_iff, !Z.ltb_lt.
    rewrite IH by (auto; lia). split.
    + intros [[H3 H4] [p [Hpa Hpb]]].
      set (lo := Z.max (fst e) (fst f)). set (hi := Z.min (snd e) (snd f)).
      assert (Hlt : lo < hi) by (unfold lo, hi; lia).
      exists (((inject_Z lo + inject_Z hi) / inject_Z 2)%Q :: p).
      assert (Hmid1 : (inject_Z lo < (inject_Z lo + inject_Z hi) / inject_Z 2)%Q).
      { apply Qlt_shift_div_l; [reflexivity|]. unfold Qlt, Qmult, Qplus, inject_Z; simpl. lia. }
      assert (Hmid2 : ((inject_Z lo + inject_Z hi) / inject_Z 2 < inject_Z hi)%Q).
      { apply Qlt_shift_div_r; [reflexivity|]. unfold Qlt, Qmult, Qplus, inject_Z; simpl. lia. }
      split; apply point_inside_cons; auto;
        try (apply Qle_lt_trans with (inject_Z lo); auto; rewrite <- Zle_Qle; unfold lo; lia);
        try (apply Qlt_le_trans with (inject_Z hi); auto; rewrite <- Zle_Qle; unfold hi; lia).
    + intros [p [Hpa Hpb]]. apply point_inside_inv in Hpa. destruct Hpa as (x & q & -> & H1 & H2 & H3).
      apply point_inside_inv in Hpb. destruct Hpb as (x' & q' & Heq & H4 & H5 & H6).
      injection Heq as <- <-. repeat split.
      * rewrite Zlt_Qlt. eapply Qlt_trans; eauto.
      * rewrite Zlt_Qlt. eapply Qlt_trans; eauto.
      * eauto.
Qed.

(** overlap(): closed form. *)
Definition olen (e f : edge) : Z := Z.max 0 (Z.min (snd e) (snd f) - Z.max (fst e) (fst f)).

Lemma overlap_axis_spec e f : fst e <= snd e -> fst f <= snd f ->
  match overlap_axis e f with Some w => w = olen e f | None => olen e f = 0 end.
Proof.
  destruct e as [x1 x2], f as [y1 y2]; simpl; intros; unfold olen; simpl.
  destruct (Z.ltb_spec x1 y1); [destruct (Z.ltb_spec y1 x2); [destruct (Z.ltb_spec y2 x2)|]
  | destruct (Z.ltb_spec x1 y2); [destruct (Z.ltb_spec x2 y2)|]]; lia.
Qed.

Fixpoint oprod (a b : box) : Z :=
  match a, b with e :: a', f :: b' => olen e f * oprod a' b' | _, _ => 1 end.

Lemma overlap_loop_spec : forall a b acc, valid a -> valid b -> length a = length b ->
  overlap_loop acc a b = acc * oprod a b.
Proof.
  induction a as [|e a IH]; intros [|f b] acc Ha Hb Hl; simpl in Hl; try discriminate.
  - simpl; lia.
  - inversion Ha; subst; inversion Hb; subst. cbn [overlap_loop oprod].
    pose proof (overlap_axis_spec e f H1 H3) as Hw.
    destruct (Z.eqb_spec acc 0) as [->|]; [lia|].
    destruct (overlap_axis e f).
    + rewrite IH by (auto; lia). subst. ring.
    + rewrite Hw; ring.
Qed.

Lemma overlap_oprod a b : valid a -> valid b -> length a = length b -> overlap a b = oprod a b.
Proof. intros; unfold overlap; rewrite overlap_loop_spec by auto; lia. Qed.

Lemma oprod_nonneg : forall a b, 0 <= oprod a b.
Proof.
  induction a as [|e a IH]; intros [|f b]; simpl; try lia.
  specialize (IH b). unfold olen. apply Z.mul_nonneg_nonneg; lia.
Qed.

Lemma oprod_pos : forall a b, solid a -> solid b -> length a = length b ->
  (0 < oprod a b <-> overlaps a b = true).
Proof.
  induction a as [|e a IH]; intros [|f b] Ha Hb Hl; simpl in Hl; try discriminate.
  - simpl. split; auto; lia.
  - inversion Ha; subst; inversion Hb; subst. rewrite overlaps_cons. cbn [oprod].
    rewrite !andb_true_iff, !Z.ltb_lt, <- (IH b) by (auto; lia).
    pose proof (oprod_nonneg a b). unfold olen. split.
    + intros Hp. destruct (Z.eq_dec (oprod a b) 0) as [E|]; [rewrite E in Hp; lia|].
      assert (0 < Z.max 0 (Z.min (snd e) (snd f) - Z.max (fst e) (fst f))).
      { destruct (Z_lt_dec 0 (Z.max 0 (Z.min (snd e) (snd f) - Z.max (fst e) (fst f)))); auto.
        replace (Z.max 0 (Z.min (snd e) (snd f) - Z.max (fst e) (fst f))) with 0 in Hp by lia. lia. }
      repeat split; lia.
    + intros [[? ?] ?]. apply Z.mul_pos_pos; lia.
Qed.

Lemma inter_sub_l : forall a b, length a = length b -> sub (inter a b) a.
Proof.
  induction a as [|e a IH]; intros [|f b] H; simpl in H; try discriminate; [constructor|].
  cbn [inter]; constructor; simpl; [lia | apply IH; lia].
Qed.
Lemma inter_sub_r : forall a b, length a = length b -> sub (inter a b) b.
Proof.
  induction a as [|e a IH]; intros [|f b] H; simpl in H; try discriminate; [constructor|].
  cbn [inter]; constructor; simpl; [lia | apply IH; lia].
Qed.
Lemma inter_greatest : forall a b c, sub c a -> sub c b -> sub c (inter a b).
Proof.
  intros a b c Ha; revert b; induction Ha; intros b Hb; inversion Hb; subst; cbn [inter]; constructor; simpl.
  - lia.
  - apply IHHa; auto.
Qed.
Lemma inter_points a b p : length a = length b ->
  (point_in p (inter a b) <-> point_in p a /\ point_in p b).
Proof.
  revert b p; induction a as [|e a IH]; intros [|f b] p H; simpl in H; try discriminate.
  - simpl. tauto.
  - cbn [inter]. split.
    + intros Hp. apply point_in_inv in Hp. destruct Hp as (x & q & -> & H1 & H2 & H3). simpl in H1, H2.
      apply IH in H3; [|lia]. destruct H3.
      split; apply point_in_cons; repeat split; auto;
       try (eapply Qle_trans; [|exact H1]; rewrite <- Zle_Qle; lia);
       try (eapply Qle_trans; [exact H2|]; rewrite <- Zle_Qle; lia).
    + intros [Hp Hq]. apply point_in_inv in Hp. destruct Hp as (x & q & -> & H1 & H2 & H3).
      apply point_in_cons in Hq. destruct Hq as (H4 & H5 & H6).
      apply point_in_cons. simpl. repeat split.
      * destruct (Z.max_spec (fst f) (fst e)) as [[_ ->]|[_ ->]]; auto.
      * destruct (Z.min_spec (snd f) (snd e)) as [[_ ->]|[_ ->]]; auto.
      * apply IH; auto; lia.
Qed.

Lemma volume_inter : forall a b, length a = length b -> valid (inter a b) -> volume (inter a b) = oprod a b.
Proof.
  induction a as [|e a IH]; intros [|f b] H Hv; simpl in H; try discriminate; [reflexivity|].
  cbn [inter] in *. inversion Hv; subst. simpl in *. rewrite IH by (auto; lia). unfold olen. f_equal. lia.
Qed.

Lemma area_fold : forall a acc, fold_left (fun s e => s * (snd e - fst e)) a acc = acc * volume a.
Proof. induction a as [|e a IH]; intros; simpl; [lia|]. rewrite IH. ring. Qed.
Lemma area_volume a : area a = volume a.
Proof. unfold area. rewrite area_fold. lia. Qed.

Lemma overlaps_inter_solid : forall a b, solid a -> solid b -> length a = length b ->
  overlaps a b = true -> valid (inter a b).
Proof.
  induction a as [|e a IH]; intros [|f b] Ha Hb Hl Ho; simpl in Hl; try discriminate; [constructor|].
  inversion Ha; subst; inversion Hb; subst. rewrite overlaps_cons, !andb_true_iff, !Z.ltb_lt in Ho.
  cbn [inter]; constructor; simpl; [lia | apply IH; auto; tauto].
Qed.

Lemma solid_valid a : solid a -> valid a.
Proof. intros H; eapply Forall_impl; [|exact H]; simpl; intros; lia. Qed.

(** Translation. *)
Lemma translate_length : forall a v, length (translate a v) = length a.
Proof. induction a as [|e a IH]; intros [|x v]; simpl; auto. Qed.

Lemma translate_sub : forall a b v, length v = length a -> sub a b -> sub (translate a v) (translate b v).
Proof.
  intros a b v Hl H; revert v Hl; induction H; intros [|z v] Hl; simpl in Hl; try discriminate; simpl;
   constructor; simpl; [lia | apply IHForall2; lia].
Qed.

Lemma overlaps_translate : forall a b v, length a = length v -> length b = length v ->
  overlaps (translate a v) (translate b v) = overlaps a b.
Proof.
  induction a as [|e a IH]; intros [|f b] [|z v] Ha Hb; simpl in Ha, Hb; try discriminate; auto.
  cbn [translate]. rewrite !overlaps_cons, IH by lia. simpl.
  replace (fst e + z <? snd f + z) with (fst e <? snd f)
    by (destruct (Z.ltb_spec (fst e) (snd f)), (Z.ltb_spec (fst e + z) (snd f + z)); auto; lia).
  replace (fst f + z <? snd e + z) with (fst f <? snd e)
    by (destruct (Z.ltb_spec (fst f) (snd e)), (Z.ltb_spec (fst f + z) (snd e + z)); auto; lia).
  reflexivity.
Qed.

Lemma encloses_translate : forall a b v, length a = length v -> length b = length v ->
  encloses (translate a v) (translate b v) = encloses a b.
Proof.
  induction a as [|e a IH]; intros [|f b] [|z v] Ha Hb; simpl in Ha, Hb; try discriminate; auto.
  cbn [translate]. rewrite !encloses_cons, IH by lia. simpl.
  destruct (Z.leb_spec (fst e) (fst f)), (Z.leb_spec (fst e + z) (fst f + z)),
    (Z.leb_spec (snd f) (snd e)), (Z.leb_spec (snd f + z) (snd e + z)); simpl; auto; lia.
Qed.

Lemma box_eqb_eq : forall a b, length a = length b -> (box_eqb a b = true <-> a = b).
Proof.
  induction a as [|e a IH]; intros [|f b] H; simpl in H; try discriminate.
  - simpl; tauto.
  - cbn [box_eqb]. destruct e as [e1 e2], f as [f1 f2]; simpl.
    destruct (Z.eqb_spec e1 f1), (Z.eqb_spec e2 f2); simpl; subst;
     try (split; [discriminate | intros E; inversion E; congruence]).
    rewrite IH by lia. split; intros E; [subst; auto | inversion E; auto].
Qed.

(** Number density and pair correlation functions. *)
Require Import ZArith List Bool Arith Lia Permutation Sorted.
Require Import Verif.Base Verif.SortU Verif.ListX Verif.Box_Model Verif.Box_Spec Verif.Box_Proofs Verif.RTree_Model Verif.RTree_Spec Verif.RTree_Proofs Verif.RTree_Props
  Verif.Index_Model Verif.Index_Spec Verif.Index_Proofs Verif.Traj_Model Verif.Center_Model Verif.Center_Proofs
  Verif.Particles_Model Verif.Particles_Spec Verif.Particles_Proofs Verif.Particles_Props Verif.Corr_Model Verif.Corr_Proofs Verif.Pyramid_Proofs Verif.PBoo_Proofs Verif.Density_Model.
Import ListNotations.
Local Open Scope nat_scope.

(** lo and hi are the smallest and largest coordinates of the points along axis d. *)
Definition extremes (l : list (list Z)) (d : nat) (lo hi : Z) : Prop :=
  (forall p, In p l -> (lo <= nth d p 0 <= hi)%Z) /\ (exists p, In p l /\ nth d p 0%Z = lo) /\ (exists p, In p l /\ nth d p 0%Z = hi).
Definition extent (l : list (list Z)) (v : Z) : Prop :=
  exists x0 x1 y0 y1 z0 z1, extremes l 0 x0 x1 /\ extremes l 1 y0 y1 /\ extremes l 2 z0 z1 /\ v = ((x1 - x0) * (y1 - y0) * (z1 - z0))%Z.

Lemma fold_min_spec : forall (l : list Z) x, let m := fold_left Z.min l x in (m <= x)%Z /\ (forall y, In y l -> (m <= y)%Z) /\ (m = x \/ In m l).
Proof.
  induction l as [|y l IH]; intros x; cbn; [split; [lia|split; [tauto|auto]]|]. destruct (IH (Z.min x y)) as [A [B C]]. split; [lia|]. split; [intros z [<-|Hz]; [lia|auto]|].
  destruct C as [C|C]; [|auto]. rewrite C. destruct (Z.min_spec x y) as [[_ ->]|[_ ->]]; auto.
Qed.
Lemma fold_max_spec : forall (l : list Z) x, let m := fold_left Z.max l x in (x <= m)%Z /\ (forall y, In y l -> (y <= m)%Z) /\ (m = x \/ In m l).
Proof.
  induction l as [|y l IH]; intros x; cbn; [split; [lia|split; [tauto|auto]]|]. destruct (IH (Z.max x y)) as [A [B C]]. split; [lia|]. split; [intros z [<-|Hz]; [lia|auto]|].
  destruct C as [C|C]; [|auto]. rewrite C. destruct (Z.max_spec x y) as [[_ ->]|[_ ->]]; auto.
Qed.
Definition axis (d : nat) (l : list (list Z)) : list Z := map (fun p => nth d p 0%Z) l.
Lemma fold_vmin : forall l x y z, Forall point3 l -> fold_left vmin l [x; y; z] = [fold_left Z.min (axis 0 l) x; fold_left Z.min (axis 1 l) y; fold_left Z.min (axis 2 l) z].
Proof. induction l as [|p l IH]; intros x y z H; [reflexivity|]. inversion H as [|? ? [a [b [c ->]]] Hl]; subst. cbn. rewrite IH by auto. reflexivity. Qed.
Lemma fold_vmax : forall l x y z, Forall point3 l -> fold_left vmax l [x; y; z] = [fold_left Z.max (axis 0 l) x; fold_left Z.max (axis 1 l) y; fold_left Z.max (axis 2 l) z].
Proof. induction l as [|p l IH]; intros x y z H; [reflexivity|]. inversion H as [|? ? [a [b [c ->]]] Hl]; subst. cbn. rewrite IH by auto. reflexivity. Qed.
Lemma extremes_fold l d p : In p l -> extremes l d (fold_left Z.min (axis d l) (nth d p 0%Z)) (fold_left Z.max (axis d l) (nth d p 0%Z)).
Proof.
  intros Hp. destruct (fold_min_spec (axis d l) (nth d p 0%Z)) as [A [B C]]. destruct (fold_max_spec (axis d l) (nth d p 0%Z)) as [A' [B' C']]. split; [|split].
  - intros q Hq. split; [apply B|apply B']; apply in_map_iff; eauto.
  - destruct C as [C|C]; [exists p; auto|]. apply in_map_iff in C as [q [E I]]. eauto.
  - destruct C' as [C'|C']; [exists p; auto|]. apply in_map_iff in C' as [q [E I]]. eauto.
Qed.
Lemma extremes_fun l d lo hi lo' hi' : extremes l d lo hi -> extremes l d lo' hi' -> lo = lo' /\ hi = hi'.
Proof.
  intros [A [[p [Hp Ep]] [q [Hq Eq]]]] [A' [[p' [Hp' Ep']] [q' [Hq' Eq']]]]. pose proof (A p' Hp'). pose proof (A q' Hq'). pose proof (A' p Hp). pose proof (A' q Hq). lia.
Qed.
Lemma extent_fun l v v' : extent l v -> extent l v' -> v = v'.
Proof.
  intros [x0 [x1 [y0 [y1 [z0 [z1 [Ex [Ey [Ez ->]]]]]]]]] [x0' [x1' [y0' [y1' [z0' [z1' [Ex' [Ey' [Ez' ->]]]]]]]]].
  destruct (extremes_fun _ _ _ _ _ _ Ex Ex'), (extremes_fun _ _ _ _ _ _ Ey Ey'), (extremes_fun _ _ _ _ _ _ Ez Ez'). subst. reflexivity.
Qed.
Lemma no_index_volume l p : Forall point3 l -> In p l -> exists v, extent l v /\ area (combine (fold_left vmin l p) (fold_left vmax l p)) = v.
Proof.
  intros H Hp. assert (P : point3 p) by (eapply Forall_forall in H; eauto). destruct P as [x [y [z ->]]]. rewrite fold_vmin, fold_vmax by auto. eexists. split; [|reflexivity].
  do 6 eexists. split; [apply (extremes_fold l 0 _ Hp)|]. split; [apply (extremes_fold l 1 _ Hp)|]. split; [apply (extremes_fold l 2 _ Hp)|]. unfold area. cbn [combine fold_left fst snd nth]. ring.
Qed.

(** The box of the index. *)
Lemma hull_volume l h : Forall point3 l -> l <> [] -> is_hull h (map (fun p => bounds p 0) l) -> extent l (area h).
Proof.
  intros H Hne [H1 H2]. destruct l as [|p0 l]; [congruence|]. set (L := p0 :: l) in *. assert (Hp0 : In p0 L) by (left; auto).
  assert (P : point3 p0) by (eapply Forall_forall in H; eauto).
  assert (Lh : length h = 3). { assert (S := H1 _ (in_map _ _ _ Hp0)). apply sub_length in S. rewrite <- S. destruct P as [x [y [z ->]]]. reflexivity. }
  destruct h as [|[a0 a1] [|[b0 b1] [|[c0 c1] [|]]]]; try discriminate.
  assert (In3 : forall p, In p L -> (a0 <= nth 0 p 0 <= a1 /\ b0 <= nth 1 p 0 <= b1 /\ c0 <= nth 2 p 0 <= c1)%Z).
  { intros p Hp. assert (S := H1 _ (in_map _ _ _ Hp)). assert (Q : point3 p) by (eapply Forall_forall in H; eauto). destruct Q as [x [y [z ->]]]. cbn [bounds map] in S. unfold sub in S.
    inversion S as [|? ? ? ? S1 S']; subst. inversion S' as [|? ? ? ? S2 S'']; subst. inversion S'' as [|? ? ? ? S3 _]; subst. cbn in *. lia. }
  set (lo d := fold_left Z.min (axis d L) (nth d p0 0%Z)). set (hi d := fold_left Z.max (axis d L) (nth d p0 0%Z)).
  assert (E : forall d, extremes L d (lo d) (hi d)) by (intros d; apply extremes_fold; auto).
  assert (S : sub [(a0, a1); (b0, b1); (c0, c1)] [(lo 0, hi 0); (lo 1, hi 1); (lo 2, hi 2)]).
  { apply H2; [reflexivity|]. intros b Hb. apply in_map_iff in Hb as [p [<- Hp]]. assert (Q : point3 p) by (eapply Forall_forall in H; eauto). destruct (E 0) as [E0 _]. destruct (E 1) as [E1 _]. destruct (E 2) as [E2 _].
    specialize (E0 p Hp). specialize (E1 p Hp). specialize (E2 p Hp). destruct Q as [x [y [z ->]]]. cbn [nth] in *. unfold sub. cbn [bounds map]. repeat constructor; cbn [fst snd]; lia. }
  unfold sub in S. inversion S as [|? ? ? ? S1 S']; subst. inversion S' as [|? ? ? ? S2 S'']; subst. inversion S'' as [|? ? ? ? S3 _]; subst. cbn [fst snd] in *.
  assert (X : forall d u v, (forall p, In p L -> (u <= nth d p 0 <= v)%Z) -> (lo d <= u)%Z -> (v <= hi d)%Z -> u = lo d /\ v = hi d).
  { intros d u v B1 B2 B3. destruct (E d) as [_ [[p [Hp Ep]] [q [Hq Eq]]]]. pose proof (B1 p Hp). pose proof (B1 q Hq). lia. }
  destruct (X 0 a0 a1) as [-> ->]; [intros; apply In3; auto|lia|lia|]. destruct (X 1 b0 b1) as [-> ->]; [intros; apply In3; auto|lia|lia|]. destruct (X 2 c0 c1) as [-> ->]; [intros; apply In3; auto|lia|lia|].
  exists (lo 0), (hi 0), (lo 1), (hi 1), (lo 2), (hi 2). split; [apply E|]. split; [apply E|]. split; [apply E|]. unfold area. cbn [fold_left fst snd]. ring.
Qed.

Lemma area_translate v b : area (translate b v) = area b.
Proof.
  unfold area. generalize 1%Z. revert v. induction b as [|[x y] b IH]; intros v a; destruct v as [|w v]; try reflexivity. cbn. rewrite IH. f_equal. cbn. f_equal. lia.
Qed.

(** The pairs that a binner sees. *)
Section Pairs.
  Variables (c : config) (st : particles) (t : rtree).
  Hypotheses (Hok : config_ok c) (H3 : dims c = 3) (Hpts : Forall point3 (pts st)) (Ht : pindex st = Some t) (Hi : index_of c (pts st) t).
  Lemma euclid_of_filter i r : i < length (pts st) -> (0 < r)%Z -> euclid_of st i r = Val (filter (fun j => close_pair (pts st) r (i, j)) (seq 0 (length (pts st)))).
  Proof.
    intros Hlt Hr. destruct (nth_error_ex _ _ Hlt) as [p Hp]. destruct (euclid_of_spec c st t Hok H3 Hpts Ht Hi i p r Hp) as [ids [E [Hs Hin]]]. rewrite E. f_equal.
    apply ssorted_ext; auto; [apply filter_ssorted, seq_ssorted|]. intros j. rewrite Hin, filter_In, in_seq. unfold close_pair. cbn [fst snd]. rewrite Hp. split.
    - intros [q [Hq [Hne [_ Hd]]]]. rewrite Hq. split; [apply nth_error_lt in Hq; lia|]. apply andb_true_iff. split; [apply negb_true_iff, Nat.eqb_neq; auto|apply Z.ltb_lt; auto].
    - intros [Hj F]. destruct (nth_error (pts st) j) as [q|] eqn:Eq; [|discriminate]. apply andb_true_iff in F as [F1 F2]. apply negb_true_iff, Nat.eqb_neq in F1. apply Z.ltb_lt in F2. exists q. repeat split; auto.
  Qed.
  Lemma all_euclid {W} (f : nat * nat -> W -> outcome W) r : (0 < r)%Z -> forall sel w, (forall i, In i sel -> i < length (pts st)) ->
    ofold (fun i s => obind (euclid_of st i r) (fun l => ofold (fun j => f (i, j)) l s)) sel w = ofold f (filter (close_pair (pts st) r) (all_pairs (pts st) sel)) w.
  Proof.
    intros Hr. induction sel as [|i sel IH]; intros w Hs; [reflexivity|]. cbn [ofold]. rewrite euclid_of_filter by (auto; apply Hs; left; auto). cbn [obind]. unfold all_pairs in *. rewrite list_prod_cons, filter_app, ofold_app.
    rewrite filter_map_x, ofold_map_x. destruct (ofold _ (filter _ (seq 0 _)) w) as [w'| |]; cbn [obind]; auto. apply IH. intros; apply Hs; right; auto.
  Qed.
End Pairs.
Lemma nth_error_combine_x {A B} : forall (l : list A) (m : list B) k a b, nth_error l k = Some a -> nth_error m k = Some b -> nth_error (combine l m) k = Some (a, b).
Proof. induction l as [|x l IH]; intros m [|k] a b Ha Hb; try discriminate; destruct m as [|y m]; try discriminate; cbn in *; [congruence|auto]. Qed.

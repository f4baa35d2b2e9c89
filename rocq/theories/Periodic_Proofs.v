(** Proofs about periodic boundary conditions. *)
Require Import ZArith List Bool Arith Lia Permutation Sorted.
Require Import Verif.Base Verif.SortU Verif.ListX Verif.Box_Model Verif.Box_Spec Verif.Box_Proofs Verif.RTree_Model Verif.RTree_Spec
  Verif.Index_Model Verif.Index_Spec Verif.Index_Proofs Verif.Traj_Model Verif.Traj_Proofs Verif.Center_Model Verif.Center_Proofs Verif.Reconstructor_Proofs
  Verif.Particles_Model Verif.Particles_Spec Verif.Particles_Proofs Verif.Periodic_Model Verif.Periodic_Spec.
Import ListNotations.
Local Open Scope Z_scope.

(** One coordinate. *)
Lemma periodify1_shift P v : 0 < P -> exists n, -1 <= n <= 1 /\ periodify1 P v = v + n * P.
Proof.
  intros HP. unfold periodify1. destruct (Z.ltb_spec P (2 * v)); [destruct (Z.leb_spec (2 * (v - P)) (- P))|destruct (Z.leb_spec (2 * v) (- P))].
  - exists 0. lia.
  - exists (-1). lia.
  - exists 1. lia.
  - exists 0. lia.
Qed.
Lemma periodify1_range P v : 0 < P -> -(3 * P) < 2 * v <= 3 * P -> - P < 2 * periodify1 P v <= P.
Proof.
  intros HP Hv. unfold periodify1. destruct (Z.ltb_spec P (2 * v)); [destruct (Z.leb_spec (2 * (v - P)) (- P))|destruct (Z.leb_spec (2 * v) (- P))]; lia.
Qed.
Lemma periodify1_min P v n : 0 < P -> -(3 * P) < 2 * v <= 3 * P -> Z.abs (periodify1 P v) <= Z.abs (v + n * P).
Proof.
  intros HP Hv. pose proof (periodify1_range P v HP Hv). destruct (periodify1_shift P v HP) as [m [Hm E]].
  destruct (Z.eq_dec n m) as [->|Hn]; [lia|]. replace (v + n * P) with (periodify1 P v + (n - m) * P) by lia.
  assert (n - m <= -1 \/ 1 <= n - m) as [H'|H'] by lia; nia.
Qed.
Lemma periodify1_sq P v n : 0 < P -> -(3 * P) < 2 * v <= 3 * P -> periodify1 P v * periodify1 P v <= (v + n * P) * (v + n * P).
Proof. intros HP Hv. pose proof (periodify1_min P v n HP Hv). nia. Qed.

(** Box queries on an index of points, any box. *)
Lemma query_box c l t q : config_ok c -> index_of c l t -> Forall (fun p => length p = dims c) l -> length q = dims c ->
  let ids := rstar_query t q in
  StronglySorted lt ids /\
  (forall i, In i ids -> exists p, nth_error l i = Some p /\ in_box q p) /\
  (forall i p, nth_error l i = Some p -> inside_box q p -> In i ids).
Proof.
  intros Hok [[ops [Hd [E Hc]]]] Hl Hq ids.
  destruct (rstar_query_flat c ops t q Hok Hd Hq E) as [H1 [H2 H3]]. fold ids in H1, H2, H3. split; auto. split.
  - intros i Hi. destruct (H2 i Hi) as [b [Hb Hs]]. apply Hc in Hb. destruct Hb as [p [Hp ->]]. exists p. split; auto.
    clear - Hs. unfold sub, bounds, in_box in *. revert q Hs. induction p as [|x p IH]; intros [|e q] H; inversion H; subst; constructor; auto. unfold within. simpl in *. lia.
  - intros i p Hp Hf. assert (Hm : sub (bounds p 0) q /\ meets (bounds p 0) q).
    { clear - Hf. unfold sub, meets, bounds, inside_box in *. induction Hf as [|e x q p He Hf [IH1 IH2]]; simpl; auto. unfold inside in He. split; constructor; auto; simpl; lia. }
    destruct Hm. apply (H3 i (bounds p 0)); auto. apply Hc. eauto.
Qed.

Lemma images27_in n : In n images27 <-> exists i j k, n = [i; j; k] /\ -1 <= i <= 1 /\ -1 <= j <= 1 /\ -1 <= k <= 1.
Proof.
  unfold images27. split.
  - intros H. apply in_flat_map in H. destruct H as [i [Hi H]]. apply in_flat_map in H. destruct H as [j [Hj H]]. apply in_map_iff in H. destruct H as [k [<- Hk]].
    exists i, j, k. split; auto. simpl in Hi, Hj, Hk. lia.
  - intros [i [j [k [-> [Hi [Hj Hk]]]]]]. apply in_flat_map. exists i. split; [simpl; lia|]. apply in_flat_map. exists j. split; [simpl; lia|].
    apply in_map_iff. exists k. split; auto. simpl. lia.
Qed.
Lemma osequence_val {A B} (f : A -> B) l : osequence (map (fun a => Val (f a)) l) = Val (map f l).
Proof. induction l as [|a l IH]; simpl; auto. rewrite IH. auto. Qed.

Lemma Val_inj {A} (a b : A) : Val a = Val b -> a = b.
Proof. congruence. Qed.
Lemma per_select_val st t q : pindex st = Some t -> per_select_enclosed st q =
  Val (if encloses (pbb st) q then rstar_query t q else sort_unique (concat (map (fun n => rstar_query t (shift_box q (vmul n (periods (pbb st))))) images27))).
Proof.
  intros Ht. unfold per_select_enclosed, select_enclosed. rewrite Ht. destruct (encloses (pbb st) q); auto.
Qed.

Lemma axis_range e x y : 0 < width e -> within e x -> within e y -> -(3 * width e) < 2 * (x - y) <= 3 * width e.
Proof. unfold within, width. lia. Qed.

Section Query.
Variables (c : config) (st : particles) (t : rtree) (ex ey ez : interval).
Hypothesis Hok : config_ok c.
Hypothesis H3 : dims c = 3%nat.
Hypothesis Hl : Forall point3 (pts st).
Hypothesis Ht : pindex st = Some t.
Hypothesis Hi : index_of c (pts st) t.
Hypothesis Hb : pbb st = [ex; ey; ez].
Hypothesis Hx : 0 < width ex.
Hypothesis Hy : 0 < width ey.
Hypothesis Hz : 0 < width ez.
Hypothesis Hin : Forall (in_box (pbb st)) (pts st).

Lemma Hl3 : Forall (fun p => length p = dims c) (pts st).
Proof. rewrite H3. eapply Forall_impl; [|exact Hl]. intros p. apply point3_length. Qed.
Lemma pt_in i p : nth_error (pts st) i = Some p -> exists x y z, p = [x; y; z] /\ within ex x /\ within ey y /\ within ez z.
Proof.
  intros Hp. apply nth_error_In in Hp. rewrite Forall_forall in Hin. specialize (Hin p Hp). rewrite Hb in Hin.
  inversion Hin as [|? x ? p1 Hx1 H1]; subst. inversion H1 as [|? y ? p2 Hy1 H2]; subst. inversion H2 as [|? z ? p3 Hz1 H4]; subst. inversion H4; subst.
  exists x, y, z. auto.
Qed.

Lemma select_sound fx fy fz ids i : per_select_enclosed st [fx; fy; fz] = Val ids -> In i ids ->
  exists p p', nth_error (pts st) i = Some p /\ image (pbb st) p p' /\ in_box [fx; fy; fz] p'.
Proof.
  rewrite (per_select_val st t _ Ht). intros H Hin'. apply Val_inj in H. subst ids. rewrite Hb in Hin' |- *. destruct (encloses [ex; ey; ez] [fx; fy; fz]).
  - destruct (query_box c (pts st) t [fx; fy; fz] Hok Hi Hl3) as [_ [H1 _]]; [rewrite H3; auto|]. destruct (H1 i Hin') as [p [Hp Hbx]]. exists p, p. split; auto. split; auto.
    destruct (pt_in i p Hp) as [x [y [z [-> _]]]]. exists 0, 0, 0. f_equal; [lia|]. f_equal; [lia|]. f_equal; lia.
  - rewrite sort_unique_in in Hin'. apply in_concat in Hin'. destruct Hin' as [l [Hl' Hil]]. apply in_map_iff in Hl'. destruct Hl' as [n [<- Hn]].
    apply images27_in in Hn. destruct Hn as [a [b [d [-> [Ha [Hb' Hd]]]]]].
    destruct (query_box c (pts st) t (shift_box [fx; fy; fz] (vmul [a; b; d] (periods [ex; ey; ez]))) Hok Hi Hl3) as [_ [H1 _]]; [rewrite H3; auto|].
    destruct (H1 i Hil) as [p [Hp Hbx]]. destruct (pt_in i p Hp) as [x [y [z [-> _]]]]. exists [x; y; z], [x + (-a) * width ex; y + (-b) * width ey; z + (-d) * width ez].
    split; auto. split; [exists (-a), (-b), (-d); auto|].
    inversion Hbx as [|? ? ? ? Hx1 H4]; subst. inversion H4 as [|? ? ? ? Hy1 H5]; subst. inversion H5 as [|? ? ? ? Hz1 H6]; subst.
    unfold within, width in *. simpl in *. repeat constructor; unfold within; simpl; lia.
Qed.

(** In the second branch of the query, an image at most one period away is enough; in the first the image is the particle itself. *)
Lemma select_complete fx fy fz i x y z a b d : nth_error (pts st) i = Some [x; y; z] -> -1 <= a <= 1 -> -1 <= b <= 1 -> -1 <= d <= 1 ->
  inside fx (x + a * width ex) -> inside fy (y + b * width ey) -> inside fz (z + d * width ez) ->
  forall ids, per_select_enclosed st [fx; fy; fz] = Val ids -> In i ids.
Proof.
  intros Hp Ha Hb' Hd Ix Iy Iz ids. rewrite (per_select_val st t _ Ht). intros H. apply Val_inj in H. subst ids. destruct (pt_in i _ Hp) as [x0 [y0 [z0 [E [Wx [Wy Wz]]]]]].
  injection E as <- <- <-. rewrite Hb. destruct (encloses [ex; ey; ez] [fx; fy; fz]) eqn:Ee.
  - destruct (query_box c (pts st) t [fx; fy; fz] Hok Hi Hl3) as [_ [_ H1]]; [rewrite H3; auto|]. apply (H1 i _ Hp).
    apply encloses_sub in Ee; [|auto]. inversion Ee as [|? ? ? ? Ex Ee1]; subst. inversion Ee1 as [|? ? ? ? Ey Ee2]; subst. inversion Ee2 as [|? ? ? ? Ez Ee3]; subst.
    unfold inside, within, width in *. simpl in *.
    assert (a = 0) by nia. assert (b = 0) by nia. assert (d = 0) by nia. subst. repeat constructor; unfold inside; simpl; lia.
  - rewrite sort_unique_in. apply in_concat. exists (rstar_query t (shift_box [fx; fy; fz] (vmul [-a; -b; -d] (periods [ex; ey; ez])))). split.
    + apply in_map_iff. exists [-a; -b; -d]. split; auto. apply images27_in. exists (-a), (-b), (-d). split; auto. lia.
    + destruct (query_box c (pts st) t (shift_box [fx; fy; fz] (vmul [-a; -b; -d] (periods [ex; ey; ez]))) Hok Hi Hl3) as [_ [_ H1]]; [rewrite H3; auto|].
      apply (H1 i _ Hp). unfold inside, within, width in *. simpl in *. repeat constructor; unfold inside; simpl; lia.
Qed.
Lemma select_sorted q ids : length q = 3%nat -> per_select_enclosed st q = Val ids -> StronglySorted lt ids.
Proof.
  intros Hq. rewrite (per_select_val st t _ Ht). intros H. apply Val_inj in H. subst ids. destruct (encloses (pbb st) q).
  - apply (query_box c (pts st) t q Hok Hi Hl3). congruence.
  - apply sort_unique_sorted.
Qed.

(** Neighbours. *)
Definition pd (p q : list Z) : Z := norm_sq (periodify (pbb st) (vsub p q)).
Lemma per_keep_spec q r skip : forall l, (forall i, In i l -> (i < length (pts st))%nat) ->
  per_keep st q r skip l = Val (filter (fun i => negb (skip i) && match nth_error (pts st) i with Some p => pd p q <? r * r | None => false end) l).
Proof.
  induction l as [|i l IH]; intros H; simpl; auto. rewrite IH by (intros; apply H; simpl; auto). destruct (skip i); simpl; auto.
  destruct (nth_error_ex (pts st) i) as [p Hp]; [apply H; simpl; auto|]. unfold per_diff. rewrite Hp. simpl. fold (pd p q). destruct (pd p q <? r * r); auto.
Qed.

Lemma per_search u v w r skip : within ex u -> within ey v -> within ez w ->
  exists ids, obind (per_select_enclosed st (bounds [u; v; w] r)) (per_keep st [u; v; w] r skip) = Val ids /\ StronglySorted lt ids /\
    forall i, In i ids <-> skip i = false /\ exists p p', nth_error (pts st) i = Some p /\ image (pbb st) p p' /\ closer3 p' [u; v; w] r.
Proof.
  intros Wu Wv Ww. destruct (per_select_enclosed st (bounds [u; v; w] r)) as [l| |] eqn:El; [|rewrite (per_select_val st t _ Ht) in El; discriminate|rewrite (per_select_val st t _ Ht) in El; discriminate].
  unfold bounds in El. cbn [map] in El. set (keep := fun i => negb (skip i) && match nth_error (pts st) i with Some p => pd p [u; v; w] <? r * r | None => false end).
  exists (filter keep l). split; [|split].
  - simpl. apply per_keep_spec. intros i H. destruct (select_sound _ _ _ _ i El H) as [p [_ [Hp _]]]. eapply nth_error_lt; eauto.
  - apply filter_ssorted. eapply select_sorted; [|exact El]; auto.
  - intros i. rewrite filter_In. unfold keep. rewrite andb_true_iff, negb_true_iff. split.
    + intros [Hil [Hsk Hn]]. split; auto. destruct (select_sound _ _ _ _ i El Hil) as [p [p' [Hp [Him Hbx]]]]. rewrite Hp in Hn. apply Z.ltb_lt in Hn.
      destruct (pt_in i p Hp) as [x [y [z [-> [Wx [Wy Wz]]]]]]. unfold pd in Hn. rewrite Hb in Hn, Him |- *. cbn [periodify periods vsub combine map fst snd norm_sq] in Hn.
      fold (width ex) (width ey) (width ez) in Hn.
      destruct (periodify1_shift (width ex) (x - u) Hx) as [a [Ha Ea]]. destruct (periodify1_shift (width ey) (y - v) Hy) as [b [Hb' Eb]]. destruct (periodify1_shift (width ez) (z - w) Hz) as [d [Hd Ed]].
      exists [x; y; z], [x + a * width ex; y + b * width ey; z + d * width ez]. split; auto. split; [exists a, b, d; auto|]. split.
      * inversion Hbx as [|? ? ? ? Hx1 H4]; subst. unfold within in Hx1. simpl in Hx1.
        assert (r <> 0); [|lia]. intros ->.
        pose proof (Z.square_nonneg (periodify1 (width ex) (x - u))). pose proof (Z.square_nonneg (periodify1 (width ey) (y - v))). pose proof (Z.square_nonneg (periodify1 (width ez) (z - w))). lia.
      * rewrite Ea, Eb, Ed in Hn. cbn [dist2]. lia.
    + intros [Hsk [p [p' [Hp [Him [Hr Hc]]]]]]. destruct (pt_in i p Hp) as [x [y [z [-> [Wx [Wy Wz]]]]]]. rewrite Hb in Him. destruct Him as [a' [b' [d' ->]]]. cbn [dist2] in Hc.
      pose proof (axis_range ex x u Hx Wx Wu) as Rx. pose proof (axis_range ey y v Hy Wy Wv) as Ry. pose proof (axis_range ez z w Hz Wz Ww) as Rz.
      pose proof (periodify1_sq (width ex) (x - u) a' Hx Rx) as Sx. pose proof (periodify1_sq (width ey) (y - v) b' Hy Ry) as Sy. pose proof (periodify1_sq (width ez) (z - w) d' Hz Rz) as Sz.
      destruct (periodify1_shift (width ex) (x - u) Hx) as [a [Ha Ea]]. destruct (periodify1_shift (width ey) (y - v) Hy) as [b [Hb' Eb]]. destruct (periodify1_shift (width ez) (z - w) Hz) as [d [Hd Ed]].
      replace (x - u + a' * width ex) with (x + a' * width ex - u) in Sx by lia. replace (y - v + b' * width ey) with (y + b' * width ey - v) in Sy by lia. replace (z - w + d' * width ez) with (z + d' * width ez - w) in Sz by lia.
      assert (Hs : periodify1 (width ex) (x - u) * periodify1 (width ex) (x - u) + periodify1 (width ey) (y - v) * periodify1 (width ey) (y - v) + periodify1 (width ez) (z - w) * periodify1 (width ez) (z - w) < r * r) by lia.
      split; [|split; auto].
      * pose proof (Z.square_nonneg (periodify1 (width ex) (x - u))). pose proof (Z.square_nonneg (periodify1 (width ey) (y - v))). pose proof (Z.square_nonneg (periodify1 (width ez) (z - w))).
        assert (Bx : - r < periodify1 (width ex) (x - u) < r) by nia. assert (By : - r < periodify1 (width ey) (y - v) < r) by nia. assert (Bz : - r < periodify1 (width ez) (z - w) < r) by nia.
        refine (select_complete _ _ _ i x y z a b d Hp Ha Hb' Hd _ _ _ _ El); unfold inside; cbn [fst snd]; lia.
      * rewrite Hp. apply Z.ltb_lt. unfold pd. rewrite Hb. cbn [periodify periods vsub combine map fst snd norm_sq]. fold (width ex) (width ey) (width ez). lia.
Qed.
End Query.

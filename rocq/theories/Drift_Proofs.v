(** Proofs about the drift. *)
Require Import ZArith QArith List Bool Arith Lia Lqa.
Require Import Verif.Base Verif.SortU Verif.ListX Verif.RTree_Model Verif.Traj_Model Verif.Traj_Spec Verif.Traj_Proofs Verif.Cluster_Spec Verif.Particles_Model Verif.Dyn_Model Verif.Dyn_Spec Verif.Dyn_Proofs.
Import ListNotations.
Local Open Scope nat_scope.

Lemma position_val {V} (frames : list (list V)) T t x : small T -> (position V frames T t = Val x <-> value_at frames T t x).
Proof.
  intros Hs. unfold position, value_at. split.
  - destruct (nth_error frames t) as [f|] eqn:Ef; [|discriminate]. destruct (access T t) as [p| |] eqn:Ep; try discriminate. destruct (nth_error f p) as [y|] eqn:Ey; [|discriminate].
    intros H. injection H as <-. exists p, f. split; [apply access_val; auto|auto].
  - intros [p [f [Hp [Hf Hx]]]]. rewrite Hf, (proj2 (access_val T t p Hs) Hp), Hx. auto.
Qed.
Definition shape {V} (ti : trajindex) (frames : list (list V)) : Prop := map (@length V) frames = map (@length nat) (inverse ti).
Lemma value_ex {V} ti (frames : list (list V)) tr T t p : consistent ti -> shape ti frames -> nth_error (trajs ti) tr = Some T -> at_time T t p -> exists x, value_at frames T t x.
Proof.
  intros [Hinv _] Hsh HT Hp. assert (Hi : invert ti t p = Some tr) by (apply Hinv; eauto). unfold invert in Hi. destruct (nth_error (inverse ti) t) as [row|] eqn:Er; [|discriminate].
  assert (H : nth_error (map (@length V) frames) t = Some (length row)) by (rewrite Hsh; apply map_nth_error; auto). apply nth_error_map_inv in H. destruct H as [f [Hf Lf]].
  destruct (nth_error_ex f p) as [x Hx]; [rewrite <- Lf; eapply nth_error_lt; eauto|]. exists x, p, f. auto.
Qed.
Lemma value_fun {V} (frames : list (list V)) T t x y : value_at frames T t x -> value_at frames T t y -> x = y.
Proof. intros [p [f [Hp [Hf Hx]]]] [p' [f' [Hp' [Hf' Hy]]]]. assert (p' = p) by (eapply at_time_fun; eauto). subst. congruence. Qed.

Local Open Scope Q_scope.
Lemma fold_plus_acc : forall l a, fold_left Qplus l a == a + fold_left Qplus l 0.
Proof. induction l as [|x l IH]; intros a; simpl; [ring|]. rewrite IH, (IH (0 + x)). ring. Qed.

Section Drift.
  Variables (ti : trajindex) (frames : list (list Q)).
  Hypothesis Hc : consistent ti.
  Hypothesis Hsh : shape ti frames.

  Lemma displacements_ok t0 t1 : forall l, (forall tr, In tr l -> exists T, nth_error (trajs ti) tr = Some T /\ (exists p, at_time T t0 p) /\ (exists p, at_time T t1 p)) ->
    exists ds, osequence (map (fun tr => displacement frames ti tr t0 t1) l) = Val ds /\ length ds = length l /\ total_displacement frames (trajs ti) l t0 t1 (fold_left Qplus ds 0).
  Proof.
    induction l as [|tr l IH]; intros H; [exists []; simpl; split; auto; split; auto; reflexivity|]. destruct IH as [ds [E [L D]]]; [intros; apply H; simpl; auto|].
    destruct (H tr (or_introl eq_refl)) as [T [HT [[p Hp] [q Hq]]]]. assert (Hs : small T) by exact (proj2 Hc tr T HT).
    destruct (value_ex ti frames tr T t0 p Hc Hsh HT Hp) as [x Hx]. destruct (value_ex ti frames tr T t1 q Hc Hsh HT Hq) as [y Hy].
    exists ((y - x) :: ds). cbn [map osequence]. unfold displacement at 1. rewrite HT, (proj2 (position_val frames T t1 y Hs) Hy), (proj2 (position_val frames T t0 x Hs) Hx). cbn [obind]. rewrite E. cbn [omap obind].
    split; auto. split; [simpl; auto|]. exists T, x, y, (fold_left Qplus ds 0). repeat (split; auto). cbn [fold_left]. rewrite fold_plus_acc. ring.
  Qed.
  Lemma get_drift_ok l t0 t1 : (forall tr, In tr l -> exists T, nth_error (trajs ti) tr = Some T /\ (exists p, at_time T t0 p) /\ (exists p, at_time T t1 p)) ->
    exists d, get_drift frames ti l t0 t1 = Val d /\ ((2 <= length l)%nat -> total_displacement frames (trajs ti) l t0 t1 (d * inject_Z (Z.of_nat (length l)))) /\ ((length l < 2)%nat -> d = 0).
  Proof.
    intros H. unfold get_drift. destruct (Nat.ltb_spec (length l) 2) as [Hlt|Hge]; [exists 0; split; auto; split; auto; lia|].
    destruct (displacements_ok t0 t1 l H) as [ds [E [L D]]]. rewrite E. eexists. split; [reflexivity|]. split; [|lia]. intros _. revert D.
    assert (En : fold_left Qplus ds 0 / inject_Z (Z.of_nat (length l)) * inject_Z (Z.of_nat (length l)) == fold_left Qplus ds 0).
    { field. intros E0. unfold Qeq, inject_Z in E0. simpl in E0. lia. }
    revert En. generalize (fold_left Qplus ds 0) (fold_left Qplus ds 0 / inject_Z (Z.of_nat (length l)) * inject_Z (Z.of_nat (length l))). clear. intros a b Eab. destruct l as [|tr l]; simpl; [intros; rewrite Eab; auto|].
    intros [T [x [y [d' [H1 [H2 [H3 [H4 H5]]]]]]]]. exists T, x, y, d'. repeat (split; auto). rewrite Eab. auto.
  Qed.
  (** A uniform shift of every frame. *)
  Definition shifted (ss : list Q) : list (list Q) := map (fun fd => map (fun x => x + snd fd) (fst fd)) (combine frames ss).
  Lemma shifted_value ss T t x s : nth_error ss t = Some s -> value_at frames T t x -> value_at (shifted ss) T t (x + s).
  Proof.
    intros Hs [p [f [Hp [Hf Hx]]]]. exists p, (map (fun x => x + s) f). split; auto. split; [|apply (map_nth_error (fun x => x + s)); auto].
    unfold shifted. rewrite (map_nth_error (fun fd => map (fun x => x + snd fd) (fst fd)) t (combine frames ss) (d := (f, s))); auto. apply combine_nth_error. auto.
  Qed.
  Lemma shifted_total ss t0 t1 s0 s1 : nth_error ss t0 = Some s0 -> nth_error ss t1 = Some s1 -> forall l d, total_displacement frames (trajs ti) l t0 t1 d ->
    forall d', d' == d + inject_Z (Z.of_nat (length l)) * (s1 - s0) -> total_displacement (shifted ss) (trajs ti) l t0 t1 d'.
  Proof.
    intros H0 H1. induction l as [|tr l IH]; intros d D d' E.
    - simpl in *. rewrite E, D. simpl. ring.
    - destruct D as [T [x [y [d2 [HT [Hx [Hy [D Ed]]]]]]]]. exists T, (x + s0), (y + s1), (d2 + inject_Z (Z.of_nat (length l)) * (s1 - s0)).
      split; auto. split; [apply shifted_value; auto|]. split; [apply shifted_value; auto|]. split; [eapply IH; [eauto|reflexivity]|]. rewrite E, Ed.
      replace (inject_Z (Z.of_nat (length (tr :: l)))) with (inject_Z (Z.of_nat (length l) + 1)) by (cbn [length]; do 2 f_equal; lia). rewrite inject_Z_plus. change (inject_Z 1) with 1. ring.
  Qed.
End Drift.

Lemma partial_sums_len : forall l a, length (partial_sums a l) = length l.
Proof. induction l; intros; simpl; auto. Qed.
Lemma partial_sums_step : forall l a t x y r, nth_error (partial_sums a l) t = Some x -> nth_error (partial_sums a l) (S t) = Some y -> nth_error l (S t) = Some r -> y = x + r.
Proof.
  induction l as [|z l IH]; intros a t x y r Hx Hy Hr; [destruct t; discriminate|]. cbn [partial_sums] in *. destruct t as [|t].
  - cbn [nth_error] in *. injection Hx as <-. destruct l as [|z' l]; [discriminate|]. cbn [partial_sums nth_error] in *. injection Hr as ->. injection Hy as <-. auto.
  - apply (IH (a + z) t x y r); auto.
Qed.
Lemma low_ok : forall l m, let r := fold_left (fun m d => if Qlt_le_dec d m then d else m) l m in r <= m /\ (forall d, In d l -> r <= d) /\ (r = m \/ In r l).
Proof.
  induction l as [|x l IH]; intros m; cbn [fold_left]; [split; [lra|split; [contradiction|auto]]|]. destruct (IH (if Qlt_le_dec x m then x else m)) as [H1 [H2 H3]].
  set (r := fold_left _ l _) in *. destruct (Qlt_le_dec x m) as [Hlt|Hge].
  - split; [lra|]. split; [intros d [<-|Hd]; auto|]. destruct H3 as [H3|H3]; [right; left; auto|right; right; auto].
  - split; [auto|]. split; [intros d [<-|Hd]; [lra|auto]|]. destruct H3 as [H3|H3]; [auto|right; right; auto].
Qed.

Lemma shifts_ok ti frames sel : consistent ti -> shape ti frames -> (0 < length frames)%nat ->
  (forall t, (t + 1 < length frames)%nat -> exists l, sel t = Val l /\ forall tr, In tr l -> exists T, nth_error (trajs ti) tr = Some T /\ spans T t (t + 1)) ->
  exists ss, shifts sel frames ti = Val ss /\ length ss = length frames /\ (forall s, In s ss -> 0 <= s) /\ (exists s, In s ss /\ s == 0) /\
    forall t l, (t + 1 < length frames)%nat -> sel t = Val l -> exists s0 s1, nth_error ss t = Some s0 /\ nth_error ss (t + 1) = Some s1 /\
      ((2 <= length l)%nat -> exists d, total_displacement frames (trajs ti) l t (t + 1) d /\ d + inject_Z (Z.of_nat (length l)) * (s1 - s0) == 0) /\ ((length l < 2)%nat -> s1 == s0).
Proof.
  intros Hc Hsh Hpos Hsel. set (n := length frames) in *.
  set (g := fun t => match t with O => Val 0 | S t' => match get_drift_at sel frames ti t' t with Val d => Val (- d) | Throw => Throw | UB => UB end end).
  assert (Hg : forall t, In t (seq 0 n) -> exists r, g t = Val r).
  { intros [|t] Ht; [exists 0; auto|]. apply in_seq in Ht. destruct (Hsel t ltac:(lia)) as [l [El Hl]]. unfold g, get_drift_at. rewrite El.
    destruct (get_drift_ok ti frames Hc Hsh l t (t + 1)) as [d [Ed _]]; [|rewrite Ed; eauto].
    intros tr Htr. destruct (Hl tr Htr) as [T [HT Hs]]. exists T. split; auto. apply spans_ends in Hs; auto. lia. }
  destruct (osequence_map_ex g (seq 0 n) Hg) as [rel [Er Fr]]. assert (Lr : length rel = n) by (rewrite <- (F2_len _ _ _ Fr), seq_length; auto).
  unfold shifts. fold n.
  fold g. rewrite Er. cbv zeta. set (drifts := partial_sums 0 rel). set (low := fold_left (fun m d => if Qlt_le_dec d m then d else m) (skipn 1 drifts) 0).
  assert (Ld : length drifts = n) by (unfold drifts; rewrite partial_sums_len; auto).
  assert (H0 : exists rest, drifts = (0 + 0) :: rest).
  { destruct (F2_nth _ _ _ 0 0%nat Fr) as [r [Hr Gr]]; [apply nth_error_seq; auto|]. unfold g in Gr. injection Gr as <-. unfold drifts. destruct rel as [|r0 rel']; [discriminate|]. simpl in Hr. injection Hr as ->. simpl. eauto. }
  destruct H0 as [rest Hdr]. assert (Hlow := low_ok (skipn 1 drifts) 0). fold low in Hlow. rewrite Hdr in Hlow. cbn [skipn] in Hlow. destruct Hlow as [L1 [L2 L3]].
  eexists. split; [reflexivity|]. split; [rewrite map_length; auto|]. split; [|split].
  - intros s Hs. apply in_map_iff in Hs. destruct Hs as [d [<- Hd]]. rewrite Hdr in Hd. destruct Hd as [<-|Hd]; [lra|]. apply L2 in Hd. lra.
  - destruct L3 as [L3|L3]; [exists (0 + 0 - low)|exists (low - low)].
    + split; [|rewrite L3; ring]. apply in_map_iff. exists (0 + 0). split; auto. rewrite Hdr. simpl. auto.
    + split; [|ring]. apply in_map_iff. exists low. split; auto. rewrite Hdr. simpl. auto.
  - intros t l Ht El. destruct (nth_error_ex drifts t) as [x Hx]; [lia|]. destruct (nth_error_ex drifts (S t)) as [y Hy]; [lia|].
    exists (x - low), (y - low). split; [apply (map_nth_error (fun d => d - low)); auto|]. split; [replace (t + 1)%nat with (S t) by lia; apply (map_nth_error (fun d => d - low)); auto|].
    destruct (F2_nth _ _ _ (S t) (S t) Fr) as [r [Hr Gr]]; [rewrite nth_error_seq by lia; auto|].
    assert (Ey : y = x + r) by (eapply partial_sums_step; eauto). unfold g, get_drift_at in Gr. rewrite El in Gr.
    destruct (Hsel t Ht) as [l' [El' Hl]]. assert (l' = l) by congruence. subst l'.
    destruct (get_drift_ok ti frames Hc Hsh l t (t + 1)) as [d [Ed [Hd2 Hd1]]].
    { intros tr Htr. destruct (Hl tr Htr) as [T [HT Hs]]. exists T. split; auto. apply spans_ends in Hs; auto. lia. }
    rewrite Ed in Gr. injection Gr as <-. subst y. split.
    + intros H2. exists (d * inject_Z (Z.of_nat (length l))). split; [auto|]. ring.
    + intros H1. rewrite (Hd1 H1). ring.
Qed.

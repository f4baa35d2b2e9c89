(** C43, C44: periodic boundary conditions. *)
Require Import ZArith List Bool Arith Lia Permutation Sorted.
Require Import Verif.Base Verif.SortU Verif.ListX Verif.Box_Model Verif.Box_Spec Verif.Box_Proofs Verif.RTree_Model Verif.RTree_Spec Verif.RTree_Heuristics
  Verif.Index_Model Verif.Index_Spec Verif.Index_Proofs Verif.Traj_Model Verif.Traj_Proofs Verif.Center_Model Verif.Center_Proofs Verif.Reconstructor_Proofs
  Verif.Particles_Model Verif.Particles_Spec Verif.Particles_Proofs Verif.Particles_Props Verif.Periodic_Model Verif.Periodic_Spec Verif.Periodic_Proofs.
Import ListNotations.
Local Open Scope Z_scope.

(** C43: the difference between two positions of the cell is that with the nearest image. *)
Theorem C43_minimum_image st i x y z u v w : cell (pbb st) -> nth_error (pts st) i = Some [x; y; z] -> in_box (pbb st) [x; y; z] -> in_box (pbb st) [u; v; w] ->
  exists ex ey ez dx dy dz, pbb st = [ex; ey; ez] /\ per_diff st [u; v; w] i = Val [dx; dy; dz] /\
    - width ex < 2 * dx <= width ex /\ - width ey < 2 * dy <= width ey /\ - width ez < 2 * dz <= width ez /\
    image (pbb st) [x; y; z] [u + dx; v + dy; w + dz] /\
    (forall p', image (pbb st) [x; y; z] p' -> dist2 [u + dx; v + dy; w + dz] [u; v; w] <= dist2 p' [u; v; w]).
Proof.
  intros [ex [ey [ez [Hb [Hx [Hy Hz]]]]]] Hp H1 H2. unfold per_diff. rewrite Hp, Hb in *. exists ex, ey, ez.
  inversion H1 as [|? ? ? ? Wx H1']; subst. inversion H1' as [|? ? ? ? Wy H1'']; subst. inversion H1'' as [|? ? ? ? Wz _]; subst.
  inversion H2 as [|? ? ? ? Wu H2']; subst. inversion H2' as [|? ? ? ? Wv H2'']; subst. inversion H2'' as [|? ? ? ? Ww _]; subst.
  pose proof (axis_range ex x u Hx Wx Wu) as Rx. pose proof (axis_range ey y v Hy Wy Wv) as Ry. pose proof (axis_range ez z w Hz Wz Ww) as Rz.
  cbn [periodify periods vsub combine map fst snd]. fold (width ex) (width ey) (width ez).
  eexists _, _, _. split; [reflexivity|]. split; [reflexivity|]. split; [apply periodify1_range; auto|]. split; [apply periodify1_range; auto|]. split; [apply periodify1_range; auto|]. split.
  - destruct (periodify1_shift (width ex) (x - u) Hx) as [a [Ha ->]]. destruct (periodify1_shift (width ey) (y - v) Hy) as [b [Hb' ->]]. destruct (periodify1_shift (width ez) (z - w) Hz) as [d [Hd ->]].
    exists a, b, d. f_equal; [lia|]. f_equal; [lia|]. f_equal; lia.
  - intros p' [a [b [d ->]]]. cbn [dist2].
    pose proof (periodify1_sq (width ex) (x - u) a Hx Rx). pose proof (periodify1_sq (width ey) (y - v) b Hy Ry). pose proof (periodify1_sq (width ez) (z - w) d Hz Rz). lia.
Qed.
Example C43_case : per_diff (new_particles [[1; 5; 9]] [(0, 10); (0, 10); (0, 9)] 1) [9; 0; 0] 0 = Val [2; 5; 0] /\ cell [(0, 10); (0, 10); (0, 9)].
Proof. split; [vm_compute; reflexivity|]. eexists _, _, _. unfold width. simpl. repeat split; lia. Qed.
(** With a position away from the cell the result may be larger than half a period. *)
Theorem C43_outside_refuted : exists P v n, 0 < P /\ Z.abs (v + n * P) < Z.abs (periodify1 P v).
Proof. exists 10, 19, (-2). split; vm_compute; reflexivity. Qed.

(** C44: box queries. *)
Theorem C44_box c l bb r ops q : config_ok c -> dims c = 3%nat -> Forall point3 l -> Forall pop_ok ops -> indexed ops = true -> length q = 3%nat ->
  exists st, prun c (new_particles l bb r) ops = Some st /\ (cell (pbb st) -> Forall (in_box (pbb st)) (positions l ops) ->
    exists ids, per_select_enclosed st q = Val ids /\ StronglySorted lt ids /\
      (forall i, In i ids -> exists p p', nth_error (positions l ops) i = Some p /\ image (pbb st) p p' /\ in_box q p') /\
      (reachable_box (pbb st) q -> forall i p p', nth_error (positions l ops) i = Some p -> image (pbb st) p p' -> inside_box q p' -> In i ids)).
Proof.
  intros Hok H3 Hl Ho Hx Hq. destruct (history_ok c l bb r ops Hok H3 Hl Ho) as [st [E [Hm [Hp Hi]]]]. destruct (Hi Hx) as [t [Ht Hit]].
  exists st. split; auto. rewrite <- Hm. intros [ex [ey [ez [Hb [Wx [Wy Wz]]]]]] Hin. destruct q as [|fx [|fy [|fz [|? ?]]]]; try discriminate.
  destruct (per_select_enclosed st [fx; fy; fz]) as [ids| |] eqn:Es; [|rewrite (per_select_val st t _ Ht) in Es; discriminate|rewrite (per_select_val st t _ Ht) in Es; discriminate].
  exists ids. split; auto. split; [eapply select_sorted; eauto|]. split.
  - intros i Hid. eapply select_sound; eauto.
  - intros Hr i p p' Hpi Him Hib. destruct (pt_in st ex ey ez Hb Hin i p Hpi) as [x [y [z [-> [Ix [Iy Iz]]]]]].
    rewrite Hb in Him. destruct Him as [a [b [d ->]]]. rewrite Hb in Hr.
    inversion Hr as [|? ? ? ? Rx Hr1]; subst. inversion Hr1 as [|? ? ? ? Ry Hr2]; subst. inversion Hr2 as [|? ? ? ? Rz _]; subst.
    inversion Hib as [|? ? ? ? Jx Hi1]; subst. inversion Hi1 as [|? ? ? ? Jy Hi2]; subst. inversion Hi2 as [|? ? ? ? Jz _]; subst.
    assert (forall e f k s, 0 < width e -> within e s -> fst e - width e <= fst f /\ snd f <= snd e + width e -> inside f (s + k * width e) -> -1 <= k <= 1) as Hk.
    { unfold within, inside, width. intros e f k s. nia. }
    eapply (select_complete c st t ex ey ez) with (a := a) (b := b) (d := d); eauto.
Qed.
Definition ex_cell : list (list Z) := [[1; 5; 5]; [9; 5; 5]; [5; 5; 5]; [1; 1; 9]].
Example C44_case : exists st, prun lib_config (new_particles ex_cell [(0, 10); (0, 10); (0, 10)] 1) [PIndex] = Some st /\ cell (pbb st) /\
  reachable_box (pbb st) [(-3, 2); (3, 7); (3, 7)] /\ per_select_enclosed st [(-3, 2); (3, 7); (3, 7)] = Val [0%nat; 1%nat].
Proof.
  eexists. split; [vm_compute; reflexivity|]. split; [eexists _, _, _; unfold width; simpl; repeat split; lia|]. split; [|vm_compute; reflexivity].
  repeat constructor; simpl; lia.
Qed.
(** Further away than one period, images are missed. *)
Theorem C44_far_refuted : exists st p p', prun lib_config (new_particles ex_cell [(0, 10); (0, 10); (0, 10)] 1) [PIndex] = Some st /\
  nth_error (pts st) 2 = Some p /\ image (pbb st) p p' /\ inside_box [(20, 30); (0, 10); (0, 10)] p' /\ per_select_enclosed st [(20, 30); (0, 10); (0, 10)] = Val [].
Proof.
  eexists _, [5; 5; 5], [25; 5; 5]. split; [vm_compute; reflexivity|]. split; [reflexivity|]. split; [exists 2, 0, 0; reflexivity|]. split; [|vm_compute; reflexivity].
  repeat constructor; simpl; lia.
Qed.

(** C44: the searches by distance see every image, at any range. *)
Theorem C44_neighbours c l bb r ops : config_ok c -> dims c = 3%nat -> Forall point3 l -> Forall pop_ok ops -> indexed ops = true ->
  exists st, prun c (new_particles l bb r) ops = Some st /\ (cell (pbb st) -> Forall (in_box (pbb st)) (positions l ops) ->
    forall range,
    (forall q, in_box (pbb st) q -> exists ids, per_euclid st q range = Val ids /\
       picks (positions l ops) (fun _ p => exists p', image (pbb st) p p' /\ closer3 p' q range) ids) /\
    (forall i q, nth_error (positions l ops) i = Some q -> exists ids, per_euclid_of st i range = Val ids /\
       picks (positions l ops) (fun j p => j <> i /\ exists p', image (pbb st) p p' /\ closer3 p' q range) ids)).
Proof.
  intros Hok H3 Hl Ho Hx. destruct (history_ok c l bb r ops Hok H3 Hl Ho) as [st [E [Hm [Hp Hi]]]]. destruct (Hi Hx) as [t [Ht Hit]].
  exists st. split; auto. rewrite <- Hm. intros [ex [ey [ez [Hb [Wx [Wy Wz]]]]]] Hin range. split.
  - intros q Hq. rewrite Hb in Hq. inversion Hq as [|? u ? q1 Iu Hq1]; subst. inversion Hq1 as [|? v ? q2 Iv Hq2]; subst. inversion Hq2 as [|? w ? q3 Iw Hq3]; subst. inversion Hq3; subst.
    destruct (per_search c st t ex ey ez Hok H3 Hp Ht Hit Hb Wx Wy Wz Hin u v w range (fun _ => false) Iu Iv Iw) as [ids [E1 [Hs Hid]]].
    exists ids. split; [exact E1|]. split; auto. intros i. rewrite Hid. split.
    + intros [_ [p [p' [H1 [H2 H4]]]]]. eauto.
    + intros [p [H1 [p' [H2 H4]]]]. split; auto. eauto.
  - intros i q Hq. destruct (pt_in st ex ey ez Hb Hin i q Hq) as [u [v [w [-> [Iu [Iv Iw]]]]]].
    destruct (per_search c st t ex ey ez Hok H3 Hp Ht Hit Hb Wx Wy Wz Hin u v w range (fun j => (j =? i)%nat) Iu Iv Iw) as [ids [E1 [Hs Hid]]].
    exists ids. unfold per_euclid_of. rewrite Hq. split; [exact E1|]. split; auto. intros j. rewrite Hid. split.
    + intros [Hj [p [p' [H1 [H2 H4]]]]]. apply Nat.eqb_neq in Hj. exists p. split; auto. split; auto. eauto.
    + intros [p [H1 [Hj [p' [H2 H4]]]]]. split; [apply Nat.eqb_neq; auto|]. eauto.
Qed.
Example C44_neighbours_case : exists st, prun lib_config (new_particles ex_cell [(0, 10); (0, 10); (0, 10)] 1) [PIndex] = Some st /\
  Forall (in_box (pbb st)) (pts st) /\ per_euclid_of st 0 3 = Val [1%nat] /\ per_euclid st [0; 0; 0] 20 = Val [0%nat; 1%nat; 2%nat; 3%nat].
Proof. eexists. split; [vm_compute; reflexivity|]. split; [repeat constructor; simpl; lia|]. split; vm_compute; reflexivity. Qed.

(** C44: hence the neighbour list of a periodic set is symmetric. *)
Theorem C44_ngb_list c l bb r ops bn bd : config_ok c -> dims c = 3%nat -> Forall point3 l -> Forall pop_ok ops -> indexed ops = true ->
  exists st, prun c (new_particles l bb r) ops = Some st /\ (cell (pbb st) -> Forall (in_box (pbb st)) (positions l ops) ->
    exists ngb, per_ngb_list st bn bd = Val ngb /\ length ngb = length (positions l ops) /\
      (forall i j, linked ngb i j <-> i <> j /\ exists p q p', nth_error (positions l ops) i = Some q /\ nth_error (positions l ops) j = Some p /\
         image (pbb st) p p' /\ closer3 p' q (bond_sep st bn bd)) /\
      (forall i j, linked ngb i j -> linked ngb j i)).
Proof.
  intros Hok H3 Hl Ho Hx. destruct (C44_neighbours c l bb r ops Hok H3 Hl Ho Hx) as [st [E H]]. exists st. split; auto. intros Hc Hin. pose proof (H Hc Hin (bond_sep st bn bd)) as [_ Hn].
  destruct (history_ok c l bb r ops Hok H3 Hl Ho) as [st' [E' [Hm _]]]. assert (st' = st) by congruence. subst st'. clear E' H. rewrite <- Hm in *.
  assert (Hg : forall m k, (k + m <= length (pts st))%nat -> exists ngb, osequence (map (fun p => per_euclid_of st p (bond_sep st bn bd)) (seq k m)) = Val ngb /\ length ngb = m /\
    forall a, (a < m)%nat -> exists ids, nth_error ngb a = Some ids /\ per_euclid_of st (k + a) (bond_sep st bn bd) = Val ids).
  { induction m as [|m IH]; intros k Hk; [exists []; split; auto; split; auto; intros; lia|].
    destruct (nth_error_ex (pts st) k) as [q Hq]; [lia|]. destruct (Hn k q Hq) as [ids [Ei _]]. destruct (IH (S k)) as [ngb [En [Ln Kn]]]; [lia|].
    exists (ids :: ngb). simpl. rewrite Ei. simpl. rewrite En. simpl. split; auto. split; auto. intros [|a] Ha.
    - exists ids. rewrite Nat.add_0_r. auto.
    - destruct (Kn a) as [ids' [H1 H2]]; [lia|]. exists ids'. split; auto. rewrite <- H2. f_equal. lia. }
  destruct (Hg (length (pts st)) 0%nat) as [ngb [En [Ln Kn]]]; [lia|]. exists ngb. split; auto. split; auto.
  assert (Hlink : forall i j, linked ngb i j <-> i <> j /\ exists p q p', nth_error (pts st) i = Some q /\ nth_error (pts st) j = Some p /\ image (pbb st) p p' /\ closer3 p' q (bond_sep st bn bd)).
  { intros i j. split.
    - intros [ids [Hi Hj]]. assert (Hlt : (i < length (pts st))%nat) by (apply nth_error_lt in Hi; lia). destruct (Kn i Hlt) as [ids' [H1 H2]]. assert (ids' = ids) by congruence. subst.
      destruct (nth_error_ex (pts st) i Hlt) as [q Hq]. destruct (Hn i q Hq) as [ids' [H4 [_ H5]]]. cbn [Nat.add] in H2. assert (ids' = ids) by congruence. subst.
      apply H5 in Hj. destruct Hj as [p [Hp [Hne [p' [H6 H7]]]]]. split; auto. exists p, q, p'. auto.
    - intros [Hne [p [q [p' [Hq [Hp [Him Hcl]]]]]]]. assert (Hlt : (i < length (pts st))%nat) by (apply nth_error_lt in Hq; auto). destruct (Kn i Hlt) as [ids [H1 H2]].
      exists ids. split; auto. destruct (Hn i q Hq) as [ids' [H4 [_ H5]]]. cbn [Nat.add] in H2. assert (ids' = ids) by congruence. subst. apply H5. exists p. split; auto. split; auto. eauto. }
  split; auto. intros i j. rewrite !Hlink. intros [Hne [p [q [p' [Hq [Hp [Him [Hr Hd]]]]]]]]. split; auto.
  destruct Hc as [ex [ey [ez [Hb [Wx [Wy Wz]]]]]]. destruct (pt_in st ex ey ez Hb Hin i q Hq) as [u [v [w [-> _]]]]. destruct (pt_in st ex ey ez Hb Hin j p Hp) as [x [y [z [-> _]]]].
  rewrite Hb in *. destruct Him as [a [b [d ->]]]. exists [u; v; w], [x; y; z], [u + (-a) * width ex; v + (-b) * width ey; w + (-d) * width ez].
  split; auto. split; auto. split; [exists (-a), (-b), (-d); auto|]. split; auto. cbn [dist2] in *. nia.
Qed.
Example C44_ngb_case : exists st, prun lib_config (new_particles ex_cell [(0, 10); (0, 10); (0, 10)] 1) [PIndex] = Some st /\
  per_ngb_list st 3 2 = Val [[1%nat]; [0%nat]; []; []].
Proof. eexists. split; vm_compute; reflexivity. Qed.
(** [selectInside] keeps everything, whatever the margin: there is no border. *)
Theorem C44_select_inside st : picks (pts st) (fun _ _ => True) (per_select_inside st).
Proof.
  split; [apply seq_ssorted|]. intros i. unfold per_select_inside. rewrite in_seq. split.
  - intros H. destruct (nth_error_ex (pts st) i) as [p Hp]; [lia|]. eauto.
  - intros [p [Hp _]]. apply nth_error_lt in Hp. lia.
Qed.

Print Assumptions C43_minimum_image. Print Assumptions C44_box. Print Assumptions C44_neighbours. Print Assumptions C44_ngb_list. Print Assumptions C44_select_inside.

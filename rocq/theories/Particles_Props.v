(** C31-C33, C35, C38-C40: searches in a set of particles. *)
Require Import ZArith List Bool Arith Lia Permutation Sorted.
Require Import Verif.Base Verif.SortU Verif.ListX Verif.Box_Model Verif.Box_Spec Verif.Box_Proofs Verif.RTree_Model Verif.RTree_Spec Verif.RTree_Heuristics
  Verif.Index_Model Verif.Index_Spec Verif.Index_Proofs Verif.Traj_Model Verif.Traj_Proofs Verif.Center_Model Verif.Center_Proofs Verif.Reconstructor_Proofs
  Verif.Particles_Model Verif.Particles_Spec Verif.Particles_Proofs.
Import ListNotations.

(** C31. *)
Section Searches.
  Variables (c : config) (st : particles) (t : rtree).
  Hypotheses (Hok : config_ok c) (H3 : dims c = 3) (Hpts : Forall point3 (pts st)) (Ht : pindex st = Some t) (Hi : index_of c (pts st) t).

  Lemma dims3 : Forall (fun p => length p = dims c) (pts st).
  Proof. eapply Forall_impl; [|exact Hpts]. intros p Hp. apply point3_length in Hp. congruence. Qed.
  Lemma nth_point3 i p : nth_error (pts st) i = Some p -> point3 p.
  Proof. intros H. rewrite Forall_forall in Hpts. eapply Hpts, nth_error_In; eauto. Qed.

  Lemma search3 q r skip : point3 q ->
    exists ids, keep_close st q r skip (rstar_query t (bounds q r)) = Val (map (fun i => (d_of (pts st) q i, i)) ids) /\
      picks (pts st) (fun i p => skip i = false /\ closer3 p q r) ids.
  Proof.
    intros Hq. destruct (search_spec c st q r skip Hok) with (t := t) as [ids [E [Hs Hin]]]; auto; [lia|apply dims3|apply point3_length in Hq; congruence|].
    exists ids. split; auto. split; auto. intros i. rewrite Hin. split.
    - intros [Hsk [p [Hp [Hr Hd]]]]. exists p. split; auto. split; auto. split; auto. rewrite <- sqdist_dist2; auto. eapply nth_point3; eauto.
    - intros [p [Hp [Hsk [Hr Hd]]]]. split; auto. exists p. split; auto. split; auto. rewrite sqdist_dist2; auto. eapply nth_point3; eauto.
  Qed.
  Lemma picks_ext P Q ids : (forall i p, nth_error (pts st) i = Some p -> (P i p <-> Q i p)) -> picks (pts st) P ids -> picks (pts st) Q ids.
  Proof. intros H [Hs Hin]. split; auto. intros i. rewrite Hin. split; intros [p [Hp HP]]; exists p; split; auto; apply (H i p); auto. Qed.
  Lemma map_snd_d q ids : map snd (map (fun i => (d_of (pts st) q i, i)) ids) = ids.
  Proof. rewrite map_map. simpl. apply map_id. Qed.

  Lemma euclid_spec q r : point3 q -> exists ids, euclid st q r = Val ids /\ picks (pts st) (fun _ p => closer3 p q r) ids.
  Proof.
    intros Hq. destruct (search3 q r (fun _ => false) Hq) as [ids [E Hp]]. exists ids. unfold euclid, select_enclosed. rewrite Ht. simpl. rewrite E. simpl.
    rewrite map_snd_d. split; auto. eapply picks_ext; [|exact Hp]. intros; simpl; tauto.
  Qed.
  Lemma euclid_of_spec i q r : nth_error (pts st) i = Some q ->
    exists ids, euclid_of st i r = Val ids /\ picks (pts st) (fun j p => j <> i /\ closer3 p q r) ids.
  Proof.
    intros Hq. assert (Hq3 := nth_point3 _ _ Hq). destruct (search3 q r (fun j => j =? i) Hq3) as [ids [E Hp]]. exists ids.
    unfold euclid_of, select_enclosed. rewrite Hq, Ht. simpl. rewrite E. simpl. rewrite map_snd_d. split; auto. eapply picks_ext; [|exact Hp].
    intros j p _. simpl. rewrite Nat.eqb_neq. tauto.
  Qed.
  Lemma by_dist_spec q r : point3 q -> exists res, euclid_by_dist st q r = Val res /\ StronglySorted (fun x y => (fst x <= fst y)%Z) res /\ NoDup (map snd res) /\
    forall d i, In (d, i) res <-> exists p, nth_error (pts st) i = Some p /\ closer3 p q r /\ d = dist2 p q.
  Proof.
    intros Hq. destruct (search3 q r (fun _ => false) Hq) as [ids [E [Hs Hin]]]. unfold euclid_by_dist, select_enclosed. rewrite Ht. simpl. rewrite E. simpl.
    eexists. split; [reflexivity|]. split; [apply (sort_Z_sorted fst)|]. split.
    - eapply Permutation_NoDup; [apply Permutation_map, Permutation_sym, sort_by_perm|]. rewrite map_snd_d. apply ssorted_NoDup; auto.
    - intros d i. rewrite sort_by_in, in_map_iff. split.
      + intros [j [H Hj]]. injection H as <- <-. apply Hin in Hj. destruct Hj as [p [Hp [_ Hc]]]. exists p. split; auto. split; auto.
        unfold d_of. rewrite Hp. apply sqdist_dist2; auto. eapply nth_point3; eauto.
      + intros [p [Hp [Hc ->]]]. exists i. split; [|apply Hin; eauto]. unfold d_of. rewrite Hp. f_equal. apply sqdist_dist2; auto. eapply nth_point3; eauto.
  Qed.
End Searches.

Theorem C31_neighbours c l bb r ops : config_ok c -> dims c = 3 -> Forall point3 l -> Forall pop_ok ops -> indexed ops = true ->
  exists st, prun c (new_particles l bb r) ops = Some st /\
    forall range,
      (forall q, point3 q -> exists ids, euclid st q range = Val ids /\ picks (positions l ops) (fun _ p => closer3 p q range) ids) /\
      (forall i q, nth_error (positions l ops) i = Some q ->
         exists ids, euclid_of st i range = Val ids /\ picks (positions l ops) (fun j p => j <> i /\ closer3 p q range) ids) /\
      (forall q, point3 q -> exists res, euclid_by_dist st q range = Val res /\ StronglySorted (fun x y => (fst x <= fst y)%Z) res /\ NoDup (map snd res) /\
         forall d i, In (d, i) res <-> exists p, nth_error (positions l ops) i = Some p /\ closer3 p q range /\ d = dist2 p q).
Proof.
  intros Hok H3 Hl Ho Hx. destruct (history_ok c l bb r ops Hok H3 Hl Ho) as [st [E [Hm [Hp Hi]]]]. destruct (Hi Hx) as [t [Ht Hit]].
  exists st. split; auto. intros range. rewrite <- Hm. split; [|split].
  - intros q Hq. eapply euclid_spec; eauto.
  - intros i q Hq. eapply euclid_of_spec; eauto.
  - intros q Hq. eapply by_dist_spec; eauto.
Qed.
Definition ex_ops : list pop := [PIndex; PPush [5; 5; 5]; PShift [1; 0; 0]; PPush [1; 1; 2]]%Z.
Example C31_case : config_ok lib_config /\ dims lib_config = 3 /\ Forall point3 [[0; 0; 0]; [0; 3; 0]]%Z /\ Forall pop_ok ex_ops /\ indexed ex_ops = true /\
  positions [[0; 0; 0]; [0; 3; 0]]%Z ex_ops = [[1; 0; 0]; [1; 3; 0]; [6; 5; 5]; [1; 1; 2]]%Z /\
  exists st, prun lib_config (new_particles [[0; 0; 0]; [0; 3; 0]]%Z [] 1) ex_ops = Some st /\ euclid st [1; 1; 0]%Z 3 = Val [0; 1; 3].
Proof.
  split; [apply lib_config_ok|]. split; [reflexivity|]. split; [repeat constructor; repeat eexists|]. split; [repeat constructor; repeat eexists|].
  split; [reflexivity|]. split; [reflexivity|]. eexists. split; vm_compute; reflexivity.
Qed.

(** After a change of scale the index has been left behind. *)
Theorem C31_after_rescaling_refuted : exists l ops q range st, Forall point3 l /\ Forall pop_ok ops /\ point3 q /\
  prun lib_config (new_particles l [] 1) ops = Some st /\ hd PIndex ops = PIndex /\
  closer3 (nth 0 (positions l ops) []) q range /\ euclid st q range = Val [].
Proof.
  exists [[4; 4; 4]]%Z, [PIndex; PScale [10; 10; 10]]%Z, [40; 40; 41]%Z, 5%Z. eexists. split; [repeat constructor; repeat eexists|]. split; [repeat constructor; repeat eexists|].
  split; [repeat eexists|]. split; [vm_compute; reflexivity|]. split; [reflexivity|]. split; [vm_compute; auto|vm_compute; reflexivity].
Qed.
(** Without index the searches throw. *)
Theorem C31_no_index_throws st q range : pindex st = None -> euclid st q range = Throw /\ euclid_by_dist st q range = Throw.
Proof. intros H. unfold euclid, euclid_by_dist, select_enclosed. rewrite H. auto. Qed.

(** C32. *)
Lemma closest_spec st q : forall l m best, (forall i, In i l -> i < length (pts st)) -> StronglySorted lt l ->
  exists i, closest st q l m best = Val i /\
    ((i = best /\ forall j, In j l -> (m <= d_of (pts st) q j)%Z) \/
     (In i l /\ (d_of (pts st) q i < m)%Z /\ forall j, In j l -> (d_of (pts st) q i <= d_of (pts st) q j)%Z /\ (d_of (pts st) q j = d_of (pts st) q i -> i <= j))).
Proof.
  induction l as [|a l IH]; intros m best Hv Hs; [exists best; split; auto; left; split; auto; intros j []|].
  inversion Hs as [|? ? Hs' Hf]; subst. rewrite Forall_forall in Hf. cbn [closest]. destruct (nth_error_ex (pts st) a) as [p Hp]; [apply Hv; simpl; auto|].
  unfold sq_to. rewrite Hp. assert (Hd : d_of (pts st) q a = sqdist p q) by (unfold d_of; rewrite Hp; auto). rewrite <- Hd.
  destruct (Z.ltb_spec (d_of (pts st) q a) m) as [Hlt|Hge].
  - destruct (IH (d_of (pts st) q a) a) as [i [E [[-> H]|[Hin [H1 H2]]]]]; auto; [intros; apply Hv; simpl; auto| |]; rewrite E.
    + exists a. split; auto. right. split; [simpl; auto|]. split; auto. intros j [<-|Hj]; [split; auto; lia|]. split; [auto|]. intros _. specialize (Hf j Hj). lia.
    + exists i. split; auto. right. split; [simpl; auto|]. split; [lia|]. intros j [<-|Hj]; [split; lia|auto].
  - destruct (IH m best) as [i [E [[-> H]|[Hin [H1 H2]]]]]; auto; [intros; apply Hv; simpl; auto| |]; rewrite E.
    + exists best. split; auto. left. split; auto. intros j [<-|Hj]; auto.
    + exists i. split; auto. right. split; [simpl; auto|]. split; auto. intros j [<-|Hj]; [split; lia|auto].
Qed.

(** The particle number i of the list is the closest to q, with the smallest number among equals. *)
Definition is_nearest (l : list (list Z)) (q : list Z) (i : nat) : Prop :=
  exists p, nth_error l i = Some p /\ forall j p', nth_error l j = Some p' -> (dist2 p q <= dist2 p' q)%Z /\ (dist2 p' q = dist2 p q -> i <= j).

Lemma nearest_found c st t q rg ids grow fuel : config_ok c -> dims c = 3 -> Forall point3 (pts st) -> pindex st = Some t -> index_of c (pts st) t -> point3 q ->
  euclid st q rg = Val ids -> ids <> [] -> exists i, nearest grow (S fuel) st q rg = Some (Val i) /\ is_nearest (pts st) q i.
Proof.
  intros Hok H3 Hp Ht Hi Hq E Hne. destruct (euclid_spec c st t Hok H3 Hp Ht Hi q rg Hq) as [ids' [E' [Hs Hin]]]. rewrite E in E'. injection E' as <-.
  assert (Hmin : forall i p, In i ids -> nth_error (pts st) i = Some p -> 
    (forall j p', In j ids -> nth_error (pts st) j = Some p' -> (dist2 p q <= dist2 p' q)%Z /\ (dist2 p' q = dist2 p q -> i <= j)) -> is_nearest (pts st) q i).
  { intros i p Hii Hip Hm. exists p. split; auto. intros j p' Hj. destruct (in_dec Nat.eq_dec j ids) as [Hji|Hji]; [eauto|].
    apply Hin in Hii. destruct Hii as [p2 [Hp2 [Hr Hd]]]. assert (p2 = p) by congruence. subst p2.
    assert (rg * rg <= dist2 p' q)%Z; [|split; lia]. apply Z.nlt_ge. intros Hlt. apply Hji. apply Hin. exists p'. split; auto. split; auto. }
  cbn [nearest]. rewrite E. destruct ids as [|a [|b ids]]; [congruence| |].
  - exists a. split; auto. destruct (proj1 (Hin a) (or_introl eq_refl)) as [p [Hpa _]]. apply (Hmin a p); simpl; auto.
    intros j p' [<-|[]] Hj. rewrite Hpa in Hj. injection Hj as <-. split; lia.
  - remember (a :: b :: ids) as l eqn:El. assert (Hv : forall i, In i l -> i < length (pts st)).
    { intros i H. apply Hin in H. destruct H as [p [H _]]. eapply nth_error_lt; eauto. }
    destruct (closest_spec st q l (rg * rg)%Z (length (pts st)) Hv Hs) as [i [Ec Hc]]. exists i. rewrite Ec. split; auto.
    assert (Hdd : forall j p, nth_error (pts st) j = Some p -> d_of (pts st) q j = dist2 p q).
    { intros j p Hj. unfold d_of. rewrite Hj. apply sqdist_dist2; auto. eapply nth_point3; eauto. }
    destruct Hc as [[_ Hc]|[Hil [_ Hc]]].
    + exfalso. assert (Ha : In a l) by (subst; simpl; auto). specialize (Hc a Ha). apply Hin in Ha. destruct Ha as [p [Hpa [_ Hd]]]. rewrite (Hdd a p Hpa) in Hc. lia.
    + destruct (proj1 (Hin i) Hil) as [p [Hpi _]]. apply (Hmin i p); auto. intros j p' Hj Hpj. specialize (Hc j Hj). rewrite (Hdd _ _ Hpi), (Hdd _ _ Hpj) in Hc. auto.
Qed.

Theorem C32_nearest c l bb r ops : config_ok c -> dims c = 3 -> Forall point3 l -> Forall pop_ok ops -> indexed ops = true -> positions l ops <> [] ->
  exists st, prun c (new_particles l bb r) ops = Some st /\
    forall grow q range, (forall x, (0 < x)%Z -> (x < grow x)%Z) -> point3 q -> (0 < range)%Z ->
      exists n, forall fuel, n <= fuel -> exists i, nearest grow fuel st q range = Some (Val i) /\ is_nearest (positions l ops) q i.
Proof.
  intros Hok H3 Hl Ho Hx Hne. destruct (history_ok c l bb r ops Hok H3 Hl Ho) as [st [E [Hm [Hp Hi]]]]. destruct (Hi Hx) as [t [Ht Hit]].
  exists st. split; auto. intros grow q range Hg Hq Hr. rewrite <- Hm in *. clear Hm E.
  assert (H0 : exists p0, nth_error (pts st) 0 = Some p0) by (destruct (pts st) as [|p0 ?]; [congruence|exists p0; auto]). destruct H0 as [p0 Hp0].
  pose (D := dist2 p0 q). assert (HD : (0 <= D)%Z) by (unfold D; rewrite <- sqdist_dist2; auto; [apply sqdist_nonneg|eapply nth_point3; eauto]).
  assert (Hmain : forall n rg, (0 < rg)%Z -> (D < rg + Z.of_nat n)%Z -> forall fuel, S n <= fuel -> exists i, nearest grow fuel st q rg = Some (Val i) /\ is_nearest (pts st) q i).
  { induction n as [|n IH]; intros rg Hrg Hn [|fuel] Hf; try lia; destruct (euclid_spec c st t Hok H3 Hp Ht Hit q rg Hq) as [ids [Ei [Hs Hin]]].
    - eapply nearest_found; eauto. intros ->. apply (proj2 (Hin 0)). exists p0. split; auto. split; auto. fold D. nia.
    - destruct ids as [|a ids].
      + cbn [nearest]. rewrite Ei. apply IH; [specialize (Hg rg Hrg); lia|specialize (Hg rg Hrg); lia|lia].
      + eapply nearest_found; eauto. discriminate. }
  exists (S (Z.to_nat D)). intros fuel Hf. apply (Hmain (Z.to_nat D)); auto. lia.
Qed.
(** It runs for ever on an empty set, and for a range that is not positive. *)
Theorem C32_diverges c l bb r ops : config_ok c -> dims c = 3 -> Forall point3 l -> Forall pop_ok ops -> indexed ops = true ->
  exists st, prun c (new_particles l bb r) ops = Some st /\
    forall grow q range, point3 q -> positions l ops = [] \/ ((range <= 0)%Z /\ forall x, (x <= 0)%Z -> (grow x <= 0)%Z) ->
      forall fuel, nearest grow fuel st q range = None.
Proof.
  intros Hok H3 Hl Ho Hx. destruct (history_ok c l bb r ops Hok H3 Hl Ho) as [st [E [Hm [Hp Hi]]]]. destruct (Hi Hx) as [t [Ht Hit]].
  exists st. split; auto. intros grow q range Hq Hc fuel. rewrite <- Hm in Hc. revert range Hc. induction fuel as [|fuel IH]; intros rg Hc; auto.
  cbn [nearest]. destruct (euclid_spec c st t Hok H3 Hp Ht Hit q rg Hq) as [ids [Ei [Hs Hin]]]. destruct ids as [|a ids].
  - rewrite Ei. apply IH. destruct Hc as [Hc|[Hc Hg]]; auto.
  - exfalso. destruct (proj1 (Hin a) (or_introl eq_refl)) as [p [Hpa [Hr _]]]. destruct Hc as [Hc|[Hc _]]; [|lia]. rewrite Hc in Hpa. destruct a; discriminate.
Qed.
(** Multiplying by 1.1 and rounding up to the unit. *)
Definition times_1_1 (x : Z) : Z := ((11 * x + 9) / 10)%Z.
Lemma times_1_1_grows x : (0 < x)%Z -> (x < times_1_1 x)%Z.
Proof. intros H. unfold times_1_1. apply Z.lt_le_trans with (x + 1)%Z; [lia|]. apply Z.div_le_lower_bound; lia. Qed.
Example C32_case : (forall x, (0 < x)%Z -> (x < times_1_1 x)%Z) /\ positions [[0; 0; 0]; [0; 3; 0]]%Z ex_ops <> [] /\
  exists st, prun lib_config (new_particles [[0; 0; 0]; [0; 3; 0]]%Z [] 1) ex_ops = Some st /\ nearest times_1_1 9 st [7; 5; 1]%Z 1 = Some (Val 2).
Proof. split; [apply times_1_1_grows|]. split; [discriminate|]. eexists. split; vm_compute; reflexivity. Qed.

(** C33. *)
Lemma osequence_ok {A} (P : nat -> A -> Prop) : forall l k, (forall j i, nth_error l j = Some i -> exists a, i = Val a /\ P (k + j) a) ->
  exists r, osequence l = Val r /\ length r = length l /\ forall j a, nth_error r j = Some a -> P (k + j) a.
Proof.
  induction l as [|o l IH]; intros k H; [exists []; simpl; repeat split; auto; intros [|j] a; discriminate|].
  destruct (H 0 o eq_refl) as [a [-> Pa]]. destruct (IH (S k)) as [r [E [L K]]].
  { intros j i Hj. destruct (H (S j) i Hj) as [b [-> Pb]]. exists b. split; auto. replace (S k + j) with (k + S j) by lia. auto. }
  exists (a :: r). simpl. rewrite E. simpl. split; auto. split; auto. intros [|j] b Hb; simpl in Hb; [injection Hb as <-; auto|].
  replace (k + S j) with (S k + j) by lia. auto.
Qed.
Lemma dist2_sym a b : dist2 a b = dist2 b a.
Proof. destruct a as [|x [|y [|z [|]]]], b as [|x' [|y' [|z' [|]]]]; simpl; auto. lia. Qed.
Theorem C33_ngb_list c l bb r ops bn bd : config_ok c -> dims c = 3 -> Forall point3 l -> Forall pop_ok ops -> indexed ops = true ->
  exists st ngb, prun c (new_particles l bb r) ops = Some st /\ make_ngb_list st bn bd = Val ngb /\ length ngb = length (positions l ops) /\
    let sep := (2 * bn * pradius st / bd)%Z in
    (forall i ids, nth_error ngb i = Some ids -> StronglySorted lt ids) /\
    (forall i j, linked ngb i j <-> exists p q, nth_error (positions l ops) i = Some p /\ nth_error (positions l ops) j = Some q /\ i <> j /\ closer3 p q sep) /\
    (forall i j, linked ngb i j <-> linked ngb j i).
Proof.
  intros Hok H3 Hl Ho Hx. destruct (history_ok c l bb r ops Hok H3 Hl Ho) as [st [E [Hm [Hp Hi]]]]. destruct (Hi Hx) as [t [Ht Hit]].
  destruct (osequence_ok (fun i ids => exists q, nth_error (pts st) i = Some q /\ picks (pts st) (fun j p => j <> i /\ closer3 p q (bond_sep st bn bd)) ids)
    (map (fun p => euclid_of st p (bond_sep st bn bd)) (seq 0 (length (pts st)))) 0) as [ngb [En [Hlen Hk]]].
  { intros j o Hj. rewrite nth_error_map in Hj. destruct (nth_error (seq 0 (length (pts st))) j) as [i|] eqn:Ej; [|discriminate].
    pose proof (nth_error_lt _ _ _ Ej) as Hlt. rewrite seq_length in Hlt. rewrite nth_error_seq in Ej by auto. injection Ej as <-. injection Hj as <-. simpl.
    destruct (nth_error_ex (pts st) j Hlt) as [q Hq]. destruct (euclid_of_spec c st t Hok H3 Hp Ht Hit j q (bond_sep st bn bd) Hq) as [ids [Ei Hids]]. eauto. }
  exists st, ngb. split; auto. split; auto. rewrite map_length, seq_length in Hlen. rewrite <- Hm. split; auto. cbv zeta. fold (bond_sep st bn bd).
  assert (Hlink : forall i j, linked ngb i j <-> exists p q, nth_error (pts st) i = Some p /\ nth_error (pts st) j = Some q /\ i <> j /\ closer3 p q (bond_sep st bn bd)).
  { intros i j. split.
    - intros [ids [Hids Hj]]. destruct (Hk i ids Hids) as [q [Hq [_ Hin]]]. apply Hin in Hj. destruct Hj as [p [Hpj [Hne [H1 H2]]]].
      exists q, p. repeat split; auto. rewrite dist2_sym. auto.
    - intros [p [q [Hpi [Hqj [Hne [H1 H2]]]]]]. destruct (nth_error_ex ngb i) as [ids Hids]; [rewrite Hlen; eapply nth_error_lt; eauto|].
      exists ids. split; auto. destruct (Hk i ids Hids) as [p' [Hp' [_ Hin]]]. simpl in Hp'. assert (p' = p) by congruence. subst p'. apply Hin. exists q. repeat split; auto.
      rewrite dist2_sym. auto. }
  split; [|split; auto].
  - intros i ids H. destruct (Hk i ids H) as [q [_ [Hs _]]]. auto.
  - intros i j. rewrite !Hlink. split; intros [p [q [H1 [H2 [H4 [H5 H6]]]]]]; exists q, p; repeat split; auto; rewrite dist2_sym; auto.
Qed.
(** The radius in it is the one given at the start, multiplied by the factors of all operator*=(double) since. *)
Theorem C33_radius c l bb r ops st : prun c (new_particles l bb r) ops = Some st ->
  pradius st = fold_left (fun a o => match o with PScaleAll m => a * m | _ => a end)%Z ops r.
Proof.
  change r with (pradius (new_particles l bb r)) at 2. generalize (new_particles l bb r). induction ops as [|o ops IH]; intros s0 E; cbn [prun fold_left] in *; [injection E as <-; reflexivity|].
  destruct (pstep c s0 o) as [s1|] eqn:E1; [|discriminate]. rewrite (IH s1 E). f_equal. destruct o; cbn [pstep] in E1.
  - unfold make_index in E1. destruct (rstar_build c _); [|discriminate]. injection E1 as <-. reflexivity.
  - unfold push_back in E1. destruct (pindex s0) as [t|]; [destruct (rstar_insert c t _ _); [|discriminate]|]; injection E1 as <-; reflexivity.
  - injection E1 as <-. reflexivity.
  - injection E1 as <-. reflexivity.
  - injection E1 as <-. reflexivity.
Qed.
(** Multiplying the coordinates keeps the lower edges of the box of the particles and multiplies the upper ones. *)
Theorem C33_box_scaled st v k lo hi x : nth_error (pbb st) k = Some (lo, hi) -> nth_error v k = Some x -> nth_error (pbb (rescale st v)) k = Some (lo, (hi * x)%Z).
Proof.
  cbn [rescale pbb]. generalize (pbb st). revert k. induction v as [|y v IH]; intros k b Hb Hv; [destruct k; discriminate|].
  destruct b as [|e b]; [destruct k; discriminate|]. destruct k as [|k]; cbn in *; [injection Hb as ->; injection Hv as ->; reflexivity|]. apply IH; auto.
Qed.
Example C33_box_case : pbb (rescale (new_particles [] [(1, 2); (3, 4); (5, 6)]%Z 1) [2; 2; 3]%Z) = [(1, 4); (3, 8); (5, 18)]%Z.
Proof. reflexivity. Qed.
Example C33_case : exists st, prun lib_config (new_particles [[0; 0; 0]; [0; 3; 0]]%Z [] 1) ex_ops = Some st /\ make_ngb_list st 3 2 = Val [[3]; [3]; []; [0; 1]].
Proof. eexists. split; vm_compute; reflexivity. Qed.

(** C35.  [kept flags l]: the elements of l whose flag is set, in order. *)
Definition kept {A} (flags : list bool) (l : list A) : list A := map snd (filter fst (combine flags l)).
(** First come, first served: a particle is dropped when it is closer than sep to an earlier kept one. *)
Definition first_served (sep : Z) (l : list (list Z)) (flags : list bool) : Prop :=
  length flags = length l /\
  forall k p, nth_error l k = Some p ->
    (nth_error flags k = Some false <-> exists j q, j < k /\ nth_error flags j = Some true /\ nth_error l j = Some q /\ closer3 p q sep).

Lemma combine_app_x {A B} : forall (a : list A) (b : list B) a' b', length a = length b -> combine (a ++ a') (b ++ b') = combine a b ++ combine a' b'.
Proof. induction a as [|x a IH]; intros [|y b] a' b' H; try discriminate; simpl; auto. f_equal. apply IH. simpl in H. lia. Qed.
Lemma kept_snoc {A} (flags : list bool) (l : list A) b x : length flags = length l -> kept (flags ++ [b]) (l ++ [x]) = kept flags l ++ (if b then [x] else []).
Proof. intros H. unfold kept. rewrite combine_app_x by auto. rewrite filter_app, map_app. simpl. destruct b; auto. Qed.
Lemma in_kept {A} : forall (flags : list bool) (l : list A) q, length flags = length l ->
  (In q (kept flags l) <-> exists j, nth_error flags j = Some true /\ nth_error l j = Some q).
Proof.
  intros flags l q H. unfold kept. rewrite in_map_iff. split.
  - intros [[b x] [Hx Hin]]. simpl in Hx. subst x. apply filter_In in Hin. destruct Hin as [Hin Hb]. simpl in Hb. subst b.
    apply In_nth_error in Hin. destruct Hin as [j Hj]. apply combine_nth_error in Hj. eauto.
  - intros [j [H1 H2]]. exists (true, q). split; auto. apply filter_In. split; auto. apply nth_error_In with j. apply combine_nth_error. auto.
Qed.

Lemma cut_loop_spec c sep : config_ok c -> dims c = 3 -> forall todo done flags out, Forall point3 (done ++ todo) ->
  first_served sep done flags -> pts out = kept flags done -> (exists t, pindex out = Some t /\ index_of c (pts out) t) -> Forall point3 (pts out) ->
  exists out' flags', cut_loop c sep todo out = Val out' /\ first_served sep (done ++ todo) flags' /\ pts out' = kept flags' (done ++ todo) /\
    (exists t, pindex out' = Some t /\ index_of c (pts out') t) /\ Forall point3 (pts out').
Proof.
  intros Hok H3. induction todo as [|p todo IH]; intros done flags out Hf Hfs Hout Hidx Hp3.
  - exists out, flags. rewrite app_nil_r. auto.
  - cbn [cut_loop]. destruct Hidx as [t [Ht Hi]].
    assert (Hp : point3 p). { rewrite Forall_forall in Hf. apply Hf, in_or_app. simpl; auto. }
    destruct (euclid_spec c out t Hok H3 Hp3 Ht Hi p sep Hp) as [ids [E [_ Hin]]]. rewrite E. destruct Hfs as [Hlf Hfs].
    assert (Hids : (exists i, In i ids) <-> exists j q, nth_error flags j = Some true /\ nth_error done j = Some q /\ closer3 p q sep).
    { split.
      - intros [i Hi']. apply Hin in Hi'. destruct Hi' as [q [Hq [Hs Hd]]]. rewrite Hout in Hq. apply nth_error_In in Hq. apply in_kept in Hq; auto.
        destruct Hq as [j [Hj1 Hj2]]. exists j, q. repeat split; auto. rewrite dist2_sym. auto.
      - intros [j [q [Hj1 [Hj2 [Hs Hd]]]]]. assert (Hq : In q (pts out)) by (rewrite Hout; apply in_kept; eauto). apply In_nth_error in Hq. destruct Hq as [i Hq].
        exists i. apply Hin. exists q. repeat split; auto. rewrite dist2_sym. auto. }
    assert (Hstep : forall b, (b = false <-> exists i, In i ids) -> first_served sep (done ++ [p]) (flags ++ [b])).
    { intros b Hb. split; [rewrite !app_length; simpl; lia|]. intros k p' Hk. rewrite nth_error_snoc in Hk. rewrite nth_error_snoc. rewrite Hlf.
      destruct (Nat.eqb_spec k (length done)) as [->|Hne].
      - injection Hk as <-. split.
        + intros H. injection H as ->. destruct (proj1 Hids (proj1 Hb eq_refl)) as [j [q [H1 [H2 H4]]]]. pose proof (nth_error_lt _ _ _ H2). exists j, q.
          rewrite !nth_error_app1 by lia. auto.
        + intros [j [q [Hj [H1 [H2 H4]]]]]. f_equal. apply Hb, Hids. rewrite nth_error_app1 in H1 by lia. rewrite nth_error_app1 in H2 by lia. eauto.
      - rewrite (Hfs k p' Hk). pose proof (nth_error_lt _ _ _ Hk). split; intros [j [q [Hj HH]]]; exists j, q; split; auto;
          [rewrite !nth_error_app1 by lia|rewrite !nth_error_app1 in HH by lia]; auto. }
    assert (Happ : done ++ p :: todo = (done ++ [p]) ++ todo) by (rewrite <- app_assoc; auto). rewrite Happ in *.
    destruct ids as [|a ids].
    + unfold push_back. rewrite Ht. destruct (index_push c (pts out) t p Hok Hi) as [t' [E' Hi']]; [apply point3_length in Hp; congruence|]. rewrite E'.
      apply (IH (done ++ [p]) (flags ++ [true])); auto.
      * apply Hstep. split; [discriminate|intros [i []]].
      * rewrite kept_snoc by auto. simpl. congruence.
      * exists t'. auto.
      * simpl. apply Forall_app. auto.
    + apply (IH (done ++ [p]) (flags ++ [false])); auto.
      * apply Hstep. split; auto. intros _. exists a. simpl; auto.
      * rewrite kept_snoc by auto. rewrite app_nil_r. auto.
      * eauto.
Qed.

Theorem C35_cut c one st sep : config_ok c -> dims c = 3 -> Forall point3 (pts st) ->
  exists out flags, cut c one st sep = Val out /\ first_served sep (pts st) flags /\ pts out = kept flags (pts st) /\
    forall q range, point3 q -> exists ids, euclid out q range = Val ids /\ picks (pts out) (fun _ p => closer3 p q range) ids.
Proof.
  intros Hok H3 Hp. destruct (cut_loop_spec c sep Hok H3 (pts st) [] [] (mkParticles [] (Some empty_tree) (pbb st) one)) as [out [flags [E [Hfs [Hk [[t [Ht Hi]] Hp3]]]]]]; simpl; auto.
  - split; auto. intros [|k] p; discriminate.
  - exists empty_tree. split; auto. apply index_empty.
  - exists out, flags. repeat split; auto; try apply Hfs; auto. intros q range Hq. eapply euclid_spec; eauto.
Qed.
(** Consequences in the words of the documentation: no two kept particles are closer than sep, and every particle is kept or closer than sep to a kept one. *)
Theorem C35_separated sep l flags : first_served sep l flags -> 
  (forall j k p q, nth_error flags j = Some true -> nth_error flags k = Some true -> nth_error l j = Some p -> nth_error l k = Some q -> j <> k -> ~ closer3 p q sep) /\
  (forall p, In p l -> In p (kept flags l) \/ exists q, In q (kept flags l) /\ closer3 p q sep).
Proof.
  intros [Hl H]. split.
  - assert (Hlt : forall j k p q, nth_error flags j = Some true -> nth_error flags k = Some true -> nth_error l j = Some p -> nth_error l k = Some q -> j < k -> ~ closer3 p q sep).
    { intros j k p q H1 H2 H4 H5 Hjk [Hs Hd]. assert (nth_error flags k = Some false); [|congruence]. apply (H k q H5). exists j, p. repeat split; auto. rewrite dist2_sym; auto. }
    intros j k p q H1 H2 H4 H5 Hne Hc. destruct (Nat.lt_trichotomy j k) as [Hj|[Hj|Hj]]; [eapply (Hlt j k p q); eauto|contradiction|].
    destruct Hc as [Hs Hd]. eapply (Hlt k j q p); eauto. split; auto. rewrite dist2_sym; auto.
  - intros p Hp. apply In_nth_error in Hp. destruct Hp as [k Hk]. destruct (nth_error_ex flags k) as [b Hb]; [rewrite Hl; eapply nth_error_lt; eauto|].
    destruct b; [left; apply in_kept; eauto|right]. apply (H k p Hk) in Hb. destruct Hb as [j [q [_ [H1 [H2 Hc]]]]]. exists q. split; auto. apply in_kept; eauto.
Qed.

Lemma far_apart_spec c st t sep : config_ok c -> dims c = 3 -> Forall point3 (pts st) -> pindex st = Some t -> index_of c (pts st) t ->
  forall l, (forall i p, In (i, p) l -> nth_error (pts st) i = Some p) ->
  exists flags, far_apart st sep l = Val (kept flags (map snd l)) /\ length flags = length l /\
    forall k i p, nth_error l k = Some (i, p) ->
      (nth_error flags k = Some true <-> forall j q, j <> i -> nth_error (pts st) j = Some q -> ~ closer3 q p sep).
Proof.
  intros Hok H3 Hp Ht Hi. induction l as [|[i p] l IH]; intros Hl.
  - exists []. repeat split; auto; intros; destruct k; discriminate.
  - destruct IH as [flags [E [L K]]]; [intros; apply Hl; simpl; auto|]. assert (Hpi : nth_error (pts st) i = Some p) by (apply Hl; simpl; auto).
    destruct (euclid_of_spec c st t Hok H3 Hp Ht Hi i p sep Hpi) as [ids [Ei [_ Hin]]].
    exists ((match ids with [] => true | _ => false end) :: flags). cbn [far_apart]. rewrite Ei. simpl. rewrite E. simpl. split; [|split; auto].
    + unfold kept. simpl. destruct ids; auto.
    + intros [|k] i' p' Hk; simpl in Hk; [injection Hk as <- <-|simpl; eauto]. simpl. destruct ids as [|a ids].
      * split; auto. intros _ j q Hne Hj Hc. apply (proj2 (Hin j)). eauto.
      * split; [discriminate|]. intros H. exfalso. destruct (proj1 (Hin a) (or_introl eq_refl)) as [q [Hq [Hne Hc]]]. eapply H; eauto.
Qed.
Theorem C35_remove_short_range c l bb r ops one sep : config_ok c -> dims c = 3 -> Forall point3 l -> Forall pop_ok ops -> indexed ops = true ->
  exists st out flags, prun c (new_particles l bb r) ops = Some st /\ remove_short_range one st sep = Val out /\ pindex out = None /\
    length flags = length (positions l ops) /\ pts out = kept flags (positions l ops) /\
    forall k p, nth_error (positions l ops) k = Some p ->
      (nth_error flags k = Some true <-> forall j q, j <> k -> nth_error (positions l ops) j = Some q -> ~ closer3 q p sep).
Proof.
  intros Hok H3 Hl Ho Hx. destruct (history_ok c l bb r ops Hok H3 Hl Ho) as [st [E [Hm [Hp Hi]]]]. destruct (Hi Hx) as [t [Ht Hit]].
  destruct (far_apart_spec c st t sep Hok H3 Hp Ht Hit (combine (seq 0 (length (pts st))) (pts st))) as [flags [Ef [L K]]].
  { intros i p H. apply in_combine_seq in H. auto. }
  rewrite map_snd_combine in Ef by apply seq_length. exists st. eexists. exists flags. split; auto. unfold remove_short_range. rewrite Ht, Ef. simpl. split; [reflexivity|]. simpl.
  split; auto. rewrite <- Hm. rewrite combine_length, seq_length, Nat.min_id in L. repeat split; auto; apply (K k k p); apply combine_nth_error; (split; auto; rewrite nth_error_seq; auto; eapply nth_error_lt; eauto).
Qed.
Definition ex_row : list (list Z) := [[0; 0; 0]; [2; 0; 0]; [4; 0; 0]; [9; 0; 0]]%Z.
Example C35_case : Forall point3 ex_row /\ (exists out, cut lib_config 1 (new_particles ex_row [] 1) 3 = Val out /\ pts out = [[0; 0; 0]; [4; 0; 0]; [9; 0; 0]]%Z) /\
  exists st out, prun lib_config (new_particles ex_row [] 1) [PIndex] = Some st /\ remove_short_range 1 st 3 = Val out /\ pts out = [[9; 0; 0]]%Z.
Proof. split; [repeat constructor; repeat eexists|]. split; [eexists; split; vm_compute; reflexivity|]. eexists. eexists. repeat split; vm_compute; reflexivity. Qed.

(** C38. *)
Definition coord (k : nat) (p : list Z) : Z := nth k p 0%Z.
Lemma fold_max_coord k : k < 3 -> forall l u, point3 u -> Forall point3 l ->
  point3 (fold_left vmax l u) /\ forall x, (x <= coord k (fold_left vmax l u) <-> x <= coord k u \/ exists q, In q l /\ x <= coord k q)%Z.
Proof.
  intros Hk. induction l as [|p l IH]; intros u Hu Hl; simpl.
  - split; auto. intros x. split; auto. intros [H|[q [[] _]]]; auto.
  - inversion Hl as [|? ? Hp Hl']; subst. assert (Hv : point3 (vmax u p) /\ coord k (vmax u p) = Z.max (coord k u) (coord k p)).
    { destruct Hu as [a [b [d ->]]], Hp as [a' [b' [d' ->]]]. split; [repeat eexists|]. destruct k as [|[|[|k]]]; try lia; reflexivity. }
    destruct Hv as [Hv Hc]. destruct (IH (vmax u p) Hv Hl') as [H1 H2]. split; auto. intros x. rewrite H2, Hc. split.
    + intros [H|[q [Hq H]]]; [|right; eauto]. destruct (Z.max_spec (coord k u) (coord k p)) as [[_ ->]|[_ ->]] in H; [right; exists p; auto|left; auto].
    + intros [H|[q [[<-|Hq] H]]]; [left; lia|left; lia|right; eauto].
Qed.
Lemma fold_min_coord k : k < 3 -> forall l u, point3 u -> Forall point3 l ->
  point3 (fold_left vmin l u) /\ forall x, (coord k (fold_left vmin l u) <= x <-> coord k u <= x \/ exists q, In q l /\ coord k q <= x)%Z.
Proof.
  intros Hk. induction l as [|p l IH]; intros u Hu Hl; simpl.
  - split; auto. intros x. split; auto. intros [H|[q [[] _]]]; auto.
  - inversion Hl as [|? ? Hp Hl']; subst. assert (Hv : point3 (vmin u p) /\ coord k (vmin u p) = Z.min (coord k u) (coord k p)).
    { destruct Hu as [a [b [d ->]]], Hp as [a' [b' [d' ->]]]. split; [repeat eexists|]. destruct k as [|[|[|k]]]; try lia; reflexivity. }
    destruct Hv as [Hv Hc]. destruct (IH (vmin u p) Hv Hl') as [H1 H2]. split; auto. intros x. rewrite H2, Hc. split.
    + intros [H|[q [Hq H]]]; [|right; eauto]. destruct (Z.min_spec (coord k u) (coord k p)) as [[_ ->]|[_ ->]] in H; [left; auto|right; exists p; auto].
    + intros [H|[q [[<-|Hq] H]]]; [left; lia|left; lia|right; eauto].
Qed.
(** The particle p is at least [margin] above the lowest particle along axis k, and below the highest one (or below 0). *)
Definition far_from_faces (l : list (list Z)) (margin : Z) (p : list Z) (k : nat) : Prop :=
  (exists q, In q l /\ coord k q + margin <= coord k p)%Z /\ ((exists q, In q l /\ coord k p <= coord k q - margin) \/ coord k p <= - margin)%Z.
Lemma all_le_spec p q : point3 p -> point3 q -> (all_le p q = true <-> (coord 0 p <= coord 0 q /\ coord 1 p <= coord 1 q /\ coord 2 p <= coord 2 q)%Z).
Proof. intros [a [b [d ->]]] [a' [b' [d' ->]]]. unfold all_le, coord. simpl. rewrite !andb_true_iff, !Z.leb_le. tauto. Qed.
Lemma add_first_coord n x p k : point3 p -> n <= 3 -> k < 3 -> coord k (add_first n x p) = (coord k p + if (k <? n)%nat then x else 0)%Z.
Proof.
  intros [a [b [d ->]]] Hn Hk. unfold coord. destruct n as [|[|[|[|n]]]]; try lia; destruct k as [|[|[|k]]]; try lia; simpl; lia.
Qed.
Lemma add_first_point3 n x p : point3 p -> point3 (add_first n x p).
Proof. intros [a [b [d ->]]]. destruct n as [|[|[|[|n]]]]; simpl; repeat eexists. Qed.
Theorem C38_inside_noindex st margin noz : pts st <> [] -> Forall point3 (pts st) ->
  exists ids, select_inside_noindex st margin noz = Some ids /\
    picks (pts st) (fun _ p => forall k, k < (if noz then 2 else 3) -> far_from_faces (pts st) margin p k) ids.
Proof.
  intros Hne Hl. unfold select_inside_noindex. destruct (pts st) as [|p0 rest] eqn:El; [congruence|]. rewrite <- El in *. clear Hne.
  assert (Hp0 : point3 p0 /\ In p0 (pts st)). { rewrite El in *. inversion Hl; simpl; auto. } destruct Hp0 as [Hp0 Hin0]. clear El rest.
  set (n := if noz then 2 else 3). assert (Hn : n <= 3) by (unfold n; destruct noz; lia).
  set (U := fold_left vmax (pts st) [0; 0; 0]%Z). set (L := fold_left vmin (pts st) p0).
  assert (Hz : point3 [0; 0; 0]%Z) by repeat eexists.
  assert (HU : forall k, k < 3 -> point3 U /\ forall x, (x <= coord k U <-> x <= 0 \/ exists q, In q (pts st) /\ x <= coord k q)%Z).
  { intros k Hk. destruct (fold_max_coord k Hk (pts st) [0; 0; 0]%Z Hz Hl) as [H1 H2]. split; auto. intros x. unfold U. rewrite H2.
    replace (coord k [0; 0; 0]%Z) with 0%Z by (destruct k as [|[|[|k]]]; [reflexivity|reflexivity|reflexivity|lia]). tauto. }
  assert (HL : forall k, k < 3 -> point3 L /\ forall x, (coord k L <= x <-> exists q, In q (pts st) /\ coord k q <= x)%Z).
  { intros k Hk. destruct (fold_min_coord k Hk (pts st) p0 Hp0 Hl) as [H1 H2]. split; auto. intros x. unfold L. rewrite H2. split; [|auto]. intros [H|H]; eauto. }
  assert (HUp : point3 U) by (apply (HU 0); lia). assert (HLp : point3 L) by (apply (HL 0); lia).
  assert (Hcond : forall p, In p (pts st) -> (all_le p (add_first n (- margin)%Z U) && all_le (add_first n margin L) p = true <-> forall k, k < n -> far_from_faces (pts st) margin p k)).
  { intros p Hin. assert (Hp : point3 p) by (rewrite Forall_forall in Hl; auto). rewrite andb_true_iff, !all_le_spec; auto using add_first_point3.
    rewrite !add_first_coord by (auto; lia).
    assert (HA : forall k, k < 3 -> ((coord k p <= coord k U + (if (k <? n)%nat then - margin else 0))%Z /\ (coord k L + (if (k <? n)%nat then margin else 0) <= coord k p)%Z <->
                (k < n -> far_from_faces (pts st) margin p k))).
    { intros k Hk. destruct (HU k Hk) as [_ HUk]. destruct (HL k Hk) as [_ HLk]. destruct (Nat.ltb_spec k n) as [Hkn|Hkn].
      - unfold far_from_faces. assert (E1 : (coord k p <= coord k U + - margin <-> coord k p + margin <= coord k U)%Z) by lia. rewrite E1, HUk.
        assert (E2 : (coord k L + margin <= coord k p <-> coord k L <= coord k p - margin)%Z) by lia. rewrite E2, HLk. split.
        + intros [H1 [q [Hq H2]]] _. split; [exists q; split; auto; lia|]. destruct H1 as [H1|[q' [Hq' H1]]]; [right; lia|left; exists q'; split; auto; lia].
        + intros H. destruct (H Hkn) as [[q [Hq H2]] H1]. split; [|exists q; split; auto; lia]. destruct H1 as [[q' [Hq' H1]]|H1]; [right; exists q'; split; auto; lia|left; lia].
      - rewrite !Z.add_0_r. split; [lia|]. intros _. split; [apply HUk; right; exists p; split; auto; lia|apply HLk; exists p; split; auto; lia]. }
    assert (A0 := HA 0 ltac:(lia)). assert (A1 := HA 1 ltac:(lia)). assert (A2 := HA 2 ltac:(lia)). clear HA. split.
    - intros [[B0 [B1 B2]] [B3 [B4 B5]]] k Hk. destruct k as [|[|[|k]]]; [apply A0|apply A1|apply A2|lia]; auto.
    - intros H. assert (B0 := proj2 A0 (H 0)). assert (B1 := proj2 A1 (H 1)). assert (B2 := proj2 A2 (H 2)). tauto. }
  eexists. split; [reflexivity|]. split.
  - assert (Hg : forall (f : nat * list Z -> bool) l s, StronglySorted lt (map fst (filter f (combine (seq s (length l)) l)))).
    { clear. intros f. induction l as [|p l IH]; intros s; simpl; [constructor|]. destruct (f (s, p)); simpl; auto. constructor; auto.
      apply Forall_forall. intros x Hx. apply in_map_iff in Hx. destruct Hx as [[i q] [<- Hx]]. apply filter_In in Hx. destruct Hx as [Hx _]. apply in_combine_l in Hx. apply in_seq in Hx. simpl. lia. }
    apply Hg.
  - intros i. rewrite in_map_iff. split.
    + intros [[j p] [Hj Hin]]. simpl in Hj. subst j. apply filter_In in Hin. destruct Hin as [Hin Hc]. apply in_combine_seq in Hin. exists p. split; auto.
      cbn [snd] in Hc. apply (proj1 (Hcond p (nth_error_In _ _ Hin)) Hc).
    + intros [p [Hp H]]. exists (i, p). split; auto. apply filter_In. split; [apply in_combine_seq; auto|]. cbn [snd]. apply (proj2 (Hcond p (nth_error_In _ _ Hp)) H).
Qed.
(** In image coordinates (no negative coordinate, margin positive or zero) these are the particles at least margin away from every face of the box of the particles. *)
Theorem C38_image_coordinates st margin noz : pts st <> [] -> Forall (fun p => point3 p /\ Forall (fun x => 0 <= x)%Z p) (pts st) -> (0 <= margin)%Z ->
  exists ids, select_inside_noindex st margin noz = Some ids /\
    picks (pts st) (fun _ p => forall k, k < (if noz then 2 else 3) ->
      (exists q, In q (pts st) /\ coord k q + margin <= coord k p)%Z /\ (exists q, In q (pts st) /\ coord k p + margin <= coord k q)%Z) ids.
Proof.
  intros Hne Hl Hm. destruct (C38_inside_noindex st margin noz Hne) as [ids [E Hp]]; [eapply Forall_impl; [|exact Hl]; simpl; tauto|]. exists ids. split; auto.
  eapply picks_ext; [|exact Hp]. intros i p Hip. rewrite Forall_forall in Hl. assert (Hin := nth_error_In _ _ Hip). destruct (Hl _ Hin) as [[x [y [z ->]]] Hpos].
  assert (Hk3 : forall k, (0 <= coord k [x; y; z])%Z) by (intros k; rewrite Forall_forall in Hpos; unfold coord; destruct k as [|[|[|k]]]; simpl; try (apply Hpos; simpl; tauto); destruct k; lia).
  unfold far_from_faces. split; intros H k Hk; specialize (H k Hk); specialize (Hk3 k).
  - destruct H as [H1 [[q [Hq H2]]|H2]]; (split; auto); [exists q; split; auto; lia|exists [x; y; z]%Z; split; auto; lia].
  - destruct H as [H1 [q [Hq H2]]]. split; auto. left. exists q. split; auto. lia.
Qed.
(** With negative coordinates the upper face is taken at 0. *)
Theorem C38_negative_refuted : select_inside_noindex (new_particles [[-9; -9; -9]; [-5; -5; -5]; [-4; -4; -4]]%Z [] 1) 2 false = Some [1; 2].
Proof. reflexivity. Qed.
Example C38_case : select_inside_noindex (new_particles [[1; 1; 1]; [5; 5; 5]; [9; 9; 9]; [5; 5; 8]]%Z [] 1) 2 false = Some [1] /\
  select_inside_noindex (new_particles [[1; 1; 1]; [5; 5; 5]; [9; 9; 9]; [5; 5; 8]]%Z [] 1) 2 true = Some [1; 3].
Proof. split; reflexivity. Qed.

(** C39. *)
Lemma reset_range_spec {T} (dflt : T) : forall k p v, p + k <= length v ->
  exists v', reset_range dflt p k v = Some v' /\ length v' = length v /\
    forall i, nth_error v' i = if (p <=? i) && (i <? p + k) then Some dflt else nth_error v i.
Proof.
  induction k as [|k IH]; intros p v H; simpl.
  - exists v. repeat split; auto. intros i. destruct (Nat.leb_spec p i), (Nat.ltb_spec i (p + 0)); simpl; auto; lia.
  - destruct (Nat.ltb_spec p (length v)); [|lia]. destruct (IH (S p) (set_nth p dflt v)) as [v' [E [L K]]]; [rewrite set_nth_len; lia|].
    exists v'. rewrite E. rewrite L, set_nth_len. repeat split; auto. intros i. rewrite K, set_nth_get by lia.
    destruct (Nat.leb_spec (S p) i), (Nat.ltb_spec i (S p + k)), (Nat.leb_spec p i), (Nat.ltb_spec i (p + S k)), (Nat.eqb_spec i p); simpl; auto; lia.
Qed.
Theorem C39_remove_outside {T} (dflt : T) inside v : StronglySorted lt inside -> (forall i, In i inside -> i < length v) ->
  exists v', remove_outside dflt (length v) 0 inside v = Some v' /\ length v' = length v /\
    forall i x, nth_error v i = Some x -> nth_error v' i = Some (if in_dec Nat.eq_dec i inside then x else dflt).
Proof.
  assert (Hgen : forall inside p v, StronglySorted lt inside -> (forall i, In i inside -> p <= i < length v) -> p <= length v ->
    exists v', remove_outside dflt (length v) p inside v = Some v' /\ length v' = length v /\
      forall i x, nth_error v i = Some x -> nth_error v' i = Some (if i <? p then x else if in_dec Nat.eq_dec i inside then x else dflt)).
  { clear inside v. induction inside as [|a inside IH]; intros p v Hs Hin Hp; cbn [remove_outside].
    - destruct (reset_range_spec dflt (length v - p) p v) as [v' [E [L K]]]; [lia|]. exists v'. repeat split; auto. intros i x Hx. rewrite K.
      pose proof (nth_error_lt _ _ _ Hx). destruct (Nat.leb_spec p i), (Nat.ltb_spec i (p + (length v - p))), (Nat.ltb_spec i p); simpl; auto; lia.
    - inversion Hs as [|? ? Hs' Hf]; subst. rewrite Forall_forall in Hf. assert (Ha := Hin a (or_introl eq_refl)).
      destruct (reset_range_spec dflt (a - p) p v) as [v1 [E1 [L1 K1]]]; [lia|]. rewrite E1.
      destruct (IH (S a) v1 Hs') as [v' [E [L K]]]; [intros i Hi; specialize (Hf i Hi); specialize (Hin i (or_intror Hi)); lia|lia|].
      rewrite L1 in E. exists v'. rewrite E. split; auto. split; [lia|]. intros i x Hx.
      assert (Hx1 : nth_error v1 i = Some (if (p <=? i) && (i <? p + (a - p)) then dflt else x)) by (rewrite K1, Hx; destruct ((p <=? i) && (i <? p + (a - p))); auto).
      rewrite (K i _ Hx1). f_equal. destruct (in_dec Nat.eq_dec i (a :: inside)) as [[->|Hi]|Hi].
      + destruct (Nat.ltb_spec i (S i)); [|lia]. destruct (Nat.leb_spec p i), (Nat.ltb_spec i (p + (i - p))), (Nat.ltb_spec i p); simpl; auto; lia.
      + specialize (Hf i Hi). destruct (Nat.ltb_spec i (S a)); [lia|]. destruct (in_dec Nat.eq_dec i inside); [|contradiction].
        destruct (Nat.leb_spec p i), (Nat.ltb_spec i (p + (a - p))), (Nat.ltb_spec i p); simpl; auto; lia.
      + simpl in Hi. destruct (in_dec Nat.eq_dec i inside); [tauto|].
        destruct (Nat.ltb_spec i (S a)), (Nat.leb_spec p i), (Nat.ltb_spec i (p + (a - p))), (Nat.ltb_spec i p); simpl; auto; try lia. }
  intros Hs Hin. destruct (Hgen inside 0 v Hs) as [v' [E [L K]]]; [intros i Hi; specialize (Hin i Hi); lia|lia|]. exists v'. split; auto.
Qed.
(** The selection must be sorted. *)
Theorem C39_unsorted_refuted : remove_outside 0 5 0 [3; 1] [7; 7; 7; 7; 7] = Some [0; 0; 0; 0; 0].
Proof. reflexivity. Qed.
Example C39_case : StronglySorted lt [1; 3] /\ remove_outside 0 5 0 [1; 3] [7; 7; 7; 7; 7] = Some [0; 7; 0; 7; 0].
Proof. split; [repeat constructor|reflexivity]. Qed.

(** C40.  The ordered pair (i,j) of distinct particles closer than the cut-off falls in bin k out of n when k/n <= distance/cutoff < (k+1)/n. *)
Definition in_bin (l : list (list Z)) (n : nat) (cutoff : Z) (k : nat) (ij : nat * nat) : bool :=
  match nth_error l (fst ij), nth_error l (snd ij) with
  | Some p, Some q =>
      let d2 := dist2 q p in let N := Z.of_nat n in let K := Z.of_nat k in
      negb (fst ij =? snd ij) && (d2 <? cutoff * cutoff)%Z &&
      (K * K * (cutoff * cutoff) <=? N * N * d2)%Z && (N * N * d2 <? (K + 1) * (K + 1) * (cutoff * cutoff))%Z
  | _, _ => false
  end.
Definition close_pair (l : list (list Z)) (cutoff : Z) (ij : nat * nat) : bool :=
  match nth_error l (fst ij), nth_error l (snd ij) with
  | Some p, Some q => negb (fst ij =? snd ij) && (dist2 q p <? cutoff * cutoff)%Z
  | _, _ => false
  end.
Definition all_pairs (l : list (list Z)) (sel : list nat) : list (nat * nat) := list_prod sel (seq 0 (length l)).

Lemma rdf_bin_spec n cutoff d2 : (0 < cutoff)%Z -> (0 <= d2 < cutoff * cutoff)%Z -> 0 < n -> forall k,
  rdf_bin n cutoff d2 < n /\
  (rdf_bin n cutoff d2 = k <-> (Z.of_nat k * Z.of_nat k * (cutoff * cutoff) <= Z.of_nat n * Z.of_nat n * d2)%Z /\
    (Z.of_nat n * Z.of_nat n * d2 < (Z.of_nat k + 1) * (Z.of_nat k + 1) * (cutoff * cutoff))%Z).
Proof.
  intros Hc Hd Hn k. unfold rdf_bin. set (N := Z.of_nat n). set (c2 := (cutoff * cutoff)%Z) in *. assert (Hc2 : (0 < c2)%Z) by (unfold c2; nia).
  rewrite (Z.mul_comm d2). set (x := (N * N * d2)%Z). assert (Hx : (0 <= x)%Z) by (unfold x; nia).
  assert (Hq : (0 <= x / c2)%Z) by (apply Z.div_pos; lia). destruct (Z.sqrt_spec (x / c2) Hq) as [S1 S2]. pose proof (Z.sqrt_nonneg (x / c2)) as S0.
  set (s := Z.sqrt (x / c2)) in *. pose proof (Z.mul_div_le x c2 Hc2) as D1. pose proof (Z.mul_succ_div_gt x c2 Hc2) as D2.
  assert (B1 : (s * s * c2 <= x)%Z) by nia. assert (B2 : (x < (s + 1) * (s + 1) * c2)%Z).
  { assert (x / c2 + 1 <= (s + 1) * (s + 1))%Z by lia. nia. }
  split.
  - assert (s < N)%Z; [|lia]. apply Z.nle_gt. intros Hge. assert (N * N <= s * s)%Z by nia. assert (x < N * N * c2)%Z by (unfold x, N; nia). nia.
  - split.
    + intros <-. rewrite Z2Nat.id by auto. auto.
    + intros [K1 K2]. assert (s = Z.of_nat k); [|lia]. apply Z.le_antisymm.
      * apply Z.nlt_ge. intros Hlt. assert ((Z.of_nat k + 1) * (Z.of_nat k + 1) <= s * s)%Z by nia. nia.
      * apply Z.nlt_ge. intros Hlt. assert ((s + 1) * (s + 1) <= Z.of_nat k * Z.of_nat k)%Z by nia. nia.
Qed.

Lemma rdf_pairs_spec st cutoff i a : nth_error (pts st) i = Some a -> forall l g cnt,
  (forall j, In j l -> exists b, nth_error (pts st) j = Some b /\ rdf_bin (length g) cutoff (sqdist b a) < length g) ->
  exists g', rdf_pairs st cutoff i l (g, cnt) = Val (g', cnt + length l) /\ length g' = length g /\
    forall k x, nth_error g k = Some x -> nth_error g' k =
      Some (x + length (filter (fun j => match nth_error (pts st) j with Some b => rdf_bin (length g) cutoff (sqdist b a) =? k | None => false end) l)).
Proof.
  intros Ha. induction l as [|j l IH]; intros g cnt Hl.
  - exists g. simpl. rewrite Nat.add_0_r. repeat split; auto. intros k x Hx. rewrite Nat.add_0_r. auto.
  - destruct (Hl j (or_introl eq_refl)) as [b [Hb Hlt]]. cbn [rdf_pairs fst snd]. rewrite Ha, Hb. unfold incr.
    destruct (nth_error_ex g _ Hlt) as [y Hy]. rewrite Hy. destruct (IH (set_nth (rdf_bin (length g) cutoff (sqdist b a)) (S y) g) (S cnt)) as [g' [E [L K]]].
    { intros j' Hj'. rewrite set_nth_len. apply Hl. simpl; auto. }
    exists g'. rewrite E. rewrite set_nth_len in *. split; [f_equal; f_equal; simpl; lia|]. split; auto. intros k x Hx.
    rewrite (K k (if rdf_bin (length g) cutoff (sqdist b a) =? k then S y else x)).
    + f_equal. simpl. rewrite Hb. destruct (Nat.eqb_spec (rdf_bin (length g) cutoff (sqdist b a)) k) as [<-|Hne]; simpl; auto.
      assert (x = y) by congruence. subst. lia.
    + rewrite set_nth_get by auto. rewrite (Nat.eqb_sym k). destruct (Nat.eqb_spec (rdf_bin (length g) cutoff (sqdist b a)) k); auto.
Qed.
Lemma filter_map_x {A B} (f : B -> bool) (g : A -> B) : forall l, filter f (map g l) = map g (filter (fun x => f (g x)) l).
Proof. induction l as [|x l IH]; simpl; auto. destruct (f (g x)); simpl; congruence. Qed.
Lemma list_prod_cons {A B} (a : A) (l : list A) (m : list B) : list_prod (a :: l) m = map (fun y => (a, y)) m ++ list_prod l m.
Proof. reflexivity. Qed.

Theorem C40_rdf c l bb r ops n cutoff sel : config_ok c -> dims c = 3 -> Forall point3 l -> Forall pop_ok ops -> indexed ops = true ->
  0 < n -> (0 < cutoff)%Z -> (forall i, In i sel -> i < length (positions l ops)) ->
  exists st g count, prun c (new_particles l bb r) ops = Some st /\ rdf st n cutoff sel = Val (g, count) /\ length g = n /\
    count = length (filter (close_pair (positions l ops) cutoff) (all_pairs (positions l ops) sel)) /\
    forall k, k < n -> nth_error g k = Some (length (filter (in_bin (positions l ops) n cutoff k) (all_pairs (positions l ops) sel))).
Proof.
  intros Hok H3 Hl Ho Hx Hn Hcut Hsel. destruct (history_ok c l bb r ops Hok H3 Hl Ho) as [st [E [Hm [Hp Hi]]]]. destruct (Hi Hx) as [t [Ht Hit]].
  exists st. rewrite <- Hm in *. clear Hm.
  assert (Hgen : forall sel g cnt, (forall i, In i sel -> i < length (pts st)) -> length g = n ->
    exists g' cnt', rdf_loop st cutoff sel (g, cnt) = Val (g', cnt') /\ length g' = n /\ cnt' = cnt + length (filter (close_pair (pts st) cutoff) (all_pairs (pts st) sel)) /\
      forall k x, nth_error g k = Some x -> nth_error g' k = Some (x + length (filter (in_bin (pts st) n cutoff k) (all_pairs (pts st) sel)))).
  { clear sel Hsel. induction sel as [|i sel IH]; intros g cnt Hs Lg.
    - exists g, cnt. simpl. repeat split; auto. intros k x Hk. rewrite Nat.add_0_r. auto.
    - cbn [rdf_loop]. destruct (nth_error_ex (pts st) i) as [a Ha]; [apply Hs; simpl; auto|].
      destruct (euclid_of_spec c st t Hok H3 Hp Ht Hit i a cutoff Ha) as [ids [Ei [Hss Hin]]]. rewrite Ei. cbn [obind].
      assert (Ha3 := nth_point3 st Hp _ _ Ha).
      assert (Hbin : forall j b, In j ids -> nth_error (pts st) j = Some b -> (0 <= sqdist b a < cutoff * cutoff)%Z /\ j <> i).
      { intros j b Hj Hb. apply Hin in Hj. destruct Hj as [b' [Hb' [Hne [_ Hd]]]]. assert (b' = b) by congruence. subst b'. rewrite sqdist_dist2; auto; [|eapply nth_point3; eauto].
        split; auto. split; auto. rewrite <- sqdist_dist2; auto; [apply sqdist_nonneg|eapply nth_point3; eauto]. }
      destruct (rdf_pairs_spec st cutoff i a Ha ids g cnt) as [g1 [E1 [L1 K1]]].
      { intros j Hj. assert (Hj' := Hj). apply Hin in Hj'. destruct Hj' as [b [Hb _]]. exists b. split; auto. rewrite Lg. refine (proj1 (rdf_bin_spec n cutoff (sqdist b a) Hcut _ Hn 0)). eapply Hbin; eauto. }
      rewrite E1. cbn [obind]. destruct (IH g1 (cnt + length ids)) as [g' [cnt' [E' [L' [C' K']]]]]; [intros; apply Hs; simpl; auto|congruence|].
      exists g', cnt'. split; auto. split; auto. unfold all_pairs in *. rewrite list_prod_cons.
      assert (Hpart : forall f h, (forall j, j < length (pts st) -> (f (i, j) = true <-> In j ids /\ h j = true)) ->
        length (filter f (map (fun j => (i, j)) (seq 0 (length (pts st))))) = length (filter h ids)).
      { intros f h Hfh. rewrite filter_map_x, map_length. f_equal. apply ssorted_ext; [apply filter_ssorted, seq_ssorted|apply filter_ssorted; auto|].
        intros j. rewrite !filter_In, in_seq. split.
        - intros [Hj Hf]. apply Hfh in Hf; auto. lia.
        - intros [Hj Hh]. assert (Hlt : j < length (pts st)) by (apply Hin in Hj; destruct Hj as [b [Hb _]]; eapply nth_error_lt; eauto). split; [lia|]. apply Hfh; auto. }
      split.
      + rewrite filter_app, app_length, C'. rewrite (Hpart (close_pair (pts st) cutoff) (fun _ => true)).
        * replace (filter (fun _ : nat => true) ids) with ids; [lia|]. clear. induction ids; simpl; congruence.
        * intros j Hj. unfold close_pair. cbn [fst snd]. rewrite Ha. destruct (nth_error_ex (pts st) j Hj) as [b Hb]. rewrite Hb. rewrite andb_true_iff, negb_true_iff, Nat.eqb_neq, Z.ltb_lt, Hin. split.
          -- intros [Hne Hd]. split; auto. exists b. repeat split; auto.
          -- intros [[b' [Hb' [Hne [_ Hd]]]] _]. assert (b' = b) by congruence. subst. auto.
      + intros k x Hk. specialize (K1 k x Hk). rewrite (K' k _ K1). f_equal. rewrite filter_app, app_length, Nat.add_assoc. f_equal. f_equal.
        symmetry. apply Hpart. intros j Hj. unfold in_bin. cbn [fst snd]. rewrite Ha. destruct (nth_error_ex (pts st) j Hj) as [b Hb]. rewrite Hb, Lg.
        rewrite !andb_true_iff, negb_true_iff, Nat.eqb_neq, !Z.ltb_lt, Z.leb_le, Nat.eqb_eq.
        assert (Hb3 := nth_point3 st Hp _ _ Hb). split.
        -- intros [[[Hne Hd] B1] B2]. assert (Hjin : In j ids) by (apply Hin; exists b; repeat split; auto). split; auto.
           destruct (Hbin j b Hjin Hb) as [Hr _]. apply (proj2 (rdf_bin_spec n cutoff (sqdist b a) Hcut Hr Hn k)). rewrite sqdist_dist2; auto.
        -- intros [Hjin Hk']. destruct (Hbin j b Hjin Hb) as [Hr Hne]. apply (proj1 (proj2 (rdf_bin_spec n cutoff (sqdist b a) Hcut Hr Hn k))) in Hk'. rewrite sqdist_dist2 in *; auto.
           repeat split; auto; try lia; try apply Hk'. }
  destruct (Hgen sel (repeat 0 n) 0 Hsel (repeat_length 0 n)) as [g [cnt [Eg [L [C K]]]]]. exists g, cnt. split; auto. split; [exact Eg|]. split; auto. split; auto.
  intros k Hk. rewrite (K k 0); auto. apply nth_error_repeat_x. auto.
Qed.
Example C40_case : exists st, prun lib_config (new_particles ex_row [] 1) [PIndex] = Some st /\ indexed [PIndex] = true /\ rdf st 4 8 [0; 1; 2; 3] = Val ([0; 4; 4; 2], 10).
Proof. eexists. repeat split; vm_compute; reflexivity. Qed.

Print Assumptions C31_neighbours. Print Assumptions C32_nearest. Print Assumptions C32_diverges. Print Assumptions C33_ngb_list. Print Assumptions C35_cut.
Print Assumptions C35_separated. Print Assumptions C35_remove_short_range. Print Assumptions C38_inside_noindex. Print Assumptions C38_image_coordinates.
Print Assumptions C39_remove_outside. Print Assumptions C40_rdf.
Print Assumptions C33_radius.
Print Assumptions C33_box_scaled.

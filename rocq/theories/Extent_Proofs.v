Require Import ZArith List Bool Arith Lia.
Require Import Verif.Base Verif.SortU Verif.ListX Verif.Box_Model Verif.Box_Spec Verif.Box_Proofs Verif.RTree_Model Verif.RTree_Proofs Verif.Traj_Model Verif.Traj_Spec Verif.Traj_Proofs
  Verif.Particles_Model Verif.Particles_Spec Verif.Cluster_Spec Verif.Dyn_Model Verif.Dyn_Spec Verif.Drift_Proofs Verif.Corr_Model Verif.Corr_Spec Verif.Corr_Proofs Verif.Extent_Model Verif.Extent_Spec.
Import ListNotations.
Local Open Scope nat_scope.

Lemma bounds_len p r : length (bounds p r) = length p.
Proof. apply map_length. Qed.
Lemma bounds_in r : forall p x, within r p x -> inside x (bounds p r).
Proof. intros p x H. induction H; cbn; constructor; auto. cbn. lia. Qed.
Lemma bounds_least r c : forall p, (0 <= r)%Z -> (forall x, within r p x -> inside x c) -> sub (bounds p r) c.
Proof.
  intros p Hr. revert c. induction p as [|a p IH]; intros c H.
  - assert (I : inside [] c) by (apply H; constructor). inversion I. constructor.
  - assert (W : forall k q, within k q q \/ (k < 0)%Z).
    { intros k q. destruct (Z.ltb_spec k 0); auto. left. induction q; constructor; auto. lia. }
    destruct (W r p) as [Wp|]; [|lia].
    assert (I1 : inside ((a - r)%Z :: p) c) by (apply H; constructor; auto; lia).
    assert (I2 : inside ((a + r)%Z :: p) c) by (apply H; constructor; auto; lia).
    inversion I1 as [|? e ? c' He Hc]; subst. inversion I2 as [|? ? ? ? He2 Hc2]; subst. constructor; [cbn; lia|].
    apply IH. intros x Hx. assert (I : inside (a :: x) (e :: c')) by (apply H; constructor; auto; lia). inversion I; auto.
Qed.
Lemma within_0 : forall p x, within 0 p x <-> x = p.
Proof.
  induction p as [|a p IH]; intros x; split.
  - intros H. inversion H. auto.
  - intros ->. constructor.
  - intros H. inversion H as [|? c ? x' Hc Hx]; subst. apply IH in Hx. subst. f_equal. lia.
  - intros ->. constructor; [lia|]. apply IH. auto.
Qed.
Lemma inside_sub x b c : inside x b -> sub b c -> inside x c.
Proof.
  intros H. revert c. induction H as [|a e x b Ha H IH]; intros c Hs; inversion Hs; subst; constructor; [lia|]. apply IH. auto.
Qed.

(** The box around some points, each with a margin. *)
Lemma hull_points r (ps : list (list Z)) p0 n : (0 <= r)%Z -> length p0 = n -> Forall (fun p => length p = n) ps ->
  length (fold_left stretch (map (fun p => bounds p r) ps) (bounds p0 r)) = n /\
  smallest_box (fold_left stretch (map (fun p => bounds p r) ps) (bounds p0 r)) (fun x => exists p, In p (p0 :: ps) /\ within r p x).
Proof.
  intros Hr H0 Hp. assert (F : Forall (fun x => length x = length (bounds p0 r)) (map (fun p => bounds p r) ps)).
  { apply Forall_forall. intros b Hb. apply in_map_iff in Hb. destruct Hb as [p [<- Hi]]. rewrite !bounds_len, H0. rewrite Forall_forall in Hp. auto. }
  split; [rewrite fold_stretch_length, bounds_len; auto|]. split.
  - intros x [p [[<-|Hi] Hx]].
    + eapply inside_sub; [apply bounds_in; eauto|]. apply fold_stretch_acc. auto.
    + eapply inside_sub; [apply bounds_in; eauto|]. apply fold_stretch_in; auto. apply (in_map (fun p => bounds p r)). auto.
  - intros c H. apply fold_stretch_least.
    + apply bounds_least; auto. intros x Hx. apply H. exists p0. split; [left|]; auto.
    + apply Forall_forall. intros b Hb. apply in_map_iff in Hb. destruct Hb as [p [<- Hi]]. apply bounds_least; auto. intros x Hx. apply H. exists p. split; [right|]; auto.
Qed.
Lemma smallest_ext b (P Q : list Z -> Prop) : (forall x, P x <-> Q x) -> smallest_box b P -> smallest_box b Q.
Proof. intros H [A B]. split; [intros p Hp; apply A, H; auto|]. intros c Hc. apply B. intros p Hp. apply Hc, H. auto. Qed.
Lemma smallest_unique b c P : smallest_box b P -> smallest_box c P -> sub b c /\ sub c b.
Proof. intros [A B] [C D]. split; auto. Qed.
Lemma stretch_nth : forall a b d e, nth_error (stretch a b) d = Some e -> length a = length b ->
  exists u v, nth_error a d = Some u /\ nth_error b d = Some v /\ (fst e = fst u \/ fst e = fst v) /\ (snd e = snd u \/ snd e = snd v).
Proof.
  induction a as [|u a IH]; intros [|v b] d e H L; try discriminate.
  - destruct d; discriminate.
  - rewrite stretch_cons in H. destruct d as [|d]; cbn [nth_error] in H.
    + injection H as <-. exists u, v. split; auto. split; auto. destruct u as [u1 u2], v as [v1 v2]. cbn [fst snd]. split; [destruct (Z.min_spec u1 v1) as [[_ ->]|[_ ->]]|destruct (Z.max_spec u2 v2) as [[_ ->]|[_ ->]]]; auto.
    + apply IH in H; [|cbn in L; lia]. exact H.
Qed.
(** Each edge of the box is at [r] of a point. *)
Lemma hull_edges r d e : forall ps b n (Q : list Z -> Prop), length b = n -> Forall (fun p => length p = n) ps -> (forall p, In p ps -> Q p) ->
  (forall e', nth_error b d = Some e' -> exists p q, Q p /\ Q q /\ fst e' = (coord d p - r)%Z /\ snd e' = (coord d q + r)%Z) ->
  nth_error (fold_left stretch (map (fun p => bounds p r) ps) b) d = Some e ->
  exists p q, Q p /\ Q q /\ fst e = (coord d p - r)%Z /\ snd e = (coord d q + r)%Z.
Proof.
  induction ps as [|p ps IH]; intros b n Q Lb F HQ Hb H; cbn [map fold_left] in H; [auto|].
  inversion F as [|? ? Lp F']; subst. eapply (IH (stretch b (bounds p r)) (length b)); eauto.
  - apply stretch_length.
  - intros q Hq. apply HQ. right. auto.
  - intros e' He'. apply stretch_nth in He'; [|rewrite bounds_len; auto]. destruct He' as [u [v [Hu [Hv [H1 H2]]]]]. destruct (Hb u Hu) as [x [y [Qx [Qy [E1 E2]]]]].
    assert (Ev : v = (coord d p - r, coord d p + r)%Z).
    { unfold bounds in Hv. rewrite nth_error_map in Hv. unfold coord. destruct (nth_error p d) as [c|] eqn:Ec; [|discriminate]. rewrite (nth_error_nth _ _ 0%Z Ec). cbn in Hv. congruence. }
    assert (Qp : Q p) by (apply HQ; left; auto). subst v. cbn in H1, H2.
    destruct H1 as [H1|H1], H2 as [H2|H2]; [exists x, y|exists x, p|exists p, y|exists p, p]; (split; [auto|]; split; [auto|]; split; congruence).
Qed.

Section Places.
  Variables (frames : list (list (list Z))) (ti : trajindex).
  Hypothesis Hc : consistent ti.
  Hypothesis Hsh : shape ti frames.
  Hypothesis H3 : Forall (Forall point3) frames.
  Lemma value_3 T t x : value_at frames T t x -> length x = 3.
  Proof.
    intros [p [f [_ [Hf Hp]]]]. rewrite Forall_forall in H3. assert (G : Forall point3 f) by (apply H3; eapply nth_error_In; eauto). rewrite Forall_forall in G.
    destruct (G x) as [a [b [c ->]]]; auto. eapply nth_error_In; eauto.
  Qed.
  Lemma value_fun T t x y : value_at frames T t x -> value_at frames T t y -> x = y.
  Proof. intros [p [f [A [B C]]]] [p' [f' [A' [B' C']]]]. assert (p' = p) by (eapply at_time_fun; eauto). congruence. Qed.
  Lemma bounds_traj_ok tr T : nth_error (trajs ti) tr = Some T -> exists p0 ps, bounds_traj frames ti tr = Val (fold_left stretch (map (fun p => bounds p 0) ps) (bounds p0 0)) /\
    forall x, In x (p0 :: ps) <-> exists t, value_at frames T t x.
  Proof.
    intros HT. destruct (proj2 Hc tr T HT) as [Hne Hbig]. unfold bounds_traj. rewrite HT.
    assert (Hat : forall t, start T <= t < start T + length (steps T) -> exists x, place (list Z) frames ti tr t = Val x /\ value_at frames T t x).
    { intros t Ht. destruct (at_time_ex T t Ht) as [p Hp]. eapply place_ok; eauto. }
    assert (Hlt : 0 < length (steps T)) by (destruct (steps T); cbn; [congruence|lia]).
    set (X t := value_of [] (place (list Z) frames ti tr t)).
    assert (HX : forall t, start T <= t < start T + length (steps T) -> place (list Z) frames ti tr t = Val (X t) /\ value_at frames T t (X t)).
    { intros t Ht. destruct (Hat t Ht) as [x [E V]]. unfold X. rewrite E. auto. }
    rewrite (last_time_exact T Hne Hbig). replace (Z.to_nat (Z.of_nat (start T) + Z.of_nat (length (steps T)) - 1) - start T) with (length (steps T) - 1) by lia.
    destruct (HX (start T)) as [E0 V0]; [lia|]. rewrite E0. cbn [obind].
    exists (X (start T)), (map X (seq (S (start T)) (length (steps T) - 1))). split.
    - rewrite (ofold_ok _ (fun t b => stretch b (bounds (X t) 0))).
      + rewrite !fold_left_map_x. reflexivity.
      + intros t b Ht. apply in_seq in Ht. destruct (HX t) as [E V]; [lia|]. rewrite E. reflexivity.
    - intros x. split.
      + intros [<-|Hx]; [eauto|]. apply in_map_iff in Hx. destruct Hx as [t [<- Ht]]. apply in_seq in Ht. exists t. apply HX. lia.
      + intros [t V]. destruct V as [p [f [Ht R]]]. assert (B := at_time_range _ _ _ Ht). assert (V : value_at frames T t x) by (exists p, f; auto).
        assert (Ex : x = X t) by (eapply value_fun; eauto; apply HX; auto). destruct (Nat.eq_dec t (start T)) as [->|]; [left; auto|]. right. rewrite Ex. apply in_map. apply in_seq. lia.
  Qed.
  Lemma member_ok r tr T t x : nth_error (trajs ti) tr = Some T -> value_at frames T t x -> member_bounds frames ti r t tr = Val (bounds x r).
  Proof.
    intros HT V. unfold member_bounds. rewrite HT. assert (Hs := proj2 Hc tr T HT). destruct V as [p [f [Ht R]]]. assert (V : value_at frames T t x) by (exists p, f; auto).
    rewrite (proj2 (exist_at_iff T t Hs)) by (eapply at_time_range; eauto). destruct (place_ok _ frames ti Hc Hsh tr T t p HT Ht) as [y [E Hy]]. rewrite E. cbn. f_equal. f_equal. eapply value_fun; eauto.
  Qed.
  Lemma cluster_bounds_ok r cl t : cl <> [] -> present ti cl t -> exists p0 ps, cluster_bounds frames ti r cl t = Val (fold_left stretch (map (fun p => bounds p r) ps) (bounds p0 r)) /\
    forall x, In x (p0 :: ps) <-> exists tr T, In tr cl /\ nth_error (trajs ti) tr = Some T /\ value_at frames T t x.
  Proof.
    intros Hne Hp. set (X tr := value_of [] (place (list Z) frames ti tr t)).
    assert (HX : forall tr, In tr cl -> exists T, nth_error (trajs ti) tr = Some T /\ value_at frames T t (X tr) /\ member_bounds frames ti r t tr = Val (bounds (X tr) r)).
    { intros tr Hi. destruct (Hp tr Hi) as [T [p [HT Ht]]]. destruct (place_ok _ frames ti Hc Hsh tr T t p HT Ht) as [y [E Hy]]. exists T. unfold X. rewrite E. cbn. split; auto. split; auto. eapply member_ok; eauto. }
    exists (X (hd 0 cl)), (map X cl). split.
    - unfold cluster_bounds. destruct cl as [|tr cl]; [congruence|]. cbn [hd]. destruct (HX tr) as [T [_ [_ E]]]; [left; auto|]. rewrite E. cbn [obind].
      rewrite (ofold_ok _ (fun tr b => stretch b (bounds (X tr) r))).
      + rewrite !fold_left_map_x. reflexivity.
      + intros k b Hk. destruct (HX k Hk) as [T' [_ [_ E']]]. rewrite E'. reflexivity.
    - intros x. split.
      + intros Hx. assert (G : exists tr, In tr cl /\ X tr = x).
        { destruct Hx as [<-|Hx]; [exists (hd 0 cl); split; auto; destruct cl; [congruence|left; auto]|]. apply in_map_iff in Hx. destruct Hx as [tr [E Hi]]. eauto. }
        destruct G as [tr [Hi <-]]. destruct (HX tr Hi) as [T [HT [V _]]]. exists tr, T. auto.
      + intros [tr [T [Hi [HT V]]]]. destruct (HX tr Hi) as [T' [HT' [V' _]]]. assert (T' = T) by congruence. subst T'. right. apply in_map_iff. exists tr. split; auto. eapply value_fun; eauto.
  Qed.
End Places.

(** The positions of the selected trajectories that exist. *)
Section Each.
  Variables (ti : trajindex) (t : nat).
  Hypothesis Hc : consistent ti.
  Definition pos_of (tr : nat) : list nat :=
    match nth_error (trajs ti) tr with
    | Some T => if exist_at T t then match access T t with Val p => [p] | _ => [] end else []
    | None => []
    end.
  Lemma pos_of_in tr p : In p (pos_of tr) <-> on_traj ti tr t p.
  Proof.
    unfold pos_of, on_traj. destruct (nth_error (trajs ti) tr) as [T|] eqn:HT; [|split; [intros []|intros [T [H _]]; discriminate]].
    assert (Hs := proj2 Hc tr T HT). split.
    - destruct (exist_at T t); [|intros []]. destruct (access T t) as [q| |] eqn:E; cbn; try tauto. intros [<-|[]]. exists T. split; auto. apply access_val; auto.
    - intros [T' [E H]]. injection E as <-. rewrite (proj2 (exist_at_iff T t Hs)) by (eapply at_time_range; eauto). rewrite (proj2 (access_val T t p Hs) H). left. auto.
  Qed.
  Lemma each_eq {W} (f : nat -> W -> outcome W) : forall sel w, Forall (fun tr => tr < length (trajs ti)) sel -> each_position ti t f sel w = ofold f (flat_map pos_of sel) w.
  Proof.
    unfold each_position. induction sel as [|tr sel IH]; intros w F; auto. inversion F as [|? ? Hlt F']; subst. cbn [ofold flat_map]. unfold pos_of at 1.
    destruct (nth_error_ex (trajs ti) tr Hlt) as [T HT]. rewrite HT. assert (Hs := proj2 Hc tr T HT). destruct (exist_at T t) eqn:E; [|cbn; auto].
    apply exist_at_iff in E; auto. destruct (at_time_ex T t E) as [p Hp]. rewrite (proj2 (access_val T t p Hs) Hp). cbn [obind app ofold]. destruct (f p w); cbn [obind]; auto.
  Qed.
  Lemma pos_list_in sel p : In p (flat_map pos_of sel) <-> exists tr, In tr sel /\ on_traj ti tr t p.
  Proof. rewrite in_flat_map. split; intros [tr [H1 H2]]; exists tr; split; auto; apply pos_of_in; auto. Qed.
  Lemma pos_list_nodup sel : NoDup sel -> NoDup (flat_map pos_of sel).
  Proof.
    induction 1 as [|tr sel Hn Hd IH]; [constructor|]. cbn [flat_map]. apply NoDup_app_x; auto.
    - unfold pos_of. destruct (nth_error (trajs ti) tr) as [T|]; [|constructor]. destruct (exist_at T t); [|constructor]. destruct (access T t); repeat constructor; intros [].
    - intros p Hp Hp'. apply pos_of_in in Hp. apply pos_list_in in Hp'. destruct Hp' as [tr' [Hi Hp']]. apply (proj1 Hc) in Hp. apply (proj1 Hc) in Hp'. assert (tr' = tr) by congruence. subst. auto.
  Qed.
End Each.

(** C130: centres found in two successive octaves, in one and three dimensions. *)
Require Import ZArith List Bool Arith Lia.
Require Import Verif.Base Verif.Traj_Model Verif.Particles_Model Verif.Corr_Model Verif.Boo_Model.
Require Import Verif.Seam_Model Verif.Seam_Spec Verif.Seam_Proofs Verif.Seam3_Model.
Import ListNotations.

(** Vocabulary, coordinate by coordinate as in C98 (Seam_Spec) *)
Definition same_place3 (s : nat) (h l : list nat) : Prop := Forall2 (nearest s) h l.
Definition about3 (s : nat) (h l : list nat) : Prop := Forall2 (fun x y => (y - 1) * s <= x < (y + 1) * s) h l.
Definition shows3 (f : finder3) (k : nat) : Prop := (forall p, mark f k p = true <-> In (p, k) (found f)) /\ forall p, In (p, k) (found f) -> Forall2 lt p (sizes f).
Definition same_images3 (f g : finder3) : Prop := layers f = layers g /\ sizes f = sizes g /\ pixel f = pixel g.
Definition value_at (f : finder3) (c : list nat * nat) : Z := pixel f (snd c) (fst c).
(** the nearest pixel of the small image, of each centre of the last layer, is in the small image *)
Definition fits3 (s : nat) (hi lo : finder3) : Prop := forall p, In (p, layers hi) (found hi) -> Forall2 (fun x n => 2 * x + s < 2 * s * n) p (sizes lo).

Lemma same_pixel_eq p q : same_pixel p q = true <-> p = q.
Proof. unfold same_pixel. destruct (list_eq_dec Nat.eq_dec p q); split; auto; discriminate. Qed.
Lemma within_lt : forall sz p, within sz p = true <-> Forall2 lt p sz.
Proof.
  induction sz as [|n sz IH]; intros [|x p]; cbn; split; intros H; try discriminate; try constructor; try (inversion H; fail); auto.
  - apply andb_true_iff in H as [H _]. apply Nat.ltb_lt. auto.
  - apply andb_true_iff in H as [_ H]. apply IH. auto.
  - inversion H. subst. apply andb_true_iff. split; [apply Nat.ltb_lt; auto|apply IH; auto].
Qed.

Section Marks.
  Variables (beaten : list nat * nat -> bool).
  Definition here (l : nat) (p : list nat) (c : list nat * nat) : bool := (l =? snd c) && same_pixel p (fst c).
  Lemma here_eq l p c : here l p c = true <-> c = (p, l).
  Proof. unfold here. destruct c as [q k]. cbn. rewrite andb_true_iff, Nat.eqb_eq, same_pixel_eq. split; [intros [-> ->]; auto|intros [= -> ->]; auto]. Qed.
  Definition after (fl : nat -> list nat -> bool) (l : list (list nat * nat)) (fl' : nat -> list nat -> bool) : Prop :=
    forall k p, fl' k p = fl k p && negb (existsb (fun c => here k p c && beaten c) l).
End Marks.

Definition beaten_high3 (sf : option nat) (hi lo : finder3) (c : list nat * nat) : bool :=
  (snd c =? layers hi) && (mark lo 1 (map (rescaled sf) (fst c)) && (pixel lo 1 (map (rescaled sf) (fst c)) <? pixel hi (snd c) (fst c))%Z).
Lemma drop_high3_ok sf hi lo : forall l fl, (forall p, In (p, layers hi) l -> within (sizes lo) (map (rescaled sf) p) = true /\ within (sizes hi) p = true) ->
  exists fl', drop_high3 sf hi lo l fl = Val (filter (fun c => negb (beaten_high3 sf hi lo c)) l, fl') /\ after (beaten_high3 sf hi lo) fl l fl'.
Proof.
  induction l as [|[p k] l IH]; intros fl Hin.
  - exists fl. split; [reflexivity|]. intros k p. cbn. now rewrite andb_true_r.
  - assert (Hin' : forall p, In (p, layers hi) l -> within (sizes lo) (map (rescaled sf) p) = true /\ within (sizes hi) p = true) by (intros; apply Hin; now right).
    cbn [drop_high3 filter]. cbv zeta.
    assert (K : beaten_high3 sf hi lo (p, k) = false ->
       exists fl', omap (fun x => ((p, k) :: fst x, snd x)) (drop_high3 sf hi lo l fl) = Val (if negb (beaten_high3 sf hi lo (p, k)) then (p, k) :: filter (fun c => negb (beaten_high3 sf hi lo c)) l else filter (fun c => negb (beaten_high3 sf hi lo c)) l, fl') /\
         after (beaten_high3 sf hi lo) fl ((p, k) :: l) fl').
    { intros E. rewrite E. cbn [negb]. destruct (IH fl Hin') as [fl' [E1 E2]]. rewrite E1. exists fl'. split; [reflexivity|].
      intros k' p'. rewrite E2. cbn [existsb]. rewrite E, andb_false_r. reflexivity. }
    destruct (Nat.eqb_spec k (layers hi)) as [->|Nk].
    + destruct (Hin p (or_introl eq_refl)) as [B1 B2]. rewrite B1, B2. cbn [andb].
      destruct (mark lo 1 (map (rescaled sf) p) && (pixel lo 1 (map (rescaled sf) p) <? pixel hi (layers hi) p)%Z) eqn:E.
      * assert (EB : beaten_high3 sf hi lo (p, layers hi) = true) by (unfold beaten_high3; cbn [fst snd]; rewrite Nat.eqb_refl; exact E).
        rewrite EB. cbn [negb]. destruct (IH (set_mark fl (layers hi) p false) Hin') as [fl' [E1 E2]]. rewrite E1. exists fl'. split; [reflexivity|].
        intros k' p'. rewrite E2. cbn [existsb]. rewrite EB, andb_true_r. unfold set_mark, here at 2. cbn [fst snd].
        destruct ((k' =? layers hi) && same_pixel p' p); cbn; [now rewrite andb_false_r|reflexivity].
      * apply K. unfold beaten_high3. cbn [fst snd]. rewrite Nat.eqb_refl. exact E.
    + apply K. unfold beaten_high3. cbn [fst snd]. destruct (Nat.eqb_spec k (layers hi)); [contradiction|reflexivity].
Qed.

(** The nested loops are one test over the box. *)
Fixpoint box_points (ws : list (list nat)) (p : list nat) : list (list nat) := match ws with [] => [p] | w :: ws' => flat_map (fun x => box_points ws' (x :: p)) w end.
Lemma scan_ok g : forall ws p b, scan ws p (fun b q => b && negb (g q)) b = b && negb (existsb g (box_points ws p)).
Proof.
  induction ws as [|w ws IH]; intros p b; cbn [scan box_points existsb]; [now rewrite orb_false_r|].
  assert (G : forall w b, fold_left (fun b x => scan ws (x :: p) (fun b q => b && negb (g q)) b) w b = b && negb (existsb g (flat_map (fun x => box_points ws (x :: p)) w))).
  { clear w b. induction w as [|x w IHw]; intros b; cbn [fold_left flat_map]; [cbn; now rewrite andb_true_r|]. rewrite IHw, IH, existsb_app, negb_orb, andb_assoc. reflexivity. }
  apply G.
Qed.
Lemma box_in : forall ws p q, In q (box_points ws p) <-> exists r, q = rev r ++ p /\ Forall2 (fun w x => In x w) ws r.
Proof.
  induction ws as [|w ws IH]; intros p q; cbn [box_points].
  - split; [intros [<-|[]]; exists []; split; auto|intros [r [-> F]]; inversion F; left; auto].
  - rewrite in_flat_map. split.
    + intros [x [I J]]. apply IH in J as [r [-> F]]. exists (x :: r). split; [cbn; rewrite <- app_assoc; auto|constructor; auto].
    + intros [r [-> F]]. inversion F as [|a x b r' I F']. subst. exists x. split; auto. apply IH. exists r'. split; auto. cbn. rewrite <- app_assoc. auto.
Qed.
Lemma Forall2_app_x {A B} (P : A -> B -> Prop) : forall l1 l2 r1 r2, Forall2 P l1 r1 -> Forall2 P l2 r2 -> Forall2 P (l1 ++ l2) (r1 ++ r2).
Proof. induction 1; cbn; auto. Qed.
Lemma Forall2_rev_x {A B} (P : A -> B -> Prop) l r : Forall2 P l r -> Forall2 P (rev l) (rev r).
Proof. induction 1; cbn; [constructor|]. apply Forall2_app_x; auto. Qed.
Lemma ranges_in s p sz q : length p = length sz -> (In q (box_points (ranges s p sz) []) <-> about3 s q p /\ Forall2 lt q sz).
Proof.
  intros L. rewrite box_in. unfold ranges. split.
  - intros [r [-> F]]. rewrite app_nil_r. apply Forall2_rev_x in F. rewrite rev_involutive in F. revert F. generalize (rev r). clear r. revert sz L.
    induction p as [|x p IH]; intros [|n sz] L l F; try discriminate; cbn in F.
    + inversion F. split; constructor.
    + inversion F as [|a y b l' I F']. subst. apply in_window in I. injection L as L. destruct (IH sz L l' F') as [A B]. split; constructor; tauto.
  - intros [A B]. exists (rev q). split; [rewrite rev_involutive, app_nil_r; auto|]. apply Forall2_rev_x. revert p L A. induction B as [|y n l sz H B IH]; intros [|x p] L A; try discriminate; cbn; [constructor|].
    inversion A. subst. injection L as L. constructor; [apply in_window; auto|auto].
Qed.

Definition beaten_low3 (s : nat) (hi lo : finder3) (c : list nat * nat) : bool :=
  (snd c =? 1) && existsb (fun q => mark hi (layers hi) q && (pixel hi (layers hi) q <? pixel lo 1 (fst c))%Z) (box_points (ranges s (fst c) (sizes hi)) []).
Lemma drop_low3_ok s hi lo : forall l fl,
  (forall p, In (p, 1) l -> within (sizes lo) p = true) -> (forall p, In (p, 1) l -> fl 1 p = negb (beaten_low3 s hi lo (p, 1)) \/ fl 1 p = true) ->
  exists fl', drop_low3 s hi lo l fl = Val (filter (fun c => negb (beaten_low3 s hi lo c)) l, fl') /\ after (beaten_low3 s hi lo) fl l fl'.
Proof.
  induction l as [|[p k] l IH]; intros fl Hin Hfl.
  - exists fl. split; [reflexivity|]. intros k p. cbn. now rewrite andb_true_r.
  - cbn [drop_low3 filter]. destruct (Nat.eqb_spec k 1) as [->|Nk].
    + rewrite (Hin p (or_introl eq_refl)). cbv zeta. rewrite scan_ok. set (b := _ && _).
      assert (Eb : b = negb (beaten_low3 s hi lo (p, 1))).
      { unfold b, beaten_low3. cbn [fst snd Nat.eqb andb]. destruct (Hfl p (or_introl eq_refl)) as [E|E]; rewrite E; [|reflexivity]. unfold beaten_low3. cbn [fst snd Nat.eqb andb]. now destruct (existsb _ _). }
      clearbody b. subst b. set (fl1 := set_mark fl 1 p (negb (beaten_low3 s hi lo (p, 1)))).
      destruct (IH fl1) as [fl' [E1 E2]].
      { intros p0 H0. apply Hin. now right. }
      { intros p0 H0. unfold fl1, set_mark. destruct ((1 =? 1) && same_pixel p0 p) eqn:E.
        - rewrite andb_true_iff, same_pixel_eq in E. destruct E as [_ ->]. now left.
        - apply Hfl. now right. }
      assert (FL : after (beaten_low3 s hi lo) fl ((p, 1) :: l) fl').
      { intros k' p'. rewrite E2. cbn [existsb]. unfold fl1, set_mark. unfold here at 2. cbn [fst snd].
        destruct ((k' =? 1) && same_pixel p' p) eqn:E; [|reflexivity]. cbn [andb]. rewrite andb_true_iff, Nat.eqb_eq, same_pixel_eq in E. destruct E as [-> ->].
        destruct (beaten_low3 s hi lo (p, 1)) eqn:EB; cbn; [now rewrite andb_false_r|]. destruct (Hfl p (or_introl eq_refl)) as [E|E]; rewrite E; rewrite ?EB; reflexivity. }
      destruct (beaten_low3 s hi lo (p, 1)) eqn:EB; cbn [negb]; [exists fl'; split; auto|]. rewrite E1. exists fl'. split; [reflexivity|exact FL].
    + assert (EB : beaten_low3 s hi lo (p, k) = false) by (unfold beaten_low3; cbn [fst snd]; destruct (Nat.eqb_spec k 1); [contradiction|reflexivity]).
      rewrite EB. cbn [negb]. destruct (IH fl) as [fl' [E1 E2]]; [intros p0 H0; apply Hin; now right|intros p0 H0; apply Hfl; now right|].
      rewrite E1. exists fl'. split; [reflexivity|]. intros k' p'. rewrite E2. cbn [existsb]. rewrite EB, andb_false_r. reflexivity.
Qed.
Lemma shows3_filter f k beaten fl' : shows3 f k -> after beaten (mark f) (found f) fl' -> shows3 (with_marks f (filter (fun c => negb (beaten c)) (found f), fl')) k.
Proof.
  intros [S1 S2] H. split; cbn.
  - intros p. rewrite H, andb_true_iff, negb_true_iff, S1, filter_In, negb_true_iff. split.
    + intros [I E]. split; [exact I|]. destruct (beaten (p, k)) eqn:EK; [|reflexivity].
      assert (X : existsb (fun c => here k p c && beaten c) (found f) = true); [|congruence]. apply existsb_exists. exists (p, k). split; [exact I|]. rewrite EK, (proj2 (here_eq k p (p, k)) eq_refl). reflexivity.
    + intros [I E]. split; [exact I|]. destruct (existsb _ (found f)) eqn:X; [|reflexivity]. apply existsb_exists in X. destruct X as [c [_ X]]. apply andb_true_iff in X. destruct X as [X1 X2]. apply here_eq in X1. subst c. congruence.
  - intros p I. apply filter_In in I. apply S2, I.
Qed.
Lemma Forall2_len_x {A B} (P : A -> B -> Prop) l r : Forall2 P l r -> length l = length r. Proof. induction 1; cbn; auto. Qed.
Lemma nearest_all s p : 0 < s -> same_place3 s p (map (rescaled (Some s)) p).
Proof. intros H. induction p as [|x p IH]; cbn [map]; constructor; auto. apply rescaled_nearest. exact H. Qed.
Lemma nearest_all_unique s p q : 0 < s -> same_place3 s p q -> map (rescaled (Some s)) p = q.
Proof. intros H. induction 1; cbn [map]; f_equal; auto. apply (nearest_unique s x); auto. apply rescaled_nearest. exact H. Qed.

(** C130, called on the finder of high resolution: as C98, for any number of coordinates. *)
Theorem C130_removes hi lo : columns lo <> 0 -> 1 < columns hi / columns lo -> length (sizes hi) = length (sizes lo) -> shows3 hi (layers hi) -> shows3 lo 1 -> fits3 (columns hi / columns lo) hi lo ->
  exists hi' lo', seam_binary3 hi lo = Val (hi', lo') /\ same_images3 hi hi' /\ same_images3 lo lo' /\ shows3 hi' (layers hi) /\ shows3 lo' 1 /\
    (exists keep, found hi' = filter keep (found hi) /\ forall c, snd c <> layers hi -> keep c = true) /\
    (exists keep, found lo' = filter keep (found lo) /\ forall c, snd c <> 1 -> keep c = true) /\
    (forall k p, k <> layers hi -> mark hi' k p = mark hi k p) /\ (forall k p, k <> 1 -> mark lo' k p = mark lo k p) /\
  (* no pair at the same place with different values survives *)
  (forall h l, In h (found hi') -> In l (found lo') -> snd h = layers hi -> snd l = 1 -> same_place3 (columns hi / columns lo) (fst h) (fst l) -> value_at hi h = value_at lo l) /\
  (* near a surviving centre of the low resolution, no centre of the high resolution is lower *)
  (forall h l, In h (found hi') -> In l (found lo') -> snd h = layers hi -> snd l = 1 -> about3 (columns hi / columns lo) (fst h) (fst l) -> (value_at lo l <= value_at hi h)%Z) /\
  (* for each removed centre a lower one survives near by *)
  (forall l, In l (found lo) -> ~ In l (found lo') -> exists h, In h (found hi') /\ snd h = layers hi /\ about3 (columns hi / columns lo) (fst h) (fst l) /\ (value_at hi h < value_at lo l)%Z) /\
  (forall h, In h (found hi) -> ~ In h (found hi') -> exists l, In l (found lo) /\ snd l = 1 /\ same_place3 (columns hi / columns lo) (fst h) (fst l) /\ (value_at lo l < value_at hi h)%Z /\
     (In l (found lo') \/ exists h', In h' (found hi') /\ snd h' = layers hi /\ about3 (columns hi / columns lo) (fst h') (fst l) /\ (value_at hi h' < value_at lo l)%Z)).
Proof.
  intros Hc Hs Hdim Sh Sl Fit. set (s := columns hi / columns lo) in *. assert (S0 : 0 < s) by lia.
  assert (ES : seam_binary3 hi lo = eliminate3 (Some s) hi lo).
  { unfold seam_binary3. destruct (columns lo) as [|w] eqn:E; [contradiction|]. fold s. destruct s as [|[|s']]; [lia|lia|reflexivity]. }
  destruct (drop_high3_ok (Some s) hi lo (found hi) (mark hi)) as [fl1 [E1 F1]].
  { intros p I. split; apply within_lt; [|apply (proj2 Sh), I]. specialize (Fit p I). revert Fit. generalize (sizes lo). clear - S0. intros sz F. induction F as [|x n p sz H F IH]; cbn [map]; constructor; auto.
    pose proof (rescaled_nearest s x S0) as N. unfold nearest in N. nia. }
  set (hi' := with_marks hi (filter (fun c => negb (beaten_high3 (Some s) hi lo c)) (found hi), fl1)).
  assert (Sh' : shows3 hi' (layers hi)) by (apply shows3_filter; auto).
  destruct (drop_low3_ok s hi' lo (found lo) (mark lo)) as [fl2 [E2 F2]].
  { intros p I. apply within_lt, (proj2 Sl), I. }
  { intros p I. right. apply (proj1 Sl), I. }
  set (lo' := with_marks lo (filter (fun c => negb (beaten_low3 s hi' lo c)) (found lo), fl2)).
  assert (Sl' : shows3 lo' 1) by (apply shows3_filter; auto).
  assert (LOW : forall l, In l (found lo) -> (beaten_low3 s hi' lo l = true <-> snd l = 1 /\ exists h, In h (found hi') /\ snd h = layers hi /\ about3 s (fst h) (fst l) /\ (value_at hi h < value_at lo l)%Z)).
  { intros [p k] Il. unfold beaten_low3. rewrite andb_true_iff, Nat.eqb_eq, existsb_exists. cbn [fst snd]. split.
    - intros [-> [q [W E]]]. split; [reflexivity|]. apply andb_true_iff in E. destruct E as [Fl V]. apply ranges_in in W; [|change (sizes hi') with (sizes hi); rewrite Hdim; apply Forall2_len_x with (P := lt), (proj2 Sl), Il]. apply Z.ltb_lt in V.
      change (layers hi') with (layers hi) in Fl, V. apply (proj1 Sh') in Fl. exists (q, layers hi). split; [exact Fl|]. split; [reflexivity|]. split; [apply W|exact V].
    - intros [-> [[q k'] [I [L [A V]]]]]. cbn in L, A. subst k'. split; [reflexivity|]. exists q. split.
      + apply ranges_in; [change (sizes hi') with (sizes hi); rewrite Hdim; apply Forall2_len_x with (P := lt), (proj2 Sl), Il|]. split; [exact A|]. apply (proj2 Sh' q I).
      + apply andb_true_iff. split; [apply (proj1 Sh'); exact I|apply Z.ltb_lt; exact V]. }
  assert (HIGH : forall h, In h (found hi) -> (beaten_high3 (Some s) hi lo h = true <-> snd h = layers hi /\ exists l, In l (found lo) /\ snd l = 1 /\ same_place3 s (fst h) (fst l) /\ (value_at lo l < value_at hi h)%Z)).
  { intros [p k] I0. unfold beaten_high3. rewrite !andb_true_iff, Nat.eqb_eq. cbn [fst snd]. split.
    - intros [-> [Fl V]]. split; [reflexivity|]. apply (proj1 Sl) in Fl. exists (map (rescaled (Some s)) p, 1). split; [exact Fl|]. split; [reflexivity|]. split; [apply nearest_all; auto|apply Z.ltb_lt; exact V].
    - intros [-> [[q k2] [I [L [P V]]]]]. cbn in L, P. subst k2. rewrite (nearest_all_unique s p q S0 P). split; [reflexivity|]. split; [apply (proj1 Sl), I|apply Z.ltb_lt; exact V]. }
  exists hi', lo'. split.
  { rewrite ES. unfold eliminate3. rewrite E1. cbn [obind]. fold hi'. rewrite E2. reflexivity. }
  split; [repeat split|]. split; [repeat split|]. split; [exact Sh'|]. split; [exact Sl'|].
  split. { eexists. split; [reflexivity|]. intros [p k] L. cbn in L. unfold beaten_high3. cbn [snd]. destruct (Nat.eqb_spec k (layers hi)); [contradiction|reflexivity]. }
  split. { eexists. split; [reflexivity|]. intros [p k] L. cbn in L. unfold beaten_low3. cbn [snd]. destruct (Nat.eqb_spec k 1); [contradiction|reflexivity]. }
  split.
  { intros k p Nk. cbn. rewrite F1. destruct (existsb _ (found hi)) eqn:X; [|apply andb_true_r].
    apply existsb_exists in X. destruct X as [c [_ X]]. apply andb_true_iff in X. destruct X as [X1 X2]. apply here_eq in X1. subst c. unfold beaten_high3 in X2. cbn [snd] in X2. destruct (Nat.eqb_spec k (layers hi)); [contradiction|discriminate]. }
  split.
  { intros k p Nk. cbn. rewrite F2. destruct (existsb _ (found lo)) eqn:X; [|apply andb_true_r].
    apply existsb_exists in X. destruct X as [c [_ X]]. apply andb_true_iff in X. destruct X as [X1 X2]. apply here_eq in X1. subst c. unfold beaten_low3 in X2. cbn [snd] in X2. destruct (Nat.eqb_spec k 1); [contradiction|discriminate]. }
  assert (KEEPL : forall l, In l (found lo') <-> In l (found lo) /\ beaten_low3 s hi' lo l = false). { intros l. cbn. rewrite filter_In, negb_true_iff. reflexivity. }
  assert (KEEPH : forall h, In h (found hi') <-> In h (found hi) /\ beaten_high3 (Some s) hi lo h = false). { intros h. cbn. rewrite filter_In, negb_true_iff. reflexivity. }
  assert (NEARL : forall h l, In h (found hi') -> In l (found lo') -> snd h = layers hi -> snd l = 1 -> about3 s (fst h) (fst l) -> (value_at lo l <= value_at hi h)%Z).
  { intros h l Ih Il Lh Ll A. destruct (Z_lt_le_dec (value_at hi h) (value_at lo l)) as [V|V]; [|exact V]. exfalso.
    apply KEEPL in Il. assert (beaten_low3 s hi' lo l = true); [|destruct Il; congruence]. apply LOW; [apply Il|]. split; [exact Ll|]. exists h. auto. }
  split; [|split; [exact NEARL|split]].
  - intros h l Ih Il Lh Ll P. apply Z.le_antisymm.
    + destruct (Z_lt_le_dec (value_at lo l) (value_at hi h)) as [V|V]; [|exact V]. exfalso.
      apply KEEPH in Ih. assert (X : beaten_high3 (Some s) hi lo h = true); [|destruct Ih; congruence].
      apply HIGH; [apply Ih|]. split; [exact Lh|]. exists l. split; [apply KEEPL, Il|]. auto.
    + apply NEARL; auto. clear - P S0. induction P; constructor; auto. apply nearest_window; auto.
  - intros l Il Nl. destruct (beaten_low3 s hi' lo l) eqn:EB; [|exfalso; apply Nl, KEEPL; auto]. apply (LOW l Il) in EB. apply EB.
  - intros h Ih Nh. destruct (beaten_high3 (Some s) hi lo h) eqn:EB; [|exfalso; apply Nh, KEEPH; auto].
    apply (HIGH h Ih) in EB. destruct EB as [_ [l [Il [Ll [P V]]]]]. exists l. split; [exact Il|]. split; [exact Ll|]. split; [exact P|]. split; [exact V|].
    destruct (beaten_low3 s hi' lo l) eqn:EL; [|left; apply KEEPL; auto]. right. apply (LOW l Il) in EL. apply EL.
Qed.

(** In the other order the call is undefined as soon as the finder of low resolution has a centre in its first layer. *)
Theorem C130_reversed_refuted lo hi : columns lo < columns hi -> (exists p, In (p, 1) (found lo)) -> (forall p, In (p, layers hi) (found hi) -> Forall2 lt p (sizes hi)) ->
  length (sizes hi) = length (sizes lo) -> Forall (lt 0) (sizes lo) -> seam_binary3 lo hi = UB.
Proof.
  intros H [q Iq] Hin L P. unfold seam_binary3. destruct (columns hi) as [|w] eqn:E; [lia|]. rewrite Nat.div_small by lia. unfold eliminate3.
  destruct (drop_high3_ok None hi lo (found hi) (mark hi)) as [fl [E1 _]].
  { intros p I. specialize (Hin p I). split; apply within_lt; auto. apply Forall2_len_x in Hin. rewrite L in Hin. clear - Hin P. revert p Hin. induction P as [|n sz Hn P IH]; intros [|x p] L; try discriminate; cbn [map]; constructor; auto. }
  rewrite E1. cbn [obind]. replace (existsb (fun c => snd c =? 1) (found lo)) with true; [reflexivity|]. symmetry. apply existsb_exists. exists (q, 1). auto.
Qed.
(** Same number of columns: the other finder is that of the last layer. *)
Theorem C130_same_size a b : columns b <> 0 -> columns a / columns b = 1 -> seam_binary3 a b = omap (fun x => (snd x, fst x)) (eliminate3 (Some 1) b a).
Proof. intros H E. unfold seam_binary3. rewrite E. destruct (columns b); [contradiction|reflexivity]. Qed.

(** A case in three dimensions: two overlapping centres, the one of low resolution is the lowest; another centre of high resolution stays. *)
Definition ex_hi3 : finder3 := {| layers := 3; sizes := [8; 8; 8]; pixel := fun k p => if (k =? 3) && same_pixel p [4; 5; 2] then (-5)%Z else 0%Z;
  mark := fun k p => (k =? 3) && same_pixel p [4; 5; 2] || (k =? 2) && same_pixel p [3; 3; 3]; found := [([3; 3; 3], 2); ([4; 5; 2], 3)] |}.
Definition ex_lo3 : finder3 := {| layers := 3; sizes := [4; 4; 4]; pixel := fun k p => if (k =? 1) && same_pixel p [2; 3; 1] then (-6)%Z else 0%Z;
  mark := fun k p => (k =? 1) && same_pixel p [2; 3; 1]; found := [([2; 3; 1], 1)] |}.
Example C130_case : columns ex_lo3 <> 0 /\ 1 < columns ex_hi3 / columns ex_lo3 /\ shows3 ex_hi3 (layers ex_hi3) /\ shows3 ex_lo3 1 /\ fits3 (columns ex_hi3 / columns ex_lo3) ex_hi3 ex_lo3 /\
  match seam_binary3 ex_hi3 ex_lo3 with Val (h, l) => found h = [([3; 3; 3], 2)] /\ found l = [([2; 3; 1], 1)] | _ => False end.
Proof.
  split; [discriminate|]. split; [vm_compute; lia|]. split; [|split; [|split]].
  - split; cbn [mark found layers ex_hi3 sizes].
    + intros p. cbn [Nat.eqb andb]. rewrite orb_false_r, same_pixel_eq. split; [intros ->; right; left; reflexivity|]. intros [[=]|[[= <-]|[]]]. reflexivity.
    + intros p [[=]|[[= <-]|[]]]. repeat constructor.
  - split; cbn [mark found ex_lo3 sizes].
    + intros p. cbn [Nat.eqb andb]. rewrite same_pixel_eq. split; [intros ->; left; reflexivity|]. intros [[= <-]|[]]. reflexivity.
    + intros p [[= <-]|[]]. repeat constructor.
  - intros p [[=]|[[= <-]|[]]]. vm_compute. repeat constructor.
  - vm_compute. auto.
Qed.
(** In one dimension: the centre of high resolution is the lowest of the two. *)
Definition ex_hi1 : finder3 := {| layers := 3; sizes := [9]; pixel := fun k p => if (k =? 3) && same_pixel p [5] then (-7)%Z else 0%Z; mark := fun k p => (k =? 3) && same_pixel p [5]; found := [([5], 3)] |}.
Definition ex_lo1 : finder3 := {| layers := 3; sizes := [4]; pixel := fun k p => if (k =? 1) && same_pixel p [2] then (-6)%Z else 0%Z; mark := fun k p => (k =? 1) && same_pixel p [2]; found := [([2], 1)] |}.
Example C130_case_1D : fits3 (columns ex_hi1 / columns ex_lo1) ex_hi1 ex_lo1 /\ match seam_binary3 ex_hi1 ex_lo1 with Val (h, l) => found h = [([5], 3)] /\ found l = [] | _ => False end /\ seam_binary3 ex_lo1 ex_hi1 = UB.
Proof. split; [intros p [[= <-]|[]]; vm_compute; repeat constructor|]. vm_compute. auto. Qed.
Print Assumptions C130_removes. Print Assumptions C130_reversed_refuted. Print Assumptions C130_same_size.

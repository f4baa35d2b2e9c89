(** Proofs about time correlations. *)
Require Import ZArith List Bool Arith Lia.
Require Import Verif.Base Verif.ListX Verif.RTree_Model Verif.Traj_Model Verif.Traj_Spec Verif.Traj_Proofs Verif.Cluster_Spec Verif.Particles_Model Verif.Dyn_Model Verif.Dyn_Spec Verif.Dyn_Proofs Verif.Drift_Proofs Verif.Corr_Model Verif.Corr_Spec.
Import ListNotations.
Local Open Scope nat_scope.

Lemma ofold_ok {A W} (f : A -> W -> outcome W) (h : A -> W -> W) : forall l w, (forall a v, In a l -> f a v = Val (h a v)) -> ofold f l w = Val (fold_left (fun v a => h a v) l w).
Proof. induction l as [|a l IH]; intros w H; simpl; auto. rewrite H by (simpl; auto). simpl. apply IH. intros; apply H; simpl; auto. Qed.
Lemma fold_left_map_x {A B W} (f : W -> B -> W) (g : A -> B) : forall l w, fold_left f (map g l) w = fold_left (fun v a => f v (g a)) l w.
Proof. induction l; intros; simpl; auto. Qed.

Definition lag (dt : nat) (ab : nat * nat) : bool := snd ab - fst ab =? dt.
Lemma accumulate_ok {W} (g : nat -> nat -> W -> outcome W) (h : nat -> nat -> W -> W) : forall ps ws ks,
  (forall a b w, In (a, b) ps -> g a b w = Val (h a b w)) -> (forall a b, In (a, b) ps -> b - a < length ws /\ b - a < length ks) ->
  exists ws' ks', accumulate g ps (ws, ks) = Val (ws', ks') /\ length ws' = length ws /\ length ks' = length ks /\
    (forall dt w, nth_error ws dt = Some w -> nth_error ws' dt = Some (fold_left (fun v ab => h (fst ab) (snd ab) v) (filter (lag dt) ps) w)) /\
    (forall dt k, nth_error ks dt = Some k -> nth_error ks' dt = Some (k + length (filter (lag dt) ps))).
Proof.
  induction ps as [|[a b] ps IH]; intros ws ks Hg Hr.
  - exists ws, ks. simpl. repeat split; auto. intros. rewrite Nat.add_0_r. auto.
  - cbn [accumulate fst snd]. destruct (Hr a b (or_introl eq_refl)) as [Hw Hk]. destruct (nth_error_ex ws (b - a) Hw) as [w Ew]. destruct (nth_error_ex ks (b - a) Hk) as [k Ek]. rewrite Ew, Ek.
    rewrite Hg by (simpl; auto). cbn [obind]. destruct (IH (set_nth (b - a) (h a b w) ws) (set_nth (b - a) (S k) ks)) as [ws' [ks' [E [L1 [L2 [F1 F2]]]]]].
    + intros; apply Hg; simpl; auto.
    + intros; rewrite !set_nth_len; apply Hr; simpl; auto.
    + rewrite set_nth_len in L1. rewrite set_nth_len in L2. exists ws', ks'. repeat (split; auto).
      * intros dt v Hv. cbn [filter]. unfold lag at 1. cbn [fst snd]. destruct (Nat.eqb_spec (b - a) dt) as [<-|Hne].
        -- cbn [fold_left fst snd]. apply F1. rewrite set_nth_get by auto. rewrite Nat.eqb_refl. assert (v = w) by congruence. subst. auto.
        -- apply F1. rewrite set_nth_get by auto. rewrite (proj2 (Nat.eqb_neq dt (b - a))) by auto. auto.
      * intros dt v Hv. cbn [filter]. unfold lag at 1. cbn [fst snd]. destruct (Nat.eqb_spec (b - a) dt) as [<-|Hne].
        -- cbn [length]. replace (v + S (length (filter (lag (b - a)) ps))) with (S v + length (filter (lag (b - a)) ps)) by lia. apply F2. rewrite set_nth_get by auto. rewrite Nat.eqb_refl.
           assert (v = k) by congruence. subst. auto.
        -- apply F2. rewrite set_nth_get by auto. rewrite (proj2 (Nat.eqb_neq dt (b - a))) by auto. auto.
Qed.

Lemma pairs_in t0 t1 a b : In (a, b) (pairs t0 t1) <-> t0 <= a < b /\ b <= t1.
Proof.
  unfold pairs. rewrite in_flat_map. split.
  - intros [a' [Ha Hb]]. apply in_seq in Ha. apply in_map_iff in Hb. destruct Hb as [b' [E Hb]]. apply in_seq in Hb. injection E as -> ->. lia.
  - intros H. exists a. split; [apply in_seq; lia|]. apply in_map_iff. exists b. split; auto. apply in_seq. lia.
Qed.
Lemma filter_flat_map {A B} (f : B -> bool) (g : A -> list B) l : filter f (flat_map g l) = flat_map (fun a => filter f (g a)) l.
Proof. induction l; simpl; auto. rewrite filter_app, IHl. auto. Qed.
Lemma filter_row dt a : forall n s, a < s -> filter (lag dt) (map (fun b => (a, b)) (seq s n)) = if (s <=? a + dt) && (a + dt <? s + n) then [(a, a + dt)] else [].
Proof.
  induction n as [|n IH]; intros s Hs; cbn [seq map filter].
  - destruct (Nat.leb_spec s (a + dt)), (Nat.ltb_spec (a + dt) (s + 0)); simpl; auto; lia.
  - rewrite IH by lia. unfold lag at 1. cbn [fst snd]. destruct (Nat.eqb_spec (s - a) dt) as [E|E].
    + replace (a + dt) with s by lia. destruct (Nat.leb_spec (S s) s), (Nat.leb_spec s s), (Nat.ltb_spec s (s + S n)); simpl; auto; lia.
    + destruct (Nat.leb_spec (S s) (a + dt)), (Nat.ltb_spec (a + dt) (S s + n)), (Nat.leb_spec s (a + dt)), (Nat.ltb_spec (a + dt) (s + S n)); simpl; auto; lia.
Qed.
Lemma pairs_lag t0 t1 dt : 0 < dt -> filter (lag dt) (pairs t0 t1) = map (fun a => (a, a + dt)) (seq t0 (t1 + 1 - t0 - dt)).
Proof.
  intros Hd. unfold pairs. rewrite filter_flat_map.
  assert (G : forall m s, s + m = t1 -> flat_map (fun a => filter (lag dt) (map (fun b => (a, b)) (seq (S a) (t1 - a)))) (seq s m) = map (fun a => (a, a + dt)) (seq s (t1 + 1 - s - dt))).
  { induction m as [|m IH]; intros s Hs; cbn [seq flat_map].
    - replace (t1 + 1 - s - dt) with 0 by lia. auto.
    - rewrite IH by lia. rewrite filter_row by lia. destruct (Nat.leb_spec (S s) (s + dt)); [|lia]. destruct (Nat.ltb_spec (s + dt) (S s + (t1 - s))); cbn [andb app].
      + replace (t1 + 1 - s - dt) with (S (t1 + 1 - S s - dt)) by lia. auto.
      + replace (t1 + 1 - s - dt) with 0 by lia. replace (t1 + 1 - S s - dt) with 0 by lia. auto. }
  destruct (Nat.le_gt_cases t0 t1) as [H|H]; [apply G; lia|]. replace (t1 - t0) with 0 by lia. replace (t1 + 1 - t0 - dt) with 0 by lia. auto.
Qed.
Lemma pairs_lag0 t0 t1 : filter (lag 0) (pairs t0 t1) = [].
Proof.
  assert (G : forall l, (forall a b, In (a, b) l -> a < b) -> filter (lag 0) l = []).
  { induction l as [|[a b] l IH]; intros H; auto. cbn [filter]. unfold lag at 1. cbn [fst snd]. assert (a < b) by (apply H; simpl; auto). destruct (Nat.eqb_spec (b - a) 0); [lia|]. apply IH. intros; apply H; simpl; auto. }
  apply G. intros a b H. apply pairs_in in H. lia.
Qed.
(** The greedy average: the sum of each lag over its time origins, and their number. *)
Lemma accumulate_pairs {W} (g : nat -> nat -> W -> outcome W) (h : nat -> nat -> W -> W) (w0 : W) t0 t1 : t0 <= t1 ->
  (forall a b w, t0 <= a < b -> b <= t1 -> g a b w = Val (h a b w)) ->
  exists ws ks, accumulate g (pairs t0 t1) (repeat w0 (t1 - t0 + 1), 1 :: repeat 0 (t1 - t0)) = Val (ws, ks) /\ length ws = t1 - t0 + 1 /\ length ks = t1 - t0 + 1 /\
    nth_error ws 0 = Some w0 /\ nth_error ks 0 = Some 1 /\
    forall dt, 0 < dt <= t1 - t0 -> nth_error ws dt = Some (fold_left (fun w a => h a (a + dt) w) (seq t0 (t1 + 1 - t0 - dt)) w0) /\ nth_error ks dt = Some (t1 + 1 - t0 - dt).
Proof.
  intros Ht Hg. destruct (accumulate_ok g h (pairs t0 t1) (repeat w0 (t1 - t0 + 1)) (1 :: repeat 0 (t1 - t0))) as [ws [ks [E [L1 [L2 [F1 F2]]]]]].
  - intros a b w Hin. apply pairs_in in Hin. apply Hg; lia.
  - intros a b Hin. apply pairs_in in Hin. rewrite repeat_length. cbn [length]. rewrite repeat_length. lia.
  - exists ws, ks. rewrite repeat_length in L1. cbn [length] in L2. rewrite repeat_length in L2. split; [auto|]. split; [auto|]. split; [lia|]. split; [|split].
    + rewrite (F1 0 w0) by (apply nth_error_repeat_x; lia). rewrite pairs_lag0. auto.
    + rewrite (F2 0 1) by auto. rewrite pairs_lag0. auto.
    + intros dt Hdt. rewrite (F1 dt w0) by (apply nth_error_repeat_x; lia). rewrite (F2 dt 0).
      * rewrite pairs_lag by lia. rewrite fold_left_map_x, map_length, seq_length. auto.
      * destruct dt; [lia|]. cbn [nth_error]. apply nth_error_repeat_x. lia.
Qed.

Section Terms.
  Variables (P V : Type) (zero : V) (add : V -> V -> V) (divn : V -> nat -> V) (sqd : P -> P -> V).
  Variables (frames : list (list P)) (ti : trajindex).
  Hypothesis Hc : consistent ti.
  Hypothesis Hsh : shape ti frames.
  Lemma place_ok tr T t p : nth_error (trajs ti) tr = Some T -> at_time T t p -> exists x, place P frames ti tr t = Val x /\ value_at frames T t x.
  Proof.
    intros HT Hp. destruct (value_ex ti frames tr T t p Hc Hsh HT Hp) as [x Hx]. exists x. split; auto. unfold place. rewrite HT. apply position_val; auto. exact (proj2 Hc tr T HT).
  Qed.
  Lemma square_disp_ok tr T a b p q : nth_error (trajs ti) tr = Some T -> at_time T a p -> at_time T b q ->
    exists x y, square_disp P V sqd frames ti tr a b = Val (sqd x y) /\ value_at frames T a x /\ value_at frames T b y.
  Proof.
    intros HT Ha Hb. destruct (place_ok tr T a p HT Ha) as [x [Ex Hx]]. destruct (place_ok tr T b q HT Hb) as [y [Ey Hy]]. exists x, y. unfold square_disp. rewrite Ex, Ey. auto.
  Qed.

  Lemma get_sd_ok sel a b : present ti sel a -> present ti sel b -> exists v, get_sd P V zero add sqd frames ti sel a b = Val v /\ sum_sd zero add sqd frames ti sel a b v.
  Proof.
    intros Ha Hb. unfold get_sd, sum_sd. generalize zero. induction sel as [|tr sel IH]; intros z; cbn [ofold].
    - exists z. split; auto. exists [], []. repeat split; constructor.
    - destruct (Ha tr (or_introl eq_refl)) as [T [p [HT Hp]]]. destruct (Hb tr (or_introl eq_refl)) as [T' [q [HT' Hq]]]. assert (T' = T) by congruence. subst T'.
      destruct (square_disp_ok tr T a b p q HT Hp Hq) as [x [y [E [Hx Hy]]]]. rewrite E. cbn [omap obind].
      destruct (IH (fun k Hk => Ha k (or_intror Hk)) (fun k Hk => Hb k (or_intror Hk)) (add z (sqd x y))) as [v [Ev [ps [qs [F [G Ef]]]]]]. exists v. split; auto. exists (x :: ps), (y :: qs). split; [constructor; eauto|]. split; [constructor; eauto|auto].
  Qed.
  Lemma places_ok sel t : present ti sel t -> exists ps, osequence (map (fun tr => place P frames ti tr t) sel) = Val ps /\ placed frames ti sel t ps /\ length ps = length sel /\
    forall (W : Type) (f : W -> P -> W) (w : W), ofold (fun tr w => omap (f w) (place P frames ti tr t)) sel w = Val (fold_left f ps w).
  Proof.
    induction sel as [|tr sel IH]; intros Hp.
    - exists []. split; [reflexivity|]. split; [constructor|auto].
    - destruct IH as [ps [E [F [L G]]]]; [intros k Hk; apply Hp; right; auto|]. destruct (Hp tr (or_introl eq_refl)) as [T [p [HT Ht]]]. destruct (place_ok tr T t p HT Ht) as [x [Ex Hx]].
      exists (x :: ps). cbn [map osequence]. rewrite Ex. cbn [omap obind] in *. rewrite E. cbn. split; auto. split; [constructor; eauto|]. split; [cbn; auto|]. intros W f w. rewrite Ex. cbn [omap obind]. rewrite G. auto.
  Qed.
End Terms.

(** Where the values of a function on times, defined by a partial computation, come from. *)
Definition value_of {V} (d : V) (o : outcome V) : V := match o with Val v => v | _ => d end.

Lemma combine_nth {A B} (l : list A) (m : list B) k a b : nth_error l k = Some a -> nth_error m k = Some b -> nth_error (combine l m) k = Some (a, b).
Proof. intros H1 H2. apply combine_nth_error. auto. Qed.

Lemma osequence_map_ok {A B} (f : A -> outcome B) (h : A -> B) : forall l, (forall a, In a l -> f a = Val (h a)) -> osequence (map f l) = Val (map h l).
Proof. induction l as [|a l IH]; intros H; [reflexivity|]. cbn [map osequence]. rewrite H by (left; auto). rewrite IH by (intros; apply H; right; auto). reflexivity. Qed.
Lemma fold_left_flat_map {A B W} (f : W -> B -> W) (g : A -> list B) : forall l w, fold_left f (flat_map g l) w = fold_left (fun v a => fold_left f (g a) v) l w.
Proof. induction l; intros; simpl; auto. rewrite fold_left_app. auto. Qed.
Lemma fold_left_ext_in {A W} (f g : W -> A -> W) : forall l w, (forall v a, In a l -> f v a = g v a) -> fold_left f l w = fold_left g l w.
Proof. induction l as [|a l IH]; intros w H; simpl; auto. rewrite H by (left; auto). apply IH. intros; apply H; right; auto. Qed.
Lemma fold_const_repeat {A V} (add : V -> V -> V) (c : V) (l : list A) : forall w, fold_left (fun w _ => add w c) l w = fold_left add (repeat c (length l)) w.
Proof. induction l; intros; simpl; auto. Qed.

Lemma accumulate_ub {W} (g : nat -> nat -> W -> outcome W) : forall ps ws ks, (forall a b w, g a b w <> Throw) -> (exists a b, In (a, b) ps /\ length ws <= b - a) -> accumulate g ps (ws, ks) = UB.
Proof.
  induction ps as [|[a b] ps IH]; intros ws ks Hg [a' [b' [Hin Hl]]]; [destruct Hin|]. cbn [accumulate fst snd].
  destruct (nth_error ws (b - a)) as [w|] eqn:Ew; auto. destruct (nth_error ks (b - a)) as [k|]; auto. specialize (Hg a b w) as Hgw. destruct (g a b w) as [w'| |]; [|congruence|auto]. cbn [obind].
  apply IH; auto. exists a', b'. rewrite set_nth_len. split; auto. destruct Hin as [E|Hin]; auto. injection E as -> ->. apply nth_error_lt in Ew. lia.
Qed.
Lemma ofold_no_throw {A W} (f : A -> W -> outcome W) : forall l w, (forall a v, f a v <> Throw) -> ofold f l w <> Throw.
Proof. induction l as [|a l IH]; intros w H; cbn [ofold]; [discriminate|]. specialize (H a w) as Ha. destruct (f a w); [apply IH; auto|congruence|discriminate]. Qed.

Section Waves.
  Variables (P Wave : Type) (wadd : Wave -> Wave -> Wave) (wave : P -> Wave) (frames : list (list P)) (ti : trajindex) (sel : list nat).
  Hypothesis Hc : consistent ti.
  Hypothesis Hsh : shape ti frames.
  Lemma isf_data_ok (W : nat -> list P) : forall m s ws, s + m <= length ws -> (forall t, s <= t < s + m -> forall (w : Wave), ofold (fun tr w => omap (fun p => wadd w (wave p)) (place P frames ti tr t)) sel w = Val (fold_left (fun w p => wadd w (wave p)) (W t) w)) ->
    exists ws', isf_data P Wave wadd wave frames ti sel (seq s m) ws = Val ws' /\ length ws' = length ws /\
      forall t w, nth_error ws t = Some w -> nth_error ws' t = Some (if (s <=? t) && (t <? s + m) then fold_left (fun w p => wadd w (wave p)) (W t) w else w).
  Proof.
    induction m as [|m IH]; intros s ws Hl Hw; cbn [seq isf_data].
    - exists ws. repeat split; auto. intros t w Ht. destruct (Nat.leb_spec s t), (Nat.ltb_spec t (s + 0)); cbn [andb]; auto; lia.
    - destruct (nth_error_ex ws s) as [w0 E0]; [lia|]. rewrite E0. rewrite Hw by lia. cbn [obind]. destruct (IH (S s) (set_nth s (fold_left (fun w p => wadd w (wave p)) (W s) w0) ws)) as [ws' [E [L F]]].
      + rewrite set_nth_len. lia.
      + intros t Ht. apply Hw. lia.
      + exists ws'. rewrite set_nth_len in L. repeat (split; auto). intros t w Ht. destruct (Nat.eq_dec t s) as [->|Hts].
        * rewrite (F s (fold_left (fun w p => wadd w (wave p)) (W s) w0)) by (rewrite set_nth_get by (apply nth_error_lt in E0; lia); rewrite Nat.eqb_refl; auto).
          destruct (Nat.leb_spec (S s) s), (Nat.leb_spec s s), (Nat.ltb_spec s (s + S m)); cbn [andb]; try lia. congruence.
        * rewrite (F t w) by (rewrite set_nth_get by (apply nth_error_lt in E0; lia); rewrite (proj2 (Nat.eqb_neq t s)) by auto; auto).
          destruct (Nat.leb_spec (S s) t), (Nat.leb_spec s t), (Nat.ltb_spec t (S s + m)), (Nat.ltb_spec t (s + S m)); cbn [andb]; auto; lia.
  Qed.
  Lemma isf_data_ub : forall ts ws, (forall t, In t ts -> forall (w : Wave), exists w', ofold (fun tr w => omap (fun p => wadd w (wave p)) (place P frames ti tr t)) sel w = Val w') -> (exists t, In t ts /\ length ws <= t) ->
    isf_data P Wave wadd wave frames ti sel ts ws = UB.
  Proof.
    induction ts as [|t ts IH]; intros ws Hw [t' [Hin Hl]]; [destruct Hin|]. cbn [isf_data]. destruct (nth_error ws t) as [w|] eqn:E; auto. destruct (Hw t (or_introl eq_refl) w) as [w' ->]. cbn [obind].
    apply IH; [intros; apply Hw; right; auto|]. exists t'. rewrite set_nth_len. split; auto. destruct Hin as [->|Hin]; auto. apply nth_error_lt in E. lia.
  Qed.
End Waves.

Lemma self_terms_ok {V Wave} (add : V -> V -> V) (cross : Wave -> Wave -> V) ws a b ra rb k w : nth_error ws b = Some rb -> nth_error ws a = Some ra -> length ra = k -> length rb = k ->
  self_terms V add Wave cross ws a b k w = Val (fold_left add (map (fun xy => cross (fst xy) (snd xy)) (combine rb ra)) w).
Proof.
  intros Eb Ea La Lb. unfold self_terms. rewrite Eb, Ea.
  assert (G : forall l2 l1 p2 p1 w, ra = p1 ++ l1 -> rb = p2 ++ l2 -> length p1 = length p2 -> length l1 = length l2 ->
    ofold (fun p w => match nth_error rb p, nth_error ra p with Some x, Some y => Val (add w (cross x y)) | _, _ => UB end) (seq (length p1) (length l2)) w = Val (fold_left add (map (fun xy => cross (fst xy) (snd xy)) (combine l2 l1)) w)).
  { induction l2 as [|x l2 IH]; intros l1 p2 p1 w0 E1 E2 L1 L2; [reflexivity|]. destruct l1 as [|y l1]; [discriminate|]. cbn [length seq ofold combine map fold_left fst snd].
    assert (X : nth_error rb (length p1) = Some x) by (rewrite E2, L1, nth_error_app2, Nat.sub_diag by lia; auto).
    assert (Y : nth_error ra (length p1) = Some y) by (rewrite E1, nth_error_app2, Nat.sub_diag by lia; auto). rewrite X, Y. cbn [obind].
    specialize (IH l1 (p2 ++ [x]) (p1 ++ [y]) (add w0 (cross x y))). rewrite !app_length in IH. cbn [length] in IH. replace (length p1 + 1) with (S (length p1)) in IH by lia. apply IH; rewrite <- ?app_assoc; auto. lia. }
  rewrite <- Lb. apply (G rb ra [] []); auto. congruence.
Qed.

Lemma longest_span_ge tri s T : longest_span tri = Some s -> In T tri -> length (steps T) <= s.
Proof.
  assert (G : forall (l : list nat) m x, (In x l \/ x <= m) -> x <= fold_left Nat.max l m).
  { induction l as [|y l IH]; intros m x [H|H]; cbn [fold_left].
    - destruct H.
    - auto.
    - destruct H as [->|H]; apply IH; [right; lia|left; auto].
    - apply IH. right. lia. }
  intros E H. destruct tri as [|T0 tri]; [destruct H|]. injection E as <-. apply (G (map (fun T => length (steps T)) (T0 :: tri)) 0). left. apply (in_map (fun T => length (steps T)) (T0 :: tri) T H).
Qed.

Lemma match_ne {A B} (l : list A) (x y : B) : l <> [] -> match l with [] => x | _ => y end = y.
Proof. destruct l; auto; congruence. Qed.

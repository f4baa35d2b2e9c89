(** Proofs about sliding averages. *)
Require Import ZArith List Bool Arith Lia.
Require Import Verif.Base Verif.SortU Verif.ListX Verif.RTree_Model Verif.Traj_Model Verif.Traj_Spec Verif.Traj_Proofs Verif.Cluster_Spec Verif.Field_Model Verif.Field_Spec.
Import ListNotations.

Lemma position_at_iff T t p : position_at T t = Some p <-> at_time T t p.
Proof.
  unfold position_at, at_time. destruct (Nat.leb_spec (start T) t).
  - split; [intros Hn; exists (t - start T); split; auto; lia|]. intros [k [-> Hk]]. replace (start T + k - start T) with k by lia. auto.
  - split; [discriminate|]. intros [k [-> _]]. lia.
Qed.
Lemma window_S t h n : window t h (S n) = window t h n ++ (if (t <=? n + h) && (n <=? t + h) then [n] else []).
Proof. unfold window. rewrite seq_S, filter_app. simpl. destruct ((t <=? n + h) && (n <=? t + h)); auto. Qed.

Lemma nth_error_firstn_x {A} k (l : list A) i : i < k -> nth_error (firstn k l) i = nth_error l i.
Proof. revert k i. induction l as [|x l IH]; intros [|k] [|i] H; simpl; auto; try lia. apply IH. lia. Qed.

Section Field.
Variables (V : Type) (zero : V) (add : V -> V -> V) (div : V -> nat -> V) (null : V -> bool).
Variables (ti : trajindex) (averaging : nat) (frames : list (list V)).
Let h := averaging / 2.
Let n := length (inverse ti).
Hypothesis Hc : consistent ti.
Hypothesis Hfr : map (@length V) frames = map (@length nat) (inverse ti).

Lemma frame_ex t row : nth_error (inverse ti) t = Some row -> exists f, nth_error frames t = Some f /\ length f = length row.
Proof.
  intros H. apply (map_nth_error (@length nat)) in H. rewrite <- Hfr in H. apply nth_error_map_inv in H. destruct H as [f [Hf E]]. eauto.
Qed.
Lemma row_traj t row p tr : nth_error (inverse ti) t = Some row -> nth_error row p = Some tr -> exists T, nth_error (trajs ti) tr = Some T /\ at_time T t p.
Proof. intros H1 H2. apply Hc. unfold invert. rewrite H1. auto. Qed.
Lemma traj_row tr T t p : nth_error (trajs ti) tr = Some T -> at_time T t p -> exists row, nth_error (inverse ti) t = Some row /\ nth_error row p = Some tr.
Proof. intros H1 H2. assert (H : invert ti t p = Some tr) by (apply Hc; eauto). unfold invert in H. destruct (nth_error (inverse ti) t) as [row|]; [|discriminate]. eauto. Qed.

Definition acc (tr a : nat) (v : V) : V := match nth_error (trajs ti) tr with Some T => fold_left add (sample null frames T a) v | None => v end.
Definition cnt (tr a d : nat) : nat := match nth_error (trajs ti) tr with Some T => d + length (sample null frames T a) | None => d end.

Lemma bin_row_ok a frame : nth_error frames a = Some frame -> forall row vrow drow,
  (forall tr, In tr row -> exists T, nth_error (trajs ti) tr = Some T) -> length vrow = length row -> length drow = length row ->
  bin_row V add null (trajs ti) a frame row vrow drow = Some (map (fun x => acc (fst x) a (snd x)) (combine row vrow), map (fun x => cnt (fst x) a (snd x)) (combine row drow)).
Proof.
  intros Hf. induction row as [|tr row IH]; intros vrow drow Hex Hv Hd; destruct vrow as [|v vrow]; destruct drow as [|d drow]; simpl in Hv, Hd; try lia; auto.
  cbn [bin_row combine map fst snd]. rewrite IH; [|intros; apply Hex; simpl; auto|lia|lia]. destruct (Hex tr) as [T HT]; [simpl; auto|].
  assert (Ea : acc tr a v = fold_left add (sample null frames T a) v) by (unfold acc; rewrite HT; auto).
  assert (Ec : cnt tr a d = d + length (sample null frames T a)) by (unfold cnt; rewrite HT; auto). rewrite Ea, Ec.
  destruct Hc as [_ Hsm]. assert (Hs : small T) by exact (Hsm tr T HT). rewrite HT. unfold sample. rewrite Hf. destruct (exist_at T a) eqn:Ee.
  - apply (exist_at_iff T a Hs) in Ee. destruct (at_time_ex T a Ee) as [p Hp]. rewrite (proj2 (access_val T a p Hs) Hp), (proj2 (position_at_iff T a p) Hp).
    destruct (traj_row tr T a p HT Hp) as [row' [H1 H2]]. destruct (frame_ex a row' H1) as [f [Hf' Lf]]. assert (f = frame) by congruence. subst f.
    destruct (nth_error_ex frame p) as [x Hx]; [rewrite Lf; eapply nth_error_lt; eauto|]. rewrite Hx. destruct (null x); simpl; rewrite ?Nat.add_0_r, ?Nat.add_1_r; auto.
  - destruct (position_at T a) as [p|] eqn:Ep; [|simpl; rewrite Nat.add_0_r; auto]. apply position_at_iff, at_time_range in Ep. apply (exist_at_iff T a Hs) in Ep. congruence.
Qed.

Definition row_ok {A} (P : nat -> A -> Prop) (row : list nat) (r : list A) : Prop := length r = length row /\ forall p tr, nth_error row p = Some tr -> exists x, nth_error r p = Some x /\ P tr x.
Lemma row_ok_map {A B} (P : nat -> A -> Prop) (Q : nat -> B -> Prop) (f : nat * A -> B) row r : row_ok P row r -> (forall tr x, P tr x -> Q tr (f (tr, x))) -> row_ok Q row (map f (combine row r)).
Proof.
  intros [L H] Hf. split; [rewrite map_length, combine_length; lia|]. intros p tr Hp. destruct (H p tr Hp) as [x [Hx Px]]. exists (f (tr, x)). split; auto.
  apply map_nth_error. apply combine_nth_error. auto.
Qed.
Lemma row_ok_impl {A} (P Q : nat -> A -> Prop) row r : row_ok P row r -> (forall tr x, P tr x -> Q tr x) -> row_ok Q row r.
Proof. intros [L H] Hi. split; auto. intros p tr Hp. destruct (H p tr Hp) as [x [Hx Px]]. eauto. Qed.

(** What is expected after the frames before [a] have been pushed. *)
Definition smp (t tr a : nat) : list V := match nth_error (trajs ti) tr with Some T => samples null frames T (window t h a) | None => [] end.
Lemma smp_S t tr a : smp t tr (S a) = smp t tr a ++ (if (t <=? a + h) && (a <=? t + h) then match nth_error (trajs ti) tr with Some T => sample null frames T a | None => [] end else []).
Proof.
  unfold smp. destruct (nth_error (trajs ti) tr); [|destruct (_ && _); auto]. rewrite window_S. unfold samples. rewrite flat_map_app.
  destruct (_ && _); simpl; rewrite ?app_nil_r; auto.
Qed.
Lemma smp_S_out t tr a : (t <=? a + h) && (a <=? t + h) = false -> smp t tr (S a) = smp t tr a.
Proof. intros H. rewrite smp_S, H, app_nil_r. auto. Qed.
Definition is_sum (t a tr : nat) (v : V) : Prop := v = sum zero add (smp t tr a).
Definition is_count (t a tr d : nat) : Prop := d = length (smp t tr a).
Definition is_mean (t a tr : nat) (v : V) : Prop := v = div (sum zero add (smp t tr a)) (Nat.max 1 (length (smp t tr a))).
Lemma acc_sum t a tr v : (t <=? a + h) && (a <=? t + h) = true -> is_sum t a tr v -> is_sum t (S a) tr (acc tr a v).
Proof. unfold is_sum, acc, sum. intros H ->. rewrite smp_S, H, fold_left_app. destruct (nth_error (trajs ti) tr); auto. Qed.
Lemma cnt_count t a tr d : (t <=? a + h) && (a <=? t + h) = true -> is_count t a tr d -> is_count t (S a) tr (cnt tr a d).
Proof. unfold is_count, cnt. intros H ->. rewrite smp_S, H, app_length. destruct (nth_error (trajs ti) tr); simpl; lia. Qed.

(** All the rows of a list: row t satisfies P t. *)
Definition rows_ok {A} (P : nat -> nat -> A -> Prop) (vs : list (list A)) : Prop :=
  length vs = n /\ forall t row, nth_error (inverse ti) t = Some row -> exists r, nth_error vs t = Some r /\ row_ok (P t) row r.
Definition divs_ok (P : nat -> nat -> nat -> Prop) (t0 t1 : nat) (ds : list (list nat)) : Prop :=
  length ds = t1 - t0 /\ forall t row, t0 <= t < t1 -> nth_error (inverse ti) t = Some row -> exists r, nth_error ds (t - t0) = Some r /\ row_ok (P t) row r.

Lemma bin_times_ok a frame t0 t1 : nth_error frames a = Some frame -> t1 <= n -> forall m s vs ds P Q,
  t0 <= s -> s + m <= t1 -> (forall t, s <= t < s + m -> (t <=? a + h) && (a <=? t + h) = true) ->
  rows_ok P vs -> divs_ok Q t0 t1 ds -> (forall t tr v, s <= t < s + m -> P t tr v -> is_sum t a tr v) -> (forall t tr d, s <= t < s + m -> Q t tr d -> is_count t a tr d) ->
  exists vs' ds', bin_times V add null ti a frame t0 (seq s m) (vs, ds) = Some (vs', ds') /\
    rows_ok (fun t tr v => if (s <=? t) && (t <? s + m) then is_sum t (S a) tr v else P t tr v) vs' /\
    divs_ok (fun t tr d => if (s <=? t) && (t <? s + m) then is_count t (S a) tr d else Q t tr d) t0 t1 ds'.
Proof.
  intros Hf Ht1. induction m as [|m IH]; intros s vs ds P Q Hs Hm Hw [Lv Hv] [Ld Hd] HP HQ; cbn [seq bin_times].
  - exists vs, ds. split; auto. assert (E : forall t, (s <=? t) && (t <? s + 0) = false).
    { intros t. destruct (Nat.leb_spec s t), (Nat.ltb_spec t (s + 0)); simpl; auto; lia. }
    split; split; auto.
    + intros t row Hrow. destruct (Hv t row Hrow) as [r [Hr Ho]]. exists r. split; auto. eapply row_ok_impl; [exact Ho|]. intros. rewrite E. auto.
    + intros t row Hrow Hi. destruct (Hd t row Hrow Hi) as [r [Hr Ho]]. exists r. split; auto. eapply row_ok_impl; [exact Ho|]. intros. rewrite E. auto.
  - cbn [fst snd]. destruct (nth_error_ex (inverse ti) s) as [row Hrow]; [fold n; lia|]. rewrite Hrow.
    destruct (Hv s row Hrow) as [vrow [Hvr Hvo]]. destruct (Hd s row ltac:(lia) Hrow) as [drow [Hdr Hdo]]. rewrite Hvr, Hdr.
    rewrite (bin_row_ok a frame Hf row vrow drow).
    2: { intros tr Htr. apply In_nth_error in Htr. destruct Htr as [p Hp]. destruct (row_traj s row p tr Hrow Hp) as [T [HT _]]. eauto. }
    2: { apply Hvo. } 2: { apply Hdo. }
    assert (Ws : (s <=? a + h) && (a <=? s + h) = true) by (apply Hw; lia).
    assert (Hvo' : row_ok (is_sum s (S a)) row (map (fun x => acc (fst x) a (snd x)) (combine row vrow))).
    { apply (row_ok_map (P s)); auto. intros tr x Hx. apply acc_sum; auto. apply HP; auto. lia. }
    assert (Hdo' : row_ok (is_count s (S a)) row (map (fun x => cnt (fst x) a (snd x)) (combine row drow))).
    { apply (row_ok_map (Q s)); auto. intros tr x Hx. apply cnt_count; auto. apply HQ; auto. lia. }
    assert (Hsn : s < n) by lia.
    destruct (IH (S s) (set_nth s (map (fun x => acc (fst x) a (snd x)) (combine row vrow)) vs) (set_nth (s - t0) (map (fun x => cnt (fst x) a (snd x)) (combine row drow)) ds)
      (fun t tr v => if t =? s then is_sum t (S a) tr v else P t tr v) (fun t tr d => if t =? s then is_count t (S a) tr d else Q t tr d)) as [vs' [ds' [E [Hv' Hd']]]].
    + lia.
    + lia.
    + intros t Ht. apply Hw. lia.
    + split; [rewrite set_nth_len; auto|]. intros t row' Hrow'. rewrite set_nth_get by lia. destruct (Nat.eqb_spec t s) as [->|Hts].
      * assert (row' = row) by congruence. subst row'. eauto.
      * apply Hv; auto.
    + split; [rewrite set_nth_len; auto|]. intros t row' Ht Hrow'. rewrite set_nth_get by lia. destruct (Nat.eqb_spec t s) as [->|Hts].
      * assert (row' = row) by congruence. subst row'. rewrite Nat.eqb_refl. eauto.
      * destruct (Nat.eqb_spec (t - t0) (s - t0)); [lia|]. apply Hd; auto.
    + intros t tr v Ht. destruct (Nat.eqb_spec t s); [lia|]. apply HP. lia.
    + intros t tr d Ht. destruct (Nat.eqb_spec t s); [lia|]. apply HQ. lia.
    + exists vs', ds'. split; auto. destruct Hv' as [Lv' Hv']. destruct Hd' as [Ld' Hd']. split; split; auto.
      * intros t row' Hrow'. destruct (Hv' t row' Hrow') as [r [Hr Ho]]. exists r. split; auto. eapply row_ok_impl; [exact Ho|]. intros tr x. cbv beta.
        destruct (Nat.leb_spec (S s) t), (Nat.ltb_spec t (S s + m)), (Nat.leb_spec s t), (Nat.ltb_spec t (s + S m)), (Nat.eqb_spec t s); simpl; auto; try lia.
      * intros t row' Ht Hrow'. destruct (Hd' t row' Ht Hrow') as [r [Hr Ho]]. exists r. split; auto. eapply row_ok_impl; [exact Ho|]. intros tr x. cbv beta.
        destruct (Nat.leb_spec (S s) t), (Nat.ltb_spec t (S s + m)), (Nat.leb_spec s t), (Nat.ltb_spec t (s + S m)), (Nat.eqb_spec t s); simpl; auto; try lia.
Qed.

(** Division of the frames from [f] to [f+m-1]. *)
Lemma divide_ok a t1 : t1 <= n -> forall m f vs ds P, f + m <= t1 ->
  rows_ok P vs -> divs_ok (fun t tr d => is_count t a tr d) f t1 ds -> (forall t tr v, f <= t < f + m -> P t tr v -> is_sum t a tr v) ->
  exists vs' ds', divide V div m f (vs, ds) = Some (vs', ds') /\
    rows_ok (fun t tr v => if (f <=? t) && (t <? f + m) then is_mean t a tr v else P t tr v) vs' /\ divs_ok (fun t tr d => is_count t a tr d) (f + m) t1 ds'.
Proof.
  intros Ht1. induction m as [|m IH]; intros f vs ds P Hm [Lv Hv] [Ld Hd] HP; cbn [divide].
  - exists vs, ds. split; auto. rewrite Nat.add_0_r. split; [|split; auto]. split; auto. intros t row Hrow. destruct (Hv t row Hrow) as [r [Hr Ho]]. exists r. split; auto.
    eapply row_ok_impl; [exact Ho|]. intros tr x. cbv beta. destruct (Nat.leb_spec f t), (Nat.ltb_spec t f); simpl; auto; lia.
  - cbn [fst snd]. destruct (nth_error_ex (inverse ti) f) as [row Hrow]; [fold n; lia|].
    destruct (Hv f row Hrow) as [vrow [Hvr Hvo]]. destruct (Hd f row ltac:(lia) Hrow) as [drow [Hdr Hdo]]. rewrite Hvr. rewrite Nat.sub_diag in Hdr.
    destruct ds as [|d0 ds]; [discriminate|]. injection Hdr as ->. assert (Lvr := proj1 Hvo). assert (Ldr := proj1 Hdo). rewrite (proj2 (Nat.leb_le (length vrow) (length drow))) by lia.
    set (nrow := map (fun vd => div (fst vd) (Nat.max 1 (snd vd))) (combine vrow drow)).
    assert (Hno : row_ok (is_mean f a) row nrow).
    { split; [unfold nrow; rewrite map_length, combine_length; lia|]. intros p tr Hp. destruct Hvo as [_ Hvo]. destruct Hdo as [_ Hdo].
      destruct (Hvo p tr Hp) as [v [Hvp Pv]]. destruct (Hdo p tr Hp) as [d [Hdp Pd]]. exists (div v (Nat.max 1 d)). split.
      - unfold nrow. rewrite (map_nth_error (fun vd => div (fst vd) (Nat.max 1 (snd vd))) p (combine vrow drow) (d := (v, d))); auto. apply combine_nth_error. auto.
      - apply HP in Pv; [|lia]. unfold is_mean. rewrite <- Pv, <- Pd. auto. }
    destruct (IH (S f) (set_nth f nrow vs) ds (fun t tr v => if t =? f then is_mean t a tr v else P t tr v)) as [vs' [ds' [E [Hv' Hd']]]].
    + lia.
    + split; [rewrite set_nth_len; auto|]. intros t row' Hrow'. rewrite set_nth_get by lia. destruct (Nat.eqb_spec t f) as [->|Htf].
      * assert (row' = row) by congruence. subst row'. eauto.
      * apply Hv; auto.
    + split; [simpl in Ld; lia|]. intros t row' Ht Hrow'. destruct (Hd t row' ltac:(lia) Hrow') as [r [Hr Ho]]. exists r. split; auto.
      replace (t - f) with (S (t - S f)) in Hr by lia. auto.
    + intros t tr v Ht. destruct (Nat.eqb_spec t f); [lia|]. apply HP. lia.
    + exists vs', ds'. split; auto. replace (f + S m) with (S f + m) by lia. split; auto. destruct Hv' as [Lv' Hv']. split; auto.
      intros t row' Hrow'. destruct (Hv' t row' Hrow') as [r [Hr Ho]]. exists r. split; auto. eapply row_ok_impl; [exact Ho|]. intros tr x. cbv beta.
      destruct (Nat.leb_spec (S f) t), (Nat.ltb_spec t (S f + m)), (Nat.leb_spec f t), (Nat.eqb_spec t f); simpl; auto; try lia.
Qed.

(** Before frame [a] < n is pushed. *)
Definition expect (a t tr : nat) (v : V) : Prop := if t + h <? a then is_mean t a tr v else is_sum t a tr v.
Record inv (a : nat) (df : dfield V) : Prop := {
  i_now : now V df = a;
  i_vals : rows_ok (expect a) (vals V df);
  i_divs : divs_ok (fun t tr d => is_count t a tr d) (Nat.max a h - h) (Nat.min (a + h + 1) n) (divs V df) }.

Lemma rows_impl {A} (P Q : nat -> nat -> A -> Prop) vs : rows_ok P vs -> (forall t tr v, t < n -> P t tr v -> Q t tr v) -> rows_ok Q vs.
Proof.
  intros [L H] Hi. split; auto. intros t row Hrow. destruct (H t row Hrow) as [r [Hr Ho]]. exists r. split; auto. eapply row_ok_impl; [exact Ho|]. intros tr x. apply Hi.
  eapply nth_error_lt; eauto.
Qed.
Lemma divs_impl (P Q : nat -> nat -> nat -> Prop) t0 t1 ds : divs_ok P t0 t1 ds -> (forall t tr v, t0 <= t < t1 -> P t tr v -> Q t tr v) -> divs_ok Q t0 t1 ds.
Proof. intros [L H] Hi. split; auto. intros t row Ht Hrow. destruct (H t row Ht Hrow) as [r [Hr Ho]]. exists r. split; auto. eapply row_ok_impl; [exact Ho|]. auto. Qed.

Lemma smp_0 t tr : smp t tr 0 = [].
Proof. unfold smp, window. simpl. destruct (nth_error (trajs ti) tr); auto. Qed.
Lemma inv_new : inv 0 (df_new V zero ti averaging).
Proof.
  constructor; cbn [df_new now vals divs]; auto.
  - split; [rewrite map_length; auto|]. intros t row Hrow. exists (repeat zero (length row)). split; [apply (map_nth_error (fun row => repeat zero (length row))); auto|].
    split; [apply repeat_length|]. intros p tr Hp. exists zero. split; [apply nth_error_repeat_x; eapply nth_error_lt; eauto|]. unfold expect. destruct (Nat.ltb_spec (t + h) 0); [lia|].
    unfold is_sum. rewrite smp_0. auto.
  - fold h. split; [rewrite map_length, firstn_length; fold n; lia|]. intros t row Ht Hrow. replace (t - (Nat.max 0 h - h)) with t by lia. exists (repeat 0 (length row)). split.
    + apply (map_nth_error (fun row => repeat 0 (length row))). rewrite nth_error_firstn_x; auto. lia.
    + split; [apply repeat_length|]. intros p tr Hp. exists 0. split; [apply nth_error_repeat_x; eapply nth_error_lt; eauto|]. unfold is_count. rewrite smp_0. auto.
Qed.

(** One push: the state before the division. *)
Lemma push_bin a df frame : 0 < h -> a < n -> inv a df -> nth_error frames a = Some frame ->
  let t0 := Nat.max a h - h in let t1 := Nat.min (a + h + 1) n in
  exists vs ds, bin_times V add null ti a frame t0 (seq t0 (t1 - t0)) (vals V df, divs V df) = Some (vs, ds) /\
    rows_ok (fun t tr v => if t + h <? a then is_mean t (S a) tr v else is_sum t (S a) tr v) vs /\ divs_ok (fun t tr d => is_count t (S a) tr d) t0 t1 ds.
Proof.
  intros Hh Ha [Hnow Hv Hd] Hf t0 t1. destruct (bin_times_ok a frame t0 t1 Hf ltac:(lia) (t1 - t0) t0 (vals V df) (divs V df) (expect a) (fun t tr d => is_count t a tr d) (le_n _) ltac:(lia)) as [vs [ds [E [Hv' Hd']]]].
  - intros t Ht. apply andb_true_iff. rewrite !Nat.leb_le. lia.
  - exact Hv.
  - exact Hd.
  - intros t tr v Ht. unfold expect. destruct (Nat.ltb_spec (t + h) a); [lia|auto].
  - auto.
  - exists vs, ds. split; auto. split.
    + eapply rows_impl; [exact Hv'|]. intros t tr v Htn. cbv beta. unfold expect.
      destruct (Nat.leb_spec t0 t), (Nat.ltb_spec t (t0 + (t1 - t0))), (Nat.ltb_spec (t + h) a); simpl; auto; try lia.
      * unfold is_sum. rewrite smp_S_out; auto. apply andb_false_iff. rewrite !Nat.leb_gt. lia.
      * unfold is_mean. rewrite smp_S_out; auto. apply andb_false_iff. rewrite !Nat.leb_gt. lia.
    + eapply divs_impl; [exact Hd'|]. intros t tr d Ht. cbv beta. rewrite (proj2 (Nat.leb_le t0 t)), (proj2 (Nat.ltb_lt t (t0 + (t1 - t0)))) by lia. auto.
Qed.

(** A push that is not the last one. *)
Lemma push_inv a df frame : 0 < h -> a + 1 < n -> inv a df -> nth_error frames a = Some frame ->
  exists df', df_push V add div null ti averaging df frame = Some df' /\ inv (S a) df'.
Proof.
  intros Hh Ha Hi Hf. destruct (push_bin a df frame Hh ltac:(lia) Hi Hf) as [vs [ds [E [Hv Hd]]]]. destruct Hi as [Hnow [Lv Hv0] Hd0].
  unfold df_push. fold h. rewrite Hnow, Lv. rewrite (proj2 (Nat.eqb_neq h 0)) by lia. rewrite E.
  assert (Hdiv : exists vs' ds', (if h <=? a then divide V div (if a + 1 =? n then n - (a - h) else 1) (a - h) (vs, ds) else Some (vs, ds)) = Some (vs', ds') /\
    rows_ok (expect (S a)) vs' /\ divs_ok (fun t tr d => is_count t (S a) tr d) (Nat.max (S a) h - h) (Nat.min (a + h + 1) n) ds').
  { destruct (Nat.leb_spec h a).
    - rewrite (proj2 (Nat.eqb_neq (a + 1) n)) by lia. replace (Nat.max a h - h) with (a - h) in Hd by lia.
      destruct (divide_ok (S a) (Nat.min (a + h + 1) n) ltac:(lia) 1 (a - h) vs ds _ ltac:(lia) Hv Hd) as [vs' [ds' [E' [Hv' Hd']]]].
      { intros t tr v Ht. cbv beta. destruct (Nat.ltb_spec (t + h) a); [lia|auto]. }
      exists vs', ds'. split; auto. split.
      + eapply rows_impl; [exact Hv'|]. intros t tr v Ht. cbv beta. unfold expect.
        destruct (Nat.leb_spec (a - h) t), (Nat.ltb_spec t (a - h + 1)), (Nat.ltb_spec (t + h) a), (Nat.ltb_spec (t + h) (S a)); simpl; auto; lia.
      + replace (Nat.max (S a) h - h) with (a - h + 1) by lia. auto.
    - exists vs, ds. split; auto. split.
      + eapply rows_impl; [exact Hv|]. intros t tr v Ht. cbv beta. unfold expect. destruct (Nat.ltb_spec (t + h) a), (Nat.ltb_spec (t + h) (S a)); auto; lia.
      + replace (Nat.max (S a) h - h) with (Nat.max a h - h) by lia. auto. }
  destruct Hdiv as [vs' [ds' [E' [Hv' [Ld' Hd']]]]]. rewrite E'. destruct (Nat.ltb_spec (1 + a + h) n) as [Hlt|Hge].
  - destruct (nth_error_ex (inverse ti) (1 + a + h)) as [row Hrow]; [auto|]. rewrite Hrow. eexists. split; [reflexivity|]. constructor; cbn [now vals divs]; auto.
    split; [rewrite app_length; cbn [length]; lia|]. intros t row' Ht Hrow'. destruct (Nat.eq_dec t (1 + a + h)) as [->|Hne].
    + assert (row' = row) by congruence. subst row'. exists (repeat 0 (length row)). split; [rewrite nth_error_app2 by lia; replace (_ - _) with 0 by lia; auto|].
      split; [apply repeat_length|]. intros p tr Hp. exists 0. split; [apply nth_error_repeat_x; eapply nth_error_lt; eauto|]. unfold is_count.
      replace (smp (1 + a + h) tr (S a)) with (@nil V); auto. unfold smp. destruct (nth_error (trajs ti) tr); auto.
      replace (window (1 + a + h) h (S a)) with (@nil nat); auto. symmetry. unfold window.
      assert (Hg : forall l, (forall x, In x l -> x <= a) -> filter (fun s => (1 + a + h <=? s + h) && (s <=? 1 + a + h + h)) l = []).
      { induction l as [|x l IH]; intros Hx; auto. cbn [filter]. rewrite (proj2 (Nat.leb_gt (1 + a + h) (x + h))); [|specialize (Hx x (or_introl eq_refl)); lia]. cbn [andb]. apply IH. intros; apply Hx; simpl; auto. }
      apply Hg. intros x Hx. apply in_seq in Hx. lia.
    + destruct (Hd' t row' ltac:(lia) Hrow') as [r [Hr Ho]]. exists r. split; auto. rewrite nth_error_app1; auto. eapply nth_error_lt; eauto.
  - eexists. split; [reflexivity|]. constructor; cbn [now vals divs]; auto. replace (Nat.min (S a + h + 1) n) with (Nat.min (a + h + 1) n) by lia. split; auto.
Qed.
(** The last push. *)
Lemma push_last a df frame : 0 < h -> a + 1 = n -> inv a df -> nth_error frames a = Some frame ->
  exists df', df_push V add div null ti averaging df frame = Some df' /\ rows_ok (fun t tr v => if h <? n then is_mean t n tr v else is_sum t n tr v) (vals V df').
Proof.
  intros Hh Ha Hi Hf. destruct (push_bin a df frame Hh ltac:(lia) Hi Hf) as [vs [ds [E [Hv Hd]]]]. destruct Hi as [Hnow [Lv Hv0] Hd0].
  unfold df_push. fold h. rewrite Hnow, Lv. rewrite (proj2 (Nat.eqb_neq h 0)) by lia. rewrite E. replace (S a) with n in * by lia.
  rewrite (proj2 (Nat.eqb_eq (a + 1) n)) by lia. destruct (Nat.leb_spec h a).
  - replace (Nat.max a h - h) with (a - h) in Hd by lia.
    destruct (divide_ok n (Nat.min (a + h + 1) n) ltac:(lia) (n - (a - h)) (a - h) vs ds _ ltac:(lia) Hv Hd) as [vs' [ds' [E' [Hv' Hd']]]].
    { intros t tr v Ht. cbv beta. destruct (Nat.ltb_spec (t + h) a); [lia|auto]. }
    rewrite E'. destruct (Nat.ltb_spec (1 + a + h) n); [lia|]. eexists. split; [reflexivity|]. cbn [vals]. eapply rows_impl; [exact Hv'|]. intros t tr v Ht. cbv beta.
    destruct (Nat.leb_spec (a - h) t), (Nat.ltb_spec t (a - h + (n - (a - h)))), (Nat.ltb_spec (t + h) a), (Nat.ltb_spec h n); simpl; auto; lia.
  - destruct (Nat.ltb_spec (1 + a + h) n); [lia|]. eexists. split; [reflexivity|]. cbn [vals]. eapply rows_impl; [exact Hv|]. intros t tr v Ht. cbv beta.
    destruct (Nat.ltb_spec (t + h) a), (Nat.ltb_spec h n); auto; lia.
Qed.
Lemma run_ok : 0 < h -> forall m a df, a + m = n -> 0 < m -> inv a df ->
  exists df', df_run V add div null ti averaging df (skipn a frames) = Some df' /\ rows_ok (fun t tr v => if h <? n then is_mean t n tr v else is_sum t n tr v) (vals V df').
Proof.
  intros Hh. induction m as [|m IH]; intros a df Hm Hp Hi; [lia|]. assert (Lf : length frames = n) by (apply (f_equal (@length nat)) in Hfr; rewrite !map_length in Hfr; auto).
  destruct (nth_error_ex frames a) as [f Hf]; [lia|]. assert (Es : skipn a frames = f :: skipn (S a) frames).
  { clear - Hf. revert a Hf. induction frames as [|x l IH]; intros [|a] Hf; simpl in *; try discriminate; [injection Hf as ->; auto|]. apply IH; auto. }
  rewrite Es. cbn [df_run]. destruct (Nat.eq_dec m 0) as [->|Hm0].
  - destruct (push_last a df f Hh ltac:(lia) Hi Hf) as [df' [E H]]. rewrite E. rewrite skipn_all2 by lia. exists df'. auto.
  - destruct (push_inv a df f Hh ltac:(lia) Hi Hf) as [df' [E H]]. rewrite E. apply (IH (S a) df'); auto; lia.
Qed.
End Field.

Require Import List Bool Arith Lia ZArith.
Require Import Verif.Traj_Model Verif.Particles_Model Verif.RTree_Model Verif.Boo_Model Verif.Corr_Model Verif.Pyramid_Model.
Require Import Verif.Base Verif.Corr_Proofs Verif.Pyramid_Proofs Verif.Deconv_Model Verif.Deconv_Spec.
Import ListNotations.

(** * Shapes *)
Lemma prod_size l : prod l = size l.
Proof. induction l; cbn; auto. Qed.
Lemma size_app a b : size (a ++ b) = size a * size b.
Proof. induction a as [|n a IH]; cbn; [lia|]. rewrite IH. lia. Qed.
Lemma shape_split : forall shape axis, axis < length shape -> shape = firstn axis shape ++ nth axis shape 0 :: skipn (S axis) shape.
Proof. induction shape as [|n s IH]; intros [|a] H; cbn in H; try lia; auto. cbn [firstn nth skipn app]. f_equal. apply IH. lia. Qed.
Lemma shape_size shape axis : axis < length shape -> size shape = size (firstn axis shape) * (nth axis shape 0 * size (skipn (S axis) shape)).
Proof. intros H. rewrite (shape_split shape axis H) at 1. rewrite size_app. auto. Qed.
Lemma size_pos shape : Forall (fun n => 0 < n) shape -> 0 < size shape.
Proof. induction 1; cbn; [lia|]. apply Nat.mul_pos_pos; auto. Qed.
Lemma valid_len : forall shape c, valid shape c -> length c = length shape.
Proof. induction shape as [|n s IH]; intros [|x c] H; cbn in *; try tauto. f_equal. apply IH. tauto. Qed.
Lemma address_lt : forall shape c, valid shape c -> address shape c < size shape.
Proof. induction shape as [|n s IH]; intros [|x c] H; cbn in *; try tauto; [lia|]. destruct H as [H V]. specialize (IH c V). assert ((x + 1) * size s <= n * size s) by (apply Nat.mul_le_mono_r; lia). lia. Qed.
(** Row i of planes, x along the axis, j in the plane. *)
Definition cell (n step i x j : nat) : nat := i * (n * step) + x * step + j.
Definition plane_of (shape : list nat) (axis : nat) (c : list nat) : nat := address (firstn axis shape) (firstn axis c).
Definition col_of (shape : list nat) (axis : nat) (c : list nat) : nat := address (skipn (S axis) shape) (skipn (S axis) c).
Lemma address_cell : forall shape axis c, axis < length shape -> valid shape c ->
  address shape c = cell (nth axis shape 0) (size (skipn (S axis) shape)) (plane_of shape axis c) (nth axis c 0) (col_of shape axis c).
Proof.
  unfold cell, plane_of, col_of. induction shape as [|n s IH]; intros axis [|x c] H V; cbn in H, V; try lia; try tauto. destruct V as [Hx V]. destruct axis as [|a]; [cbn; lia|].
  cbn [firstn nth skipn address]. rewrite (IH a c) by (auto; lia). cbn [skipn]. rewrite (shape_size s a) by lia. cbn [skipn]. lia.
Qed.
Lemma plane_lt : forall shape axis c, valid shape c -> axis < length shape -> plane_of shape axis c < size (firstn axis shape).
Proof.
  intros shape axis c V H. apply address_lt. revert axis c V H. induction shape as [|n s IH]; intros [|a] [|x c] V H; cbn in *; try tauto; try lia. destruct V as [V1 V]. split; auto. apply IH; auto. lia.
Qed.
Lemma col_lt : forall shape axis c, valid shape c -> axis < length shape -> col_of shape axis c < size (skipn (S axis) shape).
Proof.
  intros shape axis c V H. apply address_lt. revert axis c V H. induction shape as [|n s IH]; intros [|a] [|x c] V H; cbn in *; try tauto; try lia. destruct V as [V1 V]. apply IH; auto. lia.
Qed.
Lemma axis_lt : forall shape axis c, valid shape c -> axis < length shape -> nth axis c 0 < nth axis shape 0.
Proof. induction shape as [|n s IH]; intros [|a] [|x c] V H; cbn in *; try tauto; try lia. apply IH; [tauto|lia]. Qed.
Lemma move_valid : forall shape axis x c, valid shape c -> axis < length shape -> x < nth axis shape 0 -> valid shape (move axis x c).
Proof. induction shape as [|n s IH]; intros [|a] x [|y c] V H X; cbn in *; try tauto; try lia. split; [tauto|]. apply IH; [tauto|lia|auto]. Qed.
Lemma move_plane shape axis x c : plane_of shape axis (move axis x c) = plane_of shape axis c.
Proof. unfold plane_of. f_equal. revert c. induction axis as [|a IH]; intros [|y c]; cbn; auto. f_equal. apply IH. Qed.
Lemma move_col shape axis x c : col_of shape axis (move axis x c) = col_of shape axis c.
Proof. unfold col_of. f_equal. revert c. induction axis as [|a IH]; intros [|y c]; cbn [move skipn]; auto. apply IH. Qed.
Lemma move_nth : forall axis x c, axis < length c -> nth axis (move axis x c) 0 = x.
Proof. induction axis as [|a IH]; intros x [|y c] H; cbn in *; try lia. apply IH. lia. Qed.
Lemma cell_lt n step nb i x j : i < nb -> x < n -> j < step -> cell n step i x j < nb * (n * step).
Proof.
  intros Hi Hx Hj. unfold cell. assert ((i + 1) * (n * step) <= nb * (n * step)) by (apply Nat.mul_le_mono_r; lia). assert ((x + 1) * step <= n * step) by (apply Nat.mul_le_mono_r; lia). lia.
Qed.
Lemma cell_inj n step i x j i' x' j' : x < n -> j < step -> x' < n -> j' < step -> cell n step i x j = cell n step i' x' j' -> i = i' /\ x = x' /\ j = j'.
Proof.
  unfold cell. intros Hx Hj Hx' Hj' E. replace (i * (n * step) + x * step + j) with ((i * n + x) * step + j) in E by lia. replace (i' * (n * step) + x' * step + j') with ((i' * n + x') * step + j') in E by lia.
  apply idx_inj in E as [E ->]; auto. apply idx_inj in E; tauto.
Qed.

(** * Lines *)
Section Lines.
Context {V : Type}.
Lemma read_line_ok (im : list V) d base step n : (forall x, x < n -> base + x * step < length im) -> read_line im base step n = Val (map (fun x => nth (base + x * step) im d) (seq 0 n)).
Proof. intros H. unfold read_line. apply osequence_map_ok. intros x Hx. apply in_seq in Hx. apply at_some. apply nth_error_nth'. apply H. lia. Qed.
Lemma in_combine_seq (vals : list V) x v : In (x, v) (combine (seq 0 (length vals)) vals) <-> nth_error vals x = Some v.
Proof.
  assert (G : forall vals s, In (x, v) (combine (seq s (length vals)) vals) <-> s <= x /\ nth_error vals (x - s) = Some v).
  { clear vals. induction vals as [|w vals IH]; intros s; cbn [length seq combine In].
    - split; [tauto|]. intros [_ H]. destruct (x - s); discriminate.
    - rewrite IH. destruct (Nat.lt_trichotomy x s) as [L|[L|L]].
      + split; [|lia]. intros [E|E]; [injection E; lia|lia].
      + subst. rewrite Nat.sub_diag. cbn. split; [intros [E|E]; [injection E as ->; auto|lia]|intros [_ E]; left; congruence].
      + replace (x - s) with (S (x - S s)) by lia. cbn. split; [intros [E|E]; [injection E; lia|split; [lia|tauto]]|intros [_ E]; right; split; [lia|auto]]. }
  rewrite G. rewrite Nat.sub_0_r. split; [tauto|]. split; [lia|auto].
Qed.
Lemma write_line_ok (vals im : list V) base step : 0 < step -> (forall x, x < length vals -> base + x * step < length im) ->
  exists m, write_line base step vals im = Val m /\ length m = length im /\ (forall x, x < length vals -> nth_error m (base + x * step) = nth_error vals x) /\
    (forall p, (forall x, x < length vals -> p <> base + x * step) -> nth_error m p = nth_error im p).
Proof.
  intros S0 B. unfold write_line.
  destruct (loop_writes (fun xv : nat * V => base + fst xv * step) (fun xv _ => Val (snd xv)) snd (combine (seq 0 (length vals)) vals) im) as [m (E & L & W & N)].
  - rewrite <- (map_map fst (fun x => base + x * step)). apply FinFun.Injective_map_NoDup.
    + intros a b E. assert (a * step = b * step) by lia. apply Nat.mul_cancel_r in H; lia.
    + assert (X : forall (l : list V) s, map fst (combine (seq s (length l)) l) = seq s (length l)). { induction l; intros; cbn; f_equal; auto. } rewrite X. apply seq_NoDup.
  - intros [x v] H. apply in_combine_seq in H. apply B. cbn [fst]. apply nth_error_Some. congruence.
  - auto.
  - cbn [obind] in E. exists m. split; [exact E|]. split; [auto|]. split.
    + intros x Hx. destruct (nth_error vals x) as [v|] eqn:EV; [|apply nth_error_None in EV; lia]. apply (W (x, v)). apply in_combine_seq. auto.
    + intros p Hp. apply N. intros I. apply in_map_iff in I. destruct I as [[x v] [E' I]]. cbn [fst] in E'. apply in_combine_seq in I. apply (Hp x); [apply nth_error_Some; congruence|auto].
Qed.
End Lines.

(** * Convolution *)
Section Convolve.
Variables (V C K : Type) (fwd : list V -> list C) (bwd : nat -> list C -> list V) (cmul : nat -> C -> K -> C).
Hypothesis fwd_len : forall l, length (fwd l) = length l / 2 + 1.
Hypothesis bwd_len : forall n f, length (bwd n f) = n.
Definition filtered (kernel : list K) (l : list V) : list V := bwd (length l) (map (fun ck => cmul (length l) (fst ck) (snd ck)) (combine (fwd l) kernel)).
Lemma filtered_len kernel l : length (filtered kernel l) = length l.
Proof. apply bwd_len. Qed.
Lemma apply_kernel_gen n kernel : forall m (f : list C), length f = m -> m <= length kernel ->
  osequence (map (fun i => obind (at_index f i) (fun c => omap (cmul n c) (at_index kernel i))) (seq 0 m)) = Val (map (fun ck => cmul n (fst ck) (snd ck)) (combine f kernel)).
Proof.
  intros m f. revert m kernel. induction f as [|c f IH]; intros m kernel E L; cbn in E; subst m; [reflexivity|]. destruct kernel as [|k kernel]; [cbn in L; lia|].
  cbn [seq map osequence]. unfold at_index at 1 2. cbn [nth_error obind omap combine map fst snd]. rewrite <- seq_shift, map_map. cbn in L. specialize (IH (length f) kernel eq_refl ltac:(lia)).
  unfold at_index in *. cbn [nth_error]. rewrite IH. reflexivity.
Qed.
Lemma apply_kernel_ok n kernel l : length l = n -> n / 2 + 1 <= length kernel -> apply_kernel C K cmul n kernel (fwd l) = Val (map (fun ck => cmul n (fst ck) (snd ck)) (combine (fwd l) kernel)).
Proof. intros E L. unfold apply_kernel. apply apply_kernel_gen; [rewrite fwd_len, E; auto|auto]. Qed.

Variables (n step nb : nat) (im0 : list V) (kernel : list K) (d : V).
Hypotheses (npos : 0 < n) (spos : 0 < step) (len0 : length im0 = nb * (n * step)) (klen : n / 2 + 1 <= length kernel).
Definition line_at (i j : nat) : list V := map (fun x => nth (cell n step i x j) im0 d) (seq 0 n).
Lemma line_len i j : length (line_at i j) = n.
Proof. unfold line_at. rewrite map_length, seq_length. auto. Qed.
Definition done_upto (P : nat -> nat -> bool) (m : list V) : Prop := length m = length im0 /\
  forall i x j, i < nb -> x < n -> j < step -> nth_error m (cell n step i x j) = if P i j then nth_error (filtered kernel (line_at i j)) x else nth_error im0 (cell n step i x j).
Lemma one_line P Q i j m : i < nb -> j < step -> P i j = false -> Q i j = true -> (forall i' j', i' <> i \/ j' <> j -> Q i' j' = P i' j') -> done_upto P m ->
  exists m', conv_line V C K fwd bwd cmul n step kernel (i * (n * step) + j) m = Val m' /\ done_upto Q m'.
Proof.
  intros Hi Hj HP HQ HPQ [L H]. assert (AD : forall x, i * (n * step) + j + x * step = cell n step i x j) by (intros; unfold cell; lia).
  assert (B : forall x, x < n -> i * (n * step) + j + x * step < length m). { intros x Hx. rewrite AD, L, len0. apply cell_lt; auto. }
  unfold conv_line. rewrite (read_line_ok m d) by auto. cbn [obind].
  assert (EL : map (fun x => nth (i * (n * step) + j + x * step) m d) (seq 0 n) = line_at i j).
  { unfold line_at. apply map_ext_in. intros x Hx. apply in_seq in Hx. rewrite AD. specialize (H i x j Hi ltac:(lia) Hj). rewrite HP in H.
    assert (CL : cell n step i x j < length im0) by (rewrite len0; apply cell_lt; auto; lia).
    rewrite (nth_error_nth' im0 d CL) in H. apply nth_error_nth with (d := d) in H. auto. }
  rewrite EL. rewrite apply_kernel_ok by (auto; apply line_len). cbn [obind].
  assert (EF : bwd n (map (fun ck => cmul n (fst ck) (snd ck)) (combine (fwd (line_at i j)) kernel)) = filtered kernel (line_at i j)). { unfold filtered. rewrite line_len. auto. } rewrite EF.
  destruct (write_line_ok (filtered kernel (line_at i j)) m (i * (n * step) + j) step spos) as [m' (E & L' & W & N)]. { rewrite filtered_len, line_len. auto. }
  rewrite filtered_len, line_len in W, N. exists m'. split; [auto|]. split; [lia|]. intros i' x j' Hi' Hx Hj'. destruct (Nat.eq_dec i' i) as [->|NI]; [destruct (Nat.eq_dec j' j) as [->|NJ]|].
  - rewrite HQ, <- AD. apply W. auto.
  - rewrite HPQ by auto. rewrite <- H by auto. apply N. intros x' Hx'. rewrite AD. intros X. apply cell_inj in X; auto. lia.
  - rewrite HPQ by auto. rewrite <- H by auto. apply N. intros x' Hx'. rewrite AD. intros X. apply cell_inj in X; auto. lia.
Qed.
Lemma all_lines : exists m, ofold (fun i => ofold (fun j => conv_line V C K fwd bwd cmul n step kernel (i * (n * step) + j)) (seq 0 step)) (seq 0 nb) im0 = Val m /\ done_upto (fun _ _ => true) m.
Proof.
  destruct (ofold_seq_inv (fun I m => done_upto (fun i _ => i <? I) m) (fun i => ofold (fun j => conv_line V C K fwd bwd cmul n step kernel (i * (n * step) + j)) (seq 0 step)) nb 0 im0) as [m [E [L H]]].
  - split; auto.
  - intros i m Hi Hm.
    destruct (ofold_seq_inv (fun J m => done_upto (fun i' j' => (i' <? i) || (i' =? i) && (j' <? J)) m) (fun j => conv_line V C K fwd bwd cmul n step kernel (i * (n * step) + j)) step 0 m) as [m' [E [L H]]].
    + destruct Hm as [L H]. split; auto. intros i' x j' A B D. rewrite H by auto. rewrite andb_false_r, orb_false_r. auto.
    + intros j m1 Hj. apply one_line; try lia.
      * rewrite !Nat.ltb_irrefl. rewrite andb_false_r. auto.
      * rewrite Nat.eqb_refl. cbn [andb]. destruct (Nat.ltb_spec j (S j)); [apply orb_true_r|lia].
      * intros i' j' NE. destruct (Nat.eqb_spec i' i); cbn [andb]; auto. f_equal. destruct (Nat.ltb_spec j' (S j)), (Nat.ltb_spec j' j); auto; lia.
    + exists m'. split; auto. split; auto. intros i' x j' A B D. rewrite H by auto. destruct (Nat.ltb_spec i' (S i)), (Nat.ltb_spec i' i), (Nat.eqb_spec i' i), (Nat.ltb_spec j' (0 + step)); cbn [orb andb]; auto; lia.
  - exists m. split; auto. split; auto. intros i x j A B D. rewrite H by auto. destruct (Nat.ltb_spec i (0 + nb)); [auto|lia].
Qed.
End Convolve.

Lemma planestep_eq shape axis : axis < length shape -> 0 < prod (firstn axis shape) -> prod shape / prod (firstn axis shape) = nth axis shape 0 * size (skipn (S axis) shape).
Proof. intros H P. rewrite (prod_size shape), (shape_size shape axis H), <- prod_size. rewrite Nat.mul_comm. apply Nat.div_mul. lia. Qed.
Lemma Forall_firstn_x {A} (P : A -> Prop) n l : Forall P l -> Forall P (firstn n l).
Proof. intros H. apply Forall_forall. intros x I. rewrite Forall_forall in H. apply H. rewrite <- (firstn_skipn n l). apply in_or_app. auto. Qed.
Lemma Forall_skipn_x {A} (P : A -> Prop) n l : Forall P l -> Forall P (skipn n l).
Proof. intros H. apply Forall_forall. intros x I. rewrite Forall_forall in H. apply H. rewrite <- (firstn_skipn n l). apply in_or_app. auto. Qed.
Lemma for_lines_eq {W} shape axis (body : nat -> nat -> nat -> W -> outcome W) w : Forall (fun n => 0 < n) shape -> axis < length shape ->
  for_lines shape axis body w = ofold (fun i => ofold (fun j => body (nth axis shape 0) (size (skipn (S axis) shape)) (i * (nth axis shape 0 * size (skipn (S axis) shape)) + j)) (seq 0 (size (skipn (S axis) shape)))) (seq 0 (size (firstn axis shape))) w.
Proof.
  intros P H. unfold for_lines. destruct (Nat.leb_spec (length shape) axis); [lia|]. cbv zeta. assert (NB : 0 < prod (firstn axis shape)) by (rewrite prod_size; apply size_pos, Forall_firstn_x; auto).
  destruct (Nat.eqb_spec (prod (firstn axis shape)) 0); [lia|]. rewrite planestep_eq by auto. rewrite !prod_size. reflexivity.
Qed.
Lemma line_of_coord {V} shape axis (im : list V) d c : axis < length shape -> length im = size shape -> valid shape c ->
  line_through shape axis im c (line_at V (nth axis shape 0) (size (skipn (S axis) shape)) im d (plane_of shape axis c) (col_of shape axis c)).
Proof.
  intros H L Vc. split; [apply line_len|]. intros x Hx. assert (M := move_valid shape axis x c Vc H Hx).
  rewrite (nth_error_nth' im d) by (rewrite L; apply address_lt; auto). unfold line_at. rewrite nth_error_map.
  rewrite (nth_error_nth' _ 0) by (rewrite seq_length; auto). rewrite seq_nth by auto. cbn [option_map Nat.add].
  rewrite (address_cell shape axis) by auto. rewrite move_plane, move_col, move_nth; [auto|]. rewrite (valid_len shape c); auto.
Qed.
Lemma line_through_unique {V} shape axis (im : list V) c l l' : line_through shape axis im c l -> line_through shape axis im c l' -> l = l'.
Proof.
  intros [L H] [L' H']. apply nth_error_ext. intros x. destruct (Nat.lt_ge_cases x (nth axis shape 0)) as [A|A]; [rewrite H, H'; auto|].
  rewrite (proj2 (nth_error_None l x)), (proj2 (nth_error_None l' x)); auto; lia.
Qed.

(** * All the lines *)
Lemma seq_scale n m : flat_map (fun x => map (fun y => x * m + y) (seq 0 m)) (seq 0 n) = seq 0 (n * m).
Proof.
  induction n as [|n IH]; [auto|]. rewrite seq_S, flat_map_app, IH. cbn [Nat.add flat_map]. rewrite app_nil_r. replace (S n * m) with (n * m + m) by lia. rewrite seq_app. f_equal. cbn [Nat.add].
  assert (X : forall k a, map (fun y => a + y) (seq 0 k) = seq a k). { clear. intros k a. induction k as [|k IH]; auto. rewrite !seq_S, map_app, IH. auto. } apply X.
Qed.
Lemma map_flat_map_x {A B D} (f : B -> D) (g : A -> list B) l : map f (flat_map g l) = flat_map (fun x => map f (g x)) l.
Proof. induction l; cbn; auto. rewrite map_app. f_equal. auto. Qed.
Lemma flat_map_flat_map_x {A B D} (f : B -> list D) (g : A -> list B) l : flat_map f (flat_map g l) = flat_map (fun x => flat_map f (g x)) l.
Proof. induction l; cbn; auto. rewrite flat_map_app. f_equal. auto. Qed.
Lemma flat_map_map_x {A B D} (f : B -> list D) (g : A -> B) l : flat_map f (map g l) = flat_map (fun x => f (g x)) l.
Proof. induction l; cbn; auto. f_equal. auto. Qed.
Lemma address_all shape : map (address shape) (all_coords shape) = seq 0 (size shape).
Proof.
  induction shape as [|n s IH]; [reflexivity|]. cbn [all_coords size]. rewrite map_flat_map_x, <- seq_scale. apply flat_map_ext. intros x. rewrite map_map. cbn [address]. rewrite <- IH, map_map. reflexivity.
Qed.
Lemma all_valid : forall shape c, In c (all_coords shape) <-> valid shape c.
Proof.
  induction shape as [|n s IH]; intros c; cbn [all_coords].
  - destruct c; cbn; intuition discriminate.
  - rewrite in_flat_map. split.
    + intros [x [Hx H]]. apply in_map_iff in H. destruct H as [r [<- H]]. apply in_seq in Hx. cbn. split; [lia|]. apply IH. auto.
    + destruct c as [|x r]; cbn; [tauto|]. intros [H Vr]. exists x. split; [apply in_seq; lia|]. apply in_map. apply IH. auto.
Qed.
Lemma all_app a b : all_coords (a ++ b) = flat_map (fun p => map (app p) (all_coords b)) (all_coords a).
Proof.
  induction a as [|n a IH]; cbn [app all_coords flat_map].
  - rewrite app_nil_r. symmetry. apply map_id.
  - rewrite flat_map_flat_map_x. apply flat_map_ext. intros x. rewrite IH, map_flat_map_x, flat_map_map_x. apply flat_map_ext. intros p. rewrite map_map. auto.
Qed.
Lemma move_shape : forall shape axis x, axis < length shape -> move axis x shape = firstn axis shape ++ x :: skipn (S axis) shape.
Proof. induction shape as [|n s IH]; intros [|a] x H; cbn in H; try lia; auto. cbn [move firstn skipn app]. f_equal. apply IH. lia. Qed.
Lemma list_prod_flat {A B} (l : list A) (r : list B) : list_prod l r = flat_map (fun x => map (pair x) r) l.
Proof. induction l; cbn; auto. f_equal. auto. Qed.
Lemma coords_planes shape axis : axis < length shape -> map (fun c => (plane_of shape axis c, col_of shape axis c)) (all_coords (move axis 1 shape)) = list_prod (seq 0 (size (firstn axis shape))) (seq 0 (size (skipn (S axis) shape))).
Proof.
  intros H. rewrite move_shape by auto. rewrite all_app, map_flat_map_x. rewrite list_prod_flat. rewrite <- (address_all (firstn axis shape)), flat_map_map_x. rewrite !flat_map_concat_map. f_equal.
  apply map_ext_in. intros p Hp. apply all_valid in Hp. apply valid_len in Hp. rewrite firstn_length, Nat.min_l in Hp by lia. cbn [all_coords seq flat_map]. rewrite app_nil_r, !map_map. rewrite <- (address_all (skipn (S axis) shape)), map_map.
  apply map_ext. intros q. unfold plane_of, col_of. rewrite firstn_app, Hp, Nat.sub_diag. cbn [firstn]. rewrite app_nil_r. rewrite (firstn_all2 p) by lia. rewrite skipn_app, Hp, (skipn_all2 p) by lia. replace (S axis - axis) with 1 by lia. reflexivity.
Qed.
Lemma moved_valid : forall shape axis c, axis < length shape -> 0 < nth axis shape 0 -> valid (move axis 1 shape) c -> valid shape c.
Proof.
  induction shape as [|n s IH]; intros [|a] [|x c] H P X; cbn in *; try tauto; try lia. split; [lia|tauto]. split; [tauto|]. apply (IH a); [lia|auto|tauto].
Qed.

(** * Spectra *)
Section Sum.
Variables (A T B : Type) (g : A -> T -> A) (h : B -> list T) (t0 : T).
Lemma zip_fold m : forall ls acc u a, Forall (fun l => length (h l) = m) ls -> length acc = m -> nth_error acc u = Some a ->
  nth_error (fold_left (fun acc l => map (fun p => g (fst p) (snd p)) (combine acc (h l))) ls acc) u = Some (fold_left (fun a l => g a (nth u (h l) t0)) ls a) /\
  length (fold_left (fun acc l => map (fun p => g (fst p) (snd p)) (combine acc (h l))) ls acc) = m.
Proof.
  induction ls as [|l ls IH]; intros acc u a F L E; cbn [fold_left]; [auto|]. inversion F as [|? ? F1 F2]; subst. apply IH; auto.
  - rewrite map_length, combine_length, F1. lia.
  - rewrite nth_error_map. assert (X : nth_error (combine acc (h l)) u = Some (a, nth u (h l) t0)); [|rewrite X; auto].
    clear - E F1. revert acc u E F1. generalize (h l). intros k. induction k as [|t k IH]; intros [|b acc] [|u] E F; cbn in *; try discriminate; auto; congruence.
Qed.
End Sum.
Lemma zip_fold_len (A T B : Type) (g : A -> T -> A) (h : B -> list T) m : forall ls acc, Forall (fun l => length (h l) = m) ls -> length acc = m ->
  length (fold_left (fun acc l => map (fun p => g (fst p) (snd p)) (combine acc (h l))) ls acc) = m.
Proof. induction ls as [|l ls IH]; intros acc F L; cbn [fold_left]; auto. inversion F; subst. apply IH; auto. rewrite map_length, combine_length. lia. Qed.
Lemma fold_pair {A B T} (f : A -> T -> A) (g : B -> T -> B) : forall l a b, fold_left (fun p t => (f (fst p) t, g (snd p) t)) l (a, b) = (fold_left f l a, fold_left g l b).
Proof. induction l; intros; cbn; auto. Qed.

Lemma forall2_map_x {A B} (P : A -> Prop) (R : A -> B -> Prop) (f : A -> B) l : (forall a, P a -> R a (f a)) -> Forall P l -> Forall2 R l (map f l).
Proof. induction 2; cbn; constructor; auto. Qed.
Section Spectrum.
Variables (V C S D CD : Type) (fwd : list V -> list C) (hann : nat -> nat -> V -> V) (norm : C -> S) (zero : D) (zeroc : CD) (add : D -> S -> D) (addc : CD -> C -> CD) (finish : nat -> D -> CD -> S) (c0 : C).
Hypothesis fwd_len : forall l, length (fwd l) = length l / 2 + 1.
Lemma windowed_len w (l : list V) : length (windowed V hann w l) = length l.
Proof. unfold windowed. destruct w; auto. rewrite map_length, combine_length, seq_length. lia. Qed.
Theorem spectrum_ok shape axis w im (d : V) : Forall (fun n => 0 < n) shape -> axis < length shape -> length im = size shape ->
  exists lines res, Forall2 (line_through shape axis im) (all_coords (move axis 1 shape)) lines /\ get_spectrum_1d V C fwd S D CD hann norm zero zeroc add addc finish shape axis w im = Val res /\
    length res = nth axis shape 0 / 2 + 1 /\ forall u, u < nth axis shape 0 / 2 + 1 -> nth_error res u = Some (finish (length lines)
      (fold_left (fun t l => add t (norm (nth u (fwd (windowed V hann w l)) c0))) lines zero) (fold_left (fun t l => addc t (nth u (fwd (windowed V hann w l)) c0)) lines zeroc)).
Proof.
  intros P H L. set (n := nth axis shape 0). set (step := size (skipn (Datatypes.S axis) shape)). set (nb := size (firstn axis shape)).
  assert (N0 : 0 < n). { unfold n. rewrite Forall_forall in P. apply P. apply nth_In. auto. }
  set (at_ := fun ij : nat * nat => line_at V n step im d (fst ij) (snd ij)).
  set (lines := map (fun c => at_ (plane_of shape axis c, col_of shape axis c)) (all_coords (move axis 1 shape))).
  assert (EL : lines = map at_ (list_prod (seq 0 nb) (seq 0 step))). { unfold lines, nb, step. rewrite <- (coords_planes shape axis H), map_map. auto. }
  assert (LL : length lines = nb * step). { rewrite EL, map_length, prod_length, !seq_length. auto. }
  assert (FL : Forall (fun l => length (fwd (windowed V hann w l)) = n / 2 + 1) lines). { unfold lines. apply Forall_forall. intros l Hl. apply in_map_iff in Hl. destruct Hl as [c [<- _]]. rewrite fwd_len, windowed_len. unfold at_. rewrite line_len. auto. }
  set (g := fun (p : D * CD) (c : C) => (add (fst p) (norm c), addc (snd p) c)).
  assert (EF : for_lines shape axis (fun n step base => add_line V C fwd S D CD hann norm add addc w im n step base) (repeat (zero, zeroc) (n / 2 + 1))
    = Val (fold_left (fun acc l => map (fun p => g (fst p) (snd p)) (combine acc (fwd (windowed V hann w l)))) lines (repeat (zero, zeroc) (n / 2 + 1)))).
  { rewrite for_lines_eq by auto. fold n step nb. rewrite (ofold_nest (fun i j => add_line V C fwd S D CD hann norm add addc w im n step (i * (n * step) + j))). rewrite EL, fold_left_map_x.
    apply (ofold_ok _ (fun ij acc => map (fun p => g (fst p) (snd p)) (combine acc (fwd (windowed V hann w (at_ ij)))))).
    intros [i j] acc I. apply in_prod_iff in I. destruct I as [Ii Ij]. apply in_seq in Ii, Ij. cbn [fst snd]. unfold add_line.
    assert (AD : forall x, i * (n * step) + j + x * step = cell n step i x j) by (intros; unfold cell; lia).
    rewrite (read_line_ok im d). 2:{ intros x Hx. rewrite AD, L, (shape_size shape axis H). apply cell_lt; auto; unfold nb, step in *; lia. }
    cbn [omap obind]. unfold at_, line_at. cbn [fst snd]. unfold g. do 5 f_equal. apply map_ext. intros x. rewrite AD. auto. }
  exists lines. eexists. split; [|split; [|split]].
  - unfold lines. assert (FV : Forall (valid shape) (all_coords (move axis 1 shape))). { apply Forall_forall. intros c Hc. apply all_valid in Hc. apply (moved_valid shape axis); auto. }
    apply (forall2_map_x (valid shape)); auto. intros c Hc. apply line_of_coord; auto.
  - unfold get_spectrum_1d. fold n. rewrite EF. cbn [omap obind]. reflexivity.
  - rewrite map_length. rewrite (zip_fold_len _ _ _ _ _ (n / 2 + 1)); auto. apply repeat_length.
  - intros u Hu. rewrite nth_error_map. destruct (zip_fold _ _ _ g (fun l => fwd (windowed V hann w l)) c0 (n / 2 + 1) lines (repeat (zero, zeroc) (n / 2 + 1)) u (zero, zeroc)) as [X _]; auto.
    { apply repeat_length. } { rewrite (nth_error_nth' _ (zero, zeroc)) by (rewrite repeat_length; auto). f_equal. apply nth_repeat. }
    rewrite X. cbn [option_map]. unfold g.
    assert (Y : forall ls a b, fold_left (fun (p : D * CD) l => (add (fst p) (norm (nth u (fwd (windowed V hann w l)) c0)), addc (snd p) (nth u (fwd (windowed V hann w l)) c0))) ls (a, b)
      = (fold_left (fun t l => add t (norm (nth u (fwd (windowed V hann w l)) c0))) ls a, fold_left (fun t l => addc t (nth u (fwd (windowed V hann w l)) c0)) ls b)). { induction ls as [|l ls IH]; intros a b; cbn [fold_left fst snd]; auto. }
    rewrite Y. cbn [fst snd]. rewrite LL, !prod_size. reflexivity.
Qed.
End Spectrum.

(** * Kernel *)
Lemma nq_bound rn rd bad good i : 0 < rn -> 0 < rd -> 0 < bad -> i < scaled_size rn rd bad good -> nq rn rd bad good i + 1 < good.
Proof.
  intros R1 R2 B. unfold scaled_size, nq. intros H. set (den := rd * good) in *. set (num := bad * rn) in *. assert (num0 : 0 < num) by (apply Nat.mul_pos_pos; auto).
  assert (G : 0 < good). { destruct good; [|lia]. unfold den in H. rewrite Nat.mul_0_r in H. cbn in H. lia. } assert (den0 : 0 < den) by (apply Nat.mul_pos_pos; auto).
  assert (I : i + 1 <= (good - 1) * num / den) by lia. assert (I2 : (i + 1) * den <= (good - 1) * num). { apply Nat.le_trans with (den * ((good - 1) * num / den)); [rewrite Nat.mul_comm; apply Nat.mul_le_mono_l; auto|apply Nat.mul_div_le; lia]. }
  assert (Q : i * den / num < good - 1). { apply Nat.div_lt_upper_bound; lia. } lia.
Qed.

(** C122: fields averaged by traj2vtk and cage2vtk. *)
Require Import ZArith QArith List Bool Arith Lia Lqa.
Require Import Verif.Base Verif.ListX Verif.RTree_Model Verif.Traj_Model Verif.Traj_Spec Verif.Traj_Proofs Verif.Cluster_Spec Verif.Particles_Model Verif.Corr_Model Verif.Field_Model Verif.Field_Spec Verif.Field_Proofs Verif.Field_Props Verif.Average_Model.
Import ListNotations.
Local Open Scope nat_scope.

(** * Specification *)
(** Arithmetic mean, 0 if there is nothing. *)
Definition qtotal (l : list Q) : Q := fold_right Qplus 0%Q l.
Definition mean (l : list Q) : Q := match l with [] => 0%Q | _ => (qtotal l / inject_Z (Z.of_nat (length l)))%Q end.
(** Number i of each line of each file. *)
Definition values_of (i : nat) (lines : list (list (list Q))) : list (list Q) := map (map (fun l => nth i l 0%Q)) lines.
(** The file completed with zeros. *)
Definition padded (n : nat) (file : list Q) : list Q := file ++ repeat 0%Q (n - length file).
(** The fraction of a cell of volume v filled by a sphere. *)
Definition fraction (pi radius v : Q) : Q := ((4 # 3) * pi * (radius * radius * radius) / v)%Q.

(** * Proofs *)
Lemma qsum_acc l : forall a, (fold_left Qplus l a == a + qtotal l)%Q.
Proof. induction l as [|x l IH]; intros a; cbn [fold_left qtotal fold_right]; [ring|]. rewrite IH. unfold qtotal. ring. Qed.
Lemma mean_sum l : (qdiv (Field_Spec.sum 0%Q Qplus l) (Nat.max 1 (length l)) == mean l)%Q.
Proof.
  unfold Field_Spec.sum, qdiv, mean. destruct l as [|x l]; [reflexivity|]. rewrite qsum_acc. replace (Nat.max 1 (length (x :: l))) with (length (x :: l)) by (cbn; lia). rewrite Qplus_0_l. reflexivity.
Qed.
Lemma window_here t n : t < n -> window t 0 n = [t].
Proof.
  intros H. unfold window. assert (E : seq 0 n = seq 0 t ++ [t] ++ seq (S t) (n - S t)).
  { replace n with (t + S (n - S t)) at 1 by lia. rewrite seq_app. reflexivity. }
  rewrite E, !filter_app. cbn [filter]. rewrite Nat.add_0_r, Nat.leb_refl. cbn [andb].
  assert (N : forall l, (forall x, In x l -> x <> t) -> filter (fun s => (t <=? s + 0) && (s <=? t + 0)) l = []).
  { induction l as [|y l IH]; intros Hl; [reflexivity|]. cbn [filter]. destruct (Nat.leb_spec t (y + 0)), (Nat.leb_spec y (t + 0)); cbn [andb]; try (apply IH; intros; apply Hl; right; auto). exfalso. apply (Hl y); [left; auto|lia]. }
  rewrite Nat.add_0_r in N. rewrite !N; [reflexivity| |]; intros x Hx; apply in_seq in Hx; lia.
Qed.
(** One field, pushed frame by frame: C45 in one statement. *)
Lemma run_mean ti tau (frames : list (list Q)) : consistent ti -> map (@length Q) frames = map (@length nat) (inverse ti) -> tau / 2 < length frames ->
  exists df, df_run Q Qplus qdiv qnull ti tau (df_new Q 0%Q ti tau) frames = Some df /\ map (@length Q) (vals Q df) = map (@length Q) frames /\
    forall t p tr T, invert ti t p = Some tr -> nth_error (trajs ti) tr = Some T ->
      exists row x, nth_error (vals Q df) t = Some row /\ nth_error row p = Some x /\ (x == mean (samples qnull frames T (window t (tau / 2) (length frames))))%Q.
Proof.
  intros Hc Hf Hh. destruct (Nat.eq_dec (tau / 2) 0) as [Z|Z].
  - destruct (C45_no_averaging Q 0%Q Qplus qdiv qnull ti tau frames Hf Z) as [df [E V]]. exists df. split; [exact E|]. rewrite V. split; [reflexivity|].
    intros t p tr T Hi HT. rewrite Z. assert (Hi' := Hi). unfold invert in Hi'. destruct (nth_error (inverse ti) t) as [irow|] eqn:Er; [|discriminate].
    assert (Lt : t < length frames). { apply (f_equal (@length nat)) in Hf. rewrite !map_length in Hf. rewrite Hf. eapply nth_error_lt; eauto. }
    destruct (nth_error_ex frames t Lt) as [row Ef]. assert (Ll : length row = length irow).
    { assert (A := map_nth_error (@length Q) _ _ Ef). rewrite Hf in A. rewrite (map_nth_error (@length nat) _ _ Er) in A. congruence. }
    destruct (nth_error_ex row p) as [x Ex]; [rewrite Ll; eapply nth_error_lt; eauto|]. exists row, x. split; [auto|]. split; [auto|].
    rewrite window_here by auto. unfold samples. cbn [flat_map]. rewrite app_nil_r. unfold sample. rewrite Ef.
    destruct Hc as [O _]. apply O in Hi as [T' [ET AT]]. assert (T' = T) by congruence. subst T'. destruct AT as [k [-> Hk]].
    assert (P : position_at T (start T + k) = Some p). { unfold position_at. rewrite (proj2 (Nat.leb_le _ _)) by lia. replace (start T + k - start T) with k by lia. exact Hk. }
    rewrite P, Ex. unfold mean, qnull. destruct (Qeq_bool x 0) eqn:Q0; [apply Qeq_bool_iff in Q0; exact Q0|]. cbn. field.
  - destruct (C45_sliding_mean Q 0%Q Qplus qdiv qnull ti tau frames Hc Hf) as [df [E [L P]]]; [lia|]. exists df. split; [auto|]. split; [auto|].
    intros t p tr T Hi HT. destruct (P t p tr T Hi HT) as [row [Er Ex]]. cbv zeta in Ex. exists row. eexists. split; [exact Er|]. split; [exact Ex|]. apply mean_sum.
Qed.

Lemma resize_length c n arr : length (resize c n arr) = n * c.
Proof. unfold resize. rewrite app_length, firstn_length, repeat_length. generalize (n * c). intros k. lia. Qed.
Lemma copy_exact xs arr : length xs = length arr -> copy_into xs arr = Val xs.
Proof. intros H. unfold copy_into. rewrite H, Nat.leb_refl. rewrite skipn_all. rewrite app_nil_r. reflexivity. Qed.
Lemma concat_length c (rows : list (list Q)) : Forall (fun r => length r = c) rows -> length (concat rows) = length rows * c.
Proof. induction 1 as [|r l H F IH]; cbn; [reflexivity|]. rewrite app_length, H, IH. reflexivity. Qed.
Lemma nth_concat c (rows : list (list Q)) : Forall (fun r => length r = c) rows -> forall p i, i < c -> nth (p * c + i) (concat rows) 0%Q = nth i (nth p rows []) 0%Q.
Proof.
  induction 1 as [|r l H F IH]; intros p i Hi; cbn [concat].
  - rewrite (nth_overflow (@nil Q)) by (cbn; lia). destruct p, i; reflexivity.
  - destruct p as [|p]; cbn [nth Nat.mul Nat.add]; [rewrite app_nth1 by lia; reflexivity|]. rewrite app_nth2 by lia. rewrite H. replace (c + p * c + i - c) with (p * c + i) by lia. apply IH. auto.
Qed.
Lemma column_concat c (rows : list (list Q)) i : Forall (fun r => length r = c) rows -> i < c -> column c (length rows) (concat rows) i = map (fun l => nth i l 0%Q) rows.
Proof.
  intros F Hi. unfold column. rewrite (map_ext_in _ (fun p => nth i (nth p rows []) 0%Q)) by (intros p _; apply nth_concat; auto).
  clear F. induction rows as [|r l IH]; [reflexivity|]. cbn [length seq map nth]. f_equal. rewrite <- seq_shift, map_map. exact IH.
Qed.

Section Columns.
  Variables (ti : trajindex) (tau c : nat).
  Notation run1 := (df_run Q Qplus qdiv qnull ti tau).
  Lemma push_all n arr : forall dfs k, (forall j, j < length dfs -> exists d, df_push Q Qplus qdiv qnull ti tau (nth j dfs (df_new Q 0%Q ti tau)) (column c n arr (k + j)) = Some d) ->
    exists dfs', osequence (map (fun idf => push ti tau (snd idf) (column c n arr (fst idf))) (combine (seq k (length dfs)) dfs)) = Val dfs' /\ length dfs' = length dfs /\
      forall j, j < length dfs -> df_push Q Qplus qdiv qnull ti tau (nth j dfs (df_new Q 0%Q ti tau)) (column c n arr (k + j)) = Some (nth j dfs' (df_new Q 0%Q ti tau)).
  Proof.
    induction dfs as [|df dfs IH]; intros k H; [exists []; split; [reflexivity|]; split; [reflexivity|]; intros j Hj; cbn in Hj; lia|].
    destruct (H 0) as [d Ed]; [cbn; lia|]. cbn [nth] in Ed. rewrite Nat.add_0_r in Ed.
    destruct (IH (S k)) as [ds [Es [L P]]]. { intros j Hj. destruct (H (S j)) as [d' E']; [cbn; lia|]. exists d'. cbn [nth] in E'. replace (S k + j) with (k + S j) by lia. exact E'. }
    exists (d :: ds). split; [|split; [cbn; lia|]].
    - cbn [length seq combine map osequence fst snd]. unfold push at 1. rewrite Ed. rewrite Es. reflexivity.
    - intros [|j] Hj; cbn [nth]; [rewrite Nat.add_0_r; exact Ed|]. replace (k + S j) with (S k + j) by lia. apply P. cbn in Hj. lia.
  Qed.
  Lemma boo_run : forall (rows : list (list nat)) (lines : list (list (list Q))) arr dfs dfs',
    map (@length (list Q)) lines = map (@length nat) rows -> Forall (Forall (fun l => length l = c)) lines -> length dfs = c -> length dfs' = c ->
    (forall i, i < c -> run1 (nth i dfs (df_new Q 0%Q ti tau)) (values_of i lines) = Some (nth i dfs' (df_new Q 0%Q ti tau))) ->
    exists arr', ofold (boo_step ti tau c) (combine rows (map (@concat Q) lines)) (arr, dfs) = Val (arr', dfs').
  Proof.
    induction rows as [|row rows IH]; intros lines arr dfs dfs' L F Ld Ld' R.
    - destruct lines; [|discriminate]. exists arr. cbn. f_equal. f_equal. apply nth_ext with (d := df_new Q 0%Q ti tau) (d' := df_new Q 0%Q ti tau); [lia|].
      intros i Hi. specialize (R i ltac:(lia)). cbn in R. congruence.
    - destruct lines as [|ls lines]; [discriminate|]. cbn [map] in L. injection L as L1 L. inversion F as [|x y F1 F2]. subst x y.
      cbn [map combine ofold]. unfold boo_step at 1. cbn [fst snd]. rewrite copy_exact by (rewrite resize_length, (concat_length c) by auto; congruence). cbn [obind].
      destruct (push_all (length row) (concat ls) dfs 0) as [ds [Es [Lds P]]].
      { intros j Hj. specialize (R j ltac:(lia)). cbn [values_of map df_run Nat.add] in R |- *. rewrite <- L1, column_concat by (auto; lia).
        destruct (df_push Q Qplus qdiv qnull ti tau (nth j dfs (df_new Q 0%Q ti tau)) (map (fun l => nth j l 0%Q) ls)) as [d|]; [eauto|discriminate]. }
      rewrite Ld in Es. rewrite Es. cbn [omap obind]. apply IH; auto; [lia|]. intros i Hi. specialize (R i Hi). specialize (P i ltac:(lia)). cbn [Nat.add] in P. cbn [values_of map df_run] in R.
      rewrite <- L1, column_concat in P by (auto; lia). rewrite P in R. exact R.
  Qed.
End Columns.

Lemma row_lengths {A B} (l : list (list A)) (m : list (list B)) : map (@length A) l = map (@length B) m -> forall t x y, nth_error l t = Some x -> nth_error m t = Some y -> length x = length y.
Proof. intros H t x y E1 E2. assert (A1 := map_nth_error (@length A) _ _ E1). rewrite H in A1. rewrite (map_nth_error (@length B) _ _ E2) in A1. congruence. Qed.
Lemma values_lengths i lines : map (@length Q) (values_of i lines) = map (@length (list Q)) lines.
Proof. unfold values_of. rewrite map_map. apply map_ext. intros l. apply map_length. Qed.

(** * Theorems *)
(** Each column of the bond order files is averaged on its own: each position is given, for each column, the mean of the non-zero values met by its trajectory within tau/2 steps. *)
Theorem C122_columns ti tau c (lines : list (list (list Q))) : consistent ti -> map (@length (list Q)) lines = map (@length nat) (inverse ti) -> Forall (Forall (fun l => length l = c)) lines -> tau / 2 < length lines ->
  exists out, export_timeBoo ti tau c (map (@concat Q) lines) = Val out /\ map (@length (list Q)) out = map (@length nat) (inverse ti) /\
    forall t p tr T, invert ti t p = Some tr -> nth_error (trajs ti) tr = Some T -> exists frame line, nth_error out t = Some frame /\ nth_error frame p = Some line /\ length line = c /\
      forall i, i < c -> exists x, nth_error line i = Some x /\ (x == mean (samples qnull (values_of i lines) T (window t (tau / 2) (length lines))))%Q.
Proof.
  intros Hc L F Hh. set (def := df_new Q 0%Q ti tau).
  assert (R := fun i => run_mean ti tau (values_of i lines) Hc (eq_trans (values_lengths i lines) L)). assert (Lv : forall i, length (values_of i lines) = length lines) by (intros; apply map_length).
  set (dfs' := map (fun i => match df_run Q Qplus qdiv qnull ti tau def (values_of i lines) with Some d => d | None => def end) (seq 0 c)).
  assert (L' : length dfs' = c) by (unfold dfs'; rewrite map_length, seq_length; reflexivity).
  assert (N : forall i, i < c -> df_run Q Qplus qdiv qnull ti tau def (values_of i lines) = Some (nth i dfs' def)).
  { intros i Hi. destruct (R i) as [d [E _]]; [rewrite Lv; auto|]. fold def in E. rewrite E. f_equal. unfold dfs'. rewrite nth_indep with (d' := match df_run Q Qplus qdiv qnull ti tau def (values_of 0 lines) with Some d => d | None => def end) by (rewrite map_length, seq_length; auto).
    rewrite (map_nth (fun i => match df_run Q Qplus qdiv qnull ti tau def (values_of i lines) with Some d => d | None => def end)). rewrite seq_nth by auto. cbn [Nat.add]. rewrite E. reflexivity. }
  destruct (boo_run ti tau c (inverse ti) lines [] (repeat def c) dfs' L F) as [arr E]; [apply repeat_length|exact L'| |].
  { intros i Hi. fold def. replace (nth i (repeat def c) def) with def; [auto|]. symmetry. apply nth_repeat. }
  unfold export_timeBoo. fold def. rewrite E. cbn [omap obind snd]. eexists. split; [reflexivity|]. split.
  - rewrite map_map. apply nth_ext with (d := 0) (d' := 0); [rewrite !map_length, seq_length; reflexivity|]. intros t Ht. rewrite map_length, seq_length in Ht.
    rewrite nth_indep with (d' := length (map (fun p => map (fun df => nth p (nth 0 (vals Q df) []) 0%Q) dfs') (seq 0 (length (nth 0 (inverse ti) []))))) by (rewrite map_length, seq_length; auto).
    rewrite (map_nth (fun t => length (map (fun p => map (fun df => nth p (nth t (vals Q df) []) 0%Q) dfs') (seq 0 (length (nth t (inverse ti) [])))))). rewrite seq_nth by auto. cbn [Nat.add].
    rewrite map_length, seq_length. change (nth t (map (@length nat) (inverse ti)) 0) with (nth t (map (@length nat) (inverse ti)) (length (@nil nat))). rewrite (map_nth (@length nat)). reflexivity.
  - intros t p tr T Hi HT. assert (Hi' := Hi). unfold invert in Hi'. destruct (nth_error (inverse ti) t) as [row|] eqn:Er; [|discriminate].
    assert (Lt := nth_error_lt _ _ _ Er). assert (Lp := nth_error_lt _ _ _ Hi'). assert (Dr : nth t (inverse ti) [] = row) by (apply nth_error_nth; auto).
    eexists. eexists. split; [rewrite nth_error_map, nth_error_seq by auto; reflexivity|]. cbn [Nat.add]. split; [rewrite nth_error_map, Dr, nth_error_seq by auto; reflexivity|]. split; [rewrite map_length; auto|].
    intros i Hic. destruct (R i) as [d [Ed [Ld P]]]; [rewrite Lv; auto|]. fold def in Ed. rewrite N in Ed by auto. injection Ed as Ed. destruct (P t p tr T Hi HT) as [vrow [x [Ev [Ex Eq]]]].
    exists x. split; [|rewrite Lv in Eq; exact Eq]. cbn [Nat.add]. rewrite nth_error_map. destruct (nth_error_ex dfs' i) as [d' Ed']; [lia|]. rewrite Ed'. cbn [option_map].
    assert (d' = d) by (rewrite <- Ed; symmetry; apply nth_error_nth; auto). subst d'. rewrite (nth_error_nth _ _ _ Ev). rewrite (nth_error_nth _ _ _ Ex). reflexivity.
Qed.
(** More numbers than values expected: the program writes outside its array. *)
Theorem C122_too_many ti tau c files out : export_timeBoo ti tau c files = Val out -> forall t row file, nth_error (inverse ti) t = Some row -> nth_error files t = Some file -> length file <= length row * c.
Proof.
  unfold export_timeBoo. destruct (ofold _ _ _) as [st| |] eqn:E; cbn; try discriminate. intros _. revert E. generalize (@nil Q, repeat (df_new Q 0%Q ti tau) c). generalize (inverse ti) at 1 2 as rows. intros rows. revert files.
  induction rows as [|row rows IH]; intros files s E t r f Er Ef; [destruct t; discriminate|]. destruct files as [|file files]; [destruct t; discriminate|].
  cbn [combine ofold] in E. unfold boo_step at 1 in E. cbn [fst snd] in E. unfold copy_into in E at 1. rewrite resize_length in E. destruct (Nat.leb_spec (length file) (length row * c)) as [Hl|Hl]; [|discriminate].
  cbn [obind] in E. destruct (osequence _) as [ds| |]; cbn [omap obind] in E; try discriminate. destruct t as [|t]; cbn in Er, Ef; [injection Er as <-; injection Ef as <-; auto|]. eapply IH; eauto.
Qed.

Lemma phi_run ti tau pi radius : forall (rows : list (list nat)) files df df', Forall2 (fun row file => length file <= length row) rows files ->
  df_run Q Qplus qdiv qnull ti tau df (map (fun rf => map (fun v => if qnull v then v else (unit_volume pi radius / v)%Q) (padded (length (fst rf)) (snd rf))) (combine rows files)) = Some df' ->
  ofold (fun row_file df => obind (phi_frame pi radius (length (fst row_file)) (snd row_file)) (push ti tau df)) (combine rows files) df = Val df'.
Proof.
  intros rows files df df' F. revert df. induction F as [|row file rows files H F IH]; intros df R; cbn [combine map df_run ofold] in *; [congruence|].
  unfold phi_frame at 1. unfold copy_into. cbn [fst snd] in *. rewrite repeat_length. destruct (Nat.leb_spec (length file) (length row)) as [_|?]; [|lia]. cbn [omap obind].
  assert (Sk : skipn (length file) (repeat 0%Q (length row)) = repeat 0%Q (length row - length file)).
  { clear. generalize (length row). induction (length file) as [|k IH]; intros n; [rewrite Nat.sub_0_r; reflexivity|]. destruct n; cbn; auto. }
  rewrite Sk. fold (padded (length row) file). unfold push at 1. destruct (df_push _ _ _ _ _ _ _ _) as [d|]; [|discriminate]. cbn [obind]. apply IH. exact R.
Qed.
Lemma qtotal_scale k (l : list Q) f g : (forall x, In x l -> f x == k * g x)%Q -> (qtotal (map f l) == k * qtotal (map g l))%Q.
Proof. induction l as [|x l IH]; intros H; cbn [map qtotal fold_right]; [ring|]. fold (qtotal (map f l)). fold (qtotal (map g l)). rewrite IH by (intros; apply H; right; auto). rewrite (H x) by (left; auto). ring. Qed.
Lemma sample_nonzero frames T ts x : In x (samples qnull frames T ts) -> ~ (x == 0)%Q.
Proof.
  unfold samples. rewrite in_flat_map. intros [t [_ H]]. unfold sample in H. destruct (position_at T t); [|contradiction]. destruct (nth_error frames t); [|contradiction]. destruct (nth_error l n); [|contradiction].
  unfold qnull in H. destruct (Qeq_bool q 0) eqn:E; [contradiction|]. destruct H as [<-|[]]. intros Z. apply Qeq_bool_iff in Z. congruence.
Qed.
Lemma samples_map (u : Q) frames T ts : ~ (u == 0)%Q ->
  samples qnull (map (map (fun v => if qnull v then v else (u / v)%Q)) frames) T ts = map (fun v => (u / v)%Q) (samples qnull frames T ts).
Proof.
  intros Hu. unfold samples. induction ts as [|t ts IH]; cbn [flat_map map]; [reflexivity|]. rewrite map_app, IH. apply f_equal2; [|reflexivity]. unfold sample. destruct (position_at T t) as [p|]; [|reflexivity].
  rewrite nth_error_map. destruct (nth_error frames t) as [f|]; cbn [option_map]; [|reflexivity]. rewrite nth_error_map. destruct (nth_error f p) as [v|]; cbn [option_map]; [|reflexivity].
  destruct (qnull v) eqn:E; [rewrite E; reflexivity|]. unfold qnull. destruct (Qeq_bool (u / v) 0) eqn:E'; [|reflexivity]. exfalso. apply Qeq_bool_iff in E'. apply Hu.
  assert (V : ~ (v == 0)%Q) by (intros Z; apply Qeq_bool_iff in Z; unfold qnull in E; congruence). setoid_replace u with ((u / v) * v)%Q by (field; exact V). rewrite E'. ring.
Qed.
Lemma padded_length n f : length f <= n -> length (padded n f) = n.
Proof. intros H. unfold padded. rewrite app_length, repeat_length. lia. Qed.

(** The volume fraction written for a position is three quarters of the mean fraction met by its trajectory within tau/2 steps; cells of volume 0 and numbers missing at the end of the file do not count. *)
Theorem C122_phi ti tau pi radius files : consistent ti -> Forall2 (fun row file => length file <= length row) (inverse ti) files -> tau / 2 < length (inverse ti) -> ~ (pi == 0)%Q -> ~ (radius == 0)%Q ->
  exists out, export_phi ti tau pi radius files = Val out /\ map (@length Q) out = map (@length nat) (inverse ti) /\
    forall t p tr T, invert ti t p = Some tr -> nth_error (trajs ti) tr = Some T -> exists frame x, nth_error out t = Some frame /\ nth_error frame p = Some x /\
      let volumes := map (fun rf => padded (length (fst rf)) (snd rf)) (combine (inverse ti) files) in
      (x == (3 # 4) * mean (map (fraction pi radius) (samples qnull volumes T (window t (tau / 2) (length (inverse ti))))))%Q.
Proof.
  intros Hc F Hh Hp Hr. set (u := unit_volume pi radius). set (vols := map (fun rf => padded (length (fst rf)) (snd rf)) (combine (inverse ti) files)).
  assert (U : (u == (3 # 4) * ((4 # 3) * pi * (radius * radius * radius)))%Q) by (unfold u, unit_volume; change (inject_Z (4 / 3)) with 1%Q; ring).
  assert (Hu : ~ (u == 0)%Q). { unfold u, unit_volume. change (inject_Z (4 / 3)) with 1%Q. intros E. apply Qmult_integral in E as [E|E]; [|auto]. apply Qmult_integral in E as [E|E]; [discriminate E|]. apply Qmult_integral in E as [E|E]; [|auto]. apply Qmult_integral in E as [E|E]; auto. }
  assert (Lv : map (@length Q) vols = map (@length nat) (inverse ti)).
  { unfold vols. clear - F. induction F as [|r f l m H F IH]; cbn [combine map]; [reflexivity|]. cbn [fst snd]. rewrite padded_length by auto. f_equal. exact IH. }
  set (frames := map (map (fun v => if qnull v then v else (u / v)%Q)) vols).
  assert (Lf : map (@length Q) frames = map (@length nat) (inverse ti)). { unfold frames. rewrite map_map. rewrite <- Lv. apply map_ext. intros l. apply map_length. }
  assert (Len : length frames = length (inverse ti)) by (apply (f_equal (@length nat)) in Lf; rewrite !map_length in Lf; auto).
  destruct (run_mean ti tau frames Hc Lf ltac:(lia)) as [df [E [Ld P]]]. exists (vals Q df). split.
  { unfold export_phi. rewrite (phi_run ti tau pi radius (inverse ti) files _ df F); [reflexivity|]. unfold frames, vols in E. rewrite map_map in E. exact E. }
  split; [congruence|]. intros t p tr T Hi HT. destruct (P t p tr T Hi HT) as [row [x [Er [Ex Eq]]]]. exists row, x. split; [auto|]. split; [auto|]. cbv zeta. rewrite Eq, Len. unfold frames. rewrite samples_map by auto.
  set (s := samples qnull vols T (window t (tau / 2) (length (inverse ti)))). assert (Nz : forall v, In v s -> ~ (v == 0)%Q) by (intros v; apply sample_nonzero).
  unfold mean. destruct s as [|v s'] eqn:Es; [cbn; ring|]. rewrite <- Es in *.
  assert (M : forall (f : Q -> Q), match map f s with [] => 0%Q | _ :: _ => (qtotal (map f s) / inject_Z (Z.of_nat (length (map f s))))%Q end = (qtotal (map f s) / inject_Z (Z.of_nat (length s)))%Q).
  { intros f. rewrite map_length. rewrite Es. reflexivity. }
  rewrite !M. rewrite (qtotal_scale (3 # 4) s (fun v => (u / v)%Q) (fraction pi radius)).
  - field. intros E0. rewrite Es in E0. unfold Qeq, inject_Z in E0. cbn [length Qnum Qden] in E0. lia.
  - intros y Hy. unfold fraction. rewrite U. field. apply Nz. auto.
Qed.

(** The files of traj2vtk are read back line by line. *)
Theorem C122_reload (lines : list (list Q)) : Forall (fun l => length l = 8) lines -> traj_scalars (length lines) (concat lines) = Val (map (fun i => map (fun l => nth i l 0%Q) lines) (seq 0 8)).
Proof.
  intros F. unfold traj_scalars, load_boo. rewrite copy_exact by (rewrite resize_length; apply concat_length; auto). cbn [omap obind]. f_equal. apply map_ext_in. intros i Hi. apply in_seq in Hi. apply column_concat; auto. lia.
Qed.
(** The files of cage2vtk are not: position p is given the values of position 2p, and the second half of the positions get 0. *)
Theorem C122_cage_fields_refuted (lines : list (list Q)) : Forall (fun l => length l = 4) lines ->
  exists fields, cage_scalars (length lines) (concat lines) = Val fields /\ length fields = 4 /\
    forall i p, i < 4 -> p < length lines -> nth_error (nth i fields []) p = Some (if 2 * p <? length lines then nth i (nth (2 * p) lines []) 0%Q else 0%Q).
Proof.
  intros F. unfold cage_scalars, load_boo. pose proof (concat_length 4 lines F) as L. unfold copy_into. rewrite resize_length, L. destruct (Nat.leb_spec (length lines * 4) (length lines * 8)) as [_|?]; [|lia].
  cbn [omap obind]. eexists. split; [reflexivity|]. split; [rewrite map_length, seq_length; reflexivity|]. intros i p Hi Hp.
  assert (Sk : skipn (length lines * 4) (resize 8 (length lines) []) = repeat 0%Q (length lines * 4)).
  { unfold resize. rewrite firstn_nil. cbn [app length]. replace (length lines * 8 - 0) with (length lines * 4 + length lines * 4) by lia. rewrite repeat_app. rewrite skipn_app, repeat_length, Nat.sub_diag, skipn_all2 by (rewrite repeat_length; lia). reflexivity. }
  rewrite Sk. set (arr := concat lines ++ repeat 0%Q (length lines * 4)). change (@nil Q) with (column 8 0 arr 0) at 1. 
  rewrite nth_indep with (d' := column 8 (length lines) arr 0) by (rewrite map_length, seq_length; auto). rewrite (map_nth (column 8 (length lines) arr)), seq_nth by auto. cbn [Nat.add].
  unfold column. rewrite nth_error_map, nth_error_seq by auto. cbn [option_map Nat.add]. f_equal. unfold arr. destruct (Nat.ltb_spec (2 * p) (length lines)) as [H|H].
  - rewrite app_nth1 by lia. replace (p * 8 + i) with (2 * p * 4 + i) by lia. apply nth_concat; auto.
  - rewrite app_nth2 by lia. apply nth_repeat.
Qed.

(** * Cases *)
Definition a_lines (f : nat -> Q) : list (list (list Q)) := map (fun t => map (fun p => map (fun i => (f t * f p + inject_Z (Z.of_nat i))%Q) (seq 0 8)) (seq 0 (length (nth t (inverse f_ti) [])))) (seq 0 4).
Example C122_case : let lines := a_lines (fun t => inject_Z (Z.of_nat (S t))) in
  consistent f_ti /\ map (@length (list Q)) lines = map (@length nat) (inverse f_ti) /\ Forall (Forall (fun l => length l = 8)) lines /\ 3 / 2 < length lines /\
  exists out, export_timeBoo f_ti 3 8 (map (@concat Q) lines) = Val out /\ (nth 3 (nth 1 (nth 1 out []) []) 0 == (17 # 3))%Q.
Proof.
  cbv zeta. split; [apply C45_case|]. split; [reflexivity|]. split; [vm_compute; repeat constructor|]. split; [cbn; lia|]. eexists. split; [vm_compute; reflexivity|]. vm_compute. reflexivity.
Qed.
(** Volumes are those of cells filled at one half: one quarter less is written. *)
Example C122_phi_case : Forall2 (fun (row : list nat) (file : list Q) => length file <= length row) (inverse f_ti) [[8#1]; [8#1; 8#1]; [8#1]; []]%Q /\ (fraction 3 1 8 == 1 # 2)%Q /\
  exists out, export_phi f_ti 3 3 1 [[8#1]; [8#1; 8#1]; [8#1]; []]%Q = Val out /\ (nth 0 (nth 2 out []) 0 == 3 # 8)%Q.
Proof. split; [repeat constructor|]. split; [reflexivity|]. eexists. split; [vm_compute; reflexivity|]. vm_compute. reflexivity. Qed.
Theorem C122_phi_refuted : exists ti tau pi radius files out, consistent ti /\ export_phi ti tau pi radius files = Val out /\ (forall file v, In file files -> In v file -> fraction pi radius v == 1 # 2)%Q /\
  exists t p x, nth_error out t = Some p /\ nth_error p 0 = Some x /\ (x == 3 # 8)%Q.
Proof.
  exists f_ti, 3, 3%Q, 1%Q, [[8#1]; [8#1; 8#1]; [8#1; 8#1]; [8#1]]%Q. eexists. split; [apply C45_case|]. split; [vm_compute; reflexivity|]. split.
  - intros file v Hf Hv. assert (v = (8 # 1)%Q); [|subst; reflexivity]. cbn in Hf. repeat (destruct Hf as [<-|Hf]; [cbn in Hv; intuition congruence|]). contradiction.
  - exists 2. eexists. eexists. split; [reflexivity|]. split; [reflexivity|]. vm_compute. reflexivity.
Qed.
(** A file that is missing is replaced without a word by the values of the previous time, position by position (here one value per particle; no averaging). *)
Theorem C122_missing_file_refuted : exists ti files out, consistent ti /\ nth_error files 2 = Some [] /\ export_timeBoo ti 1 1 files = Val out /\ nth 2 out [] = nth 1 out [] /\ nth 1 out [] = [[7%Q]; [8%Q]] /\
  invert ti 1 0 = Some 1 /\ invert ti 2 0 = Some 0.
Proof. exists f_ti, [[6%Q]; [7%Q; 8%Q]; []; [9%Q]]. eexists. split; [apply C45_case|]. split; [reflexivity|]. split; [vm_compute; reflexivity|]. repeat split. Qed.
(** With the number of frames as interval (cage2vtk.cpp:319, 331) the values are not the means over whole cages: the same cage has two values. *)
Theorem C122_whole_cage_refuted : exists ti files out, consistent ti /\ export_timeBoo ti (length (inverse ti)) 1 files = Val out /\ invert ti 0 0 = Some 0 /\ invert ti 3 0 = Some 0 /\
  ~ (nth 0 (nth 0 (nth 0 out []) []) 0 == nth 0 (nth 0 (nth 3 out []) []) 0)%Q.
Proof. exists f_ti, [[6%Q]; [7%Q; 8%Q]; [1%Q; 2%Q]; [9%Q]]. eexists. split; [apply C45_case|]. split; [vm_compute; reflexivity|]. do 2 (split; [reflexivity|]). vm_compute. discriminate. Qed.
Example C122_too_many_case : export_timeBoo f_ti 3 4 (map (@concat Q) (a_lines (fun t => inject_Z (Z.of_nat (S t))))) = UB.
Proof. vm_compute. reflexivity. Qed.
Example C122_reload_case : exists lines : list (list Q), Forall (fun l => length l = 8) lines /\ traj_scalars 2 (concat lines) = Val [[1; 9]; [2; 10]; [3; 11]; [4; 12]; [5; 13]; [6; 14]; [7; 15]; [8; 16]]%Q.
Proof. exists [[1; 2; 3; 4; 5; 6; 7; 8]; [9; 10; 11; 12; 13; 14; 15; 16]]%Q. split; [repeat constructor|]. vm_compute. reflexivity. Qed.
Example C122_cage_fields_case : Forall (fun l : list Q => length l = 4) [[1; 2; 3; 4]; [5; 6; 7; 8]; [9; 10; 11; 12]]%Q /\ cage_scalars 3 (concat [[1; 2; 3; 4]; [5; 6; 7; 8]; [9; 10; 11; 12]]%Q) = Val [[1; 9; 0]; [2; 10; 0]; [3; 11; 0]; [4; 12; 0]]%Q.
Proof. split; [repeat constructor|]. vm_compute. reflexivity. Qed.

Print Assumptions C122_columns.
Print Assumptions C122_too_many.
Print Assumptions C122_phi.
Print Assumptions C122_reload.
Print Assumptions C122_cage_fields_refuted.
Print Assumptions C122_phi_refuted.
Print Assumptions C122_missing_file_refuted.
Print Assumptions C122_whole_cage_refuted.

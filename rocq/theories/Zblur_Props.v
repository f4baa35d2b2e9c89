(** C112: blur of a volume by several threads. *)
Require Import ZArith List Bool Arith Lia Permutation.
Require Import Verif.Base Verif.RTree_Model Verif.ListX Verif.Traj_Model Verif.Par_Model Verif.Par_Spec Verif.Par_Proofs Verif.Par_Props Verif.Zblur_Model Verif.Zblur_Spec.
Import ListNotations.
Local Open Scope nat_scope.

Lemma section_eq : forall cols n t, t < n -> section cols n t = seq (t * (cols / n)) (cols / n).
Proof.
  intros cols n t H. unfold section. cbv zeta. f_equal.
  pose proof (Nat.mul_div_le cols n ltac:(lia)) as L.
  assert (t * (cols / n) + (cols / n) <= n * (cols / n)). { replace (t * (cols / n) + cols / n) with ((S t) * (cols / n)) by lia. apply Nat.mul_le_mono_r. lia. }
  generalize dependent (n * (cols / n)). generalize (t * (cols / n)). generalize (cols / n). intros. lia.
Qed.
Lemma sections_all : forall s n a, concat (map (fun t => seq (t * s) s) (seq a n)) = seq (a * s) (n * s).
Proof.
  intros s n; induction n as [|n IH]; intros a; [reflexivity|]. cbn [seq map concat]. rewrite IH.
  replace (S n * s) with (s + n * s) by lia. rewrite seq_app. f_equal. f_equal. lia.
Qed.
Lemma sections_cover : forall cols n, concat (map (section cols n) (seq 0 n)) = seq 0 (n * (cols / n)).
Proof.
  intros cols n. rewrite (map_ext_in (section cols n) (fun t => seq (t * (cols / n)) (cols / n))).
  - rewrite sections_all. reflexivity.
  - intros t Ht. apply in_seq in Ht. apply section_eq. lia.
Qed.
Lemma own_line : forall V (f : V -> V), own_cells (fun c : nat => [(c, f)]).
Proof. intros V f i j k g h [E|[]] [E'|[]]. inversion E; inversion E'; subst. congruence. Qed.

Section C112.
  Context {P : Type} (alongZ plane : list P -> list P).
  Lemma once : forall (f : list P -> list P) m parts sched mem mem', shared_out (seq 0 m) parts ->
    parallel_for (fun c => [(c, f)]) parts sched mem = Some mem' ->
    forall c, nth_error mem' c = option_map (if c <? m then f else fun l => l) (nth_error mem c).
  Proof.
    intros f m parts sched mem mem' Hs H c.
    destruct (C110_own_cells _ _ _ _ _ _ (own_line _ f) (seq_NoDup _ _) Hs H) as [L [A [B _]]].
    destruct (nth_error mem c) as [l|] eqn:E.
    - cbn [option_map]. destruct (Nat.ltb_spec c m) as [Lt|Ge].
      + rewrite (A c c f l); [|apply in_seq; lia|left; reflexivity|exact E]. unfold applied. cbn. rewrite Nat.eqb_refl. reflexivity.
      + rewrite B; [exact E|]. intros i g Hi [X|[]]. inversion X; subst. apply in_seq in Hi. lia.
    - apply nth_error_None in E. cbn. apply nth_error_None. lia.
  Qed.
  (** Along Z: whatever the threads and the interleaving, the lines of the columns reached are filtered exactly once, the others not at all; the sections of
      different threads have no column in common. *)
  Theorem C112_lines : forall n sched ls ls', par_alongZ P alongZ n sched ls = Some ls' ->
    length ls' = length ls /\
    forall c l, nth_error ls c = Some l -> nth_error ls' c = Some (if reached (length ls) n c then alongZ l else l).
  Proof.
    intros n sched ls ls' H. unfold par_alongZ in H.
    assert (Hs : shared_out (seq 0 (n * (length ls / n))) (map (section (length ls) n) (seq 0 n))).
    { unfold shared_out. rewrite sections_cover. apply Permutation_refl. }
    split; [destruct (C110_own_cells _ _ _ _ _ _ (own_line _ alongZ) (seq_NoDup _ _) Hs H) as [L _]; exact L|].
    intros c l E. rewrite (once _ _ _ _ _ _ Hs H), E. unfold reached. cbn [option_map]. destruct (c <? _); reflexivity.
  Qed.
  Theorem C112_sections_disjoint : forall cols n t u c, t < n -> u < n -> In c (section cols n t) -> In c (section cols n u) -> t = u.
  Proof.
    intros cols n t u c Ht Hu. rewrite !section_eq by lia. rewrite !in_seq. generalize (cols / n) as s. intros s A B.
    destruct (Nat.lt_trichotomy t u) as [C|[C|C]]; [|exact C|].
    - assert (S t * s <= u * s) by (apply Nat.mul_le_mono_r; lia). lia.
    - assert (S u * s <= t * s) by (apply Nat.mul_le_mono_r; lia). lia.
  Qed.
  (** No schedule is stuck and all end. *)
  Theorem C112_ends : forall n ls, exists sched ls', par_alongZ P alongZ n sched ls = Some ls'.
  Proof.
    intros n ls. unfold par_alongZ.
    assert (R : forall c, In c (concat (map (section (length ls) n) (seq 0 n))) -> c < length ls).
    { intros c Hc. rewrite sections_cover in Hc. apply in_seq in Hc. destruct n as [|n]; [cbn in Hc; lia|]. pose proof (Nat.mul_div_le (length ls) (S n) ltac:(lia)). lia. }
    (** one thread after the other *)
    set (parts := map (section (length ls) n) (seq 0 n)) in *. clearbody parts.
    assert (One : forall (pre post : list (pthread (list P))) p (m : list (list P)), (forall c, In c p -> c < length m) ->
      exists sc m', prun (m, pre ++ mkPThread None (flat_map (fun c => [(c, alongZ)]) p) :: post) sc = Some (m', pre ++ mkPThread None [] :: post) /\ length m' = length m).
    { intros pre post p; induction p as [|c p IH]; intros m Hp; [exists [], m; split; reflexivity|].
      assert (Lc : c < length m) by (apply Hp; left; reflexivity). destruct (nth_error m c) as [x|] eqn:E; [|apply nth_error_None in E; lia].
      destruct (IH (set_nth c (alongZ x) m)) as [sc [m' [R1 R2]]]; [intros d Hd; rewrite set_nth_len; apply Hp; right; exact Hd|].
      exists (length pre :: length pre :: sc), m'. rewrite set_nth_len in R2. split; [|exact R2].
      assert (G : forall t, nth_error (pre ++ t :: post) (length pre) = Some t). { intros t. rewrite nth_error_app2 by lia. rewrite Nat.sub_diag. reflexivity. }
      assert (S : forall t u, set_nth (length pre) u (pre ++ t :: post) = pre ++ u :: post). { intros t u. clear. induction pre as [|y pre IHp]; [reflexivity|]. cbn. f_equal. exact IHp. }
      cbn [prun pstep flat_map app]. rewrite G, E, S. cbn [prun pstep]. rewrite G. apply Nat.ltb_lt in Lc. rewrite Lc, S. exact R1. }
    assert (App : forall a b (s : list (list P) * list (pthread (list P))), prun s (a ++ b) = match prun s a with Some s' => prun s' b | None => None end).
    { intros a; induction a as [|i a IH]; intros b s0; [reflexivity|]. cbn. destruct (pstep s0 i); auto. }
    assert (All : forall ps (m : list (list P)) k, (forall c, In c (concat ps) -> c < length m) ->
      exists sc m', prun (m, repeat (mkPThread None []) k ++ map (mkPThread None) (map (flat_map (fun c => [(c, alongZ)])) ps)) sc = Some (m', repeat (mkPThread None []) (k + length ps))).
    { intros ps; induction ps as [|p ps IH]; intros m k Hp; [exists [], m; cbn; rewrite app_nil_r, Nat.add_0_r; reflexivity|].
      cbn [map]. destruct (One (repeat (mkPThread None []) k) (map (mkPThread None) (map (flat_map (fun c => [(c, alongZ)])) ps)) p m) as [sc [m' [R1 R2]]];
        [intros c Hc; apply Hp; cbn; apply in_or_app; left; exact Hc|].
      destruct (IH m' (S k)) as [sc2 [m2 R3]]; [intros c Hc; rewrite R2; apply Hp; cbn; apply in_or_app; right; exact Hc|].
      exists (sc ++ sc2), m2. rewrite App, R1. cbn [length]. replace (k + S (length ps)) with (S k + length ps) by lia.
      rewrite <- R3. f_equal. f_equal. replace (S k) with (k + 1) by lia. rewrite repeat_app, <- app_assoc. reflexivity. }
    destruct (All parts ls 0 R) as [sc [m' E]]. cbn [repeat app plus] in E. exists sc, m'. unfold parallel_for, plaunch, statement in *. rewrite E.
    replace (forallb _ _) with true; [reflexivity|]. symmetry. apply forallb_forall. intros t Ht. apply repeat_spec in Ht. subst. reflexivity.
  Qed.
  (** The same as without threads when their number divides the number of columns... *)
  Theorem C112_same_if_divides : forall n sched ls ls', n <> 0 -> length ls mod n = 0 -> par_alongZ P alongZ n sched ls = Some ls' -> ls' = seq_alongZ P alongZ ls.
  Proof.
    intros n sched ls ls' Hn Hm H. destruct (C112_lines _ _ _ _ H) as [L A]. apply nth_ext_x; [unfold seq_alongZ; rewrite map_length; exact L|].
    intros c l E. unfold seq_alongZ in E. rewrite nth_error_map in E. destruct (nth_error ls c) as [x|] eqn:Ex; [|discriminate]. injection E as <-.
    rewrite (A c x Ex). unfold reached. pose proof (Nat.div_mod (length ls) n Hn) as D. rewrite Hm, Nat.add_0_r in D. rewrite <- D.
    apply nth_error_lt in Ex. apply Nat.ltb_lt in Ex. rewrite Ex. reflexivity.
  Qed.
  (** ... and only then: otherwise the last (cols mod n) columns keep the unblurred voxels, whatever the schedule. *)
  Theorem C112_last_columns_refuted : forall n sched ls ls' c l, n <> 0 -> par_alongZ P alongZ n sched ls = Some ls' ->
    length ls - length ls mod n <= c -> nth_error ls c = Some l -> nth_error ls' c = Some l /\ (alongZ l <> l -> ls' <> seq_alongZ P alongZ ls).
  Proof.
    intros n sched ls ls' c l Hn H Hc E. destruct (C112_lines _ _ _ _ H) as [L A]. pose proof (A c l E) as X. unfold reached in X.
    pose proof (Nat.div_mod (length ls) n Hn) as D. destruct (Nat.ltb_spec c (n * (length ls / n))) as [B|B]; [lia|].
    split; [exact X|]. intros Ne Eq. rewrite Eq in X. unfold seq_alongZ in X. rewrite nth_error_map, E in X. cbn in X. congruence.
  Qed.
  (** More threads than columns: nothing is blurred along Z. *)
  Theorem C112_too_many_threads_refuted : forall n sched ls ls', length ls < n -> par_alongZ P alongZ n sched ls = Some ls' -> ls' = ls.
  Proof.
    intros n sched ls ls' Hn H. destruct (C112_lines _ _ _ _ H) as [L A]. apply nth_ext_x; [exact L|]. intros c l E. rewrite (A c l E). unfold reached.
    rewrite (Nat.div_small _ _ Hn), Nat.mul_0_r. reflexivity.
  Qed.

  (** In the planes there is no such gap: every plane is filtered exactly once. *)
  Theorem C112_planes : forall parts sched vol vol', shared_out (seq 0 (length vol)) parts -> par_XY P plane parts sched vol = Some vol' -> vol' = map plane vol.
  Proof.
    intros parts sched vol vol' Hs H. unfold par_XY in H.
    destruct (C110_own_cells _ _ _ _ _ _ (own_line _ plane) (seq_NoDup _ _) Hs H) as [L _].
    apply nth_ext_x; [rewrite map_length; exact L|]. intros k y E. rewrite nth_error_map in E. destruct (nth_error vol k) as [p|] eqn:Ep; [|discriminate]. injection E as <-.
    rewrite (once _ _ _ _ _ _ Hs H), Ep. apply nth_error_lt in Ep. apply Nat.ltb_lt in Ep. rewrite Ep. reflexivity.
  Qed.
  (** The whole blur: plane k of the result is the filtered plane k of a volume of which only the columns reached were filtered along Z. *)
  Theorem C112_volume : forall d cols n schedZ parts schedXY vol vol', shared_out (seq 0 (length vol)) parts ->
    par_blur3D P alongZ plane d cols n schedZ parts schedXY vol = Some vol' ->
    length vol' = length vol /\
    forall k p, nth_error vol k = Some p -> nth_error vol' k = Some (plane (map (fun c => if reached cols n c then nth k (alongZ (map (fun q => nth c q d) vol)) d else nth c p d) (seq 0 cols))).
  Proof.
    intros d cols n schedZ parts schedXY vol vol' Hs H. unfold par_blur3D in H.
    destruct (par_alongZ P alongZ n schedZ (lines P d cols vol)) as [ls|] eqn:E; [|discriminate].
    set (mid := map (fun k => map (fun l => nth k l d) ls) (seq 0 (length vol))) in H.
    assert (Lm : length mid = length vol) by (unfold mid; rewrite map_length, seq_length; reflexivity).
    rewrite <- Lm in Hs. rewrite (C112_planes _ _ _ _ Hs H). split; [rewrite map_length; exact Lm|].
    intros k p Ep. rewrite nth_error_map. pose proof (nth_error_lt _ _ _ Ep) as Lk. unfold mid. rewrite nth_error_map, nth_error_seq by exact Lk. cbn [option_map plus].
    destruct (C112_lines _ _ _ _ E) as [L A]. assert (Lc : length (lines P d cols vol) = cols) by (unfold lines; rewrite map_length, seq_length; reflexivity).
    rewrite Lc in L, A. f_equal. f_equal. apply nth_ext_x; [rewrite !map_length, seq_length; exact L|].
    intros c y Hy. rewrite nth_error_map in Hy. destruct (nth_error (seq 0 cols) c) as [c'|] eqn:Ec; [|discriminate]. apply nth_error_seq_x in Ec as [-> Lcc].
    injection Hy as <-. rewrite nth_error_map. rewrite (A c (map (fun p => nth c p d) vol)).
    2: { unfold lines. rewrite nth_error_map, nth_error_seq by exact Lcc. reflexivity. }
    cbn [option_map]. f_equal. destruct (reached cols n c); [reflexivity|].
    transitivity (nth k (map (fun q => nth c q d) vol) (nth c (@nil P) d)); [apply nth_indep; rewrite map_length; exact Lk|].
    rewrite (map_nth (fun q => nth c q d) vol [] k). rewrite (nth_error_nth _ _ _ Ep). reflexivity.
  Qed.
  (** Without OpenMP every column is filtered along Z; with it, the same when the number of threads divides the number of columns. *)
  Theorem C112_sequential : forall d cols vol, length (seq_blur3D P alongZ plane d cols vol) = length vol /\
    forall k, k < length vol -> nth_error (seq_blur3D P alongZ plane d cols vol) k = Some (plane (map (fun c => nth k (alongZ (map (fun q => nth c q d) vol)) d) (seq 0 cols))).
  Proof.
    intros d cols vol. unfold seq_blur3D. split; [rewrite !map_length, seq_length; reflexivity|]. intros k Hk. rewrite !nth_error_map, nth_error_seq by exact Hk. cbn [option_map plus]. do 2 f_equal.
    unfold seq_alongZ, lines. rewrite !map_map. reflexivity.
  Qed.
  Theorem C112_same_volume : forall d cols n schedZ parts schedXY vol vol', n <> 0 -> cols mod n = 0 -> shared_out (seq 0 (length vol)) parts ->
    par_blur3D P alongZ plane d cols n schedZ parts schedXY vol = Some vol' -> vol' = seq_blur3D P alongZ plane d cols vol.
  Proof.
    intros d cols n schedZ parts schedXY vol vol' Hn Hm Hs H. destruct (C112_volume _ _ _ _ _ _ _ _ Hs H) as [L A]. destruct (C112_sequential d cols vol) as [L' A']. apply nth_ext_x; [congruence|].
    intros k y E. assert (Hk : k < length vol) by (rewrite <- L'; eapply nth_error_lt; eauto). destruct (nth_error vol k) as [p|] eqn:Ep; [|apply nth_error_None in Ep; lia].
    rewrite (A k p Ep). rewrite (A' k Hk) in E. injection E as <-. do 2 f_equal. apply map_ext_in. intros c Hc. apply in_seq in Hc. unfold reached. pose proof (Nat.div_mod cols n Hn) as D. rewrite Hm, Nat.add_0_r in D. rewrite <- D.
    rewrite (proj2 (Nat.ltb_lt c cols)) by lia. reflexivity.
  Qed.
End C112.

(** A volume of 2 planes of 5 pixels, blurred by two threads that alternate: the last column keeps its values along Z, the others become their mean. *)
Definition mean_line (l : list Z) : list Z := match l with [a; b] => [((a + b) / 2)%Z; ((a + b) / 2)%Z] | _ => l end.
Example C112_blur_by_two : par_blur3D Z mean_line (fun p => p) 0%Z 5 2 [0; 1; 1; 0; 0; 1; 0; 1] [[0]; [1]] [1; 0; 0; 1] [[0; 0; 0; 0; 0]; [8; 8; 8; 8; 8]]%Z = Some [[4; 4; 4; 4; 0]; [4; 4; 4; 4; 8]]%Z /\
  seq_blur3D Z mean_line (fun p => p) 0%Z 5 [[0; 0; 0; 0; 0]; [8; 8; 8; 8; 8]]%Z = [[4; 4; 4; 4; 4]; [4; 4; 4; 4; 4]]%Z.
Proof. split; reflexivity. Qed.
Example C112_blur_by_five : exists sched, par_alongZ Z mean_line 5 sched (lines Z 0%Z 5 [[0; 0; 0; 0; 0]; [8; 8; 8; 8; 8]]%Z) = Some (repeat [4; 4]%Z 5).
Proof. exists [0; 4; 2; 4; 0; 2; 1; 3; 3; 1]. reflexivity. Qed.

Print Assumptions C112_lines.
Print Assumptions C112_sections_disjoint.
Print Assumptions C112_ends.
Print Assumptions C112_same_if_divides.
Print Assumptions C112_last_columns_refuted.
Print Assumptions C112_too_many_threads_refuted.
Print Assumptions C112_planes.
Print Assumptions C112_volume.
Print Assumptions C112_sequential.
Print Assumptions C112_same_volume.

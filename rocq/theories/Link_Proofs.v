(** Proofs about linking and drift. *)
Require Import ZArith List Bool Arith Lia Sorted.
Require Import Verif.Base Verif.SortU Verif.ListX Verif.Box_Model Verif.RTree_Model Verif.RTree_Spec Verif.Index_Model Verif.Traj_Model Verif.Particles_Model Verif.Particles_Spec Verif.Particles_Proofs Verif.Particles_Props
  Verif.Corr_Model Verif.Link_Model Verif.Link_Spec.
Import ListNotations.
Local Open Scope nat_scope.

(** Frames. *)
Lemma prun_app c : forall ops ops' st, prun c st (ops ++ ops') = match prun c st ops with Some st' => prun c st' ops' | None => None end.
Proof. induction ops as [|o ops IH]; intros; simpl; auto. destruct (pstep c st o); auto. Qed.
Lemma never_indexed c : forall ops st st', ~ In PIndex ops -> pindex st = None -> prun c st ops = Some st' -> pindex st' = None.
Proof.
  induction ops as [|o ops IH]; intros st st' Hn Hi E; [injection E as <-; auto|]. cbn [prun] in E. destruct (pstep c st o) as [s1|] eqn:Es; [|discriminate].
  apply (IH s1 st'); auto; [intros H; apply Hn; right; auto|]. destruct o; cbn [pstep] in Es.
  - exfalso. apply Hn. left. auto.
  - unfold push_back in Es. rewrite Hi in Es. injection Es as <-. auto.
  - injection Es as <-. cbn. rewrite Hi. auto.
  - injection Es as <-. cbn. auto.
  - injection Es as <-. cbn. auto.
Qed.
Lemma ready_points c st : config_ok c -> dims c = 3 -> frame_ready c st -> Forall point3 (pts st).
Proof.
  intros Hok H3 [l [bb [r [ops [Hl [Ho [_ E]]]]]]]. destruct (history_ok c l bb r ops Hok H3 Hl Ho) as [st' [E' [_ [Hp _]]]]. congruence.
Qed.
Lemma ready_index c st : config_ok c -> dims c = 3 -> frame_ready c st ->
  exists st' t, ensure_index c st = Val st' /\ pts st' = pts st /\ pindex st' = Some t /\ index_of c (pts st') t.
Proof.
  intros Hok H3 Hr. assert (Hp := ready_points c st Hok H3 Hr). destruct Hr as [l [bb [r [ops [Hl [Ho [Hi E]]]]]]].
  destruct (history_ok c l bb r ops Hok H3 Hl Ho) as [st' [E' [_ [_ Hx]]]]. assert (st' = st) by congruence. subst st'. unfold ensure_index.
  destruct (pindex st) as [t|] eqn:Et.
  - destruct Hi as [Hi|Hi]; [|rewrite (never_indexed c ops (new_particles l bb r) st Hi eq_refl E) in Et; discriminate].
    destruct (Hx Hi) as [t' [Et' Hit]]. exists st, t'. repeat split; auto; try congruence. apply Hit.
  - destruct (index_build c (pts st) Hok) as [t [Eb Hit]].
    { eapply Forall_impl; [|exact Hp]. intros p H. apply point3_length in H. congruence. }
    unfold make_index. rewrite Eb. eexists. exists t. split; [reflexivity|]. cbn. repeat split; auto. apply Hit.
Qed.
Lemma ready_shift c st v : config_ok c -> dims c = 3 -> frame_ready c st -> point3 v -> frame_ready c (shift st v).
Proof.
  intros Hok H3 [l [bb [r [ops [Hl [Ho [Hi E]]]]]]] Hv. exists l, bb, r, (ops ++ [PShift v]). split; auto. split; [apply Forall_app; split; auto|]. split.
  - destruct Hi as [Hi|Hi]; [left|right].
    + unfold indexed in *. rewrite fold_left_app. cbn. auto.
    + intros H. apply in_app_or in H. destruct H as [H|[H|[]]]; [auto|discriminate].
  - rewrite prun_app, E. reflexivity.
Qed.

(** Followers. *)
Definition tree_ok (c : config) (st : particles) : Prop := Forall point3 (pts st) /\ exists t, pindex st = Some t /\ index_of c (pts st) t.
Lemma followers_ok c now next range : config_ok c -> dims c = 3 -> Forall point3 (pts now) -> tree_ok c next ->
  exists fol, followers_by_dist now next range = Val fol /\ length fol = length (pts now) /\
    forall p x mm, nth_error (pts now) p = Some x -> nth_error fol p = Some mm ->
      forall d q, In (d, q) mm <-> exists y, nth_error (pts next) q = Some y /\ closer3 y x range /\ d = dist2 y x.
Proof.
  intros Hok H3 Hn [Hp [t [Et Hi]]]. unfold followers_by_dist. induction (pts now) as [|x l IH].
  - exists []. cbn. repeat split; auto; intros; destruct p; discriminate.
  - inversion Hn; subst. destruct IH as [fol [E [L K]]]; auto. destruct (by_dist_spec c next t Hok H3 Hp Et Hi x range) as [res [Er [_ [_ Hr]]]]; auto.
    exists (res :: fol). cbn [map osequence]. rewrite Er. cbn [obind]. rewrite E. cbn. split; auto. split; auto.
    intros [|p] x' mm Hx Hm; cbn in Hx, Hm; [injection Hx as <-; injection Hm as <-; exact Hr|eauto].
Qed.

Lemma osequence_ready c : config_ok c -> dims c = 3 -> forall frames, Forall (frame_ready c) frames ->
  exists fs, osequence (map (ensure_index c) frames) = Val fs /\ map pts fs = map pts frames /\ Forall (tree_ok c) fs.
Proof.
  intros Hok H3. induction frames as [|st frames IH]; intros H; [exists []; cbn; auto|]. inversion H as [|? ? H1 H2]; subst. destruct (IH H2) as [fs [E [M T]]].
  destruct (ready_index c st Hok H3 H1) as [st' [t [Es [Hp [Et Hi]]]]]. exists (st' :: fs). cbn [map osequence]. rewrite Es. cbn [obind]. rewrite E. cbn. split; auto. split; [congruence|].
  constructor; auto. split; eauto. rewrite Hp. eapply ready_points; eauto.
Qed.

(** Drift. *)
Lemma nth_skip : forall k nums i, nth i (skip_pairs k nums) 0%Z = nth (2 * k + i) nums 0%Z.
Proof.
  induction k as [|k IH]; intros nums i; [reflexivity|]. cbn [skip_pairs]. rewrite IH. replace (2 * S k + i) with (S (S (2 * k + i))) by lia.
  destruct nums as [|x [|y nums]]; cbn [next_num fst snd nth]; auto; destruct (2 * k + i); auto.
Qed.
Lemma next_nth nums : fst (next_num nums) = nth 0 nums 0%Z /\ forall i, nth i (snd (next_num nums)) 0%Z = nth (S i) nums 0%Z.
Proof. destruct nums; cbn; split; auto. intros []; auto. Qed.
Lemma read_nth n off : forall m t nums i, i < m ->
  nth_error (read_displ n off t m nums) i = Some (if t + i + off <? n then [nth (2 * i) nums 0%Z; nth (2 * i + 1) nums 0%Z; 0%Z] else [0; 0; 0]%Z).
Proof.
  induction m as [|m IH]; intros t nums i Hi; [lia|]. cbn [read_displ]. destruct (next_nth nums) as [H1 H2]. destruct (next_num nums) as [x r1] eqn:E1. cbn [fst snd] in *.
  destruct (next_nth r1) as [H3 H4]. destruct (next_num r1) as [y r2] eqn:E2. cbn [fst snd] in *. destruct i as [|i].
  - rewrite Nat.add_0_r. destruct (t + off <? n); cbn; auto. rewrite H1, H3, H2. auto.
  - destruct (Nat.ltb_spec (t + off) n) as [H|H].
    + cbn [nth_error]. rewrite IH by lia. replace (S t + i + off) with (t + S i + off) by lia. rewrite !H4, !H2. destruct (t + S i + off <? n); auto.
      f_equal. f_equal; [f_equal; lia|]. f_equal. f_equal. lia.
    + cbn [nth_error]. rewrite IH by lia. rewrite !(proj2 (Nat.ltb_ge _ _)) by lia. auto.
Qed.
Lemma read_length n off : forall m t nums, length (read_displ n off t m nums) = m.
Proof.
  induction m as [|m IH]; intros t nums; [reflexivity|]. cbn [read_displ]. destruct (next_num nums) as [x r1]. destruct (next_num r1) as [y r2]. destruct (t + off <? n); cbn [length]; rewrite IH; auto.
Qed.

Definition vec (x y : Z) : list Z := [x; y; 0%Z].
Lemma vadd_vec a b a' b' : Particles_Model.vadd (vec a b) (vec a' b') = vec (a + a') (b + b').
Proof. reflexivity. Qed.
Lemma running_spec (f g : nat -> Z) : forall m t a b,
  running (vec a b) (map (fun t => vec (f t) (g t)) (seq t m)) = map (fun i => vec (a + total f t i) (b + total g t i)) (seq t m).
Proof.
  induction m as [|m IH]; intros t a b; [reflexivity|]. cbn [seq map running]. f_equal.
  - unfold vec, total. replace (t + 1 - t) with 1 by lia. cbn. repeat f_equal; lia.
  - rewrite vadd_vec, IH.
    apply map_ext_in. intros i Hi. apply in_seq in Hi. unfold total. replace (i + 1 - t) with (S (i + 1 - S t)) by lia. cbn [seq map fold_right]. rewrite !Z.add_assoc. auto.
Qed.
Lemma partial_spec (f g : nat -> Z) n : partial_sum (map (fun t => vec (f t) (g t)) (seq 0 n)) = map (fun i => vec (total f 0 i) (total g 0 i)) (seq 0 n).
Proof.
  destruct n as [|n]; [reflexivity|]. cbn [seq map partial_sum]. f_equal; [unfold vec, total; cbn; rewrite !Z.add_0_r; auto|].
  rewrite running_spec. apply map_ext_in. intros i Hi. apply in_seq in Hi. unfold total. replace (i + 1 - 0) with (S (i + 1 - 1)) by lia. cbn [seq map fold_right]. auto.
Qed.
Definition top (f : nat -> Z) (n : nat) : Z := fold_left Z.max (map f (seq 0 n)) 0%Z.
Lemma max_spec (f g : nat -> Z) n : max_displ (map (fun i => vec (f i) (g i)) (seq 0 n)) = vec (top f n) (top g n).
Proof.
  unfold max_displ, top. assert (G : forall l a b, fold_left (fun m d => [Z.max (nth 0 m 0%Z) (nth 0 d 0%Z); Z.max (nth 1 m 0%Z) (nth 1 d 0%Z); nth 2 m 0%Z]) (map (fun i => vec (f i) (g i)) l) (vec a b) =
    vec (fold_left Z.max (map f l) a) (fold_left Z.max (map g l) b)); [|apply G].
  induction l as [|t l IH]; intros a b; [reflexivity|]. cbn [map fold_left]. apply (IH (Z.max a (f t)) (Z.max b (g t))).
Qed.
Lemma top_spec f n : (0 <= top f n)%Z /\ (forall i, i < n -> (f i <= top f n)%Z) /\ (top f n = 0%Z \/ exists i, i < n /\ top f n = f i).
Proof.
  unfold top. assert (G : forall l a, (a <= fold_left Z.max (map f l) a)%Z /\ (forall i, In i l -> (f i <= fold_left Z.max (map f l) a)%Z) /\ (fold_left Z.max (map f l) a = a \/ exists i, In i l /\ fold_left Z.max (map f l) a = f i)).
  { induction l as [|t l IH]; intros a; cbn [map fold_left]; [split; [lia|]; split; [intros i []|left; auto]|]. destruct (IH (Z.max a (f t))) as [H1 [H2 H3]]. split; [lia|]. split.
    - intros i [->|Hi]; [lia|auto].
    - destruct H3 as [H3|[i [Hi H3]]]; [|right; exists i; split; [right|]; auto]. destruct (Z.max_spec a (f t)) as [[_ E]|[_ E]]; rewrite E in *; [right; exists t; split; [left|]; auto|left; auto]. }
  destruct (G (seq 0 n) 0%Z) as [H1 [H2 H3]]. split; auto. split; [intros i Hi; apply H2; apply in_seq; lia|]. destruct H3 as [H3|[i [Hi H3]]]; [left; auto|right; exists i; apply in_seq in Hi; split; [lia|auto]].
Qed.
(** The displacement used for time step t of a serie of n frames. *)
Definition used (n off : nat) (h : Z * Z -> Z) (nums : list Z) (t : nat) : Z := if t + off <? n then h (displ_at nums (t + off)) else 0%Z.
Lemma read_spec n off nums : read_displ n off 0 n (skip_pairs off nums) = map (fun t => vec (used n off fst nums t) (used n off snd nums t)) (seq 0 n).
Proof.
  apply nth_error_ext. intros i. destruct (Nat.lt_ge_cases i n) as [H|H].
  - rewrite read_nth by auto. erewrite map_nth_error by (apply nth_error_seq; auto). unfold used, vec, displ_at. cbn [Nat.add]. destruct (i + off <? n); auto. rewrite !nth_skip. cbn [fst snd].
    f_equal. f_equal; [f_equal; lia|]. f_equal. f_equal. lia.
  - rewrite !(proj2 (nth_error_None _ _)); auto; rewrite ?map_length, ?seq_length, ?read_length; auto.
Qed.
Lemma shifts_spec n off nums : drift_shifts n off nums =
  map (fun t => vec (total (used n off fst nums) 0 t - top (total (used n off fst nums) 0) n) (total (used n off snd nums) 0 t - top (total (used n off snd nums) 0) n)) (seq 0 n).
Proof.
  unfold drift_shifts. rewrite read_spec, partial_spec, max_spec. cbv zeta. rewrite map_map. apply map_ext. intros t. reflexivity.
Qed.

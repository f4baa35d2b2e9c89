(** C166: the linking finds the particles again when they move by less than half their separation. *)
Require Import ZArith List Bool Arith Lia.
Require Import Verif.Base Verif.ListX Verif.Box_Model Verif.RTree_Model Verif.RTree_Spec Verif.RTree_Heuristics Verif.Index_Model Verif.Particles_Model Verif.Particles_Spec Verif.Particles_Proofs
  Verif.Traj_Model Verif.Traj_Spec Verif.Traj_Proofs Verif.Cluster_Spec Verif.Link_Model Verif.Link_Spec Verif.Link_Proofs Verif.Link_Props Verif.Particles_Props Verif.Rewind_Spec Verif.Rewind_Props Verif.Follow_Spec.
Import ListNotations.
Local Open Scope nat_scope.

Lemma ready_points c frames t p x : config_ok c -> dims c = 3 -> Forall (frame_ready c) frames -> pos_at frames t p x -> point3 x.
Proof.
  intros Hok H3 F [st [A B]]. apply nth_error_In in A. rewrite Forall_forall in F. destruct (F _ A) as (l & bb & r & ops & P & O & _ & R). apply nth_error_In in B.
  destruct (Particles_Proofs.history_ok c l bb r ops Hok H3 P O) as (st' & R' & _ & P' & _). assert (st' = st) by congruence. subst st'. rewrite Forall_forall in P'. auto.
Qed.
Lemma around (a b m : list Z) : point3 a -> point3 b -> point3 m -> (dist2 a b <= 2 * dist2 a m + 2 * dist2 m b)%Z.
Proof.
  intros (x & y & z & ->) (x' & y' & z' & ->) (u & v & w & ->). cbn [dist2].
  pose proof (Z.square_nonneg (x + x' - 2 * u)). pose proof (Z.square_nonneg (y + y' - 2 * v)). pose proof (Z.square_nonneg (z + z' - 2 * w)). nia.
Qed.
Section Follow.
  Variables (who : nat -> nat -> nat) (d radius : Z) (frames : list particles).
  Hypotheses (Hp : forall t p x, pos_at frames t p x -> point3 x) (Hn : named who frames) (Ha : apart (2 * d) frames) (Hs : slower who d frames) (Hw : no_swap who (2 * radius) frames) (Hd : (0 < d <= 2 * radius)%Z).
  Lemma other_far t p q q' x y y' : pos_at frames t p x -> pos_at frames (t + 1) q y -> pos_at frames (t + 1) q' y' -> who t p = who (t + 1) q -> q' <> q -> (d * d < dist2 y' x)%Z.
  Proof.
    intros X Y Y' E N. assert (A := Hs _ _ _ _ _ X Y E). assert (B := Ha _ _ _ _ _ Y' Y N). assert (C := around y' y x (Hp _ _ _ Y') (Hp _ _ _ Y) (Hp _ _ _ X)). rewrite (dist2_sym x y) in C. lia.
  Qed.
  Lemma other_far' t p p' q x x' y : pos_at frames t p x -> pos_at frames t p' x' -> pos_at frames (t + 1) q y -> who t p = who (t + 1) q -> p' <> p -> (d * d < dist2 y x')%Z.
  Proof.
    intros X X' Y E N. assert (A := Hs _ _ _ _ _ X Y E). assert (B := Ha _ _ _ _ _ X' X N). assert (C := around x' x y (Hp _ _ _ X') (Hp _ _ _ X) (Hp _ _ _ Y)). rewrite (dist2_sym x' y) in C. lia.
  Qed.
  Variable ti : trajindex.
  Hypothesis G : greedy_links radius frames ti.
  Lemma true_linked t p q x y : pos_at frames t p x -> pos_at frames (t + 1) q y -> who t p = who (t + 1) q -> together ti t p (t + 1) q.
  Proof.
    intros X Y E. assert (A := Hs _ _ _ _ _ X Y E). destruct G as (_ & _ & _ & _ & H). destruct (H t p q x y X Y) as [L|(p' & q' & x' & y' & tr & X' & Y' & _ & _ & Le & [[-> N]|[N ->]])]; [split; nia|exact L|exfalso|exfalso].
    - assert (x' = x) by (apply (pos_fun frames t p); auto). subst x'. assert (F := other_far t p q q' x y y' X Y Y' E N). lia.
    - assert (y' = y) by (apply (pos_fun frames (t + 1) q); auto). subst y'. assert (F := other_far' t p p' q x x' y X X' Y E N). lia.
  Qed.
  Lemma linked_true t p q : together ti t p (t + 1) q -> who t p = who (t + 1) q.
  Proof.
    intros L. destruct (link_candidate _ _ _ _ _ _ G L) as [e (x & y & X & Y & C & _)]. destruct (Nat.eq_dec (who t p) (who (t + 1) q)) as [E|E]; auto. exfalso. revert C. apply (Hw t p q); auto.
    - intros (q' & y' & Y' & E'). assert (T := true_linked t p q' x y' X Y' (eq_sym E')). assert (q' = q) by (apply (matching_from _ _ _ G t (t + 1) p); auto). subst. auto.
    - intros (p' & x' & X' & E'). assert (T := true_linked t p' q x' y X' Y E'). assert (p' = p) by (apply (matching_from _ _ _ G (t + 1) t q); apply together_sym; auto). subst. auto.
  Qed.
  Lemma follow m : forall t p p', (exists x, pos_at frames t p x) -> (together ti t p (t + m) p' <-> (exists x, pos_at frames (t + m) p' x) /\ who (t + m) p' = who t p /\ forall k, k <= m -> seen who frames (who t p) (t + k)).
  Proof.
    assert (G' := G). destruct G' as (H1 & H2 & H3 & _). induction m as [|m IH]; intros t p p' [x X].
    - rewrite Nat.add_0_r. split.
      + intros [tr [A B]]. assert (p' = p) by (apply (H3 t p' p tr); auto). subst p'. split; [eauto|]. split; auto. intros k K. replace (t + k) with t by lia. exists p, x. auto.
      + intros ([x' X'] & E & _). assert (p' = p) by (apply (Hn t p' p x' x); auto). subst p'. destruct (proj1 (H1 t p)) as [tr T]; [eauto|]. exists tr. auto.
    - replace (t + S m) with (t + m + 1) by lia. split.
      + intros [tr [A B]]. destruct (between ti tr t p (t + m + 1) p' (t + m) A B) as [q Q]; [lia|]. assert (L : together ti t p (t + m) q) by (exists tr; auto). apply IH in L; [|eauto]. destruct L as (_ & E & K).
        assert (L : together ti (t + m) q (t + m + 1) p') by (exists tr; auto). apply linked_true in L. assert (Y : exists y, pos_at frames (t + m + 1) p' y) by (apply H1; eauto). split; auto. split; [congruence|].
        intros k Hk. destruct (Nat.eq_dec k (S m)) as [->|N]; [|apply K; lia]. destruct Y as [y Y]. exists p', y. replace (t + S m) with (t + m + 1) by lia. split; auto. congruence.
      + intros ([y Y] & E & K). destruct (K m) as (q & z & Q & E'); [lia|]. assert (L : together ti t p (t + m) q) by (apply IH; [eauto|]; split; [eauto|]; split; auto; intros; apply K; lia).
        assert (L' : together ti (t + m) q (t + m + 1) p') by (apply (true_linked (t + m) q p' z y); auto; congruence). destruct L as [tr [A B]], L' as [tr' [A' B']]. assert (tr' = tr) by (apply (H2 (t + m) q); auto). subst tr'. exists tr. auto.
  Qed.
End Follow.

(** Two positions are on a trajectory exactly when they are those of one particle that was seen all the time from one to the other. *)
Theorem C166_follow c radius frames who d : config_ok c -> dims c = 3 -> frames <> [] -> Forall (frame_ready c) frames ->
  named who frames -> (0 < d <= 2 * radius)%Z -> apart (2 * d) frames -> slower who d frames -> no_swap who (2 * radius) frames ->
  exists fs ti, link_all c radius frames = Val (fs, ti) /\
    forall t p t' p', t <= t' -> (exists x, pos_at frames t p x) -> (exists x, pos_at frames t' p' x) ->
      (together ti t p t' p' <-> who t p = who t' p' /\ forall m, t <= m <= t' -> seen who frames (who t p) m).
Proof.
  intros Hok H3 Hne Hr Hn Hd Ha Hs Hw. destruct (link_greedy c radius frames Hok H3 Hne Hr) as (fs & ti & E & G). exists fs, ti. split; auto. intros t p t' p' Ht X X'.
  assert (P : forall t p x, pos_at frames t p x -> point3 x) by (intros; apply (ready_points c frames t0 p0 x Hok H3 Hr); auto).
  assert (F := follow who d radius frames P Hn Ha Hs Hw Hd ti G (t' - t) t p p' X). replace (t + (t' - t)) with t' in F by lia. rewrite F. split.
  - intros (_ & E' & K). split; auto. intros m Hm. replace m with (t + (m - t)) by lia. apply K. lia.
  - intros (E' & K). split; auto. split; auto. intros k Hk. apply K. lia.
Qed.

Lemma two_frames a b u v t p x : pos_at [still a; still b] t p x -> nth_error a 0 = Some u -> nth_error b 0 = Some v -> (t = 0 /\ nth_error a p = Some x) \/ (t = 1 /\ nth_error b p = Some x).
Proof. intros [st [A B]] _ _. destruct t as [|[|t]]; cbn in A; [| |destruct t; discriminate]; injection A as <-; auto. Qed.
Ltac cases2 := repeat (match goal with
  | H : pos_at [still _; still _] _ _ _ |- _ => apply (two_frames _ _ _ _ _ _ _) with (2 := eq_refl) (3 := eq_refl) in H
  | H : _ \/ _ |- _ => destruct H as [H|H] | H : _ /\ _ |- _ => destruct H
  | H : nth_error (_ :: _) ?p = Some _ |- _ => destruct p; cbn [nth_error] in H | H : Some _ = Some _ |- _ => injection H as H
  | H : nth_error [] ?p = Some _ |- _ => destruct p; discriminate | H : None = Some _ |- _ => discriminate end); subst; try lia; try discriminate.
(** Half the separation is the limit: these particles move by one less than 50 and are 97 apart, and the second one is linked to the place where the first one went. *)
Theorem C166_fast_refuted : exists frames who d fs ti, Forall (frame_ready lib_config) frames /\ named who frames /\ (0 < d <= 2 * 25)%Z /\ apart (2 * d - 3) frames /\ slower who d frames /\ no_swap who (2 * 25) frames /\
  link_all lib_config 25 frames = Val (fs, ti) /\ who 0 1 <> who 1 0 /\ together ti 0 1 1 0.
Proof.
  exists [still [[0; 0; 0]; [97; 0; 0]]%Z; still [[49; 0; 0]; [146; 0; 0]]%Z], (fun _ p => p), 50%Z. eexists. eexists.
  split; [repeat constructor; apply new_ready; repeat constructor; repeat eexists|]. split; [intros t p p' x x' _ _ H; exact H|]. split; [lia|].
  split; [intros t p p' x x' X X' N; cases2; vm_compute; discriminate|]. split; [intros t p q x y X Y E; cases2; vm_compute; reflexivity|].
  split; [|split; [vm_compute; reflexivity|split; [discriminate|]]].
  - intros t p q x y X Y N _. exfalso. apply N. cases2; solve [exists 0; eexists; split; [eexists; split; reflexivity|reflexivity] | exists 1; eexists; split; [eexists; split; reflexivity|reflexivity]].
  - exists 1. split; (eexists; split; [reflexivity|]); [exists 0|exists 1]; split; reflexivity.
Qed.
(** A particle that disappears is taken for the one that appears near. *)
Theorem C166_swap_refuted : exists frames who d fs ti, Forall (frame_ready lib_config) frames /\ named who frames /\ (0 < d <= 2 * 3)%Z /\ apart (2 * d) frames /\ slower who d frames /\
  link_all lib_config 3 frames = Val (fs, ti) /\ who 0 0 <> who 1 0 /\ together ti 0 0 1 0.
Proof.
  exists [still [[0; 0; 0]]%Z; still [[5; 0; 0]]%Z], (fun t p => t), 1%Z. eexists. eexists.
  split; [repeat constructor; apply new_ready; repeat constructor; repeat eexists|]. split; [intros t p p' x x' X X' _; cases2; reflexivity|]. split; [lia|].
  split; [intros t p p' x x' X X' N; cases2; congruence|]. split; [intros t p q x y X Y E; lia|]. split; [vm_compute; reflexivity|]. split; [discriminate|].
  exists 0. split; (eexists; split; [reflexivity|]); [exists 0|exists 1]; split; reflexivity.
Qed.
(** Three particles that move by less than 5 and are 10 apart; one leaves, another one comes far from there, the numbering changes. *)
Definition ex_named : list particles := [still [[0; 0; 0]; [12; 0; 0]; [0; 40; 0]]; still [[15; 3; 0]; [3; 3; 0]; [90; 0; 0]]]%Z.
Definition ex_who (t p : nat) : nat := match t, p with 0, _ => p | _, 0 => 1 | _, 1 => 0 | _, _ => 3 end.
Example C166_case : Forall (frame_ready lib_config) ex_named /\ named ex_who ex_named /\ apart (2 * 5) ex_named /\ slower ex_who 5 ex_named /\ no_swap ex_who (2 * 4) ex_named /\ seen ex_who ex_named 1 1 /\
  exists fs ti, link_all lib_config 4 ex_named = Val (fs, ti) /\ trajs ti = [mkTraj 0 [0; 1]; mkTraj 0 [1; 0]; mkTraj 0 [2]; mkTraj 1 [2]].
Proof.
  unfold ex_named. split; [repeat constructor; apply new_ready; repeat constructor; repeat eexists|]. split; [intros t p p' x x' X X' E; cases2; try reflexivity; cbn in E; discriminate|].
  split; [intros t p p' x x' X X' N; cases2; vm_compute; discriminate|]. split; [intros t p q x y X Y E; cases2; try (vm_compute; reflexivity); cbn in E; discriminate|].
  split.
  - intros t p q x y X Y N _ [_ C]. cases2; try (vm_compute in C; discriminate C); apply N; solve [exists 0; eexists; split; [eexists; split; reflexivity|reflexivity] | exists 1; eexists; split; [eexists; split; reflexivity|reflexivity]].
  - split; [exists 0; eexists; split; [eexists; split; reflexivity|reflexivity]|]. eexists. eexists. split; [vm_compute; reflexivity|reflexivity].
Qed.

Print Assumptions C166_follow.
Print Assumptions C166_fast_refuted.
Print Assumptions C166_swap_refuted.

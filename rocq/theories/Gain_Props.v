(** C123: neighbours changed around each time step, traj2vtk. *)
Require Import ZArith List Bool Arith NArith Lia Ascii String.
Require Import Verif.Base Verif.Dec Verif.ListX Verif.Traj_Model Verif.Traj_Spec Verif.Traj_Proofs Verif.Particles_Model Verif.Files_Model Verif.Boo_Model Verif.Corr_Model Verif.Dyn_Proofs Verif.Export_Model Verif.Export_Spec Verif.Lost_Model Verif.Lost_Spec Verif.Lost_Proofs Verif.Lost_Props Verif.Gain_Model.
Import ListNotations.
Local Open Scope nat_scope.

(** * Specification *)
(** [a] is the first time, [b] the last time, when the trajectory exists within h steps of t0. *)
Definition near (t0 h t : nat) : Prop := t0 <= t + h /\ t <= t0 + h.
Definition first_near (T : traj) (t0 h a : nat) : Prop := (exists p, at_time T a p) /\ near t0 h a /\ forall t p, at_time T t p -> near t0 h t -> a <= t.
Definition last_near (T : traj) (t0 h b : nat) : Prop := (exists p, at_time T b p) /\ near t0 h b /\ forall t p, at_time T t p -> near t0 h t -> t <= b.

(** * Proofs *)
Lemma counts_none (P : nat -> Prop) : (forall x, ~ P x) -> counts 0 P.
Proof. intros H. exists []. split; [constructor|]. split; [|reflexivity]. intros x. cbn. split; [contradiction|]. intros K. exact (H x K). Qed.
Lemma ends_near T t0 p h : small T -> at_time T t0 p ->
  first_near T t0 h (Nat.max (start T + h) t0 - h) /\ last_near T t0 h (Z.to_nat (Z.min (last_time T) (Z.of_nat (t0 + h)))).
Proof.
  intros [N Sm] A. pose proof (last_time_exact T N Sm) as E. apply at_time_range in A. rewrite E.
  split; (split; [apply at_time_ex; lia|]); (split; [unfold near; lia|]); intros t q B R; apply at_time_range in B; unfold near in R; lia.
Qed.
Lemma forall2_nth_e {A B} (R : A -> B -> Prop) l m : Forall2 R l m -> forall i a b, nth_error l i = Some a -> nth_error m i = Some b -> R a b.
Proof. induction 1 as [|x y l m H F IH]; intros [|i] a b Ea Eb; cbn in *; try discriminate; [|eauto]. congruence. Qed.
Lemma forall2_len {A B} (R : A -> B -> Prop) l m : Forall2 R l m -> List.length l = List.length m.
Proof. induction 1; cbn; auto. Qed.

(** * Theorems *)
(** One file per time step, one value per particle: the number of trajectories that are its neighbours at the last of the times it is there within tau/2 steps, and were not at the first of these times. *)
Theorem C123_window (ti : trajindex) (fs : text -> option text) (bonds lngb : serie) (B : nat -> list (nat * nat)) tau : consistent ti ->
  (forall t inv, nth_error (inverse ti) t = Some inv -> bond_file (fs (step_name bonds (N.of_nat t))) (List.length inv) (B t)) ->
  exists out, export_lost ti fs bonds lngb tau = Val out /\ List.length out = List.length (inverse ti) /\
    forall t0 inv, nth_error (inverse ti) t0 = Some inv -> exists vs, nth_error out t0 = Some (step_name lngb (N.of_nat t0), vs) /\ List.length vs = List.length inv /\
      forall p tr v, nth_error inv p = Some tr -> nth_error vs p = Some v ->
        exists T a b n, nth_error (trajs ti) tr = Some T /\ first_near T t0 (tau / 2) a /\ last_near T t0 (tau / 2) b /\ v = Z.of_nat n /\
          counts n (fun x => bonded ti B b tr x /\ ~ bonded ti B a tr x).
Proof.
  intros OK files. unfold export_lost. destruct (frames_ok ti fs bonds B OK files (List.length (inverse ti)) (le_n _)) as [dyn [-> D]]. cbn [obind].
  assert (G : forall t0 inv, nth_error (inverse ti) t0 = Some inv -> exists vs, window_changed ti tau dyn t0 = Val vs /\ List.length vs = List.length inv /\
     forall p tr v, nth_error inv p = Some tr -> nth_error vs p = Some v ->
        exists T a b n, nth_error (trajs ti) tr = Some T /\ first_near T t0 (tau / 2) a /\ last_near T t0 (tau / 2) b /\ v = Z.of_nat n /\
          counts n (fun x => bonded ti B b tr x /\ ~ bonded ti B a tr x)).
  { intros t0 inv E. unfold window_changed, at_index at 1. rewrite E. cbn [obind]. cbv zeta. set (h := tau / 2).
    match goal with |- exists vs, osequence (map ?f inv) = _ /\ _ => set (g := f) end.
    assert (Q : forall p tr, nth_error inv p = Some tr -> exists v, g tr = Val v /\
      exists T a b n, nth_error (trajs ti) tr = Some T /\ first_near T t0 h a /\ last_near T t0 h b /\ v = Z.of_nat n /\ counts n (fun x => bonded ti B b tr x /\ ~ bonded ti B a tr x)).
    { intros p tr Ep. assert (I : invert ti t0 p = Some tr) by (unfold invert; rewrite E; auto). pose proof (proj1 OK) as O. apply O in I as [T [ET AT]].
      destruct (ends_near T t0 p h (small_of ti OK tr T ET) AT) as [Ff Fl]. unfold g. rewrite ET. fold h. set (a := Nat.max (start T + h) t0 - h) in *. set (b := Z.to_nat (Z.min (last_time T) (Z.of_nat (t0 + h)))) in *. clearbody a b.
      destruct (Nat.eqb_spec a b) as [->|Ne].
      - exists 0%Z. split; [reflexivity|]. exists T, b, b, 0. do 4 (split; [auto|]). apply counts_none. tauto.
      - destruct (proj1 Ff) as [pa Aa]. destruct (proj1 Fl) as [pb Ab]. destruct (row_of ti OK _ _ _ _ ET Aa) as [ia [Ea Epa]]. destruct (row_of ti OK _ _ _ _ ET Ab) as [ib [Eb Epb]].
        destruct (D a) as [ea [Na La]]; [eapply nth_error_lt; eauto|]. destruct (D b) as [eb [Nb Lb]]; [eapply nth_error_lt; eauto|].
        unfold at_index. rewrite Na, Nb. cbn [obind]. rewrite (proj2 (access_val T b pb (small_of ti OK tr T ET)) Ab), (proj2 (access_val T a pa (small_of ti OK tr T ET)) Aa). cbn [obind].
        destruct (missing_bonded ti fs bonds B OK files b a ib ia eb ea pb pa tr Eb Ea Lb La Epb Epa) as [n [M C]]. rewrite M. exists (Z.of_nat n). split; [auto|]. exists T, a, b, n. auto 10. }
    destruct (osequence_map_ex g inv) as [vs [Ev F]]. { intros tr I. apply In_nth_error in I as [p Ep]. destruct (Q p tr Ep) as [v [Ev _]]. eauto. }
    exists vs. split; [exact Ev|]. split; [symmetry; eapply forall2_len; eauto|]. intros p tr v Ep Evp. destruct (Q p tr Ep) as [v' [Eg C]].
    pose proof (forall2_nth_e _ _ _ F p tr v Ep Evp) as X. cbn beta in X. assert (v = v') by congruence. subst. exact C. }
  destruct (osequence_map_ex (fun t0 => omap (fun vs => (step_name lngb (N.of_nat t0), vs)) (window_changed ti tau dyn t0)) (seq 0 (List.length (inverse ti)))) as [out [E F]].
  { intros t0 I. apply in_seq in I. destruct (nth_error_ex (inverse ti) t0) as [inv Ei]; [lia|]. destruct (G t0 inv Ei) as [vs [Ev _]]. rewrite Ev. cbn. eauto. }
  exists out. split; [exact E|]. pose proof (forall2_len _ _ _ F) as L. rewrite seq_length in L. split; [auto|]. intros t0 inv Ei. destruct (G t0 inv Ei) as [vs [Ev [Lv P]]]. exists vs. split; [|split; auto].
  assert (Lt := nth_error_lt _ _ _ Ei). destruct (nth_error_ex out t0) as [o Eo]; [lia|]. pose proof (forall2_nth_e _ _ _ F t0 t0 o) as X. cbn beta in X. rewrite Ev in X. cbn in X. rewrite Eo. f_equal. 
  assert (Y : Val (step_name lngb (N.of_nat t0), vs) = Val o) by (apply X; [apply nth_error_seq; auto|exact Eo]). congruence.
Qed.
(** The neighbours counted are those gained: in the example of C103, particle 0 loses particle 2 and nothing is counted for it. *)
Theorem C123_lost_refuted : consistent ex_index /\ (forall t inv, nth_error (inverse ex_index) t = Some inv -> bond_file (ex_files (step_name ex_bonds (N.of_nat t))) (List.length inv) (ex_B t)) /\
  counts 1 (fun x => bonded ex_index ex_B 0 0 x /\ ~ bonded ex_index ex_B 1 0 x) /\
  export_lost ex_index ex_files ex_bonds ex_lngb 2 = Val [(txt "b_t0.lngb", [0; 0; 0]%Z); (txt "b_t1.lngb", [0; 0; 0]%Z)].
Proof. destruct C103_lost_refuted as [A [B' [C _]]]. split; [exact A|]. split; [exact B'|]. split; [exact C|]. vm_compute. reflexivity. Qed.
(** Read in the other direction of time, the same bonds give a count. *)
Example C123_case : export_lost (mkIndex [mkTraj 0 [0; 0; 0]; mkTraj 0 [1; 1; 1]; mkTraj 0 [2; 2; 2]] [[0; 1; 2]; [0; 1; 2]; [0; 1; 2]])
  (fun name => if list_eq_dec Ascii.ascii_dec name (txt "b_t0.bonds") then Some (txt "0 1") else Some (txt "0 1" ++ [newline] ++ txt "2 0")) ex_bonds ex_lngb 2 =
  Val [(txt "b_t0.lngb", [1; 0; 1]%Z); (txt "b_t1.lngb", [1; 0; 1]%Z); (txt "b_t2.lngb", [0; 0; 0]%Z)].
Proof. vm_compute. reflexivity. Qed.

Print Assumptions C123_window.
Print Assumptions C123_lost_refuted.

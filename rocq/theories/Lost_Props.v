(** C103: numbers of changed neighbours, mains/lostngb.cpp and mains/dhlngb.cpp. *)
Require Import ZArith List Bool Arith NArith Lia Sorted Ascii String.
Require Import Verif.Base Verif.Dec Verif.SortU Verif.ListX Verif.Traj_Model Verif.Traj_Spec Verif.Traj_Proofs Verif.Particles_Model Verif.Files_Model Verif.Boo_Model Verif.Ngb_Model Verif.Corr_Model Verif.Dyn_Proofs Verif.Export_Model Verif.Export_Spec Verif.Lost_Model Verif.Lost_Spec Verif.Lost_Proofs.
Import ListNotations.
Local Open Scope nat_scope.

Lemma reaches T t0 p t : small T -> at_time T t0 p -> t0 <= t ->
  if (Z.of_nat t <=? last_time T)%Z then exists q, at_time T t q else forall q, ~ at_time T t q.
Proof.
  intros Sm A L. apply at_time_range in A. destruct Sm as [N Sm]. pose proof (last_time_exact T N Sm) as E.
  destruct (Z.leb_spec (Z.of_nat t) (last_time T)) as [H|H].
  - apply at_time_ex. lia.
  - intros q B. apply at_time_range in B. lia.
Qed.

Section Lost.
  Variables (ti : trajindex) (fs : text -> option text) (bonds lngb : serie) (B : nat -> list (nat * nat)).
  Hypothesis OK : consistent ti.
  (** The bond file of each time step lists the bonds [B t] between the positions of that step. *)
  Hypothesis files : forall t inv, nth_error (inverse ti) t = Some inv -> bond_file (fs (step_name bonds (N.of_nat t))) (List.length inv) (B t).

  Lemma next_bonded t inv p tr x : nth_error (inverse ti) t = Some inv -> nth_error inv p = Some tr -> next_to (B t) inv p x <-> bonded ti B t tr x.
  Proof.
    intros E Ep. destruct OK as [O _]. assert (I : forall q y, invert ti t q = Some y <-> nth_error inv q = Some y) by (intros q y; unfold invert; rewrite E; tauto).
    destruct (proj1 (O t p tr) (proj2 (I p tr) Ep)) as [T [ET AT]]. split.
    - intros [q [J K]]. apply I in K. apply O in K as [X [EX AX]]. exists T, X, p, q. auto.
    - intros [T' [X [p' [q [ET' [EX [AT' [AX J]]]]]]]]. assert (T' = T) by congruence. subst. assert (p' = p) by (eapply at_time_fun; eauto). subst.
      exists q. split; [auto|]. apply I, O. eauto.
  Qed.
  Lemma frame_ok t inv : nth_error (inverse ti) t = Some inv -> exists e, load_frame ti fs bonds t = Val e /\ List.length e = List.length inv /\
    forall p tr l, nth_error inv p = Some tr -> nth_error e p = Some l -> StronglySorted lt l /\ forall x, In x l <-> bonded ti B t tr x.
  Proof.
    intros E. unfold load_frame, at_index. rewrite E. cbn [obind]. destruct (ngb_frame_ok inv _ _ (files t inv E)) as [e [E1 [L P]]].
    exists e. split; [auto|]. split; [auto|]. intros p tr l Ep El. destruct (P p l El) as [S I]. split; [auto|]. intros x. rewrite I. apply next_bonded; auto.
  Qed.
  Lemma frames_ok n : n <= List.length (inverse ti) -> exists dyn, osequence (map (load_frame ti fs bonds) (seq 0 n)) = Val dyn /\
    forall t, t < n -> exists e, nth_error dyn t = Some e /\ load_frame ti fs bonds t = Val e.
  Proof.
    intros H. destruct (osequence_map_ex (load_frame ti fs bonds) (seq 0 n)) as [dyn [E F]].
    { intros t I. apply in_seq in I. destruct (nth_error_ex (inverse ti) t) as [inv Ei]; [lia|]. destruct (frame_ok t inv Ei) as [e [E _]]. eauto. }
    exists dyn. split; [auto|]. intros t Ht. clear E. 
    assert (G : forall l r, Forall2 (fun t e => load_frame ti fs bonds t = Val e) l r -> forall i a, nth_error l i = Some a -> exists e, nth_error r i = Some e /\ load_frame ti fs bonds a = Val e).
    { induction 1 as [|a b l r HH FF IH]; intros [|i] c Ec; cbn in *; try discriminate; [injection Ec as <-; eauto|auto]. }
    apply (G _ _ F t t). rewrite nth_error_seq; auto.
  Qed.
  (** The number of elements in one list of neighbours and not in the other. *)
  Lemma missing_bonded t t' inv inv' e e' p q tr : nth_error (inverse ti) t = Some inv -> nth_error (inverse ti) t' = Some inv' ->
    load_frame ti fs bonds t = Val e -> load_frame ti fs bonds t' = Val e' -> nth_error inv p = Some tr -> nth_error inv' q = Some tr ->
    exists n, missing e e' p q = Val (Z.of_nat n) /\ counts n (fun x => bonded ti B t tr x /\ ~ bonded ti B t' tr x).
  Proof.
    intros E E' L L' Ep Eq. destruct (frame_ok t inv E) as [e1 [H1 [Len P]]]. rewrite L in H1. injection H1 as <-. destruct (frame_ok t' inv' E') as [e2 [H2 [Len' P']]]. rewrite L' in H2. injection H2 as <-.
    destruct (nth_error_ex e p) as [l El]; [rewrite Len; eapply nth_error_lt; eauto|]. destruct (nth_error_ex e' q) as [l' El']; [rewrite Len'; eapply nth_error_lt; eauto|].
    destruct (P p tr l Ep El) as [S I]. destruct (P' q tr l' Eq El') as [S' I']. destruct (missing_ok e e' p q l l' El El' S S') as [n [M C]]. exists n. split; [auto|].
    eapply counts_iff; [|exact C]. intros x. cbn. rewrite I, I'. tauto.
  Qed.
  Lemma small_of tr T : nth_error (trajs ti) tr = Some T -> small T.
  Proof. intros E. destruct OK as [_ F]. rewrite Forall_forall in F. apply (F T). eapply nth_error_In; eauto. Qed.
  Lemma row_of t p tr T : nth_error (trajs ti) tr = Some T -> at_time T t p -> exists inv, nth_error (inverse ti) t = Some inv /\ nth_error inv p = Some tr.
  Proof.
    intros E A. destruct OK as [O _]. assert (H : invert ti t p = Some tr) by (apply O; eauto). unfold invert in H. destruct (nth_error (inverse ti) t) as [inv|]; [eauto|discriminate].
  Qed.

  (** C103: lostngb writes one file per time step t0 that has a step t0+tau, one value per particle: -1 if its trajectory is over at t0+tau, else the number
      of trajectories that are its neighbours at t0+tau and were not at t0. *)
  Theorem C103_post tau : tau <= List.length (inverse ti) -> exists out, export_post_lost ti fs bonds lngb tau = Val out /\ List.length out = List.length (inverse ti) - tau /\
    forall t0, t0 + tau < List.length (inverse ti) -> exists inv vs, nth_error (inverse ti) t0 = Some inv /\ nth_error out t0 = Some (step_name lngb (N.of_nat t0), lines_of vs) /\
      List.length vs = List.length inv /\ forall p tr v, nth_error inv p = Some tr -> nth_error vs p = Some v ->
        count_or_absent ti v tr (t0 + tau) (fun x => bonded ti B (t0 + tau) tr x /\ ~ bonded ti B t0 tr x).
  Proof.
    intros H. unfold export_post_lost. destruct (frames_ok (List.length (inverse ti)) (le_n _)) as [dyn [-> D]]. cbn [obind].
    destruct (Nat.ltb_spec (List.length (inverse ti)) tau) as [?|_]; [lia|].
    assert (G : forall t0, t0 + tau < List.length (inverse ti) -> exists inv vs, nth_error (inverse ti) t0 = Some inv /\ post_lost ti tau dyn t0 = Val vs /\
      List.length vs = List.length inv /\ forall p tr v, nth_error inv p = Some tr -> nth_error vs p = Some v -> count_or_absent ti v tr (t0 + tau) (fun x => bonded ti B (t0 + tau) tr x /\ ~ bonded ti B t0 tr x)).
    { intros t0 H0. destruct (nth_error_ex (inverse ti) t0) as [inv E]; [lia|]. exists inv.
      unfold post_lost, at_index at 1. rewrite E. cbn [obind].
      set (g := fun tr => match nth_error (trajs ti) tr with None => UB | Some T => if (Z.of_nat (t0 + tau) <=? last_time T)%Z then
            obind (at_index dyn (t0 + tau)) (fun later => obind (access T (t0 + tau)) (fun q => obind (at_index dyn t0) (fun now => obind (access T t0) (fun p => missing later now q p)))) else Val (-1)%Z end).
      assert (Q : forall p tr, nth_error inv p = Some tr -> exists v, g tr = Val v /\ count_or_absent ti v tr (t0 + tau) (fun x => bonded ti B (t0 + tau) tr x /\ ~ bonded ti B t0 tr x)).
      { intros p tr Ep. destruct OK as [O _]. assert (I : invert ti t0 p = Some tr) by (unfold invert; rewrite E; auto). apply O in I as [T [ET AT]].
        unfold g. rewrite ET. pose proof (reaches T t0 p (t0 + tau) (small_of tr T ET) AT ltac:(lia)) as R.
        destruct (Z.of_nat (t0 + tau) <=? last_time T)%Z.
        - destruct R as [q AQ]. destruct (row_of _ _ _ _ ET AQ) as [inv' [E' Eq]]. destruct (D (t0 + tau) H0) as [e' [N' L']]. destruct (D t0 ltac:(lia)) as [e [N L]].
          unfold at_index. rewrite N', N. cbn [obind]. rewrite (proj2 (access_val T (t0 + tau) q (small_of tr T ET)) AQ), (proj2 (access_val T t0 p (small_of tr T ET)) AT). cbn [obind].
          destruct (missing_bonded (t0 + tau) t0 inv' inv e' e q p tr E' E L' L Eq Ep) as [n [M C]]. rewrite M. exists (Z.of_nat n). split; [auto|]. left. exists T, q, n. auto.
        - exists (-1)%Z. split; [auto|]. right. split; [|auto]. intros T' q ET'. assert (T' = T) by congruence. subst. apply R. }
      destruct (osequence_map_ex g inv) as [vs [Ev F]]. { intros tr I. apply In_nth_error in I as [p Ep]. destruct (Q p tr Ep) as [v [Ev _]]. eauto. }
      exists vs. split; [auto|]. split; [exact Ev|]. split; [clear - F; induction F; cbn; auto|].
      intros p tr v Ep Evp. destruct (Q p tr Ep) as [v' [Eg C]]. assert (v = v'); [|subst; auto].
      clear - F Ep Evp Eg. revert p Ep Evp. induction F as [|a b l r HH FF IH]; intros [|p] Ep Evp; cbn in *; try discriminate; [|eauto]. injection Ep as ->. injection Evp as ->. congruence. }
    destruct (osequence_map_ex (fun t0 => omap (fun vs => (step_name lngb (N.of_nat t0), lines_of vs)) (post_lost ti tau dyn t0)) (seq 0 (List.length (inverse ti) - tau))) as [out [E F]].
    { intros t0 I. apply in_seq in I. destruct (G t0 ltac:(lia)) as [inv [vs [_ [Ev _]]]]. rewrite Ev. cbn. eauto. }
    exists out. split; [exact E|]. split. { clear - F. transitivity (List.length (seq 0 (List.length (inverse ti) - tau))); [|apply seq_length]. induction F; cbn; auto. }
    intros t0 H0. destruct (G t0 H0) as [inv [vs [Ei [Ev [Lv P]]]]]. exists inv, vs. split; [auto|]. split; [|auto].
    assert (Es : nth_error (seq 0 (List.length (inverse ti) - tau)) t0 = Some t0) by (apply nth_error_seq; lia).
    clear - F Ev Es. revert Es. generalize t0 at 1 3 as i. induction F as [|a b l r HH FF IH]; intros [|i] Es; cbn in *; try discriminate; [|auto]. injection Es as ->. rewrite Ev in HH. cbn in HH. congruence.
  Qed.
  (** C103: dhlngb writes one file per time step t after the initial step, one value per particle of the initial step: -1 if its trajectory is over at t, else
      the number of trajectories that were its neighbours at the initial step and are not any more at t. *)
  Theorem C103_dynamic t0 : t0 + 1 < List.length (inverse ti) -> exists out, export_dyn_lost ti fs bonds lngb t0 = Val out /\ List.length out = List.length (inverse ti) - (t0 + 1) /\
    exists inv, nth_error (inverse ti) t0 = Some inv /\
    forall t, t0 < t < List.length (inverse ti) -> exists vs, nth_error out (t - (t0 + 1)) = Some (step_name lngb (N.of_nat t), lines_of vs) /\
      List.length vs = List.length inv /\ forall p tr v, nth_error inv p = Some tr -> nth_error vs p = Some v ->
        count_or_absent ti v tr t (fun x => bonded ti B t0 tr x /\ ~ bonded ti B t tr x).
  Proof.
    intros H. unfold export_dyn_lost. destruct (Nat.leb_spec (List.length (inverse ti)) (t0 + 1)) as [?|_]; [lia|].
    destruct (nth_error_ex (inverse ti) t0) as [inv E]; [lia|]. destruct (frame_ok t0 inv E) as [e [Le [Len _]]]. rewrite Le. cbn [obind].
    assert (G : forall t, t0 < t < List.length (inverse ti) -> exists e' vs, load_frame ti fs bonds t = Val e' /\ dyn_lost ti t0 e e' t = Val vs /\
      List.length vs = List.length inv /\ forall p tr v, nth_error inv p = Some tr -> nth_error vs p = Some v -> count_or_absent ti v tr t (fun x => bonded ti B t0 tr x /\ ~ bonded ti B t tr x)).
    { intros t H0. destruct (nth_error_ex (inverse ti) t) as [inv' E']; [lia|]. destruct (frame_ok t inv' E') as [e' [Le' [Len' _]]]. exists e'.
      unfold dyn_lost, at_index at 1. rewrite E. cbn [obind].
      set (g := fun ptr => match nth_error (trajs ti) (snd ptr) with None => UB | Some T => if (Z.of_nat t <=? last_time T)%Z then obind (access T t) (fun q => missing e e' (fst ptr) q) else Val (-1)%Z end).
      assert (Q : forall p tr, nth_error inv p = Some tr -> exists v, g (p, tr) = Val v /\ count_or_absent ti v tr t (fun x => bonded ti B t0 tr x /\ ~ bonded ti B t tr x)).
      { intros p tr Ep. destruct OK as [O _]. assert (I : invert ti t0 p = Some tr) by (unfold invert; rewrite E; auto). apply O in I as [T [ET AT]].
        unfold g. cbn [fst snd]. rewrite ET. pose proof (reaches T t0 p t (small_of tr T ET) AT ltac:(lia)) as R.
        destruct (Z.of_nat t <=? last_time T)%Z.
        - destruct R as [q AQ]. destruct (row_of _ _ _ _ ET AQ) as [inv1 [E1 Eq]]. assert (inv1 = inv') by congruence. subst.
          rewrite (proj2 (access_val T t q (small_of tr T ET)) AQ). cbn [obind].
          destruct (missing_bonded t0 t inv inv' e e' p q tr E E' Le Le' Ep Eq) as [n [M C]]. rewrite M. exists (Z.of_nat n). split; [auto|]. left. exists T, q, n. auto.
        - exists (-1)%Z. split; [auto|]. right. split; [|auto]. intros T' q ET'. assert (T' = T) by congruence. subst. apply R. }
      assert (NE : forall i p tr, nth_error (combine (seq 0 (List.length inv)) inv) i = Some (p, tr) -> p = i /\ nth_error inv i = Some tr).
      { intros i p tr Hi. assert (Li : i < List.length inv) by (apply nth_error_lt in Hi; rewrite combine_length, seq_length in Hi; lia).
        destruct (nth_error_ex inv i Li) as [tr' Et]. assert (Es := nth_error_seq 0 (List.length inv) i Li). pose proof (combine_nth_error (seq 0 (List.length inv)) inv i (0 + i) tr') as C. rewrite Es, Et in C. destruct C as [C1 C2].
        assert (C : nth_error (combine (seq 0 (List.length inv)) inv) i = Some (0 + i, tr')) by auto. rewrite Hi in C. injection C as -> ->. auto. }
      destruct (osequence_map_ex g (combine (seq 0 (List.length inv)) inv)) as [vs [Ev F]].
      { intros [p tr] I. apply In_nth_error in I as [i Ei]. apply NE in Ei as [-> Ei]. destruct (Q i tr Ei) as [v [Ev _]]. eauto. }
      exists vs. split; [auto|]. split; [exact Ev|]. split. { transitivity (List.length (combine (seq 0 (List.length inv)) inv)); [clear - F; induction F; cbn; auto|]. rewrite combine_length, seq_length. lia. }
      intros p tr v Ep Evp. destruct (Q p tr Ep) as [v' [Eg C]]. assert (v = v'); [|subst; auto].
      assert (Ec : nth_error (combine (seq 0 (List.length inv)) inv) p = Some (p, tr)).
      { destruct (nth_error (combine (seq 0 (List.length inv)) inv) p) as [[a b]|] eqn:Ec; [|apply nth_error_None in Ec; rewrite combine_length, seq_length in Ec; apply nth_error_lt in Ep; lia]. apply NE in Ec as [-> Ec]. congruence. }
      clear - F Ec Evp Eg. revert Ec Evp Eg. generalize p at 1 3 as i. induction F as [|a b l r HH FF IH]; intros [|i] Ep Evp Eg; cbn in *; try discriminate; [|eauto]. injection Ep as ->. injection Evp as ->. congruence. }
    destruct (osequence_map_ex (fun t => obind (load_frame ti fs bonds t) (fun actual => omap (fun vs => (step_name lngb (N.of_nat t), lines_of vs)) (dyn_lost ti t0 e actual t))) (seq (t0 + 1) (List.length (inverse ti) - (t0 + 1)))) as [out [Eo F]].
    { intros t I. apply in_seq in I. destruct (G t ltac:(lia)) as [e' [vs [Ee [Ev _]]]]. rewrite Ee. cbn [obind]. rewrite Ev. cbn. eauto. }
    exists out. split; [exact Eo|]. split. { clear - F. transitivity (List.length (seq (t0 + 1) (List.length (inverse ti) - (t0 + 1)))); [|apply seq_length]. induction F; cbn; auto. }
    exists inv. split; [auto|]. intros t H0. destruct (G t H0) as [e' [vs [Ee [Ev [Lv P]]]]]. exists vs. split; [|auto].
    assert (Es : nth_error (seq (t0 + 1) (List.length (inverse ti) - (t0 + 1))) (t - (t0 + 1)) = Some t) by (rewrite nth_error_seq by lia; f_equal; lia).
    clear - F Ee Ev Es. revert Es. generalize (t - (t0 + 1)) as i. induction F as [|a b l r HH FF IH]; intros [|i] Es; cbn in *; try discriminate; [|auto]. injection Es as ->. rewrite Ee in HH. cbn [obind] in HH. rewrite Ev in HH. cbn in HH. congruence.
  Qed.
End Lost.

(** The reading of a bond file always ends, whatever it contains. *)
Theorem C103_reading l : exists r, bond_reads (S (List.length l)) (open_text l) None None = Some r.
Proof. apply reads_total. cbn. lia. Qed.
(** A bond file that cannot be opened is a frame without bonds: no error is reported. *)
Theorem C103_missing_file inv : ngb_frame inv None = Val (repeat [] (List.length inv)).
Proof. unfold ngb_frame. f_equal. induction (List.length inv); cbn; [auto|]. f_equal; auto. Qed.
(** A bond file without bonds, empty or white: uninitialised indices are used. *)
Theorem C103_no_bond_refuted inv l : words l = [] -> ngb_frame inv (Some l) = UB.
Proof.
  intros W. unfold ngb_frame. cbn [bond_reads]. change (good_stream (open_text l)) with true. cbv iota.
  destruct (Export_Proofs.read_num_none (open_text l) (Export_Proofs.sane_open l) W) as [s1 [E1 F1]]. rewrite E1.
  destruct (Export_Proofs.read_num_failed s1 F1) as [s2 [E2 F2]]. rewrite E2. cbn [kept].
  assert (G2 : good_stream s2 = false) by (unfold good_stream; rewrite F2; apply andb_false_r). destruct (List.length l); cbn [bond_reads]; rewrite G2; reflexivity.
Qed.
(** An interval longer than the series reads after the last frame, once the bond files are loaded. *)
Theorem C103_interval_refuted ti fs bonds lngb tau dyn : List.length (inverse ti) < tau -> osequence (map (load_frame ti fs bonds) (seq 0 (List.length (inverse ti)))) = Val dyn ->
  forall out, export_post_lost ti fs bonds lngb tau <> Val out.
Proof.
  intros H D out. unfold export_post_lost. rewrite D. cbn [obind]. destruct (Nat.ltb_spec (List.length (inverse ti)) tau); [|lia].
  intros E. apply osequence_inv in E. assert (L : List.length out = S (List.length (inverse ti))).
  { clear - E. rewrite <- (seq_length (S (List.length (inverse ti))) 0). rewrite <- (map_length (fun t0 : nat => omap (fun vs => (step_name lngb (N.of_nat t0), lines_of vs)) (post_lost ti tau dyn t0))). symmetry. induction E; cbn; auto. }
  rewrite seq_S, map_app in E. apply Forall2_app_inv_l in E as [o1 [o2 [_ [E2 _]]]]. inversion E2 as [|a b la lb HH]; subst. revert HH. cbn [Nat.add]. unfold post_lost, at_index at 1.
  destruct (nth_error (inverse ti) (List.length (inverse ti))) eqn:N; [|discriminate]. apply nth_error_lt in N. lia.
Qed.

Definition ex_index : trajindex := mkIndex [mkTraj 0 [0; 0]; mkTraj 0 [1; 1]; mkTraj 0 [2; 2]] [[0; 1; 2]; [0; 1; 2]].
Definition ex_bonds : serie := mkSerie (txt "b_t") 1 (txt ".bonds") (txt "_t") 2 0%N.
Definition ex_lngb : serie := mkSerie (txt "b_t") 1 (txt ".lngb") (txt "_t") 2 0%N.
(** particle 0 is bonded to 1 and 2, then only to 1 *)
Definition ex_files (name : text) : option text :=
  if list_eq_dec Ascii.ascii_dec name (txt "b_t0.bonds") then Some (txt "0 1" ++ [newline] ++ txt "0 2" ++ [newline])
  else if list_eq_dec Ascii.ascii_dec name (txt "b_t1.bonds") then Some (txt "1 0" ++ [newline]) else None.
Definition ex_B (t : nat) : list (nat * nat) := match t with 0 => [(0, 1); (0, 2)] | _ => [(1, 0)] end.
Lemma ex_consistent : consistent ex_index.
Proof.
  split; [|repeat constructor; try discriminate; cbn; lia]. intros t p tr. unfold invert. cbn [ex_index inverse trajs]. split.
  - destruct t as [|[|t]]; cbn [nth_error]; [| |destruct t; discriminate];
    (destruct p as [|[|[|p]]]; cbn [nth_error]; [| | |destruct p; discriminate]); intros E; injection E as <-; eexists; (split; [reflexivity|]); eexists; (split; [cbn; reflexivity|reflexivity]).
  - intros [T [E [k [-> K]]]]. destruct tr as [|[|[|tr]]]; cbn [nth_error] in E; [| | |destruct tr; discriminate]; injection E as <-; cbn [start steps Nat.add] in *;
    (destruct k as [|[|k]]; cbn [nth_error] in *; [| |destruct k; discriminate]); injection K as <-; reflexivity.
Qed.
Lemma ex_files_ok t inv : nth_error (inverse ex_index) t = Some inv -> bond_file (ex_files (step_name ex_bonds (N.of_nat t))) (List.length inv) (ex_B t).
Proof.
  destruct t as [|[|t]]; cbn [ex_index inverse nth_error]; intros E; [| |destruct t; discriminate]; injection E as <-; (eexists; split; [vm_compute; reflexivity|]; split; [vm_compute; reflexivity|]; split; [discriminate|]);
  unfold ex_B; repeat (apply Forall_cons; [cbn [fst snd List.length]; split; [lia|split; [lia|vm_compute; discriminate]]|]); apply Forall_nil.
Qed.
(** The files called lost neighbours of lostngb are the neighbours gained: particle 0 loses particle 2 and its value is 0; dhlngb writes 1. *)
Theorem C103_lost_refuted : consistent ex_index /\ (forall t inv, nth_error (inverse ex_index) t = Some inv -> bond_file (ex_files (step_name ex_bonds (N.of_nat t))) (List.length inv) (ex_B t)) /\
  counts 1 (fun x => bonded ex_index ex_B 0 0 x /\ ~ bonded ex_index ex_B 1 0 x) /\
  export_post_lost ex_index ex_files ex_bonds ex_lngb 1 = Val [(txt "b_t0.lngb", lines_of [0; 0; 0]%Z)] /\
  export_dyn_lost ex_index ex_files ex_bonds ex_lngb 0 = Val [(txt "b_t1.lngb", lines_of [1; 0; 1]%Z)].
Proof.
  split; [apply ex_consistent|]. split; [apply ex_files_ok|]. split; [|split; vm_compute; reflexivity].
  exists [2]. split; [repeat constructor; auto|]. split; [|reflexivity]. intros x. cbn [In].
  assert (I := fun t p tr => proj1 ex_consistent t p tr).
  assert (A : forall t p, t < 2 -> at_time (mkTraj 0 [p; p]) t p) by (intros t p H; exists t; split; [reflexivity|]; destruct t as [|[|t]]; [reflexivity|reflexivity|lia]).
  assert (A' : forall t p q, at_time (mkTraj 0 [p; p]) t q -> q = p) by (intros t p q [k [_ K]]; destruct k as [|[|k]]; cbn in K; try congruence; destruct k; discriminate).
  assert (Sx : forall y Y t q, nth_error (trajs ex_index) y = Some Y -> at_time Y t q -> q = y) by (intros y Y t q E K; destruct y as [|[|[|y]]]; cbn in E; [| | |destruct y; discriminate]; injection E as <-; eauto).
  split.
  - intros [<-|[]]. split.
    + exists (mkTraj 0 [0; 0]), (mkTraj 0 [2; 2]), 0, 2. split; [reflexivity|]. split; [reflexivity|]. split; [apply A; lia|]. split; [apply A; lia|]. cbn. auto.
    + intros [T [X [p [q [ET [EX [AT [AX J]]]]]]]]. apply (Sx _ _ _ _ ET) in AT. apply (Sx _ _ _ _ EX) in AX. subst. cbn in J. destruct J as [[J|[]]|[J|[]]]; discriminate.
  - intros [[T [X [p [q [ET [EX [AT [AX J]]]]]]]] N]. apply (Sx _ _ _ _ ET) in AT. apply (Sx _ _ _ _ EX) in AX. subst. cbn in J. destruct J as [[J|[J|[]]]|[J|[J|[]]]]; try discriminate; injection J as <-; auto.
    exfalso. apply N. exists (mkTraj 0 [0; 0]), (mkTraj 0 [1; 1]), 0, 1. split; [reflexivity|]. split; [reflexivity|]. split; [apply A; lia|]. split; [apply A; lia|]. cbn. auto.
Qed.
(** A trajectory that ends gives -1. *)
(** The files hold one value per line, in order. *)
Theorem C103_lines vs : map integer_of (file_lines [] (lines_of vs)) = map Some vs.
Proof.
  assert (D : forall c, is_digit c = true -> N.eqb (N_of_ascii c) 10 = false /\ N.eqb (N_of_ascii c) 45 = false).
  { intros c H. unfold is_digit in H. apply andb_true_iff in H as [H _]. apply N.leb_le in H. split; apply N.eqb_neq; lia. }
  assert (L : forall l cur rest, forallb (fun c => negb (N.eqb (N_of_ascii c) 10)) l = true -> file_lines cur (l ++ newline :: rest) = (cur ++ l) :: file_lines [] rest).
  { induction l as [|c l IH]; intros cur rest H; [cbn; rewrite app_nil_r; reflexivity|]. cbn in H. apply andb_true_iff in H as [Hc H]. apply negb_true_iff in Hc.
    cbn [app file_lines]. rewrite Hc, IH by exact H. rewrite <- app_assoc. reflexivity. }
  assert (P : forall v, forallb (fun c => negb (N.eqb (N_of_ascii c) 10)) (print_int v) = true /\ integer_of (print_int v) = Some v).
  { intros v. assert (Pn : forall n, forallb (fun c => negb (N.eqb (N_of_ascii c) 10)) (print_N n) = true /\ digits_of (print_N n) = Some (Z.of_N n)).
    { intros n. destruct (print_N_ok n) as [A [B C]]. split.
      - rewrite forallb_forall in B |- *. intros c Hc. rewrite (proj1 (D c (B c Hc))). reflexivity.
      - unfold digits_of. rewrite B, C. destruct (print_N n); [contradiction|reflexivity]. }
    unfold print_int. destruct (Z.ltb_spec v 0) as [H|H].
    - destruct (Pn (Z.to_N (- v))) as [A B]. split; [cbn; exact A|]. cbn [integer_of]. cbn [N_of_ascii N.eqb]. change (N.eqb (N_of_ascii "-"%char) 45) with true. cbv iota.
      rewrite B. cbn [option_map]. rewrite Z2N.id by lia. rewrite Z.opp_involutive. reflexivity.
    - destruct (Pn (Z.to_N v)) as [A B]. split; [exact A|]. unfold integer_of. destruct (print_N_ok (Z.to_N v)) as [N0 [Dg _]]. destruct (print_N (Z.to_N v)) as [|c l] eqn:E; [contradiction|].
      cbn in Dg. apply andb_true_iff in Dg as [Dc _]. rewrite (proj2 (D c Dc)), B. f_equal. apply Z2N.id. exact H. }
  induction vs as [|v vs IH]; [reflexivity|]. unfold lines_of. cbn [flat_map map]. rewrite <- app_assoc. cbn [app]. destruct (P v) as [A B]. rewrite L by exact A. cbn [map app]. rewrite B. f_equal. exact IH.
Qed.
Example C103_case : export_post_lost (mkIndex [mkTraj 0 [0; 0]; mkTraj 0 [1]; mkTraj 1 [1]] [[0; 1]; [0; 2]]) (fun _ => Some (txt "0 1")) ex_bonds ex_lngb 1 = Val [(txt "b_t0.lngb", lines_of [1; -1]%Z)].
Proof. vm_compute. reflexivity. Qed.
Print Assumptions C103_post.
Print Assumptions C103_dynamic.
Print Assumptions C103_reading.
Print Assumptions C103_missing_file.
Print Assumptions C103_no_bond_refuted.
Print Assumptions C103_interval_refuted.
Print Assumptions C103_lost_refuted.
Print Assumptions C103_lines.

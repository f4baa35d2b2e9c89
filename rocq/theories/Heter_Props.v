(** C154: the programs dhlngb and lostngb. *)
Require Import String.
Require Import ZArith List Bool Arith NArith Ascii Lia.
Require Import Verif.Base Verif.ListX Verif.Dec Verif.Traj_Model Verif.Traj_Spec Verif.Traj_Proofs Verif.Traj_Props Verif.TrajFile_Model Verif.TrajFile_Proofs Verif.Particles_Model Verif.Files_Model Verif.Files_Spec Verif.Files_Proofs Verif.Files_Props
  Verif.Boo_Model Verif.Corr_Model Verif.Corr_Proofs Verif.Dyn_Proofs Verif.Export_Model Verif.Export_Spec Verif.Export_Proofs Verif.DynFile_Model Verif.DynFile_Proofs Verif.DynFile_Props Verif.Jump_Model Verif.Jump_Props
  Verif.Lost_Model Verif.Lost_Spec Verif.Lost_Proofs Verif.Lost_Props Verif.Sub_Model Verif.Perco_Model Verif.Perco_Props Verif.Cut_Props Verif.Heter_Model Verif.Heter_Spec.
Import ListNotations.
Local Open Scope nat_scope.
Local Open Scope list_scope.
Local Notation length := List.length.

(** ** Arguments *)
Lemma numeral_forallb ds : numeral ds -> forallb is_digit ds = true.
Proof. intros H. apply forallb_forall. exact H. Qed.
Lemma atoi_ok arg z : reads_as arg z -> atoi arg = Val z.
Proof.
  intros [ws [sign [ds [rest (-> & Hw & Hd & Hr & Hs & Hn & Hz)]]]].
  assert (S1 : forall l, (forall c l', l = c :: l' -> is_space c = false) -> span_while is_space (ws ++ l) = (ws, l)).
  { intros l Hl. apply span_while_app; [apply forallb_forall; exact Hw|]. destruct l; [exact I|]. eapply Hl; reflexivity. }
  assert (S2 : span_while is_digit (ds ++ rest) = (ds, rest)).
  { apply span_while_app; [apply numeral_forallb, Hd|]. destruct Hr as [->|[c [r [-> Hc]]]]; [exact I|exact Hc]. }
  assert (Rg : ((- 2 ^ 31 <=? z)%Z && (z <? 2 ^ 31)%Z) = true) by (apply andb_true_iff; split; [apply Z.leb_le|apply Z.ltb_lt]; lia).
  unfold atoi. destruct Hs as [[-> ->]|[[->| ->] ->]].
  - rewrite S1 by (intros c l' E; injection E as <- _; reflexivity). cbn [snd app]. change (Ascii.eqb "-" "-") with true. cbv iota beta. rewrite S2. cbn [fst]. replace (-1 * Z.of_N (value_from 0 ds))%Z with (- Z.of_N (value_from 0 ds))%Z by lia. rewrite Rg. reflexivity.
  - rewrite S1 by (intros c l' E; injection E as <- _; reflexivity). cbn [snd app]. change (Ascii.eqb "+" "-") with false. change (Ascii.eqb "+" "+") with true. cbv iota beta. rewrite S2. cbn [fst]. rewrite Z.mul_1_l. rewrite Rg. reflexivity.
  - cbn [app]. assert (Hh : forall c l', ds ++ rest = c :: l' -> is_space c = false /\ c <> "+"%char /\ c <> "-"%char).
    { intros c l' E. destruct ds as [|x ds]; [apply (Hn eq_refl eq_refl c l' E)|]. injection E as -> _. assert (Dc := Hd c (or_introl eq_refl)). split; [apply digit_not_space, Dc|]. split; intros ->; discriminate Dc. }
    rewrite S1 by (intros c l' E; apply (Hh c l' E)). cbn [snd]. destruct (ds ++ rest) as [|c l'] eqn:E.
    + apply app_eq_nil in E as [-> ->]. cbn in Rg |- *. reflexivity.
    + destruct (Hh c l' eq_refl) as (_ & N1 & N2). rewrite (proj2 (Ascii.eqb_neq c "-") N2), (proj2 (Ascii.eqb_neq c "+") N1). cbv iota beta. rewrite S2. cbn [fst]. rewrite Z.mul_1_l, Rg. reflexivity.
Qed.

(** ** The index of tidy trajectories *)
Lemma alive_at T t : steps T <> [] -> ((start T <=? t) && (t <? start T + length (steps T))) = true <-> exists p, at_time T t p.
Proof.
  intros _. rewrite andb_true_iff, Nat.leb_le, Nat.ltb_lt. split; [apply at_time_ex|]. intros [p A]. apply at_time_range in A. exact A.
Qed.
Lemma tidy_full n tri t p : tidy n tri -> p < many tri t -> exists tr T, nth_error tri tr = Some T /\ at_time T t p.
Proof.
  intros (H1 & H2 & H3) Hp. set (f := fun T : traj => (start T <=? t) && (t <? start T + length (steps T))).
  assert (F : exists ps, Forall2 (fun T q => at_time T t q) (filter f tri) ps).
  { assert (Q : forall T, In T (filter f tri) -> exists q, at_time T t q) by (intros T I; apply filter_In in I as [I E]; apply alive_at in E; [exact E|apply H1, I]). revert Q. induction (filter f tri) as [|T l IH]; intros Q; [exists []; constructor|].
    destruct (Q T (or_introl eq_refl)) as [q Hq]. destruct IH as [ps F]; [intros U I; apply Q; right; exact I|]. exists (q :: ps). constructor; auto. }
  destruct F as [ps F].
  assert (Lp : length ps = many tri t) by (unfold many; fold f; clear - F; induction F; cbn; auto).
  assert (Nd : NoDup ps).
  { assert (G : forall l, (forall i j T U q, nth_error l i = Some T -> nth_error l j = Some U -> at_time T t q -> at_time U t q -> i = j) -> forall ps, Forall2 (fun T q => at_time T t q) (filter f l) ps -> NoDup ps).
    { clear. induction l as [|T l IH]; intros H ps F; cbn [filter] in F; [inversion F; constructor|]. assert (IH' := IH (fun i j X Y q Ei Ej A B => eq_add_S _ _ (H (S i) (S j) X Y q Ei Ej A B))).
      destruct (f T); [|apply IH', F]. inversion F as [|? q ? ps' A F']; subst. constructor; [|apply IH', F']. intros I. clear IH IH' F.
      assert (X : exists U, In U (filter f l) /\ at_time U t q). { clear - F' I. induction F' as [|U r ? ? B F IHF]; [contradiction|]. destruct I as [->|I]; [exists U; split; [left; reflexivity|exact B]|]. destruct (IHF I) as [W [I' B']]. exists W. split; [right; exact I'|exact B']. }
      destruct X as [U [IU B]]. apply filter_In in IU as [IU _]. apply In_nth_error in IU as [j Ej]. specialize (H 0 (S j) T U q eq_refl Ej A B). discriminate. }
    apply (G tri); [intros i j T U q; apply H2|exact F]. }
  assert (In p ps).
  { apply (NoDup_length_incl Nd (l' := seq 0 (many tri t))); [rewrite seq_length; lia| |apply in_seq; lia].
    intros q I. apply in_seq. split; [lia|]. cbn. assert (X : exists U, In U (filter f tri) /\ at_time U t q). { clear - F I. induction F as [|U r ? ? B F IHF]; [contradiction|]. destruct I as [->|I]; [exists U; split; [left; reflexivity|exact B]|]. destruct (IHF I) as [W [I' B']]. exists W. split; [right; exact I'|exact B']. }
    destruct X as [U [IU B]]. apply filter_In in IU as [IU _]. apply (H3 U t q IU B). }
  assert (X : exists U, In U (filter f tri) /\ at_time U t p). { clear - F H. induction F as [|U r ? ? B F IHF]; [contradiction|]. destruct H as [->|I]; [exists U; split; [left; reflexivity|exact B]|]. destruct (IHF I) as [W [I' B']]. exists W. split; [right; exact I'|exact B']. }
  destruct X as [U [IU B]]. apply filter_In in IU as [IU _]. apply In_nth_error in IU as [j Ej]. exists j, U. auto.
Qed.
Lemma tidy_index n tri : tidy n tri -> (Z.of_nat n < 2 ^ 64)%Z -> exists ti, reload_cages tri n = Val ti /\ trajs ti = tri /\ length (inverse ti) = n /\ consistent ti /\
  forall t inv, nth_error (inverse ti) t = Some inv -> length inv = many tri t.
Proof.
  intros Ht Hn. assert (Ht' := Ht). destruct Ht' as (H1 & H2 & H3). destruct (C120_reload tri n (fun c I => proj2 (H1 c I)) H2) as [R _]. destruct (R H3) as [ti (E & Et & El & Q)]. exists ti. split; [exact E|]. split; [exact Et|].
  assert (Li : length (inverse ti) = n) by (rewrite <- (map_length (@length nat)), El, map_length, seq_length; reflexivity). split; [exact Li|].
  assert (Ln : forall t inv, nth_error (inverse ti) t = Some inv -> length inv = many tri t).
  { intros t inv Ei. assert (L := nth_error_lt _ _ _ Ei). assert (X : nth_error (map (@length nat) (inverse ti)) t = Some (length inv)) by (rewrite nth_error_map, Ei; reflexivity). rewrite El, nth_error_map in X.
    rewrite (nth_error_nth' (seq 0 n) 0) in X by (rewrite seq_length; lia). rewrite seq_nth in X by lia. cbn [option_map] in X. injection X as X. symmetry. exact X. }
  split; [|exact Ln]. split.
  - intros t p tr. rewrite Et. split.
    + unfold invert. destruct (nth_error (inverse ti) t) as [inv|] eqn:Ei; [|discriminate]. intros Ep. assert (L := nth_error_lt _ _ _ Ep). rewrite (Ln t inv Ei) in L. destruct (tidy_full n tri t p Ht L) as [tr' [T [ET A]]].
      assert (X := Q tr' T t p ET A). unfold invert in X. rewrite Ei in X. assert (tr' = tr) by congruence. subst tr'. eauto.
    + intros [T [ET A]]. exact (Q tr T t p ET A).
  - rewrite Et. apply Forall_forall. intros T I. destruct (H1 T I) as [Ne Le]. split; [exact Ne|]. lia.
Qed.

(** ** Files written one after the other *)
Definition put_all (out : list (text * text)) (d : disk) : disk := fold_left (fun d nc => put_file d (fst nc) (snd nc)) out d.
Lemma put_all_other out : forall d n, ~ In n (map fst out) -> put_all out d n = d n.
Proof.
  induction out as [|[m c] out IH]; intros d n H; [reflexivity|]. cbn [put_all fold_left fst snd map In] in *. change (put_all out (put_file d m c) n = d n). rewrite IH by tauto. apply put_other. intros ->. tauto.
Qed.
Lemma put_all_get out : NoDup (map fst out) -> forall d i n c, nth_error out i = Some (n, c) -> put_all out d n = Some c.
Proof.
  induction out as [|[m x] out IH]; intros Nd d i n c E; [destruct i; discriminate|]. cbn [map fst] in Nd. inversion Nd as [|? ? Hn Nd']; subst. change (put_all out (put_file d m x) n = Some c). destruct i as [|i]; cbn [nth_error] in E.
  - assert (m = n) by congruence. assert (x = c) by congruence. subst. rewrite put_all_other by exact Hn. apply put_same.
  - eapply IH; eauto.
Qed.
Lemma osequence_cons {A} (x : outcome A) l r : osequence (x :: l) = Val r -> exists a r', x = Val a /\ osequence l = Val r' /\ r = a :: r'.
Proof. cbn [osequence]. destruct x as [a| |]; cbn [obind]; try discriminate. destruct (osequence l) as [r'| |]; cbn [obind]; try discriminate. intros E. exists a, r'. split; [reflexivity|]. split; [reflexivity|]. inversion E. reflexivity. Qed.
Lemma load_same ti (d d' : disk) bonds t : d (step_name bonds (N.of_nat t)) = d' (step_name bonds (N.of_nat t)) -> load_frame ti d bonds t = load_frame ti d' bonds t.
Proof. intros E. unfold load_frame. rewrite E. reflexivity. Qed.
Lemma dh_steps_ok ti bonds lngb t0 initial d : forall ts out d0, (forall t t', In t ts -> In t' ts -> step_name lngb (N.of_nat t) <> step_name bonds (N.of_nat t')) ->
  (forall t, In t ts -> d0 (step_name bonds (N.of_nat t)) = d (step_name bonds (N.of_nat t))) ->
  osequence (map (fun t => obind (load_frame ti d bonds t) (fun actual => omap (fun vs => (step_name lngb (N.of_nat t), lines_of vs)) (dyn_lost ti t0 initial actual t))) ts) = Val out ->
  dh_steps ti bonds lngb t0 initial ts d0 = (put_all out d0, Val tt).
Proof.
  induction ts as [|t ts IH]; intros out d0 Ap Hd E; cbn [map] in E; [cbn in E; injection E as <-; reflexivity|]. apply osequence_cons in E as [a [r' (E1 & E2 & ->)]]. cbn [dh_steps]. rewrite (load_same ti d0 d bonds t (Hd t (or_introl eq_refl))).
  destruct (load_frame ti d bonds t) as [actual| |]; cbn [obind] in *; try discriminate. destruct (dyn_lost ti t0 initial actual t) as [vs| |]; cbn [omap] in E1; try discriminate. injection E1 as <-. cbn [upto].
  rewrite (IH r'); [reflexivity| | |exact E2]; [intros u u' I I'; apply Ap; right; assumption|]. intros t' I'. rewrite put_other by (intros X; apply (Ap t t'); [left; reflexivity|right; exact I'|auto]). apply Hd. right. exact I'.
Qed.
Lemma post_steps_ok ti lngb tau dyn : forall ts out d0, osequence (map (fun t0 => omap (fun vs => (step_name lngb (N.of_nat t0), lines_of vs)) (post_values ti tau dyn t0)) ts) = Val out ->
  post_steps ti lngb tau dyn ts d0 = (put_all out d0, Val tt).
Proof.
  induction ts as [|t ts IH]; intros out d0 E; cbn [map] in E; [cbn in E; injection E as <-; reflexivity|]. apply osequence_cons in E as [a [r' (E1 & E2 & ->)]]. cbn [post_steps].
  destruct (post_values ti tau dyn t) as [vs| |]; cbn [omap] in E1; try discriminate. injection E1 as <-. cbn [upto]. rewrite (IH r'); [reflexivity|exact E2].
Qed.
Lemma post_steps_app ti lngb tau dyn : forall ts ts' d0 d1, post_steps ti lngb tau dyn ts d0 = (d1, Val tt) -> post_steps ti lngb tau dyn (ts ++ ts') d0 = post_steps ti lngb tau dyn ts' d1.
Proof.
  induction ts as [|t ts IH]; intros ts' d0 d1 E; cbn [post_steps app] in *; [congruence|]. destruct (post_values ti tau dyn t) as [vs| |]; cbn [upto] in *; try discriminate. apply IH, E.
Qed.
Lemma post_steps_bad ti lngb tau dyn t : post_values ti tau dyn t = UB -> forall ts d0, In t ts -> snd (post_steps ti lngb tau dyn ts d0) <> Val tt.
Proof.
  intros Hu. induction ts as [|t' ts IH]; intros d0 I; [contradiction|]. cbn [post_steps]. destruct (post_values ti tau dyn t') as [vs| |] eqn:E; cbn [upto snd]; try discriminate. destruct I as [->|I]; [congruence|]. apply IH, I.
Qed.
Lemma post_values_same ti tau dyn t0 : (Z.of_nat (t0 + tau) < 2 ^ 64)%Z -> post_values ti (Z.of_nat tau) dyn t0 = post_lost ti tau dyn t0.
Proof. intros H. unfold post_values, post_lost. rewrite <- Nat2Z.inj_add, Z.mod_small by lia. rewrite Nat2Z.id. reflexivity. Qed.

Section Programs.
  Variables (V : Type) (show : V -> text) (parse : text -> option V) (rnd : V -> V).
  Hypothesis K : codec show parse rnd.
  Variables (radius dt : V) (base tok : text) (off n : nat) (tri : list traj).
  Hypothesis Hb : one_line base.
  Hypothesis Ht : one_line tok.
  Hypothesis Hn : (Z.of_nat (off + n) < 2 ^ 63)%Z.
  Hypothesis Hn0 : 0 < n.
  Hypothesis Htri : Forall size_t_traj tri.
  (** The disk, with the trajectory file in its folder, next to the series of positions [base]. *)
  Variables (d : disk) (folder name trajectories : text).
  Hypothesis Hf : is_folder folder.
  Hypothesis Hnm : plain_name name.
  Hypothesis Hsave : save_dyn V show radius dt base tok off n tri = Some trajectories.
  Hypothesis Hdisk : d (folder ++ name) = Some trajectories.
  Variables (head ds ext : text).
  Hypothesis Hs : splits tok (folder ++ base) head (ds ++ txt "." ++ ext).
  Hypothesis Hd : numeral ds.
  Hypothesis Hx : ~ In "."%char ext.
  Hypothesis Hp : no_percent (folder ++ base).
  Hypothesis Htok : digit_free tok.
  Hypothesis Hab : absent tok (txt ".bonds").
  Hypothesis Hal : absent tok (txt ".lngb").
  (** The file of time step [t] in the series with this mark and extension. *)
  Definition file_at (mark extension : text) (t : nat) (f : text) : Prop := exists s, writes (length ds) (N.of_nat (t + off)) s /\ f = head ++ mark ++ tok ++ s ++ extension.
  Variable B : nat -> list (nat * nat).
  (** The bonds of each time step are in their file. *)
  Definition bonds_there : Prop := forall t f, t < n -> file_at [] (txt ".bonds") t f -> bond_file (d f) (many tri t) (B t).

  Lemma load_ok : tidy n tri -> exists ti, load_trajectories V parse (folder ++ name) d = Val (n, ti, (base, tok, N.of_nat off)) /\ trajs ti = tri /\ length (inverse ti) = n /\ consistent ti /\
    forall t inv, nth_error (inverse ti) t = Some inv -> length inv = many tri t.
  Proof.
    intros Hy. destruct (tidy_index n tri Hy ltac:(lia)) as [ti (E & Q)]. exists ti. split; [|exact Q]. destruct (read_index_from_ok tri (traj_fits_all tri Htri)) as [l [P R]]. unfold save_dyn in Hsave. rewrite P in Hsave. cbn [option_map] in Hsave.
    unfold load_trajectories. rewrite Hdisk. assert (X : trajectories = show radius ++ [tab] ++ show dt ++ [newline] ++ base ++ [newline] ++ tok ++ [newline] ++ print_nat off ++ [tab] ++ print_nat n ++ [newline] ++ l) by congruence. rewrite X.
    rewrite (read_header_ok V show parse rnd K) by (try (apply one_line_b; assumption); unfold fits; change two64 with (2 ^ 64)%N; lia). rewrite R, Nat2N.id. destruct (Nat.eqb_spec n 0); [lia|]. rewrite E. reflexivity.
  Qed.
  Lemma load_bad T t p : (forall T, In T tri -> steps T <> [] /\ start T + length (steps T) <= n) ->
    (forall i j T U t p, nth_error tri i = Some T -> nth_error tri j = Some U -> at_time T t p -> at_time U t p -> i = j) -> In T tri -> at_time T t p -> many tri t <= p ->
    load_trajectories V parse (folder ++ name) d = UB.
  Proof.
    intros H1 H2 I A L. destruct (C120_reload tri n (fun c I => proj2 (H1 c I)) H2) as [_ R0]. assert (E : reload_cages tri n = UB) by (apply R0; exists T, t, p; auto).
    destruct (read_index_from_ok tri (traj_fits_all tri Htri)) as [l [P R]]. unfold save_dyn in Hsave. rewrite P in Hsave. cbn [option_map] in Hsave.
    unfold load_trajectories. rewrite Hdisk. assert (X : trajectories = show radius ++ [tab] ++ show dt ++ [newline] ++ base ++ [newline] ++ tok ++ [newline] ++ print_nat off ++ [tab] ++ print_nat n ++ [newline] ++ l) by congruence. rewrite X.
    rewrite (read_header_ok V show parse rnd K) by (try (apply one_line_b; assumption); unfold fits; change two64 with (2 ^ 64)%N; lia). rewrite R, Nat2N.id. destruct (Nat.eqb_spec n 0); [lia|]. rewrite E. reflexivity.
  Qed.
  Lemma series_ok mark : no_percent mark -> exists bonds lngb, two_series (folder ++ name) n (base, tok, N.of_nat off) mark = Val (bonds, lngb) /\
    forall t, t < n -> file_at [] (txt ".bonds") t (step_name bonds (N.of_nat t)) /\ file_at mark (txt ".lngb") t (step_name lngb (N.of_nat t)).
  Proof.
    intros Hm. assert (Hnd : no_digit_first (txt "." ++ ext)) by (exists "."%char, ext; split; reflexivity).
    destruct (C54_change_ext tok (folder ++ base) head ds (txt "." ++ ext) n (N.of_nat off) Hs Hd Hnd Hp [] ext (txt ".bonds") Htok eq_refl Hx) as [fs [b (E1 & E2 & Q2)]]; [exists "."%char, (txt "bonds"); split; reflexivity|exact Hab|unfold no_percent; vm_compute; intuition discriminate|].
    destruct (C54_add_postfix_ext tok (folder ++ base) head ds (txt "." ++ ext) n (N.of_nat off) Hs Hd Hnd Hp mark [] ext (txt ".lngb") Htok Hm eq_refl Hx) as [fs' [l (E3 & E4 & Q4)]]; [exists "."%char, (txt "lngb"); split; reflexivity|exact Hal|unfold no_percent; vm_compute; intuition discriminate|].
    assert (fs' = fs) by congruence. subst fs'. exists b, l. split.
    - unfold two_series. rewrite (folder_ok folder name Hf Hnm), E1. cbn [obind]. rewrite E2. cbn [obind]. rewrite E4. reflexivity.
    - intros t Lt. destruct (Q2 (N.of_nat t)) as [s [W E]]; [lia|]. destruct (Q4 (N.of_nat t)) as [s' [W' E']]; [lia|]. split; [exists s|exists s']; (split; [rewrite Nat2N.inj_add; assumption|assumption]).
  Qed.
  Lemma file_fun mark e t f f' : file_at mark e t f -> file_at mark e t f' -> f = f'.
  Proof. intros [s [W ->]] [s' [W' ->]]. rewrite (writes_fun _ _ _ _ W W'). reflexivity. Qed.
  Lemma file_inj mark e t t' f : file_at mark e t f -> file_at mark e t' f -> t = t'.
  Proof.
    intros [s [W E]] [s' [W' E']]. rewrite E in E'. apply app_inv_head in E'. apply app_inv_head in E'. apply app_inv_head in E'. apply app_inv_tail in E'. subst s'. destruct W as (_ & V1 & _), W' as (_ & V2 & _). lia.
  Qed.
  Lemma ends_differ mark t t' f f' : file_at mark (txt ".lngb") t f -> file_at [] (txt ".bonds") t' f' -> f <> f'.
  Proof.
    intros [s [_ ->]] [s' [_ ->]] E. apply (f_equal (@rev ascii)) in E. rewrite !rev_app_distr in E. cbn in E. discriminate E.
  Qed.
  Lemma files_ok ti bonds : (forall t inv, nth_error (inverse ti) t = Some inv -> length inv = many tri t) -> length (inverse ti) = n ->
    (forall t, t < n -> file_at [] (txt ".bonds") t (step_name bonds (N.of_nat t))) -> bonds_there -> forall t inv, nth_error (inverse ti) t = Some inv -> bond_file (d (step_name bonds (N.of_nat t))) (length inv) (B t).
  Proof. intros Hl Li Hbn Hbt t inv E. rewrite (Hl t inv E). assert (t < n) by (rewrite <- Li; eapply nth_error_lt; eauto). apply Hbt; auto. Qed.
  Lemma to_size_nat k z : z = Z.of_nat k -> (z < 2 ^ 31)%Z -> to_size z = Z.of_nat k.
  Proof. intros -> L. unfold to_size. apply Z.mod_small. lia. Qed.
  Lemma read_range arg z : reads_as arg z -> (- 2 ^ 31 <= z < 2 ^ 31)%Z.
  Proof. intros [ws [sg [dd [r (_ & _ & _ & _ & _ & _ & R)]]]]. exact R. Qed.
  Lemma counts_from ti t0 t P inv vs content : trajs ti = tri -> consistent ti -> nth_error (inverse ti) t0 = Some inv -> length inv = many tri t0 -> content = Some (lines_of vs) -> length vs = length inv ->
    (forall p tr v, nth_error inv p = Some tr -> nth_error vs p = Some v -> count_or_absent ti v tr t (P tr)) -> counts_file content tri t0 t P.
  Proof.
    intros Et [O _] Ei Li -> Lv Q. exists vs. split; [exists (lines_of vs); split; [reflexivity|apply C103_lines]|]. split; [congruence|]. intros tr T p ET A. rewrite <- Et in ET. assert (I := proj2 (O t0 p tr) (ex_intro _ T (conj ET A))). unfold invert in I. rewrite Ei in I.
    destruct (nth_error_ex vs p) as [v Ev]; [rewrite Lv; eapply nth_error_lt; eauto|]. exists v. split; [exact Ev|]. specialize (Q p tr v I Ev). unfold count_or_absent in *. rewrite Et in Q. exact Q.
  Qed.

  (** C154.  dhlngb with an initial time step before the last: one file for each later time step, one line for each particle of the initial step, with the number of its neighbours that it has lost,
      or -1 if it is not followed until then.  No other file changes. *)
  Theorem C154_dynhet arg t0 : tidy n tri -> bonds_there -> reads_as arg (Z.of_nat t0) -> no_percent arg -> S t0 < n ->
    exists d', dhlngb V parse (folder ++ name) arg d = (d', Val tt) /\
      (forall t f, t0 < t < n -> file_at (txt "_" ++ arg ++ txt "dynhet") (txt ".lngb") t f ->
         counts_file (d' f) tri t0 t (fun tr x => bonded (mkIndex tri []) B t0 tr x /\ ~ bonded (mkIndex tri []) B t tr x)) /\
      (forall f, (forall t, t0 < t < n -> ~ file_at (txt "_" ++ arg ++ txt "dynhet") (txt ".lngb") t f) -> d' f = d f).
  Proof.
    intros Hy Hbt Ha Hpa Lt. set (mark := txt "_" ++ arg ++ txt "dynhet"). assert (Hm : no_percent mark) by (unfold mark; rewrite !no_percent_app; repeat split; [unfold no_percent; vm_compute; intuition discriminate|exact Hpa|unfold no_percent; vm_compute; intuition discriminate]).
    destruct (load_ok Hy) as [ti (El & Et & Li & OK & Hl)]. destruct (series_ok mark Hm) as [bonds [lngb [E2 Hnames]]].
    assert (Rg := read_range _ _ Ha). assert (To := to_size_nat t0 _ eq_refl (proj2 Rg)).
    assert (FO := files_ok ti bonds Hl Li (fun t L => proj1 (Hnames t L)) Hbt). destruct (C103_dynamic ti d bonds lngb B OK FO t0 ltac:(lia)) as [out (Eo & Lo & inv & Ei & Q)]. rewrite Li in *.
    unfold export_dyn_lost in Eo. rewrite Li in Eo. destruct (Nat.leb_spec n (t0 + 1)) as [?|_]; [lia|]. destruct (load_frame ti d bonds t0) as [frame| |] eqn:Ef; cbn [obind] in Eo; try discriminate.
    exists (put_all out d). split; [|split].
    - unfold dhlngb. rewrite (atoi_ok _ _ Ha). cbn [upto]. rewrite El. cbn [upto]. rewrite To. rewrite Z.mod_small by lia. destruct (Z.leb_spec (Z.of_nat n) (Z.of_nat t0 + 1)) as [?|_]; [lia|]. fold mark. rewrite E2. cbn [upto fst snd]. rewrite Li. destruct (Z.ltb_spec (Z.of_nat t0) (Z.of_nat n)) as [_|?]; [|lia].
      rewrite Nat2Z.id, Ef. cbn [upto]. apply (dh_steps_ok ti bonds lngb t0 frame d); [|reflexivity|rewrite <- Nat.add_1_r; exact Eo]. intros t t' I I'. apply in_seq in I. apply in_seq in I'. eapply ends_differ; apply Hnames; lia.
    - intros t f Ht1 Hf1. destruct (Q t Ht1) as [vs (Ev & Lv & Qv)]. assert (f = step_name lngb (N.of_nat t)) by (eapply file_fun; [exact Hf1|apply Hnames; lia]). subst f.
      apply (counts_from ti t0 t _ inv vs _ Et OK Ei (Hl _ _ Ei)); [|exact Lv|].
      + apply (put_all_get out) with (i := t - (t0 + 1)); [|exact Ev]. apply NoDup_nth_error. intros i j Hi Eij. rewrite map_length, Lo in Hi.
        assert (G : forall k, k < n - (t0 + 1) -> nth_error (map fst out) k = Some (step_name lngb (N.of_nat (t0 + 1 + k)))). { intros k Hk. destruct (Q (t0 + 1 + k) ltac:(lia)) as [ws (Ew & _)]. replace (t0 + 1 + k - (t0 + 1)) with k in Ew by lia. rewrite nth_error_map, Ew. reflexivity. }
        assert (Hj : j < n - (t0 + 1)). { rewrite (G i Hi) in Eij. symmetry in Eij. apply nth_error_lt in Eij. rewrite map_length, Lo in Eij. exact Eij. }
        rewrite (G i Hi), (G j Hj) in Eij. injection Eij as Eij. assert (X := proj2 (Hnames (t0 + 1 + i) ltac:(lia))). rewrite Eij in X. assert (Y := proj2 (Hnames (t0 + 1 + j) ltac:(lia))). assert (Z0 := file_inj _ _ _ _ _ X Y). lia.
      + intros p tr v Ep Ew. specialize (Qv p tr v Ep Ew). unfold bonded in *. rewrite Et in Qv. exact Qv.
    - intros f Hno. apply put_all_other. intros I. apply in_map_iff in I as [[m c] [E I]]. cbn [fst] in E. subst m. apply In_nth_error in I as [k Ek]. assert (Lk := nth_error_lt _ _ _ Ek). rewrite Lo in Lk.
      destruct (Q (t0 + 1 + k) ltac:(lia)) as [ws (Ew & _)]. replace (t0 + 1 + k - (t0 + 1)) with k in Ew by lia. assert (f = step_name lngb (N.of_nat (t0 + 1 + k))) by congruence. subst f. apply (Hno (t0 + 1 + k)); [lia|]. apply Hnames. lia.
  Qed.

  (** lostngb with an interval not longer than the series: one file for each time step t0 such that t0+tau exists, one line for each particle of t0, with the number of the neighbours it has at t0+tau and had not at t0. *)
  Theorem C154_post arg tau : tidy n tri -> bonds_there -> reads_as arg (Z.of_nat tau) -> tau <= n ->
    exists d', lostngb V parse (folder ++ name) arg d = (d', Val tt) /\
      (forall t0 f, t0 + tau < n -> file_at (txt "_post") (txt ".lngb") t0 f ->
         counts_file (d' f) tri t0 (t0 + tau) (fun tr x => bonded (mkIndex tri []) B (t0 + tau) tr x /\ ~ bonded (mkIndex tri []) B t0 tr x)) /\
      (forall f, (forall t0, t0 + tau < n -> ~ file_at (txt "_post") (txt ".lngb") t0 f) -> d' f = d f).
  Proof.
    intros Hy Hbt Ha Lt. set (mark := txt "_post"). assert (Hm : no_percent mark) by (unfold no_percent; vm_compute; intuition discriminate).
    destruct (load_ok Hy) as [ti (El & Et & Li & OK & Hl)]. destruct (series_ok mark Hm) as [bonds [lngb [E2 Hnames]]].
    assert (Rg := read_range _ _ Ha). assert (To := to_size_nat tau _ eq_refl (proj2 Rg)).
    assert (FO := files_ok ti bonds Hl Li (fun t L => proj1 (Hnames t L)) Hbt). destruct (C103_post ti d bonds lngb B OK FO tau ltac:(lia)) as [out (Eo & Lo & Q)]. rewrite Li in *.
    unfold export_post_lost in Eo. rewrite Li in Eo. destruct (Nat.ltb_spec n tau) as [?|_]; [lia|]. destruct (osequence (map (load_frame ti d bonds) (seq 0 n))) as [dyn| |] eqn:Ef; cbn [obind] in Eo; try discriminate.
    exists (put_all out d). split; [|split].
    - unfold lostngb. rewrite (atoi_ok _ _ Ha). cbn [upto]. rewrite El. cbn [upto]. rewrite To. fold mark. rewrite E2. cbn [upto fst snd]. rewrite Li, Ef. cbn [upto]. unfold post_turns. destruct (Z.leb_spec (Z.of_nat tau) (Z.of_nat n)) as [_|?]; [|lia]. rewrite Nat2Z.id.
      apply post_steps_ok. rewrite <- Eo. f_equal. apply map_ext_in. intros t I. apply in_seq in I. rewrite post_values_same by lia. reflexivity.
    - intros t f Ht1 Hf1. destruct (Q t Ht1) as [inv [vs (Ei & Ev & Lv & Qv)]]. assert (f = step_name lngb (N.of_nat t)) by (eapply file_fun; [exact Hf1|apply Hnames; lia]). subst f.
      apply (counts_from ti t (t + tau) _ inv vs _ Et OK Ei (Hl _ _ Ei)); [|exact Lv|].
      + apply (put_all_get out) with (i := t); [|exact Ev]. apply NoDup_nth_error. intros i j Hi Eij. rewrite map_length, Lo in Hi.
        assert (G : forall k, k < n - tau -> nth_error (map fst out) k = Some (step_name lngb (N.of_nat k))). { intros k Hk. destruct (Q k ltac:(lia)) as [i0 [ws (_ & Ew & _)]]. rewrite nth_error_map, Ew. reflexivity. }
        assert (Hj : j < n - tau). { rewrite (G i Hi) in Eij. symmetry in Eij. apply nth_error_lt in Eij. rewrite map_length, Lo in Eij. exact Eij. }
        rewrite (G i Hi), (G j Hj) in Eij. injection Eij as Eij. assert (X := proj2 (Hnames i ltac:(lia))). rewrite Eij in X. assert (Y := proj2 (Hnames j ltac:(lia))). exact (file_inj _ _ _ _ _ X Y).
      + intros p tr v Ep Ew. specialize (Qv p tr v Ep Ew). unfold bonded in *. rewrite Et in Qv. exact Qv.
    - intros f Hno. apply put_all_other. intros I. apply in_map_iff in I as [[m c] [E I]]. cbn [fst] in E. subst m. apply In_nth_error in I as [k Ek]. assert (Lk := nth_error_lt _ _ _ Ek). rewrite Lo in Lk.
      destruct (Q k ltac:(lia)) as [i0 [ws (_ & Ew & _)]]. assert (f = step_name lngb (N.of_nat k)) by congruence. subst f. apply (Hno k); [lia|]. apply Hnames. lia.
  Qed.
  (** dhlngb with an initial step that has no later one, or with a negative one other than -1: an error, nothing written. *)
  Theorem C154_late arg z : tidy n tri -> reads_as arg z -> (z < -1 \/ Z.of_nat n <= z + 1)%Z -> dhlngb V parse (folder ++ name) arg d = (d, Throw).
  Proof.
    intros Hy Ha Hz. destruct (load_ok Hy) as [ti (El & Et & Li & OK & Hl)]. assert (Rg := read_range _ _ Ha). unfold dhlngb. rewrite (atoi_ok _ _ Ha). cbn [upto]. rewrite El. cbn [upto]. unfold to_size. rewrite Zplus_mod_idemp_l.
    replace (Z.of_nat n <=? (z + 1) mod 2 ^ 64)%Z with true; [reflexivity|]. symmetry. apply Z.leb_le. destruct Hz as [Hz|Hz].
    - replace ((z + 1) mod 2 ^ 64)%Z with (z + 1 + 2 ^ 64)%Z; [lia|]. rewrite <- (Z.mod_add (z + 1) 1 (2 ^ 64)) by lia. rewrite Z.mod_small; lia.
    - rewrite Z.mod_small; lia.
  Qed.
  (** With -1 the check is passed, since the largest size_t plus one is 0, and the program reads out of bounds. *)
  Theorem C154_before_refuted arg : tidy n tri -> reads_as arg (-1) -> no_percent arg -> dhlngb V parse (folder ++ name) arg d = (d, UB).
  Proof.
    intros Hy Ha Hpa. set (mark := txt "_" ++ arg ++ txt "dynhet"). assert (Hm : no_percent mark) by (unfold mark; rewrite !no_percent_app; repeat split; [unfold no_percent; vm_compute; intuition discriminate|exact Hpa|unfold no_percent; vm_compute; intuition discriminate]).
    destruct (load_ok Hy) as [ti (El & Et & Li & OK & Hl)]. destruct (series_ok mark Hm) as [bonds [lngb [E2 Hnames]]]. unfold dhlngb. rewrite (atoi_ok _ _ Ha). cbn [upto]. rewrite El. cbn [upto]. change ((to_size (-1) + 1) mod 2 ^ 64)%Z with 0%Z.
    destruct (Z.leb_spec (Z.of_nat n) 0) as [?|_]; [lia|]. fold mark. rewrite E2. cbn [upto]. rewrite Li. change (to_size (-1)) with (2 ^ 64 - 1)%Z. destruct (Z.ltb_spec (2 ^ 64 - 1) (Z.of_nat n)) as [?|_]; [lia|]. reflexivity.
  Qed.
  Lemma many_row ti t inv : trajs ti = tri -> consistent ti -> nth_error (inverse ti) t = Some inv -> forall tr, In tr inv -> exists T, nth_error (trajs ti) tr = Some T /\ In T tri.
  Proof.
    intros Et [O _] Ei tr I. apply In_nth_error in I as [p Ep]. assert (X : invert ti t p = Some tr) by (unfold invert; rewrite Ei; exact Ep). apply O in X as [T [ET _]]. exists T. split; [exact ET|]. rewrite <- Et. eapply nth_error_In; eauto.
  Qed.
  Lemma never ti tau dyn t inv : tidy n tri -> trajs ti = tri -> consistent ti -> nth_error (inverse ti) t = Some inv -> (Z.of_nat n <= (Z.of_nat t + tau) mod 2 ^ 64)%Z -> post_values ti tau dyn t = Val (repeat (-1)%Z (length inv)).
  Proof.
    intros Hy Et OK Ei L. assert (M := many_row ti t inv Et OK Ei). unfold post_values, at_index at 1. rewrite Ei. cbn [obind]. set (u := ((Z.of_nat t + tau) mod 2 ^ 64)%Z) in *. clearbody u.
    clear Ei. induction inv as [|tr inv IH]; [reflexivity|]. cbn [map]. destruct (M tr (or_introl eq_refl)) as [T [ET I]]. rewrite ET. destruct (proj1 Hy T I) as [Ne Le]. rewrite (last_time_exact T Ne) by (change size_mod with (2 ^ 64)%Z; lia). destruct (Z.leb_spec u (Z.of_nat (start T) + Z.of_nat (length (steps T)) - 1)) as [?|_]; [lia|].
    cbn [osequence obind]. rewrite IH by (intros tr' I'; apply M; right; exact I'). reflexivity.
  Qed.
  (** lostngb with an interval longer than the series: the files of all time steps are filled with -1, then the program reads out of bounds. *)
  Theorem C154_longer_refuted arg tau : tidy n tri -> bonds_there -> reads_as arg (Z.of_nat tau) -> n < tau ->
    exists d', lostngb V parse (folder ++ name) arg d = (d', UB) /\ forall t f, t < n -> file_at (txt "_post") (txt ".lngb") t f -> holds (d' f) (repeat (-1)%Z (many tri t)).
  Proof.
    intros Hy Hbt Ha Lt. set (mark := txt "_post"). assert (Hm : no_percent mark) by (unfold no_percent; vm_compute; intuition discriminate).
    destruct (load_ok Hy) as [ti (El & Et & Li & OK & Hl)]. destruct (series_ok mark Hm) as [bonds [lngb [E2 Hnames]]].
    assert (Rg := read_range _ _ Ha). assert (To := to_size_nat tau _ eq_refl (proj2 Rg)).
    assert (FO := files_ok ti bonds Hl Li (fun t L => proj1 (Hnames t L)) Hbt). destruct (frames_ok ti d bonds B OK FO n ltac:(lia)) as [dyn [Ef _]].
    set (out := map (fun t => (step_name lngb (N.of_nat t), lines_of (repeat (-1)%Z (many tri t)))) (seq 0 n)).
    assert (Eo : osequence (map (fun t0 => omap (fun vs => (step_name lngb (N.of_nat t0), lines_of vs)) (post_values ti (Z.of_nat tau) dyn t0)) (seq 0 n)) = Val out).
    { apply osequence_map_ok. intros t I. apply in_seq in I. destruct (nth_error_ex (inverse ti) t) as [inv Ei]; [lia|]. rewrite (never ti _ dyn t inv Hy Et OK Ei) by (rewrite Z.mod_small; lia). rewrite (Hl t inv Ei). reflexivity. }
    exists (put_all out d). split.
    - unfold lostngb. rewrite (atoi_ok _ _ Ha). cbn [upto]. rewrite El. cbn [upto]. rewrite To. fold mark. rewrite E2. cbn [upto fst snd]. rewrite Li, Ef. cbn [upto]. unfold post_turns. destruct (Z.leb_spec (Z.of_nat tau) (Z.of_nat n)) as [?|_]; [lia|].
      rewrite seq_S. rewrite (post_steps_app _ _ _ _ _ _ _ _ (post_steps_ok _ _ _ _ _ out d Eo)). cbn [post_steps Nat.add]. unfold post_values, at_index at 1. rewrite (proj2 (nth_error_None (inverse ti) n)) by lia. reflexivity.
    - intros t f Ht1 Hf1. assert (f = step_name lngb (N.of_nat t)) by (eapply file_fun; [exact Hf1|apply Hnames; lia]). subst f. exists (lines_of (repeat (-1)%Z (many tri t))). split; [|apply C103_lines].
      apply (put_all_get out) with (i := t).
      + unfold out. rewrite map_map. cbn [fst]. assert (X : forall l, NoDup l -> (forall x, In x l -> x < n) -> NoDup (map (fun x => step_name lngb (N.of_nat x)) l)).
        { induction l as [|x l IH]; intros Nd Hl'; [constructor|]. inversion Nd; subst. cbn [map]. constructor; [|apply IH; [assumption|intros y I; apply Hl'; right; exact I]]. intros I. apply in_map_iff in I as [y [E I]]. assert (Lx := Hl' x (or_introl eq_refl)). assert (Ly := Hl' y (or_intror I)).
          assert (X := proj2 (Hnames x Lx)). rewrite <- E in X. assert (x = y) by exact (file_inj _ _ _ _ _ X (proj2 (Hnames y Ly))). subst. contradiction. }
        apply X; [apply seq_NoDup|]. intros x I. apply in_seq in I. lia.
      + unfold out. rewrite nth_error_map, (nth_error_nth' (seq 0 n) 0) by (rewrite seq_length; lia). rewrite seq_nth by lia. reflexivity.
  Qed.
  (** With a negative interval it never succeeds either. *)
  Theorem C154_negative_refuted arg z : tidy n tri -> reads_as arg z -> (z < 0)%Z -> snd (lostngb V parse (folder ++ name) arg d) <> Val tt.
  Proof.
    intros Hy Ha Hz. set (mark := txt "_post"). destruct (load_ok Hy) as [ti (El & Et & Li & OK & Hl)]. assert (Rg := read_range _ _ Ha). unfold lostngb. rewrite (atoi_ok _ _ Ha). cbn [upto]. rewrite El. cbn [upto].
    destruct (two_series (folder ++ name) n (base, tok, N.of_nat off) (txt "_post")) as [bl| |]; cbn [upto snd]; try discriminate. rewrite Li. destruct (osequence (map (load_frame ti d (fst bl)) (seq 0 n))) as [dyn| |]; cbn [upto snd]; try discriminate.
    assert (To : to_size z = (z + 2 ^ 64)%Z) by (unfold to_size; rewrite <- (Z.mod_add z 1 (2 ^ 64)) by lia; rewrite Z.mod_small; lia). rewrite To. unfold post_turns. destruct (Z.leb_spec (z + 2 ^ 64) (Z.of_nat n)) as [?|_]; [lia|].
    apply (post_steps_bad _ _ _ _ n); [|apply in_seq; lia]. unfold post_values, at_index at 1. rewrite (proj2 (nth_error_None (inverse ti) n)) by lia. reflexivity.
  Qed.
  (** An argument that does not begin like a number is read as 0: lostngb succeeds and writes a 0 for every particle of every time step. *)
  Theorem C154_word c rest : tidy n tri -> bonds_there -> is_digit c = false -> is_space c = false -> c <> "+"%char -> c <> "-"%char ->
    exists d', lostngb V parse (folder ++ name) (c :: rest) d = (d', Val tt) /\ forall t f, t < n -> file_at (txt "_post") (txt ".lngb") t f -> holds (d' f) (repeat 0%Z (many tri t)).
  Proof.
    intros Hy Hbt H1 H2 H3 H4. assert (Ha : reads_as (c :: rest) (Z.of_nat 0)).
    { exists [], [], [], (c :: rest). split; [reflexivity|]. split; [intros x []|]. split; [intros x []|]. split; [right; exists c, rest; auto|]. split; [right; split; [right; reflexivity|reflexivity]|]. split; [|cbn; lia]. intros _ _ c' r E. injection E as <- _. auto. }
    destruct (C154_post _ 0 Hy Hbt Ha ltac:(lia)) as [d' (E & Q & _)]. exists d'. split; [exact E|]. intros t f Lt Hf1. destruct (Q t f ltac:(lia) Hf1) as [vs (Hh & Lv & Qv)].
    replace (repeat 0%Z (many tri t)) with vs; [exact Hh|]. apply nth_ext with (d := 0%Z) (d' := 0%Z); [rewrite repeat_length; exact Lv|]. intros p Lp. rewrite nth_repeat. rewrite Lv in Lp. destruct (tidy_full n tri t p Hy Lp) as [tr [T [ET A]]].
    destruct (Qv tr T p ET A) as [v [Ev C]]. rewrite (nth_error_nth _ _ 0%Z Ev). rewrite Nat.add_0_r in C. destruct C as [[T' [q [k (_ & _ & -> & l & _ & Hl & <-)]]]|[C _]].
    - destruct l as [|x l]; [reflexivity|]. exfalso. destruct (proj1 (Hl x) (or_introl eq_refl)) as [H H']. contradiction.
    - exfalso. exact (C T p ET A).
  Qed.
  (** Both programs count the positions of each time step on the trajectories: a position that is not below this number, because a trajectory was dropped or filtered out, is written out of bounds. *)
  Theorem C154_dropped_refuted arg z T t p : (forall T, In T tri -> steps T <> [] /\ start T + length (steps T) <= n) ->
    (forall i j T U t p, nth_error tri i = Some T -> nth_error tri j = Some U -> at_time T t p -> at_time U t p -> i = j) -> In T tri -> at_time T t p -> many tri t <= p -> reads_as arg z ->
    dhlngb V parse (folder ++ name) arg d = (d, UB) /\ lostngb V parse (folder ++ name) arg d = (d, UB).
  Proof.
    intros H1 H2 I A L Ha. assert (E := load_bad T t p H1 H2 I A L). unfold dhlngb, lostngb. rewrite (atoi_ok _ _ Ha). cbn [upto]. rewrite E. split; reflexivity.
  Qed.
End Programs.
(** Without trajectory file: an error, nothing written. *)
Theorem C154_missing V (parse : text -> option V) (d : disk) file arg z : d file = None -> reads_as arg z -> dhlngb V parse file arg d = (d, Throw) /\ lostngb V parse file arg d = (d, Throw).
Proof. intros E Ha. unfold dhlngb, lostngb, load_trajectories. rewrite (atoi_ok _ _ Ha). cbn [upto]. rewrite E. split; reflexivity. Qed.

(** * Cases *)
Definition ht_tri : list traj := [mkTraj 0 [0; 0; 0]; mkTraj 0 [1; 1]; mkTraj 0 [2; 2; 1]].
Definition ht_B (t : nat) : list (nat * nat) := match t with 0 => [(0, 1); (0, 2)] | 1 => [(1, 0)] | _ => [(0, 1)] end.
Definition ht_traj : text := match save_dyn Z (show_Z 1) 5%Z 1%Z (txt "run_t00.dat") (txt "_t") 10 3 ht_tri with Some l => l | None => [] end.
Definition ht_disk : disk :=
  put_file (put_file (put_file (put_file (fun _ => None) (txt "d/run.traj") ht_traj) (txt "d/run_t10.bonds") (txt "0 1 " ++ txt "0 2 ")) (txt "d/run_t11.bonds") (txt "1 0 ")) (txt "d/run_t12.bonds") (txt "0 1").
Lemma ht_tidy : tidy 3 ht_tri.
Proof.
  assert (A0 : forall l k q, nth_error l k = Some q -> at_time (mkTraj 0 l) k q) by (intros l k q E; exists k; split; [reflexivity|exact E]).
  assert (A1 : forall l t q, at_time (mkTraj 0 l) t q -> nth_error l t = Some q) by (intros l t q [k [E N]]; cbn in E, N; subst; exact N).
  split; [|split].
  - intros T [<-|[<-|[<-|[]]]]; (split; [discriminate|cbn; lia]).
  - intros i j T U t p Ei Ej A B.
    destruct i as [|[|[|i]]]; cbn in Ei; try (destruct i; discriminate); injection Ei as <-; apply A1 in A; destruct j as [|[|[|j]]]; cbn in Ej; try (destruct j; discriminate); injection Ej as <-; apply A1 in B; try reflexivity;
    exfalso; destruct t as [|[|[|t]]]; cbn in A, B; try congruence; destruct t; discriminate.
  - intros T t p [<-|[<-|[<-|[]]]] A; apply A1 in A; destruct t as [|[|[|t]]]; cbn in A; try (destruct t; discriminate); try discriminate; injection A as <-; cbn; lia.
Qed.
Lemma ht_splits : splits (txt "_t") (txt "d/" ++ txt "run_t00.dat") (txt "d/run") (txt "00" ++ txt "." ++ txt "dat").
Proof.
  change (txt "d/" ++ txt "run_t00.dat") with (txt "d/run" ++ txt "_t" ++ txt "00" ++ txt ".dat"). apply splits_digits; [split; [discriminate|intros c Hc; cbn in Hc; intuition (subst; reflexivity)]|discriminate| |].
  - intros c Hc. cbn in Hc. intuition (subst; reflexivity).
  - intros h r E. destruct h as [|c0 [|c1 [|c2 [|c3 [|c4 h]]]]]; cbn in E; discriminate.
Qed.
Lemma ht_bonds : bonds_there (txt "_t") 10 3 ht_tri ht_disk (txt "d/run") (txt "00") ht_B.
Proof.
  intros t f Ht [s [W ->]]. destruct t as [|[|[|t]]]; [| | |lia].
  - assert (s = txt "10") by (apply (writes_fun 2 10%N); [exact W|]; split; [intros c Hc; cbn in Hc; intuition (subst; reflexivity)|split; reflexivity]). subst s.
    exists (txt "0 1 " ++ txt "0 2 "). split; [vm_compute; reflexivity|]. split; [vm_compute; reflexivity|]. split; [discriminate|]. cbn [ht_B].
    repeat (apply Forall_cons; [change (many ht_tri 0) with 3; cbn [fst snd]; split; [lia|split; [lia|vm_compute; discriminate]]|]). apply Forall_nil.
  - assert (s = txt "11") by (apply (writes_fun 2 11%N); [exact W|]; split; [intros c Hc; cbn in Hc; intuition (subst; reflexivity)|split; reflexivity]). subst s.
    exists (txt "1 0 "). split; [vm_compute; reflexivity|]. split; [vm_compute; reflexivity|]. split; [discriminate|]. cbn [ht_B].
    repeat (apply Forall_cons; [change (many ht_tri 1) with 3; cbn [fst snd]; split; [lia|split; [lia|vm_compute; discriminate]]|]). apply Forall_nil.
  - assert (s = txt "12") by (apply (writes_fun 2 12%N); [exact W|]; split; [intros c Hc; cbn in Hc; intuition (subst; reflexivity)|split; reflexivity]). subst s.
    exists (txt "0 1"). split; [vm_compute; reflexivity|]. split; [vm_compute; reflexivity|]. split; [discriminate|]. cbn [ht_B].
    repeat (apply Forall_cons; [change (many ht_tri 2) with 2; cbn [fst snd]; split; [lia|split; [lia|vm_compute; discriminate]]|]). apply Forall_nil.
Qed.
Lemma reads_zero : reads_as (txt "0") (Z.of_nat 0).
Proof.
  exists [], [], (txt "0"), []. split; [reflexivity|]. split; [intros c []|]. split; [intros c Hc; cbn in Hc; intuition (subst; reflexivity)|]. split; [left; reflexivity|]. split; [right; split; [right; reflexivity|reflexivity]|]. split; [intros _ E; discriminate E|cbn; lia].
Qed.
Lemma reads_minus : reads_as (txt "-1") (-1).
Proof.
  exists [], (txt "-"), (txt "1"), []. split; [reflexivity|]. split; [intros c []|]. split; [intros c Hc; cbn in Hc; intuition (subst; reflexivity)|]. split; [left; reflexivity|]. split; [left; split; reflexivity|]. split; [intros E; discriminate E|cbn; lia].
Qed.
(** Three time steps: all hypotheses of the theorems hold, and the programs run as they say: particle 0 loses particle 2 at the second step; at the third one particle 1 is not followed any more and particle 2 is back. *)
Example C154_case :
  codec (show_Z 1) (parse_Z 1) (fun z => (z / 1 * 1)%Z) /\ Forall size_t_traj ht_tri /\ save_dyn Z (show_Z 1) 5%Z 1%Z (txt "run_t00.dat") (txt "_t") 10 3 ht_tri = Some ht_traj /\ ht_disk (txt "d/" ++ txt "run.traj") = Some ht_traj /\
  is_folder (txt "d/") /\ plain_name (txt "run.traj") /\ splits (txt "_t") (txt "d/" ++ txt "run_t00.dat") (txt "d/run") (txt "00" ++ txt "." ++ txt "dat") /\ tidy 3 ht_tri /\
  bonds_there (txt "_t") 10 3 ht_tri ht_disk (txt "d/run") (txt "00") ht_B /\ reads_as (txt "0") (Z.of_nat 0) /\ reads_as (txt "-1") (-1) /\
  (let r := dhlngb Z (parse_Z 1) (txt "d/run.traj") (txt "0") ht_disk in snd r = Val tt /\ fst r (txt "d/run_0dynhet_t11.lngb") = Some (lines_of [1; 0; 1]%Z) /\ fst r (txt "d/run_0dynhet_t12.lngb") = Some (lines_of [1; -1; 0]%Z)) /\
  (let r := lostngb Z (parse_Z 1) (txt "d/run.traj") (txt "1") ht_disk in snd r = Val tt /\ fst r (txt "d/run_post_t10.lngb") = Some (lines_of [0; 0; 0]%Z) /\ fst r (txt "d/run_post_t11.lngb") = Some (lines_of [1; -1; 1]%Z)).
Proof.
  split; [apply codec_Z|]. split; [repeat constructor; cbn; try discriminate; lia|]. split; [vm_compute; reflexivity|]. split; [vm_compute; reflexivity|]. split; [right; exists (txt "d"), "/"%char; auto|]. split; [split; cbn; intuition discriminate|].
  split; [apply ht_splits|]. split; [apply ht_tidy|]. split; [apply ht_bonds|]. split; [apply reads_zero|]. split; [apply reads_minus|]. split; (split; [vm_compute; reflexivity|]; split; vm_compute; reflexivity).
Qed.

Print Assumptions C154_dynhet.
Print Assumptions C154_post.
Print Assumptions C154_late.
Print Assumptions C154_before_refuted.
Print Assumptions C154_longer_refuted.
Print Assumptions C154_negative_refuted.
Print Assumptions C154_word.
Print Assumptions C154_dropped_refuted.
Print Assumptions C154_missing.
Print Assumptions C154_case.

(** C144: the bond order of each time step in linkboo, from positions to files. *)
Require Import String.
Require Import ZArith List Bool Arith Lia Sorted NArith Ascii.
Require Import Verif.Base Verif.SortU Verif.ListX Verif.Dec Verif.Box_Model Verif.RTree_Model Verif.RTree_Spec Verif.RTree_Heuristics Verif.Index_Model Verif.Traj_Model Verif.Traj_Proofs Verif.Particles_Model Verif.Particles_Spec
  Verif.Particles_Props Verif.Files_Model Verif.Files_Spec Verif.Files_Proofs Verif.Files_Props Verif.Boo_Model Verif.Ngb_Model Verif.Ngb_Spec Verif.Ngb_Proofs Verif.Ngb_Props Verif.Corr_Model Verif.Export_Model Verif.Export_Spec Verif.Export_Proofs Verif.Export_Props
  Verif.PBoo_Model Verif.PBoo_Spec Verif.PBoo_Props Verif.Rerun_Model Verif.Rerun_Props Verif.Cloud_Model Verif.Cloud_Props Verif.Perco_Model Verif.Perco_Spec Verif.Perco_Props Verif.Order_Spec Verif.Order_Model Verif.Order_Props
  Verif.Voro_Proofs Verif.Lboo_Spec Verif.Lboo_Model.
Import ListNotations.
Local Open Scope nat_scope.
Local Open Scope list_scope.
Local Notation length := List.length.

(** * Files of numbers *)
Lemma read_ids_words : forall ids fuel s, sane s -> words (buf s) = map print_nat ids -> Forall (fun i => (N.of_nat i < two64)%N) ids -> length (buf s) <= fuel -> read_ids_loop fuel s = ids.
Proof.
  induction ids as [|i ids IH]; intros fuel s Sa W F Hf; cbn [map] in W.
  - destruct fuel; [reflexivity|]. cbn [read_ids_loop]. destruct (read_num_none s Sa W) as [s' [-> _]]. reflexivity.
  - unfold print_nat at 1 in W. destruct (read_num_words s _ _ Sa W (Forall_inv F)) as [rest [E [W' L]]]. destruct fuel as [|fuel]; [lia|]. cbn [read_ids_loop]. rewrite E, Nnat.Nat2N.id. f_equal.
    apply IH; [apply sane_rest|exact W'|apply (Forall_inv_tail F)|cbn [buf]; lia].
Qed.
Lemma read_ids_ok l ids : words l = map print_nat ids -> Forall (fun i => (N.of_nat i < two64)%N) ids -> read_ids l = ids.
Proof. intros W F. apply (read_ids_words ids (length l) (open_text l) (sane_open l) W F). cbn. lia. Qed.
Lemma but_listed_ok n file ids : lists_numbers file ids -> StronglySorted lt ids -> StronglySorted lt (but_listed n file) /\ forall i, In i (but_listed n file) <-> i < n /\ ~ In i ids.
Proof.
  intros [l [-> [W F]]] So. unfold but_listed. rewrite (read_ids_ok l ids W F). destruct (set_diff_spec (seq 0 n) ids (seq_ssorted _ _) So) as [S1 I]. split; [exact S1|]. intros i. rewrite I, in_seq. split; intros [H1 H2]; (split; [lia|exact H2]).
Qed.
Lemma but_listed_none n : StronglySorted lt (but_listed n None) /\ forall i, In i (but_listed n None) <-> i < n.
Proof. unfold but_listed. destruct (set_diff_spec (seq 0 n) [] (seq_ssorted _ _) ltac:(constructor)) as [S1 I]. split; [exact S1|]. intros i. rewrite I, in_seq. cbn [In]. split; [intros [H _]; lia|intros H; split; [lia|auto]]. Qed.

(** * Names *)
Lemma last_dot (x x' w w' : text) : ~ In dot w -> ~ In dot w' -> x ++ [dot] ++ w = x' ++ [dot] ++ w' -> x = x' /\ w = w'.
Proof.
  intros H H' E. assert (X : x = x') by (rewrite <- (cut_ext_ok x w H), <- (cut_ext_ok x' w' H'), E; reflexivity). subst x'. split; [auto|]. apply app_inv_head in E. cbn in E. congruence.
Qed.
Lemma last_digits (a a' s s' : text) : numeral s -> numeral s' -> (exists b x, a = b ++ [x] /\ is_digit x = false) -> (exists b x, a' = b ++ [x] /\ is_digit x = false) -> a ++ s = a' ++ s' -> a = a' /\ s = s'.
Proof.
  intros N N' A A' E. assert (T : forall s, numeral s -> forallb is_digit s = true) by (intros z Nz; apply forallb_forall; exact Nz).
  assert (X := span_rev is_digit a s (T s N) (or_intror A)). rewrite E, (span_rev is_digit a' s' (T s' N') (or_intror A')) in X.
  assert (X1 : rev s' = rev s) by congruence. assert (X2 : rev a' = rev a) by congruence. split; [rewrite <- (rev_involutive a), <- X2|rewrite <- (rev_involutive s), <- X1]; rewrite rev_involutive; reflexivity.
Qed.
(** The names of the files of a time step. *)
Definition exts : list string := [".bonds"; ".qlm"; ".cloud"; ".outside"; ".outside2"]%string.
Section Names.
  Variables (head tok ds ext : text) (off : N) (n : nat).
  Definition series_ok : Prop := digit_free tok /\ splits tok (head ++ tok ++ ds ++ [dot] ++ ext) head (ds ++ [dot] ++ ext) /\ numeral ds /\ no_percent (head ++ tok ++ ds ++ [dot] ++ ext) /\ ~ In dot ext /\
    (forall e, In e exts -> absent tok (txt e)) /\ (N.of_nat n + off < 2 ^ 64)%N.
  Definition num (t : nat) : text := pad (length ds) (N.of_nat t + off).
  Definition file_of (mark : string) (e : string) (t : nat) : text := head ++ txt mark ++ tok ++ num t ++ txt e.
  Definition names (t : nat) : step_files := mkStep (file_of "" ".bonds" t) (file_of "" ".qlm" t) (file_of "" ".cloud" t) (file_of "_space" ".cloud" t) (file_of "" ".outside" t) (file_of "" ".outside2" t).
  Hypothesis Hok : series_ok.
  Lemma names_ok : exists dat nm, file_serie (head ++ tok ++ ds ++ [dot] ++ ext) tok n off = Val dat /\ link_names dat = Val nm /\ forall t, t < n -> nm t = names t.
  Proof.
    destruct Hok as [Hf [Hs [Hd [Hp [He [Ha Hn]]]]]]. set (name := head ++ tok ++ ds ++ [dot] ++ ext) in *.
    assert (Nd : forall s, no_digit_first (dot :: s)) by (intros s; exists dot, s; split; reflexivity).
    assert (Pc : forall s, existsb (Ascii.eqb percent) (txt s) = false -> no_percent (txt s)). { intros s H I. assert (E : existsb (Ascii.eqb percent) (txt s) = true); [|congruence]. apply existsb_exists. exists percent. split; [exact I|apply Ascii.eqb_refl]. }
    assert (Nt : no_digit_first ([dot] ++ ext)) by apply Nd.
    destruct (C54_names tok name head ds ([dot] ++ ext) n off Hs Hd Nt Hp) as [dat [Ed _]].
    assert (CE : forall x, no_digit_first (txt x) -> In x exts -> no_percent (txt x) -> exists fs, change_ext dat (txt x) = Val fs /\ forall t, t < n -> step_name fs (N.of_nat t) = file_of "" x t).
    { intros x X1 X2 X3. destruct (C54_change_ext tok name head ds ([dot] ++ ext) n off Hs Hd Nt Hp [] ext (txt x) Hf eq_refl He X1 (Ha x X2) X3) as [d' [fs [E1 [E2 E3]]]]. assert (d' = dat) by congruence. subst d'. exists fs. split; [auto|].
      intros t Ht. destruct (E3 (N.of_nat t)) as [s [W E4]]; [lia|]. rewrite E4. unfold file_of, num. rewrite (writes_fun _ _ _ _ W (pad_writes (length ds) (N.of_nat t + off))). reflexivity. }
    assert (PE : exists fs, add_postfix_ext dat (txt "_space") (txt ".cloud") = Val fs /\ forall t, t < n -> step_name fs (N.of_nat t) = file_of "_space" ".cloud" t).
    { destruct (C54_add_postfix_ext tok name head ds ([dot] ++ ext) n off Hs Hd Nt Hp (txt "_space") [] ext (txt ".cloud") Hf (Pc "_space"%string eq_refl) eq_refl He (Nd _) (Ha ".cloud"%string ltac:(cbn; auto)) (Pc ".cloud"%string eq_refl)) as [d' [fs [E1 [E2 E3]]]].
      assert (d' = dat) by congruence. subst d'. exists fs. split; [auto|]. intros t Ht. destruct (E3 (N.of_nat t)) as [s [W E4]]; [lia|]. rewrite E4. unfold file_of, num. rewrite (writes_fun _ _ _ _ W (pad_writes (length ds) (N.of_nat t + off))). reflexivity. }
    destruct (CE ".bonds"%string (Nd _) ltac:(cbn; auto) (Pc ".bonds"%string eq_refl)) as [b [Eb N1]]. destruct (CE ".qlm"%string (Nd _) ltac:(cbn; auto) (Pc ".qlm"%string eq_refl)) as [q [Eq N2]].
    destruct (CE ".cloud"%string (Nd _) ltac:(cbn; auto) (Pc ".cloud"%string eq_refl)) as [cl [Ecl N3]]. destruct PE as [cg [Eg N4]]. destruct (CE ".outside"%string (Nd _) ltac:(cbn; auto) (Pc ".outside"%string eq_refl)) as [o [Eo N5]].
    destruct (CE ".outside2"%string (Nd _) ltac:(cbn; auto 6) (Pc ".outside2"%string eq_refl)) as [o2 [Eo2 N6]].
    exists dat. eexists. split; [exact Ed|]. split; [unfold link_names; rewrite Eb; cbn [obind]; rewrite Eq; cbn [obind]; rewrite Ecl; cbn [obind]; rewrite Eg; cbn [obind]; rewrite Eo; cbn [obind]; rewrite Eo2; reflexivity|].
    intros t Ht. cbv beta zeta. rewrite N1, N2, N3, N4, N5, N6 by auto. reflexivity.
  Qed.
  Lemma tok_end mark : exists b x, (head ++ txt mark ++ tok) = b ++ [x] /\ is_digit x = false.
  Proof. destruct Hok as [[Ht Hf] _]. destruct (exists_last Ht) as [b [x E]]. exists (head ++ txt mark ++ b), x. split; [rewrite E, <- !app_assoc; reflexivity|]. apply Hf. rewrite E. apply in_or_app. right. left. auto. Qed.
  (** Two names are the same for the same mark, ending and time only. *)
  Lemma file_inj mark e t mark' e' t' : In e exts -> In e' exts -> file_of mark e t = file_of mark' e' t' -> length (txt mark) = length (txt mark') /\ e = e' /\ t = t'.
  Proof.
    intros He He' E. assert (Z0 : forall x, In x exts -> exists w, txt x = [dot] ++ txt w /\ ~ In dot (txt w) /\ x = String "."%char w).
    { intros x Hx. cbn in Hx. destruct Hx as [<-|[<-|[<-|[<-|[<-|[]]]]]]; eexists; (split; [reflexivity|]); (split; [cbn; intuition discriminate|reflexivity]). }
    destruct (Z0 e He) as [w [Ew [Nw Xw]]]. destruct (Z0 e' He') as [w' [Ew' [Nw' Xw']]]. unfold file_of in E. rewrite Ew, Ew' in E.
    assert (E2 : ((head ++ txt mark ++ tok) ++ num t) ++ [dot] ++ txt w = ((head ++ txt mark' ++ tok) ++ num t') ++ [dot] ++ txt w') by (rewrite <- !app_assoc; exact E).
    apply last_dot in E2 as [E2 E3]; auto. destruct (pad_writes (length ds) (N.of_nat t + off)) as [P1 [P2 _]]. destruct (pad_writes (length ds) (N.of_nat t' + off)) as [P1' [P2' _]].
    apply last_digits in E2 as [E2 E4]; auto; try apply tok_end. split; [|split].
    - apply (f_equal (@List.length ascii)) in E2. rewrite !app_length in E2. lia.
    - subst e e'. f_equal. clear - E3. revert w' E3. induction w as [|a w IH]; intros [|a' w'] E; try discriminate; [reflexivity|]. cbn in E. injection E as -> E. f_equal. apply IH. exact E.
    - unfold num in E4. rewrite E4 in P2. lia.
  Qed.
End Names.

(** * Time steps *)
Lemma fold_steps {T} (f : nat -> T -> disk -> outcome disk) (W Rd : nat -> list text) (Post : nat -> T -> disk -> Prop) (d0 : disk) (frames : list T) :
  (forall t s d, nth_error frames t = Some s -> (forall n, In n (Rd t) -> d n = d0 n) -> exists d', f t s d = Val d' /\ (forall n, ~ In n (W t) -> d' n = d n) /\ Post t s d') ->
  (forall t s d d', Post t s d -> (forall n, In n (W t) -> d' n = d n) -> Post t s d') ->
  (forall t t' n, t <> t' -> In n (W t) -> ~ In n (W t') /\ ~ In n (Rd t')) ->
  exists d', ofold (fun ts d => f (fst ts) (snd ts) d) (combine (seq 0 (length frames)) frames) d0 = Val d' /\ (forall t s, nth_error frames t = Some s -> Post t s d') /\
    (forall n, (forall t, t < length frames -> ~ In n (W t)) -> d' n = d0 n).
Proof.
  intros HS HP HD.
  assert (G : forall l k d, (forall i, nth_error l i = nth_error frames (k + i)) -> (forall t n, k <= t -> In n (Rd t) -> d n = d0 n) ->
    exists d', ofold (fun ts d => f (fst ts) (snd ts) d) (combine (seq k (length l)) l) d = Val d' /\ (forall t s, k <= t -> nth_error frames t = Some s -> Post t s d') /\
      (forall n, (forall t, k <= t -> t < k + length l -> ~ In n (W t)) -> d' n = d n)).
  { induction l as [|s l IH]; intros k d Hl Hd; cbn [length seq combine].
    - exists d. split; [reflexivity|]. split; [|auto]. intros t s Ht Es. specialize (Hl (t - k)). replace (k + (t - k)) with t in Hl by lia. rewrite Es in Hl. destruct (t - k); discriminate.
    - assert (Ek : nth_error frames k = Some s) by (specialize (Hl 0); rewrite Nat.add_0_r in Hl; auto).
      destruct (HS k s d Ek) as [d1 [E1 [F1 P1]]]; [intros n Hn; apply (Hd k); auto|].
      destruct (IH (S k) d1) as [d' [E' [Q F']]].
      + intros i. specialize (Hl (S i)). cbn [nth_error] in Hl. rewrite Hl. f_equal. lia.
      + intros t n Ht Hn. rewrite F1; [apply (Hd t); [lia|auto]|]. intros Hw. destruct (HD k t n ltac:(lia) Hw) as [_ X]. exact (X Hn).
      + exists d'. split; [rewrite ofold_cons; cbv beta; cbn [fst snd]; rewrite E1; exact E'|]. split.
        * intros t s' Ht Es. destruct (Nat.eq_dec t k) as [->|N]; [|apply Q; [lia|auto]]. assert (s' = s) by congruence. subst s'. apply (HP k s d1); [exact P1|]. intros n Hn. apply F'. intros t Ht' _ Hw. destruct (HD k t n ltac:(lia) Hn) as [X _]. exact (X Hw).
        * intros n Hn. rewrite F'; [apply F1; apply Hn; lia|]. intros t H1 H2. apply Hn; lia. }
  destruct (G frames 0 d0) as [d' [E [Q F]]]; auto. exists d'. split; [exact E|]. split; [intros t s; apply Q; lia|]. intros n Hn. apply F. intros t _ Ht. apply Hn. exact Ht.
Qed.

(** * A time step *)
Lemma link_computed_ok c bb one m l : config_ok c -> dims c = 3 -> Forall point3 l -> exists st ngb, make_index c (new_particles l bb one) = Some st /\ make_ngb_list st (3 * m) 40 = Val ngb /\ length ngb = length l /\ ngb_ok ngb /\
  (forall i j, linked ngb i j <-> close_by l (link_margin2 one m) i j).
Proof.
  intros Hok H3 Hq. destruct (C33_ngb_list c l bb one [PIndex] (3 * m) 40 Hok H3 Hq) as [st [ngb [E [N [Ln [So [K Y]]]]]]]; [constructor; [exact I|constructor]|reflexivity|].
  cbn [positions fold_left move] in *. cbn [prun] in E. cbn in E. destruct (make_index c (new_particles l bb one)) as [st'|] eqn:Ei; [|discriminate]. injection E as ->.
  assert (Er : pradius st = one). { unfold make_index in Ei. destruct (rstar_build c _); [|discriminate]. injection Ei as <-. reflexivity. } rewrite Er in *.
  exists st, ngb. split; [reflexivity|]. split; [exact N|]. split; [exact Ln|].
  assert (K' : forall i j, linked ngb i j <-> close_by l (link_margin2 one m) i j).
  { intros i j. rewrite K. unfold link_margin2. replace (2 * (3 * m) * one)%Z with (6 * m * one)%Z by ring. unfold close_by. split; [intros [p [q [A [B [C D]]]]]; split; [auto|]; exists p, q; auto|intros [C [p [q [A [B D]]]]]; exists p, q; auto]. }
  split; [|exact K']. intros i ids Hi. split; [eapply So; eauto|]. intros j Hj. assert (X : linked ngb i j) by (exists ids; auto). apply K' in X as [_ [p [q [_ [X _]]]]]. rewrite Ln. eapply nth_error_lt; eauto.
Qed.

Section C144.
  Variables (B V : Type) (zero : B) (add : B -> B -> B) (divn : B -> nat -> B) (harm : nat -> nat -> nat -> B).
  Variables (row : B -> text) (inv : nat -> B -> V * V) (show : V -> text).
  (** The harmonics of a bond do not depend on its direction (even degrees). *)
  Hypothesis Hh : forall t p q, harm t p q = harm t q p.
  Local Notation order_of := (link_order B zero add divn harm).
  Local Notation orders t := (two_orders B zero add divn (harm t)).

  Lemma link_order_ok t n ngb inside second (R : nat -> nat -> Prop) : length ngb = n -> ngb_ok ngb -> (forall i j, linked ngb i j <-> R i j) -> (forall i j, R i j -> R j i) -> (forall i, ~ R i i) ->
    StronglySorted lt inside -> (forall i, In i inside -> i < n) -> StronglySorted lt second -> (forall i, In i second -> i < n) ->
    exists q cg, order_of t n ngb inside second = Val (q, cg) /\ orders t R n (fun i => In i inside) (fun i => In i second) q cg.
  Proof.
    intros Ln Hok HR HS HI S1 B1 S2 B2.
    assert (Sy : symmetric ngb) by (intros i j H; apply HR, HS, HR; auto). assert (Ir : irreflexive ngb) by (intros i H; apply HR in H; apply (HI i H)).
    destruct (C77_both B zero add divn (harm t) n ngb Ln Hok Sy Ir (Hh t)) as [q0 [sf0 [E0 [Es [L0 K0]]]]].
    destruct (C77_surface B zero add divn (harm t) n ngb Ln Hok Ir) as [sf1 [Es1 [Ls _]]]. rewrite Es in Es1. injection Es1 as <-.
    destruct (C77_outside B zero n ngb Ln inside q0 L0 S1) as [q [Eq [Lq Kq]]]; [apply Forall_forall; auto|]. destruct (C77_outside B zero n ngb Ln inside sf0 Ls S1) as [sf [Ef _]]; [apply Forall_forall; auto|].
    destruct (C77_coarse B zero add divn n ngb Ln Hok second q [] Lq) as [cg [Ec [Lc Kc]]]; [apply Forall_forall; auto|].
    exists q, cg. split; [unfold link_order; rewrite E0; cbn [obind fst snd]; rewrite Eq; cbn [obind]; rewrite Ef; cbn [obind]; rewrite Ec; reflexivity|].
    split; [auto|]. split; [auto|]. intros i Hi. destruct (nth_error_ex ngb i ltac:(lia)) as [nb Eb].
    assert (Nb : neighbours R i nb). { split; [apply (Hok i nb Eb)|]. intros j. rewrite <- HR. split; [intros H; exists nb; auto|intros [l [El H]]; congruence]. }
    destruct (Kq i Hi) as [Kq1 Kq2]. specialize (Kc i nb Eb).
    split. { intros H. specialize (Kq1 H). exists nb. split; [auto|]. destruct (K0 i Hi) as [b [Eb' G]]. rewrite (C77_one B zero add divn (harm t) n ngb Ln Hok i nb Eb) in G. injection G as G. rewrite Eb' in Kq1. rewrite (nth_error_nth _ _ zero Kq1). auto. }
    split. { intros H. apply (nth_error_nth _ _ zero (Kq2 H)). }
    split. { intros H. exists nb. split; [auto|]. apply existsb_in in H. rewrite H in Kc. apply (nth_error_nth _ _ zero Kc). }
    intros H. assert (X : existsb (Nat.eqb i) second = false) by (destruct (existsb (Nat.eqb i) second) eqn:X; [apply existsb_in in X; contradiction|auto]). rewrite X in Kc. rewrite (nth_error_nth _ _ zero Kc). destruct i; reflexivity.
  Qed.
  Lemma two_ext t (R R' : nat -> nat -> Prop) n k1 k2 k1' k2' q cg : (forall i j, R i j <-> R' i j) -> (forall i, i < n -> (k1 i <-> k1' i)) -> (forall i, i < n -> (k2 i <-> k2' i)) ->
    orders t R n k1 k2 q cg -> orders t R' n k1' k2' q cg.
  Proof.
    intros HR H1 H2 [L1 [L2 K]]. split; [auto|]. split; [auto|]. intros i Hi. destruct (K i Hi) as [A1 [A2 [A3 A4]]]. specialize (H1 i Hi). specialize (H2 i Hi).
    assert (N : forall nb, neighbours R i nb -> neighbours R' i nb) by (intros nb [So I]; split; [auto|]; intros j; rewrite I; apply HR).
    split; [intros H; destruct (A1 (proj2 H1 H)) as [nb [N1 N2]]; exists nb; auto|]. split; [intros H; apply A2; tauto|].
    split; [intros H; destruct (A3 (proj2 H2 H)) as [nb [N1 N2]]; exists nb; auto|]. intros H; apply A4; tauto.
  Qed.

  (** The series of files, and the time steps. *)
  Variables (c : config) (m one : Z) (head tok ds ext : text) (off : N) (frames : list particles).
  Hypotheses (Hok : config_ok c) (H3 : dims c = 3) (Hser : series_ok head tok ds ext off (length frames)).
  Local Notation name := (head ++ tok ++ ds ++ [dot] ++ ext).
  Local Notation run := (linkboo B V zero add divn harm row inv show c m name tok off frames).
  Local Notation nm := (names head tok ds off).
  Local Notation span := (length frames).
  (** What the files written at a time step hold. *)
  Definition three_files (t : nat) (q cg : list B) (d : disk) : Prop :=
    d (f_qlm (nm t)) = Some (qlm_file B row q) /\ d (f_cloud (nm t)) = Some (space_file B V inv show q) /\ d (f_space (nm t)) = Some (space_file B V inv show cg).
  Definition written3 (t : nat) : list text := [f_qlm (nm t); f_cloud (nm t); f_space (nm t)].
  Definition written4 (t : nat) : list text := f_bonds (nm t) :: written3 t.
  Definition read3 (t : nat) : list text := [f_bonds (nm t); f_out (nm t); f_out2 (nm t)].

  Lemma all_apart t t' n : t <> t' -> In n (written4 t ++ read3 t) -> ~ In n (written4 t' ++ read3 t').
  Proof.
    assert (X : forall t n, In n (written4 t ++ read3 t) -> exists mark e, In e exts /\ n = file_of head tok ds off mark e t).
    { clear. intros t n H. unfold written4, written3, read3 in H. cbn [app In names f_bonds f_qlm f_cloud f_space f_out f_out2] in H. unfold exts.
      destruct H as [<-|[<-|[<-|[<-|[<-|[<-|[<-|[]]]]]]]]; [exists ""%string, ".bonds"%string|exists ""%string, ".qlm"%string|exists ""%string, ".cloud"%string|exists "_space"%string, ".cloud"%string|exists ""%string, ".bonds"%string|exists ""%string, ".outside"%string|exists ""%string, ".outside2"%string]; (split; [cbn; tauto|reflexivity]). }
    intros N H H'. destruct (X _ _ H) as [mark [e [He E]]]. destruct (X _ _ H') as [mark' [e' [He' E']]]. rewrite E in E'. apply (file_inj head tok ds ext off span Hser) in E' as [_ [_ E']]; auto.
  Qed.
  Lemma four_diff t : NoDup (written4 t).
  Proof.
    assert (G : forall mark e mark' e', In e exts -> In e' exts -> (length (txt mark) <> length (txt mark') \/ e <> e') -> file_of head tok ds off mark e t <> file_of head tok ds off mark' e' t).
    { intros mark e mark' e' He He' D E. apply (file_inj head tok ds ext off span Hser) in E as [E1 [E2 _]]; auto. destruct D; auto. }
    unfold written4, written3. cbn [names f_bonds f_qlm f_cloud f_space]. repeat (apply NoDup_cons; [cbn [In]; intros H; repeat (destruct H as [H|H]; [revert H; apply G; [cbn; tauto|cbn; tauto|first [right; discriminate|left; discriminate]]|]); exact H|]). apply NoDup_nil.
  Qed.
  Lemma out_apart t t' : ~ In (f_out (nm t)) (written4 t') /\ ~ In (f_out2 (nm t)) (written4 t') /\ ~ In (f_bonds (nm t)) (written3 t').
  Proof.
    assert (G : forall mark e mark' e', In e exts -> In e' exts -> (length (txt mark) <> length (txt mark') \/ e <> e') -> file_of head tok ds off mark e t <> file_of head tok ds off mark' e' t').
    { intros mark e mark' e' He He' D E. apply (file_inj head tok ds ext off span Hser) in E as [E1 [E2 _]]; auto. destruct D; auto. }
    unfold written4, written3. cbn [names f_bonds f_qlm f_cloud f_space f_out f_out2 In].
    split; [|split]; intros H; repeat (destruct H as [H|H]; [symmetry in H; revert H; apply G; [cbn; tauto|cbn; tauto|right; discriminate]|]); exact H.
  Qed.
  Lemma link_write_ok t q cg d : three_files t q cg (link_write B V row inv show (nm t) (q, cg) d) /\ forall n, ~ In n (written3 t) -> link_write B V row inv show (nm t) (q, cg) d n = d n.
  Proof.
    assert (D := four_diff t). apply NoDup_cons_iff in D as [_ D]. unfold written3 in *. repeat rewrite NoDup_cons_iff in D. cbn [In] in D. destruct D as [D1 [D2 _]].
    unfold link_write, three_files. cbn [fst snd]. split; [split; [|split]|].
    - rewrite put_other by (intros E; apply D1; auto). rewrite put_other by (intros E; apply D1; auto). apply put_same.
    - rewrite put_other; [apply put_same|intros E; apply D2; auto].
    - apply put_same.
    - intros n Hn. cbn [In] in Hn. rewrite !put_other; [reflexivity|intros E; apply Hn; auto|intros E; apply Hn; auto|intros E; apply Hn; auto].
  Qed.
  Lemma three_keep t q cg d d' : three_files t q cg d -> (forall n, In n (written3 t) -> d' n = d n) -> three_files t q cg d'.
  Proof. intros [A [A2 A3]] H. unfold three_files, written3 in *. cbn [In] in H. rewrite !H by auto. auto. Qed.
  (** The program, once the names are known. *)
  Lemma run_ok d : (exists init lst, frames = init ++ [lst] /\ pts lst <> []) ->
    run d = ofold (fun ts d' => link_step B V zero add divn harm row inv show c m (voro_mode nm span d) nm (fst ts) (snd ts) d') (combine (seq 0 span) frames) d.
  Proof.
    intros [init [lst [E Hl]]]. destruct (names_ok head tok ds ext off span Hser) as [dat [nm' [E1 [E2 E3]]]]. unfold linkboo. rewrite E1. cbn [obind]. rewrite E2. cbn [obind].
    assert (Hn : 0 < span) by (rewrite E, app_length; cbn; lia).
    replace (rev frames) with (lst :: rev init) by (rewrite E, rev_app_distr; reflexivity). destruct (pts lst) as [|p ps]; [congruence|].
    assert (Ev : voro_mode nm' span d = voro_mode nm span d) by (unfold voro_mode; rewrite !E3 by lia; reflexivity). rewrite Ev. cbv zeta.
    assert (G : forall l k d0, k + length l <= span -> ofold (fun ts d' => link_step B V zero add divn harm row inv show c m (voro_mode nm span d) nm' (fst ts) (snd ts) d') (combine (seq k (length l)) l) d0 =
      ofold (fun ts d' => link_step B V zero add divn harm row inv show c m (voro_mode nm span d) nm (fst ts) (snd ts) d') (combine (seq k (length l)) l) d0).
    { induction l as [|s l IH]; intros k d0 Hk; cbn [length seq combine]; [reflexivity|]. cbn [length] in Hk. rewrite !ofold_cons. cbv beta. cbn [fst snd].
      assert (Es : link_step B V zero add divn harm row inv show c m (voro_mode nm span d) nm' k s d0 = link_step B V zero add divn harm row inv show c m (voro_mode nm span d) nm k s d0) by (unfold link_step; rewrite E3 by lia; reflexivity).
      rewrite Es. destruct (link_step B V zero add divn harm row inv show c m (voro_mode nm span d) nm k s d0) as [d1| |]; cbn [obind]; [apply IH; lia|reflexivity|reflexivity]. }
    apply G. lia.
  Qed.
  Definition mode (d : disk) : Prop := forall t, t = 0 \/ t = span - 1 -> d (f_out (nm t)) <> None /\ d (f_out2 (nm t)) <> None /\ d (f_bonds (nm t)) <> None.
  Lemma mode_ok d : voro_mode nm span d = true <-> mode d.
  Proof.
    assert (T : forall n, there d n = true <-> d n <> None) by (intros n; unfold there; destruct (d n); split; congruence). unfold voro_mode, mode. rewrite !andb_true_iff, !T. split.
    - intros [[[[[A1 A2] A3] A4] A5] A6] t [->| ->]; auto.
    - intros H. destruct (H 0 (or_introl eq_refl)) as [A [A0 A1]]. destruct (H (span - 1) (or_intror eq_refl)) as [A2 [A3 A4]]. tauto.
  Qed.

  (** ** The files of cgVoro are not all there *)
  (** Positions read with radius 1.0 ([one]); as for boo, they are positive doubles that spread along each axis by more than twice both margins, none being exactly at a margin. *)
  Definition fit_frame (st : particles) : Prop := exists l bb, st = new_particles l bb one /\ l <> [] /\ Forall point3 l /\ (forall p k, In p l -> k < 3 -> (dbl_min <= coord k p <= dbl_max)%Z) /\
    wide_and_clear l (half_length one m) /\ wide_and_clear l (bond_length one m).
  Definition computed (t : nat) (st : particles) (d : disk) : Prop :=
    let l := pts st in let R := close_by l (bond_length one m) in
    exists bs q cg, bonds_of R bs /\ d (f_bonds (nm t)) = Some (save_bonds bs) /\ orders t R (length l) (deep_at l (half_length one m)) (deep_at l (bond_length one m)) q cg /\ three_files t q cg d.
  Lemma half_ok : link_margin1 one m = half_length one m.
  Proof. unfold link_margin1, half_length. replace (15 * m * one)%Z with (3 * m * one * 5)%Z by ring. change 200%Z with (40 * 5)%Z. rewrite Z.div_mul_cancel_r by lia. reflexivity. Qed.
  Lemma length_ok : link_margin2 one m = bond_length one m.
  Proof. unfold link_margin2, bond_length. replace (15 * m * (2 * one))%Z with (6 * m * one * 5)%Z by ring. change 200%Z with (40 * 5)%Z. rewrite Z.div_mul_cancel_r by lia. reflexivity. Qed.
  Lemma picks_deep l mg ids : picks l (fun _ p => deep l mg p) ids -> (forall i, In i ids -> i < length l) /\ forall i, i < length l -> (In i ids <-> deep_at l mg i).
  Proof. intros [_ P]. split; [intros i H; apply P in H as [p [E _]]; eapply nth_error_lt; eauto|]. intros i _. rewrite P. reflexivity. Qed.
  (** The values of a time step, whatever the disk. *)
  Lemma computed_step t st : fit_frame st -> exists bs q cg, (forall d, link_step B V zero add divn harm row inv show c m false nm t st d = Val (link_write B V row inv show (nm t) (q, cg) (put_file d (f_bonds (nm t)) (save_bonds bs)))) /\
    bonds_of (close_by (pts st) (bond_length one m)) bs /\ orders t (close_by (pts st) (bond_length one m)) (length (pts st)) (deep_at (pts st) (half_length one m)) (deep_at (pts st) (bond_length one m)) q cg.
  Proof.
    intros [l [bb [-> [Hne [Hp [Hr [Hw1 Hw2]]]]]]]. cbn [new_particles pts]. set (st := new_particles l bb one).
    destruct (first_ok c st (half_length one m) Hok H3 Hne Hp Hr Hw1) as [i1 [A1 P1]]. destruct (first_ok c st (bond_length one m) Hok H3 Hne Hp Hr Hw2) as [i2 [A2 P2]].
    cbn [pts st new_particles] in P1, P2. destruct (picks_deep _ _ _ P1) as [B1 K1]. destruct (picks_deep _ _ _ P2) as [B2 K2].
    destruct (link_computed_ok c bb one m l Hok H3 Hp) as [st' [ngb [Ei [En [Ln [Hn HR]]]]]]. rewrite length_ok in HR.
    assert (HS : forall i j, close_by l (bond_length one m) i j -> close_by l (bond_length one m) j i) by (intros; apply close_sym; auto). assert (HI : forall i, ~ close_by l (bond_length one m) i i) by (intros i [H _]; auto).
    destruct (bonds_of_ngb ngb _ Hn HR HS HI) as [Hb _]. destruct (link_order_ok t (length l) ngb i1 i2 _ Ln Hn HR HS HI (proj1 P1) B1 (proj1 P2) B2) as [q [cg [E O]]].
    exists (ngb2bonds ngb), q, cg. split; [|split; [exact Hb|]].
    - intros d. unfold link_step, link_bonds. fold st in Ei. change (pradius st) with one. rewrite half_ok, length_ok, Ei, A1, A2, En. cbn [omap obind]. change (length (pts st)) with (length l). rewrite E. reflexivity.
    - apply (two_ext t _ _ _ _ _ _ _ _ _ (fun i j => iff_refl _) K1 K2 O).
  Qed.
  Lemma last_frame : frames <> [] -> Forall fit_frame frames -> exists init lst, frames = init ++ [lst] /\ pts lst <> [].
  Proof. intros Hne F. destruct (exists_last Hne) as [init [lst E]]. exists init, lst. split; [auto|]. rewrite E in F. apply Forall_app in F as [_ F]. apply Forall_inv in F as [l [bb [-> [H _]]]]. exact H. Qed.
  Lemma written_apart t t' n : t <> t' -> In n (written4 t) -> ~ In n (written4 t') /\ ~ In n (read3 t').
  Proof. intros N H. assert (X := all_apart t t' n N ltac:(apply in_or_app; auto)). split; intros Y; apply X; apply in_or_app; auto. Qed.
  (** C144.  Bonds are the pairs closer than the bond length; the order is kept at half the bond length from the faces, the mean at the bond length, and is null elsewhere. *)
  Theorem C144_computed d : frames <> [] -> Forall fit_frame frames -> ~ mode d -> exists d', run d = Val d' /\ (forall t st, nth_error frames t = Some st -> computed t st d') /\
    forall n, (forall t, t < span -> ~ In n (written4 t)) -> d' n = d n.
  Proof.
    intros Hne F Hmode. rewrite (run_ok d (last_frame Hne F)). replace (voro_mode nm span d) with false by (destruct (voro_mode nm span d) eqn:X; [apply mode_ok in X; contradiction|auto]).
    apply (fold_steps (link_step B V zero add divn harm row inv show c m false nm) written4 read3 computed d frames).
    - intros t st d0 Est _. rewrite Forall_forall in F. destruct (computed_step t st (F st (nth_error_In _ _ Est))) as [bs [q [cg [E [Hb O]]]]]. eexists. split; [apply E|].
      destruct (link_write_ok t q cg (put_file d0 (f_bonds (nm t)) (save_bonds bs))) as [W1 W2]. destruct (out_apart t t) as [_ [_ O3]]. split.
      + intros n Hn. unfold written4 in Hn. cbn [In] in Hn. rewrite W2 by (intros X; apply Hn; right; exact X). apply put_other. intros X. apply Hn. left. auto.
      + exists bs, q, cg. split; [exact Hb|]. split; [rewrite W2 by exact O3; apply put_same|]. split; [exact O|exact W1].
    - intros t st d0 d1 [bs [q [cg [Hb [Eb [O W]]]]]] H. exists bs, q, cg. split; [exact Hb|]. split; [rewrite H by (left; reflexivity); exact Eb|]. split; [exact O|]. apply (three_keep t q cg d0); [exact W|]. intros n Hn. apply H. right. exact Hn.
    - intros t t' n N H. exact (written_apart t t' n N H).
  Qed.
  (** Run again without any file of outside particles, the program writes the same files. *)
  Theorem C144_again d d' : frames <> [] -> Forall fit_frame frames -> (exists t, (t = 0 \/ t = span - 1) /\ (d (f_out (nm t)) = None \/ d (f_out2 (nm t)) = None)) -> run d = Val d' ->
    exists d'', run d' = Val d'' /\ forall n, d'' n = d' n.
  Proof.
    intros Hne F [t0 [Ht0 Hout]] Hrun.
    assert (Hmode : forall d1, (forall n, (forall t, t < span -> ~ In n (written4 t)) -> d1 n = d n) -> voro_mode nm span d1 = false).
    { intros d1 H1. destruct (voro_mode nm span d1) eqn:X; [|auto]. apply mode_ok in X. destruct (X t0 Ht0) as [X1 [X2 _]]. rewrite (H1 (f_out (nm t0)) (fun t _ => proj1 (out_apart t0 t))) in X1. rewrite (H1 (f_out2 (nm t0)) (fun t _ => proj1 (proj2 (out_apart t0 t)))) in X2.
      destruct Hout; congruence. }
    rewrite (run_ok d (last_frame Hne F)), (Hmode d ltac:(auto)) in Hrun.
    set (Post := fun (t : nat) (st : particles) (d1 : disk) => exists bs q cg, (forall d, link_step B V zero add divn harm row inv show c m false nm t st d = Val (link_write B V row inv show (nm t) (q, cg) (put_file d (f_bonds (nm t)) (save_bonds bs)))) /\
      d1 (f_bonds (nm t)) = Some (save_bonds bs) /\ three_files t q cg d1).
    assert (G : forall d0, exists d1, ofold (fun ts d' => link_step B V zero add divn harm row inv show c m false nm (fst ts) (snd ts) d') (combine (seq 0 span) frames) d0 = Val d1 /\ (forall t st, nth_error frames t = Some st -> Post t st d1) /\
      forall n, (forall t, t < span -> ~ In n (written4 t)) -> d1 n = d0 n).
    { intros d0. apply (fold_steps (link_step B V zero add divn harm row inv show c m false nm) written4 read3 Post d0 frames).
      - intros t st d1 Est _. rewrite Forall_forall in F. destruct (computed_step t st (F st (nth_error_In _ _ Est))) as [bs [q [cg [E _]]]]. eexists. split; [apply E|].
        destruct (link_write_ok t q cg (put_file d1 (f_bonds (nm t)) (save_bonds bs))) as [W1 W2]. destruct (out_apart t t) as [_ [_ O3]]. split.
        + intros n Hn. unfold written4 in Hn. cbn [In] in Hn. rewrite W2 by (intros X; apply Hn; right; exact X). apply put_other. intros X. apply Hn. left. auto.
        + exists bs, q, cg. split; [exact E|]. split; [rewrite W2 by exact O3; apply put_same|exact W1].
      - intros t st d1 d2 [bs [q [cg [E [Eb W]]]]] H. exists bs, q, cg. split; [exact E|]. split; [rewrite H by (left; reflexivity); exact Eb|]. apply (three_keep t q cg d1); [exact W|]. intros n Hn. apply H. right. exact Hn.
      - intros t t' n N H. exact (written_apart t t' n N H). }
    destruct (G d) as [d1 [E1 [P1 F1]]]. assert (d1 = d') by congruence. subst d1. destruct (G d') as [d2 [E2 [P2 F2]]]. exists d2.
    rewrite (run_ok d' (last_frame Hne F)), (Hmode d' F1). split; [exact E2|]. intros n.
    destruct (in_dec (list_eq_dec ascii_dec) n (flat_map written4 (seq 0 span))) as [I0|I0].
    - apply in_flat_map in I0 as [t [It In4]]. apply in_seq in It. destruct (nth_error_ex frames t ltac:(lia)) as [st Est]. destruct (P1 t st Est) as [bs [q [cg [A1 [A2 [A3 [A4 A5]]]]]]]. destruct (P2 t st Est) as [bs' [q' [cg' [B1 [B2 [B3 [B4 B5]]]]]]].
      assert (X := A1 (fun _ => None)). rewrite B1 in X. assert (Y : forall n, link_write B V row inv show (nm t) (q', cg') (put_file (fun _ => None) (f_bonds (nm t)) (save_bonds bs')) n = link_write B V row inv show (nm t) (q, cg) (put_file (fun _ => None) (f_bonds (nm t)) (save_bonds bs)) n).
      { intros k. apply (f_equal (fun o : outcome disk => match o with Val f => f k | _ => None end)) in X. exact X. }
      destruct (link_write_ok t q cg (put_file (fun _ => None) (f_bonds (nm t)) (save_bonds bs))) as [[C1 [C2 C3]] C4]. destruct (link_write_ok t q' cg' (put_file (fun _ => None) (f_bonds (nm t)) (save_bonds bs'))) as [[D1 [D2 D3]] D4].
      destruct (out_apart t t) as [_ [_ O3]]. specialize (C4 _ O3). specialize (D4 _ O3). rewrite put_same in C4, D4. rewrite Y in D1, D2, D3, D4.
      unfold written4, written3 in In4. cbn [In] in In4. destruct In4 as [<-|[<-|[<-|[<-|[]]]]]; congruence.
    - apply F2. intros t Ht Hw. apply I0. apply in_flat_map. exists t. split; [apply in_seq; lia|exact Hw].
  Qed.

  (** ** The files of cgVoro are there *)
  (** The numbers of a file, none if the file is missing. *)
  Definition listed (file : option text) (ids : list nat) : Prop := lists_numbers file ids \/ (file = None /\ ids = []).
  Definition voro_step (d : disk) (t : nat) (st : particles) (bs : list (nat * nat)) (out out2 : list nat) : Prop :=
    lists_bonds (d (f_bonds (nm t))) (length (pts st)) bs /\ Forall (fun b => fst b <> snd b) bs /\ listed (d (f_out (nm t))) out /\ StronglySorted lt out /\ listed (d (f_out2 (nm t))) out2 /\ StronglySorted lt out2.
  Lemma listed_ok n file ids : listed file ids -> StronglySorted lt ids -> StronglySorted lt (but_listed n file) /\ forall i, In i (but_listed n file) <-> i < n /\ ~ In i ids.
  Proof. intros [H|[-> ->]] So; [apply but_listed_ok; auto|]. destruct (but_listed_none n) as [A1 A2]. split; [auto|]. intros i. rewrite A2. cbn [In]. tauto. Qed.
  Lemma loaded_step d t st bs out out2 : voro_step d t st bs out out2 -> exists q cg, (forall d0, (forall n, In n (read3 t) -> d0 n = d n) -> link_step B V zero add divn harm row inv show c m true nm t st d0 = Val (link_write B V row inv show (nm t) (q, cg) d0)) /\
    orders t (fun i j => In (i, j) bs \/ In (j, i) bs) (length (pts st)) (fun i => ~ In i out) (fun i => ~ In i out2) q cg.
  Proof.
    intros [[tx [Et [W [F Hn64]]]] [Hd [L1 [So1 [L2 So2]]]]]. rewrite Forall_forall in F, Hd. set (n := length (pts st)) in *.
    destruct (C79_bonds_load tx bs W) as [b [Eb [Hb Ib]]]; [apply Forall_forall; intros x Hx; specialize (F x Hx); lia|].
    assert (Hin : forall x y, In (x, y) b -> x < y /\ y < n).
    { intros x y Hxy. assert (Lxy : x <= y) by (destruct Hb as [_ Hb]; rewrite Forall_forall in Hb; apply (Hb _ Hxy)). apply Ib in Hxy; [|auto]. destruct Hxy as [G|G]; pose proof (F _ G); pose proof (Hd _ G); cbn [fst snd] in *; lia. }
    destruct (C34_round_trip n b Hb) as [ngb [En [Ln [HL [_ [_ Hok']]]]]]; [apply Forall_forall; intros [x y] Hxy; apply Hin in Hxy; cbn; lia|].
    specialize (Hok' ltac:(apply Forall_forall; intros [x y] Hxy; apply Hin in Hxy; cbn; lia)).
    assert (HR : forall i j, linked ngb i j <-> In (i, j) bs \/ In (j, i) bs).
    { intros i j. rewrite HL. split.
      - intros [H|H]; assert (X := Hin _ _ H); apply Ib in H; try lia; tauto.
      - intros H. destruct (Nat.le_ge_cases i j) as [Hij|Hij]; [left|right]; apply Ib; auto; tauto. }
    assert (HI : forall i, ~ (In (i, i) bs \/ In (i, i) bs)) by (intros i [H|H]; apply (Hd _ H); reflexivity).
    destruct (listed_ok n _ _ L1 So1) as [S1 K1]. destruct (listed_ok n _ _ L2 So2) as [S2 K2].
    destruct (link_order_ok t n ngb _ _ (fun i j => In (i, j) bs \/ In (j, i) bs) Ln Hok' HR ltac:(tauto) HI S1 (fun i H => proj1 (proj1 (K1 i) H)) S2 (fun i H => proj1 (proj1 (K2 i) H))) as [q [cg [E O]]].
    exists q, cg. split.
    - intros d0 Hd0. unfold link_step, link_load. unfold read3 in Hd0. cbn [In] in Hd0. rewrite !Hd0 by auto. rewrite Et. cbv zeta. fold n. unfold from_file. rewrite Eb, En. cbn [obind]. rewrite E. reflexivity.
    - apply (two_ext t _ _ _ _ _ _ _ _ _ (fun i j => iff_refl _)) with (3 := O); intros i Hi; [rewrite K1|rewrite K2]; tauto.
  Qed.
  Theorem C144_loaded d (bs : nat -> list (nat * nat)) (out out2 : nat -> list nat) : (exists init lst, frames = init ++ [lst] /\ pts lst <> []) -> mode d ->
    (forall t st, nth_error frames t = Some st -> voro_step d t st (bs t) (out t) (out2 t)) ->
    exists d', run d = Val d' /\ (forall t st, nth_error frames t = Some st -> exists q cg,
        orders t (fun i j => In (i, j) (bs t) \/ In (j, i) (bs t)) (length (pts st)) (fun i => ~ In i (out t)) (fun i => ~ In i (out2 t)) q cg /\ three_files t q cg d') /\
      forall n, (forall t, t < span -> ~ In n (written3 t)) -> d' n = d n.
  Proof.
    intros Hl Hmode Hst. rewrite (run_ok d Hl). apply mode_ok in Hmode. rewrite Hmode.
    apply (fold_steps (link_step B V zero add divn harm row inv show c m true nm) written3 read3 (fun t st d' => exists q cg,
        orders t (fun i j => In (i, j) (bs t) \/ In (j, i) (bs t)) (length (pts st)) (fun i => ~ In i (out t)) (fun i => ~ In i (out2 t)) q cg /\ three_files t q cg d') d frames).
    - intros t st d0 Est Hd0. destruct (loaded_step d t st _ _ _ (Hst t st Est)) as [q [cg [E O]]]. eexists. split; [apply E; exact Hd0|]. destruct (link_write_ok t q cg d0) as [W1 W2]. split; [exact W2|]. exists q, cg. auto.
    - intros t st d0 d1 [q [cg [O W]]] H. exists q, cg. split; [exact O|]. apply (three_keep t q cg d0); auto.
    - intros t t' n N H. destruct (written_apart t t' n N) as [X Y]; [right; exact H|]. split; [intros Z0; apply X; right; exact Z0|exact Y].
  Qed.
  (** In that case all bond files are needed, not only the two that are looked at. *)
  Theorem C144_bonds_refuted d t : mode d -> t < span -> d (f_bonds (nm t)) = None -> forall d', run d <> Val d'.
  Proof.
    intros Hmode Ht Hb d' Hrun. apply mode_ok in Hmode.
    assert (Hl : exists init lst, frames = init ++ [lst] /\ pts lst <> []).
    { destruct (exists_last (l := frames)) as [init [lst E]]; [intros ->; cbn in Ht; lia|]. exists init, lst. split; [auto|]. intros E0. revert Hrun. destruct (names_ok head tok ds ext off span Hser) as [dat [nm' [E1 [E2 E3]]]]. unfold linkboo. rewrite E1. cbn [obind]. rewrite E2. cbn [obind].
      replace (rev frames) with (lst :: rev init) by (rewrite E, rev_app_distr; reflexivity). rewrite E0. discriminate. }
    rewrite (run_ok d Hl), Hmode in Hrun.
    assert (G : forall l k d0 d1, ofold (fun ts d' => link_step B V zero add divn harm row inv show c m true nm (fst ts) (snd ts) d') (combine (seq k (length l)) l) d0 = Val d1 -> d0 (f_bonds (nm t)) = None -> ~ (k <= t < k + length l)).
    { induction l as [|s l IH]; intros k d0 d1 E H0 Hk; cbn [length] in *; [lia|]. cbn [seq combine] in E. rewrite ofold_cons in E. cbv beta in E. cbn [fst snd] in E.
      destruct (link_step B V zero add divn harm row inv show c m true nm k s d0) as [d2| |] eqn:Es; cbn [obind] in E; try discriminate. unfold link_step, link_load in Es.
      destruct (Nat.eq_dec k t) as [->|N]; [rewrite H0 in Es; discriminate|]. apply (IH (S k) d2 d1 E); [|lia].
      destruct (d0 (f_bonds (nm k))) as [tx|]; [|discriminate]. unfold from_file in Es. destruct (load_bonds tx) as [b|]; [|discriminate]. destruct (ngb_of_bonds _ b) as [ngb|]; [|discriminate]. cbn [obind] in Es.
      destruct (link_order B zero add divn harm k _ ngb _ _) as [r| |]; cbn [omap obind] in Es; try discriminate. assert (d2 = link_write B V row inv show (nm k) r d0) by congruence. subst d2. destruct r as [q cg]. rewrite (proj2 (link_write_ok k q cg d0)); [exact H0|]. exact (proj2 (proj2 (out_apart t k))). }
    apply (G frames 0 d d' Hrun Hb). lia.
  Qed.
End C144.

(** * When the program gives up *)
Theorem C144_refused (B V : Type) (zero : B) add divn harm row (inv : nat -> B -> V * V) show c m head tok ds ext off (frames : list particles) d : series_ok head tok ds ext off (length frames) ->
  (frames = [] -> linkboo B V zero add divn harm row inv show c m (head ++ tok ++ ds ++ [dot] ++ ext) tok off frames d = UB) /\
  (forall init lst, frames = init ++ [lst] -> pts lst = [] -> linkboo B V zero add divn harm row inv show c m (head ++ tok ++ ds ++ [dot] ++ ext) tok off frames d = Throw).
Proof.
  intros Hser. destruct (names_ok head tok ds ext off (length frames) Hser) as [dat [nm' [E1 [E2 _]]]]. split; [intros E|intros init lst E E0]; unfold linkboo; rewrite E1; cbn [obind]; rewrite E2; cbn [obind].
  - rewrite E. reflexivity.
  - replace (rev frames) with (lst :: rev init) by (rewrite E, rev_app_distr; reflexivity). rewrite E0. reflexivity.
Qed.

(** * What is out of the picture *)
(** A particle at the second margin from the faces has all its neighbours in the picture, whatever the particles out of it. *)
Theorem C144_window l extra mg i : Forall point3 l -> Forall point3 extra -> (forall q, In q extra -> beyond l q) -> deep_at l mg i -> forall j, close_by (l ++ extra) mg i j <-> close_by l mg i j.
Proof.
  intros Hl He Hb [p [Ep Dp]] j. rewrite Forall_forall in Hl, He.
  assert (L : forall k x, nth_error l k = Some x -> nth_error (l ++ extra) k = Some x) by (intros k x H; rewrite nth_error_app1; [exact H|eapply nth_error_lt; eauto]).
  split; intros [N [x [y [Ex [Ey C]]]]]; (split; [exact N|]); [|exists x, y; auto].
  rewrite (L i p Ep) in Ex. assert (x = p) by congruence. subst x. exists p, y. split; [exact Ep|]. split; [|exact C].
  destruct (Nat.lt_ge_cases j (length l)) as [Hj|Hj]; [rewrite nth_error_app1 in Ey; auto|]. exfalso. rewrite nth_error_app2 in Ey by auto. apply nth_error_In in Ey.
  destruct (Hb y Ey) as [k [lo [hi [Hk [Ext Out]]]]]. assert (D := Dp k lo hi Hk Ext). destruct (Hl p (nth_error_In _ _ Ep)) as [a [b [e ->]]]. destruct (He y Ey) as [a' [b' [e' ->]]].
  destruct C as [P C]. cbn [dist2] in C. clear - D Out P C Hk.
  assert (Sq : forall u v : Z, (mg <= u - v \/ mg <= v - u)%Z -> (mg * mg <= (u - v) * (u - v))%Z) by (clear - P; intros u v [H|H]; nia). assert (Po : forall u : Z, (0 <= u * u)%Z) by (intros; nia).
  assert (P1 := Po (a - a')%Z). assert (P2 := Po (b - b')%Z). assert (P3 := Po (e - e')%Z).
  destruct k as [|[|[|k]]]; [assert (Q := Sq a a')|assert (Q := Sq b b')|assert (Q := Sq e e')|lia]; unfold coord in *; cbn [nth] in *; lia.
Qed.

(** * Cases *)
(** Six particles in a picture from 1 to 101, first minimum at bin 200: margins 15 and 30.  The second is deep inside; the third, at 25 from it, is deep by the first margin only; the last but one is too close to the first face. *)
Definition six_points : list (list Z) := map (map (Z.mul unit60)) [[1; 1; 1]; [50; 50; 50]; [25; 50; 50]; [70; 50; 50]; [5; 50; 50]; [101; 101; 101]]%Z.
Definition frame6 : particles := new_particles six_points [] unit60.
Definition run6 (d : disk) : outcome disk :=
  linkboo nat nat 0 Nat.add Nat.div (fun t p q => 60) print_nat (fun l b => (l * b, b)) print_nat lib_config 200 (txt "a_t0.dat") (txt "_t") 0 [frame6; frame6] d.
Lemma no_tok e : In e exts -> absent (txt "_t") (txt e).
Proof.
  intros He h r E. assert (X : existsb (Ascii.eqb "_"%char) (txt e) = true).
  { apply existsb_exists. exists "_"%char. split; [|reflexivity]. rewrite E. apply in_or_app. right. left. reflexivity. }
  unfold exts in He. cbn [In] in He. repeat (destruct He as [<-|He]; [vm_compute in X; discriminate|]). exact He.
Qed.
Lemma series6 n : (N.of_nat n < 2 ^ 63)%N -> series_ok (txt "a") (txt "_t") (txt "0") (txt "dat") 0 n.
Proof.
  intros Hn. destruct C128_case as [A1 A2]. split; [|split; [exact A1|split; [|split; [|split; [|split; [exact no_tok|lia]]]]]].
  - split; [discriminate|]. intros c [<-|[<-|[]]]; reflexivity.
  - intros c [<-|[]]. reflexivity.
  - intros H. cbn [txt app list_ascii_of_string In] in H. repeat (destruct H as [H|H]; [discriminate|]). exact H.
  - intros H. cbn in H. repeat (destruct H as [H|H]; [discriminate|]). exact H.
Qed.
Lemma extent6 k : k < 3 -> extent six_points k unit60 (101 * unit60).
Proof.
  intros Hk. split; [exists (map (Z.mul unit60) [1; 1; 1]%Z)|split; [exists (map (Z.mul unit60) [101; 101; 101]%Z)|]].
  - split; [left; reflexivity|]. destruct k as [|[|[|k]]]; [reflexivity|reflexivity|reflexivity|lia].
  - split; [do 5 right; left; reflexivity|]. destruct k as [|[|[|k]]]; [reflexivity|reflexivity|reflexivity|lia].
  - intros q Hq. cbn [six_points map In] in Hq. destruct k as [|[|[|k]]]; [| | |lia]; repeat (destruct Hq as [<-|Hq]; [vm_compute; split; discriminate|]); contradiction.
Qed.
Example C144_case : Forall (fit_frame 200 unit60) [frame6; frame6] /\ series_ok (txt "a") (txt "_t") (txt "0") (txt "dat") 0 2 /\ ~ mode (txt "a") (txt "_t") (txt "0") 0 [frame6; frame6] (fun _ => None).
Proof.
  assert (F : fit_frame 200 unit60 frame6).
  { exists six_points, []. split; [reflexivity|]. split; [discriminate|]. split; [repeat constructor; repeat eexists|]. split.
    - intros p k Hp Hk. cbn [six_points map In] in Hp. destruct k as [|[|[|k]]]; [| | |lia]; repeat (destruct Hp as [<-|Hp]; [vm_compute; split; discriminate|]); contradiction.
    - split; intros k lo hi Hk Ex; destruct (extent_fun _ _ _ _ _ _ Ex (extent6 k Hk)) as [-> ->]; (split; [vm_compute; reflexivity|]);
        intros q Hq; cbn [six_points map In] in Hq; destruct k as [|[|[|k]]]; [| | |lia| | | |lia]; repeat (destruct Hq as [<-|Hq]; [vm_compute; split; discriminate|]); contradiction. }
  split; [repeat constructor; exact F|]. split; [apply series6; reflexivity|]. intros H. destruct (H 0 (or_introl eq_refl)) as [X _]. apply X. reflexivity.
Qed.
Example C144_run : exists d', run6 (fun _ => None) = Val d' /\ d' (txt "a_t1.bonds") = Some (save_bonds [(1, 2); (1, 3); (2, 4)]) /\
  d' (txt "a_t1.qlm") = Some (txt "0" ++ [newline] ++ txt "60" ++ [newline] ++ txt "60" ++ [newline] ++ txt "60" ++ [newline] ++ txt "0" ++ [newline] ++ txt "0" ++ [newline]) /\ d' (txt "a_t0.dat") = None.
Proof. eexists. split; [vm_compute; reflexivity|]. split; [vm_compute; reflexivity|]. split; vm_compute; reflexivity. Qed.
(** With the files of cgVoro: the second particle is outside, the fourth has no mean. *)
Definition voro_disk (bonds out out2 : text) : disk := fun n =>
  if existsb (fun k => if list_eq_dec ascii_dec n k then true else false) [txt "a_t0.bonds"; txt "a_t1.bonds"] then match bonds with [] => None | _ => Some bonds end
  else if existsb (fun k => if list_eq_dec ascii_dec n k then true else false) [txt "a_t0.outside"; txt "a_t1.outside"] then Some out
  else if existsb (fun k => if list_eq_dec ascii_dec n k then true else false) [txt "a_t0.outside2"; txt "a_t1.outside2"] then Some out2 else None.
Definition seven_bonds : text := txt "1 2" ++ [newline] ++ txt "4 2" ++ [newline].
Example C144_loaded_case : let d := voro_disk seven_bonds (txt "1" ++ [newline]) (txt "1" ++ [newline] ++ txt "3" ++ [newline]) in
  mode (txt "a") (txt "_t") (txt "0") 0 [frame6; frame6] d /\ forall t st, nth_error [frame6; frame6] t = Some st -> voro_step (txt "a") (txt "_t") (txt "0") 0 d t st [(1, 2); (4, 2)] [1] [1; 3].
Proof.
  cbv zeta. split.
  - intros t [->| ->]; (split; [discriminate|split; discriminate]).
  - intros t st E. assert (X : (t = 0 \/ t = 1) /\ st = frame6) by (destruct t as [|[|t]]; cbn in E; [injection E as <-; auto|injection E as <-; auto|destruct t; discriminate]). destruct X as [Ht ->]. clear E.
    assert (Y : lists_bonds (Some seven_bonds) 6 [(1, 2); (4, 2)] /\ lists_numbers (Some (txt "1" ++ [newline])) [1] /\ lists_numbers (Some (txt "1" ++ [newline] ++ txt "3" ++ [newline])) [1; 3]).
    { split; [eexists; split; [reflexivity|]; split; [reflexivity|]; split; [repeat constructor; cbn; lia|cbn; lia]|]. split; eexists; (split; [reflexivity|]; split; [reflexivity|]; repeat constructor; reflexivity). }
    destruct Y as [Y1 [Y2 Y3]]. destruct Ht as [->| ->]; (split; [exact Y1|split; [repeat constructor; discriminate|split; [left; exact Y2|split; [repeat constructor|split; [left; exact Y3|repeat constructor; lia]]]]]).
Qed.
(** "A particle of the .outside file has no order" is false when that file is not sorted: here it lists the third and then the second particle, and the second has an order. *)
Theorem C144_unsorted_refuted : exists d', run6 (voro_disk seven_bonds (txt "2 1" ++ [newline]) (txt "1" ++ [newline])) = Val d' /\
  d' (txt "a_t0.qlm") = Some (txt "0" ++ [newline] ++ txt "60" ++ [newline] ++ txt "0" ++ [newline] ++ txt "0" ++ [newline] ++ txt "60" ++ [newline] ++ txt "0" ++ [newline]).
Proof. eexists. split; vm_compute; reflexivity. Qed.
(** "Run again the program writes the same files" is false when cgVoro, which writes .outside and .outside2 but no .bonds of that name, ran before: the first run writes .bonds, so that the second takes the lists of cgVoro. *)
Theorem C144_again_refuted : exists d d' d'', d (txt "a_t0.bonds") = None /\ lists_numbers (d (txt "a_t0.outside")) [1] /\ run6 d = Val d' /\ run6 d' = Val d'' /\ d'' (txt "a_t0.bonds") = d' (txt "a_t0.bonds") /\ d'' (txt "a_t0.qlm") <> d' (txt "a_t0.qlm").
Proof.
  set (d := voro_disk [] (txt "1" ++ [newline]) (txt "1" ++ [newline])). destruct (run6 d) as [d'| |] eqn:E; [|exfalso; vm_compute in E; discriminate|exfalso; vm_compute in E; discriminate].
  destruct (run6 d') as [d''| |] eqn:E'.
  - exists d, d', d''. split; [reflexivity|]. split; [eexists; split; [reflexivity|]; split; [reflexivity|]; repeat constructor; reflexivity|]. split; [exact E|]. split; [exact E'|].
    vm_compute in E. injection E as <-. vm_compute in E'. injection E' as <-. split; [vm_compute; reflexivity|]. vm_compute. discriminate.
  - exfalso. vm_compute in E. injection E as <-. vm_compute in E'. discriminate.
  - exfalso. vm_compute in E. injection E as <-. vm_compute in E'. discriminate.
Qed.
(** "The order written is that of a particle all the neighbours of which are in the picture" is false: the first margin is half of the bond length.  The third particle gets an order and would have another neighbour in a larger picture. *)
Theorem C144_window_refuted : deep_at six_points (half_length unit60 200) 2 /\ Forall (beyond six_points) [map (Z.mul unit60) [-1; 50; 50]%Z] /\
  close_by (six_points ++ [map (Z.mul unit60) [-1; 50; 50]%Z]) (bond_length unit60 200) 2 6 /\ forall i, ~ close_by six_points (bond_length unit60 200) i 6.
Proof.
  split; [|split; [|split]].
  - eexists. split; [reflexivity|]. intros k lo hi Hk Ex. destruct (extent_fun _ _ _ _ _ _ Ex (extent6 k Hk)) as [-> ->]. destruct k as [|[|[|k]]]; [| | |lia]; vm_compute; split; discriminate.
  - constructor; [|constructor]. exists 0, unit60, (101 * unit60)%Z. split; [lia|]. split; [apply extent6; lia|]. left. vm_compute. reflexivity.
  - split; [discriminate|]. do 2 eexists. split; [reflexivity|]. split; [reflexivity|]. split; vm_compute; reflexivity.
  - intros i [_ [x [y [_ [E _]]]]]. discriminate.
Qed.
Example C144_window_case : deep_at six_points (bond_length unit60 200) 1 /\ beyond six_points (map (Z.mul unit60) [-1; 50; 50]%Z) /\ close_by six_points (bond_length unit60 200) 1 2.
Proof.
  split; [|split].
  - eexists. split; [reflexivity|]. intros k lo hi Hk Ex. destruct (extent_fun _ _ _ _ _ _ Ex (extent6 k Hk)) as [-> ->]. destruct k as [|[|[|k]]]; [| | |lia]; vm_compute; split; discriminate.
  - exists 0, unit60, (101 * unit60)%Z. split; [lia|]. split; [apply extent6; lia|]. left. vm_compute. reflexivity.
  - split; [discriminate|]. do 2 eexists. split; [reflexivity|]. split; [reflexivity|]. split; vm_compute; reflexivity.
Qed.

Print Assumptions C144_computed.
Print Assumptions C144_again.
Print Assumptions C144_loaded.
Print Assumptions C144_bonds_refuted.
Print Assumptions C144_refused.
Print Assumptions C144_window.
Print Assumptions C144_unsorted_refuted.
Print Assumptions C144_again_refuted.
Print Assumptions C144_window_refuted.

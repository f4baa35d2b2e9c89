(** C152: the radii of the tracked particles, from the images and the files of positions to the files of radii. *)
Require Import String.
Require Import List Bool Arith NArith ZArith Ascii Lia.
Require Import Verif.Base Verif.ListX Verif.Field_Proofs Verif.Index_Proofs Verif.Dec Verif.Traj_Model Verif.Particles_Model Verif.Files_Model Verif.Files_Spec Verif.Files_Proofs Verif.Files_Props Verif.Export_Model Verif.Export_Spec Verif.Export_Props Verif.Cloud_Model Verif.Cloud_Props Verif.Perco_Model
  Verif.Perco_Props Verif.Corr_Proofs Verif.Cut_Props Verif.Track_Model Verif.Track_Spec Verif.Track_Props Verif.Radii_Model Verif.Extract_Model Verif.Extract_Spec.
Import ListNotations.
Local Open Scope nat_scope.
Local Open Scope list_scope.
Local Notation length := List.length.

Lemma end_rad a s : ending (a ++ txt "_t" ++ s ++ txt ".radii") = txt "ii". Proof. rewrite !app_assoc. rewrite ending_app by (cbn; lia). reflexivity. Qed.
Ltac parted := let E := fresh in intros E; apply (f_equal ending) in E; rewrite ?end_rad, ?end_step_dat, ?end_test, ?end_xml, ?end_wis in E; discriminate E.
Lemma step_file_ex size t ext out : exists n, step_file out size t ext n.
Proof. eexists _, _. split; [apply pad_writes|reflexivity]. Qed.
Lemma step_file_one size t ext out n n' : step_file out size t ext n -> step_file out size t ext n' -> n = n'.
Proof. intros [s [W ->]] [s' [W' ->]]. rewrite (stamp_one size t s s' W W'). reflexivity. Qed.
Lemma step_file_apart size t t' ext out n : step_file out size t ext n -> step_file out size t' ext n -> t = t'.
Proof. intros [s [W ->]] [s' [W' E]]. do 2 apply app_inv_head in E. apply app_inv_tail in E. subst s'. eapply stamp_fun; eauto. Qed.
Lemma rad_ok : no_percent (txt ".radii") /\ no_digit_first (txt ".radii") /\ absent (txt "_t") (txt ".radii").
Proof.
  split; [|split].
  - intros I. cbn in I. repeat (destruct I as [I|I]; [discriminate|]). destruct I.
  - eexists _, _. split; reflexivity.
  - intros h r E. assert (I : In "_"%char (txt ".radii")) by (rewrite E; apply in_app_iff; right; left; reflexivity). cbn in I. repeat (destruct I as [I|I]; [discriminate|]). destruct I.
Qed.
Lemma osequence_forall2 {A B} (f : A -> outcome B) : forall l r, Forall2 (fun a b => f a = Val b) l r -> osequence (map f l) = Val r.
Proof. induction 1 as [|a b l r E _ IH]; [reflexivity|]. cbn [map osequence]. rewrite E, IH. reflexivity. Qed.

Lemma header_ok stem ext : absent [dot] ext -> header_name (stem ++ [dot] ++ ext) = stem ++ txt "_header.xml".
Proof.
  intros Hext. unfold header_name, stem_of, cut_ext. rewrite (rfind_splits [dot] _ stem ext); [rewrite firstn_exact; reflexivity|]. split; [reflexivity|]. intros h' r' E. destruct (Nat.le_gt_cases (length h') (length stem)) as [L|L]; auto. exfalso.
  rewrite (app_assoc stem) in E. apply (Hext (skipn (length (stem ++ [dot])) h') r'). assert (F := f_equal (skipn (length (stem ++ [dot]))) E). rewrite skipn_exact in F. rewrite F, skipn_app.
  rewrite (app_length stem). cbn [length]. replace (length stem + 1 - length h') with 0 by lia. reflexivity.
Qed.

Section Read.
  Variables (C P : Type) (conv : C -> P).
  Lemma read_pixels_ok : forall n inp, n <= length inp -> read_pixels C P conv n inp = Val (map conv (firstn n inp)).
  Proof. induction n as [|n IH]; intros [|c inp] H; cbn [length] in H; try lia; try reflexivity. cbn [read_pixels firstn map]. rewrite IH by lia. reflexivity. Qed.
  Lemma read_pixels_short : forall n inp, length inp < n -> read_pixels C P conv n inp = UB.
  Proof. induction n as [|n IH]; intros [|c inp] H; cbn [length] in H; try lia; try reflexivity. cbn [read_pixels]. rewrite IH by lia. reflexivity. Qed.
  Lemma read_pictures n0 n1 n2 file start t : start + (n0 * n1 * n2) * t + n0 * n1 * n2 <= length file ->
    pictures_as n0 n1 n2 (map conv (firstn (n0 * n1 * n2) (skipn (start + (n0 * n1 * n2) * t) file))) (pixel_of conv n0 n1 n2 file start t).
  Proof.
    intros H. split; [rewrite map_length, firstn_length, skipn_length; lia|]. intros z y x Hz Hy Hx. assert (B := index_lt n0 n1 n2 z y x Hz Hy Hx). unfold pixel_of. rewrite nth_error_map. f_equal.
    rewrite Field_Proofs.nth_error_firstn_x by exact B. rewrite Index_Proofs.nth_error_skipn. f_equal. lia.
  Qed.
End Read.

Section Main.
  Variables (V C P : Type) (zero one : V) (show : V -> text) (parse : text -> option V) (rnd : V -> V) (conv : C -> P) (shrink : V -> V).
  Hypothesis Hcodec : codec show parse rnd.
  Variables n0 n1 n2 : nat.
  Variable radius : V -> list P -> V * V * V -> outcome V.
  Variables (wis home : text) (profile : option text) (status : nat) (there : bool) (given out : text) (d : disk) (ini : text).
  Hypothesis Hini : d (home ++ txt "/.colloids" ++ txt "/tracker.ini") = Some ini.
  Hypothesis Hgiven : named given out.
  Hypothesis Hpercent : no_percent out.
  Local Notation wisdom := (home ++ txt "/.colloids" ++ txt "/wisdom.fftw").
  Variables (file : list C) (start inc steps : nat) (xml stem ext : text).
  Hypothesis Hinc : inc = n0 * n1 * n2.
  Hypothesis Hfile : start + inc * steps <= length file.
  Hypothesis Hext : absent [dot] ext.
  Hypothesis Hsteps : 0 < steps /\ (N.of_nat steps <= 2 ^ 64)%N.
  (** The files of positions, and the radii that are found: around (z/ratio, y, x), as if the ratio were one. *)
  Variables (upper : nat -> V * V * V) (ps : nat -> list (V * V * V)) (rs : nat -> list V).
  Hypothesis Hcount : forall t, t < steps -> (N.of_nat (length (ps t)) < 2 ^ 64)%N.
  Hypothesis Hrad : forall t img, t < steps -> pictures_as n0 n1 n2 img (pixel_of conv n0 n1 n2 file start t) ->
    Forall2 (fun p r => let '(x, y, z) := p in radius one img (shrink (rnd z), rnd y, rnd x) = Val r) (ps t) (rs t).
  Local Notation run := (with_settings (Some home) profile status there true given
    (fun dir out => radii_main V C P zero one show parse conv shrink n0 n1 n2 radius file start inc steps dir wis xml (stem ++ [dot] ++ ext) out) d).
  Local Notation test := (out ++ txt "test.test", @None text).
  Local Notation head := (stem ++ txt "_header.xml", Some xml).
  Local Notation others := [test; (wisdom, Some wis); head].
  Local Notation set_step := (extract_set V C P zero parse conv shrink n0 n1 n2 file start inc steps).
  Local Notation next_step := (extract_next V C P zero parse conv shrink n0 n1 n2 file steps).
  Local Notation see := (extract_see V P one radius).

  Definition cen (t : nat) : list (V * V * V) := map (fun p => let '(x, y, z) := p in (shrink (rnd z), rnd y, rnd x)) (ps t).
  Definition well (t : nat) (s : extracting V P) : Prop := t < steps /\ ebyte V P s = start + inc * (t + 1) /\ pictures_as n0 n1 n2 (eimage V P s) (pixel_of conv n0 n1 n2 file start t) /\ ecenters V P s = cen t.
  Lemma well_see t s : well t s -> see s = Val (rs t).
  Proof.
    intros (Ht & _ & Hp & Hc). unfold extract_see. apply osequence_forall2. rewrite Hc. unfold cen. assert (F := Hrad t _ Ht Hp). revert F. generalize (ps t) (rs t). clear. intros l r F.
    induction F as [|[[x y] z] b l r E _ IH]; [constructor|]. cbn [map]. constructor; auto.
  Qed.
  Lemma space t : t < steps -> start + inc * t + n0 * n1 * n2 <= length file.
  Proof. intros H. assert (inc * (t + 1) <= inc * steps) by (apply Nat.mul_le_mono_l; lia). lia. Qed.
  (** Files of positions are never written. *)
  Definition keep (dd : disk) : Prop := forall n, ending n = txt "ta" -> dd n = d n.
  Section Series.
  Variables dat rad : serie.
  Hypothesis Hdat : forall t, (N.of_nat t < 2 ^ 64)%N -> exists s, stamp steps t s /\ step_name dat (N.of_nat t) = out ++ txt "_t" ++ s ++ txt ".dat".
  Hypothesis Hrd : forall t, (N.of_nat t < 2 ^ 64)%N -> exists s, stamp steps t s /\ step_name rad (N.of_nat t) = out ++ txt "_t" ++ s ++ txt ".radii".
  Lemma centers_ok t dd : t < steps -> keep dd -> positions_of show out steps t (upper t) (ps t) d -> read_centers V zero parse shrink dat t dd = Val (cen t).
  Proof.
    intros Ht Hk Hp. unfold read_centers. destruct (Hdat t) as [s [W E]]; [lia|]. rewrite E, Hk by apply end_step_dat. rewrite Hp by (exists s; auto).
    rewrite (C78_round_trip V zero show parse rnd Hcodec (upper t) (ps t)) by (apply Hcount; auto). cbn [snd]. unfold set_centers, cen. rewrite map_map. f_equal. apply map_ext. intros [[x y] z]. reflexivity.
  Qed.
  Lemma centers_missing t dd : t < steps -> keep dd -> no_positions out steps t d -> read_centers V zero parse shrink dat t dd = Throw.
  Proof. intros Ht Hk Hp. unfold read_centers. destruct (Hdat t) as [s [W E]]; [lia|]. rewrite E, Hk by apply end_step_dat. rewrite Hp by (exists s; auto). reflexivity. Qed.
  Lemma read_step t b : t < steps -> b = start + inc * t -> exists img, read_pixels C P conv (n0 * n1 * n2) (skipn b file) = Val img /\ pictures_as n0 n1 n2 img (pixel_of conv n0 n1 n2 file start t).
  Proof.
    intros Ht ->. assert (R := space t Ht). eexists. split; [apply read_pixels_ok; rewrite skipn_length; lia|]. rewrite Hinc in *. apply read_pictures. exact R.
  Qed.
  Lemma set_ok dd : keep dd -> positions_of show out steps 0 (upper 0) (ps 0) d -> exists s, set_step dat 0 dd = Val s /\ well 0 s.
  Proof.
    intros Hk Hp. unfold extract_set. destruct (Nat.leb_spec steps 0); [lia|]. destruct (read_step 0 (start + inc * 0)) as [img [E Pi]]; [lia|reflexivity|]. rewrite E. cbn [obind]. rewrite (centers_ok 0 dd) by (auto; lia).
    cbn [omap]. eexists. split; [reflexivity|]. split; [lia|]. split; [cbn [ebyte]; lia|]. split; [exact Pi|reflexivity].
  Qed.
  Lemma set_missing dd : keep dd -> no_positions out steps 0 d -> set_step dat 0 dd = Throw.
  Proof. intros Hk Hp. unfold extract_set. destruct (Nat.leb_spec steps 0); [lia|]. destruct (read_step 0 (start + inc * 0)) as [img [E Pi]]; [lia|reflexivity|]. rewrite E. cbn [obind]. rewrite (centers_missing 0 dd) by (auto; lia). reflexivity. Qed.
  Lemma next_ok t s dd : S t < steps -> well t s -> keep dd -> positions_of show out steps (S t) (upper (S t)) (ps (S t)) d -> exists s', next_step dat (S t) s dd = Val s' /\ well (S t) s'.
  Proof.
    intros Ht (_ & Hb & _ & _) Hk Hp. unfold extract_next. destruct (read_step (S t) (ebyte V P s)) as [img [E Pi]]; [lia|rewrite Hb; f_equal; f_equal; lia|]. rewrite E. cbn [obind]. destruct (Nat.ltb_spec (S t) steps); [|lia].
    rewrite (centers_ok (S t) dd) by auto. cbn [omap]. eexists. split; [reflexivity|]. split; [lia|]. split; [cbn [ebyte]; rewrite Hb, Hinc; ring|]. split; [exact Pi|reflexivity].
  Qed.
  Lemma next_missing t s dd : S t < steps -> well t s -> keep dd -> no_positions out steps (S t) d -> next_step dat (S t) s dd = Throw.
  Proof.
    intros Ht (_ & Hb & _ & _) Hk Hp. unfold extract_next. destruct (read_step (S t) (ebyte V P s)) as [img [E Pi]]; [lia|rewrite Hb; f_equal; f_equal; lia|]. rewrite E. cbn [obind]. destruct (Nat.ltb_spec (S t) steps); [|lia].
    rewrite (centers_missing (S t) dd) by auto. reflexivity.
  Qed.
  Lemma next_end s dd : well (steps - 1) s -> (start + inc * (steps + 1) <= length file -> exists s', next_step dat steps s dd = Val s') /\ (length file < start + inc * (steps + 1) -> next_step dat steps s dd = UB).
  Proof.
    intros (_ & Hb & _ & _). unfold extract_next. replace (steps - 1 + 1) with steps in Hb by lia. rewrite Hb. rewrite Nat.ltb_irrefl. rewrite Nat.mul_add_distr_l. split; intros H.
    - rewrite read_pixels_ok by (rewrite skipn_length; lia). cbn [obind omap]. eexists. reflexivity.
    - rewrite read_pixels_short by (rewrite skipn_length; lia). reflexivity.
  Qed.
  Section Loop.
    Variables (K rest : nat) (o : outcome unit).
    Hypothesis HK : K <= steps.
    Hypothesis Hpos : forall t, t < K -> positions_of show out steps t (upper t) (ps t) d.
    Hypothesis Hlast : forall s dd, well (K - 1) s -> keep dd -> match o with Val _ => rest = 0 /\ exists s', next_step dat K s dd = Val s' | Throw => next_step dat K s dd = Throw | UB => next_step dat K s dd = UB end.
    Lemma steps_run : forall k t s dd, 0 < k -> t + k = K -> well t s -> keep dd ->
      exists d', radii_steps V C P zero one show parse conv shrink n0 n1 n2 radius file steps dat rad (k + rest) t s dd = (d', o) /\
        (forall q, t <= q < K -> radii_of show out steps q (rs q) d') /\ forall n, (forall q, t <= q < K -> ~ step_file out steps q (txt ".radii") n) -> d' n = dd n.
    Proof.
      induction k as [|k IH]; intros t s dd H0 Hk Hw Hd; [lia|]. cbn [Nat.add radii_steps]. rewrite (well_see t s Hw). cbn [andthen].
      destruct (Hrd t) as [x [Wx Ex]]; [lia|]. rewrite Ex. set (nm := out ++ txt "_t" ++ x ++ txt ".radii") in *. assert (Sf : step_file out steps t (txt ".radii") nm) by (exists x; auto). set (d1 := put_file dd nm _).
      assert (Hd1 : keep d1). { intros n Hn. unfold d1. rewrite put_other; [auto|]. intros ->. unfold nm in Hn. rewrite end_rad in Hn. discriminate. }
      assert (Own : radii_of show out steps t (rs t) d1). { intros n Hn. rewrite (step_file_one _ _ _ _ _ _ Hn Sf). unfold d1. apply put_same. }
      destruct k as [|k].
      - assert (E : K = S t) by lia. specialize (Hlast s d1). replace (K - 1) with t in Hlast by lia. specialize (Hlast Hw Hd1). rewrite E in Hlast. exists d1. split; [|split].
        + destruct o as [[]| |]; [|rewrite Hlast; reflexivity|rewrite Hlast; reflexivity]. destruct Hlast as [-> [s' Es]]. rewrite Es. reflexivity.
        + intros q Hq. assert (q = t) by lia. subst q. exact Own.
        + intros n Hn. unfold d1. apply put_other. intros ->. apply (Hn t); [lia|exact Sf].
      - destruct (next_ok t s d1) as [s' [Es Hw']]; [lia|auto|auto|apply Hpos; lia|]. rewrite Es. cbn [andthen]. destruct (IH (S t) s' d1) as [d' (E & A & B)]; [lia|lia|auto|auto|]. exists d'. split; [exact E|]. split.
        + intros q Hq. destruct (Nat.eq_dec q t) as [->|X]; [|apply A; lia]. intros n Hn. rewrite B; [apply Own; auto|]. intros q Hq' F. assert (q = t) by (eapply step_file_apart; eauto). lia.
        + intros n Hn. rewrite B by (intros q Hq'; apply Hn; lia). unfold d1. apply put_other. intros ->. apply (Hn t); [lia|exact Sf].
    Qed.
  End Loop.
  End Series.
  Lemma keep_start : keep (put_file (remove_file (put_file d (out ++ txt "test.test") []) (out ++ txt "test.test")) (stem ++ txt "_header.xml") xml).
  Proof. intros n Hn. rewrite put_other by (intros ->; rewrite end_xml in Hn; discriminate). rewrite removed. destruct (list_eq_dec ascii_dec n (out ++ txt "test.test")) as [->|]; [rewrite end_test in Hn; discriminate|reflexivity]. Qed.
  Lemma names : exists dat rad, result_serie out steps (txt ".dat") = Val dat /\ result_serie out steps (txt ".radii") = Val rad /\
    (forall t, (N.of_nat t < 2 ^ 64)%N -> exists s, stamp steps t s /\ step_name dat (N.of_nat t) = out ++ txt "_t" ++ s ++ txt ".dat") /\
    forall t, (N.of_nat t < 2 ^ 64)%N -> exists s, stamp steps t s /\ step_name rad (N.of_nat t) = out ++ txt "_t" ++ s ++ txt ".radii".
  Proof.
    destruct ext_ok as (_ & _ & _ & P4 & P5 & P6). destruct rad_ok as (P1 & P2 & P3). destruct Hsteps as [Hs0 Hs1].
    destruct (stamps out steps (txt ".radii") Hs0 Hs1 Hpercent P1 P2 P3) as [rad [Ei Ni]]. destruct (stamps out steps (txt ".dat") Hs0 Hs1 Hpercent P4 P5 P6) as [dat [Ed Nd]]. exists dat, rad. auto.
  Qed.
  Lemma radii_run K o : 0 < K <= steps -> (forall t, t < K -> positions_of show out steps t (upper t) (ps t) d) ->
    (forall dat, (forall t, (N.of_nat t < 2 ^ 64)%N -> exists s, stamp steps t s /\ step_name dat (N.of_nat t) = out ++ txt "_t" ++ s ++ txt ".dat") ->
      forall s dd, well (K - 1) s -> keep dd -> match o with Val _ => steps - K = 0 /\ exists s', next_step dat K s dd = Val s' | Throw => next_step dat K s dd = Throw | UB => next_step dat K s dd = UB end) ->
    exists d', run = (d', o) /\ left_radii show out steps rs K others d d'.
  Proof.
    intros HK Hpos L. rewrite (settings_ok home profile status there given out _ d ini Hini Hgiven). unfold radii_main. rewrite (header_ok stem ext Hext). destruct names as (dat & rad & Ed & Er & Nd & Nr). rewrite Ed, Er. cbn [andthen].
    set (d0 := put_file _ _ xml). assert (K0 : keep d0) by apply keep_start. destruct (set_ok dat Nd d0 K0) as [s [Es Hw]]; [apply Hpos; lia|]. rewrite Es. cbn [andthen].
    set (d1 := save_wisdom _ _ _). assert (K1 : keep d1). { intros n Hn. unfold d1, save_wisdom. rewrite put_other; [apply K0; auto|]. intros ->. rewrite end_wis in Hn. discriminate. }
    destruct (steps_run dat rad Nd Nr K (steps - K) o (proj2 HK) Hpos (L dat Nd) K 0 s d1 (proj1 HK) eq_refl Hw K1) as [d2 (E & A & B)]. replace (K + (steps - K)) with steps in E by lia. rewrite E.
    assert (W : forall q n, step_file out steps q (txt ".radii") n -> ending n = txt "ii") by (intros q n [x [_ ->]]; apply end_rad).
    assert (O : forall n, ending n <> txt "ii" -> d2 n = d1 n) by (intros n Hn; apply B; intros q _ F; apply Hn; eapply W; eauto).
    assert (F : forall d', (forall n, n <> wisdom -> d' n = d2 n) -> d' wisdom = Some wis -> left_radii show out steps rs K others d d').
    { intros d' F1 F2. split; [|split].
      - intros t Ht n Hn. rewrite F1; [apply A; [lia|auto]|]. intros ->. assert (X := W _ _ Hn). rewrite (app_assoc home), end_wis in X. discriminate.
      - intros n c [X|[X|[X|[]]]]; apply pair_equal_spec in X; destruct X as [<- <-].
        + rewrite F1 by (rewrite (app_assoc home); parted). rewrite O by (rewrite end_test; discriminate). unfold d1, save_wisdom. rewrite put_other by parted. unfold d0. rewrite put_other by parted. rewrite removed. destruct (list_eq_dec ascii_dec (out ++ txt "test.test") (out ++ txt "test.test")); [reflexivity|congruence].
        + exact F2.
        + rewrite F1 by (rewrite (app_assoc home); parted). rewrite O by (rewrite end_xml; discriminate). unfold d1, save_wisdom. rewrite put_other by parted. apply put_same.
      - intros n Hn Io. cbn [map fst In] in Io. rewrite F1 by (intros ->; apply Io; auto). rewrite B by (intros q Hq; apply Hn; lia). unfold d1, save_wisdom. rewrite <- app_assoc. rewrite put_other by (intros ->; apply Io; auto).
        unfold d0. rewrite put_other by (intros ->; apply Io; auto). rewrite removed. destruct (list_eq_dec ascii_dec n (out ++ txt "test.test")) as [->|]; [exfalso; apply Io; auto|auto]. }
    assert (Kw : d2 wisdom = Some wis) by (rewrite O; [unfold d1, save_wisdom; rewrite <- app_assoc; apply put_same|rewrite (app_assoc home), end_wis; discriminate]).
    destruct o as [[]| |]; cbn [andthen].
    - eexists. split; [reflexivity|]. apply F; unfold save_wisdom; rewrite <- app_assoc; [intros n X; apply put_other; auto|apply put_same].
    - eexists. split; [reflexivity|]. apply F; auto.
    - eexists. split; [reflexivity|]. apply F; auto.
  Qed.
  (** C152. When the file goes on for one more image after the series: the radii of every time step are found around the positions of its file, in their order, and written; nothing else changes. *)
  Theorem C152_radii : (forall t, t < steps -> positions_of show out steps t (upper t) (ps t) d) -> start + inc * (steps + 1) <= length file -> exists d', run = (d', Val tt) /\ left_radii show out steps rs steps others d d'.
  Proof. intros Hp H. apply radii_run; [lia|auto|]. intros dat Nd s dd Hw _. split; [lia|]. exact (proj1 (next_end dat s dd Hw) H). Qed.
  (** When less than an image follows, the end of the file included, the same files are written, and then bytes are read after the end of the file. *)
  Theorem C152_end_refuted : (forall t, t < steps -> positions_of show out steps t (upper t) (ps t) d) -> length file < start + inc * (steps + 1) -> exists d', run = (d', UB) /\ left_radii show out steps rs steps others d d'.
  Proof. intros Hp H. apply radii_run; [lia|auto|]. intros dat Nd s dd Hw _. exact (proj2 (next_end dat s dd Hw) H). Qed.
  (** A time step without its file of positions: the run fails, after the radii of the time steps before it. *)
  Theorem C152_missing m : 0 < m < steps -> (forall t, t < m -> positions_of show out steps t (upper t) (ps t) d) -> no_positions out steps m d -> exists d', run = (d', Throw) /\ left_radii show out steps rs m others d d'.
  Proof. intros Hm Hp H. apply radii_run; [lia|auto|]. intros dat Nd s dd Hw Hk. destruct m as [|m]; [lia|]. cbn [Nat.sub] in Hw. rewrite Nat.sub_0_r in Hw. apply next_missing; auto; lia. Qed.
  (** The first one missing: only the header is written. *)
  Theorem C152_missing_first : no_positions out steps 0 d -> exists d', run = (d', Throw) /\ left_radii show out steps rs 0 [test; head] d d'.
  Proof.
    intros H. rewrite (settings_ok home profile status there given out _ d ini Hini Hgiven). unfold radii_main. rewrite (header_ok stem ext Hext). destruct names as (dat & rad & Ed & Er & Nd & Nr). rewrite Ed. cbn [andthen].
    rewrite (set_missing dat Nd _ keep_start H). cbn [andthen]. eexists. split; [reflexivity|]. split; [intros; lia|]. split.
    - intros n c [X|[X|[]]]; apply pair_equal_spec in X; destruct X as [<- <-]; [|apply put_same]. rewrite put_other by parted. rewrite removed. destruct (list_eq_dec ascii_dec (out ++ txt "test.test") (out ++ txt "test.test")); [reflexivity|congruence].
    - intros n _ Io. cbn [map fst In] in Io. rewrite put_other by (intros ->; apply Io; auto). rewrite removed. destruct (list_eq_dec ascii_dec n (out ++ txt "test.test")) as [->|]; [exfalso; apply Io; auto|auto].
  Qed.
  (** Every setting of a run that tracks first (C143) leaves the positions this run reads. *)
  Theorem C152_after_tracking asked (res : nat -> found_in V) (nb : list (text * option text)) dd :
    left_files show out steps asked res steps nb dd d -> forall t, t < steps -> positions_of show out steps t (fst (fst (res t))) (snd (fst (res t))) d.
  Proof. intros (A & _) t Ht n Hn. destruct (A t Ht) as [s (W & E & _)]. rewrite (step_file_one _ _ _ _ n _ Hn (ex_intro _ s (conj W eq_refl))). exact E. Qed.
End Main.

(** Two images of 7 slices of a pixel, slices being two pixels apart; particles bright from the third to the fifth slice, then from the second to the sixth. *)
Definition ex_radius (ratio : Z) (img : list nat) (p : Z * Z * Z) : outcome Z :=
  omap Z.of_nat (get_radius Z (fun v n => Z.of_nat v * 840 / Z.of_nat n)%Z Z.sub Z.ltb (fun l => l) (7, 1, 1) (fun c => cell_dist 1 ratio 1 true c p) 1 1 8 img).
Definition ex_images : list nat := [0; 0; 9; 9; 9; 0; 0; 0; 9; 9; 9; 9; 9; 0].
Definition ex_found (n : text) : option text :=
  if list_eq_dec ascii_dec n (txt "/.colloids" ++ txt "/tracker.ini") then Some []
  else if list_eq_dec ascii_dec n (txt "r_t0.dat") then Some (export_dat Z (show_Z 1) (1, 1, 14)%Z [(0, 0, 6)%Z])
  else if list_eq_dec ascii_dec n (txt "r_t1.dat") then Some (export_dat Z (show_Z 1) (1, 1, 14)%Z [(0, 0, 6)%Z; (0, 0, 6)%Z])
  else if list_eq_dec ascii_dec n (txt "old") then Some (txt "kept") else None.
Definition ex_run (file : list nat) (steps : nat) := with_settings (Some []) None 1 true true (txt "r_")
  (fun dir out => radii_main Z nat nat 0%Z 1%Z (show_Z 1) (parse_Z 1) (fun c => c) (fun z => z / 2)%Z 7 1 1 ex_radius file 0 7 steps dir (txt "w") (txt "x") (txt "i" ++ [dot] ++ txt "lif") out) ex_found.
(** The ratio of the microscope is not given to the search of radii: the first particle, bright to two slices, 4 pixels, from its centre, is given a radius of 2. *)
Theorem C152_ratio_refuted : exists d', ex_run (ex_images ++ repeat 0 7) 2 = (d', Val tt) /\ d' (txt "r_t0.radii") = Some (txt "2" ++ [newline]) /\
  ex_radius 2 (firstn 7 ex_images) (3, 0, 0)%Z = Val 4%Z /\ ex_radius 1 (firstn 7 ex_images) (3, 0, 0)%Z = Val 2%Z.
Proof. exists (fst (ex_run (ex_images ++ repeat 0 7) 2)). split; [|split; [|split]]; [|vm_compute; reflexivity|vm_compute; reflexivity|vm_compute; reflexivity]. assert (E : snd (ex_run (ex_images ++ repeat 0 7) 2) = Val tt) by (vm_compute; reflexivity). rewrite <- E. apply surjective_pairing. Qed.
Lemma ex_pixels (more : list nat) t (img : list nat) : t < 2 -> pictures_as 7 1 1 img (pixel_of (fun c : nat => c) 7 1 1 (ex_images ++ more) 0 t) -> img = firstn 7 (skipn (7 * t) ex_images).
Proof.
  intros Ht Pi. eapply pictures_eq; [exact Pi|]. split; [destruct t as [|[|t]]; [reflexivity|reflexivity|lia]|]. intros z y x Hz Hy Hx. assert (x = 0) by lia. assert (y = 0) by lia. subst x y.
  destruct t as [|[|t]]; [| |lia]; do 7 (destruct z as [|z]; [reflexivity|]); lia.
Qed.
Definition ex_ps (t : nat) : list (Z * Z * Z) := repeat (0, 0, 6)%Z (S t).
Definition ex_rs (t : nat) : list Z := repeat (Z.of_nat t + 2)%Z (S t).
Lemma ex_file_name n t : t < 2 -> step_file (txt "r") 2 t (txt ".dat") n -> n = txt "r" ++ txt "_t" ++ print_N (N.of_nat t) ++ txt ".dat".
Proof. intros Ht [s [W ->]]. rewrite (ex_writes t s W) by lia. reflexivity. Qed.
Lemma ex_positions t : t < 2 -> positions_of (show_Z 1) (txt "r") 2 t (1, 1, 14)%Z (ex_ps t) ex_found.
Proof. intros Ht n Hn. rewrite (ex_file_name n t Ht Hn). destruct t as [|[|t]]; [vm_compute; reflexivity|vm_compute; reflexivity|lia]. Qed.
Lemma ex_rad (more : list nat) t (img : list nat) : t < 2 -> pictures_as 7 1 1 img (pixel_of (fun c : nat => c) 7 1 1 (ex_images ++ more) 0 t) ->
  Forall2 (fun p r => let '(x, y, z) := p in ex_radius 1 img (((z / 1 * 1) / 2)%Z, (y / 1 * 1)%Z, (x / 1 * 1)%Z) = Val r) (ex_ps t) (ex_rs t).
Proof. intros Ht Pi. rewrite (ex_pixels more t img Ht Pi). destruct t as [|[|t]]; [| |lia]; repeat (apply Forall2_cons; [vm_compute; reflexivity|]); apply Forall2_nil. Qed.
Local Notation ex_others := [(txt "r" ++ txt "test.test", None); ([] ++ txt "/.colloids" ++ txt "/wisdom.fftw", Some (txt "w")); (txt "i" ++ txt "_header.xml", Some (txt "x"))].
(** The hypotheses are met: with an image after the series, without it, and for three time steps with positions for two only. *)
Example C152_case : (exists d', ex_run (ex_images ++ repeat 0 7) 2 = (d', Val tt) /\ left_radii (show_Z 1) (txt "r") 2 ex_rs 2 ex_others ex_found d') /\
  exists d', ex_run ex_images 2 = (d', UB) /\ left_radii (show_Z 1) (txt "r") 2 ex_rs 2 ex_others ex_found d'.
Proof.
  assert (H1 : named (txt "r_") (txt "r")) by (left; reflexivity). assert (H2 : no_percent (txt "r")) by (intros [X|[]]; discriminate).
  assert (H3 : absent [dot] (txt "lif")). { intros h r E. assert (I : In dot (txt "lif")) by (rewrite E; apply in_app_iff; right; left; reflexivity). cbn in I. destruct I as [I|[I|[I|[]]]]; discriminate. }
  assert (H5 : 0 < 2 /\ (N.of_nat 2 <= 2 ^ 64)%N) by (split; [lia|discriminate]).
  assert (H6 : forall t, t < 2 -> (N.of_nat (length (ex_ps t)) < 2 ^ 64)%N) by (intros [|[|t]] Ht; [reflexivity|reflexivity|lia]).
  assert (A : 0 + 7 * 2 <= length (ex_images ++ repeat 0 7)) by (vm_compute; lia). assert (B : 0 + 7 * (2 + 1) <= length (ex_images ++ repeat 0 7)) by (vm_compute; lia).
  assert (A' : 0 + 7 * 2 <= length (ex_images ++ [])) by (vm_compute; lia). assert (B' : length (ex_images ++ []) < 0 + 7 * (2 + 1)) by (vm_compute; lia). split.
  - exact (C152_radii Z nat nat 0%Z 1%Z (show_Z 1) (parse_Z 1) (fun z => z / 1 * 1)%Z (fun c => c) (fun z => z / 2)%Z (codec_Z 1) 7 1 1 ex_radius (txt "w") [] None 1 true (txt "r_") (txt "r") ex_found [] eq_refl H1 H2 (ex_images ++ repeat 0 7) 0 7 2 (txt "x") (txt "i") (txt "lif") eq_refl A H3 H5
      (fun _ => (1, 1, 14)%Z) ex_ps ex_rs H6 (ex_rad _) ex_positions B).
  - rewrite <- (app_nil_r ex_images). exact (C152_end_refuted Z nat nat 0%Z 1%Z (show_Z 1) (parse_Z 1) (fun z => z / 1 * 1)%Z (fun c => c) (fun z => z / 2)%Z (codec_Z 1) 7 1 1 ex_radius (txt "w") [] None 1 true (txt "r_") (txt "r") ex_found [] eq_refl H1 H2 (ex_images ++ []) 0 7 2 (txt "x") (txt "i") (txt "lif") eq_refl A' H3 H5
      (fun _ => (1, 1, 14)%Z) ex_ps ex_rs H6 (ex_rad []) ex_positions B').
Qed.
Example C152_stops : snd (ex_run (ex_images ++ repeat 0 7) 3) = Throw /\ fst (ex_run (ex_images ++ repeat 0 7) 3) (txt "r_t1.radii") = Some (txt "3" ++ [newline] ++ txt "3" ++ [newline]) /\
  fst (ex_run (ex_images ++ repeat 0 7) 3) (txt "r_t2.radii") = None /\ fst (ex_run (ex_images ++ repeat 0 7) 3) (txt "old") = Some (txt "kept") /\ forall n, step_file (txt "r") 3 2 (txt ".dat") n -> ex_found n = None.
Proof. repeat (split; [vm_compute; reflexivity|]). intros n [s [W ->]]. rewrite (ex_writes 2 s W) by lia. vm_compute. reflexivity. Qed.

Print Assumptions C152_radii. Print Assumptions C152_end_refuted. Print Assumptions C152_missing. Print Assumptions C152_missing_first. Print Assumptions C152_after_tracking. Print Assumptions C152_ratio_refuted.

(** C143: the program tracker, from images to files. *)
Require Import String.
Require Import List Bool Arith NArith Ascii Lia.
Require Import Verif.Base Verif.ListX Verif.Dec Verif.Traj_Model Verif.Particles_Model Verif.Files_Model Verif.Files_Spec Verif.Files_Proofs Verif.Files_Props Verif.Export_Model Verif.Cloud_Model Verif.Cloud_Props Verif.Perco_Model
  Verif.Perco_Props Verif.Tracker_Model Verif.Tracker_Spec Verif.Tracker_Proofs Verif.Tracker_Props Verif.Serie_Model Verif.Serie_Proofs Verif.Serie_Props Verif.Field_Proofs Verif.Track_Model Verif.Track_Spec.
Import ListNotations.
Local Open Scope nat_scope.
Local Open Scope list_scope.
Local Notation length := List.length.

(** Names told apart by their last characters *)
Definition ending (l : text) : text := firstn 2 (rev l).
Lemma ending_app a b : 2 <= length b -> ending (a ++ b) = ending b.
Proof. intros H. unfold ending. rewrite rev_app_distr, firstn_app. rewrite rev_length. replace (2 - length b) with 0 by lia. cbn [firstn]. apply app_nil_r. Qed.
Lemma end_dat a : ending (a ++ txt ".dat") = txt "ta". Proof. rewrite ending_app by (cbn; lia). reflexivity. Qed.
Lemma end_int a : ending (a ++ txt ".intensity") = txt "yt". Proof. rewrite ending_app by (cbn; lia). reflexivity. Qed.
Lemma end_nb a : ending (a ++ txt ".nb") = txt "bn". Proof. rewrite ending_app by (cbn; lia). reflexivity. Qed.
Lemma end_test a : ending (a ++ txt "test.test") = txt "ts". Proof. rewrite ending_app by (cbn; lia). reflexivity. Qed.
Lemma end_xml a : ending (a ++ txt "_header.xml") = txt "lm". Proof. rewrite ending_app by (cbn; lia). reflexivity. Qed.
Lemma end_wis a : ending (a ++ txt "/wisdom.fftw") = txt "wt". Proof. rewrite ending_app by (cbn; lia). reflexivity. Qed.
Lemma end_step_dat a s : ending (a ++ txt "_t" ++ s ++ txt ".dat") = txt "ta". Proof. rewrite !app_assoc. apply end_dat. Qed.
Lemma end_step_int a s : ending (a ++ txt "_t" ++ s ++ txt ".intensity") = txt "yt". Proof. rewrite !app_assoc. apply end_int. Qed.
Ltac apart := let E := fresh in intros E; apply (f_equal ending) in E; rewrite ?end_step_dat, ?end_step_int, ?end_dat, ?end_int, ?end_nb, ?end_test, ?end_xml, ?end_wis in E; discriminate E.

Lemma stamps out size ext : 0 < size -> (N.of_nat size <= 2 ^ 64)%N -> no_percent out -> no_percent ext -> no_digit_first ext -> absent (txt "_t") ext ->
  exists fs, result_serie out size ext = Val fs /\ forall t, (N.of_nat t < 2 ^ 64)%N -> exists s, stamp size t s /\ step_name fs (N.of_nat t) = out ++ txt "_t" ++ s ++ ext.
Proof.
  intros H0 Hs Hp Hpe Hd Ha. change (txt "_t") with default_token in *. unfold result_serie, get0th.
  replace ((N.of_nat size + two64 - 1) mod two64)%N with (N.of_nat (size - 1)).
  2: { replace (N.of_nat size + two64 - 1)%N with (N.of_nat (size - 1) + 1 * two64)%N by lia. rewrite N.mod_add by discriminate. symmetry. apply N.mod_small. change two64 with (2 ^ 64)%N. lia. }
  destruct (print_N_numeral (N.of_nat (size - 1))) as [_ [_ L]]. set (k := length (print_N (N.of_nat (size - 1)))) in *. replace (Nat.max k 1) with k by lia.
  replace ((out ++ default_token ++ repeat zero_char k) ++ ext) with (out ++ default_token ++ repeat zero_char k ++ ext) by (rewrite <- !app_assoc; auto).
  destruct (C54_names default_token (out ++ default_token ++ repeat zero_char k ++ ext) out (repeat zero_char k) ext size 0) as [fs [E N]].
  - apply splits_digits; auto; [apply default_digit_free|destruct k; [lia|discriminate]|apply zeros_numeral].
  - apply zeros_numeral.
  - auto.
  - rewrite !no_percent_app. split; [auto|]. split; [intros [X|[X|[]]]; discriminate|]. split; [|auto]. intros X. apply repeat_spec in X. discriminate.
  - exists fs. split; [auto|]. intros t Ht. destruct (N (N.of_nat t)) as [s [W Es]]; [lia|]. rewrite N.add_0_r in W. rewrite repeat_length in W. exists s. split; auto.
Qed.
Lemma stamp_fun size t t' s : stamp size t s -> stamp size t' s -> t = t'.
Proof. intros (_ & A & _) (_ & B & _). lia. Qed.
Lemma stamp_one size t s s' : stamp size t s -> stamp size t s' -> s = s'.
Proof. apply writes_fun. Qed.

(** * The loop over time steps *)
Section Loop.
  Variables (V : Type) (show : V -> text) (asked : bool) (St : Type) (next : nat -> St -> outcome St) (see : St -> outcome (found_in V)) (dat inten : serie) (nb : text).
  Variables (I : nat -> St -> Prop) (R : nat -> found_in V).
  Local Notation steps := (for_steps V show asked St next see dat inten nb).
  Definition cnt (t k : nat) : text := flat_map (fun t => print_nat (length (snd (fst (R t)))) ++ [newline]) (seq t k).
  Definition put_step (t : nat) (counts : text) (d : disk) : disk :=
    put_file (put_file (if asked then put_file d (step_name inten (N.of_nat t)) (intensity_text V show (snd (R t))) else d) (step_name dat (N.of_nat t)) (export_dat V show (fst (fst (R t))) (snd (fst (R t))))) nb (counts ++ cnt t 1).
  Fixpoint after (k t : nat) (counts : text) (d : disk) : disk := match k with 0 => d | S k' => after k' (S t) (counts ++ cnt t 1) (put_step t counts d) end.
  Lemma cnt_S t k : cnt t (S k) = cnt t 1 ++ cnt (S t) k.
  Proof. unfold cnt. cbn [seq flat_map]. rewrite app_nil_r. reflexivity. Qed.
  Lemma one k t counts st d : see st = Val (R t) -> steps (S k) t counts st d = andthen (next (S t) st) (put_step t counts d) (fun st' => steps k (S t) (counts ++ cnt t 1) st' (put_step t counts d)).
  Proof.
    intros E. cbn [for_steps]. rewrite E. cbn [andthen]. unfold put_step, cnt. cbn [seq flat_map]. rewrite app_nil_r. destruct (R t) as [[u ps] is]. reflexivity.
  Qed.
  Lemma split : forall j k t counts st d, I t st -> (forall q s, t <= q < t + j -> I q s -> see s = Val (R q) /\ exists s', next (S q) s = Val s' /\ I (S q) s') ->
    exists st', I (t + j) st' /\ steps (j + k) t counts st d = steps k (t + j) (counts ++ cnt t j) st' (after j t counts d).
  Proof.
    induction j as [|j IH]; intros k t counts st d H K.
    - exists st. rewrite Nat.add_0_r. split; [auto|]. cbn. rewrite app_nil_r. reflexivity.
    - destruct (K t st) as [E [s' [En H']]]; [lia|auto|]. cbn [Nat.add]. rewrite one by auto. rewrite En. cbn [andthen]. destruct (IH k (S t) (counts ++ cnt t 1) s' (put_step t counts d) H') as [st' [H2 E2]].
      + intros q s Hq. apply K. lia.
      + exists st'. replace (t + S j) with (S t + j) by lia. split; [auto|]. rewrite E2. rewrite (cnt_S t j), app_assoc. reflexivity.
  Qed.
  Lemma after_S : forall j t counts d, after (S j) t counts d = put_step (t + j) (counts ++ cnt t j) (after j t counts d).
  Proof.
    induction j as [|j IH]; intros t counts d; [cbn; rewrite Nat.add_0_r, app_nil_r; reflexivity|]. change (after (S (S j)) t counts d) with (after (S j) (S t) (counts ++ cnt t 1) (put_step t counts d)). rewrite IH.
    rewrite (cnt_S t j), app_assoc. replace (t + S j) with (S t + j) by lia. reflexivity.
  Qed.
  (** k steps, the increment after the last of them giving [o] *)
  Lemma loop k m st d o : 0 < k -> k <= m -> I 0 st -> (forall q s, q < k -> I q s -> see s = Val (R q)) -> (forall q s, S q < k -> I q s -> exists s', next (S q) s = Val s' /\ I (S q) s') ->
    (forall s, I (k - 1) s -> match o with Val _ => k = m /\ exists s', next k s = Val s' | Throw => next k s = Throw | UB => next k s = UB end) ->
    steps m 0 [] st d = (after k 0 [] d, o).
  Proof.
    intros Hk Hm H Hs Hx L. destruct k as [|j]; [lia|]. destruct (split j (S (m - S j)) 0 [] st d H) as [st' [H' E]].
    - intros q s Hq HI. split; [apply Hs; [lia|auto]|apply Hx; [lia|auto]].
    - replace (j + S (m - S j)) with m in E by lia. rewrite E. cbn [Nat.add] in H'. rewrite one by (apply Hs; [lia|auto]).
      specialize (L st'). replace (S j - 1) with j in L by lia. specialize (L H'). rewrite after_S. cbn [app Nat.add]. destruct o as [[]| |].
      + destruct L as [Em [s' E']]. rewrite E'. cbn [andthen]. replace (m - S j) with 0 by lia. reflexivity.
      + rewrite L. reflexivity.
      + rewrite L. reflexivity.
  Qed.

  Variables (out : text) (size : nat).
  Hypothesis Hd : forall t, (N.of_nat t < 2 ^ 64)%N -> exists s, stamp size t s /\ step_name dat (N.of_nat t) = out ++ txt "_t" ++ s ++ txt ".dat".
  Hypothesis Hi : forall t, (N.of_nat t < 2 ^ 64)%N -> exists s, stamp size t s /\ step_name inten (N.of_nat t) = out ++ txt "_t" ++ s ++ txt ".intensity".
  Hypothesis Hn : nb = out ++ txt ".nb".
  Lemma put_step_other t counts d n : (N.of_nat t < 2 ^ 64)%N -> ~ of_steps out size asked (fun q => q = t) n -> n <> nb -> put_step t counts d n = d n.
  Proof.
    intros Ht O Nn. unfold put_step. rewrite put_other by auto. destruct (Hd t Ht) as [s [Ws Es]]. destruct (Hi t Ht) as [s' [Ws' Es']]. rewrite put_other.
    - destruct asked eqn:A; [|auto]. apply put_other. rewrite Es'. intros E. apply O. exists t. split; [auto|]. right. split; [auto|]. exists s'. auto.
    - rewrite Es. intros E. apply O. exists t. split; [auto|]. left. exists s. auto.
  Qed.
  Lemma put_step_step t q r counts d : (N.of_nat t < 2 ^ 64)%N -> q <> t -> exported show out size asked q r d -> exported show out size asked q r (put_step t counts d).
  Proof.
    intros Ht Hq [s (Ws & Ed & Ei)]. exists s. split; [auto|]. split.
    - rewrite put_step_other; auto; [|rewrite Hn; apart]. intros [t' [-> [[s2 [W2 E]]|[_ [s2 [W2 E]]]]]]; [|revert E; apart].
      do 2 apply app_inv_head in E. apply app_inv_tail in E. subst s2. apply Hq. eapply stamp_fun; eauto.
    - intros A. rewrite put_step_other; auto; [|rewrite Hn; apart]. intros [t' [-> [[s2 [W2 E]]|[_ [s2 [W2 E]]]]]]; [revert E; apart|].
      do 2 apply app_inv_head in E. apply app_inv_tail in E. subst s2. apply Hq. eapply stamp_fun; eauto.
  Qed.
  Lemma put_step_own t counts d : (N.of_nat t < 2 ^ 64)%N -> exported show out size asked t (R t) (put_step t counts d).
  Proof.
    intros Ht. destruct (Hd t Ht) as [s [Ws Es]]. destruct (Hi t Ht) as [s' [Ws' Es']]. assert (s' = s) by (eapply stamp_one; eauto). subst s'. exists s. split; [auto|]. unfold put_step. rewrite Es, Es', Hn. split.
    - rewrite put_other by apart. apply put_same.
    - intros ->. rewrite put_other by apart. rewrite put_other by apart. apply put_same.
  Qed.
  Lemma after_left k d : (N.of_nat k <= 2 ^ 64)%N ->
    let d' := after k 0 [] (put_file d nb []) in (forall t, t < k -> exported show out size asked t (R t) d') /\ d' nb = Some (counted R k) /\
      forall n, ~ of_steps out size asked (fun t => t < k) n -> n <> nb -> d' n = d n.
  Proof.
    cbv zeta. induction k as [|k IH]; intros Hk.
    - cbn [after]. split; [intros; lia|]. split; [apply put_same|]. intros n _ H. apply put_other; auto.
    - rewrite after_S. cbn [app Nat.add]. destruct IH as (A & B & D); [lia|]. set (d1 := after k 0 [] (put_file d nb [])) in *. split; [|split].
      + intros t Ht. destruct (Nat.eq_dec t k) as [->|X]; [apply put_step_own; lia|]. apply put_step_step; [lia|auto|]. apply A. lia.
      + unfold put_step. rewrite put_same. unfold counted. rewrite seq_S, flat_map_app. reflexivity.
      + intros n O Nn. rewrite put_step_other; [|lia| |auto].
        * apply D; auto. intros [t [Ht X]]. apply O. exists t. split; [lia|auto].
        * intros [t [-> X]]. apply O. exists k. split; [lia|auto].
  Qed.
End Loop.

(** * Images *)
Section Image.
  Variables (V : Type) (zero : V) (n0 n1 n2 : nat).
  Lemma index_lt z y x : z < n0 -> y < n1 -> x < n2 -> (z * n1 + y) * n2 + x < n0 * n1 * n2.
  Proof.
    intros Hz Hy Hx. assert (A : z * n1 + y < n0 * n1) by (assert ((z + 1) * n1 <= n0 * n1) by (apply Nat.mul_le_mono_r; lia); lia).
    assert ((z * n1 + y + 1) * n2 <= n0 * n1 * n2) by (apply Nat.mul_le_mono_r; lia). lia.
  Qed.
  Lemma index_of q : q < n0 * n1 * n2 -> exists z y x, z < n0 /\ y < n1 /\ x < n2 /\ q = (z * n1 + y) * n2 + x.
  Proof.
    intros H. assert (0 < n2 /\ 0 < n1) as [P2 P1] by nia. exists (q / n2 / n1), (q / n2 mod n1), (q mod n2). assert (A := Nat.div_mod_eq q n2). assert (B := Nat.div_mod_eq (q / n2) n1).
    assert (M2 := Nat.mod_upper_bound q n2). assert (M1 := Nat.mod_upper_bound (q / n2) n1). assert (L : q / n2 < n0 * n1) by (apply Nat.div_lt_upper_bound; lia).
    split; [apply Nat.div_lt_upper_bound; lia|]. split; [lia|]. split; [lia|]. nia.
  Qed.
  Lemma pictures_eq (a b : list V) f : pictures_as n0 n1 n2 a f -> pictures_as n0 n1 n2 b f -> a = b.
  Proof.
    intros [La Ha] [Lb Hb]. apply nth_error_ext. intros q. destruct (Nat.lt_ge_cases q (n0 * n1 * n2)) as [H|H].
    - destruct (index_of q H) as (z & y & x & Hz & Hy & Hx & ->). rewrite Ha, Hb by auto. reflexivity.
    - rewrite (proj2 (nth_error_None a q)) by lia. symmetry. apply nth_error_None. lia.
  Qed.
  Lemma image_pictures m f : length m = n0 * n1 * (2 * (n2 / 2 + 1)) -> (forall z y x, z < n0 -> y < n1 -> x < n2 -> padded_pixel n1 n2 m z y x = f z y x) -> pictures_as n0 n1 n2 (image V zero n0 n1 n2 m) f.
  Proof.
    intros L H. unfold image. split; [rewrite map_length, seq_length; reflexivity|]. intros z y x Hz Hy Hx. assert (B := index_lt z y x Hz Hy Hx). rewrite nth_error_map. rewrite (nth_error_nth' _ 0) by (rewrite seq_length; auto). rewrite seq_nth by auto. cbn [option_map Nat.add].
    replace (((z * n1 + y) * n2 + x) / n2) with (z * n1 + y) by (rewrite Nat.div_add_l by lia; rewrite Nat.div_small by lia; lia).
    replace (((z * n1 + y) * n2 + x) mod n2) with x by (rewrite (Nat.add_comm _ x), Nat.mod_add by lia; rewrite Nat.mod_small by lia; lia).
    rewrite <- (H z y x) by auto. unfold padded_pixel. symmetry. fold (line n2). apply nth_error_nth'. rewrite L. fold (line n2). assert (G := line_ge n2).
    assert (A : z * n1 + y < n0 * n1) by (assert ((z + 1) * n1 <= n0 * n1) by (apply Nat.mul_le_mono_r; lia); lia).
    assert ((z * n1 + y + 1) * line n2 <= n0 * n1 * line n2) by (apply Nat.mul_le_mono_r; lia). lia.
  Qed.
End Image.

(** * Before the images are read *)
Section Settings.
  Variables (home : text) (profile : option text) (status : nat) (there : bool).
  Local Notation ini := (home ++ txt "/.colloids" ++ txt "/tracker.ini").
  Lemma strip_ok given out : named given out -> strip given = Val out.
  Proof.
    intros [->|(-> & Ne & Nu)]; unfold strip.
    - destruct (out ++ txt "_") as [|c l] eqn:E; [destruct out; discriminate|]. rewrite <- E. rewrite app_length. replace (length out + length (txt "_") - 1) with (length out) by (cbn; lia). rewrite skipn_exact, firstn_exact.
      destruct (list_eq_dec ascii_dec (txt "_") (txt "_")); [reflexivity|congruence].
    - destruct out as [|c l] eqn:E; [congruence|]. rewrite <- E in *. destruct (list_eq_dec ascii_dec (skipn (length out - 1) out) (txt "_")) as [X|X]; [|reflexivity].
      exfalso. apply (Nu (firstn (length out - 1) out)). rewrite <- X. symmetry. apply firstn_skipn.
  Qed.
  Lemma settings_ok given out run d c : d ini = Some c -> named given out ->
    with_settings (Some home) profile status there true given run d = run (home ++ txt "/.colloids") out (remove_file (put_file d (out ++ txt "test.test") []) (out ++ txt "test.test")).
  Proof.
    intros Hc Hn. unfold with_settings, test_ini, config_dir. rewrite <- app_assoc. rewrite Hc. cbn [andthen]. rewrite (strip_ok given out Hn). cbn [andthen test_output]. reflexivity.
  Qed.
  Lemma removed d n m : remove_file (put_file d n []) n m = if list_eq_dec ascii_dec m n then None else d m.
  Proof. unfold remove_file, put_file. destruct (list_eq_dec ascii_dec m n); reflexivity. Qed.
End Settings.

Section Main.
  Variables (V T C : Type) (zero : V) (add : T -> V -> T) (zero_sum : T) (conv : C -> V) (over : T -> nat -> T) (show : V -> text).
  Variables n0 n1 n2 : nat.
  Variable analyse : T -> bool -> list V -> outcome (found_in V).
  Variables (threshold : option T) (asked : bool) (wis : text).
  Variables (home : text) (profile : option text) (status : nat) (there : bool) (given out : text) (d : disk) (ini : text).
  Hypothesis Hini : d (home ++ txt "/.colloids" ++ txt "/tracker.ini") = Some ini.
  Hypothesis Hgiven : named given out.
  Hypothesis Hpercent : no_percent out.
  (** What tracking finds in an image: with the threshold of the options, or with the mean of the pixels. *)
  Definition finds (img : list V) : outcome (found_in V) :=
    match threshold with Some thr => analyse thr false img | None => analyse (over (fold_left add img zero_sum) (n0 * n1 * n2)) true img end.
  Local Notation wisdom := (home ++ txt "/.colloids" ++ txt "/wisdom.fftw").

  Section Leica.
    Variables (file : list C) (start inc steps : nat) (block : list V) (xml stem ext : text) (res : nat -> found_in V).
    Hypothesis Hsize : 0 < n0 * n1 * n2.
    Hypothesis Hinc : inc = n0 * n1 * n2.
    Hypothesis Hfile : start + inc * steps <= length file.
    Hypothesis Hblock : length block = n0 * n1 * (2 * (n2 / 2 + 1)).
    Hypothesis Hext : absent [dot] ext.
    Hypothesis Hsteps : 0 < steps /\ (N.of_nat steps <= 2 ^ 64)%N.
    (** The image of time step t: its pixels are one after the other in the file. *)
    Definition leica (t : nat) (z y x : nat) : option V := option_map conv (nth_error file (start + t * (n0 * n1 * n2) + ((z * n1 + y) * n2 + x))).
    Hypothesis Hres : forall t img, t < steps -> pictures_as n0 n1 n2 img (leica t) -> finds img = Val (res t).
    Local Notation run only := (with_settings (Some home) profile status there true given
      (fun dir out => lif_main V T C zero add zero_sum conv over show n0 n1 n2 analyse threshold asked dir wis file start inc steps block xml (stem ++ [dot] ++ ext) out only) d).
    Local Notation others := [(out ++ txt "test.test", None); (wisdom, Some wis); (stem ++ txt "_header.xml", Some xml)].
    Local Notation set_step := (lif_set V T C add zero_sum conv n0 n1 n2 zero file start inc steps).
    Local Notation next_step := (lif_next V T C add zero_sum conv n0 n1 n2 zero file).
    Local Notation see := (lif_see V T zero add zero_sum over n0 n1 n2 analyse threshold).
    Definition good (t : nat) (s : lif V) : Prop := t < steps /\ at_byte V s = start + inc * (t + 1) /\ length (lmem V s) = length block /\ shows V C conv n0 n1 n2 file (lmem V s) (start + inc * t).
    Lemma good_see t s : good t s -> see s = Val (res t).
    Proof.
      intros (Ht & Ha & Hl & Hs). assert (P : pictures_as n0 n1 n2 (image V zero n0 n1 n2 (lmem V s)) (leica t)).
      { apply image_pictures; [congruence|]. intros z y x Hz Hy Hx. rewrite (Hs z y x Hz Hy Hx). unfold leica. rewrite Hinc. do 2 f_equal. lia. }
      assert (F := Hres t _ Ht P). unfold finds in F. unfold lif_see, tracked. destruct threshold; exact F.
    Qed.
    Lemma room t : t < steps -> start + inc * t + n0 * n1 * n2 <= length file.
    Proof. intros H. assert (inc * (t + 1) <= inc * steps) by (apply Nat.mul_le_mono_l; lia). lia. Qed.
    Lemma good_set t s : t < steps -> length (lmem V s) = length block -> exists s', set_step t s = Val s' /\ good t s'.
    Proof.
      intros Ht Hl. unfold lif_set. destruct (Nat.leb_spec steps t); [lia|]. destruct (fill_shows V T C add zero_sum conv n0 n1 n2 zero file (lmem V s) (start + inc * t)) as [f (E & Lf & Sf)]; [congruence|apply room; auto|].
      rewrite E. cbn [omap]. eexists. split; [reflexivity|]. unfold good. cbn [at_byte lmem]. split; [auto|]. split; [lia|]. split; [congruence|auto].
    Qed.
    Lemma good_next t s : S t < steps -> good t s -> exists s', next_step s = Val s' /\ good (S t) s'.
    Proof.
      intros Ht (_ & Ha & Hl & Hs). assert (X : inc * (t + 1) = inc * S t) by (f_equal; lia). assert (R := room (S t) Ht). unfold lif_next. destruct (Nat.leb_spec (length file) (at_byte V s)); [lia|].
      destruct (fill_shows V T C add zero_sum conv n0 n1 n2 zero file (lmem V s) (at_byte V s)) as [f (E & Lf & Sf)]; [congruence|lia|].
      rewrite E. cbn [omap]. eexists. split; [reflexivity|]. unfold good. cbn [at_byte lmem]. split; [auto|]. split; [rewrite Nat.mul_add_distr_l; lia|]. split; [congruence|]. replace (start + inc * S t) with (at_byte V s) by lia. exact Sf.
    Qed.
    (** The increment after the last time step *)
    Lemma good_end s : good (steps - 1) s -> (length file = start + inc * steps \/ start + inc * (steps + 1) <= length file -> exists s', next_step s = Val s') /\
      (start + inc * steps < length file < start + inc * (steps + 1) -> next_step s = UB).
    Proof.
      intros (_ & Ha & Hl & Hs). replace (steps - 1 + 1) with steps in Ha by lia. assert (X : inc * (steps + 1) = inc * steps + inc) by ring. unfold lif_next. rewrite Ha. split; intros H.
      - destruct (Nat.leb_spec (length file) (start + inc * steps)); [eexists; reflexivity|]. destruct (fill_shows V T C add zero_sum conv n0 n1 n2 zero file (lmem V s) (start + inc * steps)) as [f (E & _)]; [congruence|lia|]. rewrite E. eexists. reflexivity.
      - destruct (Nat.leb_spec (length file) (start + inc * steps)); [lia|]. destruct (C67_short V T C zero add zero_sum conv n0 n1 n2 (lmem V s) (skipn (start + inc * steps) file)) as [_ E]; [rewrite skipn_length; lia|]. rewrite E. reflexivity.
    Qed.
    Lemma ext_ok : no_percent (txt ".intensity") /\ no_digit_first (txt ".intensity") /\ absent (txt "_t") (txt ".intensity") /\ no_percent (txt ".dat") /\ no_digit_first (txt ".dat") /\ absent (txt "_t") (txt ".dat").
    Proof.
      assert (P : forall l, existsb (fun c => orb (Ascii.eqb c (ascii_of_N 37)) (Ascii.eqb c (ascii_of_N 95))) l = false -> no_percent l /\ absent (txt "_t") l).
      { intros l H. split.
        - intros I. assert (existsb (fun c => orb (Ascii.eqb c (ascii_of_N 37)) (Ascii.eqb c (ascii_of_N 95))) l = true); [|congruence]. apply existsb_exists. exists (ascii_of_N 37). split; [exact I|reflexivity].
        - intros h r E. assert (existsb (fun c => orb (Ascii.eqb c (ascii_of_N 37)) (Ascii.eqb c (ascii_of_N 95))) l = true); [|congruence]. apply existsb_exists. exists (ascii_of_N 95). split; [|reflexivity]. rewrite E. apply in_app_iff. right. left. reflexivity. }
      destruct (P (txt ".intensity") eq_refl) as [A B]. destruct (P (txt ".dat") eq_refl) as [A' B']. repeat (split; [assumption || (eexists _, _; split; reflexivity)|]). assumption.
    Qed.
    Lemma header : header_name (stem ++ [dot] ++ ext) = stem ++ txt "_header.xml".
    Proof.
      unfold header_name, stem_of, cut_ext. rewrite (rfind_splits [dot] _ stem ext); [rewrite firstn_exact; reflexivity|]. split; [reflexivity|]. intros h' r' E. destruct (Nat.le_gt_cases (length h') (length stem)) as [L|L]; auto. exfalso.
      rewrite (app_assoc stem) in E. apply (Hext (skipn (length (stem ++ [dot])) h') r'). assert (F := f_equal (skipn (length (stem ++ [dot]))) E). rewrite skipn_exact in F. rewrite F, skipn_app.
      rewrite (app_length stem). cbn [length]. replace (length stem + 1 - length h') with 0 by lia. reflexivity.
    Qed.
    Lemma lif_run o : (forall s, good (steps - 1) s -> match o with Val _ => exists s', next_step s = Val s' | Throw => next_step s = Throw | UB => next_step s = UB end) ->
      exists d', run None = (d', o) /\ left_files show out steps asked res steps others d d'.
    Proof.
      intros L. rewrite (settings_ok home profile status there given out _ d ini Hini Hgiven). unfold lif_main. rewrite header. set (d0 := remove_file _ _). destruct (good_set 0 (mkLif V 0 0 block)) as [st [E0 G0]]; [lia|reflexivity|]. rewrite E0. cbn [andthen].
      destruct ext_ok as (P1 & P2 & P3 & P4 & P5 & P6). destruct Hsteps as [Hs0 Hs1].
      destruct (stamps out steps (txt ".intensity") Hs0 Hs1 Hpercent P1 P2 P3) as [inten [Ei Ni]]. destruct (stamps out steps (txt ".dat") Hs0 Hs1 Hpercent P4 P5 P6) as [dat [Ed Nd]]. rewrite Ei, Ed. cbn [andthen].
      set (d1 := save_wisdom _ _ _). unfold export_steps. erewrite (loop V show asked (lif V) (fun _ => next_step) see dat inten (numbers_name out) good res steps steps st (put_file d1 (numbers_name out) []) o); auto.
      2: { intros q s _ G. apply good_see; auto. } 2: { intros q s Hq G. apply good_next; auto. } 2: { intros s G. specialize (L s G). destruct o; auto. }
      destruct (after_left V show asked dat inten (numbers_name out) res out steps Nd Ni eq_refl steps d1 Hs1) as (A & B & D). set (d2 := after _ _ _ _ _ _ _ _ _ _ _) in *.
      assert (K : forall d', (forall n, n <> wisdom -> d' n = d2 n) -> d' wisdom = Some wis -> left_files show out steps asked res steps others d d').
      { intros d' F1 F2. assert (W1 : forall a, wisdom <> a ++ txt ".nb") by (intros a; rewrite (app_assoc home); apart). split; [|split; [|split]].
        - intros t Ht. destruct (A t Ht) as [s (Ws & X & Y)]. exists s. split; [auto|]. split; [rewrite F1; [auto|rewrite (app_assoc home); apart]|intros Z; rewrite F1; [auto|rewrite (app_assoc home); apart]].
        - rewrite F1; [exact B|]. apply not_eq_sym, W1.
        - assert (O : forall n, ending n <> txt "ta" -> ending n <> txt "yt" -> ending n <> txt "bn" -> d2 n = d1 n).
          { intros n X1 X2 X3. apply D; [|intros ->; apply X3; apply end_nb]. intros [t [_ [[s [_ E]]|[_ [s [_ E]]]]]]; rewrite E in X1, X2; [apply X1, end_step_dat|apply X2, end_step_int]. }
          intros n c [X|[X|[X|[]]]]; apply pair_equal_spec in X; destruct X as [<- <-].
          + rewrite F1 by (rewrite (app_assoc home); apart). rewrite O by (rewrite end_test; discriminate). unfold d1, save_wisdom. rewrite put_other by apart. rewrite put_other by apart. unfold d0. rewrite removed. destruct (list_eq_dec ascii_dec (out ++ txt "test.test") (out ++ txt "test.test")); [reflexivity|congruence].
          + exact F2.
          + rewrite F1 by (rewrite (app_assoc home); apart). rewrite O by (rewrite end_xml; discriminate). unfold d1, save_wisdom. rewrite put_other by apart. apply put_same.
        - intros n O Nn Io. cbn [map fst In] in Io. rewrite F1 by (intros ->; apply Io; auto). rewrite D by auto. unfold d1, save_wisdom. rewrite <- app_assoc. rewrite put_other by (intros ->; apply Io; auto). rewrite put_other by (intros ->; apply Io; auto). unfold d0. rewrite removed. destruct (list_eq_dec ascii_dec n (out ++ txt "test.test")) as [->|]; [exfalso; apply Io; auto|auto]. }
      assert (Kw : d2 wisdom = Some wis).
      { rewrite D; [unfold d1, save_wisdom; rewrite <- app_assoc; apply put_same| |rewrite (app_assoc home); unfold numbers_name; apart]. intros [t [_ [[s [_ E]]|[_ [s [_ E]]]]]]; revert E; rewrite (app_assoc home); apart. }
      destruct o as [[]| |]; cbn [andthen].
      - eexists. split; [reflexivity|]. apply K; unfold save_wisdom; rewrite <- app_assoc; [intros n X; apply put_other; auto|apply put_same].
      - eexists. split; [reflexivity|]. apply K; auto.
      - eexists. split; [reflexivity|]. apply K; auto.
    Qed.
    (** C143. A Leica file whose data end with the series, or go on for at least one more image: every time step is tracked once, its files are written, and the run succeeds. *)
    Theorem C143_lif : length file = start + inc * steps \/ start + inc * (steps + 1) <= length file -> exists d', run None = (d', Val tt) /\ left_files show out steps asked res steps others d d'.
    Proof. intros H. apply lif_run. intros s G. apply (proj1 (good_end s G)). exact H. Qed.
    (** When what follows the series is shorter than an image, the same files are written, and then bytes are read after the end of the file. *)
    Theorem C143_rest_refuted : start + inc * steps < length file < start + inc * (steps + 1) -> exists d', run None = (d', UB) /\ left_files show out steps asked res steps others d d'.
    Proof. intros H. apply lif_run. intros s G. apply (proj2 (good_end s G)). exact H. Qed.
    (** One time step only: its files and no file of numbers. *)
    Theorem C143_only t : t < steps -> exists d', run (Some t) = (d', Val tt) /\ exported show out steps asked t (res t) d' /\ (forall n c, In (n, c) others -> d' n = c) /\
      forall n, ~ of_steps out steps asked (fun q => q = t) n -> ~ In n (map fst others) -> d' n = d n.
    Proof.
      intros Ht. rewrite (settings_ok home profile status there given out _ d ini Hini Hgiven). unfold lif_main. rewrite header. set (d0 := remove_file _ _). destruct (good_set 0 (mkLif V 0 0 block)) as [st [E0 G0]]; [lia|reflexivity|]. rewrite E0. cbn [andthen].
      destruct ext_ok as (P1 & P2 & P3 & P4 & P5 & P6). destruct Hsteps as [Hs0 Hs1].
      destruct (stamps out steps (txt ".intensity") Hs0 Hs1 Hpercent P1 P2 P3) as [inten [Ei Ni]]. destruct (stamps out steps (txt ".dat") Hs0 Hs1 Hpercent P4 P5 P6) as [dat [Ed Nd]]. rewrite Ei, Ed. cbn [andthen].
      destruct (good_set t st Ht) as [st' [E1 G1]]; [apply G0|]. rewrite E1. cbn [andthen]. rewrite (good_see t st' G1). cbn [andthen]. destruct (res t) as [[upper ps] is] eqn:Er. cbn [andthen]. eexists. split; [reflexivity|].
      destruct (Nd t) as [s [Ws Es]]; [lia|]. destruct (Ni t) as [s' [Ws' Es']]; [lia|]. assert (s' = s) by (eapply stamp_one; eauto). subst s'. rewrite Es, Es'. unfold save_wisdom. rewrite <- !app_assoc. set (d1 := put_file (put_file d0 _ _) wisdom wis).
      assert (Nw : forall a, wisdom <> a ++ txt ".dat" /\ wisdom <> a ++ txt ".intensity") by (intros a; split; rewrite (app_assoc home); apart).
      split; [|split].
      - exists s. split; [auto|]. cbn [fst snd]. split.
        + rewrite put_other by (rewrite (app_assoc home); apart). apply put_same.
        + intros ->. rewrite put_other by (rewrite (app_assoc home); apart). rewrite put_other by apart. apply put_same.
      - intros n c [X|[X|[X|[]]]]; apply pair_equal_spec in X; destruct X as [<- <-].
        + rewrite put_other by (rewrite (app_assoc home); apart). rewrite put_other by apart. assert (Y : d1 (out ++ txt "test.test") = None). { unfold d1. rewrite put_other by (rewrite (app_assoc home); apart). rewrite put_other by apart. unfold d0. rewrite removed. destruct (list_eq_dec ascii_dec (out ++ txt "test.test") (out ++ txt "test.test")); [reflexivity|congruence]. }
          destruct asked; [rewrite put_other by apart|]; exact Y.
        + apply put_same.
        + rewrite put_other by (rewrite (app_assoc home); apart). rewrite put_other by apart. assert (Y : d1 (stem ++ txt "_header.xml") = Some xml). { unfold d1. rewrite put_other by (rewrite (app_assoc home); apart). apply put_same. }
          destruct asked; [rewrite put_other by apart|]; exact Y.
      - intros n O Io. cbn [map fst In] in Io. rewrite put_other by (intros ->; apply Io; auto). rewrite put_other by (intros ->; apply O; exists t; split; [auto|left; exists s; auto]).
        assert (Y : d1 n = d n). { unfold d1. rewrite put_other by (intros ->; apply Io; auto). rewrite put_other by (intros ->; apply Io; auto). unfold d0. rewrite removed. destruct (list_eq_dec ascii_dec n (out ++ txt "test.test")) as [->|]; [exfalso; apply Io; auto|auto]. }
        destruct asked eqn:Ea; [rewrite put_other by (intros ->; apply O; exists t; split; [auto|right; split; [auto|exists s; auto]])|]; exact Y.
    Qed.
    Theorem C143_only_beyond t : steps <= t -> snd (run (Some t)) = Throw.
    Proof.
      intros Ht. rewrite (settings_ok home profile status there given out _ d ini Hini Hgiven). unfold lif_main. destruct (good_set 0 (mkLif V 0 0 block)) as [st [E0 G0]]; [lia|reflexivity|]. rewrite E0. cbn [andthen].
      destruct ext_ok as (P1 & P2 & P3 & _). destruct Hsteps as [Hs0 Hs1]. destruct (stamps out steps (txt ".intensity") Hs0 Hs1 Hpercent P1 P2 P3) as [inten [Ei Ni]]. rewrite Ei. cbn [andthen]. rewrite C89_beyond by auto. reflexivity.
    Qed.
  End Leica.

  Section Series.
    Variables (pictures : text -> option (picture C)) (channel e nt : nat) (block : list V) (head zd td tail : text) (pics : nat -> nat -> picture C) (res : nat -> found_in V).
    Hypothesis Hblock : length block = n0 * n1 * (2 * (n2 / 2 + 1)).
    Hypothesis Hnt : 0 < nt /\ (N.of_nat nt <= 2 ^ 64)%N.
    Hypothesis He : (N.of_nat e <= 2 ^ 64)%N.
    Local Notation input := (head ++ z_mark ++ zd ++ t_mark ++ td ++ tail).
    Hypothesis Hz : plain z_mark (Some zd) n0 input tail.
    Hypothesis Ht : plain t_mark (Some td) nt input tail.
    Hypothesis Hin : no_percent input /\ ~ In nul input.
    (** The file of slice z of time step t has the name given, with other numbers. *)
    Definition slice_file (z t : nat) (n : text) : Prop := exists zs ts, writes (length zd) (N.of_nat z) zs /\ writes (length td) (N.of_nat t) ts /\ n = head ++ z_mark ++ zs ++ t_mark ++ ts ++ tail.
    Definition slice_there (t z : nat) : Prop := forall n, slice_file z t n -> pictures n = Some (pics t z) /\ fits C n1 n2 channel (pics t z).
    Definition slice_missing (t z : nat) : Prop := forall n, slice_file z t n -> pictures n = None.
    Definition all_there (t : nat) : Prop := forall z, z < n0 -> slice_there t z.
    Definition some_missing (t : nat) : Prop := (forall z, z < n0 -> slice_there t z \/ slice_missing t z) /\ exists z, z < n0 /\ slice_missing t z.
    Definition slices (t z y x : nat) : option V := option_map conv (pict C (pics t z) channel y x).
    Local Notation run := (with_settings (Some home) profile status there true given
      (fun dir out => serie_main V T C zero add zero_sum conv over show n0 n1 n2 analyse threshold asked dir wis pictures channel e nt block input out) d).
    Local Notation others := [(out ++ txt "test.test", None); (wisdom, Some wis)].
    Local Notation set_step := (set_time_step V T C add zero_sum conv over n0 n1 n2 pictures).
    Lemma pattern_ok : exists p, serie_pattern input n0 nt = Val p /\ p_z p <> None /\ forall z t, exists n, slice_file z t n /\ slice_name p (N.of_nat z) (N.of_nat t) = n.
    Proof.
      assert (E1 : input = head ++ marked z_mark (Some zd) ++ marked t_mark (Some td) ++ tail) by (cbn [marked]; rewrite <- !app_assoc; reflexivity). destruct Hin as [NP NN].
      assert (X := C88_names head (Some zd) (Some td) tail n0 nt). cbv zeta in X. rewrite <- E1 in X. destruct (X Hz Ht NP NN) as [p [E K]].
      assert (Y := serie_pattern_ok head (Some zd) (Some td) tail n0 nt). cbv zeta in Y. rewrite <- E1 in Y. destruct (Y Hz Ht NP) as [p' (E' & Zp & _)]. assert (p' = p) by congruence. subst p'. exists p. split; [auto|]. split; [rewrite Zp; discriminate|].
      intros z t. eexists. split; [|reflexivity]. exists (pad (length zd) (N.of_nat z)), (pad (length td) (N.of_nat t)). split; [apply pad_writes|]. split; [apply pad_writes|].
      rewrite (K _ _ (Some (pad (length zd) (N.of_nat z))) (Some (pad (length td) (N.of_nat t)))); [cbn [marked]; rewrite <- !app_assoc; reflexivity|apply pad_writes|apply pad_writes].
    Qed.
    Lemma slices_flat t : (forall z, z < n0 -> fits C n1 n2 channel (pics t z)) -> pictures_as n0 n1 n2 (map conv (flat_map (fun z => plane C n1 n2 channel (pics t z)) (seq 0 n0))) (slices t).
    Proof.
      intros F.
      assert (L : forall z, z < n0 -> length (plane C n1 n2 channel (pics t z)) = n1 * n2).
      { intros z Hz'. destruct (F z Hz') as (W & H & D & S' & L). unfold plane. rewrite firstn_length, skipn_length, L, W, H, D. assert ((channel + 1) * (n1 * n2) <= spec (pics t z) * (n1 * n2)) by (apply Nat.mul_le_mono_r; lia). nia. }
      assert (G : forall n a z i, a + n <= n0 -> z < n -> i < n1 * n2 -> nth_error (flat_map (fun z => plane C n1 n2 channel (pics t z)) (seq a n)) (z * (n1 * n2) + i) = nth_error (plane C n1 n2 channel (pics t (a + z))) i).
      { induction n as [|n IH]; intros a z i Ha Hzn Hi; [lia|]. cbn [seq flat_map]. destruct z as [|z].
        - rewrite nth_error_app1 by (rewrite L; lia). rewrite Nat.add_0_r. reflexivity.
        - rewrite nth_error_app2 by (rewrite L by lia; cbn; lia). rewrite L by lia. replace (S z * (n1 * n2) + i - n1 * n2) with (z * (n1 * n2) + i) by (cbn; lia). rewrite IH by lia. do 3 f_equal. lia. }
      split.
      - rewrite map_length. assert (X : forall n, n <= n0 -> length (flat_map (fun z => plane C n1 n2 channel (pics t z)) (seq 0 n)) = n * (n1 * n2)).
        { induction n as [|n IH]; intros Hn; [reflexivity|]. rewrite seq_S, flat_map_app, app_length, IH by lia. cbn [flat_map Nat.add]. rewrite app_nil_r, L by lia. cbn. lia. }
        rewrite X by lia. lia.
      - intros z y x Hz' Hy Hx. rewrite nth_error_map. unfold slices. f_equal. replace ((z * n1 + y) * n2 + x) with (z * (n1 * n2) + (y * n2 + x)) by ring. assert (Hi : y * n2 + x < n1 * n2) by (assert ((y + 1) * n2 <= n1 * n2) by (apply Nat.mul_le_mono_r; lia); lia).
        rewrite G by lia. cbn [Nat.add]. unfold plane, pict. rewrite nth_error_firstn_x by lia. rewrite nth_skip. destruct (F z Hz') as (W & H & _). rewrite W, H. f_equal. lia.
    Qed.
    Definition ready (k t : nat) (st : list V * option T) : Prop := t < k -> length (fst st) = length block /\ tracked V T zero n0 n1 n2 analyse threshold (fst st) (snd st) = Val (res t).
    Lemma set_there p t m : p_z p <> None -> (forall z t, exists n, slice_file z t n /\ slice_name p (N.of_nat z) (N.of_nat t) = n) -> all_there t -> length m = length block ->
      exists m' img, set_step p channel (N.of_nat t) m = Val (m', Some (over (fold_left add img zero_sum) (n0 * n1 * n2))) /\ length m' = length block /\ image V zero n0 n1 n2 m' = img /\ pictures_as n0 n1 n2 img (slices t).
    Proof.
      intros Pz N A Lm. destruct (C88_image V T C add zero_sum conv over n0 n1 n2 pictures p channel (N.of_nat t) m (pics t) zero) as [m' (E & L' & K)]; [congruence|auto| |].
      - intros z Hz'. destruct (N z t) as [n [Sn <-]]. apply (A z Hz' _ Sn).
      - assert (P : pictures_as n0 n1 n2 (image V zero n0 n1 n2 m') (slices t)) by (apply image_pictures; [congruence|auto]).
        assert (Q : pictures_as n0 n1 n2 (map conv (flat_map (fun z => plane C n1 n2 channel (pics t z)) (seq 0 n0))) (slices t)). { apply slices_flat. intros z Hz'. destruct (N z t) as [n [Sn _]]. apply (A z Hz' _ Sn). }
        assert (Eq := pictures_eq V n0 n1 n2 _ _ _ P Q). eexists m', _. split; [exact E|]. split; [congruence|]. split; [exact Eq|exact Q].
    Qed.
    Lemma set_missing p t m : p_z p <> None -> (forall z t, exists n, slice_file z t n /\ slice_name p (N.of_nat z) (N.of_nat t) = n) -> some_missing t -> length m = length block -> set_step p channel (N.of_nat t) m = Throw.
    Proof.
      intros Pz N [A [z0 [Hz0 B]]] Lm. apply (C88_missing_file V T C add zero_sum conv over n0 n1 n2 pictures p channel (N.of_nat t) m); auto; [congruence| |].
      - intros z Hz'. destruct (N z t) as [n [Sn <-]]. destruct (A z Hz') as [X|X]; [right; exists (pics t z); apply X; auto|left; apply X; auto].
      - exists z0. split; [auto|]. destruct (N z0 t) as [n [Sn <-]]. apply B. auto.
    Qed.
    Lemma serie_run k o : k <= e -> (forall t, t < k -> all_there t) -> all_there 0 -> (forall t img, t < k -> pictures_as n0 n1 n2 img (slices t) -> finds img = Val (res t)) ->
      match o with Val _ => k = e /\ all_there k | Throw => 0 < k /\ some_missing k | UB => False end ->
      exists d', run = (d', o) /\ left_files show out nt asked res k others d d'.
    Proof.
      intros Hk A A0 F Ho. rewrite (settings_ok home profile status there given out _ d ini Hini Hgiven). unfold serie_main. set (d0 := remove_file _ _). destruct pattern_ok as [p (Ep & Pz & Np)]. rewrite Ep. cbn [andthen].
      assert (G : forall t m, all_there t -> length m = length block -> (t < k -> t < k) -> exists st, set_step p channel (N.of_nat t) m = Val st /\ length (fst st) = length block /\ ready k t st).
      { intros t m At Lm _. destruct (set_there p t m Pz Np At Lm) as [m' [img (E & L' & Ei & Pi)]]. eexists. split; [exact E|]. cbn [fst]. split; [auto|]. intros Htk. cbn [fst snd]. split; [auto|]. assert (Fi := F t img Htk Pi). unfold finds in Fi. unfold tracked. rewrite Ei. destruct threshold; exact Fi. }
      destruct (G 0 block A0 eq_refl (fun x => x)) as [st (E0 & L0 & R0)]. change (N.of_nat 0) with 0%N in E0. rewrite E0. cbn [andthen].
      destruct ext_ok as (P1 & P2 & P3 & P4 & P5 & P6). destruct Hnt as [Hs0 Hs1].
      destruct (stamps out nt (txt ".intensity") Hs0 Hs1 Hpercent P1 P2 P3) as [inten [Ei Ni]]. destruct (stamps out nt (txt ".dat") Hs0 Hs1 Hpercent P4 P5 P6) as [dat [Ed Nd]]. rewrite Ei, Ed. cbn [andthen].
      set (d1 := save_wisdom _ _ _). unfold export_steps.
      set (nx := fun (t : nat) (st : list V * option T) => set_step p channel (N.of_nat t) (fst st)). set (se := fun st : list V * option T => tracked V T zero n0 n1 n2 analyse threshold (fst st) (snd st)).
      assert (R : for_steps V show asked (list V * option T) nx se dat inten (numbers_name out) e 0 [] st (put_file d1 (numbers_name out) []) = (after V show asked dat inten (numbers_name out) res k 0 [] (put_file d1 (numbers_name out) []), o)).
      { destruct (Nat.eq_dec k 0) as [K0|K0].
        - destruct o as [[]| |]; [|lia|tauto]. destruct Ho as [Eo _]. rewrite <- Eo, K0. reflexivity.
        - apply (loop V show asked (list V * option T) nx se dat inten (numbers_name out) (fun t st => t < k /\ ready k t st)); auto; [lia|split; [lia|auto]| | |].
          + intros q s Hq [_ Rq]. apply (Rq Hq).
          + intros q s Hq [_ Rq]. destruct (Rq ltac:(lia)) as [Ls _]. destruct (G (S q) (fst s) (A (S q) Hq) Ls (fun x => x)) as [st' (E' & _ & R')]. exists st'. split; [exact E'|]. split; [lia|auto].
          + intros s [_ Rq]. destruct (Rq ltac:(lia)) as [Ls _]. destruct o as [[]| |]; [|apply (set_missing p k (fst s)); tauto|tauto].
            destruct Ho as [Eo Ao]. split; [auto|]. destruct (set_there p k (fst s) Pz Np Ao Ls) as [m' [img (E & _)]]. eexists. exact E. }
      rewrite R. assert (Hk2 : (N.of_nat k <= 2 ^ 64)%N) by lia. destruct (after_left V show asked dat inten (numbers_name out) res out nt Nd Ni eq_refl k d1 Hk2) as (A' & B & D). set (d2 := after _ _ _ _ _ _ _ _ _ _ _) in *.
      assert (K : forall d', (forall n, n <> wisdom -> d' n = d2 n) -> d' wisdom = Some wis -> left_files show out nt asked res k others d d').
      { intros d' F1 F2. split; [|split; [|split]].
        - intros t Htk. destruct (A' t Htk) as [s (Ws & X & Y)]. exists s. split; [auto|]. split; [rewrite F1; [auto|rewrite (app_assoc home); apart]|intros Z; rewrite F1; [auto|rewrite (app_assoc home); apart]].
        - rewrite F1; [exact B|]. rewrite (app_assoc home); apart.
        - intros n c [X|[X|[]]]; apply pair_equal_spec in X; destruct X as [<- <-]; [|exact F2]. rewrite F1 by (rewrite (app_assoc home); apart). rewrite D.
          + unfold d1, save_wisdom. rewrite put_other by apart. unfold d0. rewrite removed. destruct (list_eq_dec ascii_dec (out ++ txt "test.test") (out ++ txt "test.test")); [reflexivity|congruence].
          + intros [t [_ [[s [_ E]]|[_ [s [_ E]]]]]]; revert E; apart.
          + unfold numbers_name. apart.
        - intros n O Nn Io. cbn [map fst In] in Io. rewrite F1 by (intros ->; apply Io; auto). rewrite D by auto. unfold d1, save_wisdom. rewrite <- app_assoc. rewrite put_other by (intros ->; apply Io; auto). unfold d0. rewrite removed. destruct (list_eq_dec ascii_dec n (out ++ txt "test.test")) as [->|]; [exfalso; apply Io; auto|auto]. }
      assert (Kw : d2 wisdom = Some wis).
      { rewrite D; [unfold d1, save_wisdom; rewrite <- app_assoc; apply put_same| |rewrite (app_assoc home); unfold numbers_name; apart]. intros [t [_ [[s [_ E]]|[_ [s [_ E]]]]]]; revert E; rewrite (app_assoc home); apart. }
      destruct o as [[]| |]; cbn [andthen].
      - eexists. split; [reflexivity|]. apply K; unfold save_wisdom; rewrite <- app_assoc; [intros n X; apply put_other; auto|apply put_same].
      - eexists. split; [reflexivity|]. apply K; auto.
      - tauto.
    Qed.
    (** C143. A series of image files. The number of steps is [e], which is never set, not the [nt] of the options: images of steps 0 to e, and files of the steps before e. *)
    Theorem C143_serie : (forall t, t <= e -> all_there t) -> (forall t img, t < e -> pictures_as n0 n1 n2 img (slices t) -> finds img = Val (res t)) ->
      exists d', run = (d', Val tt) /\ left_files show out nt asked res e others d d'.
    Proof. intros A F. apply serie_run; auto; [intros t H; apply A; lia|apply A; lia]. Qed.
    (** The images of m steps, fewer than e+1: files of these steps, then an exception. *)
    Theorem C143_serie_missing m : 0 < m -> m <= e -> (forall t, t < m -> all_there t) -> some_missing m -> (forall t img, t < m -> pictures_as n0 n1 n2 img (slices t) -> finds img = Val (res t)) ->
      exists d', run = (d', Throw) /\ left_files show out nt asked res m others d d'.
    Proof. intros H1 H2 A M F. apply serie_run; auto. Qed.
    (** So with the images of the nt steps asked for and no others, whatever the memory contained, the run does not both succeed and write the files of all steps. *)
    Theorem C143_serie_refuted : (forall t, t < nt -> all_there t) -> some_missing nt -> (forall t img, t < nt -> pictures_as n0 n1 n2 img (slices t) -> finds img = Val (res t)) ->
      (forall n, step_file out nt (nt - 1) (txt ".dat") n -> d n = None) -> ~ exists d', run = (d', Val tt) /\ forall t, t < nt -> exported show out nt asked t (res t) d'.
    Proof.
      intros A M F Dn [d' [E X]]. destruct (Nat.lt_ge_cases e nt) as [H|H].
      - destruct C143_serie as [d2 [E2 L2]]; [intros t Hte; apply A; lia|intros t img Hte; apply F; lia|]. assert (d2 = d') by congruence. subst d2. destruct (X (nt - 1)) as [s (Ws & Xd & _)]; [lia|]. destruct L2 as (_ & _ & _ & L2). rewrite L2 in Xd.
        + rewrite (Dn (out ++ txt "_t" ++ s ++ txt ".dat")) in Xd; [discriminate|]. exists s. auto.
        + intros [t [Hte [[s' [Ws' E']]|[_ [s' [_ E']]]]]]; [|revert E'; apart]. do 2 apply app_inv_head in E'. apply app_inv_tail in E'. subst s'. assert (nt - 1 = t) by (eapply stamp_fun; eauto). lia.
        + apart.
        + cbn [map fst In]. rewrite (app_assoc home). intros [Y|[Y|[]]]; revert Y; apart.
      - destruct (C143_serie_missing nt) as [d2 [E2 _]]; auto; [lia|]. congruence.
    Qed.
  End Series.
  (** A series without slices and no threshold: the threshold is a mean that is never computed. *)
  Theorem C143_flat_refuted (pictures : text -> option (picture C)) channel e nt block head td tail b : length block = n0 * n1 * (2 * (n2 / 2 + 1)) -> 0 < nt -> (N.of_nat nt <= 2 ^ 64)%N -> 0 < e -> n0 = 1 ->
    let input := head ++ t_mark ++ td ++ tail in absent z_mark input -> plain t_mark (Some td) nt input tail -> no_percent input -> ~ In nul input ->
    (forall ts, writes (length td) 0 ts -> pictures (head ++ t_mark ++ ts ++ tail) = Some b) -> fits C n1 n2 channel b -> threshold = None ->
    snd (with_settings (Some home) profile status there true given (fun dir out => serie_main V T C zero add zero_sum conv over show n0 n1 n2 analyse threshold asked dir wis pictures channel e nt block input out) d) = UB.
  Proof.
    cbv zeta. intros Lb Hnt Hnt2 He N0 Az Pt NP NN Pb Fb Th. rewrite (settings_ok home profile status there given out _ d ini Hini Hgiven). unfold serie_main.
    assert (E1 : head ++ t_mark ++ td ++ tail = head ++ marked z_mark None ++ marked t_mark (Some td) ++ tail) by (cbn [marked app]; rewrite <- !app_assoc; reflexivity).
    assert (Pz : plain z_mark None n0 (head ++ t_mark ++ td ++ tail) tail) by (split; [auto|lia]).
    assert (X := C88_names head None (Some td) tail n0 nt). cbv zeta in X. rewrite <- E1 in X. destruct (X Pz Pt NP NN) as [p [E K]].
    assert (Y := serie_pattern_ok head None (Some td) tail n0 nt). cbv zeta in Y. rewrite <- E1 in Y. destruct (Y Pz Pt NP) as [p' (E' & Zp & _)]. assert (p' = p) by congruence. subst p'. rewrite E. cbn [andthen]. cbn [option_map] in Zp.
    destruct Fb as (W & H & D & Sp & L). destruct (C88_flat V T C add zero_sum conv over n0 n1 n2 pictures p channel 0%N block b) as [m' (Es & _)]; auto; [|congruence|].
    - rewrite (K 0%N 0%N None (Some (pad (length td) 0))); [cbn [marked app]; rewrite <- app_assoc; apply Pb, pad_writes|exact I|apply pad_writes].
    - rewrite Es. cbn [andthen]. destruct ext_ok as (P1 & P2 & P3 & P4 & P5 & P6).
      destruct (stamps out nt (txt ".intensity") Hnt Hnt2 Hpercent P1 P2 P3) as [inten [Ei Ni]]. destruct (stamps out nt (txt ".dat") Hnt Hnt2 Hpercent P4 P5 P6) as [dat [Ed Nd]]. rewrite Ei, Ed. cbn [andthen].
      destruct e as [|e']; [lia|]. unfold export_steps. cbn [for_steps fst snd]. unfold tracked at 1. rewrite Th. reflexivity.
  Qed.
End Main.

(** * The configuration *)
(** C143. Without its directory, the first run always fails: a command that succeeds is taken for a failure. *)
Theorem C143_first_run_refuted home profile status there writable given run d : d (home ++ txt "/.colloids" ++ txt "/tracker.ini") = None -> (status = 0 <-> there = true) ->
  with_settings (Some home) profile status there writable given run d = (d, Throw).
Proof.
  intros H S'. unfold with_settings, test_ini, config_dir. rewrite <- app_assoc. rewrite H. destruct (Nat.eqb_spec status 0) as [E|E]; [reflexivity|]. destruct there; [exfalso; apply E, S'; reflexivity|reflexivity].
Qed.
(** With the directory already there, the command fails and the default configuration is written; then everything goes as if it had been there. One that is there is kept. *)
Theorem C143_ini home profile status writable given run d : d (home ++ txt "/.colloids" ++ txt "/tracker.ini") = None -> status <> 0 ->
  exists c, with_settings (Some home) profile status true writable given run d = with_settings (Some home) profile status true writable given run (put_file d (home ++ txt "/.colloids" ++ txt "/tracker.ini") c) /\
    exists a b, c = a ++ txt "radiusMin = 3.48" ++ [newline] ++ txt "radiusMax = 64" ++ [newline] ++ b /\
      (exists b1, b = b1 ++ txt "channel = 1" ++ [newline] ++ txt "xsize = 256" ++ [newline] ++ txt "ysize = 256" ++ [newline] ++ txt "zsize = 128" ++ [newline] ++ txt "tsize = 1" ++ [newline]
         ++ txt "voxelWidth = 1" ++ [newline] ++ txt "voxelDepth = 1" ++ [newline]).
Proof.
  intros H S'. exists (ini_text home). split.
  - unfold with_settings, test_ini, config_dir. rewrite <- !app_assoc. rewrite H, put_same. destruct (Nat.eqb_spec status 0); [lia|]. reflexivity.
  - unfold ini_text. cbn [flat_map]. rewrite !app_assoc_reverse. eexists (txt "# Tracking configuration" ++ [newline] ++ (txt "input=" ++ home ++ txt "/Code_data/liftest/Tsuru11dm_phi=52.53_J36.lif") ++ [newline] ++ (txt "outputPath = " ++ home ++ txt "/Code_output/liftest/test_") ++ [newline]), _. split; [rewrite !app_assoc_reverse; reflexivity|]. exists ([newline] ++ txt "# Specific to file serie mode" ++ [newline]). reflexivity.
Qed.
(** No variable HOME: userprofile is used; neither: failure. The empty name of results, and one that cannot be created, are refused, before anything is written. *)
Theorem C143_home home status there writable given run d : with_settings None (Some home) status there writable given run d = with_settings (Some home) None status there writable given run d.
Proof. reflexivity. Qed.
Theorem C143_refused home profile status there given run d ini : with_settings None None status there true given run d = (d, Throw) /\
  (d (home ++ txt "/.colloids" ++ txt "/tracker.ini") = Some ini -> with_settings (Some home) profile status there true [] run d = (d, Throw) /\ with_settings (Some home) profile status there false given run d = (d, Throw)).
Proof.
  split; [reflexivity|]. intros H. unfold with_settings, test_ini, config_dir. rewrite <- app_assoc. rewrite H. cbn [andthen]. split; [reflexivity|]. destruct (strip given) eqn:E; [reflexivity|reflexivity|].
  unfold strip in E. destruct given; [discriminate|]. destruct (list_eq_dec _ _ _); discriminate.
Qed.

(** Two images of two pixels; tracking finds the pixels above the threshold. *)
Definition ex_analyse (thr : nat) (auto : bool) (img : list nat) : outcome (found_in nat) :=
  let l := filter (fun k => thr <? nth k img 0) (seq 0 (length img)) in Val ((0, 0, length img), map (fun k => (0, 0, k)) l, map (fun k => nth k img 0) l).
Definition ex_file : list nat := [5; 1; 2; 7].
Definition ex_res (thr t : nat) : found_in nat := match ex_analyse thr false (firstn 2 (skipn (2 * t) ex_file)) with Val r => r | _ => ((0, 0, 0), [], []) end.
Definition ex_disk (n : text) : option text := if list_eq_dec ascii_dec n (txt "/.colloids" ++ txt "/tracker.ini") then Some [] else if list_eq_dec ascii_dec n (txt "old") then Some (txt "kept") else None.
Lemma ex_leica t (img : list nat) : t < 2 -> pictures_as 1 1 2 img (leica nat nat (fun c => c) 1 1 2 ex_file 0 t) -> img = firstn 2 (skipn (2 * t) ex_file).
Proof.
  intros Ht P. eapply pictures_eq; [exact P|]. split; [destruct t as [|[|t]]; [reflexivity|reflexivity|lia]|]. intros z y x Hz Hy Hx. assert (z = 0) by lia. assert (y = 0) by lia. subst z y.
  destruct t as [|[|t]]; [| |lia]; destruct x as [|[|x]]; try reflexivity; lia.
Qed.
Example ex_lif : exists d', with_settings (Some []) None 1 true true (txt "r_") (fun dir out => lif_main nat nat nat 0 Nat.add 0 (fun c => c) (fun s n => s / n) print_nat 1 1 2 ex_analyse (Some 1) true dir (txt "w") ex_file 0 2 2 [0; 0; 0; 0] (txt "x") (txt "i" ++ [dot] ++ txt "lif") out None) ex_disk = (d', Val tt) /\
  left_files print_nat (txt "r") 2 true (ex_res 1) 2 [(txt "r" ++ txt "test.test", None); ([] ++ txt "/.colloids" ++ txt "/wisdom.fftw", Some (txt "w")); (txt "i" ++ txt "_header.xml", Some (txt "x"))] ex_disk d'.
Proof.
  assert (H1 : named (txt "r_") (txt "r")) by (left; reflexivity). assert (H2 : no_percent (txt "r")) by (intros [X|[]]; discriminate).
  assert (H3 : absent [dot] (txt "lif")). { intros h r E. assert (I : In dot (txt "lif")) by (rewrite E; apply in_app_iff; right; left; reflexivity). cbn in I. destruct I as [I|[I|[I|[]]]]; discriminate. }
  assert (H4 : forall t img, t < 2 -> pictures_as 1 1 2 img (leica nat nat (fun c => c) 1 1 2 ex_file 0 t) -> finds nat nat Nat.add 0 (fun s n => s / n) 1 1 2 ex_analyse (Some 1) img = Val (ex_res 1 t)).
  { intros t img Ht P. rewrite (ex_leica t img Ht P). unfold finds, ex_res. destruct t as [|[|t]]; [reflexivity|reflexivity|lia]. }
  assert (H5 : 0 < 2 /\ (N.of_nat 2 <= 2 ^ 64)%N) by (split; [lia|discriminate]).
  assert (H6 : length ex_file = 0 + 2 * 2 \/ 0 + 2 * (2 + 1) <= length ex_file) by (left; reflexivity).
  assert (H7 : 0 + 2 * 2 <= length ex_file) by (cbn; lia). assert (H8 : 0 < 1 * 1 * 2) by lia.
  exact (C143_lif nat nat nat 0 Nat.add 0 (fun c => c) (fun s n => s / n) print_nat 1 1 2 ex_analyse (Some 1) true (txt "w") [] None 1 true (txt "r_") (txt "r") ex_disk [] eq_refl H1 H2 ex_file 0 2 2 [0; 0; 0; 0] (txt "x") (txt "i") (txt "lif") (ex_res 1) H8 eq_refl H7 eq_refl H3 H5 H4 H6).
Qed.
Example ex_lif_files : let r := with_settings (Some []) None 1 true true (txt "r_") (fun dir out => lif_main nat nat nat 0 Nat.add 0 (fun c => c) (fun s n => s / n) print_nat 1 1 2 ex_analyse (Some 1) true dir (txt "w") ex_file 0 2 2 [0; 0; 0; 0] (txt "x") (txt "i.lif") out None) ex_disk in
  snd r = Val tt /\ fst r (txt "r.nb") = Some (txt "1" ++ [newline] ++ txt "2" ++ [newline]) /\ fst r (txt "r_t1.intensity") = Some (txt "2" ++ [newline] ++ txt "7" ++ [newline]) /\ fst r (txt "old") = Some (txt "kept") /\ fst r (txt "r_t2.dat") = None /\
  fst r (txt "r_t0.dat") = Some (export_dat nat print_nat (0, 0, 2) [(0, 0, 0)]).
Proof. repeat split; vm_compute; reflexivity. Qed.
(** One more byte at the end of the file *)
Example ex_rest : snd (with_settings (Some []) None 1 true true (txt "r_") (fun dir out => lif_main nat nat nat 0 Nat.add 0 (fun c => c) (fun s n => s / n) print_nat 1 1 2 ex_analyse (Some 1) true dir (txt "w") (ex_file ++ [9]) 0 2 2 [0; 0; 0; 0] (txt "x") (txt "i.lif") out None) ex_disk) = UB.
Proof. vm_compute. reflexivity. Qed.
(** Images of two time steps, of two slices of one pixel, without threshold: e = 1, 2, 3. *)
Definition ex_pictures (n : text) : option (picture nat) :=
  if list_eq_dec ascii_dec n (txt "a_z0_t0.b") then Some (mkPicture 1 1 1 1 [5]) else if list_eq_dec ascii_dec n (txt "a_z1_t0.b") then Some (mkPicture 1 1 1 1 [1])
  else if list_eq_dec ascii_dec n (txt "a_z0_t1.b") then Some (mkPicture 1 1 1 1 [2]) else if list_eq_dec ascii_dec n (txt "a_z1_t1.b") then Some (mkPicture 1 1 1 1 [7]) else None.
Definition ex_serie (e : nat) := with_settings (Some []) None 1 true true (txt "r_") (fun dir out => serie_main nat nat nat 0 Nat.add 0 (fun c => c) (fun s n => s / n) print_nat 2 1 1 ex_analyse None false dir (txt "w") ex_pictures 0 e 2 [0; 0; 0; 0] (txt "a_z0_t0.b") out) ex_disk.
Example ex_serie_runs : snd (ex_serie 1) = Val tt /\ fst (ex_serie 1) (txt "r_t1.dat") = None /\ fst (ex_serie 1) (txt "r.nb") = Some (txt "1" ++ [newline]) /\
  snd (ex_serie 2) = Throw /\ fst (ex_serie 2) (txt "r_t1.dat") <> None /\ snd (ex_serie 3) = Throw /\ fst (ex_serie 3) (txt "r.nb") = Some (txt "1" ++ [newline] ++ txt "1" ++ [newline]).
Proof. repeat split; vm_compute; congruence. Qed.
Definition ex_slices (t z : nat) : picture nat := mkPicture 1 1 1 1 [nth (2 * t + z) ex_file 0].
Lemma ex_writes w s : writes 1 (N.of_nat w) s -> w < 3 -> s = print_N (N.of_nat w).
Proof. intros W Hw. apply (writes_fun 1 (N.of_nat w)); [exact W|]. destruct w as [|[|[|w]]]; [| | |lia]; (split; [intros c [<-|[]]; reflexivity|split; reflexivity]). Qed.
Example ex_serie_hypotheses : plain z_mark (Some (txt "0")) 2 (txt "a" ++ z_mark ++ txt "0" ++ t_mark ++ txt "0" ++ txt ".b") (txt ".b") /\ plain t_mark (Some (txt "0")) 2 (txt "a" ++ z_mark ++ txt "0" ++ t_mark ++ txt "0" ++ txt ".b") (txt ".b") /\
  (forall t, t < 2 -> all_there nat 2 1 1 ex_pictures 0 (txt "a") (txt "0") (txt "0") (txt ".b") ex_slices t) /\ some_missing nat 2 1 1 ex_pictures 0 (txt "a") (txt "0") (txt "0") (txt ".b") ex_slices 2.
Proof.
  assert (A : forall m, In (ascii_of_N 95) m -> absent m (txt ".b")). { intros m I h r E. assert (X : In (ascii_of_N 95) (txt ".b")) by (rewrite E; apply in_app_iff; right; apply in_app_iff; left; auto). cbn in X. destruct X as [X|[X|[]]]; discriminate. }
  assert (N0 : numeral (txt "0")) by (intros c [<-|[]]; reflexivity).
  split; [|split; [|split]].
  - split; [discriminate|]. split; [auto|]. split; [eexists _, _; split; reflexivity|apply A; left; reflexivity].
  - split; [discriminate|]. split; [auto|]. split; [eexists _, _; split; reflexivity|apply A; left; reflexivity].
  - intros t Ht z Hz n [zs [ts (Wz & Wt & ->)]]. rewrite (ex_writes z zs Wz) by lia. rewrite (ex_writes t ts Wt) by lia. destruct t as [|[|t]]; [| |lia]; destruct z as [|[|z]]; try lia; (split; [reflexivity|repeat split; cbn; lia]).
  - assert (M : forall z, z < 2 -> slice_missing nat ex_pictures (txt "a") (txt "0") (txt "0") (txt ".b") 2 z).
    { intros z Hz n [zs [ts (Wz & Wt & ->)]]. rewrite (ex_writes z zs Wz) by lia. rewrite (ex_writes 2 ts Wt) by lia. destruct z as [|[|z]]; [reflexivity|reflexivity|lia]. }
    split; [intros z Hz; right; apply M; auto|]. exists 0. split; [lia|apply M; lia].
Qed.
(** A first run. *)
Example ex_first : snd (with_settings (Some []) None 0 true true (txt "r_") (fun _ _ d => (d, Val tt)) (fun _ => None)) = Throw /\ snd (with_settings (Some []) None 1 false true (txt "r_") (fun _ _ d => (d, Val tt)) (fun _ => None)) = Throw /\
  snd (with_settings (Some []) None 1 true true (txt "r_") (fun _ _ d => (d, Val tt)) (fun _ => None)) = Val tt.
Proof. repeat split. Qed.

Print Assumptions C143_lif.
Print Assumptions C143_rest_refuted.
Print Assumptions C143_only.
Print Assumptions C143_only_beyond.
Print Assumptions C143_serie.
Print Assumptions C143_serie_missing.
Print Assumptions C143_serie_refuted.
Print Assumptions C143_flat_refuted.
Print Assumptions C143_first_run_refuted.
Print Assumptions C143_ini.
Print Assumptions C143_home.
Print Assumptions C143_refused.

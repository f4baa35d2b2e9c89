(** C153: the program of the multiscale tracker, from a series of images to the files of centres. *)
Require Import String.
Require Import List Bool Arith NArith ZArith Ascii Lia Permutation.
Require Import Verif.Base Verif.ListX Verif.Dec Verif.Traj_Model Verif.Particles_Model Verif.Files_Model Verif.Files_Spec Verif.Files_Proofs Verif.Export_Model Verif.Export_Spec Verif.Export_Proofs
  Verif.RTree_Model Verif.RTree_Spec Verif.RTree_Proofs Verif.RTree_Heuristics Verif.Center_Model Verif.Center_Spec Verif.Center_Props Verif.Perco_Model Verif.Perco_Props Verif.Track_Model Verif.Settings_Model Verif.Pg6_Spec Verif.Cut_Props Verif.Scan_Model Verif.Scan_Spec.
Import ListNotations.
Local Open Scope nat_scope.
Local Open Scope list_scope.
Local Notation length := List.length.

(** ** Names *)
Lemma centre_file_name out t : centres_name out t (centre_file out t).
Proof. eexists. split; [apply pad_writes|reflexivity]. Qed.
Lemma centres_name_one out t n n' : centres_name out t n -> centres_name out t n' -> n = n'.
Proof. intros [s [W ->]] [s' [W' ->]]. rewrite (writes_fun _ _ _ _ W W'). reflexivity. Qed.
Lemma centres_name_apart out t t' n : centres_name out t n -> centres_name out t' n -> t = t'.
Proof. intros [s [[_ [W _]] ->]] [s' [[_ [W' _]] E]]. do 2 apply app_inv_head in E. subst s'. apply Nat2N.inj. congruence. Qed.

(** ** Octaves *)
Lemma octaves_halve : forall fuel p r c, p <= fuel -> halvings p r c (smaller_octaves fuel p r c).
Proof.
  induction fuel as [|fuel IH]; intros p r c H; [apply Too_small; lia|]. cbn [smaller_octaves].
  destruct (Nat.leb_spec 10 p) as [Hp|Hp]; [|apply Too_small; lia]. destruct (Nat.leb_spec 10 r) as [Hr|Hr]; [|apply Too_small; lia]. destruct (Nat.leb_spec 10 c) as [Hc|Hc]; [|apply Too_small; lia].
  cbn [andb]. apply Halve; auto. apply IH. assert (p / 2 < p) by (apply Nat.div_lt; lia). lia.
Qed.
Lemma halvings_fun p r c l : halvings p r c l -> forall l', halvings p r c l' -> l = l'.
Proof. induction 1 as [p r c H|p r c l Hp Hr Hc _ IH]; intros l' H'; inversion H'; subst; try lia; [reflexivity|]. f_equal. apply IH. assumption. Qed.

(** ** Lines of the files *)
Lemma word_no_newline w : word w -> ~ In newline w.
Proof. intros [_ H] I. rewrite forallb_forall in H. specialize (H _ I). discriminate. Qed.
Section Lines.
  Variables (show : Z -> text).
  Hypothesis Hshow : forall v, word (show v).
  Lemma centre_line_words c x y z : coords c = [x; y; z] -> exists l, centre_line show c = l ++ [newline] /\ ~ In newline l /\ words l = centre_words show c.
  Proof.
    intros E. exists (show x ++ tab :: show y ++ tab :: show z ++ tab :: show (radius c) ++ tab :: show (intensity c)). split; [|split].
    - unfold centre_line. rewrite E. cbn [firstn flat_map]. rewrite app_nil_r. repeat (rewrite <- !app_assoc; cbn [app]). reflexivity.
    - intros I. repeat (apply in_app_or in I as [I|[I|I]]; [exact (word_no_newline _ (Hshow _) I)|discriminate I|]). exact (word_no_newline _ (Hshow _) I).
    - unfold centre_words. rewrite E. cbn [app map]. rewrite !words_head by (auto; reflexivity). rewrite words_one by auto. reflexivity.
  Qed.
  Lemma centre_lines_table : forall cs, Forall (fun c => length (coords c) = 3) cs -> table (flat_map (centre_line show) cs) (map (centre_words show) cs).
  Proof.
    induction cs as [|c cs IH]; intros F; [exists []; auto|]. inversion F as [|? ? Hc F']; subst. destruct (IH F') as [ls (E & N & M)].
    destruct (coords c) as [|x [|y [|z [|? ?]]]] eqn:Ec; try discriminate Hc. destruct (centre_line_words c x y z Ec) as [l (El & Nl & Ml)].
    exists (l :: ls). cbn [flat_map map]. rewrite El, E, M, Ml. repeat split. constructor; auto.
  Qed.
End Lines.

(** ** Kernels in files *)
Section Floats.
  Variables (K : Type) (showK : K -> text) (parseK : text -> option K).
  Lemma words_short : forall l cur, length (words_from cur l) <= length cur + length l.
  Proof.
    induction l as [|c l IH]; intros cur; cbn [words_from length]; [destruct cur; cbn; lia|]. destruct (is_space c).
    - rewrite app_length. specialize (IH []). cbn [length] in IH. destruct cur; cbn [length]; lia.
    - specialize (IH (cur ++ [c])). rewrite app_length in IH. cbn [length] in IH. lia.
  Qed.
  Lemma read_floats_words : forall fuel s, sane s -> length (words (buf s)) <= fuel -> exists ws rest, words (buf s) = ws ++ rest /\ Forall2 (fun w k => parseK w = Some k) ws (read_floats_loop K parseK fuel s) /\ match rest with [] => True | w :: _ => parseK w = None end.
  Proof.
    induction fuel as [|fuel IH]; intros s Hs L.
    - destruct (words (buf s)) as [|? ?] eqn:E; [|cbn in L; lia]. exists [], []. repeat split. constructor.
    - destruct (words (buf s)) as [|w ws] eqn:E.
      + exists [], []. cbn [read_floats_loop]. destruct (read_with_none K parseK s Hs E) as [s' (-> & _)]. repeat split. constructor.
      + cbn [read_floats_loop]. destruct (parseK w) as [v|] eqn:Ev.
        * destruct (read_with_some K parseK s w v ws Hs E Ev) as [r (-> & Ew & _)]. cbn [length] in L. destruct (IH _ (sane_rest r)) as [us [rest (E1 & F & T)]]; [cbn [buf]; rewrite Ew; lia|]. exists (w :: us), rest. cbn [buf] in E1. rewrite Ew in E1. split; [rewrite E1; reflexivity|]. split; [constructor; auto|exact T].
        * exists [], (w :: ws). unfold read_with. destruct (get_word_some s w ws Hs E) as (sp & rest & _ & _ & _ & _ & _ & _ & G). rewrite G, Ev. repeat split; auto.
  Qed.
  Lemma read_floats_leading l : leading parseK l (read_floats K parseK l).
  Proof. unfold leading, read_floats. apply (read_floats_words (length l) (open_text l) (sane_open l)). change (buf (open_text l)) with l. apply (words_short l []). Qed.
  Lemma leading_fun l k k' : leading parseK l k -> leading parseK l k' -> k = k'.
  Proof.
    intros [ws [rest (E & F & T)]] [ws' [rest' (E' & F' & T')]]. rewrite E in E'. clear E. revert ws' k' E' F'. induction F as [|w v ws k Hw F IH]; intros ws' k' E' F'.
    - destruct F' as [|w' v' ws' k' Hw' F']; [reflexivity|]. cbn [app] in E'. rewrite E' in T. congruence.
    - destruct F' as [|w' v' ws' k' Hw' F']; [cbn [app] in E'; rewrite <- E' in T'; congruence|]. cbn [app] in E'. assert (w = w') by congruence. subst w'. f_equal; [congruence|]. apply (IH ws'); [congruence|exact F'].
  Qed.
  Hypothesis Hword : forall v, word (showK v).
  Lemma kernel_words : forall k, words (flat_map (fun v => showK v ++ [tab]) k) = map showK k.
  Proof. induction k as [|v k IH]; [reflexivity|]. cbn [flat_map map]. rewrite <- app_assoc. cbn [app]. rewrite words_head by (auto; reflexivity). rewrite IH. reflexivity. Qed.
End Floats.

(** ** The program *)
Section Program.
  Variables (P K R Mem : Type) (one : R) (showK : K -> text) (parseK : text -> option K) (rnd : K -> K) (show : Z -> text).
  Hypothesis HcodecK : codec showK parseK rnd.
  Hypothesis Hshow : forall v, word (show v).
  Variables (fill : bool -> list (settings K R) -> Mem -> list P -> Mem) (initialize : Mem -> Mem) (subpix : Mem -> list center).
  (** The centres found do not depend on what was in the memory of the finder (C113, C114); they have three coordinates and a radius. *)
  Variable centres_of : bool -> list (settings K R) -> list P -> list center.
  Hypothesis Hfind : forall oct0 os m img, subpix (initialize (fill oct0 os m img)) = centres_of oct0 os img.
  Hypothesis Hgood : forall oct0 os img, Forall (fun c => length (coords c) = 3 /\ (0 <= radius c)%Z) (centres_of oct0 os img).
  Variable kern : list nat -> list P -> outcome (list K).
  (** The kernel of an image has the right size (C72). *)
  Hypothesis Hkern : forall p r c im, 0 < p -> 0 < r -> 0 < c -> length im = p * r * c -> exists k, kern [p; r; c] im = Val k /\ length k = p / 2 + 1.
  Variables (cfg : config) (sort : list center -> list center).
  Hypothesis Hcfg : config_ok cfg.
  Hypothesis Hdims : dims cfg = 3.
  Hypothesis Hsort : forall l, a_sort_of l (sort l).
  Variables (file : list P) (writable : text -> bool).
  Notation main := (scan_main P K R Mem one showK parseK show fill initialize subpix kern cfg sort file writable).
  Notation steps_from := (scan_steps P K R Mem show fill initialize subpix cfg sort file writable).

  Lemma view_ok s n t : t < lsteps s -> lfirst s + linc s * t + n <= length file -> exists img, view P file s n t = Val img /\ bytes_at file (lfirst s + linc s * t) n img.
  Proof.
    intros Ht L. unfold view. rewrite (proj2 (Nat.ltb_lt _ _) Ht), (proj2 (Nat.leb_le _ _) L). eexists. split; [reflexivity|].
    exists (firstn (lfirst s + linc s * t) file), (skipn n (skipn (lfirst s + linc s * t) file)). split; [rewrite firstn_skipn, firstn_skipn; reflexivity|]. split; [rewrite firstn_length; lia|rewrite firstn_length, skipn_length; lia].
  Qed.
  Lemma bytes_fun off n (a b : list P) : bytes_at file off n a -> bytes_at file off n b -> a = b.
  Proof.
    assert (G : forall a, bytes_at file off n a -> a = firstn n (skipn off file)).
    { intros a' [x [y (-> & <- & <-)]]. rewrite skipn_app, skipn_all, Nat.sub_diag. cbn [app skipn]. rewrite firstn_app, firstn_all, Nat.sub_diag. cbn [firstn]. rewrite app_nil_r. reflexivity. }
    intros A B. rewrite (G a A), (G b B). reflexivity.
  Qed.

  (** What is written for an image; [None]: no file *)
  Definition written (f : Z -> Z) (cs : list center) : option text :=
    match cs with
    | [] => None
    | _ => match remove_half_overlapping cfg (sort (map (scale_z f) cs)) with Some (_, kept) => Some (flat_map (centre_line show) kept) | None => None end
    end.
  Lemma scaled_deeper f cs : Forall (fun c => length (coords c) = 3 /\ (0 <= radius c)%Z) cs -> Forall2 (deeper f) cs (map (scale_z f) cs) /\ Forall (fun c => length (coords c) = dims cfg /\ (0 <= radius c)%Z) (map (scale_z f) cs).
  Proof.
    rewrite Hdims. induction 1 as [|c cs [H H0] _ [IH1 IH2]]; [split; constructor|]. cbn [map]. destruct c as [co r i]. cbn in H, H0. destruct co as [|x [|y [|z [|? ?]]]]; try discriminate H.
    split; apply Forall2_cons || apply Forall_cons; auto. exists x, y, z. repeat split.
  Qed.
  Lemma removed f cs : Forall (fun c => length (coords c) = 3 /\ (0 <= radius c)%Z) cs -> exists tree kept, remove_half_overlapping cfg (sort (map (scale_z f) cs)) = Some (tree, kept) /\ selection inside_other (map (scale_z f) cs) kept.
  Proof. intros F. destruct (C27_selection cfg (map (scale_z f) cs) (sort (map (scale_z f) cs)) Hcfg (proj2 (scaled_deeper f cs F)) (Hsort _)) as [tree [kept (E & S1 & _)]]. exists tree, kept. split; [exact E|exact S1]. Qed.
  Lemma written_some f cs : Forall (fun c => length (coords c) = 3 /\ (0 <= radius c)%Z) cs -> cs <> [] ->
    exists content scaled kept, written f cs = Some content /\ Forall2 (deeper f) cs scaled /\ selection inside_other scaled kept /\ table content (map (centre_words show) kept).
  Proof.
    intros F N. destruct (removed f cs F) as [tree [kept [E S1]]]. exists (flat_map (centre_line show) kept), (map (scale_z f) cs), kept. split; [|split; [apply scaled_deeper, F|split; [exact S1|]]].
    - unfold written. destruct cs; [congruence|]. rewrite E. reflexivity.
    - apply centre_lines_table; [exact Hshow|]. destruct S1 as [[dropped [Pm _]] _]. destruct (scaled_deeper f cs F) as [_ F2]. rewrite Forall_forall in F2 |- *. intros c I.
      rewrite <- Hdims. apply F2. apply (Permutation_in _ (Permutation_sym Pm)). apply in_or_app. auto.
  Qed.
  Lemma steps_ok s n verbose oct0 os out : forall k t m d, t + k = lsteps s -> (forall t', t <= t' < lsteps s -> lfirst s + linc s * t' + n <= length file) ->
    exists d', steps_from s n verbose oct0 os out k t m d = (d', Val tt) /\
      (forall t' name img, t <= t' < lsteps s -> centres_name out t' name -> bytes_at file (lfirst s + linc s * t') n img ->
        d' name = match written (lratio s) (centres_of oct0 os img) with Some content => if writable name then Some content else d name | None => d name end) /\
      (forall name, (forall t', t <= t' < lsteps s -> ~ centres_name out t' name) -> d' name = d name).
  Proof.
    induction k as [|k IH]; intros t m d Hk Hb.
    - exists d. split; [reflexivity|]. split; [intros; lia|reflexivity].
    - cbn [scan_steps]. destruct (view_ok s n t) as [img [Ev Bi]]; [lia|apply Hb; lia|]. rewrite Ev. cbn [andthen].
      destruct (track_step P K R Mem fill initialize subpix verbose oct0 os m img) as [m' cs] eqn:Et.
      assert (Ec : cs = centres_of oct0 os img). { unfold track_step, get_centers in Et. rewrite <- (Hfind oct0 os m img). destruct verbose; cbn [negb] in Et; congruence. }
      assert (Hg := Hgood oct0 os img). rewrite <- Ec in Hg.
      set (d1 := match written (lratio s) cs with Some content => write_to writable (centre_file out t) content d | None => d end).
      assert (E1 : (match cs with [] => steps_from s n verbose oct0 os out k (S t) m' d | _ :: _ => match remove_half_overlapping cfg (sort (map (scale_z (lratio s)) cs)) with None => (d, UB) | Some (_, kept) => steps_from s n verbose oct0 os out k (S t) m' (write_to writable (centre_file out t) (flat_map (centre_line show) kept) d) end end)
        = steps_from s n verbose oct0 os out k (S t) m' d1).
      { unfold d1, written. destruct (removed (lratio s) cs Hg) as [tree [kept [E _]]]. destruct cs; [reflexivity|]. rewrite E. reflexivity. }
      rewrite E1. clear E1. destruct (IH (S t) m' d1) as [d' (E & A & B)]; [lia|intros t' Ht'; apply Hb; lia|]. exists d'. split; [exact E|].
      assert (O : forall name, name <> centre_file out t -> d1 name = d name). { intros name Hn. unfold d1. destruct (written (lratio s) cs); [|reflexivity]. unfold write_to. destruct (writable _); [apply put_other; auto|reflexivity]. }
      split.
      + intros t' name img' Ht' Hn Bi'. destruct (Nat.eq_dec t t') as [<-|Ne].
        * assert (img' = img) by (eapply bytes_fun; eauto). subst img'. assert (name = centre_file out t) by (eapply centres_name_one; [exact Hn|apply centre_file_name]). subst name.
          rewrite B. { unfold d1. rewrite Ec. clear. destruct (written (lratio s) (centres_of oct0 os img)) as [content|]; [|reflexivity]. unfold write_to. destruct (writable (centre_file out t)); [apply put_same|reflexivity]. }
          intros t' H' N'. assert (t = t') by (eapply centres_name_apart; [apply centre_file_name|exact N']). lia.
        * rewrite (A t' name img'); [|lia|exact Hn|exact Bi']. rewrite O; [reflexivity|]. intros ->. apply Ne. eapply centres_name_apart; [apply centre_file_name|exact Hn].
      + intros name Hn. rewrite B by (intros t' H'; apply Hn; lia). apply O. intros ->. apply (Hn t); [lia|apply centre_file_name].
  Qed.

  (** The kernel of the first image of a series *)
  Definition first_kernel (s : leica) (p r c : nat) (k : list K) : Prop := 0 < lsteps s /\ exists img, bytes_at file (lfirst s) (p * r * c) img /\ kern [p; r; c] img = Val k.
  (** The time steps of a run *)
  Definition in_run (s : leica) (start : Z) (t : nat) : Prop := (0 <= start <= Z.of_nat t)%Z /\ t < lsteps s.
  Lemma first_view s n img : 0 < lsteps s -> bytes_at file (lfirst s) n img -> view P file s n 0 = Val img.
  Proof.
    intros L B. assert (N : lfirst s + linc s * 0 + n <= length file) by (destruct B as [x [y (-> & <- & <-)]]; rewrite !app_length; lia). destruct (view_ok s n 0 L N) as [img' [E B']]. rewrite E. f_equal. eapply bytes_fun; [exact B'|]. rewrite Nat.mul_0_r, Nat.add_0_r. exact B.
  Qed.
  Lemma load_set p r c k o0 rest : length k = p / 2 + 1 -> obind (ask K R (LoadKernel k) (o0 :: octave_with one [p; r; c] false None :: rest)) (ask K R (SetDeconv true)) = Val (o0 :: octave_with one [p; r; c] false (Some k) :: rest).
  Proof.
    intros L. assert (E : ask K R (LoadKernel k) (o0 :: octave_with one [p; r; c] false None :: rest) = Val (o0 :: {| shape := [p; r; c]; ZXratio := one; halfZ := false; deconv := false; kernel := k |} :: rest)).
    { unfold ask, apply_all, at_second, apply1, get_depth, octave_with. cbn -[Nat.div Nat.eqb Nat.add]. rewrite L, Nat.eqb_refl. reflexivity. }
    rewrite E. unfold obind, ask, apply_all, at_second, apply1, get_depth. cbn -[Nat.div Nat.eqb Nat.add]. rewrite L, Nat.eqb_refl. reflexivity.
  Qed.
  Lemma load_wrong p r c k o0 rest : length k <> p / 2 + 1 -> obind (ask K R (LoadKernel k) (o0 :: octave_with one [p; r; c] false None :: rest)) (ask K R (SetDeconv true)) = Throw.
  Proof.
    intros L. unfold ask at 1, apply_all, at_second, apply1, get_depth, octave_with. cbn -[Nat.div Nat.eqb Nat.add]. rewrite (proj2 (Nat.eqb_neq _ _) L). reflexivity.
  Qed.
  Lemma prepare_ok s p r c rest mode kname d d1 o : halvings p r c ([p; r; c] :: rest) -> prepared one p r c (first_kernel s p r c) showK parseK writable d mode kname d1 o ->
    exists dp, prepare P K R showK parseK kern file writable s p r c mode kname (map (create K R one) (octave_shapes p r c)) d = (dp, Val (octave_with one [2 * p; 2 * r; 2 * c] false None :: o :: map (fun sh => octave_with one sh false None) rest)) /\ forall n, dp n = d1 n.
  Proof.
    intros H Hp. assert (E0 : map (create K R one) (octave_shapes p r c) = octave_with one [2 * p; 2 * r; 2 * c] false None :: octave_with one [p; r; c] false None :: map (fun sh => octave_with one sh false None) rest).
    { unfold octave_shapes. rewrite (halvings_fun p r c _ (octaves_halve p p r c (le_n _)) _ H). reflexivity. }
    rewrite E0. clear E0 H. destruct Hp as [kname d1 E|name k d1 W [L [img [B Ek]]] Lk Ec E|name content k d1 Ed Hl Lk E|mode kname d1 N0 N1 N2 E].
    - exists d. split; [reflexivity|]. intros n. symmetry. apply E.
    - eexists. split.
      + unfold prepare. cbn [Z.eqb Pos.eqb]. rewrite W, (first_view s _ img L B). cbn [obind]. rewrite Ek. rewrite load_set by exact Lk. reflexivity.
      + intros n. destruct (list_eq_dec ascii_dec n name) as [->|Ne]; [rewrite put_same, Ec; reflexivity|rewrite put_other by auto; symmetry; apply E; auto].
    - exists d. split; [|intros n; symmetry; apply E]. unfold prepare. cbn [Z.eqb Pos.eqb]. rewrite Ed. rewrite (leading_fun K parseK content _ _ (read_floats_leading K parseK content) Hl), load_set by exact Lk. reflexivity.
    - exists d. split; [|intros n; symmetry; apply E]. unfold prepare. rewrite (proj2 (Z.eqb_neq mode 0) N0), (proj2 (Z.eqb_neq mode 1) N1), (proj2 (Z.eqb_neq mode 2) N2). reflexivity.
  Qed.

  Lemma run_ok s x y z verbose oct0 os start out m d d1 mode kname dp : ldims s = [x; y; z] -> (forall t, in_run s start t -> lfirst s + linc s * t + z * y * x <= length file) ->
    prepare P K R showK parseK kern file writable s z y x mode kname (map (create K R one) (octave_shapes z y x)) d = (dp, Val os) -> (forall n, dp n = d1 n) ->
    exists d', main verbose oct0 s mode kname start out m d = (d', Val tt) /\
      (forall t name img, in_run s start t -> centres_name out t name -> bytes_at file (lfirst s + linc s * t) (z * y * x) img ->
        d' name = match written (lratio s) (centres_of oct0 os img) with Some content => if writable name then Some content else d1 name | None => d1 name end) /\
      (forall name, (forall t, in_run s start t -> ~ centres_name out t name) -> d' name = d1 name).
  Proof.
    intros Ed Hb Ep E1. unfold scan_main. rewrite Ed, Ep. cbn [andthen].
    assert (R0 : forall t, in_run s start t <-> first_step s start <= t < lsteps s). { intros t. unfold in_run, first_step. destruct (Z.ltb_spec start 0); lia. }
    destruct (Nat.le_gt_cases (first_step s start) (lsteps s)) as [L|L].
    - destruct (steps_ok s (z * y * x) verbose oct0 os out (lsteps s - first_step s start) (first_step s start) m dp) as [d' (E & A & B)]; [lia|intros t Ht; apply Hb, R0, Ht|]. exists d'. split; [exact E|]. split.
      + intros t name img Ht Hn Bi. rewrite (A t name img) by (try apply R0; auto). rewrite E1. reflexivity.
      + intros name Hn. rewrite <- E1. apply B. intros t Ht. apply Hn, R0, Ht.
    - replace (lsteps s - first_step s start) with 0 by lia. exists dp. split; [reflexivity|]. split; [|intros; apply E1]. intros t name img Ht. apply R0 in Ht. lia.
  Qed.
  Lemma run_files (s : leica) (steps : nat -> Prop) (cs_of : list P -> list center) n out d1 d' : (forall img, Forall (fun c => length (coords c) = 3 /\ (0 <= radius c)%Z) (cs_of img)) ->
    (forall t name img, steps t -> centres_name out t name -> bytes_at file (lfirst s + linc s * t) n img ->
      d' name = match written (lratio s) (cs_of img) with Some content => if writable name then Some content else d1 name | None => d1 name end) ->
    (forall name, (forall t, steps t -> ~ centres_name out t name) -> d' name = d1 name) ->
    files_written file writable show cs_of (lratio s) (lfirst s) (linc s) n out steps d1 d'.
  Proof.
    intros G A B. split; [|exact B]. intros t name img Ht Hn Bi. specialize (A t name img Ht Hn Bi). split.
    - intros Ne W. destruct (written_some (lratio s) (cs_of img) (G img) Ne) as [content [sc [kept (E & H1 & H2 & H3)]]]. exists content, sc, kept. rewrite A, E, W. auto.
    - intros [E|W]; rewrite A; [rewrite E; reflexivity|rewrite W; destruct (written _ _); reflexivity].
  Qed.

  (** Each time step from --start on has its file: the centres found in its image, without those inside a stronger one, after their depths are multiplied by the ratio.
      Nothing else is written but the kernel, if it is computed; --verbose and the earlier content of the memory have no effect. *)
  Theorem C153_files s x y z rest verbose oct0 mode kname start out m d d1 o : ldims s = [x; y; z] -> halvings z y x ([z; y; x] :: rest) ->
    (forall t, in_run s start t -> lfirst s + linc s * t + z * y * x <= length file) ->
    prepared one z y x (first_kernel s z y x) showK parseK writable d mode kname d1 o ->
    exists d', main verbose oct0 s mode kname start out m d = (d', Val tt) /\
      files_written file writable show (centres_of oct0 (octave_with one [2 * z; 2 * y; 2 * x] false None :: o :: map (fun sh => octave_with one sh false None) rest)) (lratio s) (lfirst s) (linc s) (z * y * x) out (in_run s start) d1 d'.
  Proof.
    intros Ed H Hb Hp. destruct (prepare_ok s z y x rest mode kname d d1 o H Hp) as [dp [Ep E1]]. destruct (run_ok s x y z verbose oct0 _ start out m d d1 mode kname dp Ed Hb Ep E1) as [d' (E & A & B)].
    exists d'. split; [exact E|]. apply run_files; auto.
  Qed.
  (** Started again from a later time step, with the same settings, the program writes the same files again. *)
  Theorem C153_restart s x y z rest v v' oct0 mode kname kname' start start' out m m' d e d1 e1 o d' e' t name : ldims s = [x; y; z] -> halvings z y x ([z; y; x] :: rest) ->
    (forall t, in_run s start t \/ in_run s start' t -> lfirst s + linc s * t + z * y * x <= length file) ->
    prepared one z y x (first_kernel s z y x) showK parseK writable d mode kname d1 o -> prepared one z y x (first_kernel s z y x) showK parseK writable e mode kname' e1 o ->
    main v oct0 s mode kname start out m d = (d', Val tt) -> main v' oct0 s mode kname' start' out m' e = (e', Val tt) ->
    in_run s start t -> in_run s start' t -> centres_name out t name -> writable name = true ->
    (exists content, d' name = Some content /\ e' name = Some content) \/ d' name = d1 name /\ e' name = e1 name.
  Proof.
    intros Ed H Hb Hp Hp' Em Em' Ht Ht' Hn W. destruct (prepare_ok s z y x rest mode kname d d1 o H Hp) as [dp [Ep E1]]. destruct (prepare_ok s z y x rest mode kname' e e1 o H Hp') as [ep [Ep' E1']].
    destruct (run_ok s x y z v oct0 _ start out m d d1 mode kname dp Ed (fun t I => Hb t (or_introl I)) Ep E1) as [d2 (E & A & _)]. destruct (run_ok s x y z v' oct0 _ start' out m' e e1 mode kname' ep Ed (fun t I => Hb t (or_intror I)) Ep' E1') as [e2 (E' & A' & _)].
    assert (d2 = d') by congruence. assert (e2 = e') by congruence. subst d2 e2. destruct (view_ok s (z * y * x) t) as [img [_ Bi]]; [apply Ht|apply Hb; auto|].
    rewrite (A t name img Ht Hn Bi), (A' t name img Ht' Hn Bi), W. destruct (written _ _) as [content|]; [left; exists content; auto|right; auto].
  Qed.
  Lemma passes_ok s n verbose oct0 os out k t m d e : passes P K R Mem show fill initialize subpix cfg sort file writable s n verbose oct0 os out k t m d e -> t + k = lsteps s ->
    exists t1, t <= t1 <= t + k /\
      (forall t' name img, t <= t' < t1 -> centres_name out t' name -> bytes_at file (lfirst s + linc s * t') n img ->
        e name = match written (lratio s) (centres_of oct0 os img) with Some content => if writable name then Some content else d name | None => d name end) /\
      (forall name, centres_name out t1 name -> e name = d name \/ writable name = true /\ t1 < lsteps s /\ exists img, bytes_at file (lfirst s + linc s * t1) n img /\ written (lratio s) (centres_of oct0 os img) <> None) /\
      (forall name, (forall t', t <= t' <= t1 -> ~ centres_name out t' name) -> e name = d name).
  Proof.
    assert (Vw : forall t img, view P file s n t = Val img -> bytes_at file (lfirst s + linc s * t) n img).
    { intros t0 img E. unfold view in E. destruct (Nat.ltb_spec t0 (lsteps s)) as [L|L]; [|discriminate E]. destruct (Nat.leb_spec (lfirst s + linc s * t0 + n) (length file)) as [L'|L']; [|discriminate E]. destruct (view_ok s n t0 L L') as [img' [E' B]].
      unfold view in E'. rewrite (proj2 (Nat.ltb_lt _ _) L), (proj2 (Nat.leb_le _ _) L') in E'. assert (img' = img) by congruence. subst img'. exact B. }
    assert (Tk : forall m img m' cs, track_step P K R Mem fill initialize subpix verbose oct0 os m img = (m', cs) -> cs = centres_of oct0 os img).
    { intros m0 img m' cs Et. unfold track_step, get_centers in Et. rewrite <- (Hfind oct0 os m0 img). destruct verbose; cbn [negb] in Et; congruence. }
    induction 1 as [k t m d|k t m d img m' cs tree kept c rest Ev Et Ne Er Ec|k t m d img m' e Ev Et Hp IH|k t m d img m' cs tree kept e Ev Et Ne Er Hp IH]; intros Hk.
    - exists t. split; [lia|]. split; [intros; lia|]. split; [left; reflexivity|reflexivity].
    - exists t. split; [lia|]. split; [intros; lia|]. split.
      + intros name Hn. assert (name = centre_file out t) by (eapply centres_name_one; [exact Hn|apply centre_file_name]). subst name. unfold write_to. destruct (writable (centre_file out t)) eqn:W; [|left; reflexivity]. right. split; [reflexivity|]. split; [lia|]. exists img. split; [apply Vw, Ev|].
        rewrite <- (Tk _ _ _ _ Et). unfold written. destruct cs; [congruence|]. rewrite Er. discriminate.
      + intros name Hn. unfold write_to. destruct (writable _); [|reflexivity]. apply put_other. intros ->. apply (Hn t); [lia|apply centre_file_name].
    - destruct IH as [t1 (L & A & B & C)]; [lia|]. exists t1. split; [lia|]. split; [|split].
      + intros t' name img' Ht' Hn Bi. destruct (Nat.eq_dec t t') as [<-|N]; [|apply (A t'); auto; lia].
        assert (img' = img) by (eapply bytes_fun; [exact Bi|apply Vw, Ev]). subst img'. rewrite <- (Tk _ _ _ _ Et). cbn [written]. apply C. intros t' H' N'. assert (t = t') by (eapply centres_name_apart; eauto). lia.
      + exact B.
      + intros name Hn. apply C. intros t' H'. apply Hn. lia.
    - destruct IH as [t1 (L & A & B & C)]; [lia|]. exists t1. split; [lia|].
      assert (O : forall name, name <> centre_file out t -> write_to writable (centre_file out t) (flat_map (centre_line show) kept) d name = d name) by (intros name Hn; unfold write_to; destruct (writable _); [apply put_other; auto|reflexivity]).
      split; [|split].
      + intros t' name img' Ht' Hn Bi. destruct (Nat.eq_dec t t') as [<-|N].
        * assert (img' = img) by (eapply bytes_fun; [exact Bi|apply Vw, Ev]). subst img'. assert (name = centre_file out t) by (eapply centres_name_one; [exact Hn|apply centre_file_name]). subst name.
          rewrite <- (Tk _ _ _ _ Et). replace (written (lratio s) cs) with (Some (flat_map (centre_line show) kept)) by (unfold written; destruct cs; [congruence|]; rewrite Er; reflexivity).
          rewrite C. { unfold write_to. destruct (writable _); [apply put_same|reflexivity]. } intros t' H' N'. assert (t = t') by (eapply centres_name_apart; [apply centre_file_name|exact N']). lia.
        * rewrite (A t' name img') by (auto; lia). rewrite O; [reflexivity|]. intros ->. apply N. eapply centres_name_apart; [apply centre_file_name|exact Hn].
      + intros name Hn. rewrite <- (O name); [apply B, Hn|]. intros ->. assert (t = t1) by (eapply centres_name_apart; [apply centre_file_name|exact Hn]). lia.
      + intros name Hn. rewrite <- (O name); [apply C; intros t' H'; apply Hn; lia|]. intros ->. apply (Hn t); [lia|apply centre_file_name].
  Qed.
  (** Interrupted at any point of the tracking, with only a part of a file written, and started again from the time step it had reached or from an earlier one, the program leaves all files as if it had not been interrupted.
      The files of the time steps after the one reached were not touched: the last file written gives a time step to start from. *)
  Theorem C153_crash s x y z rest v v' oct0 mode kname start out m m' d e d1 o dF : ldims s = [x; y; z] -> halvings z y x ([z; y; x] :: rest) ->
    (forall t, in_run s start t -> lfirst s + linc s * t + z * y * x <= length file) ->
    prepared one z y x (first_kernel s z y x) showK parseK writable d mode kname d1 o -> (forall t name, kname = Some name -> ~ centres_name out t name) ->
    main v oct0 s mode kname start out m d = (dF, Val tt) -> scan_interrupted P K R Mem one showK parseK show fill initialize subpix kern cfg sort file writable v oct0 s mode kname start out m d e ->
    exists reached, (start <= reached)%Z /\ (forall t name, (reached < Z.of_nat t)%Z -> centres_name out t name -> e name = d1 name) /\ forall again, (start <= again <= reached)%Z -> exists e', main v' oct0 s mode kname again out m' e = (e', Val tt) /\ forall name, e' name = dF name.
  Proof.
    intros Ed H Hb Hp Hk Em [x' [y' [z' [dp [os (Ed' & Ep & Hpass)]]]]]. assert (x' = x /\ y' = y /\ z' = z) as (-> & -> & ->) by (split; [|split]; congruence).
    destruct (prepare_ok s z y x rest mode kname d d1 o H Hp) as [dp' [Ep' E1]]. rewrite Ep in Ep'. assert (Eo : os = octave_with one [2 * z; 2 * y; 2 * x] false None :: o :: map (fun sh => octave_with one sh false None) rest) by congruence. assert (dp' = dp) by congruence. subst dp'.
    destruct (run_ok s x y z v oct0 os start out m d d1 mode kname dp Ed Hb Ep E1) as [dF' (EF & AF & BF)]. assert (dF' = dF) by congruence. subst dF'.
    assert (R0 : forall t st, in_run s st t <-> first_step s st <= t < lsteps s). { intros t st. unfold in_run, first_step. destruct (Z.ltb_spec st 0); lia. }
    assert (Ko : forall e0, (forall n, kname = Some n -> e0 n = d1 n) -> exists e1, prepared one z y x (first_kernel s z y x) showK parseK writable e0 mode kname e1 o /\ forall n, e1 n = e0 n).
    { intros e0 Hke. exists e0. split; [|reflexivity]. destruct Hp as [kname d1 E|name k d1 W F L E2 E|name content k d1 D0 Hl L E|mode kname d1 N0 N1 N2 E].
      - apply Ready_plain; reflexivity.
      - apply Ready_computed; auto. rewrite Hke by reflexivity. exact E2.
      - apply (Ready_loaded one z y x _ showK parseK writable e0 name content k e0); auto. rewrite Hke by reflexivity. rewrite E. exact D0.
      - apply Ready_other; auto. }
    destruct (Nat.le_gt_cases (first_step s start) (lsteps s)) as [Ls|Ls].
    - destruct (passes_ok s _ v oct0 os out _ _ m dp e Hpass) as [t1 (L1 & A & B & C)]; [lia|]. exists (if (start <? 0)%Z then start else Z.of_nat t1). assert (F0 : (start < 0)%Z \/ (0 <= start)%Z /\ first_step s start = Z.to_nat start) by (unfold first_step; destruct (Z.ltb_spec start 0); [left|right]; lia). assert (Fn : (start < 0)%Z -> first_step s start = lsteps s) by (intros Ln; unfold first_step; rewrite (proj2 (Z.ltb_lt _ _) Ln); reflexivity).
      split; [destruct (Z.ltb_spec start 0); lia|]. split.
      { intros t name Lt Hn. destruct (Z.ltb_spec start 0) as [Ln|Ln].
        - rewrite (Fn Ln), Nat.sub_diag in Hpass. inversion Hpass. subst. apply E1.
        - rewrite <- E1. apply C. intros t' H' N'. assert (t' = t) by (eapply centres_name_apart; eauto). lia. }
      intros again Ha.
      assert (He : forall n, e n = d1 n \/ exists t, centres_name out t n /\ in_run s start t).
      { intros n. destruct (Nat.eq_dec (first_step s start) (lsteps s)) as [Es|Es].
        - left. rewrite <- E1. rewrite Es, Nat.sub_diag in Hpass. inversion Hpass. reflexivity.
        - assert (D0 : (exists t, t <= t1 /\ first_step s start <= t /\ centres_name out t n) \/ (forall t, first_step s start <= t <= t1 -> ~ centres_name out t n)).
          { clear -t1. assert (G : forall j, (exists t, t < j /\ first_step s start <= t /\ centres_name out t n) \/ (forall t, first_step s start <= t < j -> ~ centres_name out t n)).
            { induction j as [|j [[t (T1 & T2 & T3)]|IH]]; [right; lia|left; exists t; auto|]. destruct (list_eq_dec ascii_dec n (centre_file out j)) as [->|N].
              - destruct (Nat.le_gt_cases (first_step s start) j) as [Lj|Lj]; [left; exists j; split; [lia|split; [exact Lj|apply centre_file_name]]|right; intros; lia].
              - right. intros t Ht Hn. destruct (Nat.eq_dec t j) as [->|]; [apply N; eapply centres_name_one; [exact Hn|apply centre_file_name]|apply (IH t); [lia|exact Hn]]. }
            destruct (G (S t1)) as [[t (T1 & T2 & T3)]|T]; [left; exists t; split; [lia|auto]|right; intros t Ht; apply T; lia]. }
          destruct D0 as [[t (T1 & T2 & T3)]|T]; [|left; rewrite <- E1; apply C; exact T]. destruct (Nat.eq_dec t (lsteps s)) as [->|Nt]; [|right; exists t; split; [exact T3|apply R0; lia]].
          left. rewrite <- E1. assert (t1 = lsteps s) by lia. destruct (B n) as [Eb|(_ & Lt & _)]; [subst t1; exact T3|exact Eb|lia]. }
      assert (Hke : forall n, kname = Some n -> e n = d1 n). { intros n En. destruct (He n) as [E|[t [Hn _]]]; [exact E|]. exfalso. exact (Hk t n En Hn). }
      destruct (Ko e Hke) as [e1 [Hp' Ee]].
      destruct (prepare_ok s z y x rest mode kname e e1 o H Hp') as [ep [Ep2 Ee1]]. rewrite <- Eo in Ep2.
      assert (Ag : forall t, in_run s again t -> in_run s start t). { intros t [I1 I2]. split; [|exact I2]. destruct (Z.ltb_spec start 0) as [Ln|Ln]; lia. }
      destruct (run_ok s x y z v' oct0 os again out m' e e1 mode kname ep Ed (fun t I => Hb t (Ag t I)) Ep2 Ee1) as [e' (EE & AE & BE)]. exists e'. split; [exact EE|]. intros name.
      assert (Dn : (exists t, in_run s start t /\ centres_name out t name) \/ (forall t, in_run s start t -> ~ centres_name out t name)).
      { clear -R0. assert (G : forall j, (exists t, t < j /\ in_run s start t /\ centres_name out t name) \/ (forall t, t < j -> in_run s start t -> ~ centres_name out t name)).
        { induction j as [|j [[t (T1 & T2)]|IH]]; [right; lia|left; exists t; auto|]. destruct (list_eq_dec ascii_dec name (centre_file out j)) as [->|N].
          - destruct (Nat.le_gt_cases (first_step s start) j) as [Lj|Lj]; [destruct (Nat.lt_ge_cases j (lsteps s)) as [Lj'|Lj']|].
            + left. exists j. split; [lia|]. split; [apply R0; lia|apply centre_file_name].
            + right. intros t Ht I Hn. apply R0 in I. assert (t = j) by (eapply centres_name_apart; [exact Hn|apply centre_file_name]). lia.
            + right. intros t Ht I Hn. apply R0 in I. assert (t = j) by (eapply centres_name_apart; [exact Hn|apply centre_file_name]). lia.
          - right. intros t Ht I Hn. destruct (Nat.eq_dec t j) as [->|]; [apply N; eapply centres_name_one; [exact Hn|apply centre_file_name]|apply (IH t); [lia|exact I|exact Hn]]. }
        destruct (G (lsteps s)) as [[t (T1 & T2)]|T]; [left; exists t; auto|right; intros t I; apply T; [apply R0 in I; lia|exact I]]. }
      destruct Dn as [[t [I Hn]]|Hno].
      + destruct (view_ok s (z * y * x) t) as [img [_ Bi]]; [apply I|apply Hb, I|]. rewrite (AF t name img I Hn Bi).
        destruct (Z_le_gt_dec again (Z.of_nat t)) as [Lg|Lg].
        * assert (I' : in_run s again t) by (destruct I as [I1 I2]; split; [lia|exact I2]). rewrite (AE t name img I' Hn Bi), Ee.
          assert (Ht : first_step s start <= t < lsteps s) by (apply R0, I).
          destruct (written (lratio s) (centres_of oct0 os img)) as [content|] eqn:Ew; [destruct (writable name) eqn:W; [reflexivity|]|].
          -- destruct (Nat.lt_trichotomy t t1) as [L|[->|L]].
             ++ rewrite (A t name img) by (auto; lia). rewrite Ew, W. apply E1.
             ++ destruct (B name Hn) as [Eb|[W' _]]; [rewrite Eb; apply E1|congruence].
             ++ rewrite <- E1. apply C. intros t' H' N'. assert (t' = t) by (eapply centres_name_apart; eauto). lia.
          -- destruct (Nat.lt_trichotomy t t1) as [L|[->|L]].
             ++ rewrite (A t name img) by (auto; lia). rewrite Ew. apply E1.
             ++ destruct (B name Hn) as [Eb|(_ & _ & img' & Bi' & Nw)]; [rewrite Eb; apply E1|]. assert (img' = img) by (eapply bytes_fun; eauto). subst img'. congruence.
             ++ rewrite <- E1. apply C. intros t' H' N'. assert (t' = t) by (eapply centres_name_apart; eauto). lia.
        * rewrite BE by (intros t' [I1 I2] N'; assert (t' = t) by (eapply centres_name_apart; eauto); lia). rewrite Ee.
          assert (Ht : first_step s start <= t < lsteps s) by (apply R0, I). destruct I as [I1 I2]. destruct (Z.ltb_spec start 0) as [Ln|Ln]; [lia|]. rewrite (A t name img) by (auto; lia). destruct (written _ _); [destruct (writable name); [reflexivity|apply E1]|apply E1].
      + rewrite (BF name Hno), BE by (intros t I; apply Hno, Ag, I). rewrite Ee. destruct (He name) as [E|[t [Hn I]]]; [exact E|]. exfalso. exact (Hno t I Hn).
    - replace (lsteps s - first_step s start) with 0 in Hpass by lia. inversion Hpass. subst. exists start. split; [lia|]. split; [intros; apply E1|]. intros again Ha. assert (again = start) by lia. subst again.
      destruct (Ko e (fun n _ => E1 n)) as [e1 [Hp' Ee]]. destruct (prepare_ok s z y x rest mode kname e e1 o H Hp') as [ep [Ep2 Ee1]].
      destruct (run_ok s x y z v' oct0 _ start out m' e e1 mode kname ep Ed Hb Ep2 Ee1) as [e' (EE & AE & BE)]. exists e'. split; [exact EE|]. intros name. assert (No : forall t, ~ in_run s start t) by (intros t I; apply R0 in I; lia).
      rewrite BE, BF by (intros t I; exfalso; exact (No t I)). rewrite Ee. apply E1.
  Qed.
  (** Without the kernel that is asked for, the program fails and writes nothing. *)
  Theorem C153_refused s x y z rest verbose oct0 mode kname start out m d : ldims s = [x; y; z] -> halvings z y x ([z; y; x] :: rest) ->
    (kname = None /\ (mode = 1 \/ mode = 2)%Z) \/ (exists name, kname = Some name /\ (mode = 1%Z /\ writable name = false \/ mode = 2%Z /\ d name = None)) \/
    (exists name content k, kname = Some name /\ mode = 2%Z /\ d name = Some content /\ leading parseK content k /\ length k <> z / 2 + 1) ->
    main verbose oct0 s mode kname start out m d = (d, Throw).
  Proof.
    intros Ed H Hc. unfold scan_main. rewrite Ed.
    assert (E0 : map (create K R one) (octave_shapes z y x) = octave_with one [2 * z; 2 * y; 2 * x] false None :: octave_with one [z; y; x] false None :: map (fun sh => octave_with one sh false None) rest).
    { unfold octave_shapes. rewrite (halvings_fun z y x _ (octaves_halve z z y x (le_n _)) _ H). reflexivity. }
    rewrite E0. destruct Hc as [[-> [->| ->]]|[[name [-> [[-> W]|[-> D]]]]|[name [content [k (-> & -> & D & Hl & N)]]]]]; try reflexivity; unfold prepare; cbn [Z.eqb Pos.eqb].
    - rewrite W. reflexivity.
    - rewrite D. reflexivity.
    - rewrite D. rewrite (leading_fun K parseK content _ _ (read_floats_leading K parseK content) Hl), load_wrong by exact N. reflexivity.
  Qed.
  (** Asked to compute a kernel and given its file, a series with an image in the file is prepared: the kernel has the right size. *)
  Theorem C153_computed s x y z name d : 0 < x -> 0 < y -> 0 < z -> 0 < lsteps s -> lfirst s + z * y * x <= length file -> writable name = true ->
    exists k d1, first_kernel s z y x k /\ prepared one z y x (first_kernel s z y x) showK parseK writable d 1%Z (Some name) d1 (octave_with one [z; y; x] false (Some k)).
  Proof.
    intros Hx Hy Hz L Lf W. destruct (view_ok s (z * y * x) 0 L) as [img [_ B]]; [lia|]. rewrite Nat.mul_0_r, Nat.add_0_r in B. destruct (Hkern z y x img Hz Hy Hx) as [k [Ek Lk]]; [destruct B as [? [? (_ & _ & ->)]]; reflexivity|].
    assert (Fk : first_kernel s z y x k) by (split; [exact L|exists img; auto]). exists k, (put_file d name (flat_map (fun v => showK v ++ [tab]) k)). split; [exact Fk|]. apply Ready_computed; auto; [apply put_same|intros n Hn; apply put_other; exact Hn].
  Qed.
  (** The kernel computed by a run is loaded by the next ones, up to the rounding by the text. *)
  Theorem C153_reload s x y z rest verbose oct0 name start out m d d1 o d' k : ldims s = [x; y; z] -> halvings z y x ([z; y; x] :: rest) ->
    (forall t, in_run s start t -> lfirst s + linc s * t + z * y * x <= length file) ->
    prepared one z y x (first_kernel s z y x) showK parseK writable d 1%Z (Some name) d1 o -> first_kernel s z y x k -> main verbose oct0 s 1%Z (Some name) start out m d = (d', Val tt) ->
    (forall t, in_run s start t -> ~ centres_name out t name) ->
    prepared one z y x (first_kernel s z y x) showK parseK writable d' 2%Z (Some name) d' (octave_with one [z; y; x] false (Some (map rnd k))).
  Proof.
    intros Ed H Hb Hp Fk Em Hn. destruct (C153_files s x y z rest verbose oct0 1%Z (Some name) start out m d d1 o Ed H Hb Hp) as [d2 [E2 [_ B]]]. assert (d2 = d') by congruence. subst d2. specialize (B name Hn).
    inversion Hp as [|? k' ? W Fk' Lk Ec _| |? ? ? ? N1]; [|contradiction]. subst. assert (k' = k).
    { destruct Fk as [_ [img [Bi Ek]]]. destruct Fk' as [_ [img' [Bi' Ek']]]. assert (img' = img) by (eapply bytes_fun; eauto). subst img'. congruence. }
    subst k'. apply (Ready_loaded one z y x _ showK parseK writable d' name (flat_map (fun v => showK v ++ [tab]) k)); [rewrite B; exact Ec| |rewrite map_length; exact Lk|reflexivity].
    exists (map showK k), []. rewrite app_nil_r. split; [apply kernel_words; intros v; apply HcodecK|]. split; [|exact I]. clear -HcodecK. induction k as [|v k IH]; constructor; [apply HcodecK|exact IH].
  Qed.
  (** Refuted: "after a run, the file of a time step holds the centres of its image".  If none is found, a file from an earlier run is left as it was. *)
  Theorem C153_stale_refuted s x y z rest verbose oct0 mode kname start out m d d1 o d' t name img old : ldims s = [x; y; z] -> halvings z y x ([z; y; x] :: rest) ->
    (forall t, in_run s start t -> lfirst s + linc s * t + z * y * x <= length file) ->
    prepared one z y x (first_kernel s z y x) showK parseK writable d mode kname d1 o -> main verbose oct0 s mode kname start out m d = (d', Val tt) ->
    in_run s start t -> centres_name out t name -> bytes_at file (lfirst s + linc s * t) (z * y * x) img ->
    centres_of oct0 (octave_with one [2 * z; 2 * y; 2 * x] false None :: o :: map (fun sh => octave_with one sh false None) rest) img = [] -> kname <> Some name -> d name = Some old -> d' name = Some old.
  Proof.
    intros Ed H Hb Hp Em Ht Hn Bi En Nk Eo. destruct (C153_files s x y z rest verbose oct0 mode kname start out m d d1 o Ed H Hb Hp) as [d2 [E2 [A _]]]. assert (d2 = d') by congruence. subst d2.
    rewrite (proj2 (A t name img Ht Hn Bi) (or_introl En)). rewrite <- Eo. destruct Hp as [? ? E|? ? ? ? ? ? ? E|? ? ? ? ? ? ? E|? ? ? ? ? ? E]; apply E. congruence.
  Qed.
  (** Refuted: "a run that succeeds has written its results".  Files that cannot be created are skipped without a word. *)
  Theorem C153_unwritable_refuted s x y z rest verbose oct0 start out m d : ldims s = [x; y; z] -> halvings z y x ([z; y; x] :: rest) ->
    (forall t, in_run s start t -> lfirst s + linc s * t + z * y * x <= length file) -> (forall t name, centres_name out t name -> writable name = false) ->
    exists d', main verbose oct0 s 0%Z None start out m d = (d', Val tt) /\ forall name, d' name = d name.
  Proof.
    intros Ed H Hb W. destruct (prepare_ok s z y x rest 0%Z None d d _ H (Ready_plain one z y x _ showK parseK writable d None d (fun n => eq_refl))) as [dp [Ep E1]].
    unfold scan_main. rewrite Ed, Ep. cbn [andthen].
    assert (G : forall os n k t m d, t + k = lsteps s -> (forall t', t <= t' < lsteps s -> lfirst s + linc s * t' + n <= length file) -> exists d', steps_from s n verbose oct0 os out k t m d = (d', Val tt) /\ forall name, d' name = d name).
    { clear - Hfind Hgood Hcfg Hdims Hsort W. intros os n. induction k as [|k IH]; intros t m d Hk Hb; [exists d; auto|]. cbn [scan_steps]. destruct (view_ok s n t) as [img [Ev _]]; [lia|apply Hb; lia|]. rewrite Ev. cbn [andthen].
      destruct (track_step P K R Mem fill initialize subpix verbose oct0 os m img) as [m' cs] eqn:Et.
      assert (Hg : Forall (fun c => length (coords c) = 3 /\ (0 <= radius c)%Z) cs). { assert (Ec : cs = centres_of oct0 os img). { unfold track_step, get_centers in Et. rewrite <- (Hfind oct0 os m img). destruct verbose; cbn [negb] in Et; congruence. } rewrite Ec. apply Hgood. }
      destruct (removed (lratio s) cs Hg) as [tree [kept [E _]]]. destruct cs; [apply IH; [lia|intros; apply Hb; lia]|]. rewrite E. unfold write_to. rewrite (W t _ (centre_file_name out t)). apply IH; [lia|intros; apply Hb; lia]. }
    assert (R0 : forall t, in_run s start t <-> first_step s start <= t < lsteps s). { intros t. unfold in_run, first_step. destruct (Z.ltb_spec start 0); lia. }
    destruct (Nat.le_gt_cases (first_step s start) (lsteps s)) as [L|L].
    - destruct (G (octave_with one [2 * z; 2 * y; 2 * x] false None :: octave_with one [z; y; x] true None :: map (fun sh => octave_with one sh false None) rest) (z * y * x) (lsteps s - first_step s start) (first_step s start) m dp) as [d' [E' A]]; [lia|intros t Ht; apply Hb, R0, Ht|]. exists d'. split; [exact E'|]. intros name. rewrite A. apply E1.
    - replace (lsteps s - first_step s start) with 0 by lia. exists dp. split; [reflexivity|exact E1].
  Qed.
  (** Refuted: "a kernel of the wrong size is refused".  An image with a size below 10 has no octave of its own size: any kernel is accepted, and has no effect. *)
  Theorem C153_small_refuted s x y z verbose oct0 name content start out m d : ldims s = [x; y; z] -> x < 10 \/ y < 10 \/ z < 10 -> (forall t, in_run s start t -> lfirst s + linc s * t + z * y * x <= length file) ->
    d name = Some content -> exists d', main verbose oct0 s 2%Z (Some name) start out m d = (d', Val tt) /\
      files_written file writable show (centres_of oct0 [octave_with one [2 * z; 2 * y; 2 * x] false None]) (lratio s) (lfirst s) (linc s) (z * y * x) out (in_run s start) d d'.
  Proof.
    intros Ed H Hb D. assert (E0 : map (create K R one) (octave_shapes z y x) = [octave_with one [2 * z; 2 * y; 2 * x] false None]).
    { unfold octave_shapes. rewrite (halvings_fun z y x _ (octaves_halve z z y x (le_n _)) [] (Too_small z y x ltac:(lia))). reflexivity. }
    destruct (run_ok s x y z verbose oct0 [octave_with one [2 * z; 2 * y; 2 * x] false None] start out m d d 2%Z (Some name) d Ed Hb) as [d' (E & A & B)]; [|reflexivity|].
    - unfold prepare. cbn [Z.eqb Pos.eqb]. rewrite D, E0. reflexivity.
    - exists d'. split; [exact E|]. apply run_files; auto.
  Qed.
  (** Series of flat images are refused. *)
  Theorem C153_flat s verbose oct0 mode kname start out m d : length (ldims s) <> 3 -> main verbose oct0 s mode kname start out m d = (d, Throw).
  Proof. intros N. unfold scan_main. destruct (ldims s) as [|? [|? [|? [|? ?]]]]; try reflexivity. cbn [length] in N. congruence. Qed.
  (** A file that ends before one of the images is read past its end. *)
  Theorem C153_past_end s x y z rest verbose oct0 mode kname start out m d d1 o t : ldims s = [x; y; z] -> halvings z y x ([z; y; x] :: rest) -> prepared one z y x (first_kernel s z y x) showK parseK writable d mode kname d1 o ->
    in_run s start t -> length file < lfirst s + linc s * t + z * y * x -> snd (main verbose oct0 s mode kname start out m d) = UB.
  Proof.
    intros Ed H Hp Ht Hs. destruct (prepare_ok s z y x rest mode kname d d1 o H Hp) as [dp [Ep E1]]. unfold scan_main. rewrite Ed, Ep. cbn [andthen]. generalize (octave_with one [2 * z; 2 * y; 2 * x] false None :: o :: map (fun sh => octave_with one sh false None) rest). intros os.
    assert (R0 : first_step s start <= t < lsteps s). { revert Ht. unfold in_run, first_step. destruct (Z.ltb_spec start 0); lia. }
    assert (G : forall k t0 m0 d0, t0 + k = lsteps s -> t0 <= t < lsteps s -> snd (steps_from s (z * y * x) verbose oct0 os out k t0 m0 d0) = UB); [|apply G; lia].
    clear - Hfind Hgood Hcfg Hdims Hsort Hs. induction k as [|k IH]; intros t0 m0 d0 Hk R0; [lia|]. cbn [scan_steps]. unfold view. rewrite (proj2 (Nat.ltb_lt t0 (lsteps s))) by lia. destruct (Nat.leb_spec (lfirst s + linc s * t0 + z * y * x) (length file)) as [L|L]; [|reflexivity].
    assert (t0 <> t) by (intros ->; lia). cbn [andthen]. match goal with |- context [track_step ?a ?b ?c ?e ?f ?g ?h ?i ?j ?l ?n ?q] => destruct (track_step a b c e f g h i j l n q) as [m' cs] eqn:Et; remember q as img end.
    assert (Hg : Forall (fun c => length (coords c) = 3 /\ (0 <= radius c)%Z) cs). { assert (Ec : cs = centres_of oct0 os img). { unfold track_step, get_centers in Et. rewrite <- (Hfind oct0 os m0 img). destruct verbose; cbn [negb] in Et; congruence. } rewrite Ec. apply Hgood. }
    destruct (removed (lratio s) cs Hg) as [tree [kept [E _]]]. destruct cs; [apply IH; lia|]. rewrite E. apply IH; lia.
  Qed.
  (** The series is the one of --series if there is one, else the one chosen by the user. *)
  Theorem C153_serie verbose oct0 series given answer mode kname start out m d s i : nth_error series i = Some s ->
    given = Some (Z.of_nat i) \/ (i = answer /\ forall z, given = Some z -> (z < 0 \/ Z.of_nat (length series) <= z)%Z) ->
    scan_program P K R Mem one showK parseK show fill initialize subpix kern cfg sort file writable verbose oct0 series given answer mode kname start out m d = main verbose oct0 s mode kname start out m d.
  Proof.
    intros E H. unfold scan_program. assert (W : which_serie given (length series) answer = i).
    { unfold which_serie. destruct H as [->|[-> H]].
      - assert (L := nth_error_lt _ _ _ E). rewrite (proj2 (Z.leb_le _ _)), (proj2 (Z.ltb_lt _ _)) by lia. apply Nat2Z.id.
      - destruct given as [z|]; [|reflexivity]. destruct (H z eq_refl) as [L|L]; [rewrite (proj2 (Z.leb_gt 0 z)) by lia; reflexivity|]. rewrite (proj2 (Z.ltb_ge z _)) by lia. rewrite andb_false_r. reflexivity. }
    rewrite W, E. reflexivity.
  Qed.
End Program.

(** ** An instance *)
Definition by_intensity (a b : center) : bool := (intensity a <? intensity b)%Z.
Lemma ins_by x : forall l, sorted_by_intensity l -> sorted_by_intensity (ins by_intensity x l).
Proof.
  assert (Hd : forall a l, sorted_by_intensity (a :: l) <-> Forall (fun b => (intensity a <= intensity b)%Z) l /\ sorted_by_intensity l).
  { intros a l. split.
    - intros H. split; [apply Forall_forall; intros b I; apply In_nth_error in I as [j Ej]; apply (H 0 (S j)); [lia|reflexivity|exact Ej]|]. intros i j b c Hij Eb Ec. apply (H (S i) (S j)); [lia|exact Eb|exact Ec].
    - intros [F H] i j b c Hij Eb Ec. destruct j as [|j]; [lia|]. cbn [nth_error] in Ec. destruct i as [|i]; [|apply (H i j); [lia|exact Eb|exact Ec]]. cbn [nth_error] in Eb. assert (a = b) by congruence. subst b. rewrite Forall_forall in F. apply F. apply nth_error_In in Ec. exact Ec. }
  induction l as [|y l IH]; intros H; cbn [ins]; [apply Hd; split; [constructor|exact H]|]. unfold by_intensity at 1. destruct (Z.ltb_spec (intensity x) (intensity y)) as [L|L].
  - apply Hd. split; [|exact H]. apply Hd in H as [F _]. constructor; [lia|]. eapply Forall_impl; [|exact F]. intros b Hb. cbn in Hb. lia.
  - apply Hd in H as [F H]. apply Hd. split; [|apply IH, H]. apply Forall_forall. intros b I. rewrite Forall_forall in F. assert (I' : In b (x :: l)) by (eapply Permutation_in; [apply ins_perm|exact I]). destruct I' as [<-|I']; [exact L|apply F, I'].
Qed.
Lemma sort_by_intensity l : a_sort_of l (sort_by by_intensity l).
Proof.
  split; [apply Permutation_sym, sort_by_perm|]. unfold sort_by. assert (G : forall l acc, sorted_by_intensity acc -> sorted_by_intensity (fold_left (fun acc x => ins by_intensity x acc) l acc)).
  { clear l. induction l as [|x l IH]; intros acc H; [exact H|]. cbn [fold_left]. apply IH, ins_by, H. }
  apply G. intros i j a b _ E. destruct i; discriminate E.
Qed.
(** Three time steps of 10x10x12 pixels: nothing, then three centres of which one is inside another, then one centre.  The finder remembers the last image; the kernel has value 3. *)
Definition ex_found (oct0 : bool) (os : list (settings Z unit)) (img : list nat) : list center :=
  match nth 5 img 0 with
  | 1 => [mkCenter [2; 3; 4] 5 (-10); mkCenter [2; 3; 6] 5 (-20); mkCenter [2; 3; 9] 5 (-15)]%Z
  | 2 => [mkCenter [7; 7; 7]%Z (Z.of_nat (length os)) (match nth_error os 1 with Some o => if deconv _ _ o then hd 0%Z (kernel _ _ o) else if halfZ _ _ o then (-1)%Z else (-2)%Z | None => (-3)%Z end)]
  | _ => []
  end.
Definition ex_kern (sh : list nat) (img : list nat) : outcome (list Z) := Val (repeat 3%Z (nth 0 sh 0 / 2 + 1)).
Definition ex_lif : list nat := repeat 9 7 ++ repeat 0 1200 ++ repeat 1 1200 ++ repeat 2 1200.
Definition ex_leica : leica := mkLeica [12; 10; 10] (Z.mul 2) 3 7 1200.
Definition ex_mem : Type := bool * list (settings Z unit) * list nat.
Definition ex_main := scan_main nat Z unit ex_mem tt (show_Z 1) (parse_Z 1) (show_Z 1) (fun b os _ img => (b, os, img)) (fun m => m) (fun m => let '(b, os, img) := m in ex_found b os img) ex_kern lib_config (sort_by by_intensity) ex_lif (fun _ => true).
Example C153_case :
  codec (show_Z 1) (parse_Z 1) (fun z => (z / 1 * 1)%Z) /\ (forall oct0 os img, Forall (fun c => length (coords c) = 3 /\ (0 <= radius c)%Z) (ex_found oct0 os img)) /\
  (forall p r c im, 0 < p -> 0 < r -> 0 < c -> length im = p * r * c -> exists k, ex_kern [p; r; c] im = Val k /\ length k = p / 2 + 1) /\ config_ok lib_config /\ dims lib_config = 3 /\ (forall l, a_sort_of l (sort_by by_intensity l)) /\
  halvings 10 10 12 ([10; 10; 12] :: []) /\ (forall t, in_run ex_leica 0 t -> lfirst ex_leica + linc ex_leica * t + 10 * 10 * 12 <= length ex_lif) /\
  let d := put_file (fun _ => None) (txt "o_t000") (txt "old") in let empty := (false, [], []) in let tb := [tab] in let nl := [newline] in
  let '(d1, r1) := ex_main true false ex_leica 1%Z (Some (txt "k")) 0%Z (txt "o") empty d in
  r1 = Val tt /\ d1 (txt "o_t000") = Some (txt "old") /\
  d1 (txt "o_t001") = Some (txt "2" ++ tb ++ txt "3" ++ tb ++ txt "12" ++ tb ++ txt "5" ++ tb ++ txt "-20" ++ nl ++ txt "2" ++ tb ++ txt "3" ++ tb ++ txt "18" ++ tb ++ txt "5" ++ tb ++ txt "-15" ++ nl) /\
  d1 (txt "o_t002") = Some (txt "7" ++ tb ++ txt "7" ++ tb ++ txt "14" ++ tb ++ txt "2" ++ tb ++ txt "3" ++ nl) /\
  d1 (txt "k") = Some (List.concat (repeat (txt "3" ++ tb) 6)) /\
  (let '(d2, r2) := ex_main false false ex_leica 2%Z (Some (txt "k")) 2%Z (txt "o") empty d1 in r2 = Val tt /\ d2 (txt "o_t002") = d1 (txt "o_t002") /\ d2 (txt "o_t001") = d1 (txt "o_t001")) /\
  (let '(d2, r2) := ex_main false false ex_leica 0%Z None 2%Z (txt "p") empty d1 in r2 = Val tt /\ d2 (txt "p_t002") = Some (txt "7" ++ tb ++ txt "7" ++ tb ++ txt "14" ++ tb ++ txt "2" ++ tb ++ txt "-1" ++ nl) /\ d2 (txt "p_t001") = None) /\
  snd (ex_main false false ex_leica 2%Z (Some (txt "o_t001")) 0%Z (txt "p") empty d1) = Throw.
Proof.
  split; [apply codec_Z|]. split. { intros oct0 os img. unfold ex_found. destruct (nth 5 img 0) as [|[|[|?]]]; repeat (apply Forall_cons; [cbn; lia|]); apply Forall_nil. }
  split. { intros p r c im _ _ _ _. eexists. split; [reflexivity|]. apply repeat_length. } split; [apply lib_config_ok|]. split; [reflexivity|]. split; [apply sort_by_intensity|].
  split; [apply Halve; [lia|lia|lia|apply Too_small; cbn; lia]|]. split. { intros t [_ Ht]. cbn [lsteps ex_leica] in Ht. cbn [lfirst linc ex_leica]. assert (E : length ex_lif = 7 + (1200 + (1200 + 1200))) by (unfold ex_lif; rewrite !app_length, !repeat_length; reflexivity). rewrite E. lia. }
  vm_compute. repeat split; reflexivity.
Qed.
(** The run of the case above, interrupted after two characters of its second file *)
Example C153_case_interrupted : exists e, e (txt "o_t001") = Some (txt "2" ++ [tab]) /\ e (txt "o_t002") = None /\
  scan_interrupted nat Z unit ex_mem tt (show_Z 1) (parse_Z 1) (show_Z 1) (fun b os _ img => (b, os, img)) (fun m => m) (fun m => let '(b, os, img) := m in ex_found b os img) ex_kern lib_config (sort_by by_intensity) ex_lif (fun _ => true)
    true false ex_leica 1%Z (Some (txt "k")) 0%Z (txt "o") (false, [], []) (fun _ => None) e.
Proof.
  eexists. split; [|split; [|]]; cycle 2.
  - unfold scan_interrupted. exists 12, 10, 10. eexists. eexists. split; [reflexivity|]. split; [vm_compute; reflexivity|].
    eapply Pass_none; [vm_compute; reflexivity|vm_compute; reflexivity|]. eapply Pass_writing with (c := txt "2" ++ [tab]); [vm_compute; reflexivity|vm_compute; reflexivity|discriminate|vm_compute; reflexivity|vm_compute; reflexivity].
  - vm_compute. reflexivity.
  - vm_compute. reflexivity.
Qed.

Print Assumptions C153_files.
Print Assumptions C153_restart.
Print Assumptions C153_crash.
Print Assumptions C153_refused.
Print Assumptions C153_computed.
Print Assumptions C153_reload.
Print Assumptions C153_stale_refuted.
Print Assumptions C153_unwritable_refuted.
Print Assumptions C153_small_refuted.
Print Assumptions C153_flat.
Print Assumptions C153_past_end.
Print Assumptions C153_serie.

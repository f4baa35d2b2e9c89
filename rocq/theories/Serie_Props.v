(** Series of image files and time steps of Leica files. *)
Require Import List Bool Arith NArith Ascii Lia.
Require Import Verif.Base Verif.ListX Verif.Dec Verif.Traj_Model Verif.Particles_Model Verif.Corr_Model Verif.Pyramid_Model Verif.Pyramid_Proofs Verif.Files_Model Verif.Files_Spec Verif.Files_Proofs
  Verif.Tracker_Model Verif.Tracker_Spec Verif.Tracker_Proofs Verif.Tracker_Props Verif.Serie_Model Verif.Serie_Proofs.
Import ListNotations.

(** A mark and its digits, when the name has them. *)
Definition marked (mark : text) (ds : option text) : text := match ds with Some d => mark ++ d | None => [] end.
(** The digits of a mark are digits, and the mark is nowhere else after; or the mark is nowhere and there is at most one step. *)
Definition plain (mark : text) (ds : option text) (n : nat) (name tail : text) : Prop :=
  match ds with Some d => d <> [] /\ numeral d /\ no_digit_first tail /\ absent mark tail | None => absent mark name /\ n <= 1 end.
(** s writes the number n where the digits are, with at least as many digits. *)
Definition rewritten (ds : option text) (n : N) (s : option text) : Prop :=
  match ds, s with Some d, Some s => writes (length d) n s | None, None => True | _, _ => False end.

Lemma parse_time_ok name hd ds tl nt : name = hd ++ marked t_mark ds ++ tl -> plain t_mark ds nt name tl ->
  parse_time name nt = Val (match ds with Some d => (hd, Some (length d), tl) | None => (name, None, []) end).
Proof.
  intros E P. unfold parse_time. destruct ds as [d|]; cbn [plain marked] in *.
  - destruct P as (D & N & F & A). subst name. rewrite <- app_assoc. rewrite rfind_number by auto. rewrite digits_after_ok by auto. rewrite firstn_head. auto.
  - destruct P as [A L]. apply rfind_none in A. rewrite A. destruct (Nat.ltb_spec 1 nt); [lia|auto].
Qed.
Lemma plain_z_tail zd tds nz name tail : match tds with Some d => numeral d | None => True end -> plain z_mark (Some zd) nz name tail -> absent z_mark (marked t_mark tds ++ tail) /\ no_digit_first (marked t_mark tds ++ tail).
Proof.
  intros N (D & Nz & F & A). destruct tds as [d|]; cbn [marked app]; [|auto]. split; [|exists (ascii_of_N 95); eexists; split; [reflexivity|reflexivity]].
  rewrite <- app_assoc. apply absent_z_time; auto.
Qed.
Definition pat_of (head : text) (zd td : option text) (tail : text) : pattern := mkPattern head (option_map (@length _) zd) (option_map (@length _) td) tail.
Lemma serie_pattern_ok head zd td tail nz nt : let name := head ++ marked z_mark zd ++ marked t_mark td ++ tail in
  plain z_mark zd nz name tail -> plain t_mark td nt name tail -> no_percent name -> exists p, serie_pattern name nz nt = Val p /\
    p_z p = option_map (@length _) zd /\ p_t p = option_map (@length _) td /\
    (p_head p = head /\ p_tail p = tail \/ zd = None /\ td = None /\ p_head p = name /\ p_tail p = []).
Proof.
  cbv zeta. set (name := head ++ marked z_mark zd ++ marked t_mark td ++ tail). intros Pz Pt NP.
  assert (Nt : match td with Some d => numeral d | None => True end) by (destruct td; cbn in Pt; [apply Pt|auto]).
  assert (NP' : no_percent head /\ no_percent tail). { unfold name in NP. rewrite !no_percent_app in NP. tauto. }
  unfold serie_pattern. rewrite (parse_time_ok name (head ++ marked z_mark zd) td tail nt) by (auto; unfold name; rewrite !app_assoc; auto). cbn [obind].
  assert (R : forall h w1 w2 tl, no_percent h -> no_percent tl -> existsb (Ascii.eqb percent) (p_head (mkPattern h w1 w2 tl) ++ p_tail (mkPattern h w1 w2 tl)) = false).
  { intros. cbn [p_head p_tail]. apply no_percent_b. apply no_percent_app. auto. }
  unfold parse_depth. destruct zd as [d|].
  - destruct (plain_z_tail d td nz name tail Nt Pz) as [Az Fz]. destruct Pz as (D & N & F & A).
    assert (En : name = head ++ z_mark ++ d ++ marked t_mark td ++ tail) by (unfold name; cbn [marked]; rewrite <- app_assoc; auto).
    assert (Ez : rfind z_mark name = Some (length head)) by (rewrite En; apply rfind_number; auto).
    assert (Ed : digits_after name (length head) = Some (length d, marked t_mark td ++ tail)) by (rewrite En; apply digits_after_ok; auto).
    destruct td as [e|].
    + rewrite Ez, Ed. destruct Pt as (_ & _ & Ft & _). destruct tail as [|c tl] eqn:Et; [destruct Ft as [? [? [? ?]]]; discriminate|]. cbn [obind].
      rewrite resize_head. rewrite R by tauto. eexists. split; [reflexivity|]. cbn. auto.
    + rewrite Ez, Ed. cbn [marked app obind]. assert (Er : resize (length head) name = head) by (rewrite En; apply resize_head). rewrite Er. rewrite R by tauto. eexists. split; [reflexivity|]. cbn. auto.
  - destruct Pz as [A L]. apply rfind_none in A. destruct td as [e|]; rewrite A; destruct (Nat.ltb_spec 1 nz); try lia; cbn [obind].
    + cbn [marked]. rewrite app_nil_r. rewrite R by tauto. eexists. split; [reflexivity|]. cbn. auto.
    + rewrite R; auto. 2:{ intros []. } eexists. split; [reflexivity|]. cbn [p_z p_t p_head p_tail]. split; [auto|]. split; [auto|]. right. repeat split; auto.
Qed.

(** The file of slice z at time t is named as the pattern, with the numbers z and t in place of the digits. *)
Theorem C88_names head zd td tail nz nt : let name := head ++ marked z_mark zd ++ marked t_mark td ++ tail in
  plain z_mark zd nz name tail -> plain t_mark td nt name tail -> no_percent name -> ~ In nul name ->
  exists p, serie_pattern name nz nt = Val p /\ forall z t zs ts, rewritten zd z zs -> rewritten td t ts -> slice_name p z t = head ++ marked z_mark zs ++ marked t_mark ts ++ tail.
Proof.
  cbv zeta. intros Pz Pt NP NN. destruct (serie_pattern_ok head zd td tail nz nt Pz Pt NP) as [p (E & Ez & Et & H)]. exists p. split; [auto|]. intros z t zs ts Wz Wt.
  rewrite !in_app_iff in NN. unfold slice_name. rewrite Ez, Et.
  assert (Nz : number z_mark (option_map (@length _) zd) z = marked z_mark zs).
  { destruct zd, zs; cbn in *; try tauto. rewrite (pad_is _ _ _ Wz). auto. }
  assert (Nt : number t_mark (option_map (@length _) td) t = marked t_mark ts).
  { destruct td, ts; cbn in *; try tauto. rewrite (pad_is _ _ _ Wt). auto. }
  rewrite Nz, Nt.
  assert (Mz : ~ In nul (marked z_mark zs)). { destruct zd, zs; cbn in *; try tauto. intros [|[|I]]; try discriminate. revert I. apply numeral_no_nul, Wz. }
  assert (Mt : ~ In nul (marked t_mark ts)). { destruct td, ts; cbn in *; try tauto. intros [|[|I]]; try discriminate. revert I. apply numeral_no_nul, Wt. }
  destruct H as [[-> ->]|(-> & -> & -> & ->)].
  - apply c_str_all. rewrite !in_app_iff. tauto.
  - destruct zs, ts; cbn in Wz, Wt; try tauto. cbn [marked app]. rewrite app_nil_r. apply c_str_all. rewrite in_app_iff. tauto.
Qed.
(** The name given is the one of its own numbers, and no other slice or time has the same. *)
Theorem C88_own_name head zd td tail nz nt : let name := head ++ z_mark ++ zd ++ t_mark ++ td ++ tail in
  plain z_mark (Some zd) nz name tail -> plain t_mark (Some td) nt name tail -> no_percent name -> ~ In nul name ->
  exists p, serie_pattern name nz nt = Val p /\ slice_name p (value_from 0 zd) (value_from 0 td) = name /\
    forall z t z' t', slice_name p z t = slice_name p z' t' -> z = z' /\ t = t'.
Proof.
  cbv zeta. intros Pz Pt NP NN. assert (En : head ++ z_mark ++ zd ++ t_mark ++ td ++ tail = head ++ marked z_mark (Some zd) ++ marked t_mark (Some td) ++ tail) by (cbn [marked]; rewrite <- !app_assoc; auto).
  assert (X := C88_names head (Some zd) (Some td) tail nz nt). cbv zeta in X. rewrite <- En in X. destruct (X Pz Pt NP NN) as [p [E H]]. exists p. split; [auto|].
  destruct Pz as (Dz & Nz & _). destruct Pt as (Dt & Nt & Ft & _). split.
  - assert (W1 := writes_own zd Dz Nz). assert (W2 := writes_own td Dt Nt). rewrite (H _ _ (Some zd) (Some td) W1 W2). cbn [marked]. rewrite <- !app_assoc. auto.
  - intros z t z' t' Eq. assert (Wz := pad_writes (length zd) z). assert (Wz' := pad_writes (length zd) z'). assert (Wt := pad_writes (length td) t). assert (Wt' := pad_writes (length td) t').
    rewrite (H z t (Some _) (Some _) Wz Wt), (H z' t' (Some _) (Some _) Wz' Wt') in Eq. cbn [marked] in Eq. rewrite <- !app_assoc in Eq. apply app_inv_head in Eq. apply app_inv_head in Eq.
    assert (Fm : forall a, no_digit_first (t_mark ++ a)) by (intros a; exists (ascii_of_N 95); eexists; split; reflexivity).
    assert (S1 := span_digits _ _ (proj1 Wz) (Fm (pad (length td) t ++ tail))). assert (S2 := span_digits _ _ (proj1 Wz') (Fm (pad (length td) t' ++ tail))). rewrite Eq, S2 in S1. injection S1 as E1 E2.
    assert (S3 := span_digits _ _ (proj1 Wt) Ft). assert (S4 := span_digits _ _ (proj1 Wt') Ft). rewrite <- E2, S4 in S3. injection S3 as E3.
    destruct Wz as (_ & <- & _), Wz' as (_ & <- & _), Wt as (_ & <- & _), Wt' as (_ & <- & _). split; congruence.
Qed.
(** Several slices or several times without the mark: refused.  Digits up to the end of the name: refused too. *)
Theorem C88_missing name nz nt : (absent t_mark name /\ 1 < nt) \/ (absent z_mark name /\ 1 < nz) -> serie_pattern name nz nt = Throw.
Proof.
  unfold serie_pattern. intros [[A L]|[A L]]; apply rfind_none in A.
  - unfold parse_time. rewrite A. destruct (Nat.ltb_spec 1 nt); [auto|lia].
  - destruct (parse_time name nt) as [[[h w] tl]| |] eqn:E; cbn [obind]; auto.
    + unfold parse_depth. rewrite A. destruct (Nat.ltb_spec 1 nz); [auto|lia].
    + unfold parse_time in E. destruct (rfind t_mark name); [destruct (digits_after name n) as [[? ?]|]|destruct (1 <? nt)]; discriminate.
Qed.
Theorem C88_no_extension head ds nz nt : numeral ds -> ds <> [] -> serie_pattern (head ++ t_mark ++ ds) nz nt = Throw.
Proof.
  intros N D. unfold serie_pattern, parse_time. assert (X : t_mark <> []) by discriminate. assert (R := rfind_number t_mark head ds [] (or_introl eq_refl) D N (absent_nil t_mark X)). rewrite app_nil_r in R. rewrite R.
  rewrite digits_after_end by auto. auto.
Qed.
(** What is written between the number of the slice and the mark of the time is lost. *)
Theorem C88_between_refuted head zd mid td tail nz nt : let name := head ++ z_mark ++ zd ++ mid ++ t_mark ++ td ++ tail in
  mid <> [] -> no_digit_first mid -> absent z_mark (mid ++ t_mark ++ td ++ tail) -> zd <> [] -> numeral zd -> td <> [] -> numeral td -> no_digit_first tail -> absent t_mark tail ->
  no_percent name -> ~ In nul name ->
  exists p, serie_pattern name nz nt = Val p /\ (forall z t zs ts, writes (length zd) z zs -> writes (length td) t ts -> slice_name p z t = head ++ z_mark ++ zs ++ t_mark ++ ts ++ tail) /\
    slice_name p (value_from 0 zd) (value_from 0 td) <> name.
Proof.
  cbv zeta. set (name := head ++ z_mark ++ zd ++ mid ++ t_mark ++ td ++ tail). intros M Fm Am Dz Nz Dt Nt Ft At NP NN.
  assert (Et : name = (head ++ z_mark ++ zd ++ mid) ++ t_mark ++ td ++ tail) by (unfold name; rewrite <- !app_assoc; auto).
  assert (NP' := NP). unfold name in NP'. rewrite !no_percent_app in NP'. assert (NN' := NN). unfold name in NN'. rewrite !in_app_iff in NN'.
  assert (R1 : rfind t_mark name = Some (length (head ++ z_mark ++ zd ++ mid))) by (rewrite Et; apply rfind_number; auto).
  assert (R2 : digits_after name (length (head ++ z_mark ++ zd ++ mid)) = Some (length td, tail)) by (rewrite Et; apply digits_after_ok; auto).
  assert (R3 : firstn (length (head ++ z_mark ++ zd ++ mid)) name = head ++ z_mark ++ zd ++ mid) by (rewrite Et; apply firstn_head).
  unfold serie_pattern, parse_time. rewrite R1, R2, R3. cbn [obind]. unfold parse_depth.
  assert (F2 : no_digit_first (mid ++ t_mark ++ td ++ tail)). { destruct Fm as [c [s [-> Hc]]]. exists c. eexists. split; [reflexivity|auto]. }
  assert (R4 : rfind z_mark name = Some (length head)) by (apply rfind_number; auto).
  assert (R5 : digits_after name (length head) = Some (length zd, mid ++ t_mark ++ td ++ tail)) by (apply digits_after_ok; auto).
  rewrite R4, R5. assert (M2 : forall (A : Type) (a b : A), match tail with [] => a | _ :: _ => b end = b) by (intros; destruct Ft as [? [? [-> _]]]; auto). rewrite M2. cbn [obind].
  rewrite resize_head. cbn [p_head p_tail]. rewrite no_percent_b by (apply no_percent_app; tauto). eexists. split; [reflexivity|].
  assert (H : forall z t zs ts, writes (length zd) z zs -> writes (length td) t ts -> slice_name (mkPattern head (Some (length zd)) (Some (length td)) tail) z t = head ++ z_mark ++ zs ++ t_mark ++ ts ++ tail).
  { intros z t zs ts Wz Wt. unfold slice_name. cbn [p_head p_tail p_z p_t number]. rewrite (pad_is _ _ _ Wz), (pad_is _ _ _ Wt). rewrite <- !app_assoc. apply c_str_all.
    assert (A1 := numeral_no_nul _ (proj1 Wz)). assert (A2 := numeral_no_nul _ (proj1 Wt)). rewrite !in_app_iff. tauto. }
  split; [exact H|]. rewrite (H _ _ zd td) by (apply writes_own; auto). unfold name. intros E. apply (f_equal (@length _)) in E. rewrite !app_length in E. destruct mid as [|c0 mid]; [congruence|]. cbn [length] in E. lia.
Qed.
(** The time before the slice: the same file, named as what comes before the time, is loaded for all slices and times. *)
Theorem C88_order_refuted head td zd tail nz nt : let name := head ++ t_mark ++ td ++ z_mark ++ zd ++ tail in
  zd <> [] -> numeral zd -> td <> [] -> numeral td -> no_digit_first tail -> absent t_mark tail -> absent z_mark tail -> no_percent name -> ~ In nul name ->
  exists p, serie_pattern name nz nt = Val p /\ forall z t, slice_name p z t = head.
Proof.
  cbv zeta. set (name := head ++ t_mark ++ td ++ z_mark ++ zd ++ tail). intros Dz Nz Dt Nt Ft At Az NP NN.
  assert (Ez : name = (head ++ t_mark ++ td) ++ z_mark ++ zd ++ tail) by (unfold name; rewrite <- !app_assoc; auto).
  assert (NP' := NP). unfold name in NP'. rewrite !no_percent_app in NP'. assert (NN' := NN). unfold name in NN'. rewrite !in_app_iff in NN'.
  assert (A1 := absent_t_depth zd tail Nz At). assert (F1 : no_digit_first (z_mark ++ zd ++ tail)) by (exists (ascii_of_N 95); eexists; split; reflexivity).
  assert (R1 : rfind t_mark name = Some (length head)) by (apply rfind_number; auto).
  assert (R2 : digits_after name (length head) = Some (length td, z_mark ++ zd ++ tail)) by (apply digits_after_ok; auto).
  assert (R3 : firstn (length head) name = head) by apply firstn_head.
  assert (R4 : rfind z_mark name = Some (length (head ++ t_mark ++ td))) by (rewrite Ez; apply rfind_number; auto).
  assert (R5 : digits_after name (length (head ++ t_mark ++ td)) = Some (length zd, tail)) by (rewrite Ez; apply digits_after_ok; auto).
  unfold serie_pattern, parse_time. rewrite R1, R2, R3. cbn [obind]. unfold parse_depth. rewrite R4, R5. cbn [z_mark app obind]. cbn [p_head p_tail].
  set (n := length (head ++ t_mark ++ td)). assert (Er : exists k, resize n head = head ++ nul :: repeat nul k).
  { unfold resize. exists (n - length head - 1). rewrite firstn_all2 by (unfold n; rewrite app_length; lia). f_equal. assert (L : 0 < n - length head) by (unfold n; rewrite !app_length; cbn; lia).
    destruct (n - length head) eqn:X; [lia|]. cbn [repeat]. replace (S n0 - 1) with n0 by lia. auto. }
  destruct Er as [k Er]. rewrite Er. change (ascii_of_N 95 :: ascii_of_N 122 :: zd ++ tail) with (z_mark ++ zd ++ tail).
  rewrite no_percent_b. 2:{ rewrite !no_percent_app. split; [split; [tauto|]|tauto]. intros [I|I]; [discriminate|]. apply repeat_spec in I. discriminate. }
  eexists. split; [reflexivity|]. intros z t. unfold slice_name. cbn [p_head]. rewrite <- app_assoc. cbn [app]. apply c_str_cut. tauto.
Qed.

Section Images.
Variables (V T C : Type) (add : T -> V -> T) (zero_sum : T) (conv : C -> V) (over : T -> nat -> T) (n0 n1 n2 : nat) (disk : text -> option (picture C)).
(** Pixel (x,y) of a channel of a picture of one slice, channels one after the other, x fastest. *)
Definition pict (b : picture C) (channel y x : nat) : option C := nth_error (pixels b) (channel * (hei b * wid b) + y * wid b + x).
(** A picture of the expected size with this channel. *)
Definition fits (channel : nat) (b : picture C) : Prop := wid b = n2 /\ hei b = n1 /\ dep b = 1 /\ channel < spec b /\ length (pixels b) = wid b * hei b * dep b * spec b.
Lemma nth_skip {A} : forall n (l : list A) k, nth_error (skipn n l) k = nth_error l (n + k).
Proof. induction n; intros [|x l] j; cbn; auto; destruct j; auto. Qed.
Lemma fits_load channel b name : disk name = Some b -> fits channel b -> load C disk channel name = Val (skipn (channel * (n1 * n2)) (pixels b)) /\ n1 * n2 <= length (skipn (channel * (n1 * n2)) (pixels b)).
Proof.
  intros E (W & H & D & S & L). unfold load. rewrite E, W, H, D. rewrite Nat.mul_1_r, (Nat.mul_comm n2 n1). split; [auto|]. rewrite skipn_length, L, W, H, D, Nat.mul_1_r, (Nat.mul_comm n2 n1).
  assert ((channel + 1) * (n1 * n2) <= spec b * (n1 * n2)) by (apply Nat.mul_le_mono_r; lia). lia.
Qed.
(** The pixels of the channel, in order. *)
Definition plane (channel : nat) (b : picture C) : list C := firstn (n1 * n2) (skipn (channel * (n1 * n2)) (pixels b)).
Lemma slice_sum (zero : V) m inp acc z : length m = n0 * n1 * (2 * (n2 / 2 + 1)) -> z < n0 -> n1 * n2 <= length inp -> forall s, fill_slice V T C add conv n1 n2 z m inp acc = Val s ->
  sum V T C s = option_map (fun t => fold_left (fun t x => add t (conv x)) (firstn (n1 * n2) inp) t) acc.
Proof.
  intros L Hz I s E. unfold fill_slice in E. set (d := z * (n1 * (n2 / 2 + 1)) * 2) in E. assert (Ed : d = (z * n1) * line n2) by (unfold d, line; lia).
  assert (Hz2 : ((z + 1) * n1) * line n2 <= (n0 * n1) * line n2) by (apply Nat.mul_le_mono_r; apply Nat.mul_le_mono_r; lia).
  destruct (fill_lines_ok V T C zero add conv n2 false n1 m d inp acc) as [s' (E' & _ & _ & _ & _ & _ & Es)]; [rewrite L; fold (line n2); lia|lia|].
  rewrite E' in E. injection E as <-. exact Es.
Qed.

(** With depth: every slice z of the image of time t is the channel of the file of z and t, and the mean is the sum of all these pixels over
    their number. *)
Theorem C88_image p channel t block (pics : nat -> picture C) (zero : V) : length block = n0 * n1 * (2 * (n2 / 2 + 1)) -> p_z p <> None ->
  (forall z, z < n0 -> disk (slice_name p (N.of_nat z) t) = Some (pics z) /\ fits channel (pics z)) ->
  exists m', set_time_step V T C add zero_sum conv over n0 n1 n2 disk p channel t block =
      Val (m', Some (over (fold_left add (map conv (flat_map (fun z => plane channel (pics z)) (seq 0 n0))) zero_sum) (n0 * n1 * n2))) /\ length m' = length block /\
    forall z y x, z < n0 -> y < n1 -> x < n2 -> padded_pixel n1 n2 m' z y x = option_map conv (pict (pics z) channel y x).
Proof.
  intros L P D. unfold set_time_step. destruct (p_z p) as [w|] eqn:Ep; [|congruence].
  set (f := fun z mm => obind (load C disk channel (slice_name p (N.of_nat z) t)) (fun inp => omap (fun s => (mem V T C s, sum V T C s)) (fill_slice V T C add conv n1 n2 z (fst mm) inp (snd mm)))).
  assert (G : forall n, n <= n0 -> exists m', ofold f (seq 0 n) (block, Some zero_sum) = Val (m', Some (fold_left add (map conv (flat_map (fun z => plane channel (pics z)) (seq 0 n))) zero_sum)) /\ length m' = length block /\
    forall z y x, z < n -> y < n1 -> x < n2 -> padded_pixel n1 n2 m' z y x = option_map conv (pict (pics z) channel y x)).
  { induction n as [|n IH]; intros Hn.
    - exists block. cbn. repeat split; auto. intros; lia.
    - destruct IH as [m (E & Lm & K)]; [lia|]. rewrite seq_S, ofold_app, E. cbn [obind plus ofold]. unfold f at 1. cbn [fst snd]. destruct (D n) as [Df Fi]; [lia|].
      destruct (fits_load channel (pics n) _ Df Fi) as [El Li]. rewrite El. cbn [obind].
      destruct (C67_slice V T C zero add conv n0 n1 n2 m _ (Some (fold_left add (map conv (flat_map (fun z => plane channel (pics z)) (seq 0 n))) zero_sum)) n ltac:(congruence) Hn Li) as [s (Es & Ls & _ & A & B)].
      rewrite Es. cbn [omap obind]. rewrite (slice_sum zero m _ _ n (eq_trans Lm L) Hn Li s Es). cbn [option_map]. exists (mem V T C s). split; [|split; [congruence|]].
      + f_equal. f_equal. f_equal. rewrite flat_map_app, map_app, fold_left_app. cbn [flat_map]. rewrite app_nil_r. fold (plane channel (pics n)).
        generalize (fold_left add (map conv (flat_map (fun z => plane channel (pics z)) (seq 0 n))) zero_sum). clear. induction (plane channel (pics n)) as [|x l IH]; intros u; cbn; auto.
      + intros z y x Hz Hy Hx. assert (X : z = n \/ z < n) by lia. destruct X as [->|X].
        * rewrite A by auto. f_equal. unfold flat_pixel, pict. rewrite nth_skip. destruct Fi as (-> & -> & _). f_equal. lia.
        * rewrite B by (auto; lia). apply K; auto. }
  destruct (G n0 (le_n _)) as [m' (E & Lm & K)]. exists m'. rewrite E. cbn [omap fst snd option_map]. auto.
Qed.
(** Without depth: the image is the channel of the file of time t, of any number of slices; but the mean is never defined. *)
Theorem C88_flat p channel t block b : length block = n0 * n1 * (2 * (n2 / 2 + 1)) -> p_z p = None -> disk (slice_name p 0 t) = Some b ->
  wid b = n2 -> hei b = n1 -> dep b = n0 -> channel < spec b -> length (pixels b) = wid b * hei b * dep b * spec b ->
  exists m', set_time_step V T C add zero_sum conv over n0 n1 n2 disk p channel t block = Val (m', None) /\ length m' = length block /\
    forall z y x, z < n0 -> y < n1 -> x < n2 -> padded_pixel n1 n2 m' z y x = option_map conv (nth_error (pixels b) (((channel * n0 + z) * n1 + y) * n2 + x)).
Proof.
  intros L P Df W H Dp S Lp. unfold set_time_step, load. rewrite P, Df. cbn [obind]. rewrite W, H, Dp in *.
  destruct (C67_fill V T C add conv n0 n1 n2 block (skipn (channel * (n2 * n1 * n0)) (pixels b)) L) as [s (E & Ls & _ & K)].
  { rewrite skipn_length, Lp. assert ((channel + 1) * (n2 * n1 * n0) <= spec b * (n2 * n1 * n0)) by (apply Nat.mul_le_mono_r; lia). lia. }
  assert (M := C67_mean_refuted V T C add conv n0 n1 n2 block _ s E). rewrite E. cbn [omap fst snd]. rewrite M. cbn [option_map]. exists (mem V T C s). split; [auto|]. split; [auto|].
  intros z y x Hz Hy Hx. rewrite K by auto. f_equal. unfold flat_pixel. rewrite nth_skip. f_equal. ring.
Qed.
(** A missing file throws. *)
Theorem C88_missing_file p channel t block : length block = n0 * n1 * (2 * (n2 / 2 + 1)) -> p_z p <> None ->
  (forall z, z < n0 -> disk (slice_name p (N.of_nat z) t) = None \/ exists b, disk (slice_name p (N.of_nat z) t) = Some b /\ fits channel b) ->
  (exists z, z < n0 /\ disk (slice_name p (N.of_nat z) t) = None) -> forall zero : V, set_time_step V T C add zero_sum conv over n0 n1 n2 disk p channel t block = Throw.
Proof.
  intros L P D [z0 [Hz Ez]] zero. unfold set_time_step. destruct (p_z p) as [w|] eqn:Ep; [|congruence].
  set (f := fun z mm => obind (load C disk channel (slice_name p (N.of_nat z) t)) (fun inp => omap (fun s => (mem V T C s, sum V T C s)) (fill_slice V T C add conv n1 n2 z (fst mm) inp (snd mm)))).
  assert (G : forall n, n <= n0 -> ofold f (seq 0 n) (block, Some zero_sum) = Throw \/ (forall z, z < n -> disk (slice_name p (N.of_nat z) t) <> None) /\ exists m acc, ofold f (seq 0 n) (block, Some zero_sum) = Val (m, acc) /\ length m = length block).
  { induction n as [|n IH]; intros Hn.
    - right. split; [intros; lia|]. exists block, (Some zero_sum). auto.
    - rewrite seq_S, ofold_app. destruct IH as [->|[A [m [acc [E Lm]]]]]; [lia|left; auto|]. rewrite E. cbn [obind plus ofold]. unfold f at 1 2. cbn [fst snd].
      destruct (D n) as [N|[b [Db Fb]]]; [lia| |].
      + left. unfold load. rewrite N. auto.
      + right. split. { intros z Hz'. assert (X : z = n \/ z < n) by lia. destruct X as [->|X]; [congruence|auto]. }
        destruct (fits_load channel b _ Db Fb) as [El Li]. rewrite El. cbn [obind].
        destruct (C67_slice V T C zero add conv n0 n1 n2 m _ acc n ltac:(congruence) Hn Li) as [s (Es & Ls & _)]. rewrite Es. cbn [omap obind]. eexists _, _. split; [reflexivity|]. congruence. }
  destruct (G n0 (le_n _)) as [->|[A _]]; [auto|]. exfalso. apply (A z0 Hz Ez).
Qed.
(** The size of the files is not checked: with a wider file the lines of the image are not lines of the file. *)
Theorem C88_size_refuted p channel t block b (zero : V) : length block = n0 * n1 * (2 * (n2 / 2 + 1)) -> n0 = 1 -> p_z p <> None -> disk (slice_name p 0 t) = Some b ->
  n2 < wid b -> n1 <= hei b -> dep b = 1 -> channel < spec b -> length (pixels b) = wid b * hei b * dep b * spec b ->
  exists m' s, set_time_step V T C add zero_sum conv over n0 n1 n2 disk p channel t block = Val (m', s) /\
    forall y x, y < n1 -> x < n2 -> padded_pixel n1 n2 m' 0 y x = option_map conv (pict b channel ((y * n2 + x) / wid b) ((y * n2 + x) mod wid b)).
Proof.
  intros L N0 P Df W H Dp S Lp. unfold set_time_step. destruct (p_z p) as [w|]; [|congruence]. rewrite N0. cbn [seq ofold]. unfold load. change (N.of_nat 0) with 0%N. rewrite Df. cbn [obind fst snd]. rewrite Dp in *. rewrite Nat.mul_1_r in *.
  destruct (C67_slice V T C zero add conv n0 n1 n2 block (skipn (channel * (wid b * hei b)) (pixels b)) (Some zero_sum) 0 L ltac:(lia)) as [s (Es & Ls & _ & A & _)].
  { rewrite skipn_length, Lp. assert ((channel + 1) * (wid b * hei b) <= spec b * (wid b * hei b)) by (apply Nat.mul_le_mono_r; lia). assert (n1 * n2 <= hei b * wid b) by (apply Nat.mul_le_mono; lia). lia. }
  rewrite Es. cbn [omap obind fst snd]. eexists _, _. split; [reflexivity|]. intros y x Hy Hx. rewrite A by auto. f_equal. unfold flat_pixel, pict. rewrite nth_skip. f_equal.
  assert (X := Nat.div_mod_eq (y * n2 + x) (wid b)). cbn [Nat.mul plus]. rewrite (Nat.mul_comm (hei b) (wid b)). lia.
Qed.
End Images.

Section Lif.
Variables (V T C : Type) (add : T -> V -> T) (zero_sum : T) (conv : C -> V) (n0 n1 n2 : nat) (zero : V) (file : list C) (start inc steps : nat).
Notation set_step := (lif_set V T C add zero_sum conv n0 n1 n2 zero file start inc steps).
Notation next := (lif_next V T C add zero_sum conv n0 n1 n2 zero file).
(** The block shows the bytes of the file from [off] on, last dimension fastest. *)
Definition shows (m : list V) (off : nat) : Prop :=
  forall i j k, i < n0 -> j < n1 -> k < n2 -> padded_pixel n1 n2 m i j k = option_map conv (nth_error file (off + ((i * n1 + j) * n2 + k))).
Lemma fill_shows m off : length m = n0 * n1 * (2 * (n2 / 2 + 1)) -> off + n0 * n1 * n2 <= length file ->
  exists f, fill_image_uchar V T C zero add zero_sum conv n0 n1 n2 m (skipn off file) = Val f /\ length (mem V T C f) = length m /\ shows (mem V T C f) off.
Proof.
  intros L H. destruct (C67_fill_uchar V T C zero add zero_sum conv n0 n1 n2 m (skipn off file) L) as [f (E & Lf & _ & K & _)]; [rewrite skipn_length; lia|].
  exists f. split; [auto|]. split; [auto|]. intros i j k Hi Hj Hk. rewrite K by auto. f_equal. unfold flat_pixel. apply nth_skip.
Qed.
(** One channel, time steps one after the other: k increments from time t lead to time t+k, as setTimeStep(t+k) does. *)
Theorem C89_steps s t k : length (lmem V s) = n0 * n1 * (2 * (n2 / 2 + 1)) -> 0 < n0 * n1 * n2 -> inc = n0 * n1 * n2 -> start + inc * steps <= length file -> t + k < steps ->
  exists s1 s2 s3, set_step t s = Val s1 /\ oiter k next s1 = Val s2 /\ set_step (t + k) s = Val s3 /\ lstep V s2 = t + k /\ lstep V s3 = t + k /\
    shows (lmem V s2) (start + inc * (t + k)) /\ shows (lmem V s3) (start + inc * (t + k)).
Proof.
  intros L N I F H. assert (B : forall q, q < steps -> start + inc * q + n0 * n1 * n2 <= length file). { intros q Hq. assert (inc * (q + 1) <= inc * steps) by (apply Nat.mul_le_mono_l; lia). lia. }
  assert (G : forall q, q < steps -> exists s1, set_step q s = Val s1 /\ lstep V s1 = q /\ at_byte V s1 = start + inc * q + n0 * n1 * n2 /\ length (lmem V s1) = length (lmem V s) /\ shows (lmem V s1) (start + inc * q)).
  { intros q Hq. unfold lif_set. destruct (Nat.leb_spec steps q); [lia|]. destruct (fill_shows (lmem V s) (start + inc * q) L (B q Hq)) as [f (E & Lf & Sf)]. rewrite E. cbn [omap]. eexists. split; [reflexivity|]. cbn. auto. }
  destruct (G t) as [s1 (E1 & T1 & A1 & L1 & S1)]; [lia|]. destruct (G (t + k)) as [s3 (E3 & T3 & _ & _ & S3)]; [lia|].
  destruct (oiter_inv (fun q w => lstep V w = t + q /\ at_byte V w = start + inc * (t + q) + n0 * n1 * n2 /\ length (lmem V w) = length (lmem V s) /\ shows (lmem V w) (start + inc * (t + q))) next k 0 s1) as [s2 [E2 (T2 & _ & _ & S2)]].
  - rewrite !Nat.add_0_r. auto.
  - intros q w Hq (Tw & Aw & Lw & Sw). unfold lif_next. assert (Bq := B (t + q + 1)). assert (X : inc * (t + q + 1) = inc * (t + q) + inc) by ring. destruct (Nat.leb_spec (length file) (at_byte V w)); [lia|].
    destruct (fill_shows (lmem V w) (at_byte V w)) as [f (E & Lf & Sf)]; [congruence|lia|]. rewrite E. cbn [omap]. eexists. split; [reflexivity|]. cbn [lstep at_byte lmem]. replace (t + S q) with (t + q + 1) by lia.
    split; [lia|]. split; [lia|]. split; [congruence|]. replace (start + inc * (t + q + 1)) with (at_byte V w) by lia. exact Sf.
  - exists s1, s2, s3. cbn [plus] in *. auto 10.
Qed.
(** Beyond the last step setTimeStep throws; the increment goes on counting, and keeps the last image if the file ends there. *)
Theorem C89_beyond s t : steps <= t -> set_step t s = Throw.
Proof. intros H. unfold lif_set. destruct (Nat.leb_spec steps t); [auto|lia]. Qed.
Theorem C89_end s : length file <= at_byte V s -> exists s', next s = Val s' /\ lstep V s' = S (lstep V s) /\ lmem V s' = lmem V s.
Proof. intros H. unfold lif_next. destruct (Nat.leb_spec (length file) (at_byte V s)); [|lia]. eexists. split; [reflexivity|auto]. Qed.
(** Several interlaced channels: the channel asked for is not used.  Voxel number q holds channel q mod c of pixel q / c; and the increment
    stays in the same time step. *)
Definition sample (c t p ch : nat) : option C := nth_error file (start + inc * t + (p * c + ch)).
Theorem C89_channels_refuted s t c : length (lmem V s) = n0 * n1 * (2 * (n2 / 2 + 1)) -> 2 <= c -> 0 < n0 * n1 * n2 -> inc = c * (n0 * n1 * n2) -> start + inc * steps <= length file -> t < steps ->
  exists s1 s2, set_step t s = Val s1 /\ next s1 = Val s2 /\ lstep V s2 = t + 1 /\
    forall i j k, i < n0 -> j < n1 -> k < n2 -> let q := (i * n1 + j) * n2 + k in
      padded_pixel n1 n2 (lmem V s1) i j k = option_map conv (sample c t (q / c) (q mod c)) /\
      padded_pixel n1 n2 (lmem V s2) i j k = option_map conv (sample c t ((n0 * n1 * n2 + q) / c) ((n0 * n1 * n2 + q) mod c)).
Proof.
  intros L C2 N I F H. set (M := n0 * n1 * n2) in *. assert (inc * (t + 1) <= inc * steps) by (apply Nat.mul_le_mono_l; lia). assert (2 * M <= inc) by (rewrite I; apply Nat.mul_le_mono_r; auto).
  unfold lif_set. destruct (Nat.leb_spec steps t); [lia|]. destruct (fill_shows (lmem V s) (start + inc * t) L) as [f (E & Lf & Sf)]; [fold M; lia|]. rewrite E. cbn [omap]. fold M. eexists. 
  unfold lif_next. cbn [at_byte lstep lmem]. destruct (Nat.leb_spec (length file) (start + inc * t + M)); [lia|]. destruct (fill_shows (mem V T C f) (start + inc * t + M)) as [f2 (E2 & Lf2 & Sf2)]; [congruence|fold M; lia|].
  eexists. split; [reflexivity|]. cbn [at_byte lstep lmem]. destruct (Nat.leb_spec (length file) (start + inc * t + M)); [lia|]. rewrite E2. cbn [omap]. split; [reflexivity|]. cbn [lstep lmem]. split; [lia|].
  intros i j k Hi Hj Hk. cbv zeta. rewrite Sf, Sf2 by auto. unfold sample. assert (D1 := Nat.div_mod_eq ((i * n1 + j) * n2 + k) c). assert (D2 := Nat.div_mod_eq (M + ((i * n1 + j) * n2 + k)) c).
  split; f_equal; f_equal; lia.
Qed.
End Lif.

(** "a_z00_t1.b", 2 slices of 1x2 pixels, 2 channels. *)
Definition tx (l : list N) : text := map ascii_of_N l.
Definition ex_name : text := tx [97; 95; 122; 48; 48; 95; 116; 49; 46; 98]%N.
Definition ex_disk (n : text) : option (picture N) :=
  if list_eq_dec ascii_dec n (tx [97; 95; 122; 48; 48; 95; 116; 55; 46; 98]%N) then Some (mkPicture 2 1 1 2 [1; 2; 3; 4]%N)
  else if list_eq_dec ascii_dec n (tx [97; 95; 122; 48; 49; 95; 116; 55; 46; 98]%N) then Some (mkPicture 2 1 1 2 [5; 6; 7; 8]%N) else None.
Example C88_case : exists p, serie_pattern ex_name 2 9 = Val p /\ slice_name p 12 345 = tx [97; 95; 122; 49; 50; 95; 116; 51; 52; 53; 46; 98]%N /\
  set_time_step N N N N.add 0%N (fun x => x) (fun s n => s * N.of_nat n)%N 2 1 2 ex_disk p 1 7 (repeat 0%N 8) = Val ([3; 4; 0; 0; 7; 8; 0; 0]%N, Some 88%N) /\
  set_time_step N N N N.add 0%N (fun x => x) (fun s n => s * N.of_nat n)%N 2 1 2 ex_disk p 1 8 (repeat 0%N 8) = Throw.
Proof. eexists. repeat split; vm_compute; reflexivity. Qed.
Example C88_hypotheses : plain z_mark (Some (tx [48; 48]%N)) 2 ex_name (tx [46; 98]%N) /\ plain t_mark (Some (tx [49]%N)) 9 ex_name (tx [46; 98]%N) /\
  fits N 1 2 1 (mkPicture 2 1 1 2 [5; 6; 7; 8]%N).
Proof.
  assert (A : forall m, m = z_mark \/ m = t_mark -> absent m (tx [46; 98]%N)) by (intros m [->| ->]; apply rfind_none; reflexivity).
  assert (F : no_digit_first (tx [46; 98]%N)) by (eexists _, _; split; reflexivity).
  split; [|split]; [repeat split; auto; try discriminate|repeat split; auto; try discriminate|repeat split; auto]; intros c H; cbn in H; intuition subst; reflexivity.
Qed.
(** A header of one byte, two time steps of 1x1x2 bytes. *)
Example C89_case : exists s1 s2, lif_set N N N N.add 0%N (fun x => x) 1 1 2 9%N [0; 1; 2; 3; 4]%N 1 2 2 0 (mkLif N 0 0 (repeat 0%N 4)) = Val s1 /\
  lif_next N N N N.add 0%N (fun x => x) 1 1 2 9%N [0; 1; 2; 3; 4]%N s1 = Val s2 /\ lmem N s1 = [1; 2; 9; 9]%N /\ lmem N s2 = [3; 4; 9; 9]%N /\ lstep N s2 = 1.
Proof. eexists _, _. split; [vm_compute; reflexivity|]. split; [vm_compute; reflexivity|]. split; [reflexivity|]. split; reflexivity. Qed.

Print Assumptions C88_names. Print Assumptions C88_own_name. Print Assumptions C88_missing. Print Assumptions C88_no_extension. Print Assumptions C88_between_refuted. Print Assumptions C88_order_refuted.
Print Assumptions C88_image. Print Assumptions C88_flat. Print Assumptions C88_missing_file. Print Assumptions C88_size_refuted.
Print Assumptions C89_steps. Print Assumptions C89_beyond. Print Assumptions C89_end. Print Assumptions C89_channels_refuted.

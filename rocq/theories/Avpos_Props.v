(** C134: files of positions averaged over time. *)
Require Import String.
Require Import ZArith QArith Qround List Arith NArith Ascii Bool Lia Lqa.
Require Import Verif.Base Verif.ListX Verif.Dec Verif.Traj_Model Verif.Traj_Spec Verif.Cluster_Spec Verif.Particles_Model Verif.Dyn_Model Verif.Dyn_Spec Verif.Dyn_Proofs Verif.Drift_Proofs Verif.Corr_Model Verif.Corr_Proofs
  Verif.Field_Model Verif.Field_Spec Verif.Field_Props Verif.Files_Model Verif.Files_Spec Verif.Files_Proofs Verif.Files_Props Verif.Export_Model Verif.Export_Spec Verif.Export_Proofs Verif.Export_Props
  Verif.TrajFile_Model Verif.TrajFile_Proofs Verif.DynFile_Model Verif.DynFile_Proofs Verif.DynFile_Props Verif.Perco_Model Verif.Perco_Props Verif.Drive_Model Verif.Drive_Props Verif.Avpos_Model.
Import ListNotations.
Local Open Scope nat_scope.
Local Open Scope list_scope.

(** ** Specification: the mean of a list of positions; null if there is none. *)
Definition mean_of (l : list pos3) (m : pos3) : Prop :=
  (l = [] -> forall a, In a axes -> (a m == 0)%Q) /\ (l <> [] -> forall a, In a axes -> (a m * inject_Z (Z.of_nat (List.length l)) == fold_right Qplus 0 (map a l))%Q).

Lemma axis_add a p q : In a axes -> a (add3 p q) = (a p + a q)%Q.
Proof. intros H. apply axes_in in H as [->|[->| ->]]; reflexivity. Qed.
Lemma axis_div a p n : In a axes -> a (div3 p n) = (a p / inject_Z (Z.of_nat n))%Q.
Proof. intros H. apply axes_in in H as [->|[->| ->]]; reflexivity. Qed.
Lemma axis_null a : In a axes -> a null3 = 0%Q.
Proof. intros H. apply axes_in in H as [->|[->| ->]]; reflexivity. Qed.
Lemma axis_sum a : In a axes -> forall l p, (a (fold_left add3 l p) == a p + fold_right Qplus 0 (map a l))%Q.
Proof. intros Ha. induction l as [|q l IH]; intros p; cbn [fold_left map fold_right]; [lra|]. rewrite IH, axis_add by auto. lra. Qed.
Lemma inject_ne n : 0 < n -> ~ (inject_Z (Z.of_nat n) == 0)%Q.
Proof. intros H E. unfold Qeq, inject_Z in E. cbn in E. lia. Qed.
Lemma mean_ok l : mean_of l (div3 (sum null3 add3 l) (Nat.max 1 (List.length l))).
Proof.
  split.
  - intros -> a Ha. rewrite axis_div by auto. unfold sum. cbn [fold_left]. rewrite axis_null by auto. reflexivity.
  - intros Hne a Ha. rewrite axis_div by auto. unfold sum. assert (L : 0 < List.length l) by (destruct l; [congruence|cbn; lia]). replace (Nat.max 1 (List.length l)) with (List.length l) by lia.
    rewrite Qmult_comm, Qmult_div_r by (apply inject_ne; auto). rewrite axis_sum, axis_null by auto. lra.
Qed.
Lemma mean_fun l m m' : mean_of l m -> mean_of l m' -> forall a, In a axes -> (a m == a m')%Q.
Proof.
  intros [E1 N1] [E2 N2] a Ha. destruct l as [|p l]; [rewrite (E1 eq_refl a Ha), (E2 eq_refl a Ha); reflexivity|]. specialize (N1 ltac:(discriminate) a Ha). specialize (N2 ltac:(discriminate) a Ha).
  apply (Qmult_inj_r _ _ (inject_Z (Z.of_nat (List.length (p :: l))))); [apply inject_ne; cbn; lia|]. rewrite N1, N2. reflexivity.
Qed.

Section Average.
  Variable isnull : pos3 -> bool.
  Variables (ti : trajindex) (frames : list (list pos3)) (tau : nat).
  Hypothesis Hc : consistent ti.
  Hypothesis Hsh : map (@List.length pos3) frames = map (@List.length nat) (inverse ti).
  Lemma removed : 0 < List.length frames -> exists ss, shifts3 frames ti = Val ss /\ List.length ss = List.length frames /\ remove_drift3 frames ti = Val (shift_movie ss frames) /\
    map (@List.length pos3) (shift_movie ss frames) = map (@List.length nat) (inverse ti) /\ List.length (shift_movie ss frames) = List.length frames.
  Proof.
    intros Hpos. destruct (shifts3_ok ti frames Hc Hsh Hpos) as [ss [E [L _]]]. exists ss. split; auto. split; auto. split; [unfold remove_drift3; rewrite E; reflexivity|]. split; [rewrite shift_movie_shape; auto|apply shift_movie_len; auto].
  Qed.
  (** Each position of a frame becomes the mean of the positions, in the movie without drift, of its trajectory from tau/2 steps before to tau/2 steps after. *)
  Lemma averaged_mean : 0 < tau / 2 < List.length frames ->
    exists A rows, remove_drift3 frames ti = Val A /\ averaged isnull tau frames ti = Val rows /\ map (@List.length pos3) rows = map (@List.length pos3) frames /\
      forall t p tr T, invert ti t p = Some tr -> nth_error (trajs ti) tr = Some T ->
        exists row m, nth_error rows t = Some row /\ nth_error row p = Some m /\ mean_of (samples isnull A T (window t (tau / 2) (List.length frames))) m.
  Proof.
    intros Ht. destruct removed as [ss [E [L [EA [SA LA]]]]]; [lia|]. destruct (C45_sliding_mean pos3 null3 add3 div3 isnull ti tau (shift_movie ss frames) Hc SA) as [df [Er [Ls Hm]]]; [lia|].
    exists (shift_movie ss frames), (vals pos3 df). split; auto. split; [unfold averaged; rewrite EA; cbn [obind]; rewrite Er; reflexivity|]. split; [rewrite Ls; apply shift_movie_shape; auto|].
    intros t p tr T Hi HT. destruct (Hm t p tr T Hi HT) as [row [R1 R2]]. cbv zeta in R2. rewrite LA in R2. eexists row, _. split; [exact R1|]. split; [exact R2|]. apply mean_ok.
  Qed.
  Lemma averaged_none : 0 < List.length frames -> tau / 2 = 0 -> exists A, remove_drift3 frames ti = Val A /\ averaged isnull tau frames ti = Val A.
  Proof.
    intros Hpos Ht. destruct removed as [ss [E [L [EA [SA LA]]]]]; [auto|]. destruct (C45_no_averaging pos3 null3 add3 div3 isnull ti tau (shift_movie ss frames) SA Ht) as [df [Er V]].
    exists (shift_movie ss frames). split; auto. unfold averaged. rewrite EA. cbn [obind]. rewrite Er, V. reflexivity.
  Qed.
  Lemma averaged_short : 0 < List.length frames <= tau / 2 ->
    exists A rows, remove_drift3 frames ti = Val A /\ averaged isnull tau frames ti = Val rows /\ map (@List.length pos3) rows = map (@List.length pos3) frames /\
      forall t p tr T, invert ti t p = Some tr -> nth_error (trajs ti) tr = Some T ->
        exists row m, nth_error rows t = Some row /\ nth_error row p = Some m /\ forall a, In a axes -> (a m == fold_right Qplus 0 (map a (samples isnull A T (seq 0 (List.length frames)))))%Q.
  Proof.
    intros Ht. destruct removed as [ss [E [L [EA [SA LA]]]]]; [lia|]. destruct (C45_short_movie_refuted pos3 null3 add3 div3 isnull ti tau (shift_movie ss frames) Hc SA) as [df [Er [Ls H]]]; [lia|].
    exists (shift_movie ss frames), (vals pos3 df). split; auto. split; [unfold averaged; rewrite EA; cbn [obind]; rewrite Er; reflexivity|]. split; [rewrite Ls; apply shift_movie_shape; auto|]. intros t p tr T Hi HT. destruct (H t p tr T Hi HT) as [row [R1 R2]]. rewrite LA in R2.
    eexists row, _. split; [exact R1|]. split; [exact R2|]. intros a Ha. unfold sum. rewrite axis_sum, axis_null by auto. lra.
  Qed.
End Average.

(** ** Whatever the drift of the movie, the averaged positions are the same, up to one translation of the whole. *)
Lemma F2_of {A B} (R : A -> B -> Prop) : forall l r, List.length l = List.length r -> (forall i a b, nth_error l i = Some a -> nth_error r i = Some b -> R a b) -> Forall2 R l r.
Proof. induction l as [|a l IH]; intros [|b r] L H; try discriminate; constructor; [apply (H 0); reflexivity|]. apply IH; [cbn in L; lia|]. intros i a' b' Ea Eb. apply (H (S i)); auto. Qed.
Definition no_null (isnull : pos3 -> bool) (A : list (list pos3)) : Prop := Forall (Forall (fun p => isnull p = false)) A.
Lemma sample_moved isnull k A B T t : Forall2 (Forall2 (moved_by k)) A B -> no_null isnull A -> no_null isnull B -> Forall2 (moved_by k) (sample isnull A T t) (sample isnull B T t).
Proof.
  intros H NA NB. unfold sample. destruct (position_at T t) as [p|]; [|constructor]. destruct (nth_error A t) as [f|] eqn:Ef.
  - destruct (F2_nth _ _ _ _ _ H Ef) as [g [Eg Hfg]]. rewrite Eg. destruct (nth_error f p) as [x|] eqn:Ex.
    + destruct (F2_nth _ _ _ _ _ Hfg Ex) as [y [Ey Hxy]]. rewrite Ey. unfold no_null in *. rewrite Forall_forall in NA, NB. assert (X := NA f (nth_error_In _ _ Ef)). assert (Y := NB g (nth_error_In _ _ Eg)). rewrite Forall_forall in X, Y.
      rewrite (X x (nth_error_In _ _ Ex)), (Y y (nth_error_In _ _ Ey)). constructor; auto.
    + destruct (nth_error g p) as [y|] eqn:Ey; [|constructor]. destruct (F2_nth_r _ _ _ _ _ Hfg Ey) as [x [E' _]]. congruence.
  - destruct (nth_error B t) as [g|] eqn:Eg; [|constructor]. destruct (F2_nth_r _ _ _ _ _ H Eg) as [f [E' _]]. congruence.
Qed.
Lemma samples_moved isnull k A B T : Forall2 (Forall2 (moved_by k)) A B -> no_null isnull A -> no_null isnull B -> forall ts, Forall2 (moved_by k) (samples isnull A T ts) (samples isnull B T ts).
Proof. intros H NA NB. induction ts as [|t ts IH]; [constructor|]. unfold samples in *. cbn [flat_map]. apply Forall2_app; auto. apply sample_moved; auto. Qed.
Lemma moved_sum k a : In a axes -> forall l r, Forall2 (moved_by k) l r -> (fold_right Qplus 0 (map a r) == fold_right Qplus 0 (map a l) + a k * inject_Z (Z.of_nat (List.length l)))%Q.
Proof.
  intros Ha l r H. induction H as [|p q l r Hpq H IH]; cbn [map fold_right List.length]; [change (inject_Z (Z.of_nat 0)) with 0%Q; lra|]. rewrite IH, (Hpq a Ha). rewrite Nat2Z.inj_succ. unfold Z.succ. rewrite inject_Z_plus. change (inject_Z 1) with 1%Q. lra.
Qed.
Lemma mean_moved k l r m m' : Forall2 (moved_by k) l r -> l <> [] -> mean_of l m -> mean_of r m' -> moved_by k m m'.
Proof.
  intros H Hne [_ M] [_ M'] a Ha. assert (L := F2_len _ _ _ H). assert (Hne' : r <> []) by (destruct l, r; cbn in L; congruence). specialize (M Hne a Ha). specialize (M' Hne' a Ha).
  assert (P : 0 < List.length l) by (destruct l; [congruence|cbn; lia]). apply (Qmult_inj_r _ _ (inject_Z (Z.of_nat (List.length l)))); [apply inject_ne; auto|].
  rewrite Qmult_plus_distr_l, M. rewrite <- L in M'. rewrite M'. apply moved_sum; auto.
Qed.
Lemma in_window t h n : t < n -> In t (window t h n).
Proof. intros H. unfold window. apply filter_In. split; [apply in_seq; lia|]. rewrite andb_true_iff, !Nat.leb_le. lia. Qed.
Lemma own_sample isnull A T t p tr ti : consistent ti -> map (@List.length pos3) A = map (@List.length nat) (inverse ti) -> no_null isnull A -> invert ti t p = Some tr -> nth_error (trajs ti) tr = Some T -> sample isnull A T t <> [].
Proof.
  intros Hc Hsh NA Hi HT. destruct (proj1 (proj1 Hc t p tr) Hi) as [T' [HT' [k [-> Ek]]]]. assert (T' = T) by congruence. subst T'. unfold sample, position_at. rewrite (proj2 (Nat.leb_le _ _)) by lia. replace (start T + k - start T) with k by lia. rewrite Ek.
  unfold invert in Hi. destruct (nth_error (inverse ti) (start T + k)) as [row|] eqn:Er; [|discriminate]. assert (X := map_nth_error (@List.length nat) _ _ Er). rewrite <- Hsh in X. apply nth_error_map_inv in X as [f [Ef Lf]]. rewrite Ef.
  destruct (nth_error f p) as [x|] eqn:Ex; [|exfalso; apply nth_error_None in Ex; apply nth_error_lt in Hi; lia]. unfold no_null in NA. rewrite Forall_forall in NA. specialize (NA f (nth_error_In _ _ Ef)). rewrite Forall_forall in NA. rewrite (NA x (nth_error_In _ _ Ex)). discriminate.
Qed.
Theorem C134_drift isnull ti frames us tau A B : consistent ti -> map (@List.length pos3) frames = map (@List.length nat) (inverse ti) -> List.length us = List.length frames -> two_follow ti (List.length frames) ->
  0 < tau / 2 < List.length frames -> remove_drift3 frames ti = Val A -> remove_drift3 (shift_movie us frames) ti = Val B -> no_null isnull A -> no_null isnull B ->
  exists rows rows' k, averaged isnull tau frames ti = Val rows /\ averaged isnull tau (shift_movie us frames) ti = Val rows' /\ Forall2 (Forall2 (moved_by k)) rows rows'.
Proof.
  intros Hc Hsh Lu H2 Ht EA EB NA NB. destruct (C132_cancels ti frames us Hc Hsh ltac:(lia) Lu H2) as [A' [B' [k [EA' [EB' M]]]]]. assert (A' = A) by congruence. assert (B' = B) by congruence. subst A' B'.
  assert (Hsh' : map (@List.length pos3) (shift_movie us frames) = map (@List.length nat) (inverse ti)) by (rewrite shift_movie_shape; auto). assert (Lf : List.length (shift_movie us frames) = List.length frames) by (apply shift_movie_len; auto).
  destruct (averaged_mean isnull ti frames tau Hc Hsh Ht) as [A1 [rows [E1 [R [S HR]]]]]. assert (A1 = A) by congruence. subst A1.
  destruct (averaged_mean isnull ti (shift_movie us frames) tau Hc Hsh' ltac:(lia)) as [B1 [rows' [E2 [R' [S' HR']]]]]. assert (B1 = B) by congruence. subst B1. rewrite Lf in HR'.
  destruct (removed ti frames Hc Hsh ltac:(lia)) as [ss [_ [_ [E3 [SA LA]]]]]. rewrite EA in E3. injection E3 as E3. rewrite <- E3 in SA, LA.
  exists rows, rows', k. split; auto. split; auto. rewrite Hsh in S. rewrite Hsh' in S'. apply F2_of.
  - apply (f_equal (@List.length nat)) in S, S'. rewrite !map_length in S, S'. congruence.
  - intros t row row' Er Er'. assert (X := map_nth_error (@List.length pos3) _ _ Er). rewrite S in X. assert (X' := map_nth_error (@List.length pos3) _ _ Er'). rewrite S' in X'. apply F2_of; [congruence|].
    apply nth_error_map_inv in X as [irow [Ei Li]]. intros p m m' Em Em'. destruct (nth_error irow p) as [tr|] eqn:Etr; [|exfalso; apply nth_error_None in Etr; apply nth_error_lt in Em; lia].
    assert (Hi : invert ti t p = Some tr) by (unfold invert; rewrite Ei; exact Etr). destruct (proj1 (proj1 Hc t p tr) Hi) as [T [HT _]].
    destruct (HR t p tr T Hi HT) as [r1 [m1 [F1 [F2 F3]]]]. destruct (HR' t p tr T Hi HT) as [r2 [m2 [G1 [G2 G3]]]]. assert (m1 = m) by congruence. assert (m2 = m') by congruence. subst m1 m2.
    eapply mean_moved; [apply (samples_moved isnull k A B T M NA NB)| |exact F3|exact G3]. assert (Lt : t < List.length frames) by (apply nth_error_lt in Ei; apply (f_equal (@List.length nat)) in Hsh; rewrite !map_length in Hsh; lia).
    intros E. assert (O := own_sample isnull A T t p tr ti Hc SA NA Hi HT). destruct (sample isnull A T t) as [|x l] eqn:Es; [congruence|]. assert (I : In x (samples isnull A T (window t (tau / 2) (List.length frames)))).
    { unfold samples. apply in_flat_map. exists t. split; [apply in_window; auto|rewrite Es; left; auto]. } rewrite E in I. destruct I.
Qed.

(** ** The files *)
Lemma shell_word w : ~ In spc w -> shell_words w = [w].
Proof. induction w as [|c w IH]; intros H; cbn [shell_words]; [reflexivity|]. destruct (Ascii.eqb_spec c spc) as [->|]; [exfalso; apply H; left; auto|]. rewrite IH by (intros I; apply H; right; auto). reflexivity. Qed.
Lemma shell_cut w : forall u, ~ In spc u -> shell_words (u ++ spc :: w) = u :: shell_words w.
Proof. induction u as [|c u IH]; intros H; cbn [app shell_words]; [rewrite Ascii.eqb_refl; reflexivity|]. destruct (Ascii.eqb_spec c spc) as [->|]; [exfalso; apply H; left; auto|]. rewrite IH by (intros I; apply H; right; auto). reflexivity. Qed.
Lemma shell_no_space : forall w u, In u (shell_words w) -> ~ In spc u.
Proof.
  induction w as [|c w IH]; intros u I; cbn [shell_words] in I; [destruct I as [<-|[]]; intros []|]. destruct (Ascii.eqb_spec c spc) as [->|N].
  - destruct I as [<-|I]; [intros []|auto].
  - destruct (shell_words w) as [|w0 ws]; destruct I as [<-|I].
    + intros [E|[]]; auto. + destruct I.
    + intros [E|E]; auto. apply (IH w0); [left; auto|auto]. + apply IH. right. auto.
Qed.
Lemma same_text_iff a b : same_text a b = true <-> a = b.
Proof. unfold same_text. destruct (list_eq_dec ascii_dec a b); split; congruence. Qed.
Lemma mkdir_ok made f : ~ In spc f \/ made f = true -> shell_mkdir made (txt "mkdir " ++ f) f = true.
Proof.
  unfold shell_mkdir. intros [H| ->]; [|reflexivity]. change (txt "mkdir " ++ f) with (txt "mkdir" ++ spc :: f). rewrite shell_cut by (cbn; intuition discriminate). cbn [List.tl]. rewrite shell_word by auto. cbn [existsb].
  rewrite (proj2 (same_text_iff f f) eq_refl). rewrite orb_true_r. reflexivity.
Qed.

Lemma osequence_len {A} : forall (l : list (outcome A)) r, osequence l = Val r -> List.length r = List.length l.
Proof. induction l as [|o l IH]; intros r E; cbn [osequence] in E; [injection E as <-; reflexivity|]. destruct o as [v| |]; cbn [obind] in E; try discriminate. destruct (osequence l) as [r'| |]; cbn in E; try discriminate. injection E as <-. cbn. rewrite (IH r'); auto. Qed.
Section Files.
  Variables (show : Q -> text) (parse : text -> option Q) (rnd : Q -> Q) (isnull : pos3 -> bool).
  Hypothesis K : codec show parse rnd.
  Variables (made : text -> bool) (filename : text) (tau : nat) (d : disk).
  Variables (p : loaded Q) (out : serie).
  Let frames := l_frames Q p.
  Let ti := l_index Q p.
  Hypothesis Hload : load_dyn Q 0%Q parse d filename = Val p.
  Hypothesis Hout : out_serie parse d filename tau = Val out.
  Hypothesis Hc : consistent ti.
  Hypothesis Hsh : map (@List.length pos3) frames = map (@List.length nat) (inverse ti).
  Hypothesis Hdir : ~ In spc (av_folder filename tau) \/ made (av_folder filename tau) = true.
  (** Sizes below 2^64. *)
  Hypothesis Hnum : (N.of_nat (nsteps out) + offset out <= 2 ^ 64)%N.
  Hypothesis Hps : Forall (fun f : list pos3 => (N.of_nat (List.length f) < 2 ^ 64)%N) frames.
  Lemma serie_steps name tok size off fs : file_serie name tok size off = Val fs -> nsteps fs = size /\ offset fs = off.
  Proof. unfold file_serie. destruct (rfind tok name); [|discriminate]. destruct (span_while is_digit _) as [a [|b b']]; [discriminate|]. destruct (existsb _ _); [discriminate|]. intros [= <-]. auto. Qed.
  Lemma sizes : nsteps out = List.length frames.
  Proof.
    unfold out_serie in Hout. unfold load_dyn in Hload. destruct (d filename) as [l|]; [|discriminate]. destruct (read_header Q parse l) as [[[[[[r dt] base] token] off] size] s].
    destruct r; [|discriminate]. destruct dt; [|discriminate]. destruct off as [off|]; [|discriminate]. destruct size as [size|]; [|discriminate]. rewrite (proj1 (serie_steps _ _ _ _ _ Hout)).
    destruct (file_serie _ _ _ _) as [fs| |] eqn:Efs in Hload; cbn [obind] in Hload; try discriminate. destruct (fill_frames _ _ _ _ _) as [fr| |] eqn:Ef; cbn [obind] in Hload; try discriminate. destruct (read_index_from s) as [tri|]; [|discriminate].
    destruct (make_inverse _ _) as [inv|]; [|discriminate]. injection Hload as E. unfold frames. rewrite <- E. cbn [l_frames]. unfold fill_frames in Ef. rewrite (proj1 (serie_steps _ _ _ _ _ Efs)) in Ef. apply osequence_len in Ef. rewrite map_length, seq_length in Ef. lia.
  Qed.
  Lemma distinct t t' : t < nsteps out -> t' < nsteps out -> step_name out (N.of_nat t) = step_name out (N.of_nat t') -> t = t'.
  Proof.
    intros H H' E. unfold out_serie in Hout. destruct (d filename) as [l|]; [|discriminate]. destruct (read_header Q parse l) as [[[[[[r dt] base] token] off] size] s]. destruct r; [|discriminate]. destruct dt; [|discriminate]. destruct off as [off|]; [|discriminate]. destruct size as [size|]; [|discriminate].
    assert (O := proj2 (serie_steps _ _ _ _ _ Hout)). assert (X := C54_distinct _ _ _ _ _ (N.of_nat t) (N.of_nat t') Hout). rewrite O in Hnum. apply Nat2N.inj. apply X; auto; lia.
  Qed.
  Lemma writes_texts rows : 0 < List.length frames -> averaged isnull tau frames ti = Val rows -> map (@List.length pos3) rows = map (@List.length pos3) frames ->
    exists d' ss, shifts3 frames ti = Val ss /\ avpos show parse isnull made filename tau d = Val d' /\ (forall n, (forall t, t < List.length frames -> n <> step_name out (N.of_nat t)) -> d' n = d n) /\
      forall t row, nth_error rows t = Some row -> exists l, d' (step_name out (N.of_nat t)) = Some l /\ read_dat Q 0%Q parse l = (on_triple (fun v => Some (rnd v)) (upper_edges parse d (l_serie Q p) t (nth t ss null3)), map (on_triple rnd) row).
  Proof.
    intros Hpos E Ls. destruct (removed ti frames Hc Hsh Hpos) as [ss [Es _]]. unfold avpos. rewrite Hout. cbn [obind]. rewrite Hload. cbn [obind]. fold frames ti. rewrite Es. cbn [obind]. rewrite E. cbn [obind]. rewrite mkdir_ok by auto. cbn [orb].
    eexists. exists ss. split; [reflexivity|]. split; [reflexivity|]. split.
    - intros n Hn. apply puts_other. intros x I. unfold av_texts in I. apply in_map_iff in I as [t [<- I]]. apply in_seq in I. cbn [fst]. intros E'. rewrite sizes in I. apply (Hn t); [lia|auto].
    - intros t row Er. assert (Lt : t < nsteps out). { apply nth_error_lt in Er. apply (f_equal (@List.length nat)) in Ls. rewrite !map_length in Ls. rewrite sizes. lia. }
      assert (X : nth_error (av_texts show parse d out (l_serie Q p) ss rows) t = Some (step_name out (N.of_nat t), export_dat Q show (upper_edges parse d (l_serie Q p) t (nth t ss null3)) row)).
      { unfold av_texts. erewrite map_nth_error; [|apply nth_error_seq; exact Lt]. cbn [Nat.add]. rewrite (nth_error_nth rows t [] Er). reflexivity. }
      eexists. split.
      + eapply puts_at; [exact X|]. intros k n' l' Hk En. unfold av_texts in Hk. apply nth_error_map_inv in Hk as [t' [Hk Ek]]. assert (Lk := nth_error_lt _ _ _ Hk). rewrite seq_length in Lk. rewrite nth_error_seq in Hk by auto. injection Hk as <-. injection Ek as -> _. apply distinct; auto.
      + apply (C78_round_trip Q 0%Q show parse rnd K). assert (Y := map_nth_error (@List.length pos3) _ _ Er). rewrite Ls in Y. apply nth_error_map_inv in Y as [f [Ef Lf]]. rewrite Forall_forall in Hps. specialize (Hps f (nth_error_In _ _ Ef)). change two64 with (2 ^ 64)%N. rewrite Lf. exact Hps.
  Qed.
  Lemma writes_files rows : 0 < List.length frames -> averaged isnull tau frames ti = Val rows -> map (@List.length pos3) rows = map (@List.length pos3) frames ->
    exists d', avpos show parse isnull made filename tau d = Val d' /\ (forall n, (forall t, t < List.length frames -> n <> step_name out (N.of_nat t)) -> d' n = d n) /\
      forall t row, nth_error rows t = Some row -> exists l up, d' (step_name out (N.of_nat t)) = Some l /\ read_dat Q 0%Q parse l = (up, map (on_triple rnd) row).
  Proof. intros H1 H2 H3. destruct (writes_texts rows H1 H2 H3) as [d' [ss [_ [E [O W]]]]]. exists d'. split; auto. split; auto. intros t row Er. destruct (W t row Er) as [l [W1 W2]]. eauto. Qed.
  (** The box of each file is that of the file of the same step, moved as the positions were to cancel the drift. *)
  Theorem C134_box : 0 < List.length frames ->
    exists d' ss, avpos show parse isnull made filename tau d = Val d' /\ List.length ss = List.length frames /\ remove_drift3 frames ti = Val (shift_movie ss frames) /\
      forall t sx sy sz l0 a b c ps, nth_error ss t = Some (sx, sy, sz) -> d (step_name (l_serie Q p) (N.of_nat t)) = Some l0 -> read_dat Q 0%Q parse l0 = ((Some a, Some b, Some c), ps) ->
        exists l row, d' (step_name out (N.of_nat t)) = Some l /\ read_dat Q 0%Q parse l = ((Some (rnd (a + sx)%Q), Some (rnd (b + sy)%Q), Some (rnd (c + sz)%Q)), row).
  Proof.
    intros Hpos. assert (HR : exists rows, averaged isnull tau frames ti = Val rows /\ map (@List.length pos3) rows = map (@List.length pos3) frames).
    { destruct (Nat.eq_dec (tau / 2) 0) as [Z0|Z0].
      - destruct (averaged_none isnull ti frames tau Hc Hsh Hpos Z0) as [A [EA ER]]. destruct (removed ti frames Hc Hsh Hpos) as [ss [_ [_ [EA' [SA _]]]]]. exists A. split; auto. assert (EE : A = shift_movie ss frames) by congruence. rewrite EE, Hsh. auto.
      - destruct (le_lt_dec (List.length frames) (tau / 2)).
        + destruct (averaged_short isnull ti frames tau Hc Hsh) as [A [rows [_ [ER [Ls _]]]]]; [lia|]. eauto.
        + destruct (averaged_mean isnull ti frames tau Hc Hsh) as [A [rows [_ [ER [Ls _]]]]]; [lia|]. eauto. }
    destruct HR as [rows [ER Ls]]. destruct (writes_texts rows Hpos ER Ls) as [d' [ss [Es [E [_ W]]]]]. destruct (removed ti frames Hc Hsh Hpos) as [ss' [Es' [L' [EA _]]]]. assert (ss' = ss) by congruence. subst ss'.
    exists d', ss. split; auto. split; auto. split; auto. intros t sx sy sz l0 a b c ps Hs Hl Hr. assert (Lt : t < List.length rows). { apply nth_error_lt in Hs. apply (f_equal (@List.length nat)) in Ls. rewrite !map_length in Ls. lia. }
    destruct (nth_error rows t) as [row|] eqn:Er; [|apply nth_error_None in Er; lia]. destruct (W t row Er) as [l [W1 W2]]. exists l, (map (on_triple rnd) row). split; auto. rewrite W2. unfold upper_edges. rewrite Hl, Hr, (nth_error_nth _ _ _ Hs). reflexivity.
  Qed.
  (** The file of step t has the means of the positions, one after the other; no other file changes. *)
  Theorem C134_files : 0 < tau / 2 < List.length frames ->
    exists d' A, avpos show parse isnull made filename tau d = Val d' /\ remove_drift3 frames ti = Val A /\ (forall n, (forall t, t < List.length frames -> n <> step_name out (N.of_nat t)) -> d' n = d n) /\
      forall t f, nth_error frames t = Some f -> exists l up row, d' (step_name out (N.of_nat t)) = Some l /\ read_dat Q 0%Q parse l = (up, row) /\ List.length row = List.length f /\
        forall i tr T, invert ti t i = Some tr -> nth_error (trajs ti) tr = Some T -> exists m, nth_error row i = Some (on_triple rnd m) /\ mean_of (samples isnull A T (window t (tau / 2) (List.length frames))) m.
  Proof.
    intros Ht. destruct (averaged_mean isnull ti frames tau Hc Hsh Ht) as [A [rows [EA [ER [Ls HR]]]]]. destruct (writes_files rows) as [d' [E [O W]]]; auto; [lia|]. exists d', A. split; auto. split; auto. split; auto.
    intros t f Ef. assert (X := map_nth_error (@List.length pos3) _ _ Ef). rewrite <- Ls in X. apply nth_error_map_inv in X as [row [Er Lr]]. destruct (W t row Er) as [l [up [W1 W2]]]. exists l, up, (map (on_triple rnd) row). split; auto. split; auto. split; [rewrite map_length; auto|].
    intros i tr T Hi HT. destruct (HR t i tr T Hi HT) as [row' [m [R1 [R2 R3]]]]. assert (row' = row) by congruence. subst row'. exists m. split; auto. apply map_nth_error. auto.
  Qed.
  (** An interval of 0 or 1: the positions without drift. *)
  Theorem C134_no_average : tau < 2 -> 0 < List.length frames ->
    exists d' A, avpos show parse isnull made filename tau d = Val d' /\ remove_drift3 frames ti = Val A /\ forall t row, nth_error A t = Some row -> exists l up, d' (step_name out (N.of_nat t)) = Some l /\ read_dat Q 0%Q parse l = (up, map (on_triple rnd) row).
  Proof.
    intros Ht Hpos. destruct (averaged_none isnull ti frames tau Hc Hsh Hpos) as [A [EA ER]]; [apply Nat.div_small; auto|]. destruct (removed ti frames Hc Hsh Hpos) as [ss [_ [Lss [EA' [SA _]]]]]. assert (EE : A = shift_movie ss frames) by congruence. 
    destruct (writes_files A) as [d' [E [_ W]]]; auto; [rewrite EE, Hsh; auto|]. exists d', A. auto.
  Qed.
  (** An interval of twice the movie or more: sums in place of means. *)
  Theorem C134_short_refuted : 0 < List.length frames <= tau / 2 ->
    exists d' A, avpos show parse isnull made filename tau d = Val d' /\ remove_drift3 frames ti = Val A /\
      forall t i tr T, invert ti t i = Some tr -> nth_error (trajs ti) tr = Some T -> exists l up row m, d' (step_name out (N.of_nat t)) = Some l /\ read_dat Q 0%Q parse l = (up, row) /\ nth_error row i = Some (on_triple rnd m) /\
        forall a, In a axes -> (a m == fold_right Qplus 0 (map a (samples isnull A T (seq 0 (List.length frames)))))%Q.
  Proof.
    intros Ht. destruct (averaged_short isnull ti frames tau Hc Hsh Ht) as [A [rows [EA' [ER [Ls HR]]]]]. destruct (writes_files rows) as [d' [E [_ W]]]; auto; [lia|].
    exists d', A. split; auto. split; auto. intros t i tr T Hi HT. destruct (HR t i tr T Hi HT) as [row [m [R1 [R2 R3]]]]. destruct (W t row R1) as [l [up [W1 W2]]]. exists l, up, (map (on_triple rnd) row), m. split; auto. split; auto. split; [apply map_nth_error; auto|auto].
  Qed.
End Files.

(** A folder with a space in its name: the shell is asked for other folders, and no file can be written, unless the folder was made by hand. *)
Theorem C134_space_refuted show parse isnull made filename tau d d' : In spc (folder_of filename) -> made (av_folder filename tau) = false ->
  avpos show parse isnull made filename tau d = Val d' -> exists out, out_serie parse d filename tau = Val out /\ nsteps out = 0 /\ forall n, d' n = d n.
Proof.
  intros Hs Hm E. unfold avpos in E. destruct (out_serie parse d filename tau) as [out| |]; cbn [obind] in E; try discriminate. destruct (load_dyn _ _ _ _ _) as [p| |]; cbn [obind] in E; try discriminate.
  destruct (shifts3 _ _) as [ss| |]; cbn [obind] in E; try discriminate. destruct (averaged _ _ _ _) as [rows| |]; cbn [obind] in E; try discriminate.
  assert (X : shell_mkdir made (txt "mkdir " ++ av_folder filename tau) (av_folder filename tau) = false).
  { unfold shell_mkdir. rewrite Hm. cbn [orb]. apply not_true_iff_false. intros T. apply existsb_exists in T as [w [I T]]. apply same_text_iff in T. subst w. assert (I' : In (av_folder filename tau) (shell_words (txt "mkdir " ++ av_folder filename tau))) by (destruct (shell_words (txt "mkdir " ++ av_folder filename tau)); [destruct I|right; exact I]).
    apply (shell_no_space _ _ I'). unfold av_folder. apply in_or_app. auto. }
  rewrite X in E. cbn [orb] in E. destruct (nsteps out =? 0) eqn:N; [|discriminate]. apply Nat.eqb_eq in N. injection E as <-. exists out. split; auto. split; auto. intros n. unfold av_texts. rewrite N. reflexivity.
Qed.

(** Without the file of trajectories the program ends with an error that can be caught and writes nothing. *)
Theorem C134_missing show parse isnull made filename tau d : d filename = None -> avpos show parse isnull made filename tau d = Throw.
Proof. intros E. unfold avpos, out_serie. rewrite E. reflexivity. Qed.
Example C134_missing_case show parse isnull : avpos show parse isnull (fun _ => true) (txt "/data/a.traj") 5 (fun n => if same_text n (txt "/data/b.traj") then Some [] else None) = Throw.
Proof. apply C134_missing. reflexivity. Qed.

Lemma puts_or (out : list (text * text)) n : (exists v, forall d, fold_left (fun d nl => put_file d (fst nl) (snd nl)) out d n = Some v) \/ (forall d, fold_left (fun d nl => put_file d (fst nl) (snd nl)) out d n = d n).
Proof.
  induction out as [|[m v] out [[w H]|H]]; cbn [fold_left fst snd]; [right; auto|left; exists w; intros; apply H|]. destruct (list_eq_dec ascii_dec n m) as [->|N]; [left; exists v; intros d; rewrite H; apply put_same|right; intros d; rewrite H; apply put_other; auto].
Qed.
Lemma puts_idem (out : list (text * text)) d n : fold_left (fun d nl => put_file d (fst nl) (snd nl)) out (fold_left (fun d nl => put_file d (fst nl) (snd nl)) out d) n = fold_left (fun d nl => put_file d (fst nl) (snd nl)) out d n.
Proof. destruct (puts_or out n) as [[v H]|H]; rewrite !H; reflexivity. Qed.
(** Files of trajectories as written by the library: names of the results, and a second run. *)
Section Names.
  Variables (show : Q -> text) (parse : text -> option Q) (rnd : Q -> Q) (isnull : pos3 -> bool).
  Hypothesis K : codec show parse rnd.
  Variables (folder name b0 tok ds tail : text).
  Let base := b0 ++ tok ++ ds ++ tail.
  Hypothesis Hf : is_folder folder.
  Hypothesis Hpl : plain_name name.
  Hypothesis Hplb : plain_name base.
  Hypothesis Hd : numeral ds.
  Hypothesis Hx : no_digit_first tail.
  Hypothesis Hpf : no_percent folder.
  Hypothesis Hpb : no_percent base.
  Hypothesis Hol : one_line base.
  Hypothesis Hs : splits tok base b0 (ds ++ tail).
  Variables (radius dt : Q) (off size tau : nat) (tri : list traj) (d : disk) (l : text).
  Hypothesis Hsave : save_dyn Q show radius dt base tok off size tri = Some l.
  Hypothesis Hl : d (folder ++ name) = Some l.
  Hypothesis Hn : (N.of_nat (off + size) < 2 ^ 64)%N.
  Lemma split_prefix f : splits tok (f ++ base) (f ++ b0) (ds ++ tail).
  Proof. destruct Hs as [E M]. split; [rewrite E, <- !app_assoc; reflexivity|]. intros h r E'. rewrite app_length. apply app_eq_app in E' as [w [[E1 _]|[E1 E2]]]; [rewrite E1, app_length; lia|]. rewrite E1, app_length. apply M in E2. lia. Qed.
  Lemma digits_plain : forall ch s w n, writes w n s -> In ch s -> is_digit ch = true.
  Proof. intros ch s w n [W _] I. apply W. auto. Qed.
  Lemma header_l : exists st, read_header Q parse l = (Some (rnd radius), Some (rnd dt), base, tok, Some (N.of_nat off), Some (N.of_nat size), st).
  Proof.
    assert (Fits : fits off /\ fits size) by (unfold fits; change two64 with (2 ^ 64)%N; lia). assert (Hol2 : one_line tok) by (intros I; apply Hol; unfold base; apply in_or_app; right; apply in_or_app; auto).
    unfold save_dyn in Hsave. destruct (print_index tri) as [li|]; [|discriminate]. cbn [option_map] in Hsave. apply (f_equal (fun o => match o with Some x => x | None => [] end)) in Hsave. cbv beta iota in Hsave. rewrite <- Hsave.
    eexists. apply (read_header_ok Q show parse rnd K); try apply one_line_b; tauto.
  Qed.
  Theorem C134_names : exists out, out_serie parse d (folder ++ name) tau = Val out /\ nsteps out = size /\ offset out = N.of_nat off /\
    forall t, t < size -> exists s, writes (List.length ds) (N.of_nat (t + off)) s /\ step_name out (N.of_nat t) = folder ++ txt "av" ++ print_nat tau ++ txt "/" ++ b0 ++ tok ++ s ++ tail.
  Proof.
    assert (F : av_folder (folder ++ name) tau = folder ++ txt "av" ++ print_nat tau ++ txt "/") by (unfold av_folder; rewrite folder_ok by auto; reflexivity).
    destruct header_l as [st Hh]. unfold out_serie. rewrite Hl, Hh. rewrite F, Nat2N.id.
    assert (P : no_percent (folder ++ txt "av" ++ print_nat tau ++ txt "/")).
    { rewrite !no_percent_app. split; auto. split; [intros I; cbn in I; intuition discriminate|]. split; [|intros I; cbn in I; intuition discriminate]. intros I. destruct (print_N_numeral (N.of_nat tau)) as [D _]. apply D in I. discriminate. }
    destruct (C54_names tok ((folder ++ txt "av" ++ print_nat tau ++ txt "/") ++ base) ((folder ++ txt "av" ++ print_nat tau ++ txt "/") ++ b0) ds tail size (N.of_nat off)) as [fs [E W]]; auto.
    { apply split_prefix. } { rewrite no_percent_app. auto. }
    exists fs. split; auto. destruct (serie_steps _ _ _ _ _ E) as [S1 S2]. split; auto. split; auto. intros t Ht. destruct (W (N.of_nat t)) as [s [Ws Es]]; [lia|]. exists s. rewrite Nat2N.inj_add. split; auto. rewrite Es. rewrite <- !app_assoc. reflexivity.
  Qed.
  (** The results are not among the files read: a second run gives the same files. *)
  Lemma load_ext d1 d2 : (forall n, (exists m, n = folder ++ m /\ plain_name m) -> d1 n = d2 n) -> load_dyn Q 0%Q parse d1 (folder ++ name) = load_dyn Q 0%Q parse d2 (folder ++ name) \/ d1 (folder ++ name) <> Some l.
  Proof.
    intros H. destruct (d1 (folder ++ name)) as [l1|] eqn:E1; [|right; discriminate]. destruct (list_eq_dec ascii_dec l1 l) as [->|N]; [|right; congruence]. left.
    assert (E2 : d2 (folder ++ name) = Some l) by (rewrite <- H; auto; exists name; auto). unfold load_dyn. rewrite E1, E2.
    destruct header_l as [st Hh]. rewrite Hh. rewrite folder_ok by auto. rewrite Nat2N.id.
    destruct (C54_names tok (folder ++ base) (folder ++ b0) ds tail size (N.of_nat off)) as [fs [E W]]; auto. { apply split_prefix. } { rewrite no_percent_app. auto. }
    rewrite E. cbn [obind]. replace (fill_frames Q 0%Q parse d1 fs) with (fill_frames Q 0%Q parse d2 fs); [reflexivity|]. unfold fill_frames. f_equal. apply map_ext_in. intros t I. apply in_seq in I. rewrite (proj1 (serie_steps _ _ _ _ _ E)) in I.
    rewrite (H (step_name fs (N.of_nat t))); auto. destruct (W (N.of_nat t)) as [s [Ws ->]]; [lia|]. exists (b0 ++ tok ++ s ++ tail). split; [rewrite <- !app_assoc; reflexivity|].
    assert (G : forall ch, is_digit ch = false -> ~ In ch base -> ~ In ch (b0 ++ tok ++ s ++ tail)).
    { intros ch Dg NI I2. apply NI. unfold base. rewrite !in_app_iff in *. destruct I2 as [I2|[I2|[I2|I2]]]; auto. destruct Ws as [Ws _]. apply Ws in I2. congruence. }
    split; apply G; try reflexivity; apply Hplb.
  Qed.
  Theorem C134_again made d' : ~ In spc (av_folder (folder ++ name) tau) \/ made (av_folder (folder ++ name) tau) = true -> avpos show parse isnull made (folder ++ name) tau d = Val d' ->
    (forall m, plain_name m -> d' (folder ++ m) = d (folder ++ m)) /\ exists d'', avpos show parse isnull made (folder ++ name) tau d' = Val d'' /\ forall n, d'' n = d' n.
  Proof.
    intros Hdir E. destruct C134_names as [out [EO [SO [OO NO]]]]. unfold avpos in E. rewrite EO in E. cbn [obind] in E. destruct (load_dyn Q 0%Q parse d (folder ++ name)) as [p| |] eqn:El; cbn [obind] in E; try discriminate.
    destruct (shifts3 _ _) as [ss| |] eqn:Es; cbn [obind] in E; try discriminate. destruct (averaged _ _ _ _) as [rows| |] eqn:Ea; cbn [obind] in E; try discriminate. rewrite mkdir_ok in E by auto. cbn [orb] in E. injection E as <-.
    set (writes_of := fun d0 : disk => fold_left (fun (d : disk) (nl : text * text) => put_file d (fst nl) (snd nl)) (av_texts show parse d0 out (l_serie Q p) ss rows)).
    assert (KP : forall d0 d1 : disk, forall m, plain_name m -> writes_of d0 d1 (folder ++ m) = d1 (folder ++ m)).
    { intros d0 d1 m [Pm _]. apply puts_other. intros x I. unfold av_texts in I. apply in_map_iff in I as [t [<- I]]. apply in_seq in I. cbn [fst]. destruct (NO t) as [s [_ ->]]; [lia|]. intros Ex. apply app_inv_head in Ex. apply Pm. rewrite <- Ex. rewrite !in_app_iff. right. right. left. left. reflexivity. }
    change (fold_left _ (av_texts show parse d out (l_serie Q p) ss rows) d) with (writes_of d d). split; [intros m Pm; apply KP; auto|].
    set (d1 := writes_of d d). assert (Ext : forall n, (exists m, n = folder ++ m /\ plain_name m) -> d1 n = d n) by (intros n [m [-> Pm]]; apply KP; auto).
    assert (L1 : d1 (folder ++ name) = Some l) by (rewrite Ext; [auto|exists name; auto]).
    destruct (load_ext d1 d Ext) as [EL|]; [|congruence]. rewrite El in EL.
    assert (EO1 : out_serie parse d1 (folder ++ name) tau = Val out) by (unfold out_serie in *; rewrite L1, Hl in *; exact EO).
    assert (TX : av_texts show parse d1 out (l_serie Q p) ss rows = av_texts show parse d out (l_serie Q p) ss rows).
    { unfold av_texts. apply map_ext_in. intros t I. apply in_seq in I. do 2 f_equal. unfold upper_edges. replace (d1 (step_name (l_serie Q p) (N.of_nat t))) with (d (step_name (l_serie Q p) (N.of_nat t))); [reflexivity|]. symmetry. apply Ext.
      destruct header_l as [st Hh]. unfold load_dyn in El. rewrite Hl, Hh in El. rewrite folder_ok in El by auto. rewrite Nat2N.id in El.
      destruct (C54_names tok (folder ++ base) (folder ++ b0) ds tail size (N.of_nat off)) as [fs [E W]]; auto. { apply split_prefix. } { rewrite no_percent_app. auto. }
      rewrite E in El. cbn [obind] in El. destruct (fill_frames _ _ _ _ _) as [fr| |]; cbn [obind] in El; try discriminate. destruct (read_index_from _) as [tri'|]; [|discriminate]. destruct (make_inverse _ _) as [inv|]; [|discriminate]. injection El as El. rewrite <- El. cbn [l_serie].
      destruct (W (N.of_nat t)) as [s [Ws ->]]; [lia|]. exists (b0 ++ tok ++ s ++ tail). split; [rewrite <- !app_assoc; reflexivity|].
      assert (G : forall ch, is_digit ch = false -> ~ In ch base -> ~ In ch (b0 ++ tok ++ s ++ tail)).
      { intros ch Dg NI I2. apply NI. unfold base. rewrite !in_app_iff in *. destruct I2 as [I2|[I2|[I2|I2]]]; auto. destruct Ws as [Ws _]. apply Ws in I2. congruence. }
      split; apply G; try reflexivity; apply Hplb. }
    unfold avpos. rewrite EO1. cbn [obind]. rewrite EL. cbn [obind]. rewrite Es. cbn [obind]. rewrite Ea. cbn [obind]. rewrite mkdir_ok by auto. cbn [orb]. eexists. split; [reflexivity|]. rewrite TX. unfold d1, writes_of. intros n. apply puts_idem.
  Qed.
End Names.

(** Two particles that come together, one of them from the origin: there the position is taken as missing, and the average over both frames is the second position. *)
Definition at_origin (p : pos3) : bool := Qeq_bool (x_of p) 0 && Qeq_bool (y_of p) 0 && Qeq_bool (z_of p) 0.
Definition both_ti : trajindex := mkIndex [mkTraj 0 [0; 0]; mkTraj 0 [1; 1]] [[0; 1]; [0; 1]].
Definition from_origin : list (list pos3) := [[at_x 0; at_x 10]; [at_x 1; at_x 9]].
Lemma both_consistent : consistent both_ti.
Proof.
  split.
  - intros t p tr. unfold invert, both_ti. cbn [inverse trajs]. split.
    + intros H. destruct t as [|[|t]]; simpl in H; try (destruct t; discriminate); destruct p as [|[|p]]; simpl in H; try (destruct p; discriminate); injection H as <-; eexists; (split; [reflexivity|]); unfold at_time; cbn [start steps]; (exists 0; split; [lia|reflexivity]) || (exists 1; split; [lia|reflexivity]).
    + intros [T [HT [k [Hk E]]]]. destruct tr as [|[|tr]]; simpl in HT; try (destruct tr; discriminate); injection HT as <-; cbn [start steps] in *; subst t; destruct k as [|[|k]]; simpl in E; try (destruct k; discriminate); injection E as <-; reflexivity.
  - intros tr T HT. destruct tr as [|[|tr]]; simpl in HT; try (destruct tr; discriminate); injection HT as <-; (split; [discriminate|vm_compute; discriminate]).
Qed.
Theorem C134_origin_refuted : exists A rows, consistent both_ti /\ remove_drift3 from_origin both_ti = Val A /\ averaged at_origin 2 from_origin both_ti = Val rows /\
  map (map (fun p => Qred (x_of p))) A = [[0; 10]; [1; 9]]%Q /\ map (map (fun p => Qred (x_of p))) rows = [[1; 19 # 2]; [1; 19 # 2]]%Q.
Proof. eexists. eexists. split; [apply both_consistent|]. split; [vm_compute; reflexivity|]. split; [vm_compute; reflexivity|]. split; vm_compute; reflexivity. Qed.

(** Numbers rounded to natural numbers. *)
Definition show_q (q : Q) : text := print_nat (Z.to_nat (Qfloor q)).
Definition parse_q (l : text) : option Q := option_map (fun n => inject_Z (Z.of_nat n)) (nparse l).
Lemma codec_q : codec show_q parse_q (fun q => inject_Z (Z.of_nat (Z.to_nat (Qfloor q)))).
Proof. intros q. destruct (codec_nat (Z.to_nat (Qfloor q))) as [W P]. split; [exact W|]. unfold parse_q, show_q. rewrite P. reflexivity. Qed.
Definition ex_traj : text := match save_dyn Q show_q 1%Q 1%Q (txt "b_t0.dat") (txt "_t") 5 2 (trajs both_ti) with Some l => l | None => [] end.
Definition av_disk : disk := fun n =>
  if list_eq_dec ascii_dec n (txt "d/a.traj") then Some ex_traj
  else if list_eq_dec ascii_dec n (txt "d/b_t5.dat") then Some (export_dat Q show_q (90, 90, 90)%Q [at_x 2; at_x 12])
  else if list_eq_dec ascii_dec n (txt "d/b_t6.dat") then Some (export_dat Q show_q (90, 90, 90)%Q [at_x 4; at_x 10]) else None.
Example C134_case : exists p out d', load_dyn Q 0%Q parse_q av_disk (txt "d/a.traj") = Val p /\ l_index Q p = both_ti /\ out_serie parse_q av_disk (txt "d/a.traj") 3 = Val out /\
  map (@List.length pos3) (l_frames Q p) = map (@List.length nat) (inverse (l_index Q p)) /\ 0 < 3 / 2 < List.length (l_frames Q p) /\ two_follow both_ti 2 /\
  avpos show_q parse_q at_origin (fun _ => false) (txt "d/a.traj") 3 av_disk = Val d' /\
  d' (txt "d/av3/b_t5.dat") = Some (export_dat Q show_q (90, 90, 90)%Q [at_x 3; at_x 11]) /\ d' (txt "d/av3/b_t6.dat") = Some (export_dat Q show_q (90, 90, 90)%Q [at_x 3; at_x 11]) /\
  avpos show_q parse_q at_origin (fun _ => false) (txt "my d/a.traj") 3 (fun n => match n with _ :: _ :: _ :: n' => av_disk n' | _ => None end) = Throw.
Proof.
  eexists. eexists. eexists. split; [vm_compute; reflexivity|]. split; [reflexivity|]. split; [vm_compute; reflexivity|]. split; [reflexivity|]. split; [vm_compute; lia|]. split.
  - intros t Ht. assert (t = 0) by lia. subst t. exists 0, 1, (mkTraj 0 [0; 0]), (mkTraj 0 [1; 1]). split; [lia|]. split; [reflexivity|]. split; [reflexivity|]. split; intros t Hr; assert (E : t = 0 \/ t = 1) by lia; destruct E as [->| ->]; eexists; unfold at_time; cbn [start steps]; ((exists 0; split; [lia|reflexivity]) || (exists 1; split; [lia|reflexivity])).
  - split; [vm_compute; reflexivity|]. split; [vm_compute; reflexivity|]. split; vm_compute; reflexivity.
Qed.

Print Assumptions C134_box.
Print Assumptions C134_files.
Print Assumptions C134_no_average.
Print Assumptions C134_names.
Print Assumptions C134_again.
Print Assumptions C134_drift.
Print Assumptions C134_short_refuted.
Print Assumptions C134_origin_refuted.
Print Assumptions C134_space_refuted.
Print Assumptions C134_missing.
Print Assumptions C134_case.

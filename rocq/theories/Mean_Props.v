(** C105: average of pair correlation functions, mains/totalRdf.cpp.  C106: bond length from their first minimum, mains/all_bonds.cpp, mains/linkboo.cpp, mains/bonds.cpp. *)
Require Import ZArith QArith Lqa List Bool Arith Lia Sorted.
Require Import Verif.Base Verif.ListX Verif.Box_Model Verif.RTree_Model Verif.Index_Model Verif.RTree_Spec Verif.RTree_Proofs Verif.RTree_Heuristics Verif.Traj_Model Verif.Particles_Model Verif.Particles_Spec Verif.Particles_Props
  Verif.Ngb_Model Verif.Ngb_Spec Verif.Ngb_Proofs Verif.Ngb_Props Verif.Mean_Model Verif.Mean_Spec Verif.Mean_Proofs.
Import ListNotations.
Local Open Scope Q_scope.

(** The files 0, 1, ... up to the first that cannot be opened, and their pair correlation functions. *)
Definition readable (frame : nat -> option (list Q)) (nbins : nat) (frames : list (list Q)) : Prop :=
  Forall (fun g => length g = nbins) frames /\ (forall k g, nth_error frames k = Some g -> frame k = Some g) /\ frame (length frames) = None.
(** C105: the program reads the files up to the first that is missing, and ends. Row r of the file: r/nbins of the range, and the sum over the files divided by
    their number plus one. *)
Theorem C105_rows frame nbins range frames fuel : readable frame nbins frames -> (length frames < fuel)%nat ->
  exists rows, total_rdf frame fuel nbins range = Some rows /\ length rows = nbins /\
    forall r, (r < nbins)%nat -> exists x y, nth_error rows r = Some (x, y) /\
      x == inject_Z (Z.of_nat r) / inject_Z (Z.of_nat nbins) * range /\ y == total frames r / inject_Z (Z.of_nat (S (length frames))).
Proof.
  intros [F [Ok Ko]] Hf. unfold total_rdf. destruct (total_loop_ok frame nbins frames 0 fuel (repeat 0 nbins) F (repeat_length _ _)) as [s [-> [L B]]]; auto.
  eexists. split; [reflexivity|]. rewrite rows_len. split; auto. intros r Hr. rewrite rows_nth by lia. do 2 eexists. split; [reflexivity|]. split; [reflexivity|]. rewrite B, zero_bin, Qplus_0_r. reflexivity.
Qed.
(** It is not the mean: if all the files are the same, the value written is less than theirs. *)
Lemma total_repeat g n r : total (repeat g n) r == inject_Z (Z.of_nat n) * bin g r.
Proof. induction n as [|n IH]; [cbn [repeat]; rewrite total_nil; change (inject_Z (Z.of_nat 0)) with 0; lra|]. cbn [repeat]. rewrite total_cons, IH, Nat2Z.inj_succ, <- Z.add_1_l, inject_Z_plus. change (inject_Z 1) with 1. lra. Qed.
Theorem C105_mean_refuted frame nbins range g n fuel r : readable frame nbins (repeat g n) -> (n < fuel)%nat -> (r < nbins)%nat -> 0 < bin g r ->
  exists rows x y, total_rdf frame fuel nbins range = Some rows /\ nth_error rows r = Some (x, y) /\ y < bin g r.
Proof.
  intros R Hf Hr Hg. destruct (C105_rows frame nbins range _ fuel R) as [rows [E [_ K]]]; [rewrite repeat_length; auto|]. destruct (K r Hr) as [x [y [Ex [_ Ey]]]]. exists rows, x, y. split; auto. split; auto.
  rewrite Ey, total_repeat, repeat_length. assert (P : 0 < inject_Z (Z.of_nat (S n))) by (change 0 with (inject_Z 0); rewrite <- Zlt_Qlt; lia). apply Qlt_shift_div_r; auto. rewrite Nat2Z.inj_succ, <- Z.add_1_l, inject_Z_plus. change (inject_Z 1) with 1. lra.
Qed.
(** Without any file the program succeeds all the same, with null values. *)
Theorem C105_no_file frame nbins range fuel : frame 0%nat = None -> (0 < fuel)%nat -> exists rows, total_rdf frame fuel nbins range = Some rows /\ length rows = nbins /\ forall r x y, nth_error rows r = Some (x, y) -> y == 0.
Proof.
  intros H Hf. destruct (C105_rows frame nbins range [] fuel) as [rows [E [L K]]]; [split; [constructor|]; split; [intros [|k] g; discriminate|auto]|auto|]. exists rows. split; auto. split; auto.
  intros r x y Hr. destruct (K r) as [x' [y' [E' [_ Y]]]]; [rewrite <- L; apply nth_error_Some; congruence|]. assert (y' = y) by congruence. subst. rewrite Y. cbn. reflexivity.
Qed.
Definition two_files (t : nat) : option (list Q) := match t with 0%nat => Some [0; 3; 1] | 1%nat => Some [0; 5; 2] | 3%nat => Some [0; 100; 100] | _ => None end.
Example C105_case : readable two_files 3 [[0; 3; 1]; [0; 5; 2]] /\ match total_rdf two_files 10 3 6 with Some rows => map (fun p => (Qred (fst p), Qred (snd p))) rows | None => [] end = [(0, 0); (2, 8 # 3); (4, 1)].
Proof. split; [|vm_compute; reflexivity]. split; [repeat constructor|]. split; [intros [|[|[|k]]] g E; cbn in *; congruence|reflexivity]. Qed.

(** C106: the loop gives the position of the lowest bin after the highest bin, if it is not null ... *)
Theorem C106_first_minimum g fuel : g <> [] -> (0 < fuel)%nat -> exists p m, highest g p /\ lowest_from g p m /\ (~ bin g m == 0 -> search_min fuel g = Some m).
Proof.
  intros H Hf. destruct (first_min_spec g H) as [p [P M]]. exists p, (first_min g). split; auto. split; auto. intros N. rewrite search_once by auto.
  destruct (Qeq_bool (bin g (first_min g)) 0) eqn:E; [apply Qeq_bool_iff in E; contradiction|reflexivity].
Qed.
(** ... and never ends otherwise: as soon as a bin after the highest is null (no bin is negative). This is the case of multiple centres at small distance, that the
    loop is there to get rid of, when they are more numerous than the first neighbours. *)
Theorem C106_endless_refuted g p q : (forall r, 0 <= bin g r) -> highest g p -> (p <= q < length g)%nat -> bin g q == 0 -> forall fuel, search_min fuel g = None.
Proof.
  intros Pos P Hq Z fuel. assert (N : g <> []) by (intros ->; cbn in Hq; lia). apply search_none. destruct (first_min_spec g N) as [p' [P' [M1 [_ M3]]]]. rewrite (highest_fun _ _ _ P P') in *.
  apply Qeq_bool_iff. specialize (M3 q Hq). specialize (Pos (first_min g)). lra.
Qed.
(** Multiple centres: the highest bin is the second, then there is nothing until the first neighbours. *)
Example C106_multiple_centres : forall fuel, search_min fuel ([0; 9; 0; 0; 1; 4; 2; 1; 2] ++ repeat 1 191) = None.
Proof.
  intros fuel. apply C106_endless_refuted with (p := 1%nat) (q := 2%nat); [| |cbn; lia|reflexivity].
  - intros r. unfold bin. destruct (Nat.lt_ge_cases r 9) as [H|H]; [do 9 (destruct r as [|r]; [cbn; discriminate|]); lia|].  rewrite app_nth2 by (cbn; lia). cbn [length]. destruct (nth_in_or_default (r - 9) (repeat 1 191) 0) as [I|E]; [apply repeat_spec in I; rewrite I; discriminate|rewrite E; discriminate].
  - split; [cbn; lia|]. split; [intros q Hq; assert (q = 0%nat) by lia; subst; reflexivity|]. intros q _. unfold bin. destruct (Nat.lt_ge_cases q 9) as [H|H]; [do 9 (destruct q as [|q]; [cbn; discriminate|]); lia|].
    rewrite (app_nth2 _ _ _ (n := q)) by (cbn; lia). destruct (nth_in_or_default (q - length [0; 9; 0; 0; 1; 4; 2; 1; 2]) (repeat 1 191) 0) as [I|E]; [apply repeat_spec in I; rewrite I; discriminate|rewrite E; discriminate].
Qed.

(** Running the program again gives the same bond length, whether the file exists or not, and does not change the file. *)
Theorem C106_again frames fuel len file : (0 < length frames)%nat -> Forall (fun g => length g = 200%nat) frames ->
  bond_length fuel None frames = Some (len, file) -> forall frames', bond_length fuel (Some file) frames' = Some (len, file).
Proof.
  intros Hn F H frames'. unfold bond_length, average_rdf in *. destruct (fold_bins 200 frames (repeat 0 200) F (repeat_length _ _)) as [L B]. unfold bins in *.
  set (tot := fold_left (fun tot g => add_bins g tot) frames (repeat 0 200)) in *. clearbody tot. destruct fuel as [|f]; [discriminate|].
  rewrite search_once in H by lia. set (rows := rdf_rows 200 15 (length frames) tot) in *. assert (Lr : length rows = 200%nat) by (unfold rows; rewrite rows_len; auto).
  set (g := firstn 200 (map snd rows ++ repeat 0 200)).
  assert (Eg : g = map snd rows). { unfold g. rewrite firstn_app, map_length, Lr, Nat.sub_diag, firstn_O, app_nil_r. apply firstn_all2. rewrite map_length. lia. }
  assert (K : 0 < inject_Z (Z.of_nat (length frames))) by (change 0 with (inject_Z 0); rewrite <- Zlt_Qlt; lia).
  assert (Eb : forall r, (r < length tot)%nat -> bin g r == bin tot r * / inject_Z (Z.of_nat (length frames))).
  { intros r Hr. rewrite Eg. unfold bin at 1. erewrite (nth_error_nth (map snd rows) r); [|rewrite nth_error_map; unfold rows; rewrite rows_nth by auto; reflexivity]. reflexivity. }
  assert (Em : first_min g = first_min tot). { apply (scaled_min tot g (/ inject_Z (Z.of_nat (length frames)))); auto; [apply Qinv_lt_0_compat; auto|rewrite Eg, map_length; lia|intros E; rewrite E in L; discriminate]. }
  destruct (first_min_spec tot) as [p [_ [M _]]]; [intros E; rewrite E in L; discriminate|].
  destruct (Qeq_bool (bin tot (first_min tot)) 0) eqn:E0; [discriminate|]. injection H as <- <-. fold g. rewrite search_once, Em by lia.
  destruct (Qeq_bool (bin g (first_min tot)) 0) eqn:E1; [|reflexivity]. exfalso. apply Qeq_bool_iff in E1. rewrite Eb in E1 by lia. apply Qmult_integral in E1 as [E1|E1].
  - apply Qeq_bool_iff in E1. congruence.
  - assert (X := Qinv_lt_0_compat _ K). lra.
Qed.
(** The bond length is the position, in diameters, written in the file on the row of the lowest value after the highest. *)
Theorem C106_length frames fuel len file : (0 < length frames)%nat -> Forall (fun g => length g = 200%nat) frames -> bond_length fuel None frames = Some (len, file) ->
  exists p m, length file = 200%nat /\ highest (map snd file) p /\ lowest_from (map snd file) p m /\ len == inject_Z (Z.of_nat m) * 15 / 200 /\ exists x, nth_error (map fst file) m = Some x /\ len == x.
Proof.
  intros Hn F H. assert (G := C106_again frames fuel len file Hn F H frames).
  assert (Lf : length file = 200%nat /\ forall m, (m < 200)%nat -> exists y, nth_error file m = Some (inject_Z (Z.of_nat m) / 200 * 15, y)).
  { unfold bond_length, average_rdf in H. destruct (fold_bins 200 frames (repeat 0 200) F (repeat_length _ _)) as [L _]. unfold bins in H.
    set (tot := fold_left (fun tot g => add_bins g tot) frames (repeat 0 200)) in *. clearbody tot.
    destruct (search_min _ _); [|discriminate]. injection H as _ <-. rewrite rows_len. split; [exact L|]. intros m Hm. eexists. rewrite rows_nth by (rewrite L; exact Hm). reflexivity. }
  destruct Lf as [Lf R]. unfold bond_length, average_rdf, bins in G.
  assert (Eg : firstn 200 (map snd file ++ repeat 0 200) = map snd file). { rewrite firstn_app, map_length, Lf, Nat.sub_diag, firstn_O, app_nil_r. apply firstn_all2. rewrite map_length. lia. }
  rewrite Eg in G. clear Eg. assert (Ne : map snd file <> []) by (intros E; apply (f_equal (@length _)) in E; rewrite map_length, Lf in E; discriminate).
  destruct fuel as [|f]; [discriminate|]. rewrite search_once in G by lia. destruct (first_min_spec _ Ne) as [p [P M]].
  destruct (Qeq_bool _ 0); [discriminate|]. injection G as <-. exists p, (first_min (map snd file)). split; [exact Lf|]. split; [exact P|]. split; [exact M|].
  destruct (R (first_min (map snd file))) as [y E]. { destruct M as [[_ M] _]. rewrite map_length, Lf in M. exact M. }
  split; [|eexists; split; [rewrite nth_error_map, E; reflexivity|reflexivity]]. field.
Qed.
(** But after totalRdf, that writes the same file, with fewer than 200 bins, the program never ends (the values are not negative). *)
Theorem C106_after_total_refuted frame nbins range frames fuel rows : readable frame nbins frames -> (length frames < fuel)%nat -> (nbins < 200)%nat ->
  Forall (fun g => forall r, 0 <= bin g r) frames -> total_rdf frame fuel nbins range = Some rows ->
  forall frames' fuel', bond_length fuel' (Some rows) frames' = None.
Proof.
  intros R Hf Hn Pos E frames' fuel'. destruct (C105_rows frame nbins range frames fuel R Hf) as [rows' [E' [L K]]]. assert (rows' = rows) by congruence. subst rows'. clear E'.
  unfold bond_length, average_rdf, bins. set (g := firstn 200 (map snd rows ++ repeat 0 200)).
  assert (Lg : length g = 200%nat) by (unfold g; rewrite firstn_length, app_length, map_length, repeat_length; lia).
  assert (B : forall r, (nbins <= r)%nat -> bin g r == 0).
  { intros r Hr. unfold g, bin. destruct (Nat.lt_ge_cases r 200) as [C|C]; [|rewrite nth_overflow by (fold g; lia); reflexivity].
    assert (X : nth r (firstn 200 (map snd rows ++ repeat 0 200)) 0 = nth r (map snd rows ++ repeat 0 200) 0).
    { rewrite <- (firstn_skipn 200 (map snd rows ++ repeat 0 200)) at 2. rewrite app_nth1; [reflexivity|fold g; lia]. }
    rewrite X, app_nth2 by (rewrite map_length; lia). rewrite nth_repeat. reflexivity. }
  assert (P : forall r, 0 <= bin g r).
  { intros r. destruct (Nat.lt_ge_cases r nbins) as [C|C]; [|rewrite B by auto; lra]. destruct (K r C) as [x [y [Er [_ Ey]]]].
    assert (X : bin g r = y). { unfold bin, g. rewrite <- (nth_error_nth (firstn 200 (map snd rows ++ repeat 0 200)) r 0 (x := y)); auto.
      assert (Y : nth_error (map snd rows ++ repeat 0 200) r = Some y) by (rewrite nth_error_app1 by (rewrite map_length; lia); rewrite nth_error_map, Er; reflexivity).
      rewrite <- Y. rewrite <- (firstn_skipn 200 (map snd rows ++ repeat 0 200)) at 2. rewrite nth_error_app1; [reflexivity|fold g; lia]. }
    rewrite X, Ey. apply Qle_shift_div_l; [change 0 with (inject_Z 0); rewrite <- Zlt_Qlt; lia|]. rewrite Qmult_0_l. clear - Pos. induction Pos as [|h l H Pos IH]; [rewrite total_nil; lra|]. rewrite total_cons. specialize (H r). lra. }
  destruct (first_min_spec g) as [p [Hp M]]; [intros C; rewrite C in Lg; discriminate|]. assert (Hp' := Hp). destruct Hp as [Hp _].
  rewrite (C106_endless_refuted g p 199%nat P Hp') by (try lia; apply B; lia). reflexivity.
Qed.

(** The bonds program with a length: all the pairs closer than this number of diameters (of radius one), once each, in order. *)
Theorem C106_bonds_given c rdf fuel pos bb one bn bd : config_ok c -> dims c = 3%nat -> Forall point3 pos ->
  exists bonds, bonds_program c rdf fuel pos bb one (Some (bn, bd)) = Val (Some bonds) /\ StronglySorted lex bonds /\
    forall i j, In (i, j) bonds <-> (i < j)%nat /\ exists p q, nth_error pos i = Some p /\ nth_error pos j = Some q /\ closer3 p q (2 * bn * one / bd).
Proof.
  intros Hc Hd Hp. destruct (C33_ngb_list c pos bb one [PIndex] bn bd Hc Hd Hp) as [st [ngb [E [N [L [S [K Y]]]]]]]; [constructor; [exact I|constructor]|reflexivity|].
  cbn [positions fold_left move] in *. cbn [prun] in E. unfold bonds_program. cbn in E. destruct (make_index c (new_particles pos bb one)) as [st'|] eqn:Ei; [|discriminate]. injection E as ->.
  assert (Er : pradius st = one). { unfold make_index in Ei. destruct (rstar_build c _); [|discriminate]. injection Ei as <-. reflexivity. } rewrite Er in *.
  rewrite N. cbn [omap]. exists (ngb2bonds ngb). split; [reflexivity|].
  destruct (C34_round_trip_back ngb) as [B1 [B2 _]].
  - intros i l Hi. split; [eapply S; eauto|]. intros j Hj. assert (X : linked ngb i j) by (exists l; auto). apply K in X as [p [q [_ [X _]]]]. rewrite L. apply nth_error_Some. congruence.
  - intros i j H. apply Y. auto.
  - intros i H. apply K in H as [p [q [_ [_ [H _]]]]]. congruence.
  - split; [apply B1|]. intros i j. rewrite B2, K. split.
    + intros [H1 [p [q [H2 [H3 [_ H4]]]]]]. split; auto. exists p, q. auto.
    + intros [H1 [p [q [H2 [H3 H4]]]]]. split; auto. exists p, q. repeat split; auto; try apply H4. lia.
Qed.
(** Without a length, the program looks for the first minimum of g(r) but does not use it: either it never ends or there is no bond at all. *)
Theorem C106_bonds_default_refuted c rdf pos bb one : config_ok c -> dims c = 3%nat -> Forall point3 pos ->
  (forall fuel, bonds_program c rdf fuel pos bb one None = Val None) \/ (forall fuel, (0 < fuel)%nat -> bonds_program c rdf fuel pos bb one None = Val (Some [])).
Proof.
  intros Hc Hd Hp. destruct (C106_bonds_given c rdf 0 pos bb one 0 1 Hc Hd Hp) as [bonds [E [_ K]]].
  assert (X : bonds = []). { destruct bonds as [|[i j] l]; auto. exfalso. destruct (proj1 (K i j) (or_introl eq_refl)) as [_ [p [q [_ [_ [C _]]]]]]. rewrite Z.mul_0_r, Z.mul_0_l, Z.div_1_r in C. lia. }
  subst bonds. unfold bonds_program in *. destruct (make_index c (new_particles pos bb one)) as [st|]; [|discriminate].
  destruct (Qeq_bool (bin (rdf st) (first_min (rdf st))) 0) eqn:Z0.
  - left. intros fuel. rewrite search_none by auto. reflexivity.
  - right. intros fuel Hf. rewrite search_once, Z0 by auto. exact E.
Qed.
Example C106_case : search_min 1 ([0; 0; 1; 6; 2; 1; 2; 3] ++ repeat 2 192) = Some 5%nat /\
  bonds_program lib_config (fun _ => [0; 0; 1; 6; 2; 1; 2; 3]) 1 [[0; 0; 0]; [0; 3; 0]; [9; 0; 0]]%Z [] 1 (Some (2, 1)%Z) = Val (Some [(0, 1)])%nat /\
  bonds_program lib_config (fun _ => [0; 0; 1; 6; 2; 1; 2; 3]) 1 [[0; 0; 0]; [0; 3; 0]; [9; 0; 0]]%Z [] 1 None = Val (Some []).
Proof. repeat split; vm_compute; reflexivity. Qed.
Print Assumptions C105_rows.
Print Assumptions C105_mean_refuted.
Print Assumptions C105_no_file.
Print Assumptions C106_first_minimum.
Print Assumptions C106_endless_refuted.
Print Assumptions C106_again.
Print Assumptions C106_length.
Print Assumptions C106_after_total_refuted.
Print Assumptions C106_bonds_given.
Print Assumptions C106_bonds_default_refuted.

(** C85: trajectory files. *)
Require Import String.
Require Import ZArith List Arith NArith Ascii Bool Lia.
Require Import Verif.Base Verif.Dec Verif.Traj_Model Verif.Traj_Spec Verif.TrajFile_Model Verif.TrajFile_Proofs Verif.Traj_Props Verif.Particles_Model Verif.Corr_Proofs Verif.Export_Model Verif.Export_Spec Verif.Export_Proofs Verif.Export_Props
  Verif.Files_Model Verif.Files_Spec Verif.Files_Proofs Verif.DynFile_Model Verif.DynFile_Proofs.
Import ListNotations.
Local Open Scope nat_scope.
Local Open Scope list_scope.

(** A folder: nothing, or a text that ends with a separator; a name without separator. *)
Definition is_folder (f : text) : Prop := f = [] \/ exists g c, f = g ++ [c] /\ (c = "/"%char \/ c = "\"%char).
Definition plain_name (n : text) : Prop := ~ In "/"%char n /\ ~ In "\"%char n.
Definition one_line (l : text) : Prop := ~ In newline l.
Lemma one_line_b l : one_line l -> forallb not_newline l = true.
Proof.
  intros H. apply forallb_forall. intros c Hc. unfold not_newline. apply negb_true_iff, N.eqb_neq. intros E. apply H. replace newline with c; [auto|].
  rewrite <- (ascii_N_embedding c), E. reflexivity.
Qed.
Lemma folder_ok f n : is_folder f -> plain_name n -> folder_of (f ++ n) = f.
Proof.
  intros Hf [N1 N2]. apply folder_of_ok.
  - destruct Hf as [->|[g [c [-> Hc]]]]; [left; auto|right]. exists g, c. split; auto. destruct Hc as [-> | ->]; reflexivity.
  - apply forallb_forall. intros c Hc. apply negb_true_iff. unfold is_sep. apply orb_false_iff. split; apply N.eqb_neq; intros E.
    + apply N1. replace "/"%char with c; auto. rewrite <- (ascii_N_embedding c), E. reflexivity.
    + apply N2. replace "\"%char with c; auto. rewrite <- (ascii_N_embedding c), E. reflexivity.
Qed.
Lemma traj_fits_all tri : Forall size_t_traj tri -> Forall traj_fits tri.
Proof.
  apply Forall_impl. intros T [H1 [H2 H3]]. split; auto. split; [apply fits_Z, H2|]. eapply Forall_impl; [|exact H3]. intros p. apply fits_Z.
Qed.

Section File.
  Variables (V : Type) (zero : V) (show : V -> text) (parse : text -> option V) (rnd : V -> V).
  Hypothesis K : codec show parse rnd.
  Variables (radius dt : V) (base tok : text) (off : nat) (tri : list traj).
  (** Each frame: upper corner of its box and positions. *)
  Variable frames : list ((V * V * V) * list (V * V * V)).
  Let size := length frames.
  Hypothesis Hb : one_line base.
  Hypothesis Ht : one_line tok.
  Hypothesis Hn : (N.of_nat (off + size) < 2 ^ 64)%N.
  Hypothesis Htri : Forall size_t_traj tri.
  Hypothesis Hps : Forall (fun f => (N.of_nat (length (snd f)) < 2 ^ 64)%N) frames.

  (** The file names: the pattern in the folder of the trajectory file splits at its token; each step is on the disk where the series of C54 puts it. *)
  Variables (disk : text -> option text) (folder name : text).
  Hypothesis Hf : is_folder folder.
  Hypothesis Hnm : plain_name name.
  Variables (head ds tail : text).
  Hypothesis Hs : splits tok (folder ++ base) head (ds ++ tail).
  Hypothesis Hd : numeral ds.
  Hypothesis Hx : no_digit_first tail.
  Hypothesis Hp : no_percent (folder ++ base).

  Definition on_disk (t : nat) (f : (V * V * V) * list (V * V * V)) : Prop :=
    exists s, writes (length ds) (N.of_nat (t + off)) s /\ disk (head ++ tok ++ s ++ tail) = Some (export_dat V show (fst f) (snd f)).
  Definition fs1 := mkSerie (head ++ tok) (length ds) tail tok size (N.of_nat off).
  Lemma fs1_ok : file_serie (folder ++ base) tok (N.to_nat (N.of_nat size)) (N.of_nat off) = Val fs1.
  Proof. rewrite Nat2N.id. apply file_serie_ok; auto. destruct Hs as [E _]. rewrite E in Hp. rewrite !no_percent_app in *. tauto. Qed.
  Lemma fs1_name t s : t < size -> writes (length ds) (N.of_nat (t + off)) s -> step_name fs1 (N.of_nat t) = head ++ tok ++ s ++ tail.
  Proof.
    intros Hlt W. unfold step_name, print_serie, fs1. cbn [offset before width after]. rewrite <- Nat2N.inj_add. change two64 with (2 ^ 64)%N. rewrite N.mod_small by lia. rewrite <- app_assoc.
    rewrite (writes_fun _ _ _ _ (pad_writes (length ds) (N.of_nat (t + off))) W). reflexivity.
  Qed.
  Lemma fill_ok : (forall t f, nth_error frames t = Some f -> on_disk t f) -> fill_frames V zero parse disk fs1 = Val (map (fun f => map (on_triple rnd) (snd f)) frames).
  Proof.
    intros Hdk. unfold fill_frames. cbn [nsteps fs1]. set (d0 := ((zero, zero, zero), @nil (V * V * V))).
    rewrite (osequence_map_ok _ (fun t => map (on_triple rnd) (snd (nth t frames d0)))).
    - f_equal. unfold size. rewrite <- (map_map (fun t => nth t frames d0) (fun f => map (on_triple rnd) (snd f))). f_equal.
      apply nth_ext with (d := d0) (d' := d0); [rewrite map_length, seq_length; auto|]. intros n Hlt. rewrite map_length, seq_length in Hlt.
      rewrite (nth_indep _ d0 (nth 0 frames d0)) by (rewrite map_length, seq_length; auto). rewrite (map_nth (fun t => nth t frames d0)). rewrite seq_nth by auto. reflexivity.
    - intros t Hi. apply in_seq in Hi. destruct (nth_error frames t) as [f|] eqn:E; [|apply nth_error_None in E; unfold size in Hi; lia].
      destruct (Hdk t f E) as [s [W D]]. rewrite (fs1_name t s) by (auto; lia). rewrite D. rewrite (C78_round_trip V zero show parse rnd K).
      + cbn [snd]. rewrite (nth_error_nth _ _ d0 E). reflexivity.
      + eapply Forall_forall in Hps; [exact Hps|]. eapply nth_error_In, E.
  Qed.

  (** C85.  Saved trajectories are loaded from any folder where the trajectory file is next to the files of positions: same radius and time
      step (rounded once by the printing), positions of the files, trajectories, and an inverse that agrees with them. *)
  Theorem C85_round_trip :
    (forall t f, nth_error frames t = Some f -> on_disk t f) ->
    (forall tr T t p, nth_error tri tr = Some T -> at_time T t p -> exists f, nth_error frames t = Some f /\ p < length (snd f)) ->
    (forall tr tr' T U t p, nth_error tri tr = Some T -> nth_error tri tr' = Some U -> at_time T t p -> at_time U t p -> tr = tr') ->
    exists l, save_dyn V show radius dt base tok off size tri = Some l /\
      (disk (folder ++ name) = Some l ->
       exists r, load_dyn V zero parse disk (folder ++ name) = Val r /\ l_radius V r = rnd radius /\ l_dt V r = rnd dt /\
         l_frames V r = map (fun f => map (on_triple rnd) (snd f)) frames /\ trajs (l_index V r) = tri /\
         forall tr T t p, nth_error tri tr = Some T -> at_time T t p -> invert (l_index V r) t p = Some tr).
  Proof.
    intros Hdk Hin Hun. destruct (read_index_from_ok tri (traj_fits_all tri Htri)) as [l [P R]]. unfold save_dyn. rewrite P. cbn [option_map]. eexists. split; [reflexivity|].
    intros D. unfold load_dyn. rewrite D. rewrite (read_header_ok V show parse rnd K) by (try apply one_line_b; auto; unfold fits; change two64 with (2 ^ 64)%N; lia).
    rewrite folder_ok by auto. rewrite fs1_ok. cbn [obind]. rewrite fill_ok by auto. cbn [obind]. rewrite R.
    destruct (C19_make_inverse tri (map (@length _) (map (fun f => map (on_triple rnd) (snd f)) frames))) as [inv [E [_ I]]]; auto.
    { intros tr T t p H1 H2. destruct (Hin tr T t p H1 H2) as [f [F1 F2]]. exists (length (snd f)). split; auto. rewrite !nth_error_map, F1. cbn. rewrite map_length. reflexivity. }
    rewrite E. eexists. split; [reflexivity|]. cbn. repeat split; auto.
  Qed.
  (** Without the trajectory file, or without one of the files of positions, it throws. *)
  Theorem C85_missing : disk (folder ++ name) = None -> load_dyn V zero parse disk (folder ++ name) = Throw.
  Proof. intros H. unfold load_dyn. rewrite H. reflexivity. Qed.
  Theorem C85_missing_frame k f0 : (forall t f, t < k -> nth_error frames t = Some f -> on_disk t f) -> nth_error frames k = Some f0 ->
    (forall s, writes (length ds) (N.of_nat (k + off)) s -> disk (head ++ tok ++ s ++ tail) = None) ->
    exists l, save_dyn V show radius dt base tok off size tri = Some l /\ (disk (folder ++ name) = Some l -> load_dyn V zero parse disk (folder ++ name) = Throw).
  Proof.
    intros Hdk Hk Hno. destruct (read_index_from_ok tri (traj_fits_all tri Htri)) as [l [P R]]. unfold save_dyn. rewrite P. cbn [option_map]. eexists. split; [reflexivity|].
    intros D. unfold load_dyn. rewrite D. rewrite (read_header_ok V show parse rnd K) by (try apply one_line_b; auto; unfold fits; change two64 with (2 ^ 64)%N; lia).
    rewrite folder_ok by auto. rewrite fs1_ok. cbn [obind].
    assert (X : fill_frames V zero parse disk fs1 = Throw); [|rewrite X; reflexivity].
    unfold fill_frames. cbn [nsteps fs1]. assert (Lk : k < size) by (unfold size; apply nth_error_Some; congruence).
    replace size with (k + (size - k)) by lia. rewrite seq_app, map_app. cbn [Nat.add].
    assert (A : forall A (l1 l2 : list (outcome A)), Forall (fun o => exists v, o = Val v) l1 -> osequence l2 = Throw -> osequence (l1 ++ l2) = Throw).
    { intros A l1 l2 F E. induction F as [|o l1 [v ->] F IH]; [exact E|]. cbn [app osequence obind]. rewrite IH. reflexivity. }
    apply A.
    - apply Forall_forall. intros o Ho. apply in_map_iff in Ho as [t [<- It]]. apply in_seq in It. destruct (nth_error frames t) as [f|] eqn:E; [|apply nth_error_None in E; unfold size in Lk; lia].
      destruct (Hdk t f ltac:(lia) E) as [s [W D']]. rewrite (fs1_name t s) by (auto; lia). rewrite D'. eauto.
    - destruct (size - k) as [|m] eqn:Em; [lia|]. cbn [seq map osequence]. rewrite (fs1_name k (pad (length ds) (N.of_nat (k + off)))) by (auto; apply pad_writes). rewrite Hno by apply pad_writes. reflexivity.
  Qed.
  (** Trajectories longer than the number of steps given to save: it is saved, but its loading writes out of bounds. *)
  Theorem C85_short_refuted T : (forall t f, nth_error frames t = Some f -> on_disk t f) -> In T tri -> size < start T + length (steps T) ->
    exists l, save_dyn V show radius dt base tok off size tri = Some l /\ (disk (folder ++ name) = Some l -> load_dyn V zero parse disk (folder ++ name) = UB).
  Proof.
    intros Hdk HT Hlong. destruct (read_index_from_ok tri (traj_fits_all tri Htri)) as [l [P R]]. unfold save_dyn. rewrite P. cbn [option_map]. eexists. split; [reflexivity|].
    intros D. unfold load_dyn. rewrite D. rewrite (read_header_ok V show parse rnd K) by (try apply one_line_b; auto; unfold fits; change two64 with (2 ^ 64)%N; lia).
    rewrite folder_ok by auto. rewrite fs1_ok. cbn [obind]. rewrite fill_ok by auto. cbn [obind]. rewrite R.
    assert (X : make_inverse tri (map (@length _) (map (fun f => map (on_triple rnd) (snd f)) frames)) = None); [|rewrite X; reflexivity].
    unfold make_inverse. apply (inv_all_none T); auto. - eapply Forall_forall in Htri; [|exact HT]. apply Htri. - rewrite !map_length. exact Hlong.
  Qed.
  (** A white space (e.g. a carriage return) at the end of the first line: the name of the series is read as empty, and its token as the name. *)
  Theorem C85_space_refuted sp l : is_space sp = true -> sp <> newline -> (exists c t, tok = c :: t /\ is_space c = false /\ is_digit c = false) ->
    save_dyn V show radius dt base tok off size tri = Some l ->
    exists rest, l = (show radius ++ [tab] ++ show dt) ++ rest /\
      (disk (folder ++ name) = Some ((show radius ++ [tab] ++ show dt) ++ sp :: rest) -> load_dyn V zero parse disk (folder ++ name) = UB).
  Proof.
    intros Hsp Hne Htok S. unfold save_dyn in S. destruct (print_index tri) as [l0|]; [|discriminate]. injection S as <-. eexists. split; [rewrite <- !app_assoc; reflexivity|].
    intros D. unfold load_dyn. rewrite D. rewrite <- !app_assoc. cbn [app].
    destruct (read_header_space V show parse rnd K radius dt base tok off size l0 sp Hsp Hne (one_line_b base Hb)) as [o [s [z [E O]]]]. cbn [app] in E. rewrite E. rewrite (O Htok). reflexivity.
  Qed.
End File.

(** Non trivial case: values are numbers, two frames of two particles and two trajectories. *)
Definition case_disk (n : text) : option text :=
  let show := print_nat in
  if list_eq_dec ascii_dec n (txt "d/run_t10.dat") then Some (export_dat nat show (9, 9, 9) [(1, 2, 3); (4, 5, 6)])
  else if list_eq_dec ascii_dec n (txt "d/run_t11.dat") then Some (export_dat nat show (9, 9, 9) [(4, 5, 7); (1, 2, 4)])
  else if list_eq_dec ascii_dec n (txt "d/run.traj") then save_dyn nat show 5 1 (txt "run_t00.dat") (txt "_t") 10 2 [mkTraj 0 [0; 1]; mkTraj 0 [1; 0]]
  else None.
Definition case_parse (w : text) : option nat := Some (N.to_nat (value_from 0 w)).
Example C85_case : codec print_nat case_parse (fun n => n) /\
  is_folder (txt "d/") /\ plain_name (txt "run.traj") /\ Forall size_t_traj [mkTraj 0 [0; 1]; mkTraj 0 [1; 0]] /\
  splits (txt "_t") (txt "d/" ++ txt "run_t00.dat") (txt "d/run") (txt "00" ++ txt ".dat") /\ no_percent (txt "d/" ++ txt "run_t00.dat") /\
  writes 2 10 (txt "10") /\ writes 2 11 (txt "11") /\
  load_dyn nat 0 case_parse case_disk (txt "d/run.traj") =
    Val (mkLoaded nat 5 1 (mkSerie (txt "d/run_t") 2 (txt ".dat") (txt "_t") 2 10%N) [[(1, 2, 3); (4, 5, 6)]; [(4, 5, 7); (1, 2, 4)]] (mkIndex [mkTraj 0 [0; 1]; mkTraj 0 [1; 0]] [[0; 1]; [1; 0]])).
Proof.
  split. { intros v. split; [apply print_word|]. unfold case_parse. destruct (print_N_numeral (N.of_nat v)) as [_ [E _]]. unfold print_nat. rewrite E, Nat2N.id. reflexivity. }
  split. { right. exists (txt "d"), "/"%char. auto. }
  split. { split; cbn; intuition discriminate. }
  split. { repeat constructor; cbn; try discriminate; lia. }
  split. { change (txt "d/" ++ txt "run_t00.dat") with (txt "d/run" ++ txt "_t" ++ txt "00" ++ txt ".dat"). apply splits_digits; [split; [discriminate|intros c Hc; cbn in Hc; intuition (subst; reflexivity)]|discriminate| |].
    - intros c Hc. cbn in Hc. intuition (subst; reflexivity).
    - intros h r E. destruct h as [|c0 [|c1 [|c2 [|c3 [|c4 h]]]]]; cbn in E; discriminate. }
  split. { unfold no_percent. vm_compute. intuition discriminate. }
  split. { split; [|split; reflexivity]. intros c Hc. cbn in Hc. intuition (subst; reflexivity). }
  split. { split; [|split; reflexivity]. intros c Hc. cbn in Hc. intuition (subst; reflexivity). }
  vm_compute. reflexivity.
Qed.

Print Assumptions C85_round_trip.
Print Assumptions C85_missing.
Print Assumptions C85_missing_frame.
Print Assumptions C85_short_refuted.
Print Assumptions C85_space_refuted.

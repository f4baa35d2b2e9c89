(** C131: linker, and its trajectories loaded back. *)
Require Import String.
Require Import ZArith List Arith NArith Ascii Bool Lia.
Require Import Verif.Base Verif.ListX Verif.Dec Verif.Box_Model Verif.RTree_Model Verif.RTree_Spec Verif.Index_Model Verif.Traj_Model Verif.Traj_Spec Verif.TrajFile_Model Verif.TrajFile_Proofs Verif.Traj_Props
  Verif.Particles_Model Verif.Particles_Spec Verif.Corr_Model Verif.Corr_Proofs Verif.Files_Model Verif.Files_Spec Verif.Files_Proofs Verif.Files_Props
  Verif.Export_Model Verif.Export_Spec Verif.Export_Proofs Verif.Export_Props Verif.DynFile_Model Verif.DynFile_Proofs Verif.DynFile_Props Verif.Cluster_Spec Verif.Link_Model Verif.Link_Spec Verif.Link_Proofs Verif.Link_Props
  Verif.Perco_Model Verif.Perco_Props Verif.Cut_Model Verif.Cut_Props Verif.Linker_Model.
Require Verif.RTree_Heuristics.
Import ListNotations.
Local Open Scope nat_scope.
Local Open Scope list_scope.

(** Trajectories made by linking are not empty. *)
Lemma set_nth_ne (P : traj -> Prop) : forall l i x, Forall P l -> P x -> Forall P (set_nth i x l).
Proof. induction l as [|y l IH]; intros [|i] x F H; cbn; auto; constructor; try apply IH; auto; try apply (Forall_inv F); apply (Forall_inv_tail F). Qed.
Lemma prolong_ne : forall ls tri tri', Forall (fun T => steps T <> []) tri -> prolong tri ls = Some tri' -> Forall (fun T => steps T <> []) tri'.
Proof.
  induction ls as [|[p tr] ls IH]; intros tri tri' F E; cbn [prolong] in E; [injection E as <-; auto|]. unfold Traj_Model.upd in E. destruct (nth_error tri tr) as [T|] eqn:ET; [|discriminate].
  eapply IH; [|exact E]. apply set_nth_ne; auto. unfold traj_push. cbn. destruct (steps T); discriminate.
Qed.
Lemma add_frames_ne : forall fs tri t tri', Forall (fun T => steps T <> []) tri -> add_frames tri t fs = Some tri' -> Forall (fun T => steps T <> []) tri'.
Proof.
  induction fs as [|f fs IH]; intros tri t tri' F E; cbn [add_frames] in E; [injection E as <-; auto|]. unfold add_frame in E.
  destruct (prolong tri _) as [tri1|] eqn:E1; [|discriminate]. eapply IH; [|exact E]. apply Forall_app. split; [eapply prolong_ne; eauto|]. apply Forall_forall. intros T I. apply in_map_iff in I as [l [<- _]]. discriminate.
Qed.
Lemma link_nonempty c radius frames fs ti : link_all c radius frames = Val (fs, ti) -> Forall (fun T => steps T <> []) (trajs ti).
Proof.
  unfold link_all. destruct (osequence _) as [[|first rest]| |]; cbn [obind]; try discriminate. destruct (link_frames _ _ _) as [tm| |]; cbn [obind]; try discriminate.
  destruct (index_of_map tm) as [ti'|] eqn:E; [|discriminate]. intros [= _ <-]. unfold index_of_map in E. destruct (add_frames [] 0 (Traj_Model.frames tm)) as [tri|] eqn:E1; [|discriminate].
  destruct (make_inverse tri (map_frame_sizes tm)); [|discriminate]. injection E as <-. cbn [trajs]. eapply add_frames_ne; [|exact E1]. constructor.
Qed.

Section Linker.
  Variables (c : config) (show : Z -> text) (parse : text -> option Z) (rnd : Z -> Z).
  Hypothesis Hok : config_ok c.
  Hypothesis H3 : dims c = 3.
  Hypothesis K : codec show parse rnd.
  (** The name of a file of the series: folder, beginning, token, digits, end. *)
  Variables (folder b0 tok ds tail : text).
  Let filename := folder ++ b0 ++ tok ++ ds ++ tail.
  Hypothesis Hf : is_folder folder.
  Hypothesis Hpl : plain_name (b0 ++ tok ++ ds ++ tail).
  Hypothesis Hs : splits tok filename (folder ++ b0) (ds ++ tail).
  Hypothesis Hdf : digit_free tok.
  Hypothesis Hd : numeral ds.
  Hypothesis Hx : no_digit_first tail.
  Hypothesis Hp : no_percent filename.
  Hypothesis Hol : one_line (b0 ++ tok ++ ds ++ tail).
  (** The texts of the files; any text will do. *)
  Variables (texts : list text) (off : nat) (radius dt : Z) (d : disk).
  Let span := List.length texts.
  Let positions (l : text) := snd (read_dat Z 0%Z parse l).
  Hypothesis Hne : texts <> [].
  Hypothesis Hn : (N.of_nat (off + span) < 2 ^ 64)%N.
  Hypothesis Hps : Forall (fun l => (N.of_nat (List.length (positions l)) < 2 ^ 64)%N) texts.
  Hypothesis Hdisk : forall t l, nth_error texts t = Some l -> exists s, writes (List.length ds) (N.of_nat (t + off)) s /\ d (folder ++ b0 ++ tok ++ s ++ tail) = Some l.
  Let traj_name := folder ++ b0 ++ txt ".traj".
  Let displ_name := folder ++ b0 ++ txt ".displ".

  Let fs1 := mkSerie ((folder ++ b0) ++ tok) (List.length ds) tail tok span (N.of_nat off).
  Lemma serie_ok : file_serie filename tok span (N.of_nat off) = Val fs1.
  Proof. apply file_serie_ok; auto. destruct Hs as [E _]. unfold filename in *. rewrite !no_percent_app in *. tauto. Qed.
  Lemma head_ok : serie_head fs1 = Val (folder ++ b0).
  Proof.
    destruct (C54_head tok filename (folder ++ b0) ds tail span (N.of_nat off) Hs Hd Hx Hp Hdf) as [fs [E E']]. rewrite serie_ok in E. injection E as <-. exact E'.
  Qed.
  Lemma name_ok t s : t < span -> writes (List.length ds) (N.of_nat (t + off)) s -> step_name fs1 (N.of_nat t) = folder ++ b0 ++ tok ++ s ++ tail.
  Proof.
    intros Hlt W. unfold step_name, print_serie, fs1. cbn [offset before width after]. rewrite <- Nat2N.inj_add. change two64 with (2 ^ 64)%N. rewrite N.mod_small by lia. rewrite <- !app_assoc.
    rewrite (writes_fun _ _ _ _ (pad_writes (List.length ds) (N.of_nat (t + off))) W). reflexivity.
  Qed.
  (** A name of the series has a digit after its beginning: it is not the name of the trajectories. *)
  Lemma other_name s e : (exists n, writes (List.length ds) n s) -> (forall ch, In ch e -> is_digit ch = false) -> folder ++ b0 ++ tok ++ s ++ tail <> folder ++ b0 ++ e.
  Proof.
    intros [n W] He E. apply app_inv_head in E. apply app_inv_head in E. assert (L := writes_len _ _ _ W). destruct W as [W1 _]. destruct s as [|ch s]; [cbn in L; lia|].
    assert (X : is_digit ch = true) by (apply W1; left; auto). rewrite (He ch) in X; [discriminate|]. rewrite <- E. apply in_or_app. right. left. auto.
  Qed.
  Lemma no_digit_traj : forall ch, In ch (txt ".traj") -> is_digit ch = false.
  Proof. intros ch. cbn. intuition (subst; reflexivity). Qed.
  Lemma same_files d' : (forall n, n <> traj_name -> d' n = d n) -> forall t l, nth_error texts t = Some l -> d' (step_name fs1 (N.of_nat t)) = Some l.
  Proof.
    intros H t l E. destruct (Hdisk t l E) as [s [W D]]. assert (Lt : t < span) by (unfold span; eapply nth_error_lt; eauto). rewrite (name_ok t s Lt W). rewrite H; auto.
    apply other_name; [eauto|apply no_digit_traj].
  Qed.
  Lemma seq_texts {B} (f : nat -> outcome B) (g : text -> B) : (forall t l, nth_error texts t = Some l -> f t = Val (g l)) -> osequence (map f (seq 0 span)) = Val (map g texts).
  Proof.
    intros H. rewrite (osequence_map_ok f (fun t => g (nth t texts []))).
    - f_equal. unfold span. apply nth_ext with (d := g []) (d' := g []); [rewrite !map_length, seq_length; auto|]. intros n Hlt. rewrite map_length, seq_length in Hlt.
      rewrite (map_nth g). rewrite (nth_indep (map (fun t => g (nth t texts [])) (seq 0 (List.length texts))) (g []) (g (nth 0 texts []))) by (rewrite map_length, seq_length; auto).
      rewrite (map_nth (fun t => g (nth t texts []))). rewrite seq_nth by auto. reflexivity.
    - intros t I. apply in_seq in I. destruct (nth_error texts t) as [l|] eqn:E; [|apply nth_error_None in E; unfold span in I; lia]. rewrite (H t l E). cbv beta. replace (nth t texts []) with l by (symmetry; apply nth_error_nth; exact E). reflexivity.
  Qed.
  Let frames := map (frame_of parse radius) texts.
  Lemma fill_all : fill parse radius d fs1 = Val frames.
  Proof. unfold fill, frames. cbn [nsteps fs1]. apply seq_texts. intros t l E. rewrite (same_files d) with (l := l); auto. Qed.
  Lemma fill_loaded d' : (forall n, n <> traj_name -> d' n = d n) -> fill_frames Z 0%Z parse d' fs1 = Val (map positions texts).
  Proof. intros H. unfold fill_frames. cbn [nsteps fs1]. apply seq_texts. intros t l E. rewrite (same_files d') with (l := l); auto. Qed.
  Lemma frames_pts l : pts (frame_of parse radius l) = map coord_of (positions l).
  Proof. unfold frame_of, positions. destruct (read_dat Z 0%Z parse l) as [[[hx hy] hz] ps]. reflexivity. Qed.
  Lemma point3_coord p : point3 (coord_of p). Proof. destruct p as [[x y] z]. repeat eexists. Qed.
  Lemma frames_ready : Forall (frame_ready c) frames.
  Proof.
    apply Forall_forall. intros st I. apply in_map_iff in I as [l [<- _]]. unfold frame_of. destruct (read_dat Z 0%Z parse l) as [[[hx hy] hz] ps]. apply new_ready. apply Forall_forall. intros p I. apply in_map_iff in I as [q [<- _]]. apply point3_coord.
  Qed.
  Lemma frames_at t p x : pos_at frames t p x <-> exists l q, nth_error texts t = Some l /\ nth_error (positions l) p = Some q /\ x = coord_of q.
  Proof.
    unfold pos_at, frames. split.
    - intros [st [E1 E2]]. apply nth_error_map_inv in E1 as [l [E1 ->]]. rewrite frames_pts in E2. apply nth_error_map_inv in E2 as [q [E2 ->]]. eauto.
    - intros [l [q [E1 [E2 ->]]]]. exists (frame_of parse radius l). split; [apply map_nth_error; auto|]. rewrite frames_pts. apply map_nth_error. auto.
  Qed.
  Lemma traj_folder : folder_of traj_name = folder.
  Proof.
    unfold traj_name. apply folder_ok; auto. destruct Hpl as [P1 P2]. split; intros I; apply in_app_or in I as [I|I].
    - apply P1, in_or_app. auto. - cbn in I. intuition discriminate. - apply P2, in_or_app. auto. - cbn in I. intuition discriminate.
  Qed.
  Lemma name_part : file_part filename = b0 ++ tok ++ ds ++ tail.
  Proof. unfold file_part, filename. rewrite folder_ok by auto. rewrite skipn_app, skipn_all, Nat.sub_diag. reflexivity. Qed.
  Lemma name_head : before_last tok filename = folder ++ b0.
  Proof. unfold before_last. rewrite (rfind_splits _ _ _ _ Hs). destruct Hs as [E _]. rewrite E. rewrite firstn_app, firstn_all, Nat.sub_diag. cbn. apply app_nil_r. Qed.

  (** Positions of the frames and trajectories, loaded back *)
  Definition place (r : loaded Z) (t p : nat) (x : Z * Z * Z) : Prop := exists f, nth_error (l_frames Z r) t = Some f /\ nth_error f p = Some x.
  Definition near (x y : Z * Z * Z) (dist : Z) : Prop := closer3 (coord_of y) (coord_of x) dist.
  Definition dist_sq (x y : Z * Z * Z) : Z := dist2 (coord_of y) (coord_of x).

  Lemma chain fs ti : construct c radius (option_map (numbers parse) (d displ_name)) off frames = Val (fs, ti) ->
    (forall t p, (exists x, pos_at frames t p x) <-> exists tr, on_traj ti tr t p) -> (forall t p tr tr', on_traj ti tr t p -> on_traj ti tr' t p -> tr = tr') ->
    exists d' r, linker c show parse filename tok radius dt span (N.of_nat off) d = Val d' /\ (forall n, n <> traj_name -> d' n = d n) /\
      load_dyn Z 0%Z parse d' traj_name = Val r /\ l_radius Z r = rnd radius /\ l_dt Z r = rnd dt /\ l_frames Z r = map positions texts /\ trajs (l_index Z r) = trajs ti /\
      forall t p tr, on_traj ti tr t p -> invert (l_index Z r) t p = Some tr.
  Proof.
    intros E Hpart Huniq.
    assert (Hin : forall tr T t p, nth_error (trajs ti) tr = Some T -> at_time T t p -> exists l, nth_error texts t = Some l /\ p < List.length (positions l)).
    { intros tr T t p ET A. destruct (proj2 (Hpart t p)) as [x X]; [exists tr, T; auto|]. apply frames_at in X as [l [q [E1 [E2 _]]]]. exists l. split; auto. eapply nth_error_lt; eauto. }
    assert (Hsz : Forall size_t_traj (trajs ti)).
    { assert (NE := link_nonempty c radius _ fs ti E). rewrite Forall_forall in NE. apply Forall_forall. intros T I. assert (N0 := NE T I). apply In_nth_error in I as [tr ET]. split; auto. split.
      - destruct (steps T) as [|p ps] eqn:Es; [congruence|]. destruct (Hin tr T (start T) p ET) as [l [El _]]; [exists 0; rewrite Es; split; [lia|auto]|]. apply nth_error_lt in El. fold span in El. lia.
      - apply Forall_forall. intros p Ip. apply In_nth_error in Ip as [k Ek]. destruct (Hin tr T (start T + k) p ET) as [l [El Lp]]; [exists k; auto|]. rewrite Forall_forall in Hps. specialize (Hps l (nth_error_In _ _ El)). lia. }
    destruct (read_index_from_ok (trajs ti) (traj_fits_all _ Hsz)) as [l [P R]].
    eexists. unfold linker. rewrite serie_ok. cbn [obind]. rewrite fill_all. cbn [obind]. rewrite head_ok. cbn [obind]. rewrite Nat2N.id.
    replace ((folder ++ b0) ++ txt ".displ") with displ_name by (unfold displ_name; rewrite app_assoc; reflexivity). rewrite E. cbn [obind snd]. unfold save_dyn. rewrite P. cbn [option_map].
    rewrite name_head, name_part. replace ((folder ++ b0) ++ txt ".traj") with traj_name by (unfold traj_name; rewrite app_assoc; reflexivity).
    set (content := show radius ++ _). set (d' := put_file d traj_name content).
    assert (Hd' : forall n, n <> traj_name -> d' n = d n) by (intros n N; apply put_other; auto).
    assert (Hol2 : one_line tok) by (intros I; apply Hol; apply in_or_app; right; apply in_or_app; auto).
    assert (Fits : fits off /\ fits span) by (unfold fits; change two64 with (2 ^ 64)%N; lia).
    destruct (C19_make_inverse (trajs ti) (map (@List.length _) (map positions texts))) as [inv [Ei [_ I]]].
    { intros tr T t p H1 H2. destruct (Hin tr T t p H1 H2) as [l0 [F1 F2]]. exists (List.length (positions l0)). split; auto. rewrite !nth_error_map, F1. reflexivity. }
    { intros tr tr' T U t p H1 H2 H4 H5. apply (Huniq t p); [exists T|exists U]; auto. }
    exists (mkLoaded Z (rnd radius) (rnd dt) fs1 (map positions texts) (mkIndex (trajs ti) inv)). split; [reflexivity|]. split; [exact Hd'|]. split; [|split; [|split; [|split; [|split]]]]; try reflexivity.
    - unfold load_dyn. rewrite put_same. rewrite (read_header_ok Z show parse rnd K) by (try apply one_line_b; tauto).
      rewrite traj_folder. fold filename. rewrite Nat2N.id. rewrite serie_ok. cbn [obind]. rewrite fill_loaded by exact Hd'. cbn [obind]. rewrite R, Ei. reflexivity.
    - intros t p tr [T [ET A]]. apply (I tr T t p ET A).
  Qed.
  (** C131.  Without a file of displacements: linker writes one file, and leaves the others as they are; loaded from there, the frames are those of the series, each position is on
      one trajectory, successive positions of a trajectory are closer than a diameter, and positions closer than a diameter follow each other unless one of them has a link that is not longer. *)
  Theorem C131_linker : d displ_name = None ->
    exists d' r, linker c show parse filename tok radius dt span (N.of_nat off) d = Val d' /\ (forall n, n <> traj_name -> d' n = d n) /\
      load_dyn Z 0%Z parse d' traj_name = Val r /\ l_radius Z r = rnd radius /\ l_dt Z r = rnd dt /\ l_frames Z r = map positions texts /\
      (forall t p, (exists x, place r t p x) <-> exists tr, on_traj (l_index Z r) tr t p) /\
      (forall t p tr tr', on_traj (l_index Z r) tr t p -> on_traj (l_index Z r) tr' t p -> tr = tr') /\
      (forall t p p' tr, on_traj (l_index Z r) tr t p -> on_traj (l_index Z r) tr t p' -> p = p') /\
      (forall t p tr, on_traj (l_index Z r) tr t p -> invert (l_index Z r) t p = Some tr) /\
      (forall t p q x y tr, on_traj (l_index Z r) tr t p -> on_traj (l_index Z r) tr (t + 1) q -> place r t p x -> place r (t + 1) q y -> near x y (2 * radius)) /\
      (forall t p q x y, place r t p x -> place r (t + 1) q y -> near x y (2 * radius) ->
         (exists tr, on_traj (l_index Z r) tr t p /\ on_traj (l_index Z r) tr (t + 1) q) \/
         (exists p' q' x' y' tr', place r t p' x' /\ place r (t + 1) q' y' /\ on_traj (l_index Z r) tr' t p' /\ on_traj (l_index Z r) tr' (t + 1) q' /\
            (dist_sq x' y' <= dist_sq x y)%Z /\ ((p' = p /\ q' <> q) \/ (p' <> p /\ q' = q)))).
  Proof.
    intros Hno. assert (Hne' : frames <> []) by (unfold frames; destruct texts; [congruence|discriminate]).
    destruct (C81_link c radius frames Hok H3 Hne' frames_ready) as [fs [ti [E [_ [_ [L1 [L2 [L3 [_ [L5 L6]]]]]]]]]].
    destruct (chain fs ti) as [d' [r [R1 [R2 [R3 [R4 [R5 [R6 [R7 R8]]]]]]]]]; auto.
    { rewrite Hno. exact E. }
    assert (ON : forall tr t p, on_traj (l_index Z r) tr t p <-> on_traj ti tr t p) by (intros; unfold on_traj; rewrite R7; reflexivity).
    assert (PL : forall t p x, place r t p x <-> exists l, nth_error texts t = Some l /\ nth_error (positions l) p = Some x).
    { intros t p x. unfold place. rewrite R6. split; [intros [f [A B]]; apply nth_error_map_inv in A as [l [A ->]]; eauto|]. intros [l [A B]]. exists (positions l). split; auto. apply map_nth_error. auto. }
    assert (PA : forall t p x, place r t p x -> pos_at frames t p (coord_of x)) by (intros t p x X; apply PL in X as [l [A B]]; apply frames_at; eauto).
    assert (AP : forall t p v, pos_at frames t p v -> exists x, place r t p x /\ v = coord_of x) by (intros t p v X; apply frames_at in X as [l [q [A [B ->]]]]; exists q; split; auto; apply PL; eauto).
    exists d', r. split; auto. split; auto. split; auto. split; auto. split; auto. split; auto.
    split. { intros t p. split; [intros [x X]; apply PA in X; destruct (proj1 (L1 t p)) as [tr T]; [eauto|]; exists tr; apply ON; auto|]. intros [tr T]. apply ON in T. destruct (proj2 (L1 t p)) as [v X]; [eauto|]. apply AP in X as [x [X _]]. eauto. }
    split. { intros t p tr tr' A B. apply ON in A. apply ON in B. eauto. }
    split. { intros t p p' tr A B. apply ON in A. apply ON in B. eauto. }
    split. { intros t p tr A. apply ON in A. auto. }
    split. { intros t p q x y tr A B X Y. apply ON in A. apply ON in B. unfold near. apply (L5 t p q _ _ tr A B); apply PA; auto. }
    intros t p q x y X Y C. destruct (L6 t p q (coord_of x) (coord_of y) (PA _ _ _ X) (PA _ _ _ Y) C) as [[tr [A B]]|[p' [q' [x' [y' [tr' [X' [Y' [A [B [D O]]]]]]]]]]].
    - left. exists tr. split; apply ON; auto.
    - right. apply AP in X' as [x1 [X1 ->]]. apply AP in Y' as [y1 [Y1 ->]]. exists p', q', x1, y1, tr'. split; auto. split; auto. split; [apply ON; auto|]. split; [apply ON; auto|]. split; auto.
  Qed.
  (** With a file of displacements, and an offset of zero: successive positions are closer than a diameter once the second is moved by the displacement of its step... *)
  Theorem C131_displaced l0 : off = 0 -> d displ_name = Some l0 ->
    exists d' r, linker c show parse filename tok radius dt span (N.of_nat off) d = Val d' /\ (forall n, n <> traj_name -> d' n = d n) /\
      load_dyn Z 0%Z parse d' traj_name = Val r /\ l_frames Z r = map positions texts /\
      (forall t p, (exists x, place r t p x) <-> exists tr, on_traj (l_index Z r) tr t p) /\
      (forall t p tr tr', on_traj (l_index Z r) tr t p -> on_traj (l_index Z r) tr' t p -> tr = tr') /\
      (forall t p q x y z x1 y1 z1 tr, on_traj (l_index Z r) tr t p -> on_traj (l_index Z r) tr (t + 1) q -> place r t p (x, y, z) -> place r (t + 1) q (x1, y1, z1) ->
         near (x, y, z) (x1 + fst (displ_at (numbers parse l0) (t + 1)), y1 + snd (displ_at (numbers parse l0) (t + 1)), z1)%Z (2 * radius)).
  Proof.
    intros H0 Hl0. assert (Hne' : frames <> []) by (unfold frames; destruct texts; [congruence|discriminate]).
    destruct (C82_then_link c radius (numbers parse l0) frames Hok H3 Hne' frames_ready) as [fs [ti [E [L1 L2]]]].
    assert (U : forall t p tr tr', on_traj ti tr t p -> on_traj ti tr' t p -> tr = tr').
    { assert (Hp3 : Forall (fun st => Forall point3 (pts st)) frames) by (eapply Forall_impl; [|exact frames_ready]; intros st; apply ready_points; auto).
      assert (Hr' : Forall (frame_ready c) (remove_drift_file (Some (numbers parse l0)) 0 frames)).
      { unfold remove_drift_file. rewrite shifts_spec. apply Forall_forall. intros st Hst. apply in_map_iff in Hst as [[s v] [<- H]]. cbn [fst snd]. apply ready_shift; auto.
        - assert (F := frames_ready). rewrite Forall_forall in F. apply F. eapply in_combine_l; eauto.
        - apply in_combine_r in H. apply in_map_iff in H as [i [<- _]]. apply point3_vec. }
      destruct (C81_link c radius (remove_drift_file (Some (numbers parse l0)) 0 frames) Hok H3) as [fs' [ti' [E' [_ [_ [_ [L _]]]]]]]; auto.
      { intros H. apply Hne'. destruct (C82_drift (numbers parse l0) 0 frames Hp3) as [mx [my [_ [Hl _]]]]. rewrite H in Hl. destruct frames; [auto|discriminate]. }
      unfold construct in E. rewrite E in E'. injection E' as <- <-. exact L. }
    destruct (chain fs ti) as [d' [r [R1 [R2 [R3 [R4 [R5 [R6 [R7 R8]]]]]]]]]; auto.
    { rewrite Hl0, H0. exact E. }
    assert (ON : forall tr t p, on_traj (l_index Z r) tr t p <-> on_traj ti tr t p) by (intros; unfold on_traj; rewrite R7; reflexivity).
    assert (PL : forall t p x, place r t p x <-> exists l, nth_error texts t = Some l /\ nth_error (positions l) p = Some x).
    { intros t p x. unfold place. rewrite R6. split; [intros [f [A B]]; apply nth_error_map_inv in A as [l [A ->]]; eauto|]. intros [l [A B]]. exists (positions l). split; auto. apply map_nth_error. auto. }
    assert (PA : forall t p x, place r t p x -> pos_at frames t p (coord_of x)) by (intros t p x X; apply PL in X as [l [A B]]; apply frames_at; eauto).
    assert (AP : forall t p v, pos_at frames t p v -> exists x, place r t p x /\ v = coord_of x) by (intros t p v X; apply frames_at in X as [l [q [A [B ->]]]]; exists q; split; auto; apply PL; eauto).
    exists d', r. split; auto. split; auto. split; auto. split; auto.
    split. { intros t p. split; [intros [x X]; apply PA in X; destruct (proj1 (L1 t p)) as [tr T]; [eauto|]; exists tr; apply ON; auto|]. intros [tr T]. apply ON in T. destruct (proj2 (L1 t p)) as [v X]; [eauto|]. apply AP in X as [x [X _]]. eauto. }
    split. { intros t p tr tr' A B. apply ON in A. apply ON in B. eauto. }
    intros t p q x y z x1 y1 z1 tr A B X Y. apply ON in A. apply ON in B. unfold near. cbn [coord_of]. apply (L2 t p q x y z x1 y1 z1 tr A B); apply PA in X; apply PA in Y; auto.
  Qed.
  (** Run again, linker writes the same file. *)
  Theorem C131_again d' : linker c show parse filename tok radius dt span (N.of_nat off) d = Val d' ->
    exists d'', linker c show parse filename tok radius dt span (N.of_nat off) d' = Val d'' /\ forall n, d'' n = d' n.
  Proof.
    unfold linker. rewrite serie_ok. cbn [obind]. rewrite fill_all. cbn [obind]. rewrite head_ok. cbn [obind]. replace ((folder ++ b0) ++ txt ".displ") with displ_name by (unfold displ_name; rewrite app_assoc; reflexivity).
    rewrite name_head. replace ((folder ++ b0) ++ txt ".traj") with traj_name by (unfold traj_name; rewrite app_assoc; reflexivity).
    destruct (construct _ _ _ _ frames) as [r| |] eqn:Ec; cbn [obind]; try discriminate. destruct (save_dyn _ _ _ _ _ _ _ _ _) as [l|] eqn:El; [|discriminate]. intros [= <-].
    assert (F : fill parse radius (put_file d traj_name l) fs1 = Val frames).
    { unfold fill, frames. cbn [nsteps fs1]. apply seq_texts. intros t l' E. rewrite (same_files (put_file d traj_name l)) with (l := l'); auto. intros n N. apply put_other. auto. }
    rewrite F. cbn [obind]. rewrite put_other. 2:{ unfold displ_name, traj_name. intros E. apply app_inv_head in E. apply app_inv_head in E. discriminate. }
    rewrite Ec. cbn [obind]. rewrite El. eexists. split; [reflexivity|]. intros n. unfold put_file. destruct (list_eq_dec ascii_dec n traj_name); auto.
  Qed.
End Linker.

(** A missing file of the series: nothing is written. *)
Theorem C131_missing c show parse filename tok radius dt span off d fs t : file_serie filename tok span off = Val fs -> t < span -> d (step_name fs (N.of_nat t)) = None ->
  linker c show parse filename tok radius dt span off d = Throw.
Proof.
  intros E Lt M. unfold linker. rewrite E. cbn [obind]. assert (Nst : nsteps fs = span). { unfold file_serie in E. destruct (rfind tok filename); [|discriminate]. destruct (span_while is_digit _) as [a [|b b']]; [discriminate|]. destruct (existsb _ _); [discriminate|]. injection E as <-. reflexivity. }
  assert (X : fill parse radius d fs = Throw); [|rewrite X; reflexivity]. unfold fill. rewrite Nst. replace span with (t + S (span - S t)) by lia. rewrite seq_app, map_app. cbn [Nat.add seq map]. generalize (seq 0 t). intros l.
  induction l as [|a l IH]; cbn [map app osequence].
  - rewrite M. reflexivity.
  - destruct (d (step_name fs (N.of_nat a))); cbn [obind]; [rewrite IH|]; reflexivity.
Qed.
(** When the token is in the name of the folder (one folder per time step), the file written cannot be loaded. *)
Theorem C131_folders_refuted c show parse rnd filename tok radius dt span off d d' h : codec show parse rnd ->
  linker c show parse filename tok radius dt span (N.of_nat off) d = Val d' -> (N.of_nat off < 2 ^ 64)%N -> (N.of_nat span < 2 ^ 64)%N ->
  before_last tok filename = h -> one_line (file_part filename) -> one_line tok -> absent tok (folder_of (h ++ txt ".traj") ++ file_part filename) ->
  load_dyn Z 0%Z parse d' (h ++ txt ".traj") = Throw.
Proof.
  intros K E Ho Hsp <- O1 O2 A. unfold linker in E. destruct (file_serie _ _ _ _) as [fs| |]; cbn [obind] in E; try discriminate. destruct (fill _ _ _ _) as [fr| |]; cbn [obind] in E; try discriminate.
  destruct (serie_head fs) as [hd| |]; cbn [obind] in E; try discriminate. destruct (construct _ _ _ _ _) as [r| |]; cbn [obind] in E; try discriminate. unfold save_dyn in E. destruct (print_index _) as [l|]; [|discriminate]. cbn [option_map] in E. injection E as <-.
  unfold load_dyn. rewrite put_same. rewrite Nat2N.id. assert (RH : fits off /\ fits span) by (unfold fits; change two64 with (2 ^ 64)%N; lia). assert (RH2 := read_header_ok Z show parse rnd K radius dt (file_part filename) tok off span l (one_line_b _ O1) (one_line_b _ O2) (proj1 RH) (proj2 RH)). cbn [app] in RH2. rewrite RH2.
  unfold file_serie. rewrite (proj2 (rfind_none _ _) A). reflexivity.
Qed.
(** The order of the arguments; the last one, the first time step, is 0 when it is left out, what follows it is ignored; less than four arguments: the message and nothing else. *)
Theorem C131_arguments c show parse atof atoi filename tok radius dt span d :
  linker_main c show parse atof atoi [filename; tok; radius; dt; span] d = Ended (linker c show parse filename tok (atof radius) (atof dt) (N.to_nat (atoi span)) 0 d) /\
  (forall off more, linker_main c show parse atof atoi (filename :: tok :: radius :: dt :: span :: off :: more) d = Ended (linker c show parse filename tok (atof radius) (atof dt) (N.to_nat (atoi span)) (atoi off) d)) /\
  forall args, List.length args < 4 -> linker_main c show parse atof atoi args d = Usage.
Proof. split; [reflexivity|]. split; [reflexivity|]. intros [|a1 [|a2 [|a3 [|a4 args]]]] H; try reflexivity. cbn in H. lia. Qed.
(** Four arguments pass the check, but a fifth is read. *)
Theorem C131_arguments_refuted c show parse atof atoi a1 a2 a3 a4 d : linker_main c show parse atof atoi [a1; a2; a3; a4] d = Ended UB.
Proof. reflexivity. Qed.
(** No time step: the first frame is read all the same. *)
Theorem C131_no_step_refuted c show parse filename tok radius dt off d fs : file_serie filename tok 0 off = Val fs -> (exists h, serie_head fs = Val h) ->
  linker c show parse filename tok radius dt 0 off d = UB.
Proof.
  intros E [h Hh]. unfold linker. rewrite E. cbn [obind]. assert (Nst : nsteps fs = 0). { unfold file_serie in E. destruct (rfind tok filename); [|discriminate]. destruct (span_while is_digit _) as [a [|b b']]; [discriminate|]. destruct (existsb _ _); [discriminate|]. injection E as <-. reflexivity. }
  unfold fill. rewrite Nst. cbn [seq map osequence obind]. rewrite Hh. cbn [obind]. destruct (option_map _ _); reflexivity.
Qed.

(** Non trivial cases: two files of two particles. *)
Definition ex_disk (displ : option text) : disk := fun n =>
  if list_eq_dec ascii_dec n (txt "d/run_t10.dat") then Some (export_dat Z (show_Z 1) (90, 90, 90)%Z [(10, 0, 0); (30, 0, 0)]%Z)
  else if list_eq_dec ascii_dec n (txt "d/run_t11.dat") then Some (export_dat Z (show_Z 1) (90, 90, 90)%Z [(31, 1, 0); (12, 0, 0)]%Z)
  else if list_eq_dec ascii_dec n (txt "d/run.displ") then displ else None.
Definition ex_run (displ : option text) (off : N) (d : disk) := obind (linker RTree_Heuristics.lib_config (show_Z 1) (parse_Z 1) (txt "d/run_t00.dat") (txt "_t") 3 1 2 off d) (fun d' => load_dyn Z 0%Z (parse_Z 1) d' (txt "d/run.traj")).
Example C131_case : is_folder (txt "d/") /\ plain_name (txt "run" ++ txt "_t" ++ txt "00" ++ txt ".dat") /\ splits (txt "_t") (txt "d/" ++ txt "run" ++ txt "_t" ++ txt "00" ++ txt ".dat") (txt "d/" ++ txt "run") (txt "00" ++ txt ".dat") /\
  digit_free (txt "_t") /\ numeral (txt "00") /\ no_digit_first (txt ".dat") /\
  match ex_run None 10 (ex_disk None) with Val r => l_frames Z r = [[(10, 0, 0); (30, 0, 0)]; [(31, 1, 0); (12, 0, 0)]]%Z /\ trajs (l_index Z r) = [mkTraj 0 [0; 1]; mkTraj 0 [1; 0]] | _ => False end.
Proof.
  split. { right. exists (txt "d"), "/"%char. auto. }
  split. { split; cbn; intuition discriminate. }
  assert (DF : digit_free (txt "_t")) by (split; [discriminate|intros ch I; cbn in I; intuition (subst; reflexivity)]).
  split. { change (txt "d/" ++ txt "run" ++ txt "_t" ++ txt "00" ++ txt ".dat") with (txt "d/run" ++ txt "_t" ++ txt "00" ++ txt ".dat"). change (txt "d/" ++ txt "run") with (txt "d/run"). apply splits_digits; auto; [discriminate| |].
    - intros ch I. cbn in I. intuition (subst; reflexivity).
    - intros h r E. destruct h as [|c0 [|c1 [|c2 [|c3 [|c4 h]]]]]; cbn in E; discriminate. }
  split; [exact DF|]. split; [intros ch I; cbn in I; intuition (subst; reflexivity)|]. split; [exists "."%char, (txt "dat"); auto|].
  vm_compute. auto.
Qed.
(** With a file of displacements, the successive positions of a trajectory that is loaded can be farther than a diameter (6 here): the loading does not move the frames. *)
Definition far_disk : disk := fun n =>
  if list_eq_dec ascii_dec n (txt "d/run_t0.dat") then Some (export_dat Z (show_Z 1) (90, 90, 90)%Z [(10, 0, 0)]%Z)
  else if list_eq_dec ascii_dec n (txt "d/run_t1.dat") then Some (export_dat Z (show_Z 1) (90, 90, 90)%Z [(40, 0, 0)]%Z)
  else if list_eq_dec ascii_dec n (txt "d/run.displ") then Some (txt "0 0 -29 0") else None.
Theorem C131_displ_refuted : exists r x y tr, obind (linker RTree_Heuristics.lib_config (show_Z 1) (parse_Z 1) (txt "d/run_t0.dat") (txt "_t") 3 1 2 0 far_disk) (fun d' => load_dyn Z 0%Z (parse_Z 1) d' (txt "d/run.traj")) = Val r /\
  on_traj (l_index Z r) tr 0 0 /\ on_traj (l_index Z r) tr 1 0 /\ place r 0 0 x /\ place r 1 0 y /\ ~ near x y (2 * l_radius Z r).
Proof.
  eexists. exists (10, 0, 0)%Z, (40, 0, 0)%Z, 0. split; [vm_compute; reflexivity|]. split; [eexists; split; [reflexivity|]; exists 0; auto|]. split; [eexists; split; [reflexivity|]; exists 1; auto|].
  split; [eexists; split; reflexivity|]. split; [eexists; split; reflexivity|]. intros [_ N]. vm_compute in N. discriminate.
Qed.
(** One folder per time step. *)
Definition folders_disk : disk := fun n =>
  if list_eq_dec ascii_dec n (txt "d_t0/run.dat") then Some (export_dat Z (show_Z 1) (90, 90, 90)%Z [(10, 0, 0)]%Z)
  else if list_eq_dec ascii_dec n (txt "d_t1/run.dat") then Some (export_dat Z (show_Z 1) (90, 90, 90)%Z [(11, 0, 0)]%Z) else None.
Example C131_folders_case : match linker RTree_Heuristics.lib_config (show_Z 1) (parse_Z 1) (txt "d_t0/run.dat") (txt "_t") 3 1 2 0 folders_disk with
  Val d' => d' (txt "d.traj") <> None /\ load_dyn Z 0%Z (parse_Z 1) d' (txt "d.traj") = Throw | _ => False end.
Proof. vm_compute. split; [discriminate|reflexivity]. Qed.
Print Assumptions C131_linker. Print Assumptions C131_displaced. Print Assumptions C131_again. Print Assumptions C131_missing. Print Assumptions C131_folders_refuted.
Print Assumptions C131_arguments_refuted.
Print Assumptions C131_arguments. Print Assumptions C131_no_step_refuted. Print Assumptions C131_displ_refuted.

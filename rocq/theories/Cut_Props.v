(** C129: cutter. *)
Require Import String.
Require Import ZArith List Arith NArith Ascii Bool Lia Sorted.
Require Import Verif.Base Verif.ListX Verif.Dec Verif.Box_Model Verif.RTree_Model Verif.RTree_Spec Verif.Index_Model Verif.Traj_Model Verif.Particles_Model Verif.Particles_Spec Verif.Particles_Props Verif.Files_Model Verif.Files_Spec Verif.Files_Proofs Verif.Files_Props
  Verif.Export_Model Verif.Export_Spec Verif.Export_Props Verif.Perco_Model Verif.Perco_Props Verif.Cut_Model.
Require Verif.RTree_Heuristics.
Import ListNotations.
Local Open Scope nat_scope.
Local Open Scope list_scope.

(** What must be removed *)
Definition alone (sep : Z) (l : list (list Z)) (flags : list bool) : Prop :=
  List.length flags = List.length l /\ forall k p, nth_error l k = Some p -> (nth_error flags k = Some true <-> forall j q, j <> k -> nth_error l j = Some q -> ~ closer3 q p sep).
Definition right_choice (both : bool) (sep : Z) (l : list (list Z)) (flags : list bool) : Prop := if both then alone sep l flags else first_served sep l flags.
(** No file is written by two steps, or written by one and read by another *)
Definition tidy (files : list (text * text)) : Prop :=
  forall k k' s t s' t', nth_error files k = Some (s, t) -> nth_error files k' = Some (s', t') -> t = t' \/ s = t' -> k = k'.
Definition same_disk (d d' : disk) : Prop := forall n, d n = d' n.

Lemma coord_triple p : triple_of (coord_of p) = p. Proof. destruct p as [[x y] z]. reflexivity. Qed.
Lemma triple_coord p : point3 p -> coord_of (triple_of p) = p. Proof. intros [x [y [z ->]]]. reflexivity. Qed.
Lemma kept_in {A} (flags : list bool) (l : list A) x : In x (kept flags l) -> In x l.
Proof. unfold kept. intros H. apply in_map_iff in H as [[b y] [<- H]]. apply filter_In in H as [H _]. apply in_combine_r in H. exact H. Qed.
Lemma filter_len_le {A} (f : A -> bool) (l : list A) : List.length (filter f l) <= List.length l.
Proof. induction l as [|x l IH]; cbn; [lia|]. destruct (f x); cbn; lia. Qed.
Lemma kept_len {A} (flags : list bool) (l : list A) : List.length (kept flags l) <= List.length l.
Proof. unfold kept. rewrite map_length. etransitivity; [apply filter_len_le|]. rewrite combine_length. lia. Qed.
Lemma kept_map {A B} (f : A -> B) : forall (flags : list bool) (l : list A), kept flags (map f l) = map f (kept flags l).
Proof. induction flags as [|b flags IH]; intros [|x l]; try reflexivity. unfold kept in *. cbn. destruct b; cbn; rewrite IH; reflexivity. Qed.
Lemma kept_all {A} : forall (flags : list bool) (l : list A), List.length flags = List.length l -> (forall k, k < List.length l -> nth_error flags k = Some true) -> kept flags l = l.
Proof.
  induction flags as [|b flags IH]; intros [|x l] L H; try discriminate; [reflexivity|]. assert (E := H 0 ltac:(cbn; lia)). injection E as ->. unfold kept. cbn. f_equal. apply IH; [injection L; auto|].
  intros k Hk. apply (H (S k)). cbn. lia.
Qed.
Lemma dist2_sym a b : dist2 a b = dist2 b a.
Proof. unfold dist2. destruct a as [|x [|y [|z [|? ?]]]]; destruct b as [|x' [|y' [|z' [|? ?]]]]; try reflexivity; ring. Qed.
Lemma closer3_sym a b r : closer3 a b r -> closer3 b a r.
Proof. unfold closer3. rewrite dist2_sym. auto. Qed.

Lemma nodup_left {A} (a b : list A) : NoDup (a ++ b) -> NoDup a.
Proof. induction a as [|x a IH]; cbn; intros H; [constructor|]. inversion H as [|y l N D]. subst. constructor; auto. intros I. apply N, in_or_app. auto. Qed.
Lemma numeral_split : forall (s s' a b : text), numeral s -> numeral s' -> no_digit_first a -> no_digit_first b -> s ++ a = s' ++ b -> s = s'.
Proof.
  induction s as [|x s IH]; intros [|y s'] a b Hs Hs' [ca [ra [Ea Da]]] [cb [rb [Eb Db]]] E; auto.
  - cbn in E. rewrite Ea in E. injection E as -> _. assert (X := Hs' y (or_introl eq_refl)). congruence.
  - cbn in E. rewrite Eb in E. injection E as -> _. assert (X := Hs cb (or_introl eq_refl)). congruence.
  - cbn in E. injection E as -> E. f_equal. apply (IH s' a b); [intros z I; apply Hs; right; exact I|intros z I; apply Hs'; right; exact I|exists ca, ra; auto|exists cb, rb; auto|exact E].
Qed.
(** Positions of the kept ones in the list *)
Lemma kept_nth {A} : forall (flags : list bool) (l : list A) j x, nth_error (kept flags l) j = Some x -> exists k, nth_error flags k = Some true /\ nth_error l k = Some x /\ List.length (filter id (firstn k flags)) = j.
Proof.
  induction flags as [|b flags IH]; intros [|y l] j x H; try (destruct j; discriminate). unfold kept in H. cbn in H. destruct b; cbn in H.
  - destruct j as [|j]; cbn in H.
    + injection H as ->. exists 0. auto.
    + apply IH in H as [k [H1 [H2 H3]]]. exists (S k). cbn. auto.
  - apply IH in H as [k [H1 [H2 H3]]]. exists (S k). cbn. auto.
Qed.
Lemma kept_pos {A} flags (l : list A) j j' x x' : nth_error (kept flags l) j = Some x -> nth_error (kept flags l) j' = Some x' -> j <> j' ->
  exists k k', k <> k' /\ nth_error flags k = Some true /\ nth_error flags k' = Some true /\ nth_error l k = Some x /\ nth_error l k' = Some x'.
Proof.
  intros H H' Hn. apply kept_nth in H as [k [H1 [H2 H3]]]. apply kept_nth in H' as [k' [H1' [H2' H3']]]. exists k, k'. repeat split; auto. intros ->. congruence.
Qed.
(** The right choice leaves a separated set, where the right choice is to keep everything. *)
Lemma choice_separated both sep l flags j j' p q : right_choice both sep l flags -> nth_error (kept flags l) j = Some p -> nth_error (kept flags l) j' = Some q -> j <> j' -> ~ closer3 p q sep.
Proof.
  intros H Hp Hq Hn. destruct (kept_pos flags l j j' p q Hp Hq Hn) as [k [k' [N [F [F' [E E']]]]]]. destruct both; cbn in H.
  - destruct H as [_ H]. intros C. apply (proj1 (H k' q E') F' k p N E). exact C.
  - apply (proj1 (C35_separated sep l flags H) k k' p q F F' E E' N).
Qed.
Lemma choice_keeps_all both sep l flags : (forall j j' p q, nth_error l j = Some p -> nth_error l j' = Some q -> j <> j' -> ~ closer3 p q sep) -> right_choice both sep l flags -> kept flags l = l.
Proof.
  intros Hs H. assert (L : List.length flags = List.length l) by (destruct both; apply H). apply kept_all; auto. intros k Hk. destruct (nth_error l k) as [p|] eqn:E; [|apply nth_error_None in E; lia].
  destruct both; cbn in H; destruct H as [_ H].
  - apply (H k p E). intros j q Hj Eq. apply (Hs j k q p); auto.
  - destruct (nth_error flags k) as [[]|] eqn:F; auto.
    + exfalso. destruct (proj1 (H k p E) F) as [j [q [Hj [_ [Eq C]]]]]. apply (Hs k j p q E Eq); [lia|auto].
    + apply nth_error_None in F. lia.
Qed.

Section Statements.
  Variables (c : config) (show : Z -> text) (parse : text -> option Z) (rnd : Z -> Z).
  Hypothesis Hc : config_ok c.
  Hypothesis H3 : dims c = 3.
  Hypothesis K : codec show parse rnd.
  Local Notation text_of := (cut_text c show parse).
  Local Notation particles_of l := (map coord_of (snd (read_dat Z 0%Z parse l))).
  Definition box_of (l : text) : Z * Z * Z := on_triple (fun o => match o with Some v => v | None => 0%Z end) (fst (read_dat Z 0%Z parse l)).

  Lemma cut_loop_box sep : forall l out out', cut_loop c sep l out = Val out' -> pbb out' = pbb out.
  Proof.
    induction l as [|p l IH]; cbn; intros out out' H; [injection H as ->; auto|]. destruct (euclid out p sep) as [[|x xs]| |]; try discriminate; [|auto].
    destruct (push_back c out p) as [o|] eqn:E; [|discriminate]. rewrite (IH _ _ H). unfold push_back in E. destruct (pindex out) as [tr|]; [|injection E as <-; auto]. destruct (rstar_insert _ _ _ _); [|discriminate]. injection E as <-. auto.
  Qed.
  Lemma load_pts l : pts (load parse l) = particles_of l. Proof. unfold load. destruct (read_dat Z 0%Z parse l) as [[[a b] d] ps]. reflexivity. Qed.
  Lemma load_box l : triple_of (map snd (pbb (load parse l))) = box_of l. Proof. unfold load, box_of. destruct (read_dat Z 0%Z parse l) as [[[a b] d] ps]. reflexivity. Qed.
  Lemma coords_points ps : Forall point3 (map coord_of ps).
  Proof. apply Forall_forall. intros p I. apply in_map_iff in I as [[[x y] z] [<- _]]. repeat eexists. Qed.
  Lemma text_val both sep l : exists flags, right_choice both sep (particles_of l) flags /\ text_of both sep l = Val (export_dat Z show (box_of l) (kept flags (snd (read_dat Z 0%Z parse l)))).
  Proof.
    assert (P := coords_points (snd (read_dat Z 0%Z parse l))).
    assert (X : exists out flags, right_choice both sep (particles_of l) flags /\ pts out = kept flags (particles_of l) /\ pbb out = pbb (load parse l) /\
      (if both then match make_index c (load parse l) with Some st' => remove_short_range 1 st' sep | None => UB end else cut c 1 (load parse l) sep) = Val out).
    { destruct both.
      - destruct (C35_remove_short_range c (particles_of l) (pbb (load parse l)) 1 [PIndex] 1 sep Hc H3 P) as [st [out [flags [E [Ho [_ [L [Ek A]]]]]]]]; [repeat constructor|reflexivity|]. cbn [positions fold_left move] in *.
        cbn [prun pstep] in E. replace (new_particles (particles_of l) (pbb (load parse l)) 1) with (load parse l) in E by (unfold load; destruct (read_dat Z 0%Z parse l) as [[[a b] d] ps]; reflexivity).
        destruct (make_index c (load parse l)) as [st'|] eqn:Em; [|discriminate]. injection E as ->. exists out, flags. split; [split; auto|]. split; [exact Ek|]. split; [|exact Ho].
        unfold remove_short_range in Ho. destruct (pindex st) eqn:Ep; [|discriminate]. destruct (far_apart _ _ _); cbn in Ho; try discriminate. injection Ho as <-. cbn. unfold make_index in Em. destruct (rstar_build _ _); [|discriminate]. injection Em as <-. auto.
      - destruct (C35_cut c 1 (load parse l) sep Hc H3) as [out [flags [E [F [Ek _]]]]]; [rewrite load_pts; auto|]. rewrite load_pts in *. exists out, flags. split; [exact F|]. split; [exact Ek|]. split; [|exact E]. unfold cut in E. rewrite (cut_loop_box _ _ _ _ E). reflexivity. }
    destruct X as [out [flags [R [Ek [Eb Eo]]]]]. exists flags. split; auto. unfold cut_text. cbv zeta. rewrite Eo. cbn [omap]. unfold export. rewrite Eb, load_box, Ek, kept_map, map_map. do 2 f_equal. rewrite <- (map_id (kept flags _)) at 2. apply map_ext. apply coord_triple.
  Qed.

  (** C129.  One file: the box of the input and, in the same order, the particles that come closer than the separation to no earlier kept one; with "both", to no other. *)
  Theorem C129_file both sep l : exists flags o, right_choice both sep (particles_of l) flags /\ text_of both sep l = Val o /\
    o = export_dat Z show (box_of l) (kept flags (snd (read_dat Z 0%Z parse l))) /\
    (forall j j' p q, nth_error (kept flags (particles_of l)) j = Some p -> nth_error (kept flags (particles_of l)) j' = Some q -> j <> j' -> ~ closer3 p q sep).
  Proof. destruct (text_val both sep l) as [flags [R E]]. exists flags. eexists. split; [auto|]. split; [exact E|]. split; [reflexivity|]. intros j j' p q. apply choice_separated with (1 := R). Qed.

  (** The values of a file are printed without loss. *)
  Definition exact (l : text) : Prop :=
    (N.of_nat (List.length (particles_of l)) < two64)%N /\ Forall (fun v => rnd v = v) (triple (box_of l)) /\ Forall (fun p => Forall (fun v => rnd v = v) (triple p)) (snd (read_dat Z 0%Z parse l)).
  Lemma fixed_triple p : Forall (fun v => rnd v = v) (triple p) -> on_triple rnd p = p.
  Proof. destruct p as [[x y] z]. intros H. assert (A := Forall_inv H). apply Forall_inv_tail in H. assert (B := Forall_inv H). apply Forall_inv_tail in H. assert (D := Forall_inv H). cbn. congruence. Qed.
  (** C129.  Then the result of cutter is left as it is by cutter, with or without "both". *)
  Theorem C129_twice both both' sep l o : exact l -> text_of both sep l = Val o -> text_of both' sep o = Val o /\ exact o.
  Proof.
    intros [Hn [Hb Hp]] E. destruct (text_val both sep l) as [flags [R E']]. rewrite E' in E. injection E as <-. set (ps := kept flags (snd (read_dat Z 0%Z parse l))).
    assert (Hps : map (on_triple rnd) ps = ps). { rewrite <- (map_id ps) at 2. apply map_ext_in. intros p I. apply kept_in in I. rewrite Forall_forall in Hp. apply fixed_triple, Hp, I. }
    assert (Rd : read_dat Z 0%Z parse (export_dat Z show (box_of l) ps) = (on_triple (fun v => Some v) (box_of l), ps)).
    { rewrite (C78_round_trip Z 0%Z show parse rnd K). 2: { rewrite map_length in Hn. assert (X := kept_len flags (snd (read_dat Z 0%Z parse l))). unfold ps. lia. }
      rewrite Hps. f_equal. assert (X := fixed_triple _ Hb). destruct (box_of l) as [[a b] d]. cbn in *. congruence. }
    assert (Bx : box_of (export_dat Z show (box_of l) ps) = box_of l). { unfold box_of at 1. rewrite Rd. cbn [fst]. destruct (box_of l) as [[a b] d]. reflexivity. }
    assert (Pt : particles_of (export_dat Z show (box_of l) ps) = kept flags (particles_of l)) by (rewrite Rd, kept_map; reflexivity).
    split.
    - destruct (text_val both' sep (export_dat Z show (box_of l) ps)) as [fl [R' E2]]. rewrite E2, Bx, Rd. cbn [snd]. do 2 f_equal.
      assert (Kk : kept fl (map coord_of ps) = map coord_of ps).
      { rewrite Rd in R'. cbn [snd] in R'. apply (choice_keeps_all both' sep); auto. unfold ps. rewrite <- kept_map. intros j j' p q. apply choice_separated with (1 := R). }
      rewrite kept_map in Kk. assert (Y := f_equal (map triple_of) Kk). rewrite !map_map in Y. rewrite !(map_ext _ (fun p => p) coord_triple) in Y. rewrite !map_id in Y. exact Y.
    - split; [|split].
      + rewrite Pt. assert (X := kept_len flags (particles_of l)). lia.
      + rewrite Bx. auto.
      + rewrite Rd. cbn [snd]. apply Forall_forall. intros p I. apply kept_in in I. rewrite Forall_forall in Hp. auto.
  Qed.

  (** The effect of the steps on the disk *)
  Lemma steps_ok both sep : forall files d, tidy files -> (forall s t, In (s, t) files -> d s <> None) -> exists d', cut_steps c show parse both sep files d = (d', Finished) /\
    (forall s t, In (s, t) files -> exists l o, d s = Some l /\ text_of both sep l = Val o /\ d' t = Some o) /\ (forall n, ~ In n (map snd files) -> d' n = d n).
  Proof.
    induction files as [|[s t] files IH]; intros d Ht Hp; cbn [cut_steps].
    - exists d. split; auto. split; [intros ? ? []|auto].
    - destruct (d s) as [l|] eqn:El; [|exfalso; apply (Hp s t); [left; auto|auto]]. unfold cut_file. rewrite El. destruct (text_val both sep l) as [fl [_ Eo]]. rewrite Eo. set (o := export_dat Z show (box_of l) (kept fl (snd (read_dat Z 0%Z parse l)))) in *.
      assert (Nt : forall s' t', In (s', t') files -> s' <> t /\ t' <> t).
      { intros s' t' I. apply In_nth_error in I as [k Ek]. split; intros ->; [specialize (Ht (S k) 0 _ _ _ _ Ek eq_refl (or_intror eq_refl))|specialize (Ht (S k) 0 _ _ _ _ Ek eq_refl (or_introl eq_refl))]; discriminate. }
      destruct (IH (put_file d t o)) as [d' [E [Hd Ho]]].
      + intros k k' a b a' b' H H' Hor. assert (S k = S k') by (apply (Ht (S k) (S k') a b a' b'); auto). lia.
      + intros s' t' I. rewrite put_other by (apply (Nt s' t' I)). apply (Hp s' t'). right. auto.
      + exists d'. split; auto. split.
        * intros s' t' [I|I]; [injection I as <- <-|].
          -- exists l, o. split; auto. split; auto. rewrite Ho; [apply put_same|]. intros J. apply in_map_iff in J as [[a b] [<- J]]. apply (proj2 (Nt a b J)). reflexivity.
          -- destruct (Hd s' t' I) as [l' [o' [H1 H2]]]. rewrite put_other in H1 by (apply (Nt s' t' I)). eauto.
        * intros n Hn. cbn [map snd] in Hn. rewrite Ho by (intros J; apply Hn; right; auto). apply put_other. intros ->. apply Hn. left. auto.
  Qed.
  (** C129.  A series: each output is the result for its own input as it was at the beginning, and no other file is touched. *)
  Theorem C129_series both sep files d : tidy files -> (forall s t, In (s, t) files -> d s <> None) ->
    exists d', cut_steps c show parse both sep files d = (d', Finished) /\
      (forall s t, In (s, t) files -> exists l o, d s = Some l /\ text_of both sep l = Val o /\ d' t = Some o) /\ (forall n, ~ In n (map snd files) -> d' n = d n).
  Proof. apply steps_ok. Qed.
  (** C129.  The first missing input ends the program: the steps before it are done, and nothing else. *)
  Theorem C129_missing both sep done s t rest d : tidy done -> (forall s t, In (s, t) done -> d s <> None) -> ~ In s (map snd done) -> d s = None ->
    exists d', cut_steps c show parse both sep done d = (d', Finished) /\ cut_steps c show parse both sep (done ++ (s, t) :: rest) d = (d', Stopped).
  Proof.
    intros Ht Hp Hs Hm. destruct (steps_ok both sep done d Ht Hp) as [d' [E [_ Ho]]]. exists d'. split; auto.
    assert (G : forall done d, cut_steps c show parse both sep done d = (d', Finished) -> cut_steps c show parse both sep (done ++ (s, t) :: rest) d = cut_steps c show parse both sep ((s, t) :: rest) d').
    { clear. induction done as [|[a b] done IH]; cbn [app]; intros d E; [injection E as ->; auto|]. cbn [cut_steps] in *. destruct (cut_file c show parse both sep a b d) as [d1 []]; try discriminate. auto. }
    rewrite (G _ _ E). cbn [cut_steps]. unfold cut_file. rewrite (Ho s Hs), Hm. auto.
  Qed.
  (** C129.  Interrupted anywhere and run again: as if it had not been interrupted, when the results are not written over the inputs. *)
  Lemma interrupted_others both sep files d d2 : interrupted c show parse both sep files d d2 -> forall n, ~ In n (map snd files) -> d2 n = d n.
  Proof.
    induction 1 as [files d|src dst files d l o a b El Eo Ea|src dst files d d1 d2 E _ IH]; intros n Hn; auto; cbn [map snd] in Hn.
    - apply put_other. intros ->. apply Hn. left. auto.
    - rewrite IH by (intros J; apply Hn; right; auto). unfold cut_file in E. destruct (d src); [|discriminate]. destruct (cut_text c show parse both sep t); try discriminate. injection E as <-. apply put_other. intros ->. apply Hn. left. auto.
  Qed.
  Theorem C129_again both sep files d d1 : tidy files -> (forall s t, In (s, t) files -> d s <> None) -> (forall s t, In (s, t) files -> ~ In s (map snd files)) -> interrupted c show parse both sep files d d1 ->
    exists d' d1', cut_steps c show parse both sep files d = (d', Finished) /\ cut_steps c show parse both sep files d1 = (d1', Finished) /\ same_disk d1' d'.
  Proof.
    intros Ht Hp Hs Hi. assert (O := interrupted_others both sep files d d1 Hi).
    destruct (steps_ok both sep files d Ht Hp) as [d' [E [Hd Ho]]]. destruct (steps_ok both sep files d1 Ht) as [d1' [E1 [Hd1 Ho1]]]. { intros s t I. rewrite O; [apply (Hp s t I)|apply (Hs s t I)]. }
    exists d', d1'. repeat split; auto. intros n. destruct (in_dec (list_eq_dec ascii_dec) n (map snd files)) as [I|I].
    - apply in_map_iff in I as [[s t] [<- I]]. cbn [snd]. destruct (Hd s t I) as [l [o [H1 [H2 ->]]]]. destruct (Hd1 s t I) as [l1 [o1 [H4 [H5 ->]]]]. rewrite O in H4 by (apply (Hs s t I)). congruence.
    - rewrite Ho, Ho1, O; auto.
  Qed.
  (** C129.  When they are (no postfix), this holds for interruptions between two files, if the values are printed without loss. *)
  Theorem C129_in_place both sep names k d d1 : NoDup names -> (forall n, In n names -> exists l, d n = Some l /\ exact l) ->
    cut_steps c show parse both sep (map (fun n => (n, n)) (firstn k names)) d = (d1, Finished) ->
    exists d' d1', cut_steps c show parse both sep (map (fun n => (n, n)) names) d = (d', Finished) /\ cut_steps c show parse both sep (map (fun n => (n, n)) names) d1 = (d1', Finished) /\ same_disk d1' d'.
  Proof.
    intros Hnd Hp E1.
    assert (T : forall l : list text, NoDup l -> tidy (map (fun n => (n, n)) l)).
    { intros l N i j s t s' t' Hi Hj Hor. rewrite nth_error_map in Hi, Hj. destruct (nth_error l i) as [a|] eqn:Ea; [|discriminate]. destruct (nth_error l j) as [b|] eqn:Eb; [|discriminate]. cbn in Hi, Hj. injection Hi as <- <-. injection Hj as <- <-.
      assert (a = b) by tauto. subst b. apply (proj1 (NoDup_nth_error l) N); [apply nth_error_Some; congruence|congruence]. }
    assert (Mi : forall (l : list text) s t, In (s, t) (map (fun n => (n, n)) l) <-> s = t /\ In t l).
    { intros l s t. rewrite in_map_iff. split; [intros [n [X I]]; injection X as <- <-; auto|intros [-> I]; exists t; auto]. }
    assert (Ms : forall l : list text, map snd (map (fun n : text => (n, n)) l) = l) by (intros l; rewrite map_map; apply map_id).
    assert (Nk : NoDup (firstn k names)). { rewrite <- (firstn_skipn k names) in Hnd. apply nodup_left in Hnd. auto. }
    assert (Ik : forall n, In n (firstn k names) -> In n names). { intros n I. rewrite <- (firstn_skipn k names). apply in_or_app. auto. }
    destruct (steps_ok both sep _ d (T _ Hnd)) as [d' [E [Hd Ho]]]. { intros s t I. apply Mi in I as [-> I]. destruct (Hp t I) as [l [-> _]]. discriminate. }
    destruct (steps_ok both sep _ d (T _ Nk)) as [dk [Ek [Hdk Hok]]]. { intros s t I. apply Mi in I as [-> I]. destruct (Hp t (Ik t I)) as [l [-> _]]. discriminate. }
    rewrite Ek in E1. injection E1 as ->. rewrite Ms in *.
    destruct (steps_ok both sep _ d1 (T _ Hnd)) as [d1' [E1 [Hd1 Ho1]]].
    { intros s t I. apply Mi in I as [-> I]. destruct (in_dec (list_eq_dec ascii_dec) t (firstn k names)) as [J|J].
      - destruct (Hdk t t) as [l [o [_ [_ ->]]]]; [apply Mi; auto|discriminate].
      - rewrite Hok by auto. destruct (Hp t I) as [l [-> _]]. discriminate. }
    rewrite Ms in *. exists d', d1'. repeat split; auto. intros n. destruct (in_dec (list_eq_dec ascii_dec) n names) as [I|I].
    - destruct (Hd n n) as [l [o [A1 [A2 ->]]]]; [apply Mi; auto|]. destruct (Hd1 n n) as [l1 [o1 [B1 [B2 ->]]]]; [apply Mi; auto|]. f_equal.
      destruct (in_dec (list_eq_dec ascii_dec) n (firstn k names)) as [J|J].
      + destruct (Hdk n n) as [l2 [o2 [G1 [G2 G4]]]]; [apply Mi; auto|]. assert (l2 = l) by congruence. subst l2. assert (o2 = o) by congruence. subst o2. assert (l1 = o) by congruence. subst l1.
        destruct (Hp n I) as [l' [El' X]]. assert (l' = l) by congruence. subst l'. destruct (C129_twice both both sep l o X A2) as [Y _]. congruence.
      + rewrite Hok in B1 by auto. congruence.
    - rewrite Ho, Ho1, Hok; auto.
  Qed.
End Statements.

(** C129.  The names: step t reads the pattern with its number and writes the same with the postfix before the token and ".dat" for extension;
    no file is written twice or written by a step and read by another, and with a postfix no file that is read is written. *)
Theorem C129_names filename tok head ds tl ext n off postfix : digit_free tok -> splits tok filename head (ds ++ tl ++ [dot] ++ ext) -> numeral ds -> no_digit_first (tl ++ [dot] ++ ext) ->
  no_percent filename -> no_percent postfix -> ~ In dot ext -> absent tok (tl ++ txt ".dat") -> (N.of_nat n + off < 2 ^ 64)%N ->
  exists files, cut_names filename tok (Some n) off postfix = Val files /\ List.length files = n /\ tidy files /\ (postfix <> [] -> forall s t, In (s, t) files -> ~ In s (map snd files)) /\
    forall t, t < n -> exists num, writes (List.length ds) (N.of_nat t + off) num /\ nth_error files t = Some (head ++ tok ++ num ++ tl ++ [dot] ++ ext, head ++ postfix ++ tok ++ num ++ tl ++ txt ".dat").
Proof.
  intros Hf Hs Hd Ht Hp Hpp He Ha Hn.
  assert (Nd : no_digit_first (tl ++ txt ".dat")). { destruct tl as [|x tl]; [exists dot, (txt "dat"); split; reflexivity|]. destruct Ht as [y [l [E D]]]. injection E as -> _. exists y, (tl ++ txt ".dat"). auto. }
  assert (Pe : no_percent (txt ".dat")) by (intros [X|[X|[X|[X|[]]]]]; discriminate).
  destruct (C54_names tok filename head ds (tl ++ [dot] ++ ext) n off Hs Hd Ht Hp) as [fs [Ef Nf]].
  destruct (C54_add_postfix_ext tok filename head ds (tl ++ [dot] ++ ext) n off Hs Hd Ht Hp postfix tl ext (txt ".dat") Hf Hpp eq_refl He Nd Ha Pe) as [fs' [os [Ef' [Eo No]]]]. assert (fs' = fs) by congruence. subst fs'.
  unfold cut_names. rewrite Ef. cbn [obind]. rewrite Eo. cbn [omap]. eexists. split; [reflexivity|].
  assert (G : forall t, t < n -> exists num, writes (List.length ds) (N.of_nat t + off) num /\ step_name fs (N.of_nat t) = head ++ tok ++ num ++ tl ++ [dot] ++ ext /\ step_name os (N.of_nat t) = head ++ postfix ++ tok ++ num ++ tl ++ txt ".dat").
  { intros t L. destruct (Nf (N.of_nat t)) as [a [Wa Ea]]; [lia|]. destruct (No (N.of_nat t)) as [b [Wb Eb]]; [lia|]. rewrite (writes_fun _ _ _ _ Wb Wa) in Eb. eauto. }
  assert (Nth : forall k s t, nth_error (map (fun t => (step_name fs (N.of_nat t), step_name os (N.of_nat t))) (seq 0 n)) k = Some (s, t) -> k < n /\ s = step_name fs (N.of_nat k) /\ t = step_name os (N.of_nat k)).
  { intros k s t E. rewrite nth_error_map in E. destruct (nth_error (seq 0 n) k) as [x|] eqn:Ex; [|discriminate]. assert (k < n) by (rewrite <- (seq_length n 0); apply nth_error_Some; congruence).
    rewrite (nth_error_nth' _ 0) in Ex by (rewrite seq_length; auto). rewrite seq_nth in Ex by auto. injection Ex as <-. cbn in E. injection E as <- <-. auto. }
  assert (Inj : forall k k' u u', writes (List.length ds) (N.of_nat k + off) u -> writes (List.length ds) (N.of_nat k' + off) u' -> u = u' -> k = k').
  { intros k k' u u' [_ [V _]] [_ [V' _]] ->. lia. }
  assert (Cross : forall k k', k < n -> k' < n -> step_name fs (N.of_nat k) = step_name os (N.of_nat k') -> postfix = [] /\ k = k').
  { intros k k' L L' E. destruct (G k L) as [u [W [E1 _]]]. destruct (G k' L') as [u' [W' [_ E2]]]. rewrite E1, E2 in E.
    assert (Pn : postfix = []).
    { assert (Un : u <> []) by (assert (Z := writes_len _ _ _ W); destruct u; [cbn in Z; lia|discriminate]).
      destruct (splits_digits tok head u (tl ++ [dot] ++ ext) Hf Un (proj1 W)) as [_ M]; [apply (splits_absent tok head ds); [apply Hf|]; destruct Hs as [E0 Hs]; rewrite <- E0; split; auto|].
      specialize (M (head ++ postfix) (u' ++ tl ++ txt ".dat")). rewrite E in M. rewrite <- !app_assoc in M. specialize (M eq_refl). rewrite app_length in M. destruct postfix; auto. cbn in M. lia. }
    split; auto. subst postfix. cbn [app] in E. apply app_inv_head in E. apply app_inv_head in E. apply (Inj k k' u u' W W'). apply (numeral_split u u' _ _ (proj1 W) (proj1 W') Ht Nd E). }
  split; [rewrite map_length, seq_length; auto|]. split; [|split].
  - intros k k' s t s' t' H H' Hor. apply Nth in H as [L [Es Et]]. apply Nth in H' as [L' [Es' Et']]. destruct Hor as [X|X].
    + destruct (G k L) as [u [W [_ E2]]]. destruct (G k' L') as [u' [W' [_ E2']]]. rewrite Et, Et', E2, E2' in X. do 3 apply app_inv_head in X. apply app_inv_tail in X. apply (Inj k k' u u' W W' X).
    + rewrite Es, Et' in X. apply (Cross k k' L L' X).
  - intros Pn s t I J. apply In_nth_error in I as [k Ek]. apply Nth in Ek as [L [Es _]]. apply in_map_iff in J as [[s' t'] [E I]]. apply In_nth_error in I as [k' Ek']. apply Nth in Ek' as [L' [_ Et']]. cbn in E. apply Pn. apply (Cross k k' L L'). congruence.
  - intros t L. destruct (G t L) as [u [W [E1 E2]]]. exists u. split; auto. rewrite nth_error_map, (nth_error_nth' _ 0), seq_nth by (rewrite ?seq_length; auto). cbn [option_map Nat.add]. rewrite E1, E2. auto.
Qed.

(** What fails.  The number of the particle, and the coordinates rounded to tens when they are printed. *)
Definition show_Z (step : Z) (z : Z) : text := let q := (z / step)%Z in (if (q <? 0)%Z then txt "-" else []) ++ print_N (Z.abs_N q).
Definition parse_Z (step : Z) (w : text) : option Z :=
  match w with
  | [] => None
  | x :: w' => if Ascii.eqb x "-"%char then (if forallb is_digit w' then Some (- Z.of_N (value_from 0 w') * step)%Z else None)
              else if forallb is_digit w then Some (Z.of_N (value_from 0 w) * step)%Z else None
  end.
Lemma codec_Z step : codec (show_Z step) (parse_Z step) (fun z => (z / step * step)%Z).
Proof.
  intros z. unfold show_Z, parse_Z. cbv zeta. set (q := (z / step)%Z). destruct (print_N_numeral (Z.abs_N q)) as [N1 [V1 L1]].
  assert (D : forall x, is_digit x = true -> negb (is_space x) = true /\ Ascii.eqb x "-"%char = false) by (intros [[] [] [] [] [] [] [] []]; vm_compute; auto; discriminate).
  assert (F : forallb is_digit (print_N (Z.abs_N q)) = true) by (apply forallb_forall; auto).
  assert (Sp : forallb (fun x => negb (is_space x)) (print_N (Z.abs_N q)) = true) by (apply forallb_forall; intros x I; apply D, N1, I).
  destruct (Z.ltb_spec q 0).
  - split; [split; [discriminate|]|].
    + rewrite forallb_app. rewrite Sp. reflexivity.
    + cbn [app txt list_ascii_of_string]. rewrite Ascii.eqb_refl, F, V1. f_equal. rewrite N2Z.inj_abs_N. lia.
  - cbn [app]. destruct (print_N (Z.abs_N q)) as [|x w] eqn:E; [cbn in L1; lia|]. split; [split; [discriminate|]|].
    + exact Sp.
    + rewrite (proj2 (D x (N1 x (or_introl eq_refl)))), F, V1. f_equal. rewrite N2Z.inj_abs_N. lia.
Qed.
Definition raw_file (ps : list (Z * Z * Z)) : text := export_dat Z (show_Z 1) (100, 100, 100)%Z ps.
(** Digits are lost by the printing: run again on its own result, cutter removes particles. *)
Theorem C129_rounding_refuted : exists l o o', 
  let parse := parse_Z 1 in let show := fun z => show_Z 1 (z / 10 * 10)%Z in
  codec show parse (fun z => z / 10 * 10)%Z /\ cut_text RTree_Heuristics.lib_config show parse false 15 l = Val o /\ cut_text RTree_Heuristics.lib_config show parse false 15 o = Val o' /\
  snd (read_dat Z 0%Z parse o) = [(0, 0, 0); (10, 0, 0)]%Z /\ snd (read_dat Z 0%Z parse o') = [(0, 0, 0)]%Z.
Proof.
  exists (raw_file [(0, 0, 0); (19, 0, 0)]%Z). eexists. eexists. cbv zeta. split.
  - intros v. destruct (codec_Z 1 (v / 10 * 10)%Z) as [W P]. split; auto. rewrite P. f_equal. rewrite Z.div_1_r. lia.
  - split; [vm_compute; reflexivity|]. split; [vm_compute; reflexivity|]. split; vm_compute; reflexivity.
Qed.
(** In place, an interruption inside a file loses particles for good: the next run takes the missing ones to be at the origin, and keeps one of them. *)
Theorem C129_crash_refuted : exists l a d', let parse := parse_Z 1 in let show := show_Z 1 in let name := txt "a.dat" in let d := put_file (fun _ => None) name l in
  exact parse (fun z => z / 1 * 1)%Z l /\ interrupted RTree_Heuristics.lib_config show parse false 3 [(name, name)] d (put_file d name a) /\
  snd (read_dat Z 0%Z parse l) = [(10, 10, 10); (20, 20, 20); (30, 30, 30)]%Z /\
  cut_steps RTree_Heuristics.lib_config show parse false 3 [(name, name)] (put_file d name a) = (d', Finished) /\
  option_map (fun l => snd (read_dat Z 0%Z parse l)) (d' name) = Some [(10, 10, 10); (0, 0, 0)]%Z.
Proof.
  set (l := raw_file [(10, 10, 10); (20, 20, 20); (30, 30, 30)]%Z). exists l, (firstn 28 l). eexists. cbv zeta. split; [|split; [|split; [|split]]].
  - split; [vm_compute; reflexivity|]. split; [repeat constructor|]. unfold l. vm_compute. repeat constructor.
  - apply int_inside with (l := l) (o := l) (b := skipn 28 l); [apply put_same|vm_compute; reflexivity|symmetry; apply firstn_skipn].
  - vm_compute. reflexivity.
  - unfold cut_steps, cut_file. rewrite put_same. match goal with |- context [cut_text ?c ?s ?p ?b ?n ?x] => let y := eval vm_compute in (cut_text c s p b n x) in replace (cut_text c s p b n x) with y by (vm_compute; reflexivity) end. reflexivity.
  - rewrite put_same. vm_compute. reflexivity.
Qed.
(** With the file and no separation, the separation is what the memory holds; the message is shown only when both are missing. *)
Theorem C129_options_refuted c show parse filename token span offset both postfix d :
  cutter c show parse (Some filename) None token span offset both postfix d = Ran d Undefined /\ cutter c show parse None None token span offset both postfix d = Help.
Proof. split; reflexivity. Qed.
(** C129.  One file: the particles of the file are cut; the name that is written is the one of the input without its extension, with the postfix and ".dat". *)
Theorem C129_one_file c show parse stem ext token offset both sep postfix d : ~ In dot ext ->
  cutter c show parse (Some (stem ++ [dot] ++ ext)) (Some sep) token None offset both postfix d =
    match d (stem ++ [dot] ++ ext) with
    | None => Ran d Stopped
    | Some l => match cut_text c show parse both sep l with
                | Val o => Ran (put_file d (stem ++ postfix ++ txt ".dat") o) Finished
                | Throw => Ran d Stopped
                | UB => Ran d Undefined
                end
    end.
Proof.
  intros H. unfold cutter, cut_names. rewrite cut_ext_ok by auto. cbn [cut_steps]. unfold cut_file. destruct (d (stem ++ [dot] ++ ext)) as [l|]; [|reflexivity]. destruct (cut_text c show parse both sep l); reflexivity.
Qed.
(** C129.  The help is shown only when both the input and the separation are missing; with the separation alone, the program looks for a file with an empty name. *)
Theorem C129_help c show parse input minSep token span offset both postfix d :
  (cutter c show parse input minSep token span offset both postfix d = Help <-> input = None /\ minSep = None) /\
  (forall sep, d [] = None -> cutter c show parse None (Some sep) token None offset both postfix d = Ran d Stopped).
Proof.
  split.
  - unfold cutter. destruct input as [f|], minSep as [sep|]; try (split; [discriminate|intros [? ?]; discriminate]); try (split; auto; fail).
    + destruct (cut_names f token span offset postfix); [destruct (cut_steps _ _ _ _ _ _ _)|..]; split; try discriminate; intros [? ?]; discriminate.
    + destruct (cut_names [] token span offset postfix); [destruct (cut_steps _ _ _ _ _ _ _)|..]; split; try discriminate; intros [? ?]; discriminate.
  - intros sep H. unfold cutter, cut_names. cbn [cut_steps]. unfold cut_file. rewrite H. reflexivity.
Qed.
(** A concrete series *)
Example C129_case : let d := put_file (put_file (fun _ => None) (txt "m_t0.dat") (raw_file [(0, 0, 0); (1, 0, 0); (9, 0, 0)]%Z)) (txt "m_t1.dat") (raw_file [(5, 5, 5)]%Z) in
  exists d', cutter RTree_Heuristics.lib_config (show_Z 1) (parse_Z 1) (Some (txt "m_t0.dat")) (Some 3%Z) (txt "_t") (Some 2) 0 true (txt "_c") d = Ran d' Finished /\
    d' (txt "m_c_t0.dat") = Some (raw_file [(9, 0, 0)]%Z) /\ d' (txt "m_c_t1.dat") = Some (raw_file [(5, 5, 5)]%Z).
Proof. eexists. split; [vm_compute; reflexivity|]. split; vm_compute; reflexivity. Qed.
Print Assumptions C129_file. Print Assumptions C129_twice. Print Assumptions C129_series. Print Assumptions C129_missing. Print Assumptions C129_again. Print Assumptions C129_in_place.
Print Assumptions C129_names. Print Assumptions C129_rounding_refuted. Print Assumptions C129_crash_refuted. Print Assumptions C129_options_refuted. Print Assumptions C129_one_file. Print Assumptions C129_help.

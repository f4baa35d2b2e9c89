(** Proofs about mains/lostngb.cpp and mains/dhlngb.cpp. *)
Require Import ZArith List Bool Arith NArith Lia Sorted.
Require Import Verif.Base Verif.Dec Verif.SortU Verif.ListX Verif.Traj_Model Verif.Traj_Spec Verif.Traj_Proofs Verif.Particles_Model Verif.Files_Model Verif.Boo_Model Verif.Ngb_Model Verif.Ngb_Proofs Verif.Corr_Model Verif.Dyn_Proofs Verif.Export_Spec Verif.Export_Proofs Verif.Lost_Model Verif.Lost_Spec.
Import ListNotations.
Local Open Scope nat_scope.

Definition some2 (p : nat * nat) : option N * option N := (Some (N.of_nat (fst p)), Some (N.of_nat (snd p))).
Lemma reads_pairs : forall prs fuel s a b, sane s -> words (buf s) = flat_map (fun p => [print_nat (fst p); print_nat (snd p)]) prs ->
  Forall (fun p => (N.of_nat (fst p) < two64)%N /\ (N.of_nat (snd p) < two64)%N) prs -> length (buf s) < fuel ->
  exists tl, bond_reads fuel s a b = Some (map some2 prs ++ tl) /\ (tl = [] \/ tl = [last (map some2 prs) (a, b)]).
Proof.
  induction prs as [|[x y] prs IH]; intros fuel s a b Sa W H Hf; (destruct fuel as [|fuel]; [lia|]); cbn [bond_reads].
  - destruct (good_stream s) eqn:G; [|exists []; split; auto].
    destruct (read_num_none s Sa W) as [s1 [E1 F1]]. rewrite E1. destruct (read_num_failed s1 F1) as [s2 [E2 F2]]. rewrite E2.
    exists [(a, b)]. split; [|auto]. assert (G2 : good_stream s2 = false) by (unfold good_stream; rewrite F2; apply andb_false_r).
    destruct fuel; cbn [bond_reads]; rewrite G2; reflexivity.
  - inversion H as [|? ? [Hx Hy] Hr]; subst. cbn [flat_map fst snd app] in *. unfold print_nat in W at 1 2.
    destruct (read_num_words s _ _ Sa W Hx) as [r1 [E1 [W1 L1]]]. destruct (good_stream s) eqn:G; [|unfold read_num in E1; rewrite G in E1; discriminate].
    rewrite E1. destruct (read_num_words _ _ _ (sane_rest r1) W1 Hy) as [r2 [E2 [W2 L2]]]. rewrite E2. cbn [buf kept] in *.
    destruct (IH fuel (mkStream r2 (ends r2) false) (Some (N.of_nat x)) (Some (N.of_nat y)) (sane_rest r2) W2 Hr) as [tl [E T]]; [cbn; lia|].
    exists tl. rewrite E. split; [reflexivity|]. destruct T as [->|T]; [auto|]. right. rewrite T. f_equal. cbn [map].
    destruct (map some2 prs) as [|z zs]; [reflexivity|]. cbn [last]. clear. revert z. induction zs as [|w zs IH]; intros z; [reflexivity|]. cbn [last] in *. apply IH.
Qed.
(** The loop always ends. *)
Lemma reads_total : forall fuel s a b, length (buf s) < fuel -> exists r, bond_reads fuel s a b = Some r.
Proof.
  induction fuel as [|fuel IH]; intros s a b H; [lia|]. cbn [bond_reads]. destruct (good_stream s); [|eauto].
  destruct (read_num s) as [x s1] eqn:E1. destruct (read_num s1) as [y s2] eqn:E2. destruct x as [x|].
  - apply read_num_shrinks in E1. assert (L : length (buf s2) < fuel \/ fail s2 = true).
    { destruct y as [y|]; [apply read_num_shrinks in E2; lia|]. right. revert E2. unfold read_num. destruct (good_stream s1); [|intros E; injection E as <-; reflexivity].
      destruct (snd (span_while is_space (buf s1))) as [|c l]; [intros E; injection E as <-; reflexivity|]. destruct (span_while is_digit (c :: l)) as [[|d ds] rest]; [intros E; injection E as <-; reflexivity|].
      destruct (value_from 0 (d :: ds) <? two64)%N; [discriminate|]. intros E; injection E as <-; reflexivity. }
    destruct L as [L|L].
    + destruct (IH s2 (kept (Some x) a) (kept y b) L) as [r ->]. cbn. eauto.
    + assert (G2 : good_stream s2 = false) by (unfold good_stream; rewrite L; apply andb_false_r). destruct fuel; cbn [bond_reads]; rewrite G2; cbn; eauto.
  - assert (F1 : fail s1 = true).
    { revert E1. unfold read_num. destruct (good_stream s); [|intros E; injection E as <-; reflexivity].
      destruct (snd (span_while is_space (buf s))) as [|c l]; [intros E; injection E as <-; reflexivity|]. destruct (span_while is_digit (c :: l)) as [[|d ds] rest]; [intros E; injection E as <-; reflexivity|].
      destruct (value_from 0 (d :: ds) <? two64)%N; [discriminate|]. intros E; injection E as <-; reflexivity. }
    destruct (read_num_failed s1 F1) as [s3 [E3 F3]]. rewrite E3 in E2. injection E2 as <- <-.
    assert (G2 : good_stream s3 = false) by (unfold good_stream; rewrite F3; apply andb_false_r). destruct fuel; cbn [bond_reads]; rewrite G2; cbn; eauto.
Qed.

Definition next_to (prs : list (nat * nat)) (inv : list nat) (p x : nat) : Prop := exists q, (In (p, q) prs \/ In (q, p) prs) /\ nth_error inv q = Some x.
Definition cell_in (e : list (list nat)) (p x : nat) : Prop := exists l, nth_error e p = Some l /\ In x l.

Lemma push_at_ok a x e : a < length e -> exists e', push_at a x e = Val e' /\ length e' = length e /\ forall p y, cell_in e' p y <-> cell_in e p y \/ (p = a /\ y = x).
Proof.
  intros H. unfold push_at, ngb_push, upd. destruct (nth_error e a) as [l|] eqn:E; [|apply nth_error_None in E; lia].
  exists (RTree_Model.set_nth a (l ++ [x]) e). split; [reflexivity|]. split; [apply set_nth_len|].
  intros p y. unfold cell_in. rewrite set_nth_get by auto. destruct (Nat.eqb_spec p a) as [->|N].
  - split.
    + intros [l' [E' I]]. injection E' as <-. apply in_app_or in I as [I|[I|[]]]; [left; eauto|right; auto].
    + intros [[l' [E' I]]|[_ ->]]; (exists (l ++ [x]); split; [reflexivity|]); apply in_or_app; [left; congruence|right; simpl; auto].
  - split; [auto|]. intros [I|[? _]]; [auto|congruence].
Qed.
Lemma bin_bonds_ok inv : forall prs e, length e = length inv -> Forall (fun p => fst p < length inv /\ snd p < length inv) prs ->
  exists e', ofold (bin_bond inv) (map some2 prs) e = Val e' /\ length e' = length inv /\ forall p y, cell_in e' p y <-> cell_in e p y \/ next_to prs inv p y.
Proof.
  induction prs as [|[a b] prs IH]; intros e L H.
  - exists e. split; [reflexivity|]. split; [auto|]. intros p y. split; [auto|]. intros [I|[q [[[]|[]] _]]]. auto.
  - inversion H as [|? ? [Ha Hb] Hr]; subst. cbn [fst snd] in *. cbn [map ofold]. unfold some2 at 1. cbn [bin_bond fst snd]. rewrite !Nat2N.id.
    destruct (nth_error inv b) as [tb|] eqn:Eb; [|apply nth_error_None in Eb; lia]. destruct (nth_error inv a) as [ta|] eqn:Ea; [|apply nth_error_None in Ea; lia].
    unfold at_index. rewrite Ea, Eb. cbn [obind]. destruct (push_at_ok a tb e ltac:(lia)) as [e1 [E1 [L1 P1]]]. rewrite E1. cbn [obind].
    destruct (push_at_ok b ta e1 ltac:(lia)) as [e2 [E2 [L2 P2]]]. rewrite E2. cbn [obind].
    destruct (IH e2 ltac:(lia) Hr) as [e3 [E3 [L3 P3]]]. exists e3. split; [exact E3|]. split; [auto|]. intros p y. rewrite P3, P2, P1. unfold next_to. split.
    + intros [[[I|[-> ->]]|[-> ->]]|[q [I E]]]; [auto| | |]; right.
      * exists b. simpl. auto. * exists a. simpl. auto. * exists q. simpl. tauto.
    + intros [I|[q [[[I|I]|[I|I]] E]]]; [auto| | | |].
      * injection I as -> ->. left; left; right. split; congruence. * right. exists q. auto.
      * injection I as -> ->. left; right. split; congruence. * right. exists q. auto.
Qed.
Lemma map_nth_sorted e p l : nth_error (map sort_unique e) p = Some l -> StronglySorted lt l /\ forall x, In x l <-> cell_in e p x.
Proof.
  rewrite nth_error_map. destruct (nth_error e p) as [l0|] eqn:E; [|discriminate]. cbn. intros H. injection H as <-. split; [apply sort_unique_sorted|].
  intros x. rewrite sort_unique_in. unfold cell_in. split; [eauto|]. intros [l' [E' I]]. congruence.
Qed.
Lemma cell_empty n p x : ~ cell_in (repeat [] n) p x.
Proof. intros [l [E I]]. apply nth_error_In in E. apply repeat_spec in E. subst. auto. Qed.
Lemma ngb_frame_ok inv file bonds : bond_file file (length inv) bonds -> exists e, ngb_frame inv file = Val e /\ length e = length inv /\
  forall p l, nth_error e p = Some l -> StronglySorted lt l /\ forall x, In x l <-> next_to bonds inv p x.
Proof.
  intros [l [-> [W [Ne H]]]]. unfold ngb_frame.
  destruct (reads_pairs bonds (S (length l)) (open_text l) None None (sane_open l) W) as [tl [-> T]].
  { eapply Forall_impl; [|exact H]. cbn. intros p [A [B C]]. split; lia. } { cbn. lia. }
  assert (T' : exists bs, map some2 bonds ++ tl = map some2 bs /\ forall p, In p bs <-> In p bonds).
  { destruct T as [->|T]; [exists bonds; rewrite app_nil_r; tauto|]. destruct (exists_last Ne) as [b0 [z Ez]]. exists (bonds ++ [z]). rewrite map_app, T. split.
    - f_equal. cbn [map]. f_equal. rewrite Ez, map_app. cbn [map]. apply last_last.
    - intros p. rewrite in_app_iff. rewrite Ez, in_app_iff. simpl. tauto. }
  destruct T' as [bs [-> I]]. destruct (bin_bonds_ok inv bs (repeat [] (length inv))) as [e [-> [L P]]]; [apply repeat_length| |].
  { rewrite Forall_forall in *. intros p J. apply I in J. destruct (H p J) as [A [B _]]. auto. }
  exists (map sort_unique e). split; [reflexivity|]. split; [rewrite map_length; auto|]. intros p k E. apply map_nth_sorted in E as [So E]. split; [auto|].
  intros x. rewrite E, P. split.
  - intros [J|[q [J K]]]; [destruct (cell_empty _ _ _ J)|]. exists q. rewrite <- !I. auto.
  - intros [q [J K]]. right. exists q. rewrite !I. auto.
Qed.
Lemma missing_ok here there p q l l' : nth_error here p = Some l -> nth_error there q = Some l' -> StronglySorted lt l -> StronglySorted lt l' ->
  exists n, missing here there p q = Val (Z.of_nat n) /\ counts n (fun x => In x l /\ ~ In x l').
Proof.
  intros E E' S S'. unfold missing, at_index. rewrite E, E'. cbn. exists (length (set_diff l l')). split; [reflexivity|].
  destruct (set_diff_spec l l' S S') as [Sd D]. exists (set_diff l l'). split; [|split; auto]. clear - Sd. induction Sd as [|a k S IH F]; constructor; auto.
  intros I. rewrite Forall_forall in F. apply F in I. lia.
Qed.
Lemma counts_iff n P Q : (forall x, P x <-> Q x) -> counts n P -> counts n Q.
Proof. intros H [l [A [B C]]]. exists l. split; [auto|]. split; [|auto]. intros x. rewrite B. auto. Qed.

Require Import ZArith List Bool Arith Lia Sorted Permutation.
Require Import Verif.Base Verif.SortU Verif.RTree_Model Verif.ListX Verif.Traj_Model Verif.Traj_Spec Verif.Traj_Proofs
  Verif.MTraj_Model Verif.MTraj_Spec.
Import ListNotations.

Record t2_ok (x : tindex2) : Prop := {
  ok_frames : pos2tr x <> [];
  ok_steps : forall tr T, nth_error (tr2pos x) tr = Some T -> steps T <> [];
  ok_agree : forall t p tr, table x t p tr <-> follows x t p tr }.

Lemma t2_new_ok n : t2_ok (t2_new n).
Proof.
  constructor; cbn [t2_new pos2tr tr2pos].
  - discriminate.
  - intros tr T H. apply nth_error_map_inv in H. destruct H as [p [_ ->]]. discriminate.
  - intros t p tr. unfold table, follows. cbn [t2_new pos2tr tr2pos]. split.
    + intros [row [Hr Hp]]. destruct t as [|[|t]]; simpl in Hr; try discriminate. injection Hr as <-.
      pose proof (nth_error_lt _ _ _ Hp) as Hl. rewrite seq_length in Hl. rewrite nth_error_seq in Hp by auto. injection Hp as <-.
      exists (mkTraj 0 [p]). split; [rewrite nth_error_map, nth_error_seq by auto; auto|]. exists 0. auto.
    + intros [T [HT Ha]]. apply nth_error_map_inv in HT. destruct HT as [q [Hq ->]]. apply at_time_single in Ha. destruct Ha as [-> ->].
      pose proof (nth_error_lt _ _ _ Hq) as Hl. rewrite seq_length in Hl. rewrite nth_error_seq in Hq by auto. injection Hq as <-.
      exists (seq 0 n). split; auto. rewrite nth_error_seq by auto. auto.
Qed.

Lemma table_fun x t p tr tr' : table x t p tr -> table x t p tr' -> tr = tr'.
Proof. intros [r [E H]] [r' [E' H']]. congruence. Qed.
Lemma follows_fun x t p p' tr : follows x t p tr -> follows x t p' tr -> p = p'.
Proof. intros [T [E H]] [T' [E' H']]. assert (T' = T) by congruence. subst. eapply at_time_fun; eauto. Qed.
Lemma table_lt x t p tr : table x t p tr -> t < length (pos2tr x).
Proof. intros [r [E _]]. eapply nth_error_lt; eauto. Qed.

Lemma finish_bound x tr T : t2_ok x -> nth_error (tr2pos x) tr = Some T -> get_finish T <= length (pos2tr x).
Proof.
  intros Hok HT. pose proof (ok_steps _ Hok _ _ HT) as Hne. unfold get_finish.
  destruct (at_time_ex T (start T + length (steps T) - 1)) as [p Hp].
  { destruct (steps T); [congruence|simpl; lia]. }
  assert (Hf : follows x (start T + length (steps T) - 1) p tr) by (exists T; auto).
  apply (ok_agree _ Hok) in Hf. apply table_lt in Hf. lia.
Qed.

Lemma last_row x : t2_ok x -> nth_error (pos2tr x) (length (pos2tr x) - 1) = Some (last (pos2tr x) []).
Proof. intros Hok. apply last_nth_error, Hok. Qed.

Lemma prev_inj x p p' tr : t2_ok x -> nth_error (last (pos2tr x) []) p = Some tr -> nth_error (last (pos2tr x) []) p' = Some tr -> p = p'.
Proof.
  intros Hok H1 H2. apply (follows_fun x (length (pos2tr x) - 1) p p' tr); apply (ok_agree _ Hok); eexists; split; eauto; apply last_row; auto.
Qed.
Lemma prev_traj x p tr : t2_ok x -> nth_error (last (pos2tr x) []) p = Some tr ->
  exists T, nth_error (tr2pos x) tr = Some T /\ get_finish T = length (pos2tr x).
Proof.
  intros Hok H. assert (Ht : table x (length (pos2tr x) - 1) p tr) by (eexists; split; eauto; apply last_row; auto).
  apply (ok_agree _ Hok) in Ht. destruct Ht as [T [HT Ha]]. exists T. split; auto. pose proof (finish_bound x tr T Hok HT).
  apply at_time_range in Ha. unfold get_finish in *. assert (pos2tr x <> []) by apply Hok.
  destruct (pos2tr x); [congruence|simpl in *; lia].
Qed.
Lemma finish_last x tr T : t2_ok x -> nth_error (tr2pos x) tr = Some T ->
  length (pos2tr x) <= get_finish T <-> exists p, nth_error (last (pos2tr x) []) p = Some tr.
Proof.
  intros Hok HT. split.
  - intros Hf. pose proof (finish_bound x tr T Hok HT). pose proof (ok_steps _ Hok _ _ HT) as Hne. unfold get_finish in *.
    destruct (at_time_ex T (length (pos2tr x) - 1)) as [p Hp].
    { destruct (steps T); [congruence|simpl in *; lia]. }
    assert (Hfo : follows x (length (pos2tr x) - 1) p tr) by (exists T; auto). apply (ok_agree _ Hok) in Hfo.
    destruct Hfo as [row [Hr Hp']]. rewrite last_row in Hr by auto. injection Hr as <-. eauto.
  - intros [p Hp]. destruct (prev_traj x p tr Hok Hp) as [T' [HT' Hf]]. assert (T' = T) by congruence. subst. lia.
Qed.

(** Adding a frame: what each old trajectory receives, and the new trajectories. *)
Lemma extend_ok x row tri : t2_ok x ->
  (forall tr T, nth_error (tr2pos x) tr = Some T ->
     (exists q, nth_error row q = Some tr /\ nth_error tri tr = Some (traj_push T q) /\ get_finish T = length (pos2tr x)) \/
     ((forall q, nth_error row q <> Some tr) /\ nth_error tri tr = Some T)) ->
  (forall tr T, length (tr2pos x) <= tr -> nth_error tri tr = Some T ->
     exists q, T = mkTraj (length (pos2tr x)) [q] /\ nth_error row q = Some tr) ->
  (forall q tr, nth_error row q = Some tr -> tr < length tri) ->
  (forall q q' tr, nth_error row q = Some tr -> nth_error row q' = Some tr -> q = q') ->
  t2_ok (mkT2 tri (pos2tr x ++ [row])).
Proof.
  intros Hok Hold Hnew Hub Hinj. 
  assert (Htab : forall t p tr, table (mkT2 tri (pos2tr x ++ [row])) t p tr <-> table x t p tr \/ (t = length (pos2tr x) /\ nth_error row p = Some tr)).
  { intros t p tr. unfold table. cbn [pos2tr]. split.
    - intros [r [E H]]. rewrite nth_error_snoc in E. destruct (Nat.eqb_spec t (length (pos2tr x))); [injection E as <-; auto|eauto].
    - intros [[r [E H]]|[-> H]].
      + exists r. split; auto. rewrite nth_error_app1; auto. eapply nth_error_lt; eauto.
      + exists row. rewrite nth_error_snoc, Nat.eqb_refl. auto. }
  constructor; cbn [pos2tr tr2pos].
  - destruct (pos2tr x); discriminate.
  - intros tr T HT. destruct (Nat.lt_ge_cases tr (length (tr2pos x))) as [Hlt|Hge].
    + destruct (nth_error_ex _ _ Hlt) as [T0 HT0]. destruct (Hold tr T0 HT0) as [[q [_ [H _]]]|[_ H]].
      * rewrite HT in H. injection H as ->. simpl. destruct (steps T0); discriminate.
      * rewrite HT in H. injection H as ->. eapply (ok_steps _ Hok); eauto.
    + destruct (Hnew tr T Hge HT) as [q [-> _]]. discriminate.
  - intros t p tr. rewrite Htab. destruct (Nat.lt_ge_cases tr (length (tr2pos x))) as [Hlt|Hge].
    + destruct (nth_error_ex _ _ Hlt) as [T0 HT0].
      assert (Hf0 : forall t p, table x t p tr <-> at_time T0 t p).
      { intros t' p'. rewrite (ok_agree _ Hok). split; [intros [T [E H]]; congruence|intros H; exists T0; auto]. }
      rewrite Hf0. unfold follows. cbn [tr2pos].
      destruct (Hold tr T0 HT0) as [[q [Hq [H Hfin]]]|[Hno H]].
      * split.
        -- intros Hor. exists (traj_push T0 q). split; auto. apply at_time_push. destruct Hor as [Ha|[-> Hp]]; auto.
           right. split; [unfold get_finish in Hfin; lia|]. eapply Hinj; eauto.
        -- intros [T [E Ha]]. rewrite H in E. injection E as <-. apply at_time_push in Ha. destruct Ha as [Ha|[-> ->]]; auto.
      * split.
        -- intros [Ha|[_ Hp]]; [exists T0; auto|]. exfalso. eapply Hno; eauto.
        -- intros [T [E Ha]]. rewrite H in E. injection E as <-. auto.
    + split.
      * intros [Ht|[-> Hp]].
        -- apply (ok_agree _ Hok) in Ht. destruct Ht as [T [E _]]. apply nth_error_lt in E. lia.
        -- destruct (nth_error_ex tri tr) as [T HT]; [eapply Hub; eauto|]. destruct (Hnew tr T Hge HT) as [q [-> Hq]].
           exists (mkTraj (length (pos2tr x)) [q]). split; auto. apply at_time_single. split; auto; eapply Hinj; eauto.
      * intros [T [HT Ha]]. cbn [tr2pos] in HT. destruct (Hnew tr T Hge HT) as [q [-> Hq]]. apply at_time_single in Ha.
        destruct Ha as [-> ->]. auto.
Qed.

(** * First form *)
Definition at_prev (prev : list nat) (p : nat) : nat := nth p prev 0.
Definition moves (prev : list nat) (f : frame) : list link := map (fun l => (snd l, at_prev prev (fst l))) f.

Lemma prolong_app : forall a tri b, prolong tri (a ++ b) = match prolong tri a with Some t => prolong t b | None => None end.
Proof.
  induction a as [|[p tr] a IH]; intros tri b; simpl; auto. destruct (upd tr _ tri); auto.
Qed.
Lemma prolong_length : forall ls tri tri', prolong tri ls = Some tri' -> length tri' = length tri.
Proof.
  induction ls as [|[p tr] ls IH]; intros tri tri' H; simpl in H; [congruence|].
  unfold upd in H. destruct (nth_error tri tr); [|discriminate]. apply IH in H. rewrite H. apply set_nth_len.
Qed.

Record linv (prev : list nat) (n : nat) (tri0 : list traj) (f : frame) (fu tu : list bool) (row : list nat) (tri : list traj) : Prop := {
  li_good : good f;
  li_in : forall p q, In (p, q) f -> p < length prev /\ q < n;
  li_fu : length fu = length prev;
  li_tu : length tu = n;
  li_row : length row = n;
  li_fum : forall p, nth_error fu p = Some true <-> In p (map fst f);
  li_tum : forall q, nth_error tu q = Some true <-> In q (map snd f);
  li_rowm : forall p q, In (p, q) f -> nth_error row q = nth_error prev p;
  li_tri : prolong tri0 (moves prev f) = Some tri }.

Lemma link_loop_ok prev n tri0 : (forall p tr, nth_error prev p = Some tr -> tr < length tri0) ->
  forall bs f fu tu row tri,
  (forall d p q, In (d, (p, q)) bs -> p < length prev /\ q < n) -> linv prev n tri0 f fu tu row tri ->
  exists fu' tu' row' tri', link_loop prev bs fu tu row tri = Some (tu', row', tri') /\
    linv prev n tri0 (fold_left (fun f l => frame_insert (snd l) f) bs f) fu' tu' row' tri'.
Proof.
  intros Hprev. induction bs as [|[d [p q]] bs IH]; intros f fu tu row tri Hbs H.
  - exists fu, tu, row, tri. split; auto.
  - destruct (Hbs d p q (or_introl eq_refl)) as [Hp Hq]. assert (Hbs' : forall d p q, In (d, (p, q)) bs -> p < length prev /\ q < n) by (intros; eapply Hbs; right; eauto).
    cbn [link_loop fold_left snd].
    destruct (nth_error_ex fu p) as [b Hb]; [rewrite (li_fu _ _ _ _ _ _ _ _ H); auto|].
    destruct (nth_error_ex tu q) as [u Hu]; [rewrite (li_tu _ _ _ _ _ _ _ _ H); auto|]. rewrite Hb, Hu.
    destruct (frame_insert_cases (p, q) f) as [[E [[a c] [Hx Hc]]]|[E Hno]]; rewrite E.
    + assert (Hor : b = true \/ u = true).
      { destruct Hc as [Hc|Hc]; simpl in Hc; subst.
        - left. assert (Hin : In p (map fst f)) by (apply in_map_fst; eauto). apply (li_fum _ _ _ _ _ _ _ _ H) in Hin. congruence.
        - right. assert (Hin : In q (map snd f)) by (apply in_map_snd; eauto). apply (li_tum _ _ _ _ _ _ _ _ H) in Hin. congruence. }
      assert (negb b && negb u = false) as -> by (destruct Hor; subst; simpl; auto; destruct b; auto). apply IH; auto.
    + assert (b = false).
      { destruct b; auto. apply (li_fum _ _ _ _ _ _ _ _ H) in Hb. apply in_map_fst in Hb. destruct Hb as [c Hb]. exfalso. apply (Hno _ Hb). left; auto. }
      assert (u = false).
      { destruct u; auto. apply (li_tum _ _ _ _ _ _ _ _ H) in Hu. apply in_map_snd in Hu. destruct Hu as [c Hu]. exfalso. apply (Hno _ Hu). right; auto. }
      subst. cbn [negb andb]. destruct (nth_error_ex prev p Hp) as [tr Htr]. rewrite Htr.
      pose proof (prolong_length _ _ _ (li_tri _ _ _ _ _ _ _ _ H)) as Hlen.
      unfold upd. destruct (nth_error_ex tri tr) as [T HT]; [rewrite Hlen; eapply Hprev; eauto|]. rewrite HT.
      apply IH; auto. constructor.
      * rewrite <- E. apply frame_insert_good, H.
      * intros a c Hin. apply in_app_or in Hin. destruct Hin as [Hin|[Hin|[]]]; [apply (li_in _ _ _ _ _ _ _ _ H _ _ Hin)|]. injection Hin as <- <-. auto.
      * rewrite set_nth_len. apply H.
      * rewrite set_nth_len. apply H.
      * rewrite set_nth_len. apply H.
      * intros a. rewrite set_nth_get by (rewrite (li_fu _ _ _ _ _ _ _ _ H); auto). rewrite map_app, in_app_iff, <- (li_fum _ _ _ _ _ _ _ _ H a). simpl.
        destruct (Nat.eqb_spec a p) as [->|Hne]; split; auto; try (intros [?|[?|[]]]; auto); congruence.
      * intros a. rewrite set_nth_get by (rewrite (li_tu _ _ _ _ _ _ _ _ H); auto). rewrite map_app, in_app_iff, <- (li_tum _ _ _ _ _ _ _ _ H a). simpl.
        destruct (Nat.eqb_spec a q) as [->|Hne]; split; auto; try (intros [?|[?|[]]]; auto); congruence.
      * intros a c Hin. rewrite set_nth_get by (rewrite (li_row _ _ _ _ _ _ _ _ H); auto).
        apply in_app_or in Hin. destruct Hin as [Hin|[Hin|[]]].
        -- destruct (Nat.eqb_spec c q) as [->|Hne]; [|apply (li_rowm _ _ _ _ _ _ _ _ H _ _ Hin)]. exfalso. apply (Hno _ Hin). right; auto.
        -- injection Hin as <- <-. rewrite Nat.eqb_refl. auto.
      * unfold moves. rewrite map_app, prolong_app. fold (moves prev f). rewrite (li_tri _ _ _ _ _ _ _ _ H).
        simpl. unfold at_prev. rewrite (nth_error_nth _ _ _ Htr). unfold upd. rewrite HT. auto.
Qed.

Lemma start_loop_ok t tu : forall ps row tri, NoDup ps -> (forall p, In p ps -> p < length row) ->
  let un := filter (fun p => negb (nth p tu false)) ps in
  exists row', start_loop t ps tu row tri = (row', tri ++ map (fun p => mkTraj t [p]) un) /\ length row' = length row /\
    (forall i p, nth_error un i = Some p -> nth_error row' p = Some (length tri + i)) /\
    (forall p, ~ In p un -> nth_error row' p = nth_error row p).
Proof.
  induction ps as [|p ps IH]; intros row tri Hn Hl un; cbn [start_loop].
  - exists row. unfold un. simpl. rewrite app_nil_r. split; auto. split; auto. split; auto. intros i q H. destruct i; discriminate.
  - inversion Hn as [|? ? Hp Hps]; subst. unfold un. cbn [filter]. destruct (nth p tu false); cbn [negb].
    + apply IH; auto. intros q Hq. apply Hl. right; auto.
    + destruct (IH (set_nth p (length tri) row) (tri ++ [mkTraj t [p]]) Hps) as [row' [E [L [H1 H2]]]].
      { intros q Hq. rewrite set_nth_len. apply Hl. right; auto. }
      exists row'. rewrite E. split; [f_equal; rewrite <- app_assoc; auto|]. rewrite set_nth_len in L. split; auto.
      assert (Hpl : p < length row) by (apply Hl; left; auto). split.
      * intros [|i] q Hq; simpl in Hq.
        -- injection Hq as <-. rewrite H2.
           ++ rewrite set_nth_get, Nat.eqb_refl by auto. f_equal. lia.
           ++ intros Hin. apply filter_In in Hin. tauto.
        -- rewrite (H1 i q Hq), app_length. simpl. f_equal. lia.
      * intros q Hq. rewrite H2 by (intros Hin; apply Hq; right; auto). rewrite set_nth_get by auto.
        destruct (Nat.eqb_spec q p) as [->|]; auto. exfalso. apply Hq. left; auto.
Qed.

Lemma make_bonds_in d from to dd p q : length d = length from -> length from = length to ->
  In (dd, (p, q)) (make_bonds d from to) <-> exists i, nth_error d i = Some dd /\ nth_error from i = Some p /\ nth_error to i = Some q.
Proof.
  intros H1 H2. unfold make_bonds. rewrite sort_by_in. split.
  - intros H. apply In_nth_error in H. destruct H as [i Hi]. apply combine_nth_error in Hi. destruct Hi as [Hi1 Hi2].
    apply combine_nth_error in Hi2. exists i. tauto.
  - intros [i [Hi1 [Hi2 Hi3]]]. apply nth_error_In with i. apply combine_nth_error. split; auto. apply combine_nth_error. auto.
Qed.

(** The new frame of the first form: accepted links and new trajectories. *)
Lemma add_links_spec x n d from to : t2_ok x -> length d = length from -> length from = length to ->
  (forall p, In p from -> p < length (last (pos2tr x) [])) -> (forall q, In q to -> q < n) ->
  exists row tri, add_frame_links x n d from to = Val (mkT2 tri (pos2tr x ++ [row])) /\ length row = n /\
    let f := insert_links (make_bonds d from to) in let prev := last (pos2tr x) [] in
    (forall p q, In (p, q) f -> exists tr, nth_error prev p = Some tr /\ nth_error row q = Some tr) /\
    (forall q, q < n -> ~ In q (map snd f) -> exists tr, nth_error row q = Some tr /\ length (tr2pos x) <= tr) /\
    (forall q q' tr tr', nth_error row q = Some tr -> nth_error row q' = Some tr' -> length (tr2pos x) <= tr -> tr < tr' -> q < q') /\
    t2_ok (mkT2 tri (pos2tr x ++ [row])) /\
    (forall tr T, nth_error (tr2pos x) tr = Some T ->
       (exists q, nth_error row q = Some tr /\ nth_error tri tr = Some (traj_push T q) /\ get_finish T = length (pos2tr x)) \/
       ((forall q, nth_error row q <> Some tr) /\ nth_error tri tr = Some T)) /\
    (forall tr T, length (tr2pos x) <= tr -> nth_error tri tr = Some T ->
       exists q, T = mkTraj (length (pos2tr x)) [q] /\ nth_error row q = Some tr).
Proof.
  intros Hok Hl1 Hl2 Hfrom Hto. unfold add_frame_links. rewrite Hl1, Hl2, !Nat.eqb_refl. cbn [negb orb].
  assert (existsb (fun q => n <=? q) to = false) as ->.
  { apply not_true_iff_false. rewrite existsb_exists. intros [q [Hq Hle]]. apply Hto in Hq. apply Nat.leb_le in Hle. lia. }
  set (prev := last (pos2tr x) []) in *. set (bs := make_bonds d from to).
  assert (Hprev : forall p tr, nth_error prev p = Some tr -> tr < length (tr2pos x)).
  { intros p tr H. destruct (prev_traj x p tr Hok H) as [T [HT _]]. eapply nth_error_lt; eauto. }
  assert (Hbs : forall dd p q, In (dd, (p, q)) bs -> p < length prev /\ q < n).
  { intros dd p q H. apply make_bonds_in in H; auto. destruct H as [i [_ [H1 H2]]]. split; [apply Hfrom|apply Hto]; eapply nth_error_In; eauto. }
  assert (Hrep : forall k i, nth_error (repeat false k) i = Some true -> False).
  { induction k as [|k IH]; intros [|i] H; simpl in H; try discriminate. eauto. }
  destruct (link_loop_ok prev n (tr2pos x) Hprev bs [] (repeat false (length prev)) (repeat false n) (repeat 0 n) (tr2pos x) Hbs) as [fu [tu [row [tri [E H]]]]].
  { constructor; try rewrite repeat_length; auto; try apply good_nil; try (intros p q []).
    - intros p. split; [intros Hf; exfalso; eauto|intros []].
    - intros p. split; [intros Hf; exfalso; eauto|intros []]. }
  rewrite E. change (fold_left (fun f l => frame_insert (snd l) f) bs []) with (insert_links bs) in H. set (f := insert_links bs) in *.
  destruct (start_loop_ok (length (pos2tr x)) tu (seq 0 n) row tri) as [row' [E' [Lr [Hr1 Hr2]]]].
  { apply seq_NoDup. } { intros p Hp. apply in_seq in Hp. rewrite (li_row _ _ _ _ _ _ _ _ H). lia. }
  set (un := filter (fun p => negb (nth p tu false)) (seq 0 n)) in *. rewrite E'.
  exists row', (tri ++ map (fun p => mkTraj (length (pos2tr x)) [p]) un). split; auto.
  assert (Hlen : length tri = length (tr2pos x)) by (apply (prolong_length _ _ _ (li_tri _ _ _ _ _ _ _ _ H))).
  assert (Hun : forall q, In q un <-> q < n /\ ~ In q (map snd f)).
  { intros q. unfold un. rewrite filter_In, in_seq, negb_true_iff, <- (li_tum _ _ _ _ _ _ _ _ H q). split.
    - intros [Hq Hb]. split; [lia|]. intros Ht. rewrite (nth_error_nth _ _ _ Ht) in Hb. discriminate.
    - intros [Hq Hb]. split; [lia|]. destruct (nth_error_ex tu q) as [b Hbq]; [rewrite (li_tu _ _ _ _ _ _ _ _ H); auto|].
      rewrite (nth_error_nth _ _ _ Hbq). destruct b; congruence. }
  assert (Hold : forall p q, In (p, q) f -> exists tr, nth_error prev p = Some tr /\ nth_error row' q = Some tr).
  { intros p q Hin. destruct (li_in _ _ _ _ _ _ _ _ H _ _ Hin) as [Hp Hq]. destruct (nth_error_ex prev p Hp) as [tr Htr].
    exists tr. split; auto. rewrite Hr2; [rewrite (li_rowm _ _ _ _ _ _ _ _ H _ _ Hin); auto|]. intros Hu. apply Hun in Hu. apply (proj2 Hu). apply in_map_snd; eauto. }
  assert (Hrow : forall q tr, nth_error row' q = Some tr -> (exists p, In (p, q) f /\ nth_error prev p = Some tr) \/ (exists i, nth_error un i = Some q /\ tr = length (tr2pos x) + i)).
  { intros q tr Hq. assert (Hqn : q < n) by (apply nth_error_lt in Hq; rewrite Lr, (li_row _ _ _ _ _ _ _ _ H) in Hq; auto).
    destruct (in_dec Nat.eq_dec q (map snd f)) as [Hin|Hnot].
    - apply in_map_snd in Hin. destruct Hin as [p Hin]. left. exists p. split; auto. destruct (Hold p q Hin) as [tr' [H1 H2]]. congruence.
    - right. assert (Hu : In q un) by (apply Hun; auto). apply In_nth_error in Hu. destruct Hu as [i Hi]. exists i. split; auto. rewrite (Hr1 i q Hi) in Hq. injection Hq as <-. lia. }
  assert (Hund : NoDup un) by (apply NoDup_filter, seq_NoDup).
  destruct (li_good _ _ _ _ _ _ _ _ H) as [G1 G2].
  split; [rewrite Lr; apply H|]. split; [exact Hold|]. split; [|split].
  - intros q Hq Hno. assert (Hu : In q un) by (apply Hun; auto). apply In_nth_error in Hu. destruct Hu as [i Hi]. exists (length tri + i). split; [apply Hr1, Hi|lia].
  - intros q q' tr tr' H1 H2 H3 H4. destruct (Hrow q tr H1) as [[p [_ Hp]]|[i [Hi ->]]]; [apply Hprev in Hp; lia|].
    destruct (Hrow q' tr' H2) as [[p [_ Hp]]|[j [Hj ->]]]; [apply Hprev in Hp; lia|].
    apply (ssorted_nth un i j); auto; [apply filter_ssorted, seq_ssorted|lia].
  - destruct (prolong_spec (moves prev f) (tr2pos x)) as [tri2 [Ep [_ Hpro]]].
    { unfold moves. rewrite map_map. cbn [snd]. assert (Hinj : forall l, incl l f -> NoDup (map fst l) -> NoDup (map (fun x0 => at_prev prev (fst x0)) l)).
      { induction l as [|[a c] l IH]; intros Hi Hn; simpl; [constructor|]. simpl in Hn. inversion Hn as [|? ? Ha Hl]; subst. constructor.
        - intros Hin. apply in_map_iff in Hin. destruct Hin as [[a' c'] [Ea Hin]]. simpl in Ea. apply Ha.
          replace a with a'; [apply in_map_fst; eauto|].
          destruct (li_in _ _ _ _ _ _ _ _ H a c) as [Hal _]; [apply Hi; left; auto|].
          destruct (li_in _ _ _ _ _ _ _ _ H a' c') as [Hal' _]; [apply Hi; right; auto|].
          destruct (nth_error_ex prev a Hal) as [tr Htr]. destruct (nth_error_ex prev a' Hal') as [tr' Htr'].
          unfold at_prev in Ea. rewrite (nth_error_nth _ _ _ Htr), (nth_error_nth _ _ _ Htr') in Ea. subst tr'. eapply prev_inj; eauto.
        - apply IH; auto. intros y Hy. apply Hi. right; auto. }
      apply Hinj; auto. apply incl_refl. }
    { intros q tr Hin. unfold moves in Hin. apply in_map_iff in Hin. destruct Hin as [[a c] [Ea Hin]]. simpl in Ea. injection Ea as <- <-.
      destruct (li_in _ _ _ _ _ _ _ _ H _ _ Hin) as [Ha _]. destruct (nth_error_ex prev a Ha) as [tr Htr]. unfold at_prev. rewrite (nth_error_nth _ _ _ Htr). eauto. }
    rewrite (li_tri _ _ _ _ _ _ _ _ H) in Ep. injection Ep as <-.
    assert (Hmv : forall q tr, In (q, tr) (moves prev f) <-> exists p, In (p, q) f /\ nth_error prev p = Some tr).
    { intros q tr. unfold moves. rewrite in_map_iff. split.
      - intros [[a c] [Ea Hin]]. simpl in Ea. injection Ea as <- <-. exists a. split; auto. destruct (li_in _ _ _ _ _ _ _ _ H _ _ Hin) as [Ha _].
        destruct (nth_error_ex prev a Ha) as [tr Htr]. unfold at_prev. rewrite (nth_error_nth _ _ _ Htr). auto.
      - intros [p [Hin Hp]]. exists (p, q). split; auto. simpl. unfold at_prev. rewrite (nth_error_nth _ _ _ Hp). auto. }
    match goal with |- _ /\ ?A /\ ?B => assert (HA : A); [|assert (HB : B); [|split; [apply extend_ok; auto|split; [exact HA|exact HB]]]] end.
    + intros tr T HT. destruct (Hpro tr T HT) as [P1 P2]. assert (Htl : tr < length tri) by (rewrite Hlen; eapply nth_error_lt; eauto).
      destruct (in_dec Nat.eq_dec tr (map snd (moves prev f))) as [Hin|Hnot].
      * left. apply in_map_snd in Hin. destruct Hin as [q Hin]. exists q. pose proof (proj1 (Hmv q tr) Hin) as [p [Hpq Hp]].
        destruct (Hold p q Hpq) as [tr' [H1 H2]]. split; [congruence|]. split; [rewrite nth_error_app1 by auto; apply P1, Hin|].
        destruct (prev_traj x p tr Hok Hp) as [T' [HT' Hf]]. congruence.
      * right. split; [|rewrite nth_error_app1 by auto; apply P2, Hnot]. intros q Hq. apply Hrow in Hq. destruct Hq as [Hq|[i [Hi Ei]]].
        -- apply Hnot. apply in_map_snd. exists q. apply Hmv. auto.
        -- lia.
    + intros tr T Hge HT. rewrite nth_error_app2 in HT by lia. apply nth_error_map_inv in HT. destruct HT as [q [Hq ->]]. exists q. split; auto.
      rewrite (Hr1 _ _ Hq). f_equal. lia.
    + intros q tr Hq. rewrite app_length, map_length. apply Hrow in Hq. destruct Hq as [[p [_ Hp]]|[i [Hi ->]]]; [apply Hprev in Hp; lia|].
      apply nth_error_lt in Hi. lia.
    + intros q q' tr Hq Hq'. apply Hrow in Hq. apply Hrow in Hq'. destruct Hq as [[p [Hf Hp]]|[i [Hi Ei]]], Hq' as [[p' [Hf' Hp']]|[j [Hj Ej]]].
      * assert (p' = p) by (eapply prev_inj; eauto). subst. assert (E2 : (p, q) = (p, q')) by (eapply (NoDup_map_inj fst); eauto). congruence.
      * apply Hprev in Hp. lia.
      * apply Hprev in Hp'. lia.
      * assert (i = j) by lia. congruence.
Qed.

(** * Second form *)
Lemma check_old_some tri n : forall old, (forall tr, In tr old -> tr < length tri) ->
  exists b, check_old tri n old = Some b /\ (b = true <-> forall tr T, In tr old -> nth_error tri tr = Some T -> n <= get_finish T).
Proof.
  induction old as [|tr old IH]; intros H.
  - exists true. split; auto. split; auto. intros _ tr T [].
  - destruct (nth_error_ex tri tr) as [T HT]; [apply H; left; auto|]. cbn [check_old]. rewrite HT.
    destruct (Nat.ltb_spec (get_finish T) n) as [Hlt|Hge].
    + exists false. split; auto. split; [discriminate|]. intros Hall. specialize (Hall tr T (or_introl eq_refl) HT). lia.
    + destruct IH as [b [E Hb]]; [intros; apply H; right; auto|]. exists b. split; auto. rewrite Hb. split.
      * intros Hall tr' T' [<-|Hin] HT'; [congruence|eauto].
      * intros Hall tr' T' Hin HT'. eapply Hall; eauto. right; auto.
Qed.

Lemma update_loop_ok nb : forall l p tri, NoDup l -> (forall tr, In tr l -> tr < length tri) ->
  exists tri', update_loop nb l p tri = Some tri' /\ length tri' = length tri /\
    forall tr T, nth_error tri tr = Some T ->
      (forall i, nth_error l i = Some tr -> nth_error tri' tr = Some (if tr <? nb then traj_push T (p + i) else update_last T (p + i))) /\
      (~ In tr l -> nth_error tri' tr = Some T).
Proof.
  induction l as [|a l IH]; intros p tri Hn Hl.
  - exists tri. split; auto. split; auto. intros tr T HT. split; auto. intros i Hi. destruct i; discriminate.
  - inversion Hn as [|? ? Ha Hl']; subst. cbn [update_loop]. unfold upd. destruct (nth_error_ex tri a) as [T0 HT0]; [apply Hl; left; auto|]. rewrite HT0.
    assert (Hal : a < length tri) by (apply Hl; left; auto).
    set (T1 := if a <? nb then traj_push T0 p else update_last T0 p).
    destruct (IH (S p) (set_nth a T1 tri) Hl') as [tri' [E [L H]]].
    { intros tr Htr. rewrite set_nth_len. apply Hl. right; auto. }
    exists tri'. split; auto. rewrite set_nth_len in L. split; auto. intros tr T HT.
    destruct (Nat.eq_dec tr a) as [->|Hne].
    + assert (T0 = T) by congruence. subst T0. destruct (H a T1) as [_ H2]; [rewrite set_nth_get, Nat.eqb_refl by auto; auto|]. split.
      * intros [|i] Hi; simpl in Hi; [rewrite Nat.add_0_r; apply H2; auto|]. exfalso. apply Ha. eapply nth_error_In; eauto.
      * intros Hno. exfalso. apply Hno. left; auto.
    + destruct (H tr T) as [H1 H2]; [rewrite set_nth_get by auto; destruct (Nat.eqb_spec tr a); [congruence|auto]|]. split.
      * intros [|i] Hi; simpl in Hi; [congruence|]. rewrite (H1 i Hi). replace (p + S i) with (S p + i) by lia. auto.
      * intros Hno. apply H2. intros Hin. apply Hno. right; auto.
Qed.

Lemma update_loop_undefined nb : forall l p tri, (exists tr, In tr l /\ length tri <= tr) -> update_loop nb l p tri = None.
Proof.
  induction l as [|a l IH]; intros p tri [tr [Hin Hle]]; [destruct Hin|]. cbn [update_loop]. unfold upd.
  destruct (nth_error tri a) as [T|] eqn:E; auto. apply IH. exists tr. rewrite set_nth_len. split; auto.
  destruct Hin as [->|Hin]; auto. apply nth_error_lt in E. lia.
Qed.

Lemma sort_unique_NoDup l : length (sort_unique l) = length l <-> NoDup l.
Proof.
  split.
  - intros H. apply NoDup_incl_NoDup with (l := sort_unique l); [apply ssorted_NoDup, sort_unique_sorted|lia|].
    intros x Hx. rewrite sort_unique_in in Hx. auto.
  - intros H. apply NoDup_length_ext; auto; [apply ssorted_NoDup, sort_unique_sorted|]. intros x. apply sort_unique_in.
Qed.
Lemma sort_unique_le l : length (sort_unique l) <= length l.
Proof. apply NoDup_incl_length; [apply ssorted_NoDup, sort_unique_sorted|]. intros x Hx. rewrite sort_unique_in in Hx. auto. Qed.

(** A strictly increasing list is an interval iff its extent is its length. *)
Lemma ssorted_last : forall l a, StronglySorted lt (a :: l) -> a + length l <= last (a :: l) 0.
Proof.
  induction l as [|b l IH]; intros a H; [simpl; lia|]. inversion H as [|? ? Hs Hf]; subst. inversion Hf; subst.
  change (last (a :: b :: l) 0) with (last (b :: l) 0). specialize (IH b Hs). simpl length in *. lia.
Qed.
Lemma ssorted_consecutive : forall l a, StronglySorted lt (a :: l) -> last (a :: l) 0 - a + 1 = length (a :: l) -> a :: l = seq a (length (a :: l)).
Proof.
  induction l as [|b l IH]; intros a H E; auto. inversion H as [|? ? Hs Hf]; subst. inversion Hf; subst.
  change (last (a :: b :: l) 0) with (last (b :: l) 0) in E. pose proof (ssorted_last l b Hs) as Hl. simpl length in *.
  assert (b = S a) by lia. subst b. simpl seq. f_equal. rewrite IH at 1; auto. simpl length. lia.
Qed.
Lemma seq_last : forall k a, last (seq a (S k)) 0 = a + k.
Proof. intros k a. rewrite seq_S, last_last. auto. Qed.

(** What add_Frame requires of the trajectory numbers. *)
Definition ids_good (x : tindex2) (l : list nat) : Prop :=
  NoDup l /\
  (forall tr, In tr l -> tr < length (tr2pos x) -> exists p, nth_error (last (pos2tr x) []) p = Some tr) /\
  (forall tr tr', In tr l -> length (tr2pos x) <= tr' < tr -> In tr' l).
Definition ids_gap (x : tindex2) (l : list nat) : Prop :=
  NoDup l /\
  (forall tr, In tr l -> tr < length (tr2pos x) -> exists p, nth_error (last (pos2tr x) []) p = Some tr) /\
  (forall a b tr, In a l -> In b l -> length (tr2pos x) <= a -> a < tr < b -> In tr l) /\
  (exists tr, In tr l /\ length (tr2pos x) <= tr) /\ ~ In (length (tr2pos x)) l.

Lemma removelast_single T p q : steps T = [q] -> update_last T p = mkTraj (start T) [p].
Proof. intros E. unfold update_last. rewrite E. auto. Qed.

Lemma add_ids_spec x l : t2_ok x -> 0 < length (tr2pos x) ->
  match add_frame_ids x l with
  | Val x' => ids_good x l /\ pos2tr x' = pos2tr x ++ [l] /\ t2_ok x' /\ length (tr2pos x) <= length (tr2pos x')
  | Throw => ~ ids_good x l /\ ~ ids_gap x l
  | UB => ids_gap x l
  end.
Proof.
  intros Hok Hnb. unfold add_frame_ids. set (nb := length (tr2pos x)) in *. set (input := sort_unique l).
  assert (Hin : forall tr, In tr input <-> In tr l) by (intros; apply sort_unique_in).
  assert (Hs : StronglySorted lt input) by apply sort_unique_sorted.
  destruct (Nat.ltb_spec (length input) (length l)) as [Hlt|Hge].
  { assert (Hnd : ~ NoDup l) by (intros H; apply sort_unique_NoDup in H; unfold input in Hlt; lia). split; intros [H _]; auto. }
  assert (Hnd : NoDup l) by (apply sort_unique_NoDup; pose proof (sort_unique_le l); unfold input in Hge; lia).
  assert ((nb =? 0) = false) as -> by (apply Nat.eqb_neq; lia).
  set (old := filter (fun tr => tr <? nb) input). set (new := filter (fun tr => negb (tr <? nb)) input).
  assert (Hold : forall tr, In tr old <-> In tr l /\ tr < nb) by (intros tr; unfold old; rewrite filter_In, Hin, Nat.ltb_lt; tauto).
  assert (Hnew : forall tr, In tr new <-> In tr l /\ nb <= tr) by (intros tr; unfold new; rewrite filter_In, Hin, negb_true_iff, Nat.ltb_ge; tauto).
  destruct (check_old_some (tr2pos x) (length (pos2tr x)) old) as [b [Eb Hb]]; [intros tr Htr; apply Hold in Htr; tauto|].
  rewrite Eb.
  assert (Hb' : b = true <-> forall tr, In tr l -> tr < nb -> exists p, nth_error (last (pos2tr x) []) p = Some tr).
  { rewrite Hb. split.
    - intros H tr Htr Hlt. destruct (nth_error_ex (tr2pos x) tr Hlt) as [T HT]. apply (finish_last x tr T Hok HT). eapply H; eauto. apply Hold; auto.
    - intros H tr T Htr HT. apply (finish_last x tr T Hok HT). apply Hold in Htr. apply H; tauto. }
  destruct b; cycle 1.
  { split; intros [_ [H _]]; apply Hb' in H; discriminate. }
  pose proof (proj1 Hb' eq_refl) as Hcont. clear Hb Hb' Eb.
  assert (Hns : StronglySorted lt new) by (apply filter_ssorted, Hs).
  destruct new as [|a new'] eqn:En.
  - (* no new trajectory *)
    cbn [map app]. rewrite app_nil_r.
    assert (Hlt : forall tr, In tr l -> tr < nb).
    { intros tr Htr. destruct (Nat.lt_ge_cases tr nb); auto. exfalso. apply (proj2 (Hnew tr)). auto. }
    destruct (update_loop_ok nb l 0 (tr2pos x) Hnd) as [tri' [E [L H]]]; [intros; apply Hlt; auto|]. rewrite E.
    split; [split; [auto|split; auto; intros tr tr' Htr Hr; apply Hlt in Htr; unfold nb in *; lia]|]. split; auto. split; [|simpl; lia].
    apply extend_ok; auto.
    + intros tr T HT. destruct (H tr T HT) as [H1 H2]. destruct (in_dec Nat.eq_dec tr l) as [Hi|Hno].
      * left. apply In_nth_error in Hi. destruct Hi as [q Hq]. exists q. split; auto. pose proof (H1 q Hq) as H3.
        assert ((tr <? nb) = true) as Etr by (apply Nat.ltb_lt, nth_error_lt with (1 := HT)). rewrite Etr in H3. split; auto.
        destruct (Hcont tr) as [p Hp]; [eapply nth_error_In; eauto|apply Nat.ltb_lt; auto|]. destruct (prev_traj x p tr Hok Hp) as [T' [HT' Hf]]. congruence.
      * right. split; auto. intros q Hq. apply Hno. eapply nth_error_In; eauto.
    + intros tr T Hge' HT. apply nth_error_lt in HT. unfold nb in *; lia.
    + intros q tr Hq. rewrite L. apply Hlt. eapply nth_error_In; eauto.
    + intros q q' tr Hq Hq'. apply (proj1 (NoDup_nth_error l) Hnd); [eapply nth_error_lt; eauto|congruence].
  - rewrite <- En in *. assert (Hal : In a l /\ nb <= a) by (apply Hnew; rewrite En; left; auto).
    destruct (Nat.eqb_spec (last new 0 - a + 1) (length new)) as [Hc|Hc]; cbn [negb].
    + assert (Hseq : new = seq a (length new)) by (rewrite En in *; apply ssorted_consecutive; auto).
      destruct (Nat.eq_dec a nb) as [->|Hne].
      * set (k := length new) in *.
        assert (Hlen : length (tr2pos x ++ map (fun _ => mkTraj (length (pos2tr x)) [0]) new) = nb + k) by (rewrite app_length, map_length; auto).
        destruct (update_loop_ok nb l 0 (tr2pos x ++ map (fun _ => mkTraj (length (pos2tr x)) [0]) new) Hnd) as [tri' [E [L H]]].
        { intros tr Htr. rewrite Hlen. destruct (Nat.lt_ge_cases tr nb); [lia|]. assert (Hi : In tr new) by (apply Hnew; auto).
          rewrite Hseq in Hi. apply in_seq in Hi. lia. }
        rewrite E. split; [split; [auto|split; auto]|].
        { intros tr tr' Htr Hr. assert (Hi : In tr new) by (apply Hnew; unfold nb in *; split; [auto|lia]). rewrite Hseq in Hi. apply in_seq in Hi.
          apply (proj1 (Hnew tr')). rewrite Hseq. apply in_seq. unfold nb in *. lia. }
        split; auto. rewrite Hlen in L. split; [|cbn [tr2pos]; unfold nb in *; lia]. apply extend_ok; auto.
        -- intros tr T HT. assert (Htl : tr < nb) by (eapply nth_error_lt; eauto).
           destruct (H tr T) as [H1 H2]; [rewrite nth_error_app1; auto|]. apply Nat.ltb_lt in Htl. rewrite Htl in H1.
           destruct (in_dec Nat.eq_dec tr l) as [Hi|Hno].
           ++ left. apply In_nth_error in Hi. destruct Hi as [q Hq]. exists q. split; auto. split; [apply H1, Hq|].
              destruct (Hcont tr) as [p Hp]; [eapply nth_error_In; eauto|apply Nat.ltb_lt; auto|]. destruct (prev_traj x p tr Hok Hp) as [T' [HT' Hf]]. congruence.
           ++ right. split; auto. intros q Hq. apply Hno. eapply nth_error_In; eauto.
        -- intros tr T Hge' HT. fold nb in Hge'. assert (Htr : tr < nb + k) by (apply nth_error_lt in HT; lia).
           assert (Hi : In tr new) by (rewrite Hseq; apply in_seq; lia). apply Hnew in Hi. destruct Hi as [Hi _].
           apply In_nth_error in Hi. destruct Hi as [q Hq]. exists q. split; auto.
           destruct (H tr (mkTraj (length (pos2tr x)) [0])) as [H1 _].
           { rewrite nth_error_app2 by auto. rewrite nth_error_map. destruct (nth_error_ex new (tr - nb)) as [y Hy]; [fold k; lia|]. fold nb. rewrite Hy. auto. }
           specialize (H1 q Hq). rewrite HT in H1. injection H1 as H1. apply Nat.ltb_ge in Hge'. rewrite Hge' in H1. exact H1.
        -- intros q tr Hq. rewrite L. destruct (Nat.lt_ge_cases tr nb); [lia|].
           assert (Hi : In tr new) by (apply Hnew; split; auto; eapply nth_error_In; eauto). rewrite Hseq in Hi. apply in_seq in Hi. lia.
        -- intros q q' tr Hq Hq'. apply (proj1 (NoDup_nth_error l) Hnd); [eapply nth_error_lt; eauto|congruence].
      * rewrite update_loop_undefined.
        -- split; auto. split; auto. split; [|split].
           ++ intros c d tr Hc' Hd Hca Hr. fold nb in Hca. assert (H1 : In c new) by (apply Hnew; auto). assert (H2 : In d new) by (apply Hnew; split; auto; lia).
              rewrite Hseq in H1, H2. apply in_seq in H1. apply in_seq in H2. apply (proj1 (Hnew tr)). rewrite Hseq. apply in_seq. lia.
           ++ exists a. fold nb. tauto.
           ++ fold nb. intros Hin'. assert (H1 : In nb new) by (apply Hnew; auto). rewrite Hseq in H1. apply in_seq in H1. lia.
        -- exists (a + length new - 1). rewrite app_length, map_length. fold nb. split; [|assert (0 < length new) by (rewrite En; simpl; lia); lia].
           apply (proj1 (Hnew _)). rewrite Hseq at 2. apply in_seq. assert (0 < length new) by (rewrite En; simpl; lia). lia.
    + assert (Hbad : ~ (forall tr tr', In tr l -> a <= tr' < tr -> In tr' l)).
      { intros Hall. apply Hc. assert (Hin_l : In (last new 0) new) by (rewrite En; apply (@exists_last _ (a :: new')) in En as [? [? ?]] || idtac; clear; generalize a; induction new' as [|c n' IH]; intros z; [left; auto|right; apply IH]).
        assert (Hi : new = seq a (S (last new 0) - a)).
        { apply ssorted_interval; auto. intros y. split.
          - intros Hy. split.
            + rewrite En in Hy, Hns. inversion Hns as [|? ? _ Hf]; subst. rewrite Forall_forall in Hf. destruct Hy as [->|Hy]; auto. apply Hf in Hy. lia.
            + assert (Hmax : forall m, StronglySorted lt m -> In y m -> y <= last m 0).
              { clear. induction m as [|z m IH]; intros Hs Hy; [destruct Hy|]. inversion Hs as [|? ? Hs' Hf]; subst. destruct Hy as [->|Hy].
                - destruct m; [simpl; auto|]. pose proof (ssorted_last (n :: m) y Hs). lia.
                - destruct m as [|w m]; [destruct Hy|]. change (last (z :: w :: m) 0) with (last (w :: m) 0). auto. }
              specialize (Hmax new Hns Hy). lia.
          - intros Hr. apply Hnew. split; [|lia]. apply Hnew in Hin_l. destruct (Nat.eq_dec y (last new 0)) as [->|]; [tauto|]. apply (Hall (last new 0)); [tauto|lia]. }
        rewrite Hi at 2. rewrite seq_length. pose proof (ssorted_last new' a) as Hla. rewrite <- En in Hla. specialize (Hla Hns). lia. }
      split; intros [_ [_ H]]; apply Hbad.
      * intros tr tr' Htr Hr. apply (H tr); auto. fold nb. lia.
      * intros tr tr' Htr Hr. destruct H as [H _]. destruct (Nat.eq_dec tr' a) as [->|]; [tauto|]. apply (H a tr); auto; [tauto|fold nb; tauto|lia].
Qed.

Lemma link_loop_undefined prev : forall bs fu tu row tri, (exists d p q, In (d, (p, q)) bs /\ length fu <= p) ->
  link_loop prev bs fu tu row tri = None.
Proof.
  induction bs as [|[d0 [p0 q0]] bs IH]; intros fu tu row tri [d [p [q [Hin Hle]]]]; [destruct Hin|]. cbn [link_loop].
  destruct (nth_error fu p0) as [b|] eqn:E; auto. destruct (nth_error tu q0); auto.
  assert (Hin' : In (d, (p, q)) bs) by (destruct Hin as [Hin|Hin]; auto; injection Hin as -> -> ->; apply nth_error_lt in E; lia).
  destruct (negb b && negb b0); [|apply IH; eauto 6]. destruct (nth_error prev p0); auto. destruct (upd _ _ _); auto.
  apply IH. exists d, p, q. rewrite set_nth_len. auto.
Qed.

Lemma add_links_throw x n d from to : length d <> length from \/ length from <> length to \/ (exists q, In q to /\ n <= q) ->
  add_frame_links x n d from to = Throw.
Proof.
  intros H. unfold add_frame_links. destruct (Nat.eqb_spec (length d) (length from)); cbn [negb orb]; auto.
  destruct (Nat.eqb_spec (length from) (length to)); cbn [negb]; auto. destruct H as [H|[H|[q [Hq Hle]]]]; try contradiction.
  assert (existsb (fun q => n <=? q) to = true) as ->; auto. apply existsb_exists. exists q. split; auto. apply Nat.leb_le; auto.
Qed.
Lemma add_links_undefined x n d from to : length d = length from -> length from = length to -> (forall q, In q to -> q < n) ->
  (exists p, In p from /\ length (last (pos2tr x) []) <= p) -> add_frame_links x n d from to = UB.
Proof.
  intros H1 H2 Hto [p [Hp Hle]]. unfold add_frame_links. rewrite H1, H2, !Nat.eqb_refl. cbn [negb orb].
  assert (existsb (fun q => n <=? q) to = false) as ->.
  { apply not_true_iff_false. rewrite existsb_exists. intros [q [Hq Hl]]. apply Hto in Hq. apply Nat.leb_le in Hl. lia. }
  rewrite link_loop_undefined; auto. apply In_nth_error in Hp. destruct Hp as [i Hi]. pose proof (nth_error_lt _ _ _ Hi) as Hil.
  destruct (nth_error_ex d i) as [dd Hd]; [lia|]. destruct (nth_error_ex to i) as [q Hq]; [lia|]. exists dd, p, q.
  rewrite repeat_length. split; auto. apply make_bonds_in; eauto.
Qed.

Lemma add_ids_zero x l : t2_ok x -> length (tr2pos x) = 0 -> l = [] -> exists x', add_frame_ids x l = Val x' /\ pos2tr x' = pos2tr x ++ [l] /\ t2_ok x'.
Proof.
  intros Hok H0 ->. unfold add_frame_ids. rewrite H0. simpl. eexists. split; [reflexivity|]. split; auto. rewrite app_nil_r.
  apply extend_ok; auto.
  - intros tr T HT. apply nth_error_lt in HT. lia.
  - intros tr T _ HT. apply nth_error_lt in HT. lia.
  - intros q tr Hq. destruct q; discriminate.
  - intros q q' tr Hq. destruct q; discriminate.
Qed.

Lemma step_ok x o : t2_ok x -> links_in_range x o ->
  match t2_step x o with
  | Val x' => t2_ok x' /\ exists row, pos2tr x' = pos2tr x ++ [row] /\
      match o with AddLinks n _ _ _ => length row = n | AddIds l => row = l end
  | Throw => True
  | UB => False
  end.
Proof.
  intros Hok Hr. destruct o as [n d from to|l]; cbn [t2_step links_in_range] in *.
  - destruct (Nat.eq_dec (length d) (length from)) as [H1|H1]; [|rewrite add_links_throw; auto].
    destruct (Nat.eq_dec (length from) (length to)) as [H2|H2]; [|rewrite add_links_throw; auto].
    destruct (existsb (fun q => n <=? q) to) eqn:E.
    { apply existsb_exists in E. destruct E as [q [Hq Hle]]. apply Nat.leb_le in Hle. rewrite add_links_throw; eauto. }
    destruct (add_links_spec x n d from to) as [row [tri [E' [Hl H]]]]; auto.
    { intros q Hq. apply Nat.nle_gt. intros Hle. apply Nat.leb_le in Hle. assert (Ht : existsb (fun q => n <=? q) to = true) by (apply existsb_exists; eauto). congruence. }
    rewrite E'. split; [apply H|]. exists row. auto.
  - destruct (Nat.eq_dec (length (tr2pos x)) 0) as [H0|Hne].
    + assert (l = []) by (destruct l as [|a l]; auto; destruct Hr as [Hr _]; [exists a; split; [left; auto|lia]|lia]).
      destruct (add_ids_zero x l Hok H0 H) as [x' [E [E' Hok']]]. rewrite E. split; auto. exists l. auto.
    + pose proof (add_ids_spec x l Hok) as H. destruct (add_frame_ids x l) as [x'| |]; auto.
      * destruct H as [_ [H1 [H2 _]]]; [lia|]. split; auto. exists l. auto.
      * destruct H as [_ [_ [_ [H1 H2]]]]; [lia|]. apply H2. apply Hr. auto.
Qed.
Lemma run_ok : forall ops x, t2_ok x -> history2_ok x ops -> exists x', t2_run x ops = Some x' /\ t2_ok x'.
Proof.
  induction ops as [|o ops IH]; intros x Hok Hh; simpl; [eauto|]. destruct Hh as [Hr Hh]. pose proof (step_ok x o Hok Hr) as H.
  destruct (t2_step x o) as [x'| |]; [apply IH; tauto|apply IH; auto|destruct H].
Qed.

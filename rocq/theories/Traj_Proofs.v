(** Proofs about lib/traj. *)
Require Import ZArith List Bool Arith Lia Sorted Permutation.
Require Import Verif.Base Verif.SortU Verif.RTree_Model Verif.ListX Verif.Traj_Model Verif.Traj_Spec.
Import ListNotations.

(** * Single trajectories *)
Lemma last_time_exact tr : steps tr <> [] -> (Z.of_nat (start tr + length (steps tr)) <= size_mod)%Z ->
  last_time tr = (Z.of_nat (start tr) + Z.of_nat (length (steps tr)) - 1)%Z.
Proof.
  intros Hne Hb. unfold last_time. apply Z.mod_small.
  assert (0 < length (steps tr)) by (destruct (steps tr); simpl; [congruence|lia]). lia.
Qed.

Definition small (tr : traj) : Prop := steps tr <> [] /\ (Z.of_nat (start tr + length (steps tr)) <= size_mod)%Z.

Lemma exist_at_iff tr t : small tr -> exist_at tr t = true <-> start tr <= t < start tr + length (steps tr).
Proof.
  intros [Hne Hb]. unfold exist_at. rewrite last_time_exact by auto.
  destruct (Nat.ltb_spec t (start tr)); simpl; [split; [discriminate|lia]|].
  destruct (Z.ltb_spec (Z.of_nat (start tr) + Z.of_nat (length (steps tr)) - 1) (Z.of_nat t)); split; try discriminate; try lia; auto.
Qed.

Lemma at_time_range T t p : at_time T t p -> start T <= t < start T + length (steps T).
Proof. intros [k [-> Hk]]. apply nth_error_lt in Hk. lia. Qed.
Lemma at_time_ex T t : start T <= t < start T + length (steps T) -> exists p, at_time T t p.
Proof.
  intros H. destruct (nth_error_ex (steps T) (t - start T)) as [p Hp]; [lia|].
  exists p, (t - start T). split; [lia|auto].
Qed.
Lemma at_time_fun T t p q : at_time T t p -> at_time T t q -> p = q.
Proof. intros [k [-> Hk]] [k' [E Hk']]. assert (k' = k) as -> by lia. congruence. Qed.

Lemma access_val tr t p : small tr -> access tr t = Val p <-> at_time tr t p.
Proof.
  intros Hs. unfold access. destruct (exist_at tr t) eqn:E.
  - apply exist_at_iff in E; auto. destruct (nth_error_ex (steps tr) (t - start tr)) as [q Hq]; [lia|].
    rewrite Hq. split.
    + intros H. injection H as <-. exists (t - start tr). split; [lia|auto].
    + intros [k [-> Hk]]. replace (start tr + k - start tr) with k in Hq by lia. congruence.
  - split; [discriminate|]. intros H. apply at_time_range in H. apply (exist_at_iff tr t Hs) in H. congruence.
Qed.
Lemma access_not_UB tr t : small tr -> access tr t <> UB.
Proof.
  intros Hs. unfold access. destruct (exist_at tr t) eqn:E; [|discriminate].
  apply exist_at_iff in E; auto. destruct (nth_error_ex (steps tr) (t - start tr)) as [q Hq]; [lia|].
  rewrite Hq. discriminate.
Qed.

Lemma sub_steps_ok tr : small tr -> forall n t0, start tr <= t0 -> t0 + n <= start tr + length (steps tr) ->
  sub_steps tr (seq t0 n) = Val (firstn n (skipn (t0 - start tr) (steps tr))).
Proof.
  intros Hs. induction n as [|n IH]; intros t0 H0 H1; auto. simpl seq. cbn [sub_steps].
  destruct (nth_error_ex (steps tr) (t0 - start tr)) as [p Hp]; [lia|].
  assert (access tr t0 = Val p) as ->. { apply access_val; auto. exists (t0 - start tr). split; [lia|auto]. }
  rewrite IH by lia. f_equal. replace (S t0 - start tr) with (S (t0 - start tr)) by lia.
  clear - Hp. revert Hp. generalize (t0 - start tr) (steps tr). intros k.
  induction k as [|k IH]; intros [|x l] H; simpl in *; try discriminate.
  - injection H as ->. reflexivity.
  - apply IH in H. exact H.
Qed.
Lemma sub_steps_throw tr : small tr -> forall n t0, (exists t, t0 <= t < t0 + n /\ exist_at tr t = false) ->
  sub_steps tr (seq t0 n) = Throw.
Proof.
  intros Hs. induction n as [|n IH]; intros t0 [t [Ht He]]; [lia|]. simpl seq. cbn [sub_steps].
  destruct (access tr t0) as [p| |] eqn:E; auto.
  - rewrite IH; auto. exists t. split; auto. destruct (Nat.eq_dec t t0) as [->|]; [|lia].
    unfold access in E. rewrite He in E. discriminate.
  - exfalso. eapply access_not_UB; eauto.
Qed.

(** * Frames *)
Definition conflict (x l : link) : Prop := fst x = fst l \/ snd x = snd l.
Definition good (f : frame) : Prop := NoDup (map fst f) /\ NoDup (map snd f).

Lemma conflictb f l : existsb (fun x => (fst x =? fst l) || (snd x =? snd l)) f = true <-> exists x, In x f /\ conflict x l.
Proof.
  rewrite existsb_exists. unfold conflict. split; intros [x [Hx H]]; exists x; split; auto.
  - apply orb_true_iff in H. rewrite !Nat.eqb_eq in H. auto.
  - apply orb_true_iff. rewrite !Nat.eqb_eq. auto.
Qed.

Lemma frame_insert_cases l f :
  (frame_insert l f = f /\ exists x, In x f /\ conflict x l) \/
  (frame_insert l f = f ++ [l] /\ forall x, In x f -> ~ conflict x l).
Proof.
  unfold frame_insert. destruct (existsb (fun x => (fst x =? fst l) || (snd x =? snd l)) f) eqn:E.
  - left. split; auto. apply conflictb, E.
  - right. split; auto. intros x Hx Hc.
    assert (existsb (fun x => (fst x =? fst l) || (snd x =? snd l)) f = true) by (apply conflictb; eauto). congruence.
Qed.

Lemma NoDup_snoc {A} (l : list A) x : NoDup l -> ~ In x l -> NoDup (l ++ [x]).
Proof. intros H Hx.
  apply Permutation_NoDup with (l := x :: l); [apply Permutation_cons_append|constructor; auto]. Qed.

Lemma frame_insert_good l f : good f -> good (frame_insert l f).
Proof.
  intros [H1 H2]. destruct (frame_insert_cases l f) as [[-> _]|[-> H]]; [split; auto|].
  split; rewrite map_app; simpl; apply NoDup_snoc; auto; intros Hin; apply in_map_iff in Hin;
    destruct Hin as [x [E Hx]]; apply (H x Hx); [left|right]; auto.
Qed.
Lemma frame_insert_incl l f x : In x f -> In x (frame_insert l f).
Proof. intros H. destruct (frame_insert_cases l f) as [[-> _]|[-> _]]; auto. apply in_or_app; auto. Qed.
Lemma frame_insert_in l f x : In x (frame_insert l f) -> In x f \/ x = l.
Proof.
  destruct (frame_insert_cases l f) as [[-> _]|[-> _]]; auto. intros H. apply in_app_or in H. destruct H as [|[->|[]]]; auto.
Qed.
Lemma frame_insert_hit l f : exists x, In x (frame_insert l f) /\ conflict x l /\ (In x f \/ x = l).
Proof.
  destruct (frame_insert_cases l f) as [[-> [x [Hx Hc]]]|[-> _]]; [exists x; auto|].
  exists l. split; [apply in_or_app; simpl; auto|]. split; [left; auto|auto].
Qed.

(** Links are inserted greedily. *)
Section Greedy.
  Let go (ls : list (Z * link)) f := fold_left (fun f l => frame_insert (snd l) f) ls f.
  Lemma go_good : forall ls f, good f -> good (go ls f).
  Proof. induction ls as [|l ls IH]; intros f H; simpl; auto. apply IH, frame_insert_good, H. Qed.
  Lemma go_incl x : forall ls f, In x f -> In x (go ls f).
  Proof. induction ls as [|l ls IH]; intros f H; simpl; auto. apply IH, frame_insert_incl, H. Qed.
  Lemma go_in x : forall ls f, In x (go ls f) -> In x f \/ In x (map snd ls).
  Proof.
    induction ls as [|l ls IH]; intros f H; simpl in *; auto. apply IH in H. destruct H as [H|H]; auto.
    apply frame_insert_in in H. destruct H; auto.
  Qed.
  Lemma go_greedy (pre : list (Z * link)) : forall ls f,
    (forall x, In x f -> exists d, In (d, x) pre) ->
    StronglySorted (fun x y => (fst x <= fst y)%Z) (pre ++ ls) ->
    forall d l, In (d, l) ls -> exists d' l', In l' (go ls f) /\ conflict l' l /\ (d' <= d)%Z /\ In (d', l') (pre ++ ls).
  Proof.
    intros ls. revert pre. induction ls as [|a ls IH]; intros pre f Hf Hs d l [].
    - subst a. simpl. destruct (frame_insert_hit l f) as [x [Hx [Hc Hor]]].
      destruct Hor as [Hin| ->].
      + destruct (Hf x Hin) as [d' Hd']. exists d', x. split; [apply go_incl, Hx|]. split; auto. split.
        * clear - Hs Hd'. induction pre as [|b pre IHp]; [destruct Hd'|]. simpl in Hs.
          inversion Hs as [|? ? Hs' Hf']; subst. destruct Hd' as [->|Hd']; auto.
          rewrite Forall_forall in Hf'. apply (Hf' (d, l)). apply in_or_app. right. left; auto.
        * apply in_or_app; auto.
      + exists d, l. split; [apply go_incl, Hx|]. split; auto. split; [lia|]. apply in_or_app. right. left; auto.
    - simpl. replace (pre ++ a :: ls) with ((pre ++ [a]) ++ ls) in * by (rewrite <- app_assoc; auto).
      apply IH; auto. intros x Hx. apply frame_insert_in in Hx. destruct Hx as [Hx| ->].
      + destruct (Hf x Hx) as [d' Hd']. exists d'. apply in_or_app; auto.
      + exists (fst a). apply in_or_app. right. left. destruct a; auto.
  Qed.
End Greedy.

Lemma good_nil : good []. Proof. split; constructor. Qed.

Lemma insert_links_good ls : good (insert_links ls).
Proof. apply go_good, good_nil. Qed.
Lemma insert_links_in ls x : In x (insert_links ls) -> exists d, In (d, x) ls.
Proof.
  intros H. apply go_in in H. destruct H as [[]|H]. apply in_map_iff in H. destruct H as [[d y] [E H]].
  simpl in E. subst. eauto.
Qed.
Lemma insert_links_greedy ls d l : In (d, l) ls ->
  exists d' l', In l' (insert_links (sort_links ls)) /\ conflict l' l /\ (d' <= d)%Z /\ In (d', l') ls.
Proof.
  intros H. destruct (go_greedy [] (sort_links ls) []) with (d := d) (l := l) as [d' [l' [H1 [H2 [H3 H4]]]]].
  - intros x [].
  - apply sort_Z_sorted.
  - apply sort_by_in, H.
  - exists d', l'. simpl in H4. apply sort_by_in in H4. auto.
Qed.

Lemma by_pos_in f l : In l (by_pos f) <-> In l f.
Proof. apply sort_by_in. Qed.
Lemma by_traj_in f l : In l (by_traj f) <-> In l f.
Proof. apply sort_by_in. Qed.
Lemma sort_links_in ls l : In l (sort_links ls) <-> In l ls.
Proof. apply sort_by_in. Qed.

(** New trajectories. *)
Lemma start_new_spec linked : forall ps f nb,
  (forall p tr, In (p, tr) f -> tr < nb) ->
  (forall p, In p ps -> linked p = false -> ~ In p (map fst f)) -> NoDup ps ->
  let un := filter (fun p => negb (linked p)) ps in
  start_new ps linked f nb = (f ++ combine un (seq nb (length un)), nb + length un).
Proof.
  induction ps as [|p ps IH]; intros f nb Hnb Hl Hn un; simpl in un; cbn [start_new].
  - simpl. rewrite app_nil_r, Nat.add_0_r. reflexivity.
  - inversion Hn as [|? ? Hp Hps]; subst. destruct (linked p) eqn:E; unfold un; cbn [negb].
    + apply IH; auto. intros q Hq. apply Hl. right; auto.
    + assert (frame_insert (p, nb) f = f ++ [(p, nb)]) as ->.
      { destruct (frame_insert_cases (p, nb) f) as [[_ [x [Hx [Hc|Hc]]]]|[-> _]]; auto; simpl in Hc.
        - exfalso. apply (Hl p); [left; auto|auto|]. rewrite <- Hc. apply in_map, Hx.
        - destruct x as [a b]; simpl in Hc; subst. apply Hnb in Hx. lia. }
      rewrite IH.
      * simpl. rewrite <- app_assoc. simpl. f_equal. lia.
      * intros q tr Hin. apply in_app_or in Hin. destruct Hin as [Hin|[Hin|[]]].
        -- apply Hnb in Hin. lia.
        -- injection Hin as <- <-. lia.
      * intros q Hq Eq Hin. rewrite map_app in Hin. apply in_app_or in Hin. destruct Hin as [Hin|[Hin|[]]].
        -- apply (Hl q); auto. right; auto.
        -- simpl in Hin. subst. auto.
      * auto.
Qed.

Lemma gather_links_ok fol : forall ps, (forall l, In l ps -> fst l < length fol) ->
  exists ls, gather_links fol ps = Some ls /\
    forall d p tr, In (d, (p, tr)) ls <-> exists q m, In (q, tr) ps /\ nth_error fol q = Some m /\ In (d, p) m.
Proof.
  induction ps as [|[q tr] ps IH]; intros H.
  - exists []. split; auto. intros d p tr. split; [intros []|intros [q [m [[] _]]]].
  - destruct IH as [ls [El Hls]]; [intros l Hl; apply H; right; auto|].
    destruct (nth_error_ex fol q) as [m Hm]; [apply (H (q, tr)); left; auto|].
    cbn [gather_links]. rewrite Hm, El. eexists. split; [reflexivity|]. intros d p tr'. rewrite in_app_iff, Hls, in_map_iff. split.
    + intros [[[d' p'] [E Hin]]|[q' [m' [H1 H2]]]].
      * simpl in E. injection E as <- <- <-. exists q, m. split; [left; auto|auto].
      * exists q', m'. split; [right; auto|auto].
    + intros [q' [m' [[E|H1] [H2 H3]]]].
      * injection E as <- <-. left. exists (d, p). rewrite Hm in H2. injection H2 as <-. auto.
      * right. exists q', m'. auto.
Qed.

(** * Steps of a history *)
Record step (fol : list folmap) (g : frame) (nb : nat) (n : nat) (f : frame) (nb' : nat) : Prop := {
  st_good : good f;
  st_pos : forall p, p < n <-> In p (map fst f);
  st_old : forall p tr, In (p, tr) f -> tr < nb -> exists d, candidate fol g d p tr;
  st_greedy : forall d p tr, candidate fol g d p tr ->
    exists d' p' tr', In (p', tr') f /\ (p' = p \/ tr' = tr) /\ (d' <= d)%Z /\ candidate fol g d' p' tr';
  st_ub : forall p tr, In (p, tr) f -> tr < nb';
  st_le : nb <= nb';
  st_new : forall tr, nb <= tr < nb' -> In tr (map snd f);
  st_mono : forall p tr p' tr', In (p, tr) f -> In (p', tr') f -> nb <= tr -> tr < tr' -> p < p' }.

Lemma in_map_fst {A B} (l : list (A * B)) p : In p (map fst l) <-> exists tr, In (p, tr) l.
Proof.
  rewrite in_map_iff. split; [intros [[a b] [E H]]; simpl in E; subst; eauto | intros [tr H]; exists (p, tr); auto].
Qed.
Lemma in_map_snd {A B} (l : list (A * B)) tr : In tr (map snd l) <-> exists p, In (p, tr) l.
Proof.
  rewrite in_map_iff. split; [intros [[a b] [E H]]; simpl in E; subst; eauto | intros [p H]; exists (p, tr); auto].
Qed.

Lemma combine_nth_error {A B} : forall (l : list A) (l' : list B) i x y,
  nth_error (combine l l') i = Some (x, y) <-> nth_error l i = Some x /\ nth_error l' i = Some y.
Proof.
  induction l as [|a l IH]; intros [|b l'] [|i] x y; simpl; split; try (intros [? ?]; discriminate); try discriminate; intros H.
  - injection H as <- <-. auto.
  - destruct H as [H1 H2]. congruence.
  - apply IH, H.
  - apply IH, H.
Qed.

Lemma map_fst_combine {A B} : forall (l : list A) (l' : list B), length l = length l' -> map fst (combine l l') = l.
Proof. induction l as [|a l IH]; intros [|b l'] H; simpl in *; try discriminate; auto. f_equal. apply IH. lia. Qed.
Lemma map_snd_combine {A B} : forall (l : list A) (l' : list B), length l = length l' -> map snd (combine l l') = l'.
Proof. induction l as [|a l IH]; intros [|b l'] H; simpl in *; try discriminate; auto. f_equal. apply IH. lia. Qed.

Lemma NoDup_app_x {A} (l1 l2 : list A) : NoDup l1 -> NoDup l2 -> (forall x, In x l1 -> ~ In x l2) -> NoDup (l1 ++ l2).
Proof.
  induction l1 as [|a l1 IH]; intros H1 H2 H; simpl; auto. inversion H1; subst. constructor.
  - intros Hin. apply in_app_or in Hin. destruct Hin; auto. apply (H a); simpl; auto.
  - apply IH; auto. intros x Hx. apply H. right; auto.
Qed.

Lemma push_step tm fol n : 
  (forall p tr, In (p, tr) (last (frames tm) []) -> p < length fol /\ tr < nb_traj tm) ->
  Forall (Forall (fun df => snd df < n)) fol ->
  exists f nb', trajmap_push tm fol n = Some (mkMap (frames tm ++ [f]) nb') /\
    step fol (last (frames tm) []) (nb_traj tm) n f nb'.
Proof.
  intros Hlast Hfol. unfold trajmap_push. set (g := last (frames tm) []) in *.
  destruct (gather_links_ok fol (by_pos g)) as [ls [El Hls]].
  { intros [q tr] Hl. rewrite by_pos_in in Hl. apply (Hlast _ _ Hl). }
  assert (Hcand : forall d p tr, In (d, (p, tr)) ls <-> candidate fol g d p tr).
  { intros d p tr. rewrite Hls. unfold candidate. split; intros [q [m [H1 H2]]]; exists q, m; split; auto; rewrite by_pos_in in *; auto. }
  rewrite El. set (f := insert_links (sort_links ls)).
  assert (Hgood : good f) by apply insert_links_good.
  assert (Hin : forall p tr, In (p, tr) f -> exists d, candidate fol g d p tr).
  { intros p tr H. apply insert_links_in in H. destruct H as [d H]. rewrite sort_links_in in H. exists d. apply Hcand, H. }
  assert (Hbound : forall p tr, In (p, tr) f -> p < n /\ tr < nb_traj tm).
  { intros p tr H. destruct (Hin p tr H) as [d [q [m [Hq [Hm Hd]]]]]. split.
    - rewrite Forall_forall in Hfol. specialize (Hfol m (nth_error_In _ _ Hm)). rewrite Forall_forall in Hfol. apply (Hfol _ Hd).
    - apply Hlast in Hq. tauto. }
  assert (forallb (fun l => fst l <? n) f = true) as ->.
  { apply forallb_forall. intros [p tr] H. apply Nat.ltb_lt. apply Hbound in H. tauto. }
  set (linked := fun p => existsb (fun l => fst l =? p) f).
  assert (Hlinked : forall p, linked p = true <-> In p (map fst f)).
  { intros p. unfold linked. rewrite existsb_exists, in_map_iff. split; intros [x [H1 H2]]; exists x; rewrite Nat.eqb_eq in *; auto. }
  rewrite start_new_spec; cycle 1.
  { intros p tr H. apply Hbound in H. tauto. }
  { intros p _ Hp Hi. apply Hlinked in Hi. congruence. }
  { apply seq_NoDup. }
  set (un := filter (fun p => negb (linked p)) (seq 0 n)).
  assert (Hun : forall p, In p un <-> p < n /\ ~ In p (map fst f)).
  { intros p. unfold un. rewrite filter_In, in_seq, negb_true_iff, <- Hlinked. destruct (linked p); split; intros [? ?]; split; auto; try lia; congruence. }
  assert (Hlen : length un = length (seq (nb_traj tm) (length un))) by (rewrite seq_length; auto).
  exists (f ++ combine un (seq (nb_traj tm) (length un))), (nb_traj tm + length un). split; auto. constructor.
  - destruct Hgood as [G1 G2]. split; rewrite map_app, ?map_fst_combine, ?map_snd_combine by auto; apply NoDup_app_x; auto.
    + apply NoDup_filter, seq_NoDup.
    + intros p Hp Hq. apply Hun in Hq. tauto.
    + apply seq_NoDup.
    + intros tr Htr Hs. apply in_seq in Hs. apply in_map_snd in Htr. destruct Htr as [p Hp]. apply Hbound in Hp. lia.
  - intros p. rewrite map_app, map_fst_combine, in_app_iff, Hun by auto. split.
    + intros Hp. destruct (in_dec Nat.eq_dec p (map fst f)); auto.
    + intros [H|H]; [|tauto]. apply in_map_fst in H. destruct H as [tr H]. apply Hbound in H. tauto.
  - intros p tr H Htr. apply in_app_or in H. destruct H as [H|H]; [apply Hin, H|].
    apply in_combine_r in H. apply in_seq in H. lia.
  - intros d p tr Hc. apply Hcand in Hc. apply insert_links_greedy in Hc.
    destruct Hc as [d' [[p' tr'] [H1 [H2 [H3 H4]]]]]. exists d', p', tr'. split; [apply in_or_app; left; exact H1|].
    split; [destruct H2 as [H2|H2]; simpl in H2; auto|]. split; auto. apply Hcand, H4.
  - intros p tr H. apply in_app_or in H. destruct H as [H|H].
    + apply Hbound in H. lia.
    + apply in_combine_r in H. apply in_seq in H. lia.
  - lia.
  - intros tr Htr. rewrite map_app, map_snd_combine by auto. apply in_or_app. right. apply in_seq. lia.
  - assert (Hnew : forall p tr, In (p, tr) (f ++ combine un (seq (nb_traj tm) (length un))) -> nb_traj tm <= tr -> nth_error un (tr - nb_traj tm) = Some p).
    { intros p tr H Htr. apply in_app_or in H. destruct H as [H|H]; [apply Hbound in H; lia|].
      apply In_nth_error in H. destruct H as [i Hi]. apply combine_nth_error in Hi. destruct Hi as [Hi1 Hi2].
      assert (i < length un) by (eapply nth_error_lt; eauto). rewrite nth_error_seq in Hi2 by auto. injection Hi2 as <-.
      replace (nb_traj tm + i - nb_traj tm) with i by lia. auto. }
    intros p tr p' tr' H H' Hnb Hlt. apply (ssorted_nth un (tr - nb_traj tm) (tr' - nb_traj tm)).
    + apply filter_ssorted, seq_ssorted.
    + lia.
    + apply Hnew; auto.
    + apply Hnew; auto. lia.
Qed.

(** Abstract histories: the first frame is the identity, each other is a [step] from its predecessor. *)
Inductive hist : list frame -> nat -> list (list folmap * nat) -> nat -> Prop :=
| hist_first f n : good f -> (forall p tr, In (p, tr) f <-> p = tr /\ p < n) -> hist [f] n [] n
| hist_next fs nb h n g fol m f nb' :
    hist fs nb h n -> last fs [] = g -> step fol g nb m f nb' -> hist (fs ++ [f]) nb' (h ++ [(fol, m)]) m.

Lemma identity_frame : forall n s f, good f -> (forall x, In x f -> snd x < s) -> (forall x, In x f -> fst x < s) ->
  fold_left (fun f i => frame_insert (i, i) f) (seq s n) f = f ++ map (fun i => (i, i)) (seq s n).
Proof.
  induction n as [|n IH]; intros s f Hg H1 H2; simpl; [rewrite app_nil_r; auto|].
  assert (E : frame_insert (s, s) f = f ++ [(s, s)]).
  { destruct (frame_insert_cases (s, s) f) as [[_ [x [Hx [Hc|Hc]]]]|[-> _]]; auto; simpl in Hc.
    - apply H2 in Hx. lia.
    - apply H1 in Hx. lia. }
  rewrite E. rewrite IH.
  - rewrite <- app_assoc. reflexivity.
  - rewrite <- E. apply frame_insert_good, Hg.
  - intros x Hx. apply in_app_or in Hx. destruct Hx as [Hx|[<-|[]]]; [apply H1 in Hx|simpl]; lia.
  - intros x Hx. apply in_app_or in Hx. destruct Hx as [Hx|[<-|[]]]; [apply H2 in Hx|simpl]; lia.
Qed.

Lemma hist_init n : hist (frames (trajmap_new n)) (nb_traj (trajmap_new n)) [] n.
Proof.
  unfold trajmap_new. cbn [frames nb_traj]. rewrite identity_frame; try (intros x []); [|apply good_nil].
  simpl app. constructor.
  - split; rewrite map_map; simpl; rewrite map_id; apply seq_NoDup.
  - intros p tr. rewrite in_map_iff. split.
    + intros [i [E Hi]]. injection E as <- <-. apply in_seq in Hi. split; [auto|lia].
    + intros [<- Hp]. exists p. split; auto. apply in_seq. lia.
Qed.

Lemma hist_last fs nb h n : hist fs nb h n -> fs <> [] /\ good (last fs []) /\
  (forall p, p < n <-> In p (map fst (last fs []))) /\ (forall p tr, In (p, tr) (last fs []) -> tr < nb).
Proof.
  destruct 1 as [f n Hg H|fs nb h n g fol m f nb' _ _ Hs].
  - simpl. split; [discriminate|]. split; auto. split.
    + intros p. rewrite in_map_fst. split; [intros Hp; exists p; apply H; auto|intros [tr Hp]; apply H in Hp; tauto].
    + intros p tr Hp. apply H in Hp. lia.
  - rewrite last_last. split; [destruct fs; discriminate|]. split; [apply Hs|]. split; [apply Hs|apply Hs].
Qed.

Lemma run_hist : forall h tm n h0, hist (frames tm) (nb_traj tm) h0 n -> history_ok n h ->
  exists tm', trajmap_run tm h = Some tm' /\ hist (frames tm') (nb_traj tm') (h0 ++ h) (last (map snd h) n).
Proof.
  induction h as [|[fol m] h IH]; intros tm n h0 Hh Hok.
  - exists tm. split; auto. rewrite app_nil_r. exact Hh.
  - destruct Hok as [Hlen [Hfol Hok]]. destruct (hist_last _ _ _ _ Hh) as [_ [_ [Hpos Hub]]].
    destruct (push_step tm fol m) as [f [nb' [E Hs]]]; auto.
    { intros p tr Hp. split; [|apply (Hub _ _ Hp)]. apply Nat.lt_le_trans with n; auto. apply Hpos, in_map_fst. eauto. }
    cbn [trajmap_run]. rewrite E.
    destruct (IH (mkMap (frames tm ++ [f]) nb') m (h0 ++ [(fol, m)])) as [tm' [E' H']]; auto.
    { cbn [frames nb_traj]. econstructor; eauto. }
    exists tm'. split; auto. rewrite <- app_assoc in H'. simpl app in H'.
    cbn [map]. rewrite last_cons. exact H'.
Qed.

Lemma run_hist_new n h : history_ok n h -> exists tm, trajmap_run (trajmap_new n) h = Some tm /\
  hist (frames tm) (nb_traj tm) h (last (map snd h) n).
Proof. intros H. apply (run_hist h (trajmap_new n) n []); auto. apply hist_init. Qed.

(** Presence in a list of frames. *)
Definition pres (fs : list frame) (t tr : nat) : Prop := exists f p, nth_error fs t = Some f /\ In (p, tr) f.

Lemma pres_snoc fs f t tr : pres (fs ++ [f]) t tr <-> (t < length fs /\ pres fs t tr) \/ (t = length fs /\ In tr (map snd f)).
Proof.
  unfold pres. split.
  - intros [f' [p [E Hp]]]. rewrite nth_error_snoc in E. destruct (Nat.eqb_spec t (length fs)).
    + injection E as <-. right. split; auto. apply in_map_snd. eauto.
    + left. split; eauto. eapply nth_error_lt; eauto.
  - intros [[Ht [f' [p [E Hp]]]]|[-> H]].
    + exists f', p. split; auto. rewrite nth_error_app1; auto.
    + apply in_map_snd in H. destruct H as [p Hp]. exists f, p. split; auto. rewrite nth_error_snoc, Nat.eqb_refl. auto.
Qed.
Lemma pres_lt fs t tr : pres fs t tr -> t < length fs.
Proof. intros [f [p [E _]]]. eapply nth_error_lt; eauto. Qed.

Lemma last_nth_error {A} (l : list A) d : l <> [] -> nth_error l (length l - 1) = Some (last l d).
Proof.
  intros H. destruct (exists_last H) as [l' [x ->]]. rewrite last_last, app_length. simpl.
  rewrite nth_error_snoc. replace (length l' + 1 - 1) with (length l') by lia. rewrite Nat.eqb_refl. auto.
Qed.
Lemma pres_last fs tr : fs <> [] -> pres fs (length fs - 1) tr <-> In tr (map snd (last fs [])).
Proof.
  intros H. unfold pres. rewrite (last_nth_error fs [] H), in_map_snd. split.
  - intros [f [p [E Hp]]]. injection E as <-. eauto.
  - intros [p Hp]. eauto.
Qed.

Record facts (fs : list frame) (nb : nat) : Prop := {
  fa_good : forall t f, nth_error fs t = Some f -> good f /\ forall p, p < length f <-> In p (map fst f);
  fa_ub : forall t tr, pres fs t tr -> tr < nb;
  fa_all : forall tr, tr < nb -> exists t, pres fs t tr;
  fa_contig : forall t1 t t2 tr, pres fs t1 tr -> pres fs t2 tr -> t1 <= t <= t2 -> pres fs t tr;
  fa_order : forall t tr tr', pres fs t tr -> tr' < tr -> exists t', t' <= t /\ pres fs t' tr';
  fa_mono : forall t f p tr p' tr', nth_error fs t = Some f -> In (p, tr) f -> In (p', tr') f ->
     (forall t', t' < t -> ~ pres fs t' tr) -> tr < tr' -> p < p' }.

Lemma good_full f n : good f -> (forall p, p < n <-> In p (map fst f)) -> length f = n.
Proof.
  intros [H _] Hp. rewrite <- (map_length fst f), <- (seq_length n 0). apply NoDup_length_ext; auto; [apply seq_NoDup|].
  intros p. rewrite <- Hp, in_seq. lia.
Qed.

Lemma hist_facts fs nb h n : hist fs nb h n -> facts fs nb.
Proof.
  induction 1 as [f n Hg H|fs nb h n g fol m f nb' Hh IH Hl Hs].
  - assert (Hpos : forall p, p < n <-> In p (map fst f)).
    { intros p. rewrite in_map_fst. split; [intros Hp; exists p; apply H; auto|intros [tr Hp]; apply H in Hp; tauto]. }
    assert (Hp0 : forall t tr, pres [f] t tr -> t = 0 /\ tr < n).
    { intros t tr [f' [p [E Hp]]]. destruct t as [|[|t]]; simpl in E; try discriminate. injection E as <-. split; auto. apply H in Hp. lia. }
    assert (Hp1 : forall tr, tr < n -> pres [f] 0 tr).
    { intros tr Htr. exists f, tr. split; auto. apply H. auto. }
    constructor.
    + intros t f' E. destruct t as [|[|t]]; simpl in E; try discriminate. injection E as <-. split; auto.
      rewrite (good_full f n); auto.
    + intros t tr Hp. apply Hp0 in Hp. tauto.
    + eauto.
    + intros t1 t t2 tr Hp1' Hp2 Ht. apply Hp0 in Hp1'. apply Hp0 in Hp2. assert (t = 0) as -> by lia. apply Hp1. tauto.
    + intros t tr tr' Hp Hlt. apply Hp0 in Hp. exists 0. split; [lia|]. apply Hp1. lia.
    + intros t f' p tr p' tr' E H1 H2 _ Hlt. destruct t as [|[|t]]; simpl in E; try discriminate. injection E as <-.
      apply H in H1. apply H in H2. lia.
  - destruct (hist_last _ _ _ _ Hh) as [Hne [Hgl [Hpl Hul]]]. rewrite Hl in *.
    assert (Hprev : forall tr, In tr (map snd f) -> tr < nb -> pres fs (length fs - 1) tr).
    { intros tr Hin Htr. apply pres_last; auto. rewrite Hl. apply in_map_snd in Hin. destruct Hin as [p Hp].
      destruct (st_old _ _ _ _ _ _ Hs p tr Hp Htr) as [d [q [k [Hq _]]]]. apply in_map_snd. eauto. }
    constructor.
    + intros t f' E. rewrite nth_error_snoc in E. destruct (t =? length fs).
      * injection E as <-. split; [apply Hs|]. rewrite (good_full f m); [|apply Hs|apply Hs]. apply Hs.
      * apply (fa_good _ _ IH _ _ E).
    + intros t tr Hp. apply pres_snoc in Hp. destruct Hp as [[_ Hp]|[_ Hp]].
      * apply (fa_ub _ _ IH) in Hp. pose proof (st_le _ _ _ _ _ _ Hs). lia.
      * apply in_map_snd in Hp. destruct Hp as [p Hp]. apply (st_ub _ _ _ _ _ _ Hs) in Hp. auto.
    + intros tr Htr. destruct (Nat.lt_ge_cases tr nb) as [Hlt|Hge].
      * destruct (fa_all _ _ IH tr Hlt) as [t Ht]. exists t. apply pres_snoc. left. split; auto. eapply pres_lt; eauto.
      * exists (length fs). apply pres_snoc. right. split; auto. apply (st_new _ _ _ _ _ _ Hs). lia.
    + intros t1 t t2 tr H1 H2 Ht. apply pres_snoc in H1. apply pres_snoc in H2. apply pres_snoc.
      destruct H2 as [[Hlt2 H2]|[-> H2]].
      * destruct H1 as [[Hlt1 H1]|[-> H1]]; [|lia]. left. split; [lia|]. eapply (fa_contig _ _ IH); [exact H1|exact H2|lia].
      * destruct (Nat.eq_dec t (length fs)) as [->|Hn]; [right; auto|]. left. split; [lia|].
        destruct H1 as [[Hlt1 H1]|[-> H1]]; [|lia].
        apply (fa_contig _ _ IH t1 t (length fs - 1)); auto; [|lia]. apply Hprev; auto. eapply (fa_ub _ _ IH); eauto.
    + intros t tr tr' Hp Hlt. apply pres_snoc in Hp. destruct Hp as [[Ht Hp]|[-> Hp]].
      * destruct (fa_order _ _ IH _ _ _ Hp Hlt) as [t' [Ht' Hp']]. exists t'. split; auto. apply pres_snoc. left. split; [lia|auto].
      * destruct (Nat.lt_ge_cases tr' nb) as [Hnb|Hge].
        -- destruct (fa_all _ _ IH tr' Hnb) as [t' Ht']. assert (t' < length fs) by (eapply pres_lt; eauto).
           exists t'. split; [lia|]. apply pres_snoc. left. split; auto.
        -- exists (length fs). split; auto. apply pres_snoc. right. split; auto. apply (st_new _ _ _ _ _ _ Hs).
           apply in_map_snd in Hp. destruct Hp as [p Hp]. apply (st_ub _ _ _ _ _ _ Hs) in Hp. lia.
    + intros t f' p tr p' tr' E Hp Hp' Hfirst Hlt. rewrite nth_error_snoc in E. destruct (Nat.eqb_spec t (length fs)) as [->|Hn].
      * injection E as <-. apply (st_mono _ _ _ _ _ _ Hs p tr p' tr'); auto.
        destruct (Nat.lt_ge_cases tr nb) as [Hnb|Hge]; auto. exfalso.
        assert (Hpr : pres fs (length fs - 1) tr) by (apply Hprev; auto; apply in_map_snd; eauto).
        apply (Hfirst (length fs - 1)); [apply pres_lt in Hpr; lia|]. apply pres_snoc. left. split; auto. eapply pres_lt; eauto.
      * apply (fa_mono _ _ IH t f' p tr p' tr' E); auto. intros t' Ht' Hp2. apply (Hfirst t' Ht'). apply pres_snoc. left.
        split; auto. eapply pres_lt; eauto.
Qed.

(** * TrajIndex from a TrajMap *)
Definition in_frames (fs : list frame) (t p tr : nat) : Prop := exists f, nth_error fs t = Some f /\ In (p, tr) f.

Lemma prolong_spec : forall ls tri, NoDup (map snd ls) -> (forall p tr, In (p, tr) ls -> tr < length tri) ->
  exists tri', prolong tri ls = Some tri' /\ length tri' = length tri /\
    forall tr T, nth_error tri tr = Some T ->
      (forall p, In (p, tr) ls -> nth_error tri' tr = Some (traj_push T p)) /\
      (~ In tr (map snd ls) -> nth_error tri' tr = Some T).
Proof.
  induction ls as [|[p tr] ls IH]; intros tri Hn Hl.
  - exists tri. split; auto. split; auto. intros tr T HT. split; [intros p []|auto].
  - simpl in Hn. inversion Hn as [|? ? Htr Hn']; subst. assert (Hlt : tr < length tri) by (apply (Hl p tr); left; auto).
    destruct (nth_error_ex tri tr Hlt) as [T0 HT0]. cbn [prolong]. unfold upd. rewrite HT0.
    destruct (IH (set_nth tr (traj_push T0 p) tri)) as [tri' [E [Elen H]]]; auto.
    { intros q tr' Hin. rewrite set_nth_len. apply (Hl q). right; auto. }
    exists tri'. rewrite set_nth_len in Elen. split; auto. split; auto. intros tr' T HT.
    assert (Hget : nth_error (set_nth tr (traj_push T0 p) tri) tr' = Some (if tr' =? tr then traj_push T0 p else T)).
    { rewrite set_nth_get by auto. destruct (tr' =? tr); auto. }
    apply H in Hget. destruct Hget as [H1 H2]. destruct (Nat.eqb_spec tr' tr) as [->|Hne].
    + rewrite HT0 in HT. injection HT as ->. split.
      * intros q [E'|Hin]; [injection E' as ->; apply H2; auto|]. exfalso. apply Htr. apply in_map_snd. eauto.
      * intros Hnot. exfalso. apply Hnot. left; auto.
    + split.
      * intros q [E'|Hin]; [congruence|auto].
      * intros Hnot. apply H2. intros Hin. apply Hnot. right; auto.
Qed.

Lemma sorted_filter {A} (R : A -> A -> Prop) f : forall l, StronglySorted R l -> StronglySorted R (filter f l).
Proof.
  induction l as [|x l IH]; intros H; simpl; auto. inversion H as [|? ? Hl Hf]; subst.
  destruct (f x); auto. constructor; auto. rewrite Forall_forall in *. intros y Hy. apply filter_In in Hy. apply Hf, Hy.
Qed.

Lemma new_links f n nb' : good f -> (forall p tr, In (p, tr) f -> tr < nb') -> (forall tr, n <= tr < nb' -> In tr (map snd f)) ->
  map snd (filter (fun l => negb (snd l <? n)) (by_traj f)) = seq n (nb' - n).
Proof.
  intros [_ Hg] Hub Hall. apply ssorted_interval.
  - apply ssorted_le_lt with (k := snd).
    + apply sorted_filter. apply sort_nat_sorted.
    + apply NoDup_map_filter. apply Permutation_NoDup with (l := map snd f); auto.
      apply Permutation_map, Permutation_sym, sort_by_perm.
  - intros tr. rewrite in_map_snd. split.
    + intros [p Hp]. apply filter_In in Hp. destruct Hp as [Hp Hb]. rewrite by_traj_in in Hp. apply Hub in Hp.
      simpl in Hb. rewrite negb_true_iff, Nat.ltb_ge in Hb. lia.
    + intros Htr. destruct (proj1 (in_map_snd _ _) (Hall tr Htr)) as [p Hp]. exists p. apply filter_In.
      split; [apply by_traj_in, Hp|]. simpl. rewrite negb_true_iff, Nat.ltb_ge. lia.
Qed.

Definition index_inv (fs : list frame) (nb : nat) (tri : list traj) : Prop :=
  length tri = nb /\ forall tr T, nth_error tri tr = Some T -> steps T <> [] /\
    forall t p, at_time T t p <-> in_frames fs t p tr.

Lemma add_frames_snoc : forall fs tri t f, add_frames tri t (fs ++ [f]) =
  match add_frames tri t fs with Some tri' => add_frame tri' (t + length fs) f | None => None end.
Proof.
  induction fs as [|g fs IH]; intros tri t f; simpl.
  - rewrite Nat.add_0_r. destruct (add_frame tri t f); auto.
  - destruct (add_frame tri t g) as [tri'|]; auto. rewrite IH. replace (t + S (length fs)) with (S t + length fs) by lia. auto.
Qed.

Lemma in_frames_snoc fs f t p tr : in_frames (fs ++ [f]) t p tr <-> in_frames fs t p tr \/ (t = length fs /\ In (p, tr) f).
Proof.
  unfold in_frames. split.
  - intros [f' [E H]]. rewrite nth_error_snoc in E. destruct (Nat.eqb_spec t (length fs)).
    + injection E as <-. auto.
    + left. eauto.
  - intros [[f' [E H]]|[-> H]].
    + exists f'. split; auto. rewrite nth_error_app1; auto. eapply nth_error_lt; eauto.
    + exists f. rewrite nth_error_snoc, Nat.eqb_refl. auto.
Qed.
Lemma in_frames_lt fs t p tr : in_frames fs t p tr -> t < length fs.
Proof. intros [f [E _]]. eapply nth_error_lt; eauto. Qed.
Lemma in_frames_pres fs t p tr : in_frames fs t p tr -> pres fs t tr.
Proof. intros [f [E H]]. exists f, p. auto. Qed.

Lemma at_time_push T q t p : at_time (traj_push T q) t p <-> at_time T t p \/ (t = start T + length (steps T) /\ p = q).
Proof.
  unfold at_time, traj_push. cbn [start steps]. split.
  - intros [k [-> Hk]]. rewrite nth_error_snoc in Hk. destruct (Nat.eqb_spec k (length (steps T))).
    + injection Hk as ->. subst. auto.
    + left. eauto.
  - intros [[k [-> Hk]]|[-> ->]].
    + exists k. split; auto. rewrite nth_error_app1; auto. eapply nth_error_lt; eauto.
    + exists (length (steps T)). rewrite nth_error_snoc, Nat.eqb_refl. auto.
Qed.
Lemma at_time_single t0 q t p : at_time (mkTraj t0 [q]) t p <-> t = t0 /\ p = q.
Proof.
  unfold at_time. cbn [start steps]. split.
  - intros [k [-> Hk]]. destruct k as [|[|k]]; simpl in Hk; try discriminate. injection Hk as ->. split; [lia|auto].
  - intros [-> ->]. exists 0. split; [lia|auto].
Qed.

Lemma add_frame_first fs nb (h : list (list folmap * nat)) n : hist fs nb h n -> exists tri, add_frames [] 0 fs = Some tri /\ index_inv fs nb tri.
Proof.
  assert (Hstep : forall fs0 nb0 tri f nb', index_inv fs0 nb0 tri -> good f ->
    (forall p tr, In (p, tr) f -> tr < nb0 -> exists q, in_frames fs0 (length fs0 - 1) q tr) ->
    (forall p tr, In (p, tr) f -> tr < nb') -> (forall tr, nb0 <= tr < nb' -> In tr (map snd f)) -> nb0 <= nb' ->
    (forall t p tr, in_frames fs0 t p tr -> tr < nb0) ->
    exists tri', add_frame tri (length fs0) f = Some tri' /\ index_inv (fs0 ++ [f]) nb' tri').
  { clear. intros fs nb tri f nb' [Hlen Hinv] Hg Hold Hub Hnew Hle Hub0. unfold add_frame. rewrite Hlen.
    set (old := filter (fun l => snd l <? nb) (by_traj f)). set (new := filter (fun l => negb (snd l <? nb)) (by_traj f)).
    assert (Hold_in : forall p tr, In (p, tr) old <-> In (p, tr) f /\ tr < nb).
    { intros p tr. unfold old. rewrite filter_In, by_traj_in. simpl. rewrite Nat.ltb_lt. tauto. }
    destruct (prolong_spec old tri) as [tri' [E [Elen Hpro]]].
    { apply NoDup_map_filter. destruct Hg as [_ Hg]. apply Permutation_NoDup with (l := map snd f); auto.
      apply Permutation_map, Permutation_sym, sort_by_perm. }
    { intros p tr Hin. apply Hold_in in Hin. lia. }
    rewrite E. eexists. split; [reflexivity|].
    assert (Hnewseq := new_links f nb nb' Hg Hub Hnew). fold new in Hnewseq.
    assert (Hnl : length new = nb' - nb) by (rewrite <- (map_length snd new), Hnewseq, seq_length; auto).
    split; [rewrite app_length, map_length; lia|].
    intros tr T HT. destruct (Nat.lt_ge_cases tr nb) as [Hlt|Hge].
    - rewrite nth_error_app1 in HT by lia. destruct (nth_error_ex tri tr) as [T0 HT0]; [lia|].
      destruct (Hpro tr T0 HT0) as [H1 H2]. destruct (Hinv tr T0 HT0) as [Hne Hat].
      destruct (in_dec Nat.eq_dec tr (map snd old)) as [Hin|Hnot].
      + apply in_map_snd in Hin. destruct Hin as [p Hp]. rewrite (H1 p Hp) in HT. injection HT as <-.
        apply Hold_in in Hp. destruct Hp as [Hp _]. destruct (Hold p tr Hp Hlt) as [q Hq].
        assert (Hend : start T0 + length (steps T0) = length fs).
        { pose proof (in_frames_lt _ _ _ _ Hq) as Hl0. apply Hat in Hq. apply at_time_range in Hq.
          destruct (Nat.le_gt_cases (start T0 + length (steps T0)) (length fs)) as [|Hgt]; [lia|].
          destruct (at_time_ex T0 (length fs)) as [q' Hq']; [lia|]. apply Hat in Hq'. apply in_frames_lt in Hq'. lia. }
        split; [simpl; destruct (steps T0); discriminate|].
        intros t p'. rewrite at_time_push, in_frames_snoc, Hat, Hend. split; intros [H|[-> H]]; auto.
        * subst. right. auto.
        * right. split; auto. destruct Hg as [_ Hg]. assert (E' : (p', tr) = (p, tr)) by (eapply (NoDup_map_inj snd); eauto). congruence.
      + rewrite (H2 Hnot) in HT. injection HT as <-. split; auto. intros t p. rewrite in_frames_snoc, Hat. split; auto.
        intros [H|[-> H]]; auto. exfalso. apply Hnot. apply in_map_snd. exists p. apply Hold_in. auto.
    - rewrite nth_error_app2 in HT by lia. apply nth_error_map_inv in HT. destruct HT as [[q tr'] [Hq ->]].
      assert (tr' = tr).
      { assert (Hs : nth_error (map snd new) (tr - length tri') = Some tr') by (rewrite nth_error_map, Hq; auto).
        rewrite Hnewseq in Hs. rewrite nth_error_seq in Hs.
        - injection Hs as <-. lia.
        - apply nth_error_lt in Hq. lia. }
      subst tr'. apply nth_error_In in Hq. unfold new in Hq. apply filter_In in Hq. destruct Hq as [Hq _]. rewrite by_traj_in in Hq.
      split; [discriminate|]. intros t p. cbn [fst]. rewrite at_time_single, in_frames_snoc. split.
      + intros [-> ->]. auto.
      + intros [H|[-> H]]; [apply Hub0 in H; lia|]. split; auto. destruct Hg as [_ Hg].
        assert (E' : (p, tr) = (q, tr)) by (eapply (NoDup_map_inj snd); eauto). congruence. }
  induction 1 as [f n Hg H|fs nb h n g fol m f nb' Hh IH Hl Hs].
  - destruct (Hstep [] 0 [] f n) as [tri' [E Hi]].
    + split; auto. intros tr T HT. destruct tr; discriminate.
    + auto.
    + intros p tr _ Hlt. lia.
    + intros p tr Hp. apply H in Hp. lia.
    + intros tr Htr. apply in_map_snd. exists tr. apply H. lia.
    + lia.
    + intros t p tr Hp. apply in_frames_lt in Hp. simpl in Hp. lia.
    + exists tri'. cbn [add_frames length] in *. rewrite E. auto.
  - destruct IH as [tri [E Hi]]. destruct (hist_last _ _ _ _ Hh) as [Hne [Hgl [Hpl Hul]]].
    destruct (Hstep fs nb tri f nb') as [tri' [E' Hi']]; auto; try apply Hs.
    + intros p tr Hp Htr. destruct (st_old _ _ _ _ _ _ Hs p tr Hp Htr) as [d [q [k [Hq _]]]]. exists q, g. split; auto.
      rewrite (last_nth_error fs [] Hne), Hl. auto.
    + intros t p tr Hp. apply in_frames_pres in Hp. eapply (fa_ub _ _ (hist_facts _ _ _ _ Hh)); eauto.
    + exists tri'. rewrite add_frames_snoc, E. simpl. auto.
Qed.

(** * The inverse table *)
Definition cell (inv : list (list nat)) (t p : nat) : option nat :=
  match nth_error inv t with Some row => nth_error row p | None => None end.

Lemma inv_write_ok inv t p tr x : cell inv t p = Some x -> exists inv', inv_write inv t p tr = Some inv' /\
  map (@length nat) inv' = map (@length nat) inv /\
  forall t' p', cell inv' t' p' = if (t' =? t) && (p' =? p) then Some tr else cell inv t' p'.
Proof.
  unfold cell, inv_write. destruct (nth_error inv t) as [row|] eqn:Er; [|discriminate]. intros Hx. rewrite Hx.
  assert (Ht : t < length inv) by (eapply nth_error_lt; eauto). assert (Hp : p < length row) by (eapply nth_error_lt; eauto).
  eexists. split; [reflexivity|]. split.
  - apply nth_error_ext. intros n. rewrite !nth_error_map, set_nth_get by auto.
    destruct (Nat.eqb_spec n t) as [->|]; auto. rewrite Er. simpl. rewrite set_nth_len. auto.
  - intros t' p'. rewrite set_nth_get by auto. destruct (Nat.eqb_spec t' t) as [->|]; simpl; auto.
    rewrite set_nth_get by auto. destruct (p' =? p); auto. rewrite Er. auto.
Qed.

Lemma cell_shape inv inv' t p : map (@length nat) inv' = map (@length nat) inv ->
  (exists x, cell inv t p = Some x) <-> (exists x, cell inv' t p = Some x).
Proof.
  intros H. assert (Hn : nth_error (map (@length nat) inv') t = nth_error (map (@length nat) inv) t) by congruence.
  rewrite !nth_error_map in Hn. unfold cell.
  destruct (nth_error inv t) as [r|], (nth_error inv' t) as [r'|]; simpl in Hn; try discriminate; [|split; intros [x Hx]; discriminate].
  injection Hn as Hn. split; intros [x Hx]; apply nth_error_lt in Hx; apply nth_error_ex; lia.
Qed.

Lemma inv_traj_ok tr : forall ps inv t, (forall k p, nth_error ps k = Some p -> exists x, cell inv (t + k) p = Some x) ->
  exists inv', inv_traj inv t tr ps = Some inv' /\ map (@length nat) inv' = map (@length nat) inv /\
  forall t' p', (at_time (mkTraj t ps) t' p' -> cell inv' t' p' = Some tr) /\ (~ at_time (mkTraj t ps) t' p' -> cell inv' t' p' = cell inv t' p').
Proof.
  induction ps as [|p ps IH]; intros inv t Hc.
  - exists inv. split; auto. split; auto. intros t' p'. split; auto. intros [k [_ H]]. destruct k; discriminate.
  - destruct (Hc 0 p eq_refl) as [x Hx]. rewrite Nat.add_0_r in Hx.
    destruct (inv_write_ok inv t p tr x Hx) as [inv1 [E1 [S1 C1]]]. cbn [inv_traj]. rewrite E1.
    destruct (IH inv1 (S t)) as [inv2 [E2 [S2 C2]]].
    { intros k q Hq. apply (cell_shape inv inv1); auto. replace (S t + k) with (t + S k) by lia. apply Hc; auto. }
    exists inv2. split; auto. split; [congruence|]. intros t' p'. destruct (C2 t' p') as [Ca Cb].
    assert (Hdec : at_time (mkTraj t (p :: ps)) t' p' <-> (t' = t /\ p' = p) \/ at_time (mkTraj (S t) ps) t' p').
    { unfold at_time. cbn [start steps]. split.
      - intros [[|k] [-> Hk]]; simpl in Hk; [injection Hk as ->; left; split; [lia|auto]|].
        right. exists k. split; [lia|auto].
      - intros [[-> ->]|[k [-> Hk]]]; [exists 0; split; [lia|auto]|exists (S k); split; [lia|auto]]. }
    assert (Hd2 : at_time (mkTraj (S t) ps) t' p' \/ ~ at_time (mkTraj (S t) ps) t' p').
    { destruct (Nat.lt_ge_cases t' (S t)) as [Hlt|Hge].
      - right. intros H. apply at_time_range in H. simpl in H. lia.
      - destruct (nth_error ps (t' - S t)) as [q|] eqn:Eq.
        + destruct (Nat.eq_dec q p') as [->|Hne].
          * left. exists (t' - S t). split; [simpl; lia|auto].
          * right. intros [k [Hk1 Hk2]]. simpl in Hk1, Hk2. replace (t' - S t) with k in Eq by lia. congruence.
        + right. intros [k [Hk1 Hk2]]. simpl in Hk1, Hk2. replace (t' - S t) with k in Eq by lia. congruence. }
    rewrite Hdec. split.
    + intros H. destruct Hd2 as [Hd|Hd]; [auto|]. destruct H as [[-> ->]|H]; [|contradiction].
      rewrite (Cb Hd), C1, !Nat.eqb_refl. auto.
    + intros H. rewrite Cb by tauto. rewrite C1. destruct (Nat.eqb_spec t' t) as [->|]; simpl; auto.
      destruct (Nat.eqb_spec p' p) as [->|]; auto. exfalso. apply H. auto.
Qed.

Lemma inv_all_ok : forall tri inv tr0,
  (forall i T t p, nth_error tri i = Some T -> at_time T t p -> exists x, cell inv t p = Some x) ->
  (forall i j T U t p, nth_error tri i = Some T -> nth_error tri j = Some U -> at_time T t p -> at_time U t p -> i = j) ->
  exists inv', inv_all inv tr0 tri = Some inv' /\ map (@length nat) inv' = map (@length nat) inv /\
    (forall i T t p, nth_error tri i = Some T -> at_time T t p -> cell inv' t p = Some (tr0 + i)) /\
    (forall t p, (forall i T, nth_error tri i = Some T -> ~ at_time T t p) -> cell inv' t p = cell inv t p).
Proof.
  induction tri as [|T tri IH]; intros inv tr0 Hc Hu.
  - exists inv. split; auto. split; auto. split; auto. intros i T t p H. destruct i; discriminate.
  - destruct (inv_traj_ok tr0 (steps T) inv (start T)) as [inv1 [E1 [S1 C1]]].
    { intros k p Hk. apply (Hc 0 T); auto. exists k. auto. }
    cbn [inv_all]. rewrite E1. replace (mkTraj (start T) (steps T)) with T in C1 by (destruct T; auto).
    destruct (IH inv1 (S tr0)) as [inv2 [E2 [S2 [Ca Cb]]]].
    { intros i U t p Hi Ha. apply (cell_shape inv inv1); auto. apply (Hc (S i) U); auto. }
    { intros i j U V t p Hi Hj H1 H2. assert (S i = S j) by (eapply (Hu (S i) (S j)); eauto). lia. }
    exists inv2. split; auto. split; [congruence|]. split.
    + intros [|i] U t p Hi Ha; simpl in Hi.
      * injection Hi as <-. rewrite Cb.
        -- rewrite Nat.add_0_r. apply (proj1 (C1 t p)), Ha.
        -- intros j V Hj Hb. assert (0 = S j) by (exact (Hu 0 (S j) T V t p eq_refl Hj Ha Hb)). lia.
      * rewrite (Ca i U t p Hi Ha). f_equal. lia.
    + intros t p Hn. rewrite Cb; [apply (proj2 (C1 t p)), (Hn 0 T eq_refl)|]. intros i U Hi. apply (Hn (S i) U Hi).
Qed.

Lemma cell_zeros sizes t p : (exists x, cell (map (fun n => repeat 0 n) sizes) t p = Some x) <-> exists n, nth_error sizes t = Some n /\ p < n.
Proof.
  unfold cell. rewrite nth_error_map. destruct (nth_error sizes t) as [n|]; simpl; [|split; intros [x H]; [discriminate|destruct H; discriminate]].
  split.
  - intros [x Hx]. apply nth_error_lt in Hx. rewrite repeat_length in Hx. eauto.
  - intros [n' [E Hp]]. injection E as <-. exists 0. apply nth_error_repeat_x, Hp.
Qed.

Lemma make_inverse_ok tri sizes :
  (forall i T t p, nth_error tri i = Some T -> at_time T t p -> exists n, nth_error sizes t = Some n /\ p < n) ->
  (forall i j T U t p, nth_error tri i = Some T -> nth_error tri j = Some U -> at_time T t p -> at_time U t p -> i = j) ->
  exists inv, make_inverse tri sizes = Some inv /\ map (@length nat) inv = sizes /\
    (forall i T t p, nth_error tri i = Some T -> at_time T t p -> cell inv t p = Some i).
Proof.
  intros Hc Hu. destruct (inv_all_ok tri (map (fun n => repeat 0 n) sizes) 0) as [inv [E [S [Ca _]]]]; auto.
  { intros i T t p Hi Ha. apply cell_zeros. eauto. }
  exists inv. split; auto. split; [|exact Ca]. rewrite S, map_map. rewrite <- (map_id sizes) at 2. apply map_ext. intros n. apply repeat_length.
Qed.

Lemma index_of_hist tm h n : hist (frames tm) (nb_traj tm) h n -> exists ti, index_of_map tm = Some ti /\
  length (trajs ti) = nb_traj tm /\ map (@length nat) (inverse ti) = map_frame_sizes tm /\
  (forall tr T, nth_error (trajs ti) tr = Some T -> steps T <> []) /\
  forall t p tr,
    (in_frames (frames tm) t p tr <-> exists T, nth_error (trajs ti) tr = Some T /\ at_time T t p) /\
    (in_frames (frames tm) t p tr <-> invert ti t p = Some tr).
Proof.
  intros Hh. destruct (add_frame_first _ _ _ _ Hh) as [tri [E [Hlen Hi]]]. pose proof (hist_facts _ _ _ _ Hh) as F.
  assert (Hfr : forall t p tr, in_frames (frames tm) t p tr <-> exists T, nth_error tri tr = Some T /\ at_time T t p).
  { intros t p tr. split.
    - intros Hp. destruct (nth_error_ex tri tr) as [T HT].
      { rewrite Hlen. eapply (fa_ub _ _ F). eapply in_frames_pres; eauto. }
      exists T. split; auto. apply (Hi tr T HT), Hp.
    - intros [T [HT Ha]]. apply (Hi tr T HT), Ha. }
  destruct (make_inverse_ok tri (map_frame_sizes tm)) as [inv [E2 [S C]]].
  { intros tr T t p HT Ha. assert (Hf : in_frames (frames tm) t p tr) by (apply Hfr; eauto). destruct Hf as [f [Ef Hp]].
    exists (length f). unfold map_frame_sizes. rewrite nth_error_map, Ef. split; auto.
    apply (fa_good _ _ F t f Ef). apply in_map_fst. eauto. }
  { intros i j T U t p HT HU Ha Hb. assert (H1 : in_frames (frames tm) t p i) by (apply Hfr; eauto).
    assert (H2 : in_frames (frames tm) t p j) by (apply Hfr; eauto).
    destruct H1 as [f [Ef H1]], H2 as [f' [Ef' H2]]. rewrite Ef in Ef'. injection Ef' as <-.
    destruct (fa_good _ _ F t f Ef) as [[Hg _] _]. assert (E' : (p, i) = (p, j)) by (eapply (NoDup_map_inj fst); eauto). congruence. }
  exists (mkIndex tri inv). unfold index_of_map. rewrite E, E2. split; auto. cbn [trajs inverse]. split; auto. split; auto. split.
  { intros tr T HT. apply (Hi tr T HT). }
  intros t p tr. split; [apply Hfr|]. change (invert (mkIndex tri inv) t p) with (cell inv t p). split.
  - intros Hp. apply Hfr in Hp. destruct Hp as [T [HT Ha]]. eapply C; eauto.
  - intros Hp. assert (Hx : exists n, nth_error (map_frame_sizes tm) t = Some n /\ p < n).
    { apply cell_zeros. apply (cell_shape inv); [|eauto]. rewrite S, map_map.
      rewrite <- (map_id (map_frame_sizes tm)) at 2. apply map_ext. intros k. apply repeat_length. }
    destruct Hx as [k [Ek Hk]]. unfold map_frame_sizes in Ek. apply nth_error_map_inv in Ek. destruct Ek as [f [Ef ->]].
    apply (fa_good _ _ F t f Ef) in Hk. apply in_map_fst in Hk. destruct Hk as [tr' Hin].
    assert (Hf : in_frames (frames tm) t p tr') by (exists f; auto). pose proof (proj1 (Hfr _ _ _) Hf) as [T [HT Ha]].
    rewrite (C tr' T t p HT Ha) in Hp. injection Hp as <-. auto.
Qed.

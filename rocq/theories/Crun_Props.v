(** C155: interrupted runs of cage2vtk, and runs on the files of previous ones. *)
Require Import List Bool Arith Lia.
Require Import Verif.Crun_Model Verif.Crun_Spec.
Import ListNotations.
Local Open Scope nat_scope.

Lemma name_eqb_spec a b : reflect (a = b) (name_eqb a b).
Proof.
  destruct a as [k t], b as [k' t']. unfold name_eqb. cbn [fst snd]. destruct (Nat.eqb_spec t t') as [->|N].
  - destruct (kind_beq k k') eqn:E; cbn; constructor; [apply internal_kind_dec_bl in E; subst; auto|]. intros X. injection X as ->. rewrite internal_kind_dec_lb in E; auto. discriminate.
  - rewrite andb_false_r. constructor. congruence.
Qed.
Section Proofs.
  Variable (A : Type).
  Notation disk := (disk A). Notation op := (op A). Notation applies := (applies A). Notation write := (write A).
  Definition target (o : op) : name := match o with Trunc n => n | Append n _ => n end.
  Lemma applies_app d a b : applies d (a ++ b) = applies (applies d a) b.
  Proof. apply fold_left_app. Qed.
  Lemma upd_same d n o : upd A d n o n = o.
  Proof. unfold upd. destruct (name_eqb_spec n n); congruence. Qed.
  Lemma upd_other d n o m : m <> n -> upd A d n o m = d m.
  Proof. intros H. unfold upd. destruct (name_eqb_spec m n); congruence. Qed.
  Lemma apply_other d o m : m <> target o -> apply A d o m = d m.
  Proof. destruct o; cbn [target apply]; apply upd_other. Qed.
  Lemma applies_other os : forall d m, (forall o, In o os -> target o <> m) -> applies d os m = d m.
  Proof. induction os as [|o os IH]; intros d m H; [reflexivity|]. cbn. unfold applies in IH. rewrite IH by (intros; apply H; right; auto). apply apply_other. intros E. apply (H o); [left; auto|auto]. Qed.
  Lemma apply_ext d d' o m : d m = d' m -> apply A d o m = apply A d' o m.
  Proof. intros H. destruct o as [n|n c]; cbn [apply]; destruct (name_eqb_spec m n) as [->|N]; rewrite ?upd_same, ?upd_other by auto; auto. rewrite H. auto. Qed.
  Lemma applies_filter os m : forall d d', d m = d' m -> applies d os m = applies d' (filter (fun o => name_eqb (target o) m) os) m.
  Proof.
    induction os as [|o os IH]; intros d d' H; [exact H|]. cbn [filter]. destruct (name_eqb_spec (target o) m) as [E|N].
    - cbn. apply IH. apply apply_ext. auto.
    - cbn. apply IH. rewrite apply_other by auto. auto.
  Qed.
  Lemma appends_ok n s : forall d x, d n = Some x -> applies d (map (Append n) s) n = Some (x ++ s).
  Proof. induction s as [|c s IH]; intros d x H; [cbn; rewrite app_nil_r; auto|]. cbn. unfold applies in IH. rewrite (IH _ (x ++ [c])); [rewrite <- app_assoc; auto|]. cbn [apply]. rewrite upd_same, H. auto. Qed.
  Lemma write_target n s o : In o (write n s) -> target o = n.
  Proof. cbn. intros [<-|H]; [reflexivity|]. apply in_map_iff in H as [c [<- _]]. reflexivity. Qed.
  Lemma write_ok d n s : applies d (write n s) n = Some s.
  Proof. unfold write. cbn. change (fold_left (apply A) (map (Append n) s) (upd A d n (Some [])) n = Some s). apply (appends_ok n s _ []). apply upd_same. Qed.
  Lemma write_prefix j d n s : applies d (firstn (S j) (write n s)) n = Some (firstn j s).
  Proof. cbn [write firstn Crun_Model.write]. rewrite firstn_map. cbn. apply (appends_ok n _ _ []). apply upd_same. Qed.
  Lemma write_len n s : length (write n s) = S (length s).
  Proof. cbn. rewrite map_length. auto. Qed.
  Definition sweepn (k : kind) (f : nat -> text A) (a n : nat) : list op := flat_map (fun t => write (k, t) (f t)) (seq a n).
  Lemma sweepn_target k f n : forall a o, In o (sweepn k f a n) -> exists t, target o = (k, t) /\ a <= t < a + n.
  Proof. intros a o H. unfold sweepn in H. apply in_flat_map in H as [t [Ht Ho]]. apply in_seq in Ht. apply write_target in Ho. eauto. Qed.
  Lemma firstn_in (T : Type) j : forall (l : list T) x, In x (firstn j l) -> In x l.
  Proof. induction j as [|j IH]; intros [|a l] x H; cbn in *; try contradiction; auto. destruct H; auto. Qed.
  Lemma sweepn_full k f n : forall a d t, a <= t < a + n -> applies d (sweepn k f a n) (k, t) = Some (f t).
  Proof.
    induction n as [|n IH]; intros a d t H; [lia|]. unfold sweepn. cbn [seq flat_map]. rewrite applies_app. destruct (Nat.eq_dec t a) as [->|N].
    - rewrite applies_other; [apply write_ok|]. intros o Ho. apply sweepn_target in Ho as [t [-> Ht]]. intros E. injection E as E. lia.
    - apply (IH (S a)). lia.
  Qed.
  Lemma sweepn_prefix k f n : forall a d j, exists i, i <= n /\ (forall t, a <= t < a + i -> applies d (firstn j (sweepn k f a n)) (k, t) = Some (f t)) /\
    (i < n -> applies d (firstn j (sweepn k f a n)) (k, a + i) = d (k, a + i) \/ exists s, prefix s (f (a + i)) /\ applies d (firstn j (sweepn k f a n)) (k, a + i) = Some s) /\
    (forall t, a + i < t -> applies d (firstn j (sweepn k f a n)) (k, t) = d (k, t)).
  Proof.
    induction n as [|n IH]; intros a d j.
    - exists 0. split; [lia|]. split; [lia|]. split; [lia|]. intros t _. cbn. rewrite firstn_nil. reflexivity.
    - unfold sweepn. cbn [seq flat_map]. fold (sweepn k f (S a) n). rewrite firstn_app, applies_app. rewrite write_len. destruct (le_lt_dec (S (length (f a))) j) as [L|L].
      + rewrite (firstn_all2 (write (k, a) (f a))) by (rewrite write_len; auto). set (d1 := applies d (write (k, a) (f a))). destruct (IH (S a) d1 (j - S (length (f a)))) as [i [Hi [H1 [H2 H3]]]].
        assert (O : forall t, t <> a -> d1 (k, t) = d (k, t)). { intros t N. apply applies_other. intros o Ho. apply write_target in Ho as ->. congruence. }
        exists (S i). split; [lia|]. split; [|split].
        * intros t Ht. destruct (Nat.eq_dec t a) as [->|N]; [|apply H1; lia]. rewrite applies_other; [apply write_ok|]. intros o Ho. apply firstn_in in Ho. apply sweepn_target in Ho as [t [-> Ht2]]. intros E. injection E as E. lia.
        * intros Hi'. replace (a + S i) with (S a + i) by lia. destruct (H2 ltac:(lia)) as [E|[s [P E]]]; [left; rewrite E; apply O; lia|right; eauto].
        * intros t Ht. rewrite H3 by lia. apply O. lia.
      + replace (j - S (length (f a))) with 0 by lia. cbn [firstn]. change (applies (applies d (firstn j (write (k, a) (f a)))) []) with (applies d (firstn j (write (k, a) (f a)))).
        exists 0. split; [lia|]. split; [lia|]. split.
        * intros _. rewrite Nat.add_0_r. destruct j as [|j]; [left; reflexivity|]. right. exists (firstn j (f a)). split; [exists (skipn j (f a)); symmetry; apply firstn_skipn|]. apply write_prefix.
        * intros t Ht. apply applies_other. intros o Ho. apply firstn_in in Ho. apply write_target in Ho as ->. intros E. injection E as E. lia.
  Qed.
  Lemma prefix_refl (l : list A) : prefix l l.
  Proof. exists []. rewrite app_nil_r. auto. Qed.

  (** ** interleavings *)
  Lemma interleaved_in : forall (ls : list (list op)) l, interleaved ls l -> forall o, In o l -> exists x, In x ls /\ In o x.
  Proof.
    intros ls l H. induction H as [|a o x b l H IH]; intros o' Ho; [contradiction|]. destruct Ho as [<-|Ho].
    - exists (o :: x). split; [apply in_or_app; right; left; auto|left; auto].
    - destruct (IH o' Ho) as [y [Hy Hin]]. apply in_app_or in Hy as [Hy|[<-|Hy]].
      + exists y. split; [apply in_or_app; auto|auto].
      + exists (o :: x). split; [apply in_or_app; right; left; auto|right; auto].
      + exists y. split; [apply in_or_app; right; right; auto|auto].
  Qed.
  Lemma interleaved_filter (g : op -> bool) : forall ls l, interleaved ls l -> forall i x, nth_error ls i = Some x -> (forall j y, nth_error ls j = Some y -> j <> i -> filter g y = []) -> filter g l = filter g x.
  Proof.
    intros ls l H. induction H as [ls H|a o x b l H IH]; intros i z Hi Hn.
    - rewrite (H z); [reflexivity|]. eapply nth_error_In; eauto.
    - cbn [filter]. destruct (Nat.eq_dec i (length a)) as [->|N].
      + rewrite nth_error_app2, Nat.sub_diag in Hi by auto. cbn in Hi. injection Hi as <-. cbn [filter].
        rewrite (IH (length a) x); [reflexivity|rewrite nth_error_app2, Nat.sub_diag by auto; reflexivity|].
        intros j y Hj Nj. apply (Hn j y); auto. destruct (lt_dec j (length a)); [rewrite nth_error_app1 in * by auto; auto|]. rewrite nth_error_app2 in * by lia.
        replace (j - length a) with (S (j - length a - 1)) in * by lia. exact Hj.
      + assert (Ho : filter g (o :: x) = []). { apply (Hn (length a)); [rewrite nth_error_app2, Nat.sub_diag by auto; reflexivity|auto]. }
        cbn [filter] in Ho. destruct (g o); [discriminate|]. apply (IH i z).
        * destruct (lt_dec i (length a)); [rewrite nth_error_app1 in * by auto; auto|]. rewrite nth_error_app2 in * by lia. replace (i - length a) with (S (i - length a - 1)) in * by lia. exact Hi.
        * intros j y Hj Nj. destruct (Nat.eq_dec j (length a)) as [->|Nja].
          -- rewrite nth_error_app2, Nat.sub_diag in Hj by auto. cbn in Hj. injection Hj as <-. auto.
          -- apply (Hn j y); auto. destruct (lt_dec j (length a)); [rewrite nth_error_app1 in * by auto; auto|]. rewrite nth_error_app2 in * by lia. replace (j - length a) with (S (j - length a - 1)) in * by lia. exact Hj.
  Qed.
  Lemma filter_none (g : op -> bool) l : (forall o, In o l -> g o = false) -> filter g l = [].
  Proof. induction l as [|o l IH]; intros H; [reflexivity|]. cbn. rewrite (H o) by (left; auto). apply IH. intros; apply H; right; auto. Qed.
  Lemma filter_all (g : op -> bool) l : (forall o, In o l -> g o = true) -> filter g l = l.
  Proof. induction l as [|o l IH]; intros H; [reflexivity|]. cbn. rewrite (H o) by (left; auto). f_equal. apply IH. intros; apply H; right; auto. Qed.
  Lemma interleaved_writes (k : kind) (f : nat -> text A) n l d t : interleaved (map (fun t => write (k, t) (f t)) (seq 0 n)) l -> t < n -> applies d l (k, t) = Some (f t).
  Proof.
    intros H Ht. rewrite (applies_filter l (k, t) d d eq_refl). rewrite (interleaved_filter _ _ _ H t (write (k, t) (f t))).
    - rewrite filter_all; [apply write_ok|]. intros o Ho. apply write_target in Ho as ->. destruct (name_eqb_spec (k, t) (k, t)); congruence.
    - rewrite nth_error_map. rewrite (nth_error_nth' (seq 0 n) 0) by (rewrite seq_length; auto). rewrite seq_nth by auto. reflexivity.
    - intros j y Hj Nj. rewrite nth_error_map in Hj. destruct (nth_error (seq 0 n) j) as [t'|] eqn:E; [|discriminate]. cbn in Hj. injection Hj as <-.
      assert (Lj : j < n) by (rewrite <- (seq_length n 0); apply nth_error_Some; congruence). rewrite (nth_error_nth' (seq 0 n) 0) in E by (rewrite seq_length; auto). rewrite seq_nth in E by auto. injection E as <-.
      apply filter_none. intros o Ho. apply write_target in Ho as ->. cbn [Nat.add]. destruct (name_eqb_spec (k, j) (k, t)); [|auto]. congruence.
  Qed.
  Lemma interleaved_target (k : kind) (f : nat -> text A) n l : interleaved (map (fun t => write (k, t) (f t)) (seq 0 n)) l -> forall o, In o l -> exists t, target o = (k, t) /\ t < n.
  Proof.
    intros H o Ho. destruct (interleaved_in _ _ H o Ho) as [x [Hx Hin]]. apply in_map_iff in Hx as [t [<- Ht]]. apply in_seq in Ht. apply write_target in Hin. exists t. split; [auto|lia].
  Qed.

  (** ** stages *)
  Definition of_kind (k : kind) (o : op) : bool := kind_beq (fst (target o)) k.
  Lemma kind_beq_spec a b : reflect (a = b) (kind_beq a b).
  Proof. destruct (kind_beq a b) eqn:E; constructor; [apply internal_kind_dec_bl; auto|]. intros ->. rewrite internal_kind_dec_lb in E; [discriminate|reflexivity]. Qed.
  Lemma applies_kind os k : forall d d' t, (forall t, d (k, t) = d' (k, t)) -> applies d os (k, t) = applies d' (filter (of_kind k) os) (k, t).
  Proof.
    induction os as [|o os IH]; intros d d' t H; [apply H|]. cbn [filter]. unfold of_kind at 1. destruct (kind_beq_spec (fst (target o)) k) as [E|N].
    - cbn. apply IH. intros u. apply apply_ext. auto.
    - cbn. apply IH. intros u. rewrite apply_other; [auto|]. intros X. apply N. rewrite <- X. reflexivity.
  Qed.
  Lemma firstn_filter_mid (g : op -> bool) a s b n : filter g a = [] -> filter g b = [] -> (forall o, In o s -> g o = true) -> exists j, filter g (firstn n (a ++ s ++ b)) = firstn j s.
  Proof.
    intros Ha Hb Hs. rewrite !firstn_app, !filter_app. assert (P : forall m l, filter g l = [] -> filter g (firstn m l) = []).
    { intros m l E. apply filter_none. intros o Ho. apply firstn_in in Ho. destruct (g o) eqn:G; [|reflexivity]. assert (X : In o (filter g l)) by (apply filter_In; auto). rewrite E in X. contradiction. }
    rewrite (P n a Ha), (P _ b Hb), app_nil_r. cbn [app]. exists (n - length a). apply filter_all. intros o Ho. apply Hs. eapply firstn_in; eauto.
  Qed.

  Variables (I : inputs A) (arg : option nat).
  Hypothesis (S1 : 1 <= size A I).
  Notation tau := (interval A I arg).
  Notation last := (size A I - 1).
  (** The text of each file, without option. *)
  Definition must (k : kind) (t : nat) : text A := match expected A I arg (k, t) with Some s => s | None => [] end.
  Lemma series_must (f : nat -> text A) t : t < size A I -> of_series A I f t = Some (f t).
  Proof. intros H. unfold of_series. destruct (Nat.ltb_spec t (size A I)); [reflexivity|lia]. Qed.
  Definition made (k : kind) : bool := match k with Dynamic => match arg with None => true | Some _ => false end | Phi => has_vol A I | _ => true end.
  Lemma expected_must k t : made k = true -> t < number A I k -> expected A I arg (k, t) = Some (must k t).
  Proof.
    intros M L. unfold must. destruct (expected A I arg (k, t)) eqn:E; [reflexivity|]. exfalso. unfold expected in E. cbn [fst snd] in E. destruct k; cbn [number made] in *; try (rewrite series_must in E by exact L; discriminate).
    - destruct arg; [discriminate|]. destruct t as [|[|[|t]]]; try discriminate; lia.
    - destruct t as [|[|t]]; try discriminate; lia.
    - rewrite M in E. rewrite series_must in E by exact L; discriminate.
  Qed.
  Lemma not_made k t : made k = false -> expected A I arg (k, t) = None.
  Proof. destruct k; cbn; try discriminate; [destruct arg; [reflexivity|discriminate]|]. intros ->. reflexivity. Qed.
  Lemma beyond k t : number A I k <= t -> expected A I arg (k, t) = None.
  Proof.
    intros L. unfold expected, of_series. cbn [fst snd]. destruct k; cbn [number] in L; try (destruct (Nat.ltb_spec t (size A I)); [lia|reflexivity]).
    - destruct arg; [reflexivity|]. destruct t as [|[|[|t]]]; try lia. reflexivity.
    - destruct t as [|[|t]]; try lia. reflexivity.
    - destruct (has_vol A I); [|reflexivity]. destruct (Nat.ltb_spec t (size A I)); [lia|reflexivity].
  Qed.
  Lemma present_iff d n : present A d n = true <-> d n <> None.
  Proof. unfold present. destruct (d n); split; intros H; congruence. Qed.
  Lemma both_iff d k : both A I d k = true <-> d (k, 0) <> None /\ d (k, last) <> None.
  Proof. unfold both. rewrite andb_true_iff, !present_iff. tauto. Qed.
  (** The stages that are skipped on a disk. *)
  Definition skipped (d : disk) (k : kind) : bool :=
    match k with
    | Dynamic => match arg with Some _ => true | None => present A d (Dynamic, 2) end
    | Cage => present A d (Cage, 0)
    | Phi => both A I d Phi || negb (has_vol A I)
    | Vtk => false
    | k => both A I d k
    end.
  Lemma settled_skipped d k : settled A I arg d -> skipped d k = true -> made k = true -> whole A I arg d k.
  Proof.
    intros (H1 & H2 & H3) Hs Hm. destruct k; cbn in Hs, Hm; try discriminate.
    - destruct arg; [discriminate|]. apply H1; [reflexivity|]. apply present_iff, Hs.
    - apply both_iff in Hs as [X Y]. apply H3; cbn; auto.
    - apply H2, present_iff, Hs.
    - apply both_iff in Hs as [X Y]. apply H3; cbn; auto.
    - apply both_iff in Hs as [X Y]. apply H3; cbn; auto.
    - rewrite Hm, orb_false_r in Hs. apply both_iff in Hs as [X Y]. apply H3; cbn; auto 10.
  Qed.
  Definition stage_ops (vs : nat -> list op) (d : disk) (k : kind) : list op :=
    if skipped d k then [] else match k with Vel => vs tau | _ => sweepn k (must k) 0 (number A I k) end.
  Definition all_ops (vs : nat -> list op) (d : disk) : list op := flat_map (stage_ops vs d) [Dynamic; Vel; Cage; Jump; Boo; Phi; Vtk].
  Lemma stage_target vs d k o : schedule A I vs -> In o (stage_ops vs d k) -> exists t, target o = (k, t) /\ t < number A I k.
  Proof.
    intros Sc H. unfold stage_ops in H. destruct (skipped d k); [contradiction|].
    assert (X : In o (sweepn k (must k) 0 (number A I k)) -> exists t, target o = (k, t) /\ t < number A I k) by (intros J; destruct (sweepn_target _ _ _ _ _ J) as [t [E R]]; exists t; split; [exact E|lia]).
    destruct k; try exact (X H). destruct (interleaved_target _ _ _ _ (Sc tau) o H) as [t [E R]]. exists t. auto.
  Qed.
  Lemma stage_none vs d k k' : schedule A I vs -> k <> k' -> filter (of_kind k) (stage_ops vs d k') = [].
  Proof. intros Sc N. apply filter_none. intros o Ho. destruct (stage_target _ _ _ _ Sc Ho) as [t [E _]]. unfold of_kind. rewrite E. cbn [fst]. destruct (kind_beq_spec k' k); congruence. Qed.
  Lemma split_ops vs d k : schedule A I vs -> exists a b, all_ops vs d = a ++ stage_ops vs d k ++ b /\ filter (of_kind k) a = [] /\ filter (of_kind k) b = [].
  Proof.
    intros Sc. assert (X : forall l, ~ In k l -> filter (of_kind k) (flat_map (stage_ops vs d) l) = []).
    { induction l as [|k' l IH]; intros H; [reflexivity|]. cbn [flat_map]. rewrite filter_app, (stage_none vs d k k' Sc) by (intros ->; apply H; left; reflexivity). apply IH. intros J. apply H. right. exact J. }
    assert (Y : forall l1 l2, [Dynamic; Vel; Cage; Jump; Boo; Phi; Vtk] = l1 ++ k :: l2 -> ~ In k l1 -> ~ In k l2 -> exists a b, all_ops vs d = a ++ stage_ops vs d k ++ b /\ filter (of_kind k) a = [] /\ filter (of_kind k) b = []).
    { intros l1 l2 E N1 N2. exists (flat_map (stage_ops vs d) l1), (flat_map (stage_ops vs d) l2). unfold all_ops. rewrite E, flat_map_app. cbn [flat_map]. auto. }
    destruct k; [apply (Y [] [Vel; Cage; Jump; Boo; Phi; Vtk])|apply (Y [Dynamic] [Cage; Jump; Boo; Phi; Vtk])|apply (Y [Dynamic; Vel] [Jump; Boo; Phi; Vtk])|apply (Y [Dynamic; Vel; Cage] [Boo; Phi; Vtk])|
      apply (Y [Dynamic; Vel; Cage; Jump] [Phi; Vtk])|apply (Y [Dynamic; Vel; Cage; Jump; Boo] [Vtk])|apply (Y [Dynamic; Vel; Cage; Jump; Boo; Phi] [])]; cbn; try reflexivity; intuition discriminate.
  Qed.
  Lemma stage_own vs d k o : schedule A I vs -> In o (stage_ops vs d k) -> of_kind k o = true.
  Proof. intros Sc Ho. destruct (stage_target _ _ _ _ Sc Ho) as [t [E _]]. unfold of_kind. rewrite E. cbn [fst]. destruct (kind_beq_spec k k); congruence. Qed.
  Lemma ops_kind vs d k n : schedule A I vs -> exists j, forall t, applies d (firstn n (all_ops vs d)) (k, t) = applies d (firstn j (stage_ops vs d k)) (k, t).
  Proof.
    intros Sc. destruct (split_ops vs d k Sc) as [a [b (E & Fa & Fb)]]. destruct (firstn_filter_mid (of_kind k) a (stage_ops vs d k) b n Fa Fb (fun o => stage_own vs d k o Sc)) as [j F]. exists j. intros t.
    rewrite (applies_kind _ k d d t (fun _ => eq_refl)), E, F. reflexivity.
  Qed.
  Lemma ops_kind_all vs d k t : schedule A I vs -> applies d (all_ops vs d) (k, t) = applies d (stage_ops vs d k) (k, t).
  Proof.
    intros Sc. destruct (split_ops vs d k Sc) as [a [b (E & Fa & Fb)]]. rewrite (applies_kind _ k d d t (fun _ => eq_refl)), E, !filter_app, Fa, Fb, app_nil_r. cbn [app]. rewrite filter_all by (intros o; apply stage_own, Sc). reflexivity.
  Qed.
  (** A stage done: its files are whole. *)
  Lemma stage_whole vs d k : schedule A I vs -> settled A I arg d -> made k = true -> whole A I arg (applies d (stage_ops vs d k)) k.
  Proof.
    intros Sc St M t L. unfold stage_ops. destruct (skipped d k) eqn:Sk; [apply (settled_skipped d k St Sk M t L)|]. rewrite expected_must by auto.
    assert (X : applies d (sweepn k (must k) 0 (number A I k)) (k, t) = Some (must k t)) by (apply sweepn_full; lia). destruct k; try exact X.
    rewrite (interleaved_writes Vel _ _ _ d t (Sc tau) L). unfold must. cbn [expected fst snd]. rewrite series_must by assumption. reflexivity.
  Qed.
  Lemma stage_other vs d d0 k n : schedule A I vs -> fst n <> k -> applies d (stage_ops vs d0 k) n = d n.
  Proof. intros Sc H. apply applies_other. intros o Ho E. destruct (stage_target _ _ _ _ Sc Ho) as [t [X _]]. rewrite X in E. subst n. apply H. reflexivity. Qed.
  Lemma sweep_eq k f g : (forall t, t < number A I k -> f t = g t) -> sweep A I k f = sweepn k g 0 (number A I k).
  Proof.
    intros H. unfold sweep, sweepn. assert (X : forall l, (forall t, In t l -> t < number A I k) -> flat_map (fun t => write (k, t) (f t)) l = flat_map (fun t => write (k, t) (g t)) l).
    { induction l as [|t l IH]; intros Hl; [reflexivity|]. cbn [flat_map]. rewrite (H t) by (apply Hl; left; reflexivity). f_equal. apply IH. intros u J. apply Hl. right. exact J. }
    apply X. intros t J. apply in_seq in J. lia.
  Qed.
  Lemma must_series k f t : (forall t, expected A I arg (k, t) = of_series A I f t) -> t < size A I -> must k t = f t.
  Proof. intros H L. unfold must. rewrite H, series_must by exact L. reflexivity. Qed.
  Lemma whole_at d k t : whole A I arg d k -> made k = true -> t < number A I k -> contents A d (k, t) = must k t.
  Proof. intros W M L. unfold contents. rewrite (W t L), expected_must by auto. reflexivity. Qed.

  Hypothesis (Rl : reload A I (cages_text A I) = Some (cages A I)).
  Lemma cages_ok d : settled A I arg d -> cages_of A I d = Some (cages A I).
  Proof.
    intros (_ & H2 & _). unfold cages_of. destruct (present A d (Cage, 0)) eqn:E; [|reflexivity]. apply present_iff in E. unfold contents. rewrite (H2 E 0) by (cbn; lia). exact Rl.
  Qed.
  (** On a settled disk the operations are those of the stages that are not skipped, with the expected texts. *)
  Lemma operations_ok vs d : schedule A I vs -> settled A I arg d -> operations A I arg vs d = (all_ops vs d, true).
  Proof.
    intros Sc St. assert (Ot : forall d k n, fst n <> k -> applies d (stage_ops vs d k) n = d n) by (intros; apply stage_other; auto).
    assert (E1 : dynamic_stage A I arg d = stage_ops vs d Dynamic).
    { unfold dynamic_stage, stage_ops, skipped. destruct arg as [a|] eqn:Ea; [reflexivity|]. destruct (present A d (Dynamic, 2)); [reflexivity|]. apply sweep_eq. intros t L. unfold must. cbn [expected fst snd]. rewrite Ea. cbn [number] in L. destruct t as [|[|[|t]]]; try reflexivity. lia. }
    unfold operations. cbv zeta. rewrite E1. set (d1 := applies d (stage_ops vs d Dynamic)).
    assert (O1 : forall n, fst n <> Dynamic -> d1 n = d n) by (intros n H; apply Ot, H).
    assert (T1 : forall d', d' (Dynamic, 2) = d1 (Dynamic, 2) -> tau_of A I arg d' = tau).
    { intros d' E. unfold tau_of, interval. destruct arg as [a|] eqn:Ea; [reflexivity|]. assert (M : made Dynamic = true) by (cbn; rewrite Ea; reflexivity). rewrite <- Ea in St. assert (W := stage_whole vs d Dynamic Sc). unfold contents. rewrite E. unfold d1. rewrite (stage_whole vs d Dynamic Sc St M 2) by (cbn; lia). cbn. rewrite Ea. reflexivity. }
    assert (E2 : vel_stage A I arg vs d1 = stage_ops vs d Vel).
    { unfold vel_stage, stage_ops, skipped, both, present. rewrite !O1 by discriminate. rewrite T1 by reflexivity. reflexivity. }
    rewrite E2. set (d2 := applies d1 (stage_ops vs d Vel)). assert (O2 : forall n, fst n <> Vel -> d2 n = d1 n) by (intros n H; apply stage_other; auto).
    assert (E3 : cage_stage A I d2 = stage_ops vs d Cage).
    { unfold cage_stage, stage_ops, skipped, present. rewrite O2, O1 by discriminate. destruct (d (Cage, 0)); [reflexivity|]. apply sweep_eq. intros t L. unfold must. cbn [expected fst snd]. cbn [number] in L. destruct t as [|[|t]]; try reflexivity. lia. }
    rewrite E3, (cages_ok d St). set (d3 := applies d2 (stage_ops vs d Cage)). assert (O3 : forall n, fst n <> Cage -> d3 n = d2 n) by (intros n H; apply stage_other; auto).
    assert (E4 : jump_stage A I arg (cages A I) d3 = stage_ops vs d Jump).
    { unfold jump_stage, stage_ops, skipped, both, present. rewrite !O3, !O2, !O1 by discriminate. destruct (_ && _); [reflexivity|]. apply sweep_eq. intros t L. rewrite T1 by (rewrite O3, O2 by discriminate; reflexivity). symmetry. apply (must_series Jump); [reflexivity|exact L]. }
    rewrite E4. set (d4 := applies d3 (stage_ops vs d Jump)). assert (O4 : forall n, fst n <> Jump -> d4 n = d3 n) by (intros n H; apply stage_other; auto).
    assert (E5 : boo_stage A I (cages A I) d4 = stage_ops vs d Boo).
    { unfold boo_stage, stage_ops, skipped, both, present. rewrite !O4, !O3, !O2, !O1 by discriminate. destruct (_ && _); [reflexivity|]. apply sweep_eq. intros t L. symmetry. apply (must_series Boo); [reflexivity|exact L]. }
    rewrite E5. set (d5 := applies d4 (stage_ops vs d Boo)). assert (O5 : forall n, fst n <> Boo -> d5 n = d4 n) by (intros n H; apply stage_other; auto).
    assert (B5 : both A I d5 Phi = both A I d Phi) by (unfold both, present; rewrite !O5, !O4, !O3, !O2, !O1 by discriminate; reflexivity).
    assert (E6 : phi_stage A I (cages A I) d5 = stage_ops vs d Phi).
    { unfold phi_stage, stage_ops, skipped. rewrite B5. destruct (both A I d Phi); [reflexivity|]. cbn [orb]. destruct (has_vol A I) eqn:Hv; [|reflexivity]. cbn [negb]. apply sweep_eq. intros t L. symmetry. apply (must_series Phi); [cbn; rewrite Hv; reflexivity|exact L]. }
    rewrite E6. set (d6 := applies d5 (stage_ops vs d Phi)). assert (O6 : forall n, fst n <> Phi -> d6 n = d5 n) by (intros n H; apply stage_other; auto).
    assert (Own : forall da k t, (forall t, da (k, t) = d (k, t)) -> applies da (stage_ops vs d k) (k, t) = applies d (stage_ops vs d k) (k, t)).
    { intros da k t H. rewrite (applies_kind _ k da d t H). symmetry. apply (applies_kind _ k d d t). reflexivity. }
    assert (Bp : both A I d Phi || has_vol A I = has_vol A I).
    { destruct (has_vol A I) eqn:Hv; [apply orb_true_r|]. destruct (both A I d Phi) eqn:B; [|reflexivity]. exfalso. apply both_iff in B as [X Y]. destruct St as (_ & _ & H3). assert (W := H3 Phi ltac:(cbn; auto) X Y 0 ltac:(cbn; lia)). cbn in W. rewrite Hv in W. contradiction. }
    rewrite B5, Bp. assert (E7 : vtk_stage A I (has_vol A I) d6 = stage_ops vs d Vtk).
    { unfold vtk_stage, stage_ops, skipped. apply sweep_eq. intros t L. cbn [number] in L. rewrite (must_series Vtk _ t (fun _ => eq_refl) L).
      assert (C1 : contents A d6 (Jump, t) = jump A I tau (cages A I) t).
      { rewrite <- (must_series Jump (jump A I tau (cages A I)) t (fun _ => eq_refl) L). rewrite <- (whole_at _ Jump t (stage_whole vs d Jump Sc St eq_refl) eq_refl L). unfold contents. rewrite O6, O5 by discriminate. unfold d4. rewrite Own; [reflexivity|]. intros u. rewrite O3, O2, O1 by discriminate. reflexivity. }
      assert (C2 : contents A d6 (Boo, t) = boo A I (cages A I) t).
      { rewrite <- (must_series Boo (boo A I (cages A I)) t (fun _ => eq_refl) L). rewrite <- (whole_at _ Boo t (stage_whole vs d Boo Sc St eq_refl) eq_refl L). unfold contents. rewrite O6 by discriminate. unfold d5. rewrite Own; [reflexivity|]. intros u. rewrite O4, O3, O2, O1 by discriminate. reflexivity. }
      assert (C3 : contents A d6 (Vel, t) = vel A I tau t).
      { rewrite <- (must_series Vel (vel A I tau) t (fun _ => eq_refl) L). rewrite <- (whole_at _ Vel t (stage_whole vs d Vel Sc St eq_refl) eq_refl L). unfold contents. rewrite O6, O5, O4, O3 by discriminate. unfold d2. rewrite Own; [reflexivity|]. intros u. rewrite O1 by discriminate. reflexivity. }
      assert (C4 : has_vol A I = true -> contents A d6 (Phi, t) = phi A I (cages A I) t).
      { intros Hv. assert (Ex : forall u, expected A I arg (Phi, u) = of_series A I (phi A I (cages A I)) u) by (intros u; cbn; rewrite Hv; reflexivity). rewrite <- (must_series Phi (phi A I (cages A I)) t Ex L). rewrite <- (whole_at _ Phi t (stage_whole vs d Phi Sc St Hv) Hv L). unfold contents. unfold d6. rewrite Own; [reflexivity|]. intros u. rewrite O5, O4, O3, O2, O1 by discriminate. reflexivity. }
      rewrite C1, C2, C3. destruct (has_vol A I); [rewrite C4 by reflexivity|]; reflexivity. }
    rewrite E7. unfold all_ops. cbn [flat_map]. rewrite app_nil_r. reflexivity.
  Qed.
  Lemma run_ok vs d : schedule A I vs -> settled A I arg d -> forall n, run A I arg vs d n = match expected A I arg n with Some s => Some s | None => d n end.
  Proof.
    intros Sc St [k t]. unfold run. rewrite (operations_ok vs d Sc St). cbn [fst]. rewrite ops_kind_all by exact Sc. destruct (lt_dec t (number A I k)) as [L|L].
    - destruct (made k) eqn:M; [rewrite (stage_whole vs d k Sc St M t L), expected_must by auto; reflexivity|]. rewrite not_made by exact M. unfold stage_ops. replace (skipped d k) with true; [reflexivity|]. destruct k; cbn in M |- *; try discriminate; [destruct arg; [reflexivity|discriminate]|rewrite M, orb_true_r; reflexivity].
    - rewrite beyond by lia. apply applies_other. intros o Ho E. destruct (stage_target _ _ _ _ Sc Ho) as [u [X R]]. rewrite X in E. assert (u = t) by congruence. lia.
  Qed.

  (** ** histories *)
  (** Files written in order: when the last is there, the others are whole; and there is no other file. *)
  Record inv (d : disk) : Prop := {
    inv_dynamic : d (Dynamic, 2) <> None -> d (Dynamic, 0) = expected A I arg (Dynamic, 0) /\ d (Dynamic, 1) = expected A I arg (Dynamic, 1);
    inv_series : forall k, In k [Jump; Boo; Phi] -> d (k, last) <> None -> forall t, t < last -> d (k, t) = expected A I arg (k, t);
    inv_none : forall n, expected A I arg n = None -> d n = None }.
  Lemma clean_settled d : inv d -> clean A I arg d -> settled A I arg d.
  Proof.
    intros [V1 V2 V3] (C1 & C2 & C3 & C4). split; [|split; [exact C2|]].
    - intros Ea H t L. cbn [number] in L. destruct (V1 H) as [X Y]. destruct t as [|[|[|t]]]; [exact X|exact Y| |lia]. destruct C1 as [C1|C1]; [contradiction|exact C1].
    - intros k Hk H0 Hl t L. destruct Hk as [<-|Hk]; [apply C4; assumption|]. assert (Nk : number A I k = size A I) by (destruct Hk as [<-|[<-|[<-|[]]]]; reflexivity). rewrite Nk in L. destruct (Nat.eq_dec t last) as [->|N]; [|apply (V2 k Hk Hl t); lia].
      destruct (C3 k Hk) as [X|X]; [contradiction|exact X].
  Qed.
  Lemma sweep_inv k d j : inv d -> (d (k, number A I k - 1) <> None -> skipped d k = true) -> made k = true -> k <> Vel -> d (k, number A I k - 1) <> None \/ skipped d k = false ->
    let d' := applies d (firstn j (stage_ops (fun _ => []) d k)) in d' (k, number A I k - 1) <> None -> (d (k, number A I k - 1) <> None -> forall t, t < number A I k - 1 -> d (k, t) = expected A I arg (k, t)) ->
    forall t, t < number A I k - 1 -> d' (k, t) = expected A I arg (k, t).
  Proof.
    intros V Hsk M Nv Cs d' Hl Hb t L. unfold d', stage_ops in *. destruct (skipped d k) eqn:Sk.
    - rewrite firstn_nil in *. cbn in *. apply Hb; auto.
    - assert (N : d (k, number A I k - 1) = None) by (destruct (d (k, number A I k - 1)) eqn:E; [specialize (Hsk ltac:(congruence)); congruence|reflexivity]).
      assert (E : match k with Vel => [] | _ => sweepn k (must k) 0 (number A I k) end = sweepn k (must k) 0 (number A I k)) by (destruct k; try reflexivity; congruence). rewrite E in *.
      destruct (sweepn_prefix k (must k) (number A I k) 0 d j) as [i (Hi & H1 & H2 & H3)]. cbn [Nat.add] in *. rewrite expected_must by (auto; lia). destruct (le_lt_dec (number A I k - 1) i) as [Li|Li]; [apply H1; lia|]. exfalso. apply Hl. rewrite H3 by lia. exact N.
  Qed.
  Lemma crash_inv vs n d : schedule A I vs -> inv d -> settled A I arg d -> inv (crash A I arg vs n d).
  Proof.
    intros Sc V St. unfold crash. rewrite (operations_ok vs d Sc St). cbn [fst].
    assert (Se : forall k, k <> Vel -> stage_ops vs d k = stage_ops (fun _ => []) d k) by (intros k N; unfold stage_ops; destruct k; congruence).
    split.
    - intros H. destruct (ops_kind vs d Dynamic n Sc) as [j Q]. rewrite Q in H. rewrite !Q. destruct (made Dynamic) eqn:M.
      + rewrite Se in * by discriminate. assert (Hs : d (Dynamic, 2) <> None -> skipped d Dynamic = true) by (intros X; cbn; destruct arg; [reflexivity|apply present_iff, X]).
        assert (G : forall t, t < 2 -> applies d (firstn j (stage_ops (fun _ => []) d Dynamic)) (Dynamic, t) = expected A I arg (Dynamic, t)).
        { apply (sweep_inv Dynamic d j V Hs M); [discriminate| |exact H|].
          - destruct (skipped d Dynamic) eqn:Sk; [left|right; reflexivity]. cbn in Sk, M. destruct arg; [discriminate|]. apply present_iff, Sk.
          - intros X t L. cbn in L. destruct (inv_dynamic d V X) as [Y0 Y1]. destruct t as [|[|t]]; [exact Y0|exact Y1|lia]. }
        split; apply G; lia.
      + exfalso. unfold stage_ops in H. replace (skipped d Dynamic) with true in H by (cbn in M |- *; destruct arg; [reflexivity|discriminate]). rewrite firstn_nil in H. apply H. apply (inv_none d V). apply not_made, M.
    - intros k Hk H t L. destruct (ops_kind vs d k n Sc) as [j Q]. rewrite Q in H. rewrite Q. assert (Nv : k <> Vel) by (cbn in Hk; destruct Hk as [<-|[<-|[<-|[]]]]; discriminate). rewrite Se in * by exact Nv. assert (Nk : number A I k = size A I) by (cbn in Hk; destruct Hk as [<-|[<-|[<-|[]]]]; reflexivity).
      destruct (made k) eqn:M.
      + assert (Bo : skipped d k = both A I d k) by (cbn in Hk; destruct Hk as [<-|[<-|[<-|[]]]]; cbn in M |- *; try reflexivity; rewrite M, orb_false_r; reflexivity).
        assert (Hs : d (k, last) <> None -> skipped d k = true). { intros X. rewrite Bo. apply both_iff. split; [|exact X]. destruct (Nat.eq_dec last 0) as [E0|N0]; [rewrite <- E0; exact X|]. rewrite (inv_series d V k Hk X 0) by lia. rewrite expected_must by (auto; lia). discriminate. }
        assert (G := sweep_inv k d j V). rewrite Nk in G. apply (G Hs M Nv); [|exact H| |exact L].
        * destruct (skipped d k) eqn:Sk; [left|right; reflexivity]. symmetry in Bo. apply both_iff in Bo as [_ X]. exact X.
        * intros X u Lu. apply (inv_series d V k Hk X u Lu).
      + exfalso. unfold stage_ops in H. replace (skipped d k) with true in H by (cbn in Hk; destruct Hk as [<-|[<-|[<-|[]]]]; cbn in M |- *; try discriminate; rewrite M, orb_true_r; reflexivity). rewrite firstn_nil in H. apply H. apply (inv_none d V). apply not_made, M.
    - intros [k t] E. destruct (ops_kind vs d k n Sc) as [j Q]. rewrite Q. rewrite applies_other; [apply (inv_none d V), E|]. intros o Ho X. apply firstn_in in Ho. destruct (made k) eqn:M.
      + destruct (stage_target vs d k o Sc Ho) as [u [Y R]]. rewrite Y in X. assert (u = t) by congruence. subst u. rewrite expected_must in E by auto. discriminate.
      + unfold stage_ops in Ho. replace (skipped d k) with true in Ho; [contradiction|]. destruct k; cbn in M |- *; try discriminate; [destruct arg; [reflexivity|discriminate]|rewrite M, orb_true_r; reflexivity].
  Qed.
  Lemma history_inv d : after_crashes A I arg (clean A I arg) d -> inv d /\ settled A I arg d.
  Proof.
    intros H. induction H as [d H|d vs n H IH Sc P].
    - assert (V : inv d) by (split; [intros X; rewrite H in X; congruence|intros k _ X; rewrite H in X; congruence|intros m _; apply H]). split; [exact V|]. split; [intros _ X; rewrite H in X; congruence|]. split; [intros X; rewrite H in X; congruence|intros k _ X; rewrite H in X; congruence].
    - destruct IH as [V St]. assert (V' := crash_inv vs n d Sc V St). split; [exact V'|]. apply clean_settled; auto.
  Qed.
End Proofs.

(** ** any disk *)
Section Any.
  Variables (A : Type) (I : inputs A) (arg : option nat).
  Hypothesis (S1 : 1 <= size A I).
  Lemma sweep_kind k f o : In o (sweep A I k f) -> fst (target A o) = k.
  Proof. intros H. unfold sweep in H. apply in_flat_map in H as [t [_ H]]. apply write_target in H. rewrite H. reflexivity. Qed.
  Lemma dynamic_kind d o : In o (dynamic_stage A I arg d) -> fst (target A o) = Dynamic.
  Proof. unfold dynamic_stage. destruct arg; [contradiction|]. destruct (present A d (Dynamic, 2)); [contradiction|]. apply sweep_kind. Qed.
  Lemma vel_kind vs d o : schedule A I vs -> In o (vel_stage A I arg vs d) -> fst (target A o) = Vel.
  Proof. intros Sc. unfold vel_stage. destruct (both A I d Vel); [contradiction|]. intros H. destruct (interleaved_target A _ _ _ _ (Sc _) o H) as [t [-> _]]. reflexivity. Qed.
  Lemma cage_kind d o : In o (cage_stage A I d) -> fst (target A o) = Cage.
  Proof. unfold cage_stage. destruct (present A d (Cage, 0)); [contradiction|]. apply sweep_kind. Qed.
  Lemma jump_kind c d o : In o (jump_stage A I arg c d) -> fst (target A o) = Jump.
  Proof. unfold jump_stage. destruct (both A I d Jump); [contradiction|]. apply sweep_kind. Qed.
  Lemma boo_kind c d o : In o (boo_stage A I c d) -> fst (target A o) = Boo.
  Proof. unfold boo_stage. destruct (both A I d Boo); [contradiction|]. apply sweep_kind. Qed.
  Lemma phi_kind c d o : In o (phi_stage A I c d) -> fst (target A o) = Phi.
  Proof. unfold phi_stage. destruct (both A I d Phi); [contradiction|]. destruct (has_vol A I); [apply sweep_kind|contradiction]. Qed.
  Lemma vtk_kind h d o : In o (vtk_stage A I h d) -> fst (target A o) = Vtk.
  Proof. apply sweep_kind. Qed.
  Lemma kind_other os k : (forall o, In o os -> fst (target A o) = k) -> forall d n, fst n <> k -> applies A d os n = d n.
  Proof. intros H d n N. apply applies_other. intros o Ho E. apply N. rewrite <- E. apply H, Ho. Qed.
  (** The kinds written by a run. *)
  Lemma operations_kind vs d o : schedule A I vs -> In o (fst (operations A I arg vs d)) ->
    match fst (target A o) with Cage => d (Cage, 0) = None | Jump => both A I d Jump = false | Vel => both A I d Vel = false | _ => True end.
  Proof.
    intros Sc. unfold operations. cbv zeta. set (o1 := dynamic_stage A I arg d). set (d1 := applies A d o1). set (o2 := vel_stage A I arg vs d1). set (d2 := applies A d1 o2). set (o3 := cage_stage A I d2). set (d3 := applies A d2 o3).
    assert (O1 : forall n, fst n <> Dynamic -> d1 n = d n) by (intros n N; apply (kind_other o1 Dynamic); [intros x; apply dynamic_kind|exact N]).
    assert (O2 : forall n, fst n <> Vel -> d2 n = d1 n) by (intros n N; apply (kind_other o2 Vel); [intros x; apply vel_kind, Sc|exact N]).
    assert (O3 : forall n, fst n <> Cage -> d3 n = d2 n) by (intros n N; apply (kind_other o3 Cage); [intros x; apply cage_kind|exact N]).
    assert (Bj : both A I d3 Jump = both A I d Jump) by (unfold both, present; rewrite !O3, !O2, !O1 by discriminate; reflexivity).
    assert (Bv : both A I d1 Vel = both A I d Vel) by (unfold both, present; rewrite !O1 by discriminate; reflexivity).
    assert (Q1 : In o o1 -> fst (target A o) = Dynamic) by apply dynamic_kind.
    assert (Q2 : In o o2 -> fst (target A o) = Vel /\ both A I d Vel = false) by (intros H; split; [apply (vel_kind vs d1 o Sc H)|]; unfold o2, vel_stage in H; rewrite Bv in H; destruct (both A I d Vel); [contradiction|reflexivity]).
    assert (Q3 : In o o3 -> fst (target A o) = Cage /\ d (Cage, 0) = None) by (intros H; split; [apply (cage_kind d2 o H)|]; unfold o3, cage_stage, present in H; rewrite O2, O1 in H by discriminate; destruct (d (Cage, 0)); [contradiction|reflexivity]).
    assert (F1 : In o o1 -> match fst (target A o) with Cage => d (Cage, 0) = None | Jump => both A I d Jump = false | Vel => both A I d Vel = false | _ => True end) by (intros H; rewrite (Q1 H); exact Logic.I).
    assert (F2 : In o o2 -> match fst (target A o) with Cage => d (Cage, 0) = None | Jump => both A I d Jump = false | Vel => both A I d Vel = false | _ => True end) by (intros H; destruct (Q2 H) as [-> X]; exact X).
    assert (F3 : In o o3 -> match fst (target A o) with Cage => d (Cage, 0) = None | Jump => both A I d Jump = false | Vel => both A I d Vel = false | _ => True end) by (intros H; destruct (Q3 H) as [-> X]; exact X).
    destruct (cages_of A I d) as [c|]; cbn [fst]; rewrite !in_app_iff; [|tauto]. intros [H|[H|[H|[H|[H|[H|H]]]]]]; [exact (F1 H)|exact (F2 H)|exact (F3 H)| | | |].
    - rewrite (jump_kind c d3 o H). unfold jump_stage in H. rewrite Bj in H. destruct (both A I d Jump); [contradiction|reflexivity].
    - rewrite (boo_kind c _ o H). exact Logic.I.
    - rewrite (phi_kind c _ o H). exact Logic.I.
    - rewrite (vtk_kind _ _ o H). exact Logic.I.
  Qed.
  Lemma cages_kept vs n d i : schedule A I vs -> d (Cage, 0) <> None -> crash A I arg vs n d (Cage, i) = d (Cage, i).
  Proof.
    intros Sc H. unfold crash. apply applies_other. intros o Ho E. apply firstn_in in Ho. assert (X := operations_kind vs d o Sc Ho). rewrite E in X. cbn in X. contradiction.
  Qed.
  Lemma jump_kept vs d t : schedule A I vs -> both A I d Jump = true -> run A I arg vs d (Jump, t) = d (Jump, t).
  Proof.
    intros Sc H. unfold run. apply applies_other. intros o Ho E. assert (X := operations_kind vs d o Sc Ho). rewrite E in X. cbn in X. congruence.
  Qed.
  Lemma vel_kept vs d t : schedule A I vs -> both A I d Vel = true -> run A I arg vs d (Vel, t) = d (Vel, t).
  Proof.
    intros Sc H. unfold run. apply applies_other. intros o Ho E. assert (X := operations_kind vs d o Sc Ho). rewrite E in X. cbn in X. congruence.
  Qed.
  (** The jumps of a run on a disk without jumps, where the scattering function is whole. *)
  Lemma jump_done vs d t : schedule A I vs -> (arg = None -> d (Dynamic, 2) = Some (isf A I)) -> d (Jump, 0) = None -> t < size A I ->
    match cages_of A I d with
    | Some c => ends A I arg vs d = true /\ run A I arg vs d (Jump, t) = Some (jump A I (interval A I arg) c t)
    | None => ends A I arg vs d = false /\ run A I arg vs d (Jump, t) = d (Jump, t)
    end.
  Proof.
    intros Sc Hi Hj L. unfold ends, run, operations. cbv zeta. set (o1 := dynamic_stage A I arg d). set (d1 := applies A d o1). set (o2 := vel_stage A I arg vs d1). set (d2 := applies A d1 o2). set (o3 := cage_stage A I d2). set (d3 := applies A d2 o3).
    assert (O1 : forall n, fst n <> Dynamic -> d1 n = d n) by (intros n N; apply (kind_other o1 Dynamic); [intros x; apply dynamic_kind|exact N]).
    assert (O2 : forall n, fst n <> Vel -> d2 n = d1 n) by (intros n N; apply (kind_other o2 Vel); [intros x; apply vel_kind, Sc|exact N]).
    assert (O3 : forall n, fst n <> Cage -> d3 n = d2 n) by (intros n N; apply (kind_other o3 Cage); [intros x; apply cage_kind|exact N]).
    assert (D1 : forall n, d1 n = applies A d o1 n) by reflexivity.
    destruct (cages_of A I d) as [c|]; cbn [fst snd].
    - split; [reflexivity|]. rewrite !applies_app. fold d1. fold d2. fold d3. rewrite (kind_other _ Vtk (vtk_kind _ _)), (kind_other _ Phi (phi_kind _ _)), (kind_other _ Boo (boo_kind _ _)) by discriminate.
      unfold jump_stage. assert (B : both A I d3 Jump = false) by (unfold both, present; rewrite !O3, !O2, !O1 by discriminate; rewrite Hj; reflexivity). rewrite B.
      assert (T : tau_of A I arg d3 = interval A I arg).
      { unfold tau_of, interval. destruct arg as [a|] eqn:Ea; [reflexivity|]. unfold contents. rewrite O3, O2 by discriminate. unfold d1, o1, dynamic_stage. rewrite ?Ea. unfold present. rewrite (Hi eq_refl). cbn. rewrite (Hi eq_refl). reflexivity. }
      rewrite T. apply (sweepn_full A Jump (jump A I (interval A I arg) c) (size A I) 0 d3 t). lia.
    - split; [reflexivity|]. rewrite !applies_app. fold d1. fold d2. fold d3. rewrite O3, O2, O1 by discriminate. reflexivity.
  Qed.
End Any.

(** * Theorems *)
Definition empty (A : Type) : disk A := fun _ => None.
Lemma empty_settled A I arg : settled A I arg (empty A).
Proof. split; [intros _ H; contradiction H; reflexivity|]. split; [intros H; contradiction H; reflexivity|intros k _ H; contradiction H; reflexivity]. Qed.
(** C155.  On a disk where the files that make a stage skipped are only there with all files of that stage whole, the run ends, each output holds what it must and no other file changes. *)
Theorem C155_run (A : Type) (I : inputs A) arg vs d : 1 <= size A I -> reload A I (cages_text A I) = Some (cages A I) -> schedule A I vs -> settled A I arg d ->
  ends A I arg vs d = true /\ forall n, run A I arg vs d n = match expected A I arg n with Some s => Some s | None => d n end.
Proof.
  intros S1 Rl Sc St. split; [|apply run_ok; auto]. unfold ends. rewrite (operations_ok A I arg S1 Rl vs d Sc St). reflexivity.
Qed.
(** After any number of interrupted runs that left no torn file among those, a run gives exactly what a single run would have given. *)
Theorem C155_recovers (A : Type) (I : inputs A) arg vs d : 1 <= size A I -> reload A I (cages_text A I) = Some (cages A I) -> after_crashes A I arg (clean A I arg) d -> schedule A I vs ->
  ends A I arg vs d = true /\ forall n, run A I arg vs d n = expected A I arg n.
Proof.
  intros S1 Rl H Sc. destruct (history_inv A I arg S1 Rl d H) as [V St]. destruct (C155_run A I arg vs d S1 Rl Sc St) as [E R]. split; [exact E|]. intros n. rewrite R. destruct (expected A I arg n) eqn:X; [reflexivity|]. apply (inv_none A I arg d V), X.
Qed.
(** A run on the result of a run changes nothing. *)
Theorem C155_again (A : Type) (I : inputs A) arg vs vs' d : 1 <= size A I -> reload A I (cages_text A I) = Some (cages A I) -> after_crashes A I arg (clean A I arg) d -> schedule A I vs -> schedule A I vs' ->
  ends A I arg vs' (run A I arg vs d) = true /\ forall n, run A I arg vs' (run A I arg vs d) n = run A I arg vs d n.
Proof.
  intros S1 Rl H Sc Sc'. destruct (C155_recovers A I arg vs d S1 Rl H Sc) as [_ R]. assert (W : forall k, whole A I arg (run A I arg vs d) k) by (intros k t _; apply R).
  assert (St : settled A I arg (run A I arg vs d)) by (split; [intros _ _; apply W|]; split; [intros _; apply W|intros k _ _ _; apply W]).
  destruct (C155_run A I arg vs' _ S1 Rl Sc' St) as [E R']. split; [exact E|]. intros n. rewrite R', R. destruct (expected A I arg n); reflexivity.
Qed.
Lemma cage_crash (A : Type) (I : inputs A) arg vs j : 1 <= size A I -> reload A I (cages_text A I) = Some (cages A I) -> schedule A I vs -> j <= length (cages_text A I) ->
  exists n, let d := crash A I arg vs n (empty A) in d (Cage, 0) = Some (firstn j (cages_text A I)) /\ d (Cage, 1) = None /\ (arg = None -> d (Dynamic, 2) = Some (isf A I)) /\ (forall t, d (Jump, t) = None).
Proof.
  intros S1 Rl Sc Lj. set (a := stage_ops A I arg vs (empty A) Dynamic ++ stage_ops A I arg vs (empty A) Vel). exists (length a + S j). cbv zeta. unfold crash. rewrite (operations_ok A I arg S1 Rl vs (empty A) Sc (empty_settled A I arg)). cbn [fst].
  assert (E : all_ops A I arg vs (empty A) = a ++ write A (Cage, 0) (cages_text A I) ++ (write A (Cage, 1) (span A I) ++ flat_map (stage_ops A I arg vs (empty A)) [Jump; Boo; Phi; Vtk])) by (assert (Ec : stage_ops A I arg vs (empty A) Cage = write A (Cage, 0) (cages_text A I) ++ write A (Cage, 1) (span A I)) by (change (stage_ops A I arg vs (empty A) Cage) with (write A (Cage, 0) (cages_text A I) ++ write A (Cage, 1) (span A I) ++ []); rewrite app_nil_r; reflexivity); unfold a, all_ops; cbn [flat_map]; rewrite Ec, <- !app_assoc; reflexivity).
  rewrite E, firstn_app, (firstn_all2 a) by lia. replace (length a + S j - length a) with (S j) by lia. rewrite firstn_app, write_len. replace (S j - S (length (cages_text A I))) with 0 by lia. cbn [firstn]. rewrite app_nil_r, applies_app.
  assert (Oa : forall k t, k <> Dynamic -> k <> Vel -> applies A (empty A) a (k, t) = None). { intros k t N1 N2. unfold a. rewrite applies_app, (stage_other A I arg) by auto. rewrite (stage_other A I arg) by auto. reflexivity. }
  assert (Oc : forall d n, n <> (Cage, 0) -> applies A d (firstn (S j) (write A (Cage, 0) (cages_text A I))) n = d n). { intros d n N. apply applies_other. intros o Ho X. apply firstn_in in Ho. apply write_target in Ho. congruence. }
  split; [apply write_prefix|]. split; [rewrite Oc by discriminate; apply Oa; discriminate|]. split.
  - intros Ea. rewrite Oc by discriminate. unfold a. rewrite applies_app, (stage_other A I arg) by (auto; discriminate). rewrite (stage_whole A I arg S1 vs (empty A) Dynamic Sc (empty_settled A I arg)) by (cbn; rewrite ?Ea; auto). cbn. rewrite Ea. reflexivity.
  - intros t. rewrite Oc by discriminate. apply Oa; discriminate.
Qed.
(** Any runs, whole or interrupted, with any arguments: [None] for a whole run. *)
Inductive step (A : Type) (I : inputs A) (d : disk A) : disk A -> Prop :=
| whole_run arg vs : schedule A I vs -> step A I d (run A I arg vs d)
| part_run arg vs n : schedule A I vs -> step A I d (crash A I arg vs n d).
Inductive later (A : Type) (I : inputs A) (d : disk A) : disk A -> Prop :=
| now : later A I d d
| next d' d'' : later A I d d' -> step A I d' d'' -> later A I d d''.
(** The file of cages is never written again, nor that of their spans, once the first one exists. *)
Theorem C155_cages_kept (A : Type) (I : inputs A) d d' : d (Cage, 0) <> None -> later A I d d' -> forall i, d' (Cage, i) = d (Cage, i).
Proof.
  intros H L. induction L as [|d' d'' L IH St]; intros i; [reflexivity|]. assert (N : d' (Cage, 0) <> None) by (rewrite IH; exact H). rewrite <- IH. destruct St as [arg vs Sc|arg vs n Sc].
  - replace (run A I arg vs d') with (crash A I arg vs (length (fst (operations A I arg vs d'))) d') by (unfold crash, run; rewrite firstn_all; reflexivity). apply cages_kept; auto.
  - apply cages_kept; auto.
Qed.
(** Hence an interruption between the two loses the spans for good, and one inside the file of cages makes every later run use the torn file, or undefined. *)
Theorem C155_span_refuted (A : Type) (I : inputs A) arg vs : 1 <= size A I -> reload A I (cages_text A I) = Some (cages A I) -> schedule A I vs ->
  exists n, let d := crash A I arg vs n (empty A) in d (Cage, 0) = Some (cages_text A I) /\ forall d', later A I d d' -> d' (Cage, 1) = None.
Proof.
  intros S1 Rl Sc. destruct (cage_crash A I arg vs (length (cages_text A I)) S1 Rl Sc (le_n _)) as [n (E0 & E1 & _)]. exists n. cbv zeta. rewrite firstn_all in E0. split; [exact E0|]. intros d' L. rewrite (C155_cages_kept A I _ d') by (auto; rewrite E0; discriminate). exact E1.
Qed.
Theorem C155_torn_refuted (A : Type) (I : inputs A) arg vs vs' s : 1 <= size A I -> reload A I (cages_text A I) = Some (cages A I) -> schedule A I vs -> schedule A I vs' -> prefix s (cages_text A I) ->
  exists n, let d := crash A I arg vs n (empty A) in
    match reload A I s with
    | Some c => ends A I arg vs' d = true /\ forall t, t < size A I -> run A I arg vs' d (Jump, t) = Some (jump A I (interval A I arg) c t)
    | None => ends A I arg vs' d = false /\ forall t, run A I arg vs' d (Jump, t) = None
    end.
Proof.
  intros S1 Rl Sc Sc' [r Ep]. assert (Lj : length s <= length (cages_text A I)) by (rewrite Ep, app_length; lia). destruct (cage_crash A I arg vs (length s) S1 Rl Sc Lj) as [n (E0 & _ & E2 & E3)]. exists n. cbv zeta in *.
  assert (Es : firstn (length s) (cages_text A I) = s) by (rewrite Ep, firstn_app, Nat.sub_diag, firstn_all; cbn; apply app_nil_r). rewrite Es in E0.
  assert (C0 : cages_of A I (crash A I arg vs n (empty A)) = reload A I s) by (unfold cages_of, present, contents; rewrite E0; reflexivity).
  assert (J := fun t => jump_done A I arg S1 vs' _ t Sc' E2 (E3 0)). rewrite C0 in J. destruct (reload A I s) as [c|].
  - split; [apply (J 0); lia|]. intros t L. apply (J t L).
  - split; [apply (J 0); lia|]. intros t. destruct (lt_dec t (size A I)) as [L|L]; [rewrite (proj2 (J t L)); apply E3|].
    unfold run. rewrite applies_other; [apply E3|]. intros o Ho X. unfold operations in Ho. cbv zeta in Ho. rewrite C0 in Ho. cbn [fst] in Ho. rewrite !in_app_iff in Ho. destruct Ho as [Ho|[Ho|Ho]]; [apply dynamic_kind in Ho|apply (vel_kind A I arg vs' _ o Sc') in Ho|apply cage_kind in Ho]; rewrite X in Ho; discriminate.
Qed.
(** With another interval, the velocities and the jumps of the previous one are kept. *)
Theorem C155_other_interval_refuted (A : Type) (I : inputs A) a b vs vs' d : 1 <= size A I -> reload A I (cages_text A I) = Some (cages A I) -> schedule A I vs -> schedule A I vs' -> settled A I (Some a) d ->
  forall t, t < size A I -> run A I (Some b) vs' (run A I (Some a) vs d) (Jump, t) = Some (jump A I a (cages A I) t) /\ run A I (Some b) vs' (run A I (Some a) vs d) (Vel, t) = Some (vel A I a t).
Proof.
  intros S1 Rl Sc Sc' St. destruct (C155_run A I (Some a) vs d S1 Rl Sc St) as [_ R]. intros t L.
  assert (E : forall k u, u < size A I -> expected A I (Some a) (k, u) = Some (must A I (Some a) k u) -> run A I (Some a) vs d (k, u) = Some (must A I (Some a) k u)) by (intros k u _ X; rewrite R, X; reflexivity).
  assert (Bk : forall k, (forall u, u < size A I -> expected A I (Some a) (k, u) = Some (must A I (Some a) k u)) -> both A I (run A I (Some a) vs d) k = true).
  { intros k X. apply both_iff. rewrite !E by (try apply X; lia). split; discriminate. }
  assert (Xj : forall u, u < size A I -> expected A I (Some a) (Jump, u) = Some (must A I (Some a) Jump u)) by (intros u Lu; apply (expected_must A I (Some a)); [assumption..|reflexivity|exact Lu]).
  assert (Xv : forall u, u < size A I -> expected A I (Some a) (Vel, u) = Some (must A I (Some a) Vel u)) by (intros u Lu; apply (expected_must A I (Some a)); [assumption..|reflexivity|exact Lu]).
  split.
  - rewrite jump_kept by auto. rewrite R. cbn [expected fst snd]. rewrite series_must by assumption. reflexivity.
  - rewrite vel_kept by auto. rewrite R. cbn [expected fst snd]. rewrite series_must by assumption. reflexivity.
Qed.

(** * Cases *)
(** Two time steps; texts are lists of numbers; the cages are their text. *)
Definition toy : inputs nat := mkInputs nat (list nat) 2 [10] [11] [12; 3] (fun l => nth 1 l 0) (fun tau t => [20; tau; t]) [7; 8; 9] [7; 8; 9] [30; 31] (fun l => if length l =? 2 then None else Some l)
  (fun tau c t => 40 :: tau :: t :: c) (fun c t => 50 :: t :: c) (fun c t => 60 :: t :: c) true (fun t j b p v => t :: j ++ b ++ match p with Some l => l | None => [] end ++ v).
Definition toy_vs (tau : nat) : list (op nat) := flat_map (fun t => write nat (Vel, t) (vel nat toy tau t)) [0; 1].
Lemma toy_schedule : schedule nat toy toy_vs.
Proof.
  intros tau. unfold toy_vs. cbn.
  apply (one []). cbn. apply (one []). cbn. apply (one []). cbn. apply (one []). cbn. apply (one [[]]). cbn. apply (one [[]]). cbn. apply (one [[]]). cbn. apply (one [[]]). cbn. apply over. intros l [<-|[<-|[]]]; reflexivity.
Qed.
(** A first run is interrupted between two files of jumps, a second one goes to its end; interrupted in the file of cages, the second run stops or works with fewer cages. *)
Example C155_case : 1 <= size nat toy /\ reload nat toy (cages_text nat toy) = Some (cages nat toy) /\ schedule nat toy toy_vs /\
  after_crashes nat toy None (clean nat toy None) (crash nat toy None toy_vs 29 (empty nat)) /\
  crash nat toy None toy_vs 29 (empty nat) (Jump, 0) = Some [40; 3; 0; 7; 8; 9] /\ crash nat toy None toy_vs 29 (empty nat) (Jump, 1) = None /\ run nat toy None toy_vs (crash nat toy None toy_vs 29 (empty nat)) (Jump, 1) = Some [40; 3; 1; 7; 8; 9] /\
  crash nat toy None toy_vs 17 (empty nat) (Cage, 0) = Some [7] /\ run nat toy None toy_vs (crash nat toy None toy_vs 17 (empty nat)) (Jump, 1) = Some [40; 3; 1; 7] /\ ends nat toy None toy_vs (crash nat toy None toy_vs 18 (empty nat)) = false.
Proof.
  split; [cbn; lia|]. split; [reflexivity|]. split; [apply toy_schedule|]. split.
  { apply crashed; [apply no_run; reflexivity|apply toy_schedule|]. split; [right; reflexivity|]. split; [intros _ [|[|t]] L; cbn in L; try reflexivity; lia|]. split; [intros k [<-|[<-|[<-|[]]]]; left; reflexivity|]. intros _ _ [|[|t]] L; cbn in L; try reflexivity; lia. }
  repeat split.
Qed.

Print Assumptions C155_run.
Print Assumptions C155_recovers.
Print Assumptions C155_again.
Print Assumptions C155_cages_kept.
Print Assumptions C155_span_refuted.
Print Assumptions C155_torn_refuted.
Print Assumptions C155_other_interval_refuted.
Print Assumptions C155_case.

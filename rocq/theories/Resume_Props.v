(** C121: interrupted runs, and runs on the files of previous ones. *)
Require Import List Bool Arith Lia.
Require Import Verif.Resume_Model.
Import ListNotations.
Local Open Scope nat_scope.

(** * Specification *)
(** The operations of several threads (or iterations), each in its order. *)
Inductive interleaved {O : Type} : list (list O) -> list O -> Prop :=
| over ls : (forall l, In l ls -> l = []) -> interleaved ls []
| one a o x b l : interleaved (a ++ x :: b) l -> interleaved (a ++ (o :: x) :: b) (o :: l).
Definition prefix {A : Type} (a b : list A) : Prop := exists r, b = a ++ r.
Section Spec.
  Variables (A : Type) (I : inputs A) (arg : option nat).
  (** The velocities of each time are written in order, those of different times in any order. *)
  Definition schedule (vs : nat -> list (op A)) : Prop :=
    forall tau, interleaved (map (fun t => write A (Vel, t) (vel A I tau t)) (seq 0 (size A I))) (vs tau).
  (** The averaging interval, and what each output must hold. *)
  Definition interval : nat := match arg with Some t => t | None => tau_read A I (isf A I) end.
  Definition of_series (f : nat -> text A) (t : nat) : option (text A) := if t <? size A I then Some (f t) else None.
  Definition expected (n : name) : option (text A) :=
    let t := snd n in
    match fst n with
    | Msd => match arg, t with None, 0 => Some (msd A I) | _, _ => None end
    | Ngp => match arg, t with None, 0 => Some (ngp A I) | _, _ => None end
    | Isf => match arg, t with None, 0 => Some (isf A I) | _, _ => None end
    | Vel => of_series (vel A I interval) t
    | Lngb => of_series (lngb A I interval) t
    | Boo => of_series (boo A I interval) t
    | CgBoo => of_series (cgboo A I interval) t
    | Phi => if has_vol A I then of_series (phi A I interval) t else None
    | Vtk => of_series (fun t => vtk A I t (lngb A I interval t) (cgboo A I interval t) (if has_vol A I then phi A I interval t else []) (vel A I interval t)) t
    end.
  (** The disks after any number of interrupted runs, each leaving a disk with the property P. *)
  Inductive after_crashes (P : disk A -> Prop) : disk A -> Prop :=
  | no_run d : (forall n, d n = None) -> after_crashes P d
  | crashed d vs n : after_crashes P d -> schedule vs -> P (crash A I arg vs n d) -> after_crashes P (crash A I arg vs n d).
  Definition absent_or_whole (d : disk A) (n : name) : Prop := d n = None \/ d n = expected n.
  (** No interruption while the scattering function is written. *)
  Definition isf_clean (d : disk A) : Prop := absent_or_whole d (Isf, 0).
  (** ... nor while the last file of a series is, nor between the first velocities written and the last if they include both ends. *)
  Definition clean (d : disk A) : Prop :=
    isf_clean d /\ (forall k, In k [Lngb; Boo; CgBoo; Phi] -> absent_or_whole d (k, size A I - 1)) /\
    (d (Vel, 0) <> None -> d (Vel, size A I - 1) <> None -> forall t, t < size A I -> d (Vel, t) = expected (Vel, t)).
End Spec.

(** * Proofs *)
Lemma name_eqb_spec a b : reflect (a = b) (name_eqb a b).
Proof.
  destruct a as [k t], b as [k' t']. unfold name_eqb. cbn [fst snd]. destruct (Nat.eqb_spec t t') as [->|N].
  - destruct (kind_beq k k') eqn:E; cbn; constructor; [apply internal_kind_dec_bl in E; subst; auto|]. intros X. injection X as ->. rewrite internal_kind_dec_lb in E; auto. discriminate.
  - rewrite andb_false_r. constructor. congruence.
Qed.
Section Proofs.
  Variable (A : Type).
  Notation disk := (disk A). Notation op := (op A). Notation applies := (applies A). Notation write := (write A).
  Definition target (o : op) : name := match o with Trunc n => n | Append n _ => n end.
  Lemma applies_app d a b : applies d (a ++ b) = applies (applies d a) b.
  Proof. apply fold_left_app. Qed.
  Lemma upd_same d n o : upd A d n o n = o.
  Proof. unfold upd. destruct (name_eqb_spec n n); congruence. Qed.
  Lemma upd_other d n o m : m <> n -> upd A d n o m = d m.
  Proof. intros H. unfold upd. destruct (name_eqb_spec m n); congruence. Qed.
  Lemma apply_other d o m : m <> target o -> apply A d o m = d m.
  Proof. destruct o; cbn [target apply]; apply upd_other. Qed.
  Lemma applies_other os : forall d m, (forall o, In o os -> target o <> m) -> applies d os m = d m.
  Proof. induction os as [|o os IH]; intros d m H; [reflexivity|]. cbn. unfold applies in IH. rewrite IH by (intros; apply H; right; auto). apply apply_other. intros E. apply (H o); [left; auto|auto]. Qed.
  Lemma apply_ext d d' o m : d m = d' m -> apply A d o m = apply A d' o m.
  Proof. intros H. destruct o as [n|n c]; cbn [apply]; destruct (name_eqb_spec m n) as [->|N]; rewrite ?upd_same, ?upd_other by auto; auto. rewrite H. auto. Qed.
  Lemma applies_filter os m : forall d d', d m = d' m -> applies d os m = applies d' (filter (fun o => name_eqb (target o) m) os) m.
  Proof.
    induction os as [|o os IH]; intros d d' H; [exact H|]. cbn [filter]. destruct (name_eqb_spec (target o) m) as [E|N].
    - cbn. apply IH. apply apply_ext. auto.
    - cbn. apply IH. rewrite apply_other by auto. auto.
  Qed.
  Lemma appends_ok n s : forall d x, d n = Some x -> applies d (map (Append n) s) n = Some (x ++ s).
  Proof. induction s as [|c s IH]; intros d x H; [cbn; rewrite app_nil_r; auto|]. cbn. unfold applies in IH. rewrite (IH _ (x ++ [c])); [rewrite <- app_assoc; auto|]. cbn [apply]. rewrite upd_same, H. auto. Qed.
  Lemma write_target n s o : In o (write n s) -> target o = n.
  Proof. cbn. intros [<-|H]; [reflexivity|]. apply in_map_iff in H as [c [<- _]]. reflexivity. Qed.
  Lemma write_ok d n s : applies d (write n s) n = Some s.
  Proof. unfold write. cbn. change (fold_left (apply A) (map (Append n) s) (upd A d n (Some [])) n = Some s). apply (appends_ok n s _ []). apply upd_same. Qed.
  Lemma write_prefix j d n s : applies d (firstn (S j) (write n s)) n = Some (firstn j s).
  Proof. cbn [write firstn Resume_Model.write]. rewrite firstn_map. cbn. apply (appends_ok n _ _ []). apply upd_same. Qed.
  Lemma write_len n s : length (write n s) = S (length s).
  Proof. cbn. rewrite map_length. auto. Qed.
  Definition sweep (k : kind) (f : nat -> text A) (a n : nat) : list op := flat_map (fun t => write (k, t) (f t)) (seq a n).
  Lemma sweep_target k f n : forall a o, In o (sweep k f a n) -> exists t, target o = (k, t) /\ a <= t < a + n.
  Proof. intros a o H. unfold sweep in H. apply in_flat_map in H as [t [Ht Ho]]. apply in_seq in Ht. apply write_target in Ho. eauto. Qed.
  Lemma firstn_in (T : Type) j : forall (l : list T) x, In x (firstn j l) -> In x l.
  Proof. induction j as [|j IH]; intros [|a l] x H; cbn in *; try contradiction; auto. destruct H; auto. Qed.
  Lemma sweep_full k f n : forall a d t, a <= t < a + n -> applies d (sweep k f a n) (k, t) = Some (f t).
  Proof.
    induction n as [|n IH]; intros a d t H; [lia|]. unfold sweep. cbn [seq flat_map]. rewrite applies_app. destruct (Nat.eq_dec t a) as [->|N].
    - rewrite applies_other; [apply write_ok|]. intros o Ho. apply sweep_target in Ho as [t [-> Ht]]. intros E. injection E as E. lia.
    - apply (IH (S a)). lia.
  Qed.
  Lemma sweep_prefix k f n : forall a d j, exists i, i <= n /\ (forall t, a <= t < a + i -> applies d (firstn j (sweep k f a n)) (k, t) = Some (f t)) /\
    (i < n -> applies d (firstn j (sweep k f a n)) (k, a + i) = d (k, a + i) \/ exists s, prefix s (f (a + i)) /\ applies d (firstn j (sweep k f a n)) (k, a + i) = Some s) /\
    (forall t, a + i < t -> applies d (firstn j (sweep k f a n)) (k, t) = d (k, t)).
  Proof.
    induction n as [|n IH]; intros a d j.
    - exists 0. split; [lia|]. split; [lia|]. split; [lia|]. intros t _. cbn. rewrite firstn_nil. reflexivity.
    - unfold sweep. cbn [seq flat_map]. fold (sweep k f (S a) n). rewrite firstn_app, applies_app. rewrite write_len. destruct (le_lt_dec (S (length (f a))) j) as [L|L].
      + rewrite (firstn_all2 (write (k, a) (f a))) by (rewrite write_len; auto). set (d1 := applies d (write (k, a) (f a))). destruct (IH (S a) d1 (j - S (length (f a)))) as [i [Hi [H1 [H2 H3]]]].
        assert (O : forall t, t <> a -> d1 (k, t) = d (k, t)). { intros t N. apply applies_other. intros o Ho. apply write_target in Ho as ->. congruence. }
        exists (S i). split; [lia|]. split; [|split].
        * intros t Ht. destruct (Nat.eq_dec t a) as [->|N]; [|apply H1; lia]. rewrite applies_other; [apply write_ok|]. intros o Ho. apply firstn_in in Ho. apply sweep_target in Ho as [t [-> Ht2]]. intros E. injection E as E. lia.
        * intros Hi'. replace (a + S i) with (S a + i) by lia. destruct (H2 ltac:(lia)) as [E|[s [P E]]]; [left; rewrite E; apply O; lia|right; eauto].
        * intros t Ht. rewrite H3 by lia. apply O. lia.
      + replace (j - S (length (f a))) with 0 by lia. cbn [firstn]. change (applies (applies d (firstn j (write (k, a) (f a)))) []) with (applies d (firstn j (write (k, a) (f a)))).
        exists 0. split; [lia|]. split; [lia|]. split.
        * intros _. rewrite Nat.add_0_r. destruct j as [|j]; [left; reflexivity|]. right. exists (firstn j (f a)). split; [exists (skipn j (f a)); symmetry; apply firstn_skipn|]. apply write_prefix.
        * intros t Ht. apply applies_other. intros o Ho. apply firstn_in in Ho. apply write_target in Ho as ->. intros E. injection E as E. lia.
  Qed.
  Lemma prefix_refl (l : list A) : prefix l l.
  Proof. exists []. rewrite app_nil_r. auto. Qed.

  (** ** interleavings *)
  Lemma interleaved_in : forall (ls : list (list op)) l, interleaved ls l -> forall o, In o l -> exists x, In x ls /\ In o x.
  Proof.
    intros ls l H. induction H as [|a o x b l H IH]; intros o' Ho; [contradiction|]. destruct Ho as [<-|Ho].
    - exists (o :: x). split; [apply in_or_app; right; left; auto|left; auto].
    - destruct (IH o' Ho) as [y [Hy Hin]]. apply in_app_or in Hy as [Hy|[<-|Hy]].
      + exists y. split; [apply in_or_app; auto|auto].
      + exists (o :: x). split; [apply in_or_app; right; left; auto|right; auto].
      + exists y. split; [apply in_or_app; right; right; auto|auto].
  Qed.
  Lemma interleaved_filter (g : op -> bool) : forall ls l, interleaved ls l -> forall i x, nth_error ls i = Some x -> (forall j y, nth_error ls j = Some y -> j <> i -> filter g y = []) -> filter g l = filter g x.
  Proof.
    intros ls l H. induction H as [ls H|a o x b l H IH]; intros i z Hi Hn.
    - rewrite (H z); [reflexivity|]. eapply nth_error_In; eauto.
    - cbn [filter]. destruct (Nat.eq_dec i (length a)) as [->|N].
      + rewrite nth_error_app2, Nat.sub_diag in Hi by auto. cbn in Hi. injection Hi as <-. cbn [filter].
        rewrite (IH (length a) x); [reflexivity|rewrite nth_error_app2, Nat.sub_diag by auto; reflexivity|].
        intros j y Hj Nj. apply (Hn j y); auto. destruct (lt_dec j (length a)); [rewrite nth_error_app1 in * by auto; auto|]. rewrite nth_error_app2 in * by lia.
        replace (j - length a) with (S (j - length a - 1)) in * by lia. exact Hj.
      + assert (Ho : filter g (o :: x) = []). { apply (Hn (length a)); [rewrite nth_error_app2, Nat.sub_diag by auto; reflexivity|auto]. }
        cbn [filter] in Ho. destruct (g o); [discriminate|]. apply (IH i z).
        * destruct (lt_dec i (length a)); [rewrite nth_error_app1 in * by auto; auto|]. rewrite nth_error_app2 in * by lia. replace (i - length a) with (S (i - length a - 1)) in * by lia. exact Hi.
        * intros j y Hj Nj. destruct (Nat.eq_dec j (length a)) as [->|Nja].
          -- rewrite nth_error_app2, Nat.sub_diag in Hj by auto. cbn in Hj. injection Hj as <-. auto.
          -- apply (Hn j y); auto. destruct (lt_dec j (length a)); [rewrite nth_error_app1 in * by auto; auto|]. rewrite nth_error_app2 in * by lia. replace (j - length a) with (S (j - length a - 1)) in * by lia. exact Hj.
  Qed.
  Lemma filter_none (g : op -> bool) l : (forall o, In o l -> g o = false) -> filter g l = [].
  Proof. induction l as [|o l IH]; intros H; [reflexivity|]. cbn. rewrite (H o) by (left; auto). apply IH. intros; apply H; right; auto. Qed.
  Lemma filter_all (g : op -> bool) l : (forall o, In o l -> g o = true) -> filter g l = l.
  Proof. induction l as [|o l IH]; intros H; [reflexivity|]. cbn. rewrite (H o) by (left; auto). f_equal. apply IH. intros; apply H; right; auto. Qed.
  Lemma interleaved_writes (k : kind) (f : nat -> text A) n l d t : interleaved (map (fun t => write (k, t) (f t)) (seq 0 n)) l -> t < n -> applies d l (k, t) = Some (f t).
  Proof.
    intros H Ht. rewrite (applies_filter l (k, t) d d eq_refl). rewrite (interleaved_filter _ _ _ H t (write (k, t) (f t))).
    - rewrite filter_all; [apply write_ok|]. intros o Ho. apply write_target in Ho as ->. destruct (name_eqb_spec (k, t) (k, t)); congruence.
    - rewrite nth_error_map. rewrite (nth_error_nth' (seq 0 n) 0) by (rewrite seq_length; auto). rewrite seq_nth by auto. reflexivity.
    - intros j y Hj Nj. rewrite nth_error_map in Hj. destruct (nth_error (seq 0 n) j) as [t'|] eqn:E; [|discriminate]. cbn in Hj. injection Hj as <-.
      assert (Lj : j < n) by (rewrite <- (seq_length n 0); apply nth_error_Some; congruence). rewrite (nth_error_nth' (seq 0 n) 0) in E by (rewrite seq_length; auto). rewrite seq_nth in E by auto. injection E as <-.
      apply filter_none. intros o Ho. apply write_target in Ho as ->. cbn [Nat.add]. destruct (name_eqb_spec (k, j) (k, t)); [|auto]. congruence.
  Qed.
  Lemma interleaved_target (k : kind) (f : nat -> text A) n l : interleaved (map (fun t => write (k, t) (f t)) (seq 0 n)) l -> forall o, In o l -> exists t, target o = (k, t) /\ t < n.
  Proof.
    intros H o Ho. destruct (interleaved_in _ _ H o Ho) as [x [Hx Hin]]. apply in_map_iff in Hx as [t [<- Ht]]. apply in_seq in Ht. apply write_target in Hin. exists t. split; [auto|lia].
  Qed.

  (** ** stages *)
  Variables (I : inputs A) (arg : option nat).
  Hypothesis (S1 : 1 <= size A I).
  Notation tau := (interval A I arg).
  Notation last := (size A I - 1).
  (** A series: when its last file is there the others are whole, and the last is the beginning of what it must be. *)
  Definition seqI (k : kind) (f : nat -> text A) (d : disk) : Prop :=
    forall s, d (k, last) = Some s -> prefix s (f last) /\ forall t, t < last -> d (k, t) = Some (f t).
  Lemma series_skip k f d : both A I d k = true -> series A I k f d = [].
  Proof. unfold series. intros ->. reflexivity. Qed.
  Lemma both_iff d k : both A I d k = true <-> d (k, 0) <> None /\ d (k, last) <> None.
  Proof. unfold both, present. destruct (d (k, 0)), (d (k, last)); cbn; split; intros H; try discriminate; try (split; discriminate); destruct H; try congruence. Qed.
  Lemma not_both k f d : seqI k f d -> both A I d k = false -> d (k, last) = None.
  Proof.
    intros H B. destruct (d (k, last)) as [s|] eqn:E; auto. exfalso. destruct (H s E) as [_ W]. assert (X : both A I d k = true); [|congruence]. apply both_iff. split; [|congruence].
    destruct (Nat.eq_dec last 0) as [Z|N]; [rewrite Z in E; congruence|]. rewrite W by lia. congruence.
  Qed.
  Lemma series_target k f d j o : In o (firstn j (series A I k f d)) -> exists t, target o = (k, t) /\ t < size A I.
  Proof.
    intros H. apply firstn_in in H. unfold series in H. destruct (both A I d k); [contradiction|]. destruct (sweep_target k f _ _ _ H) as [t [E R]]. exists t. split; [auto|lia].
  Qed.
  Lemma series_prefix k f d j : seqI k f d -> seqI k f (applies d (firstn j (series A I k f d))).
  Proof.
    intros H. unfold series. destruct (both A I d k) eqn:B; [rewrite firstn_nil; exact H|]. pose proof (not_both k f d H B) as N. fold (sweep k f 0 (size A I)).
    destruct (sweep_prefix k f (size A I) 0 d j) as [i [Hi [H1 [H2 H3]]]]. cbn [Nat.add] in *. intros s E. destruct (lt_eq_lt_dec i last) as [[L|L]|L].
    - rewrite H3, N in E by auto. discriminate.
    - subst i. destruct (H2 ltac:(lia)) as [X|[s' [P X]]]; [rewrite X, N in E; discriminate|]. rewrite X in E. injection E as ->. split; [exact P|]. intros t Ht. apply H1. lia.
    - split; [|intros t Ht; apply H1; lia]. rewrite H1 in E by lia. injection E as <-. apply prefix_refl.
  Qed.
  Lemma series_full k f d : seqI k f d -> let d' := applies d (series A I k f d) in
    (forall t, t < last -> d' (k, t) = Some (f t)) /\ (exists s, prefix s (f last) /\ d' (k, last) = Some s) /\ (d (k, last) = None \/ d (k, last) = Some (f last) -> d' (k, last) = Some (f last)).
  Proof.
    intros H d'. unfold d', series. destruct (both A I d k) eqn:B.
    - cbn. apply both_iff in B as [_ B]. destruct (d (k, last)) as [s|] eqn:E; [|congruence]. destruct (H s E) as [P W]. split; [exact W|]. split; [eauto|]. intros [X|X]; [discriminate|exact X].
    - fold (sweep k f 0 (size A I)). split; [intros t Ht; apply sweep_full; lia|]. split; [|intros _; apply sweep_full; lia]. exists (f last). split; [apply prefix_refl|apply sweep_full; lia].
  Qed.
  Lemma series_other k f d j n : fst n <> k \/ size A I <= snd n -> applies d (firstn j (series A I k f d)) n = d n.
  Proof. intros H. apply applies_other. intros o Ho E. apply series_target in Ho as [t [X R]]. rewrite X in E. subst n. cbn in H. destruct H; [congruence|lia]. Qed.

  Definition fileof (k : kind) : nat -> text A := match k with Lngb => lngb A I tau | Boo => boo A I tau | CgBoo => cgboo A I tau | _ => phi A I tau end.
  Definition isfI (d : disk) : Prop := forall s, d (Isf, 0) = Some s -> arg = None /\ prefix s (isf A I) /\ d (Msd, 0) = Some (msd A I) /\ d (Ngp, 0) = Some (ngp A I).
  (** what is true of the disk at any time *)
  Record inv (d : disk) : Prop := {
    inv_series : forall k, In k [Lngb; Boo; CgBoo; Phi] -> seqI k (fileof k) d;
    inv_isf : isfI d;
    inv_none : forall n, expected A I arg n = None -> d n = None }.
  Lemma of_series_none (f : nat -> text A) t : of_series A I f t = None <-> size A I <= t.
  Proof. unfold of_series. destruct (Nat.ltb_spec t (size A I)); split; intros H0; try discriminate; auto; lia. Qed.
  Definition good (d : disk) : Prop := inv d /\ tau_of A I arg d = tau.

  (** Preservation by an incomplete stage. *)
  Lemma series_inv k d j : In k [Lngb; Boo; CgBoo; Phi] -> (k = Phi -> has_vol A I = true) -> good d -> good (applies d (firstn j (series A I k (fileof k) d))).
  Proof.
    intros Hk Hv [[G1 G2 G3] G4]. assert (O : forall n, fst n <> k \/ size A I <= snd n -> applies d (firstn j (series A I k (fileof k) d)) n = d n) by (intros; apply series_other; auto).
    assert (Ki : k <> Isf /\ k <> Msd /\ k <> Ngp) by (cbn in Hk; destruct Hk as [<-|[<-|[<-|[<-|[]]]]]; repeat split; discriminate). destruct Ki as [K1 [K2 K3]]. split; [split|].
    - intros k' Hk'. destruct (kind_eq_dec k' k) as [->|N]; [apply series_prefix; apply G1; auto|]. intros s E. rewrite O in E by (left; exact N). destruct (G1 k' Hk' s E) as [P W]. split; [exact P|].
      intros t Ht. rewrite O by (left; exact N). auto.
    - intros s E. rewrite O in E by (left; cbn; congruence). destruct (G2 s E) as [Ar [P [Q R]]]. split; [exact Ar|]. split; [exact P|]. rewrite !O by (left; cbn; congruence). auto.
    - intros n E. rewrite O; [apply G3; auto|]. destruct n as [k' t]. cbn [fst snd]. destruct (kind_eq_dec k' k) as [->|N]; [right|left; exact N].
      cbn in Hk. unfold expected in E. cbn [fst snd] in E. destruct Hk as [<-|[<-|[<-|[<-|[]]]]]; try (apply of_series_none in E; exact E). rewrite (Hv eq_refl) in E. apply of_series_none in E; exact E.
    - unfold tau_of, contents. rewrite O by (left; cbn; congruence). exact G4.
  Qed.
  (** operations on velocities and pictures, in range, change nothing of the above *)
  Lemma other_inv k d os : (k = Vel \/ k = Vtk) -> (forall o, In o os -> exists t, target o = (k, t) /\ t < size A I) -> good d -> good (applies d os).
  Proof.
    intros Hk Ho [[G1 G2 G3] G4]. assert (O : forall n, fst n <> k \/ size A I <= snd n -> applies d os n = d n).
    { intros n H. apply applies_other. intros o Hin E. destruct (Ho o Hin) as [t [X R]]. rewrite X in E. subst n. cbn in H. destruct H; [congruence|lia]. }
    assert (K : forall k', k' <> Vel -> k' <> Vtk -> k' <> k) by (intros k' A1 A2; destruct Hk as [-> | ->]; auto). split; [split|].
    - intros k' Hk' s E. assert (N : k' <> k) by (apply K; cbn in Hk'; destruct Hk' as [<-|[<-|[<-|[<-|[]]]]]; discriminate). rewrite O in E by (left; exact N). destruct (G1 k' Hk' s E) as [P W]. split; [exact P|].
      intros t Ht. rewrite O by (left; exact N). auto.
    - intros s E. rewrite O in E by (left; apply K; discriminate). destruct (G2 s E) as [Ar [P [Q R]]]. split; [exact Ar|]. split; [exact P|]. rewrite !O by (left; apply K; discriminate). auto.
    - intros n E. rewrite O; [apply G3; auto|]. destruct n as [k' t]. cbn [fst snd]. destruct (kind_eq_dec k' k) as [->|N]; [right|left; exact N].
      unfold expected in E. cbn [fst snd] in E. destruct Hk as [-> | ->]; apply of_series_none in E; exact E.
    - unfold tau_of, contents. rewrite O by (left; apply K; discriminate). exact G4.
  Qed.
  Lemma isf_target d j o : In o (firstn j (isf_stage A I arg d)) -> arg = None /\ In (target o) [(Msd, 0); (Ngp, 0); (Isf, 0)].
  Proof.
    intros H. apply firstn_in in H. unfold isf_stage in H. destruct arg; [contradiction|]. destruct (present A d (Isf, 0)); [contradiction|]. split; [reflexivity|].
    apply in_app_or in H as [H|H]; [|apply in_app_or in H as [H|H]]; apply write_target in H as ->; cbn; auto.
  Qed.
  Lemma isf_other d j n : ~ In n [(Msd, 0); (Ngp, 0); (Isf, 0)] -> applies d (firstn j (isf_stage A I arg d)) n = d n.
  Proof. intros H. apply applies_other. intros o Ho E. apply isf_target in Ho as [_ Ho]. rewrite E in Ho. auto. Qed.
  Lemma isf_inv d j : inv d -> inv (applies d (firstn j (isf_stage A I arg d))).
  Proof.
    intros [G1 G2 G3]. assert (O := fun n => isf_other d j n).
    split.
    - intros k Hk s E. assert (N : k <> Isf /\ k <> Msd /\ k <> Ngp) by (cbn in Hk; destruct Hk as [<-|[<-|[<-|[<-|[]]]]]; repeat split; discriminate). destruct N as [K1 [K2 K3]].
      rewrite O in E by (cbn; intros [X|[X|[X|[]]]]; congruence). destruct (G1 k Hk s E) as [P W]. split; [exact P|]. intros t Ht. rewrite O by (cbn; intros [X|[X|[X|[]]]]; congruence). auto.
    - unfold isf_stage. destruct arg as [a|] eqn:Ea; [rewrite firstn_nil; exact G2|]. unfold present. destruct (d (Isf, 0)) eqn:Ei; [rewrite firstn_nil; exact G2|].
      intros s E. split; [exact Ea|]. rewrite firstn_app, firstn_app, !applies_app in *. rewrite !write_len in *.
      assert (F : forall d j n m x, n <> m -> applies d (firstn j (write m x)) n = d n). { intros d0 j0 n m x Nm. apply applies_other. intros o Ho X. apply firstn_in in Ho. apply write_target in Ho. congruence. }
      destruct (le_lt_dec j (S (length (msd A I)) + S (length (ngp A I)))) as [L|L].
      + replace (j - S (length (msd A I)) - S (length (ngp A I))) with 0 in E by lia. cbn [firstn] in E. change (applies (applies (applies d (firstn j (write (Msd, 0) (msd A I)))) (firstn (j - S (length (msd A I))) (write (Ngp, 0) (ngp A I)))) [] (Isf, 0) = Some s) with
          (applies (applies d (firstn j (write (Msd, 0) (msd A I)))) (firstn (j - S (length (msd A I))) (write (Ngp, 0) (ngp A I))) (Isf, 0) = Some s) in E. rewrite !F, Ei in E by discriminate. discriminate.
      + rewrite (firstn_all2 (write (Msd, 0) (msd A I))) in * by (rewrite write_len; lia). rewrite (firstn_all2 (write (Ngp, 0) (ngp A I))) in * by (rewrite write_len; lia).
        destruct (j - S (length (msd A I)) - S (length (ngp A I))) as [|i] eqn:Ej; [lia|]. rewrite write_prefix in E. injection E as <-. split; [exists (skipn i (isf A I)); symmetry; apply firstn_skipn|]. split.
        * rewrite F by discriminate. rewrite applies_other; [apply write_ok|]. intros o Ho X. apply write_target in Ho. congruence.
        * rewrite F by discriminate. apply write_ok.
    - intros n E. destruct arg as [a|] eqn:Ea; [cbn; rewrite firstn_nil; apply G3; auto|]. rewrite O; [apply G3; auto|]. intros [<-|[<-|[<-|[]]]]; cbn in E; discriminate.
  Qed.

  Definition tau_sure (d : disk) : Prop := arg <> None \/ isf_clean A I arg d.
  Lemma isf_full d : inv d -> tau_sure d -> good (applies d (isf_stage A I arg d)) /\
    (arg = None -> applies d (isf_stage A I arg d) (Msd, 0) = Some (msd A I) /\ applies d (isf_stage A I arg d) (Ngp, 0) = Some (ngp A I) /\ applies d (isf_stage A I arg d) (Isf, 0) = Some (isf A I)).
  Proof.
    intros G T. assert (G' : inv (applies d (isf_stage A I arg d))). { rewrite <- (firstn_all (isf_stage A I arg d)). apply isf_inv; auto. }
    assert (W : arg = None -> applies d (isf_stage A I arg d) (Msd, 0) = Some (msd A I) /\ applies d (isf_stage A I arg d) (Ngp, 0) = Some (ngp A I) /\ applies d (isf_stage A I arg d) (Isf, 0) = Some (isf A I)).
    { intros Ea. destruct T as [T|T]; [congruence|]. unfold isf_stage, present. rewrite Ea. destruct (d (Isf, 0)) as [s|] eqn:E.
      - destruct (inv_isf d G s E) as [_ [_ [M N]]]. destruct T as [T|T]; [congruence|]. cbn in T. rewrite Ea in T. cbn. split; [auto|]. split; [auto|]. congruence.
      - rewrite !applies_app. assert (F : forall d n m x, n <> m -> applies d (write m x) n = d n). { intros d0 n m x Nm. apply applies_other. intros o Ho X. apply write_target in Ho. congruence. }
        split; [rewrite !F by discriminate; apply write_ok|]. split; [rewrite F by discriminate; apply write_ok|apply write_ok]. }
    split; [|exact W]. split; [exact G'|]. unfold tau_of, interval. destruct arg as [a|] eqn:Ea; [reflexivity|]. unfold contents. destruct (W eq_refl) as [_ [_ ->]]. reflexivity.
  Qed.
  Lemma vel_other vs d j n : schedule A I vs -> fst n <> Vel \/ size A I <= snd n -> applies d (firstn j (vel_stage A I arg vs d)) n = d n.
  Proof.
    intros Sc H. unfold vel_stage. destruct (both A I d Vel); [rewrite firstn_nil; reflexivity|]. apply applies_other. intros o Ho E. apply firstn_in in Ho.
    destruct (interleaved_target _ _ _ _ (Sc _) o Ho) as [t [X R]]. rewrite X in E. subst n. cbn in H. destruct H; [congruence|lia].
  Qed.
  Lemma vel_inv vs d j : schedule A I vs -> good d -> good (applies d (firstn j (vel_stage A I arg vs d))).
  Proof.
    intros Sc G. unfold vel_stage. destruct (both A I d Vel); [rewrite firstn_nil; exact G|]. apply (other_inv Vel); auto. intros o Ho. apply firstn_in in Ho. destruct (interleaved_target _ _ _ _ (Sc _) o Ho) as [t X]. eauto.
  Qed.
  Lemma vtk_inv d j : good d -> good (applies d (firstn j (vtk_stage A I d))).
  Proof.
    intros G. apply (other_inv Vtk); auto. intros o Ho. apply firstn_in in Ho. unfold vtk_stage in Ho. apply in_flat_map in Ho as [t [Ht Ho]]. apply in_seq in Ht. apply write_target in Ho. exists t. split; [auto|lia].
  Qed.
  Lemma vtk_other d n : fst n <> Vtk -> applies d (vtk_stage A I d) n = d n.
  Proof. intros H. apply applies_other. intros o Ho E. unfold vtk_stage in Ho. apply in_flat_map in Ho as [t [Ht Ho]]. apply write_target in Ho. rewrite Ho in E. subst n. cbn in H. congruence. Qed.
  Definition one_series (k : kind) (d : disk) : list op :=
    match k with
    | Lngb => series A I Lngb (lngb A I (tau_of A I arg d)) d
    | Boo => series A I Boo (boo A I (tau_of A I arg d)) d
    | CgBoo => series A I CgBoo (cgboo A I (tau_of A I arg d)) d
    | _ => phi_stage A I arg d
    end.
  Lemma one_series_eq k d : In k [Lngb; Boo; CgBoo; Phi] -> good d -> one_series k d = if match k with Phi => has_vol A I | _ => true end then series A I k (fileof k) d else [].
  Proof.
    intros Hk [_ T]. cbn in Hk. destruct Hk as [<-|[<-|[<-|[<-|[]]]]]; cbn [one_series fileof]; rewrite ?T; auto. unfold phi_stage. rewrite T. reflexivity.
  Qed.
  Lemma one_series_inv k d j : In k [Lngb; Boo; CgBoo; Phi] -> good d -> good (applies d (firstn j (one_series k d))).
  Proof.
    intros Hk G. rewrite one_series_eq by auto. destruct (match k with Phi => has_vol A I | _ => true end) eqn:E; [|rewrite firstn_nil; exact G]. apply series_inv; auto. intros ->. exact E.
  Qed.
  Lemma one_series_other k d n : In k [Lngb; Boo; CgBoo; Phi] -> good d -> fst n <> k -> applies d (one_series k d) n = d n.
  Proof.
    intros Hk G H. rewrite one_series_eq by auto. destruct (match k with Phi => has_vol A I | _ => true end); [|reflexivity]. rewrite <- (firstn_all (series A I k (fileof k) d)). apply series_other. auto.
  Qed.
  Definition rest vs : list (disk -> list op) := [vel_stage A I arg vs; one_series Lngb; one_series Boo; one_series CgBoo; one_series Phi; vtk_stage A I].
  Lemma stages_eq vs : stages A I arg vs = isf_stage A I arg :: rest vs.
  Proof. reflexivity. Qed.
  Lemma andthen_good ss : (forall s, In s ss -> forall d j, good d -> good (applies d (firstn j (s d)))) -> forall d n, good d -> good (applies d (firstn n (andthen A ss d))).
  Proof.
    induction ss as [|s ss IH]; intros H d n G; cbn [andthen]; [rewrite firstn_nil; exact G|]. rewrite firstn_app, applies_app. destruct (le_lt_dec (length (s d)) n) as [L|L].
    - rewrite (firstn_all2 (s d)) by auto. apply IH; [intros; apply H; [right; auto|auto]|]. rewrite <- (firstn_all (s d)). apply H; [left; auto|auto].
    - replace (n - length (s d)) with 0 by lia. cbn [firstn]. change (good (applies d (firstn n (s d)))). apply H; [left; auto|auto].
  Qed.
  Lemma rest_good vs : schedule A I vs -> forall s, In s (rest vs) -> forall d j, good d -> good (applies d (firstn j (s d))).
  Proof.
    intros Sc s Hs d j G. cbn in Hs. destruct Hs as [<-|[<-|[<-|[<-|[<-|[<-|[]]]]]]]; [apply vel_inv; auto| | | | |apply vtk_inv; auto]; apply one_series_inv; auto; cbn; auto.
  Qed.
  Lemma crash_inv vs n d : schedule A I vs -> inv d -> tau_sure d -> inv (crash A I arg vs n d).
  Proof.
    intros Sc G T. unfold crash, operations. rewrite stages_eq. cbn [andthen]. rewrite firstn_app, applies_app. destruct (le_lt_dec (length (isf_stage A I arg d)) n) as [L|L].
    - rewrite (firstn_all2 (isf_stage A I arg d)) by auto. apply (andthen_good (rest vs)); [apply rest_good; auto|apply isf_full; auto].
    - replace (n - length (isf_stage A I arg d)) with 0 by lia. cbn [firstn]. change (inv (applies d (firstn n (isf_stage A I arg d)))). apply isf_inv. auto.
  Qed.
  Lemma fresh_inv d : (forall n, d n = None) -> inv d /\ tau_sure d.
  Proof.
    intros H. split; [split|].
    - intros k Hk s E. rewrite H in E. discriminate.
    - intros s E. rewrite H in E. discriminate.
    - intros n _. apply H.
    - right. left. apply H.
  Qed.
  Lemma history_inv (P : disk -> Prop) d : (forall d, P d -> tau_sure d) -> after_crashes A I arg P d -> inv d /\ tau_sure d.
  Proof. intros HP H. induction H as [d H|d vs n H IH Sc HPd]; [apply fresh_inv; auto|]. destruct IH as [G T]. split; [apply crash_inv; auto|auto]. Qed.

  (** a complete run *)
  Lemma run_result vs d : schedule A I vs -> inv d -> tau_sure d -> let d' := run A I arg vs d in
    inv d' /\
    (forall k, In k [Lngb; Boo; CgBoo; Phi] -> (k = Phi -> has_vol A I = true) ->
       (forall t, t < last -> d' (k, t) = Some (fileof k t)) /\ (exists s, prefix s (fileof k last) /\ d' (k, last) = Some s) /\
       (d (k, last) = None \/ d (k, last) = Some (fileof k last) -> d' (k, last) = Some (fileof k last))) /\
    (forall t, t < size A I -> d' (Vel, t) = if both A I d Vel then d (Vel, t) else Some (vel A I tau t)) /\
    (arg = None -> d' (Msd, 0) = Some (msd A I) /\ d' (Ngp, 0) = Some (ngp A I) /\ d' (Isf, 0) = Some (isf A I)) /\
    (forall t, t < size A I -> d' (Vtk, t) = Some (vtk A I t (contents A d' (Lngb, t)) (contents A d' (CgBoo, t)) (contents A d' (Phi, t)) (contents A d' (Vel, t)))).
  Proof.
    intros Sc G T d'. unfold d', run, operations. rewrite stages_eq. cbn [andthen rest]. rewrite !applies_app. rewrite app_nil_r || idtac.
    destruct (isf_full d G T) as [G1 W1]. pose proof (fun n => isf_other d (length (isf_stage A I arg d)) n) as O1. rewrite firstn_all in O1. set (d1 := applies d (isf_stage A I arg d)) in *.
    pose proof (vel_inv vs d1 (length (vel_stage A I arg vs d1)) Sc G1) as G2. pose proof (fun n => vel_other vs d1 (length (vel_stage A I arg vs d1)) n Sc) as O2. rewrite firstn_all in G2, O2.
    assert (V2 : forall t, t < size A I -> applies d1 (vel_stage A I arg vs d1) (Vel, t) = if both A I d Vel then d (Vel, t) else Some (vel A I tau t)).
    { intros t Ht. assert (Eb : both A I d1 Vel = both A I d Vel). { unfold both, present. rewrite !O1 by (cbn; intros [X|[X|[X|[]]]]; discriminate). reflexivity. }
      unfold vel_stage. rewrite Eb. destruct (both A I d Vel); [cbn; apply O1; cbn; intros [X|[X|[X|[]]]]; discriminate|]. destruct G1 as [_ ->]. apply (interleaved_writes Vel (vel A I tau) (size A I)); auto. }
    set (d2 := applies d1 (vel_stage A I arg vs d1)) in *.
    assert (St : forall k d, In k [Lngb; Boo; CgBoo; Phi] -> good d -> good (applies d (one_series k d))). { intros k d0 Hk G0. rewrite <- (firstn_all (one_series k d0)). apply one_series_inv; auto. }
    pose proof (St Lngb d2 ltac:(cbn; auto) G2) as G3. pose proof (fun n => one_series_other Lngb d2 n ltac:(cbn; auto) G2) as O3. set (d3 := applies d2 (one_series Lngb d2)) in *.
    pose proof (St Boo d3 ltac:(cbn; auto) G3) as G4. pose proof (fun n => one_series_other Boo d3 n ltac:(cbn; auto) G3) as O4. set (d4 := applies d3 (one_series Boo d3)) in *.
    pose proof (St CgBoo d4 ltac:(cbn; auto) G4) as G5. pose proof (fun n => one_series_other CgBoo d4 n ltac:(cbn; auto) G4) as O5. set (d5 := applies d4 (one_series CgBoo d4)) in *.
    pose proof (St Phi d5 ltac:(cbn; auto) G5) as G6. pose proof (fun n => one_series_other Phi d5 n ltac:(cbn; auto) G5) as O6. set (d6 := applies d5 (one_series Phi d5)) in *.
    pose proof (vtk_inv d6 (length (vtk_stage A I d6)) G6) as G7. pose proof (fun n => vtk_other d6 n) as O7. rewrite firstn_all in G7.
    assert (X : applies (applies d6 (vtk_stage A I d6)) [] = applies d6 (vtk_stage A I d6)) by reflexivity. rewrite ?X. clear X.
    set (d7 := applies d6 (vtk_stage A I d6)) in *.
    assert (Ser : forall k da, In k [Lngb; Boo; CgBoo; Phi] -> (k = Phi -> has_vol A I = true) -> good da -> (forall t, da (k, t) = d (k, t)) ->
      (forall t, d7 (k, t) = applies da (one_series k da) (k, t)) ->
      (forall t, t < last -> d7 (k, t) = Some (fileof k t)) /\ (exists s, prefix s (fileof k last) /\ d7 (k, last) = Some s) /\ (d (k, last) = None \/ d (k, last) = Some (fileof k last) -> d7 (k, last) = Some (fileof k last))).
    { intros k da Hk Hv Ga Eq E7. rewrite one_series_eq in E7 by auto. replace (match k with Phi => has_vol A I | _ => true end) with true in E7 by (destruct k; auto; symmetry; auto).
      destruct Ga as [Ga _]. destruct (series_full k (fileof k) da (inv_series da Ga k Hk)) as [Y1 [Y2 Y3]]. split; [intros t Ht; rewrite E7; auto|]. split; [destruct Y2 as [s [P Y2]]; exists s; rewrite E7; auto|].
      intros Hl. rewrite E7. apply Y3. rewrite Eq. exact Hl. }
    assert (N3 : forall k t, In k [Lngb; Boo; CgBoo; Phi] -> d2 (k, t) = d (k, t)).
    { intros k t Hk. assert (Q : k <> Vel /\ k <> Msd /\ k <> Ngp /\ k <> Isf) by (cbn in Hk; destruct Hk as [<-|[<-|[<-|[<-|[]]]]]; repeat split; discriminate). destruct Q as [Q1 [Q2 [Q3 Q4]]].
      rewrite O2 by (left; exact Q1). apply O1. cbn. intros [X|[X|[X|[]]]]; congruence. }
    split; [apply G7|]. split; [|split; [|split]].
    - intros k Hk Hv. cbn in Hk. destruct Hk as [<-|[<-|[<-|[<-|[]]]]].
      + apply (Ser Lngb d2); auto; [cbn; auto|intros t; apply N3; cbn; auto|]. intros t. rewrite O7, O6, O5, O4 by discriminate. reflexivity.
      + apply (Ser Boo d3); auto; [cbn; auto|intros t; rewrite O3 by discriminate; apply N3; cbn; auto|]. intros t. rewrite O7, O6, O5 by discriminate. reflexivity.
      + apply (Ser CgBoo d4); auto; [cbn; auto|intros t; rewrite O4, O3 by discriminate; apply N3; cbn; auto|]. intros t. rewrite O7, O6 by discriminate. reflexivity.
      + apply (Ser Phi d5); auto; [cbn; auto|intros t; rewrite O5, O4, O3 by discriminate; apply N3; cbn; auto|]. intros t. rewrite O7 by discriminate. reflexivity.
    - intros t Ht. rewrite O7, O6, O5, O4, O3 by discriminate. apply V2. auto.
    - intros Ea. destruct (W1 Ea) as [M [N J]]. rewrite !O7, !O6, !O5, !O4, !O3 by discriminate. rewrite !O2 by (left; discriminate). auto.
    - intros t Ht. assert (C : forall k, k <> Vtk -> contents A d7 (k, t) = contents A d6 (k, t)) by (intros k Hk; unfold contents; rewrite O7 by (exact Hk); reflexivity).
      rewrite !C by discriminate. unfold d7. unfold vtk_stage. apply (sweep_full Vtk (fun t => vtk A I t (contents A d6 (Lngb, t)) (contents A d6 (CgBoo, t)) (contents A d6 (Phi, t)) (contents A d6 (Vel, t))) (size A I) 0 d6 t). lia.
  Qed.
End Proofs.

(** * Theorems *)
(** After any number of interrupted runs on the same inputs, none of which stopped while the scattering function or the last file of a series was being written, nor with both ends of
    the velocities written but not all of them, a complete run leaves on the disk exactly what a single run would have. *)
Theorem C121_recovers (A : Type) (I : inputs A) arg d vs : 1 <= size A I -> after_crashes A I arg (clean A I arg) d -> schedule A I vs -> forall n, run A I arg vs d n = expected A I arg n.
Proof.
  intros S1 H Sc. destruct (history_inv A I arg S1 (clean A I arg) d) as [G T]; [intros d0 X; right; apply X|auto|].
  assert (C : clean A I arg d). { inversion H as [d0 F|d0 vs0 n0 _ _ X]; [|exact X]. split; [left; apply F|]. split; [intros k _; left; apply F|]. intros X. exfalso. apply X, F. }
  destruct C as [C1 [C2 C3]]. destruct (run_result A I arg S1 vs d Sc G T) as [G' [R1 [R2 [R3 R4]]]].
  assert (W : forall k, In k [Lngb; Boo; CgBoo; Phi] -> (k = Phi -> has_vol A I = true) -> forall t, t < size A I -> run A I arg vs d (k, t) = Some (fileof A I arg k t)).
  { intros k Hk Hv t Ht. destruct (R1 k Hk Hv) as [X1 [_ X3]]. destruct (Nat.eq_dec t (size A I - 1)) as [->|N]; [|apply X1; lia]. apply X3. destruct (C2 k Hk) as [E|E]; [auto|right]. rewrite E. unfold expected, of_series. cbn [fst snd].
    destruct (Nat.ltb_spec (size A I - 1) (size A I)); [|lia]. cbn in Hk. destruct Hk as [<-|[<-|[<-|[<-|[]]]]]; cbn [fileof]; auto. rewrite Hv; auto. }
  assert (V : forall t, t < size A I -> run A I arg vs d (Vel, t) = Some (vel A I (interval A I arg) t)).
  { intros t Ht. rewrite R2 by auto. destruct (both A I d Vel) eqn:B; [|reflexivity]. apply both_iff in B as [B1 B2]. rewrite (C3 B1 B2 t Ht). cbn. unfold of_series. destruct (Nat.ltb_spec t (size A I)); [reflexivity|lia]. }
  intros [k t]. destruct (expected A I arg (k, t)) as [e|] eqn:E; [|apply (inv_none A I arg _ G'); auto].
  assert (L : forall f, of_series A I f t = Some e -> t < size A I /\ e = f t). { intros f X. unfold of_series in X. destruct (Nat.ltb_spec t (size A I)); [|discriminate]. injection X as <-. auto. }
  unfold expected in E. cbn [fst snd] in E. destruct k.
  - destruct arg as [a|] eqn:Ea; [discriminate|]. destruct t; [|discriminate]. injection E as <-. apply R3. reflexivity.
  - destruct arg as [a|] eqn:Ea; [discriminate|]. destruct t; [|discriminate]. injection E as <-. apply R3. reflexivity.
  - destruct arg as [a|] eqn:Ea; [discriminate|]. destruct t; [|discriminate]. injection E as <-. apply R3. reflexivity.
  - apply L in E as [Lt ->]. apply V. auto.
  - apply L in E as [Lt ->]. apply (W Lngb); cbn; auto; discriminate.
  - apply L in E as [Lt ->]. apply (W Boo); cbn; auto; discriminate.
  - apply L in E as [Lt ->]. apply (W CgBoo); cbn; auto; discriminate.
  - destruct (has_vol A I) eqn:Hv; [|discriminate]. apply L in E as [Lt ->]. apply (W Phi); cbn; auto.
  - apply L in E as [Lt ->]. rewrite R4 by auto. unfold contents at 1 2 4. rewrite (W Lngb), (W CgBoo), V by (cbn; auto; discriminate). cbn [fileof]. f_equal. f_equal. unfold contents.
    destruct (has_vol A I) eqn:Hv; [rewrite (W Phi) by (cbn; auto); reflexivity|]. rewrite (inv_none A I arg _ G'); [reflexivity|]. cbn. rewrite Hv. reflexivity.
Qed.
(** Wherever the runs stopped (but not in the scattering function, or with an interval given): all files of the series but the last are whole, and the last is the beginning of what it must be. *)
Theorem C121_all_but_last (A : Type) (I : inputs A) arg d vs : 1 <= size A I -> after_crashes A I arg (fun d => arg <> None \/ isf_clean A I arg d) d -> schedule A I vs ->
  forall k, In k [Lngb; Boo; CgBoo; Phi] -> (k = Phi -> has_vol A I = true) ->
  (forall t, t < size A I - 1 -> run A I arg vs d (k, t) = expected A I arg (k, t)) /\
  exists s e, run A I arg vs d (k, size A I - 1) = Some s /\ expected A I arg (k, size A I - 1) = Some e /\ prefix s e.
Proof.
  intros S1 H Sc k Hk Hv. destruct (history_inv A I arg S1 _ d (fun _ X => X) H) as [G T]. destruct (run_result A I arg S1 vs d Sc G T) as [_ [R1 _]]. destruct (R1 k Hk Hv) as [X1 [[s [P X2]] _]].
  assert (E : forall t, t < size A I -> expected A I arg (k, t) = Some (fileof A I arg k t)).
  { intros t Ht. unfold expected, of_series. cbn [fst snd]. destruct (Nat.ltb_spec t (size A I)); [|lia]. cbn in Hk. destruct Hk as [<-|[<-|[<-|[<-|[]]]]]; cbn [fileof]; auto. rewrite Hv; auto. }
  split; [intros t Ht; rewrite X1, E by lia; reflexivity|]. exists s, (fileof A I arg k (size A I - 1)). split; [exact X2|]. split; [apply E; lia|exact P].
Qed.
(** Once the first and the last file of a series are there, whatever they hold, no run changes any file of this series: neither with other inputs nor with another interval. *)
Theorem C121_never_repaired (A : Type) (I : inputs A) arg d vs k : 1 <= size A I -> In k [Vel; Lngb; Boo; CgBoo; Phi] -> schedule A I vs -> d (k, 0) <> None -> d (k, size A I - 1) <> None ->
  forall t n, run A I arg vs d (k, t) = d (k, t) /\ crash A I arg vs n d (k, t) = d (k, t).
Proof.
  intros S1 Hk Sc H0 H1.
  assert (K : k <> Isf /\ k <> Msd /\ k <> Ngp /\ k <> Vtk) by (cbn in Hk; destruct Hk as [<-|[<-|[<-|[<-|[<-|[]]]]]]; repeat split; discriminate). destruct K as [K1 [K2 [K3 K4]]].
  set (B := fun d : disk A => both A I d k = true).
  assert (St : forall s, In s (stages A I arg vs) -> forall d, B d -> forall o, In o (s d) -> fst (target A o) <> k).
  { assert (Q : forall k' f d o, B d -> In o (series A I k' f d) -> fst (target A o) <> k).
    { intros k' f d0 o Bd Ho. destruct (kind_eq_dec k' k) as [->|N]; [rewrite (series_skip A I) in Ho by exact Bd; contradiction|]. rewrite <- (firstn_all (series A I k' f d0)) in Ho. apply series_target in Ho as [t [-> _]]; [exact N|exact S1]. }
    intros s Hs d0 Bd o Ho. unfold stages in Hs. cbn in Hs. destruct Hs as [<-|[<-|[<-|[<-|[<-|[<-|[<-|[]]]]]]]].
    - rewrite <- (firstn_all (isf_stage A I arg d0)) in Ho. apply isf_target in Ho as [_ Ho]. cbn in Ho. destruct Ho as [<-|[<-|[<-|[]]]]; cbn; congruence.
    - unfold vel_stage in Ho. destruct (both A I d0 Vel) eqn:Ev; [contradiction|]. destruct (interleaved_target A _ _ _ _ (Sc _) o Ho) as [t [-> _]]. cbn. intros <-. unfold B in Bd. congruence.
    - eapply Q; eauto.
    - eapply Q; eauto.
    - eapply Q; eauto.
    - unfold phi_stage in Ho. destruct (has_vol A I); [eapply Q; eauto|contradiction].
    - unfold vtk_stage in Ho. apply in_flat_map in Ho as [t [_ Ho]]. apply write_target in Ho as ->. cbn. congruence. }
  assert (G : forall ss, (forall s, In s ss -> forall d, B d -> forall o, In o (s d) -> fst (target A o) <> k) -> forall d, B d -> forall o, In o (andthen A ss d) -> fst (target A o) <> k).
  { induction ss as [|s ss IH]; intros Hss d0 Bd o Ho; [contradiction|]. cbn [andthen] in Ho. apply in_app_or in Ho as [Ho|Ho]; [eapply Hss; eauto; left; auto|].
    refine (IH _ (applies A d0 (s d0)) _ o Ho); [intros; eapply Hss; eauto; right; auto|]. unfold B, both, present in *. rewrite !applies_other; [exact Bd| |]; intros o' Ho' E; apply (Hss s (or_introl eq_refl) d0 Bd o' Ho'); rewrite E; reflexivity. }
  assert (Bd : B d) by (apply both_iff; auto).
  intros t n. split; apply applies_other; intros o Ho E; [|apply firstn_in in Ho]; apply (G _ St d Bd o Ho); rewrite E; reflexivity.
Qed.

(** * Cases *)
Definition in_order {A} (I : inputs A) (tau : nat) : list (op A) := concat (map (fun t => write A (Vel, t) (vel A I tau t)) (seq 0 (size A I))).
Lemma interleaved_nil (O : Type) : forall (ls : list (list O)) l, interleaved ls l -> interleaved ([] :: ls) l.
Proof.
  intros ls l H. induction H as [ls H|a o x b l H IH].
  - apply over. intros l [<-|Hl]; auto.
  - apply (one ([] :: a)). exact IH.
Qed.
Lemma in_order_interleaved {O : Type} : forall ls : list (list O), interleaved ls (concat ls).
Proof.
  induction ls as [|l ls IH]; [apply over; intros l []|]. cbn [concat]. induction l as [|o l IHl]; [apply interleaved_nil; exact IH|]. apply (one []). exact IHl.
Qed.
Lemma in_order_schedule {A} (I : inputs A) : schedule A I (in_order I).
Proof. intros tau. apply in_order_interleaved. Qed.
Definition demo (n : nat) : inputs nat := mkInputs nat n [1] [2] [1; 2; 3] (@length nat) (fun tau t => [tau; t]) (fun tau t => [tau; t; 5]) (fun tau t => [t]) (fun tau t => [t; t]) (fun tau t => [9]) true (fun t a b c d => a ++ b ++ c ++ d).
Lemma iter_S (T : Type) (f : T -> T) x m : Nat.iter (S m) f x = f (Nat.iter m f x).
Proof. reflexivity. Qed.
Definition nothing : disk nat := fun _ => None.
(** Interrupted while the first file of lost neighbours is written: one character out of three. *)
Example C121_case : let d := crash nat (demo 2) (Some 4) (in_order (demo 2)) 8 nothing in
  after_crashes nat (demo 2) (Some 4) (clean nat (demo 2) (Some 4)) d /\ d (Vel, 1) = Some [4; 1] /\ d (Lngb, 0) = Some [4] /\ d (Lngb, 1) = None /\
  run nat (demo 2) (Some 4) (in_order (demo 2)) d (Vtk, 1) = Some [4; 1; 5; 1; 1; 9; 4; 1].
Proof.
  cbv zeta. split; [|vm_compute; repeat split]. apply crashed; [apply no_run; reflexivity|apply in_order_schedule|]. split; [left; reflexivity|]. split.
  - intros k Hk. cbn in Hk. destruct Hk as [<-|[<-|[<-|[<-|[]]]]]; left; vm_compute; reflexivity.
  - intros _ _ t Ht. cbn in Ht. destruct t as [|[|t]]; [vm_compute; reflexivity|vm_compute; reflexivity|lia].
Qed.
(** Interrupted while the last one is: it stays empty for ever. *)
Theorem C121_last_file_refuted : exists (I : inputs nat) arg vs n, schedule nat I vs /\ expected nat I arg (Lngb, size nat I - 1) = Some [4; 1; 5] /\
  forall m, Nat.iter m (run nat I arg vs) (crash nat I arg vs n nothing) (Lngb, size nat I - 1) = Some [].
Proof.
  exists (demo 2), (Some 4), (in_order (demo 2)), 11. split; [apply in_order_schedule|]. split; [reflexivity|].
  assert (G : forall m, Nat.iter m (run nat (demo 2) (Some 4) (in_order (demo 2))) (crash nat (demo 2) (Some 4) (in_order (demo 2)) 11 nothing) (Lngb, 0) <> None /\
    Nat.iter m (run nat (demo 2) (Some 4) (in_order (demo 2))) (crash nat (demo 2) (Some 4) (in_order (demo 2)) 11 nothing) (Lngb, 1) = Some []).
  { induction m as [|m [IH0 IH1]]; [split; [vm_compute; discriminate|vm_compute; reflexivity]|]. rewrite !iter_S. set (d := Nat.iter m _ _) in *. clearbody d.
    assert (X : forall t, run nat (demo 2) (Some 4) (in_order (demo 2)) d (Lngb, t) = d (Lngb, t)).
    { intros t. apply (C121_never_repaired nat (demo 2) (Some 4) d _ Lngb); [cbn; lia|cbn; auto| apply in_order_schedule|exact IH0| |exact 0]. change (size nat (demo 2) - 1) with 1. congruence. }
    rewrite !X. auto. }
  intros m. apply G.
Qed.
(** Velocities are written by several threads: interrupted after both ends, those in the middle are never written, and each later run takes the series as complete. *)
Theorem C121_velocity_hole_refuted : exists (I : inputs nat) arg vs n, schedule nat I vs /\ forall m, Nat.iter m (run nat I arg vs) (crash nat I arg vs n nothing) (Vel, 1) = None.
Proof.
  set (vs := fun tau => write nat (Vel, 0) [tau; 0] ++ write nat (Vel, 2) [tau; 2] ++ write nat (Vel, 1) [tau; 1]).
  assert (Sc : schedule nat (demo 3) vs).
  { intros tau. unfold vs, demo, write. cbn [size seq map vel app]. do 3 apply (one []). do 3 apply (one [_; _]). do 3 apply (one [_]). apply over. intros l Hl. cbn in Hl. destruct Hl as [<-|[<-|[<-|[]]]]; reflexivity. }
  exists (demo 3), (Some 4), vs, 6. split; [exact Sc|].
  assert (G : forall m, let d := Nat.iter m (run nat (demo 3) (Some 4) vs) (crash nat (demo 3) (Some 4) vs 6 nothing) in d (Vel, 0) <> None /\ d (Vel, 2) <> None /\ d (Vel, 1) = None).
  { induction m as [|m [IH0 [IH2 IH1]]]; [cbv zeta; split; [vm_compute; discriminate|]; split; [vm_compute; discriminate|vm_compute; reflexivity]|]. cbv zeta. rewrite !iter_S. set (d := Nat.iter m _ _) in *. clearbody d.
    assert (X : forall t, run nat (demo 3) (Some 4) vs d (Vel, t) = d (Vel, t)). { intros t. apply (C121_never_repaired nat (demo 3) (Some 4) d _ Vel); [cbn; lia|cbn; auto|exact Sc|exact IH0|exact IH2|exact 0]. }
    rewrite !X. auto. }
  intros m. apply G.
Qed.
(** Interrupted in the scattering function: the next run reads an interval from what there is of it. *)
Theorem C121_scattering_refuted : exists (I : inputs nat) vs n, schedule nat I vs /\ let d := run nat I None vs (crash nat I None vs n nothing) in
  d (Isf, 0) = Some [1] /\ expected nat I None (Isf, 0) = Some [1; 2; 3] /\ d (Vel, 0) = Some [1; 0] /\ expected nat I None (Vel, 0) = Some [3; 0].
Proof. exists (demo 2), (in_order (demo 2)), 6. split; [apply in_order_schedule|]. vm_compute. repeat split. Qed.
(** Asked again with another interval, or without, the program keeps the velocities, the lost neighbours and the averages of the first one. *)
Theorem C121_other_interval_refuted (A : Type) (I : inputs A) a b d vs vs' : 1 <= size A I -> (forall n, d n = None) -> schedule A I vs -> schedule A I vs' -> has_vol A I = true ->
  forall k t, In k [Vel; Lngb; Boo; CgBoo; Phi] -> run A I b vs' (run A I (Some a) vs d) (k, t) = expected A I (Some a) (k, t).
Proof.
  intros S1 F Sc Sc' Hv. assert (E : forall n, run A I (Some a) vs d n = expected A I (Some a) n). { apply C121_recovers; auto. apply no_run. auto. }
  assert (Z : forall f t, t < size A I -> of_series A I f t = Some (f t)). { intros f t Ht. unfold of_series. destruct (Nat.ltb_spec t (size A I)); [auto|lia]. }
  intros k t Hk. rewrite <- E. apply (C121_never_repaired A I b _ vs' k S1 Hk Sc'); [| |exact 0]; rewrite E; unfold expected; cbn [fst snd]; rewrite ?Hv; cbn in Hk; destruct Hk as [<-|[<-|[<-|[<-|[<-|[]]]]]]; rewrite Z by lia; discriminate.
Qed.
Example C121_other_interval_case : run nat (demo 2) (Some 6) (in_order (demo 2)) (run nat (demo 2) (Some 4) (in_order (demo 2)) nothing) (Vel, 1) = Some [4; 1] /\ expected nat (demo 2) (Some 6) (Vel, 1) = Some [6; 1].
Proof. vm_compute. repeat split. Qed.

Print Assumptions C121_recovers.
Print Assumptions C121_all_but_last.
Print Assumptions C121_never_repaired.
Print Assumptions C121_case.
Print Assumptions C121_last_file_refuted.
Print Assumptions C121_velocity_hole_refuted.
Print Assumptions C121_scattering_refuted.
Print Assumptions C121_other_interval_refuted.
Print Assumptions C121_other_interval_case.

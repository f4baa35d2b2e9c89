(** Proofs about the elimination at the seam. *)
Require Import ZArith List Bool Arith Lia.
Require Import Verif.Base Verif.Traj_Model Verif.Particles_Model Verif.Corr_Model Verif.Boo_Model.
Require Import Verif.Seam_Model Verif.Seam_Spec.
Import ListNotations.

Definition beaten_high (sf : option nat) (hi lo : finder) (c : nat * nat * nat) : bool :=
  let '(i, j, k) := c in (k =? nl hi) && flag lo 1 (rescaled sf j) (rescaled sf i) && (value lo 1 (rescaled sf j) (rescaled sf i) <? value hi k j i)%Z.
Definition is_at (k j i : nat) (c : nat * nat * nat) : bool := let '(i', j', k') := c in (k =? k') && (j =? j') && (i =? i').

Lemma is_at_eq : forall k j i c, is_at k j i c = true <-> c = (i, j, k).
Proof.
  intros k j i [[i' j'] k']. unfold is_at. rewrite !andb_true_iff, !Nat.eqb_eq. split; [intros [[-> ->] ->]; reflexivity|intros [= -> -> ->]; auto].
Qed.

Lemma drop_high_ok : forall sf hi lo l fl,
  (forall i j, In (i, j, nl hi) l -> inside lo (rescaled sf j) (rescaled sf i) = true /\ inside hi j i = true) ->
  exists fl', drop_high sf hi lo l fl = Val (filter (fun c => negb (beaten_high sf hi lo c)) l, fl') /\
    forall k j i, fl' k j i = fl k j i && negb (existsb (fun c => is_at k j i c && beaten_high sf hi lo c) l).
Proof.
  intros sf hi lo l. induction l as [|[[i j] k] l IH]; intros fl Hin.
  - exists fl. split; [reflexivity|]. intros. cbn. now rewrite andb_true_r.
  - assert (Hin' : forall i j, In (i, j, nl hi) l -> inside lo (rescaled sf j) (rescaled sf i) = true /\ inside hi j i = true) by (intros; apply Hin; now right).
    cbn [drop_high filter]. cbv zeta.
    assert (K : beaten_high sf hi lo (i, j, k) = false ->
       exists fl', omap (fun x => ((i, j, k) :: fst x, snd x)) (drop_high sf hi lo l fl) = Val (if negb (beaten_high sf hi lo (i, j, k)) then (i, j, k) :: filter (fun c => negb (beaten_high sf hi lo c)) l else filter (fun c => negb (beaten_high sf hi lo c)) l, fl') /\
         forall k' j' i', fl' k' j' i' = fl k' j' i' && negb (existsb (fun c => is_at k' j' i' c && beaten_high sf hi lo c) ((i, j, k) :: l))).
    { intros E. rewrite E. cbn [negb]. destruct (IH fl Hin') as [fl' [E1 E2]]. rewrite E1. exists fl'. split; [reflexivity|].
      intros. rewrite E2. cbn [existsb]. rewrite E, andb_false_r. reflexivity. }
    destruct (Nat.eqb_spec k (nl hi)) as [->|Nk].
    + destruct (Hin i j (or_introl eq_refl)) as [B1 B2]. rewrite B1, B2. cbn [andb].
      destruct (flag lo 1 (rescaled sf j) (rescaled sf i) && (value lo 1 (rescaled sf j) (rescaled sf i) <? value hi (nl hi) j i)%Z) eqn:E.
      * assert (EB : beaten_high sf hi lo (i, j, nl hi) = true) by (unfold beaten_high; rewrite Nat.eqb_refl; exact E).
        rewrite EB. cbn [negb]. destruct (IH (set_flag fl (nl hi) j i false) Hin') as [fl' [E1 E2]]. rewrite E1. exists fl'. split; [reflexivity|].
        intros k' j' i'. rewrite E2. cbn [existsb]. rewrite EB, andb_true_r. unfold set_flag, is_at at 2.
        destruct ((k' =? nl hi) && (j' =? j) && (i' =? i)); cbn; [now rewrite andb_false_r|reflexivity].
      * apply K. unfold beaten_high. rewrite Nat.eqb_refl. exact E.
    + apply K. unfold beaten_high. destruct (Nat.eqb_spec k (nl hi)); [contradiction|reflexivity].
Qed.

Definition beaten_low (s : nat) (hi lo : finder) (c : nat * nat * nat) : bool :=
  let '(i, j, k) := c in (k =? 1) &&
  existsb (fun j' => existsb (fun i' => flag hi (nl hi) j' i' && (value hi (nl hi) j' i' <? value lo 1 j i)%Z) (window s i (cols hi))) (window s j (rows hi)).

Lemma fold_and : forall (A : Type) (f : A -> bool) l b, fold_left (fun b x => b && negb (f x)) l b = b && negb (existsb f l).
Proof.
  intros A f l. induction l as [|x l IH]; intros b; cbn; [now rewrite andb_true_r|]. rewrite IH, negb_orb, andb_assoc. reflexivity.
Qed.
Lemma fold_left_ext1 : forall (A B : Type) (f g : B -> A -> B) l b, (forall b x, f b x = g b x) -> fold_left f l b = fold_left g l b.
Proof. intros A B f g l. induction l as [|x l IH]; intros b H; cbn; [reflexivity|]. rewrite H. now apply IH. Qed.

Lemma drop_low_ok : forall s hi lo l fl,
  (forall i j, In (i, j, 1) l -> inside lo j i = true) ->
  (forall i j, In (i, j, 1) l -> fl 1 j i = negb (beaten_low s hi lo (i, j, 1)) \/ fl 1 j i = true) ->
  exists fl', drop_low s hi lo l fl = Val (filter (fun c => negb (beaten_low s hi lo c)) l, fl') /\
    forall k j i, fl' k j i = fl k j i && negb (existsb (fun c => is_at k j i c && beaten_low s hi lo c) l).
Proof.
  intros s hi lo l. induction l as [|[[i j] k] l IH]; intros fl Hin Hfl.
  - exists fl. split; [reflexivity|]. intros. cbn. now rewrite andb_true_r.
  - cbn [drop_low filter]. destruct (Nat.eqb_spec k 1) as [->|Nk].
    + rewrite (Hin i j (or_introl eq_refl)). cbv zeta.
      set (b := fold_left _ _ _).
      assert (Eb : b = negb (beaten_low s hi lo (i, j, 1))).
      { unfold b. erewrite fold_left_ext1; [|intros b0 x; apply fold_and]. cbv beta. rewrite fold_and.
        change (existsb _ (window s j (rows hi))) with (beaten_low s hi lo (i, j, 1)).
        destruct (Hfl i j (or_introl eq_refl)) as [E|E]; rewrite E; [|reflexivity]. now destruct (beaten_low s hi lo (i, j, 1)). }
      clearbody b. subst b.
      set (fl1 := set_flag fl 1 j i (negb (beaten_low s hi lo (i, j, 1)))).
      destruct (IH fl1) as [fl' [E1 E2]].
      { intros i0 j0 H0. apply Hin. now right. }
      { intros i0 j0 H0. unfold fl1, set_flag. destruct ((1 =? 1) && (j0 =? j) && (i0 =? i)) eqn:E.
        - rewrite !andb_true_iff, !Nat.eqb_eq in E. destruct E as [[_ ->] ->]. now left.
        - apply Hfl. now right. }
      assert (FL : forall k' j' i', fl' k' j' i' = fl k' j' i' && negb (existsb (fun c => is_at k' j' i' c && beaten_low s hi lo c) ((i, j, 1) :: l))).
      { intros k' j' i'. rewrite E2. cbn [existsb]. unfold fl1, set_flag. unfold is_at at 2.
        destruct ((k' =? 1) && (j' =? j) && (i' =? i)) eqn:E; [|reflexivity]. cbn [andb].
        rewrite !andb_true_iff, !Nat.eqb_eq in E. destruct E as [[-> ->] ->].
        destruct (beaten_low s hi lo (i, j, 1)) eqn:EB; cbn; [now rewrite andb_false_r|].
        destruct (Hfl i j (or_introl eq_refl)) as [E|E]; rewrite E; rewrite ?EB; reflexivity. }
      destruct (beaten_low s hi lo (i, j, 1)) eqn:EB; cbn [negb].
      * exists fl'. split; [exact E1|exact FL].
      * rewrite E1. exists fl'. split; [reflexivity|exact FL].
    + assert (EB : beaten_low s hi lo (i, j, k) = false) by (unfold beaten_low; destruct (Nat.eqb_spec k 1); [contradiction|reflexivity]).
      rewrite EB. cbn [negb]. destruct (IH fl) as [fl' [E1 E2]].
      { intros i0 j0 H0. apply Hin. now right. } { intros i0 j0 H0. apply Hfl. now right. }
      rewrite E1. exists fl'. split; [reflexivity|]. intros. rewrite E2. cbn [existsb]. rewrite EB, andb_false_r. reflexivity.
Qed.

Lemma rescaled_nearest : forall s c, 0 < s -> nearest s c (rescaled (Some s) c).
Proof.
  intros s c Hs. unfold nearest, rescaled. pose proof (Nat.div_mod (2 * c + s) (2 * s) ltac:(lia)) as D.
  pose proof (Nat.mod_upper_bound (2 * c + s) (2 * s) ltac:(lia)). nia.
Qed.
Lemma nearest_unique : forall s c d e, nearest s c d -> nearest s c e -> d = e.
Proof. unfold nearest. intros. nia. Qed.
Lemma in_window : forall s c n x, In x (window s c n) <-> (c - 1) * s <= x < (c + 1) * s /\ x < n.
Proof. intros. unfold window. rewrite in_seq. generalize ((c - 1) * s), ((c + 1) * s). intros. lia. Qed.
Lemma nearest_window : forall s c d, 0 < s -> nearest s c d -> (d - 1) * s <= c < (d + 1) * s.
Proof. unfold nearest. intros s c d Hs H. destruct d as [|d]; cbn [Nat.sub]; [nia|]. rewrite Nat.sub_0_r. nia. Qed.
Lemma inside_lt : forall f j i, inside f j i = true <-> i < cols f /\ j < rows f.
Proof. intros. unfold inside. rewrite andb_true_iff, !Nat.ltb_lt. tauto. Qed.
Lemma shows_filter : forall f k keep fl', shows f k ->
  (forall j i, fl' k j i = flag f k j i && negb (existsb (fun c => is_at k j i c && negb (keep c)) (cs f))) ->
  shows (with_flags f (filter keep (cs f), fl')) k.
Proof.
  intros f k keep fl' [S1 S2] H. split; cbn.
  - intros i j. rewrite H, andb_true_iff, negb_true_iff, S1, filter_In. split.
    + intros [I E]. split; [exact I|]. destruct (keep (i, j, k)) eqn:EK; [reflexivity|].
      assert (X : existsb (fun c => is_at k j i c && negb (keep c)) (cs f) = true); [|congruence].
      apply existsb_exists. exists (i, j, k). split; [exact I|]. rewrite EK, (proj2 (is_at_eq k j i (i, j, k)) eq_refl). reflexivity.
    + intros [I E]. split; [exact I|]. destruct (existsb _ (cs f)) eqn:X; [|reflexivity].
      apply existsb_exists in X. destruct X as [c [_ X]]. apply andb_true_iff in X. destruct X as [X1 X2]. apply is_at_eq in X1. subst c. rewrite E in X2. discriminate.
  - intros i j I. apply filter_In in I. apply S2, I.
Qed.

(** C25-C27: removal of overlapping centres. *)
Require Import ZArith List Bool Arith Lia Permutation.
Require Import Verif.Base Verif.ListX Verif.Box_Model Verif.RTree_Model Verif.RTree_Spec Verif.RTree_Heuristics Verif.RTree_Props
  Verif.Center_Model Verif.Center_Spec Verif.Center_Proofs.
Import ListNotations.
Local Open Scope Z_scope.

(** [sorted] is a possible result of std::sort on [centers]. *)
Definition a_sort_of (centers sorted : list center) : Prop := Permutation centers sorted /\ sorted_by_intensity sorted.

Lemma brute_selection near (conflict : center -> center -> Prop) centers sorted : (forall a b, near a b = near b a) -> a_sort_of centers sorted ->
  (forall a b, In a centers -> In b centers -> near a b = true <-> conflict a b) ->
  selection conflict centers (brute_loop near sorted []).
Proof.
  intros Hsym [Hp Hs] Hc. destruct (brute_loop_spec near Hsym sorted [] Hs) as [[kept [dropped [E1 [E2 E3]]]] Hap].
  { intros f p []. } { intros i j a b Ha. destruct i; discriminate. }
  simpl in E1. rewrite E1 in *.
  assert (Hin : forall p, In p (kept ++ dropped) -> In p centers).
  { intros p H. apply (Permutation_in _ (Permutation_sym Hp)). apply (Permutation_in _ (Permutation_sym E2)). auto. }
  constructor.
  - exists dropped. split; [eapply Permutation_trans; eauto|]. intros p Hd. destruct (E3 p Hd) as [q [H1 [H2 H3]]]. exists q. split; auto. split; auto.
    apply Hc; auto; apply Hin, in_or_app; auto.
  - intros i j a b Ha Hb Hij Hcf. assert (Hn : near a b = true).
    { apply Hc; auto; apply Hin, in_or_app; left; eapply nth_error_In; eauto. }
    rewrite (Hap i j a b) in Hn; auto. discriminate.
Qed.

(** C25.  The conflict that removeOverlapping really uses: the boxes of half-width tolerance*r meet and
    tolerance * distance < r1 + r2. *)
Definition tol_conflict (tn td : Z) (a b : center) : Prop :=
  boxes_meet tn td a b /\ tn * tn * csqdist a b < td * td * ((radius a + radius b) * (radius a + radius b)).

Theorem C25_selection c tn td centers sorted : config_ok c -> 0 < td ->
  Forall (fun p => length (coords p) = dims c) centers -> a_sort_of centers sorted ->
  exists tree out, remove_overlapping c tn td sorted = Some (tree, out) /\
    selection (tol_conflict tn td) centers out /\
    (** the returned tree holds exactly the boxes of the kept centres, under their number *)
    forall lf, In lf (tleaves tree) <-> exists i p, nth_error out i = Some p /\ lf = mkLeaf i (get_bb tn td p).
Proof.
  intros Hok Ht Hd Hso. destruct Hso as [Hp Hs]. assert (Hd' : Forall (fun p => length (coords p) = dims c) sorted) by (eapply Forall_perm; eauto).
  destruct (filter_loop_spec c (get_bb tn td) (near_tol tn td) Hok) with (ps := sorted) (tree := empty_tree) (filtered := @nil center) as [tree [E [_ Hl]]]; auto.
  { intros p H. unfold get_bb. rewrite map_length. auto. }
  { constructor; [exists []; split; constructor|]. simpl. constructor. }
  eexists tree, _. split; [exact E|]. split.
  - apply brute_selection; [|split; auto|].
    + intros a b. rewrite near_tol_sym. f_equal. apply Box_Proofs.overlaps_sym.
    + intros a b Ha Hb. rewrite Forall_forall in Hd. rewrite andb_true_iff, overlaps_bb by (auto; rewrite !Hd; auto).
      unfold tol_conflict, near_tol. rewrite Z.ltb_lt. tauto.
  - intros lf. rewrite <- bb_leaves_in. split; apply Permutation_in; auto. apply Permutation_sym; auto.
Qed.

(** With a tolerance of at most 1 two kept centres are at least tolerance*(r1+r2) apart. *)
Theorem C25_separated c tn td centers sorted : config_ok c -> (0 < dims c)%nat -> 0 < tn <= td ->
  Forall (fun p => length (coords p) = dims c /\ 0 <= radius p) centers -> a_sort_of centers sorted ->
  exists tree out, remove_overlapping c tn td sorted = Some (tree, out) /\
    forall i j a b, nth_error out i = Some a -> nth_error out j = Some b -> i <> j ->
      tn * tn * ((radius a + radius b) * (radius a + radius b)) <= td * td * csqdist a b.
Proof.
  intros Hok Hdim Ht Hd Hso. assert (Hd1 : Forall (fun p => length (coords p) = dims c) centers) by (eapply Forall_impl; [|exact Hd]; simpl; tauto).
  destruct (C25_selection c tn td centers sorted Hok) as [tree [out [E [[[dr [Hp _]] Hap] _]]]]; auto; [lia|].
  exists tree, out. split; auto. intros i j a b Ha Hb Hij. specialize (Hap i j a b Ha Hb Hij).
  assert (Hin : forall p, In p out -> length (coords p) = dims c /\ 0 <= radius p).
  { intros p H. rewrite Forall_forall in Hd. apply Hd. apply (Permutation_in _ (Permutation_sym Hp)), in_or_app. auto. }
  destruct (Hin a) as [Hla Hra]; [eapply nth_error_In; eauto|]. destruct (Hin b) as [Hlb Hrb]; [eapply nth_error_In; eauto|].
  unfold tol_conflict in Hap. apply Z.nlt_ge. intros Hlt. apply Hap.
  assert (Hs : 0 <= radius a + radius b) by lia. set (s := radius a + radius b) in *.
  split.
  - unfold boxes_meet. fold s. assert (Hk : sqdist (map (fun x => td * x) (coords a)) (map (fun x => td * x) (coords b)) < (tn * s) * (tn * s)).
    { replace (sqdist _ _) with (td * td * csqdist a b); [lia|]. unfold csqdist. clear. generalize (coords a) (coords b).
      induction l as [|x l IH]; intros [|y l']; simpl; try ring. rewrite <- IH. ring. }
    apply sqdist_axis in Hk; [|rewrite !map_length; congruence|nia]. clear - Hk Ht. revert Hk. generalize (coords a) (coords b).
    induction l as [|x l IH]; intros [|y l'] H; simpl in H; inversion H; subst; constructor; auto.
    replace (td * Z.abs (x - y)) with (Z.abs (td * x - td * y)); auto. replace (td * x - td * y) with (td * (x - y)) by ring. rewrite Z.abs_mul. f_equal. lia.
  - pose proof (sqdist_nonneg (coords a) (coords b)) as Hq. fold (csqdist a b) in Hq. assert (tn * tn <= td * td) by nia.
    assert (tn * tn * csqdist a b <= td * td * csqdist a b) by (apply Z.mul_le_mono_nonneg_r; auto).
    assert (tn * tn * (s * s) <= td * td * (s * s)) by (apply Z.mul_le_mono_nonneg_r; nia). lia.
Qed.

(** With the default tolerance 1/2 (and whenever D * tolerance^4 <= 1) the Euclidean test is idle: the conflict is
    that of the boxes, so that two kept centres may be as close as half the sum of their radii. *)
Theorem C25_euclidean_test_idle tn td a b : 0 < tn -> 0 < td -> coords a <> [] -> 
  Z.of_nat (length (coords a)) * (tn * tn * (tn * tn)) <= td * td * (td * td) ->
  tol_conflict tn td a b <-> boxes_meet tn td a b.
Proof.
  intros Htn Htd Hne Hd. unfold tol_conflict. split; [tauto|]. intros H. split; auto. unfold boxes_meet in H. unfold csqdist. set (s := radius a + radius b) in *.
  assert (Hsum : td * td * sqdist (coords a) (coords b) <= Z.of_nat (length (coords a)) * (tn * tn * (s * s)) /\
    (coords a <> [] -> td * td * sqdist (coords a) (coords b) < Z.of_nat (length (coords a)) * (tn * tn * (s * s)))).
  { clear Hd Hne. induction H as [|x y xs ys Hxy _ [IH1 IH2]]; [split; [simpl; lia|congruence]|].
    assert (Hax : td * td * ((x - y) * (x - y)) < tn * tn * (s * s)).
    { rewrite <- (Z.abs_square (x - y)). pose proof (Z.abs_nonneg (x - y)).
      replace (td * td * (Z.abs (x - y) * Z.abs (x - y))) with ((td * Z.abs (x - y)) * (td * Z.abs (x - y))) by ring.
      replace (tn * tn * (s * s)) with ((tn * s) * (tn * s)) by ring. apply Z.square_lt_mono_nonneg; nia. }
    cbn [sqdist length]. rewrite Nat2Z.inj_succ. split; [|intros _]; nia. }
  destruct Hsum as [_ Hsum]. specialize (Hsum Hne). set (D := Z.of_nat (length (coords a))) in *. set (d2 := sqdist (coords a) (coords b)) in *.
  assert (Hs0 : 0 <= s * s) by apply Z.square_nonneg.
  assert (H1 : tn * tn * (td * td * d2) < tn * tn * (D * (tn * tn * (s * s)))) by (apply Zmult_lt_compat_l; [nia|auto]).
  assert (H2 : D * (tn * tn * (tn * tn)) * (s * s) <= td * td * (td * td) * (s * s)) by (apply Z.mul_le_mono_nonneg_r; auto).
  assert (H3 : (td * td) * (tn * tn * d2) < (td * td) * (td * td * (s * s))) by lia.
  apply Zmult_lt_reg_r with (td * td); [nia|]. lia.
Qed.
Theorem C25_idempotent c tn td centers sorted : config_ok c -> 0 < td ->
  Forall (fun p => length (coords p) = dims c) centers -> a_sort_of centers sorted ->
  forall tree out, remove_overlapping c tn td sorted = Some (tree, out) ->
  forall sorted', a_sort_of out sorted' -> exists tree', remove_overlapping c tn td sorted' = Some (tree', sorted').
Proof.
  intros Hok Ht Hd Hso tree out E sorted' [Hp' Hs'].
  destruct (C25_selection c tn td centers sorted Hok Ht Hd Hso) as [tree0 [out0 [E0 [[[dr [Hp _]] Hap] _]]]].
  rewrite E in E0. injection E0 as <- <-.
  assert (Hdo : Forall (fun p => length (coords p) = dims c) out).
  { rewrite Forall_forall in *. intros p H. apply Hd, (Permutation_in _ (Permutation_sym Hp)), in_or_app. auto. }
  assert (Hds : Forall (fun p => length (coords p) = dims c) sorted') by (eapply Forall_perm; eauto).
  destruct (filter_loop_spec c (get_bb tn td) (near_tol tn td) Hok) with (ps := sorted') (tree := empty_tree) (filtered := @nil center) as [tree' [E' _]]; auto.
  { intros p H. unfold get_bb. rewrite map_length. auto. }
  { constructor; [exists []; split; constructor|]. simpl. constructor. }
  rewrite brute_loop_id in E'; [exists tree'; exact E'|]. simpl. intros i j a b Ha Hb Hij.
  destruct (Permutation_nth_error_bis out sorted') as [H _]. destruct (H Hp') as [f [Hinj [_ Hf]]].
  rewrite Hf in Ha, Hb. apply not_true_iff_false. intros Hn. apply andb_true_iff in Hn. destruct Hn as [Ho Hn].
  rewrite Forall_forall in Hdo. apply (Hap (f i) (f j) a b Ha Hb); [intros Heq; apply Hij, Hinj; auto|]. split.
  - apply overlaps_bb in Ho; auto. rewrite !Hdo; auto; eapply nth_error_In; eauto.
  - apply Z.ltb_lt, Hn.
Qed.
Definition ex_centers := [mkCenter [0; 0; 0] 4 (-9); mkCenter [3; 0; 0] 4 (-7); mkCenter [20; 0; 0] 4 (-5); mkCenter [23; 1; 0] 4 (-8)].
Definition ex_sorted := [mkCenter [0; 0; 0] 4 (-9); mkCenter [23; 1; 0] 4 (-8); mkCenter [3; 0; 0] 4 (-7); mkCenter [20; 0; 0] 4 (-5)].
Lemma ex_sort : a_sort_of ex_centers ex_sorted.
Proof.
  split.
  - unfold ex_centers, ex_sorted. apply perm_skip. eapply perm_trans; [apply perm_skip, perm_swap|]. apply perm_swap.
  - intros i j a b Hij Ha Hb. unfold ex_sorted in *. destruct i as [|[|[|[|i]]]], j as [|[|[|[|j]]]]; try lia; simpl in Ha, Hb;
      try (destruct i; discriminate); try (destruct j; discriminate); injection Ha as <-; injection Hb as <-; simpl; lia.
Qed.
Example C25_case : config_ok lib_config /\ dims lib_config = 3%nat /\ Forall (fun p => length (coords p) = 3%nat /\ 0 <= radius p) ex_centers /\
  a_sort_of ex_centers ex_sorted /\
  option_map snd (remove_overlapping lib_config 1 2 ex_sorted) = Some [mkCenter [0; 0; 0] 4 (-9); mkCenter [23; 1; 0] 4 (-8)].
Proof. split; [apply lib_config_ok|]. split; [reflexivity|]. split; [repeat constructor; simpl; lia|]. split; [apply ex_sort|vm_compute; reflexivity]. Qed.

(** C26. *)
Theorem C26_selection centers sorted : a_sort_of centers sorted ->
  selection (fun a b => csqdist a b < (radius a + radius b) * (radius a + radius b)) centers (remove_brute_force sorted).
Proof.
  intros H. apply brute_selection; auto; [apply near_sum_sym|]. intros a b _ _. apply Z.ltb_lt.
Qed.
Theorem C26_idempotent centers sorted sorted' : a_sort_of centers sorted -> a_sort_of (remove_brute_force sorted) sorted' ->
  remove_brute_force sorted' = sorted'.
Proof.
  intros H [Hp Hs]. destruct (C26_selection centers sorted H) as [_ Hap]. unfold remove_brute_force at 1. rewrite brute_loop_id; auto.
  simpl. intros i j a b Ha Hb Hij. destruct (Permutation_nth_error_bis (remove_brute_force sorted) sorted') as [H' _]. destruct (H' Hp) as [f [Hinj [_ Hf]]].
  rewrite Hf in Ha, Hb. apply not_true_iff_false. intros Hn. apply Z.ltb_lt in Hn. apply (Hap (f i) (f j) a b Ha Hb); auto.
Qed.
Example C26_case : a_sort_of ex_centers ex_sorted /\ remove_brute_force ex_sorted = [mkCenter [0; 0; 0] 4 (-9); mkCenter [23; 1; 0] 4 (-8)].
Proof. split; [apply ex_sort|reflexivity]. Qed.

(** C27. *)
Theorem C27_selection c centers sorted : config_ok c ->
  Forall (fun p => length (coords p) = dims c /\ 0 <= radius p) centers -> a_sort_of centers sorted ->
  exists tree out, remove_half_overlapping c sorted = Some (tree, out) /\
    selection (fun a b => csqdist a b < Z.max (radius a) (radius b) * Z.max (radius a) (radius b)) centers out /\
    forall lf, In lf (tleaves tree) <-> exists i p, nth_error out i = Some p /\ lf = mkLeaf i (get_bb 1 1 p).
Proof.
  intros Hok Hd Hso. destruct Hso as [Hp Hs].
  assert (Hd' : Forall (fun p => length (coords p) = dims c) sorted) by (eapply Forall_perm; [exact Hp|]; eapply Forall_impl; [|exact Hd]; simpl; tauto).
  destruct (filter_loop_spec c (get_bb 1 1) near_half Hok) with (ps := sorted) (tree := empty_tree) (filtered := @nil center) as [tree [E [_ Hl]]]; auto.
  { intros p H. unfold get_bb. rewrite map_length. auto. }
  { constructor; [exists []; split; constructor|]. simpl. constructor. }
  eexists tree, _. split; [exact E|]. split.
  - apply brute_selection; [|split; auto|].
    + intros a b. rewrite near_half_sym. f_equal. apply Box_Proofs.overlaps_sym.
    + intros a b Ha Hb. rewrite Forall_forall in Hd. destruct (Hd a Ha) as [Hla Hra], (Hd b Hb) as [Hlb Hrb]. rewrite andb_true_iff. split.
      * intros [_ H]. apply Z.ltb_lt, H.
      * intros H. apply Z.ltb_lt in H. change (near_half a b = true) in H. split; auto. apply half_near_meet; auto. congruence.
  - intros lf. rewrite <- bb_leaves_in. split; apply Permutation_in; auto. apply Permutation_sym; auto.
Qed.
Example C27_case : config_ok lib_config /\ Forall (fun p => length (coords p) = dims lib_config /\ 0 <= radius p) ex_centers /\ a_sort_of ex_centers ex_sorted /\
  option_map snd (remove_half_overlapping lib_config ex_sorted) = Some [mkCenter [0; 0; 0] 4 (-9); mkCenter [23; 1; 0] 4 (-8)].
Proof. split; [apply lib_config_ok|]. split; [repeat constructor; simpl; lia|]. split; [apply ex_sort|vm_compute; reflexivity]. Qed.

Print Assumptions C25_selection. Print Assumptions C25_separated. Print Assumptions C25_idempotent. Print Assumptions C26_selection.
Print Assumptions C26_idempotent. Print Assumptions C27_selection.

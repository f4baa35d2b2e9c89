(** Properties C03-C10: the R*-tree, for every configuration of heuristics. *)
Require Import ZArith List Bool Arith Lia Permutation.
Require Import Verif.Base Verif.Box_Model Verif.Box_Spec Verif.Box_Proofs Verif.RTree_Model Verif.RTree_Spec
  Verif.RTree_Proofs Verif.RTree_Heuristics Verif.RTree_Hull.
Import ListNotations.

(** States reachable by a history of public operations on boxes of the right dimension. *)
Definition reachable (c : config) (t : rtree) : Prop :=
  exists ops, Forall (op_ok c) ops /\ run c empty_tree ops = Some t.

Lemma reachable_wft c t : config_ok c -> reachable c t -> wft c t.
Proof.
  intros Hok (ops & Ho & E). destruct (run_spec c Hok ops empty_tree (wft_empty c) Ho) as (t' & E' & Hw & _).
  assert (t' = t) by congruence. subst; auto.
Qed.

(** C03. Any sequence of insertions succeeds and stores exactly the inserted leaves, with multiplicity. *)
Theorem C03_insertions_keep_all_leaves : forall c lfs,
  config_ok c -> Forall (fun l => length (lbox l) = dims c) lfs ->
  exists t, run c empty_tree (map OpInsert lfs) = Some t /\
    Permutation (tleaves t) lfs /\ tsize t = length lfs.
Proof.
  intros c lfs Hok Hd.
  assert (Hops : Forall (op_ok c) (map OpInsert lfs)) by (rewrite Forall_map; exact Hd).
  destruct (run_spec c Hok _ empty_tree (wft_empty c) Hops) as (t & E & [Hs Hw] & Hr).
  exists t. split; auto.
  assert (Hp : Permutation (tleaves t) lfs).
  { clear - Hr. rewrite <- (app_nil_r lfs). change (tleaves empty_tree) with (@nil leaf) in Hr.
    revert Hr. generalize (@nil leaf) as S0. induction lfs as [|l lfs IH]; simpl; intros S0 Hr; inversion Hr; subst.
    - apply Permutation_sym; auto.
    - match goal with H : spec_step _ _ _ |- _ => inversion H; subst end.
      specialize (IH _ H4). lperm. }
  split; auto. rewrite Hs. apply Permutation_length; auto.
Qed.

(** C04. Structure after any history of insertions, removals and translations. *)
Theorem C04_structure_invariant : forall c t,
  config_ok c -> reachable c t ->
  match troot t with
  | None => tsize t = 0
  | Some r => balanced r /\ fanout c r /\ covering r
  end.
Proof.
  intros c t Hok Hr. destruct (reachable_wft c t Hok Hr) as [Hs Hw].
  unfold tleaves in Hs. destruct (troot t); [apply wfr_struct; auto | exact Hs].
Qed.

(** The history refines a multiset of leaves. *)
Theorem C04_history_refines_multiset : forall c ops,
  config_ok c -> Forall (op_ok c) ops ->
  exists t, run c empty_tree ops = Some t /\ spec_run [] ops (tleaves t) /\ tsize t = length (tleaves t).
Proof.
  intros c ops Hok Ho. destruct (run_spec c Hok ops empty_tree (wft_empty c) Ho) as (t & E & [Hs _] & Hr).
  exists t; auto.
Qed.

(** C05. Overlap queries visit each overlapping leaf exactly once. *)
Theorem C05_overlap_query_exact : forall c t q,
  config_ok c -> reachable c t -> length q = dims c ->
  gather (AcceptOverlapping q) t = filter (fun l => overlaps q (lbox l)) (tleaves t).
Proof.
  intros c t q Hok Hr Hq. apply (gather_exact c (AcceptOverlapping q)); simpl; auto.
  apply reachable_wft; auto.
Qed.

(** C06. Enclosing queries: exact when the stored boxes have a positive extent on every axis. *)
Theorem C06_enclosing_query_exact_for_solid_boxes : forall c t q,
  config_ok c -> reachable c t -> length q = dims c ->
  Forall (fun l => solid (lbox l)) (tleaves t) ->
  gather (AcceptEnclosing q) t = filter (fun l => encloses q (lbox l)) (tleaves t).
Proof.
  intros c t q Hok Hr Hq Hsol. pose proof (reachable_wft c t Hok Hr) as Hw.
  assert (Htouch : forall l, solid (lbox l) -> length (lbox l) = length q -> encloses q (lbox l) = true -> overlaps q (lbox l) = true).
  { clear. intros l Hs Hl He. apply encloses_sub in He; [|auto]. clear Hl. revert He Hs. generalize (lbox l).
    intros b He. induction He as [|f e b q' Hf He IH]; intros Hs; auto. inversion Hs; subst.
    rewrite overlaps_cons. rewrite !andb_true_iff, !Z.ltb_lt. repeat split; try lia. apply IH; auto. }
  rewrite gather_tree with (c := c) by auto.
  destruct Hw as [Hs Hw]. unfold treached, tleaves in *. destruct (troot t) as [r|]; auto. destruct Hw as [h Hh].
  pose proof (wfn_leaves_dim _ _ _ _ Hh) as Hdim.
  clear Hr Hs Hok.
  revert Hh Hsol Hdim. generalize 0 as lo. revert r. induction h as [|h IH]; intros [b items|b items] lo Hh Hsol Hdim; simpl in Hh; try tauto.
  - destruct Hh as (Hb & _ & Hsub). simpl in *. destruct (overlaps q b) eqn:E; auto.
    symmetry. clear - Hsub Hsol Hdim E Hb Hq Htouch. induction items as [|l items IHl]; simpl; auto.
    inversion Hsub; inversion Hsol; inversion Hdim; subst.
    destruct (encloses q (lbox l)) eqn:El; [|apply IHl; auto]. exfalso.
    rewrite (overlaps_sub q (lbox l) b) in E; auto; try discriminate; [apply Htouch; auto; congruence | congruence].
  - destruct Hh as (Hb & _ & Hch & Hsub). simpl in *. destruct (overlaps q b) eqn:E.
    + clear Hsub. induction Hch as [|x items Hx Hch IH2]; simpl in *; auto.
      apply Forall_app in Hsol, Hdim. destruct Hsol, Hdim. rewrite filter_app, IH2 by auto. f_equal.
      eapply IH; eauto.
    + symmetry. clear - Hsub Hsol Hdim E Hb Hq Htouch. revert Hsub Hsol Hdim. generalize (flat_map leaves items).
      intros ls. induction ls as [|l ls IHl]; intros Hsub Hsol Hdim; simpl; auto.
      inversion Hsub; inversion Hsol; inversion Hdim; subst.
      destruct (encloses q (lbox l)) eqn:El; [|apply IHl; auto]. exfalso.
      rewrite (overlaps_sub q (lbox l) b) in E; auto; try discriminate; [apply Htouch; auto; congruence | congruence].
Qed.

(** For arbitrary boxes: nothing wrong or duplicated is returned, and every missed leaf is one that does
    not overlap the query (it is flat against one of its faces). *)
Theorem C06_enclosing_query_misses_only_flat_leaves : forall c t q,
  config_ok c -> reachable c t -> length q = dims c ->
  exists missed,
    Permutation (gather (AcceptEnclosing q) t ++ missed) (filter (fun l => encloses q (lbox l)) (tleaves t)) /\
    (forall l, In l missed -> overlaps q (lbox l) = false).
Proof.
  intros c t q Hok Hr Hq. pose proof (reachable_wft c t Hok Hr) as Hw.
  destruct (gather_sound_complete c Hok (AcceptEnclosing q) Hq t Hw) as (miss & Hp & Hm).
  exists miss. split; auto. intros l Hl. specialize (Hm l Hl). simpl in Hm. destruct (overlaps q (lbox l)); congruence.
Qed.

Lemma lib_run_reachable lfs t : Forall (fun l => length (lbox l) = 3) lfs ->
  run lib_config empty_tree (map OpInsert lfs) = Some t -> reachable lib_config t.
Proof. intros Hd E. exists (map OpInsert lfs). split; auto. rewrite Forall_map. exact Hd. Qed.

(** The full statement of C06 is false: a flat box lying on the upper face of the query is missed, and
    the same box is found once the tree holds another leaf. *)
Local Open Scope Z_scope.
Definition flat_leaf : leaf := mkLeaf 0 [(1, 2); (1, 2); (5, 5)].
Definition other_leaf : leaf := mkLeaf 1 [(1, 2); (1, 2); (1, 2)].
Definition face_query : box := [(0, 9); (0, 9); (0, 5)].
Theorem C06_enclosing_query_exact_refuted :
  exists t, reachable lib_config t /\ In flat_leaf (tleaves t) /\ encloses face_query (lbox flat_leaf) = true /\
    gather (AcceptEnclosing face_query) t = [] /\
    exists t', insert lib_config t other_leaf = Some t' /\
      gather (AcceptEnclosing face_query) t' = [flat_leaf; other_leaf].
Proof.
  exists (mkTree (Some (NL (lbox flat_leaf) [flat_leaf])) 1).
  repeat split; try reflexivity.
  - apply (lib_run_reachable [flat_leaf]); [repeat constructor | reflexivity].
  - simpl; auto.
  - eexists. split; vm_compute; reflexivity.
Qed.

(** C07. Removal. *)
Theorem C07_remove_exact : forall c t a rm,
  config_ok c -> reachable c t -> acceptor_dim (dims c) a ->
  (a = AcceptAny \/ exists q, a = AcceptOverlapping q) ->
  exists t', remove c a rm t = Some t' /\ reachable c t' /\
    Permutation (tleaves t') (filter (fun l => negb (accept_leaf a l && rm l)) (tleaves t)) /\
    tsize t' = length (tleaves t').
Proof.
  intros c t a rm Hok Hr Ha Hcase. pose proof (reachable_wft c t Hok Hr) as Hw.
  assert (Hne : forall q, a <> AcceptEnclosed q) by (destruct Hcase as [->|[q ->]]; discriminate).
  destruct (remove_spec c Hok t a rm Hw Ha Hne) as (t' & E & [Hs' Hw'] & Hsp).
  exists t'. split; auto. split; [|split; auto].
  - destruct Hr as (ops & Ho & Er). exists (ops ++ [OpRemove a rm]). split.
    + apply Forall_app; split; auto. repeat constructor; auto.
    + clear - Er E. revert Er. generalize empty_tree. induction ops as [|o ops IH]; intros t0 Er; simpl in *.
      * injection Er as ->. rewrite E. auto.
      * destruct (step c t0 o); [|discriminate]. apply IH; auto.
  - inversion Hsp as [| |S a0 rm0 S' R Hp HR HS']; subst.
    eapply Permutation_trans; [|apply perm_filter, Permutation_sym, Hp].
    rewrite filter_app.
    assert (HR0 : filter (fun l => negb (accept_leaf a l && rm l)) R = []).
    { clear - HR. induction R as [|l R IH]; simpl; auto. destruct (HR l (or_introl eq_refl)) as [-> ->]. simpl.
      apply IH. intros; apply HR; simpl; auto. }
    assert (HS0 : filter (fun l => negb (accept_leaf a l && rm l)) (tleaves t') = tleaves t').
    { clear - HS' Hcase. induction (tleaves t') as [|l S IH]; simpl; auto.
      destruct (accept_leaf a l) eqn:Ea; simpl.
      - destruct (rm l) eqn:Er; simpl.
        + exfalso. apply (HS' l); simpl; auto. destruct Hcase as [->|[q ->]]; simpl in *; auto.
        + f_equal. apply IH. intros; apply HS'; simpl; auto.
      - f_equal. apply IH. intros; apply HS'; simpl; auto. }
    rewrite HR0, HS0, app_nil_r. auto.
Qed.

(** RemoveBoundedArea: removes only enclosed leaves, and all those that also overlap the area. *)
Theorem C07_remove_bounded_area : forall c t q,
  config_ok c -> reachable c t -> length q = dims c ->
  exists t' removed, remove_bounded_area c q t = Some t' /\
    Permutation (tleaves t) (tleaves t' ++ removed) /\
    (forall l, In l removed -> encloses q (lbox l) = true) /\
    (forall l, In l (tleaves t') -> encloses q (lbox l) = true -> overlaps q (lbox l) = false) /\
    tsize t' = length (tleaves t').
Proof.
  intros c t q Hok Hr Hq. pose proof (reachable_wft c t Hok Hr) as Hw.
  destruct (remove_spec c Hok t (AcceptEnclosing q) (fun _ => true) Hw Hq ltac:(discriminate)) as (t' & E & [Hs' Hw'] & Hsp).
  inversion Hsp as [| |S a0 rm0 S' R Hp HR HS']; subst.
  exists t', R. repeat split; auto.
  - intros l Hl. apply (HR l Hl).
  - intros l Hl He. specialize (HS' l Hl He eq_refl). simpl in HS'. destruct (overlaps q (lbox l)); congruence.
Qed.

(** C08. *)
Theorem C08_translation_equivariant : forall c t v a,
  config_ok c -> reachable c t -> length v = dims c -> acceptor_dim (dims c) a ->
  gather (translate_acceptor v a) (translate_tree v t) = map (translate_leaf v) (gather a t) /\
  tleaves (translate_tree v t) = map (translate_leaf v) (tleaves t) /\
  tsize (translate_tree v t) = tsize t.
Proof.
  intros c t v a Hok Hr Hv Ha. pose proof (reachable_wft c t Hok Hr) as Hw.
  split; [eapply gather_translate; eauto|]. split; [eapply translate_tleaves; eauto|].
  unfold translate_tree. destruct (troot t); auto.
Qed.

(** C09. The overall box of a tree filled by insertions is the hull of its content, provided every upper
    edge is at least DBL_MIN (e.g. image coordinates)... *)
Theorem C09_overall_box_is_hull : forall c lfs t,
  config_ok c -> lfs <> [] ->
  Forall (fun l => length (lbox l) = dims c /\ Forall (fun e => fst e <= dbl_max /\ dbl_min <= snd e) (lbox l)) lfs ->
  run c empty_tree (map OpInsert lfs) = Some t ->
  exists b, overall_box t = Some b /\ is_hull b (map lbox lfs).
Proof.
  intros c lfs t Hok Hne Hall E.
  eapply overall_hull; eauto.
  - eapply Forall_impl; [|exact Hall]. simpl; tauto.
  - destruct lfs as [|l lfs]; [congruence|]. simpl map.
    assert (Hd : Forall (fun x => length x = dims c) (lbox l :: map lbox lfs)).
    { change (lbox l :: map lbox lfs) with (map lbox (l :: lfs)). rewrite Forall_map. eapply Forall_impl; [|exact Hall]. simpl; tauto. }
    exists (hull (lbox l :: map lbox lfs)). pose proof (hull_is_hull _ _ _ Hd) as Hh. split; auto.
    assert (Hl : length (hull (lbox l :: map lbox lfs)) = dims c).
    { simpl. rewrite fold_stretch_length. inversion Hd; auto. }
    split; auto. destruct Hh as [Hh _].
    specialize (Hh (lbox l) (or_introl eq_refl)).
    inversion Hall as [|? ? [Hl1 Hl2] _]; subst.
    eapply sub_trans; [|exact Hh]. rewrite <- Hl1. unfold reset_box. clear - Hl2.
    induction Hl2; simpl; constructor; auto.
Qed.

(** ... or no node ever overflowed; and it always encloses the content. *)
Theorem C09_overall_box_small : forall c lf lfs,
  config_ok c -> (length lfs < max_items c)%nat ->
  Forall (fun l => length (lbox l) = dims c) (lf :: lfs) ->
  exists t b, run c empty_tree (map OpInsert (lf :: lfs)) = Some t /\ overall_box t = Some b /\
    is_hull b (map lbox (lf :: lfs)).
Proof.
  intros c lf lfs Hok Hlen Hd. cbn [map run step insert empty_tree troot].
  rewrite run_small; [|apply Hok|simpl; lia].
  do 2 eexists. split; [reflexivity|]. split; [reflexivity|].
  apply (hull_is_hull (dims c)). change (lbox lf :: map lbox lfs) with (map lbox (lf :: lfs)).
  rewrite Forall_map. auto.
Qed.

Theorem C09_overall_box_encloses : forall c t b,
  config_ok c -> reachable c t -> overall_box t = Some b ->
  forall l, In l (tleaves t) -> sub (lbox l) b.
Proof.
  intros c t b Hok Hr. destruct (reachable_wft c t Hok Hr) as [_ Hw]. unfold overall_box, tleaves.
  destruct (troot t) as [r|]; [|discriminate]. intros E; injection E as <-. destruct Hw as [h Hh].
  intros l Hl. pose proof (wfn_leaves _ _ _ _ Hh) as Hf. rewrite Forall_forall in Hf. auto.
Qed.

(** The full statement is false: 33 boxes with negative coordinates make the root split, and the
    overall box then reaches up to DBL_MIN > 0. *)
Definition neg_leaf (i : nat) : leaf :=
  let x := - 2 ^ 1074 * (10 + Z.of_nat i) in mkLeaf i [(x - 2 ^ 1074, x); (x - 2 ^ 1074, x); (x - 2 ^ 1074, x)].
Definition neg_leaves : list leaf := map neg_leaf (seq 0 33).
Theorem C09_overall_box_is_hull_refuted :
  exists t b, run lib_config empty_tree (map OpInsert neg_leaves) = Some t /\ overall_box t = Some b /\
    Forall (fun l => solid (lbox l) /\ Forall (fun e => snd e < - 2 ^ 1074 * 9) (lbox l)) neg_leaves /\
    map snd b = [dbl_min; dbl_min; dbl_min] /\ ~ is_hull b (map lbox neg_leaves).
Proof.
  destruct (run lib_config empty_tree (map OpInsert neg_leaves)) as [t|] eqn:E; [|vm_compute in E; discriminate].
  exists t.
  assert (Hb : exists b, overall_box t = Some b /\ map snd b = [dbl_min; dbl_min; dbl_min]).
  { assert (Hc : match run lib_config empty_tree (map OpInsert neg_leaves) with
           | Some t => match overall_box t with
                       | Some b => if list_eq_dec Z.eq_dec (map snd b) [dbl_min; dbl_min; dbl_min] then true else false
                       | None => false end
           | None => false end = true) by (vm_compute; reflexivity).
    rewrite E in Hc. destruct (overall_box t) as [b|]; [|discriminate]. exists b. split; auto.
    destruct (list_eq_dec Z.eq_dec (map snd b) [dbl_min; dbl_min; dbl_min]); congruence. }
  destruct Hb as (b & Hb & Hs). exists b. split; auto. split; auto. split; [|split; auto].
  - apply Forall_forall. intros l Hl. apply in_map_iff in Hl. destruct Hl as [i [<- _]].
    assert (0 < 2 ^ 1074) by (apply Z.pow_pos_nonneg; lia).
    unfold neg_leaf, solid; cbn [lbox]. revert H. generalize (2 ^ 1074). intros u Hu.
    split; repeat constructor; cbn [fst snd]; nia.
  - intros [_ Hleast].
    assert (Hlb : length b = 3%nat) by (apply (f_equal (@length Z)) in Hs; rewrite map_length in Hs; exact Hs).
    specialize (Hleast (repeat (- dbl_max, 0) 3)). rewrite repeat_length in Hleast.
    assert (Hsub : sub b (repeat (- dbl_max, 0) 3)).
    { apply Hleast; auto. intros x Hx.
      apply encloses_sub.
      - rewrite repeat_length. apply in_map_iff in Hx. destruct Hx as [l [<- Hl]].
        apply in_map_iff in Hl. destruct Hl as [i [<- _]]. reflexivity.
      - assert (Hall : forallb (fun x => encloses (repeat (- dbl_max, 0) 3) x) (map lbox neg_leaves) = true)
          by (vm_compute; reflexivity).
        rewrite forallb_forall in Hall. apply Hall; auto. }
    destruct b as [|[x1 x2] b]; [discriminate|]. simpl in Hs. injection Hs as Hx2 _.
    change (repeat (- dbl_max, 0) 3) with ((- dbl_max, 0) :: repeat (- dbl_max, 0) 2) in Hsub.
    apply sub_cons in Hsub. cbn [fst snd] in Hsub. destruct Hsub as (_ & Hsub & _). rewrite Hx2 in Hsub.
    assert (0 < dbl_min) by (unfold dbl_min; apply Z.pow_pos_nonneg; lia). lia.
Qed.

(** Node boxes are not nested in general: after a translation to negative coordinates, recomputing the
    box of an overflowing child from [reset] makes it stick out of its parent.  (Queries stay correct: C04
    and C05 only need node boxes to enclose leaves.) *)

(** C10. No insertion ever reaches the invalid cast, an empty subtree choice or a second forced
    reinsertion: the model returns [None] in these cases. *)
Theorem C10_insert_always_defined : forall c t lf,
  config_ok c -> reachable c t -> length (lbox lf) = dims c ->
  exists t', insert c t lf = Some t' /\ reachable c t' /\ tsize t' = S (tsize t).
Proof.
  intros c t lf Hok Hr Hd. destruct (insert_spec c Hok t lf (reachable_wft c t Hok Hr) Hd) as (t' & E & _ & _).
  exists t'. split; auto. split.
  - destruct Hr as (ops & Ho & Er). exists (ops ++ [OpInsert lf]). split.
    + apply Forall_app; split; auto.
    + clear - Er E. revert Er. generalize empty_tree. induction ops as [|o ops IH]; intros t0 Er; simpl in *.
      * injection Er as ->. rewrite E. auto.
      * destruct (step c t0 o); [|discriminate]. apply IH; auto.
  - unfold insert in E. destruct (troot t); [destruct (insert_full c n lf); [|discriminate]|]; injection E as <-; auto.
Qed.

(** Non-vacuity: the library's own configuration satisfies [config_ok] and 40 insertions followed by a removal
    and a translation is an admissible history with a two-level tree. *)
Definition grid_leaf (i : nat) : leaf :=
  let x := Z.of_nat (i mod 5) in let y := Z.of_nat (i / 5) in
  mkLeaf i [(10 * x, 10 * x + 4); (10 * y, 10 * y + 4); (0, 4)].
Definition sample_history : list op :=
  map (fun i => OpInsert (grid_leaf i)) (seq 0 40) ++
  [OpRemove (AcceptOverlapping [(0, 25); (0, 25); (0, 4)]) (fun _ => true); OpTranslate [1; 2; 3]].
Example history_admissible : config_ok lib_config /\ Forall (op_ok lib_config) sample_history.
Proof.
  split; [apply lib_config_ok|]. unfold sample_history. apply Forall_app. split.
  - apply Forall_forall. intros o Ho. apply in_map_iff in Ho. destruct Ho as [i [<- _]]. reflexivity.
  - repeat constructor; try reflexivity; discriminate.
Qed.
Example history_runs :
  match run lib_config empty_tree sample_history with
  | Some t => (tsize t = 31)%nat /\
      length (gather (AcceptEnclosing [(0, 30); (0, 300); (0, 30)]) t) = 15%nat /\
      match troot t with Some (NI _ (_ :: _ :: _)) => True | _ => False end
  | None => False
  end.
Proof. vm_compute. repeat split. Qed.

Print Assumptions C03_insertions_keep_all_leaves.
Print Assumptions C04_structure_invariant.
Print Assumptions C04_history_refines_multiset.
Print Assumptions C05_overlap_query_exact.
Print Assumptions C06_enclosing_query_exact_for_solid_boxes.
Print Assumptions C06_enclosing_query_misses_only_flat_leaves.
Print Assumptions C06_enclosing_query_exact_refuted.
Print Assumptions C07_remove_exact.
Print Assumptions C07_remove_bounded_area.
Print Assumptions C08_translation_equivariant.
Print Assumptions C09_overall_box_is_hull.
Print Assumptions C09_overall_box_small.
Print Assumptions C09_overall_box_encloses.
Print Assumptions C09_overall_box_is_hull_refuted.
Print Assumptions C10_insert_always_defined.

(** Properties C11-C14: spatial and temporal indexes. *)
Require Import ZArith List Bool Arith Lia Permutation Sorted.
Require Import Verif.Base Verif.SortU Verif.Box_Model Verif.Box_Spec Verif.Box_Proofs Verif.RTree_Model Verif.RTree_Spec
  Verif.RTree_Proofs Verif.RTree_Heuristics Verif.RTree_Hull Verif.RTree_Props Verif.Index_Model Verif.Index_Spec Verif.Index_Proofs.
Import ListNotations.

(** C11. R*-tree index: sorted, duplicate-free, only enclosed boxes, all of them except possibly boxes lying
    flat on a face of the query. *)
Theorem C11_rstar_answers : forall c ops q,
  config_ok c -> Forall (iop_dim (dims c)) ops -> length q = dims c ->
  exists t, rstar_run c empty_tree ops = Some t /\ selects_but_flat (contents ops) q (rstar_query t q).
Proof.
  intros c ops q Hok Hd Hq. destruct (rstar_run_ok c ops Hok Hd) as (t & E & _). exists t. split; auto.
  eapply rstar_query_flat; eauto.
Qed.

(** Brute-force index (pointer null before the first insertion): exact for every history. *)
Theorem C11_brute_answers : forall ops q,
  Forall (iop_dim (length q)) ops ->
  exists x, brute_run (mkBrute Null []) ops = Some x /\ selects (contents ops) (fun b => sub b q) (brute_query x q).
Proof.
  intros ops q Hd. destruct (brute_run_defined ops (mkBrute Null [])) as [x E]; [discriminate|]. exists x. split; auto.
  eapply brute_query_selects; eauto.
Qed.

(** Both agree on boxes with an extent. *)
Theorem C11_rstar_equals_brute : forall c ops q t x,
  config_ok c -> Forall (iop_dim (dims c)) ops -> length q = dims c ->
  (forall i b, In (i, b) (contents ops) -> solid b) ->
  rstar_run c empty_tree ops = Some t -> brute_run (mkBrute Null []) ops = Some x ->
  rstar_query t q = brute_query x q.
Proof.
  intros c ops q t x Hok Hd Hq Hs Et Ex. eapply selects_unique.
  - apply selects_flat_solid; eauto. eapply rstar_query_flat; eauto.
  - apply brute_query_selects; auto. rewrite Hq; auto.
Qed.

Local Open Scope Z_scope.
(** Points (the boxes Particles::makeRTreeIndex stores) on a face of the query make them differ. *)
Theorem C11_rstar_equals_brute_refuted : exists items q t x,
  Forall (fun b => length b = 3%nat) items /\ rstar_build lib_config items = Some t /\ brute_build Null items = Some x /\
  rstar_query t q = [] /\ brute_query x q = [0%nat].
Proof.
  exists [[(1, 1); (1, 1); (5, 5)]], [(0, 9); (0, 9); (0, 5)]. do 2 eexists.
  split; [repeat constructor|]. split; [vm_compute; reflexivity|]. split; [vm_compute; reflexivity|].
  split; vm_compute; reflexivity.
Qed.
Example C11_case : exists t,
  rstar_run lib_config empty_tree [IInsert 7 [(0, 2); (0, 2); (0, 2)]; IInsert 3 [(4, 5); (4, 5); (4, 5)];
    ITranslate [1; 1; 1]; IInsert 7 [(3, 4); (3, 4); (3, 4)]; IInsert 9 [(30, 40); (3, 4); (3, 4)]] = Some t /\
  rstar_query t [(0, 10); (0, 10); (0, 10)] = [3; 7]%nat.
Proof. eexists. split; vm_compute; reflexivity. Qed.

(** C12. getInside on an index built from a list of boxes with extent. *)
Theorem C12_rstar_inside : forall c items h margin noz,
  config_ok c -> dims c = 3%nat -> items <> [] ->
  Forall (fun b => length b = 3%nat /\ Forall (fun e => fst e <= dbl_max /\ dbl_min <= snd e) b) items ->
  is_hull h items -> length h = 3%nat ->
  exists t ids r, rstar_build c items = Some t /\ rstar_inside t margin noz = Some ids /\
    region margin (axes noz) h r /\
    StronglySorted lt ids /\
    (forall i, In i ids -> exists b, nth_error items i = Some b /\ away margin (axes noz) h b) /\
    (forall i b, nth_error items i = Some b -> away margin (axes noz) h b -> solid b \/ meets b r -> In i ids).
Proof.
  intros c items h margin noz Hok Hd3 Hne Hall Hh Hlh.
  assert (Hdim : Forall (fun b => length b = dims c) items).
  { rewrite Hd3. eapply Forall_impl; [|exact Hall]. simpl; tauto. }
  assert (Hops : Forall (iop_dim (dims c)) (numbered items)) by (apply numbered_dim; auto).
  destruct (rstar_run_ok c (numbered items) Hok Hops) as (t & E & _).
  pose (lfs := map lf_of (combine (seq 0 (length items)) items)).
  assert (Hbox : map lbox lfs = items) by apply numbered_boxes.
  assert (Hover : exists b, overall_box t = Some b /\ is_hull b (map lbox lfs)).
  { apply (C09_overall_box_is_hull c lfs t); auto.
    - intros Hn. apply Hne. rewrite <- Hbox, Hn. reflexivity.
    - apply (proj1 (Forall_map lbox (fun b => length b = dims c /\ Forall (fun e => fst e <= dbl_max /\ dbl_min <= snd e) b) lfs)).
      rewrite Hbox, Hd3. auto.
    - rewrite rstar_run_run, numbered_inserts in E. exact E. }
  destruct Hover as (b & Hb & Hhb). rewrite Hbox in Hhb.
  assert (Hbl : length b = 3%nat).
  { destruct items as [|b0 items]; [congruence|]. destruct Hhb as [Hin _]. specialize (Hin b0 (or_introl eq_refl)).
    apply sub_length in Hin. rewrite <- Hin, <- Hd3. inversion Hdim; assumption. }
  assert (b = h) by (eapply is_hull_unique; eauto; congruence). subst b.
  exists t, (rstar_query t (shrink margin (axes noz) h)), (shrink margin (axes noz) h).
  split; [exact E|]. split; [unfold rstar_inside, get_inside; rewrite Hb; reflexivity|].
  pose proof (shrink_region margin (axes noz) h) as Hreg. split; auto.
  assert (Hq : length (shrink margin (axes noz) h) = dims c) by (destruct Hreg as [-> _]; congruence).
  destruct (rstar_query_flat c (numbered items) t _ Hok Hops Hq E) as (H1 & H2 & H3).
  split; auto. destruct Hh as [Hh _]. split.
  - intros i Hi. destruct (H2 i Hi) as (b & Hin & Hs). apply contents_numbered in Hin. exists b. split; auto.
    eapply (region_sub_away margin); eauto. apply Hh. eapply nth_error_In; eauto.
  - intros i b Hib Ha Hm.
    assert (Hs : sub b (shrink margin (axes noz) h)).
    { eapply (region_sub_away margin); eauto. apply Hh. eapply nth_error_In; eauto. }
    apply (H3 i b); auto; [apply contents_numbered; auto|]. destruct Hm as [Hm|Hm]; auto. apply solid_meets; auto.
Qed.

(** Brute force: always exact. *)
Theorem C12_brute_inside : forall items h margin noz,
  items <> [] -> Forall (fun b => length b = 3%nat) items -> is_hull h items -> length h = 3%nat ->
  exists x ids, brute_build Null items = Some x /\ brute_inside x margin noz = Some ids /\ StronglySorted lt ids /\
    (forall i, In i ids <-> exists b, nth_error items i = Some b /\ away margin (axes noz) h b).
Proof.
  intros items h margin noz Hne Hdim Hh Hlh.
  destruct (C11_brute_answers (numbered items) (shrink margin (axes noz) h)) as (x & E & Hsel).
  { apply numbered_dim. destruct (shrink_region margin (axes noz) h) as [-> _]. rewrite Hlh; auto. }
  exists x, (brute_query x (shrink margin (axes noz) h)).
  split; [exact E|].
  assert (Ho : brute_overall x = Some h).
  { destruct items as [|b items]; [congruence|].
    change (numbered (b :: items)) with (IInsert 0 b :: map (fun p => IInsert (fst p) (snd p)) (combine (seq 1 (length items)) items)) in E.
    destruct (brute_overall_fold (map (fun p => IInsert (fst p) (snd p)) (combine (seq 1 (length items)) items)) (mkBrute (Ptr b) [(0%nat, b)]) b eq_refl)
      as (x' & E' & Hb).
    { intros o Ho. apply in_map_iff in Ho. destruct Ho as [[i b'] [<- _]]. eauto. }
    assert (Hx : Some x' = Some x) by (rewrite <- E', <- E; reflexivity). injection Hx as ->.
    unfold brute_overall. rewrite Hb. f_equal.
    assert (Hfm : flat_map (fun o => match o with IInsert _ c => [c] | _ => [] end) (map (fun p : nat * box => IInsert (fst p) (snd p)) (combine (seq 1 (length items)) items)) = items).
    { clear. generalize 1%nat. induction items as [|b0 items IH]; intros s; simpl; auto. f_equal; auto. }
    rewrite Hfm. 
    eapply is_hull_unique; [|apply (hull_is_hull 3); auto|exact Hh].
    unfold hull. rewrite fold_stretch_length. inversion Hdim; subst. congruence. }
  unfold brute_inside, get_inside. rewrite Ho. split; auto. destruct Hsel as [H1 H2]. split; auto.
  pose proof (shrink_region margin (axes noz) h) as Hreg.
  intros i. rewrite H2. split; intros (b & Hb & Ha); exists b.
  - apply contents_numbered in Hb. split; auto. eapply (region_sub_away margin); eauto. apply Hh. eapply nth_error_In; eauto.
  - rewrite contents_numbered. split; auto. eapply (region_sub_away margin); eauto. apply Hh. eapply nth_error_In; eauto.
Qed.

(** Planar data (every point in the plane z = 5): the R*-tree index selects nothing, although point 2 is well inside. *)
Definition planar : list box := [[(1, 1); (1, 1); (5, 5)]; [(20, 20); (20, 20); (5, 5)]; [(10, 10); (10, 10); (5, 5)]].
Theorem C12_rstar_inside_refuted : exists t h, rstar_build lib_config planar = Some t /\ is_hull h planar /\ length h = 3%nat /\
  nth_error planar 2 = Some [(10, 10); (10, 10); (5, 5)] /\ away 2 3 h [(10, 10); (10, 10); (5, 5)] /\
  rstar_inside t 2 false = Some [] /\
  exists x, brute_build Null planar = Some x /\ brute_inside x 2 false = Some [2%nat].
Proof.
  eexists. exists (hull planar).
  split; [vm_compute; reflexivity|]. split; [apply (hull_is_hull 3); repeat constructor|]. split; [reflexivity|].
  split; [reflexivity|]. split.
  - intros n e f Hn He Hf Hw. change (hull planar) with [(1, 20); (1, 20); (5, 5)] in He.
    destruct n as [|[|[|n]]]; simpl in *; try lia; injection He as <-; injection Hf as <-; simpl in *; lia.
  - split; [vm_compute; reflexivity|]. eexists. split; vm_compute; reflexivity.
Qed.

(** Hypotheses of C12_rstar_inside are met by boxes in image coordinates. *)
Example C12_case : exists t, let u := 2 ^ 60 in
  let items := map (fun x => [(u * x, u * (x + 2)); (u * x, u * (x + 2)); (u, u * 4)]) [1; 8; 15; 20] in
  rstar_build lib_config items = Some t /\ Forall (fun b => length b = 3%nat /\ Forall (fun e => fst e <= dbl_max /\ dbl_min <= snd e) b) items /\
  rstar_inside t (u * 5) false = Some [1; 2]%nat.
Proof.
  eexists. cbv zeta. split; [vm_compute; reflexivity|]. split; [|vm_compute; reflexivity].
  repeat constructor; vm_compute; discriminate.
Qed.

Local Open Scope nat_scope.
(** C13. Temporal index: when the query starts not after the last stored start, the answer is the set of objects
    starting no later than the query and at least as long; so all the spanning ones are there. *)
Theorem C13_temporal_query : forall items a b,
  Forall (fun iv => fst iv <= snd iv) items -> a <= b -> (exists iv, In iv items /\ a <= fst iv) ->
  exists x ids, t_build Null items = Some x /\ t_query x (a, b) = Some ids /\ StronglySorted lt ids /\
    (forall i, In i ids <-> exists s e, nth_error items i = Some (s, e) /\ s <= a /\ b - a <= e - s) /\
    (forall i s e, nth_error items i = Some (s, e) -> s <= a -> b <= e -> In i ids).
Proof.
  intros items a b Hf Hab [[s0 e0] [Hin0 Ha]].
  destruct (t_run_spec (combine (seq 0 (length items)) items) (mkTIndex [] Null) []) as (x & E & Hc).
  - discriminate.
  - apply t_content_empty.
  - rewrite Forall_forall in *. intros [i iv] Hin. apply in_combine_r in Hin. apply Hf; auto.
  - rewrite app_nil_r in Hc.
    assert (Hmem : forall i iv, In (i, iv) (rev (combine (seq 0 (length items)) items)) <-> nth_error items i = Some iv).
    { intros i iv. rewrite <- in_rev.
      assert (H : forall (items : list (nat * nat)) s i b, In (i, b) (combine (seq s (length items)) items) <-> s <= i /\ nth_error items (i - s) = Some b).
      { clear. induction items as [|y items IH]; intros s i b; simpl.
        - split; [tauto|]. intros [_ H]. destruct (i - s); discriminate.
        - rewrite IH. split.
          + intros [H|[H1 H2]]; [injection H as <- <-; rewrite Nat.sub_diag; auto|].
            split; [lia|]. replace (i - s) with (S (i - S s)) by lia. auto.
          + intros [H1 H2]. destruct (Nat.eq_dec s i) as [<-|Hne].
            * rewrite Nat.sub_diag in H2. simpl in H2. injection H2 as ->. auto.
            * right. split; [lia|]. replace (i - s) with (S (i - S s)) in H2 by lia. auto. }
      rewrite H, Nat.sub_0_r. split; [tauto|]. split; auto. lia. }
    assert (Hlen : a < length (ti_tree x)).
    { apply Hc. apply In_nth_error in Hin0. destruct Hin0 as [i Hi]. exists i, s0, e0. rewrite Hmem. auto. }
    destruct (t_query_spec x _ a b Hc Hab Hlen) as (r & Er & Hs & Hr).
    exists x, r. split; [exact E|]. split; auto. split; auto.
    assert (Hr' : forall i, In i r <-> exists s e, nth_error items i = Some (s, e) /\ s <= a /\ b - a <= e - s).
    { intros i. rewrite Hr. split; intros (s & e & H1 & H2); exists s, e; (split; [|exact H2]); apply Hmem; auto. }
    split; auto. intros i s e Hi Hsa Hbe. apply Hr'. exists s, e. repeat split; auto. lia.
Qed.

(** The claim itself is false in both directions: objects that do not span the query are returned, ... *)
Theorem C13_temporal_exact_refuted : exists x,
  t_build Null [(0, 3); (5, 9)] = Some x /\ t_query x (2, 5) = Some [0].
Proof. eexists. split; vm_compute; reflexivity. Qed.
(** ... and a query starting after the last stored start reads outside the tree, whatever the content, even when an
    object spans it. *)
Theorem C13_temporal_query_out_of_bounds : forall items a b x,
  t_build Null items = Some x -> Forall (fun iv => fst iv <= snd iv) items ->
  (forall iv, In iv items -> fst iv < a) -> t_query x (a, b) = None.
Proof.
  intros items a b x E Hf Ha.
  destruct (t_run_spec (combine (seq 0 (length items)) items) (mkTIndex [] Null) []) as (x' & E' & Hc).
  - discriminate.
  - apply t_content_empty.
  - rewrite Forall_forall in *. intros [i iv] Hin. apply in_combine_r in Hin. apply Hf; auto.
  - assert (x' = x) by (unfold t_build in E; congruence). subst x'. apply t_query_ub.
    destruct (Nat.le_gt_cases (length (ti_tree x)) a) as [|Hgt]; auto. exfalso.
    apply Hc in Hgt. destruct Hgt as (i & s & e & Hin & Hs). rewrite app_nil_r, <- in_rev in Hin.
    apply in_combine_r in Hin. specialize (Ha _ Hin). simpl in Ha. lia.
Qed.
Example C13_case : exists x, t_build Null [(0, 9); (2, 4); (3, 6)] = Some x /\ t_query x (3, 4) = Some [0; 1; 2] /\ t_query x (3, 7) = Some [0].
Proof. eexists. repeat split; vm_compute; reflexivity. Qed.

(** C14. As written, building either index from any non-empty list reads an uninitialised pointer... *)
Theorem C14_construction_reads_uninitialised : forall items ivs,
  items <> [] -> ivs <> [] -> brute_construct items = None /\ t_construct ivs = None.
Proof.
  intros [|b items] [|[s e] ivs] H1 H2; try congruence. split; auto.
  unfold t_construct, t_build. simpl. unfold t_insert. simpl. destruct (e <? s); auto.
Qed.
(** ...while with null-initialised pointers construction is defined for every input and records the extent. *)
Theorem C14_construction_defined_if_null : forall items ivs,
  Forall (fun iv => fst iv <= snd iv) ivs -> ivs <> [] ->
  (exists x, brute_build Null items = Some x) /\
  (exists x lo hi, t_build Null ivs = Some x /\ ti_overall x = Ptr (lo, hi) /\
     (forall iv, In iv ivs -> lo <= fst iv /\ snd iv <= hi) /\
     (exists iv, In iv ivs /\ fst iv = lo) /\ (exists iv, In iv ivs /\ snd iv = hi)).
Proof.
  intros items ivs Hf Hne. split.
  - apply brute_run_defined. discriminate.
  - assert (Hgen : forall its x prev, t_content x prev -> Forall (fun p => fst (snd p) <= snd (snd p)) its ->
      forall lo hi (done : list (nat * nat)), ti_overall x = Ptr (lo, hi) -> 
      (forall iv, In iv done -> lo <= fst iv /\ snd iv <= hi) ->
      (exists iv, In iv done /\ fst iv = lo) -> (exists iv, In iv done /\ snd iv = hi) ->
      exists x' lo' hi', t_run x its = Some x' /\ ti_overall x' = Ptr (lo', hi') /\
       (forall iv, In iv (done ++ map snd its) -> lo' <= fst iv /\ snd iv <= hi') /\
       (exists iv, In iv (done ++ map snd its) /\ fst iv = lo') /\ (exists iv, In iv (done ++ map snd its) /\ snd iv = hi')).
    { induction its as [|[i [s e]] its IH]; intros x prev Hc Hi lo hi done Ho H1 H2 H3.
      - exists x, lo, hi. simpl. rewrite app_nil_r. auto.
      - inversion Hi; subst. cbn [fst snd] in *.
        destruct (t_insert_spec x i s e prev ltac:(congruence) Hc ltac:(auto)) as (x' & E & Hc' & _ & Hov).
        rewrite Ho in Hov. cbn [t_run]. rewrite E.
        destruct (IH x' _ Hc' ltac:(auto) (Nat.min lo s) (Nat.max hi e) (done ++ [(s, e)]) Hov) as (x'' & lo' & hi' & E' & Ho' & R1 & R2 & R3).
        + intros iv Hin. apply in_app_or in Hin. destruct Hin as [Hin|[<-|[]]]; simpl; [specialize (H1 _ Hin)|]; lia.
        + destruct H2 as [iv [Hin Hlo]]. destruct (Nat.le_gt_cases lo s).
          * exists iv. split; [apply in_or_app; auto|lia].
          * exists (s, e). split; [apply in_or_app; simpl; auto|simpl; lia].
        + destruct H3 as [iv [Hin Hlo]]. destruct (Nat.le_gt_cases e hi).
          * exists iv. split; [apply in_or_app; auto|lia].
          * exists (s, e). split; [apply in_or_app; simpl; auto|simpl; lia].
        + exists x'', lo', hi'. rewrite <- app_assoc in *. simpl in *. repeat split; auto; apply R1; auto. }
    destruct ivs as [|[s e] ivs]; [congruence|].
    inversion Hf as [|? ? Hse Hf']; subst. simpl in Hse.
    destruct (t_insert_spec (mkTIndex [] Null) 0 s e [] ltac:(discriminate) (t_content_empty Null) Hse) as (x & E & Hc & _ & Hov).
    simpl in Hov.
    destruct (Hgen (combine (seq 1 (length ivs)) ivs) x _ Hc) with (lo := s) (hi := e) (done := [(s, e)])
      as (x' & lo & hi & E' & Ho & R1 & R2 & R3); auto.
    + apply Forall_forall. intros [i iv] Hin. apply in_combine_r in Hin. rewrite Forall_forall in Hf'. apply Hf'; auto.
    + intros iv [<-|[]]. simpl. auto.
    + exists (s, e). simpl; auto.
    + exists (s, e). simpl; auto.
    + assert (Hms : forall n, map snd (combine (seq n (length ivs)) ivs) = ivs).
      { clear. induction ivs; intros n; simpl; auto. f_equal; auto. }
      rewrite Hms in *. exists x', lo, hi. split; [|auto]. unfold t_build. cbn [length seq combine t_run]. rewrite E. auto.
Qed.
Example C14_case : brute_construct [[(0, 1); (0, 1); (0, 1)]%Z] = None /\ t_construct [(2, 5)] = None.
Proof. split; reflexivity. Qed.

Print Assumptions C11_rstar_answers.
Print Assumptions C11_brute_answers.
Print Assumptions C11_rstar_equals_brute.
Print Assumptions C11_rstar_equals_brute_refuted.
Print Assumptions C12_rstar_inside.
Print Assumptions C12_brute_inside.
Print Assumptions C12_rstar_inside_refuted.
Print Assumptions C13_temporal_query.
Print Assumptions C13_temporal_exact_refuted.
Print Assumptions C13_temporal_query_out_of_bounds.
Print Assumptions C14_construction_reads_uninitialised.
Print Assumptions C14_construction_defined_if_null.

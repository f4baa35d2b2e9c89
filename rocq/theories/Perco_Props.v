(** C125: clusters at each time step by the program percolation. *)
Require Import String.
Require Import ZArith List Bool Arith Lia Sorted NArith Ascii Relation_Operators Operators_Properties.
Require Import Verif.Base Verif.SortU Verif.ListX Verif.Dec Verif.Box_Model Verif.RTree_Model Verif.RTree_Spec Verif.RTree_Heuristics Verif.Index_Model Verif.Traj_Model Verif.Traj_Spec Verif.Traj_Proofs Verif.Particles_Model Verif.Particles_Spec
  Verif.Particles_Props Verif.Files_Model Verif.Boo_Model Verif.Ngb_Model Verif.Ngb_Spec Verif.Ngb_Props Verif.Corr_Model Verif.Export_Model Verif.Export_Spec Verif.Export_Proofs Verif.Export_Props Verif.Cluster_Model
  Verif.Cluster_Spec Verif.Cluster_Proofs Verif.Cluster_Props Verif.Extent_Model Verif.Extent_Props Verif.Perco_Model Verif.Perco_Spec.
Import ListNotations.
Local Open Scope nat_scope.
Local Open Scope list_scope.

Lemma put_same d n l : put_file d n l n = Some l.
Proof. unfold put_file. destruct (list_eq_dec ascii_dec n n); congruence. Qed.
Lemma put_other d n l m : m <> n -> put_file d n l m = d m.
Proof. intros H. unfold put_file. destruct (list_eq_dec ascii_dec m n); congruence. Qed.
Lemma puts_other (out : list (text * text)) : forall d m, (forall x, In x out -> fst x <> m) -> fold_left (fun d nl => put_file d (fst nl) (snd nl)) out d m = d m.
Proof. induction out as [|x out IH]; intros d m H; cbn [fold_left]; [reflexivity|]. rewrite IH by (intros y Hy; apply H; right; auto). apply put_other. intros E. apply (H x); [left; auto|auto]. Qed.
Lemma puts_at (out : list (text * text)) : forall d k n l, nth_error out k = Some (n, l) -> (forall k' n' l', nth_error out k' = Some (n', l') -> n' = n -> k' = k) ->
  fold_left (fun d nl => put_file d (fst nl) (snd nl)) out d n = Some l.
Proof.
  induction out as [|x out IH]; intros d k n l H U; [destruct k; discriminate|]. cbn [fold_left]. destruct k as [|k].
  - injection H as ->. rewrite puts_other; [apply put_same|]. intros [n' l'] Hin E. apply In_nth_error in Hin. destruct Hin as [k' Hk]. cbn in E. specialize (U (S k') n' l' Hk E). discriminate.
  - apply (IH _ k); auto. intros k' n' l' Hk E. specialize (U (S k') n' l' Hk E). congruence.
Qed.
Lemma same_put (ngbss : list (list (list nat))) name : forall d m, m <> name -> fold_left (fun d ngb => put_file d name (save_bonds (ngb2bonds ngb))) ngbss d m = d m.
Proof. induction ngbss as [|x l IH]; intros d m H; cbn [fold_left]; [reflexivity|]. rewrite IH by auto. apply put_other; auto. Qed.
Lemma last_put (ngbss : list (list (list nat))) name ngb : forall d, fold_left (fun d ngb => put_file d name (save_bonds (ngb2bonds ngb))) (ngbss ++ [ngb]) d name = Some (save_bonds (ngb2bonds ngb)).
Proof. intros d. rewrite fold_left_app. cbn [fold_left]. apply put_same. Qed.

Lemma rt_ext (P Q : nat -> nat -> Prop) : (forall a b, P a b <-> Q a b) -> forall a b, clos_refl_trans nat P a b <-> clos_refl_trans nat Q a b.
Proof.
  intros H a b. split; intros C; induction C as [x y E|x|x y z _ IH1 _ IH2]; [apply rt_step, H; auto|apply rt_refl|eapply rt_trans; eauto|apply rt_step, H; auto|apply rt_refl|eapply rt_trans; eauto].
Qed.
Lemma partition_ext P Q ms : (forall a b, P a b <-> Q a b) -> cluster_partition P ms -> cluster_partition Q ms.
Proof. intros H [A [B C]]. split; [auto|]. split; [auto|]. intros a b Hab. rewrite <- H. auto. Qed.

Section C125.
  Variables (c : config) (ti : trajindex) (frames : list (list (list Z))) (bb : box) (r : Z) (bonds clust : serie) (stem : text).
  Hypotheses (Hok : config_ok c) (H3 : dims c = 3) (Hp : Forall (Forall point3) frames) (Hc : consistent ti).
  Hypothesis Hsh : map (@List.length (list Z)) frames = map (@List.length nat) (inverse ti).
  Hypothesis Hne : frames <> [].
  (** The names of the cluster files are different (C54). *)
  Hypothesis Hnames : forall t t', t < List.length frames -> t' < List.length frames -> step_name clust (N.of_nat t) = step_name clust (N.of_nat t') -> t = t'.
  Let names t := step_name bonds (N.of_nat t).
  Let cnames t := step_name clust (N.of_nat t).

  Lemma in_frame tr t p pos : on_traj ti tr t p -> nth_error frames t = Some pos -> p < List.length pos.
  Proof.
    intros [T [HT Hat]] Hf. assert (E : invert ti t p = Some tr) by (apply Hc; exists T; auto). unfold invert in E. destruct (nth_error (inverse ti) t) as [inv|] eqn:Ei; [|discriminate].
    assert (L : nth_error (map (@List.length (list Z)) frames) t = Some (List.length inv)) by (rewrite Hsh; apply map_nth_error; auto). rewrite (map_nth_error _ _ _ Hf) in L. injection L as ->. eapply nth_error_lt; eauto.
  Qed.
  (** Neighbour lists of which each time has the links of [R t]: the clusters written. *)
  Lemma clusters_ok ngbss (R : nat -> nat -> nat -> Prop) d : List.length ngbss = List.length frames ->
    (forall t ngbs pos, nth_error ngbss t = Some ngbs -> nth_error frames t = Some pos -> List.length ngbs = List.length pos /\ (forall i j, linked ngbs i j <-> R t i j) /\ (forall i j, R t i j -> R t j i)) ->
    exists members cl out, assign_clusters ti ngbss (seq 0 (List.length (trajs ti))) = Some (members, cl) /\ save_clusters ti cl members clust = Val out /\
      let d' := fold_left (fun d nl => put_file d (fst nl) (snd nl)) out d in
      (forall t, t < List.length frames -> exists l, d' (cnames t) = Some l /\ cluster_file ti (R t) t l) /\ (forall n, (forall t, t < List.length frames -> n <> cnames t) -> d' n = d n).
  Proof.
    intros L K.
    assert (Hn : forall t ngbs, nth_error ngbss t = Some ngbs -> (forall a b, linked ngbs a b -> linked ngbs b a) /\ (forall tr p, on_traj ti tr t p -> p < List.length ngbs)).
    { intros t ngbs Ht. destruct (nth_error_ex frames t) as [pos Hf]; [rewrite <- L; eapply nth_error_lt; eauto|]. destruct (K t ngbs pos Ht Hf) as [K1 [K2 K3]]. split.
      - intros a b Hab. apply K2, K3, K2. auto.
      - intros tr p Hon. rewrite K1. eapply in_frame; eauto. }
    assert (Hb : ngbss <> []) by (intros ->; apply Hne; destruct frames; [auto|discriminate]).
    assert (Hpop : forall tr, In tr (seq 0 (List.length (trajs ti))) -> tr < List.length (trajs ti)) by (intros tr Htr; apply in_seq in Htr; lia).
    destruct (C47_clusters ti ngbss _ Hc Hb Hpop Hn) as [members [cl [E [Lm [Hpart _]]]]]. destruct (C93_save ti cl members ngbss _ Hc Hb Hpop Hn E clust) as [out [Es [Lo Ho]]].
    exists members, cl, out. split; [auto|]. split; [auto|].
    assert (Hk : forall k n l, nth_error out k = Some (n, l) -> k < List.length frames /\ n = cnames k).
    { intros k n l Hk. assert (Hlt := nth_error_lt _ _ _ Hk). rewrite Lo, L in Hlt. split; [auto|]. destruct (nth_error_ex members k) as [ms Hm]; [lia|]. destruct (Ho k ms Hm) as [hd [rw [Hx _]]]. rewrite Hk in Hx. injection Hx as -> _. reflexivity. }
    split.
    - intros t Ht. destruct (nth_error_ex members t) as [ms Hm]; [lia|]. destruct (Ho t ms Hm) as [hd [rows [Hx [_ [Hw [Lr Hr]]]]]]. eexists. split.
      + eapply (puts_at out d t); [exact Hx|]. intros k n' l' Hk' En. destruct (Hk _ _ _ Hk') as [Hlt ->]. symmetry. apply Hnames; [auto|auto|]. symmetry. exact En.
      + destruct (nth_error_ex ngbss t) as [ngbs Hg]; [lia|]. destruct (nth_error_ex frames t) as [pos Hf]; [lia|]. destruct (K t ngbs pos Hg Hf) as [K1 [K2 K3]].
        exists ms, hd, rows. split; [reflexivity|]. split; [|split; [auto|split; [auto|]]].
        * eapply partition_ext; [|apply (Hpart t ngbs ms Hg Hm)]. intros a b. unfold tconnected. apply rt_ext. intros x y. unfold tedge, touching. split.
          -- intros [_ [_ [A [B [p [q [HA [HB [P1 [P2 P3]]]]]]]]]]. exists p, q. split; [exists A; auto|]. split; [exists B; auto|]. apply K2; auto.
          -- intros [p [q [[A [HA P1]] [[B [HB P2]] P3]]]]. split; [apply in_seq; apply nth_error_lt in HA; lia|]. split; [apply in_seq; apply nth_error_lt in HB; lia|].
             exists A, B, p, q. repeat (split; [auto|]). apply K2; auto.
        * intros k m Hkm. destruct (Hr k m Hkm) as [row [tr [ps [R1 [_ [R3 R4]]]]]]. exists row, tr, ps. auto.
    - intros n Hno. apply puts_other. intros [n' l'] Hin. apply In_nth_error in Hin. destruct Hin as [k Hk']. destruct (Hk _ _ _ Hk') as [Hlt ->]. cbn. intros E0. apply (Hno k Hlt). auto.
  Qed.

  Lemma loaded_ok d t pos B : nth_error frames t = Some pos -> lists_bonds (d (names t)) (List.length pos) B ->
    exists ngb, ngb_loaded frames bonds d t = Val ngb /\ List.length ngb = List.length pos /\ forall i j, linked ngb i j <-> In (i, j) B \/ In (j, i) B.
  Proof.
    intros Hf [l [E [W [F N]]]]. destruct (C79_bonds_load l B W) as [bs [El [Hs Hb]]]; [rewrite Forall_forall in *; intros x Hx; specialize (F x Hx); lia|].
    destruct (C34_round_trip (List.length pos) bs Hs) as [ngb [En [Ln [Hl _]]]].
    - apply Forall_forall. intros [x y] Hx. assert (Hxy : x <= y) by (destruct Hs as [_ Hs]; rewrite Forall_forall in Hs; apply (Hs _ Hx)). apply Hb in Hx; [|auto]. rewrite Forall_forall in F. destruct Hx as [Hx|Hx]; apply F in Hx; cbn in *; lia.
    - exists ngb. split; [|split; [auto|]].
      + unfold ngb_loaded. fold (names t). rewrite E, El. unfold at_index. rewrite Hf. cbn [obind]. rewrite En. reflexivity.
      + intros i j. rewrite Hl. destruct Hs as [_ Hs]. rewrite Forall_forall in Hs. split.
        * intros [H|H]; assert (X := Hs _ H); cbn in X; apply Hb in H; auto; tauto.
        * intros H. destruct (Nat.le_ge_cases i j) as [Hij|Hij]; [left|right]; apply Hb; auto; tauto.
  Qed.
  Lemma computed_ok pos : Forall point3 pos -> exists ngb, ngb_computed c bb r pos = Val ngb /\ List.length ngb = List.length pos /\ ngb_ok ngb /\
    (forall i j, linked ngb i j <-> close_by pos (26 * r / 10) i j) /\ (forall i j, linked ngb i j -> linked ngb j i).
  Proof.
    intros Hq. destruct (C33_ngb_list c pos bb r [PIndex] 13 10 Hok H3 Hq) as [st [ngb [E [N [Ln [S [K Y]]]]]]]; [constructor; [exact I|constructor]|reflexivity|].
    cbn [positions fold_left move] in *. cbn [prun] in E. cbn in E. unfold ngb_computed. destruct (make_index c (new_particles pos bb r)) as [st'|] eqn:Ei; [|discriminate]. injection E as ->.
    assert (Er : pradius st = r). { unfold make_index in Ei. destruct (rstar_build c _); [|discriminate]. injection Ei as <-. reflexivity. } rewrite Er in *.
    exists ngb. split; [exact N|]. split; [exact Ln|].
    assert (K' : forall i j, linked ngb i j <-> close_by pos (26 * r / 10) i j).
    { intros i j. rewrite K. change (2 * 13)%Z with 26%Z. unfold close_by. split; [intros [p [q [A [B [C D]]]]]; split; [auto|]; exists p, q; auto|intros [C [p [q [A [B D]]]]]; exists p, q; auto]. }
    split; [|split; [exact K'|intros i j H; apply Y; auto]].
    intros i l Hi. split; [eapply S; eauto|]. intros j Hj. assert (X : linked ngb i j) by (exists l; auto). apply K' in X as [_ [p [q [_ [X _]]]]]. rewrite Ln. eapply nth_error_lt; eauto.
  Qed.

  (** C125.  When all the bond files are there, the clusters are those of the bonds in the files, and only the cluster files are written. *)
  Theorem C125_loaded range d (B : nat -> list (nat * nat)) : (forall t pos, nth_error frames t = Some pos -> lists_bonds (d (names t)) (List.length pos) (B t)) ->
    exists d', percolation c ti frames bb r bonds clust stem range d = Val d' /\
      (forall t, t < List.length frames -> exists l, d' (cnames t) = Some l /\ cluster_file ti (fun p q => In (p, q) (B t) \/ In (q, p) (B t)) t l) /\
      (forall n, (forall t, t < List.length frames -> n <> cnames t) -> d' n = d n).
  Proof.
    intros HB. destruct (osequence_ok (fun t ngb => exists pos, nth_error frames t = Some pos /\ List.length ngb = List.length pos /\ forall i j, linked ngb i j <-> In (i, j) (B t) \/ In (j, i) (B t))
      (map (ngb_loaded frames bonds d) (seq 0 (List.length frames))) 0) as [ngbss [E [L K]]].
    { intros j o Hj. rewrite nth_error_map in Hj. destruct (nth_error (seq 0 (List.length frames)) j) as [i|] eqn:Ej; [|discriminate]. pose proof (nth_error_lt _ _ _ Ej) as Hlt. rewrite seq_length in Hlt.
      rewrite nth_error_seq in Ej by auto. injection Ej as <-. injection Hj as <-. cbn [Nat.add]. destruct (nth_error_ex frames j Hlt) as [pos Hf]. destruct (loaded_ok d j pos (B j) Hf (HB j pos Hf)) as [ngb [E1 [E2 E3]]].
      exists ngb. split; [auto|]. exists pos. auto. }
    rewrite map_length, seq_length in L.
    destruct (clusters_ok ngbss (fun t p q => In (p, q) (B t) \/ In (q, p) (B t)) d L) as [members [cl [out [A1 [A2 A3]]]]].
    { intros t ngbs pos Ht Hf. destruct (K t ngbs Ht) as [pos' [Hf' [K1 K2]]]. assert (pos' = pos) by (cbn in Hf'; congruence). subst pos'. split; [auto|]. split; [exact K2|]. intros i j. tauto. }
    eexists. split; [|exact A3]. unfold percolation, bonds_stage. rewrite E. cbn [obind fst snd]. rewrite A1, A2. reflexivity.
  Qed.

  (** When one of them is missing (those before it being readable), all the other bond files are ignored: the clusters are those of the particles closer than 1.3 diameters, whatever the
      range asked.  Besides the cluster files a single file of bonds is written; it holds the bonds of the last time step. *)
  Theorem C125_missing range d t0 (B : nat -> list (nat * nat)) : t0 < List.length frames -> d (names t0) = None ->
    (forall t pos, t < t0 -> nth_error frames t = Some pos -> lists_bonds (d (names t)) (List.length pos) (B t)) ->
    exists d' last bs, percolation c ti frames bb r bonds clust stem range d = Val d' /\
      (forall t pos, nth_error frames t = Some pos -> exists l, d' (cnames t) = Some l /\ cluster_file ti (close_by pos (26 * r / 10)) t l) /\
      (forall n, n <> stem ++ txt ".bonds" -> (forall t, t < List.length frames -> n <> cnames t) -> d' n = d n) /\
      nth_error frames (List.length frames - 1) = Some last /\ (forall i j, In (i, j) bs <-> i < j /\ close_by last (26 * r / 10) i j) /\
      ((forall t, t < List.length frames -> stem ++ txt ".bonds" <> cnames t) -> d' (stem ++ txt ".bonds") = Some (save_bonds bs)).
  Proof.
    intros Ht0 Hd HB.
    assert (T : osequence (map (ngb_loaded frames bonds d) (seq 0 (List.length frames))) = Throw).
    { assert (G : forall n s, s <= t0 < s + n -> osequence (map (ngb_loaded frames bonds d) (seq s n)) = Throw); [|apply G; lia].
      induction n as [|n IH]; intros s Hs; [lia|]. cbn [seq map osequence]. destruct (Nat.eq_dec s t0) as [->|Hne0].
      - unfold ngb_loaded at 1. fold (names t0). rewrite Hd. reflexivity.
      - destruct (nth_error_ex frames s) as [pos Hf]; [lia|]. destruct (loaded_ok d s pos (B s) Hf) as [ngb [-> _]]; [apply HB; [lia|auto]|]. cbn [obind]. rewrite IH by lia. reflexivity. }
    destruct (osequence_ok (fun t ngb => exists pos, nth_error frames t = Some pos /\ List.length ngb = List.length pos /\ ngb_ok ngb /\ (forall i j, linked ngb i j <-> close_by pos (26 * r / 10) i j) /\ (forall i j, linked ngb i j -> linked ngb j i))
      (map (ngb_computed c bb r) frames) 0) as [ngbss [E [L K]]].
    { intros j o Hj. rewrite nth_error_map in Hj. destruct (nth_error frames j) as [pos|] eqn:Hf; [|discriminate]. injection Hj as <-. cbn [Nat.add]. rewrite Forall_forall in Hp.
      destruct (computed_ok pos) as [ngb [E1 [E2 [E3 [E4 E5]]]]]; [apply Hp; eapply nth_error_In; eauto|]. exists ngb. split; [auto|]. exists pos. auto. }
    rewrite map_length in L. set (d1 := fold_left (fun d ngb => put_file d (bond_name stem) (save_bonds (ngb2bonds ngb))) ngbss d).
    destruct (clusters_ok ngbss (fun t i j => exists pos, nth_error frames t = Some pos /\ close_by pos (26 * r / 10) i j) d1 L) as [members [cl [out [A1 [A2 A3]]]]].
    { intros t ngbs pos Ht Hf. destruct (K t ngbs Ht) as [pos' [Hf' [K1 [K2 [K3 K4]]]]]. cbn in Hf'. assert (pos' = pos) by congruence. subst pos'. split; [auto|]. split.
      - intros i j. rewrite K3. split; [intros H; exists pos; auto|intros [p' [Hp' H]]; congruence].
      - intros i j [p' [Hp' H]]. exists p'. split; [auto|]. assert (p' = pos) by congruence. subst p'. apply K3, K4, K3. auto. }
    cbv zeta in A3. destruct A3 as [A3 A4]. assert (Hlast : exists last, nth_error frames (List.length frames - 1) = Some last) by (apply nth_error_ex; destruct frames; [congruence|cbn; lia]). destruct Hlast as [last Hlast].
    destruct (nth_error_ex ngbss (List.length frames - 1)) as [ngb Hngb]; [rewrite L; apply nth_error_lt in Hlast; lia|].
    destruct (K _ _ Hngb) as [pos' [Hf' [_ [K2 [K3 K4]]]]]. cbn [Nat.add] in Hf'. assert (pos' = last) by congruence. subst pos'.
    destruct (C34_round_trip_back ngb K2) as [_ [S2 _]]; [exact K4|intros i Hi; apply K3 in Hi; destruct Hi; congruence|].
    eexists _, last, (ngb2bonds ngb). split; [unfold percolation, bonds_stage; rewrite T, E; cbn [omap obind fst snd]; rewrite A1, A2; reflexivity|]. fold d1.
    split; [|split; [|split; [auto|split]]].
    - intros t pos Hf. destruct (A3 t) as [l [X1 X2]]; [eapply nth_error_lt; eauto|]. exists l. split; [exact X1|]. destruct X2 as [ms [hd [rows [Y1 [Y2 Y3]]]]]. exists ms, hd, rows. split; [auto|]. split; [|auto].
      eapply partition_ext; [|exact Y2]. apply rt_ext. intros a b. unfold touching. split; intros [p [q [Q1 [Q2 Q3]]]]; exists p, q; (split; [auto|]); (split; [auto|]); [destruct Q3 as [pos' [Hp' Q3]]; congruence|exists pos; auto].
    - intros n Hn1 Hn2. rewrite A4 by auto. unfold d1. apply same_put. exact Hn1.
    - intros i j. rewrite S2, K3. tauto.
    - intros Hn. rewrite A4 by auto. unfold d1. assert (Z1 : ngbss = removelast ngbss ++ [ngb]).
      { assert (Hnn : ngbss <> []) by (intros ->; destruct frames; [congruence|discriminate]). rewrite (app_removelast_last ngb Hnn) at 1. f_equal. f_equal. rewrite (app_removelast_last ngb Hnn) in Hngb.
        assert (Lr : List.length (removelast ngbss) = List.length frames - 1) by (rewrite <- L; rewrite (app_removelast_last ngb Hnn) at 2; rewrite app_length; cbn; lia).
        rewrite <- Lr in Hngb. rewrite nth_error_app2, Nat.sub_diag in Hngb by lia. cbn in Hngb. congruence. }
      rewrite Z1. apply last_put.
  Qed.

  (** Running again does not help: the missing file is never written, however many runs. *)
  Fixpoint runs (range : Z * Z) (n : nat) (d : disk) : outcome disk := match n with 0 => Val d | S k => obind (runs range k d) (percolation c ti frames bb r bonds clust stem range) end.
  Theorem C125_again_refuted range d t0 n : t0 < List.length frames -> d (names t0) = None ->
    (forall t pos, t < t0 -> nth_error frames t = Some pos -> exists B, lists_bonds (d (names t)) (List.length pos) B) ->
    (forall t, t <= t0 -> names t <> stem ++ txt ".bonds" /\ forall t', t' < List.length frames -> names t <> cnames t') ->
    exists d', runs range n d = Val d' /\ d' (names t0) = None.
  Proof.
    intros Ht0 Hd HB Hn.
    assert (G : exists d', runs range n d = Val d' /\ forall t, t <= t0 -> d' (names t) = d (names t)).
    { induction n as [|k IH]; [exists d; split; [reflexivity|auto]|]. destruct IH as [d1 [E1 S1]].
      assert (HB1 : exists B : nat -> list (nat * nat), forall t pos, t < t0 -> nth_error frames t = Some pos -> lists_bonds (d1 (names t)) (List.length pos) (B t)).
      { assert (Hex : forall m, m <= t0 -> exists B : nat -> list (nat * nat), forall t pos, t < m -> nth_error frames t = Some pos -> lists_bonds (d1 (names t)) (List.length pos) (B t)); [|apply Hex; auto].
        induction m as [|m IH]; intros Hm; [exists (fun _ => []); intros; lia|]. destruct IH as [B HBm]; [lia|]. destruct (nth_error_ex frames m) as [pos Hf]; [lia|]. destruct (HB m pos) as [b Hb]; [lia|auto|].
        exists (fun t => if t =? m then b else B t). intros t pos' Ht Hf'. destruct (Nat.eqb_spec t m) as [->|Hx]; [rewrite S1 by lia; congruence|]. apply HBm; [lia|auto]. }
      destruct HB1 as [B HB1]. destruct (C125_missing range d1 t0 B Ht0) as [d' [last [bs [E [_ [S _]]]]]]; [rewrite S1 by auto; auto|exact HB1|].
      exists d'. split; [cbn [runs]; rewrite E1; exact E|].
      intros t Ht. destruct (Hn t Ht) as [N1 N2]. rewrite S by auto. auto. }
    destruct G as [d' [E S1]]. exists d'. split; [auto|]. rewrite S1 by auto. auto.
  Qed.
End C125.

Definition p_serie (ext : string) : serie := mkSerie (txt "a_t") 1 (txt ext) (txt "_t") 3 0.
Definition p_frames : list (list (list Z)) := map (map (map (Z.mul 10))) ex_frames.
Example C125_case : config_ok lib_config /\ dims lib_config = 3 /\ Forall (Forall point3) p_frames /\ consistent Cluster_Props.ex_ti /\ map (@List.length (list Z)) p_frames = map (@List.length nat) (inverse Cluster_Props.ex_ti) /\
  (forall t t', t < List.length p_frames -> t' < List.length p_frames -> step_name (p_serie ".cluster") (N.of_nat t) = step_name (p_serie ".cluster") (N.of_nat t') -> t = t') /\
  (forall t pos, nth_error p_frames t = Some pos -> lists_bonds (Some (txt "0 1")) (List.length pos) [(0, 1)]) /\
  exists d', percolation lib_config Cluster_Props.ex_ti p_frames [] 10 (p_serie ".bonds") (p_serie ".cluster") (txt "a") (1, 1)%Z (fun _ => None) = Val d' /\
    d' (txt "a_t0.cluster") = Some (txt "1" ++ [newline] ++ txt "0" ++ [tab] ++ txt "2" ++ [tab] ++ txt "0" ++ [tab] ++ txt "1" ++ [tab; newline]) /\
    d' (txt "a.bonds") = Some (txt "0 2" ++ [newline]) /\ d' (txt "a_t0.bonds") = None.
Proof.
  split; [exact (proj1 lib_config_ok) || exact lib_config_ok|]. split; [reflexivity|]. split; [repeat constructor; do 3 eexists; reflexivity|]. split; [exact (proj1 C47_case)|]. split; [reflexivity|]. split.
  { intros t t' Ht Ht' E. cbn in Ht, Ht'. destruct t as [|[|[|t]]]; [| | |lia]; (destruct t' as [|[|[|t']]]; [| | |lia]); auto; vm_compute in E; discriminate. }
  split.
  { intros t pos H. exists (txt "0 1"). split; [reflexivity|]. split; [vm_compute; reflexivity|]. destruct t as [|[|[|t]]]; [| | |destruct t; discriminate]; injection H as <-; (split; [repeat constructor|vm_compute; discriminate]). }
  eexists. split; [vm_compute; reflexivity|]. split; [vm_compute; reflexivity|]. split; vm_compute; reflexivity.
Qed.
(** Two particles at one diameter and a half, with a range of two diameters: no cluster; the file of their trajectories says so. *)
Theorem C125_range_refuted : let ti := mkIndex [mkTraj 0 [0]; mkTraj 0 [1]] [[0; 1]] in let pos := [[0; 0; 0]; [30; 0; 0]]%Z in
  close_by pos (2 * 2 * 10) 0 1 /\
  exists d', percolation lib_config ti [pos] [] 10 (p_serie ".bonds") (p_serie ".cluster") (txt "a") (2, 1)%Z (fun _ => None) = Val d' /\ d' (txt "a_t0.cluster") = Some (txt "0" ++ [newline]).
Proof.
  cbv zeta. split; [split; [lia|]; exists [0; 0; 0]%Z, [30; 0; 0]%Z; split; [reflexivity|]; split; [reflexivity|]; split; vm_compute; reflexivity|].
  eexists. split; [vm_compute; reflexivity|]. vm_compute. reflexivity.
Qed.

Print Assumptions C125_loaded.
Print Assumptions C125_missing.
Print Assumptions C125_again_refuted.
Print Assumptions C125_range_refuted.

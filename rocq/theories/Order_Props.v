(** C139: the programs boo and periodic_boo, from positions to files. *)
Require Import String.
Require Import ZArith List Bool Arith Lia Sorted NArith Ascii.
Require Import Verif.Base Verif.SortU Verif.ListX Verif.Dec Verif.Box_Model Verif.RTree_Model Verif.RTree_Spec Verif.RTree_Heuristics Verif.Index_Model Verif.Traj_Model Verif.Traj_Proofs Verif.Particles_Model Verif.Particles_Spec
  Verif.Particles_Props Verif.Periodic_Model Verif.Periodic_Spec Verif.Periodic_Props Verif.Files_Model Verif.Files_Spec Verif.Boo_Model Verif.Ngb_Model Verif.Ngb_Spec Verif.Ngb_Props Verif.Corr_Model Verif.Export_Model Verif.Export_Spec Verif.Export_Props
  Verif.PBoo_Model Verif.PBoo_Spec Verif.PBoo_Props Verif.Rerun_Model Verif.Rerun_Props Verif.Cloud_Model Verif.Cloud_Props Verif.Perco_Model Verif.Perco_Spec Verif.Perco_Props Verif.Order_Spec Verif.Order_Model.
Import ListNotations.
Local Open Scope nat_scope.
Local Open Scope list_scope.
Local Notation length := List.length.

(** * Values *)
Lemma existsb_in c (l : list nat) : existsb (Nat.eqb c) l = true <-> In c l.
Proof. rewrite existsb_exists. split; [intros [x [H E]]; apply Nat.eqb_eq in E; subst; auto|intros H; exists c; split; [auto|apply Nat.eqb_refl]]. Qed.
Lemma or_all_spec n l : StronglySorted lt l -> (forall i, In i l -> i < n) -> StronglySorted lt (or_all n l) /\ (forall i, In i (or_all n l) -> i < n) /\ forall i, In i (or_all n l) <-> In i l \/ (l = [] /\ i < n).
Proof.
  intros So Hl. destruct l as [|x l]; cbn [or_all].
  - split; [apply seq_ssorted|]. split; [intros i H; apply in_seq in H; lia|]. intros i. rewrite in_seq. cbn. split; [intros H; right; split; [auto|lia]|intros [[]|[_ H]]; lia].
  - split; [auto|]. split; [auto|]. intros i. split; [auto|intros [H|[H _]]; [auto|discriminate]].
Qed.
Section Values.
  Variables (B V : Type) (zero : B) (add : B -> B -> B) (divn : B -> nat -> B) (harm : nat -> nat -> B).
  Hypothesis Hh : forall p q, harm p q = harm q p.
  Lemma wiped_ok n (ngb : list (list nat)) inside (q : list B) : length ngb = n -> length q = n -> StronglySorted lt inside -> (forall i, In i inside -> i < n) ->
    exists q', wiped B zero n inside q = Val q' /\ length q' = n /\ forall i, i < n -> (In i (or_all n inside) -> nth i q' zero = nth i q zero) /\ (~ In i (or_all n inside) -> nth i q' zero = zero).
  Proof.
    intros Ln Lq So Hi. destruct inside as [|x inside].
    - exists q. split; [reflexivity|]. split; [auto|]. intros i Hlt. split; [auto|]. intros N. exfalso. apply N. apply in_seq. lia.
    - destruct (C77_outside B zero n ngb Ln (x :: inside) q Lq So) as [q' [E [L K]]]; [apply Forall_forall; auto|]. exists q'. split; [exact E|]. split; [auto|]. intros i Hlt. destruct (K i Hlt) as [K1 K2]. cbn [or_all].
      split; intros H; [specialize (K1 H)|specialize (K2 H)].
      + rewrite (nth_error_nth' q zero) in K1 by lia. apply (nth_error_nth _ _ zero K1).
      + apply (nth_error_nth _ _ zero K2).
  Qed.
  Lemma order_ok n ngb inside second (R : nat -> nat -> Prop) : length ngb = n -> ngb_ok ngb -> (forall i j, linked ngb i j <-> R i j) -> (forall i j, R i j -> R j i) -> (forall i, ~ R i i) ->
    StronglySorted lt inside -> (forall i, In i inside -> i < n) -> StronglySorted lt second -> (forall i, In i second -> i < n) ->
    exists q cg sf, order_of B zero add divn harm n ngb inside second = Val (q, cg, sf) /\ orders B zero add divn harm R n (fun i => In i (or_all n inside)) (fun i => In i (or_all n second)) q cg sf.
  Proof.
    intros Ln Hok HR HS HI S1 B1 S2 B2.
    assert (Sy : symmetric ngb) by (intros i j H; apply HR, HS, HR; auto). assert (Ir : irreflexive ngb) by (intros i H; apply HR in H; apply (HI i H)).
    destruct (C77_both B zero add divn harm n ngb Ln Hok Sy Ir Hh) as [q0 [sf0 [E0 [Es [L0 K0]]]]].
    destruct (C77_surface B zero add divn harm n ngb Ln Hok Ir) as [sf1 [Es1 [Ls K1]]]. rewrite Es in Es1. injection Es1 as <-.
    destruct (wiped_ok n ngb inside q0 Ln L0 S1 B1) as [q [Eq [Lq Kq]]]. destruct (wiped_ok n ngb inside sf0 Ln Ls S1 B1) as [sf [Ef [Lf Kf]]].
    destruct (or_all_spec n second S2 B2) as [_ [B2' _]].
    destruct (C77_coarse B zero add divn n ngb Ln Hok (or_all n second) q [] Lq) as [cg [Ec [Lc Kc]]]; [apply Forall_forall; auto|].
    exists q, cg, sf. split; [unfold order_of; rewrite E0; cbn [obind fst snd]; rewrite Eq; cbn [obind]; rewrite Ef; cbn [obind]; rewrite Ec; reflexivity|].
    split; [auto|]. split; [auto|]. split; [auto|]. intros i Hi. destruct (nth_error_ex ngb i ltac:(lia)) as [nb Eb].
    assert (Nb : neighbours R i nb). { split; [apply (Hok i nb Eb)|]. intros j. rewrite <- HR. split; [intros H; exists nb; auto|intros [l [El H]]; congruence]. }
    destruct (Kq i Hi) as [Kq1 Kq2]. destruct (Kf i Hi) as [Kf1 Kf2]. specialize (Kc i nb Eb).
    split. { intros H. rewrite (Kq1 H). exists nb. split; [auto|]. destruct (K0 i Hi) as [b [Eb' G]]. rewrite (C77_one B zero add divn harm n ngb Ln Hok i nb Eb) in G. injection G as G. rewrite (nth_error_nth _ _ zero Eb'). auto. }
    split; [exact Kq2|]. split. { intros H. exists nb. split; [auto|]. apply existsb_in in H. rewrite H in Kc. apply (nth_error_nth _ _ zero Kc). }
    split. { intros H. assert (X : existsb (Nat.eqb i) (or_all n second) = false) by (destruct (existsb (Nat.eqb i) (or_all n second)) eqn:X; [apply existsb_in in X; contradiction|auto]). rewrite X in Kc. rewrite (nth_error_nth _ _ zero Kc). destruct i; reflexivity. }
    split; [|exact Kf2]. intros H. rewrite (Kf1 H). destruct (K1 i Hi) as [M [[SM BM] EM]]. exists M. split; [|apply (nth_error_nth _ _ zero EM)]. split; [auto|].
    intros p r. rewrite BM. unfold own_or_surface, own, common. rewrite !HR. clear. tauto.
  Qed.
  Lemma orders_ext (R R' : nat -> nat -> Prop) n k1 k2 k1' k2' q cg sf : (forall i j, R i j <-> R' i j) -> (forall i, i < n -> (k1 i <-> k1' i)) -> (forall i, i < n -> (k2 i <-> k2' i)) ->
    orders B zero add divn harm R n k1 k2 q cg sf -> orders B zero add divn harm R' n k1' k2' q cg sf.
  Proof.
    intros HR H1 H2 [L1 [L2 [L3 K]]]. split; [auto|]. split; [auto|]. split; [auto|]. intros i Hi. destruct (K i Hi) as [A1 [A2 [A3 [A4 [A5 A6]]]]]. specialize (H1 i Hi). specialize (H2 i Hi).
    assert (N : forall nb, neighbours R i nb -> neighbours R' i nb) by (intros nb [So I]; split; [auto|]; intros j; rewrite I; apply HR).
    split; [intros H; destruct (A1 (proj2 H1 H)) as [nb [N1 N2]]; exists nb; auto|]. split; [intros H; apply A2; tauto|].
    split; [intros H; destruct (A3 (proj2 H2 H)) as [nb [N1 N2]]; exists nb; auto|]. split; [intros H; apply A4; tauto|].
    split; [|intros H; apply A6; tauto]. intros H. destruct (A5 (proj2 H1 H)) as [M [[SM BM] EM]]. exists M. split; [|auto]. split; [auto|]. intros p r. rewrite BM, !HR. clear. tauto.
  Qed.
End Values.

(** * Files *)
Section Files.
  Variables (B V : Type) (row : B -> text) (inv : nat -> B -> V * V) (show : V -> text) (head rest ext : text).
  Hypothesis Ho : ordinary head rest ext.
  Local Notation name := (head ++ txt "_t" ++ rest ++ [dot] ++ ext).
  Local Notation stem := (head ++ txt "_t" ++ rest).
  Lemma mark_ok mark e : with_mark name mark e = head ++ txt mark ++ txt "_t" ++ rest ++ txt e.
  Proof.
    unfold with_mark, boo_neck, boo_head. rewrite (rfind_name head rest ext Ho), (stem_ok head rest ext Ho). cbv zeta. rewrite firstn_exact. rewrite (proj2 (Nat.leb_le _ _)) by (rewrite app_length; lia).
    rewrite (app_length head), Nat.add_comm, Nat.add_sub. rewrite skipn_exact. rewrite (app_assoc (txt "_t") rest), firstn_exact. rewrite <- !app_assoc. reflexivity.
  Qed.
  (** The six names, all different. *)
  Definition qlm_name : text := stem ++ txt ".qlm".
  Definition cloud_name : text := stem ++ txt ".cloud".
  Definition bond_file : text := stem ++ txt ".bonds".
  Definition space_qlm : text := head ++ txt "_space" ++ txt "_t" ++ rest ++ txt ".qlm".
  Definition space_cloud : text := head ++ txt "_space" ++ txt "_t" ++ rest ++ txt ".cloud".
  Definition surf_cloud : text := head ++ txt "_surf" ++ txt "_t" ++ rest ++ txt ".cloud".
  Definition six : list text := [bond_file; qlm_name; space_qlm; cloud_name; space_cloud; surf_cloud].
  Lemma six_diff : NoDup six.
  Proof.
    assert (T : forall a b : text, a <> b -> forall h, h ++ a <> h ++ b) by (intros a b N h E; apply app_inv_head in E; auto).
    unfold six, bond_file, qlm_name, cloud_name, space_qlm, space_cloud, surf_cloud. rewrite <- !app_assoc.
    assert (X : forall e e' : text, e <> e' -> head ++ txt "_t" ++ rest ++ e <> head ++ txt "_t" ++ rest ++ e') by (intros; do 3 apply T; auto).
    assert (Y : forall e e' : text, e <> e' -> head ++ txt "_space" ++ txt "_t" ++ rest ++ e <> head ++ txt "_space" ++ txt "_t" ++ rest ++ e') by (intros; do 4 apply T; auto).
    assert (Z1 : forall e e' : text, head ++ txt "_t" ++ rest ++ e <> head ++ txt "_space" ++ e') by (intros; apply T; discriminate).
    assert (Z2 : forall e e' : text, head ++ txt "_t" ++ rest ++ e <> head ++ txt "_surf" ++ e') by (intros; apply T; discriminate).
    assert (Z3 : forall e e' : text, head ++ txt "_space" ++ e <> head ++ txt "_surf" ++ e') by (intros; apply T; discriminate).
    repeat (apply NoDup_cons; [cbn [In]; intros H; repeat (destruct H as [H|H]; [first [revert H; apply X; discriminate|revert H; apply Y; discriminate|revert H; apply Z1|revert H; apply Z2|revert H; apply Z3|
      symmetry in H; first [revert H; apply Z1|revert H; apply Z2|revert H; apply Z3]]|]); destruct H|]). apply NoDup_nil.
  Qed.
  (** What the five files written at each run hold, and that nothing else has changed. *)
  Definition five_files (q cg sf : list B) (d d' : disk) : Prop :=
    d' qlm_name = Some (qlm_file B row q) /\ d' cloud_name = Some (cloud_file B V inv show q) /\ d' space_qlm = Some (qlm_file B row cg) /\
    d' space_cloud = Some (space_file B V inv show cg) /\ d' surf_cloud = Some (surf_file B V inv show sf) /\
    forall n, ~ In n [qlm_name; cloud_name; space_qlm; space_cloud; surf_cloud] -> d' n = d n.
  Lemma written q cg sf d : five_files q cg sf d (write_order B V row inv show name (q, cg, sf) d).
  Proof.
    pose proof six_diff as N. unfold six in N. repeat rewrite NoDup_cons_iff in N. cbn [In] in N. unfold write_order. rewrite !mark_ok, (stem_ok head rest ext Ho).
    change (stem ++ txt ".qlm") with qlm_name. change (stem ++ txt ".cloud") with cloud_name. change (head ++ txt "_space" ++ txt "_t" ++ rest ++ txt ".qlm") with space_qlm.
    change (head ++ txt "_space" ++ txt "_t" ++ rest ++ txt ".cloud") with space_cloud. change (head ++ txt "_surf" ++ txt "_t" ++ rest ++ txt ".cloud") with surf_cloud.
    split; [rewrite !put_other by (intros E; rewrite E in N; tauto); apply put_same|]. split; [rewrite !put_other by (intros E; rewrite E in N; tauto); apply put_same|].
    split; [rewrite !put_other by (intros E; rewrite E in N; tauto); apply put_same|]. split; [rewrite !put_other by (intros E; rewrite E in N; tauto); apply put_same|]. split; [apply put_same|].
    intros n Hn. cbn [In] in Hn. rewrite !put_other; [reflexivity| | | | |]; intros E; apply Hn; rewrite E; tauto.
  Qed.
End Files.

(** * The programs *)
(** The particle [i] is at least the margin away from all faces, or no particle is. *)
Definition deep_or_none (l : list (list Z)) (m : Z) (i : nat) : Prop := exists p, nth_error l i = Some p /\ (deep l m p \/ forall q, In q l -> ~ deep l m q).
(** The set [bs] of pairs is that of the relation. *)
Definition bonds_of (R : nat -> nat -> Prop) (bs : list (nat * nat)) : Prop := bond_set bs /\ forall i j, In (i, j) bs <-> i < j /\ R i j.
Lemma picks_or_all l m ids : picks l (fun _ p => deep l m p) ids -> (forall i, In i ids -> i < length l) /\ forall i, i < length l -> (In i (or_all (length l) ids) <-> deep_or_none l m i).
Proof.
  intros [So P]. assert (Hb : forall i, In i ids -> i < length l) by (intros i H; apply P in H as [p [E _]]; eapply nth_error_lt; eauto). split; [exact Hb|].
  intros i Hi. destruct (or_all_spec (length l) ids So Hb) as [_ [_ O]]. rewrite O. unfold deep_or_none. split.
  - intros [H|[-> _]]; [apply P in H as [p [E D]]; exists p; auto|]. destruct (nth_error_ex l i Hi) as [p E]. exists p. split; [auto|]. right. intros q Hq D. apply In_nth_error in Hq as [k Ek]. apply (proj2 (P k)). exists q. auto.
  - intros [p [E [D|N]]]; [left; apply P; exists p; auto|]. destruct ids as [|x ids]; [right; auto|]. exfalso. destruct (proj1 (P x) (or_introl eq_refl)) as [q [Eq Dq]]. apply (N q); [eapply nth_error_In; eauto|auto].
Qed.
Lemma close_sym l sep i j : close_by l sep i j -> close_by l sep j i.
Proof. intros [N [x [y [A [B [C D]]]]]]. split; [auto|]. exists y, x. split; [auto|]. split; [auto|]. split; [auto|]. rewrite dist2_sym. auto. Qed.
Lemma bonds_of_ngb ngb (R : nat -> nat -> Prop) : ngb_ok ngb -> (forall i j, linked ngb i j <-> R i j) -> (forall i j, R i j -> R j i) -> (forall i, ~ R i i) ->
  bonds_of R (ngb2bonds ngb) /\ ngb_of_bonds (length ngb) (ngb2bonds ngb) = Some ngb.
Proof.
  intros Hok HR HS HI. destruct (C34_round_trip_back ngb Hok) as [A [B C]]; [intros i j H; apply HR, HS, HR; auto|intros i H; apply HR in H; apply (HI i H)|].
  split; [|exact C]. split; [exact A|]. intros i j. rewrite B, HR. tauto.
Qed.

Section C139.
  Variables (B V : Type) (zero : B) (add : B -> B -> B) (divn : B -> nat -> B) (harm : nat -> nat -> B).
  Variables (row : B -> text) (inv : nat -> B -> V * V) (show : V -> text).
  (** The harmonics of a bond do not depend on its direction (even degrees). *)
  Hypothesis Hh : forall p q, harm p q = harm q p.
  Variables (c : config) (l : list (list Z)) (bb : box) (r : Z) (head rest ext : text).
  Hypotheses (Hok : config_ok c) (H3 : dims c = 3) (Hne : l <> []) (Hp : Forall point3 l) (Hr : (0 <= r)%Z) (Ho : ordinary head rest ext).
  Local Notation name := (head ++ txt "_t" ++ rest ++ [dot] ++ ext).
  Local Notation run := (boo B V zero add divn harm row inv show c (new_particles l bb r) false name).
  Local Notation prun := (periodic_boo B V zero add divn harm row inv show c (new_particles l bb r) name).
  Local Notation orders := (orders B zero add divn harm).
  Local Notation five_files := (five_files B V row inv show head rest).
  Local Notation bond_file := (bond_file head rest).

  Lemma bonds_name_ok : bonds_name name = bond_file.
  Proof. unfold bonds_name. rewrite (stem_ok head rest ext Ho). reflexivity. Qed.
  Lemma bond_not_five : ~ In bond_file [qlm_name head rest; cloud_name head rest; space_qlm head rest; space_cloud head rest; surf_cloud head rest].
  Proof. pose proof (six_diff head rest) as N. unfold six in N. apply NoDup_cons_iff in N as [N _]. cbn [In] in *. tauto. Qed.
  (** The end of the program, the neighbours and the selections being known. *)
  Lemma finish_ok ngb i1 i2 (R : nat -> nat -> Prop) k1 k2 d : length ngb = length l -> ngb_ok ngb -> (forall i j, linked ngb i j <-> R i j) -> (forall i j, R i j -> R j i) -> (forall i, ~ R i i) ->
    StronglySorted lt i1 -> (forall i, In i i1 -> i < length l) -> StronglySorted lt i2 -> (forall i, In i i2 -> i < length l) ->
    (forall i, i < length l -> (In i (or_all (length l) i1) <-> k1 i)) -> (forall i, i < length l -> (In i (or_all (length l) i2) <-> k2 i)) ->
    exists q cg sf, (forall d0, finish B V zero add divn harm row inv show (length l) name (ngb, i1, i2, d0) = Val (write_order B V row inv show name (q, cg, sf) d0)) /\
      orders R (length l) k1 k2 q cg sf /\ five_files q cg sf d (write_order B V row inv show name (q, cg, sf) d).
  Proof.
    intros Ln Hn HR HS HI S1 B1 S2 B2 K1 K2. destruct (order_ok B zero add divn harm Hh (length l) ngb i1 i2 R Ln Hn HR HS HI S1 B1 S2 B2) as [q [cg [sf [E O]]]].
    exists q, cg, sf. split; [intros d0; unfold finish; rewrite E; reflexivity|]. split; [|apply written; auto].
    eapply orders_ext; [| | |exact O]; [intros; reflexivity|auto|auto].
  Qed.

  Section Plain.
    (** Coordinates are positive doubles; along each axis the particles spread more than twice both margins, and none is exactly at a margin. *)
    Hypothesis Hrange : forall p k, In p l -> k < 3 -> (dbl_min <= coord k p <= dbl_max)%Z.
    Hypotheses (Hw1 : wide_and_clear l (13 * r / 10)) (Hw2 : wide_and_clear l (26 * r / 10)).
    Let st := new_particles l bb r.
    Lemma m_pos k : (0 <= k)%Z -> (0 <= k * r / 10)%Z.
    Proof. intros Hk. apply Z.div_pos; [nia|lia]. Qed.
    Lemma both m : (0 <= m)%Z -> wide_and_clear l m -> exists ids, inside_first c st m false = Some ids /\ inside_later st m false = Some ids /\ picks l (fun _ p => deep l m p) ids.
    Proof. intros Hm Hw. destruct (C124_same c st m Hok H3 Hne Hp Hm Hrange Hw) as [ids [A [A' [P _]]]]. exists ids. auto. Qed.

    (** C139.  Without a bond file: the bonds are the pairs closer than 2.6 radii; each file holds, particle by particle, what it should. *)
    Theorem C139_first d : d bond_file = None -> exists d' q cg sf bs, run d = Val d' /\
      let R := close_by l (26 * r / 10) in
      bonds_of R bs /\ d' bond_file = Some (save_bonds bs) /\ orders R (length l) (deep_or_none l (13 * r / 10)) (deep_or_none l (26 * r / 10)) q cg sf /\
      five_files q cg sf (put_file d bond_file (save_bonds bs)) d'.
    Proof.
      intros Hd. destruct (both (13 * r / 10)) as [i1 [A1 [A1' P1]]]; [apply m_pos; lia|auto|]. destruct (both (26 * r / 10)) as [i2 [A2 [A2' P2]]]; [apply m_pos; lia|auto|].
      destruct (picks_or_all _ _ _ P1) as [B1 K1]. destruct (picks_or_all _ _ _ P2) as [B2 K2].
      destruct (computed_ok c bb r Hok H3 l Hp) as [ngb [En [Ln [Hn [HR HS]]]]]. assert (HS' : forall i j, close_by l (26 * r / 10) i j -> close_by l (26 * r / 10) j i) by (intros; apply close_sym; auto).
      assert (HI : forall i, ~ close_by l (26 * r / 10) i i) by (intros i [H _]; auto). destruct (bonds_of_ngb ngb _ Hn HR HS' HI) as [Hb _].
      destruct (finish_ok ngb i1 i2 _ _ _ (put_file d bond_file (save_bonds (ngb2bonds ngb))) Ln Hn HR HS' HI (proj1 P1) B1 (proj1 P2) B2 K1 K2) as [q [cg [sf [Ef [O F]]]]].
      eexists. exists q, cg, sf, (ngb2bonds ngb). split.
      - unfold boo. rewrite bonds_name_ok, Hd. unfold make_bonds. fold st. change (margin1 st) with (13 * r / 10)%Z. change (margin2 st) with (26 * r / 10)%Z. rewrite A1, A2, bonds_name_ok.
        unfold ngb_computed in En. fold st in En. destruct (make_index c st) as [st'|]; [|discriminate]. rewrite En. cbn [omap obind]. apply Ef.
      - cbv zeta. split; [auto|]. split; [|split; [exact O|exact F]]. destruct F as [_ [_ [_ [_ [_ F]]]]]. rewrite F by apply bond_not_five. apply put_same.
    Qed.
    (** With a bond file, its bonds are used, in whatever order and layout it lists them, and the file is left alone. *)
    Theorem C139_loaded d bs : lists_bonds (d bond_file) (length l) bs -> Forall (fun b => fst b <> snd b) bs -> exists d' q cg sf, run d = Val d' /\
      let R i j := In (i, j) bs \/ In (j, i) bs in
      orders R (length l) (deep_or_none l (13 * r / 10)) (deep_or_none l (26 * r / 10)) q cg sf /\ five_files q cg sf d d' /\ d' bond_file = d bond_file.
    Proof.
      intros [t [Et [W [F Hn64]]]] Hd. destruct (both (13 * r / 10)) as [i1 [A1 [A1' P1]]]; [apply m_pos; lia|auto|]. destruct (both (26 * r / 10)) as [i2 [A2 [A2' P2]]]; [apply m_pos; lia|auto|].
      destruct (picks_or_all _ _ _ P1) as [B1 K1]. destruct (picks_or_all _ _ _ P2) as [B2 K2]. rewrite Forall_forall in F, Hd.
      destruct (C79_bonds_load t bs W) as [b [Eb [Hb Ib]]]; [apply Forall_forall; intros x Hx; specialize (F x Hx); lia|].
      assert (Hin : forall x y, In (x, y) b -> x < y /\ y < length l).
      { intros x y Hxy. assert (Lxy : x <= y) by (destruct Hb as [_ Hb]; rewrite Forall_forall in Hb; apply (Hb _ Hxy)). apply Ib in Hxy; [|auto]. destruct Hxy as [G|G]; pose proof (F _ G); pose proof (Hd _ G); cbn [fst snd] in *; lia. }
      destruct (C34_round_trip (length l) b Hb) as [ngb [En [Ln [HL [_ [_ Hok']]]]]]; [apply Forall_forall; intros [x y] Hxy; apply Hin in Hxy; cbn; lia|].
      specialize (Hok' ltac:(apply Forall_forall; intros [x y] Hxy; apply Hin in Hxy; cbn; lia)).
      assert (HR : forall i j, linked ngb i j <-> In (i, j) bs \/ In (j, i) bs).
      { intros i j. rewrite HL. split.
        - intros [H|H]; assert (X := Hin _ _ H); apply Ib in H; try lia; tauto.
        - intros H. destruct (Nat.le_ge_cases i j) as [Hij|Hij]; [left|right]; apply Ib; auto; tauto. }
      assert (HI : forall i, ~ (In (i, i) bs \/ In (i, i) bs)) by (intros i [H|H]; apply (Hd _ H); reflexivity).
      destruct (finish_ok ngb i1 i2 (fun i j => In (i, j) bs \/ In (j, i) bs) _ _ d Ln Hok' HR ltac:(tauto) HI (proj1 P1) B1 (proj1 P2) B2 K1 K2) as [q [cg [sf [Ef [O G]]]]].
      eexists. exists q, cg, sf. split.
      - unfold boo. rewrite bonds_name_ok, Et. unfold from_file. fold st. change (margin1 st) with (13 * r / 10)%Z. change (margin2 st) with (26 * r / 10)%Z. rewrite A1', A2', Eb. change (length (pts st)) with (length l). rewrite En. cbn [obind]. apply Ef.
      - cbv zeta. split; [exact O|]. split; [exact G|]. destruct G as [_ [_ [_ [_ [_ G]]]]]. apply G, bond_not_five.
    Qed.
    (** Running the program again, with the bond file it wrote, rewrites the same files. *)
    Theorem C139_again d d' : (N.of_nat (length l) <= two64)%N -> d bond_file = None -> run d = Val d' -> exists d'', run d' = Val d'' /\ forall n, d'' n = d' n.
    Proof.
      intros H64 Hd Hrun. destruct (both (13 * r / 10)) as [i1 [A1 [A1' P1]]]; [apply m_pos; lia|auto|]. destruct (both (26 * r / 10)) as [i2 [A2 [A2' P2]]]; [apply m_pos; lia|auto|].
      destruct (picks_or_all _ _ _ P1) as [B1 K1]. destruct (picks_or_all _ _ _ P2) as [B2 K2].
      destruct (computed_ok c bb r Hok H3 l Hp) as [ngb [En [Ln [Hn [HR HS]]]]]. assert (HS' : forall i j, close_by l (26 * r / 10) i j -> close_by l (26 * r / 10) j i) by (intros; apply close_sym; auto).
      assert (HI : forall i, ~ close_by l (26 * r / 10) i i) by (intros i [H _]; auto). destruct (bonds_of_ngb ngb _ Hn HR HS' HI) as [[Hb1 Hb2] Hb3].
      destruct (finish_ok ngb i1 i2 _ _ _ (put_file d bond_file (save_bonds (ngb2bonds ngb))) Ln Hn HR HS' HI (proj1 P1) B1 (proj1 P2) B2 K1 K2) as [q [cg [sf [Ef [_ F]]]]].
      assert (E' : run d = Val (write_order B V row inv show name (q, cg, sf) (put_file d bond_file (save_bonds (ngb2bonds ngb))))).
      { unfold boo. rewrite bonds_name_ok, Hd. unfold make_bonds. fold st. change (margin1 st) with (13 * r / 10)%Z. change (margin2 st) with (26 * r / 10)%Z. rewrite A1, A2, bonds_name_ok.
        unfold ngb_computed in En. fold st in En. destruct (make_index c st) as [st'|]; [|discriminate]. rewrite En. cbn [omap obind]. apply Ef. }
      assert (Hd' : d' = write_order B V row inv show name (q, cg, sf) (put_file d bond_file (save_bonds (ngb2bonds ngb)))) by congruence. clear Hrun E'. rewrite <- Hd' in F. clear Hd'.
      assert (Eb : d' bond_file = Some (save_bonds (ngb2bonds ngb))) by (destruct F as [_ [_ [_ [_ [_ F]]]]]; rewrite F by apply bond_not_five; apply put_same).
      exists (write_order B V row inv show name (q, cg, sf) d'). split.
      - unfold boo. rewrite bonds_name_ok, Eb. unfold from_file. fold st. change (margin1 st) with (13 * r / 10)%Z. change (margin2 st) with (26 * r / 10)%Z. rewrite A1', A2'. rewrite C79_bonds_round_trip.
        + change (length (pts st)) with (length l). rewrite <- Ln at 1. rewrite Hb3. cbn [obind]. apply Ef.
        + exact Hb1.
        + apply Forall_forall. intros [x y] Hxy. apply Hb2 in Hxy as [_ [_ [a [b [_ [Eyb _]]]]]]. apply nth_error_lt in Eyb. cbn [snd]. lia.
      - intros n. destruct (written B V row inv show head rest ext Ho q cg sf d') as [G1 [G2 [G3 [G4 [G5 G6]]]]]. destruct F as [F1 [F2 [F3 [F4 [F5 F6]]]]].
        destruct (in_dec (list_eq_dec ascii_dec) n [qlm_name head rest; cloud_name head rest; space_qlm head rest; space_cloud head rest; surf_cloud head rest]) as [I|I]; [|apply G6; auto].
        cbn [In] in I. destruct I as [<-|[<-|[<-|[<-|[<-|[]]]]]]; congruence.
    Qed.
    (** A particle deep inside, all the neighbours of which are no further than half of the bond length along each axis: its coarse grained order is the mean of the order of its neighbours and of its own. *)
    Theorem C139_coarse d i p : d bond_file = None -> nth_error l i = Some p -> deep l (26 * r / 10) p ->
      (forall j x, close_by l (26 * r / 10) i j -> nth_error l j = Some x -> forall k, k < 3 -> (Z.abs (coord k x - coord k p) <= 26 * r / 10 - 13 * r / 10)%Z) ->
      exists d' cg w, run d = Val d' /\ d' (space_qlm head rest) = Some (qlm_file B row cg) /\ d' (space_cloud head rest) = Some (space_file B V inv show cg) /\ length cg = length l /\
        nth_error cg i = Some w /\ coarse_at B zero add divn harm (close_by l (26 * r / 10)) i w.
    Proof.
      intros Hd Ei Di Hn. destruct (C139_first d Hd) as [d' [q [cg [sf [bs [E [_ [_ [O F]]]]]]]]]. exists d', cg, (nth i cg zero). destruct O as [Lq [Lc [_ O]]]. assert (Hi := nth_error_lt _ _ _ Ei).
      split; [exact E|]. split; [apply F|]. split; [apply F|]. split; [auto|]. split; [apply nth_error_nth'; lia|].
      assert (M : (13 * r / 10 <= 26 * r / 10)%Z) by (apply Z.div_le_mono; lia).
      assert (D1 : forall x, (forall k, k < 3 -> (Z.abs (coord k x - coord k p) <= 26 * r / 10 - 13 * r / 10)%Z) -> deep l (13 * r / 10) x). { intros x Hx k lo hi Hk Ex. specialize (Di k lo hi Hk Ex). specialize (Hx k Hk). lia. }
      assert (Ki : deep_or_none l (13 * r / 10) i). { exists p. split; [auto|]. left. apply D1. intros k Hk. rewrite Z.sub_diag. cbn [Z.abs]. lia. }
      destruct (O i Hi) as [O1 [_ [O3 _]]]. destruct (O3 ltac:(exists p; auto)) as [nb [N W]]. exists nb, (nth i q zero), (map (fun j => nth j q zero) nb). split; [exact N|]. split; [auto|]. split; [|exact W].
      assert (G : forall j, In j nb -> order_at B zero add divn harm (close_by l (26 * r / 10)) j (nth j q zero)).
      { intros j Hj. apply N in Hj. destruct Hj as [Nj [a [x [Ea [Ex Cx]]]]]. apply (O j); [eapply nth_error_lt; eauto|]. exists x. split; [auto|]. left. apply D1. intros k Hk. apply (Hn j); [split; [auto|exists a, x; auto]|auto|auto]. }
      clear - G. induction nb as [|j nb IH]; cbn [map]; constructor; [apply G; left; auto|apply IH; intros; apply G; right; auto].
    Qed.
  End Plain.

  (** With periodic boundary conditions. *)
  Section Periodic.
    Hypotheses (Hc : cell bb) (Hin : Forall (in_box bb) l).
    (** The relation of being closer than 2.6 radii, images included. *)
    Definition close_images (i j : nat) : Prop := i <> j /\ exists p q p', nth_error l i = Some q /\ nth_error l j = Some p /\ image bb p p' /\ closer3 p' q (26 * r / 10).
    Lemma per_ok : exists st' ngb, make_index c (new_particles l bb r) = Some st' /\ pts st' = l /\ per_ngb_list st' 13 10 = Val ngb /\ length ngb = length l /\ ngb_ok ngb /\
      (forall i j, linked ngb i j <-> close_images i j) /\ (forall i j, linked ngb i j -> linked ngb j i).
    Proof.
      destruct (C44_ngb_list c l bb r [PIndex] 13 10 Hok H3 Hp) as [st [E K]]; [constructor; [exact I|constructor]|reflexivity|].
      destruct (C44_neighbours c l bb r [PIndex] Hok H3 Hp) as [st2 [E2 K2]]; [constructor; [exact I|constructor]|reflexivity|].
      assert (st2 = st) by congruence. subst st2. cbn [positions fold_left move] in *. cbn [Particles_Model.prun] in E. cbn in E. destruct (make_index c (new_particles l bb r)) as [st'|] eqn:Ei; [|discriminate]. injection E as ->.
      assert (X : pts st = l /\ pradius st = r /\ pbb st = bb). { unfold make_index in Ei. destruct (rstar_build c _); [|discriminate]. injection Ei as <-. repeat split. } destruct X as [X1 [X2 X3]]. rewrite X3 in *.
      destruct (K Hc Hin) as [ngb [En [Ln [HR HS]]]]. destruct (K2 Hc Hin (bond_sep st 13 10)) as [_ N]. exists st, ngb. split; [auto|]. split; [auto|]. split; [auto|]. split; [auto|].
      assert (Esep : bond_sep st 13 10 = (26 * r / 10)%Z) by (unfold bond_sep; rewrite X2; reflexivity). rewrite Esep in *.
      split; [|split; [intros i j; rewrite HR; unfold close_images; reflexivity|auto]].
      intros i ids Hi. assert (Hlt : i < length l) by (rewrite <- Ln; eapply nth_error_lt; eauto).
      assert (Ee : per_euclid_of st i (26 * r / 10) = Val ids).
      { unfold per_ngb_list in En. rewrite Esep, X1 in En. revert Hi Hlt En. clear. intros Hi Hlt En.
        assert (G : forall m k ngb, osequence (map (fun p => per_euclid_of st p (26 * r / 10)) (seq k m)) = Val ngb -> forall a x, nth_error ngb a = Some x -> per_euclid_of st (k + a) (26 * r / 10) = Val x).
        { induction m as [|m IH]; intros k g Eg a x Hx; cbn [seq map osequence] in Eg; [injection Eg as <-; destruct a; discriminate|]. destruct (per_euclid_of st k (26 * r / 10)) as [y| |] eqn:Ey; cbn [obind] in Eg; try discriminate.
          destruct (osequence (map (fun p => per_euclid_of st p (26 * r / 10)) (seq (S k) m))) as [g'| |] eqn:Eg'; cbn [omap] in Eg; try discriminate Eg. assert (g = y :: g') by congruence. subst g. destruct a as [|a]; cbn in Hx; [injection Hx as <-; rewrite Nat.add_0_r; auto|]. replace (k + S a) with (S k + a) by lia. eapply IH; eauto. }
        apply (G _ 0 ngb En i ids Hi). }
      destruct (nth_error_ex l i Hlt) as [x Ex]. destruct (N i x Ex) as [ids' [E' [So P]]]. assert (ids' = ids) by congruence. subst ids'. split; [auto|]. intros j Hj. apply P in Hj as [y [Ey _]]. rewrite Ln. eapply nth_error_lt; eauto.
    Qed.
    (** All the particles are kept, at the first run as at the later ones, near the faces too. *)
    Theorem C139_periodic d : (N.of_nat (length l) <= two64)%N -> d bond_file = None -> exists d' d'' q cg sf bs, prun d = Val d' /\ bonds_of close_images bs /\ d' bond_file = Some (save_bonds bs) /\
      orders close_images (length l) (fun _ => True) (fun _ => True) q cg sf /\ five_files q cg sf (put_file d bond_file (save_bonds bs)) d' /\
      (forall i w, nth_error cg i = Some w -> coarse_at B zero add divn harm close_images i w) /\
      prun d' = Val d'' /\ forall n, d'' n = d' n.
    Proof.
      intros H64 Hd. destruct per_ok as [st' [ngb [Ei [Ep [En [Ln [Hn [HR HS]]]]]]]]. assert (HS' : forall i j, close_images i j -> close_images j i) by (intros i j H; apply HR, HS, HR; auto).
      assert (HI : forall i, ~ close_images i i) by (intros i [H _]; auto). destruct (bonds_of_ngb ngb _ Hn HR HS' HI) as [[Hb1 Hb2] Hb3].
      assert (B1 : forall i, In i (seq 0 (length l)) -> i < length l) by (intros i H; apply in_seq in H; lia).
      assert (K1 : forall i, i < length l -> (In i (or_all (length l) (seq 0 (length l))) <-> True)). { intros i Hi. split; [auto|]. intros _. destruct (or_all_spec (length l) (seq 0 (length l)) (seq_ssorted _ _) B1) as [_ [_ O]]. apply O. left. apply in_seq. lia. }
      destruct (finish_ok ngb (seq 0 (length l)) (seq 0 (length l)) _ _ _ (put_file d bond_file (save_bonds (ngb2bonds ngb))) Ln Hn HR HS' HI (seq_ssorted _ _) B1 (seq_ssorted _ _) B1 K1 K1) as [q [cg [sf [Ef [O F]]]]].
      assert (Eb : write_order B V row inv show name (q, cg, sf) (put_file d bond_file (save_bonds (ngb2bonds ngb))) bond_file = Some (save_bonds (ngb2bonds ngb))) by (destruct F as [_ [_ [_ [_ [_ F]]]]]; rewrite F by apply bond_not_five; apply put_same).
      set (d' := write_order B V row inv show name (q, cg, sf) (put_file d bond_file (save_bonds (ngb2bonds ngb)))) in *. exists d', (write_order B V row inv show name (q, cg, sf) d'), q, cg, sf, (ngb2bonds ngb).
      split. { unfold periodic_boo. rewrite bonds_name_ok, Hd. unfold make_bonds_periodic. rewrite Ei, En, bonds_name_ok. cbn [omap obind]. unfold per_select_inside. rewrite Ep. apply Ef. }
      split; [split; auto|]. split; [exact Eb|]. split; [exact O|]. split; [exact F|]. split; [|split].
      - intros i w Hw. destruct O as [Lq [Lc [_ O]]]. assert (Hi := nth_error_lt _ _ _ Hw). rewrite Lc in Hi. destruct (O i Hi) as [O1 [_ [O3 _]]]. destruct (O3 I) as [nb [N W]]. exists nb, (nth i q zero), (map (fun j => nth j q zero) nb).
        split; [exact N|]. split; [auto|]. split; [|rewrite <- W; symmetry; apply nth_error_nth; auto].
        assert (G : forall j, In j nb -> order_at B zero add divn harm close_images j (nth j q zero)).
        { intros j Hj. apply N in Hj. destruct Hj as [_ [x [y [x' [_ [Ex _]]]]]]. apply (O j); [eapply nth_error_lt; eauto|auto]. }
        clear - G. induction nb as [|j nb IH]; cbn [map]; constructor; [apply G; left; auto|apply IH; intros; apply G; right; auto].
      - unfold periodic_boo. rewrite bonds_name_ok, Eb. unfold from_file. rewrite C79_bonds_round_trip.
        + cbn [new_particles pts]. rewrite <- Ln at 1. rewrite Hb3. cbn [obind]. unfold per_select_inside. cbn [new_particles pts]. apply Ef.
        + exact Hb1.
        + apply Forall_forall. intros [x y] Hxy. apply Hb2 in Hxy as [_ [_ [a [b [b' [_ [Eyb _]]]]]]]. apply nth_error_lt in Eyb. cbn [snd]. lia.
      - intros n. destruct (written B V row inv show head rest ext Ho q cg sf d') as [G1 [G2 [G3 [G4 [G5 G6]]]]]. destruct F as [F1 [F2 [F3 [F4 [F5 F6]]]]].
        destruct (in_dec (list_eq_dec ascii_dec) n [qlm_name head rest; cloud_name head rest; space_qlm head rest; space_cloud head rest; surf_cloud head rest]) as [I0|I0]; [|apply G6; auto].
        cbn [In] in I0. destruct I0 as [<-|[<-|[<-|[<-|[<-|[]]]]]]; congruence.
    Qed.
  End Periodic.
End C139.

(** * The series of files of periodic_boo *)
Lemma span_rev (f : ascii -> bool) a b : forallb f b = true -> (a = [] \/ exists a' x, a = a' ++ [x] /\ f x = false) -> span_while f (rev (a ++ b)) = (rev b, rev a).
Proof.
  intros Hb Ha. rewrite rev_app_distr. apply span_while_app; [apply forallb_forall; intros x Hx; apply in_rev in Hx; rewrite forallb_forall in Hb; auto|].
  destruct Ha as [->|[a' [x [-> Hx]]]]; [exact I|]. rewrite rev_app_distr. cbn. exact Hx.
Qed.
(** Names made from the given one: its last digits are replaced by the time, printed without leading zeros. *)
Theorem C139_series h ds tl t : ds <> [] -> forallb is_digit ds = true -> forallb (fun x => negb (is_digit x)) tl = true -> (h = [] \/ exists h' x, h = h' ++ [x] /\ is_digit x = false) ->
  series_name (h ++ ds ++ tl) t = h ++ print_nat t ++ tl.
Proof.
  intros Hne Hd Ht Hh. unfold series_name, before_digits, after_digits.
  assert (E : span_while (fun x => negb (is_digit x)) (rev (h ++ ds ++ tl)) = (rev tl, rev (h ++ ds))).
  { rewrite app_assoc. apply span_rev; [auto|]. right. destruct (exists_last Hne) as [ds' [x ->]]. exists (h ++ ds'), x. split; [rewrite app_assoc; auto|]. rewrite forallb_app in Hd. apply andb_true_iff in Hd as [_ Hx]. cbn in Hx. rewrite andb_true_r in Hx. rewrite Hx. reflexivity. }
  rewrite E. cbn [fst snd]. rewrite rev_involutive. rewrite (span_rev is_digit h ds Hd Hh). cbn [snd]. rewrite rev_involutive. reflexivity.
Qed.
(** Different times have different names. *)
Theorem C139_series_distinct f t t' : series_name f t = series_name f t' -> t = t'.
Proof.
  unfold series_name. intros E. apply app_inv_head in E. apply app_inv_tail in E. unfold print_nat in E. apply (f_equal (value_from 0)) in E.
  destruct (print_N_ok (N.of_nat t)) as [_ [_ A]], (print_N_ok (N.of_nat t')) as [_ [_ B]]. rewrite A, B in E. lia.
Qed.
(** The file given is one of the series only if its digits have no leading zero: a numbering with a fixed number of digits is not found. *)
Theorem C139_series_padded_refuted h ds tl : ds <> [] -> forallb is_digit ds = true -> forallb (fun x => negb (is_digit x)) tl = true -> (h = [] \/ exists h' x, h = h' ++ [x] /\ is_digit x = false) ->
  (exists t, series_name (h ++ ds ++ tl) t = h ++ ds ++ tl) <-> ds = print_nat (N.to_nat (value_from 0 ds)).
Proof.
  intros Hne Hd Ht Hh. split.
  - intros [t E]. rewrite (C139_series h ds tl t Hne Hd Ht Hh) in E. apply app_inv_head in E. apply app_inv_tail in E. rewrite <- E. unfold print_nat at 3. destruct (print_N_ok (N.of_nat t)) as [_ [_ A]]. rewrite A, Nnat.Nat2N.id. reflexivity.
  - intros E. exists (N.to_nat (value_from 0 ds)). rewrite (C139_series h ds tl _ Hne Hd Ht Hh), <- E. reflexivity.
Qed.
Example C139_series_case : series_name (txt "a_t000.grv") 7 = txt "a_t7.grv" /\ txt "000" <> print_nat (N.to_nat (value_from 0 (txt "000"))) /\ txt "12" = print_nat (N.to_nat (value_from 0 (txt "12"))).
Proof. split; [vm_compute; reflexivity|]. split; [vm_compute; discriminate|vm_compute; reflexivity]. Qed.

(** * Cases *)
(** Five particles, radius 10: the second is deep inside (margin 26), the third is its neighbour at distance 20, too close to the first face (margin 13) and wiped. *)
Definition five_points : list (list Z) := map (map (Z.mul unit60)) [[1; 1; 1]; [30; 30; 30]; [10; 30; 30]; [40; 30; 30]; [61; 61; 61]]%Z.
Definition run5 (d : disk) : outcome disk :=
  boo nat nat 0 Nat.add Nat.div (fun p q => 60) print_nat (fun l b => (l * b, b)) print_nat lib_config (new_particles five_points [] (10 * unit60)) false (txt "a_t0.dat") d.
Example C139_case : five_points <> [] /\ Forall point3 five_points /\ ordinary (txt "a") (txt "0") (txt "dat") /\ (forall p k, In p five_points -> k < 3 -> (dbl_min <= coord k p <= dbl_max)%Z) /\
  wide_and_clear five_points (13 * (10 * unit60) / 10) /\ wide_and_clear five_points (26 * (10 * unit60) / 10).
Proof.
  split; [discriminate|]. split; [repeat constructor; repeat eexists|]. split; [exact C128_case|].
  assert (Rg : forall p k, In p five_points -> k < 3 -> (dbl_min <= coord k p <= dbl_max)%Z).
  { intros p k Hp Hk. cbn [five_points map In] in Hp. destruct k as [|[|[|k]]]; [| | |lia]; repeat (destruct Hp as [<-|Hp]; [vm_compute; split; discriminate|]); contradiction. }
  split; [exact Rg|].
  assert (E : forall k, k < 3 -> extent five_points k unit60 (61 * unit60)).
  { intros k Hk. split; [exists (map (Z.mul unit60) [1; 1; 1]%Z)|split; [exists (map (Z.mul unit60) [61; 61; 61]%Z)|]].
    - split; [left; reflexivity|]. destruct k as [|[|[|k]]]; [reflexivity|reflexivity|reflexivity|lia].
    - split; [do 4 right; left; reflexivity|]. destruct k as [|[|[|k]]]; [reflexivity|reflexivity|reflexivity|lia].
    - intros q Hq. cbn [five_points map In] in Hq. destruct k as [|[|[|k]]]; [| | |lia]; repeat (destruct Hq as [<-|Hq]; [vm_compute; split; discriminate|]); contradiction. }
  split; intros k lo hi Hk Ex; destruct (extent_fun _ _ _ _ _ _ Ex (E k Hk)) as [-> ->]; (split; [vm_compute; reflexivity|]);
    intros q Hq; cbn [five_points map In] in Hq; destruct k as [|[|[|k]]]; [| | |lia| | | |lia]; repeat (destruct Hq as [<-|Hq]; [vm_compute; split; discriminate|]); contradiction.
Qed.
(** "The coarse grained order is the mean of the order of the particle and of its neighbours" is false of some particles kept for it: the second margin exceeds the first by half of the bond length only.
    Here all bonds have the same harmonics, 60, so that all three bonded particles have order 60, and the mean written is 40. *)
Theorem C139_coarse_refuted : (forall p, nth_error five_points 1 = Some p -> deep five_points (26 * (10 * unit60) / 10) p) /\
  (exists d', run5 (fun _ => None) = Val d' /\ d' (txt "a_space_t0.qlm") = Some (txt "0" ++ [newline] ++ txt "40" ++ [newline] ++ txt "0" ++ [newline] ++ txt "0" ++ [newline] ++ txt "0" ++ [newline])) /\
  ~ coarse_at nat 0 Nat.add Nat.div (fun p q => 60) (close_by five_points (26 * (10 * unit60) / 10)) 1 40.
Proof.
  split; [|split].
  - intros p Ep. assert (Ep' : p = map (Z.mul unit60) [30; 30; 30]%Z) by (injection Ep as <-; reflexivity). subst p. clear Ep. intros k lo hi Hk Ex.
    assert (L : (lo <= unit60)%Z) by (destruct Ex as [_ [_ X]]; specialize (X (map (Z.mul unit60) [1; 1; 1]%Z) (or_introl eq_refl)); destruct k as [|[|[|k]]]; [exact (proj1 X)|exact (proj1 X)|exact (proj1 X)|lia]).
    assert (H : (61 * unit60 <= hi)%Z) by (destruct Ex as [_ [_ X]]; specialize (X (map (Z.mul unit60) [61; 61; 61]%Z) ltac:(do 4 right; left; reflexivity)); destruct k as [|[|[|k]]]; [exact (proj2 X)|exact (proj2 X)|exact (proj2 X)|lia]).
    assert (C : coord k (map (Z.mul unit60) [30; 30; 30]%Z) = (30 * unit60)%Z) by (destruct k as [|[|[|k]]]; [reflexivity|reflexivity|reflexivity|lia]).
    assert (U : (0 < unit60)%Z) by reflexivity. assert (M : (26 * (10 * unit60) / 10)%Z = (26 * unit60)%Z) by reflexivity. rewrite M, C. clear - L H U. lia.
  - eexists. split; [vm_compute; reflexivity|]. vm_compute. reflexivity.
  - intros [nb [v [vs [[_ N] [[nv [[_ Nv] Ev]] [F W]]]]]]. set (R := close_by five_points (26 * (10 * unit60) / 10)) in *.
    assert (T : forall (m : list nat) z, total Nat.add z (map (fun _ => 60) m) = z + 60 * length m) by (induction m as [|b m IH]; intros z; unfold total in *; cbn [map fold_left length]; [lia|rewrite IH; lia]).
    assert (M : forall nb0, nb0 <> [] -> mean_from Nat.add Nat.div 0 (map (fun _ : nat => 60) nb0) = 60).
    { intros nb0 Hne. unfold mean_from. rewrite map_length, T. destruct nb0 as [|a nb0]; [congruence|]. cbn [length Nat.eqb]. rewrite Nat.add_0_l, Nat.div_mul; [reflexivity|discriminate]. }
    assert (A : R 1 2). { split; [discriminate|]. do 2 eexists. split; [reflexivity|]. split; [reflexivity|]. split; vm_compute; reflexivity. }
    assert (V1 : v = 60). { rewrite Ev. apply M. intros ->. apply (proj2 (Nv 2) A). }
    assert (V2 : vs = map (fun _ => 60) nb).
    { assert (Nb : forall j, In j nb -> R j 1) by (intros j Hj; apply close_sym, N; auto). clear - F Nb M. induction F as [|j x nb vs [n1 [[_ N1] E1]] F IH]; [reflexivity|]. cbn [map]. f_equal; [|apply IH; intros; apply Nb; right; auto].
      rewrite E1. apply M. intros ->. apply (proj2 (N1 1)). apply Nb. left. auto. }
    rewrite V1, V2, T in W. replace (60 + 60 * length nb) with (60 * (1 + length nb)) in W by lia. rewrite Nat.div_mul in W by discriminate. discriminate.
Qed.
(** The first run on these particles: bonds, and the other files. *)
Example C139_run : exists d', run5 (fun _ => None) = Val d' /\ d' (txt "a_t0.bonds") = Some (save_bonds [(1, 2); (1, 3)]) /\
  d' (txt "a_t0.qlm") = Some (txt "0" ++ [newline] ++ txt "60" ++ [newline] ++ txt "0" ++ [newline] ++ txt "60" ++ [newline] ++ txt "0" ++ [newline]) /\ d' (txt "a_t0.dat") = None.
Proof. eexists. split; [vm_compute; reflexivity|]. split; [vm_compute; reflexivity|]. split; vm_compute; reflexivity. Qed.
Example C139_periodic_case : cell [(0, 100); (0, 100); (0, 100)]%Z /\ Forall (in_box [(0, 100); (0, 100); (0, 100)]%Z) [[5; 50; 50]; [95; 50; 50]]%Z /\
  close_images [[5; 50; 50]; [95; 50; 50]]%Z [(0, 100); (0, 100); (0, 100)]%Z 10 0 1.
Proof.
  split; [do 3 eexists; split; [reflexivity|]; repeat split|]. split; [repeat constructor; cbn; lia|]. split; [discriminate|]. exists [95; 50; 50]%Z, [5; 50; 50]%Z, [-5; 50; 50]%Z. split; [reflexivity|]. split; [reflexivity|].
  split; [exists (-1)%Z, 0%Z, 0%Z; reflexivity|split; vm_compute; reflexivity].
Qed.

Print Assumptions C139_first.
Print Assumptions C139_loaded.
Print Assumptions C139_again.
Print Assumptions C139_coarse.
Print Assumptions C139_coarse_refuted.
Print Assumptions C139_periodic.
Print Assumptions C139_series.
Print Assumptions C139_series_distinct.
Print Assumptions C139_series_padded_refuted.

(** C140: the program boo_flip, from positions to files. *)
Require Import String.
Require Import ZArith List Bool Arith Lia Sorted NArith Ascii.
Require Import Verif.Base Verif.SortU Verif.ListX Verif.Dec Verif.Box_Model Verif.RTree_Model Verif.RTree_Spec Verif.RTree_Heuristics Verif.Index_Model Verif.Traj_Model Verif.Traj_Proofs Verif.Particles_Model Verif.Particles_Spec
  Verif.Particles_Props Verif.Periodic_Model Verif.Periodic_Spec Verif.Periodic_Props Verif.Files_Model Verif.Files_Spec Verif.Boo_Model Verif.Ngb_Model Verif.Ngb_Spec Verif.Ngb_Proofs Verif.Ngb_Props Verif.Corr_Model Verif.Export_Model Verif.Export_Spec Verif.Export_Proofs Verif.Export_Props
  Verif.PBoo_Model Verif.PBoo_Spec Verif.PBoo_Proofs Verif.PBoo_Props Verif.Rerun_Model Verif.Rerun_Props Verif.Cloud_Model Verif.Cloud_Props Verif.Perco_Model Verif.Perco_Spec Verif.Perco_Props Verif.Sim_Model Verif.Sim_Props
  Verif.Order_Spec Verif.Order_Model Verif.Order_Props Verif.Flip_Spec Verif.Flip_Model.
Import ListNotations.
Local Open Scope nat_scope.
Local Open Scope list_scope.
Local Notation length := List.length.

(** * Values *)
Lemma counts_number {A} (P Q : A -> Prop) : (forall x, P x <-> Q x) -> forall l k, counts P l k -> number Q l k.
Proof. intros H l k C. induction C; [apply number_nil|apply number_yes; [apply H; auto|auto]|apply number_no; [rewrite <- H; auto|auto]]. Qed.
Lemma other_sorted c : forall L, (forall b, In b L -> fst b < snd b /\ own c (fst b) (snd b)) -> StronglySorted lex L -> StronglySorted lt (map (other_end c) L).
Proof.
  induction L as [|b L IH]; intros H So; cbn [map]; constructor.
  - apply IH; [intros; apply H; right; auto|inversion So; auto].
  - apply Forall_forall. intros x I. apply in_map_iff in I as [e [<- I]]. inversion So as [|? ? _ F]; subst. rewrite Forall_forall in F. specialize (F e I).
    destruct (H b (or_introl eq_refl)) as [H1 H2]. destruct (H e (or_intror I)) as [H3 H4]. destruct b as [p1 q1], e as [p2 q2]. unfold other_end, lex, own in *. cbn [fst snd] in *. destruct (Nat.eqb_spec p1 c), (Nat.eqb_spec p2 c); lia.
Qed.
Lemma lex_filter_x (f : nat * nat -> bool) : forall L, StronglySorted lex L -> StronglySorted lex (filter f L).
Proof. induction 1 as [|b L So IH F]; cbn [filter]; [constructor|]. destruct (f b); [|auto]. constructor; [auto|]. apply Forall_forall. intros x I. apply filter_In in I as [I _]. rewrite Forall_forall in F. auto. Qed.
Section Values.
  Variables (B V : Type) (zero : B) (add : B -> B -> B) (divn : B -> nat -> B) (harm : nat -> nat -> B) (null : B -> bool) (turn : nat -> nat -> B -> B).
  Variables (unset : V) (high : V -> bool) (product : B -> B -> V).
  Hypothesis Hh : forall p q, harm p q = harm q p.
  Lemma flips_ok n (ngb : list (list nat)) (Hn : length ngb = n) (P : nat -> nat -> Prop) (q : list B) bs : length q = n -> StronglySorted lex bs -> (forall i j, In (i, j) bs <-> i < j /\ P i j) -> (forall i j, P i j -> P j i) -> (forall i, ~ P i i) -> (forall i j, P i j -> j < n) ->
    exists f, get_flip_boos B add divn turn null n q bs = Val f /\ length f = n /\ forall i, i < n -> flipped_at B zero add divn null turn P q i (nth i f zero).
  Proof.
    intros Lq So HP Sy Ir Hlt. destruct (C77_flip B zero add divn harm turn null n ngb Hn q bs Lq) as [f [E [Lf K]]].
    - split; [auto|]. apply Forall_forall. intros [i j] I. apply HP in I. cbn. lia.
    - apply Forall_forall. intros [i j] I. apply HP in I as [I1 I2]. cbn. split; [auto|]. eapply Hlt; eauto.
    - exists f. split; [exact E|]. split; [auto|]. intros i Hi. destruct (K i Hi) as [F [HF EF]]. exists (map (other_end i) (filter F bs)).
      assert (G : forall b, In b (filter F bs) -> fst b < snd b /\ own i (fst b) (snd b)). { intros [x y] I. apply filter_In in I as [I1 I2]. apply HP in I1. apply HF in I2. cbn [fst snd] in *. tauto. }
      split; [split|].
      + apply other_sorted; [exact G|]. apply lex_filter_x; auto.
      + intros j. rewrite in_map_iff. split.
        * intros [[x y] [<- I]]. specialize (G _ I). apply filter_In in I as [I1 I2]. apply HP in I1. apply HF in I2. unfold own, other_end in *. cbn [fst snd] in *. destruct G as [Gl [<-|<-]].
          -- rewrite Nat.eqb_refl. tauto.
          -- rewrite (proj2 (Nat.eqb_neq x i)) by lia. split; [apply Sy; tauto|tauto].
        * intros [I1 [I2 I3]]. assert (N : i <> j) by (intros ->; apply (Ir j I1)). destruct (Nat.lt_ge_cases i j) as [L|L].
          -- exists (i, j). split; [unfold other_end; cbn; rewrite Nat.eqb_refl; auto|]. apply filter_In. split; [apply HP; auto|]. apply HF. cbn. unfold own. tauto.
          -- exists (j, i). split; [unfold other_end; cbn; rewrite (proj2 (Nat.eqb_neq j i)) by lia; auto|]. apply filter_In. split; [apply HP; split; [lia|apply Sy; auto]|]. apply HF. cbn. unfold own. tauto.
      + rewrite (nth_error_nth _ _ zero EF). rewrite map_length, map_map. f_equal. f_equal. apply map_ext_in. intros [x y] I. specialize (G _ I). unfold own, other_end in *. cbn [fst snd] in *. destruct G as [Gl [<-|<-]].
        * rewrite Nat.eqb_refl, Nat.min_l, Nat.max_r by lia. reflexivity.
        * rewrite (proj2 (Nat.eqb_neq x i)) by lia. rewrite Nat.min_r, Nat.max_l by lia. reflexivity.
  Qed.
  Lemma boos_ok n (ngb : list (list nat)) (R : nat -> nat -> Prop) : length ngb = n -> ngb_ok ngb -> (forall i j, linked ngb i j <-> R i j) -> (forall i j, R i j -> R j i) -> (forall i, ~ R i i) ->
    exists q, get_boos B zero add divn harm n ngb [] = Val q /\ length q = n /\ forall i, i < n -> exists nb, neighbours R i nb /\ nth i q zero = divn (total add zero (map (harm i) nb)) (length nb).
  Proof.
    intros Ln Hok HR HS HI. assert (Sy : symmetric ngb) by (intros i j H; apply HR, HS, HR; auto). assert (Ir : irreflexive ngb) by (intros i H; apply HR in H; apply (HI i H)).
    destruct (get_boos_val B zero add divn harm n ngb Ln Hok []) as [q [E [Lq K]]]. exists q. split; [exact E|]. split; [auto|]. intros i Hi. destruct (nth_error_ex ngb i ltac:(lia)) as [nb Eb]. exists nb. split.
    - split; [apply (Hok i nb Eb)|]. intros j. rewrite <- HR. split; [intros H; exists nb; auto|intros [l [El H]]; congruence].
    - destruct (K i Hi) as [M [BM EM]]. rewrite (nth_error_nth _ _ zero EM). replace (nth i [] zero) with zero by (destruct i; reflexivity).
      assert (X := own_bonds_list ngb i M nb B harm Hok Sy Ir Hh BM Eb). rewrite X. f_equal. rewrite <- (map_length (harm i) nb), <- X, map_length. reflexivity.
  Qed.
  Lemma flip_ok n (ngb : list (list nat)) inside second bs (R : nat -> nat -> Prop) k1 k2 : length ngb = n -> ngb_ok ngb -> (forall i j, linked ngb i j <-> R i j) -> (forall i j, R i j -> R j i) -> (forall i, ~ R i i) ->
    StronglySorted lt inside -> (forall i, In i inside -> i < n) -> StronglySorted lt second -> (forall i, In i second -> i < n) -> bonds_of R bs ->
    (forall i, i < n -> (In i (or_all n inside) <-> k1 i)) -> (forall i, i < n -> (In i (or_all n second) <-> k2 i)) ->
    exists q cg f1 f2 nb nbr s sr, flip_of B V zero add divn harm null turn unset high product n ngb inside second bs = Val (q, cg, f1, f2, (nb, nbr, s, sr)) /\
      flip_orders B zero add divn harm null turn R n k1 k2 q cg f1 f2 /\ similar B V zero null turn unset high product n k1 q bs nb nbr s sr.
  Proof.
    intros Ln Hok HR HS HI S1 B1 S2 B2 [[Sb Lb] Hb] K1 K2.
    assert (Hlt : forall i j, R i j -> i < n). { intros i j H. apply HR in H as [x [E _]]. apply nth_error_lt in E. lia. }
    destruct (boos_ok n ngb R Ln Hok HR HS HI) as [q0 [E0 [L0 Q0]]]. destruct (wiped_ok B zero n ngb inside q0 Ln L0 S1 B1) as [q [Eq [Lq Kq]]].
    destruct (or_all_spec n second S2 B2) as [_ [B2' _]]. destruct (C77_coarse B zero add divn n ngb Ln Hok (or_all n second) q [] Lq) as [cg [Ec [Lc Kc]]]; [apply Forall_forall; auto|].
    destruct (flips_ok n ngb Ln R q bs Lq Sb Hb HS HI) as [f1 [E1 [L1 F1]]]; [intros i j H; apply HS in H; eapply Hlt; eauto|].
    destruct (C42_second_shell ngb Hok) as [b2 [Eb2 [Sb2 Hb2]]].
    destruct (flips_ok n ngb Ln (two_steps R) q b2 Lq Sb2) as [f2 [E2 [L2 F2]]].
    { intros i j. rewrite Hb2. unfold two_steps. setoid_rewrite HR. split; [intros [H [k G]]; split; [auto|split; [lia|exists k; auto]]|intros [H [_ [k G]]]; split; [auto|exists k; auto]]. }
    { intros i j [N [k [G1 G2]]]. split; [auto|]. exists k. auto. }
    { intros i [N _]. auto. }
    { intros i j [_ [k [_ G]]]. apply HS in G. eapply Hlt; eauto. }
    assert (Ib : forall b, In b bs -> fst b < snd b < n). { intros [i j] H. apply Hb in H as [H G]. cbn. split; [auto|]. apply HS in G. eapply Hlt; eauto. }
    destruct (C127_similarities V unset high n (fun p => null (nth p q zero)) (fun p r => product (nth p q zero) (nth r q zero)) (fun p r => product (nth p q zero) (turn p r (nth r q zero))) inside bs S1) as [nb [nbr [s [sr [Es [Lnb [Lnbr [T1 [T2 T3]]]]]]]]]; [apply Forall_forall; auto|].
    exists q, cg, f1, f2, nb, nbr, s, sr. split; [|split].
    - unfold flip_of. rewrite E0. cbn [obind]. rewrite Eq. cbn [obind]. rewrite Ec. cbn [obind]. rewrite E1. cbn [obind]. rewrite Eb2, E2. cbn [obind]. rewrite Es. reflexivity.
    - split; [auto|]. split; [auto|]. split; [auto|]. split; [auto|]. intros i Hi. destruct (nth_error_ex ngb i ltac:(lia)) as [li Ei]. destruct (Kq i Hi) as [Kq1 Kq2]. specialize (Kc i li Ei). specialize (K1 i Hi). specialize (K2 i Hi).
      assert (Nb : neighbours R i li). { split; [apply (Hok i li Ei)|]. intros j. rewrite <- HR. split; [intros H; exists li; auto|intros [l [El H]]; congruence]. }
      split. { intros H. rewrite (Kq1 (proj2 K1 H)). apply Q0. auto. }
      split; [intros H; apply Kq2; tauto|]. split. { intros H. exists li. split; [auto|]. apply K2, existsb_in in H. rewrite H in Kc. apply (nth_error_nth _ _ zero Kc). }
      split. { intros H. rewrite <- K2 in H. assert (X : existsb (Nat.eqb i) (or_all n second) = false) by (destruct (existsb (Nat.eqb i) (or_all n second)) eqn:X; [apply existsb_in in X; contradiction|auto]). rewrite X in Kc. rewrite (nth_error_nth _ _ zero Kc). destruct i; reflexivity. }
      split; [apply F1; auto|apply F2; auto].
    - assert (Tk : forall p, p < n -> (taken n (fun p => null (nth p q zero)) inside p <-> k1 p /\ null (nth p q zero) = false)).
      { intros p Hp. unfold taken. specialize (K1 p Hp). destruct (or_all_spec n inside S1 B1) as [_ [_ O]]. rewrite O in K1. rewrite <- K1. tauto. }
      assert (Us : forall b, In b bs -> (measured n (fun p => null (nth p q zero)) inside b <-> usable B zero null k1 q b)).
      { intros b H. specialize (Ib b H). unfold measured, usable. rewrite !Tk by lia. tauto. }
      assert (F2i : forall (f g : nat * nat -> V -> Prop) vs, (forall b v, In b bs -> f b v -> g b v) -> Forall2 f bs vs -> Forall2 g bs vs).
      { clear. intros f g vs H F. induction F as [|b v bs vs Hb F IH]; constructor; [apply H; [left; auto|auto]|apply IH; intros; apply H; [right; auto|auto]]. }
      assert (Ni : forall (P Q : nat * nat -> Prop) k, (forall b, In b bs -> (P b <-> Q b)) -> counts P bs k -> number Q bs k).
      { clear. intros P Q k H C. induction C; [apply number_nil|apply number_yes; [apply H; [left; auto|auto]|apply IHC; intros; apply H; right; auto]|apply number_no; [rewrite <- H by (left; auto); auto|apply IHC; intros; apply H; right; auto]]. }
      split; [eapply F2i; [|exact T1]; cbv beta; intros b v Hbi; rewrite (Us b Hbi); auto|]. split; [eapply F2i; [|exact T2]; cbv beta; intros b v Hbi; rewrite (Us b Hbi); auto|]. split; [auto|]. split; [auto|].
      intros p Hp. destruct (T3 p Hp) as [C1 C2]. split; [eapply Ni; [|exact C1]|eapply Ni; [|exact C2]]; cbv beta; intros b Hbi; rewrite (Us b Hbi); unfold joins; reflexivity.
  Qed.
End Values.

(** * The text of the vtk file *)
Section Text.
  Variables (B V : Type) (inv : nat -> B -> V * V) (show : V -> text) (of_count : nat -> V) (unset : V).
  Hypothesis Hw : forall v, word (show v).
  Lemma text_words ps bonds q cg nb nbr s sr : words (sim_text B V inv show of_count ps bonds q cg (nb, nbr, s, sr)) =
    sim_words V show ps bonds (map (fun k => show (of_count k)) nb) nbr (map (fun b => fst (inv 6 b)) q) (map (fun b => snd (inv 6 b)) q) (map (fun b => fst (inv 6 b)) cg) (map (fun b => snd (inv 6 b)) cg) s sr.
  Proof.
    assert (K : codec show (fun _ => Some unset) (fun _ => unset)) by (intros v; split; [apply Hw|reflexivity]).
    assert (R : forall qs, flat_map (fun p => map show (triple p)) qs = map show (flat_map triple qs)). { induction qs as [|x qs IH]; [reflexivity|]. cbn [flat_map]. rewrite map_app, IH. reflexivity. }
    unfold sim_text, sim_words, vtk_points, vtk_bonds. rewrite <- !app_assoc. cbn [app].
    rewrite words_sep by auto. rewrite words_sep by auto. change (words (txt "# vtk DataFile Version 3.0")) with (map txt ["#"; "vtk"; "DataFile"; "Version"; "3.0"]%string). change (words (txt "similarities")) with [txt "similarities"]. cbn [map app]. do 6 f_equal.
    change (txt "POINTS ") with (txt "POINTS" ++ [spc]). change (txt " double") with (spc :: txt "double"). change (txt "LINES ") with (txt "LINES" ++ [spc]). change (txt "POINT_DATA ") with (txt "POINT_DATA" ++ [spc]). change (txt "CELL_DATA ") with (txt "CELL_DATA" ++ [spc]).
    change (txt "DATASET POLYDATA") with (txt "DATASET" ++ spc :: txt "POLYDATA").
    rewrite <- !app_assoc. cbn [app]. rewrite !words_head by tok. do 6 f_equal. rewrite (vtk_rows_words V show _ _ K), R. f_equal. rewrite !words_head by tok. do 3 f_equal. rewrite vtk_cells_words. f_equal. rewrite !words_head by tok. do 2 f_equal.
    rewrite (scalar_words V show _ _ K). rewrite (scalar_words nat print_nat nparse (fun v => v) codec_nat). rewrite !(scalar_words V show _ _ K). rewrite !words_head by tok. rewrite (scalar_words V show _ _ K).
    rewrite <- (app_nil_r (vtk_scalar V show (txt "sim6_ref", sr))). rewrite (scalar_words V show _ _ K). unfold field_words. rewrite map_map. rewrite <- !app_assoc. rewrite ?app_nil_r. reflexivity.
  Qed.
End Text.

(** * Files *)
Section Files.
  Variables (B V : Type) (inv : nat -> B -> V * V) (show : V -> text) (of_count : nat -> V) (unset : V) (head rest ext : text).
  Hypotheses (Ho : ordinary head rest ext) (Hw : forall v, word (show v)).
  Local Notation name := (head ++ txt "_t" ++ rest ++ [dot] ++ ext).
  Definition sim_name : text := head ++ txt "_sim" ++ txt "_t" ++ rest ++ txt ".vtk".
  Definition flip_name : text := head ++ txt "_flip" ++ txt "_t" ++ rest ++ txt ".cloud".
  Definition flip2_name : text := head ++ txt "_flip2" ++ txt "_t" ++ rest ++ txt ".cloud".
  Definition flip_names : list text := [sim_name; cloud_name head rest; space_cloud head rest; flip_name; flip2_name].
  Lemma names_diff : NoDup (bond_file head rest :: flip_names).
  Proof.
    assert (T : forall a b : text, a <> b -> forall h, h ++ a <> h ++ b) by (intros a b N h E; apply app_inv_head in E; auto).
    unfold flip_names, sim_name, flip_name, flip2_name, bond_file, cloud_name, space_cloud. rewrite <- !app_assoc.
    assert (X : forall e e' : text, e <> e' -> head ++ txt "_t" ++ rest ++ e <> head ++ txt "_t" ++ rest ++ e') by (intros; do 3 apply T; auto).
    repeat (apply NoDup_cons; [cbn [In]; intros H; repeat (destruct H as [H|H]; [first [revert H; apply X; discriminate|revert H; apply T; discriminate]|]); destruct H|]). apply NoDup_nil.
  Qed.
  Lemma bond_not_flip : ~ In (bond_file head rest) flip_names.
  Proof. pose proof names_diff as N. apply NoDup_cons_iff in N. tauto. Qed.
  (** What the five files written at each run hold, and that nothing else has changed. *)
  Definition flip_files (ps : list (V * V * V)) (bonds : list (nat * nat)) (q cg f1 f2 : list B) (nb nbr : list nat) (s sr : list V) (d d' : disk) : Prop :=
    (exists t, d' sim_name = Some t /\ words t = sim_words V show ps bonds (map (fun k => show (of_count k)) nb) nbr
       (map (fun b => fst (inv 6 b)) q) (map (fun b => snd (inv 6 b)) q) (map (fun b => fst (inv 6 b)) cg) (map (fun b => snd (inv 6 b)) cg) s sr) /\
    d' (cloud_name head rest) = Some (cloud_file B V inv show q) /\ d' (space_cloud head rest) = Some (space_file B V inv show cg) /\
    d' flip_name = Some (flip_file B V inv show f1) /\ d' flip2_name = Some (flip_file B V inv show f2) /\
    forall n, ~ In n flip_names -> d' n = d n.
  Local Notation wr := (write_flip B V inv show of_count name).
  Lemma flip_exact ps bonds q cg f1 f2 r d : let d' := wr ps bonds (q, cg, f1, f2, r) d in
    d' sim_name = Some (sim_text B V inv show of_count ps bonds q cg r) /\
    d' (cloud_name head rest) = Some (cloud_file B V inv show q) /\ d' (space_cloud head rest) = Some (space_file B V inv show cg) /\
    d' flip_name = Some (flip_file B V inv show f1) /\ d' flip2_name = Some (flip_file B V inv show f2) /\ forall n, ~ In n flip_names -> d' n = d n.
  Proof.
    pose proof names_diff as N. unfold flip_names in N. repeat rewrite NoDup_cons_iff in N. cbn [In] in N. cbv zeta. unfold write_flip. rewrite !(mark_ok head rest ext Ho), (stem_ok head rest ext Ho).
    change ((head ++ txt "_t" ++ rest) ++ txt ".cloud") with (cloud_name head rest). change (head ++ txt "_space" ++ txt "_t" ++ rest ++ txt ".cloud") with (space_cloud head rest).
    change (head ++ txt "_sim" ++ txt "_t" ++ rest ++ txt ".vtk") with sim_name. change (head ++ txt "_flip" ++ txt "_t" ++ rest ++ txt ".cloud") with flip_name. change (head ++ txt "_flip2" ++ txt "_t" ++ rest ++ txt ".cloud") with flip2_name.
    split; [rewrite !put_other by (intros E; rewrite E in N; tauto); apply put_same|]. split; [rewrite !put_other by (intros E; rewrite E in N; tauto); apply put_same|].
    split; [rewrite !put_other by (intros E; rewrite E in N; tauto); apply put_same|]. split; [rewrite !put_other by (intros E; rewrite E in N; tauto); apply put_same|]. split; [apply put_same|].
    intros n Hn. unfold flip_names in Hn. cbn [In] in Hn. rewrite !put_other; [reflexivity| | | | |]; intros E; apply Hn; rewrite E; tauto.
  Qed.
  Lemma flip_written ps bonds q cg f1 f2 nb nbr s sr d : flip_files ps bonds q cg f1 f2 nb nbr s sr d (wr ps bonds (q, cg, f1, f2, (nb, nbr, s, sr)) d).
  Proof. destruct (flip_exact ps bonds q cg f1 f2 (nb, nbr, s, sr) d) as [A F]. split; [|exact F]. eexists. split; [exact A|]. apply (text_words B V inv show of_count unset Hw). Qed.
  (** Writing the same results again changes nothing. *)
  Lemma flip_twice ps bonds r d n : wr ps bonds r (wr ps bonds r d) n = wr ps bonds r d n.
  Proof.
    destruct r as [[[[q cg] f1] f2] s]. destruct (flip_exact ps bonds q cg f1 f2 s d) as [A1 [A2 [A3 [A4 [A5 A6]]]]]. destruct (flip_exact ps bonds q cg f1 f2 s (wr ps bonds (q, cg, f1, f2, s) d)) as [B1 [B2 [B3 [B4 [B5 B6]]]]].
    destruct (in_dec (list_eq_dec ascii_dec) n flip_names) as [I|I]; [|rewrite B6; auto]. cbn [flip_names In] in I. destruct I as [<-|[<-|[<-|[<-|[<-|[]]]]]]; congruence.
  Qed.
End Files.

(** * The programs *)
Section C140.
  Variables (B V : Type) (zero : B) (add : B -> B -> B) (divn : B -> nat -> B) (harm : nat -> nat -> B) (null : B -> bool) (turn : nat -> nat -> B -> B).
  Variables (inv : nat -> B -> V * V) (show : V -> text) (unset : V) (high : V -> bool) (product : B -> B -> V) (of_count : nat -> V) (xyz : list Z -> V * V * V).
  (** The harmonics of a bond do not depend on its direction (even degrees); a printed double is a word. *)
  Hypotheses (Hh : forall p q, harm p q = harm q p) (Hw : forall v, word (show v)).
  Variables (c : config) (l : list (list Z)) (bb : box) (r : Z) (head rest ext : text).
  Hypotheses (Hok : config_ok c) (H3 : dims c = 3) (Hne : l <> []) (Hp : Forall point3 l) (Hr : (0 <= r)%Z) (Ho : ordinary head rest ext).
  Local Notation name := (head ++ txt "_t" ++ rest ++ [dot] ++ ext).
  Local Notation run := (boo_flip B V zero add divn harm null turn inv show unset high product of_count xyz c (new_particles l bb r) name).
  Local Notation prun := (periodic_flip B V zero add divn harm null turn inv show unset high product of_count xyz c (new_particles l bb r) name).
  Local Notation flip_orders := (flip_orders B zero add divn harm null turn).
  Local Notation similar := (similar B V zero null turn unset high product).
  Local Notation flip_files := (flip_files B V inv show of_count head rest (map xyz l)).
  Local Notation bond_file := (bond_file head rest).
  Local Notation wr := (write_flip B V inv show of_count name (map xyz l)).
  Lemma flip_finish_ok ngb i1 i2 (R : nat -> nat -> Prop) k1 k2 bs d : length ngb = length l -> ngb_ok ngb -> (forall i j, linked ngb i j <-> R i j) -> (forall i j, R i j -> R j i) -> (forall i, ~ R i i) ->
    StronglySorted lt i1 -> (forall i, In i i1 -> i < length l) -> StronglySorted lt i2 -> (forall i, In i i2 -> i < length l) -> bonds_of R bs ->
    (forall i, i < length l -> (In i (or_all (length l) i1) <-> k1 i)) -> (forall i, i < length l -> (In i (or_all (length l) i2) <-> k2 i)) ->
    exists q cg f1 f2 nb nbr s sr, (forall d0, finish_flip B V zero add divn harm null turn inv show unset high product of_count (map xyz l) name (ngb, i1, i2, d0, bs) = Val (wr bs (q, cg, f1, f2, (nb, nbr, s, sr)) d0)) /\
      flip_orders R (length l) k1 k2 q cg f1 f2 /\ similar (length l) k1 q bs nb nbr s sr /\ flip_files bs q cg f1 f2 nb nbr s sr d (wr bs (q, cg, f1, f2, (nb, nbr, s, sr)) d).
  Proof.
    intros Ln Hn HR HS HI S1 B1 S2 B2 Hb K1 K2. destruct (flip_ok B V zero add divn harm null turn unset high product Hh (length l) ngb i1 i2 bs R k1 k2 Ln Hn HR HS HI S1 B1 S2 B2 Hb K1 K2) as [q [cg [f1 [f2 [nb [nbr [s [sr [E [O M]]]]]]]]]].
    exists q, cg, f1, f2, nb, nbr, s, sr. split; [intros d0; unfold finish_flip; rewrite map_length, E; reflexivity|]. split; [exact O|]. split; [exact M|]. apply (flip_written B V inv show of_count unset head rest ext Ho Hw).
  Qed.
  Section Plain.
    (** As in C139. *)
    Hypothesis Hrange : forall p k, In p l -> k < 3 -> (dbl_min <= coord k p <= dbl_max)%Z.
    Hypotheses (Hw1 : wide_and_clear l (13 * r / 10)) (Hw2 : wide_and_clear l (26 * r / 10)).
    (** C140.  Without a bond file: the bonds are the pairs closer than 2.6 radii.  A second run with the bond file written by the first one leaves every file as it is. *)
    Theorem C140_first d : d bond_file = None -> exists d' q cg f1 f2 nb nbr s sr bs, run d = Val d' /\
      let R := close_by l (26 * r / 10) in
      bonds_of R bs /\ d' bond_file = Some (save_bonds bs) /\ flip_orders R (length l) (deep_or_none l (13 * r / 10)) (deep_or_none l (26 * r / 10)) q cg f1 f2 /\
      similar (length l) (deep_or_none l (13 * r / 10)) q bs nb nbr s sr /\ flip_files bs q cg f1 f2 nb nbr s sr (put_file d bond_file (save_bonds bs)) d' /\
      ((N.of_nat (length l) <= two64)%N -> exists d'', run d' = Val d'' /\ forall n, d'' n = d' n).
    Proof.
      intros Hd. destruct (both c l bb r Hok H3 Hne Hp Hrange (13 * r / 10)) as [i1 [A1 [A1' P1]]]; [apply (m_pos c); [auto|auto|lia]|auto|]. destruct (both c l bb r Hok H3 Hne Hp Hrange (26 * r / 10)) as [i2 [A2 [A2' P2]]]; [apply (m_pos c); [auto|auto|lia]|auto|].
      destruct (picks_or_all _ _ _ P1) as [B1 K1]. destruct (picks_or_all _ _ _ P2) as [B2 K2].
      destruct (computed_ok c bb r Hok H3 l Hp) as [ngb [En [Ln [Hn [HR HS]]]]]. assert (HS' : forall i j, close_by l (26 * r / 10) i j -> close_by l (26 * r / 10) j i) by (intros; apply close_sym; auto).
      assert (HI : forall i, ~ close_by l (26 * r / 10) i i) by (intros i [H _]; auto). destruct (bonds_of_ngb ngb _ Hn HR HS' HI) as [Hb Hb3].
      destruct (flip_finish_ok ngb i1 i2 _ _ _ (ngb2bonds ngb) (put_file d bond_file (save_bonds (ngb2bonds ngb))) Ln Hn HR HS' HI (proj1 P1) B1 (proj1 P2) B2 Hb K1 K2) as [q [cg [f1 [f2 [nb [nbr [s [sr [Ef [O [M F]]]]]]]]]]].
      match type of F with Flip_Props.flip_files _ _ _ _ _ _ _ _ _ _ _ _ _ _ _ _ _ _ ?X => set (d' := X) in * end. exists d', q, cg, f1, f2, nb, nbr, s, sr, (ngb2bonds ngb).
      assert (Eb : d' bond_file = Some (save_bonds (ngb2bonds ngb))) by (destruct F as [_ [_ [_ [_ [_ F]]]]]; rewrite F by apply bond_not_flip; apply put_same).
      split.
      - unfold boo_flip. rewrite (bonds_name_ok head rest ext Ho), Hd. unfold make_bonds. change (margin1 (new_particles l bb r)) with (13 * r / 10)%Z. change (margin2 (new_particles l bb r)) with (26 * r / 10)%Z. rewrite A1, A2, (bonds_name_ok head rest ext Ho).
        unfold ngb_computed in En. destruct (make_index c (new_particles l bb r)) as [st'|]; [|discriminate]. rewrite En. cbn [omap obind flip_make fst]. apply Ef.
      - cbv zeta. split; [auto|]. split; [exact Eb|]. split; [exact O|]. split; [exact M|]. split; [exact F|]. intros H64. exists (wr (ngb2bonds ngb) (q, cg, f1, f2, (nb, nbr, s, sr)) d'). split.
        + assert (Eld : load_bonds (save_bonds (ngb2bonds ngb)) = Some (ngb2bonds ngb)).
          { apply C79_bonds_round_trip; [apply Hb|]. apply Forall_forall. intros [x y] Hxy. apply Hb in Hxy as [_ [_ [a [b [_ [Eyb _]]]]]]. apply nth_error_lt in Eyb. cbn [snd]. lia. }
          unfold boo_flip. rewrite (bonds_name_ok head rest ext Ho), Eb. unfold flip_from_file, from_file. change (margin1 (new_particles l bb r)) with (13 * r / 10)%Z. change (margin2 (new_particles l bb r)) with (26 * r / 10)%Z. rewrite A1', A2', Eld.
          change (length (pts (new_particles l bb r))) with (length l). rewrite <- Ln at 1. rewrite Hb3. cbn [obind]. apply Ef.
        + intros n. apply flip_twice. exact Ho.
    Qed.
    (** With a bond file, its bonds are used, in whatever order and layout it lists them, and the file is left alone. *)
    Theorem C140_loaded d bs : lists_bonds (d bond_file) (length l) bs -> Forall (fun b => fst b <> snd b) bs -> exists d' q cg f1 f2 nb nbr s sr bonds, run d = Val d' /\
      let R i j := In (i, j) bs \/ In (j, i) bs in
      bonds_of R bonds /\ flip_orders R (length l) (deep_or_none l (13 * r / 10)) (deep_or_none l (26 * r / 10)) q cg f1 f2 /\
      similar (length l) (deep_or_none l (13 * r / 10)) q bonds nb nbr s sr /\ flip_files bonds q cg f1 f2 nb nbr s sr d d' /\ d' bond_file = d bond_file.
    Proof.
      intros [t [Et [W [F Hn64]]]] Hd. destruct (both c l bb r Hok H3 Hne Hp Hrange (13 * r / 10)) as [i1 [A1 [A1' P1]]]; [apply (m_pos c); [auto|auto|lia]|auto|]. destruct (both c l bb r Hok H3 Hne Hp Hrange (26 * r / 10)) as [i2 [A2 [A2' P2]]]; [apply (m_pos c); [auto|auto|lia]|auto|].
      destruct (picks_or_all _ _ _ P1) as [B1 K1]. destruct (picks_or_all _ _ _ P2) as [B2 K2]. rewrite Forall_forall in F, Hd.
      destruct (C79_bonds_load t bs W) as [b [Eb [Hb Ib]]]; [apply Forall_forall; intros x Hx; specialize (F x Hx); lia|].
      assert (Hin : forall x y, In (x, y) b -> x < y /\ y < length l).
      { intros x y Hxy. assert (Lxy : x <= y) by (destruct Hb as [_ Hb]; rewrite Forall_forall in Hb; apply (Hb _ Hxy)). apply Ib in Hxy; [|auto]. destruct Hxy as [G|G]; pose proof (F _ G); pose proof (Hd _ G); cbn [fst snd] in *; lia. }
      destruct (C34_round_trip (length l) b Hb) as [ngb [En [Ln [HL [_ [_ Hok']]]]]]; [apply Forall_forall; intros [x y] Hxy; apply Hin in Hxy; cbn; lia|].
      specialize (Hok' ltac:(apply Forall_forall; intros [x y] Hxy; apply Hin in Hxy; cbn; lia)).
      assert (HR : forall i j, linked ngb i j <-> In (i, j) bs \/ In (j, i) bs).
      { intros i j. rewrite HL. split.
        - intros [H|H]; assert (X := Hin _ _ H); apply Ib in H; try lia; tauto.
        - intros H. destruct (Nat.le_ge_cases i j) as [Hij|Hij]; [left|right]; apply Ib; auto; tauto. }
      assert (HI : forall i, ~ (In (i, i) bs \/ In (i, i) bs)) by (intros i [H|H]; apply (Hd _ H); reflexivity).
      assert (HB : bonds_of (fun i j => In (i, j) bs \/ In (j, i) bs) b).
      { split; [auto|]. intros i j. split; [intros H; split; [apply Hin in H; tauto|]; apply Ib in H; [tauto|apply Hin in H; lia]|intros [H G]; apply Ib; [lia|tauto]]. }
      destruct (flip_finish_ok ngb i1 i2 (fun i j => In (i, j) bs \/ In (j, i) bs) _ _ b d Ln Hok' HR ltac:(tauto) HI (proj1 P1) B1 (proj1 P2) B2 HB K1 K2) as [q [cg [f1 [f2 [nb [nbr [s [sr [Ef [O [M G]]]]]]]]]]].
      eexists. exists q, cg, f1, f2, nb, nbr, s, sr, b. split.
      - unfold boo_flip. rewrite (bonds_name_ok head rest ext Ho), Et. unfold flip_from_file, from_file. change (margin1 (new_particles l bb r)) with (13 * r / 10)%Z. change (margin2 (new_particles l bb r)) with (26 * r / 10)%Z. rewrite A1', A2', Eb. change (length (pts (new_particles l bb r))) with (length l). rewrite En. cbn [obind]. apply Ef.
      - cbv zeta. split; [exact HB|]. split; [exact O|]. split; [exact M|]. split; [exact G|]. destruct G as [_ [_ [_ [_ [_ G]]]]]. apply G, bond_not_flip.
    Qed.
    (** The bond order, the coarse grained order and the bonds are those written by boo, unless a particle kept has no neighbour. *)
    Theorem C140_with_boo row d : d bond_file = None -> (forall i, deep_or_none l (13 * r / 10) i -> exists j, close_by l (26 * r / 10) i j) ->
      exists d1 d2, boo B V zero add divn harm row inv show c (new_particles l bb r) false name d = Val d1 /\ run d = Val d2 /\
        forall n, In n [bond_file; cloud_name head rest; space_cloud head rest] -> d1 n = d2 n.
    Proof.
      intros Hd Hj. destruct (C139_first B V zero add divn harm row inv show Hh c l bb r head rest ext Hok H3 Hne Hp Hr Ho Hrange Hw1 Hw2 d Hd) as [d1 [q [cg [sf [bs [E1 [B1 [F1 [O1 G1]]]]]]]]].
      destruct (C140_first d Hd) as [d2 [q' [cg' [f1 [f2 [nb [nbr [s [sr [bs' [E2 [B2 [F2 [O2 [_ [G2 _]]]]]]]]]]]]]]]]. exists d1, d2. split; [exact E1|]. split; [exact E2|].
      destruct (both c l bb r Hok H3 Hne Hp Hrange (13 * r / 10)) as [i1 [_ [_ P1]]]; [apply (m_pos c); [auto|auto|lia]|auto|]. destruct (both c l bb r Hok H3 Hne Hp Hrange (26 * r / 10)) as [i2 [_ [_ P2]]]; [apply (m_pos c); [auto|auto|lia]|auto|].
      destruct (picks_or_all _ _ _ P1) as [_ K1]. destruct (picks_or_all _ _ _ P2) as [_ K2].
      assert (Eb : bs = bs'). { apply lex_ext; [apply B1|apply B2|]. intros [x y]. rewrite (proj2 B1 x y), (proj2 B2 x y). reflexivity. }
      assert (U : forall i a b, neighbours (close_by l (26 * r / 10)) i a -> neighbours (close_by l (26 * r / 10)) i b -> a = b).
      { intros i a b [Sa Na] [Sb Nb]. apply ssorted_ext; auto. intros x. rewrite Na, Nb. reflexivity. }
      destruct O1 as [L1 [L2 [_ O1]]]. destruct O2 as [L3 [L4 [_ [_ O2]]]].
      assert (Eq : q = q').
      { apply (nth_ext q q' zero zero); [lia|]. intros i Hi. rewrite L1 in Hi. destruct (O1 i Hi) as [X1 [X2 _]]. destruct (O2 i Hi) as [Y1 [Y2 _]].
        destruct (in_dec Nat.eq_dec i (or_all (length l) i1)) as [D|D].
        - apply (K1 i Hi) in D. destruct (X1 D) as [a [Na ->]]. destruct (Y1 D) as [b [Nb ->]]. rewrite (U i a b Na Nb) in *. unfold mean_from. rewrite map_length. destruct b as [|j b]; [|reflexivity].
          destruct (Hj i D) as [j Ij]. apply Nb in Ij. destruct Ij.
        - rewrite X2, Y2; [reflexivity| |]; intros G; apply D, (K1 i Hi), G. }
      subst q'. assert (Ec : cg = cg').
      { apply (nth_ext cg cg' zero zero); [lia|]. intros i Hi. rewrite L2 in Hi. destruct (O1 i Hi) as [_ [_ [X1 [X2 _]]]]. destruct (O2 i Hi) as [_ [_ [Y1 [Y2 _]]]].
        destruct (in_dec Nat.eq_dec i (or_all (length l) i2)) as [D|D].
        - apply (K2 i Hi) in D. destruct (X1 D) as [a [Na ->]]. destruct (Y1 D) as [b [Nb ->]]. rewrite (U i a b Na Nb). reflexivity.
        - rewrite X2, Y2; [reflexivity| |]; intros G; apply D, (K2 i Hi), G. }
      intros n I. cbn [In] in I. destruct G1 as [_ [G1 [_ [G1' _]]]]. destruct G2 as [_ [G2 [G2' _]]]. destruct I as [<-|[<-|[<-|[]]]]; congruence.
    Qed.
  End Plain.

  (** With periodic boundary conditions: images are neighbours, and all the particles are kept. *)
  Section Periodic.
    Hypotheses (Hc : cell bb) (Hin : Forall (in_box bb) l).
    Theorem C140_periodic d : (N.of_nat (length l) <= two64)%N -> d bond_file = None -> exists d' d'' q cg f1 f2 nb nbr s sr bs, prun d = Val d' /\
      let R := close_images l bb r in
      bonds_of R bs /\ d' bond_file = Some (save_bonds bs) /\ flip_orders R (length l) (fun _ => True) (fun _ => True) q cg f1 f2 /\
      similar (length l) (fun _ => True) q bs nb nbr s sr /\ flip_files bs q cg f1 f2 nb nbr s sr (put_file d bond_file (save_bonds bs)) d' /\
      prun d' = Val d'' /\ forall n, d'' n = d' n.
    Proof.
      intros H64 Hd. destruct (per_ok c l bb r Hok H3 Hp Hc Hin) as [st' [ngb [Ei [Ep [En [Ln [Hn [HR HS]]]]]]]]. assert (HS' : forall i j, close_images l bb r i j -> close_images l bb r j i) by (intros i j H; apply HR, HS, HR; auto).
      assert (HI : forall i, ~ close_images l bb r i i) by (intros i [H _]; auto). destruct (bonds_of_ngb ngb _ Hn HR HS' HI) as [Hb Hb3].
      assert (B1 : forall i, In i (seq 0 (length l)) -> i < length l) by (intros i H; apply in_seq in H; lia).
      assert (K1 : forall i, i < length l -> (In i (or_all (length l) (seq 0 (length l))) <-> True)). { intros i Hi. split; [auto|]. intros _. destruct (or_all_spec (length l) (seq 0 (length l)) (seq_ssorted _ _) B1) as [_ [_ O]]. apply O. left. apply in_seq. lia. }
      destruct (flip_finish_ok ngb (seq 0 (length l)) (seq 0 (length l)) _ _ _ (ngb2bonds ngb) (put_file d bond_file (save_bonds (ngb2bonds ngb))) Ln Hn HR HS' HI (seq_ssorted _ _) B1 (seq_ssorted _ _) B1 Hb K1 K1) as [q [cg [f1 [f2 [nb [nbr [s [sr [Ef [O [M F]]]]]]]]]]].
      match type of F with Flip_Props.flip_files _ _ _ _ _ _ _ _ _ _ _ _ _ _ _ _ _ _ ?X => set (d' := X) in * end.
      assert (Eb : d' bond_file = Some (save_bonds (ngb2bonds ngb))) by (destruct F as [_ [_ [_ [_ [_ F]]]]]; rewrite F by apply bond_not_flip; apply put_same).
      exists d', (wr (ngb2bonds ngb) (q, cg, f1, f2, (nb, nbr, s, sr)) d'), q, cg, f1, f2, nb, nbr, s, sr, (ngb2bonds ngb).
      split. { unfold periodic_flip. rewrite (bonds_name_ok head rest ext Ho), Hd. unfold make_bonds_periodic. rewrite Ei, En, (bonds_name_ok head rest ext Ho). cbn [omap obind flip_make fst]. unfold per_select_inside. rewrite Ep. apply Ef. }
      cbv zeta. split; [auto|]. split; [exact Eb|]. split; [exact O|]. split; [exact M|]. split; [exact F|]. split; [|intros n; apply flip_twice; exact Ho].
      assert (Eld : load_bonds (save_bonds (ngb2bonds ngb)) = Some (ngb2bonds ngb)).
      { apply C79_bonds_round_trip; [apply Hb|]. apply Forall_forall. intros [x y] Hxy. apply Hb in Hxy as [_ [_ [a [b [b' [_ [Eyb _]]]]]]]. apply nth_error_lt in Eyb. cbn [snd]. lia. }
      unfold periodic_flip. rewrite (bonds_name_ok head rest ext Ho), Eb. unfold flip_from_file, from_file. rewrite Eld. cbn [new_particles pts]. rewrite <- Ln at 1. rewrite Hb3. cbn [obind]. unfold per_select_inside. cbn [new_particles pts]. apply Ef.
    Qed.
  End Periodic.
End C140.

(** * Cases *)
(** The five particles of C139: products of the orders of the ends of each bond, and numbers of bonds of product 3600 at least. *)
Definition flip5 (points : list (list Z)) (d : disk) : outcome disk :=
  boo_flip nat nat 0 Nat.add (fun b k => if k =? 0 then 7 else Nat.div b k) (fun p q => 60) (Nat.eqb 0) (fun p q b => b + 10 * p + q) (fun l b => (l * b, b)) print_nat 0 (Nat.leb 3600) Nat.mul (fun k => k)
    (fun p => (Z.to_nat (nth 0 p 0 / unit60), Z.to_nat (nth 1 p 0 / unit60), Z.to_nat (nth 2 p 0 / unit60))%Z) lib_config (new_particles points [] (10 * unit60)) (txt "a_t0.dat") d.
Definition boo5 (points : list (list Z)) (d : disk) : outcome disk :=
  boo nat nat 0 Nat.add (fun b k => if k =? 0 then 7 else Nat.div b k) (fun p q => 60) print_nat (fun l b => (l * b, b)) print_nat lib_config (new_particles points [] (10 * unit60)) false (txt "a_t0.dat") d.
Example C140_run : exists d', flip5 five_points (fun _ => None) = Val d' /\ d' (txt "a_t0.bonds") = Some (save_bonds [(1, 2); (1, 3)]) /\
  (exists t, d' (txt "a_sim_t0.vtk") = Some t /\ words t =
    sim_words nat print_nat [(1, 1, 1); (30, 30, 30); (10, 30, 30); (40, 30, 30); (61, 61, 61)] [(1, 2); (1, 3)] (map txt ["0"; "1"; "0"; "1"; "0"]%string) [0; 1; 0; 1; 0]
      [0; 360; 0; 360; 0] [0; 60; 0; 60; 0] [0; 240; 0; 0; 0] [0; 40; 0; 0; 0] [0; 3600] [0; 60 * 73]) /\
  d' (txt "a_flip_t0.cloud") = Some (flip_file nat nat (fun l b => (l * b, b)) print_nat [0; 66; 0; 66; 0]) /\
  d' (txt "a_flip2_t0.cloud") = Some (flip_file nat nat (fun l b => (l * b, b)) print_nat [0; 60; 0; 60; 0]) /\ d' (txt "a_t0.qlm") = None.
Proof. eexists. split; [vm_compute; reflexivity|]. split; [vm_compute; reflexivity|]. split; [eexists; split; vm_compute; reflexivity|]. split; [vm_compute; reflexivity|]. split; vm_compute; reflexivity. Qed.
Example C140_case : (forall v, word (print_nat v)) /\ forall i, deep_or_none five_points (13 * (10 * unit60) / 10) i -> exists j, close_by five_points (26 * (10 * unit60) / 10) i j.
Proof.
  split; [intros v; apply (codec_nat v)|]. destruct C139_case as [_ [_ [_ [Hrange [W1 _]]]]].
  assert (A : forall i j, (i = 1 /\ j = 2) \/ (i = 2 /\ j = 1) \/ (i = 3 /\ j = 1) -> close_by five_points (26 * (10 * unit60) / 10) i j).
  { intros i j [[-> ->]|[[-> ->]|[-> ->]]]; (split; [discriminate|]; do 2 eexists; split; [reflexivity|]; split; [reflexivity|]; split; vm_compute; reflexivity). }
  assert (D : deep five_points (13 * (10 * unit60) / 10) (map (Z.mul unit60) [30; 30; 30]%Z)).
  { intros k lo hi Hk Ex. destruct C139_coarse_refuted as [D _]. specialize (D _ eq_refl k lo hi Hk Ex). assert (M : (13 * (10 * unit60) / 10 <= 26 * (10 * unit60) / 10)%Z) by (vm_compute; discriminate). lia. }
  assert (Ext : extent five_points 0 unit60 (61 * unit60)).
  { split; [exists (map (Z.mul unit60) [1; 1; 1]%Z)|split; [exists (map (Z.mul unit60) [61; 61; 61]%Z)|]]; [split; [left; reflexivity|reflexivity]|split; [do 4 right; left; reflexivity|reflexivity]|].
    intros q Hq. cbn [five_points map In] in Hq. repeat (destruct Hq as [<-|Hq]; [vm_compute; split; discriminate|]). contradiction. }
  intros i [p [Ep Hd]]. destruct i as [|[|[|[|[|i]]]]].
  - exfalso. destruct Hd as [Hd|Hd]; [|eapply Hd; [|exact D]; right; left; reflexivity]. assert (Ep' : p = map (Z.mul unit60) [1; 1; 1]%Z) by (injection Ep as <-; reflexivity). subst p. specialize (Hd 0 _ _ ltac:(lia) Ext). vm_compute in Hd. destruct Hd as [Hd _]. apply Hd. reflexivity.
  - exists 2. apply A. auto.
  - exists 1. apply A. auto.
  - exists 1. apply A. auto.
  - exfalso. destruct Hd as [Hd|Hd]; [|eapply Hd; [|exact D]; right; left; reflexivity]. assert (Ep' : p = map (Z.mul unit60) [61; 61; 61]%Z) by (injection Ep as <-; reflexivity). subst p. specialize (Hd 0 _ _ ltac:(lia) Ext). vm_compute in Hd. destruct Hd as [_ Hd]. apply Hd. reflexivity.
  - destruct i; discriminate.
Qed.
(** "boo and boo_flip write the same bond order" is false when a particle kept has no neighbour: boo writes the null value, boo_flip the null value over zero. *)
Definition three_points : list (list Z) := map (map (Z.mul unit60)) [[1; 1; 1]; [31; 31; 31]; [61; 61; 61]]%Z.
Theorem C140_isolated_refuted : exists d1 d2, boo5 three_points (fun _ => None) = Val d1 /\ flip5 three_points (fun _ => None) = Val d2 /\
  d1 (txt "a_t0.cloud") = Some (cloud_file nat nat (fun l b => (l * b, b)) print_nat [0; 0; 0]) /\ d2 (txt "a_t0.cloud") = Some (cloud_file nat nat (fun l b => (l * b, b)) print_nat [0; 7; 0]) /\
  d1 (txt "a_t0.cloud") <> d2 (txt "a_t0.cloud").
Proof. do 2 eexists. split; [vm_compute; reflexivity|]. split; [vm_compute; reflexivity|]. split; [vm_compute; reflexivity|]. split; [vm_compute; reflexivity|]. vm_compute. discriminate. Qed.

Print Assumptions C140_first.
Print Assumptions C140_loaded.
Print Assumptions C140_with_boo.
Print Assumptions C140_periodic.
Print Assumptions C140_isolated_refuted.

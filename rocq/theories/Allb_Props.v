(** C146: the bonds of each time step of a trajectory file. *)
Require Import String.
Require Import ZArith List Bool Arith Lia Sorted NArith Ascii.
Require Import Verif.Base Verif.SortU Verif.ListX Verif.Dec Verif.Box_Model Verif.RTree_Model Verif.RTree_Spec Verif.RTree_Heuristics Verif.Index_Model Verif.Traj_Model Verif.Traj_Proofs Verif.TrajFile_Proofs Verif.Particles_Model Verif.Particles_Spec
  Verif.Particles_Props Verif.Files_Model Verif.Files_Spec Verif.Files_Proofs Verif.Files_Props Verif.Ngb_Model Verif.Ngb_Spec Verif.Ngb_Proofs Verif.Ngb_Props Verif.Corr_Model Verif.Corr_Proofs Verif.Export_Model Verif.Export_Spec Verif.Export_Proofs Verif.Export_Props
  Verif.DynFile_Model Verif.DynFile_Proofs Verif.DynFile_Props Verif.Density_Model Verif.Rdf_Spec Verif.Rdf_Model Verif.Rdf_Props Verif.Rerun_Props Verif.Perco_Model Verif.Perco_Spec Verif.Perco_Props Verif.Order_Spec Verif.Order_Props
  Verif.Voro_Proofs Verif.Cut_Props Verif.Cloud_Props Verif.Lboo_Spec Verif.Lboo_Props Verif.Allb_Spec Verif.Allb_Model.
Import ListNotations.
Local Open Scope nat_scope.
Local Open Scope list_scope.
Local Notation length := List.length.

(** * The first of the smallest values *)
Section Least.
  Variables (A : Type) (dft : A) (lt : A -> A -> bool).
  Definition weak (l : list A) : Prop := forall x y z, In x l -> In y l -> In z l -> lt x x = false /\ (lt x y = true -> lt y z = true -> lt x z = true) /\ (lt x y = false -> lt y z = false -> lt x z = false).
  Lemma min_from_ok : forall l best ib i, weak (best :: l) -> ib < i ->
    let k := min_index_from lt best ib i l in
    (k = ib /\ forall q, q < length l -> lt (nth q l dft) best = false) \/
    (i <= k < i + length l /\ lt (nth (k - i) l dft) best = true /\ (forall q, q < k - i -> lt (nth (k - i) l dft) (nth q l dft) = true) /\ forall q, q < length l -> lt (nth q l dft) (nth (k - i) l dft) = false).
  Proof.
    induction l as [|x l IH]; intros best ib i W Hi k; [left; split; [reflexivity|cbn; intros; lia]|]. subst k. cbn [min_index_from].
    assert (Wx : weak (x :: l)) by (intros a b e Ha Hb He; apply W; right; assumption).
    assert (Wb : weak (best :: l)) by (intros a b e Ha Hb He; apply W; cbn [In] in *; tauto).
    destruct (lt x best) eqn:E.
    - right. destruct (IH x i (S i) Wx ltac:(lia)) as [[-> H]|[H1 [H2 [H3 H4]]]].
      + rewrite Nat.sub_diag. cbn [nth length]. split; [lia|]. split; [exact E|]. split; [intros q Hq; lia|]. intros [|q] Hq; [exact (proj1 (W x x x ltac:(cbn; auto) ltac:(cbn; auto) ltac:(cbn; auto)))|]. cbn [nth]. apply H. cbn in Hq. lia.
      + set (k := min_index_from lt x i (S i) l) in *. replace (k - i) with (S (k - S i)) by lia. cbn [nth length]. assert (Ik : In (nth (k - S i) l dft) l) by (apply nth_In; lia).
        split; [lia|]. split; [apply (proj1 (proj2 (W (nth (k - S i) l dft) x best ltac:(cbn; auto) ltac:(cbn; auto) ltac:(cbn; auto)))); auto|].
        split; [intros [|q] Hq; [exact H2|apply H3; lia]|]. intros [|q] Hq; [|apply H4; cbn in Hq; lia]. destruct (lt x (nth (k - S i) l dft)) eqn:F; [|reflexivity].
        pose proof (proj1 (W x x x ltac:(cbn; auto) ltac:(cbn; auto) ltac:(cbn; auto))) as X.
        pose proof (proj1 (proj2 (W x (nth (k - S i) l dft) x ltac:(cbn; auto) ltac:(cbn; auto) ltac:(cbn; auto))) F H2). congruence.
    - destruct (IH best ib (S i) Wb ltac:(lia)) as [[-> H]|[H1 [H2 [H3 H4]]]].
      + left. split; [reflexivity|]. intros [|q] Hq; [exact E|]. apply H. cbn in Hq. lia.
      + right. set (k := min_index_from lt best ib (S i) l) in *. replace (k - i) with (S (k - S i)) by lia. cbn [nth length]. assert (Ik : In (nth (k - S i) l dft) l) by (apply nth_In; lia).
        assert (Ex : lt (nth (k - S i) l dft) x = true).
        { destruct (lt (nth (k - S i) l dft) x) eqn:F; [reflexivity|]. rewrite (proj2 (proj2 (W (nth (k - S i) l dft) x best ltac:(cbn; auto) ltac:(cbn; auto) ltac:(cbn; auto))) F E) in H2. discriminate. }
        split; [lia|]. split; [exact H2|]. split; [intros [|q] Hq; [exact Ex|apply H3; lia]|]. intros [|q] Hq; [|apply H4; cbn in Hq; lia]. destruct (lt x (nth (k - S i) l dft)) eqn:F; [|reflexivity].
        pose proof (proj1 (W x x x ltac:(cbn; auto) ltac:(cbn; auto) ltac:(cbn; auto))) as X. pose proof (proj1 (proj2 (W x (nth (k - S i) l dft) x ltac:(cbn; auto) ltac:(cbn; auto) ltac:(cbn; auto))) F Ex). congruence.
  Qed.
  Lemma min_index_ok l : l <> [] -> weak l -> let k := min_index lt l in k < length l /\ (forall q, q < k -> lt (nth k l dft) (nth q l dft) = true) /\ forall q, q < length l -> lt (nth q l dft) (nth k l dft) = false.
  Proof.
    intros N W. destruct l as [|x l]; [congruence|]. cbn [min_index]. assert (Rx := proj1 (W x x x ltac:(cbn; auto) ltac:(cbn; auto) ltac:(cbn; auto))).
    destruct (min_from_ok l x 0 1 W ltac:(lia)) as [[-> H]|[H1 [H2 [H3 H4]]]]; cbn [length].
    - split; [lia|]. split; [intros; lia|]. intros [|q] Hq; [exact Rx|]. cbn [nth]. apply H. lia.
    - set (k := min_index_from lt x 0 1 l) in *. replace k with (S (k - 1)) by lia. cbn [nth]. split; [lia|]. split; [intros [|q] Hq; [exact H2|apply H3; lia]|].
      intros [|q] Hq; [|apply H4; lia]. cbn [nth]. assert (Ik : In (nth (k - 1) l dft) l) by (apply nth_In; lia). destruct (lt x (nth (k - 1) l dft)) eqn:F; [|reflexivity].
      pose proof (proj1 (proj2 (W x (nth (k - 1) l dft) x ltac:(cbn; auto) ltac:(cbn; auto) ltac:(cbn; auto))) F H2). congruence.
  Qed.
End Least.

(** * The pieces of the program *)
Lemma oseq_ex {A B} (f : A -> outcome B) (P : A -> B -> Prop) : forall l, (forall a, In a l -> exists b, f a = Val b /\ P a b) -> exists bs, osequence (map f l) = Val bs /\ Forall2 P l bs.
Proof.
  induction l as [|a l IH]; intros H; [exists []; split; [reflexivity|constructor]|]. destruct (H a (or_introl eq_refl)) as [b [E Pb]]. destruct IH as [bs [Es F]]; [intros; apply H; right; auto|].
  exists (b :: bs). split; [|constructor; auto]. cbn [map osequence]. rewrite E. cbn [obind]. rewrite Es. reflexivity.
Qed.
Lemma forall2_get {A B} (P : A -> B -> Prop) : forall l l', Forall2 P l l' -> length l = length l' /\ forall k a, nth_error l k = Some a -> exists b, nth_error l' k = Some b /\ P a b.
Proof.
  induction 1 as [|a b l l' H F [L K]]; [split; [reflexivity|intros [|k] a E; discriminate]|]. split; [cbn; congruence|]. intros [|k] x E; cbn in *; [injection E as <-; eauto|apply K; auto].
Qed.
Lemma extension_ok x : extension (x ++ txt ".traj") = Val (txt ".traj").
Proof.
  unfold extension. change (txt ".traj") with ([dot] ++ txt "traj"). assert (N : ~ In dot (txt "traj")) by (vm_compute; intuition discriminate).
  assert (E : rfind [dot] (x ++ [dot] ++ txt "traj") = Some (length x)).
  { assert (G := cut_ext_ok x (txt "traj") N). assert (R : forall y, rfind [dot] (y ++ [dot] ++ txt "traj") = Some (length y)).
    { induction y as [|a y IH]; [vm_compute; reflexivity|]. change ((a :: y) ++ [dot] ++ txt "traj") with (a :: (y ++ [dot] ++ txt "traj")). cbn [rfind length]. rewrite IH. reflexivity. }
    apply R. }
  rewrite E. rewrite skipn_app, skipn_all, Nat.sub_diag. reflexivity.
Qed.

Lemma skip_nth {V} (d : V) : forall p g i, nth i (skipn p g) d = nth (p + i) g d.
Proof. induction p as [|p IH]; intros [|x g] i; [destruct i; reflexivity|reflexivity|cbn; destruct i; reflexivity|cbn [skipn Nat.add nth]; apply IH]. Qed.

Section Values.
  Variables (V : Type) (zero : V) (lt : V -> V -> bool) (is0 : V -> bool) (add : V -> V -> V) (divn : V -> nat -> V).
  Variables (of_nat : nat -> V) (div : V -> V -> V) (norm : nat -> Z -> nat -> Z -> nat -> V) (show : V -> text) (parse : text -> option V) (abscissa : nat -> V) (rnd : V -> V).
  Lemma minimum_ok g : g <> [] -> sortable V lt g -> first_dip V zero lt g (minimum V lt g).
  Proof.
    intros N W. exists (peak V lt g). destruct (min_index_ok V zero (fun a b => lt b a) g N) as [P1 [P2 P3]].
    { intros x y z Hx Hy Hz. destruct (W z y x Hz Hy Hx) as [_ [T N']]. split; [exact (proj1 (W x x x Hx Hx Hx))|]. split; auto. }
    fold (peak V lt g) in P1, P2, P3. set (p := peak V lt g) in *. split; [split; [exact P1|split; assumption]|]. unfold minimum. fold p.
    assert (E : forall i, nth i (skipn p g) zero = nth (p + i) g zero) by (intros i; apply skip_nth).
    assert (L : length (skipn p g) = length g - p) by apply skipn_length.
    destruct (min_index_ok V zero lt (skipn p g)) as [M1 [M2 M3]].
    { intros X. rewrite X in L. cbn in L. lia. }
    { intros x y z Hx Hy Hz. assert (I : forall v, In v (skipn p g) -> In v g) by (intros v Hv; rewrite <- (firstn_skipn p g); apply in_or_app; auto). apply W; auto. }
    set (k := min_index lt (skipn p g)) in *. split; [lia|]. split.
    - intros q Hq. specialize (M2 (q - p) ltac:(lia)). rewrite !E in M2. replace (p + (q - p)) with q in M2 by lia. exact M2.
    - intros q Hq. specialize (M3 (q - p) ltac:(lia)). rewrite !E in M3. replace (p + (q - p)) with q in M3 by lia. exact M3.
  Qed.
  (** There is only one such bin. *)
  Lemma dip_fun g m m' : first_dip V zero lt g m -> first_dip V zero lt g m' -> m = m'.
  Proof.
    intros [p [[P1 [P2 P3]] [D1 [D2 D3]]]] [p' [[P1' [P2' P3']] [D1' [D2' D3']]]].
    assert (p = p'). { destruct (Nat.lt_trichotomy p p') as [H|[H|H]]; [|exact H|]; exfalso; [specialize (P2' p H); specialize (P3 p' P1'); congruence|specialize (P2 p' H); specialize (P3' p P1); congruence]. } subst p'.
    destruct (Nat.lt_trichotomy m m') as [H|[H|H]]; [|exact H|]; exfalso; [specialize (D2' m ltac:(lia)); specialize (D3 m' ltac:(lia)); congruence|specialize (D2 m' ltac:(lia)); specialize (D3' m ltac:(lia)); congruence].
  Qed.
  Lemma wait_ok g fuel : 0 < fuel -> is0 (nth (minimum V lt g) g zero) = false -> wait_minimum V zero lt is0 fuel g = Some (minimum V lt g).
  Proof. intros Hf E. destruct fuel; [lia|]. cbn [wait_minimum]. cbv zeta. rewrite E. reflexivity. Qed.
  Lemma wait_forever g fuel : is0 (nth (minimum V lt g) g zero) = true -> wait_minimum V zero lt is0 fuel g = None.
  Proof. intros E. induction fuel as [|fuel IH]; [reflexivity|]. cbn [wait_minimum]. cbv zeta. rewrite E. exact IH. Qed.

  Lemma load_failed : forall n s, fail s = true -> load_bins V zero parse n s = repeat zero n.
  Proof.
    induction n as [|n IH]; intros s F; [reflexivity|]. cbn [load_bins repeat]. destruct (read_with_failed V parse s F) as [s1 [E1 [F1 _]]]. rewrite E1. destruct (read_with_failed V parse s1 F1) as [s2 [E2 [F2 _]]]. rewrite E2. rewrite IH by exact F2. reflexivity.
  Qed.
  Lemma load_ok : forall n pairs g s, sane s -> words (buf s) = flat_map (fun ab => [fst ab; snd ab]) pairs -> (forall ab, In ab pairs -> parse (fst ab) <> None) -> map (fun ab => parse (snd ab)) pairs = map Some g ->
    load_bins V zero parse n s = firstn n (g ++ repeat zero n).
  Proof.
    induction n as [|n IH]; intros pairs g s Sa W Hp Hg; [reflexivity|]. destruct pairs as [|[a b] pairs]; destruct g as [|v g]; try discriminate.
    - cbn [flat_map] in W. cbn [load_bins app]. destruct (read_with_none V parse s Sa W) as [s1 [E1 [F1 _]]]. rewrite E1. destruct (read_with_failed V parse s1 F1) as [s2 [E2 [F2 _]]]. rewrite E2.
      rewrite load_failed by exact F2. cbn [repeat firstn]. f_equal. symmetry. rewrite <- (repeat_length zero n) at 1. apply firstn_all.
    - cbn [flat_map app fst snd] in W. cbn [map snd] in Hg. injection Hg as Hb Hg. specialize (Hp (a, b) (or_introl eq_refl)) as Ha. cbn [fst] in Ha. destruct (parse a) as [x|] eqn:Ea; [|congruence].
      destruct (read_with_some V parse s _ _ _ Sa W Ea) as [r1 [E1 [W1 _]]]. destruct (read_with_some V parse _ _ _ _ (sane_rest r1) W1 Hb) as [r2 [E2 [W2 _]]].
      cbn [load_bins]. rewrite E1, E2. change ((v :: g) ++ repeat zero (S n)) with (v :: (g ++ repeat zero (S n))). cbn [firstn]. f_equal.
      rewrite (IH pairs g _ (sane_rest r2) W2 (fun ab H => Hp ab (or_intror H)) Hg). assert (X : repeat zero (S n) = repeat zero n ++ [zero]) by (cbn [repeat]; apply repeat_cons). rewrite X, app_assoc.
      rewrite (firstn_app n (g ++ repeat zero n)). rewrite app_length, repeat_length. replace (n - (length g + n)) with 0 by lia. cbn [firstn]. rewrite app_nil_r. reflexivity.
  Qed.
  Lemma load_file n file g : rows_of parse file g -> load_bins V zero parse n (snd (get_line (open_text file))) = firstn n (g ++ repeat zero n).
  Proof.
    intros [title [rest [pairs [-> [Ht [W [Hp Hg]]]]]]]. unfold open_text. rewrite get_line_exact by (apply one_line_b; exact Ht). cbn [snd]. apply (load_ok n pairs g); auto. apply (sane_open rest).
  Qed.
  Hypothesis K : codec show parse rnd.
  Lemma mean_text_words span tot : words (all_rdf_text V divn show abscissa span tot) = mean_words show abscissa divn span tot.
  Proof.
    assert (Hw : forall v, word (show v)) by (intros v; apply K).
    assert (R : forall q, words (flat_map (fun kv : nat * V => show (abscissa (fst kv)) ++ [tab] ++ show (divn (snd kv) span) ++ [newline]) q) = flat_map (fun kv => [show (abscissa (fst kv)); show (divn (snd kv) span)]) q).
    { induction q as [|[k v] q IH]; [reflexivity|]. cbn [flat_map fst snd]. rewrite <- !app_assoc. assert (H1 : forall w c x, word w -> is_space c = true -> words (w ++ [c] ++ x) = w :: words x) by (intros; apply words_head; auto). rewrite !H1 by (auto; reflexivity). rewrite IH. reflexivity. }
    unfold all_rdf_text, mean_words. change (txt "#r" ++ [tab] ++ txt "g(r)" ++ newline :: ?x) with (txt "#r" ++ tab :: (txt "g(r)" ++ newline :: x)). rewrite (words_head (txt "#r") tab) by tok. rewrite (words_head (txt "g(r)") newline) by tok. rewrite R. reflexivity.
  Qed.
  Lemma mean_text_rows span tot : rows_of parse (all_rdf_text V divn show abscissa span tot) (map (fun v => rnd (divn v span)) tot).
  Proof.
    assert (Hw : forall v, word (show v)) by (intros v; apply K).
    exists (txt "#r" ++ [tab] ++ txt "g(r)"). eexists. exists (map (fun kv => (show (abscissa (fst kv)), show (divn (snd kv) span))) (combine (seq 0 (length tot)) tot)).
    split; [unfold all_rdf_text; rewrite <- !app_assoc; reflexivity|]. split; [vm_compute; intuition discriminate|]. split; [|split].
    - generalize (combine (seq 0 (length tot)) tot) as q. induction q as [|[k v] q IH]; [reflexivity|]. cbn [flat_map fst snd map]. rewrite <- !app_assoc. assert (H1 : forall w c x, word w -> is_space c = true -> words (w ++ [c] ++ x) = w :: words x) by (intros; apply words_head; auto). rewrite !H1 by (auto; reflexivity). rewrite IH. reflexivity.
    - intros ab H. apply in_map_iff in H as [kv [<- _]]. cbn [fst]. rewrite (proj2 (K (abscissa (fst kv)))). discriminate.
    - rewrite !map_map. cbn [snd]. assert (G : forall k, map (fun kv : nat * V => parse (show (divn (snd kv) span))) (combine (seq k (length tot)) tot) = map (fun v => Some (rnd (divn v span))) tot); [|apply G].
      induction tot as [|v tot IH]; intros k; [reflexivity|]. cbn [length seq combine map snd]. rewrite (proj2 (K _)), IH. reflexivity.
  Qed.
  Lemma add_frame_ok n : forall gs tot0, length tot0 = n -> Forall (fun g => length g = n) gs -> length (fold_left (add_frame V add) gs tot0) = n /\
    forall k, k < n -> nth k (fold_left (add_frame V add) gs tot0) zero = fold_left add (map (fun g => nth k g zero) gs) (nth k tot0 zero).
  Proof.
    induction gs as [|g gs IH]; intros tot0 L F; [split; [exact L|reflexivity]|]. apply Forall_cons_iff in F as [Lg F]. cbn [fold_left map].
    assert (Ln : length (add_frame V add tot0 g) = n) by (unfold add_frame; rewrite map_length, combine_length; lia). destruct (IH _ Ln F) as [A B]. split; [exact A|]. intros k Hk. rewrite B by exact Hk. f_equal.
    unfold add_frame. rewrite (nth_indep _ zero (add (fst (zero, zero)) (snd (zero, zero)))) by (fold (add_frame V add tot0 g); lia). rewrite (map_nth (fun xy => add (fst xy) (snd xy))). rewrite List.combine_nth by congruence. reflexivity.
  Qed.
End Values.

(** * The program *)
Section C146.
  Variables (V : Type) (zero : V) (lt : V -> V -> bool) (is0 : V -> bool) (add : V -> V -> V) (divn : V -> nat -> V).
  Variables (of_nat : nat -> V) (div : V -> V -> V) (norm : nat -> Z -> nat -> Z -> nat -> V) (show : V -> text) (parse : text -> option V) (abscissa : nat -> V) (rnd : V -> V).
  Variables (grid : V * V * V -> list Z) (one : Z) (c : config).
  Hypotheses (K : codec show parse rnd) (Hg : forall p, point3 (grid p)) (Hone : (0 < one)%Z) (Hok : config_ok c) (H3 : dims c = 3).
  (** The series of files of positions: <head><token><number>.<ext>, next to the trajectory file. *)
  Variables (radius dt : V) (base tok : text) (off : nat) (more : text) (frames : list ((V * V * V) * list (V * V * V))) (folder stem head ds ext : text).
  Hypotheses (Hbase : one_line base) (Htok : one_line tok) (Hn : (N.of_nat (off + length frames) < 2 ^ 64)%N) (Hps : Forall (fun f => (N.of_nat (length (snd f)) < 2 ^ 64)%N) frames).
  Hypotheses (Hf : is_folder folder) (Hnm : plain_name (stem ++ txt ".traj")) (Hs : splits tok (folder ++ base) head (ds ++ [dot] ++ ext)) (Hd : numeral ds) (Hpc : no_percent (folder ++ base)) (Hext : ~ In dot ext)
    (Hdf : digit_free tok) (Hab : absent tok (txt ".bonds")).
  Local Notation run := (all_bonds V zero lt is0 add divn of_nat div norm show parse abscissa grid one c).
  Local Notation name := (folder ++ stem ++ txt ".traj").
  Local Notation span := (length frames).
  Definition bonds_file (t : nat) : text := head ++ tok ++ pad (length ds) (N.of_nat (t + off)) ++ txt ".bonds".
  Definition rdf_file : text := head ++ txt ".rdf".
  (** The trajectory file: its first four lines, whatever follows. *)
  Definition header : text := show radius ++ [tab] ++ show dt ++ [newline] ++ base ++ [newline] ++ tok ++ [newline] ++ print_nat off ++ [tab] ++ print_nat span ++ [newline] ++ more.
  Definition data_there (d : disk) (t : nat) : Prop := forall f, nth_error frames t = Some f -> on_disk V show tok off d head ds ([dot] ++ ext) t f.
  Definition ready (d : disk) : Prop := d name = Some header /\ forall t, data_there d t.
  (** The positions of a time step, as rounded in the file. *)
  Definition positions_of (f : (V * V * V) * list (V * V * V)) : list (list Z) := map (fun p => grid (on_triple rnd p)) (snd f).
  Definition fit_frame (f : (V * V * V) * list (V * V * V)) : Prop := let l := positions_of f in
    l <> [] /\ (forall p k, In p l -> k < 3 -> (dbl_min <= coord k p <= dbl_max)%Z) /\ wide_and_clear l (30 * one).
  Definition bonds_written (m : nat) (d : disk) : Prop := forall t f, nth_error frames t = Some f ->
    exists bs, bonds_of (close_by (positions_of f) (bond_length one (Z.of_nat m))) bs /\ d (bonds_file t) = Some (save_bonds bs).
  Definition only (written : list text) (d d' : disk) : Prop := forall n, ~ In n written -> d' n = d n.
  Definition all_bond_files : list text := map bonds_file (seq 0 span).

  Lemma points f : Forall point3 (positions_of f).
  Proof. apply Forall_forall. intros p H. apply in_map_iff in H as [q [<- _]]. apply Hg. Qed.
  Lemma bonds_inj t t' : bonds_file t = bonds_file t' -> t = t'.
  Proof.
    intros E. unfold bonds_file in E. apply app_inv_head in E. apply app_inv_head in E. apply app_inv_tail in E. destruct (pad_writes (length ds) (N.of_nat (t + off))) as [_ [P _]]. destruct (pad_writes (length ds) (N.of_nat (t' + off))) as [_ [P' _]]. rewrite E in P. lia.
  Qed.
  Lemma rdf_apart t : rdf_file <> bonds_file t.
  Proof.
    unfold rdf_file, bonds_file. intros E. assert (X : head ++ [dot] ++ txt "rdf" = (head ++ tok ++ pad (length ds) (N.of_nat (t + off))) ++ [dot] ++ txt "bonds") by (rewrite <- !app_assoc; exact E).
    apply last_dot in X as [_ X]; [discriminate| |]; vm_compute; intuition discriminate.
  Qed.
  Lemma index_ok l : Forall point3 l -> exists st, make_index c (new_particles l [] one) = Some st /\ pradius st = one /\
    forall m, exists ngb, make_ngb_list st (15 * m) 200 = Val ngb /\ bonds_of (close_by l (bond_length one m)) (ngb2bonds ngb).
  Proof.
    intros Hp. destruct (link_computed_ok c [] one 0 l Hok H3 Hp) as [st [_ [Ei _]]]. exists st. split; [exact Ei|].
    assert (Er : pradius st = one). { unfold make_index in Ei. destruct (rstar_build c _); [|discriminate]. injection Ei as <-. reflexivity. } split; [exact Er|]. intros m.
    destruct (C33_ngb_list c l [] one [PIndex] (15 * m) 200 Hok H3 Hp) as [st' [ngb [E [N [Ln [So [Kn Y]]]]]]]; [constructor; [exact I|constructor]|reflexivity|].
    cbn [positions fold_left move] in *. cbn [prun] in E. cbn in E. rewrite Ei in E. assert (st' = st) by congruence. subst st'. rewrite Er in *. exists ngb. split; [exact N|].
    assert (K' : forall i j, linked ngb i j <-> close_by l (bond_length one m) i j).
    { intros i j. rewrite Kn. unfold bond_length. replace (2 * (15 * m) * one)%Z with (15 * m * (2 * one))%Z by ring. unfold close_by. split; [intros [p [q [A [B [C D]]]]]; split; [auto|]; exists p, q; auto|intros [C [p [q [A [B D]]]]]; exists p, q; auto]. }
    apply (bonds_of_ngb ngb (close_by l (bond_length one m))); [|exact K'|intros; apply close_sym; auto|intros i [X _]; auto].
    intros i ids Hi. split; [eapply So; eauto|]. intros j Hj. assert (X : linked ngb i j) by (exists ids; auto). apply K' in X as [_ [p [q [_ [X _]]]]]. rewrite Ln. eapply nth_error_lt; eauto.
  Qed.
  Lemma frame_ok f st : fit_frame f -> make_index c (new_particles (positions_of f) [] one) = Some st -> exists g, frame_rdf V zero of_nat div norm st = Val g /\ correlation zero of_nat div norm one (positions_of f) g.
  Proof.
    intros [Hne [Hr Hw]] Ei. set (l := positions_of f) in *. assert (Hp : Forall point3 l) by apply points.
    destruct (rdf_setup c l [] one 200 (30 * one) Hok H3 Hne Hp ltac:(lia) Hr Hw) as [st' [t [sel [vol [Ei' [Ep [Eb [Et [It [Es [P [Ed Ee]]]]]]]]]]]]. assert (st' = st) by congruence. subst st'.
    assert (Hsel : forall i, In i sel -> i < length l) by (intros i H; apply P in H as [p [E _]]; eapply nth_error_lt; eauto).
    destruct (plain_rdf c l [] one 200 (30 * one) Hok H3 Hp ltac:(lia) ltac:(lia) st sel Ei Ep Hsel) as [g [cnt [Er [Lg Kg]]]].
    destruct (normal_ok V zero of_nat div c l 200 (30 * one) H3 ltac:(lia) (norm (length l) vol 200 (30 * one)%Z (length sel)) sel g Lg Kg) as [g' [En N]].
    exists g'. split; [|exists sel, vol; auto]. unfold frame_rdf, bins200. assert (Er' : pradius st = one). { clear - Ei. unfold make_index in Ei. destruct (rstar_build c _); [|discriminate]. injection Ei as <-. reflexivity. } rewrite Er'.
    change (2 * 15 * one)%Z with (30 * one)%Z. cbv zeta. rewrite Es. cbn [obind]. unfold get_rdf. rewrite Er. cbn [obind fst]. rewrite Ed. cbn [obind fst snd]. exact En.
  Qed.

  (** The program up to the pair correlation function, when all files of positions are there and the last time step has a particle. *)
  Lemma start_ok d fuel : ready d -> (exists f, nth_error frames (span - 1) = Some f /\ snd f <> []) -> exists bond sts, Forall2 (fun f st => make_index c (new_particles (positions_of f) [] one) = Some st) frames sts /\
    (forall t, t < span -> step_name bond (N.of_nat t) = bonds_file t) /\
    run fuel name d = and_then d (rdf_stage V zero add divn of_nat div norm show parse abscissa head sts d) (fun gd =>
      match wait_minimum V zero lt is0 fuel (fst gd) with None => Running (snd gd) | Some m => and_then (snd gd) (ofold (fun ts d' => bonds_step m bond (fst ts) (snd ts) d') (combine (seq 0 (length sts)) sts) (snd gd)) Done end).
  Proof.
    intros [Dt Dd] [lst [El Hl]]. assert (Nx : no_digit_first ([dot] ++ ext)) by (exists dot, ext; split; reflexivity).
    assert (Fs := fs1_ok V base tok off frames d folder head ds ([dot] ++ ext) Hs Hd Nx Hpc). set (fs := fs1 V tok off frames head ds ([dot] ++ ext)) in *.
    destruct (C54_change_ext tok (folder ++ base) head ds ([dot] ++ ext) (N.to_nat (N.of_nat span)) (N.of_nat off) Hs Hd Nx Hpc [] ext (txt ".bonds") Hdf eq_refl Hext) as [fs' [bond [E1 [E2 E3]]]].
    { exists dot, (txt "bonds"). split; reflexivity. } { exact Hab. } { intros H. vm_compute in H. intuition discriminate. }
    assert (fs' = fs) by congruence. subst fs'.
    destruct (C54_head tok (folder ++ base) head ds ([dot] ++ ext) (N.to_nat (N.of_nat span)) (N.of_nat off) Hs Hd Nx Hpc Hdf) as [fs' [E4 E5]]. assert (fs' = fs) by congruence. subst fs'.
    assert (Ef := fill_ok V zero show parse rnd K tok off frames Hn Hps d head ds ([dot] ++ ext) Dd). fold fs in Ef.
    destruct (oseq_ex (fun f => match make_index c (new_particles (map grid f) [] one) with Some st => Val st | None => UB end) (fun f st => make_index c (new_particles (map grid f) [] one) = Some st) (map (fun f => map (on_triple rnd) (snd f)) frames)) as [sts [Es Fo]].
    { intros f H. apply in_map_iff in H as [f0 [<- _]]. rewrite map_map. destruct (index_ok _ (points f0)) as [st [Ei _]]. unfold positions_of in Ei. rewrite Ei. eauto. }
    exists bond, sts. split; [|split].
    - clear - Fo. revert sts Fo. induction frames as [|f fr IH]; intros sts Fo; inversion Fo; subst; constructor; auto. unfold positions_of. rewrite map_map in *. assumption.
    - intros t Ht. destruct (E3 (N.of_nat t)) as [s [W E]]; [rewrite <- Nat2N.inj_add; lia|]. rewrite E. unfold bonds_file. rewrite Nat2N.inj_add. rewrite (writes_fun _ _ _ _ W (pad_writes _ _)). reflexivity.
    - unfold all_bonds. replace name with ((folder ++ stem) ++ txt ".traj") by (rewrite <- app_assoc; reflexivity). rewrite extension_ok. cbn [and_then]. unfold text_eqb at 1. destruct (list_eq_dec ascii_dec (txt ".traj") (txt ".traj")) as [_|N]; [|congruence]. cbn [negb].
      rewrite <- app_assoc. rewrite Dt. unfold header. rewrite (read_header_ok V show parse rnd K) by (try apply one_line_b; auto; unfold fits; change two64 with (2 ^ 64)%N; lia).
      rewrite folder_ok by auto. rewrite Fs. cbn [and_then]. rewrite E2. cbn [and_then]. rewrite Ef. cbn [and_then].
      assert (Rl : exists p ps r, rev (map (fun f => map (on_triple rnd) (snd f)) frames) = (p :: ps) :: r).
      { destruct (exists_last (l := frames)) as [init [x Ex]]; [intros X; rewrite X in El; discriminate|]. rewrite Ex in El. rewrite app_length in El. cbn [length] in El. rewrite nth_error_app2 in El by lia. replace (length init + 1 - 1 - length init) with 0 in El by lia. cbn in El. injection El as ->.
        rewrite Ex, map_app, rev_app_distr. cbn [map rev app]. destruct (snd lst) as [|q qs]; [congruence|]. cbn [map]. eauto. }
      destruct Rl as [p [ps [r Rl]]]. rewrite Rl, Es. cbn [and_then]. rewrite E5. reflexivity.
  Qed.
  Lemma bonds_ok bond sts m d : Forall2 (fun f st => make_index c (new_particles (positions_of f) [] one) = Some st) frames sts -> (forall t, t < span -> step_name bond (N.of_nat t) = bonds_file t) ->
    exists d', ofold (fun ts d' => bonds_step m bond (fst ts) (snd ts) d') (combine (seq 0 (length sts)) sts) d = Val d' /\ bonds_written m d' /\ only all_bond_files d d'.
  Proof.
    intros Fo Hb. destruct (forall2_get _ _ _ Fo) as [Ln Gt].
    destruct (fold_steps (bonds_step m bond) (fun t => [bonds_file t]) (fun _ => []) (fun t st d' => forall f, nth_error frames t = Some f -> exists bs, bonds_of (close_by (positions_of f) (bond_length one (Z.of_nat m))) bs /\ d' (bonds_file t) = Some (save_bonds bs)) d sts) as [d' [E [P F]]].
    - intros t st d0 Est _. assert (Ht : t < span) by (rewrite Ln; eapply nth_error_lt; eauto). destruct (nth_error_ex frames t Ht) as [f Ef]. destruct (Gt t f Ef) as [st' [Est' Ei]]. assert (st' = st) by congruence. subst st'.
      destruct (index_ok _ (points f)) as [st' [Ei' [_ Hm]]]. assert (st' = st) by congruence. subst st'. destruct (Hm (Z.of_nat m)) as [ngb [En Bo]].
      eexists. split; [unfold bonds_step; rewrite En, (Hb t Ht); reflexivity|]. split; [intros n H; apply put_other; intros ->; apply H; left; reflexivity|]. intros f' Ef'. assert (f' = f) by congruence. subst f'. exists (ngb2bonds ngb). split; [exact Bo|apply put_same].
    - intros t st d0 d1 H Hd1 f Ef. destruct (H f Ef) as [bs [B1 B2]]. exists bs. split; [exact B1|]. rewrite Hd1 by (left; reflexivity). exact B2.
    - intros t t' n N [<-|[]]. split; [|auto]. intros [H|[]]. apply N. symmetry. apply bonds_inj. exact H.
    - exists d'. split; [exact E|]. split; [intros t f Ef; destruct (Gt t f Ef) as [st [Est _]]; apply (P t st Est f Ef)|]. intros n H. apply F. intros t Ht [<-|[]]. apply H. apply in_map. apply in_seq. lia.
  Qed.

  (** The sum of the pair correlation functions of all time steps. *)
  Definition measured (tot : list V) : Prop := exists gs, Forall2 (fun f g => correlation zero of_nat div norm one (positions_of f) g) frames gs /\ sum_of zero add 200 gs tot.
  Lemma fit_last : frames <> [] -> Forall fit_frame frames -> exists f, nth_error frames (span - 1) = Some f /\ snd f <> [].
  Proof.
    intros N F. destruct (exists_last N) as [init [x E]]. exists x. rewrite E in F |- *. rewrite app_length, nth_error_app2 by (cbn; lia). cbn [length]. replace (length init + 1 - 1 - length init) with 0 by lia. split; [reflexivity|].
    apply Forall_app in F as [_ F]. apply Forall_inv in F as [F _]. intros X. apply F. unfold positions_of. rewrite X. reflexivity.
  Qed.
  Lemma rdf_ok sts d : Forall2 (fun f st => make_index c (new_particles (positions_of f) [] one) = Some st) frames sts -> Forall fit_frame frames -> d rdf_file = None ->
    exists tot, measured tot /\ rdf_stage V zero add divn of_nat div norm show parse abscissa head sts d = Val (tot, put_file d rdf_file (all_rdf_text V divn show abscissa span tot)).
  Proof.
    intros Fo Ft Hno. assert (Ln := proj1 (forall2_get _ _ _ Fo)).
    assert (G : forall fr ss, Forall2 (fun f st => make_index c (new_particles (positions_of f) [] one) = Some st) fr ss -> Forall fit_frame fr -> exists gs, osequence (map (frame_rdf V zero of_nat div norm) ss) = Val gs /\ Forall2 (fun f g => correlation zero of_nat div norm one (positions_of f) g) fr gs /\ Forall (fun g => length g = 200) gs).
    { intros fr ss Fo'. induction Fo' as [|f st fr ss Ei Fo' IH]; intros Ft'; [exists []; repeat split; constructor|]. apply Forall_cons_iff in Ft' as [Hf0 Ft']. destruct (IH Ft') as [gs [E [F L]]]. destruct (frame_ok f st Hf0 Ei) as [g [Eg Cg]].
      exists (g :: gs). split; [cbn [map osequence]; rewrite Eg; cbn [obind]; rewrite E; reflexivity|]. split; [constructor; auto|]. constructor; [|exact L]. destruct Cg as [sel [vol [_ [_ [Lg _]]]]]. exact Lg. }
    specialize (G frames sts Fo Ft).
    destruct G as [gs [E [F L]]]. exists (fold_left (add_frame V add) gs (repeat zero 200)). split.
    - exists gs. split; [exact F|]. destruct (add_frame_ok V zero add 200 gs (repeat zero 200) (repeat_length _ _) L) as [A B]. split; [exact A|]. intros k Hk. rewrite B by exact Hk. f_equal. apply nth_repeat.
    - unfold rdf_stage. fold rdf_file. cbv zeta. rewrite Hno. unfold total_rdf. rewrite E. cbn [omap]. unfold bins200. rewrite Ln. reflexivity.
  Qed.
  (** C146.  Without <head>.rdf, the mean is written there and the bond length is that of the first minimum of the sum; the bonds of each time step are the pairs closer than that.
      If that minimum is null the program never ends. *)
  Theorem C146_computed d : ready d -> frames <> [] -> Forall fit_frame frames -> d rdf_file = None -> exists tot mid, measured tot /\
    (exists l, mid rdf_file = Some l /\ words l = mean_words show abscissa divn span tot /\ rows_of parse l (map (fun v => rnd (divn v span)) tot)) /\ only [rdf_file] d mid /\
    (sortable V lt tot -> forall m, first_dip V zero lt tot m ->
      (is0 (nth m tot zero) = false -> forall fuel, 0 < fuel -> exists d', run fuel name d = Done d' /\ bonds_written m d' /\ only all_bond_files mid d') /\
      (is0 (nth m tot zero) = true -> forall fuel, run fuel name d = Running mid)).
  Proof.
    intros Hr Hne Ft Hno. destruct (start_ok d 0 Hr (fit_last Hne Ft)) as [bond0 [sts [Fo [_ _]]]]. destruct (rdf_ok sts d Fo Ft Hno) as [tot [M Es]]. exists tot. eexists. split; [exact M|]. split; [eexists; split; [apply put_same|split; [apply (mean_text_words V divn show parse abscissa rnd K)|exact (mean_text_rows V zero lt is0 add divn of_nat div norm show parse abscissa rnd K _ _)]]|].
    split; [intros n H; apply put_other; intros ->; apply H; left; reflexivity|]. intros So m Dm. assert (Lt : length tot = 200) by (destruct M as [gs [_ [L _]]]; exact L).
    assert (Em : m = minimum V lt tot). { apply (dip_fun V zero lt tot); [exact Dm|]. apply minimum_ok; [intros X; rewrite X in Lt; discriminate|exact So]. }
    assert (St : forall fuel, exists bond, (forall t, t < span -> step_name bond (N.of_nat t) = bonds_file t) /\ run fuel name d = and_then d (rdf_stage V zero add divn of_nat div norm show parse abscissa head sts d) (fun gd =>
      match wait_minimum V zero lt is0 fuel (fst gd) with None => Running (snd gd) | Some m => and_then (snd gd) (ofold (fun ts d' => bonds_step m bond (fst ts) (snd ts) d') (combine (seq 0 (length sts)) sts) (snd gd)) Done end)).
    { intros fuel. destruct (start_ok d fuel Hr (fit_last Hne Ft)) as [bond [sts' [Fo' [Nb E]]]]. exists bond. split; [exact Nb|]. assert (sts' = sts); [|subst sts'; exact E]. clear - Fo Fo'. revert sts' Fo'. induction Fo; intros sts' Fo'; inversion Fo'; subst; [reflexivity|]. f_equal; [congruence|auto]. }
    split; intros H0 fuel.
    - intros Hfu. destruct (St fuel) as [bond [Nb E]]. rewrite Es in E. cbn [and_then fst snd] in E. rewrite Em in H0. rewrite wait_ok in E by auto. rewrite <- Em in E. set (mid := put_file d rdf_file _) in *.
      destruct (bonds_ok bond sts m mid Fo Nb) as [d' [Ed [B O]]]. rewrite Ed in E. exists d'. split; [exact E|]. split; [exact B|exact O].
    - destruct (St fuel) as [bond [Nb E]]. rewrite Es in E. cbn [and_then fst snd] in E. rewrite Em in H0. rewrite wait_forever in E by auto. exact E.
  Qed.
  (** With it, the second numbers of its first 200 rows are used, whatever the positions; only the bonds are written. *)
  Theorem C146_loaded d file g : ready d -> (exists f, nth_error frames (span - 1) = Some f /\ snd f <> []) -> d rdf_file = Some file -> rows_of parse file g -> 200 <= length g ->
    sortable V lt (firstn 200 g) -> forall m, first_dip V zero lt (firstn 200 g) m ->
      (is0 (nth m g zero) = false -> forall fuel, 0 < fuel -> exists d', run fuel name d = Done d' /\ bonds_written m d' /\ only all_bond_files d d') /\
      (is0 (nth m g zero) = true -> forall fuel, run fuel name d = Running d).
  Proof.
    intros Hr Hl Hfile Rows Lg So m Dm. assert (Lt : length (firstn 200 g) = 200) by (apply firstn_length_le; exact Lg).
    assert (Em : m = minimum V lt (firstn 200 g)). { apply (dip_fun V zero lt (firstn 200 g)); [exact Dm|]. apply minimum_ok; [intros X; rewrite X in Lt; discriminate|exact So]. }
    assert (Hm : m < 200) by (destruct Dm as [p [_ [Dm _]]]; lia). assert (Ng : nth m g zero = nth m (firstn 200 g) zero) by (rewrite <- (firstn_skipn 200 g) at 1; apply app_nth1; lia). rewrite Ng, Em.
    assert (Es : forall sts, rdf_stage V zero add divn of_nat div norm show parse abscissa head sts d = Val (firstn 200 g, d)).
    { intros sts. unfold rdf_stage. fold rdf_file. cbv zeta. rewrite Hfile. rewrite (load_file V zero parse bins200 file g Rows). unfold bins200. rewrite firstn_app. replace (200 - length g) with 0 by lia. cbn [firstn]. rewrite app_nil_r. reflexivity. }
    split; intros H0 fuel.
    - intros Hfu. destruct (start_ok d fuel Hr Hl) as [bond [sts [Fo [Nb E]]]]. rewrite Es in E. cbn [and_then fst snd] in E. rewrite wait_ok in E by auto. destruct (bonds_ok bond sts (minimum V lt (firstn 200 g)) d Fo Nb) as [d' [Ed [B O]]]. rewrite Ed in E. exists d'. split; [exact E|]. split; [exact B|exact O].
    - destruct (start_ok d fuel Hr Hl) as [bond [sts [Fo [Nb E]]]]. rewrite Es in E. cbn [and_then fst snd] in E. rewrite wait_forever in E by auto. exact E.
  Qed.
  (** "A shorter function is read as far as it goes": false, the missing values are null and the program never ends. *)
  Theorem C146_short_refuted d file g : ready d -> (exists f, nth_error frames (span - 1) = Some f /\ snd f <> []) -> d rdf_file = Some file -> rows_of parse file g -> length g < 200 ->
    sortable V lt (zero :: g) -> (forall v, In v (zero :: g) -> lt v zero = false /\ (lt zero v = false -> is0 v = true)) -> forall fuel, run fuel name d = Running d.
  Proof.
    intros Hr Hl Hfile Rows Lg So Pos fuel. set (h := firstn 200 (g ++ repeat zero 200)). assert (Lh : length h = 200) by (apply firstn_length_le; rewrite app_length, repeat_length; lia).
    assert (Ih : forall v, In v h -> In v (zero :: g)). { intros v Hv. assert (X : In v (g ++ repeat zero 200)) by (rewrite <- (firstn_skipn 200 (g ++ repeat zero 200)); apply in_or_app; left; exact Hv). apply in_app_or in X as [X|X]; [right; exact X|left; symmetry; eapply repeat_spec; exact X]. }
    assert (Wh : sortable V lt h) by (intros x y z Hx Hy Hz; apply So; apply Ih; assumption).
    destruct (minimum_ok V zero lt h) as [p [[P1 _] [D1 [_ D3]]]]; [intros X; rewrite X in Lh; discriminate|exact Wh|].
    assert (Z0 : nth 199 h zero = zero). { assert (X : nth 199 (g ++ repeat zero 200) zero = zero) by (rewrite app_nth2 by lia; apply nth_repeat). unfold h. rewrite <- (firstn_skipn 200 (g ++ repeat zero 200)) in X. rewrite app_nth1 in X by (fold h; lia). exact X. }
    specialize (D3 199 ltac:(lia)). rewrite Z0 in D3. destruct (Pos (nth (minimum V lt h) h zero)) as [_ Y]; [apply Ih; apply nth_In; lia|].
    destruct (start_ok d fuel Hr Hl) as [bond [sts [Fo [Nb E]]]]. rewrite E. unfold rdf_stage. fold rdf_file. cbv zeta. rewrite Hfile. rewrite (load_file V zero parse bins200 file g Rows). unfold bins200. fold h. cbn [and_then fst snd]. rewrite wait_forever by (apply Y; exact D3). reflexivity.
  Qed.

  (** A second run. *)
  Lemma bonds_fun m d d' : bonds_written m d -> bonds_written m d' -> forall t, t < span -> d (bonds_file t) = d' (bonds_file t).
  Proof.
    intros B B' t Ht. destruct (nth_error_ex frames t Ht) as [f Ef]. destruct (B t f Ef) as [bs [B1 ->]]. destruct (B' t f Ef) as [bs' [B2 ->]]. assert (bs = bs'); [|subst; reflexivity]. apply lex_ext; [apply B1|apply B2|]. intros [x y]. rewrite (proj2 B1 x y), (proj2 B2 x y). reflexivity.
  Qed.
  Lemma dip_map h tot m : (forall a b, In a tot -> In b tot -> lt (h a) (h b) = lt a b) -> first_dip V zero lt tot m -> first_dip V zero lt (map h tot) m.
  Proof.
    intros Hh [p [[P1 [P2 P3]] [D1 [D2 D3]]]].
    assert (Nh : forall k, k < length tot -> nth k (map h tot) zero = h (nth k tot zero)) by (intros k Hk; rewrite (nth_indep _ zero (h zero)) by (rewrite map_length; exact Hk); apply map_nth).
    assert (In' : forall k, k < length tot -> In (nth k tot zero) tot) by (intros k Hk; apply nth_In; exact Hk).
    exists p. split; split; rewrite ?map_length; auto; split; intros q Hq; rewrite !Nh by lia; rewrite Hh by (apply In'; lia); auto.
  Qed.
  Lemma sortable_map h tot : (forall a b, In a tot -> In b tot -> lt (h a) (h b) = lt a b) -> sortable V lt tot -> sortable V lt (map h tot).
  Proof.
    intros Hh So x y z Hx Hy Hz. apply in_map_iff in Hx as [a [<- Ha]]. apply in_map_iff in Hy as [b [<- Hb]]. apply in_map_iff in Hz as [e [<- He]]. rewrite !Hh by assumption. apply So; assumption.
  Qed.
  Lemma still_ready d d' : ext <> txt "bonds" -> ready d -> only (rdf_file :: all_bond_files) d d' -> ready d'.
  Proof.
    intros Hx [D1 D2] O. split.
    - rewrite O; [exact D1|]. intros [H|H].
      + assert (X : head ++ [dot] ++ txt "rdf" = (folder ++ stem) ++ [dot] ++ txt "traj") by (rewrite <- app_assoc; exact H). apply last_dot in X as [_ X]; [discriminate| |]; vm_compute; intuition discriminate.
      + apply in_map_iff in H as [t [H _]]. assert (X : (head ++ tok ++ pad (length ds) (N.of_nat (t + off))) ++ [dot] ++ txt "bonds" = (folder ++ stem) ++ [dot] ++ txt "traj") by (rewrite <- !app_assoc; exact H). apply last_dot in X as [_ X]; [discriminate| |]; vm_compute; intuition discriminate.
    - intros t f Ef. destruct (D2 t f Ef) as [s [W E]]. exists s. split; [exact W|]. rewrite O; [exact E|]. intros [H|H].
      + unfold rdf_file in H. change (txt ".rdf") with ([dot] ++ txt "rdf") in H. assert (X : head ++ [dot] ++ txt "rdf" = (head ++ tok ++ s) ++ [dot] ++ ext) by (rewrite <- !app_assoc; exact H). apply last_dot in X as [X _]; [|vm_compute; intuition discriminate|exact Hext].
        rewrite <- (app_nil_r head) in X at 1. apply app_inv_head in X. destruct tok as [|x tk] eqn:Et; [|discriminate]. destruct Hdf as [Hd0 _]. congruence.
      + apply in_map_iff in H as [t' [H _]]. assert (X : (head ++ tok ++ pad (length ds) (N.of_nat (t' + off))) ++ [dot] ++ txt "bonds" = (head ++ tok ++ s) ++ [dot] ++ ext) by (rewrite <- !app_assoc; exact H). apply last_dot in X as [_ X]; [congruence|vm_compute; intuition discriminate|exact Hext].
  Qed.
  (** If the text of the mean keeps the order of the bins, a second run finds the same bonds and writes the same files. *)
  Theorem C146_again d : ready d -> ext <> txt "bonds" -> frames <> [] -> Forall fit_frame frames -> d rdf_file = None -> exists tot, measured tot /\
    (sortable V lt tot -> (forall a b, In a tot -> In b tot -> lt (rnd (divn a span)) (rnd (divn b span)) = lt a b) -> (forall a, In a tot -> is0 (rnd (divn a span)) = is0 a) ->
     forall m, first_dip V zero lt tot m -> is0 (nth m tot zero) = false -> forall fuel, 0 < fuel -> exists d' d'', run fuel name d = Done d' /\ run fuel name d' = Done d'' /\ forall n, d'' n = d' n).
  Proof.
    intros Hr Hx Hne Ft Hno. destruct (C146_computed d Hr Hne Ft Hno) as [tot [mid [M [[l [El [_ Rl]]] [Om R]]]]]. exists tot. split; [exact M|]. intros So Hlt Hz m Dm Nz fuel Hfu.
    assert (Lt : length tot = 200) by (destruct M as [gs [_ [L _]]]; exact L).
    destruct (proj1 (R So m Dm) Nz fuel Hfu) as [d' [E' [B' O']]]. exists d'.
    assert (Rf : d' rdf_file = Some l). { rewrite O'; [exact El|]. intros H. apply in_map_iff in H as [t [H _]]. symmetry in H. exact (rdf_apart t H). }
    assert (Hr' : ready d'). { apply (still_ready d d' Hx Hr). intros n H. rewrite O' by (intros X; apply H; right; exact X). apply Om. intros [X|[]]. apply H. left. exact X. }
    set (h := fun v => rnd (divn v span)) in *. assert (Fm : firstn 200 (map h tot) = map h tot) by (rewrite <- Lt; rewrite <- (map_length h tot); apply firstn_all).
    assert (Hm : m < 200) by (destruct Dm as [p [_ [Dm _]]]; lia).
    destruct (C146_loaded d' l (map h tot) Hr' (fit_last Hne Ft) Rf Rl) with (m := m) as [Y _]; rewrite ?Fm, ?map_length; try lia; [apply sortable_map; assumption|apply dip_map; assumption|].
    destruct (Y ltac:(rewrite (nth_indep _ zero (h zero)) by (rewrite map_length; lia); rewrite map_nth; refine (eq_trans (Hz (nth m tot zero) _) Nz); apply nth_In; lia) fuel Hfu) as [d'' [E'' [B'' O'']]]. exists d''. split; [exact E'|]. split; [exact E''|].
    intros n. destruct (in_dec (list_eq_dec ascii_dec) n all_bond_files) as [H|H]; [|apply O''; exact H]. apply in_map_iff in H as [t [<- H]]. apply in_seq in H. symmetry. apply (bonds_fun m); auto; lia.
  Qed.
  (** "Bonds are found whatever the time steps": false; a time step without a particle far from the faces makes the sum undefined (0/0), the first bin is then both the largest and the smallest, and all files of bonds are empty. *)
  Theorem C146_nan_refuted nan d f0 : ready d -> frames <> [] -> Forall fit_frame frames -> d rdf_file = None ->
    In f0 frames -> (forall p, In p (positions_of f0) -> ~ deep (positions_of f0) (30 * one) p) ->
    of_nat 0 = zero -> (forall n v k w, div zero (norm n v k w 0) = nan) -> (forall x, div nan x = nan) -> (forall x, add nan x = nan /\ add x nan = nan) -> (forall x, lt nan x = false /\ lt x nan = false) -> is0 nan = false ->
    forall fuel, 0 < fuel -> exists d', run fuel name d = Done d' /\ forall t, t < span -> d' (bonds_file t) = Some [].
  Proof.
    intros Hr Hne Ft Hno I0 Nd Hz Hn0 Hdn Hadd Hlt Hnz fuel Hfu. destruct (C146_computed d Hr Hne Ft Hno) as [tot [mid [[gs [Fg [Lt Hs']]] [_ [Om R]]]]].
    assert (G0 : exists g, In g gs /\ forall k, k < 200 -> nth k g zero = nan).
    { apply In_nth_error in I0 as [t Et]. destruct (forall2_get _ _ _ Fg) as [_ Gt]. destruct (Gt t f0 Et) as [g [Eg [sel [vol [[_ P] [_ [Lg [G1 G2]]]]]]]]. exists g. split; [eapply nth_error_In; eauto|].
      assert (sel = []) as ->. { destruct sel as [|i sel]; [reflexivity|]. exfalso. destruct (proj1 (P i) (or_introl eq_refl)) as [p [Ep Dp]]. apply (Nd p); [eapply nth_error_In; eauto|exact Dp]. }
      cbn [length] in *. intros k Hk. destruct k as [|k]; [erewrite nth_error_nth by exact G1; apply Hn0|]. erewrite nth_error_nth by (apply G2; lia). cbn [pairs_in all_pairs]. change (pairs_in (positions_of f0) 200 (30 * one) [] (S k)) with 0. rewrite Hz, Hn0. apply Hdn. }
    assert (An : forall k, k < 200 -> nth k tot zero = nan).
    { intros k Hk. rewrite (Hs' k Hk). destruct G0 as [g [Ig Hg0]]. apply in_split in Ig as [g1 [g2 ->]]. rewrite map_app. cbn [map]. rewrite fold_left_app. cbn [fold_left]. rewrite (Hg0 k Hk), (proj2 (Hadd _)). generalize (map (fun g => nth k g zero) g2). intros q. induction q as [|x q IH]; [reflexivity|]. cbn [fold_left]. rewrite (proj1 (Hadd x)). exact IH. }
    assert (All : forall x, In x tot -> x = nan). { intros x H. apply (In_nth _ _ zero) in H as [k [Hk <-]]. apply An. lia. }
    assert (So : sortable V lt tot). { intros x y z Hx _ _. rewrite (All x Hx). rewrite (proj1 (Hlt nan)). split; [reflexivity|]. split; [intros H; rewrite (proj1 (Hlt y)) in H; discriminate|intros; apply Hlt]. }
    assert (D0 : first_dip V zero lt tot 0). { exists 0. split; split; try lia; split; intros q Hq; try lia; rewrite !An by lia; apply Hlt. }
    destruct (proj1 (R So 0 D0) ltac:(rewrite An by lia; exact Hnz) fuel Hfu) as [d' [E [B _]]]. exists d'. split; [exact E|]. intros t Ht. destruct (nth_error_ex frames t Ht) as [f Ef]. destruct (B t f Ef) as [bs [[_ B1] ->]]. f_equal.
    destruct bs as [|[i j] bs]; [reflexivity|]. exfalso. destruct (proj1 (B1 i j) (or_introl eq_refl)) as [_ [_ [x [y [_ [_ C]]]]]]. unfold bond_length in C. change (15 * Z.of_nat 0 * (2 * one) / 200)%Z with 0%Z in C. unfold closer3 in C. nia.
  Qed.
  (** Nothing is written, the disk is as it was: another extension, no trajectory file, a file of positions missing, no particle in the last time step. *)
  Theorem C146_stops d fuel :
    (forall f, (forall h, f <> h ++ txt ".traj") -> run fuel f d = Failed d) /\
    (forall h, d (h ++ txt ".traj") = None -> run fuel (h ++ txt ".traj") d = Failed d) /\
    (d name = Some header -> (exists t, t < span /\ forall s, writes (length ds) (N.of_nat (t + off)) s -> d (head ++ tok ++ s ++ [dot] ++ ext) = None) -> run fuel name d = Failed d) /\
    (ready d -> (exists f, nth_error frames (span - 1) = Some f /\ snd f = []) -> run fuel name d = Failed d).
  Proof.
    assert (Nx : no_digit_first ([dot] ++ ext)) by (exists dot, ext; split; reflexivity).
    assert (Fs := fs1_ok V base tok off frames d folder head ds ([dot] ++ ext) Hs Hd Nx Hpc). set (fs := fs1 V tok off frames head ds ([dot] ++ ext)) in *.
    destruct (C54_change_ext tok (folder ++ base) head ds ([dot] ++ ext) (N.to_nat (N.of_nat span)) (N.of_nat off) Hs Hd Nx Hpc [] ext (txt ".bonds") Hdf eq_refl Hext) as [fs' [bond [E1 [E2 E3]]]].
    { exists dot, (txt "bonds"). split; reflexivity. } { exact Hab. } { intros H. vm_compute in H. intuition discriminate. }
    assert (fs' = fs) by congruence. subst fs'.
    assert (Hd' : forall h l, d (h ++ txt ".traj") = l -> run fuel (h ++ txt ".traj") d = match l with None => Failed d | Some _ => run fuel (h ++ txt ".traj") d end).
    { intros h [l|] E; [reflexivity|]. unfold all_bonds. rewrite extension_ok. cbn [and_then]. unfold text_eqb. destruct (list_eq_dec ascii_dec (txt ".traj") (txt ".traj")) as [_|N]; [|congruence]. cbn [negb]. rewrite E. reflexivity. }
    assert (St : d name = Some header -> run fuel name d = and_then d (fill_frames V zero parse d fs) (fun fr => match rev fr with [] => Undefined | [] :: _ => Failed d | _ =>
        and_then d (osequence (map (fun f => match make_index c (new_particles (map grid f) [] one) with Some st => Val st | None => UB end) fr)) (fun sts => and_then d (serie_head fs) (fun head =>
        and_then d (rdf_stage V zero add divn of_nat div norm show parse abscissa head sts d) (fun gd => match wait_minimum V zero lt is0 fuel (fst gd) with None => Running (snd gd) | Some m => and_then (snd gd) (ofold (fun ts d' => bonds_step m bond (fst ts) (snd ts) d') (combine (seq 0 (length sts)) sts) (snd gd)) Done end))) end)).
    { intros Dt. unfold all_bonds. replace name with ((folder ++ stem) ++ txt ".traj") by (rewrite <- app_assoc; reflexivity). rewrite extension_ok. cbn [and_then]. unfold text_eqb at 1. destruct (list_eq_dec ascii_dec (txt ".traj") (txt ".traj")) as [_|N]; [|congruence]. cbn [negb].
      rewrite <- app_assoc. rewrite Dt. unfold header. rewrite (read_header_ok V show parse rnd K) by (try apply one_line_b; auto; unfold fits; change two64 with (2 ^ 64)%N; lia).
      rewrite folder_ok by auto. rewrite Fs. cbn [and_then]. rewrite E2. cbn [and_then]. reflexivity. }
    split; [|split; [|split]].
    - intros f Hf'. unfold all_bonds, extension. destruct (rfind [dot] f) as [p|] eqn:Ep; [|reflexivity]. cbn [and_then]. unfold text_eqb. destruct (list_eq_dec ascii_dec (skipn p f) (txt ".traj")) as [Ex|_]; [|reflexivity]. exfalso. apply (Hf' (firstn p f)). rewrite <- Ex. symmetry. apply firstn_skipn.
    - intros h E. rewrite (Hd' h None E). reflexivity.
    - intros Dt [t [Ht Hmiss]]. rewrite (St Dt). assert (X : fill_frames V zero parse d fs = Throw); [|rewrite X; reflexivity]. unfold fill_frames.
      assert (A : forall l : list nat, In t l -> osequence (map (fun t => match d (step_name fs (N.of_nat t)) with Some l => Val (snd (read_dat V zero parse l)) | None => Throw end) l) = Throw).
      { induction l as [|k l IH]; [intros []|]. intros [->|H]; cbn [map osequence].
        - unfold fs. rewrite (fs1_name V tok off frames Hn head ds ([dot] ++ ext) t (pad (length ds) (N.of_nat (t + off))) Ht (pad_writes _ _)). rewrite Hmiss by apply pad_writes. reflexivity.
        - destruct (d (step_name fs (N.of_nat k))); [|reflexivity]. cbn [obind]. rewrite (IH H). reflexivity. }
      apply A. apply in_seq. cbn. lia.
    - intros [Dt Dd] [f [Ef E0]]. rewrite (St Dt). rewrite (fill_ok V zero show parse rnd K tok off frames Hn Hps d head ds ([dot] ++ ext) Dd : fill_frames V zero parse d fs = _). cbn [and_then].
      destruct (exists_last (l := frames)) as [init [x Ex]]; [intros X; rewrite X in Ef; discriminate|]. rewrite Ex in Ef. rewrite app_length in Ef. cbn [length] in Ef. rewrite nth_error_app2 in Ef by lia. replace (length init + 1 - 1 - length init) with 0 in Ef by lia. cbn in Ef. injection Ef as ->.
      rewrite Ex, map_app, rev_app_distr. cbn [map rev app]. rewrite E0. reflexivity.
  Qed.
  (** "A trajectory file without any time step has no bonds": false, the last of no time steps is looked at. *)
  Theorem C146_empty_refuted d fuel : frames = [] -> ready d -> run fuel name d = Undefined.
  Proof.
    intros Ez [Dt Dd]. assert (Nx : no_digit_first ([dot] ++ ext)) by (exists dot, ext; split; reflexivity).
    assert (Fs := fs1_ok V base tok off frames d folder head ds ([dot] ++ ext) Hs Hd Nx Hpc). set (fs := fs1 V tok off frames head ds ([dot] ++ ext)) in *.
    destruct (C54_change_ext tok (folder ++ base) head ds ([dot] ++ ext) (N.to_nat (N.of_nat span)) (N.of_nat off) Hs Hd Nx Hpc [] ext (txt ".bonds") Hdf eq_refl Hext) as [fs' [bond [E1 [E2 E3]]]].
    { exists dot, (txt "bonds"). split; reflexivity. } { exact Hab. } { intros H. vm_compute in H. intuition discriminate. }
    assert (fs' = fs) by congruence. subst fs'.
    unfold all_bonds. replace name with ((folder ++ stem) ++ txt ".traj") by (rewrite <- app_assoc; reflexivity). rewrite extension_ok. cbn [and_then]. unfold text_eqb at 1. destruct (list_eq_dec ascii_dec (txt ".traj") (txt ".traj")) as [_|N]; [|congruence]. cbn [negb].
    rewrite <- app_assoc. rewrite Dt. unfold header. rewrite (read_header_ok V show parse rnd K) by (try apply one_line_b; auto; unfold fits; change two64 with (2 ^ 64)%N; lia).
    rewrite folder_ok by auto. rewrite Fs. cbn [and_then]. rewrite E2. cbn [and_then]. rewrite (fill_ok V zero show parse rnd K tok off frames Hn Hps d head ds ([dot] ++ ext) Dd : fill_frames V zero parse d fs = _). rewrite Ez. reflexivity.
  Qed.
End C146.

(** * Cases *)
(** Doubles as multiples of 1/100, written with [1/step] of their unit; coordinates with two digits. *)
Definition grid7 (p : Z * Z * Z) : list Z := let '(x, y, z) := p in map (fun v => (v / 100 * unit60)%Z) [x; y; z].
Definition one7 : Z := (40 * unit60)%Z.
Definition scale7 : Z := 100000000.
Definition run7 (step : Z) (fuel : nat) (d : disk) : ending :=
  all_bonds Z 0%Z Z.ltb (Z.eqb 0) Z.add (fun v n => v / Z.of_nat n)%Z (fun n => Z.of_nat n * scale7)%Z (fun a b => a * scale7 / b)%Z (fun _ _ _ _ m => Z.of_nat m * scale7)%Z (show_Z step) (parse_Z step) (fun k => Z.of_nat k * 100)%Z grid7 one7 lib_config fuel (txt "a.traj") d.
(** A particle in the middle; two others at 1185, one at 1191, one at 1197 (bins of 6); two corners. *)
Definition seven : list (Z * Z * Z) := map (fun p => let '(x, y, z) := p in (x * 100, y * 100, z * 100)%Z) [(40, 40, 40); (4040, 4040, 4040); (2040, 2040, 2040); (3225, 2040, 2040); (855, 2040, 2040); (2040, 3231, 2040); (2040, 843, 2040)]%Z.
Definition frame7 : (Z * Z * Z) * list (Z * Z * Z) := ((500000, 500000, 500000)%Z, seven).
Definition traj_text (span : nat) : text := txt "100" ++ [tab] ++ txt "1" ++ [newline] ++ txt "a_t0.dat" ++ [newline] ++ txt "_t" ++ [newline] ++ print_nat 0 ++ [tab] ++ print_nat span ++ [newline].
Definition disk7 (step : Z) : disk := put_file (put_file (put_file (fun _ => None) (txt "a_t0.dat") (export_dat Z (show_Z step) (fst frame7) seven)) (txt "a_t1.dat") (export_dat Z (show_Z step) (fst frame7) seven)) (txt "a.traj")
  (show_Z step 100 ++ [tab] ++ show_Z step 100 ++ [newline] ++ txt "a_t0.dat" ++ [newline] ++ txt "_t" ++ [newline] ++ print_nat 0 ++ [tab] ++ print_nat 2 ++ [newline] ++ []).
Definition l7 : list (list Z) := map (map (Z.mul unit60)) [[40; 40; 40]; [4040; 4040; 4040]; [2040; 2040; 2040]; [3225; 2040; 2040]; [855; 2040; 2040]; [2040; 3231; 2040]; [2040; 843; 2040]]%Z.
Lemma extent7 k : k < 3 -> extent l7 k (40 * unit60) (4040 * unit60).
Proof.
  intros Hk. split; [exists (map (Z.mul unit60) [40; 40; 40]%Z)|split; [exists (map (Z.mul unit60) [4040; 4040; 4040]%Z)|]].
  - split; [left; reflexivity|]. destruct k as [|[|[|k]]]; [reflexivity|reflexivity|reflexivity|lia].
  - split; [right; left; reflexivity|]. destruct k as [|[|[|k]]]; [reflexivity|reflexivity|reflexivity|lia].
  - intros q Hq. cbn [l7 map In] in Hq. destruct k as [|[|[|k]]]; [| | |lia]; repeat (destruct Hq as [<-|Hq]; [vm_compute; split; discriminate|]); contradiction.
Qed.
Lemma series7 : is_folder [] /\ plain_name (txt "a" ++ txt ".traj") /\ one_line (txt "a_t0.dat") /\ one_line (txt "_t") /\ splits (txt "_t") ([] ++ txt "a_t0.dat") (txt "a") (txt "0" ++ [dot] ++ txt "dat") /\ numeral (txt "0") /\
  no_percent ([] ++ txt "a_t0.dat") /\ ~ In dot (txt "dat") /\ digit_free (txt "_t") /\ absent (txt "_t") (txt ".bonds").
Proof.
  assert (N : forall l (x : ascii), forallb (fun y => negb (Ascii.eqb x y)) l = true -> ~ In x l) by (intros l x H I; rewrite forallb_forall in H; specialize (H x I); rewrite Ascii.eqb_refl in H; discriminate).
  split; [left; reflexivity|]. split; [split; apply N; reflexivity|]. split; [apply N; reflexivity|]. split; [apply N; reflexivity|]. split; [exact (proj1 C128_case)|]. split; [intros c [<-|[]]; reflexivity|]. split; [apply N; reflexivity|]. split; [apply N; reflexivity|].
  split; [split; [discriminate|intros c [<-|[<-|[]]]; reflexivity]|]. intros h r E. assert (X : In "_"%char (txt ".bonds")) by (rewrite E; apply in_or_app; right; left; reflexivity). revert X. apply N. reflexivity.
Qed.
Lemma grid7_point p : point3 (grid7 p).
Proof. destruct p as [[x y] z]. repeat eexists. Qed.
Lemma setup7 step : step = 1%Z \/ step = 100%Z -> ready Z (show_Z step) 100%Z 100%Z (txt "a_t0.dat") (txt "_t") 0 [] [frame7; frame7] [] (txt "a") (txt "a") (txt "0") (txt "dat") (disk7 step) /\
  Forall (fit_frame Z (fun z => z / step * step)%Z grid7 one7) [frame7; frame7].
Proof.
  intros Hst. split.
  - split; [reflexivity|]. intros t f E. destruct t as [|[|t]]; [| |destruct t; discriminate]; injection E as <-.
    + exists (txt "0"). split; [split; [intros c [<-|[]]; reflexivity|split; reflexivity]|reflexivity].
    + exists (txt "1"). split; [split; [intros c [<-|[]]; reflexivity|split; reflexivity]|reflexivity].
  - assert (F : fit_frame Z (fun z => z / step * step)%Z grid7 one7 frame7); [|apply Forall_cons; [exact F|]; apply Forall_cons; [exact F|apply Forall_nil]].
    assert (El : positions_of Z (fun z => z / step * step)%Z grid7 frame7 = l7) by (destruct Hst as [->| ->]; vm_compute; reflexivity). unfold fit_frame. rewrite El. cbv zeta. split; [discriminate|]. split.
    + intros p k Hp Hk. cbn [l7 map In] in Hp. destruct k as [|[|[|k]]]; [| | |lia]; repeat (destruct Hp as [<-|Hp]; [vm_compute; split; discriminate|]); contradiction.
    + intros k lo hi Hk Ex; destruct (extent_fun _ _ _ _ _ _ Ex (extent7 k Hk)) as [-> ->]; (split; [vm_compute; reflexivity|]).
      intros q Hq; cbn [l7 map In] in Hq; destruct k as [|[|[|k]]]; [| | |lia]; repeat (destruct Hq as [<-|Hq]; [vm_compute; split; discriminate|]); contradiction.
Qed.
Lemma sortable_Z g : sortable Z Z.ltb g.
Proof. intros x y z _ _ _. destruct (Z.ltb_spec x x), (Z.ltb_spec x y), (Z.ltb_spec y z), (Z.ltb_spec x z); repeat split; intros; try discriminate; try reflexivity; lia. Qed.
(** The hypotheses of C146_computed hold, all integers can be sorted, and the bond length is that of the bin 199. *)
Example C146_case : let step := 1%Z in
  ready Z (show_Z step) 100%Z 100%Z (txt "a_t0.dat") (txt "_t") 0 [] [frame7; frame7] [] (txt "a") (txt "a") (txt "0") (txt "dat") (disk7 step) /\
  Forall (fit_frame Z (fun z => z / step * step)%Z grid7 one7) [frame7; frame7] /\ (forall g, sortable Z Z.ltb g) /\
  exists d' d'', run7 step 1 (disk7 step) = Done d' /\ d' (txt "a_t0.bonds") = Some (save_bonds [(2, 3); (2, 4); (2, 5)]) /\ d' (txt "a_t1.bonds") = Some (save_bonds [(2, 3); (2, 4); (2, 5)]) /\
    run7 step 1 d' = Done d'' /\ d'' (txt "a_t1.bonds") = d' (txt "a_t1.bonds").
Proof.
  cbv zeta. split; [apply setup7; auto|]. split; [apply setup7; auto|]. split; [apply sortable_Z|].
  destruct (run7 1 1 (disk7 1)) as [d'|d'|d'|] eqn:E; [|exfalso; vm_compute in E; discriminate|exfalso; vm_compute in E; discriminate|exfalso; vm_compute in E; discriminate].
  exists d'. vm_compute in E. injection E as <-. eexists. split; [reflexivity|]. split; [vm_compute; reflexivity|]. split; [vm_compute; reflexivity|]. split; [vm_compute; reflexivity|]. vm_compute. reflexivity.
Qed.
(** "A second run finds the same bonds" is false: with fewer digits in the text the bin 198 is as low as the next one. *)
Theorem C146_again_refuted : exists d' d'', run7 100 1 (disk7 100) = Done d' /\ run7 100 1 d' = Done d'' /\ d' (txt "a_t0.bonds") = Some (save_bonds [(2, 3); (2, 4); (2, 5)]) /\ d'' (txt "a_t0.bonds") = Some (save_bonds [(2, 3); (2, 4)]).
Proof.
  destruct (run7 100 1 (disk7 100)) as [d'|d'|d'|] eqn:E; [|exfalso; vm_compute in E; discriminate|exfalso; vm_compute in E; discriminate|exfalso; vm_compute in E; discriminate].
  exists d'. vm_compute in E. injection E as <-. eexists. split; [reflexivity|]. split; [vm_compute; reflexivity|]. split; vm_compute; reflexivity.
Qed.
(** All hypotheses of the section hold together. *)
Lemma sizes7 : (N.of_nat (0 + length [frame7; frame7]) < 2 ^ 64)%N /\ Forall (fun f : (Z * Z * Z) * list (Z * Z * Z) => (N.of_nat (length (snd f)) < 2 ^ 64)%N) [frame7; frame7].
Proof. split; [reflexivity|]. repeat (apply Forall_cons; [reflexivity|]). apply Forall_nil. Qed.
Example C146_short_case fuel : run7 1 fuel (put_file (disk7 1) (txt "a.rdf") (txt "r g" ++ [newline] ++ txt "1 2 3 1" ++ [newline])) = Running (put_file (disk7 1) (txt "a.rdf") (txt "r g" ++ [newline] ++ txt "1 2 3 1" ++ [newline])).
Proof.
  destruct series7 as [A1 [A2 [A3 [A4 [A5 [A6 [A7 [A8 [A9 A10]]]]]]]]]. destruct sizes7 as [B1 B2]. destruct (setup7 1 (or_introl eq_refl)) as [R F].
  refine (C146_short_refuted Z 0%Z Z.ltb (Z.eqb 0) Z.add (fun v n => v / Z.of_nat n)%Z (fun n => Z.of_nat n * scale7)%Z (fun a b => a * scale7 / b)%Z (fun _ _ _ _ m => Z.of_nat m * scale7)%Z (show_Z 1) (parse_Z 1) (fun k => Z.of_nat k * 100)%Z (fun z => z / 1 * 1)%Z grid7 one7 lib_config
    (codec_Z 1) grid7_point lib_config_ok eq_refl 100%Z 100%Z (txt "a_t0.dat") (txt "_t") 0 [] [frame7; frame7] [] (txt "a") (txt "a") (txt "0") (txt "dat") A3 A4 B1 B2 A1 A2 A5 A6 A7 A8 A9 A10 _ _ [2; 1]%Z _ _ eq_refl _ _ (sortable_Z _) _ fuel).
  - split; [reflexivity|]. intros t f E. destruct (proj2 R t f E) as [s [W D]]. exists s. split; [exact W|]. rewrite <- D. apply put_other. intros X. apply (f_equal (@rev ascii)) in X. rewrite !rev_app_distr in X. cbn in X. discriminate.
  - exists frame7. split; [reflexivity|discriminate].
  - exists (txt "r g"), (txt "1 2 3 1" ++ [newline]), [(txt "1", txt "2"); (txt "3", txt "1")]. split; [reflexivity|]. split; [intros [H|[H|[H|[]]]]; discriminate|]. split; [reflexivity|]. split; [|reflexivity]. intros ab [<-|[<-|[]]]; discriminate.
  - cbn [length]. lia.
  - intros v [<-|[<-|[<-|[]]]]; split; reflexivity || discriminate.
Qed.
(** Doubles with a value that is not a number. *)
Definition show_o (v : option Z) : text := match v with None => txt "nan" | Some z => show_Z 1 z end.
Definition parse_o (w : text) : option (option Z) := if list_eq_dec ascii_dec w (txt "nan") then Some None else option_map Some (parse_Z 1 w).
Definition div_o (a b : option Z) : option Z := match a, b with Some x, Some y => if (y =? 0)%Z then None else Some (x * scale7 / y)%Z | _, _ => None end.
Definition add_o (a b : option Z) : option Z := match a, b with Some x, Some y => Some (x + y)%Z | _, _ => None end.
Definition lt_o (a b : option Z) : bool := match a, b with Some x, Some y => (x <? y)%Z | _, _ => false end.
Definition is0_o (a : option Z) : bool := match a with Some x => (x =? 0)%Z | None => false end.
Definition grid_o (p : option Z * option Z * option Z) : list Z := let '(x, y, z) := p in map (fun v => (match v with Some v => v | None => 0 end * unit60)%Z) [x; y; z].
Definition frame_o : (option Z * option Z * option Z) * list (option Z * option Z * option Z) := ((Some 5000, Some 5000, Some 5000)%Z, map (fun x => (Some x, Some x, Some x)) [40; 4040; 60; 4000]%Z).
Lemma codec_o : codec show_o parse_o (fun v => v).
Proof.
  intros [z|]; [|split; [split; [discriminate|reflexivity]|reflexivity]]. unfold show_o, parse_o. destruct (codec_Z 1 z) as [W P]. split; [exact W|]. destruct (list_eq_dec ascii_dec (show_Z 1 z) (txt "nan")) as [E|_].
  - rewrite E in P. discriminate.
  - rewrite P. cbn [option_map]. rewrite Z.div_1_r, Z.mul_1_r. reflexivity.
Qed.
Definition l_o : list (list Z) := map (fun x => map (Z.mul unit60) [x; x; x]%Z) [40; 4040; 60; 4000]%Z.
Lemma extent_o k : k < 3 -> extent l_o k (40 * unit60) (4040 * unit60).
Proof.
  intros Hk. split; [exists (map (Z.mul unit60) [40; 40; 40]%Z)|split; [exists (map (Z.mul unit60) [4040; 4040; 4040]%Z)|]].
  - split; [left; reflexivity|]. destruct k as [|[|[|k]]]; [reflexivity|reflexivity|reflexivity|lia].
  - split; [right; left; reflexivity|]. destruct k as [|[|[|k]]]; [reflexivity|reflexivity|reflexivity|lia].
  - intros q Hq. cbn [l_o map In] in Hq. destruct k as [|[|[|k]]]; [| | |lia]; repeat (destruct Hq as [<-|Hq]; [vm_compute; split; discriminate|]); contradiction.
Qed.
Definition disk_o : disk := put_file (put_file (fun _ => None) (txt "a_t0.dat") (export_dat (option Z) show_o (fst frame_o) (snd frame_o))) (txt "a.traj")
  (show_o (Some 40%Z) ++ [tab] ++ show_o (Some 1%Z) ++ [newline] ++ txt "a_t0.dat" ++ [newline] ++ txt "_t" ++ [newline] ++ print_nat 0 ++ [tab] ++ print_nat 1 ++ [newline] ++ []).
(** Two pairs of particles in contact in two corners (distance 20 root of 3 and 40 root of 3, the diameter being 80): no bond. *)
Example C146_nan_case : exists d', all_bonds (option Z) (Some 0%Z) lt_o is0_o add_o (fun v n => div_o v (Some (Z.of_nat n * scale7)%Z)) (fun n => Some (Z.of_nat n * scale7)%Z) div_o (fun _ _ _ _ m => Some (Z.of_nat m * scale7)%Z) show_o parse_o (fun k => Some (Z.of_nat k)) grid_o one7 lib_config
    1 (txt "a.traj") disk_o = Done d' /\ d' (txt "a_t0.bonds") = Some [].
Proof.
  destruct series7 as [A1 [A2 [A3 [A4 [A5 [A6 [A7 [A8 [A9 A10]]]]]]]]].
  assert (El : positions_of (option Z) (fun v => v) grid_o frame_o = l_o) by (vm_compute; reflexivity).
  unshelve epose proof (C146_nan_refuted (option Z) (Some 0%Z) lt_o is0_o add_o (fun v n => div_o v (Some (Z.of_nat n * scale7)%Z)) (fun n => Some (Z.of_nat n * scale7)%Z) div_o (fun _ _ _ _ m => Some (Z.of_nat m * scale7)%Z) show_o parse_o (fun k => Some (Z.of_nat k)) (fun v => v) grid_o one7 lib_config
    codec_o _ eq_refl lib_config_ok eq_refl (Some 40%Z) (Some 1%Z) (txt "a_t0.dat") (txt "_t") 0 [] [frame_o] [] (txt "a") (txt "a") (txt "0") (txt "dat") A3 A4 eq_refl _ A1 A2 A5 A6 A7 A8 A9 A10 None disk_o frame_o _ _ _ eq_refl (or_introl eq_refl) _ eq_refl _ _ _ _ eq_refl 1 (le_n 1)) as X.
  - intros [[x y] z]. repeat eexists.
  - apply Forall_cons; [reflexivity|apply Forall_nil].
  - split; [reflexivity|]. intros t f E. destruct t as [|t]; [|destruct t; discriminate]. injection E as <-. exists (txt "0"). split; [split; [intros c [<-|[]]; reflexivity|split; reflexivity]|reflexivity].
  - discriminate.
  - apply Forall_cons; [|apply Forall_nil]. unfold fit_frame. rewrite El. cbv zeta. split; [discriminate|]. split.
    + intros p k Hp Hk. cbn [l_o map In] in Hp. destruct k as [|[|[|k]]]; [| | |lia]; repeat (destruct Hp as [<-|Hp]; [vm_compute; split; discriminate|]); contradiction.
    + intros k lo hi Hk Ex; destruct (extent_fun _ _ _ _ _ _ Ex (extent_o k Hk)) as [-> ->]; (split; [vm_compute; reflexivity|]).
      intros q Hq; cbn [l_o map In] in Hq; destruct k as [|[|[|k]]]; [| | |lia]; repeat (destruct Hq as [<-|Hq]; [vm_compute; split; discriminate|]); contradiction.
  - rewrite El. intros p Hp D. specialize (D 0 _ _ ltac:(lia) (extent_o 0 ltac:(lia))). cbn [l_o map In] in Hp. repeat (destruct Hp as [<-|Hp]; [vm_compute in D; destruct D as [D1 D2]; try (apply D1; reflexivity); apply D2; reflexivity|]); contradiction.
  - intros. reflexivity.
  - intros [x|]; reflexivity.
  - intros [x|]; split; reflexivity.
  - intros [x|]; split; reflexivity.
  - destruct X as [d' [E B]]. exists d'. split; [exact E|]. exact (B 0 (le_n 1)).
Qed.
Print Assumptions C146_computed. Print Assumptions C146_loaded. Print Assumptions C146_short_refuted. Print Assumptions C146_again. Print Assumptions C146_again_refuted. Print Assumptions C146_nan_refuted. Print Assumptions C146_stops. Print Assumptions C146_empty_refuted.

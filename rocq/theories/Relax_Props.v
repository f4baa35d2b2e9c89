(** C118: files of dynamics and the relaxation time. *)
Require Import String.
Require Import ZArith List Arith NArith Ascii Bool Lia.
Require Import Verif.Base Verif.Dec Verif.Traj_Model Verif.Particles_Model Verif.Dyn_Proofs Verif.Corr_Model Verif.Corr_Proofs Verif.Boo_Model Verif.Export_Model Verif.Export_Spec Verif.Export_Proofs Verif.Export_Props Verif.DynFile_Proofs Verif.Relax_Model.
Import ListNotations.
Local Open Scope nat_scope.
Local Open Scope list_scope.

(** * Specification *)
Section Spec.
  Variables (V : Type) (dflt : V) (above : V -> bool).
  (** The step t is the last one before a passage below the threshold, or the end. *)
  Definition crossing (av : list V) (t : nat) : Prop :=
    t < List.length av /\ above (nth t av dflt) = true /\ (S t = List.length av \/ above (nth (S t) av dflt) = false).
  (** The steps above the threshold are exactly those up to t. *)
  Definition last_above (av : list V) (t : nat) : Prop := t < List.length av /\ forall u, u < List.length av -> (above (nth u av dflt) = true <-> u <= t).
End Spec.

Section UB.
  Variables (V : Type) (zero : V) (above : V -> bool).
  Lemma upper_bound_ok l : forall fuel first len, len < fuel -> first + len <= List.length l ->
    (first = 0 \/ above (nth (first - 1) l zero) = false) -> (first + len = List.length l \/ above (nth (first + len) l zero) = true) ->
    let r := upper_bound V zero above fuel l first len in
    r <= List.length l /\ (r = 0 \/ above (nth (r - 1) l zero) = false) /\ (r = List.length l \/ above (nth r l zero) = true).
  Proof.
    induction fuel as [|f IH]; intros first len Hf Hl H1 H2; [lia|]. cbn [upper_bound]. destruct (Nat.eqb_spec len 0) as [->|Hn].
    - cbn zeta. rewrite Nat.add_0_r in H2. split; [lia|]. split; auto.
    - cbn zeta. assert (Hh : len / 2 < len) by (apply Nat.div_lt; lia). destruct (above (nth (first + len / 2) l zero)) eqn:E.
      + apply IH; auto; lia.
      + apply IH; try lia.
        * right. replace (first + len / 2 + 1 - 1) with (first + len / 2) by lia. auto.
        * replace (first + len / 2 + 1 + (len - len / 2 - 1)) with (first + len) by lia. auto.
  Qed.
  Lemma last_nth_x (l : list V) : l <> [] -> List.last l zero = nth (List.length l - 1) l zero.
  Proof.
    induction l as [|x l IH]; intros H; [congruence|]. destruct l as [|y l]; [reflexivity|]. change (List.last (x :: y :: l) zero) with (List.last (y :: l) zero). rewrite IH by discriminate.
    cbn [List.length]. replace (S (S (List.length l)) - 1) with (S (S (List.length l) - 1)) by lia. reflexivity.
  Qed.
  (** what loadTau makes of the values it has read *)
  Definition tau_of (av : list V) : Z :=
    let n := List.length av in
    if above (List.last av zero) then Z.of_nat (n - 1) else ((Z.of_nat (n - 1) - Z.of_nat (upper_bound V zero above (S n) (rev av) 0 n)) mod size_mod)%Z.
  Lemma tau_of_ok av : av <> [] -> (Z.of_nat (List.length av) < 2 ^ 64)%Z ->
    (exists t, tau_of av = Z.of_nat t /\ crossing V zero above av t) \/ (tau_of av = 2 ^ 64 - 1 /\ above (nth 0 av zero) = false)%Z.
  Proof.
    intros Hn Hs. unfold tau_of. set (n := List.length av) in *. assert (Hp : 0 < n) by (destruct av; [congruence|cbn in n; lia]).
    rewrite last_nth_x by auto. fold n. destruct (above (nth (n - 1) av zero)) eqn:E.
    - left. exists (n - 1). split; auto. split; [fold n; lia|]. split; auto. left. fold n. lia.
    - destruct (upper_bound_ok (rev av) (S n) 0 n) as [A [B C]]; [lia|rewrite rev_length; fold n; lia|auto|left; rewrite rev_length; reflexivity|].
      set (r := upper_bound V zero above (S n) (rev av) 0 n) in *. rewrite rev_length in A, C. fold n in A, C.
      assert (R : forall k, k < n -> nth k (rev av) zero = nth (n - 1 - k) av zero). { intros k Hk. rewrite rev_nth by (fold n; lia). fold n. f_equal. lia. }
      destruct (Nat.eq_dec r n) as [Er|Nr].
      + right. split.
        * rewrite Er. replace (Z.of_nat (n - 1) - Z.of_nat n)%Z with (-1)%Z by lia. reflexivity.
        * destruct B as [B|B]; [lia|]. rewrite R in B by lia. replace (n - 1 - (r - 1)) with 0 in B by lia. auto.
      + left. exists (n - 1 - r). assert (Hr : r < n) by lia. split.
        * rewrite Z.mod_small; [lia|]. unfold size_mod. lia.
        * destruct C as [C|C]; [lia|]. rewrite R in C by lia. split; [fold n; lia|]. split; auto. destruct B as [B|B]; [left; fold n; lia|].
          destruct (Nat.eq_dec r 0) as [E0|N0]; [left; fold n; lia|]. right. rewrite R in B by lia. replace (S (n - 1 - r)) with (n - 1 - (r - 1)) by lia. auto.
  Qed.
  Lemma tau_of_last av t : (Z.of_nat (List.length av) < 2 ^ 64)%Z -> last_above V zero above av t -> tau_of av = Z.of_nat t.
  Proof.
    intros Hs [Ht H]. destruct (tau_of_ok av) as [[u [E [Hu [A B]]]]|[E F]]; auto.
    - intros ->. cbn in Ht. lia.
    - rewrite E. f_equal. apply H in A; auto. destruct B as [B|B]; [lia|]. destruct (Nat.eq_dec u t) as [|N]; auto. assert (C : above (nth (S u) av zero) = true) by (apply H; lia). congruence.
    - assert (C : above (nth 0 av zero) = true) by (apply H; lia). congruence.
  Qed.
  Lemma tau_of_none av : av <> [] -> (Z.of_nat (List.length av) < 2 ^ 64)%Z -> (forall u, u < List.length av -> above (nth u av zero) = false) -> tau_of av = (2 ^ 64 - 1)%Z.
  Proof. intros Hn Hs H. destruct (tau_of_ok av) as [[t [E [Ht [A B]]]]|[E F]]; auto. rewrite H in A by auto. discriminate. Qed.
End UB.

Lemma nth_map_seq_x {A} (f : nat -> A) a m u d : u < m -> nth u (map f (seq a m)) d = f (a + u).
Proof. intros H. rewrite (nth_indep _ d (f 0)) by (rewrite map_length, seq_length; lia). rewrite map_nth, seq_nth by lia. reflexivity. Qed.
Section Files.
  Variables (V : Type) (zero : V) (show : V -> text) (parse : text -> option V) (rnd : V -> V) (timeof : nat -> V) (above : V -> bool).
  Hypothesis K : codec show parse rnd.

  Lemma load_isf_len : forall n s, List.length (load_isf V zero parse n s) = n.
  Proof. induction n as [|n IH]; intros s; cbn [load_isf]; auto. destruct (get_word s) as [w s1]. destruct (read_many parse 4 s1) as [vs s2]. cbn [List.length]. auto. Qed.
  Lemma load_isf_failed : forall n s, fail s = true -> load_isf V zero parse n s = repeat [zero; zero; zero; zero] n.
  Proof.
    induction n as [|n IH]; intros s F; [reflexivity|]. cbn [load_isf repeat]. unfold get_word at 1. unfold good_stream. rewrite F, andb_false_r.
    destruct (read_many_failed V parse 4 (mkStream (buf s) (eof s) true) eq_refl) as [s' [E [F' _]]]. rewrite E. rewrite IH by auto. reflexivity.
  Qed.
  Lemma load_isf_words : forall rows k s, sane s -> Forall (fun r => List.length (snd r) = 4) rows ->
    words (buf s) = flat_map (fun r : V * list V => show (fst r) :: map show (snd r)) rows ->
    load_isf V zero parse (List.length rows + k) s = map (fun r => map rnd (snd r)) rows ++ repeat [zero; zero; zero; zero] k.
  Proof.
    induction rows as [|[x vs] rows IH]; intros k s Sa H4 W.
    - cbn [List.length Nat.add map app]. destruct k as [|k]; [reflexivity|]. cbn [load_isf repeat]. cbn [flat_map] in W. destruct (get_word_none s Sa W) as [s' [G [F E]]]. rewrite G.
      destruct (read_many_failed V parse 4 s' F) as [s2 [E2 [F2 _]]]. rewrite E2. rewrite load_isf_failed by auto. reflexivity.
    - cbn [flat_map fst snd] in W. inversion H4 as [|? ? L4 H4']; subst. cbn [snd] in L4. cbn [app] in W.
      destruct (get_word_some s _ _ Sa W) as [sp [rest [E [S1 [S2 [S3 [S4 [S5 S6]]]]]]]].
      cbn [List.length Nat.add load_isf]. rewrite S6.
      destruct (read_many_ok V parse (map (fun v => (show v, rnd v)) vs) (mkStream rest (ends rest) false) (flat_map (fun r : V * list V => show (fst r) :: map show (snd r)) rows) (sane_rest rest)) as [s' [E' [Sa' [W' _]]]].
      + cbn [buf]. rewrite S4. rewrite map_map. reflexivity.
      + apply Forall_forall. intros wv I. apply in_map_iff in I as [v [<- _]]. cbn [fst snd]. apply K.
      + rewrite map_length, L4 in E'. rewrite E'. rewrite (IH k s' Sa' H4' W'). cbn [map app]. f_equal. rewrite !map_map. reflexivity.
  Qed.

  (** A file of columns of the same length. *)
  Definition row_text (cols : list (list V)) (t : nat) : text := show (timeof t) ++ flat_map (fun c => tab :: show (nth t c zero)) cols ++ [newline].
  Lemma dyn_rows_ok cols n : Forall (fun c => List.length c = n) cols -> dyn_rows V show timeof cols n = Val (flat_map (row_text cols) (seq 0 n)).
  Proof.
    intros H. unfold dyn_rows. assert (E : osequence (map (dyn_row V show timeof cols) (seq 0 n)) = Val (map (row_text cols) (seq 0 n))).
    { apply osequence_map_ok. intros t I. apply in_seq in I. unfold dyn_row. assert (E : osequence (map (fun c => at_index c t) cols) = Val (map (fun c => nth t c zero) cols)).
      { apply osequence_map_ok. intros c J. rewrite Forall_forall in H. specialize (H c J). unfold at_index. rewrite (nth_error_nth' c zero) by lia. reflexivity. }
      rewrite E. cbn [omap]. unfold row_text. do 2 f_equal. rewrite flat_map_concat_map, map_map, <- flat_map_concat_map. reflexivity. }
    rewrite E. cbn [omap]. rewrite <- flat_map_concat_map. reflexivity.
  Qed.
  Lemma show_word_x v : word (show v). Proof. apply K. Qed.
  Lemma row_words cols t l : words (row_text cols t ++ l) = (show (timeof t) :: map (fun c => show (nth t c zero)) cols) ++ words l.
  Proof.
    unfold row_text. rewrite <- !app_assoc. assert (G : forall cs x y, word x -> words (x ++ flat_map (fun c => tab :: show (nth t c zero)) cs ++ [newline] ++ y) = (x :: map (fun c => show (nth t c zero)) cs) ++ words y).
    { induction cs as [|c cs IH]; intros x y Hx.
      - cbn [flat_map app map]. rewrite words_head by (auto; reflexivity). reflexivity.
      - cbn [flat_map map]. rewrite <- app_comm_cons, <- app_comm_cons. rewrite words_head by (auto; reflexivity). rewrite <- app_assoc. rewrite IH by apply show_word_x. reflexivity. }
    apply G. apply show_word_x.
  Qed.
  Lemma rows_words_x cols ts : words (flat_map (row_text cols) ts) = flat_map (fun t => show (timeof t) :: map show (map (fun c => nth t c zero) cols)) ts.
  Proof. induction ts as [|t ts IH]; [reflexivity|]. cbn [flat_map]. rewrite row_words, IH. rewrite map_map. reflexivity. Qed.
  Lemma load_rows cols ts k s : List.length cols = 4 -> sane s -> buf s = flat_map (row_text cols) ts ->
    load_isf V zero parse (List.length ts + k) s = map (fun t => map rnd (map (fun c => nth t c zero) cols)) ts ++ repeat [zero; zero; zero; zero] k.
  Proof.
    intros H4 Sa E. rewrite <- (map_length (fun t => (timeof t, map (fun c => nth t c zero) cols)) ts). rewrite load_isf_words; auto.
    - rewrite map_map. reflexivity.
    - apply Forall_forall. intros r I. apply in_map_iff in I as [t [<- _]]. cbn [snd]. rewrite map_length. auto.
    - rewrite E, rows_words_x. rewrite !flat_map_concat_map, map_map. reflexivity.
  Qed.
  Lemma load_tau_av file n : 0 < n ->
    load_tau V zero parse above file n = Val (tau_of V zero above (map (fun r => nth 3 r zero) (load_isf V zero parse n (snd (get_line (match file with Some l => open_text l | None => mkStream [] false true end)))))).
  Proof.
    intros Hn. unfold load_tau. destruct (Nat.eqb_spec n 0) as [|_]; [lia|]. unfold tau_of. rewrite map_length, load_isf_len. destruct (above _); reflexivity.
  Qed.
  Lemma map_nth_seq_x : forall c : list V, map (fun t => nth t c zero) (seq 0 (List.length c)) = c.
  Proof. induction c as [|x c IH]; [reflexivity|]. cbn [List.length seq map nth]. f_equal. rewrite <- seq_shift, map_map. exact IH. Qed.

  (** C118.  For any file, even missing or wrong, and any positive number of steps: n values are considered (those that cannot be read are null), and the time given is a
      passage below the threshold, or the last step, or wraps to the greatest integer when the first value is already below. *)
  Theorem C118_any_file file n : 0 < n -> (Z.of_nat n < 2 ^ 64)%Z -> exists av r, List.length av = n /\ load_tau V zero parse above file n = Val r /\
    ((exists t, r = Z.of_nat t /\ crossing V zero above av t) \/ (r = 2 ^ 64 - 1 /\ above (nth 0 av zero) = false)%Z).
  Proof.
    intros Hn Hs. rewrite load_tau_av by auto. set (av := map _ _). exists av, (tau_of V zero above av). assert (L : List.length av = n) by (unfold av; rewrite map_length; apply load_isf_len).
    split; auto. split; auto. apply tau_of_ok; [|rewrite L; auto]. intros E. rewrite E in L. cbn in L. lia.
  Qed.
  (** The file written by traj2vtk and cage2vtk: the averages are read back, rounded once by the printing, so that the time is the last one above the threshold if the values
      stay below once they have passed it. *)
  Theorem C118_own_file x y z av t : av <> [] -> List.length x = List.length av -> List.length y = List.length av -> List.length z = List.length av -> (Z.of_nat (List.length av) < 2 ^ 64)%Z ->
    exists l, program_isf V show timeof [x; y; z; av] = Val l /\
      (exists r, load_tau V zero parse above (Some l) (List.length av) = Val r /\
        ((exists t, r = Z.of_nat t /\ crossing V zero above (map rnd av) t) \/ (r = 2 ^ 64 - 1 /\ above (nth 0 (map rnd av) zero) = false)%Z)) /\
      (last_above V zero above (map rnd av) t -> load_tau V zero parse above (Some l) (List.length av) = Val (Z.of_nat t)).
  Proof.
    intros Hn Lx Ly Lz Hs. unfold program_isf. cbn [at_index nth_error obind seq map osequence omap]. rewrite Lx. rewrite dyn_rows_ok by (repeat constructor; auto). cbn [omap]. eexists. split; [reflexivity|].
    set (body := flat_map _ (seq 0 (List.length av))). set (l := txt "#t" ++ _).
    assert (Hp : 0 < List.length av) by (destruct av; [congruence|cbn; lia]).
    assert (T : load_tau V zero parse above (Some l) (List.length av) = Val (tau_of V zero above (map rnd av))).
    { rewrite load_tau_av by auto. do 2 f_equal. unfold open_text. change l with ((txt "#t" ++ tab :: txt "x" ++ tab :: txt "y" ++ tab :: txt "z" ++ tab :: txt "av") ++ newline :: body). rewrite get_line_exact by reflexivity. cbn [snd].
      assert (E : load_isf V zero parse (List.length (seq 0 (List.length av)) + 0) (mkStream body false false) = map (fun t => map rnd (map (fun c => nth t c zero) [x; y; z; av])) (seq 0 (List.length av)) ++ repeat [zero; zero; zero; zero] 0).
      { apply load_rows; [reflexivity|apply (sane_open body)|reflexivity]. }
      rewrite seq_length, Nat.add_0_r in E. rewrite E. cbn [repeat]. rewrite app_nil_r, map_map. transitivity (map rnd (map (fun u => nth u av zero) (seq 0 (List.length av)))); [rewrite map_map; apply map_ext; intros u; reflexivity|rewrite map_nth_seq_x; reflexivity]. }
    split.
    - eexists. split; [exact T|]. apply tau_of_ok; [|rewrite map_length; auto]. intros E. apply Hn. destruct av; [auto|discriminate].
    - intros H. rewrite (tau_of_last V zero above (map rnd av) t) in T; auto. rewrite map_length. auto.
  Qed.

  Lemma no_newline w : word w -> forallb not_newline w = true.
  Proof.
    intros [_ H]. revert H. induction w as [|c w IH]; [reflexivity|]. cbn [forallb]. rewrite !andb_true_iff. intros [A B]. split; auto. unfold not_newline. destruct (N.eqb_spec (N_of_ascii c) 10) as [E|]; auto.
    unfold is_space in A. rewrite E in A. discriminate.
  Qed.
  Lemma row_line cols t : exists w, row_text cols t = w ++ [newline] /\ forallb not_newline w = true.
  Proof.
    unfold row_text. exists (show (timeof t) ++ flat_map (fun c => tab :: show (nth t c zero)) cols). split; [rewrite app_assoc; reflexivity|]. rewrite forallb_app, no_newline by apply show_word_x. cbn [andb].
    induction cols as [|c cols IH]; [reflexivity|]. cbn [flat_map]. rewrite <- app_comm_cons. cbn [forallb]. rewrite forallb_app, no_newline, IH by apply show_word_x. reflexivity.
  Qed.
  (** "The files of exportDynamics have the values below a line of names" fails: the line of names is not ended, the values of the first step follow on it; a reader that skips the
      first line, such as loadTau, loses them. *)
  Theorem C118_first_row_refuted msd x y z av ngp : msd <> [] -> List.length x = List.length msd -> List.length y = List.length msd -> List.length z = List.length msd -> List.length av = List.length msd -> List.length ngp = List.length msd ->
    exists lm li lg, export_dynamics1 V show timeof msd [x; y; z; av] ngp = Val (lm, li, lg) /\
      forall l cols, In (l, cols) [(lm, [msd]); (li, [x; y; z; av]); (lg, [ngp])] ->
        exists names, get_line (open_text l) = (names ++ removelast (row_text cols 0), mkStream (flat_map (row_text cols) (seq 1 (List.length msd - 1))) false false).
  Proof.
    intros Hn Lx Ly Lz La Lg. unfold export_dynamics1, export_dynamics. cbn [seq map osequence at_index nth_error omap obind flat_map app Nat.mul Nat.add].
    rewrite !dyn_rows_ok by (repeat constructor; auto). cbn [obind omap]. do 3 eexists. split; [reflexivity|].
    assert (G : forall names cols, forallb not_newline names = true -> get_line (open_text (names ++ flat_map (row_text cols) (seq 0 (List.length msd)))) =
       (names ++ removelast (row_text cols 0), mkStream (flat_map (row_text cols) (seq 1 (List.length msd - 1))) false false)).
    { intros names cols Hw. destruct (List.length msd) as [|n] eqn:E; [destruct msd; [congruence|discriminate]|]. cbn [seq flat_map]. destruct (row_line cols 0) as [w [Ew Nw]]. rewrite Ew, removelast_last.
      unfold open_text. replace (names ++ (w ++ [newline]) ++ flat_map (row_text cols) (seq 1 n)) with ((names ++ w) ++ newline :: flat_map (row_text cols) (seq 1 n)) by (rewrite <- !app_assoc; reflexivity).
      rewrite get_line_exact by (rewrite forallb_app, Hw, Nw; reflexivity). replace (S n - 1) with n by lia. reflexivity. }
    intros l cols [E|[E|[E|[]]]]; injection E as <- <-.
    - exists (txt "#t" ++ [tab]). apply (G (txt "#t" ++ [tab]) [msd]). reflexivity.
    - exists (txt "#t" ++ flat_map axis_names [[]]). apply (G (txt "#t" ++ flat_map axis_names [[]]) [x; y; z; av]). reflexivity.
    - exists (txt "#t" ++ [tab]). apply (G (txt "#t" ++ [tab]) [ngp]). reflexivity.
  Qed.
  Lemma at_index_all {A} (l : list A) : osequence (map (at_index l) (seq 0 (List.length l))) = Val l.
  Proof.
    assert (G : forall l' l0 : list A, osequence (map (at_index (l0 ++ l')) (seq (List.length l0) (List.length l'))) = Val l').
    { induction l' as [|x l' IH]; intros l0; [reflexivity|]. cbn [List.length seq map osequence]. unfold at_index at 1. rewrite nth_error_app2, Nat.sub_diag by lia. cbn [nth_error].
      specialize (IH (l0 ++ [x])). rewrite app_length in IH. cbn [List.length] in IH. rewrite Nat.add_1_r, <- app_assoc in IH. cbn [app] in IH. rewrite IH. reflexivity. }
    exact (G l []).
  Qed.
  Lemma four_columns k : flat_map (fun s => map (fun d => 4 * s + d) (seq 0 4)) (seq 0 k) = seq 0 (4 * k).
  Proof.
    induction k as [|k IH]; [reflexivity|]. replace (4 * S k) with (4 * k + 4) by lia. rewrite (seq_S k 0), flat_map_app, IH, seq_app. cbn [flat_map app]. f_equal. cbn [seq map app]. repeat (f_equal; try lia).
  Qed.
  (** Several sets: each file has one line per step with its time and the values of all the sets in their order, four for each set in the file of the ISF; before them the names of the columns. *)
  Theorem C118_several_sets names msd isf ngp c0 rest n : msd = c0 :: rest -> List.length msd = List.length names -> List.length ngp = List.length names -> List.length isf = 4 * List.length names ->
    Forall (fun c => List.length c = n) (msd ++ isf ++ ngp) ->
    let hm := txt "#t" ++ flat_map (fun x => tab :: x) names in
    let hi := txt "#t" ++ flat_map (fun x => (tab :: x ++ txt "_x") ++ (tab :: x ++ txt "_y") ++ (tab :: x ++ txt "_z") ++ (tab :: x ++ txt "_av")) names in
    export_dynamics V show timeof names msd isf ngp (List.length names) =
      Val (hm ++ flat_map (row_text msd) (seq 0 n), hi ++ flat_map (row_text isf) (seq 0 n), hm ++ flat_map (row_text ngp) (seq 0 n)).
  Proof.
    intros Em Lm Lg Li F. apply Forall_app in F. destruct F as [Fm F]. apply Forall_app in F. destruct F as [Fi Fg].
    cbv zeta.
    replace (flat_map (fun x => (tab :: x ++ txt "_x") ++ (tab :: x ++ txt "_y") ++ (tab :: x ++ txt "_z") ++ (tab :: x ++ txt "_av")) names) with (flat_map axis_names names)
      by (apply flat_map_ext; intros x; unfold axis_names; cbn [flat_map]; rewrite app_nil_r; reflexivity).
    unfold export_dynamics. rewrite four_columns.
    rewrite at_index_all. cbn [obind]. assert (E0 : at_index msd 0 = Val c0) by (rewrite Em; reflexivity). rewrite E0. cbn [obind]. cbv zeta.
    assert (Ln : List.length c0 = n) by (rewrite Em in Fm; inversion Fm; auto). rewrite Ln. rewrite <- Lm at 1. rewrite at_index_all. cbn [obind]. rewrite <- Li, at_index_all. cbn [obind]. rewrite <- Lg, at_index_all. cbn [obind].
    rewrite !dyn_rows_ok by auto. cbn [obind omap]. rewrite !app_assoc. reflexivity.
  Qed.
  (** So the relaxation time read by traj2vtk or cage2vtk in a file of the program dynamics is one step too short; and if it should be zero, it wraps to the greatest integer. *)
  Theorem C118_other_file_refuted msd x y z av ngp t : msd <> [] -> List.length x = List.length msd -> List.length y = List.length msd -> List.length z = List.length msd -> List.length av = List.length msd -> List.length ngp = List.length msd ->
    (Z.of_nat (List.length msd) < 2 ^ 64)%Z -> above zero = false -> last_above V zero above (map rnd av) t ->
    exists lm li lg, export_dynamics1 V show timeof msd [x; y; z; av] ngp = Val (lm, li, lg) /\
      load_tau V zero parse above (Some li) (List.length msd) = Val (if t =? 0 then (2 ^ 64 - 1)%Z else Z.of_nat (t - 1)).
  Proof.
    intros Hn Lx Ly Lz La Lg Hs Hz [Ht H]. rewrite map_length in Ht, H. destruct (C118_first_row_refuted msd x y z av ngp Hn Lx Ly Lz La Lg) as [lm [li [lg [E R]]]]. exists lm, li, lg. split; auto.
    destruct (R li [x; y; z; av]) as [names G]; [right; left; reflexivity|]. assert (Hp : 0 < List.length msd) by (destruct msd; [congruence|cbn; lia]). rewrite load_tau_av by auto. rewrite G. cbn [snd].
    set (n := List.length msd) in *. set (ts := seq 1 (n - 1)). replace n with (List.length ts + 1) at 1 by (unfold ts; rewrite seq_length; lia).
    rewrite (load_rows [x; y; z; av] ts 1) by (try reflexivity; apply (sane_open (flat_map (row_text [x; y; z; av]) ts))). rewrite map_app, map_map. cbn [repeat map nth].
    set (av' := map (fun u => rnd (nth u av zero)) ts ++ [zero]). assert (L : List.length av' = n) by (unfold av'; rewrite app_length, map_length; unfold ts; rewrite seq_length; cbn; lia).
    assert (N : forall u, u + 1 < n -> nth u av' zero = nth (u + 1) (map rnd av) zero).
    { intros u Hu. unfold av'. rewrite app_nth1 by (rewrite map_length; unfold ts; rewrite seq_length; lia). unfold ts. rewrite nth_map_seq_x by lia.
      rewrite (nth_indep (map rnd av) zero (rnd zero)) by (rewrite map_length; lia). rewrite map_nth. do 2 f_equal. lia. }
    assert (Nl : nth (n - 1) av' zero = zero). { unfold av'. rewrite app_nth2 by (rewrite map_length; unfold ts; rewrite seq_length; lia). rewrite map_length. unfold ts. rewrite seq_length. replace (n - 1 - (n - 1)) with 0 by lia. reflexivity. }
    f_equal. destruct (Nat.eqb_spec t 0) as [->|Nt].
    - apply tau_of_none; [intros X; rewrite X in L; cbn in L; lia|rewrite L; auto|]. rewrite L. intros u Hu. destruct (Nat.eq_dec u (n - 1)) as [->|]; [rewrite Nl; auto|]. rewrite N by lia.
      destruct (above (nth (u + 1) (map rnd av) zero)) eqn:X; auto. apply H in X; lia.
    - apply tau_of_last; [rewrite L; auto|]. split; [lia|]. rewrite L. intros u Hu. destruct (Nat.eq_dec u (n - 1)) as [->|].
      + rewrite Nl, Hz. split; [discriminate|]. intros. lia.
      + rewrite N by lia. rewrite H by lia. split; lia.
  Qed.
End Files.
(** Instance: natural numbers for doubles, threshold 36 (percent), six steps. *)
Definition ex_above (v : nat) : bool := 36 <? v.
Example C118_hypotheses_met :
  codec print_nat nparse (fun v => v) /\ last_above nat 0 ex_above [100; 80; 40; 30; 20; 10] 2 /\ ~ last_above nat 0 ex_above [100; 30; 40] 2.
Proof.
  split; [apply codec_nat|]. split.
  - split; [cbn; lia|]. intros u Hu. do 6 (destruct u as [|u]; [cbn; split; intros; [lia|reflexivity] || (split; [discriminate|lia])|]). cbn in Hu. lia.
  - intros [_ H]. specialize (H 1). cbn in H. destruct H as [_ H]; [lia|]. assert (X : 1 <= 2) by lia. apply H in X. discriminate.
Qed.
Example C118_example :
  (exists l, program_isf nat print_nat (fun t => 5 * t) [[100; 81; 41; 31; 21; 11]; [100; 79; 39; 29; 19; 9]; [100; 80; 40; 30; 20; 10]; [100; 80; 40; 30; 20; 10]] = Val l /\
     words (firstn 25 l) = [txt "#t"; txt "x"; txt "y"; txt "z"; txt "av"; txt "0"; txt "100"; txt "100"; txt "100"] /\
     load_tau nat 0 nparse ex_above (Some l) 6 = Val 2%Z) /\
  (exists lm li lg, export_dynamics1 nat print_nat (fun t => 5 * t) [0; 1; 2; 3; 4; 5] [[100; 81; 41; 31; 21; 11]; [100; 79; 39; 29; 19; 9]; [100; 80; 40; 30; 20; 10]; [100; 80; 40; 30; 20; 10]] [0; 0; 0; 0; 0; 0] = Val (lm, li, lg) /\
     words (fst (get_line (open_text lm))) = [txt "#t"; txt "0"; txt "0"] /\
     load_tau nat 0 nparse ex_above (Some li) 6 = Val 1%Z) /\
  load_tau nat 0 nparse ex_above None 6 = Val (2 ^ 64 - 1)%Z.
Proof.
  split; [|split].
  - eexists. split; [vm_compute; reflexivity|]. split; vm_compute; reflexivity.
  - do 3 eexists. split; [vm_compute; reflexivity|]. split; vm_compute; reflexivity.
  - vm_compute. reflexivity.
Qed.
Print Assumptions C118_any_file.
Print Assumptions C118_own_file.
Print Assumptions C118_first_row_refuted.
Print Assumptions C118_other_file_refuted.
Print Assumptions C118_several_sets.

(** C149: choosing a series or a channel. *)
Require Import NArith List Bool Ascii String Lia Arith.
Require Import Verif.Dec Verif.Ask_Model Verif.Ask_Spec.
Import ListNotations.
Local Open Scope N_scope.
Local Open Scope list_scope.
Local Notation length := List.length.

Lemma span_spec f l : l = fst (span_while f l) ++ snd (span_while f l) /\ Forall (fun c => f c = true) (fst (span_while f l)) /\ (forall c r, snd (span_while f l) = c :: r -> f c = false).
Proof.
  induction l as [|c l [E [F N]]]; [split; [reflexivity|split; [constructor|discriminate]]|]. cbn [span_while]. destruct (f c) eqn:Fc.
  - destruct (span_while f l) as [a b]. cbn [fst snd] in *. split; [rewrite E at 1; reflexivity|]. split; [constructor; assumption|exact N].
  - split; [reflexivity|]. split; [constructor|]. cbn [fst snd]. intros c' r E'. congruence.
Qed.
Lemma span_unique f a b : Forall (fun c => f c = true) a -> (forall c r, b = c :: r -> f c = false) -> span_while f (a ++ b) = (a, b).
Proof. intros Fa Hb. apply span_while_app; [apply forallb_forall; rewrite Forall_forall in Fa; exact Fa|]. destruct b as [|c r]; [exact I|]. exact (Hb c r eq_refl). Qed.
Lemma value_decimal ds : value_from 0 ds = decimal ds.
Proof. reflexivity. Qed.
Lemma digit_not_sign c : is_digit c = true -> is_sign c = false /\ is_space c = false.
Proof.
  intros H. split; [|apply digit_not_space; exact H]. unfold is_sign. apply orb_false_iff. split; apply Ascii.eqb_neq; intros ->; vm_compute in H; discriminate.
Qed.
Lemma is_sign_ok c : is_sign c = true <-> c = "+"%char \/ c = "-"%char.
Proof. unfold is_sign. rewrite orb_true_iff, !Ascii.eqb_eq. unfold minus, plus. change (ascii_of_N 45) with "-"%char. change (ascii_of_N 43) with "+"%char. tauto. Qed.

Definition stream_after (l : text) (f : bool) : istream := mkStream l (match l with [] => true | _ => false end) f.
Lemma skip_spaces sp l : spaces sp -> l <> [] -> (forall c r, l = c :: r -> is_space c = false) -> snd (span_while is_space (sp ++ l)) = l.
Proof. intros S _ H. rewrite (span_unique is_space sp l S H). reflexivity. Qed.
Lemma sign_of_app sign c l : sign = [] \/ sign = ["+"%char] \/ sign = ["-"%char] -> is_digit c = true -> sign_of (sign ++ c :: l) = (match sign with ["-"%char] => true | _ => false end, c :: l).
Proof. intros [->|[->| ->]] H; cbn [app sign_of]; [rewrite (proj1 (digit_not_sign c H))| |]; reflexivity. Qed.
Lemma head_app sign c l : sign = [] \/ sign = ["+"%char] \/ sign = ["-"%char] -> is_digit c = true -> exists x r, sign ++ c :: l = x :: r /\ is_space x = false.
Proof. intros [->|[->| ->]] H; cbn [app]; do 2 eexists; (split; [reflexivity|]); [apply (digit_not_sign c H)| |]; reflexivity. Qed.

Lemma extract_digits sp sign l ds rest : spaces sp -> sign = [] \/ sign = ["+"%char] \/ sign = ["-"%char] -> digits_of l ds rest ->
  extract (mkStream (sp ++ sign ++ l) false false) = if decimal ds <? 2 ^ 64 then (Some (if match sign with ["-"%char] => true | _ => false end then (2 ^ 64 - decimal ds) mod 2 ^ 64 else decimal ds), stream_after rest false) else (Some (2 ^ 64 - 1), stream_after rest true).
Proof.
  intros Hs Hg [-> [Hn [Fd Hr]]]. destruct ds as [|c ds]; [congruence|]. inversion Fd as [|c' ds' Hc Hds]; subst. cbn [app]. destruct (head_app sign c (ds ++ rest) Hg Hc) as [x [r [Ex Sx]]].
  unfold extract. cbn [good_stream eof fail negb andb buf]. rewrite skip_spaces; [|exact Hs|rewrite Ex; discriminate|intros y r' E; rewrite Ex in E; congruence].
  assert (Sg := sign_of_app sign c (ds ++ rest) Hg Hc). rewrite Ex in Sg |- *. rewrite Sg. change (c :: ds ++ rest) with ((c :: ds) ++ rest). rewrite (span_unique is_digit (c :: ds) rest Fd Hr). rewrite (value_decimal (c :: ds)). change two64 with (2 ^ 64). reflexivity.
Qed.
Lemma extract_ok l w : first_word l w -> extract (mkStream l false false) = match w with None => (None, mkStream [] true true) | Some (v, ok, rest) => (Some v, stream_after rest (negb ok)) end.
Proof.
  intros [l' Hs|sp sign l' ds rest Hs Hg Hd Hv|sp l' ds rest Hs Hd Hv|sp sign l' ds rest Hs Hg Hd Hv|sp sign l' Hs Hg Hne Hd Hn].
  - unfold extract. cbn [good_stream eof fail negb andb buf]. rewrite <- (app_nil_r l'), (span_unique is_space l' [] Hs) by discriminate. reflexivity.
  - rewrite (extract_digits sp sign l' ds rest Hs) by (try assumption; tauto). rewrite (proj2 (N.ltb_lt _ _) Hv). destruct Hg as [->| ->]; reflexivity.
  - change ("-"%char :: l') with (["-"%char] ++ l'). rewrite (extract_digits sp _ l' ds rest Hs) by (try assumption; tauto). rewrite (proj2 (N.ltb_lt _ _) Hv). reflexivity.
  - rewrite (extract_digits sp sign l' ds rest Hs Hg Hd). rewrite (proj2 (N.ltb_ge _ _) Hv). reflexivity.
  - unfold extract. cbn [good_stream eof fail negb andb buf].
    assert (Sg : exists b, sign_of (sign ++ l') = (b, l')).
    { destruct Hg as [->|[->| ->]]; cbn [app sign_of]; [|eexists; reflexivity|eexists; reflexivity]. destruct l' as [|c r]; [eexists; reflexivity|]. cbn [sign_of]. destruct (is_sign c) eqn:E; [|eexists; reflexivity].
      apply is_sign_ok in E. destruct (Hn eq_refl c r eq_refl) as [_ [N1 N2]]. tauto. }
    destruct Sg as [b Sg]. rewrite skip_spaces; [|exact Hs|exact Hne|].
    2: { intros c r E. destruct Hg as [->|[->| ->]]; cbn [app] in E; [apply (proj1 (Hn eq_refl c r E))| |]; injection E as <- _; reflexivity. }
    destruct (sign ++ l') as [|x xs] eqn:Ex; [congruence|]. rewrite Sg. replace l' with ([] ++ l') at 1 by reflexivity. rewrite (span_unique is_digit [] l' (Forall_nil _) Hd). reflexivity.
Qed.
Lemma first_word_total l : exists w, first_word l w.
Proof.
  destruct (span_spec is_space l) as [E [F N]]. set (sp := fst (span_while is_space l)) in *. set (r := snd (span_while is_space l)) in *. rewrite E. clearbody sp r. clear E l.
  destruct r as [|c r]; [exists None; apply First_none; rewrite app_nil_r; exact F|].
  assert (G : exists sign l, c :: r = sign ++ l /\ (sign = [] \/ sign = ["+"%char] \/ sign = ["-"%char]) /\ (sign = [] -> c <> "+"%char /\ c <> "-"%char)).
  { destruct (is_sign c) eqn:Sc; [apply is_sign_ok in Sc as [->| ->]; [exists ["+"%char], r|exists ["-"%char], r]; (split; [reflexivity|]); (split; [tauto|discriminate])|].
    exists [], (c :: r). split; [reflexivity|]. split; [tauto|]. intros _. split; intros ->; vm_compute in Sc; discriminate. }
  destruct G as [sign [l [Ec [Hg Hns]]]]. destruct (span_spec is_digit l) as [El [Fd Nd]]. set (ds := fst (span_while is_digit l)) in *. set (rest := snd (span_while is_digit l)) in *. clearbody ds rest.
  destruct ds as [|d ds].
  - cbn [app] in El. exists (Some (0, false, l)). rewrite Ec. apply First_other; [exact F|exact Hg|rewrite <- Ec; discriminate|intros c' r' E'; rewrite El in E'; exact (Nd c' r' E')|].
    intros -> c' r' E'. cbn [app] in Ec. assert (c = c') by congruence. subst c'. split; [exact (N c r eq_refl)|apply Hns; reflexivity].
  - assert (D : digits_of l (d :: ds) rest) by (split; [exact El|split; [discriminate|split; assumption]]). rewrite Ec.
    destruct (N.lt_ge_cases (decimal (d :: ds)) (2 ^ 64)) as [L|L]; [|exists (Some (2 ^ 64 - 1, false, rest)); eapply First_large; eassumption].
    destruct Hg as [->|[->| ->]].
    + exists (Some (decimal (d :: ds), true, rest)). apply First_number; try assumption. left. reflexivity.
    + exists (Some (decimal (d :: ds), true, rest)). apply First_number; try assumption. right. reflexivity.
    + exists (Some ((2 ^ 64 - decimal (d :: ds)) mod 2 ^ 64, true, rest)). apply First_opposite; assumption.
Qed.
Lemma first_word_unique l w w' : first_word l w -> first_word l w' -> w = w'.
Proof.
  intros H H'. apply extract_ok in H. apply extract_ok in H'. rewrite H in H'. unfold stream_after in H'.
  destruct w as [[[v ok] rest]|], w' as [[[v' ok'] rest']|]; [|congruence|congruence|reflexivity]. injection H' as -> -> _ E. destruct ok, ok'; try discriminate; reflexivity.
Qed.
Lemma first_word_shorter l v ok rest : first_word l (Some (v, ok, rest)) -> (ok = true -> (length rest < length l)%nat).
Proof.
  intros H Hok. inversion H as [|sp sign l' ds rest' Hs Hg [-> [Hn _]] Hv|sp l' ds rest' Hs [-> [Hn _]] Hv| |]; subst; try discriminate; (destruct ds; [congruence|]); cbn [List.length app]; repeat (rewrite app_length; cbn [List.length app]); lia.
Qed.
Lemma dialogue_total n l : n < 2 ^ 64 -> exists k e, dialogue n l k e.
Proof.
  intros Hn. remember (length l) as m eqn:Em. revert l Em. induction m as [m IH] using (well_founded_induction Wf_nat.lt_wf). intros l ->.
  destruct (first_word_total l) as [[[[v ok] rest]|] W]; [|exists 0%nat, No_more; apply Ended; exact W].
  destruct (N.lt_ge_cases v n) as [L|L].
  - destruct ok; [exists 0%nat, (Takes v rest); apply (Accepted n l v rest W L)|].
    assert (v = 0 \/ v = 2 ^ 64 - 1) as [->| ->] by (inversion W; subst; tauto); [exists 0%nat, Gives_up; apply (Garbage n l rest W L)|]. exfalso. change (2 ^ 64) with 18446744073709551616 in *. lia.
  - destruct ok; [|exists 1%nat, No_more; apply (Large n l v rest W L)].
    destruct (IH _ (first_word_shorter _ _ _ _ W eq_refl) rest eq_refl) as [k [e D]]. exists (S k), e. exact (Refused n l v rest k e W L D).
Qed.
Lemma dialogue_unique n l k e : dialogue n l k e -> forall k' e', dialogue n l k' e' -> k = k' /\ e = e'.
Proof.
  assert (U := first_word_unique). intros D. induction D as [l v rest W L|l v rest k e W L D IH|l rest W L|l W|l v rest W L]; intros k' e' D'; inversion D' as [l' v' rest' W' L'|l' v' rest' k2 e2 W' L' D2|l' rest' W' L'|l' W'|l' v' rest' W' L']; subst;
    specialize (U _ _ _ W W'); try discriminate; try (split; [reflexivity|congruence]); try (exfalso; assert (v = v') by congruence; lia); try (exfalso; assert (v = 0) by congruence; lia); try (exfalso; assert (v' = 0) by congruence; lia); try (split; reflexivity).
  assert (rest = rest') by congruence. subst rest'. destruct (IH _ _ D2) as [-> ->]. split; reflexivity.
Qed.

(** Nothing more is read *)
Definition over (s : istream) : Prop := good_stream s = false.
Lemma extract_over s : over s -> extract s = (None, mkStream (buf s) (eof s) true).
Proof. unfold over, extract. intros ->. reflexivity. Qed.
Lemma stuck n x : n <= x -> forall t k s, over s -> exists s', turns n t (Asking (Some x) k s) = Asking (Some x) (t + k) s'.
Proof.
  intros L. induction t as [|t IH]; intros k s O; [exists s; reflexivity|]. cbn [turns ask_once]. rewrite (extract_over s O). rewrite (proj2 (N.leb_le _ _) L). destruct (IH (S k) (mkStream (buf s) (eof s) true)) as [s' E]; [unfold over, good_stream; apply andb_false_r|].
  exists s'. rewrite E. f_equal. lia.
Qed.
(** The stream stands at the text *)
Definition stands (l : text) (s : istream) : Prop := buf s = l /\ (s = mkStream l false false \/ l = [] /\ over s).
Lemma stands_after rest : stands rest (stream_after rest false).
Proof. split; [reflexivity|]. destruct rest; [right; split; reflexivity|left; reflexivity]. Qed.
Lemma extract_stands l s w : stands l s -> first_word l w -> exists s', extract s = (match w with None => None | Some (v, _, _) => Some v end, s') /\ match w with None => over s' | Some (_, true, rest) => s' = stream_after rest false | Some (_, false, rest) => s' = stream_after rest true end.
Proof.
  intros [_ [->|[-> O]]] W.
  - rewrite (extract_ok l w W). destruct w as [[[v [|]] rest]|]; eexists; split; reflexivity.
  - rewrite (extract_over s O). assert (w = None). { apply (first_word_unique [] w None W). apply First_none. constructor. } subst w. eexists. split; [reflexivity|]. unfold over, good_stream. apply andb_false_r.
Qed.
Lemma asks n st t : turns n t st = match t with O => st | S t' => turns n t' (ask_once n st) end.
Proof. destruct t; reflexivity. Qed.
Lemma dialogue_run n l k e : n < 2 ^ 64 -> dialogue n l k e -> forall v0 k0 s, stands l s ->
  match e with
  | Takes v rest => turns n (S k) (Asking v0 k0 s) = Returned v (S k + k0) (stream_after rest false)
  | Gives_up => exists s', turns n (S k) (Asking v0 k0 s) = Returned 0 (S k + k0) s' /\ fail s' = true
  | No_more => match v0, k with
               | None, O => turns n 1 (Asking v0 k0 s) = Indeterminate (S k0)
               | Some x, O => if x <? n then exists s', turns n 1 (Asking v0 k0 s) = Returned x (S k0) s' else forall t, exists s', turns n t (Asking v0 k0 s) = Asking (Some x) (t + k0) s'
               | _, _ => forall t, exists v s', turns n t (Asking v0 k0 s) = Asking v (t + k0) s'
               end
  end.
Proof.
  intros Hn D. induction D as [l v rest W L|l v rest k e W L D IH|l rest W L|l W|l v rest W L]; intros v0 k0 s Hst; destruct (extract_stands _ _ _ Hst W) as [s' [E Hs']].
  - cbn [turns ask_once]. rewrite E. cbn [snd]. rewrite (proj2 (N.leb_gt _ _) L). rewrite Hs'. reflexivity.
  - assert (One : ask_once n (Asking v0 k0 s) = Asking (Some v) (S k0) s') by (cbn [ask_once]; rewrite E, (proj2 (N.leb_le _ _) L); reflexivity).
    assert (St : stands rest s') by (rewrite Hs'; apply stands_after). specialize (IH (Some v) (S k0) s' St).
    destruct e as [v' rest'| |]; rewrite ?(asks n _ (S (S k))), ?One.
    + rewrite IH. f_equal. lia.
    + destruct IH as [s2 [E2 F2]]. exists s2. rewrite E2. split; [f_equal; lia|exact F2].
    + assert (G : forall t, exists v s2, turns n t (Asking v0 k0 s) = Asking v (t + k0) s2).
      { destruct t as [|t]; [do 2 eexists; reflexivity|]. cbn [turns]. rewrite One. destruct k as [|k].
        - rewrite (proj2 (N.ltb_ge _ _) L) in IH. destruct (IH t) as [s2 E2]. exists (Some v), s2. rewrite E2. f_equal. lia.
        - destruct (IH t) as [v2 [s2 E2]]. exists v2, s2. rewrite E2. f_equal. lia. }
      destruct v0; exact G.
  - exists s'. cbn [turns ask_once]. rewrite E. rewrite (proj2 (N.leb_gt _ _) L). split; [reflexivity|rewrite Hs'; reflexivity].
  - destruct v0 as [x|]; [|cbn [turns ask_once]; rewrite E; reflexivity]. destruct (N.ltb_spec x n) as [L|L].
    + exists s'. cbn [turns ask_once]. rewrite E, (proj2 (N.leb_gt _ _) L). reflexivity.
    + intros [|t]; [exists s; reflexivity|]. cbn [turns ask_once]. rewrite E, (proj2 (N.leb_le _ _) L). destruct (stuck n x L t (S k0) s' Hs') as [s2 E2]. exists s2. rewrite E2. f_equal. lia.
  - assert (G : forall t, exists v s2, turns n t (Asking v0 k0 s) = Asking v (t + k0) s2).
    { intros [|t]; [do 2 eexists; reflexivity|]. cbn [turns ask_once]. rewrite E, (proj2 (N.leb_le _ _) L). destruct (stuck n v L t (S k0) s') as [s2 E2]; [rewrite Hs'; unfold over, good_stream; apply andb_false_r|]. exists (Some v), s2. rewrite E2. f_equal. lia. }
    destruct v0; exact G.
Qed.

(** How a function ends, when it starts in a status: it returns a value after some questions, leaving the input; it never ends; it uses an indeterminate value *)
Definition returns (n : N) (start : status) (v : N) (questions : nat) (s : istream) : Prop := exists t, turns n t start = Returned v questions s.
Definition never_ends (n : N) (start : status) : Prop := forall t, exists v s, turns n t start = Asking v t s.
Definition indeterminate (n : N) (start : status) : Prop := exists t q, turns n t start = Indeterminate q.

(** What is typed determines a dialogue, which tells what the functions do. *)
Theorem C149_dialogue n l : n <> 1 -> n < 2 ^ 64 -> exists k e, dialogue n l k e /\ (forall k' e', dialogue n l k' e' -> k' = k /\ e' = e) /\
  match e with
  | Takes v rest => v < n /\ forall choose, choose = choose_serie \/ choose = choose_channel -> exists s, returns n (choose n (open_text l)) v (S k) s /\ buf s = rest /\ fail s = false
  | Gives_up => forall choose, choose = choose_serie \/ choose = choose_channel -> exists s, returns n (choose n (open_text l)) 0 (S k) s /\ fail s = true
  | No_more => (k <> O -> never_ends n (choose_serie n (open_text l)) /\ never_ends n (choose_channel n (open_text l))) /\
               (k = O -> (if n =? 0 then never_ends n (choose_serie n (open_text l)) else exists s, returns n (choose_serie n (open_text l)) 0 1 s) /\ indeterminate n (choose_channel n (open_text l)))
  end.
Proof.
  intros N1 Hn. destruct (dialogue_total n l Hn) as [k [e D]]. exists k, e. split; [exact D|]. split; [intros k' e' D'; destruct (dialogue_unique _ _ _ _ D _ _ D'); split; congruence|].
  assert (St : stands l (open_text l)) by (split; [reflexivity|left; reflexivity]). assert (R := fun v0 => dialogue_run n l k e Hn D v0 0 (open_text l) St).
  assert (Ec : choose_serie n (open_text l) = Asking (Some 0) 0 (open_text l) /\ choose_channel n (open_text l) = Asking None 0 (open_text l)) by (unfold choose_serie, choose_channel; rewrite (proj2 (N.eqb_neq _ _) N1); split; reflexivity).
  destruct Ec as [E1 E2]. destruct e as [v rest| |].
  - split; [clear - D; remember (Takes v rest) as e eqn:Ee; induction D; try discriminate; [congruence|auto]|].
    intros choose [->| ->]; [rewrite E1|rewrite E2]; exists (stream_after rest false); (split; [exists (S k); rewrite R; f_equal; lia|split; reflexivity]).
  - intros choose [->| ->]; [rewrite E1; destruct (R (Some 0)) as [s [E F]]|rewrite E2; destruct (R None) as [s [E F]]]; exists s; (split; [exists (S k); rewrite E; f_equal; lia|exact F]).
  - rewrite E1, E2. split.
    + intros K. destruct k as [|k]; [congruence|]. split; intros t; [destruct (R (Some 0) t) as [v [s E]]|destruct (R None t) as [v [s E]]]; exists v, s; rewrite E; f_equal; lia.
    + intros ->. split; [|exists 1%nat, 1%nat; exact (R None)]. specialize (R (Some 0)). cbn iota beta in R. destruct (N.eqb_spec n 0) as [->|N0].
      * intros t. destruct (R t) as [s E]. exists (Some 0), s. rewrite E. f_equal. lia.
      * assert (L : 0 <? n = true) by (apply N.ltb_lt; lia). rewrite L in R. destruct R as [s E]. exists s. exists 1%nat. exact E.
Qed.

(** With one choice nothing is asked nor read. *)
Theorem C149_one s choose : choose = choose_serie \/ choose = choose_channel -> returns 1 (choose 1 s) 0 0 s.
Proof. intros [->| ->]; exists 0%nat; reflexivity. Qed.
(** The questions written; the largest choice announced is right if there is one. *)
Theorem C149_question what n k : n < 2 ^ 64 -> asked what n k = List.concat (repeat (list_ascii_of_string "Chose a " ++ what ++ list_ascii_of_string " between 0 and " ++ print_N (if n =? 0 then 2 ^ 64 - 1 else n - 1) ++ list_ascii_of_string ": ") k).
Proof.
  intros H. unfold asked, question. change two64 with (2 ^ 64). replace ((n + 2 ^ 64 - 1) mod 2 ^ 64) with (if n =? 0 then 2 ^ 64 - 1 else n - 1); [reflexivity|]. destruct (N.eqb_spec n 0) as [->|N0]; [reflexivity|].
  replace (n + 2 ^ 64 - 1) with (n - 1 + 1 * 2 ^ 64) by lia. rewrite N.mod_add by discriminate. symmetry. apply N.mod_small. lia.
Qed.
(** After an answer that was not a number, or at the end of the input: the first series whatever follows, and an indeterminate channel. *)
Theorem C149_after n s : 2 <= n -> eof s = true \/ fail s = true -> (exists s', returns n (choose_serie n s) 0 1 s' /\ buf s' = buf s) /\ indeterminate n (choose_channel n s).
Proof.
  intros H O. assert (Ov : over s) by (unfold over, good_stream; destruct O as [-> | ->]; [reflexivity|apply andb_false_r]). unfold choose_serie, choose_channel. rewrite (proj2 (N.eqb_neq n 1)) by lia. split.
  - eexists. split; [exists 1%nat; cbn [turns ask_once]; rewrite (extract_over s Ov), (proj2 (N.leb_gt n 0)) by lia; reflexivity|reflexivity].
  - exists 1%nat, 1%nat. cbn [turns ask_once]. rewrite (extract_over s Ov). reflexivity.
Qed.
(** Without any series the question is asked for ever, whatever is typed. *)
Theorem C149_empty_refuted l : never_ends 0 (choose_serie 0 (open_text l)).
Proof.
  destruct (C149_dialogue 0 l) as [k [e [D [_ H]]]]; [discriminate|reflexivity|]. destruct e as [v rest| |].
  - destruct H as [L _]. lia.
  - exfalso. remember Gives_up as e eqn:Ee. clear H. induction D; try discriminate; auto.
  - destruct H as [H1 H2]. destruct k as [|k]; [exact (proj1 (H2 eq_refl))|apply H1; discriminate].
Qed.
(** The first answer that is a number of a series, the ones before being too large, is returned. *)
Definition typed (l : list N) (rest : text) : text := flat_map (fun v => print_N v ++ [newline]) l ++ rest.
Lemma first_typed v rest : v < 2 ^ 64 -> first_word (print_N v ++ newline :: rest) (Some (v, true, newline :: rest)).
Proof.
  intros H. destruct (print_N_ok v) as [Hne [Hd Hv]]. rewrite value_decimal in Hv. rewrite <- Hv at 2. apply (First_number [] [] _ (print_N v)); [constructor|left; reflexivity| |rewrite Hv; exact H].
  split; [reflexivity|]. split; [exact Hne|]. split; [apply Forall_forall; apply forallb_forall; exact Hd|]. intros c r E. assert (c = newline) by congruence. subst c. reflexivity.
Qed.
Lemma first_space c l w : is_space c = true -> first_word l w -> first_word (c :: l) w.
Proof.
  intros Hc [l' Hs|sp sign l' ds rest Hs Hg Hd Hv|sp l' ds rest Hs Hd Hv|sp sign l' ds rest Hs Hg Hd Hv|sp sign l' Hs Hg Hne Hd Hn].
  - apply First_none. constructor; assumption.
  - apply (First_number (c :: sp)); try assumption. constructor; assumption.
  - apply (First_opposite (c :: sp)); try assumption. constructor; assumption.
  - apply (First_large (c :: sp) sign l' ds); try assumption. constructor; assumption.
  - apply (First_other (c :: sp)); try assumption. constructor; assumption.
Qed.
Lemma dialogue_space n c l k e : is_space c = true -> dialogue n l k e -> dialogue n (c :: l) k e.
Proof.
  intros Hc D. inversion D as [l' v' rest' W' L'|l' v' rest' k2 e2 W' L' D2|l' rest' W' L'|l' W'|l' v' rest' W' L']; subst.
  - eapply Accepted; [apply first_space; eassumption|assumption].
  - eapply Refused; [apply first_space; eassumption|assumption|assumption].
  - eapply Garbage; [apply first_space; eassumption|assumption].
  - eapply Ended. apply first_space; assumption.
  - eapply Large; [apply first_space; eassumption|assumption].
Qed.
Lemma dialogue_typed n l rest k e : Forall (fun v => n <= v < 2 ^ 64) l -> dialogue n rest k e -> dialogue n (typed l rest) (length l + k) e.
Proof.
  intros F D. induction F as [|v l [L H] F IH]; [exact D|]. unfold typed in *. cbn [flat_map List.length Nat.add]. rewrite <- !app_assoc. cbn [app]. apply (Refused n _ v (newline :: flat_map (fun v => print_N v ++ [newline]) l ++ rest)); [apply first_typed; exact H|exact L|]. apply dialogue_space; [reflexivity|exact IH].
Qed.
Theorem C149_answer n refused v more choose : n <> 1 -> n < 2 ^ 64 -> Forall (fun v => n <= v < 2 ^ 64) refused -> v < n -> choose = choose_serie \/ choose = choose_channel ->
  exists s, returns n (choose n (open_text (typed (refused ++ [v]) more))) v (S (length refused)) s /\ buf s = newline :: more /\ fail s = false.
Proof.
  intros N1 Hn F L Hc. assert (D : dialogue n (typed (refused ++ [v]) more) (length refused) (Takes v (newline :: more))).
  { unfold typed. rewrite flat_map_app. cbn [flat_map]. rewrite app_nil_r, <- !app_assoc. cbn [app]. rewrite <- (Nat.add_0_r (length refused)). apply (dialogue_typed n refused (print_N v ++ newline :: more) 0 (Takes v (newline :: more)) F). apply Accepted; [apply first_typed; lia|exact L]. }
  destruct (C149_dialogue n (typed (refused ++ [v]) more) N1 Hn) as [k [e [_ [U H]]]]. destruct (U _ _ D) as [<- <-]. exact (proj2 H choose Hc).
Qed.
(** Answers that are all too large, then the end of the input: the question is asked for ever. *)
Theorem C149_end_refuted n refused choose : n <> 1 -> n < 2 ^ 64 -> refused <> [] -> Forall (fun v => n <= v < 2 ^ 64) refused -> choose = choose_serie \/ choose = choose_channel -> never_ends n (choose n (open_text (typed refused []))).
Proof.
  intros N1 Hn Ne F Hc. assert (D : dialogue n (typed refused []) (length refused + 0) No_more) by (apply dialogue_typed; [exact F|apply Ended, First_none; constructor]).
  destruct (C149_dialogue n (typed refused []) N1 Hn) as [k [e [_ [U H]]]]. destruct (U _ _ D) as [<- <-]. destruct refused as [|v l]; [congruence|]. destruct H as [H _]. destruct H as [H1 H2]; [discriminate|]. destruct Hc as [->| ->]; assumption.
Qed.
(** An answer that starts with a letter is taken for 0 without a word. *)
Theorem C149_letter_refuted n refused c more choose : n <> 1 -> 0 < n < 2 ^ 64 -> Forall (fun v => n <= v < 2 ^ 64) refused -> is_digit c = false -> is_space c = false -> c <> "+"%char -> c <> "-"%char -> choose = choose_serie \/ choose = choose_channel ->
  exists s, returns n (choose n (open_text (typed refused (c :: more)))) 0 (S (length refused)) s /\ fail s = true.
Proof.
  intros N1 [H0 Hn] F Hd Hs Np Nm Hc. assert (D : dialogue n (typed refused (c :: more)) (length refused + 0) Gives_up).
  { apply dialogue_typed; [exact F|]. apply (Garbage n _ (c :: more)); [|exact H0]. apply (First_other [] []); [constructor|tauto|discriminate|congruence|]. intros _ c' r E. assert (c = c') by congruence. subst c'. tauto. }
  destruct (C149_dialogue n (typed refused (c :: more)) N1 Hn) as [k [e [_ [U H]]]]. destruct (U _ _ D) as [E <-]. rewrite Nat.add_0_r in E. subst k. exact (H choose Hc).
Qed.
(** Three series: 7 then 2 is typed; then "two"; then only 7; "-1" is refused, but the opposite of 2^64-1 is 1. *)
Definition typed_text (s : string) : text := list_ascii_of_string s.
Example C149_case : (exists s, returns 3 (choose_serie 3 (open_text (typed [7; 2] []))) 2 2 s) /\ (exists s, returns 3 (choose_serie 3 (open_text (typed [7] (typed_text "two")))) 0 2 s) /\ never_ends 3 (choose_serie 3 (open_text (typed [7] []))) /\
  (exists s, returns 3 (choose_serie 3 (open_text [])) 0 1 s) /\ (exists s, returns 3 (choose_serie 3 (open_text (typed_text "-1 -18446744073709551615"))) 1 2 s) /\ indeterminate 3 (choose_channel 3 (open_text [])) /\
  never_ends 3 (choose_channel 3 (open_text (typed_text "18446744073709551616 1"))).
Proof.
  split; [destruct (C149_answer 3 [7] 2 [] choose_serie) as [s [H _]]; [discriminate|reflexivity|repeat constructor; discriminate|reflexivity|tauto|exists s; exact H]|].
  split; [destruct (C149_letter_refuted 3 [7] "t"%char (typed_text "wo") choose_serie) as [s [H _]]; [discriminate|split; reflexivity|repeat constructor; discriminate|reflexivity|reflexivity|discriminate|discriminate|tauto|exists s; exact H]|].
  split; [apply C149_end_refuted; [discriminate|reflexivity|discriminate|repeat constructor; discriminate|tauto]|].
  split; [eexists; exists 1%nat; vm_compute; reflexivity|]. split; [eexists; exists 2%nat; vm_compute; reflexivity|]. split; [exists 1%nat, 1%nat; vm_compute; reflexivity|].
  destruct (C149_dialogue 3 (typed_text "18446744073709551616 1")) as [k [e [_ [U H]]]]; [discriminate|reflexivity|].
  assert (D : dialogue 3 (typed_text "18446744073709551616 1") 1 No_more).
  { apply (Large 3 _ (2 ^ 64 - 1) (typed_text " 1")); [|vm_compute; discriminate]. apply (First_large [] [] (typed_text "18446744073709551616 1") (typed_text "18446744073709551616") (typed_text " 1")); [constructor|tauto| |vm_compute; discriminate].
    split; [reflexivity|]. split; [intros X; vm_compute in X; discriminate|]. split; [repeat constructor|]. intros c r E. assert (c = " "%char) by (cbv in E; congruence). subst c. reflexivity. }
  destruct (U _ _ D) as [<- <-]. destruct H as [H _]. apply H. discriminate.
Qed.
Print Assumptions C149_dialogue. Print Assumptions C149_one. Print Assumptions C149_question. Print Assumptions C149_after. Print Assumptions C149_empty_refuted. Print Assumptions C149_answer. Print Assumptions C149_end_refuted. Print Assumptions C149_letter_refuted.

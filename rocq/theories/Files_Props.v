(** C54: names of the files of a series. *)
Require Import List Arith NArith Ascii Bool Lia.
Require Import Verif.Dec Verif.Traj_Model Verif.Files_Model Verif.Files_Spec Verif.Files_Proofs.
Import ListNotations.
Local Open Scope nat_scope.

Section Names.
  (** A pattern: what precedes the last occurrence of the token, the token, digits, and the rest. *)
  Variables (tok name head ds tail : text) (size : nat) (off : N).
  Hypothesis Hs : splits tok name head (ds ++ tail).
  Hypothesis Hd : numeral ds.
  Hypothesis Ht : no_digit_first tail.
  Hypothesis Hp : no_percent name.
  Let fs0 := mkSerie (head ++ tok) (length ds) tail tok size off.
  Lemma fs0_ok : file_serie name tok size off = Val fs0.
  Proof. apply file_serie_ok; auto. destruct Hs as [-> _]. rewrite !no_percent_app in *. tauto. Qed.
  Lemma step_ok (t : N) : (t + off < 2 ^ 64)%N -> step_name fs0 t = head ++ tok ++ pad (length ds) (t + off) ++ tail.
  Proof. intros H. unfold step_name, print_serie, fs0. cbn [offset before width after]. rewrite N.mod_small by exact H. rewrite <- app_assoc. auto. Qed.

  (** C54.  The name of step t is the pattern with its digits replaced by t+offset, completed with zeros. *)
  Theorem C54_names : exists fs, file_serie name tok size off = Val fs /\
    forall t, (t + off < 2 ^ 64)%N -> exists s, writes (length ds) (t + off) s /\ step_name fs t = head ++ tok ++ s ++ tail.
  Proof. exists fs0. split; [apply fs0_ok|]. intros t H. exists (pad (length ds) (t + off)). split; [apply pad_writes|apply step_ok; auto]. Qed.
  (** The step whose number is that of the pattern has the pattern for name. *)
  Theorem C54_own_name t : ds <> [] -> value_from 0 ds = (t + off)%N -> (t + off < 2 ^ 64)%N -> exists fs, file_serie name tok size off = Val fs /\ step_name fs t = name.
  Proof.
    intros Hne Hv H. exists fs0. split; [apply fs0_ok|]. rewrite step_ok by auto. destruct Hs as [-> _]. f_equal. f_equal. f_equal. apply (writes_fun (length ds) (t + off)); [apply pad_writes|]. split; auto. split; auto.
    assert (length (print_N (t + off)) <= length ds) by (apply print_N_len; auto). lia.
  Qed.
  (** Any name of the series is a pattern of the same series, if the token has no digit and the number holds in the digits. *)
  Theorem C54_parse_back t : digit_free tok -> (t + off < 2 ^ 64)%N -> length (print_N (t + off)) <= length ds ->
    exists fs, file_serie name tok size off = Val fs /\ file_serie (step_name fs t) tok size off = Val fs.
  Proof.
    intros Hf H Hl. exists fs0. split; [apply fs0_ok|]. rewrite step_ok by auto. assert (W := pad_writes (length ds) (t + off)). assert (L := writes_len _ _ _ W). destruct W as [W1 [W2 W3]].
    rewrite (file_serie_ok tok _ head (pad (length ds) (t + off)) tail).
    - unfold fs0. f_equal. f_equal. lia.
    - apply splits_digits; auto; [destruct (pad (length ds) (t + off)); [cbn in L; lia|discriminate]|]. destruct Hs as [E M]. apply (splits_absent tok head ds); [apply Hf|rewrite <- E; split; auto].
    - auto.
    - auto.
    - destruct Hs as [E _]. rewrite E in Hp. rewrite !no_percent_app in *. tauto.
  Qed.
  (** changeExt replaces what follows the last dot of the tail. *)
  Theorem C54_change_ext tl e ext : digit_free tok -> tail = tl ++ ["."%char] ++ e -> ~ In "."%char e -> no_digit_first (tl ++ ext) -> absent tok (tl ++ ext) -> no_percent ext ->
    exists fs fs', file_serie name tok size off = Val fs /\ change_ext fs ext = Val fs' /\
      forall t, (t + off < 2 ^ 64)%N -> exists s, writes (length ds) (t + off) s /\ step_name fs' t = head ++ tok ++ s ++ tl ++ ext.
  Proof.
    change "."%char with dot in *.
    intros Hf Etl He Hnd Ha Hpe. assert (W := pad_writes (length ds) 0). assert (L := writes_len _ _ _ W). destruct W as [W1 [W2 W3]]. rewrite print_0_len in W3.
    exists fs0, (mkSerie (head ++ tok) (Nat.max (length ds) 1) (tl ++ ext) tok size off). split; [apply fs0_ok|]. split.
    - unfold change_ext, print_serie, fs0. cbn [before width after token nsteps offset]. rewrite Etl. replace ((head ++ tok) ++ pad (length ds) 0 ++ tl ++ [dot] ++ e) with ((head ++ tok ++ pad (length ds) 0 ++ tl) ++ [dot] ++ e) by (rewrite <- !app_assoc; auto).
      rewrite cut_ext_ok by auto. replace ((head ++ tok ++ pad (length ds) 0 ++ tl) ++ ext) with (head ++ tok ++ pad (length ds) 0 ++ (tl ++ ext)) by (rewrite <- !app_assoc; auto).
      rewrite (file_serie_ok tok _ head (pad (length ds) 0) (tl ++ ext)); [rewrite W3; auto| |auto|auto|].
      + apply splits_digits; auto. destruct (pad (length ds) 0); [cbn in L; lia|discriminate].
      + destruct Hs as [E _]. rewrite E, Etl in Hp. rewrite !no_percent_app in *. tauto.
    - intros t H. exists (pad (Nat.max (length ds) 1) (t + off)). split; [apply writes_max1, pad_writes|]. unfold step_name, print_serie. cbn [before width after offset]. rewrite N.mod_small by exact H. rewrite <- app_assoc. auto.
  Qed.
  (** addPostfix inserts just before the token; with an extension, it also changes it; head is what precedes the token. *)
  Lemma name0_splits : digit_free tok -> splits tok (head ++ tok ++ pad (length ds) 0 ++ tail) head (pad (length ds) 0 ++ tail).
  Proof.
    intros Hf. assert (W := pad_writes (length ds) 0). assert (L := writes_len _ _ _ W). apply splits_digits; auto; [destruct (pad (length ds) 0); [cbn in L; lia|discriminate]|apply W|]. destruct Hs as [E M]. apply (splits_absent tok head ds); [apply Hf|rewrite <- E; split; auto].
  Qed.
  Lemma insert_ok postfix : digit_free tok -> insert_postfix fs0 postfix = Val ((head ++ postfix) ++ tok ++ pad (length ds) 0 ++ tail).
  Proof.
    intros Hf. unfold insert_postfix, print_serie, fs0. cbn [before width after token]. rewrite <- app_assoc. rewrite (rfind_splits _ _ _ _ (name0_splits Hf)). f_equal.
    rewrite firstn_app, firstn_all, Nat.sub_diag. rewrite skipn_app, skipn_all, Nat.sub_diag. cbn [firstn skipn app]. rewrite app_nil_r, <- !app_assoc. auto.
  Qed.
  Theorem C54_add_postfix postfix : digit_free tok -> no_percent postfix ->
    exists fs fs', file_serie name tok size off = Val fs /\ add_postfix fs postfix = Val fs' /\
      forall t, (t + off < 2 ^ 64)%N -> exists s, writes (length ds) (t + off) s /\ step_name fs' t = head ++ postfix ++ tok ++ s ++ tail.
  Proof.
    intros Hf Hpp. assert (W := pad_writes (length ds) 0). assert (L := writes_len _ _ _ W). destruct W as [W1 [W2 W3]]. rewrite print_0_len in W3. assert (E := proj1 Hs).
    exists fs0, (mkSerie ((head ++ postfix) ++ tok) (Nat.max (length ds) 1) tail tok size off). split; [apply fs0_ok|]. split.
    - unfold add_postfix. rewrite insert_ok by auto. rewrite (file_serie_ok tok _ (head ++ postfix) (pad (length ds) 0) tail); [rewrite W3; auto| |auto|auto|].
      + apply splits_digits; auto; [destruct (pad (length ds) 0); [cbn in L; lia|discriminate]|]. apply (splits_absent tok head ds); [apply Hf|rewrite <- E; auto].
      + rewrite E in Hp. rewrite !no_percent_app in *. tauto.
    - intros t H. exists (pad (Nat.max (length ds) 1) (t + off)). split; [apply writes_max1, pad_writes|]. unfold step_name, print_serie. cbn [before width after offset]. rewrite N.mod_small by exact H. rewrite <- !app_assoc. auto.
  Qed.
  Theorem C54_add_postfix_ext postfix tl e ext : digit_free tok -> no_percent postfix -> tail = tl ++ ["."%char] ++ e -> ~ In "."%char e -> no_digit_first (tl ++ ext) -> absent tok (tl ++ ext) -> no_percent ext ->
    exists fs fs', file_serie name tok size off = Val fs /\ add_postfix_ext fs postfix ext = Val fs' /\
      forall t, (t + off < 2 ^ 64)%N -> exists s, writes (length ds) (t + off) s /\ step_name fs' t = head ++ postfix ++ tok ++ s ++ tl ++ ext.
  Proof.
    change "."%char with dot in *.
    intros Hf Hpp Etl He Hnd Ha Hpe. assert (W := pad_writes (length ds) 0). assert (L := writes_len _ _ _ W). destruct W as [W1 [W2 W3]]. rewrite print_0_len in W3. assert (E := proj1 Hs).
    exists fs0, (mkSerie ((head ++ postfix) ++ tok) (Nat.max (length ds) 1) (tl ++ ext) tok size off). split; [apply fs0_ok|]. split.
    - unfold add_postfix_ext. rewrite insert_ok by auto. rewrite Etl. replace ((head ++ postfix) ++ tok ++ pad (length ds) 0 ++ tl ++ [dot] ++ e) with (((head ++ postfix) ++ tok ++ pad (length ds) 0 ++ tl) ++ [dot] ++ e) by (rewrite <- !app_assoc; auto).
      rewrite cut_ext_ok by auto. replace (((head ++ postfix) ++ tok ++ pad (length ds) 0 ++ tl) ++ ext) with ((head ++ postfix) ++ tok ++ pad (length ds) 0 ++ (tl ++ ext)) by (rewrite <- !app_assoc; auto).
      rewrite (file_serie_ok tok _ (head ++ postfix) (pad (length ds) 0) (tl ++ ext)); [rewrite W3; auto| |auto|auto|].
      + apply splits_digits; auto. destruct (pad (length ds) 0); [cbn in L; lia|discriminate].
      + rewrite E, Etl in Hp. rewrite !no_percent_app in *. tauto.
    - intros t H. exists (pad (Nat.max (length ds) 1) (t + off)). split; [apply writes_max1, pad_writes|]. unfold step_name, print_serie. cbn [before width after offset]. rewrite N.mod_small by exact H. rewrite <- !app_assoc. auto.
  Qed.
  Theorem C54_head : digit_free tok -> exists fs, file_serie name tok size off = Val fs /\ serie_head fs = Val head.
  Proof.
    intros Hf. exists fs0. split; [apply fs0_ok|]. unfold serie_head, print_serie, fs0. cbn [before width after token]. rewrite <- app_assoc. rewrite (rfind_splits _ _ _ _ (name0_splits Hf)). rewrite firstn_app, firstn_all, Nat.sub_diag. cbn. rewrite app_nil_r. auto.
  Qed.
  (** A dot in the directory and none in the tail: changeExt cuts the name before the token and throws. *)
  Theorem C54_dot_in_head_refuted h1 h2 ext : head = h1 ++ ["."%char] ++ h2 -> ~ In "."%char h2 -> ~ In "."%char tok -> ~ In "."%char tail -> absent tok (h1 ++ ext) ->
    exists fs, file_serie name tok size off = Val fs /\ change_ext fs ext = Throw.
  Proof.
    change "."%char with dot in *.
    intros Eh H2 Htk Htl Ha. exists fs0. split; [apply fs0_ok|]. unfold change_ext, print_serie, fs0. cbn [before width after token nsteps offset]. rewrite Eh.
    replace (((h1 ++ [dot] ++ h2) ++ tok) ++ pad (length ds) 0 ++ tail) with (h1 ++ [dot] ++ (h2 ++ tok ++ pad (length ds) 0 ++ tail)) by (rewrite <- !app_assoc; auto).
    rewrite cut_ext_ok; [|rewrite !in_app_iff; intros [H|[H|[H|H]]]; auto; revert H; apply numeral_no_dot, pad_writes]. unfold file_serie. rewrite (proj2 (rfind_none tok _)) by auto. auto.
  Qed.
End Names.

(** Distinct steps have distinct names. *)
Theorem C54_distinct name tok size off fs t t' : file_serie name tok size off = Val fs -> (t + off < 2 ^ 64)%N -> (t' + off < 2 ^ 64)%N -> step_name fs t = step_name fs t' -> t = t'.
Proof.
  intros E H H' En. assert (O : offset fs = off).
  { unfold file_serie in E. destruct (rfind tok name); [|discriminate]. destruct (span_while is_digit _) as [d tl]. destruct tl; [discriminate|]. destruct (existsb _ _); [discriminate|]. injection E as <-. auto. }
  unfold step_name, print_serie in En. rewrite O in En. rewrite !N.mod_small in En by auto. apply app_inv_head in En. apply app_inv_tail in En.
  destruct (pad_writes (width fs) (t + off)) as [_ [V _]]. destruct (pad_writes (width fs) (t' + off)) as [_ [V' _]]. rewrite En in V. lia.
Qed.
(** A pattern that ends with its digits is refused. *)
Theorem C54_no_extension_refuted tok name head ds size off : splits tok name head ds -> numeral ds -> file_serie name tok size off = Throw.
Proof. apply file_serie_throw. Qed.
Lemma default_digit_free : digit_free default_token.
Proof. split; [discriminate|]. intros c [<-|[<-|[]]]; reflexivity. Qed.
Lemma get0th_zeros size : exists k, 0 < k /\ forall prefix tok, get0th prefix size tok = prefix ++ default_token ++ repeat zero_char k.
Proof. exists (Nat.max (length (print_N ((size + two64 - 1) mod two64))) 1). split; [lia|]. reflexivity. Qed.
Lemma zeros_numeral k : numeral (repeat zero_char k).
Proof. intros c H. apply repeat_spec in H. subst. reflexivity. Qed.
(** In particular what get0th returns is not a pattern. *)
Theorem C54_get0th_refuted prefix size tok n off : file_serie (get0th prefix size tok) ["_"; "t"]%char n off = Throw.
Proof.
  change ["_"; "t"]%char with default_token in *.
  destruct (get0th_zeros size) as [k [Hk E]]. rewrite E. apply (file_serie_throw _ _ prefix (repeat zero_char k)); [|apply zeros_numeral]. 
  assert (S := splits_digits default_token prefix (repeat zero_char k) [] default_digit_free). rewrite !app_nil_r in S. apply S; [destruct k; [lia|discriminate]|apply zeros_numeral|]. intros h r H. destruct h; discriminate.
Qed.
(** With an extension added it is: then the names of the steps below size all have the same length. *)
Theorem C54_get0th prefix size tok ext n : (0 < size <= 2 ^ 64)%N -> no_percent prefix -> no_percent ext -> no_digit_first ext -> absent ["_"; "t"]%char ext ->
  exists fs, file_serie (get0th prefix size tok ++ ext) ["_"; "t"]%char n 0 = Val fs /\
    forall t, (t < size)%N -> exists s, numeral s /\ value_from 0 s = t /\ length s = length (print_N (size - 1)) /\ step_name fs t = prefix ++ ["_"; "t"]%char ++ s ++ ext.
Proof.
  change ["_"; "t"]%char with default_token in *.
  intros Hs Hp Hpe Hd Ha. unfold get0th. replace ((size + two64 - 1) mod two64)%N with (size - 1)%N.
  2: { replace (size + two64 - 1)%N with ((size - 1) + 1 * two64)%N by lia. rewrite N.mod_add by discriminate. symmetry. apply N.mod_small. change two64 with (2 ^ 64)%N. lia. }
  destruct (print_N_numeral (size - 1)) as [_ [_ L]]. set (k := length (print_N (size - 1))) in *. replace (Nat.max k 1) with k by lia.
  replace ((prefix ++ default_token ++ repeat zero_char k) ++ ext) with (prefix ++ default_token ++ repeat zero_char k ++ ext) by (rewrite <- !app_assoc; auto).
  destruct (C54_names default_token (prefix ++ default_token ++ repeat zero_char k ++ ext) prefix (repeat zero_char k) ext n 0) as [fs [E F]]; auto.
  - apply splits_digits; auto; [apply default_digit_free|destruct k; [lia|discriminate]|apply zeros_numeral].
  - apply zeros_numeral.
  - rewrite !no_percent_app. repeat split; auto; [intros [H|[H|[]]]; discriminate|apply numeral_no_percent, zeros_numeral].
  - exists fs. split; auto. intros t Ht. destruct (F t) as [s [[W1 [W2 W3]] Es]]; [lia|]. rewrite N.add_0_r in *. exists s. repeat (split; auto). rewrite repeat_length in W3. assert (length (print_N t) <= k) by (apply print_N_len_le; lia). lia.
Qed.

(** A concrete case: "a_t007.dat" with token "_t"; "./d_t00_b", token "_t". *)
Definition chars (l : list N) : text := map ascii_of_N l.
Definition ex_name : text := chars [97; 95; 116; 48; 48; 55; 46; 100; 97; 116]%N.
Definition ex_series : serie := mkSerie (chars [97; 95; 116]%N) 3 (chars [46; 100; 97; 116]%N) default_token 5 2%N.
Example C54_case :
  splits default_token ex_name (chars [97]%N) (chars [48; 48; 55]%N ++ chars [46; 100; 97; 116]%N) /\ numeral (chars [48; 48; 55]%N) /\ no_digit_first (chars [46; 100; 97; 116]%N) /\ no_percent ex_name /\
  file_serie ex_name default_token 5 2%N = Val ex_series /\ step_name ex_series 5%N = ex_name /\
  step_name ex_series 1010%N = chars [97; 95; 116; 49; 48; 49; 50; 46; 100; 97; 116]%N /\
  (exists fs, change_ext ex_series (chars [46; 116; 120; 116]%N) = Val fs /\ step_name fs 5%N = chars [97; 95; 116; 48; 48; 55; 46; 116; 120; 116]%N) /\
  (exists fs, add_postfix ex_series (chars [95; 98]%N) = Val fs /\ step_name fs 5%N = chars [97; 95; 98; 95; 116; 48; 48; 55; 46; 100; 97; 116]%N) /\
  file_serie (chars [46; 47; 100; 95; 116; 48; 48; 95; 98]%N) default_token 5 0%N = Val (mkSerie (chars [46; 47; 100; 95; 116]%N) 2 (chars [95; 98]%N) default_token 5 0%N) /\
  change_ext (mkSerie (chars [46; 47; 100; 95; 116]%N) 2 (chars [95; 98]%N) default_token 5 0%N) (chars [46; 120]%N) = Throw /\
  get0th (chars [97]%N) 101%N default_token = chars [97; 95; 116; 48; 48; 48]%N.
Proof.
  split.
  { apply (splits_digits default_token (chars [97]%N) (chars [48; 48; 55]%N) (chars [46; 100; 97; 116]%N) default_digit_free); [discriminate|apply forallb_numeral; reflexivity|].
    apply rfind_none. reflexivity. }
  split; [apply forallb_numeral; reflexivity|]. split; [eexists; eexists; split; reflexivity|]. split; [apply no_percent_iff; reflexivity|].
  split; [reflexivity|]. split; [reflexivity|]. split; [reflexivity|]. split; [eexists; split; reflexivity|]. split; [eexists; split; reflexivity|]. repeat split.
Qed.

Print Assumptions C54_names.
Print Assumptions C54_own_name.
Print Assumptions C54_parse_back.
Print Assumptions C54_change_ext.
Print Assumptions C54_add_postfix.
Print Assumptions C54_add_postfix_ext.
Print Assumptions C54_head.
Print Assumptions C54_dot_in_head_refuted.
Print Assumptions C54_distinct.
Print Assumptions C54_no_extension_refuted.
Print Assumptions C54_get0th_refuted.
Print Assumptions C54_get0th.

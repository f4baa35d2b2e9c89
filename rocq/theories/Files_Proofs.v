(** Proofs about names of files. *)
Require Import List Arith NArith Ascii Bool Lia.
Require Import Verif.Dec Verif.Traj_Model Verif.Files_Model Verif.Files_Spec.
Import ListNotations.
Local Open Scope nat_scope.

Lemma prefixb_iff : forall tok s, prefixb tok s = true <-> exists r, s = tok ++ r.
Proof.
  induction tok as [|c tok IH]; intros s; simpl.
  - split; eauto.
  - destruct s as [|d s]; [split; [discriminate|intros [r H]; discriminate]|]. rewrite andb_true_iff, IH. split.
    + intros [E [r ->]]. apply Ascii.eqb_eq in E. subst. eauto.
    + intros [r H]. injection H as -> ->. split; [apply Ascii.eqb_refl|eauto].
Qed.
Lemma rfind_some tok : forall s p, rfind tok s = Some p -> exists h r, length h = p /\ splits tok s h r.
Proof.
  induction s as [|c s IH]; intros p H; cbn [rfind] in H.
  - destruct (prefixb tok []) eqn:E; [|discriminate]. injection H as <-. apply prefixb_iff in E. destruct E as [r E]. exists [], r. split; auto. split; auto. intros h' r' E'. destruct h'; [auto|discriminate].
  - destruct (rfind tok s) as [q|] eqn:Eq.
    + injection H as <-. destruct (IH q eq_refl) as [h [r [L [E M]]]]. exists (c :: h), r. split; [cbn; auto|]. split; [cbn; rewrite E; auto|]. intros h' r' E'. destruct h' as [|c' h']; [cbn; lia|]. cbn in E'. injection E' as -> E'. cbn. specialize (M h' r' E'). lia.
    + destruct (prefixb tok (c :: s)) eqn:E; [|discriminate]. injection H as <-. apply prefixb_iff in E. destruct E as [r E]. exists [], r. split; auto. split; auto. intros h' r' E'. destruct h' as [|c' h']; [auto|]. exfalso.
      cbn in E'. injection E' as -> E'. clear - Eq E'. revert s Eq E'. induction h' as [|d h' IH]; intros s Eq E'.
      * assert (P : prefixb tok s = true) by (apply prefixb_iff; exists r'; auto). destruct s; cbn [rfind] in Eq; [rewrite P in Eq; discriminate|]. destruct (rfind tok s); [discriminate|]. rewrite P in Eq. discriminate.
      * destruct s as [|e s]; [discriminate|]. cbn in E'. injection E' as -> E'. cbn [rfind] in Eq. destruct (rfind tok s) eqn:E2; [discriminate|]. apply (IH s E2 E').
Qed.
Lemma splits_fun tok s h r h' r' : splits tok s h r -> splits tok s h' r' -> h = h' /\ r = r'.
Proof.
  intros [E M] [E' M']. assert (length h = length h') by (specialize (M _ _ E'); specialize (M' _ _ E); lia). assert (X : h ++ tok ++ r = h' ++ tok ++ r') by congruence.
  clear - X H. assert (h = h') by (apply (f_equal (firstn (length h))) in X; rewrite H in X at 2; rewrite !firstn_app, !firstn_all, !Nat.sub_diag in X; cbn in X; rewrite !app_nil_r in X; auto). subst. split; auto. apply app_inv_head in X. apply app_inv_head in X. auto.
Qed.
Lemma rfind_iff tok s p : rfind tok s = Some p <-> exists h r, length h = p /\ splits tok s h r.
Proof.
  split; [apply rfind_some|]. intros [h [r [L [E M]]]]. assert (G : forall h s r, s = h ++ tok ++ r -> exists q, rfind tok s = Some q).
  { clear. induction h as [|c h IH]; intros s r E.
    - assert (P : prefixb tok s = true) by (apply prefixb_iff; eauto). destruct s; cbn [rfind]; [rewrite P; eauto|]. destruct (rfind tok s); eauto. rewrite P. eauto.
    - subst s. cbn [app rfind]. destruct (IH _ r eq_refl) as [q ->]. eauto. }
  destruct (G h s r E) as [q Eq]. rewrite Eq. f_equal. destruct (rfind_some tok s q Eq) as [h' [r' [L' S']]]. destruct (splits_fun tok s h r h' r'); [split; auto|auto|]. subst. auto.
Qed.
Lemma rfind_none tok s : rfind tok s = None <-> absent tok s.
Proof.
  split.
  - intros H h r E. assert (exists p, rfind tok s = Some p).
    { clear H. revert s E. induction h as [|c h IH]; intros s E.
      - assert (P : prefixb tok s = true) by (apply prefixb_iff; eauto). destruct s; cbn [rfind]; [rewrite P; eauto|]. destruct (rfind tok s); eauto. rewrite P. eauto.
      - subst s. cbn [app rfind]. destruct (IH _ eq_refl) as [q ->]. eauto. }
    destruct H0. congruence.
  - intros H. destruct (rfind tok s) as [p|] eqn:E; auto. apply rfind_some in E. destruct E as [h [r [_ [E _]]]]. exfalso. apply (H h r E).
Qed.
Lemma rfind_splits tok s h r : splits tok s h r -> rfind tok s = Some (length h).
Proof. intros H. apply rfind_iff. exists h, r. auto. Qed.

Lemma forallb_numeral s : forallb is_digit s = true <-> numeral s.
Proof. unfold numeral. apply forallb_forall. Qed.
Lemma no_percent_iff s : no_percent s <-> existsb (Ascii.eqb percent) s = false.
Proof.
  unfold no_percent. split.
  - intros H. destruct (existsb (Ascii.eqb percent) s) eqn:E; auto. exfalso. apply existsb_exists in E. destruct E as [c [Hin E]]. apply Ascii.eqb_eq in E. subst. auto.
  - intros H Hin. assert (existsb (Ascii.eqb percent) s = true); [|congruence]. apply existsb_exists. exists percent. split; auto.
Qed.
Lemma digit_not_percent c : is_digit c = true -> c <> ascii_of_N 37.
Proof. intros H ->. discriminate. Qed.
Lemma numeral_no_percent s : numeral s -> no_percent s.
Proof. intros H Hin. apply H in Hin. discriminate. Qed.
Lemma no_percent_app a b : no_percent (a ++ b) <-> no_percent a /\ no_percent b.
Proof. unfold no_percent. rewrite in_app_iff. tauto. Qed.

(** * Decimal writings *)
Lemma value_from_app a l1 l2 : value_from a (l1 ++ l2) = value_from (value_from a l1) l2.
Proof. unfold value_from. apply fold_left_app. Qed.
Lemma value_zeros k : forall l, value_from 0 (repeat zero_char k ++ l) = value_from 0 l.
Proof. induction k; intros l; auto. cbn [repeat app]. exact (IHk l). Qed.
Lemma digit_val_lt c : is_digit c = true -> (digit_val c < 10)%N.
Proof. unfold is_digit, digit_val. rewrite andb_true_iff, !N.leb_le. lia. Qed.
Lemma value_from_lin : forall l a, value_from a l = (a * 10 ^ N.of_nat (length l) + value_from 0 l)%N.
Proof.
  induction l as [|c l IH]; intros a.
  - cbn. lia.
  - change (value_from a (c :: l)) with (value_from (10 * a + digit_val c) l). change (value_from 0 (c :: l)) with (value_from (10 * 0 + digit_val c) l). rewrite (IH (10 * a + digit_val c)%N), (IH (10 * 0 + digit_val c)%N).
    cbn [length]. rewrite Nat2N.inj_succ, N.pow_succ_r'. lia.
Qed.
Lemma value_bound : forall l, numeral l -> (value_from 0 l < 10 ^ N.of_nat (length l))%N.
Proof.
  induction l as [|c l IH]; intros H; [cbn; lia|]. change (value_from 0 (c :: l)) with (value_from (10 * 0 + digit_val c) l). rewrite value_from_lin. cbn [length]. rewrite Nat2N.inj_succ, N.pow_succ_r'.
  assert (numeral l) by (intros x Hx; apply H; right; auto). specialize (IH H0). assert (digit_val c < 10)%N by (apply digit_val_lt, H; left; auto). assert (10 * 0 + digit_val c <= 9)%N by lia. nia.
Qed.
Lemma digit_char_inj c d : is_digit c = true -> is_digit d = true -> digit_val c = digit_val d -> c = d.
Proof.
  unfold is_digit, digit_val. rewrite !andb_true_iff, !N.leb_le. intros H1 H2 H3. rewrite <- (ascii_N_embedding c), <- (ascii_N_embedding d). f_equal. lia.
Qed.
Lemma value_inj : forall l l', numeral l -> numeral l' -> length l = length l' -> value_from 0 l = value_from 0 l' -> l = l'.
Proof.
  induction l as [|c l IH]; intros [|d l'] H H' L E; try discriminate; auto. cbn in L. injection L as L.
  change (value_from 0 (c :: l)) with (value_from (10 * 0 + digit_val c) l) in E. change (value_from 0 (d :: l')) with (value_from (10 * 0 + digit_val d) l') in E. rewrite (value_from_lin l), (value_from_lin l') in E.
  assert (N1 : numeral l) by (intros x Hx; apply H; right; auto). assert (N2 : numeral l') by (intros x Hx; apply H'; right; auto). assert (B1 := value_bound l N1). assert (B2 := value_bound l' N2). rewrite <- L in *.
  set (P := (10 ^ N.of_nat (length l))%N) in *. assert (Ev : digit_val c = digit_val d).
  { destruct (N.lt_trichotomy (digit_val c) (digit_val d)) as [Hl|[Hl|Hl]]; auto; exfalso; nia. }
  rewrite (digit_char_inj c d); auto; [|apply H; left; auto|apply H'; left; auto]. f_equal. apply IH; auto. rewrite Ev in E. lia.
Qed.
Lemma print_N_numeral n : numeral (print_N n) /\ value_from 0 (print_N n) = n /\ 0 < length (print_N n).
Proof. destruct (print_N_ok n) as [H1 [H2 H3]]. split; [apply forallb_numeral; auto|]. split; auto. destruct (print_N n); [congruence|cbn; lia]. Qed.
(** The printed number has no useless digit. *)
Lemma digits_short : forall fuel n acc, exists ds, digits fuel n acc = ds ++ acc /\ (ds = [] \/ length ds = 1 \/ (10 ^ N.of_nat (length ds - 1) <= n)%N).
Proof.
  induction fuel as [|fuel IH]; intros n acc; cbn [digits].
  - exists []. auto.
  - destruct (N.eqb_spec (n / 10) 0) as [E|E].
    + exists [digit_char (n mod 10)]. auto.
    + destruct (IH (n / 10)%N (digit_char (n mod 10) :: acc)) as [ds [E1 H]]. exists (ds ++ [digit_char (n mod 10)]). rewrite E1, <- app_assoc. split; auto. right. rewrite app_length. cbn [length]. replace (length ds + 1 - 1) with (length ds) by lia.
      assert (Q : (1 <= n / 10)%N) by (revert E; generalize (n / 10)%N; intros q E; lia). assert (Q2 : (10 * (n / 10) <= n)%N) by (apply N.mul_div_le; lia). destruct H as [->|[H|H]].
      * left. auto.
      * right. rewrite H. change (10 ^ N.of_nat 1)%N with 10%N. lia.
      * destruct ds as [|d ds]; [left; auto|]. right. cbn [length] in *. rewrite Nat2N.inj_succ, N.pow_succ_r'. replace (S (length ds) - 1) with (length ds) in H by lia. lia.
Qed.
Lemma print_N_short n : length (print_N n) = 1 \/ (10 ^ N.of_nat (length (print_N n) - 1) <= n)%N.
Proof.
  unfold print_N. destruct (digits_short (S (N.size_nat n)) n []) as [ds [E H]]. rewrite E, app_nil_r. destruct H as [->|H]; auto.
  exfalso. destruct (print_N_numeral n) as [_ [_ L]]. unfold print_N in L. rewrite E in L. cbn in L. lia.
Qed.
Lemma print_N_len n l : numeral l -> l <> [] -> value_from 0 l = n -> length (print_N n) <= length l.
Proof.
  intros Hl Hne Hv. destruct (print_N_short n) as [->|H]; [destruct l; [congruence|cbn; lia]|]. assert (B := value_bound l Hl). rewrite Hv in B. assert (X : (10 ^ N.of_nat (length (print_N n) - 1) < 10 ^ N.of_nat (length l))%N) by lia.
  apply N.pow_lt_mono_r_iff in X; [|lia]. lia.
Qed.
Lemma print_N_len_le n m : (n <= m)%N -> length (print_N n) <= length (print_N m).
Proof.
  intros H. destruct (print_N_short n) as [->|Hn]; [apply print_N_numeral|]. destruct (print_N_numeral m) as [Nm [Vm _]]. assert (B := value_bound _ Nm). rewrite Vm in B. assert (X : (10 ^ N.of_nat (length (print_N n) - 1) < 10 ^ N.of_nat (length (print_N m)))%N) by lia.
  apply N.pow_lt_mono_r_iff in X; [|lia]. lia.
Qed.
Lemma pad_writes w n : writes w n (pad w n).
Proof.
  destruct (print_N_numeral n) as [Hn [Hv Hl]]. unfold pad. split; [|split].
  - intros c Hc. apply in_app_or in Hc. destruct Hc as [Hc|Hc]; auto. apply repeat_spec in Hc. subst. reflexivity.
  - rewrite value_zeros. auto.
  - rewrite app_length, repeat_length. lia.
Qed.
Lemma writes_fun w n s s' : writes w n s -> writes w n s' -> s = s'.
Proof. intros [H1 [H2 H3]] [H1' [H2' H3']]. apply value_inj; auto; congruence. Qed.
Lemma writes_len w n s : writes w n s -> 0 < length s.
Proof. intros [_ [_ ->]]. destruct (print_N_numeral n) as [_ [_ H]]. lia. Qed.

(** * The constructor *)
Lemma span_digits ds tail : numeral ds -> no_digit_first tail -> span_while is_digit (ds ++ tail) = (ds, tail).
Proof. intros H [c [s' [-> Hc]]]. apply span_while_app; [apply forallb_numeral; auto|auto]. Qed.
Lemma file_serie_ok tok name head ds tail size off : splits tok name head (ds ++ tail) -> numeral ds -> no_digit_first tail -> no_percent (head ++ tok ++ tail) ->
  file_serie name tok size off = Val (mkSerie (head ++ tok) (length ds) tail tok size off).
Proof.
  intros Hs Hd Ht Hp. unfold file_serie. rewrite (rfind_splits _ _ _ _ Hs). destruct Hs as [-> _]. replace (firstn (length head) (head ++ tok ++ ds ++ tail)) with head by (rewrite firstn_app, firstn_all, Nat.sub_diag; cbn; rewrite app_nil_r; auto).
  replace (skipn (length head + length tok) (head ++ tok ++ ds ++ tail)) with (ds ++ tail).
  - rewrite span_digits by auto. apply no_percent_iff in Hp. rewrite Hp. destruct Ht as [c [s' [-> _]]]. auto.
  - rewrite app_assoc, skipn_app, skipn_all2 by (rewrite app_length; lia). rewrite app_length, Nat.sub_diag. auto.
Qed.
Lemma file_serie_throw tok name head ds size off : splits tok name head ds -> numeral ds -> file_serie name tok size off = Throw.
Proof.
  intros Hs Hd. unfold file_serie. rewrite (rfind_splits _ _ _ _ Hs). destruct Hs as [-> _].
  replace (skipn (length head + length tok) (head ++ tok ++ ds)) with ds by (rewrite app_assoc, skipn_app, skipn_all2 by (rewrite app_length; lia); rewrite app_length, Nat.sub_diag; auto).
  rewrite <- (app_nil_r ds) at 1. rewrite span_while_app; auto. apply forallb_numeral; auto.
Qed.
(** Replacing the digits does not move the last occurrence of a token without digit. *)
Definition digit_free (tok : text) : Prop := tok <> [] /\ forall c, In c tok -> is_digit c = false.
Lemma splits_digits tok head ds tail : digit_free tok -> ds <> [] -> numeral ds -> absent tok tail -> splits tok (head ++ tok ++ ds ++ tail) head (ds ++ tail).
Proof.
  intros [Hne Hf] Hd Hn Ha. split; auto. intros h' r' E. destruct (Nat.le_gt_cases (length h') (length head)) as [H|H]; auto. exfalso.
  (* the occurrence begins after that of head *)
  assert (L : length (h' ++ tok ++ r') = length (head ++ tok ++ ds ++ tail)) by congruence. rewrite !app_length in L.
  destruct (Nat.le_gt_cases (length head + length tok + length ds) (length h')) as [H2|H2].
  - (* inside the tail *)
    set (k := length head + length tok + length ds) in *. apply (f_equal (skipn k)) in E.
    assert (S1 : skipn k (head ++ tok ++ ds ++ tail) = tail).
    { replace (head ++ tok ++ ds ++ tail) with ((head ++ tok ++ ds) ++ tail) by (rewrite <- !app_assoc; auto). rewrite skipn_app, skipn_all2 by (rewrite !app_length; unfold k; lia). rewrite !app_length. replace (k - (length head + (length tok + length ds))) with 0 by (unfold k; lia). auto. }
    assert (S2 : skipn k (h' ++ tok ++ r') = skipn k h' ++ tok ++ r') by (rewrite skipn_app; replace (k - length h') with 0 by lia; auto).
    rewrite S1, S2 in E. apply (Ha _ _ E).
  - (* it contains one of the digits *)
    set (i := Nat.max (length h') (length head + length tok)). assert (Hi1 : length h' <= i < length h' + length tok) by (unfold i; destruct tok; [congruence|cbn [length] in *; lia]).
    assert (Hi2 : length head + length tok <= i < length head + length tok + length ds) by (unfold i; destruct ds; [congruence|cbn [length] in *; lia]).
    assert (A : exists c, nth_error (h' ++ tok ++ r') i = Some c /\ In c tok).
    { rewrite nth_error_app2 by lia. rewrite nth_error_app1 by lia. destruct (nth_error tok (i - length h')) as [c|] eqn:Ec; [exists c; split; auto; eapply nth_error_In; eauto|]. apply nth_error_None in Ec. lia. }
    assert (B : exists c, nth_error (head ++ tok ++ ds ++ tail) i = Some c /\ In c ds).
    { rewrite nth_error_app2 by lia. rewrite nth_error_app2 by lia. rewrite nth_error_app1 by lia. destruct (nth_error ds (i - length head - length tok)) as [c|] eqn:Ec; [exists c; split; auto; eapply nth_error_In; eauto|]. apply nth_error_None in Ec. lia. }
    destruct A as [c [A1 A2]]. destruct B as [d [B1 B2]]. rewrite <- E in A1. rewrite A1 in B1. injection B1 as ->. specialize (Hn d B2). rewrite (Hf d A2) in Hn. discriminate.
Qed.

Lemma splits_absent tok head ds tail : tok <> [] -> splits tok (head ++ tok ++ ds ++ tail) head (ds ++ tail) -> absent tok tail.
Proof.
  intros Hne [_ M] h r E. specialize (M (head ++ tok ++ ds ++ h) r). rewrite E in M. rewrite <- !app_assoc in M. specialize (M eq_refl). rewrite !app_length in M. destruct tok; [congruence|]. cbn [length] in M. lia.
Qed.
Lemma writes_max1 w n s : writes (Nat.max w 1) n s <-> writes w n s.
Proof. unfold writes. destruct (print_N_numeral n) as [_ [_ H]]. replace (Nat.max (Nat.max w 1) (length (print_N n))) with (Nat.max w (length (print_N n))) by lia. tauto. Qed.
Lemma print_0_len : length (print_N 0) = 1.
Proof. reflexivity. Qed.
Lemma splits_dot s e : ~ In dot e -> splits [dot] (s ++ [dot] ++ e) s e.
Proof.
  intros H. split; auto. intros h' r' E. destruct (Nat.le_gt_cases (length h') (length s)) as [L|L]; auto. exfalso. apply H.
  assert (A : nth_error (h' ++ [dot] ++ r') (length h') = Some dot) by (rewrite nth_error_app2, Nat.sub_diag by lia; auto). rewrite <- E in A.
  rewrite nth_error_app2 in A by lia. rewrite nth_error_app2 in A by (cbn; lia). eapply nth_error_In; eauto.
Qed.
Lemma cut_ext_ok s e : ~ In dot e -> cut_ext (s ++ [dot] ++ e) = s.
Proof. intros H. unfold cut_ext. rewrite (rfind_splits _ _ _ _ (splits_dot s e H)). rewrite firstn_app, firstn_all, Nat.sub_diag. cbn. apply app_nil_r. Qed.
Lemma numeral_no_dot s : numeral s -> ~ In dot s.
Proof. intros H Hin. apply H in Hin. discriminate. Qed.

(** Decimal numbers as text, and a model of std::istream for reading them (C++ standard library, not /repo). *)
Require Import List Arith NArith Lia Ascii Bool.
Import ListNotations.
Local Open Scope N_scope.

Definition text : Type := list ascii.

Definition digit_char (d : N) : ascii := ascii_of_N (48 + d).
Definition is_digit (c : ascii) : bool := (48 <=? N_of_ascii c) && (N_of_ascii c <=? 57).
Definition digit_val (c : ascii) : N := N_of_ascii c - 48.
(** isspace in the C locale *)
Definition is_space (c : ascii) : bool :=
  (N_of_ascii c =? 32) || ((9 <=? N_of_ascii c) && (N_of_ascii c <=? 13)).
Definition newline : ascii := ascii_of_N 10.
Definition tab : ascii := ascii_of_N 9.

(** os << n for an unsigned integer *)
Fixpoint digits (fuel : nat) (n : N) (acc : text) : text :=
  match fuel with
  | O => acc
  | S fuel' => let acc' := digit_char (n mod 10) :: acc in
               if n / 10 =? 0 then acc' else digits fuel' (n / 10) acc'
  end.
Definition print_N (n : N) : text := digits (S (N.size_nat n)) n [].
Definition print_nat (n : nat) : text := print_N (N.of_nat n).

Definition value_from (a : N) (l : text) : N := fold_left (fun a c => 10 * a + digit_val c) l a.

(** Longest prefix satisfying a test, and the rest. *)
Fixpoint span_while (f : ascii -> bool) (l : text) : text * text :=
  match l with
  | [] => ([], [])
  | c :: l' => if f c then let '(a, b) := span_while f l' in (c :: a, b) else ([], l)
  end.

(** State of a std::istream: remaining characters, eofbit, failbit. *)
Record istream := mkStream { buf : text; eof : bool; fail : bool }.
Definition good_stream (s : istream) : bool := negb (eof s) && negb (fail s).
Definition open_text (l : text) : istream := mkStream l false false.

Definition two64 : N := 2 ^ 64.

(** is >> n, n a size_t, skipping white space; [None]: nothing was stored by a successful conversion.
    Simplification: no sign is accepted. *)
Definition read_num (s : istream) : option N * istream :=
  if good_stream s then
    match snd (span_while is_space (buf s)) with
    | [] => (None, mkStream [] true true)
    | l =>
        match span_while is_digit l with
        | ([], _) => (None, mkStream l false true)
        | (ds, rest) =>
            let v := value_from 0 ds in
            let e := match rest with [] => true | _ => false end in
            if v <? two64 then (Some v, mkStream rest e false) else (None, mkStream rest e true)
        end
    end
  else (None, mkStream (buf s) (eof s) true).

(** is.get() *)
Definition get_char (s : istream) : istream :=
  if good_stream s then
    match buf s with
    | [] => mkStream [] true true
    | _ :: l => mkStream l false false
    end
  else mkStream (buf s) (eof s) true.

(** getline(is, line) *)
Definition not_newline (c : ascii) : bool := negb (N_of_ascii c =? 10).
Definition get_line (s : istream) : text * istream :=
  if good_stream s then
    match span_while not_newline (buf s) with
    | (l, []) => (l, mkStream [] true (match l with [] => true | _ => false end))
    | (l, _ :: rest) => (l, mkStream rest false false)
    end
  else ([], mkStream (buf s) (eof s) true).

(** * Lemmas *)
Lemma digit_char_val d : d < 10 -> is_digit (digit_char d) = true /\ digit_val (digit_char d) = d.
Proof.
  intros H. unfold is_digit, digit_val, digit_char. rewrite N_ascii_embedding by lia. split; [|lia].
  apply andb_true_iff. rewrite !N.leb_le. lia.
Qed.

Lemma digits_ok : forall fuel n acc, n < 10 ^ N.of_nat fuel -> (fuel > 0)%nat ->
  exists ds, digits fuel n acc = ds ++ acc /\ ds <> [] /\ forallb is_digit ds = true /\
    (forall a, value_from a ds = a * 10 ^ N.of_nat (length ds) + n).
Proof.
  induction fuel as [|fuel IH]; intros n acc Hn Hf; [lia|]. cbn [digits].
  assert (Hm : n mod 10 < 10) by (apply N.mod_lt; lia). destruct (digit_char_val _ Hm) as [Hd Hv].
  assert (Hdiv : n = 10 * (n / 10) + n mod 10) by (apply N.div_mod; lia).
  destruct (N.eqb_spec (n / 10) 0) as [E|E].
  - exists [digit_char (n mod 10)]. split; auto. split; [discriminate|]. split; [simpl; rewrite Hd; auto|].
    intros a. cbn [value_from fold_left length]. unfold value_from. cbn [fold_left]. rewrite Hv. change (10 ^ N.of_nat 1) with 10. lia.
  - destruct fuel as [|fuel].
    { change (10 ^ N.of_nat 1) with 10 in Hn. exfalso. apply E. apply N.div_small. lia. }
    destruct (IH (n / 10) (digit_char (n mod 10) :: acc)) as [ds [E1 [E2 [E3 E4]]]]; [|lia|].
    { apply N.div_lt_upper_bound; [lia|]. rewrite (Nat2N.inj_succ (S fuel)), N.pow_succ_r' in Hn. exact Hn. }
    exists (ds ++ [digit_char (n mod 10)]). rewrite E1, <- app_assoc. split; auto. split; [destruct ds; discriminate|].
    split; [rewrite forallb_app, E3; simpl; rewrite Hd; auto|].
    intros a. unfold value_from in *. rewrite fold_left_app, E4. cbn [fold_left]. rewrite Hv, app_length, Nat2N.inj_add.
    change (N.of_nat (length [digit_char (n mod 10)])) with 1. rewrite N.pow_add_r. change (10 ^ 1) with 10. lia.
Qed.

Lemma print_N_ok n : print_N n <> [] /\ forallb is_digit (print_N n) = true /\ value_from 0 (print_N n) = n.
Proof.
  unfold print_N. destruct (digits_ok (S (N.size_nat n)) n []) as [ds [E1 [E2 [E3 E4]]]]; [|lia|].
  - rewrite Nat2N.inj_succ, N.pow_succ_r'.
    assert (H : n < 2 ^ N.of_nat (N.size_nat n)).
    { replace (N.of_nat (N.size_nat n)) with (N.size n); [apply N.size_gt|]. destruct n; auto. simpl. 
      induction p; simpl; auto; rewrite ?IHp; lia. }
    assert (2 ^ N.of_nat (N.size_nat n) <= 10 ^ N.of_nat (N.size_nat n)) by (apply N.pow_le_mono_l; lia). lia.
  - rewrite E1, app_nil_r. split; auto. split; auto. rewrite E4. lia.
Qed.

Lemma span_while_app f l1 l2 : forallb f l1 = true -> (match l2 with [] => True | c :: _ => f c = false end) ->
  span_while f (l1 ++ l2) = (l1, l2).
Proof.
  intros H1 H2. induction l1 as [|c l1 IH]; simpl in *.
  - destruct l2 as [|c l2]; auto. simpl. rewrite H2. auto.
  - apply andb_true_iff in H1. destruct H1 as [Hc Hl]. rewrite Hc, IH; auto.
Qed.

Lemma digit_not_space c : is_digit c = true -> is_space c = false.
Proof.
  unfold is_digit, is_space. rewrite andb_true_iff, !N.leb_le. intros H. apply orb_false_iff.
  rewrite N.eqb_neq, andb_false_iff, !N.leb_gt. lia.
Qed.
Lemma digit_not_newline c : is_digit c = true -> not_newline c = true.
Proof.
  unfold is_digit, not_newline. rewrite andb_true_iff, !N.leb_le, negb_true_iff, N.eqb_neq. lia.
Qed.

(** Reading back a printed number, after some white space. *)
Lemma read_num_print n ws rest : n < two64 -> forallb is_space ws = true ->
  (match rest with [] => True | c :: _ => is_digit c = false end) ->
  read_num (mkStream (ws ++ print_N n ++ rest) false false) =
    (Some n, mkStream rest (match rest with [] => true | _ => false end) false).
Proof.
  intros Hn Hws Hrest. destruct (print_N_ok n) as [Hne [Hd Hv]]. unfold read_num. cbn [good_stream eof fail negb andb buf].
  destruct (print_N n) as [|c ds] eqn:E; [congruence|]. simpl in Hd. apply andb_true_iff in Hd. destruct Hd as [Hc Hds].
  rewrite (span_while_app is_space ws ((c :: ds) ++ rest)); auto; [|simpl; apply digit_not_space, Hc].
  cbn [snd app]. change (c :: ds ++ rest) with ((c :: ds) ++ rest).
  rewrite (span_while_app is_digit (c :: ds) rest); auto; [|simpl; rewrite Hc; auto].
  rewrite Hv. apply N.ltb_lt in Hn. rewrite Hn. auto.
Qed.

Lemma print_nat_digit_head n : exists c l, print_nat n = c :: l /\ is_digit c = true.
Proof.
  unfold print_nat. destruct (print_N_ok (N.of_nat n)) as [Hne [Hd _]]. destruct (print_N (N.of_nat n)) as [|c l]; [congruence|].
  exists c, l. split; auto. simpl in Hd. apply andb_true_iff in Hd. tauto.
Qed.

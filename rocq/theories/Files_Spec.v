(** Vocabulary for names of files. *)
Require Import List Arith NArith Ascii Bool.
Require Import Verif.Dec.
Import ListNotations.

(** [name] is h, then its last occurrence of [tok], then r. *)
Definition splits (tok name h r : text) : Prop := name = h ++ tok ++ r /\ forall h' r', name = h' ++ tok ++ r' -> length h' <= length h.
Definition absent (tok s : text) : Prop := forall h r, s <> h ++ tok ++ r.
Definition numeral (s : text) : Prop := forall c, In c s -> is_digit c = true.
(** A text that does not begin with a digit, not empty. *)
Definition no_digit_first (s : text) : Prop := exists c s', s = c :: s' /\ is_digit c = false.
Definition no_percent (s : text) : Prop := ~ In (ascii_of_N 37) s.
(** The decimal writing of n, completed with zeros to at least w characters. *)
Definition writes (w : nat) (n : N) (s : text) : Prop := numeral s /\ value_from 0 s = n /\ length s = Nat.max w (length (print_N n)).

(** Answers typed on the standard input. *)
Require Import NArith List Bool Ascii.
Require Import Verif.Dec.
Import ListNotations.
Local Open Scope N_scope.

Definition spaces (l : text) : Prop := Forall (fun c => is_space c = true) l.
(** Digits, as many as there are *)
Definition digits_of (l ds rest : text) : Prop := l = (ds ++ rest)%list /\ ds <> [] /\ Forall (fun c => is_digit c = true) ds /\ (forall c r, rest = c :: r -> is_digit c = false).
(** The number written in decimal *)
Definition decimal (ds : text) : N := fold_left (fun a c => 10 * a + (N_of_ascii c - 48)) ds 0.
(** What comes first in a text: nothing; a number, [v] in 64 bits after its sign, then [rest]; a number too large; anything else *)
Inductive first_word : text -> option (N * bool * text) -> Prop :=
| First_none l : spaces l -> first_word l None
| First_number sp sign l ds rest : spaces sp -> sign = [] \/ sign = ["+"%char] -> digits_of l ds rest -> decimal ds < 2 ^ 64 -> first_word (sp ++ sign ++ l) (Some (decimal ds, true, rest))
| First_opposite sp l ds rest : spaces sp -> digits_of l ds rest -> decimal ds < 2 ^ 64 -> first_word (sp ++ "-"%char :: l) (Some ((2 ^ 64 - decimal ds) mod 2 ^ 64, true, rest))
| First_large sp sign l ds rest : spaces sp -> sign = [] \/ sign = ["+"%char] \/ sign = ["-"%char] -> digits_of l ds rest -> 2 ^ 64 <= decimal ds -> first_word (sp ++ sign ++ l) (Some (2 ^ 64 - 1, false, rest))
| First_other sp sign l : spaces sp -> sign = [] \/ sign = ["+"%char] \/ sign = ["-"%char] -> (sign ++ l)%list <> [] -> (forall c r, l = c :: r -> is_digit c = false) -> (sign = [] -> forall c r, l = c :: r -> is_space c = false /\ c <> "+"%char /\ c <> "-"%char) -> first_word (sp ++ sign ++ l) (Some (0, false, l)).
(** How a dialogue ends, for [n] choices: the refused answers, and the end *)
Inductive ending := Takes (v : N) (left : text) | Gives_up | No_more.
Inductive dialogue (n : N) : text -> nat -> ending -> Prop :=
| Accepted l v rest : first_word l (Some (v, true, rest)) -> v < n -> dialogue n l 0 (Takes v rest)
| Refused l v rest k e : first_word l (Some (v, true, rest)) -> n <= v -> dialogue n rest k e -> dialogue n l (S k) e
(** not a number: taken for 0 *)
| Garbage l rest : first_word l (Some (0, false, rest)) -> 0 < n -> dialogue n l 0 Gives_up
(** nothing more, or a number too large *)
| Ended l : first_word l None -> dialogue n l 0 No_more
| Large l v rest : first_word l (Some (v, false, rest)) -> n <= v -> dialogue n l 1 No_more.

(** Vocabulary for text files, independent of the model's functions: the words of a text. *)
Require Import List Ascii Bool.
Require Import Verif.Dec.
Import ListNotations.

(** The words of a text, separated by white space; [cur] is the word being read. *)
Fixpoint words_from (cur : text) (l : text) : list text :=
  match l with
  | [] => match cur with [] => [] | _ => [cur] end
  | c :: l' => if is_space c then (match cur with [] => [] | _ => [cur] end) ++ words_from [] l' else words_from (cur ++ [c]) l'
  end.
Definition words (l : text) : list text := words_from [] l.
(** A single word. *)
Definition word (w : text) : Prop := w <> [] /\ forallb (fun c => negb (is_space c)) w = true.
(** A printer of values as words, and a parser that reads them back up to a rounding [rnd]. *)
Definition codec {V} (show : V -> text) (parse : text -> option V) (rnd : V -> V) : Prop :=
  forall v, word (show v) /\ parse (show v) = Some (rnd v).
Definition triple {V} (p : V * V * V) : list V := let '(x, y, z) := p in [x; y; z].
Definition on_triple {V W} (f : V -> W) (p : V * V * V) : W * W * W := let '(x, y, z) := p in (f x, f y, f z).
(** The text is empty or its last character is white space. *)
Definition trail (l : text) : bool := match rev l with [] => true | c :: _ => is_space c end.

(** Model of the questions asked on the standard input: which series (graphic/lifFile.cpp:344-360, LifHeader::chooseSerieNumber) and which channel (46-63, LifSerieHeader::chooseChannel); the same code is in multiscale/src/lifFile.cpp.
    The input is the text typed until its end. *)
Require Import NArith List Bool Ascii String.
Require Import Verif.Dec.
Import ListNotations.
Local Open Scope N_scope.
Local Open Scope list_scope.

Definition minus : ascii := ascii_of_N 45.
Definition plus : ascii := ascii_of_N 43.
Definition is_sign (c : ascii) : bool := Ascii.eqb c minus || Ascii.eqb c plus.
(** An optional sign in front of a number *)
Definition sign_of (l : text) : bool * text := match l with c :: l' => if is_sign c then (Ascii.eqb c minus, l') else (false, l) | [] => (false, l) end.
(** cin >> v for a size_t (num_get of the C++ standard library): [None] leaves v as it was, as nothing is extracted when the stream is not good or has only spaces left.
    A text that is not a number stores 0 and a number that is too large stores 2^64-1, both with failbit; the opposite of a number is modulo 2^64. *)
Definition extract (s : istream) : option N * istream :=
  if good_stream s then
    match snd (span_while is_space (buf s)) with
    | [] => (None, mkStream [] true true)
    | l =>
        let (neg, l') := sign_of l in
        match span_while is_digit l' with
        | ([], rest) => (Some 0, mkStream rest (match rest with [] => true | _ => false end) true)
        | (ds, rest) =>
            let v := value_from 0 ds in
            let e := match rest with [] => true | _ => false end in
            if v <? two64 then (Some (if neg then (two64 - v) mod two64 else v), mkStream rest e false) else (Some (two64 - 1), mkStream rest e true)
        end
    end
  else (None, mkStream (buf s) (eof s) true).

(** What the program is doing: asking, with a value of the variable ([None]: indeterminate), the number of times it has asked, and the state of the input; returned; read an indeterminate variable *)
Inductive status := Asking (v : option N) (times : nat) (s : istream) | Returned (v : N) (times : nat) (s : istream) | Indeterminate (times : nat).
(** One turn of the loop do ... while(v >= n), lifFile.cpp:57-61, 354-358 *)
Definition ask_once (n : N) (st : status) : status :=
  match st with
  | Asking v k s =>
      let (r, s') := extract s in
      match (match r with Some x => Some x | None => v end) with
      | None => Indeterminate (S k)
      | Some x => if n <=? x then Asking (Some x) (S k) s' else Returned x (S k) s'
      end
  | _ => st
  end.
(** [k] turns *)
Fixpoint turns (n : N) (k : nat) (st : status) : status := match k with O => st | S k' => turns n k' (ask_once n st) end.
(** lifFile.cpp:346-353, with [n] series *)
Definition choose_serie (n : N) (s : istream) : status := if n =? 1 then Returned 0 0 s else Asking (Some 0) 0 s.
(** lifFile.cpp:48-56, with [n] channels *)
Definition choose_channel (n : N) (s : istream) : status := if n =? 1 then Returned 0 0 s else Asking None 0 s.
(** lifFile.cpp:356, 59: the question; n-1 is a size_t *)
Definition question (what : text) (n : N) : text := (list_ascii_of_string "Chose a " ++ what ++ list_ascii_of_string " between 0 and " ++ print_N ((n + two64 - 1) mod two64) ++ list_ascii_of_string ": ")%list.
(** What the loop writes when it asks [k] times *)
Definition asked (what : text) (n : N) (k : nat) : text := List.concat (repeat (question what n) k).

(** Model of lib/files_series: names of the files of a series. *)
Require Import List Arith NArith Ascii Bool.
Require Import Verif.Dec Verif.Traj_Model.
Import ListNotations.
Local Open Scope N_scope.

Definition zero_char : ascii := ascii_of_N 48.
Definition percent : ascii := ascii_of_N 37.
Definition dot : ascii := ascii_of_N 46.

(** std::string::rfind (C++ standard library): position of the last occurrence. *)
Fixpoint prefixb (tok s : text) : bool :=
  match tok, s with
  | [], _ => true
  | c :: tok', d :: s' => Ascii.eqb c d && prefixb tok' s'
  | _ :: _, [] => false
  end.
Fixpoint rfind (tok s : text) : option nat :=
  match s with
  | [] => if prefixb tok [] then Some 0%nat else None
  | _ :: s' => match rfind tok s' with Some p => Some (S p) | None => if prefixb tok s then Some 0%nat else None end
  end.

(** files_series.hpp:44-48: the boost::format is the text before the number, the width of its zero padding and the text after. *)
Record serie := mkSerie { before : text; width : nat; after : text; token : text; nsteps : nat; offset : N }.

(** boost::format "%|0w|" of an unsigned number. *)
Definition pad (w : nat) (n : N) : text := repeat zero_char (w - length (print_N n)) ++ print_N n.
Definition print_serie (fs : serie) (n : N) : text := before fs ++ pad (width fs) n ++ after fs.

(** files_series.cpp:27-55.  [Throw]: the token is not found (invalid_argument), or nothing follows the digits (substr(npos):
    out_of_range).  A name with a percent sign is not modelled ([UB]): boost::format would interpret it. *)
Definition file_serie (name tok : text) (size : nat) (off : N) : outcome serie :=
  match rfind tok name with
  | None => Throw
  | Some pos =>
      let head := firstn pos name in
      let rest := skipn (pos + length tok) name in
      let '(ds, tail) := span_while is_digit rest in
      match tail with
      | [] => Throw
      | _ => if existsb (Ascii.eqb percent) (head ++ tok ++ tail) then UB else Val (mkSerie (head ++ tok) (length ds) tail tok size off)
      end
  end.
(** files_series.hpp:51 operator% (size_t addition). *)
Definition step_name (fs : serie) (t : N) : text := print_serie fs ((t + offset fs) mod two64).
(** files_series.cpp:58-65 *)
Definition cut_ext (s : text) : text := match rfind [dot] s with Some p => firstn p s | None => s end.
Definition change_ext (fs : serie) (ext : text) : outcome serie :=
  file_serie (cut_ext (print_serie fs 0) ++ ext) (token fs) (nsteps fs) (offset fs).
(** files_series.cpp:68-75, 78-86; insert(npos,...) would throw. *)
Definition insert_postfix (fs : serie) (postfix : text) : outcome text :=
  let pat := print_serie fs 0 in
  match rfind (token fs) pat with Some p => Val (firstn p pat ++ postfix ++ skipn p pat) | None => Throw end.
Definition add_postfix (fs : serie) (postfix : text) : outcome serie :=
  match insert_postfix fs postfix with Val pat => file_serie pat (token fs) (nsteps fs) (offset fs) | Throw => Throw | UB => UB end.
Definition add_postfix_ext (fs : serie) (postfix ext : text) : outcome serie :=
  match insert_postfix fs postfix with Val pat => file_serie (cut_ext pat ++ ext) (token fs) (nsteps fs) (offset fs) | Throw => Throw | UB => UB end.
(** files_series.cpp:89-96 *)
Definition serie_head (fs : serie) : outcome text :=
  let pat := print_serie fs 0 in
  match rfind (token fs) pat with Some p => Val (firstn p pat) | None => Throw end.
(** files_series.cpp:99-110; the token is not used.  size-1 wraps. *)
Definition default_token : text := [ascii_of_N 95; ascii_of_N 116].
Definition get0th (prefix : text) (size : N) (tok : text) : text :=
  prefix ++ default_token ++ repeat zero_char (Nat.max (length (print_N ((size + two64 - 1) mod two64))) 1).

(** The columns that n threads can share out equally. *)
Require Import Arith.
(** Column c of [cols] is one of the first n*(cols/n). *)
Definition reached (cols n c : nat) : bool := c <? n * (cols / n).

(** Specification vocabulary for the R*-tree. *)
Require Import ZArith List Bool Arith Permutation.
Require Import Verif.Box_Model Verif.Box_Spec Verif.RTree_Model.
Import ListNotations.

(** What the heuristics may return.  The constructor asserts m > 1 and M > m; distributing M+1 items
    needs 2m <= M+1 (m=4, M=32 in the library). *)
Definition config_ok (c : config) : Prop :=
  2 <= min_items c /\ 2 * min_items c <= max_items c + 1 /\
  (forall items b its i, items <> [] -> choose c items b = (its, i) ->
     Permutation its items /\ i < length its) /\
  (forall items s i, length items = max_items c + 1 -> split_leaves c items = (s, i) ->
     Permutation s items /\ min_items c <= i /\ i + min_items c <= length items) /\
  (forall items s i, length items = max_items c + 1 -> split_nodes c items = (s, i) ->
     Permutation s items /\ min_items c <= i /\ i + min_items c <= length items) /\
  (forall items b, Permutation (far_sort c items b) items).

(** [below n l k]: the leaf [l] is stored under [n], [k] levels further down. *)
Inductive below : node -> leaf -> nat -> Prop :=
| below_here b items l : In l items -> below (NL b items) l 0
| below_child b items ch l k : In ch items -> below ch l k -> below (NI b items) l (S k).

(** [descendant n ch]: [ch] is a node strictly under [n]. *)
Inductive descendant : node -> node -> Prop :=
| desc_child b items ch : In ch items -> descendant (NI b items) ch
| desc_further b items ch n : In ch items -> descendant ch n -> descendant (NI b items) n.

(** All leaves at the same depth, bounded fan-out, boxes enclosing what is stored below. *)
Definition balanced (r : node) : Prop :=
  forall l1 k1 l2 k2, below r l1 k1 -> below r l2 k2 -> k1 = k2.
Definition fanout (c : config) (r : node) : Prop :=
  nitems r <= max_items c /\
  (forall n, descendant r n -> min_items c <= nitems n /\ nitems n <= max_items c).
Definition covering (r : node) : Prop :=
  forall n l k, n = r \/ descendant r n -> below n l k -> sub (lbox l) (nbox n).

(** Leaves stored in a tree. *)
Definition tleaves (t : rtree) : list leaf :=
  match troot t with None => [] | Some r => leaves r end.

(** Operations on boxes of the right dimension. *)
Definition acceptor_dim (d : nat) (a : acceptor) : Prop :=
  match a with
  | AcceptOverlapping q | AcceptEnclosing q | AcceptEnclosed q => length q = d
  | AcceptAny => True
  end.
Definition op_ok (c : config) (o : op) : Prop :=
  match o with
  | OpInsert lf => length (lbox lf) = dims c
  | OpRemove a _ => acceptor_dim (dims c) a /\ (forall q, a <> AcceptEnclosed q)
  | OpTranslate v => length v = dims c
  end.

(** The abstract object a tree stands for is a multiset of leaves.  [touches a l]: the leaf box and the
    query box have a common interior. *)
Definition touches (a : acceptor) (l : leaf) : Prop :=
  match a with
  | AcceptOverlapping q | AcceptEnclosing q | AcceptEnclosed q => overlaps q (lbox l) = true
  | AcceptAny => True
  end.

Inductive spec_step : list leaf -> op -> list leaf -> Prop :=
| spec_insert S lf S' : Permutation S' (lf :: S) -> spec_step S (OpInsert lf) S'
| spec_translate S v S' : Permutation S' (map (translate_leaf v) S) -> spec_step S (OpTranslate v) S'
| spec_remove S a rm S' R :
    Permutation S (S' ++ R) ->
    (forall l, In l R -> accept_leaf a l = true /\ rm l = true) ->
    (forall l, In l S' -> accept_leaf a l = true -> rm l = true -> ~ touches a l) ->
    spec_step S (OpRemove a rm) S'.

Inductive spec_run : list leaf -> list op -> list leaf -> Prop :=
| spec_nil S S' : Permutation S S' -> spec_run S [] S'
| spec_cons S o S1 ops S2 : spec_step S o S1 -> spec_run S1 ops S2 -> spec_run S (o :: ops) S2.

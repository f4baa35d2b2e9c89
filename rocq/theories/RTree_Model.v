(** Model of lib/RStarTree/RStarTree.h and lib/RStarTree/RStarVisitor.h.
    (multiscale/RStarTree is a copy whose root pointer is an auto_ptr; the algorithms are the same.)

    The geometric heuristics (which subtree, which sort order, which split index) are the fields of a
    [config] record, so that the theorems hold for every choice the floating point code could make;
    RTree_Heuristics.v gives the code's own choices as one instance. *)
Require Import ZArith List Bool Arith.
Require Import Verif.Box_Model.
Import ListNotations.

(** RStarTree.h:56-61 [RStarLeaf]: the stored value (a size_t in the library) and its box. *)
Record leaf := mkLeaf { lid : nat; lbox : box }.

(** RStarTree.h:64-78 [RStarNode]: [NL] is a node with [hasLeaves = true], [NI] one with
    [hasLeaves = false].  Simplification: the untyped [items] vector is typed by [hasLeaves]; the one
    cast that could go wrong (line 642) is modelled explicitly in [overflow_node]. *)
Inductive node :=
| NL (b : box) (items : list leaf)
| NI (b : box) (items : list node).

Definition nbox (n : node) : box := match n with NL b _ => b | NI b _ => b end.
Definition nitems (n : node) : nat := match n with NL _ l => length l | NI _ l => length l end.

(** Template parameters (RStarTree.h:95-99) and heuristics.
    - [choose]: result of ChooseSubtree (347-392): the items, possibly reordered by the partial_sort of
      line 361, and the index of the chosen one.
    - [split_leaves], [split_nodes]: result of the search of Split (499-595): the items in the chosen
      order and [split_index].
    - [far_sort]: order produced by the partial_sort of Reinsert (627-628). *)
Record config := mkConfig {
  dims : nat;
  min_items : nat;
  max_items : nat;
  choose : list node -> box -> list node * nat;
  split_leaves : list leaf -> list leaf * nat;
  split_nodes : list node -> list node * nat;
  far_sort : list leaf -> box -> list leaf }.

(** RStarTree.h:602-606, 635-636: [reset] then [stretch] by every item. *)
Definition cover (d : nat) (bs : list box) : box := fold_left stretch bs (reset_box d).

Definition leaf_node (c : config) (items : list leaf) : node := NL (cover (dims c) (map lbox items)) items.
Definition inner_node (c : config) (items : list node) : node := NI (cover (dims c) (map nbox items)) items.

(** RStarTree.h:491-609 [Split]: the node keeps the first [split_index] items, the new node gets the
    others; both boxes are recomputed. *)
Definition split_leaf_node (c : config) (items : list leaf) : node * node :=
  let '(s, i) := split_leaves c items in (leaf_node c (firstn i s), leaf_node c (skipn i s)).
Definition split_inner_node (c : config) (items : list node) : node * node :=
  let '(s, i) := split_nodes c items in (inner_node c (firstn i s), inner_node c (skipn i s)).

(** RStarTree.h:464-474: new root above the split root. *)
Definition new_root (c : config) (a b : node) : node := inner_node c [a; b].

(** RStarTree.h:618, RTREE_REINSERT_P = 0.30 (line 48). *)
Definition reinsert_count (n : nat) : nat := Nat.max 1 (3 * n / 10).

(** RStarTree.h:613-636, first half of [Reinsert]: the remaining node and the removed leaves. *)
Definition reinsert_far (c : config) (b : box) (items : list leaf) : node * list leaf :=
  let n := length items in
  let k := n - reinsert_count n in
  let s := far_sort c items b in
  (leaf_node c (firstn k s), skipn k s).

(** Result of InsertInternal on a node: the updated node, the split sibling to be added by the caller,
    and the leaves that Reinsert took out.  Simplification: C++ reinserts those leaves (line 641-642)
    before returning through the enclosing InsertInternal frames; these frames do nothing after
    receiving NULL (line 422-423), so the model reinserts after they returned. *)
Definition ins_result : Type := (node * option node * list leaf)%type.

(** RStarTree.h:448-483 [OverflowTreatment] on a node with leaves. *)
Definition overflow_leaf (c : config) (first isroot : bool) (b : box) (items : list leaf) : option ins_result :=
  if negb isroot && first then
    let '(n, far) := reinsert_far c b items in Some (n, None, far)
  else
    let '(n1, n2) := split_leaf_node c items in
    if isroot then Some (new_root c n1 n2, None, []) else Some (n1, Some n2, []).

(** RStarTree.h:448-483 [OverflowTreatment] on a node without leaves.  [None]: Reinsert would cast
    nodes to leaves (line 642), which is undefined. *)
Definition overflow_node (c : config) (first isroot : bool) (items : list node) (rs : list leaf) : option ins_result :=
  if negb isroot && first then None
  else
    let '(n1, n2) := split_inner_node c items in
    if isroot then Some (new_root c n1 n2, None, rs) else Some (n1, Some n2, rs).

Fixpoint set_nth {A} (i : nat) (x : A) (l : list A) : list A :=
  match l, i with
  | [], _ => []
  | _ :: l', O => x :: l'
  | y :: l', S i' => y :: set_nth i' x l'
  end.

(** RStarTree.h:398-444 [InsertInternal].  [None]: undefined behaviour, or not enough fuel. *)
Fixpoint insert_internal (c : config) (fuel : nat) (first isroot : bool) (lf : leaf) (n : node)
  : option ins_result :=
  match fuel with
  | O => None
  | S fuel' =>
    match n with
    | NL b items =>
        let b' := stretch b (lbox lf) in
        let items' := items ++ [lf] in
        if max_items c <? length items' then overflow_leaf c first isroot b' items'
        else Some (NL b' items', None, [])
    | NI b items =>
        let b' := stretch b (lbox lf) in
        match items with
        | [] => None  (* ChooseSubtree reads items[0], line 350 *)
        | _ :: _ =>
          let '(its, i) := choose c items (lbox lf) in
          match nth_error its i with
          | None => None
          | Some ch =>
            match insert_internal c fuel' first false lf ch with
            | None => None
            | Some (ch', None, rs) => Some (NI b' (set_nth i ch' its), None, rs)
            | Some (ch', Some sp, rs) =>
                let items' := set_nth i ch' its ++ [sp] in
                if max_items c <? length items' then overflow_node c first isroot items' rs
                else Some (NI b' items', None, rs)
            end
          end
        end
    end
  end.

Fixpoint height (n : node) : nat :=
  match n with
  | NL _ _ => 1
  | NI _ items => S (list_max (map height items))
  end.

(** InsertInternal(leaf, m_root, first), lines 174, 303, 642: new root and leaves to reinsert. *)
Definition insert_root (c : config) (first : bool) (r : node) (lf : leaf) : option (node * list leaf) :=
  match insert_internal c (height r) first true lf r with
  | Some (r', _, rs) => Some (r', rs)
  | None => None
  end.

(** RStarTree.h:641-642, second half of [Reinsert].  [None] also when a reinsertion would trigger another
    forced reinsertion. *)
Fixpoint reinsert_all (c : config) (r : node) (ls : list leaf) : option node :=
  match ls with
  | [] => Some r
  | l :: ls' =>
      match insert_root c false r l with
      | Some (r', []) => reinsert_all c r' ls'
      | _ => None
      end
  end.

(** InsertInternal(leaf, m_root) with its forced reinsertion completed. *)
Definition insert_full (c : config) (r : node) (lf : leaf) : option node :=
  match insert_root c true r lf with
  | Some (r', rs) => reinsert_all c r' rs
  | None => None
  end.

(** RStarTree.h:844-846: [m_root] (null before the first insertion) and [m_size]. *)
Record rtree := mkTree { troot : option node; tsize : nat }.

(** RStarTree.h:122. *)
Definition empty_tree : rtree := mkTree None 0.

(** RStarTree.h:153-177 [Insert]. *)
Definition insert (c : config) (t : rtree) (lf : leaf) : option rtree :=
  match troot t with
  | None => Some (mkTree (Some (NL (lbox lf) [lf])) (S (tsize t)))
  | Some r =>
      match insert_full c r lf with
      | Some r' => Some (mkTree (Some r') (S (tsize t)))
      | None => None
      end
  end.

(** RStarTree.h:143-150 [getOverallBox]; [None] is the exception out_of_range. *)
Definition overall_box (t : rtree) : option box :=
  match troot t with None => None | Some r => Some (nbox r) end.

(** RStarTree.h:652-702 [VisitFunctor], [QueryFunctor].  The visitor is a state [s] with its
    [ContinueVisiting] flag and its call operator. *)
Section Query.
  Variable S : Type.
  Variable accN : box -> bool.
  Variable accL : leaf -> bool.
  Variable continue : S -> bool.
  Variable visit : leaf -> S -> S.

  Fixpoint query_node (n : node) (s : S) : S :=
    if continue s && accN (nbox n) then
      match n with
      | NL _ items => fold_left (fun s l => if accL l then visit l s else s) items s
      | NI _ items => fold_left (fun s ch => query_node ch s) items s
      end
    else s.

  (** RStarTree.h:244-265 [Query]. *)
  Definition query (t : rtree) (s : S) : S :=
    match troot t with None => s | Some r => query_node r s end.
End Query.

(** RStarVisitor.h:49-121, the acceptors: [AcceptOverlapping], [AcceptEnclosing], [AcceptEnclosed],
    [AcceptAny].  First component: the operator on a node, second: on a leaf. *)
Inductive acceptor :=
| AcceptOverlapping (q : box)
| AcceptEnclosing (q : box)
| AcceptEnclosed (q : box)
| AcceptAny.

Definition accept_node (a : acceptor) (b : box) : bool :=
  match a with
  | AcceptOverlapping q => overlaps q b
  | AcceptEnclosing q => overlaps q b
  | AcceptEnclosed q => overlaps q b
  | AcceptAny => true
  end.

Definition accept_leaf (a : acceptor) (l : leaf) : bool :=
  match a with
  | AcceptOverlapping q => overlaps q (lbox l)
  | AcceptEnclosing q => encloses q (lbox l)
  | AcceptEnclosed q => encloses (lbox l) q
  | AcceptAny => true
  end.

(** The leaves gathered by a visitor that never stops (index.hpp:140-150 [Gatherer]). *)
Definition gather (a : acceptor) (t : rtree) : list leaf :=
  query (list leaf) (accept_node a) (accept_leaf a) (fun _ => true) (fun l s => s ++ [l]) t [].

(** RStarTree.h:708-724 [ModifFunctor] with TranslateBoundingBox (RStarBoundingBox.h:354-366). *)
Definition translate_leaf (v : list Z) (l : leaf) : leaf := mkLeaf (lid l) (translate (lbox l) v).
Fixpoint translate_node (v : list Z) (n : node) : node :=
  match n with
  | NL b items => NL (translate b v) (map (translate_leaf v) items)
  | NI b items => NI (translate b v) (map (translate_node v) items)
  end.

(** RStarTree.h:325-339 [Modif], [operator+=]. *)
Definition translate_tree (v : list Z) (t : rtree) : rtree :=
  match troot t with
  | None => t
  | Some r => mkTree (Some (translate_node v r)) (tsize t)
  end.

(** RStarTree.h:824-839 [QueueItemsToReinsert]: all the leaves below a node, in order.  Also used as the
    reading of the content of a tree. *)
Fixpoint leaves (n : node) : list leaf :=
  match n with
  | NL _ items => items
  | NI _ items => flat_map leaves items
  end.

(** RStarTree.h:764-819 [RemoveFunctor] and 738-760 [RemoveLeafFunctor].
    Result: the node as kept by its parent ([None] when the functor returns true, the node being
    deleted), the leaves queued for reinsertion, the deleted leaves.
    Simplification: the leaf remover is a pure predicate (RStarRemoveLeaf, RStarVisitor.h:150-159, is
    the constant true). *)
Section Remove.
  Variable c : config.
  Variable accN : box -> bool.
  Variable accL : leaf -> bool.
  Variable rm : leaf -> bool.

  Definition delete_leaf (l : leaf) : bool := accL l && rm l.

  (** lines 791-813: what happens to a node once its items were filtered. *)
  Definition settle (isroot : bool) (n : node) : option node * list leaf :=
    if isroot then
      if nitems n =? 0 then (Some (NL (reset_box (dims c)) []), []) else (Some n, [])
    else if nitems n =? 0 then (None, [])
    else if nitems n <? min_items c then (None, leaves n)
    else (Some n, []).

  Fixpoint remove_node (isroot : bool) (n : node) : option node * list leaf * list leaf :=
    if accN (nbox n) then
      match n with
      | NL b items =>
          let kept := filter (fun l => negb (delete_leaf l)) items in
          let dels := filter delete_leaf items in
          let '(on, q) := settle isroot (NL b kept) in
          (on, q, dels)
      | NI b items =>
          let rs := map (remove_node false) items in
          let kept := flat_map (fun r => match fst (fst r) with Some x => [x] | None => [] end) rs in
          let qs := flat_map (fun r => snd (fst r)) rs in
          let dels := flat_map snd rs in
          let '(on, q) := settle isroot (NI b kept) in
          (on, qs ++ q, dels)
      end
    else (Some n, [], []).

  (** RStarTree.h:297-303: reinsertion of the queued leaves. *)
  Fixpoint insert_queue (r : node) (ls : list leaf) : option node :=
    match ls with
    | [] => Some r
    | l :: ls' => match insert_full c r l with Some r' => insert_queue r' ls' | None => None end
    end.
End Remove.

(** RStarTree.h:285-305 [Remove].  With a null root the acceptors test the pointer
    (RStarVisitor.h:62, 83, 120) except AcceptEnclosed (line 101-104), which dereferences it. *)
Definition remove (c : config) (a : acceptor) (rm : leaf -> bool) (t : rtree) : option rtree :=
  match troot t with
  | None => match a with AcceptEnclosed _ => None | _ => Some t end
  | Some r =>
      match remove_node c (accept_node a) (accept_leaf a) rm true r with
      | (Some r', q, dels) =>
          match insert_queue c r' q with
          | Some r'' => Some (mkTree (Some r'') (tsize t - length dels))
          | None => None
          end
      | (None, _, _) => None
      end
  end.

(** RStarTree.h:308-311 [RemoveBoundedArea]. *)
Definition remove_bounded_area (c : config) (q : box) (t : rtree) : option rtree :=
  remove c (AcceptEnclosing q) (fun _ => true) t.

(** Histories of public operations. *)
Inductive op :=
| OpInsert (lf : leaf)
| OpRemove (a : acceptor) (rm : leaf -> bool)
| OpTranslate (v : list Z).

Definition step (c : config) (t : rtree) (o : op) : option rtree :=
  match o with
  | OpInsert lf => insert c t lf
  | OpRemove a rm => remove c a rm t
  | OpTranslate v => Some (translate_tree v t)
  end.

Fixpoint run (c : config) (t : rtree) (ops : list op) : option rtree :=
  match ops with
  | [] => Some t
  | o :: ops' => match step c t o with Some t' => run c t' ops' | None => None end
  end.

(** Model of lib/index.hpp and lib/index.cpp. *)
Require Import ZArith List Bool Arith.
Require Import Verif.Base Verif.SortU Verif.Box_Model Verif.RTree_Model.
Import ListNotations.
Local Open Scope Z_scope.

(** A raw pointer member: not initialised, null, or pointing to a value.  Reading [Uninit] is undefined
    behaviour ([None]). *)
Inductive ptr (A : Type) := Uninit | Null | Ptr (a : A).
Arguments Uninit {A}. Arguments Null {A}. Arguments Ptr {A} a.

(** index.hpp:133-156 [RStarIndex_S].  insert: index.cpp:105-108. *)
Definition rstar_insert (c : config) (t : rtree) (i : nat) (b : box) : option rtree := insert c t (mkLeaf i b).
(** index.cpp:111-117: gathers (index.hpp:140-150), sorts, removes duplicates. *)
Definition rstar_query (t : rtree) (q : box) : list nat := sort_unique (map lid (gather (AcceptEnclosing q) t)).

(** index.hpp:119-130 [BruteSpatialIndex]. *)
Record brute := mkBrute { b_overall : ptr box; b_items : list (nat * box) }.
(** index.cpp:75-82.  The multimap keeps insertion order among equal keys. *)
Definition brute_insert (x : brute) (i : nat) (b : box) : option brute :=
  let items := ins (fun p q => (fst p <? fst q)%nat) (i, b) (b_items x) in
  match b_overall x with
  | Uninit => None
  | Null => Some (mkBrute (Ptr b) items)
  | Ptr o => Some (mkBrute (Ptr (stretch o b)) items)
  end.
(** index.cpp:87-96. *)
Definition brute_query (x : brute) (q : box) : list nat :=
  sort_unique (map fst (filter (fun p => encloses q (snd p)) (b_items x))).
(** index.cpp:99-103: the items are moved, not the overall box. *)
Definition brute_translate (v : list Z) (x : brute) : brute :=
  mkBrute (b_overall x) (map (fun p => (fst p, translate (snd p) v)) (b_items x)).

(** Histories common to both classes: insert (index.hpp:83) and translation (index.hpp:94). *)
Inductive iop := IInsert (i : nat) (b : box) | ITranslate (v : list Z).
Definition rstar_step (c : config) (t : rtree) (o : iop) : option rtree :=
  match o with
  | IInsert i b => rstar_insert c t i b
  | ITranslate v => Some (translate_tree v t)
  end.
Definition brute_step (x : brute) (o : iop) : option brute :=
  match o with
  | IInsert i b => brute_insert x i b
  | ITranslate v => Some (brute_translate v x)
  end.
Fixpoint rstar_run (c : config) (t : rtree) (ops : list iop) : option rtree :=
  match ops with
  | [] => Some t
  | o :: ops' => match rstar_step c t o with Some t' => rstar_run c t' ops' | None => None end
  end.
Fixpoint brute_run (x : brute) (ops : list iop) : option brute :=
  match ops with
  | [] => Some x
  | o :: ops' => match brute_step x o with Some x' => brute_run x' ops' | None => None end
  end.

(** index.hpp:41-47 INDEX_CONSTRUCTOR: item number [i] is inserted with the key [i]. *)
Definition numbered (items : list box) : list iop := map (fun p => IInsert (fst p) (snd p)) (combine (seq 0 (length items)) items).
Definition rstar_build (c : config) (items : list box) : option rtree := rstar_run c empty_tree (numbered items).
(** The constructor does not mention the member [overallBox]; [p0] is its initial value, [Uninit] in the
    code as written. *)
Definition brute_build (p0 : ptr box) (items : list box) : option brute := brute_run (mkBrute p0 []) (numbered items).
Definition brute_construct (items : list box) : option brute := brute_build Uninit items.

(** index.hpp:129: dereferences the pointer. *)
Definition brute_overall (x : brute) : option box := match b_overall x with Ptr b => Some b | _ => None end.

(** index.cpp:29-34: the overall box reduced on its first [k] axes (k = 3 - noZ). *)
Fixpoint shrink (margin : Z) (k : nat) (b : box) : box :=
  match k, b with
  | S k', e :: b' =>
      (if 2 * margin <? snd e - fst e then (fst e + margin, snd e - margin) else e) :: shrink margin k' b'
  | _, _ => b
  end.
(** index.cpp:26-37 [SpatialIndex::getInside].  [None]: getOverallBox throws or is undefined. *)
Definition get_inside (overall : option box) (query : box -> list nat) (margin : Z) (noz : bool) : option (list nat) :=
  match overall with
  | None => None
  | Some b => Some (query (shrink margin (if noz then 2 else 3) b))
  end.
Definition rstar_inside (t : rtree) := get_inside (overall_box t) (rstar_query t).
Definition brute_inside (x : brute) := get_inside (brute_overall x) (brute_query x).

(** index.hpp:159-170 [TreeIndex_T]: tree[s][d] is the std::set of the objects of interval [s,s+d]. *)
Record tindex := mkTIndex { ti_tree : list (list (list nat)); ti_overall : ptr (nat * nat) }.

Local Open Scope nat_scope.
(** index.cpp:129-132: push_back of empty elements until index [n] exists. *)
Definition grow {A} (dflt : A) (n : nat) (l : list A) : list A := l ++ repeat dflt (S n - length l).

(** Insertion in a std::set<size_t>. *)
Fixpoint set_insert (x : nat) (l : list nat) : list nat :=
  match l with
  | [] => [x]
  | y :: l' => if x <? y then x :: l else if x =? y then l else y :: set_insert x l'
  end.

Definition upd_nth {A} (i : nat) (f : A -> A) (l : list A) : list A :=
  match nth_error l i with Some x => set_nth i (f x) l | None => l end.

(** index.cpp:120-134.  [None]: reading the uninitialised pointer, or an interval whose end precedes its
    start ([in.second-in.first] wraps around and the loop of line 131 exhausts the memory). *)
Definition t_insert (x : tindex) (i : nat) (iv : nat * nat) : option tindex :=
  let '(s, e) := iv in
  if e <? s then None else
  match ti_overall x with
  | Uninit => None
  | o =>
      let o' := match o with Ptr (a, b) => (Nat.min a s, Nat.max b e) | _ => (s, e) end in
      let tree1 := grow [] s (ti_tree x) in
      let tree2 := upd_nth s (fun row => upd_nth (e - s) (set_insert i) (grow [] (e - s) row)) tree1 in
      Some (mkTIndex tree2 (Ptr o'))
  end.

(** index.cpp:137-146.  [None]: reading tree[t0] with t0 = tree.size().  When the query interval ends before
    it starts, [in.second-in.first] wraps around to a huge number and the inner loop is empty. *)
Fixpoint t_rows (tree : list (list (list nat))) (tail : list (list nat) -> list (list nat)) (t0s : list nat)
  : option (list nat) :=
  match t0s with
  | [] => Some []
  | t0 :: rest =>
      match nth_error tree t0 with
      | None => None
      | Some row => match t_rows tree tail rest with
                    | Some r => Some (concat (tail row) ++ r)
                    | None => None
                    end
      end
  end.
Definition t_query (x : tindex) (iv : nat * nat) : option (list nat) :=
  let '(a, b) := iv in
  let tail := if b <? a then (fun _ => []) else skipn (b - a) in
  match t_rows (ti_tree x) tail (seq 0 (S (Nat.min a (length (ti_tree x))))) with
  | Some sel => Some (sort_unique sel)
  | None => None
  end.

Fixpoint t_run (x : tindex) (items : list (nat * (nat * nat))) : option tindex :=
  match items with
  | [] => Some x
  | (i, iv) :: rest => match t_insert x i iv with Some x' => t_run x' rest | None => None end
  end.
(** index.hpp:166 with INDEX_CONSTRUCTOR; [p0] as in [brute_build]. *)
Definition t_build (p0 : ptr (nat * nat)) (items : list (nat * nat)) : option tindex :=
  t_run (mkTIndex [] p0) (combine (seq 0 (length items)) items).
Definition t_construct (items : list (nat * nat)) : option tindex := t_build Uninit items.

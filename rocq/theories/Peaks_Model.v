(** Model of graphic/tracker.cpp:546-808: pixel centres, automatic threshold, and the neighbourhood read to refine a centre. *)
Require Import List Bool Arith ZArith.
Require Import Verif.Base Verif.Traj_Model Verif.Particles_Model Verif.RTree_Model Verif.Boo_Model Verif.Corr_Model Verif.Pyramid_Model.
Import ListNotations.

(** std::find_if != end, the test of an element being possibly undefined. *)
Fixpoint any_o {A} (f : A -> outcome bool) (l : list A) : outcome bool := match l with [] => Val false | x :: r => obind (f x) (fun b => if b then Val true else any_o f r) end.
(** Reading at a pointer moved back or forth by s. *)
Definition back {A} (l : list A) (p s : nat) : outcome A := if p <? s then UB else at_index l (p - s).
Definition forth {A} (l : list A) (p s : nat) : outcome A := at_index l (p + s).

Section Centers.
Variables (V : Type) (above : V -> bool) (lt : V -> V -> bool) (n0 n1 n2 : nat).
Definition margin : nat := 6.
(** centersMap.num_elements(); centersMap.strides() of the dimensions with at least 2*margin+1 pixels. *)
Definition elements : nat := n0 * n1 * n2.
Definition thick (n : nat) : bool := 2 * margin + 1 <=? n.
Definition strides : list nat := (if thick n0 then [n1 * n2] else []) ++ (if thick n1 then [n2] else []) ++ (if thick n2 then [1] else []).
(** tracker.cpp:568-571 *)
Definition offset : nat := fold_left (fun o s => o + margin * s) strides 0.
(** tracker.cpp:600-615.  The pointers px, c, neighbours and ngbcenters all advance by one at every turn: they are given by the index p of px.  [above x] is x >= threshold. *)
Definition is_center (data : list V) (map : list bool) (p : nat) : outcome bool :=
  obind (at_index data p) (fun x => if above x then
    obind (any_o (fun s => obind (back data p s) (fun y => if lt x y then Val true else omap (lt x) (forth data p s))) strides) (fun greater => if greater then Val false else
    omap negb (any_o (back map p) strides)) else Val false).
(** tracker.cpp:594-622; when end < px the loop leaves the block. *)
Definition scan (data : list V) (map : list bool) : outcome (list bool) :=
  if elements <? 2 * offset then UB else ofold (fun p m => obind (is_center data m p) (fun b => write p b m)) (seq offset (elements - 2 * offset)) map.
Definition clear (l : list nat) (m : list bool) : outcome (list bool) := ofold (fun p m => write p false m) l m.
(** tracker.cpp:630-635 *)
Definition margin1 : list nat := if thick n1 then flat_map (fun i => seq (i * (n1 * n2)) (n2 * margin) ++ seq (i * (n1 * n2) + (n1 - margin) * n2) (n2 * margin)) (seq 0 n0) else [].
(** tracker.cpp:636-642 *)
Definition margin2 : list nat := if thick n2 then flat_map (fun i => flat_map (fun j => seq (i * (n1 * n2) + j * n2) margin ++ map (fun q => i * (n1 * n2) + j * n2 + (n2 - 1 - q)) (seq 0 margin)) (seq 0 n1)) (seq 0 n0) else [].
(** tracker.cpp:546-644 findPixelCenters, after unpad *)
Definition find_pixel_centers (data : list V) (m : list bool) : outcome (list bool) := obind (scan data m) (fun m => obind (clear margin1 m) (clear margin2)).

(** tracker.cpp:762-764: positions of the centres. *)
Definition flat_positions (m : list bool) : list nat := filter (fun p => nth p m false) (seq 0 (length m)).

(** tracker.cpp:688-703: the indices of pixel l and the neighbourhood copied around it; a range out of the extents is undefined behaviour (assertion of boost::multi_array). *)
Definition scope : nat := 2.
Definition range (n i : nat) : outcome (list nat) :=
  if n <? 2 * scope + 1 then Val (seq 0 n) else if (i <? scope) || (n <? i + scope + 1) then UB else Val (seq (i - scope) (2 * scope + 1)).
Definition neighbourhood (data : list V) (l : nat) : outcome (list V) :=
  let i := l / (n1 * n2) in let j := (l mod (n1 * n2)) / n2 in let k := (l mod (n1 * n2)) mod n2 in
  obind (range n0 i) (fun li => obind (range n1 j) (fun lj => obind (range n2 k) (fun lk =>
    osequence (map (fun p => at_index data p) (flat_map (fun a => flat_map (fun b => map (fun c => a * (n1 * n2) + b * n2 + c) lk) lj) li))))).
End Centers.

Section Threshold.
(** Pixel intensities: floats, modelled by integers in some unit, with exact arithmetic. *)
Variable I : nat -> Z.
Open Scope Z_scope.
(** tracker.cpp:768: std::list::sort by intensity is stable. *)
Definition by_intensity (l : list nat) : list nat := sort_by (fun a b => I a <? I b) l.
(** tracker.cpp:776-780: floor of (x - minhist)*100/(maxhist - minhist); maxhist > minhist *)
Definition bin (lo hi x : Z) : nat := Z.to_nat ((x - lo) * 100 / (hi - lo)).
Definition incr (k : nat) (h : list nat) : list nat := if (k <? length h)%nat then RTree_Model.set_nth k (S (nth k h 0%nat)) h else h.
Definition histogram (lo hi : Z) (l : list nat) : list nat := fold_left (fun h c => incr (bin lo hi (I c)) h) l (repeat 0%nat 100).
Close Scope Z_scope.
(** std::max_element, std::min_element on [first, last): the first extremum; [last] when the range is empty. *)
Definition max_element (h : list nat) : nat := min_index (fun a b => b <? a) h.
Definition min_element (h : list nat) (first last : nat) : nat := if first <? last then first + min_index Nat.ltb (firstn (last - first) (skipn first h)) else last.
(** std::lower_bound of 1 by dichotomy, as in libstdc++; the fuel is the length of the range. *)
Fixpoint lower_bound (fuel : nat) (h : list nat) (first len : nat) : nat :=
  match fuel with
  | 0 => first
  | S f => if len =? 0 then first else let half := len / 2 in if nth (first + half) h 0 <? 1 then lower_bound f h (first + half + 1) (len - half - 1) else lower_bound f h first half
  end.
(** tracker.cpp:794-799: [None] when the fuel is exhausted. *)
Fixpoint climb (fuel : nat) (h : list nat) (lowest peak : nat) : option nat :=
  match fuel with 0 => None | S f => if nth lowest h 0 =? 0 then climb f h (min_element h lowest peak) peak else Some lowest end.
Definition valley (fuel : nat) (h : list nat) : option nat :=
  let peak := max_element h in climb fuel h (min_element h (lower_bound peak h 0 peak) peak) peak.
(** tracker.cpp:766-808: the positions kept.  front() of an empty list and conversion to size_t of 0*infinity are undefined. *)
Definition auto_threshold (fuel : nat) (positions : list nat) : outcome (option (list nat)) :=
  let l := by_intensity positions in
  match l with
  | [] => UB
  | c0 :: _ => let lo := I c0 in let hi := I (last l c0) in
    if (hi =? lo)%Z then UB else
    let h := histogram lo hi l in
    Val (option_map (fun lowest => skipn (fold_left Nat.add (firstn lowest h) 0) l) (valley fuel h))
  end.
End Threshold.

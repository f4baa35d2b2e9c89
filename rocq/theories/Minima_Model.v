(** Model of the detection of local minima of the scale space, multiscale/src/octavefinder.cpp.
    Pixel values are integers: the code only compares them (any finite set of floats without NaN is order-isomorphic to integers), except
    in the tests kept as parameters ([tiny], [edge]). *)
Require Import ZArith List Bool Arith.
Require Import Verif.Base Verif.Traj_Model Verif.Particles_Model Verif.Corr_Model Verif.RTree_Model Verif.Boo_Model.
Import ListNotations.
Local Open Scope nat_scope.

(** std::min_element: the position of the first smallest element. *)
Fixpoint min_from (best : nat) (v : Z) (pos : nat) (l : list Z) : nat :=
  match l with
  | [] => best
  | x :: l' => if (x <? v)%Z then min_from pos x (S pos) l' else min_from best v (S pos) l'
  end.
Definition min_pos (l : list Z) : nat := match l with [] => 0 | x :: l' => min_from 0 x 1 l' end.
(** !!(ml&1), !!(ml&2), !!(ml&4), !!(ml&8) *)
Definition bit (m n : nat) : nat := if Nat.testbit m n then 1 else 0.
(** for(int j=a; j<b; j+=2), b possibly negative *)
Definition range2 (a : nat) (b : Z) : list nat := map (fun t => a + 2 * t) (seq 0 (Z.to_nat ((b - Z.of_nat a + 1) / 2))).
(** The values x-1, x, x+1. *)
Definition around (x : nat) : list nat := [x - 1; x; x + 1].

(** The body of the loops: the 2^d pixels of a block are read; the first smallest is compared with its neighbours outside the block.
    Result: the pixel whose binary flag is written, with its final value. *)
Section Visit.
  Variable C : Type.
  Variable read : C -> outcome Z.
  (** values that the code drops at once, and values too small to be told from zero *)
  Variables (drop tiny : Z -> bool).
  Variable allowed : C -> outcome bool.
  Variable keep : C -> outcome bool.
  (** neighbours outside the block, in the order of the loops; stops at the first lower one *)
  Fixpoint above (v : Z) (ns : list C) : outcome bool :=
    match ns with [] => Val true | n :: ns' => obind (read n) (fun x => if (v <=? x)%Z then above v ns' else Val false) end.
  Definition visit (rc : list C) (name : nat -> C) (refval : Z -> C -> outcome Z) (outside : C -> list C) : outcome (option (C * bool)) :=
    obind (osequence (map read rc)) (fun ngb =>
    let m := min_pos ngb in
    let v := nth m ngb 0%Z in
    if drop v then Val None else
    let c := name m in
    obind (allowed c) (fun a => if a then
      if tiny v then Val (Some (c, false)) else
      obind (refval v c) (fun u =>
      obind (above u (outside c)) (fun b => if b then omap (fun e => Some (c, e)) (keep c) else Val (Some (c, false))))
    else Val None)).
End Visit.
(** The writes of binary flags in order; the pixels put in the list of centers. *)
Definition collect {C} (l : list (option (C * bool))) : list (C * bool) := flat_map (fun o => match o with Some x => [x] | None => [] end) l.
(** binary[k].setTo(0) and the writes (octavefinder.cpp:345-346, 381-407): the flag of pixel [c] in the end *)
Definition flag_after {C} (eqb : C -> C -> bool) (ws : list (C * bool)) (c : C) : bool := fold_left (fun b w => if eqb (fst w) c then snd w else b) ws false.
Definition centers_of {C} (ws : list (C * bool)) : list C := map fst (filter snd ws).

(** * Two dimensions *)
Section Two.
  (** [nl] = binary.size(), number of layers that can hold a minimum; layers 0..nl+1 of [rows] x [cols] pixels; sizes *)
  Variables (nl rows cols : nat) (px : nat -> nat -> nat -> Z) (sizes : list nat) (tiny : Z -> bool).
  (** the edge test, a function of the 9 values around the pixel: true when kept *)
  Variable hessian : list Z -> bool.
  Definition cell := (nat * nat * nat)%type.
  Definition read2 (c : cell) : outcome Z := let '(k, j, i) := c in if (k <? nl + 2) && (j <? rows) && (i <? cols) then Val (px k j i) else UB.
  (** octavefinder.cpp:362-367 *)
  Definition block2 (k j i : nat) : list cell := [(k, j, i); (k, j, S i); (k, S j, i); (k, S j, S i); (S k, j, i); (S k, j, S i); (S k, S j, i); (S k, S j, S i)].
  (** octavefinder.cpp:371-374 *)
  Definition name2 (k j i ml : nat) : cell := (k + bit ml 2, j + bit ml 1, i + bit ml 0).
  (** octavefinder.cpp:378 *)
  Definition allowed2 (c : cell) : outcome bool := let '(mk, mj, mi) := c in
    if nl <? mk then Val false else
    omap (fun s => (s <=? mj) && (mj + s <? rows) && (s <=? mi) && (mi + s <? cols)) (at_index sizes mk).
  (** octavefinder.cpp:386-390 *)
  Definition outside2 (k j i : nat) (c : cell) : list cell := let '(mk, mj, mi) := c in
    filter (fun n => let '(k2, j2, i2) := n in (k2 <? k) || (j2 <? j) || (i2 <? i) || (k + 1 <? k2) || (j + 1 <? j2) || (i + 1 <? i2))
      (flat_map (fun k2 => flat_map (fun j2 => map (fun i2 => (k2, j2, i2)) (around mi)) (around mj)) (around mk)).
  (** octavefinder.cpp:396-408 *)
  Definition keep2 (c : cell) : outcome bool := let '(mk, mj, mi) := c in
    omap hessian (osequence (map read2 (flat_map (fun j2 => map (fun i2 => (mk, j2, i2)) (around mi)) (around mj)))).
  Definition visit2 (b : cell) : outcome (option (cell * bool)) := let '(k, j, i) := b in
    visit cell read2 (fun v => 0 <=? v)%Z tiny allowed2 keep2 (block2 k j i) (name2 k j i) (fun v _ => Val v) (outside2 k j i).
  (** octavefinder.cpp:340-419 [OctaveFinder::initialize_binary]: the loops *)
  Definition si2 (k : nat) : nat := Nat.max (nth k sizes 0 + 1) 3.
  Definition blocks2 : list cell :=
    flat_map (fun k => flat_map (fun j => map (fun i => (k, j, i)) (range2 (si2 k) (Z.of_nat cols - Z.of_nat (si2 k)))) (range2 (si2 k) (Z.of_nat rows - Z.of_nat (si2 k)))) (range2 1 (Z.of_nat nl + 1)).
  Definition find2 : outcome (list (cell * bool)) := omap collect (osequence (map visit2 blocks2)).
End Two.

(** * One dimension *)
Section One.
  (** [pg]: the Gaussian layers *)
  Variables (nl cols : nat) (px pg : nat -> nat -> Z) (sizes : list nat) (tiny : Z -> bool).
  Variable gradient : list Z -> bool.
  Definition cell1 := (nat * nat)%type.
  Definition read1 (c : cell1) : outcome Z := let '(k, i) := c in if (k <? nl + 2) && (i <? cols) then Val (px k i) else UB.
  Definition readG1 (c : cell1) : outcome Z := let '(k, i) := c in if (k <? nl + 3) && (i <? cols) then Val (pg k i) else UB.
  (** octavefinder.cpp:443-446: the pointers start at sizes[k]+1 whereas i starts at max(sizes[k]+1,3) *)
  Definition block1 (k p : nat) : list cell1 := [(k, p); (k, S p); (S k, p); (S k, S p)].
  (** octavefinder.cpp:450-452 *)
  Definition name1 (k i ml : nat) : cell1 := (k + bit ml 1, i + bit ml 0).
  (** octavefinder.cpp:454 *)
  Definition allowed1 (c : cell1) : outcome bool := let '(mk, mi) := c in
    if nl <? mk then Val false else omap (fun s => (s <=? mi) && (mi + s <? cols)) (at_index sizes mk).
  (** octavefinder.cpp:460-463 *)
  Definition outside1 (k i : nat) (c : cell1) : list cell1 := let '(mk, mi) := c in
    filter (fun n => let '(k2, i2) := n in (k2 <? k) || (i2 <? i) || (k + 1 <? k2) || (i + 1 <? i2))
      (flat_map (fun k2 => map (fun i2 => (k2, i2)) (around mi)) (around mk)).
  (** octavefinder.cpp:466-470 *)
  Definition keep1 (c : cell1) : outcome bool := let '(mk, mi) := c in omap gradient (osequence (map (fun i2 => readG1 (mk, i2)) (around mi))).
  Definition si1 (k : nat) : nat := Nat.max (nth k sizes 0 + 1) 3.
  (** block: layer, first pixel, number of the iteration *)
  Definition visit1 (b : nat * nat) : outcome (option (cell1 * bool)) := let '(k, i) := b in
    visit cell1 read1 (fun v => 0 <=? v)%Z tiny allowed1 keep1 (block1 k (nth k sizes 0 + 1 + (i - si1 k))) (name1 k i) (fun _ c => read1 c) (outside1 k i).
  (** octavefinder.cpp:426-479 [OctaveFinder1D::initialize_binary] *)
  Definition blocks1 : list (nat * nat) := flat_map (fun k => map (fun i => (k, i)) (range2 (si1 k) (Z.of_nat cols - Z.of_nat (si1 k)))) (range2 1 (Z.of_nat nl + 1)).
  Definition find1 : outcome (list (cell1 * bool)) := omap collect (osequence (map visit1 blocks1)).
End One.

(** * Three dimensions: window of 8 planes *)
Section Three.
  Variables (nl depth rows cols : nat) (g : nat -> nat -> nat -> nat -> Z) (dog : Z -> Z -> Z) (sizes : list nat) (tiny : Z -> bool).
  Variable hessian : list Z -> bool.
  (** octavefinder.hpp:164-196 CircularZ4D: for every scale the same 8 slots, each with the number of the image plane copied there ([None]:
      the initial zeros), and z0.  The loops over l load the same planes for every scale. *)
  Record circ := { z0 : nat; slots : list (option nat) }.
  (** octavefinder.cpp:1042-1047 *)
  Definition circ_init : circ := {| z0 := 3; slots := repeat None 8 |}.
  Definition slot (c : circ) (k : Z) : nat := Z.to_nat (Z.rem (k + Z.of_nat (z0 c) + 8) 8).
  Fixpoint set_run (i : nat) (xs : list (option nat)) (l : list (option nat)) : list (option nat) :=
    match xs with [] => l | x :: xs' => set_run (S i) xs' (RTree_Model.set_nth i x l) end.
  (** octavefinder.cpp:1049-1061 [loadplanes]: n planes of the image from plane [first]. *)
  Definition loadplanes (first : Z) (k : Z) (n : nat) (c : circ) : outcome circ :=
    if 8 <? slot c k + n then Throw
    else if (first <? 0)%Z || (Z.of_nat depth <? first + Z.of_nat n)%Z then UB
    else Val {| z0 := z0 c; slots := set_run (slot c k) (map (fun t => Some (Z.to_nat first + t)) (seq 0 n)) (slots c) |}.
  (** octavefinder.hpp:186 *)
  Definition advance (c : circ) : circ := {| z0 := (z0 c + 2) mod 8; slots := slots c |}.
  (** octavefinder.hpp:173-185 [getG], [getDoG]; a cell is (scale, plane relative to the current one, row, column) *)
  Definition cell3 := (nat * Z * nat * nat)%type.
  Definition getG (st : circ) (c : cell3) : outcome Z := let '(l, k, j, i) := c in
    if (l <? nl + 3) && (j <? rows) && (i <? cols) && (0 <=? k + Z.of_nat (z0 st) + 8)%Z then
      match nth_error (slots st) (slot st k) with Some (Some p) => Val (g l p j i) | Some None => Val 0%Z | None => UB end
    else UB.
  Definition getDoG (st : circ) (c : cell3) : outcome Z := let '(l, k, j, i) := c in
    obind (getG st (S l, k, j, i)) (fun a => omap (fun b => dog a b) (getG st (l, k, j, i))).
  (** octavefinder.cpp:1062-1080 [blockmin] *)
  Definition block3 (l j i : nat) : list cell3 :=
    flat_map (fun l2 => flat_map (fun k2 => flat_map (fun j2 => map (fun i2 => (l + l2, Z.of_nat k2, j + j2, i + i2)) [0; 1]) [0; 1]) [0; 1]) [0; 1].
  Definition name3 (l j i mm : nat) : cell3 := (l + bit mm 3, Z.of_nat (bit mm 2), j + bit mm 1, i + bit mm 0).
  (** octavefinder.cpp:520-527 *)
  Definition allowed3 (k : nat) (c : cell3) : outcome bool := let '(ml, mk, mj, mi) := c in
    if nl <? ml then Val false else
    omap (fun s => (Z.of_nat s <=? mk + Z.of_nat k)%Z && (mk + Z.of_nat k + Z.of_nat s <? Z.of_nat depth)%Z && (s <=? mj) && (mj + s <? rows) && (s <=? mi) && (mi + s <? cols)) (at_index sizes ml).
  (** octavefinder.cpp:1081-1095 [is_localmin] *)
  Definition around_z (x : Z) : list Z := [x - 1; x; x + 1]%Z.
  Definition outside3 (l j i : nat) (c : cell3) : list cell3 := let '(ml, mk, mj, mi) := c in
    filter (fun n => let '(l2, k2, j2, i2) := n in (l2 <? l) || (k2 <? 0)%Z || (j2 <? j) || (i2 <? i) || (l + 1 <? l2) || (1 <? k2)%Z || (j + 1 <? j2) || (i + 1 <? i2))
      (flat_map (fun l2 => flat_map (fun k2 => flat_map (fun j2 => map (fun i2 => (l2, k2, j2, i2)) (around mi)) (around mj)) (around_z mk)) (around ml)).
  (** octavefinder.cpp:1099-1118 [is_edge] *)
  Definition keep3 (st : circ) (c : cell3) : outcome bool := let '(ml, mk, mj, mi) := c in
    omap hessian (osequence (map (getDoG st) (flat_map (fun j2 => map (fun i2 => (ml, mk, j2, i2)) (around mi)) (around mj)))).
  (** octavefinder.cpp:1119-1169 [shift]: the values from which the four shifts are computed *)
  Definition shift_values (st : circ) (c : cell3) : outcome (list (list Z)) := let '(ml, mk, mj, mi) := c in
    obind (osequence (map (fun u => getG st (ml - 1, mk, mj, mi - 3 + u)) (seq 0 7))) (fun a0 =>
    obind (osequence (map (fun u => getG st (ml - 1, mk, mj - 3 + u, mi)) (seq 0 7))) (fun a1 =>
    obind (osequence (map (fun u => getG st (ml - 1, (mk - 3 + Z.of_nat u)%Z, mj, mi)) (seq 0 7))) (fun a2 =>
    omap (fun a3 => [a0; a1; a2; a3]) (osequence (map (fun u => getDoG st (ml - 1 + u, mk, mj, mi)) (seq 0 3)))))).
  (** octavefinder.cpp:515-549: one block; the center is given in image coordinates (scale, plane, row, column) *)
  Definition visit3 (st : circ) (k : nat) (b : nat * nat * nat) : outcome (option ((nat * nat * nat * nat) * list (list Z))) := let '(l, j, i) := b in
    obind (visit cell3 (getDoG st) (fun v => (0 <? v)%Z || tiny v) (fun _ => false) (allowed3 k) (keep3 st) (block3 l j i) (name3 l j i) (fun v _ => Val v) (outside3 l j i)) (fun o =>
    match o with
    | Some (c, true) => let '(ml, mk, mj, mi) := c in omap (fun vs => Some ((ml, Z.to_nat (mk + Z.of_nat k), mj, mi), vs)) (shift_values st c)
    | _ => Val None
    end).
  Definition si3 (l : nat) : nat := Nat.max (nth l sizes 0) 3.
  Definition blocks3 : list (nat * nat * nat) :=
    flat_map (fun l => flat_map (fun j => map (fun i => (l, j, i)) (range2 (si3 l) (Z.of_nat cols - Z.of_nat (si3 l) - 1))) (range2 (si3 l) (Z.of_nat rows - Z.of_nat (si3 l) - 1))) (range2 1 (Z.of_nat nl + 1)).
  (** The loop over planes; [acc]: centers so far. *)
  Fixpoint loop3 (ks : list nat) (st : circ) (acc : list ((nat * nat * nat * nat) * list (list Z))) : outcome (list ((nat * nat * nat * nat) * list (list Z))) :=
    match ks with
    | [] => Val acc
    | k :: ks' =>
        obind (loadplanes (Z.of_nat k + 3) 3 2 st) (fun st =>
        obind (osequence (map (visit3 st k) blocks3)) (fun os =>
        loop3 ks' (advance st) (acc ++ flat_map (fun o => match o with Some x => [x] | None => [] end) os)))
    end.
  (** The windows in use during the search at each plane of [ks] (octavefinder.cpp:501-505, 555). *)
  Fixpoint windows_from (ks : list nat) (st : circ) : outcome (list circ) :=
    match ks with [] => Val [] | k :: ks' => obind (loadplanes (Z.of_nat k + 3) 3 2 st) (fun st => omap (cons st) (windows_from ks' (advance st))) end.
  (** octavefinder.cpp:481-557 [OctaveFinder3D::initialize_binary].  The parallel loop only appends to lists under a lock: the order of the
      centers is that of a sequential run here. *)
  Definition z_first : nat := Nat.max (nth 1 sizes 0) 3.
  Definition planes_visited : list nat := range2 z_first (Z.of_nat depth - Z.of_nat z_first - 1).
  Definition windows : outcome (list circ) := obind (loadplanes (Z.of_nat (nth 1 sizes 0) - 3) (-3) 6 circ_init) (windows_from planes_visited).
  Definition find3 : outcome (list ((nat * nat * nat * nat) * list (list Z))) :=
    obind (loadplanes (Z.of_nat (nth 1 sizes 0) - 3) (-3) 6 circ_init) (fun st =>
    loop3 planes_visited st []).
End Three.

(** Model of the geometric part of lib/particles.hpp and lib/particles.cpp.

    Coordinates and lengths are integers (see DESIGN.md, "Numbers"); a [Coord] is a list of three of them.
    Simplification: the spatial index is a RStarIndex_S, the only one the library itself installs
    (particles.cpp:98, 219); a BruteSpatialIndex could be passed to setIndex by the user. *)
Require Import ZArith List Bool Arith.
Require Import Verif.Base Verif.SortU Verif.Box_Model Verif.RTree_Model Verif.Index_Model Verif.Traj_Model Verif.Center_Model.
Import ListNotations.

(** particles.hpp:94-106: the vector of positions, the index (a null pointer is [None]), the box, the radius. *)
Record particles := mkParticles { pts : list (list Z); pindex : option rtree; pbb : box; pradius : Z }.

(** particles.cpp:198-209 [bounds]. *)
Definition bounds (p : list Z) (r : Z) : box := map (fun x => (x - r, x + r)%Z) p.

(** particles.cpp:212-220 [makeRTreeIndex].  [None]: insertion in the tree undefined. *)
Definition make_index (c : config) (st : particles) : option particles :=
  match rstar_build c (map (fun p => bounds p 0) (pts st)) with
  | Some t => Some (mkParticles (pts st) (Some t) (pbb st) (pradius st))
  | None => None
  end.
(** particles.cpp:82-87 [push_back]. *)
Definition push_back (c : config) (st : particles) (p : list Z) : option particles :=
  match pindex st with
  | None => Some (mkParticles (pts st ++ [p]) None (pbb st) (pradius st))
  | Some t =>
      match rstar_insert c t (length (pts st)) (bounds p 0) with
      | Some t' => Some (mkParticles (pts st ++ [p]) (Some t') (pbb st) (pradius st))
      | None => None
      end
  end.
Definition vadd (p v : list Z) : list Z := map (fun xy => (fst xy + snd xy)%Z) (combine p v).
Definition vmul (p v : list Z) : list Z := map (fun xy => (fst xy * snd xy)%Z) (combine p v).
(** particles.cpp:145-155 [operator+=]. *)
Definition shift (st : particles) (v : list Z) : particles :=
  mkParticles (map (fun p => vadd p v) (pts st)) (option_map (translate_tree v) (pindex st)) (translate (pbb st) v) (pradius st).
(** particles.cpp:124-133 [operator*=(Coord)]: the upper edges of the box and the positions; the index is left alone. *)
Definition rescale (st : particles) (v : list Z) : particles :=
  mkParticles (map (fun p => vmul p v) (pts st)) (pindex st)
    (map (fun ex => (fst (fst ex), snd (fst ex) * snd ex)%Z) (combine (pbb st) v)) (pradius st).
(** particles.cpp:135-142 [operator*=(double)]. *)
Definition rescale_all (st : particles) (m : Z) : particles :=
  let s := rescale st [m; m; m] in mkParticles (pts s) (pindex s) (pbb s) (pradius s * m)%Z.

(** Histories of a set of particles. *)
Inductive pop := PIndex | PPush (p : list Z) | PShift (v : list Z) | PScale (v : list Z) | PScaleAll (m : Z).
Definition pstep (c : config) (st : particles) (o : pop) : option particles :=
  match o with
  | PIndex => make_index c st
  | PPush p => push_back c st p
  | PShift v => Some (shift st v)
  | PScale v => Some (rescale st v)
  | PScaleAll m => Some (rescale_all st m)
  end.
Fixpoint prun (c : config) (st : particles) (ops : list pop) : option particles :=
  match ops with
  | [] => Some st
  | o :: ops' => match pstep c st o with Some st' => prun c st' ops' | None => None end
  end.
(** particles.hpp:110-111, constructor from a vector. *)
Definition new_particles (l : list (list Z)) (b : box) (r : Z) : particles := mkParticles l None b r.

(** particles.hpp:293-299 [selectEnclosed]: throws logic_error without index (debug build). *)
Definition select_enclosed (st : particles) (q : box) : outcome (list nat) :=
  match pindex st with None => Throw | Some t => Val (rstar_query t q) end.

(** particles.hpp:277-282 [getDiff(Coord, size_t)] then [dot(diff,diff)]; [at] throws out_of_range. *)
Definition sq_to (st : particles) (c : list Z) (i : nat) : outcome Z :=
  match nth_error (pts st) i with Some p => Val (sqdist p c) | None => Throw end.
(** particles.cpp:242-247, 260-266, 280-284: the particles of the list closer than [range], with their square distance. *)
Fixpoint keep_close (st : particles) (c : list Z) (range : Z) (skip : nat -> bool) (l : list nat) : outcome (list (Z * nat)) :=
  match l with
  | [] => Val []
  | i :: l' =>
      if skip i then keep_close st c range skip l' else
      match sq_to st c i with
      | Val d =>
          match keep_close st c range skip l' with
          | Val r => Val (if (d <? range * range)%Z then (d, i) :: r else r)
          | o => o
          end
      | Throw => Throw
      | UB => UB
      end
  end.
Definition omap {A B} (f : A -> B) (o : outcome A) : outcome B := match o with Val a => Val (f a) | Throw => Throw | UB => UB end.
Definition obind {A B} (o : outcome A) (f : A -> outcome B) : outcome B := match o with Val a => f a | Throw => Throw | UB => UB end.

(** particles.cpp:236-249 [getEuclidianNeighbours(Coord, double)]. *)
Definition euclid (st : particles) (c : list Z) (range : Z) : outcome (list nat) :=
  obind (select_enclosed st (bounds c range)) (fun l => omap (map snd) (keep_close st c range (fun _ => false) l)).
(** particles.cpp:254-268 [getEuclidianNeighbours(size_t, double)].  Reading this[center] out of range is undefined. *)
Definition euclid_of (st : particles) (i : nat) (range : Z) : outcome (list nat) :=
  match nth_error (pts st) i with
  | None => UB
  | Some c => obind (select_enclosed st (bounds c range)) (fun l => omap (map snd) (keep_close st c range (fun j => j =? i) l))
  end.
(** particles.cpp:273-286 [getEuclidianNeighboursBySqDist]: a multimap keeps insertion order among equal keys. *)
Definition euclid_by_dist (st : particles) (c : list Z) (range : Z) : outcome (list (Z * nat)) :=
  obind (select_enclosed st (bounds c range)) (fun l =>
    omap (sort_by (fun x y => (fst x <? fst y)%Z)) (keep_close st c range (fun _ => false) l)).

(** particles.cpp:305-319: first minimum below [mindist], [best] if none. *)
Fixpoint closest (st : particles) (c : list Z) (l : list nat) (mindist : Z) (best : nat) : outcome nat :=
  match l with
  | [] => Val best
  | i :: l' =>
      match sq_to st c i with
      | Val d => if (d <? mindist)%Z then closest st c l' d i else closest st c l' mindist best
      | Throw => Throw
      | UB => UB
      end
  end.
(** particles.cpp:292-320 [getNearestNeighbour].  [grow] is the multiplication by 1.1 with its rounding (line 299).
    [None]: out of fuel, the loop is still running. *)
Fixpoint nearest (grow : Z -> Z) (fuel : nat) (st : particles) (c : list Z) (rg : Z) : option (outcome nat) :=
  match fuel with
  | O => None
  | S fuel' =>
      match euclid st c rg with
      | Throw => Some Throw
      | UB => Some UB
      | Val [] => nearest grow fuel' st c (grow rg)
      | Val [i] => Some (Val i)
      | Val l => Some (closest st c l (rg * rg)%Z (length (pts st)))
      end
  end.

Fixpoint osequence {A} (l : list (outcome A)) : outcome (list A) :=
  match l with
  | [] => Val []
  | o :: l' => obind o (fun a => omap (cons a) (osequence l'))
  end.
(** particles.cpp:326-334 [makeNgbList(double)]; the bond length is the fraction bn/bd, [sep] is rounded. *)
Definition bond_sep (st : particles) (bn bd : Z) : Z := (2 * bn * pradius st / bd)%Z.
Definition make_ngb_list (st : particles) (bn bd : Z) : outcome (list (list nat)) :=
  osequence (map (fun p => euclid_of st p (bond_sep st bn bd)) (seq 0 (length (pts st)))).

(** particles.cpp:93-103 [cut]: [out] is indexed and has the default radius 1 ([one]). *)
Fixpoint cut_loop (c : config) (sep : Z) (l : list (list Z)) (out : particles) : outcome particles :=
  match l with
  | [] => Val out
  | p :: l' =>
      match euclid out p sep with
      | Val [] => match push_back c out p with Some out' => cut_loop c sep l' out' | None => UB end
      | Val _ => cut_loop c sep l' out
      | Throw => Throw
      | UB => UB
      end
  end.
Definition cut (c : config) (one : Z) (st : particles) (sep : Z) : outcome particles :=
  cut_loop c sep (pts st) (mkParticles [] (Some empty_tree) (pbb st) one).
(** particles.cpp:109-120 [removeShortRange]. *)
Fixpoint far_apart (st : particles) (sep : Z) (l : list (nat * list Z)) : outcome (list (list Z)) :=
  match l with
  | [] => Val []
  | (i, p) :: l' =>
      obind (euclid_of st i sep) (fun n => omap (fun r => match n with [] => p :: r | _ => r end) (far_apart st sep l'))
  end.
Definition remove_short_range (one : Z) (st : particles) (sep : Z) : outcome particles :=
  match pindex st with
  | None => Throw
  | Some _ => omap (fun l => mkParticles l None (pbb st) one) (far_apart st sep (combine (seq 0 (length (pts st))) (pts st)))
  end.

(** particles.cpp:171-190 [selectInside_noindex].  [None]: front() of an empty vector. *)
Definition vmax (p q : list Z) : list Z := map (fun xy => Z.max (fst xy) (snd xy)) (combine p q).
Definition vmin (p q : list Z) : list Z := map (fun xy => Z.min (fst xy) (snd xy)) (combine p q).
Definition all_le (p q : list Z) : bool := forallb (fun xy => (fst xy <=? snd xy)%Z) (combine p q).
(** Lines 180-184: the first [k] coordinates. *)
Fixpoint add_first (k : nat) (x : Z) (p : list Z) : list Z :=
  match k, p with S k', y :: p' => (y + x)%Z :: add_first k' x p' | _, _ => p end.
Definition select_inside_noindex (st : particles) (margin : Z) (noz : bool) : option (list nat) :=
  match pts st with
  | [] => None
  | p0 :: _ =>
      let k := if noz then 2 else 3 in
      let upper := add_first k (- margin)%Z (fold_left vmax (pts st) [0; 0; 0]%Z) in
      let lower := add_first k margin (fold_left vmin (pts st) p0) in
      Some (map fst (filter (fun ip => all_le (snd ip) upper && all_le lower (snd ip)) (combine (seq 0 (length (pts st))) (pts st))))
  end.

(** particles.hpp:323-335 [removeOutside]; [n] is size().  [None]: BOO written out of range. *)
Fixpoint reset_range {T} (dflt : T) (p : nat) (k : nat) (v : list T) : option (list T) :=
  match k with
  | O => Some v
  | S k' => if p <? length v then reset_range dflt (S p) k' (set_nth p dflt v) else None
  end.
Fixpoint remove_outside {T} (dflt : T) (n p : nat) (inside : list nat) (v : list T) : option (list T) :=
  match inside with
  | [] => reset_range dflt p (n - p) v
  | i :: inside' => match reset_range dflt p (i - p) v with Some v' => remove_outside dflt n (S i) inside' v' | None => None end
  end.

(** particles.hpp:207-211 [RdfBinner::operator()]: the bin number trunc(norm * n / cutoff), as the integer square root
    of d2 * n^2 / cutoff^2 (exact arithmetic). *)
Definition rdf_bin (n : nat) (cutoff d2 : Z) : nat := Z.to_nat (Z.sqrt (d2 * (Z.of_nat n * Z.of_nat n) / (cutoff * cutoff))).
Definition incr (k : nat) (g : list nat) : option (list nat) := match nth_error g k with Some x => Some (set_nth k (S x) g) | None => None end.
(** The histogram and count after binning the pairs [l]; [UB]: out of range. *)
Fixpoint rdf_pairs (st : particles) (cutoff : Z) (i : nat) (l : list nat) (g : list nat * nat) : outcome (list nat * nat) :=
  match l with
  | [] => Val g
  | j :: l' =>
      match nth_error (pts st) i, nth_error (pts st) j with
      | Some a, Some b =>
          match incr (rdf_bin (length (fst g)) cutoff (sqdist b a)) (fst g) with
          | Some g' => rdf_pairs st cutoff i l' (g', S (snd g))
          | None => UB
          end
      | _, _ => Throw
      end
  end.
(** particles.cpp:780-789 [Binner::operator<<], executed by one thread (the parallel execution is in Race_Model). *)
Fixpoint rdf_loop (st : particles) (cutoff : Z) (sel : list nat) (g : list nat * nat) : outcome (list nat * nat) :=
  match sel with
  | [] => Val g
  | i :: sel' => obind (euclid_of st i cutoff) (fun l => obind (rdf_pairs st cutoff i l g) (rdf_loop st cutoff sel'))
  end.
Definition rdf (st : particles) (n : nat) (cutoff : Z) (sel : list nat) : outcome (list nat * nat) := rdf_loop st cutoff sel (repeat 0 n, 0).

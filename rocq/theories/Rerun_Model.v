(** Model of calculateBoo in mains/boo.cpp: which particles are kept, at the first run (the bond file does not exist yet) and at later runs (it does). *)
Require Import ZArith List Bool Arith.
Require Import Verif.Box_Model Verif.RTree_Model Verif.Index_Model Verif.Particles_Model.
Import ListNotations.

(** boo.cpp:59-65: an empty selection is replaced by all the particles. *)
Definition or_all (n : nat) (ids : list nat) : list nat := match ids with [] => seq 0 n | _ => ids end.
(** boo.cpp:44-58: no bond file; the particles are indexed and selected with the index ([margin]: 1.3 radius, then 2.6 radius). *)
Definition inside_first (c : config) (st : particles) (margin : Z) (noz : bool) : option (list nat) :=
  match make_index c st with
  | Some st' => match pindex st' with Some t => rstar_inside t margin noz | None => None end
  | None => None
  end.
(** boo.cpp:37-43: the bonds are loaded, the particles are selected without index. *)
Definition inside_later (st : particles) (margin : Z) (noz : bool) : option (list nat) := select_inside_noindex st margin noz.
(** boo.cpp:78-82 and 60-62: the values of the particles that are not inside are reset, unless none is inside. *)
Definition kept_values {T} (dflt : T) (n : nat) (inside : list nat) (v : list T) : option (list T) :=
  match inside with [] => Some v | _ => remove_outside dflt n 0 inside v end.
Definition first_run {T} (c : config) (st : particles) (margin : Z) (noz : bool) (dflt : T) (v : list T) : option (list T) :=
  match inside_first c st margin noz with Some ids => kept_values dflt (length (pts st)) ids v | None => None end.
Definition later_run {T} (st : particles) (margin : Z) (noz : bool) (dflt : T) (v : list T) : option (list T) :=
  match inside_later st margin noz with Some ids => kept_values dflt (length (pts st)) ids v | None => None end.
(** boo.cpp:85-91, the argument of getCgBOOs: the particles that get coarse-grained values. *)
Definition second_first (c : config) (st : particles) (margin : Z) (noz : bool) : option (list nat) := option_map (or_all (length (pts st))) (inside_first c st margin noz).
Definition second_later (st : particles) (margin : Z) (noz : bool) : option (list nat) := option_map (or_all (length (pts st))) (inside_later st margin noz).

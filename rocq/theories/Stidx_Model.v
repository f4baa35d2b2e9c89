(** Model of the spatio-temporal index of lib/index and of its use by lib/dynamicParticles. *)
Require Import ZArith List Bool Arith.
Require Import Verif.Base Verif.Box_Model Verif.Index_Model Verif.Traj_Model Verif.Particles_Model Verif.Dyn_Model.
Import ListNotations.
Local Open Scope nat_scope.

(** index.hpp:105-116 [SpatioTemporalIndex], the functions that no class of the library implements: the user does. Simplification: the other two [operator()], pure virtual as well, are those of index.cpp, which a class of the user can call. *)
Record stindex := mkST { st_query : (nat * nat) * box -> list nat; st_box : box; st_iv : nat * nat }.
(** index.cpp:40-43 [operator()] of a box: over the whole interval. *)
Definition st_enclosed (x : stindex) (b : box) : list nat := st_query x (st_iv x, b).
(** index.cpp:46-49 [operator()] of an interval: in the whole box. *)
Definition st_spanning (x : stindex) (iv : nat * nat) : list nat := st_query x (iv, st_box x).
(** index.cpp:52-63 [getSpanningInside] *)
Definition st_spanning_inside (x : stindex) (iv : nat * nat) (margin : Z) : list nat := st_query x (iv, shrink margin 3 (st_box x)).
(** index.cpp:67-70 [getInside] *)
Definition st_inside (x : stindex) (margin : Z) : list nat := st_spanning_inside x (st_iv x) margin.

(** dynamicParticles.hpp:41-60: what the queries use. *)
Record dynparts := mkDyn { dp_index : trajindex; dp_frames : list (list (list Z)); dp_radius : Z; dp_st : option stindex }.
(** dynamicParticles.hpp:109 [setIndex] *)
Definition set_index (p : dynparts) (x : stindex) : dynparts := mkDyn (dp_index p) (dp_frames p) (dp_radius p) (Some x).
(** dynamicParticles.cpp:446-450 [selectSpanning_Enclosed] *)
Definition dp_spanning_enclosed (p : dynparts) (q : (nat * nat) * box) : outcome (list nat) := match dp_st p with Some x => Val (st_query x q) | None => Throw end.
(** dynamicParticles.cpp:457-461 [selectEnclosed] *)
Definition dp_enclosed (p : dynparts) (b : box) : outcome (list nat) := match dp_st p with Some x => Val (st_enclosed x b) | None => Throw end.
(** dynamicParticles.cpp:464-494 [selectSpanning] *)
Definition dp_spanning (p : dynparts) (iv : nat * nat) : outcome (list nat) :=
  match dp_st p with Some x => Val (st_spanning x iv) | None => select_spanning (dp_index p) (fst iv) (snd iv) end.
(** dynamicParticles.cpp:499-503 [selectSpanningInside] *)
Definition dp_spanning_inside (p : dynparts) (iv : nat * nat) (margin : Z) : outcome (list nat) :=
  match dp_st p with Some x => Val (st_spanning_inside x iv margin) | None => Throw end.
(** dynamicParticles.cpp:527-533 [getDrift]: the trajectories the drift from t to t+1 is computed on (the drift itself is in Dyn_Model). *)
Definition drift_selection (p : dynparts) (t : nat) : outcome (list nat) :=
  match dp_st p with Some _ => dp_spanning_inside p (t, t + 1) (2 * dp_radius p) | None => dp_spanning p (t, t + 1) end.

(** Frames moved each by its own shift. *)
Definition move_points (s : list Z) (f : list (list Z)) : list (list Z) := map (fun q => map (fun xy => (fst xy + snd xy)%Z) (combine q s)) f.
Definition move_frames (ss : list (list Z)) (frames : list (list (list Z))) : list (list (list Z)) := map (fun sf => move_points (fst sf) (snd sf)) (combine ss frames).
(** dynamicParticles.cpp:559-569, end of [removeDrift()]; [ss]: the shifts (Dyn_Model). *)
Definition drift_removed (ss : list (list Z)) (p : dynparts) : dynparts := mkDyn (dp_index p) (move_frames ss (dp_frames p)) (dp_radius p) None.
(** dynamicParticles.cpp:600-601, end of [removeDrift(displFile)]; [ss]: the shifts (Link_Model). *)
Definition file_drift_removed (ss : list (list Z)) (p : dynparts) : dynparts := mkDyn (dp_index p) (move_frames ss (dp_frames p)) (dp_radius p) (dp_st p).

(** index.hpp:173-193 [SpatioTemporalIndex_slice] with TrajIndex::Converter: positions of a frame from a spatio-temporal index.
    sliceIndex, which installs slices, is a template that no program instantiates (and that cannot be: it gives a smart pointer for a reference). *)
Definition slice_query (ti : trajindex) (x : stindex) (t : nat) (b : box) : outcome (list nat) := osequence (map (convert ti t) (st_query x ((t, t), b))).
(** index.cpp:26-37 [SpatialIndex::getInside] of a slice, whose overall box is that of the whole index. *)
Definition slice_inside (ti : trajindex) (x : stindex) (t : nat) (margin : Z) (noz : bool) : outcome (list nat) := slice_query ti x t (shrink margin (if noz then 2 else 3) (st_box x)).

(** Model of the program mains/cage2vtk.cpp: frequency of the jumps between cages, distribution of the life times of cages. *)
Require Import ZArith QArith List Bool Arith.
Require Import Verif.Base Verif.RTree_Model Verif.Traj_Model Verif.Particles_Model Verif.Corr_Model Verif.Boo_Model Verif.Dyn_Model.
Import ListNotations.
Local Open Scope nat_scope.

(** cage2vtk.cpp:27-67 [export_jump].  Sums of times are below 2^64. *)
Section Jump.
  Variables (ti cages : trajindex) (tau : nat).
  (** 46-47: jumps[u][trajectory[u]]++ for u in the interval *)
  Definition incr_at (u p : nat) (js : list (list nat)) : outcome (list (list nat)) :=
    obind (at_index js u) (fun row => omap (fun n => set_nth u (set_nth p (S n) row) js) (at_index row p)).
  Definition mark (T : traj) (lo hi : nat) (js : list (list nat)) : outcome (list (list nat)) :=
    ofold (fun u js => obind (access T u) (fun p => incr_at u p js)) (seq lo (hi + 1 - lo)) js.
  (** 40-47, one turn of the loop: the last time of the present cage, and the counts *)
  Definition turn (T : traj) (t : nat) (js : list (list nat)) : outcome (nat * list (list nat)) :=
    obind (at_index (inverse cages) t) (fun row => obind (access T t) (fun p => obind (at_index row p) (fun k => obind (at_index (trajs cages) k) (fun c =>
    let e := Z.to_nat (last_time c) in
    let lo := Nat.max (start T + tau / 2) e - tau / 2 in
    let hi := Nat.min (Z.to_nat (last_time T)) (e + tau / 2) in
    omap (pair e) (mark T lo hi js))))).
  (** 36-51: [None] when [fuel] turns are not enough *)
  Fixpoint walk (fuel : nat) (T : traj) (t : nat) (js : list (list nat)) : option (outcome (list (list nat))) :=
    if (Z.of_nat t <? (last_time T + 1) mod size_mod)%Z then
      match fuel with
      | 0 => None
      | S f => match turn T t js with Val (e, js') => walk f T (e + 1) js' | Throw => Some Throw | UB => Some UB end
      end
    else Some (Val js).
  Fixpoint walk_all (fuel : nat) (tri : list traj) (js : list (list nat)) : option (outcome (list (list nat))) :=
    match tri with
    | [] => Some (Val js)
    | T :: tri' => match walk fuel T (start T) js with Some (Val js') => walk_all fuel tri' js' | o => o end
    end.
  (** 29-33 *)
  Definition no_jump : list (list nat) := map (fun row => repeat 0 (length row)) (inverse ti).
  (** 53-65: the values of a file; [None]: a division by zero *)
  Definition frequencies (js : list (list nat)) (t : nat) : outcome (list (option Q)) :=
    let size := length (inverse ti) in
    let first := Nat.max (tau / 2) t - tau / 2 in let stop := Nat.min size (t + tau / 2) in
    let len := stop - first in
    omap (map (fun n => if len =? 0 then None else Some (inject_Z (Z.of_nat n) / inject_Z (Z.of_nat len))%Q)) (at_index js t).
  Definition export_jump (fuel : nat) : option (outcome (list (list (option Q)))) :=
    match walk_all fuel (trajs ti) no_jump with
    | Some (Val js) => Some (osequence (map (frequencies js) (seq 0 (length (inverse ti)))))
    | Some Throw => Some Throw
    | Some UB => Some UB
    | None => None
    end.
End Jump.

(** cage2vtk.cpp:276-282: the number of cages of each number of steps; a vector of [size] numbers *)
Definition cage_spans (size : nat) (cages : list traj) : outcome (list nat) :=
  ofold (fun c spans => let k := length (steps c) in omap (fun n => set_nth k (S n) spans) (at_index spans k)) cages (repeat 0 size).

(** cage2vtk.cpp:287-293: cages read back from their file (the text is in TrajFile_Model), with the sizes of the frames counted on the cages themselves *)
Definition reload_cages (cages : list traj) (size : nat) : outcome trajindex :=
  match index_frame_sizes cages size with
  | Some sizes => match make_inverse cages sizes with Some inv => Val (mkIndex cages inv) | None => UB end
  | None => UB
  end.

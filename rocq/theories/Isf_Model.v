(** Model of lib/dynamicParticles: self intermediate scattering functions averaged over windows and axes, makeDynamics, square
    displacements around a time.  Same conventions as Corr_Model. *)
Require Import ZArith List Bool Arith.
Require Import Verif.RTree_Model Verif.Traj_Model Verif.Particles_Model Verif.Dyn_Model Verif.Corr_Model.
Import ListNotations.
Local Open Scope nat_scope.

Section Isf.
  (** As in Corr_Model; [axis d] gives the wave of a position for the wave vector along axis d (cpp:976-978, 1023-1025). *)
  Variables (P V : Type) (zero : V) (add : V -> V -> V) (divn : V -> nat -> V) (muln : nat -> V -> V) (sqd : P -> P -> V).
  Variables (quad : V -> V) (alpha : nat -> nat -> V -> V -> V) (divd : V -> nat -> V).
  Variables (Wave : Type) (axis : nat -> P -> Wave) (cross : Wave -> Wave -> V) (one : V).
  Variables (frames : list (list P)) (ti : trajindex).

  (** cpp:959-960, 1001-1002: the elements of a vector of size n plus coef times the elements of another, read without check. *)
  Definition add_scaled (coef : nat) (isf single : list V) : outcome (list V) :=
    if length isf <=? length single then Val (map (fun xy => add (fst xy) (muln coef (snd xy))) (combine isf single)) else UB.
  (** cpp:953-962: windows of the form with a wave vector, here along one axis d; 989-1005: all three axes. *)
  Definition isf_windows (ds : list nat) (len : nat) (starts : list nat) (st : list V * nat) : outcome (list V * nat) :=
    ofold (fun a st =>
      obind (select_spanning ti a (a + len)) (fun sel =>
      omap (fun isf => (isf, snd st + length sel))
        (ofold (fun d isf => obind (get_self_isf P V zero add divn Wave (axis d) cross one frames ti sel a (a + len) 1) (add_scaled (length sel) isf)) ds (fst st)))) starts st.
  (** cpp:944-968 [getSelfISF(q,t0,t1,t2)]. *)
  Definition self_isf_q (d t0 t1 t2 : nat) : outcome (list V) :=
    if t1 <? t0 then UB
    else
      match longest_span (trajs ti) with
      | None => UB
      | Some s =>
          if s <? t1 - t0 + 1 then Throw
          else if t2 =? 0 then obind (select_spanning ti t0 (t1 + t2)) (fun sel => get_self_isf P V zero add divn Wave (axis d) cross one frames ti sel t0 t1 t2)
          else omap (fun st => map (fun v => divn v (snd st)) (fst st)) (isf_windows [d] (t1 - t0) (seq t0 (t2 - t0)) (repeat zero (t1 - t0), 0))
      end.
  (** cpp:970-1012 [getSelfISF(t0,t1,t2)].  In the first branch the whole of singleISF is added to the t1-t0 elements of ISF. *)
  Definition self_isf_axes (t0 t1 t2 : nat) : outcome (list V) :=
    if t1 <? t0 then UB
    else
      match longest_span (trajs ti) with
      | None => UB
      | Some s =>
          if s <? t1 - t0 + 1 then Throw
          else if t2 =? 0 then
            obind (select_spanning ti t0 (t1 + t2)) (fun sel =>
            ofold (fun d isf => obind (get_self_isf P V zero add divn Wave (axis d) cross one frames ti sel t0 t1 t2) (fun single =>
              if length single <=? length isf then Val (map (fun xy => add (fst xy) (divn (snd xy) 3)) (combine isf single) ++ skipn (length single) isf) else UB))
              [0; 1; 2] (repeat zero (t1 - t0)))
          else omap (fun st => map (fun v => divn v (snd st * 3)) (fst st)) (isf_windows [0; 1; 2] (t1 - t0) (seq t0 (t2 - t0)) (repeat zero (t1 - t0), 0))
      end.

  (** cpp:1015-1040 [makeDynamics] of sets of trajectories: for each set the MSD with the non Gaussian parameter, and four self
      ISF (x, y, z, mean).  [UB] without frame: stop wraps (cpp:1017). *)
  Definition mean_axes (n : nat) (isfs : list (list V)) : outcome (list V) :=
    osequence (map (fun t => omap (fun v => divn v 3)
      (ofold (fun isf w => match nth_error isf t with Some x => Val (add w x) | None => UB end) isfs zero)) (seq 0 n)).
  Definition make_dynamics (sets : list (list nat)) : outcome (list (list (V * V) * list (list V))) :=
    match frames with
    | [] => UB
    | _ =>
        let stop := length frames - 1 in
        osequence (map (fun sel =>
          obind (get_msd_ngp P V zero add sqd quad alpha divd frames ti sel 0 stop 0) (fun m =>
          obind (osequence (map (fun d => get_self_isf P V zero add divn Wave (axis d) cross one frames ti sel 0 stop 0) [0; 1; 2])) (fun isfs =>
          omap (fun mean => (m, isfs ++ [mean])) (mean_axes (stop + 1) isfs)))) sets)
    end.
  (** cpp:1043-1064: the two forms for all the trajectories spanning the whole serie. *)
  Definition make_dynamics_all : outcome (list (list (V * V) * list (list V))) :=
    match frames with
    | [] => UB
    | _ => obind (select_spanning ti 0 (length frames - 1)) (fun sel => make_dynamics [sel])
    end.

  (** cpp:630-644 [getSD(t, halfInterval)]. *)
  Variables (pzero : P) (sub : P -> P -> P) (pdiv : P -> nat -> P) (dot : P -> P -> V).
  Definition sd_around (t h : nat) : outcome (list V) :=
    omap (map (fun v => muln (h * 2 + 1) (dot v v))) (velocities P pzero sub pdiv frames ti t h).
End Isf.

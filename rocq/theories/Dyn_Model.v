(** Model of lib/dynamicParticles: selection of trajectories, windows of time, lost neighbours, cages, averages over time, drift. *)
Require Import ZArith QArith List Bool Arith.
Require Import Verif.Base Verif.SortU Verif.RTree_Model Verif.Traj_Model Verif.Particles_Model Verif.Ngb_Model.
Import ListNotations.
Local Open Scope nat_scope.

(** dynamicParticles.cpp:464-494 [selectSpanning], without spatio-temporal index.  [UB]: inverse[t] out of range. *)
Definition select_spanning (ti : trajindex) (a b : nat) : outcome (list nat) :=
  match nth_error (inverse ti) a, nth_error (inverse ti) b with
  | Some ra, Some rb => Val (set_inter (sort_unique ra) (sort_unique rb))
  | _, _ => UB
  end.

(** Conversion of a size_t to a 32 bits int. *)
Definition to_int (z : Z) : Z := (((z + 2 ^ 31) mod 2 ^ 32) - 2 ^ 31)%Z.
(** dynamicParticles.cpp:1128-1129, 1186-1187: the window around t of a trajectory.  The int is converted back to size_t. *)
Definition win_start (T : traj) (t h : nat) : nat :=
  Z.to_nat ((Z.max (to_int ((Z.of_nat t - Z.of_nat h) mod size_mod)) (to_int (Z.of_nat (start T)))) mod size_mod)%Z.
Definition win_stop (T : traj) (t h : nat) : nat := Z.to_nat (Z.min ((Z.of_nat t + Z.of_nat h) mod size_mod) (last_time T))%Z.

(** dynamicParticles.cpp:1147-1161: numbers of the trajectories of the neighbours of trajectory tr at time t. *)
Definition traj_ngbs (ti : trajindex) (ngbs : list (list (list nat))) (tr t : nat) : outcome (list nat) :=
  match nth_error ngbs t, convert ti t tr with
  | Some frame, Val p =>
      match nth_error frame p with
      | Some l => match osequence (map (fun q => match invert ti t q with Some x => Val x | None => UB end) l) with
                  | Val xs => Val (sort_unique xs)
                  | Throw => Throw
                  | UB => UB
                  end
      | None => UB
      end
  | None, _ => UB
  | _, Throw => Throw
  | _, UB => UB
  end.
(** dynamicParticles.cpp:1140-1171 [getLostNgbs]. *)
Definition get_lost_ngbs (ti : trajindex) (ngbs : list (list (list nat))) (tr t_from t_to : nat) : outcome (list nat) :=
  if t_from =? t_to then Val []
  else match traj_ngbs ti ngbs tr t_from with
       | Val a => match traj_ngbs ti ngbs tr t_to with Val b => Val (set_diff a b) | Throw => Throw | UB => UB end
       | Throw => Throw
       | UB => UB
       end.
(** dynamicParticles.cpp:1177-1194 [getNbLostNgbs]; the vector of doubles is created with zeros. *)
Definition nb_lost_ngbs (ti : trajindex) (ngbs : list (list (list nat))) (t h : nat) : outcome (list nat) :=
  match nth_error (inverse ti) t with
  | None => UB
  | Some row =>
      osequence (map (fun tr =>
        match nth_error (trajs ti) tr with
        | None => UB
        | Some T => if 1 <? length (steps T) then
                      match get_lost_ngbs ti ngbs tr (win_start T t h) (win_stop T t h) with Val l => Val (length l) | Throw => Throw | UB => UB end
                    else Val 0
        end) row)
  end.

(** dynamicParticles.cpp:1119-1135 [velocities]: the type of coordinates, the difference and the division by a number of steps
    (a size_t difference converted to double) are parameters. *)
Section Velocity.
  Variables (V : Type) (zero : V) (sub : V -> V -> V) (div : V -> nat -> V).
  Definition position (frames : list (list V)) (T : traj) (t : nat) : outcome V :=
    match nth_error frames t, access T t with
    | Some f, Val p => match nth_error f p with Some x => Val x | None => UB end
    | None, _ => UB
    | _, Throw => Throw
    | _, UB => UB
    end.
  Definition velocities (frames : list (list V)) (ti : trajindex) (t h : nat) : outcome (list V) :=
    match nth_error (inverse ti) t with
    | None => UB
    | Some row =>
        osequence (map (fun tr =>
          match nth_error (trajs ti) tr with
          | None => UB
          | Some T =>
              if 1 <? length (steps T) then
                match position frames T (win_stop T t h), position frames T (win_start T t h) with
                | Val x, Val y => Val (div (sub x y) (win_stop T t h - win_start T t h))
                | UB, _ => UB
                | _, UB => UB
                | _, _ => Throw
                end
              else Val zero
          end) row)
    end.
End Velocity.

(** dynamicParticles.cpp:1192-1227 [splitByCageJump]. *)
Section Cages.
  (** The separation of the two halves of the interval [first,last] cut after t, a non-negative number, scaled to an integer.
      Not modelled further (and it does not compute what its comments say: the second centre of mass starts from the first
      one), except that its factor (t-first)/last is null at t = first.  It is one more function of the trajectory. *)
  Variable sep : nat -> nat -> nat -> Z.
  (** cpp:1194: the vector has one more element than the loop fills, which stays null. *)
  Definition separations (first last : nat) : list Z := map (fun t => if t =? first then 0%Z else sep first last t) (seq first (last - first)) ++ [0%Z].
  (** std::max_element: rank and value of the first largest element. *)
  Fixpoint max_from (best : nat * Z) (i : nat) (l : list Z) : nat * Z :=
    match l with [] => best | x :: l' => max_from (if (snd best <? x)%Z then (i, x) else best) (S i) l' end.
  (** cpp:1216-1226.  Interval bounds are size_t: if the best cut were the end of the interval, the next interval would have
      a length of 2^64-1 and its vector no element: UB.  [fuel]: nested calls; running out of it is [UB] too. *)
  Fixpoint split_jumps (fuel : nat) (thr : Z) (res first last : nat) : outcome (list nat) :=
    match fuel with
    | O => UB
    | S fuel' =>
        match separations first last with
        | [] => UB
        | x :: l =>
            let '(k, best) := max_from (0, x) 1 l in
            if (thr <=? best)%Z then
              let tc := first + k in
              if last <=? tc then UB
              else
                match (if res <? tc - first then split_jumps fuel' thr res first tc else Val []) with
                | Val j1 =>
                    match (if res <? last - (tc + 1) then split_jumps fuel' thr res (tc + 1) last else Val []) with
                    | Val j2 => Val (tc :: j1 ++ j2)
                    | o => o
                    end
                | o => o
                end
            else Val []
        end
    end.
  (** cpp:1264-1276: the successive pieces. *)
  Fixpoint pieces (T : traj) (i : nat) (js : list nat) : outcome (list traj) :=
    match js with
    | [] => Val []
    | j :: js' =>
        match subtraj T (i + start T) (j + start T - 1) with
        | Val c => match pieces T j js' with Val cs => Val (c :: cs) | o => o end
        | Throw => Throw
        | UB => UB
        end
    end.
  (** cpp:1239-1277: one trajectory.  The copy of its positions (1249-1251) is not modelled.  The numbers of steps are size_t. *)
  Definition cages_of (thr : Z) (res : nat) (T : traj) : outcome (list traj) :=
    let n := (((last_time T + 1) mod size_mod - Z.of_nat (start T)) mod size_mod)%Z in
    if (n <? Z.of_nat res)%Z then Val [T]
    else
      let last := Z.to_nat n - 1 in
      match split_jumps (S last) thr res 0 last with
      | Val [] => Val [T]
      | Val js =>
          match sort_by Nat.ltb js with
          | [] => UB
          | j :: js' =>
              match subtraj T (start T) (j + start T - 1) with
              | Val c => match pieces T j (js' ++ [last]) with Val cs => Val (c :: cs) | o => o end
              | Throw => Throw
              | UB => UB
              end
          end
      | Throw => Throw
      | UB => UB
      end.
End Cages.
(** cpp:1234-1282 [getCages]; [sizes] are the numbers of positions of the frames (getFrameSizes). *)
Fixpoint all_cages (sep : nat -> nat -> nat -> nat -> Z) (thr : Z) (res : nat) (k : nat) (tri : list traj) : outcome (list traj) :=
  match tri with
  | [] => Val []
  | T :: tri' =>
      match cages_of (sep k) thr res T with
      | Val cs => match all_cages sep thr res (S k) tri' with Val l => Val (cs ++ l) | o => o end
      | o => o
      end
  end.
Definition get_cages (sep : nat -> nat -> nat -> nat -> Z) (thr : Z) (res : nat) (ti : trajindex) (sizes : list nat) : outcome trajindex :=
  match all_cages sep thr res 0 (trajs ti) with
  | Val cs => match make_inverse cs sizes with Some inv => Val (mkIndex cs inv) | None => UB end
  | Throw => Throw
  | UB => UB
  end.

(** dynamicParticles.cpp:1409-1466: averages over time. *)
Section Average.
  Variables (V : Type) (zero : V) (add : V -> V -> V) (div : V -> nat -> V).
  (** Lookup in a std::map. *)
  Fixpoint mfind (k : nat) (m : list (nat * V)) : option V :=
    match m with [] => None | (k', v) :: m' => if k =? k' then Some v else mfind k m' end.
  (** The sum over the times of a window: the loops of cpp:1418-1420 and 1449-1462, which add to [acc].  [miss]: what happens
      when there is no value (undefined in makeTimeAverage, a throw in makeSlidingTimeAverage). *)
  Fixpoint window_sum (miss : outcome V) (data : list (list (nat * V))) (T : traj) (ts : list nat) (acc : V) : outcome V :=
    match ts with
    | [] => Val acc
    | t :: ts' =>
        match access T t with
        | Val p => match nth_error data t with
                   | Some m => match mfind p m with Some x => window_sum miss data T ts' (add acc x) | None => miss end
                   | None => UB
                   end
        | Throw => Throw
        | UB => UB
        end
    end.
  (** Write of the value of an existing key. *)
  Definition mset (k : nat) (v : V) (m : list (nat * V)) : list (nat * V) := map (fun x => if fst x =? k then (k, v) else x) m.
  (** cpp:1415-1423, 1446-1464: one output step for all the selection, over the n times from t0.  insert keeps the entry of a
      trajectory which is selected twice. *)
  Fixpoint average_step (miss : outcome V) (ti : trajindex) (data : list (list (nat * V))) (t0 n : nat) (sel : list nat) (m : list (nat * V)) : outcome (list (nat * V)) :=
    match sel with
    | [] => Val m
    | tr :: sel' =>
        match nth_error (trajs ti) tr with
        | None => UB
        | Some T =>
            if span T t0 (t0 + n - 1) then
              let m' := map_insert V tr zero m in
              match mfind tr m' with
              | None => UB
              | Some v => match window_sum miss data T (seq t0 n) v with
                          | Val s => average_step miss ti data t0 n sel' (mset tr (div s n) m')
                          | Throw => Throw
                          | UB => UB
                          end
              end
            else average_step miss ti data t0 n sel' m
        end
    end.
  (** cpp:1409-1424 [makeTimeAverage]; [nbt]: the number of frames.  An interval of 0 is excluded (it divides by zero). *)
  Definition make_time_average (ti : trajindex) (nbt avg : nat) (sel : list nat) (data : list (list (nat * V))) : outcome (list (list (nat * V))) :=
    if avg =? 0 then UB
    else osequence (map (fun avt => average_step UB ti data (avt * avg) avg sel []) (seq 0 (Nat.max (nbt / avg) 1))).
  (** cpp:1433-1466 [makeSlidingTimeAverage].  The number of output steps is a size_t difference: when it is negative the
      allocation of nearly 2^64 maps throws.  An interval of 0 gives one step more than there are frames and no value in any. *)
  Definition make_sliding_average (ti : trajindex) (avg : nat) (sel : list nat) (data : list (list (nat * V))) : outcome (list (list (nat * V))) :=
    if length data + 1 <? avg then Throw
    else osequence (map (fun avt => average_step Throw ti data avt avg sel []) (seq 0 (length data + 1 - avg))).
End Average.

(** dynamicParticles.cpp:512-571: drift.  One axis at a time (the three components never mix); rational coordinates.  The
    parallel loop that sums the displacements (cpp:519-521) is taken as a sequential one: as written it is a data race. *)
Section Drift.
  Local Open Scope Q_scope.
  (** cpp:505-510 [getDiff] for one trajectory. *)
  Definition displacement (frames : list (list Q)) (ti : trajindex) (tr t0 t1 : nat) : outcome Q :=
    match nth_error (trajs ti) tr with
    | None => UB
    | Some T =>
        match position Q frames T t1, position Q frames T t0 with
        | Val x, Val y => Val (x - y)
        | UB, _ => UB
        | _, UB => UB
        | _, _ => Throw
        end
    end.
  (** cpp:512-525 [getDrift] of a selection. *)
  Definition get_drift (frames : list (list Q)) (ti : trajindex) (sel : list nat) (t0 t1 : nat) : outcome Q :=
    if (length sel <? 2)%nat then Val 0
    else match osequence (map (fun tr => displacement frames ti tr t0 t1) sel) with
         | Val ds => Val (fold_left Qplus ds 0 / inject_Z (Z.of_nat (length sel)))
         | Throw => Throw
         | UB => UB
         end.
  (** cpp:527-533 [getDrift]; t1 is not used.  [sel t]: the trajectories selected for [t,t+1], that is [select_spanning ti t (t+1)]
      without index, and those of them inside a margin according to the index otherwise. *)
  Definition get_drift_at (sel : nat -> outcome (list nat)) (frames : list (list Q)) (ti : trajindex) (t0 t1 : nat) : outcome Q :=
    match sel t0 with Val l => get_drift frames ti l t0 (t0 + 1) | Throw => Throw | UB => UB end.
  (** std::partial_sum *)
  Fixpoint partial_sums (acc : Q) (l : list Q) : list Q := match l with [] => [] | x :: l' => let s := acc + x in s :: partial_sums s l' end.
  (** cpp:537-571 [removeDrift]: the shift of each frame ... *)
  Definition shifts (sel : nat -> outcome (list nat)) (frames : list (list Q)) (ti : trajindex) : outcome (list Q) :=
    match osequence (map (fun t => match t with O => Val 0 | S t' => match get_drift_at sel frames ti t' t with Val d => Val (- d) | Throw => Throw | UB => UB end end)
                      (seq 0 (length frames))) with
    | Val rel =>
        let drifts := partial_sums 0 rel in
        let low := fold_left (fun m d => if Qlt_le_dec d m then d else m) (skipn 1 drifts) 0 in
        Val (map (fun d => d - low) drifts)
    | Throw => Throw
    | UB => UB
    end.
  (** ... and the shifted frames. *)
  Definition remove_drift (sel : nat -> outcome (list nat)) (frames : list (list Q)) (ti : trajindex) : outcome (list (list Q)) :=
    match shifts sel frames ti with
    | Val ds => Val (map (fun fd => map (fun x => x + snd fd) (fst fd)) (combine frames ds))
    | Throw => Throw
    | UB => UB
    end.
End Drift.

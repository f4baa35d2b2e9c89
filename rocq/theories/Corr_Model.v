(** Model of lib/dynamicParticles: mean square displacement, non Gaussian parameter, intermediate scattering functions.
    The parallel loops that accumulate into shared vectors without protection are taken as sequential ones. *)
Require Import ZArith List Bool Arith.
Require Import Verif.RTree_Model Verif.Traj_Model Verif.Particles_Model Verif.Dyn_Model.
Import ListNotations.
Local Open Scope nat_scope.

(** The loops "for start in t0..t1-1, for stop in start+1..t1" (cpp:661-662, 731-732, 846-848, 920-921). *)
Definition pairs (t0 t1 : nat) : list (nat * nat) := flat_map (fun a => map (fun b => (a, b)) (seq (S a) (t1 - a))) (seq t0 (t1 - t0)).
(** Their body: an update g of the element stop-start of the sums, and the count of such updates.  [UB]: out of range. *)
Fixpoint accumulate {W} (g : nat -> nat -> W -> outcome W) (ps : list (nat * nat)) (st : list W * list nat) : outcome (list W * list nat) :=
  match ps with
  | [] => Val st
  | (a, b) :: ps' =>
      match nth_error (fst st) (b - a), nth_error (snd st) (b - a) with
      | Some w, Some k => obind (g a b w) (fun w' => accumulate g ps' (set_nth (b - a) w' (fst st), set_nth (b - a) (S k) (snd st)))
      | _, _ => UB
      end
  end.
(** The loop over [sel] of updates of an accumulator. *)
Fixpoint ofold {A W} (f : A -> W -> outcome W) (l : list A) (w : W) : outcome W :=
  match l with [] => Val w | a :: l' => obind (f a w) (ofold f l') end.

Section Corr.
  (** Positions, sums (doubles), and the operations used on them. *)
  Variables (P V : Type) (zero : V) (add : V -> V -> V) (divn : V -> nat -> V) (muln : nat -> V -> V) (sqd : P -> P -> V).

  (** cpp:505-510, 612-625: the position of a trajectory, given by its number, at time t. *)
  Definition place (frames : list (list P)) (ti : trajindex) (tr t : nat) : outcome P :=
    match nth_error (trajs ti) tr with Some T => position P frames T t | None => UB end.
  Definition square_disp (frames : list (list P)) (ti : trajindex) (tr t0 t1 : nat) : outcome V :=
    obind (place frames ti tr t1) (fun y => omap (fun x => sqd x y) (place frames ti tr t0)).
  (** cpp:612-625 [getSD] of a selection. *)
  Definition get_sd (frames : list (list P)) (ti : trajindex) (sel : list nat) (t0 t1 : nat) : outcome V :=
    ofold (fun tr acc => omap (add acc) (square_disp frames ti tr t0 t1)) sel zero.
  (** cpp:649-685 [getMSD] of a selection.  An interval that ends before it starts is excluded (wrapped sizes). *)
  Definition get_msd (frames : list (list P)) (ti : trajindex) (sel : list nat) (t0 t1 t3 : nat) : outcome (list V) :=
    if t1 <? t0 then UB
    else
      let n := t1 - t0 + 1 in
      let k := length sel in
      match sel with
      | [] => Val (repeat zero n)
      | _ =>
          if t3 =? 0 then
            omap (fun st => map (fun vn => divn (fst vn) (snd vn * k)) (combine (fst st) (snd st)))
              (accumulate (fun a b w => omap (add w) (get_sd frames ti sel a b)) (pairs t0 t1) (repeat zero n, 1 :: repeat 0 (n - 1)))
          else
            omap (cons zero)
              (osequence (map (fun dt => omap (fun s => divn s (t3 * k)) (ofold (fun a w => omap (add w) (get_sd frames ti sel (t0 + a) (t0 + a + dt))) (seq 0 t3) zero)) (seq 1 (n - 1))))
      end.
  (** cpp:700-718 [getMSD(t0,t1,t2)], without index. *)
  Definition vadd (l1 l2 : list V) : list V := map (fun xy => add (fst xy) (snd xy)) (combine l1 l2).
  Definition msd_windows (frames : list (list P)) (ti : trajindex) (len : nat) (starts : list nat) (st : list V * nat) : outcome (list V * nat) :=
    ofold (fun a st =>
      obind (select_spanning ti a (a + len)) (fun sel =>
      omap (fun single => (vadd (fst st) (map (muln (length sel)) single), snd st + length sel)) (get_msd frames ti sel a (a + len) 1))) starts st.
  Definition get_msd_avg (frames : list (list P)) (ti : trajindex) (t0 t1 t2 : nat) : outcome (list V) :=
    if t1 <? t0 then UB
    else
      match longest_span (trajs ti) with
      | None => UB
      | Some s =>
          if s <? t1 - t0 + 1 then Throw
          else if t2 =? 0 then obind (select_spanning ti t0 (t1 + t2)) (fun sel => get_msd frames ti sel t0 t1 t2)
          else omap (fun st => map (fun v => divn v (snd st)) (fst st)) (msd_windows frames ti (t1 - t0) (seq t0 (t2 - t0)) (repeat zero (t1 - t0 + 1), 0))
      end.

  (** cpp:721-765 [getNonGaussian].  [quad] squares a square displacement, [alpha nb k sumQD sumSD] is the final formula. *)
  Variables (quad : V -> V) (alpha : nat -> nat -> V -> V -> V).
  Definition add_sd_qd (frames : list (list P)) (ti : trajindex) (sel : list nat) (t0 t1 : nat) (w : V * V) : outcome (V * V) :=
    ofold (fun tr w => omap (fun sd => (add (fst w) sd, add (snd w) (quad sd))) (square_disp frames ti tr t0 t1)) sel w.
  Definition get_non_gaussian (frames : list (list P)) (ti : trajindex) (sel : list nat) (t0 t1 t3 : nat) : outcome (list V) :=
    if t1 <? t0 then UB
    else
      let n := t1 - t0 + 1 in
      let k := length sel in
      match sel with
      | [] => Val (repeat zero n)
      | _ =>
          if t3 =? 0 then
            omap (fun st => map (fun wn => alpha (snd wn) k (snd (fst wn)) (fst (fst wn))) (combine (fst st) (snd st)))
              (accumulate (fun a b w => add_sd_qd frames ti sel t0 t1 w) (pairs t0 t1) (repeat (zero, zero) n, 1 :: repeat 0 (n - 1)))
          else
            omap (cons zero)
              (osequence (map (fun dt => omap (fun w => alpha t3 k (snd w) (fst w)) (ofold (fun a w => add_sd_qd frames ti sel t0 t1 w) (seq 0 t3) (zero, zero))) (seq 1 (n - 1))))
      end.

  (** cpp:769-823 [get_MSD_NGP]: the MSD and the non Gaussian parameter, as pairs.  [divd s n]: s over n squared diameters. *)
  Variable (divd : V -> nat -> V).
  Definition get_msd_ngp (frames : list (list P)) (ti : trajindex) (sel : list nat) (t0 t1 t3 : nat) : outcome (list (V * V)) :=
    if t1 <? t0 then UB
    else
      let n := t1 - t0 + 1 in
      let k := length sel in
      match sel with
      | [] => Val (repeat (zero, zero) n)
      | _ =>
          if t3 =? 0 then
            omap (fun st => map (fun wn => (divd (fst (fst wn)) (snd wn * k), alpha (snd wn) k (snd (fst wn)) (fst (fst wn)))) (combine (fst st) (snd st)))
              (accumulate (fun a b w => add_sd_qd frames ti sel t0 t1 w) (pairs t0 t1) (repeat (zero, zero) n, 1 :: repeat 0 (n - 1)))
          else
            omap (cons (zero, zero))
              (osequence (map (fun dt => omap (fun w => (divd (fst w) (t3 * k * k), alpha t3 k (snd w) (fst w))) (ofold (fun a w => add_sd_qd frames ti sel t0 t1 w) (seq 0 t3) (zero, zero))) (seq 1 (n - 1))))
      end.

  (** cpp:828-867 [getISF], 896-942 [getSelfISF].  [Wave]: the pair (cos q.r, sin q.r), [cross] the sum of the products of the
      components of two of them, [one] = 1.0. *)
  Variables (Wave : Type) (wzero : Wave) (wadd : Wave -> Wave -> Wave) (wave : P -> Wave) (cross : Wave -> Wave -> V) (one : V).
  (** cpp:837-848: A[t] and B[t] for t0 <= t <= t1, written at index t of vectors of size t1-t0+1. *)
  Fixpoint isf_data (frames : list (list P)) (ti : trajindex) (sel : list nat) (ts : list nat) (ws : list Wave) : outcome (list Wave) :=
    match ts with
    | [] => Val ws
    | t :: ts' =>
        match nth_error ws t with
        | Some w0 => obind (ofold (fun tr w => omap (fun p => wadd w (wave p)) (place frames ti tr t)) sel w0) (fun w => isf_data frames ti sel ts' (set_nth t w ws))
        | None => UB
        end
    end.
  Definition cross_at (ws : list Wave) (a b : nat) : outcome V :=
    match nth_error ws b, nth_error ws a with Some x, Some y => Val (cross x y) | _, _ => UB end.
  Definition set_first (v : V) (l : list V) : outcome (list V) := match l with [] => UB | _ :: l' => Val (v :: l') end.
  Definition get_isf (frames : list (list P)) (ti : trajindex) (sel : list nat) (t0 t1 : nat) : outcome (list V) :=
    if t1 <? t0 then UB
    else
      let n := t1 - t0 + 1 in
      match sel with
      | [] => Val (repeat zero n)
      | _ =>
          obind (isf_data frames ti sel (seq t0 n) (repeat wzero n)) (fun ws =>
          obind (accumulate (fun a b w => ofold (fun _ w => omap (add w) (cross_at ws a b)) sel w) (pairs t0 t1) (repeat zero n, 1 :: repeat 0 (n - 1))) (fun st =>
          set_first one (map (fun vn => divn (fst vn) (snd vn * length sel)) (combine (fst st) (snd st)))))
      end.
  (** cpp:898-912: the vectors of getSelfISF have t1+t3-t0 elements, the result t1-t0. *)
  Definition self_data (frames : list (list P)) (ti : trajindex) (sel : list nat) (t0 n : nat) : outcome (list (list Wave)) :=
    osequence (map (fun t => osequence (map (fun tr => omap wave (place frames ti tr (t + t0))) sel)) (seq 0 n)).
  Definition self_terms (ws : list (list Wave)) (a b k : nat) (w : V) : outcome V :=
    ofold (fun p w =>
      match nth_error ws b, nth_error ws a with
      | Some rb, Some ra => match nth_error rb p, nth_error ra p with Some x, Some y => Val (add w (cross x y)) | _, _ => UB end
      | _, _ => UB
      end) (seq 0 k) w.
  Definition get_self_isf (frames : list (list P)) (ti : trajindex) (sel : list nat) (t0 t1 t3 : nat) : outcome (list V) :=
    if t1 <? t0 then UB
    else
      let n := t1 - t0 in
      let k := length sel in
      obind (self_data frames ti sel t0 (n + t3)) (fun ws =>
      obind
        (if t3 =? 0 then
           match n with
           | O => UB
           | S n' => omap (fun st => map (fun vn => divn (fst vn) (snd vn * k)) (combine (fst st) (snd st)))
                       (accumulate (fun a b w => self_terms ws (a - t0) (b - t0) k w) (pairs t0 t1) (repeat zero n, 1 :: repeat 0 n'))
           end
         else
           match n with
           | O => Val []
           | S n' => omap (cons zero) (osequence (map (fun dt => omap (fun s => divn s (t3 * k)) (ofold (fun a w => self_terms ws a (a + dt) k w) (seq 0 t3) zero)) (seq 1 n')))
           end)
        (set_first one)).
End Corr.

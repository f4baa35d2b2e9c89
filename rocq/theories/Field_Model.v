(** Model of lib/fields.hpp: fields of values averaged over a sliding interval of time. *)
Require Import List Bool Arith.
Require Import Verif.RTree_Model Verif.Traj_Model.
Import ListNotations.

Section Field.
  (** fields.hpp:52-162 [DynamicField<V>]: the type of values (double or Coord) with its null value, addition, division by a
      count and the test isNull (fields.hpp:173-197) are parameters, so that rounding is covered. *)
  Variables (V : Type) (zero : V) (add : V -> V -> V) (div : V -> nat -> V) (null : V -> bool).

  Record dfield := mkField { vals : list (list V); divs : list (list nat); now : nat }.

  (** fields.hpp:74-81, constructor; [inverse ti] has one row per frame. *)
  Definition df_new (ti : trajindex) (averaging : nat) : dfield :=
    mkField (map (fun row => repeat zero (length row)) (inverse ti))
      (map (fun row => repeat 0 (length row)) (firstn (averaging / 2 + 1) (inverse ti))) 0.

  (** fields.hpp:127-136: the loop over the positions p of frame t.  The iterations are independent: each one writes the elements
      of rank p only, so the parallel loop is modelled by a sequential one.  [None]: access out of range. *)
  Fixpoint bin_row (tri : list traj) (a : nat) (frame : list V) (row : list nat) (vrow : list V) (drow : list nat) : option (list V * list nat) :=
    match row, vrow, drow with
    | [], _, _ => Some (vrow, drow)
    | tr :: row', v :: vrow', d :: drow' =>
        let here :=
          match nth_error tri tr with
          | None => None
          | Some T =>
              if exist_at T a then
                match access T a with
                | Val p => match nth_error frame p with
                           | Some x => Some (if null x then (v, d) else (add v x, S d))
                           | None => None
                           end
                | _ => None
                end
              else Some (v, d)
          end in
        match here, bin_row tri a frame row' vrow' drow' with
        | Some (v', d'), Some (vs, ds) => Some (v' :: vs, d' :: ds)
        | _, _ => None
        end
    | _, _, _ => None
    end.
  (** fields.hpp:124-138: the loop over the frames t. *)
  Fixpoint bin_times (ti : trajindex) (a : nat) (frame : list V) (t0 : nat) (ts : list nat) (vd : list (list V) * list (list nat)) : option (list (list V) * list (list nat)) :=
    match ts with
    | [] => Some vd
    | t :: ts' =>
        match nth_error (inverse ti) t, nth_error (fst vd) t, nth_error (snd vd) (t - t0) with
        | Some row, Some vrow, Some drow =>
            match bin_row (trajs ti) a frame row vrow drow with
            | Some (vrow', drow') => bin_times ti a frame t0 ts' (set_nth t vrow' (fst vd), set_nth (t - t0) drow' (snd vd))
            | None => None
            end
        | _, _, _ => None
        end
    end.
  (** fields.hpp:146-150: division of one frame by the front of the divisors, which is discarded; [n] times. *)
  Fixpoint divide (n front : nat) (vd : list (list V) * list (list nat)) : option (list (list V) * list (list nat)) :=
    match n with
    | O => Some vd
    | S n' =>
        match nth_error (fst vd) front, snd vd with
        | Some vrow, drow :: divs' =>
            if length vrow <=? length drow then
              divide n' (S front) (set_nth front (map (fun vd => div (fst vd) (Nat.max 1 (snd vd))) (combine vrow drow)) (fst vd), divs')
            else None
        | _, _ => None
        end
    end.
  (** fields.hpp:114-162 [push_back]. *)
  Definition df_push (ti : trajindex) (averaging : nat) (df : dfield) (frame : list V) : option dfield :=
    let h := averaging / 2 in
    let a := now df in
    let n := length (vals df) in
    if h =? 0 then
      match nth_error (vals df) a with
      | Some row => if length frame <=? length row then Some (mkField (set_nth a (frame ++ skipn (length frame) row) (vals df)) (divs df) (S a)) else None
      | None => None
      end
    else
      let t0 := Nat.max a h - h in
      match bin_times ti a frame t0 (seq t0 (Nat.min (a + h + 1) n - t0)) (vals df, divs df) with
      | None => None
      | Some vd1 =>
          (** do ... while: once, or for all the remaining frames at the end *)
          match (if h <=? a then divide (if a + 1 =? n then n - (a - h) else 1) (a - h) vd1 else Some vd1) with
          | None => None
          | Some (vals2, divs2) =>
              if 1 + a + h <? n then
                match nth_error (inverse ti) (1 + a + h) with
                | Some row => Some (mkField vals2 (divs2 ++ [repeat 0 (length row)]) (S a))
                | None => None
                end
              else Some (mkField vals2 divs2 (S a))
          end
      end.
  Fixpoint df_run (ti : trajindex) (averaging : nat) (df : dfield) (fs : list (list V)) : option dfield :=
    match fs with
    | [] => Some df
    | f :: fs' => match df_push ti averaging df f with Some df' => df_run ti averaging df' fs' | None => None end
    end.
End Field.

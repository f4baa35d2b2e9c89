(** Model of the elimination of the centres found in two octaves, multiscale/src/octavefinder.cpp [seam_binary] (2D). *)
Require Import ZArith List Bool Arith.
Require Import Verif.Base Verif.Traj_Model Verif.Particles_Model Verif.Corr_Model Verif.Boo_Model.
Import ListNotations.

(** octavefinder.hpp:60-70: what the elimination uses of a finder. [value k j i]: pixel (row j, column i) of layer k;
    [flag k j i]: the same pixel of the binary image of layer k, binary[k-1]; [cs]: centers_no_subpix as (i, j, k). *)
Record finder := { nl : nat; rows : nat; cols : nat; value : nat -> nat -> nat -> Z; flag : nat -> nat -> nat -> bool; cs : list (nat * nat * nat) }.

(** assignment of one pixel of a binary image *)
Definition set_flag (f : nat -> nat -> nat -> bool) (k j i : nat) (b : bool) : nat -> nat -> nat -> bool :=
  fun k' j' i' => if (k' =? k) && (j' =? j) && (i' =? i) then b else f k' j' i'.
(** [x/sf+0.5] truncated: sf is the integer [Some sf], or infinite *)
Definition rescaled (sf : option nat) (x : nat) : nat := match sf with Some s => (2 * x + s) / (2 * s) | None => 0 end.
Definition inside (f : finder) (j i : nat) : bool := (j <? rows f) && (i <? cols f).

(** octavefinder.cpp:848-863: centres of the last layer of highRes with a lower one in lowRes are erased *)
Fixpoint drop_high (sf : option nat) (hi lo : finder) (l : list (nat * nat * nat)) (fl : nat -> nat -> nat -> bool) : outcome (list (nat * nat * nat) * (nat -> nat -> nat -> bool)) :=
  match l with
  | [] => Val ([], fl)
  | (i, j, k) :: r =>
      let keep := omap (fun x => ((i, j, k) :: fst x, snd x)) (drop_high sf hi lo r fl) in
      if k =? nl hi then
        let j2 := rescaled sf j in let i2 := rescaled sf i in
        if inside lo j2 i2 && inside hi j i then
          if flag lo 1 j2 i2 && (value lo 1 j2 i2 <? value hi k j i)%Z then drop_high sf hi lo r (set_flag fl k j i false) else keep
        else UB
      else keep
  end.
(** octavefinder.cpp:866-882: centres of the first layer of lowRes with a lower one in highRes are erased; sf is an integer here *)
Definition window (s c n : nat) : list nat := seq ((c - 1) * s) (Nat.min ((c + 1) * s) n - (c - 1) * s).
Fixpoint drop_low (s : nat) (hi lo : finder) (l : list (nat * nat * nat)) (fl : nat -> nat -> nat -> bool) : outcome (list (nat * nat * nat) * (nat -> nat -> nat -> bool)) :=
  match l with
  | [] => Val ([], fl)
  | (i, j, k) :: r =>
      if k =? 1 then
        if inside lo j i then
          let b := fold_left (fun b j' => fold_left (fun b i' => b && negb (flag hi (nl hi) j' i' && (value hi (nl hi) j' i' <? value lo 1 j i)%Z)) (window s i (cols hi)) b) (window s j (rows hi)) (fl 1 j i) in
          let fl' := set_flag fl 1 j i b in
          if b then omap (fun x => ((i, j, k) :: fst x, snd x)) (drop_low s hi lo r fl') else drop_low s hi lo r fl'
        else UB
      else omap (fun x => ((i, j, k) :: fst x, snd x)) (drop_low s hi lo r fl)
  end.
Definition with_flags (f : finder) (x : list (nat * nat * nat) * (nat -> nat -> nat -> bool)) : finder :=
  {| nl := nl f; rows := rows f; cols := cols f; value := value f; flag := snd x; cs := fst x |}.
Definition eliminate (sf : option nat) (hi lo : finder) : outcome (finder * finder) :=
  obind (drop_high sf hi lo (cs hi) (flag hi)) (fun x =>
  let hi' := with_flags hi x in
  match sf with
  | Some s => omap (fun y => (hi', with_flags lo y)) (drop_low s hi' lo (cs lo) (flag lo))
  | None => if existsb (fun c => snd c =? 1) (cs lo) then UB (* conversion of an infinite number to int *) else Val (hi', lo)
  end).
(** octavefinder.cpp:843-847 [OctaveFinder::seam_binary]: the finder called and the other after the call. The ratio is an integer division
    (get_height, the number of columns, is a size_t); 1.0/0 is infinite. *)
Definition seam_binary (this other : finder) : outcome (finder * finder) :=
  match cols other with
  | 0 => UB
  | _ => match cols this / cols other with
         | 0 => omap (fun x => (snd x, fst x)) (eliminate None other this)
         | 1 => omap (fun x => (snd x, fst x)) (eliminate (Some 1) other this)
         | s => eliminate (Some s) this other
         end
  end.

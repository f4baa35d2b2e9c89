(** Model of the elimination of the centres found in two octaves, multiscale/src/octavefinder.cpp, [seam_binary] in one dimension (886-927) and three dimensions (928-971).
    The two functions are the same text with one or three coordinates: they are modelled together, on lists of coordinates. *)
Require Import ZArith List Bool Arith.
Require Import Verif.Base Verif.Traj_Model Verif.Particles_Model Verif.Corr_Model Verif.Boo_Model Verif.Seam_Model.
Import ListNotations.

(** What the elimination uses of a finder.  [sizes]: number of pixels along each coordinate (i; or i, j, k): columns, rows, planes.
    [pixel l p]: pixel p of layer l; [mark l p]: the same in binary[l-1]; [found]: centers_no_subpix, the pixel and the layer (back()). *)
Record finder3 := { layers : nat; sizes : list nat; pixel : nat -> list nat -> Z; mark : nat -> list nat -> bool; found : list (list nat * nat) }.

Definition same_pixel (p q : list nat) : bool := if list_eq_dec Nat.eq_dec p q then true else false.
Definition set_mark (f : nat -> list nat -> bool) (l : nat) (p : list nat) (b : bool) : nat -> list nat -> bool := fun l' p' => if (l' =? l) && same_pixel p' p then b else f l' p'.
(** access to a pixel: the matrices are not protected *)
Fixpoint within (sz p : list nat) : bool := match sz, p with [], [] => true | n :: sz', x :: p' => (x <? n) && within sz' p' | _, _ => false end.

(** octavefinder.cpp:894-906, 936-948: centres of the last layer of highRes with a lower one in lowRes are erased *)
Fixpoint drop_high3 (sf : option nat) (hi lo : finder3) (l : list (list nat * nat)) (fl : nat -> list nat -> bool) : outcome (list (list nat * nat) * (nat -> list nat -> bool)) :=
  match l with
  | [] => Val ([], fl)
  | (p, k) :: r =>
      let keep := omap (fun x => ((p, k) :: fst x, snd x)) (drop_high3 sf hi lo r fl) in
      if k =? layers hi then
        let q := map (rescaled sf) p in
        if within (sizes lo) q && within (sizes hi) p then
          if mark lo 1 q && (pixel lo 1 q <? pixel hi k p)%Z then drop_high3 sf hi lo r (set_mark fl k p false) else keep
        else UB
      else keep
  end.
(** The nested loops over the pixels of highRes that overlap (octavefinder.cpp:916-917, 958-961), from the last coordinate to the first; [ws]: the ranges, last coordinate first. *)
Fixpoint scan (ws : list (list nat)) (p : list nat) (f : bool -> list nat -> bool) (b : bool) : bool :=
  match ws with [] => f b p | w :: ws' => fold_left (fun b x => scan ws' (x :: p) f b) w b end.
Definition ranges (s : nat) (p sz : list nat) : list (list nat) := rev (map (fun xn => window s (fst xn) (snd xn)) (combine p sz)).
(** octavefinder.cpp:908-925, 950-969: centres of the first layer of lowRes with a lower one in highRes are erased; sf is an integer here *)
Fixpoint drop_low3 (s : nat) (hi lo : finder3) (l : list (list nat * nat)) (fl : nat -> list nat -> bool) : outcome (list (list nat * nat) * (nat -> list nat -> bool)) :=
  match l with
  | [] => Val ([], fl)
  | (p, k) :: r =>
      if k =? 1 then
        if within (sizes lo) p then
          let b := scan (ranges s p (sizes hi)) [] (fun b q => b && negb (mark hi (layers hi) q && (pixel hi (layers hi) q <? pixel lo 1 p)%Z)) (fl 1 p) in
          let fl' := set_mark fl 1 p b in
          if b then omap (fun x => ((p, k) :: fst x, snd x)) (drop_low3 s hi lo r fl') else drop_low3 s hi lo r fl'
        else UB
      else omap (fun x => ((p, k) :: fst x, snd x)) (drop_low3 s hi lo r fl)
  end.
Definition with_marks (f : finder3) (x : list (list nat * nat) * (nat -> list nat -> bool)) : finder3 :=
  {| layers := layers f; sizes := sizes f; pixel := pixel f; mark := snd x; found := fst x |}.
Definition eliminate3 (sf : option nat) (hi lo : finder3) : outcome (finder3 * finder3) :=
  obind (drop_high3 sf hi lo (found hi) (mark hi)) (fun x =>
  let hi' := with_marks hi x in
  match sf with
  | Some s => omap (fun y => (hi', with_marks lo y)) (drop_low3 s hi' lo (found lo) (mark lo))
  | None => if existsb (fun c => snd c =? 1) (found lo) then UB (* conversion of an infinite number to int *) else Val (hi', lo)
  end).
(** octavefinder.cpp:886-891, 928-933; octavefinder.hpp:28-29, 99: the finder called and the other after the call; as in two dimensions the ratio is an integer division of the numbers of columns. *)
Definition columns (f : finder3) : nat := hd 0 (sizes f).
Definition seam_binary3 (this other : finder3) : outcome (finder3 * finder3) :=
  match columns other with
  | 0 => UB
  | _ => match columns this / columns other with
         | 0 => omap (fun x => (snd x, fst x)) (eliminate3 None other this)
         | 1 => omap (fun x => (snd x, fst x)) (eliminate3 (Some 1) other this)
         | s => eliminate3 (Some s) this other
         end
  end.

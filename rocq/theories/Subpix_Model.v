(** Model of the positions and scales with a resolution better than the pixel, multiscale/src/octavefinder.cpp.
    Pixel values are integers (fixed point), results are exact rationals, with the infinities and not-a-number of divisions by zero. *)
Require Import ZArith List Bool Arith QArith.
Require Import Verif.Base Verif.Traj_Model Verif.Particles_Model Verif.Corr_Model Verif.Boo_Model.
Import ListNotations.
Local Open Scope Q_scope.

(** Results of floating point divisions; the sign of a null denominator is positive (exact cancellations are +0). *)
Inductive num := Fin (q : Q) | Pinf | Minf | NaN.
Definition qlt (a b : Q) : bool := negb (Qle_bool b a).
Definition quot (a b : Q) : num :=
  if Qeq_bool b 0 then (if qlt 0 a then Pinf else if qlt a 0 then Minf else NaN) else Fin (a / b).
(** q - x *)
Definition minus (q : Q) (x : num) : num := match x with Fin y => Fin (q - y) | Pinf => Minf | Minf => Pinf | NaN => NaN end.
(** q + x *)
Definition plus_num (q : Q) (x : num) : num := match x with Fin y => Fin (q + y) | Pinf => Pinf | Minf => Minf | NaN => NaN end.
(** comparisons with not-a-number are false *)
Definition gt_num (x : num) (q : Q) : bool := match x with Fin y => qlt q y | Pinf => true | _ => false end.
Definition lt_num (x : num) (q : Q) : bool := match x with Fin y => qlt y q | Minf => true | _ => false end.
Definition ge_num (x : num) (q : Q) : bool := match x with Fin y => Qle_bool q y | Pinf => true | _ => false end.
(** if(x>hi) x=hi; if(x<lo) x=lo; *)
Definition saturate (lo hi : Q) (x : num) : num :=
  let x := if gt_num x hi then Fin hi else x in if lt_num x lo then Fin lo else x.

(** octavefinder.cpp:567-574: the coordinate of pixel i, with the values before, at and after it *)
Definition vertex (i : nat) (before at_i after : Z) : Q :=
  let a0 := inject_Z (after - before) / 2 in let a2 := inject_Z (after - 2 * at_i + before) in
  inject_Z (Z.of_nat i) + (1 # 2) - (if Qeq_bool a2 0 then 0 else a0 / a2).
Section Two.
  (** [G k j i]: pixel (j, i) of Gaussian layer k, [D] of the difference of Gaussian layers; [rows] x [cols] pixels. *)
  Variables (rows cols : nat) (G D : nat -> nat -> nat -> Z).
  Definition px (F : nat -> nat -> nat -> Z) (k j i : nat) : outcome Z := if (j <? rows)%nat && (i <? cols)%nat then Val (F k j i) else UB.
  (** octavefinder.cpp:559-577 [OctaveFinder::spatial_subpix] of (i, j, k): coordinates and intensity; [UB]: column or row -1. *)
  Definition spatial2 (ci : nat * nat * nat) : outcome (Q * Q * Z) :=
    let '(i, j, k) := ci in
    match i, j with
    | O, _ | _, O => UB
    | S i0, S j0 =>
        let l := px G (match k with O => k | S k0 => k0 end) in
        obind (l j (i + 1)%nat) (fun e => obind (l j i0) (fun w => obind (l (j + 1)%nat i) (fun s => obind (l j0 i) (fun n => obind (l j i) (fun c =>
        omap (fun d => (vertex i w c e, vertex j n c s, d)) (px D k j i))))))
    end.
  (** octavefinder.cpp:578-589 [OctaveFinder1D::spatial_subpix] of (i, k) in a single row: coordinate and intensity; no test of the denominator.
      An infinite coordinate has the sign opposite to that of e - w, hence the intensity +inf. *)
  Definition spatial1 (ci : nat * nat) : outcome (num * num) :=
    let '(i, k) := ci in
    match i with
    | O => UB
    | S i0 =>
        let l := px G (match k with O => k | S k0 => k0 end) 0%nat in
        obind (l (i + 1)%nat) (fun e => obind (l i0) (fun w => obind (l i) (fun c => omap (fun d =>
        let x := minus (inject_Z (Z.of_nat i) + (1 # 2)) (quot (inject_Z (e - w) / 2) (inject_Z (e - 2 * c + w))) in
        (x, match x with Fin q => Fin (inject_Z d - (1 # 4) * (q - inject_Z (Z.of_nat i)) * inject_Z (e - w)) | NaN => NaN | _ => Pinf end))
        (px D k 0%nat i))))
    end.
End Two.

(** octavefinder.cpp:728-778 [OctaveFinder::scale_subpix]; [response]: gaussianResponse of the pixel, scales in units of 1/2 layer. *)
Section Scale2.
  Variable response : Z -> outcome Z.
  (** :735-743, 756-763: responses at s-1, s-1/2, ..., s+5/2 (s in half layers), and differences a[u] *)
  Definition sublayers (s : Z) : outcome (list Z) :=
    omap (fun g => map (fun u => (nth (u + 2) g 0 - nth u g 0)%Z) (seq 0 5)) (osequence (map (fun u => response (s - 2 + Z.of_nat u)%Z) (seq 0 8))).
  Definition at_u (a : list Z) (u : nat) : Z := nth u a 0%Z.
  (** (-a[4] + 8*a[3] - 8*a[1] + a[0])/6.0 /(a[4]-2*a[2]+a[0]) *)
  Definition newton (a : list Z) : num := quot (inject_Z (- at_u a 4 + 8 * at_u a 3 - 8 * at_u a 1 + at_u a 0) / 6) (inject_Z (at_u a 4 - 2 * at_u a 2 + at_u a 0)).
  Definition scale2 (layer : nat) : outcome num :=
    let l := inject_Z (Z.of_nat layer) in
    obind (sublayers (2 * Z.of_nat layer)%Z) (fun a =>
    let s := saturate (l - (1 # 2)) (l + (1 # 2)) (minus l (newton a)) in
    omap (saturate (l - (1 # 2)) (l + (1 # 2)))
      (if ge_num s 1 then
         if lt_num s (l - (1 # 10)) then omap (fun a => minus (l - (1 # 2)) (newton a)) (sublayers (2 * Z.of_nat layer - 1)%Z) else Val s
       else
         if lt_num s (l - (1 # 4)) then Val (minus l (quot (inject_Z (at_u a 3 - at_u a 1)) (inject_Z (at_u a 4 - 2 * at_u a 2 + at_u a 0)))) else Val s)).
End Scale2.

(** octavefinder.cpp:1151-1165: the shift along one dimension, from the seven values around the pixel *)
Definition derivative1 (a : list Z) : Q :=
  inject_Z (nth 6 a 0 - 9 * nth 5 a 0 + 45 * nth 4 a 0 - 45 * nth 2 a 0 + 9 * nth 1 a 0 - nth 0 a 0)%Z / 60.
Definition derivative2 (a : list Z) : Q :=
  inject_Z (nth 6 a 0%Z) / 90 - 3 * inject_Z (nth 5 a 0%Z) / 20 + (3 # 2) * inject_Z (nth 4 a 0%Z) - 49 * inject_Z (nth 3 a 0%Z) / 18 + (3 # 2) * inject_Z (nth 2 a 0%Z) - 3 * inject_Z (nth 1 a 0%Z) / 20 + inject_Z (nth 0 a 0%Z) / 90.
Definition shift7 (a : list Z) : num := minus (7 # 16) (saturate (-1) 1 (quot (derivative1 a) (derivative2 a))).
Section Three.
  (** [G l k j i]: plane k of layer l; [planes] x [rows] x [cols] *)
  Variables (planes rows cols : nat) (G : nat -> nat -> nat -> nat -> Z).
  Definition px3 (l k j i : nat) : outcome Z := if (k <? planes)%nat && (j <? rows)%nat && (i <? cols)%nat then Val (G l k j i) else UB.
  (** the pixels from 3 before to 3 after position p *)
  Definition seven (at_p : nat -> outcome Z) (p : nat) : outcome (list Z) :=
    if (p <? 3)%nat then UB else osequence (map (fun u => at_p (p - 3 + u)%nat) (seq 0 7)).
  (** octavefinder.cpp:535-539, 1132-1167 [CircularZ4D::shift] for d = 0, 1, 2: the coordinates of the centre; the window of planes is that of C62 *)
  Definition spatial3 (ci : nat * nat * nat * nat) : outcome (num * num * num) :=
    let '(i, j, k, l) := ci in
    let plus p := plus_num (inject_Z (Z.of_nat p)) in
    obind (seven (fun i => px3 (l - 1) k j i) i) (fun x => obind (seven (fun j => px3 (l - 1) k j i) j) (fun y => omap (fun z =>
    (plus i (shift7 x), plus j (shift7 y), plus k (shift7 z))) (seven (fun k => px3 (l - 1) k j i) k))).
End Three.
(** octavefinder.cpp:1132-1150 [CircularZ4D::shift] for d = 3, from the differences of Gaussians below, at and above; [size]: number of layers - 2 *)
Definition shift_scale (ml : nat) (size : positive) (a : Z * Z * Z) : num :=
  let '(lo, c, hi) := a in
  match quot (inject_Z (- (hi - lo)) / 2) (inject_Z (hi - 2 * c + lo)) with
  | Fin q => let s := q - (45 # 1000) * inject_Z (Z.of_nat ml) / inject_Z (Zpos size) in
             saturate (- (1 # 2)) (1 # 2) (Fin ((107 # 100) * s + (235 # 1000) * s * s - (29 # 100) * s ^ 3 - (30 # 100) * s ^ 4))
  | Pinf | Minf | NaN => NaN (* sums of infinities of opposite signs *)
  end.

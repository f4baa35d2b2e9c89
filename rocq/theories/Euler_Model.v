(** Model of the geometry of lib/boo_data: angles of a bond, spherical harmonics of a bond, rotation tables from Euler angles, rotations around an axis.
    Doubles are taken as real numbers (Reals of the standard library). *)
Require Import Reals ZArith List Arith.
Require Import Verif.Base Verif.Traj_Model Verif.Particles_Model Verif.Boo_Model Verif.Wigner_Model.
Import ListNotations.
Local Open Scope R_scope.

(** Coord: three coordinates. *)
Definition vec : Type := (R * R * R)%type.
(** std::atan2 *)
Definition atan2 (y x : R) : R :=
  if Rlt_dec 0 x then atan (y / x)
  else if Rlt_dec x 0 then (if Rle_dec 0 y then atan (y / x) + PI else atan (y / x) - PI)
  else if Rlt_dec 0 y then PI / 2 else if Rlt_dec y 0 then - (PI / 2) else 0.
(** index.hpp:64 [norm2] *)
Definition norm3 (v : vec) : R := let '(x, y, z) := v in sqrt (x * x + y * y + z * z).
(** boo_data.cpp:120-137 [cartesian2spherical]: (r, theta, phi).  Simplification: without rounding, r*r+1 is 1 only when r is null
      (with doubles, when r is less than about 1e-8), and abs(z) is r only on the z axis. *)
Definition spherical (v : vec) : R * R * R :=
  let '(x, y, z) := v in
  let r := norm3 v in
  if Req_EM_T (Rabs z) r then (r, 0, 0)
  else if Req_EM_T (r * r + 1) 1 then (r, 0, 0)
  else let phi := atan2 y x in (r, acos (z / r), if Rlt_dec phi 0 then phi + 2 * PI else phi).

(** Powers of a complex number (std::pow(complex, int)). *)
Fixpoint cpow (z : cplx R) (n : nat) : cplx R := match n with O => (1, 0) | S n => cmul R Rplus Rmult Rminus z (cpow z n) end.
Definition cinv (z : cplx R) : cplx R := let d := fst z * fst z + snd z * snd z in (fst z / d, - snd z / d).
(** boo_data.cpp:376-396, the constructor of Wigner_D: the tables from the three angles. *)
Definition euler (alpha beta gamma : R) : wigner R :=
  let ea := (cos (- alpha), sin (- alpha)) in
  let eg := (cos (- gamma), sin (- gamma)) in
  {| e_a := map (cpow ea) (seq 0 11);
     e_g := map (fun m => cinv (cpow eg m)) (rev (seq 1 10)) ++ map (cpow eg) (seq 0 11);
     c_b := map (pow (cos (beta / 2))) (seq 0 21);
     s_b := map (pow (sin (beta / 2))) (seq 0 21) |}.
Definition rfact (n : nat) : R := INR (fact n).
(** boo_data.cpp:248, 275: the axis with z >= 0 *)
Definition upward (v : vec) : vec := let '(x, y, z) := v in if Rlt_dec z 0 then (x * -1, y * -1, z * -1) else (x * 1, y * 1, z * 1).
(** boo_data.cpp:244-264 [rotate_by_Pi] *)
Definition rotate_around (axis : vec) (q : list (cplx R)) : outcome (list (cplx R)) :=
  let '(_, theta, phi) := spherical (upward axis) in
  rotate_by_Pi R 0 1 Rplus Rmult Rminus Rdiv Ropp sqrt rfact (euler (PI - phi) (-2 * theta) phi) q.
(** boo_data.cpp:271-294 [reflect] *)
Definition reflect_by (normal : vec) (q : list (cplx R)) : outcome (list (cplx R)) :=
  let '(_, theta, phi) := spherical (upward normal) in
  reflect R 0 1 Rplus Rmult Rminus Rdiv Ropp sqrt rfact (euler phi theta 0) (euler 0 (- theta) (- phi)) q.

(** boo_data.cpp:140-149: the coefficients of one bond; [harmonic l m theta phi]: boost::math::spherical_harmonic. *)
Definition of_bond (harmonic : nat -> nat -> R -> R -> cplx R) (v : vec) : list (cplx R) :=
  let '(_, theta, phi) := spherical v in map (fun lm => harmonic (fst lm) (snd lm) theta phi) (combine i2l i2m).

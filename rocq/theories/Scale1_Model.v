(** Model of the scales of blobs on a line and in a volume, multiscale/src/octavefinder.cpp.
    As in Subpix_Model, pixel values are integers (fixed point), results are exact rationals, with the infinities and not-a-number of divisions by zero. *)
Require Import ZArith List Bool Arith QArith.
Require Import Verif.Base Verif.Traj_Model Verif.Particles_Model Verif.Corr_Model Verif.Boo_Model Verif.Subpix_Model.
Import ListNotations.
Local Open Scope Q_scope.

(** octavefinder.cpp:779-790 [OctaveFinder1D::scale_subpix]. *)
Section Line.
  (** [response]: gaussianResponse of the pixel, scales in units of 1/3 layer (h = 1.0/3.0, exact here);
      [corr]: pow(2,-2/(double)get_n_layers()), which is not rational in general. *)
  Variables (response : Z -> outcome Z) (corr : Q).
  (** :784-787: a[u], the responses at l - 1, l - 2/3, ..., l + 1 *)
  Definition thirds (l : nat) : outcome (list Z) := osequence (map (fun u => response (3 * Z.of_nat l - 3 + Z.of_nat u)%Z) (seq 0 7)).
  (** :788: 2*h * (a[5] -2*a[3] + a[1])/(a[6] -3*a[4] +3*a[2] -a[0]) *)
  Definition step1 (a : list Z) : num :=
    quot ((2 # 3) * inject_Z (at_u a 5 - 2 * at_u a 3 + at_u a 1)) (inject_Z (at_u a 6 - 3 * at_u a 4 + 3 * at_u a 2 - at_u a 0)).
  (** :789: l - 1.05*s + 0.08*pow(s,2) - corr + 0.025*l - 0.025; +inf gives -inf+inf, -inf gives +inf+inf. *)
  Definition corrected (l : nat) (s : num) : num :=
    match s with
    | Fin q => Fin (inject_Z (Z.of_nat l) - (105 # 100) * q + (8 # 100) * q * q - corr + (25 # 1000) * inject_Z (Z.of_nat l) - (25 # 1000))
    | Minf => Pinf
    | Pinf | NaN => NaN
    end.
  Definition scale1 (l : nat) : outcome num := omap (fun a => corrected l (step1 a)) (thirds l).
End Line.

(** octavefinder.cpp:791-821 [OctaveFinder3D::scale_subpix]. [G u]: the voxel in Gaussian layer u; [n]: get_n_layers(), there are n + 3 Gaussian layers.
    [UB]: a layer that does not exist. The formula of the shift is that of CircularZ4D::shift (Subpix_Model.shift_scale). *)
Definition scale3 (n : positive) (G : nat -> Z) (l : nat) : outcome num :=
  if (l =? 0)%nat || (Pos.to_nat n <? l)%nat then UB else
  let b u := (G (l - 1 + u + 1)%nat - G (l - 1 + u)%nat)%Z in
  Val (plus_num (inject_Z (Z.of_nat l)) (shift_scale l n (b 0%nat, b 1%nat, b 2%nat))).

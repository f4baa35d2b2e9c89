(** Model of the masks drawn from radii, graphic/tracker.cpp:91-269 (makeBandPassMask, makeLowPassMask) and 875-899 (setIsotropicBandPass, setAnisotropicBandPass, setIsotropicLowPass).
    Simplification: doubles are real numbers.  The loops that fill the lines of the mask and mirror it are in Tracker_Model. *)
Require Import Reals ZArith List Bool Arith.
Require Import Verif.Traj_Model Verif.Particles_Model Verif.Tracker_Model.
Import ListNotations.
Local Open Scope R_scope.

(** Conversion of a double to size_t (tracker.cpp:168, 173, 254): towards zero, [UB] out of range *)
Definition to_size (x : R) : outcome nat := if Rle_dec x (-1) then UB else if Rle_dec (IZR 18446744073709551616) x then UB else Val (Z.to_nat (Int_part x)).
(** boost::array<double,3>, first dimension first *)
Definition radii : Type := (R * R * R)%type.
Section Band.
  (** centersMap.shape() *)
  Variables (n0 n1 n2 : nat).
  (** tracker.cpp:109-112, 205-206: dimensions divided by radii, then by 2 *)
  Definition freqs (r : radii) : radii := (INR n0 / fst (fst r) / 2, INR n1 / snd (fst r) / 2, INR n2 / snd r / 2).
  (** tracker.cpp:158-174, 246-255: one limit of line (i,j), before the minimum with the length of the line; [other]: the limit of a line that is outside of the ellipsoid *)
  Definition limit (f : radii) (i j : nat) (other : nat) : outcome nat :=
    let a := (INR i / fst (fst f)) ^ 2 in let b := (INR j / snd (fst f)) ^ 2 in
    if Rlt_dec 1 (a + b) then Val other else to_size (1 + snd f * sqrt (1 - a - b)).
  (** tracker.cpp:165-181: the limits of line (i,j); [UB]: std::fill on a range whose end is before its beginning *)
  Definition band_line (fmin fmax : radii) (i j : nat) : outcome (nat * nat) :=
    obind (limit fmin i j 0) (fun kmin => obind (limit fmax i j (Nat.min (n2 / 2 + 1) kmin)) (fun kmax =>
      if (Nat.min (n2 / 2 + 1) kmax <? Nat.min (n2 / 2 + 1) kmin)%nat then UB else Val (kmin, kmax))).
  (** tracker.cpp:251-259 *)
  Definition low_line (fmax : radii) (i j : nat) : outcome (nat * nat) := omap (fun kmax => (0%nat, kmax)) (limit fmax i j 0).
  (** tracker.cpp:153-187, 241-265: the lines of an eighth of the mask, then mirrorMask *)
  Definition draw_lines (line : nat -> nat -> outcome (nat * nat)) (m : mask bool) : outcome (mask bool) :=
    let get i j := match line i j with Val ab => ab | _ => (0%nat, 0%nat) end in
    if forallb (fun ij => match line (fst ij) (snd ij) with Val _ => true | _ => false end) (list_prod (seq 0 (n0 / 2 + 1)) (seq 0 (n1 / 2 + 1)))
    then Val (make_band_pass n0 n1 (n2 / 2 + 1) (fun i j => fst (get i j)) (fun i j => snd (get i j)) m) else UB.
  (** tracker.cpp:96-190; [Throw]: invalid_argument.  A null last radius gives an infinite frequency, of which the conversion to size_t is [UB] in the first line.
      Null radii in the other dimensions only are not modelled (the division of Reals by 0 is not specified). *)
  Definition make_band (rmin rmax : radii) (m : mask bool) : outcome (mask bool) :=
    if Rlt_dec (fst (fst rmin)) (fst (fst rmax)) then if Rlt_dec (snd (fst rmin)) (snd (fst rmax)) then if Rlt_dec (snd rmin) (snd rmax) then
      if Req_EM_T (snd rmin) 0 then UB else if Req_EM_T (snd rmax) 0 then UB else draw_lines (band_line (freqs rmax) (freqs rmin)) m
    else Throw else Throw else Throw.
  (** tracker.cpp:195-269; null radii as above *)
  Definition make_low (rmin : radii) (m : mask bool) : outcome (mask bool) := if Req_EM_T (snd rmin) 0 then UB else draw_lines (low_line (freqs rmin)) m.
  (** tracker.cpp:876-882; [ratio]: getZXratio() *)
  Definition isotropic_band_pass (ratio rmin rmax : R) (m : mask bool) : outcome (mask bool) := make_band (rmin / ratio, rmin, rmin) (rmax / ratio, rmax, rmax) m.
  (** tracker.cpp:885-891 *)
  Definition anisotropic_band_pass (rmin rmax zmin zmax : R) (m : mask bool) : outcome (mask bool) := make_band (zmin, rmin, rmin) (zmax, rmax, rmax) m.
  (** tracker.cpp:894-899 *)
  Definition isotropic_low_pass (ratio rmin : R) (m : mask bool) : outcome (mask bool) := make_low (rmin / ratio, rmin, rmin) m.
End Band.

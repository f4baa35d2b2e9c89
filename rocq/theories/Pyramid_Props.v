(** C63, C64: pyramid of octaves. *)
Require Import List Bool Arith Lia ZArith.
Require Import Verif.Base Verif.ListX Verif.Traj_Model Verif.Particles_Model Verif.Corr_Model Verif.RTree_Model Verif.Boo_Model Verif.Pyramid_Model Verif.Pyramid_Spec Verif.Pyramid_Proofs Verif.Pyramid3_Proofs.
Import ListNotations.
Local Open Scope nat_scope.

(** * C63.  Octave 0 has twice the size of the image, octave k+1 its size divided by 2^k, as long as this is at least 12 (10 in 3D). *)
Theorem C63_octaves2 : forall r c, nth_error (octaves2 r c) 0 = Some (2 * r, 2 * c) /\
  forall k x y, nth_error (octaves2 r c) (S k) = Some (x, y) <-> x = r / 2 ^ k /\ y = c / 2 ^ k /\ 12 <= x /\ 12 <= y.
Proof. intros. split; [auto|]. intros. unfold octaves2. cbn [nth_error]. rewrite halves2_spec by lia. tauto. Qed.
Theorem C63_octaves1 : forall c, nth_error (octaves1 c) 0 = Some (2 * c) /\ forall k x, nth_error (octaves1 c) (S k) = Some x <-> x = c / 2 ^ k /\ 12 <= x.
Proof. intros. split; [auto|]. intros. unfold octaves1. cbn [nth_error]. rewrite halves1_spec by lia. tauto. Qed.
Theorem C63_octaves3 : forall p r c, nth_error (octaves3 p r c) 0 = Some (2 * p, 2 * r, 2 * c) /\
  forall k x y z, nth_error (octaves3 p r c) (S k) = Some (x, y, z) <-> x = p / 2 ^ k /\ y = r / 2 ^ k /\ z = c / 2 ^ k /\ 10 <= x /\ 10 <= y /\ 10 <= z.
Proof. intros. split; [auto|]. intros. unfold octaves3. cbn [nth_error]. rewrite halves3_spec by lia. tauto. Qed.
Example C63_octaves_example : octaves2 100 53 = [(200, 106); (100, 53); (50, 26); (25, 13)] /\ octaves2 11 100 = [(22, 200)] /\ octaves1 31 = [62; 31; 15] /\ octaves3 25 40 41 = [(50, 80, 82); (25, 40, 41); (12, 20, 20)].
Proof. vm_compute. auto. Qed.

(** Downscaling from an octave to the next reads only existing pixels of the former and writes each pixel of the latter: the mean of 2, 4 or 8. *)
Theorem C63_downscale2 : forall (P : Type) (mean4 : P -> P -> P -> P -> P) r0 c0 o R C r c a g,
  nth_error (octaves2 r0 c0) o = Some (R, C) -> nth_error (octaves2 r0 c0) (S o) = Some (r, c) ->
  (forall i j, i < R -> j < C -> at2 a C i j = Some (g i j)) ->
  exists m, downscale2 P mean4 R C a r c = Val m /\ length m = r * c /\
    forall i j, i < r -> j < c -> at2 m c i j = Some (Some (mean4 (g (2 * i) (2 * j)) (g (2 * i + 1) (2 * j)) (g (2 * i) (2 * j + 1)) (g (2 * i + 1) (2 * j + 1)))).
Proof.
  intros P mean4 r0 c0 o R C r c a g H1 H2 Ha. apply (C63_octaves2 r0 c0) in H2. assert (r = R / 2 /\ c = C / 2) as [Er Ec]; [|apply downscale2_ok; auto]. destruct o as [|o].
  - assert (R = 2 * r0 /\ C = 2 * c0) as [-> ->] by (unfold octaves2 in H1; cbn [nth_error] in H1; split; congruence). rewrite !half_even. rewrite !Nat.pow_0_r, !Nat.div_1_r in H2. tauto.
  - apply (C63_octaves2 r0 c0) in H1. destruct H1 as (-> & -> & _), H2 as (-> & -> & _). rewrite !Nat.pow_succ_r', !(Nat.mul_comm 2), <- !Nat.div_div by (try lia; apply Nat.pow_nonzero; lia). auto.
Qed.
Theorem C63_downscale1 : forall (P : Type) (mean2 : P -> P -> P) c0 o C c a g,
  nth_error (octaves1 c0) o = Some C -> nth_error (octaves1 c0) (S o) = Some c -> (forall j, j < C -> nth_error a j = Some (g j)) ->
  exists m, downscale1 P mean2 a c = Val m /\ length m = c /\ forall j, j < c -> nth_error m j = Some (Some (mean2 (g (2 * j)) (g (2 * j + 1)))).
Proof.
  intros P mean2 c0 o C c a g H1 H2 Ha. apply (C63_octaves1 c0) in H2. assert (Ec : c = C / 2).
  { destruct o as [|o].
    - assert (C = 2 * c0) as -> by (unfold octaves1 in H1; cbn [nth_error] in H1; congruence). rewrite !half_even. rewrite Nat.pow_0_r, Nat.div_1_r in H2. tauto.
    - apply (C63_octaves1 c0) in H1. destruct H1 as (-> & _), H2 as (-> & _). rewrite Nat.pow_succ_r', (Nat.mul_comm 2), <- Nat.div_div by (try lia; apply Nat.pow_nonzero; lia). auto. }
  apply downscale1_ok. intros i Hi. apply Ha. assert (X := Nat.div_mod_eq C 2). lia.
Qed.
Theorem C63_downscale3 : forall (P : Type) (zero : P) (mean8 : list P -> P) d0 r0 c0 o D R C d r c a g,
  nth_error (octaves3 d0 r0 c0) o = Some (D, R, C) -> nth_error (octaves3 d0 r0 c0) (S o) = Some (d, r, c) ->
  (forall k j i, k < D -> j < R -> i < C -> at3 a R C k j i = Some (g k j i)) ->
  exists m, downscale3 P zero mean8 D R C a d r c = Val m /\ length m = d * r * c /\
    forall k j i, k < d -> j < r -> i < c -> at3 m r c k j i = Some (mean8 [g (2 * k) (2 * j) (2 * i); g (2 * k) (2 * j) (2 * i + 1); g (2 * k) (2 * j + 1) (2 * i); g (2 * k) (2 * j + 1) (2 * i + 1);
      g (2 * k + 1) (2 * j) (2 * i); g (2 * k + 1) (2 * j) (2 * i + 1); g (2 * k + 1) (2 * j + 1) (2 * i); g (2 * k + 1) (2 * j + 1) (2 * i + 1)]).
Proof.
  intros P zero mean8 d0 r0 c0 o D R C d r c a g H1 H2 Ha. apply (C63_octaves3 d0 r0 c0) in H2. assert (d = D / 2 /\ r = R / 2 /\ c = C / 2) as (Ed & Er & Ec); [|apply downscale3_ok; auto]. destruct o as [|o].
  - assert (D = 2 * d0 /\ R = 2 * r0 /\ C = 2 * c0) as (-> & -> & ->) by (unfold octaves3 in H1; cbn [nth_error] in H1; split; [|split]; congruence). rewrite !half_even. rewrite !Nat.pow_0_r, !Nat.div_1_r in H2. tauto.
  - apply (C63_octaves3 d0 r0 c0) in H1. destruct H1 as (-> & -> & -> & _), H2 as (-> & -> & -> & _). rewrite !Nat.pow_succ_r', !(Nat.mul_comm 2), <- !Nat.div_div by (try lia; apply Nat.pow_nonzero; lia). auto.
Qed.
(** Odd sizes: the last row and column are left out. *)
Example C63_downscale_example : downscale2 nat (fun x y z t => x + y + z + t) 3 5 (seq 0 15) 1 2 = Val [Some 12; Some 20].
Proof. vm_compute. reflexivity. Qed.

(** * C64.  In one and two dimensions, upscaling interpolates linearly; the last odd row and column are zero. *)
Theorem C64_upscale1 : forall (P : Type) (zero : P) (half : P -> P -> P) c input g, (forall i, i < c -> nth_error input i = Some (g i)) ->
  exists m, upscale1 P zero half c input = Val m /\ length m = 2 * c /\ forall x, x < 2 * c -> nth_error m x = Some (interp half zero c g x).
Proof. apply upscale1_ok. Qed.
Theorem C64_upscale2 : forall (P : Type) (zero : P) (half : P -> P -> P) r c input g, (forall j i, j < r -> i < c -> at2 input c j i = Some (g j i)) ->
  exists m, upscale2 P zero half r c input = Val m /\ length m = (2 * r) * (2 * c) /\
    forall y x, y < 2 * r -> x < 2 * c -> at2 m (2 * c) y x = Some (interp half zero r (fun j => interp half zero c (g j) x) y).
Proof. apply upscale2_ok. Qed.
(** In three dimensions, lines and planes are interpolated but odd pixels of the lines stay zero. *)
Theorem C64_upscale3 : forall (P : Type) (zero : P) (half : P -> P -> P) d r c input g, half zero zero = zero -> (forall k j i, k < d -> j < r -> i < c -> at3 input r c k j i = Some (g k j i)) ->
  exists m, upscale3 P zero half d d r c input = Val m /\ length m = (2 * d) * (2 * r) * (2 * c) /\
    forall p y x, p < 2 * d -> y < 2 * r -> x < 2 * c -> at3 m (2 * r) (2 * c) p y x = Some (interp half zero d (fun k => interp half zero r (fun j => stuffed zero (g k j) x) y) p).
Proof. intros P zero half d r c input g Hz H. destruct (upscale3_ok P zero half Hz r c input g d H) as [m (E & L & A)]. exists m. auto. Qed.
(** So the odd pixels of even lines are not the mean of their neighbours, for any volume where some mean is not zero. *)
Theorem C64_upscale3_refuted : forall (P : Type) (zero : P) (half : P -> P -> P) d r c input g k j i, half zero zero = zero -> (forall k j i, k < d -> j < r -> i < c -> at3 input r c k j i = Some (g k j i)) ->
  k < d -> j < r -> i + 1 < c -> half (g k j i) (g k j (i + 1)) <> zero ->
  exists m, upscale3 P zero half d d r c input = Val m /\ at3 m (2 * r) (2 * c) (2 * k) (2 * j) (2 * i + 1) = Some zero /\
    at3 m (2 * r) (2 * c) (2 * k) (2 * j) (2 * i + 1) <> Some (half (g k j i) (g k j (i + 1))).
Proof.
  intros P zero half d r c input g k j i Hz H Hk Hj Hi Ne. destruct (C64_upscale3 P zero half d r c input g Hz H) as [m (E & L & A)]. exists m. split; auto.
  assert (X : at3 m (2 * r) (2 * c) (2 * k) (2 * j) (2 * i + 1) = Some zero). { rewrite A by lia. unfold interp, stuffed. rewrite !even_2, even_21. auto. }
  split; auto. rewrite X. congruence.
Qed.
(** A volume deeper than the finder (not refused by fill, which checks only rows and columns) overruns the buffer. *)
Theorem C64_deeper_refuted : forall (P : Type) (zero : P) (half : P -> P -> P) fd d r c input g, half zero zero = zero -> (forall k j i, k < d -> j < r -> i < c -> at3 input r c k j i = Some (g k j i)) ->
  fd < d -> 0 < r -> 0 < c -> upscale3 P zero half fd d r c input = UB.
Proof. intros P zero half fd d r c input g Hz H. intros. eapply upscale3_ub; eauto. Qed.
Definition meanZ (x y : Z) : Z := ((x + y) / 2)%Z.
Example C64_example2 : upscale2 Z 0%Z meanZ 2 2 [0; 4; 8; 16]%Z = Val [0; 2; 4; 0; 4; 7; 10; 0; 8; 12; 16; 0; 0; 0; 0; 0]%Z.
Proof. vm_compute. reflexivity. Qed.
Example C64_example3 : upscale3 Z 0%Z meanZ 1 1 2 2 [2; 4; 8; 16]%Z = Val [2; 0; 4; 0; 5; 0; 10; 0; 8; 0; 16; 0; 0; 0; 0; 0;  0; 0; 0; 0; 0; 0; 0; 0; 0; 0; 0; 0; 0; 0; 0; 0]%Z.
Proof. vm_compute. reflexivity. Qed.

Print Assumptions C63_octaves2.
Print Assumptions C63_octaves1.
Print Assumptions C63_octaves3.
Print Assumptions C63_downscale2.
Print Assumptions C63_downscale1.
Print Assumptions C63_downscale3.
Print Assumptions C64_upscale1.
Print Assumptions C64_upscale2.
Print Assumptions C64_upscale3.
Print Assumptions C64_upscale3_refuted.
Print Assumptions C64_deeper_refuted.

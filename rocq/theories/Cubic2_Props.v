(** Property C159, continued: the bound on the cubic order parameter. *)
Require Import Reals Qreals QArith ZArith List Bool Arith Lia Lra.
Require Import Verif.Base Verif.ListX Verif.Traj_Model Verif.Particles_Model Verif.Particles_Spec Verif.Ngb_Spec Verif.PBoo_Model Verif.PBoo_Spec Verif.PBoo_Proofs Verif.PBoo_Props Verif.Boo_Model Verif.Boo_Spec Verif.Boo_Proofs Verif.Boo_Props Verif.Euler_Model Verif.Euler_Spec Verif.Euler_Cplx Verif.Euler_Proofs Verif.Euler_Geom Verif.Euler_Turn Verif.Euler_Harm Verif.Euler_Props.
Require Import Verif.Angle_Model Verif.Angle_Spec Verif.Angle_Proofs Verif.Angle_Props Verif.Cubic_Model Verif.Cubic_Spec Verif.Cubic_Proofs Verif.Cubic_Link Verif.Cubic_Bonds Verif.Cubic_Props Verif.Cubic_Bound.
Import ListNotations.
Local Open Scope R_scope.

(** Whatever the coefficients, W is a real number between -1 and 1. *)
Theorem C159_bounded q l : degree l -> length q = 36%nat -> realq q -> exists w, get_w q l = Val (w, 0) /\ -1 <= w <= 1.
Proof.
  intros Hl Lq Rq. destruct (w_is_real q l Hl Lq Rq) as [w W]. exists w. split; auto.
  assert (N := norm_ok R 0 1 Rplus Rmult q l Hl Lq). match type of N with _ = Val ?x => set (n := x) in N end.
  destruct (sum_bound q l n Hl Lq (Rq l Hl) N) as [P B]. rewrite inv_tri in B by auto. rewrite (get_w_value q l n) in W by auto. apply val_inj in W.
  set (t := (kappa l * tri l (xs q l) (xs q l) (xs q l))%C) in *.
  assert (G : w * w <= 1 * 1); [|destruct (Rle_dec 0 w) as [H|H]; [assert (w <= 1) by (apply Rsqr_incr_0_var; [exact G|lra]); lra|assert (- w <= 1) by (apply Rsqr_incr_0_var; [unfold Rsqr; lra|lra]); lra]].
  unfold divide_15 in W. destruct (Req_EM_T n 0) as [Z0|NZ].
  - rewrite W in B. cbn [fst] in B. rewrite Z0 in B. lra.
  - assert (Q : 0 < n) by lra. rewrite power_32 in W by auto. assert (S0 := sqrt_lt_R0 _ Q). assert (SS := sqrt_sqrt _ P). set (s := sqrt n) in *. apply (f_equal fst) in W. cbn [fst] in W.
    assert (T : fst t = w * (s * s * s)) by (rewrite <- W; field; lra). rewrite T in B. rewrite <- SS in B.
    assert (C3 : 0 < s * s * s) by (apply Rmult_lt_0_compat; [apply Rmult_lt_0_compat|]; auto). assert (C6 : 0 < s * s * s * (s * s * s)) by (apply Rmult_lt_0_compat; auto).
    apply (Rmult_le_reg_r (s * s * s * (s * s * s))); auto. lra.
Qed.
(** The coefficients of a particle, own or coarse-grained. *)
Theorem C159_bounded_sample ps ngb c l : length ngb = length ps -> ngb_ok ngb -> (c < length ps)%nat -> degree l -> exists b w, boo_at harmonic ps ngb c = Val b /\ get_w b l = Val (w, 0) /\ -1 <= w <= 1.
Proof.
  intros Hn Hok Hc Hl. destruct (own_made ps ngb Hn Hok c Hc) as [b [Eb Mb]]. destruct (C159_bounded b l Hl) as [w H]; [apply Mb|apply Mb|]. exists b, w. auto.
Qed.
Theorem C159_bounded_coarse ps ngb c l : length ngb = length ps -> ngb_ok ngb -> symmetric ngb -> irreflexive ngb -> (forall p, (p < length ps)%nat -> nth p ngb [] <> []) -> (c < length ps)%nat -> degree l ->
  exists b w, cg_boo_at harmonic ps ngb c = Val b /\ get_w b l = Val (w, 0) /\ -1 <= w <= 1.
Proof.
  intros Hn Hok Sy Ir Full Hc Hl. destruct (cg_made ps ngb c Hn Hok Sy Ir Full Hc) as [b [Eb Mb]]. destruct (C159_bounded b l Hl) as [w H]; [apply Mb|apply Mb|]. exists b, w. auto.
Qed.
(** The bound is reached at degree 0; it does not hold of getWl. *)
Theorem C159_bound_reached v : v <> null_vec -> get_w (of_bond harmonic v) 0 = Val (1, 0).
Proof.
  intros N. assert (D : degree 0) by (split; [exists 0%nat; auto|lia]). rewrite C159_single by auto. f_equal. f_equal.
  assert (W := w_symbol 0 0 0 D ltac:(unfold legal; lia)). unfold symbol0. rewrite <- W. unfold wz. replace (index_of 0 0 0) with 0%nat by reflexivity. unfold w3j_real. cbn [map nth w3j_table fst snd]. replace (Q2R 1) with 1 by (unfold Q2R; cbn; lra). rewrite sqrt_1. ring.
Qed.
Theorem C159_wl_unbounded : exists w, get_w_short (of_bond harmonic (0, 0, 1)) 2 = Val (w, 0) /\ w < -2.
Proof.
  exists (12 * - sqrt (2 / 35)). split; [apply C159_wl_refuted|]. assert (L : / 6 < sqrt (2 / 35)); [|lra]. rewrite <- (sqrt_square (/ 6)) by lra. apply sqrt_lt_1; lra.
Qed.
(** Three bonds in space meet the hypotheses. *)
Example C159_bounded_case : let ps := [(0, 0, 0); (2, 0, 0); (0, 0, 5)] in let ngb := [[1; 2]; [0]; [0]]%nat in
  exists b w b' w', boo_at harmonic ps ngb 0 = Val b /\ get_w b 6 = Val (w, 0) /\ -1 <= w <= 1 /\ cg_boo_at harmonic ps ngb 0 = Val b' /\ get_w b' 4 = Val (w', 0) /\ -1 <= w' <= 1.
Proof.
  intros ps ngb. destruct C157_case as [Ln [Hok [Sy [Ir [A [Full [D [Sf [B _]]]]]]]]].
  assert (D6 : degree 6) by (split; [exists 3%nat; auto|lia]). assert (D4 : degree 4) by (split; [exists 2%nat; auto|lia]).
  destruct (C159_bounded_sample ps ngb 0 6 Ln Hok ltac:(cbn; lia) D6) as [b [w [E1 [E2 E3]]]]. destruct (C159_bounded_coarse ps ngb 0 4 Ln Hok Sy Ir Full ltac:(cbn; lia) D4) as [b' [w' [E4 [E5 E6]]]]. exists b, w, b', w'. auto 10.
Qed.

Print Assumptions C159_bounded.
Print Assumptions C159_bounded_sample.
Print Assumptions C159_bounded_coarse.
Print Assumptions C159_bound_reached.
Print Assumptions C159_wl_unbounded.
Print Assumptions C159_bounded_case.

(** C71, C72: processing along one axis of an image. *)
Require Import List Bool Arith Lia ZArith.
Require Import Verif.Traj_Model Verif.Particles_Model Verif.RTree_Model Verif.Boo_Model Verif.Corr_Model Verif.Pyramid_Model.
Require Import Verif.Corr_Proofs Verif.Pyramid_Proofs Verif.Deconv_Model Verif.Deconv_Spec Verif.Deconv_Proofs.
Import ListNotations.

(** The coordinates of a shape are the positions in memory, each exactly once. *)
Theorem C71_coordinates shape : (forall p, p < size shape -> exists c, valid shape c /\ address shape c = p) /\ (forall c c', valid shape c -> valid shape c' -> address shape c = address shape c' -> c = c').
Proof.
  split.
  - intros p Hp. assert (I : In p (map (address shape) (all_coords shape))) by (rewrite address_all; apply in_seq; lia). apply in_map_iff in I. destruct I as [c [E I]]. exists c. split; auto. apply all_valid. auto.
  - induction shape as [|n s IH]; intros [|x c] [|x' c'] Vc Vc' E; cbn in *; try tauto. destruct Vc as [Hx Vc], Vc' as [Hx' Vc']. assert (A := address_lt s c Vc). assert (A' := address_lt s c' Vc').
    apply idx_inj in E as [-> E]; auto. f_equal. auto.
Qed.

Section Convolution.
Variables (V C K : Type) (fwd : list V -> list C) (bwd : nat -> list C -> list V) (cmul : nat -> C -> K -> C).
Hypothesis fwd_len : forall l, length (fwd l) = length l / 2 + 1.
Hypothesis bwd_len : forall n f, length (bwd n f) = n.
(** Every pixel becomes the value, at its place, of the transform of the original line through it. *)
Theorem C71_convolve shape axis kernel im : Forall (fun n => 0 < n) shape -> axis < length shape -> length im = size shape -> nth axis shape 0 / 2 + 1 <= length kernel ->
  exists im', convolve V C K fwd bwd cmul shape axis kernel im = Val im' /\ length im' = length im /\
    forall c, valid shape c -> exists l, line_through shape axis im c l /\
      nth_error im' (address shape c) = nth_error (bwd (nth axis shape 0) (map (fun ck => cmul (nth axis shape 0) (fst ck) (snd ck)) (combine (fwd l) kernel))) (nth axis c 0).
Proof.
  intros P H L LK. assert (E0 : 0 < size shape) by (apply size_pos; auto). assert (D : exists d : V, True). { destruct im as [|d im]; [cbn in L; lia|exists d; auto]. } destruct D as [d _].
  assert (N0 : 0 < nth axis shape 0). { rewrite Forall_forall in P. apply P. apply nth_In. auto. }
  assert (S0 : 0 < size (skipn (S axis) shape)) by (apply size_pos, Forall_skipn_x; auto).
  destruct (all_lines V C K fwd bwd cmul fwd_len bwd_len (nth axis shape 0) (size (skipn (S axis) shape)) (size (firstn axis shape)) im kernel d) as [m [E [Lm M]]]; auto. { rewrite L. apply shape_size. auto. }
  exists m. split; [|split; [auto|]].
  - unfold convolve. rewrite for_lines_eq by auto. auto.
  - intros c Hc. exists (line_at V (nth axis shape 0) (size (skipn (S axis) shape)) im d (plane_of shape axis c) (col_of shape axis c)). split; [apply line_of_coord; auto|].
    rewrite (address_cell shape axis) by auto. rewrite M; [|apply plane_lt; auto|apply axis_lt; auto|apply col_lt; auto]. unfold filtered. rewrite line_len. auto.
Qed.
Theorem C71_convolve_axis shape axis kernel im : length shape <= axis -> convolve V C K fwd bwd cmul shape axis kernel im = Throw.
Proof. intros H. unfold convolve, for_lines. destruct (Nat.leb_spec (length shape) axis); [auto|lia]. Qed.
(** Refuted: the length of the kernel is not known; a kernel shorter than the spectrum is read out of bounds. *)
Theorem C71_short_refuted shape axis kernel im : Forall (fun n => 0 < n) shape -> axis < length shape -> length im = size shape -> length kernel < nth axis shape 0 / 2 + 1 -> convolve V C K fwd bwd cmul shape axis kernel im = UB.
Proof.
  intros P H L LK. assert (N0 : 0 < nth axis shape 0). { rewrite Forall_forall in P. apply P. apply nth_In. auto. }
  assert (S0 : 0 < size (skipn (S axis) shape)) by (apply size_pos, Forall_skipn_x; auto). assert (B0 : 0 < size (firstn axis shape)) by (apply size_pos, Forall_firstn_x; auto).
  unfold convolve. rewrite for_lines_eq by auto. destruct (size (firstn axis shape)) as [|nb] eqn:EB; [lia|]. destruct (size (skipn (S axis) shape)) as [|st] eqn:ES; [lia|]. cbn [seq ofold].
  set (n := nth axis shape 0) in *. assert (X : conv_line V C K fwd bwd cmul n (S st) kernel (0 * (n * S st) + 0) im = UB); [|rewrite X; auto].
  unfold conv_line. destruct im as [|d im]. { cbn in L. assert (0 < size shape) by (apply size_pos; auto). lia. }
  rewrite (read_line_ok (d :: im) d). 2:{ intros x Hx. rewrite L, (shape_size shape axis H), EB, ES. fold n. assert (x * S st <= (n - 1) * S st) by (apply Nat.mul_le_mono_r; lia). assert (S nb * (n * S st) >= 1 * (n * S st)) by (apply Nat.mul_le_mono_r; lia). assert ((n - 1) * S st + 1 * S st = n * S st) by (rewrite <- Nat.mul_add_distr_r; f_equal; lia). lia. }
  cbn [obind]. set (l := map _ (seq 0 n)). assert (Ll : length l = n) by (unfold l; rewrite map_length, seq_length; auto). assert (Y : apply_kernel C K cmul n kernel (fwd l) = UB); [|rewrite Y; auto].
  unfold apply_kernel. assert (FL := fwd_len l). rewrite Ll in FL. rewrite <- FL in *. clearbody l. clear - LK. revert kernel LK. generalize (fwd l). intros f. induction f as [|c f IH]; intros kernel LK; cbn [length] in *; [lia|].
  cbn [seq map osequence]. unfold at_index at 1. cbn [nth_error obind]. destruct kernel as [|k kernel]; [reflexivity|]. unfold at_index at 1. cbn [nth_error omap obind]. rewrite <- seq_shift, map_map. cbn [length] in LK. specialize (IH kernel ltac:(lia)). unfold at_index in *. cbn [nth_error]. rewrite IH. auto.
Qed.
End Convolution.
(** Refuted: an image without planes before the axis divides by zero. *)
Theorem C71_empty_refuted (V C K : Type) (fwd : list V -> list C) bwd (cmul : nat -> C -> K -> C) n kernel : convolve V C K fwd bwd cmul [0; n] 1 kernel [] = UB.
Proof. reflexivity. Qed.

Section Spectra.
Variables (V C S K D CD : Type) (fwd : list V -> list C) (hann : nat -> nat -> V -> V) (norm : C -> S) (zero : D) (zeroc : CD) (add : D -> S -> D) (addc : CD -> C -> CD) (finish : nat -> D -> CD -> S) (c0 : C).
Hypothesis fwd_len : forall l, length (fwd l) = length l / 2 + 1.
(** The spectrum accumulates each line along the axis exactly once, and divides by their number. *)
Theorem C71_spectrum shape axis w im : Forall (fun n => 0 < n) shape -> axis < length shape -> length im = size shape ->
  exists lines res, Forall2 (line_through shape axis im) (all_coords (move axis 1 shape)) lines /\ get_spectrum_1d V C fwd S D CD hann norm zero zeroc add addc finish shape axis w im = Val res /\
    length res = nth axis shape 0 / 2 + 1 /\ forall u, u < nth axis shape 0 / 2 + 1 -> nth_error res u = Some (finish (length lines)
      (fold_left (fun t l => add t (norm (nth u (fwd (tapered hann w l)) c0))) lines zero) (fold_left (fun t l => addc t (nth u (fwd (tapered hann w l)) c0)) lines zeroc)).
Proof.
  intros P H L. assert (E0 : 0 < size shape) by (apply size_pos; auto). destruct im as [|d im]; [cbn in L; lia|]. apply (spectrum_ok V C S D CD fwd hann norm zero zeroc add addc finish c0 fwd_len shape axis w (d :: im) d); auto.
Qed.
Theorem C71_spectrum_axis shape axis w im : length shape <= axis -> get_spectrum_1d V C fwd S D CD hann norm zero zeroc add addc finish shape axis w im = Throw.
Proof. intros H. unfold get_spectrum_1d, for_lines. destruct (Nat.leb_spec (length shape) axis); [auto|lia]. Qed.

Variables (lerp : nat -> S -> S -> S) (usable : S -> bool) (ratio : S -> S -> K) (one : K) (rn rd : nat).
Local Notation kernel_fn := (get_deconv_kernel V C S K D CD fwd hann norm zero zeroc add addc finish lerp usable ratio one rn rd).
Local Notation spectrum shape axis im := (get_spectrum_1d V C fwd S D CD hann norm zero zeroc add addc finish shape axis true im).
(** With b frequencies along the bad axis and g along the good one, and q = b*size_ratio/g: frequency i gets the ratio of the good spectrum interpolated at i/q to the bad one, when there is one, and 1 otherwise. *)
Theorem C72_kernel shape good bad im : Forall (fun n => 0 < n) shape -> good < length shape -> bad < length shape -> length im = size shape -> 0 < rd ->
  let b := nth bad shape 0 / 2 + 1 in let g := nth good shape 0 / 2 + 1 in
  exists bad_sp good_sp k, spectrum shape bad im = Val bad_sp /\ length bad_sp = b /\ spectrum shape good im = Val good_sp /\ length good_sp = g /\ kernel_fn shape good bad im = Val k /\ length k = b /\
    forall i, i < b -> exists s, nth_error bad_sp i = Some s /\
      (((i + 1) * (rd * g) <= (g - 1) * (b * rn) /\ usable s = true) /\ (exists j x y, j * (b * rn) <= i * (rd * g) < (j + 1) * (b * rn) /\ nth_error good_sp j = Some x /\ nth_error good_sp (j + 1) = Some y /\ nth_error k i = Some (ratio (lerp i x y) s))
       \/ ~ ((i + 1) * (rd * g) <= (g - 1) * (b * rn) /\ usable s = true) /\ nth_error k i = Some one).
Proof.
  intros P Hg Hb L R b g. destruct (C71_spectrum shape bad true im P Hb L) as [_ [bad_sp (_ & Eb & Lb & _)]]. destruct (C71_spectrum shape good true im P Hg L) as [_ [good_sp (_ & Eg & Lg & _)]].
  fold b in Lb. fold g in Lg. assert (B0 : 0 < b) by (unfold b; lia). assert (G0 : 0 < g) by (unfold g; lia).
  assert (BS : exists s0 : S, True). { destruct bad_sp as [|s0 r]; [cbn in Lb; lia|exists s0; auto]. } destruct BS as [s0 _].
  assert (NB : forall i, i < scaled_size rn rd b g -> nq rn rd b g i + 1 < g). { intros i Hi. destruct rn as [|r]. { unfold scaled_size in Hi. rewrite Nat.mul_0_r, Nat.mul_0_r, Nat.div_0_l in Hi; [lia|]. assert (0 < rd * g) by (apply Nat.mul_pos_pos; auto). lia. } apply nq_bound; auto. lia. }
  assert (Esc : scaled S lerp rn rd b g good_sp = Val (map (fun i => lerp i (nth (nq rn rd b g i) good_sp s0) (nth (nq rn rd b g i + 1) good_sp s0)) (seq 0 (scaled_size rn rd b g)))).
  { unfold scaled. apply osequence_map_ok. intros i Hi. apply in_seq in Hi. specialize (NB i ltac:(lia)). rewrite (at_some _ _ _ (nth_error_nth' good_sp s0 (n := nq rn rd b g i) ltac:(lia))). cbn [obind]. rewrite (at_some _ _ _ (nth_error_nth' good_sp s0 (n := nq rn rd b g i + 1) ltac:(lia))). auto. }
  set (sc := map (fun i => lerp i (nth (nq rn rd b g i) good_sp s0) (nth (nq rn rd b g i + 1) good_sp s0)) (seq 0 (scaled_size rn rd b g))) in *.
  assert (Lsc : length sc = scaled_size rn rd b g) by (unfold sc; rewrite map_length, seq_length; auto).
  assert (Ek : kernel_of S K usable ratio one bad_sp sc = Val (map (fun i => if i <? length sc then if usable (nth i bad_sp s0) then ratio (nth i sc s0) (nth i bad_sp s0) else one else one) (seq 0 b))).
  { unfold kernel_of. rewrite Lb. apply osequence_map_ok. intros i Hi. apply in_seq in Hi. destruct (Nat.ltb_spec i (length sc)); auto. rewrite (at_some _ _ _ (nth_error_nth' bad_sp s0 (n := i) ltac:(lia))). cbn [obind]. destruct (usable _); auto. rewrite (at_some _ _ _ (nth_error_nth' sc s0 (n := i) ltac:(lia))). auto. }
  exists bad_sp, good_sp. eexists. split; [exact Eb|]. split; [auto|]. split; [exact Eg|]. split; [auto|]. split; [|split].
  - unfold get_deconv_kernel. rewrite Eb. cbn [obind]. rewrite Eg. cbn [obind]. rewrite Lb, Lg, Esc. cbn [obind]. exact Ek.
  - rewrite map_length, seq_length. auto.
  - intros i Hi. exists (nth i bad_sp s0). split; [apply nth_error_nth'; lia|]. rewrite nth_error_map, (nth_error_nth' (seq 0 b) 0) by (rewrite seq_length; auto). rewrite seq_nth by auto. cbn [option_map Nat.add]. rewrite Lsc.
    assert (den0 : 0 < rd * g) by (apply Nat.mul_pos_pos; auto).
    assert (SS : i < scaled_size rn rd b g <-> (i + 1) * (rd * g) <= (g - 1) * (b * rn)).
    { unfold scaled_size. split; intros X.
      - assert (I : i + 1 <= (g - 1) * (b * rn) / (rd * g)) by lia. apply Nat.le_trans with (rd * g * ((g - 1) * (b * rn) / (rd * g))); [rewrite Nat.mul_comm; apply Nat.mul_le_mono_l; auto|apply Nat.mul_div_le; lia].
      - apply Nat.min_glb_lt; auto. apply Nat.lt_le_trans with (i + 1); [lia|]. apply Nat.div_le_lower_bound; lia. }
    destruct (Nat.ltb_spec i (scaled_size rn rd b g)) as [A|A].
    + destruct (usable (nth i bad_sp s0)).
      * left. split; [split; [apply SS; auto|auto]|]. exists (nq rn rd b g i), (nth (nq rn rd b g i) good_sp s0), (nth (nq rn rd b g i + 1) good_sp s0). assert (N := NB i A).
        split; [|split; [apply nth_error_nth'; lia|split; [apply nth_error_nth'; lia|]]].
        -- unfold nq. assert (M0 : b * rn <> 0). { intros Z. apply SS in A. rewrite Z, Nat.mul_0_r in A. assert (0 < (i + 1) * (rd * g)) by (apply Nat.mul_pos_pos; lia). lia. }
           assert (X := Nat.div_mod (i * (rd * g)) (b * rn) M0). assert (Y := Nat.mod_upper_bound (i * (rd * g)) (b * rn) M0). set (q := i * (rd * g) / (b * rn)) in *. rewrite Nat.mul_add_distr_r, (Nat.mul_comm q). lia.
        -- do 3 f_equal. unfold sc. rewrite (nth_indep _ s0 (lerp 0 (nth (nq rn rd b g 0) good_sp s0) (nth (nq rn rd b g 0 + 1) good_sp s0))) by (fold sc; lia).
           rewrite (map_nth (fun i => lerp i (nth (nq rn rd b g i) good_sp s0) (nth (nq rn rd b g i + 1) good_sp s0))). rewrite seq_nth by lia. auto.
      * right. split; auto. intros [_ X]. discriminate.
    + right. split; auto. intros [X _]. apply SS in X. lia.
Qed.
Theorem C72_throws shape good bad im : Forall (fun n => 0 < n) shape -> length im = size shape -> length shape <= good \/ length shape <= bad -> kernel_fn shape good bad im = Throw.
Proof.
  intros P L H. unfold get_deconv_kernel. destruct (Nat.lt_ge_cases bad (length shape)) as [A|A]; [|rewrite C71_spectrum_axis by auto; auto].
  destruct (C71_spectrum shape bad true im P A L) as [_ [sp (_ & E & _)]]. rewrite E. cbn [obind]. rewrite C71_spectrum_axis by lia. auto.
Qed.
(** The kernel of an image can be used to convolve images of the same size along the bad axis. *)
Theorem C72_usable (bwd : nat -> list C -> list V) (cmul : nat -> C -> K -> C) shape good bad im im2 : (forall n f, length (bwd n f) = n) -> Forall (fun n => 0 < n) shape -> good < length shape -> bad < length shape ->
  length im = size shape -> length im2 = size shape -> 0 < rd -> exists k im', kernel_fn shape good bad im = Val k /\ convolve V C K fwd bwd cmul shape bad k im2 = Val im'.
Proof.
  intros BL P Hg Hb L L2 R. destruct (C72_kernel shape good bad im P Hg Hb L R) as (bs & gs & k & _ & _ & _ & _ & E & Lk & _). exists k.
  destruct (C71_convolve V C K fwd bwd cmul fwd_len BL shape bad k im2) as [im' [E' _]]; auto; [lia|]. exists im'. auto.
Qed.
End Spectra.
(** Refuted: frequency i of the bad axis (n pixels) has the period of frequency i*m/(n*size_ratio) of the good axis (m pixels), but the sizes of the half spectra are used instead:
    with 4 and 64 pixels of the same size, frequency 1 is compared to frequency 11 instead of 16. *)
Theorem C72_frequency_refuted : nq 1 1 (4 / 2 + 1) (64 / 2 + 1) 1 = 11 /\ 64 / 4 = 16.
Proof. split; reflexivity. Qed.

(** A 2x3x2 image and a transform that reverses lines (of at most 4 pixels). *)
Definition fwd0 (l : list nat) : list nat := map (fun i => nth i l 0 * 100 + nth (length l - 1 - i) l 0) (seq 0 (length l / 2 + 1)).
Definition bwd0 (n : nat) (f : list nat) : list nat := map (fun x => if x <? n / 2 + 1 then nth x f 0 mod 100 else nth (n - 1 - x) f 0 / 100) (seq 0 n).
Example C71_witness : convolve nat nat unit fwd0 bwd0 (fun _ c _ => c) [2; 3; 2] 1 [tt; tt] (seq 10 12) = Val [14; 15; 12; 13; 10; 11; 20; 21; 18; 19; 16; 17].
Proof. reflexivity. Qed.
Example C71_witness_hyps : (forall l, length (fwd0 l) = length l / 2 + 1) /\ (forall n f, length (bwd0 n f) = n).
Proof. split; intros; unfold fwd0, bwd0; rewrite map_length, seq_length; auto. Qed.
Definition sym0 (l : list nat) : list nat := map (fun i => nth i l 0 + nth (length l - 1 - i) l 0) (seq 0 (length l / 2 + 1)).
Example C72_witness : get_deconv_kernel nat nat nat nat nat nat sym0 (fun _ _ x => x) (fun c => c) 0 0 Nat.add Nat.add (fun n d _ => d / n) (fun _ x y => x + y) (fun b => 0 <? b) (fun a b => a * 10 / b) 1 1 1 [8; 4] 0 1 (map (fun i => i * i mod 7) (seq 0 32)) = Val [23; 17; 1].
Proof. reflexivity. Qed.

Print Assumptions C71_coordinates.
Print Assumptions C71_convolve.
Print Assumptions C71_convolve_axis.
Print Assumptions C71_short_refuted.
Print Assumptions C71_empty_refuted.
Print Assumptions C71_spectrum.
Print Assumptions C71_spectrum_axis.
Print Assumptions C72_kernel.
Print Assumptions C72_throws.
Print Assumptions C72_usable.
Print Assumptions C72_frequency_refuted.

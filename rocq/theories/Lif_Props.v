(** C65, C66: reading .lif files. *)
Require Import String.
Require Import List Bool Arith ZArith Lia Permutation.
Require Import Verif.ListX Verif.Lif_Model Verif.Lif_Spec Verif.Lif_Proofs Verif.Lif2_Proofs.
Import ListNotations.
Local Open Scope Z_scope.

(** * C65.  A series of nt time steps of nx * ny * nz pixels of nch channels of 8 bits, whose dimensions are listed in any order in the header
    (Z and T may be missing when there is one plane or one time step; the increments of X, Y and Z are not used), and whose data begin at [off]. *)
Definition packed (s : serie) (nx ny nz nt nch inc_t off : Z) : Prop :=
  exists ds ix iy iz (has_z has_t : bool), s = mkSerie (dimensions_of ds) nch off /\
    Permutation ds ([mkDim 1 nx ix; mkDim 2 ny iy] ++ (if has_z then [mkDim 3 nz iz] else []) ++ (if has_t then [mkDim 4 nt inc_t] else [])) /\
    (has_z = false -> nz = 1) /\ (has_t = false -> nt = 1) /\ 1 <= nx /\ 1 <= ny /\ 1 <= nz /\ 1 <= nt < 2 ^ 31 /\ 1 <= nch /\ 0 <= inc_t /\ 0 <= off /\ nx * ny * nz < 2 ^ 31.

Lemma packed_fill2 : forall file s nx ny nz nt nch inc_t off t z buffer st, packed s nx ny nz nt nch inc_t off -> size file < 2 ^ 63 -> 0 <= t < nt -> 0 <= z < nz ->
  off + t * inc_t + nx * ny * nz * nch <= size file -> Z.of_nat (length buffer) = nx * ny * nch -> failed st = false ->
  exists st', fill2 file s buffer t z st = Ok (sub file (off + t * inc_t + z * (nx * ny * nch)) (nx * ny * nch), st') /\ failed st' = false.
Proof.
  intros file s nx ny nz nt nch inc_t off t z buffer st [ds [ix [iy [iz [hz [ht (-> & P & Nz & Nt & ? & ? & ? & ? & ? & ? & ? & ?)]]]]]] Hf Ht Hz Hin Hb F.
  eexists. rewrite (fill2_eq nx ny nz nt nch ix iy iz inc_t off) with (has_z := hz) (has_t := ht); auto; try (unfold two31; lia).
Qed.
Lemma packed_fill3 : forall file s nx ny nz nt nch inc_t off t buffer st, packed s nx ny nz nt nch inc_t off -> size file < 2 ^ 63 -> 0 <= t < nt ->
  off + t * inc_t + nx * ny * nz * nch <= size file -> Z.of_nat (length buffer) = nx * ny * nz * nch -> failed st = false ->
  exists st', fill3 file s buffer t st = Ok (sub file (off + t * inc_t) (nx * ny * nz * nch), st') /\ failed st' = false.
Proof.
  intros file s nx ny nz nt nch inc_t off t buffer st [ds [ix [iy [iz [hz [ht (-> & P & Nz & Nt & ? & ? & ? & ? & ? & ? & ? & ?)]]]]]] Hf Ht Hin Hb F.
  eexists. rewrite (fill3_eq nx ny nz nt nch ix iy iz inc_t off) with (has_z := hz) (has_t := ht); auto; try (unfold two31; lia).
Qed.
Lemma packed_pos : forall s nx ny nz nt nch inc_t off t, packed s nx ny nz nt nch inc_t off -> 0 <= t -> 1 <= nx /\ 1 <= ny /\ 1 <= nz /\ 1 <= nch /\ 0 <= off /\ 0 <= t * inc_t /\ 1 <= nx * ny * nch /\ 1 <= nt.
Proof.
  intros s nx ny nz nt nch inc_t off t [ds [ix [iy [iz [hz [ht (-> & P & Nz & Nt & ? & ? & ? & ? & ? & ? & ? & ?)]]]]]] Ht. assert (0 <= t * inc_t) by (apply Z.mul_nonneg_nonneg; lia).
  assert (1 <= nx * ny) by nia. assert (1 <= nx * ny * nch) by nia. repeat split; auto; lia.
Qed.

(** fill2DBuffer(t, z) puts in the buffer every channel of every pixel of slice z of time step t, and nothing else; all bytes read belong to the slice. *)
Theorem C65_slice : forall file s nx ny nz nt nch inc_t off t z buffer st, packed s nx ny nz nt nch inc_t off -> size file < 2 ^ 63 -> 0 <= t < nt -> 0 <= z < nz ->
  off + t * inc_t + nx * ny * nz * nch <= size file -> Z.of_nat (length buffer) = nx * ny * nch -> failed st = false ->
  exists b st', fill2 file s buffer t z st = Ok (b, st') /\ failed st' = false /\ Z.of_nat (length b) = nx * ny * nch /\
    forall y x c, 0 <= y < ny -> 0 <= x < nx -> 0 <= c < nch ->
      nth_error b (Z.to_nat ((y * nx + x) * nch + c)) = nth_error file (Z.to_nat (off + pixel_position nx ny nch inc_t t z y x c)).
Proof.
  intros file s nx ny nz nt nch inc_t off t z buffer st P Hf Ht Hz Hin Hb F. destruct (packed_fill2 file s nx ny nz nt nch inc_t off t z buffer st) as [st' [E F']]; auto.
  destruct (packed_pos _ _ _ _ _ _ _ _ t P) as (X1 & X2 & X3 & X4 & X5 & X6 & X7 & X8); [lia|].
  assert (K : z * (nx * ny * nch) + nx * ny * nch <= nx * ny * nz * nch) by (replace (nx * ny * nz * nch) with (nz * (nx * ny * nch)) by ring; nia). assert (0 <= z * (nx * ny * nch)) by (apply Z.mul_nonneg_nonneg; lia).
  eexists. exists st'. split; [exact E|]. split; auto. split. { rewrite sub_length by lia. lia. }
  intros y x c Hy Hx Hc. rewrite nth_sub; [|lia|apply index2; auto]. unfold pixel_position. f_equal. f_equal. ring.
Qed.
(** fill3DBuffer(t): every pixel of time step t; it is the concatenation of its slices. *)
Theorem C65_volume : forall file s nx ny nz nt nch inc_t off t buffer st, packed s nx ny nz nt nch inc_t off -> size file < 2 ^ 63 -> 0 <= t < nt ->
  off + t * inc_t + nx * ny * nz * nch <= size file -> Z.of_nat (length buffer) = nx * ny * nz * nch -> failed st = false ->
  exists b st', fill3 file s buffer t st = Ok (b, st') /\ failed st' = false /\ Z.of_nat (length b) = nx * ny * nz * nch /\
    forall z y x c, 0 <= z < nz -> 0 <= y < ny -> 0 <= x < nx -> 0 <= c < nch ->
      nth_error b (Z.to_nat (((z * ny + y) * nx + x) * nch + c)) = nth_error file (Z.to_nat (off + pixel_position nx ny nch inc_t t z y x c)).
Proof.
  intros file s nx ny nz nt nch inc_t off t buffer st P Hf Ht Hin Hb F. destruct (packed_fill3 file s nx ny nz nt nch inc_t off t buffer st) as [st' [E F']]; auto.
  destruct (packed_pos _ _ _ _ _ _ _ _ t P) as (X1 & X2 & X3 & X4 & X5 & X6 & X7 & X8); [lia|].
  assert (1 <= nx * ny * nz * nch) by (replace (nx * ny * nz * nch) with (nz * (nx * ny * nch)) by ring; nia).
  eexists. exists st'. split; [exact E|]. split; auto. split. { rewrite sub_length by lia. lia. }
  intros z y x c Hz Hy Hx Hc. assert (0 <= z * ny + y < nz * ny) by nia. assert (I := index2 nx (nz * ny) nch (z * ny + y) x c Hx H0 Hc). rewrite nth_sub; [|lia|replace (nx * ny * nz * nch) with (nx * (nz * ny) * nch) by ring; auto]. unfold pixel_position. f_equal. f_equal. ring.
Qed.
Theorem C65_concatenation : forall file s nx ny nz nt nch inc_t off t buffer st slices, packed s nx ny nz nt nch inc_t off -> size file < 2 ^ 63 -> 0 <= t < nt ->
  off + t * inc_t + nx * ny * nz * nch <= size file -> Z.of_nat (length buffer) = nx * ny * nz * nch -> failed st = false ->
  Z.of_nat (length slices) = nz -> (forall z b, nth_error slices z = Some b -> exists buffer st st', Z.of_nat (length buffer) = nx * ny * nch /\ failed st = false /\ fill2 file s buffer t (Z.of_nat z) st = Ok (b, st')) ->
  exists st', fill3 file s buffer t st = Ok (concat slices, st').
Proof.
  intros file s nx ny nz nt nch inc_t off t buffer st slices P Hf Ht Hin Hb F Hl Hs. destruct (packed_fill3 file s nx ny nz nt nch inc_t off t buffer st) as [st' [E F']]; auto. exists st'. rewrite E. do 2 f_equal.
  destruct (packed_pos _ _ _ _ _ _ _ _ t P) as (X1 & X2 & X3 & X4 & X5 & X6 & X7 & X8); [lia|].
  assert (S : forall z b, nth_error slices z = Some b -> b = sub file (off + t * inc_t + Z.of_nat z * (nx * ny * nch)) (nx * ny * nch)).
  { intros z b N. destruct (Hs z b N) as [bu [s0 [s1 (B1 & B2 & B3)]]]. assert (Hz : (z < length slices)%nat) by (apply nth_error_Some; congruence).
    destruct (packed_fill2 file s nx ny nz nt nch inc_t off t (Z.of_nat z) bu s0) as [s2 [E2 _]]; auto; [lia|]. congruence. }
  replace (nx * ny * nz * nch) with (Z.of_nat (length slices) * (nx * ny * nch)) by (rewrite Hl; ring). remember (nx * ny * nch) as n. clear - S X5 X6 X7. set (p := off + t * inc_t) in *. assert (Hp : 0 <= p) by lia. clearbody p. clear X5 X6.
  revert p S Hp. induction slices as [|b slices IH]; intros p S Hp; [reflexivity|].
  cbn [concat length]. rewrite Nat2Z.inj_succ. replace (Z.succ (Z.of_nat (length slices)) * n) with (n + Z.of_nat (length slices) * n) by ring. rewrite sub_app by (try lia; apply Z.mul_nonneg_nonneg; lia). f_equal.
  - rewrite (S 0%nat b eq_refl). f_equal. lia.
  - apply IH; [|lia]. intros z b' N. rewrite (S (Datatypes.S z) b' N). f_equal. rewrite Nat2Z.inj_succ. ring.
Qed.
(** Time steps out of range are refused, whatever the buffer. *)
Theorem C65_out_of_range : forall file s nx ny nz nt nch inc_t off t z buffer st, packed s nx ny nz nt nch inc_t off -> nt <= t -> fill2 file s buffer t z st = Refused /\ fill3 file s buffer t st = Refused.
Proof.
  intros file s nx ny nz nt nch inc_t off t z buffer st [ds [ix [iy [iz [hz [ht (-> & P & Nz & Nt & ? & ? & ? & ? & ? & ? & ? & ?)]]]]]] Ht.
  assert (R : get_offset (mkSerie (dimensions_of ds) nch off) t = Refused). { apply (get_offset_out nx ny nz nt nch ix iy iz inc_t off) with (has_z := hz) (has_t := ht); auto; try (unfold two31; lia). }
  unfold fill2, fill3. rewrite R. auto.
Qed.

(** Example: 3 * 2 pixels, 2 planes, 2 time steps, one channel; the header lists T first; the data begin at 1. *)
Definition ex_file : list Z := map Z.of_nat (seq 0 26).
Definition ex_serie : serie := mkSerie (dimensions_of [mkDim 4 2 12; mkDim 1 3 1; mkDim 3 2 6; mkDim 2 2 3]) 1 1.
Lemma ex_packed : packed ex_serie 3 2 2 2 1 12 1.
Proof.
  exists [mkDim 4 2 12; mkDim 1 3 1; mkDim 3 2 6; mkDim 2 2 3], 1, 3, 6, true, true. split; [reflexivity|]. split.
  { cbn [app]. change [mkDim 1 3 1; mkDim 2 2 3; mkDim 3 2 6; mkDim 4 2 12] with ([mkDim 1 3 1; mkDim 2 2 3; mkDim 3 2 6] ++ [mkDim 4 2 12]). apply (Permutation_trans (l' := mkDim 4 2 12 :: [mkDim 1 3 1; mkDim 2 2 3; mkDim 3 2 6])); [apply perm_skip; apply perm_skip; apply perm_swap|apply Permutation_cons_append]. }
  repeat split; try discriminate; lia.
Qed.
Example C65_example : fill2 ex_file ex_serie (repeat 0 6) 1 1 (mkStream 0 false) = Ok ([19; 20; 21; 22; 23; 24], mkStream 25 false) /\
  fill3 ex_file ex_serie (repeat 0 12) 1 (mkStream 0 false) = Ok ([13; 14; 15; 16; 17; 18; 19; 20; 21; 22; 23; 24], mkStream 25 false).
Proof. vm_compute. auto. Qed.

(** ** What the reader does not do. *)
(** The slice number is not checked: past the last slice, bytes of the next time step (or of what follows) are returned. *)
Theorem C65_slice_number_refuted : exists file s nx ny nz nt inc_t off b st', packed s nx ny nz nt 1 inc_t off /\ off + nt * inc_t <= size file /\
  fill2 file s (repeat 0 (Z.to_nat (nx * ny))) 0 nz (mkStream 0 false) = Ok (b, st') /\ nth_error b 0 = nth_error file (Z.to_nat (off + pixel_position nx ny 1 inc_t 1 0 0 0 0)) /\ nth_error b 0 <> None.
Proof. exists ex_file, ex_serie, 3, 2, 2, 2, 12, 1. do 2 eexists. split; [apply ex_packed|]. split; [vm_compute; discriminate|]. split; [vm_compute; reflexivity|]. split; [reflexivity|discriminate]. Qed.
(** A read beyond the end of the file is silent, and after it nothing is read any more: valid slices leave the buffer as it was. *)
Theorem C65_failure_silent : forall file s t z buffer st p, get_offset s t = Ok p -> failed st = true -> fill2 file s buffer t z st = Ok (buffer, st) /\ fill3 file s buffer t st = Ok (buffer, st).
Proof.
  intros file s t z buffer st p E F. unfold fill2, fill3. rewrite E. cbn [bind]. unfold fill_buffer, seek_to, read. rewrite F, F. cbn [length skipn app]. destruct (Z.ltb_spec (Z.of_nat (length buffer)) (Z.of_nat 0)); [lia|auto].
Qed.
Theorem C65_recovery_refuted : exists file s nx ny nz nt inc_t off z b st' b', packed s nx ny nz nt 1 inc_t off /\ off + nt * inc_t <= size file /\
  fill2 file s (repeat 0 (Z.to_nat (nx * ny))) 0 z (mkStream 0 false) = Ok (b, st') /\ fill2 file s (repeat 0 (Z.to_nat (nx * ny))) 0 0 st' = Ok (b', st') /\
  nth_error b' 0 <> nth_error file (Z.to_nat (off + pixel_position nx ny 1 inc_t 0 0 0 0 0)).
Proof. exists ex_file, ex_serie, 3, 2, 2, 2, 12, 1, 4. do 3 eexists. split; [apply ex_packed|]. split; [vm_compute; discriminate|]. split; [vm_compute; reflexivity|]. split; [vm_compute; reflexivity|discriminate]. Qed.
(** Pixels are counted in an int: a slice of 2^16 * 2^16 pixels is read as empty. *)
Theorem C65_large_refuted : forall file ix iy off buffer, 0 <= off < 2 ^ 63 -> let s := mkSerie (dimensions_of [mkDim 1 (2 ^ 16) ix; mkDim 2 (2 ^ 16) iy]) 1 off in
  spatial_dimensions s = [2 ^ 16; 2 ^ 16] /\ fill2 file s buffer 0 0 (mkStream 0 false) = Ok (buffer, mkStream off false).
Proof.
  intros file ix iy off buffer Ho s. split; [reflexivity|]. unfold fill2. replace (nb_pixels_slice s) with 0 by reflexivity. cbn [n_channels s Z.mul]. rewrite Z.mod_0_l by (unfold two64; lia).
  replace (get_offset s 0) with (@Ok Z off) by reflexivity. cbn [bind]. rewrite Z.add_0_r, Z.mod_small by (unfold two64; lia). unfold fill_buffer, seek_to. cbn [failed]. rewrite (to_long_small off) by (unfold two63; lia). change (to_long 0) with 0.
  destruct (Z.ltb_spec off 0); [lia|]. unfold read. cbn [failed]. change (Z.to_nat 0) with 0%nat. rewrite firstn_O. cbn [length pos]. destruct (Z.ltb_spec (Z.of_nat (length buffer)) (Z.of_nat 0)); [lia|]. cbn. rewrite Z.add_0_r. auto.
Qed.
(** Pixels of more than 8 bits: the increments of the header are not used, and half of a 16-bit slice is missing from a buffer of its size; the
    next slice is read from the middle of the first. *)
Theorem C65_depth_refuted : forall file nx ny nz ix iy iz off buffer z, 1 <= nx -> 1 <= ny -> 1 <= nz -> nx * ny * nz < 2 ^ 31 -> 0 <= off -> size file < 2 ^ 63 -> 0 <= z < nz ->
  off + 2 * (nx * ny * nz) <= size file -> Z.of_nat (length buffer) = 2 * (nx * ny) ->
  let s := mkSerie (dimensions_of [mkDim 1 nx ix; mkDim 2 ny iy; mkDim 3 nz iz]) 1 off in
  exists st', fill2 file s buffer 0 z (mkStream 0 false) = Ok (sub file (off + z * (nx * ny)) (nx * ny) ++ skipn (Z.to_nat (nx * ny)) buffer, st').
Proof.
  intros file nx ny nz ix iy iz off buffer z Hx Hy Hz Hs Ho Hf Kz Hin Hb s.
  assert (P : Permutation [mkDim 1 nx ix; mkDim 2 ny iy; mkDim 3 nz iz] ([mkDim 1 nx ix; mkDim 2 ny iy] ++ [mkDim 3 nz iz] ++ [])) by apply Permutation_refl.
  assert (B := prod_bounds nx ny nz Hx Hy Hz). assert (Kzz : z * (nx * ny) + nx * ny <= nx * ny * nz) by nia. assert (0 <= z * (nx * ny)) by (apply Z.mul_nonneg_nonneg; lia).
  unfold fill2. unfold s. rewrite (nb_slice nx ny nz 1 1 ix iy iz 0 off) with (has_z := true) (has_t := false); auto; try (unfold two31; lia); try discriminate.
  cbn [n_channels]. rewrite Z.mul_1_r. rewrite (get_offset_eq nx ny nz 1 1 ix iy iz 0 off) with (has_z := true) (has_t := false); auto; try (unfold two31, two63; lia); try discriminate. cbn [bind]. rewrite Z.mul_0_l, Z.add_0_r.
  rewrite (Z.mod_small (nx * ny)) by (unfold two64; lia). rewrite (Z.mod_small (z * (nx * ny))) by (unfold two64; lia). rewrite Z.mod_small by (unfold two64; lia).
  unfold fill_buffer. rewrite !to_long_small by (unfold two63; lia). unfold seek_to. cbn [failed]. destruct (Z.ltb_spec (off + z * (nx * ny)) 0); [lia|]. unfold read, rest. cbn [failed pos]. fold (sub file (off + z * (nx * ny)) (nx * ny)).
  assert (L : length (sub file (off + z * (nx * ny)) (nx * ny)) = Z.to_nat (nx * ny)) by (apply sub_length; lia). rewrite L. destruct (Z.ltb_spec (Z.of_nat (length buffer)) (Z.of_nat (Z.to_nat (nx * ny)))); [lia|]. eexists. reflexivity.
Qed.
Example C65_depth_example : let s := mkSerie (dimensions_of [mkDim 1 2 2; mkDim 2 1 4; mkDim 3 2 4]) 1 0 in
  fill2 [10; 11; 12; 13; 14; 15; 16; 17] s (repeat 0 4) 0 1 (mkStream 0 false) = Ok ([12; 13; 0; 0], mkStream 4 false).
Proof. vm_compute. reflexivity. Qed.

(** ** The locator.  At any time step, fill_time_step tracks the nz slices of time step 0, in order. *)
Theorem C65_locator : forall file s nx ny nz nt inc_t off, packed s nx ny nz nt 1 inc_t off -> size file < 2 ^ 63 -> off + nx * ny * nz <= size file ->
  (exists l, new_locator s (mkStream 0 false) = Ok l /\ loc_ok nx ny nz nt l /\ loc_t l = 0 /\ pushed l = []) /\
  forall l, loc_ok nx ny nz nt l ->
    (loc_t l + 1 < nt -> loc_ok nx ny nz nt (next_time_step l)) /\
    exists l', fill_time_step file s l = Ok l' /\ loc_ok nx ny nz nt l' /\ loc_t l' = loc_t l /\ Z.of_nat (length (pushed l')) = nz /\
      forall z im, nth_error (pushed l') z = Some im -> Z.of_nat (length im) = nx * ny /\
        forall y x, 0 <= y < ny -> 0 <= x < nx -> nth_error im (Z.to_nat (y * nx + x)) = nth_error file (Z.to_nat (off + pixel_position nx ny 1 inc_t 0 (Z.of_nat z) y x 0)).
Proof.
  intros file s nx ny nz nt inc_t off P Hf Hin. destruct (packed_pos _ _ _ _ _ _ _ _ 0 P (Z.le_refl 0)) as (X1 & X2 & X3 & X4 & X5 & X6 & X7 & X8).
  assert (Hd : (exists l, spatial_dimensions s = nx :: ny :: l /\ nz = match l with d :: _ => d | [] => 1 end) /\ nb_time_steps s = nt).
  { destruct P as [ds [ix [iy [iz [hz [ht (-> & P & Nz & Nt & ? & ? & ? & ? & ? & ? & ? & ?)]]]]]]. split.
    - rewrite (spatial_eq nx ny nz nt 1 ix iy iz inc_t off) with (has_z := hz) (has_t := ht); auto; try (unfold two31; lia). cbn [app]. eexists. split; [reflexivity|]. destruct hz; auto.
    - apply (nb_t nx ny nz nt 1 ix iy iz inc_t off) with (has_z := hz) (has_t := ht); auto; try (unfold two31; lia). }
  destruct Hd as [Hd Hnt].
  assert (Hlen : forall z, 0 <= z < nz -> Z.of_nat (length (sub file (off + z * (nx * ny)) (nx * ny))) = nx * ny).
  { intros z Hz. assert (z * (nx * ny) + nx * ny <= nx * ny * nz) by nia. assert (0 <= z * (nx * ny)) by (apply Z.mul_nonneg_nonneg; lia). rewrite sub_length by lia. lia. }
  assert (Hfill : forall z buffer st, 0 <= z < nz -> Z.of_nat (length buffer) = nx * ny -> failed st = false -> exists st', fill2 file s buffer 0 z st = Ok (sub file (off + z * (nx * ny)) (nx * ny), st') /\ failed st' = false).
  { intros z buffer st Hz Hb F. destruct (packed_fill2 file s nx ny nz nt 1 inc_t off 0 z buffer st) as [st' [E F']]; auto; try lia. exists st'. rewrite E, Z.mul_1_r, Z.mul_0_l, Z.add_0_r. auto. }
  split. { apply new_locator_ok; auto; lia. }
  intros l Ok_l. split. { intros L. destruct Ok_l as (L1 & L2 & L3 & L4 & L5 & L6 & L7). unfold loc_ok, next_time_step. cbn [loc_t total_t total_z rows cols slice loc_file]. repeat split; auto; lia. }
  destruct (fill_time_step_ok file s nx ny nz nt off X3 Hfill Hlen l Ok_l) as [l' (E & O & T & Pu)]. exists l'. split; auto. split; auto. split; auto. rewrite Pu, map_length, seq_length. split; [lia|].
  intros z im N. assert (Hz : (z < Z.to_nat nz)%nat). { assert (X : nth_error (map (fun z => sub file (off + Z.of_nat z * (nx * ny)) (nx * ny)) (seq 0 (Z.to_nat nz))) z <> None) by congruence. apply nth_error_Some in X. rewrite map_length, seq_length in X. auto. }
  rewrite nth_error_map in N. assert (Es : nth_error (seq 0 (Z.to_nat nz)) z = Some z) by (rewrite (nth_error_nth' _ 0%nat) by (rewrite seq_length; auto); rewrite seq_nth by auto; reflexivity). rewrite Es in N. cbn [option_map] in N. injection N as <-.
  split. { apply Hlen. lia. } intros y x Hy Hx. assert (0 <= Z.of_nat z * (nx * ny)) by (apply Z.mul_nonneg_nonneg; lia). rewrite nth_sub; [|lia|pose proof (index2 nx ny 1 y x 0); lia]. unfold pixel_position. f_equal. f_equal. ring.
Qed.
(** So at a later time step whose images differ from those of the first, the slices tracked are not the right ones. *)
Theorem C65_time_step_refuted : forall file s nx ny nz nt inc_t off l z y x, packed s nx ny nz nt 1 inc_t off -> size file < 2 ^ 63 -> off + nx * ny * nz <= size file ->
  loc_ok nx ny nz nt l -> 0 <= z < nz -> 0 <= y < ny -> 0 <= x < nx ->
  nth_error file (Z.to_nat (off + pixel_position nx ny 1 inc_t 0 z y x 0)) <> nth_error file (Z.to_nat (off + pixel_position nx ny 1 inc_t (loc_t l) z y x 0)) ->
  exists l' im, fill_time_step file s l = Ok l' /\ nth_error (pushed l') (Z.to_nat z) = Some im /\
    nth_error im (Z.to_nat (y * nx + x)) <> nth_error file (Z.to_nat (off + pixel_position nx ny 1 inc_t (loc_t l) z y x 0)).
Proof.
  intros file s nx ny nz nt inc_t off l z y x P Hf Hin Ok_l Hz Hy Hx Ne. destruct (C65_locator file s nx ny nz nt inc_t off P Hf Hin) as [_ A]. destruct (A l Ok_l) as [_ [l' (E & O & T & L & B)]]. exists l'.
  destruct (nth_error (pushed l') (Z.to_nat z)) as [im|] eqn:N. 2:{ apply nth_error_None in N. lia. } exists im. split; auto. split; auto. destruct (B _ _ N) as [_ C]. rewrite (C y x Hy Hx). rewrite Z2Nat.id by lia. auto.
Qed.
Example C65_time_step_example : exists l l1, new_locator ex_serie (mkStream 0 false) = Ok l /\ fill_time_step ex_file ex_serie (next_time_step l) = Ok l1 /\ loc_t l1 = 1 /\ pushed l1 = [[1; 2; 3; 4; 5; 6]; [7; 8; 9; 10; 11; 12]].
Proof. do 2 eexists. split; [vm_compute; reflexivity|]. split; [vm_compute; reflexivity|]. auto. Qed.
(** The tracked matrix has nx rows of ny pixels: it is the image if it is square; otherwise its lines are broken. *)
Theorem C65_square : forall file s n nz nt inc_t off l, packed s n n nz nt 1 inc_t off -> size file < 2 ^ 63 -> off + n * n * nz <= size file -> loc_ok n n nz nt l ->
  exists l', fill_time_step file s l = Ok l' /\ rows l' = n /\ cols l' = n /\ forall z im row col, nth_error (pushed l') z = Some im -> 0 <= row < n -> 0 <= col < n ->
    nth_error im (Z.to_nat (row * cols l' + col)) = nth_error file (Z.to_nat (off + pixel_position n n 1 inc_t 0 (Z.of_nat z) row col 0)).
Proof.
  intros file s n nz nt inc_t off l P Hf Hin Ok_l. destruct (C65_locator file s n n nz nt inc_t off P Hf Hin) as [_ A]. destruct (A l Ok_l) as [_ [l' (E & O & T & L & B)]]. exists l'. destruct O as (_ & _ & _ & Er & Ec & _). split; [|split; [|split]]; auto.
  intros z im row col N Hr Hc. rewrite Ec. apply (B z im N); auto.
Qed.
Theorem C65_rectangular_refuted : exists file s nx ny nz nt inc_t off l l' im, packed s nx ny nz nt 1 inc_t off /\ new_locator s (mkStream 0 false) = Ok l /\ fill_time_step file s l = Ok l' /\
  nth_error (pushed l') 0 = Some im /\ off + nx * ny * nz <= size file /\
  nth_error im (Z.to_nat (1 * cols l' + 0)) <> nth_error file (Z.to_nat (off + pixel_position nx ny 1 inc_t 0 0 1 0 0)) /\
  nth_error im (Z.to_nat (1 * cols l' + 0)) <> nth_error file (Z.to_nat (off + pixel_position nx ny 1 inc_t 0 0 0 1 0)).
Proof. exists ex_file, ex_serie, 3, 2, 2, 2, 12, 1. do 3 eexists. split; [apply ex_packed|]. split; [vm_compute; reflexivity|]. split; [vm_compute; reflexivity|]. split; [vm_compute; reflexivity|]. split; [vm_compute; discriminate|]. split; discriminate. Qed.
(** With several channels the slice of the locator is overrun. *)
Theorem C65_channels_refuted : forall file s nx ny nz nt nch inc_t off l, packed s nx ny nz nt nch inc_t off -> 2 <= nch -> size file < 2 ^ 63 -> off + nx * ny * nz * nch <= size file -> loc_ok nx ny nz nt l -> pushed l = [] ->
  fill_next_slice file s l = Overrun.
Proof.
  intros file s nx ny nz nt nch inc_t off l P Hc Hf Hin (L1 & L2 & L3 & L4 & L5 & L6 & L7) Hp. destruct (packed_pos _ _ _ _ _ _ _ _ 0 P (Z.le_refl 0)) as (X1 & X2 & X3 & X4 & X5 & X6 & X7 & X8).
  unfold fill_next_slice. rewrite Hp. cbn [length]. destruct (Z.leb_spec (total_t l) (loc_t l)); [lia|]. destruct (Z.leb_spec (total_z l) (Z.of_nat 0)); [lia|]. cbn [orb]. change (Z.of_nat 0) with 0.
  assert (B : fill2 file s (slice l) 0 0 (loc_file l) = Overrun); [|rewrite B; auto].
  destruct P as [ds [ix [iy [iz [hz [ht (-> & P & Nz & Nt & ? & ? & ? & ? & ? & ? & ? & ?)]]]]]]. assert (1 <= nx * ny) by nia. assert (nx * ny < nx * ny * nch) by nia. assert (nx * ny * nch <= nx * ny * nz * nch) by (replace (nx * ny * nz * nch) with (nz * (nx * ny * nch)) by ring; nia).
  unfold fill2. rewrite (nb_slice nx ny nz nt nch ix iy iz inc_t off) with (has_z := hz) (has_t := ht); auto; try (unfold two31; lia). cbn [n_channels].
  rewrite (get_offset_eq nx ny nz nt nch ix iy iz inc_t off) with (has_z := hz) (has_t := ht); auto; try (unfold two31, two63; lia). cbn [bind]. rewrite (Z.mod_small (nx * ny * nch)) by (unfold two64; lia). rewrite !Z.mul_0_l, Z.mod_0_l, !Z.add_0_r by (unfold two64; lia). rewrite Z.mod_small by (unfold two64; lia).
  unfold fill_buffer. rewrite !to_long_small by (unfold two63; lia). unfold seek_to. rewrite L7. destruct (Z.ltb_spec off 0); [lia|]. unfold read, rest. cbn [failed pos]. fold (sub file off (nx * ny * nch)). rewrite sub_length by lia. destruct (Z.ltb_spec (Z.of_nat (length (slice l))) (Z.of_nat (Z.to_nat (nx * ny * nch)))); [auto|lia].
Qed.

(** * C66.  A well-formed file: the reader finds, in order, one series per non-empty memory block, with the headers of the XML in the same order;
    its offset is where the data of the block begin and its size their length. *)
Theorem C66_blocks : forall (H : Type) (parse_header : list Z -> res (Z * list H)) u xml version hs bs file,
  file = head u xml ++ encode_all version bs -> length u = 4%nat -> Z.of_nat (length xml) < 2 ^ 31 -> parse_header (map fst xml) = Ok (version, hs) ->
  Forall (good_block version) bs -> size file < 2 ^ 63 -> (length (non_empty bs) <= length hs)%nat ->
  exists series, (forall fuel, (length bs <= fuel)%nat -> lif_reader H parse_header file fuel = Ok series) /\ length series = length (non_empty bs) /\
    forall bs1 b bs2, bs = bs1 ++ b :: bs2 -> data b <> [] -> exists h,
      nth_error hs (length (non_empty bs1)) = Some h /\
      nth_error series (length (non_empty bs1)) = Some (h, size (head u xml ++ encode_all version bs1 ++ prefix version b), size (data b)).
Proof.
  intros H ph u xml version hs bs file E Lu Lx Eh G Hs Hn. exists (found version (length (head u xml)) bs hs). split; [|split].
  - intros fuel Hf. rewrite (lif_reader_head H ph file fuel u xml _ Lu Lx E), Eh. cbn [bind]. rewrite (blocks_found H version bs file (head u xml) [] hs fuel []); auto; [|now rewrite app_nil_r].
    cbn [app]. rewrite <- E. destruct (fuel - length bs)%nat; cbn [blocks]; rewrite tell_at; destruct (Z.ltb_spec (Z.of_nat (length file)) (size file)); try (unfold size in *; lia); auto.
  - apply found_length. auto.
  - intros bs1 b bs2 Eb Hd. subst bs. destruct (found_nth H version bs1 b bs2 (length (head u xml)) hs Hn Hd) as [h [E1 E2]]. exists h. split; auto. rewrite E2. unfold size. rewrite (app_length (head u xml)). auto.
Qed.
(** Hence the bytes of each series are the data of its block. *)
Corollary C66_data : forall (H : Type) (parse_header : list Z -> res (Z * list H)) u xml version hs bs1 b bs2 file series fuel,
  file = head u xml ++ encode_all version (bs1 ++ b :: bs2) -> length u = 4%nat -> Z.of_nat (length xml) < 2 ^ 31 -> parse_header (map fst xml) = Ok (version, hs) ->
  Forall (good_block version) (bs1 ++ b :: bs2) -> size file < 2 ^ 63 -> (length (non_empty (bs1 ++ b :: bs2)) <= length hs)%nat -> (length (bs1 ++ b :: bs2) <= fuel)%nat ->
  lif_reader H parse_header file fuel = Ok series -> data b <> [] ->
  exists h offset memory_size, nth_error series (length (non_empty bs1)) = Some (h, offset, memory_size) /\ sub file offset memory_size = data b.
Proof.
  intros H ph u xml version hs bs1 b bs2 file series fuel E Lu Lx Eh G Hs Hn Hf Er Hd. destruct (C66_blocks H ph u xml version hs (bs1 ++ b :: bs2) file E Lu Lx Eh G Hs Hn) as [series' (A & L & B)].
  assert (series' = series) by (rewrite (A fuel Hf) in Er; congruence). subst series'. destruct (B bs1 b bs2 eq_refl Hd) as [h [_ N]]. exists h. do 2 eexists. split; [exact N|].
  unfold sub, size. rewrite !Nat2Z.id. set (p := head u xml ++ encode_all version bs1 ++ prefix version b).
  assert (Ef : file = p ++ data b ++ encode_all version bs2). { rewrite E. unfold p, encode_all. rewrite flat_map_app. cbn [flat_map]. change (encode version b) with (prefix version b ++ data b). rewrite <- !app_assoc. auto. }
  rewrite Ef. clearbody p.
  rewrite skipn_app, skipn_all, Nat.sub_diag. cbn [skipn app]. rewrite firstn_app, firstn_all, Nat.sub_diag. cbn [firstn]. apply app_nil_r.
Qed.
(** Example: version 2, an empty block between two others, with white space bytes in the gaps. *)
Definition ex_blocks : list block := [mkBlock [1; 2; 3; 4] [32; 5] [(77, 0)] [100; 101]; mkBlock [0; 0; 0; 0] [] [] []; mkBlock [9; 9; 9; 42] [10] [] [102]].
Definition ex_lif : list Z := head [0; 0; 0; 0] [(60, 0); (62, 0)] ++ encode_all 2 ex_blocks.
Definition ex_header (_ : list Z) : res (Z * list nat) := Ok (2, [7; 8; 9]%nat).
Example C66_example : lif_reader nat ex_header ex_lif 3 = Ok [(7%nat, 43, 2); (8%nat, 90, 1)] /\ Forall (good_block 2) ex_blocks /\ sub ex_lif 43 2 = [100; 101] /\ sub ex_lif 90 1 = [102].
Proof. split; [vm_compute; reflexivity|]. split; [|vm_compute; auto]. unfold ex_blocks, good_block. repeat constructor; cbn; try lia; intuition lia. Qed.

(** Any file: the loop over blocks ends; the only endless loop is the search of the second test code of a block (below). *)
Theorem C66_terminates : forall (H : Type) (parse_header : list Z -> res (Z * list H)) file, (forall xml, parse_header xml <> OutOfFuel) ->
  exists r n, r <> OutOfFuel /\ forall fuel, (n < fuel)%nat -> lif_reader H parse_header file fuel = r.
Proof.
  intros H ph file Hph. unfold lif_reader. destruct (read_number_cases file 4 (mkStream 0 false)) as [[c [s1 E1]]|E1]; rewrite E1; cbn [bind]. 2:{ exists Uninitialised, 0%nat. split; [discriminate|auto]. }
  destruct (negb (c =? mem_block_code)). { exists Refused, 0%nat. split; [discriminate|auto]. } destruct (get_char file None (seek_cur 4 s1)) as [[ch|] s2] eqn:E2. 2:{ exists Uninitialised, 0%nat. split; [discriminate|auto]. }
  destruct (negb (ch =? test_code)). { exists Refused, 0%nat. split; [discriminate|auto]. } destruct (read_number_cases file 4 s2) as [[n [s3 E3]]|E3]; rewrite E3; cbn [bind]. 2:{ exists Uninitialised, 0%nat. split; [discriminate|auto]. }
  destruct (read file ((n * 2) mod two32) s3) as [x s4] eqn:E4. destruct (failed s4) eqn:F4. { exists Uninitialised, 0%nat. split; [discriminate|auto]. }
  assert (Hp : 0 <= pos s4).
  { apply read_number_inv in E1. destruct E1 as (_ & -> & _). apply read_number_inv in E3. destruct E3 as (F2 & -> & _). assert (G := get_char_pos _ _ _ _ _ E2 F2). destruct G as [_ G]. cbn in G. unfold read in E4. cbn [failed pos] in E4. injection E4 as <- <-. cbn [pos]. lia. }
  specialize (Hph (every_second x)). destruct (ph (every_second x)) as [[v hs]| | | | |]; cbn [bind]; try (eexists; exists 0%nat; split; [|reflexivity]; discriminate); [|congruence].
  destruct (blocks_ends H file (measure H file hs s4) v hs (Some ch) s4 [] Hp (le_n _)) as [r (R1 & R2)]. exists r, (measure H file hs s4). auto.
Qed.
(** Any file: the series found have the first headers of the XML in order, begin in the file; those of less than 2^63 bytes end in it, and do not overlap. *)
Theorem C66_inside : forall (H : Type) (parse_header : list Z -> res (Z * list H)) file fuel series, size file < 2 ^ 63 -> lif_reader H parse_header file fuel = Ok series ->
  (exists xml version hs, parse_header xml = Ok (version, hs) /\ map (fun e => fst (fst e)) series = firstn (length series) hs) /\
  (forall h offset memory_size, In (h, offset, memory_size) series -> 0 <= offset < size file /\ 0 < memory_size /\ (memory_size < 2 ^ 63 -> offset + memory_size <= size file)) /\
  ((forall h offset memory_size, In (h, offset, memory_size) series -> memory_size < 2 ^ 63) ->
    forall i j h1 o1 m1 h2 o2 m2, (i < j)%nat -> nth_error series i = Some (h1, o1, m1) -> nth_error series j = Some (h2, o2, m2) -> o1 + m1 <= o2).
Proof.
  intros H ph file fuel series Hs E. unfold lif_reader in E. destruct (read_number_cases file 4 (mkStream 0 false)) as [[c [s1 E1]]|E1]; rewrite E1 in E; cbn [bind] in E; [|discriminate].
  destruct (negb (c =? mem_block_code)); [discriminate|]. destruct (get_char file None (seek_cur 4 s1)) as [[ch|] s2] eqn:E2; [|discriminate]. destruct (negb (ch =? test_code)); [discriminate|].
  destruct (read_number_cases file 4 s2) as [[n [s3 E3]]|E3]; rewrite E3 in E; cbn [bind] in E; [|discriminate]. destruct (read file ((n * 2) mod two32) s3) as [x s4] eqn:E4. destruct (failed s4) eqn:F4; [discriminate|].
  assert (Hp : 0 <= pos s4).
  { apply read_number_inv in E1. destruct E1 as (_ & -> & _). apply read_number_inv in E3. destruct E3 as (F2 & -> & _). assert (G := get_char_pos _ _ _ _ _ E2 F2). destruct G as [_ G]. cbn in G. unfold read in E4. cbn [failed pos] in E4. injection E4 as <- <-. cbn [pos]. lia. }
  destruct (ph (every_second x)) as [[v hs]| | | | |] eqn:Eh; cbn [bind] in E; try discriminate.
  destruct (blocks_inside H file fuel v hs (Some ch) s4 [] series Hs Hp E) as [l (El & I & C & M)]. cbn [app] in El. subst l. specialize (C F4). rewrite Forall_forall in I.
  split; [exists (every_second x), v, hs; auto|]. split. { intros h o m In1. apply (I (h, o, m)). auto. }
  intros Sm i j h1 o1 m1 h2 o2 m2 L N1 N2. apply (chained_nth H series (pos s4) i j h1 o1 m1 h2 o2 m2 C); auto. intros [[h o] m] In1. specialize (I _ In1). specialize (Sm _ _ _ In1). cbn in I |- *. split; [auto|apply I].
Qed.
(** Sizes of 8 bytes close to 2^64 pass the check of the end of the series, which wraps around: a series longer than the file. *)
Definition ex_wrap : list Z := head [0; 0; 0; 0] [] ++
  (bytes_of 4 112 ++ [0; 0; 0; 0; 42] ++ bytes_of 8 (2 ^ 64 - 22) ++ [42] ++ bytes_of 4 11 ++ encode 2 (mkBlock [0; 0; 0; 0] [] [] [])) ++ encode 2 (mkBlock [0; 0; 0; 0] [] [] []).
Theorem C66_wrap_refuted : exists file offset memory_size, lif_reader nat ex_header file 3 = Ok [(7%nat, offset, memory_size)] /\ size file < offset + memory_size.
Proof. exists ex_wrap, 57, (2 ^ 64 - 22). split; vm_compute; reflexivity. Qed.
(** A file cut in the data of a block is refused; cut before the second test code of a block, it is read for ever. *)
Theorem C66_cut_data : forall (H : Type) (parse_header : list Z -> res (Z * list H)) u xml version hs bs b d d' file fuel,
  data b = d ++ d' -> d' <> [] -> file = head u xml ++ encode_all version bs ++ prefix version b ++ d -> length u = 4%nat -> Z.of_nat (length xml) < 2 ^ 31 -> parse_header (map fst xml) = Ok (version, hs) ->
  Forall (good_block version) bs -> good_block version b -> Z.of_nat (length (data b)) < 2 ^ 63 -> size file < 2 ^ 63 -> (length (non_empty bs) <= length hs)%nat -> (length bs < fuel)%nat ->
  lif_reader H parse_header file fuel = Refused.
Proof.
  intros H ph u xml version hs bs b d d' file fuel Ed Nd E Lu Lx Eh G Gb Hb Hs Hn Hf. rewrite (lif_reader_head H ph file fuel u xml _ Lu Lx E), Eh. cbn [bind].
  rewrite (blocks_found H version bs file (head u xml) (prefix version b ++ d) hs fuel []); auto; [|lia]. destruct (fuel - length bs)%nat as [|f] eqn:Ef; [lia|].
  assert (E2 : file = (head u xml ++ encode_all version bs) ++ prefix version b ++ d) by (rewrite E, <- app_assoc; auto). rewrite (block_step H file f version _ _ b d _ Gb E2). cbv zeta.
  assert (L : (length (data b) = length d + length d')%nat) by (rewrite Ed, app_length; auto). assert (length d' <> 0)%nat by (destruct d'; [easy|discriminate]). destruct (Z.ltb_spec 0 (Z.of_nat (length (data b)))); [|lia].
  destruct (skipn (length (non_empty bs)) hs) as [|h hs']; auto. unfold lif_serie. rewrite tell_at. set (p := (head u xml ++ encode_all version bs) ++ prefix version b).
  assert (Ez : size file = Z.of_nat (length p) + Z.of_nat (length d)) by (rewrite E2; unfold size, p; rewrite app_assoc, !app_length; lia).
  destruct (Z.leb_spec (size file) (Z.of_nat (length p))); auto. rewrite Z.mod_small by (unfold two64; lia). destruct (Z.ltb_spec (size file) (Z.of_nat (length p) + Z.of_nat (length (data b)))); [auto|lia].
Qed.
Theorem C66_hangs_refuted : forall (H : Type) (parse_header : list Z -> res (Z * list H)) u xml version hs bs v ms g file fuel,
  file = head u xml ++ encode_all version bs ++ bytes_of 4 112 ++ v ++ [42] ++ bytes_of (size_bytes version) ms ++ g -> length v = 4%nat -> 0 <= ms < 256 ^ Z.of_nat (size_bytes version) -> ~ In 42 g ->
  length u = 4%nat -> Z.of_nat (length xml) < 2 ^ 31 -> parse_header (map fst xml) = Ok (version, hs) ->
  Forall (good_block version) bs -> size file < 2 ^ 63 -> (length (non_empty bs) <= length hs)%nat -> (length bs < fuel)%nat ->
  lif_reader H parse_header file fuel = Hangs.
Proof.
  intros H ph u xml version hs bs v ms g file fuel E Lv Hm Ng Lu Lx Eh G Hs Hn Hf. rewrite (lif_reader_head H ph file fuel u xml _ Lu Lx E), Eh. cbn [bind].
  rewrite (blocks_found H version bs file (head u xml) (bytes_of 4 112 ++ v ++ [42] ++ bytes_of (size_bytes version) ms ++ g) hs fuel []); auto; [|lia]. destruct (fuel - length bs)%nat as [|f] eqn:Ef; [lia|].
  rewrite (block_begin H file f version _ _ v ms g _ Lv Hm). 2:{ rewrite E, <- app_assoc. auto. } cbv zeta. rewrite find_test_none; auto.
Qed.
Example C66_hangs_example : lif_reader nat ex_header (firstn 35 ex_lif) 5 = Hangs /\ lif_reader nat ex_header (firstn 44 ex_lif) 5 = Refused /\ lif_reader nat ex_header (firstn 20 ex_lif) 5 = Uninitialised.
Proof. vm_compute. auto. Qed.

Print Assumptions C65_slice.
Print Assumptions C65_volume.
Print Assumptions C65_concatenation.
Print Assumptions C65_out_of_range.
Print Assumptions C65_slice_number_refuted.
Print Assumptions C65_failure_silent.
Print Assumptions C65_recovery_refuted.
Print Assumptions C65_large_refuted.
Print Assumptions C65_depth_refuted.
Print Assumptions C65_locator.
Print Assumptions C65_time_step_refuted.
Print Assumptions C65_square.
Print Assumptions C65_rectangular_refuted.
Print Assumptions C65_channels_refuted.
Print Assumptions C66_blocks.
Print Assumptions C66_data.
Print Assumptions C66_terminates.
Print Assumptions C66_inside.
Print Assumptions C66_wrap_refuted.
Print Assumptions C66_cut_data.
Print Assumptions C66_hangs_refuted.

(** Proofs about padded images. *)
Require Import List Bool Arith Lia.
Require Import Verif.Base Verif.ListX Verif.Traj_Model Verif.Particles_Model Verif.RTree_Model Verif.Boo_Model Verif.Pyramid_Model Verif.Pyramid_Proofs Verif.Tracker_Model.
Import ListNotations.

Lemma oiter_inv {W} (I : nat -> W -> Prop) (f : W -> outcome W) : forall n a w, I a w -> (forall k w, a <= k < a + n -> I k w -> exists w', f w = Val w' /\ I (S k) w') ->
  exists w', oiter n f w = Val w' /\ I (a + n) w'.
Proof.
  induction n as [|n IH]; intros a w H S; cbn [oiter].
  - exists w. rewrite Nat.add_0_r. auto.
  - destruct (S a w) as [w1 [E H1]]; [lia|auto|]. rewrite E. cbn [obind]. destruct (IH (Datatypes.S a) w1 H1) as [w2 [E2 H2]]. { intros k w' Hk. apply S. lia. } exists w2. split; auto. replace (a + Datatypes.S n) with (Datatypes.S a + n) by lia. auto.
Qed.
Lemma oiter_plus {W} (f : W -> outcome W) : forall a b w, oiter (a + b) f w = obind (oiter a f w) (oiter b f).
Proof. induction a as [|a IH]; intros b w; cbn [oiter plus obind]; auto. destruct (f w); cbn [obind]; auto. Qed.
Lemma oiter_mul {W} (f : W -> outcome W) : forall a b w, oiter a (oiter b f) w = oiter (a * b) f w.
Proof. induction a as [|a IH]; intros b w; cbn [oiter Nat.mul]; auto. rewrite oiter_plus. destruct (oiter b f w); cbn [obind]; auto. Qed.
Lemma write_ok {A} p (x : A) m : p < length m -> write p x m = Val (RTree_Model.set_nth p x m).
Proof. intros H. unfold write. destruct (Nat.ltb_spec p (length m)); [auto|lia]. Qed.
Lemma line_ge n2 : n2 < line n2.
Proof. unfold line. assert (X := Nat.div_mod_eq n2 2). assert (Y := Nat.mod_upper_bound n2 2). lia. Qed.
Lemma skipn_cons_nth {A} : forall n (l : list A) x r, skipn n l = x :: r -> nth_error l n = Some x /\ skipn (S n) l = r.
Proof. induction n; intros [|y l] x r H; cbn in *; try discriminate. { injection H as -> ->. auto. } apply IHn in H. auto. Qed.
Lemma set_get {A} (p q : nat) (x : A) m : p < length m -> nth_error (RTree_Model.set_nth p x m) q = if q =? p then Some x else nth_error m q.
Proof. intros H. apply set_nth_get. auto. Qed.

Section Image.
Variables (V T C : Type) (zero : V) (add : T -> V -> T) (conv : C -> V) (n2 : nat).
Notation P := (line n2).
Notation fillp := (fill_pixel V T C add conv).
Notation filll := (fill_line V T C add conv n2).

(** One line: from d to d + P, with n2 values of the input. *)
Lemma fill_line_ok (zp : bool) s : ptr V T C s + P <= length (mem V T C s) -> n2 <= length (input V T C s) ->
  exists s', filll (if zp then zero_pad V T C zero else skip_pad V T C) s = Val s' /\ ptr V T C s' = ptr V T C s + P /\ input V T C s' = skipn n2 (input V T C s) /\ length (mem V T C s') = length (mem V T C s) /\
    (forall k, k < n2 -> nth_error (mem V T C s') (ptr V T C s + k) = option_map conv (nth_error (input V T C s) k)) /\
    (forall p, p < ptr V T C s \/ ptr V T C s + P <= p -> nth_error (mem V T C s') p = nth_error (mem V T C s) p) /\
    sum V T C s' = option_map (fun t => fold_left (fun t x => add t (conv x)) (firstn n2 (input V T C s)) t) (sum V T C s).
Proof.
  intros Hm Hi. assert (LP := line_ge n2). destruct s as [m d inp su]. cbn [mem ptr input sum] in *. unfold fill_line.
  destruct (oiter_inv (fun k s => ptr V T C s = d + k /\ input V T C s = skipn k inp /\ length (mem V T C s) = length m /\ (forall q, q < k -> nth_error (mem V T C s) (d + q) = option_map conv (nth_error inp q)) /\
    (forall p, p < d \/ d + k <= p -> nth_error (mem V T C s) p = nth_error m p) /\ sum V T C s = option_map (fun t => fold_left (fun t x => add t (conv x)) (firstn k inp) t) su) fillp n2 0 (mkFill V T C m d inp su)) as [s1 [E1 I1]].
  - cbn [mem ptr input sum]. rewrite Nat.add_0_r. split; [|split; [|split; [|split; [|split]]]]; auto; [intros; lia|destruct su; auto].
  - intros k [m1 d1 i1 su1] Hk (Ed & Ei & El & Ea & Eb & Es). cbn [mem ptr input sum] in *. unfold fill_pixel. cbn [mem ptr input sum]. destruct i1 as [|x r].
    { exfalso. assert (length (skipn k inp) = 0) by (rewrite <- Ei; auto). rewrite skipn_length in *. lia. }
    symmetry in Ei. destruct (skipn_cons_nth _ _ _ _ Ei) as [Nx Nr]. rewrite write_ok by lia. cbn [omap]. eexists. split; [reflexivity|]. cbn [mem ptr input sum]. rewrite set_nth_len. split; [lia|]. split; [auto|]. split; [auto|]. split; [|split].
    + intros q Hq. rewrite set_get by lia. destruct (Nat.eqb_spec (d + q) d1). { replace q with k by lia. rewrite Nx. auto. } apply Ea. lia.
    + intros p Hp. rewrite set_get by lia. destruct (Nat.eqb_spec p d1); [lia|]. apply Eb. lia.
    + rewrite Es. destruct su; cbn [option_map]; auto. f_equal. assert (F : firstn (S k) inp = firstn k inp ++ [x]). { clear -Nx. revert inp Nx. induction k; intros [|y l] N; cbn in *; try discriminate. { injection N as ->. auto. } f_equal. auto. } rewrite F, fold_left_app. auto.
  - cbn [plus] in I1. destruct I1 as (Ed & Ei & El & Ea & Eb & Es). rewrite E1. cbn [obind].
    destruct (oiter_inv (fun k s => ptr V T C s = d + n2 + k /\ input V T C s = skipn n2 inp /\ length (mem V T C s) = length m /\ (forall q, q < n2 -> nth_error (mem V T C s) (d + q) = option_map conv (nth_error inp q)) /\
      (forall p, p < d \/ d + n2 + k <= p -> nth_error (mem V T C s) p = nth_error m p) /\ sum V T C s = sum V T C s1) (if zp then zero_pad V T C zero else skip_pad V T C) (P - n2) 0 s1) as [s2 [E2 I2]].
    + rewrite Nat.add_0_r. split; [|split; [|split; [|split; [|split]]]]; auto.
    + intros k [m1 d1 i1 su1] Hk (Fd & Fi & Fl & Fa & Fb & Fs). cbn [mem ptr input sum] in *. destruct zp.
      * unfold zero_pad. cbn [mem ptr input sum]. rewrite write_ok by lia. cbn [omap]. eexists. split; [reflexivity|]. cbn [mem ptr input sum]. rewrite set_nth_len. split; [lia|]. split; [auto|]. split; [auto|]. split; [|split]; auto.
        { intros q Hq. rewrite set_get by lia. destruct (Nat.eqb_spec (d + q) d1); [lia|]. auto. }
        intros p Hp. rewrite set_get by lia. destruct (Nat.eqb_spec p d1); [lia|]. apply Fb. lia.
      * eexists. split; [reflexivity|]. cbn [mem ptr input sum]. split; [lia|]. split; [auto|]. split; [auto|]. split; [auto|]. split; auto. intros p Hp. apply Fb. lia.
    + cbn [plus] in I2. destruct I2 as (Fd & Fi & Fl & Fa & Fb & Fs). exists s2. split; auto. split; [lia|]. split; auto. split; auto. split; auto. split. { intros p Hp. apply Fb. lia. } rewrite Fs. auto.
Qed.

(** Several lines. *)
Lemma fill_lines_ok (zp : bool) lines m d inp su : d + lines * P <= length m -> lines * n2 <= length inp ->
  exists s', oiter lines (filll (if zp then zero_pad V T C zero else skip_pad V T C)) (mkFill V T C m d inp su) = Val s' /\ ptr V T C s' = d + lines * P /\ input V T C s' = skipn (lines * n2) inp /\ length (mem V T C s') = length m /\
    (forall l k, l < lines -> k < n2 -> nth_error (mem V T C s') (d + l * P + k) = option_map conv (nth_error inp (l * n2 + k))) /\
    (forall p, p < d \/ d + lines * P <= p -> nth_error (mem V T C s') p = nth_error m p) /\
    sum V T C s' = option_map (fun t => fold_left (fun t x => add t (conv x)) (firstn (lines * n2) inp) t) su.
Proof.
  intros Hm Hi. assert (LP := line_ge n2).
  destruct (oiter_inv (fun L s => ptr V T C s = d + L * P /\ input V T C s = skipn (L * n2) inp /\ length (mem V T C s) = length m /\
    (forall l k, l < L -> k < n2 -> nth_error (mem V T C s) (d + l * P + k) = option_map conv (nth_error inp (l * n2 + k))) /\
    (forall p, p < d \/ d + L * P <= p -> nth_error (mem V T C s) p = nth_error m p) /\
    sum V T C s = option_map (fun t => fold_left (fun t x => add t (conv x)) (firstn (L * n2) inp) t) su) (filll (if zp then zero_pad V T C zero else skip_pad V T C)) lines 0 (mkFill V T C m d inp su)) as [s1 [E1 I1]].
  - cbn [mem ptr input sum Nat.mul skipn]. rewrite Nat.add_0_r. split; [|split; [|split; [|split; [|split]]]]; auto; [intros; lia|destruct su; auto].
  - intros L s HL (Ed & Ei & El & Ea & Eb & Es).
    assert (LL : (L + 1) * P <= lines * P) by (apply Nat.mul_le_mono_r; lia). assert (LN : (L + 1) * n2 <= lines * n2) by (apply Nat.mul_le_mono_r; lia).
    destruct (fill_line_ok zp s) as [s' (F & Fd & Fi & Fl & Fa & Fb & Fs)]. { rewrite Ed, El. lia. } { rewrite Ei, skipn_length. lia. }
    exists s'. split; auto. split; [lia|]. split. { rewrite Fi, Ei. clear. assert (G : forall b (l : list C) a, skipn a (skipn b l) = skipn (b + a) l) by (induction b; intros [|x l] a; cbn; auto; now rewrite skipn_nil). rewrite G. f_equal. lia. }
    split; [lia|]. split; [|split].
    + intros l k Hl Hk. assert (Hd : l < L \/ l = L) by lia. destruct Hd as [Hd| ->].
      * assert ((l + 1) * P <= L * P) by (apply Nat.mul_le_mono_r; lia). rewrite Fb by lia. apply Ea; auto.
      * rewrite <- Ed, Fa by auto. rewrite Ei. f_equal. clear. assert (G : forall n (l : list C) k, nth_error (skipn n l) k = nth_error l (n + k)) by (induction n; intros [|x l] j; cbn; auto; destruct j; auto). apply G.
    + intros p Hp. rewrite Fb by lia. apply Eb. lia.
    + rewrite Fs, Es. destruct su as [t|]; cbn [option_map]; auto. f_equal. rewrite Ei, <- fold_left_app. f_equal.
      assert (G : forall b (l : list C) a, firstn a l ++ firstn b (skipn a l) = firstn (a + b) l). { clear. intros b l a. revert l. induction a; intros [|x l]; cbn; auto; [destruct b; auto|now rewrite IHa]. } rewrite G. f_equal. lia.
  - cbn [plus] in I1. exists s1. tauto.
Qed.

Notation movep := (move_pixel V).
Notation movez := (move_pad V zero).
(** In place: the result never overtakes the source. *)
Lemma move_lines_ok lines m0 : lines * P <= length m0 ->
  exists s', oiter lines (fun s => obind (oiter n2 movep s) (oiter (P - n2) movez)) (mkMove V m0 0 0) = Val s' /\ length (mmem V s') = length m0 /\
    (forall l k, l < lines -> k < n2 -> nth_error (mmem V s') (l * n2 + k) = nth_error m0 (l * P + k)).
Proof.
  intros Hm. assert (LP := line_ge n2).
  destruct (oiter_inv (fun L s => mptr V s = L * P /\ res V s = L * n2 /\ length (mmem V s) = length m0 /\
    (forall l k, l < L -> k < n2 -> nth_error (mmem V s) (l * n2 + k) = nth_error m0 (l * P + k)) /\
    (forall p, L * P <= p -> nth_error (mmem V s) p = nth_error m0 p)) (fun s => obind (oiter n2 movep s) (oiter (P - n2) movez)) lines 0 (mkMove V m0 0 0)) as [s1 [E1 I1]].
  - cbn [mmem mptr res Nat.mul]. repeat split; auto. intros; lia.
  - intros L s HL (Ed & Er & El & Ea & Eb).
    assert (LL : (L + 1) * P <= lines * P) by (apply Nat.mul_le_mono_r; lia). assert (LN : L * n2 <= L * P) by (apply Nat.mul_le_mono_l; lia).
    destruct (oiter_inv (fun q s => mptr V s = L * P + q /\ res V s = L * n2 + q /\ length (mmem V s) = length m0 /\
      (forall l k, l < L -> k < n2 -> nth_error (mmem V s) (l * n2 + k) = nth_error m0 (l * P + k)) /\
      (forall k, k < q -> nth_error (mmem V s) (L * n2 + k) = nth_error m0 (L * P + k)) /\
      (forall p, L * P + q <= p -> nth_error (mmem V s) p = nth_error m0 p)) movep n2 0 s) as [s2 [E2 I2]].
    + rewrite !Nat.add_0_r. split; auto. split; auto. split; auto. split; auto. split; auto. intros; lia.
    + intros q [m d r] Hq (Fd & Fr & Fl & Fa & Fb & Fc). cbn [mmem mptr res] in *. unfold move_pixel. cbn [mmem mptr res].
      assert (X : exists x, nth_error m d = Some x). { destruct (nth_error m d) eqn:N; eauto. apply nth_error_None in N. lia. } destruct X as [x Nx].
      unfold at_index. rewrite Nx. cbn [obind]. rewrite write_ok by lia. cbn [omap]. eexists. split; [reflexivity|]. cbn [mmem mptr res]. rewrite set_nth_len. split; [lia|]. split; [lia|]. split; [auto|]. split; [|split].
      * intros l k Hl Hk. assert ((l + 1) * n2 <= L * n2) by (apply Nat.mul_le_mono_r; lia). rewrite set_get by lia. destruct (Nat.eqb_spec (l * n2 + k) r); [lia|]. auto.
      * intros k Hk. rewrite set_get by lia. destruct (Nat.eqb_spec (L * n2 + k) r). { replace k with q by lia. rewrite <- Fd, <- Nx. apply Fc. lia. } apply Fb. lia.
      * intros p Hp. rewrite set_get by lia. destruct (Nat.eqb_spec p r); [lia|]. apply Fc. lia.
    + cbn [plus] in I2. destruct I2 as (Fd & Fr & Fl & Fa & Fb & Fc). rewrite E2. cbn [obind].
      destruct (oiter_inv (fun q s => mptr V s = L * P + n2 + q /\ res V s = L * n2 + n2 /\ length (mmem V s) = length m0 /\
        (forall l k, l < S L -> k < n2 -> nth_error (mmem V s) (l * n2 + k) = nth_error m0 (l * P + k)) /\
        (forall p, L * P + n2 + q <= p -> nth_error (mmem V s) p = nth_error m0 p)) movez (P - n2) 0 s2) as [s3 [E3 I3]].
      * rewrite Nat.add_0_r. split; auto. split; auto. split; auto. split; auto. intros l k Hl Hk. assert (Hd : l < L \/ l = L) by lia. destruct Hd as [Hd| ->]; auto.
      * intros q [m d r] Hq (Gd & Gr & Gl & Ga & Gb). cbn [mmem mptr res] in *. unfold move_pad. cbn [mmem mptr res]. rewrite write_ok by lia. cbn [omap]. eexists. split; [reflexivity|]. cbn [mmem mptr res]. rewrite set_nth_len. split; [lia|]. split; [lia|]. split; [auto|]. split.
        { intros l k Hl Hk. assert (l * n2 <= L * n2) by (apply Nat.mul_le_mono_r; lia). rewrite set_get by lia. destruct (Nat.eqb_spec (l * n2 + k) d); [lia|]. auto. }
        intros p Hp. rewrite set_get by lia. destruct (Nat.eqb_spec p d); [lia|]. apply Gb. lia.
      * cbn [plus] in I3. destruct I3 as (Gd & Gr & Gl & Ga & Gb). exists s3. split; auto. split; [lia|]. split; [lia|]. split; auto. split; auto. intros p Hp. apply Gb. lia.
  - cbn [plus] in I1. exists s1. tauto.
Qed.

Notation copyp := (copy_pixel V).
Notation copyz := (copy_pad V zero).
Lemma copy_lines_ok lines m0 : lines * P <= length m0 ->
  exists s', oiter lines (fun s => obind (oiter n2 copyp s) (oiter (P - n2) copyz)) (mkCopy V m0 0 []) = Val s' /\ length (cmem V s') = length m0 /\ length (out V s') = lines * n2 /\
    (forall l k, l < lines -> k < n2 -> nth_error (out V s') (l * n2 + k) = nth_error m0 (l * P + k) /\ nth_error (cmem V s') (l * P + k) = nth_error m0 (l * P + k)).
Proof.
  intros Hm. assert (LP := line_ge n2).
  destruct (oiter_inv (fun L s => cptr V s = L * P /\ length (out V s) = L * n2 /\ length (cmem V s) = length m0 /\
    (forall l k, l < L -> k < n2 -> nth_error (out V s) (l * n2 + k) = nth_error m0 (l * P + k)) /\
    (forall l k, k < n2 -> nth_error (cmem V s) (l * P + k) = nth_error m0 (l * P + k))) (fun s => obind (oiter n2 copyp s) (oiter (P - n2) copyz)) lines 0 (mkCopy V m0 0 [])) as [s1 [E1 I1]].
  - cbn [cmem cptr out Nat.mul length]. repeat split; auto. intros; lia.
  - intros L s HL (Ed & Er & El & Ea & Eb).
    assert (LL : (L + 1) * P <= lines * P) by (apply Nat.mul_le_mono_r; lia). 
    destruct (oiter_inv (fun q s' => cptr V s' = L * P + q /\ cmem V s' = cmem V s /\ length (out V s') = L * n2 + q /\
      (forall l k, l < L -> k < n2 -> nth_error (out V s') (l * n2 + k) = nth_error m0 (l * P + k)) /\
      (forall k, k < q -> nth_error (out V s') (L * n2 + k) = nth_error m0 (L * P + k))) copyp n2 0 s) as [s2 [E2 I2]].
    + rewrite !Nat.add_0_r. split; auto. split; auto. split; auto. split; auto. intros; lia.
    + intros q [m d r] Hq (Fd & Fm & Fl & Fa & Fb). cbn [cmem cptr out] in *. subst m. unfold copy_pixel. cbn [cmem cptr out].
      assert (X : exists x, nth_error (cmem V s) d = Some x). { destruct (nth_error (cmem V s) d) eqn:N; eauto. apply nth_error_None in N. lia. } destruct X as [x Nx].
      unfold at_index. rewrite Nx. cbn [omap]. eexists. split; [reflexivity|]. cbn [cmem cptr out]. split; [lia|]. split; [auto|]. split; [rewrite app_length; cbn; lia|]. split.
      * intros l k Hl Hk. assert ((l + 1) * n2 <= L * n2) by (apply Nat.mul_le_mono_r; lia). rewrite nth_error_app1 by lia. auto.
      * intros k Hk. assert (Hd : k < q \/ k = q) by lia. destruct Hd as [Hd| ->]. { rewrite nth_error_app1 by lia. auto. }
        rewrite nth_error_app2 by lia. replace (L * n2 + q - length r) with 0 by lia. cbn. rewrite <- Nx, Fd. apply Eb. lia.
    + cbn [plus] in I2. destruct I2 as (Fd & Fm & Fl & Fa & Fb). rewrite E2. cbn [obind].
      destruct (oiter_inv (fun q s' => cptr V s' = L * P + n2 + q /\ out V s' = out V s2 /\ length (cmem V s') = length m0 /\
        (forall l k, k < n2 -> nth_error (cmem V s') (l * P + k) = nth_error m0 (l * P + k))) copyz (P - n2) 0 s2) as [s3 [E3 I3]].
      * rewrite Nat.add_0_r. split; auto. split; auto. rewrite Fm. split; auto.
      * intros q [m d r] Hq (Gd & Gr & Gl & Ga). cbn [cmem cptr out] in *. unfold copy_pad. cbn [cmem cptr out]. rewrite write_ok by lia. cbn [omap]. eexists. split; [reflexivity|]. cbn [cmem cptr out]. rewrite set_nth_len. split; [lia|]. split; [auto|]. split; [auto|].
        intros l k Hk. rewrite set_get by lia. destruct (Nat.eqb_spec (l * P + k) d); [|auto]. exfalso.
        assert (Hd : l < L \/ l = L \/ L < l) by lia. destruct Hd as [Hd|[->|Hd]]; [|lia|].
        { assert ((l + 1) * P <= L * P) by (apply Nat.mul_le_mono_r; lia). lia. } assert ((L + 1) * P <= l * P) by (apply Nat.mul_le_mono_r; lia). lia.
      * cbn [plus] in I3. destruct I3 as (Gd & Gr & Gl & Ga). exists s3. split; auto. split; [lia|]. rewrite Gr. split; [lia|]. split; auto. split; auto.
        intros l k Hl Hk. assert (Hd : l < L \/ l = L) by lia. destruct Hd as [Hd| ->]; auto.
  - cbn [plus] in I1. destruct I1 as (A1 & A2 & A3 & A4 & A5). exists s1. split; auto.
Qed.

(** Input shorter than the image: undefined behaviour. *)
Lemma oiter_len {W} (len : W -> nat) f c : (forall w, f w = UB \/ exists w', f w = Val w' /\ len w = len w' + c) ->
  forall n w, oiter n f w = UB \/ exists w', oiter n f w = Val w' /\ len w = len w' + n * c.
Proof.
  intros H. induction n as [|n IH]; intros w; cbn [oiter]. { right. exists w. split; [reflexivity|lia]. }
  destruct (H w) as [->|[w1 [-> E]]]; cbn [obind]; auto. destruct (IH w1) as [->|[w2 [-> E2]]]; auto. right. exists w2. split; [reflexivity|cbn; lia].
Qed.
Lemma write_cases {A} p (x : A) m : write p x m = UB \/ exists m', write p x m = Val m'.
Proof. unfold write. destruct (p <? length m); eauto. Qed.
Lemma fill_lines_len (zp : bool) lines s : oiter lines (filll (if zp then zero_pad V T C zero else skip_pad V T C)) s = UB \/ exists s', oiter lines (filll (if zp then zero_pad V T C zero else skip_pad V T C)) s = Val s' /\ length (input V T C s) = length (input V T C s') + lines * n2.
Proof.
  apply (oiter_len (fun s => length (input V T C s))). clear s. intros s. unfold fill_line.
  destruct (oiter_len (fun s => length (input V T C s)) fillp 1) with (n := n2) (w := s) as [->|[s1 [-> E1]]]; cbn [obind]; auto.
  { intros [m d inp su]. unfold fill_pixel. cbn [mem ptr input sum]. destruct inp as [|x r]; auto. destruct (write_cases d (conv x) m) as [->|[m' ->]]; cbn [omap]; auto. right. eexists. split; [reflexivity|]. cbn. lia. }
  destruct (oiter_len (fun s => length (input V T C s)) (if zp then zero_pad V T C zero else skip_pad V T C) 0) with (n := P - n2) (w := s1) as [->|[s2 [-> E2]]]; auto.
  { intros [m d inp su]. destruct zp. - unfold zero_pad. cbn [mem ptr input sum]. destruct (write_cases d zero m) as [->|[m' ->]]; cbn [omap]; auto. right. eexists. split; [reflexivity|]. cbn. lia.
    - right. eexists. split; [reflexivity|]. cbn. lia. }
  right. exists s2. split; auto. lia.
Qed.
End Image.

Lemma idx2 n0 n1 i j : i < n0 -> j < n1 -> i * n1 + j < n0 * n1.
Proof. intros Hi Hj. assert ((i + 1) * n1 <= n0 * n1) by (apply Nat.mul_le_mono_r; lia). lia. Qed.

(** Mirror. *)
Definition triple_dec : forall x y : nat * nat * nat, {x = y} + {x <> y}.
Proof. repeat decide equality. Defined.
Section Mask.
Variables (B : Type) (n0 n1 h2 : nat).
Notation mask := (mask B).
Lemma set_mask_get (m : mask) i j k b i' j' k' : set_mask B m i j k b i' j' k' = if (i' =? i) && (j' =? j) && (k' =? k) then b else m i' j' k'.
Proof. reflexivity. Qed.

(** Writes in a list of triples, with values read in cells that are not written before by another triple with another value: abstract form. *)
Lemma fold_writes {X} (L : list X) (dst src : X -> nat * nat * nat) (m : mask) (q : nat -> nat -> nat -> B) :
  (* every write stores the final value q of the cell, and every source holds it at the beginning or already has it *)
  (forall x, In x L -> let '(i, j, k) := src x in let '(i', j', k') := dst x in q i' j' k' = q i j k) ->
  (forall x, In x L -> let '(i, j, k) := src x in m i j k = q i j k) ->
  let m' := fold_left (fun m x => let '(i, j, k) := src x in let '(i', j', k') := dst x in set_mask B m i' j' k' (m i j k)) L m in
  (forall i j k, In (i, j, k) (map dst L) -> m' i j k = q i j k) /\ (forall i j k, ~ In (i, j, k) (map dst L) -> m' i j k = m i j k).
Proof.
  revert m. induction L as [|x L IH]; intros m Hq Hm; cbn [fold_left map In].
  - split; [intros ? ? ? []|auto].
  - destruct (src x) as [[i j] k] eqn:Es. destruct (dst x) as [[i' j'] k'] eqn:Ed.
    assert (Q := Hq x (or_introl eq_refl)). rewrite Es, Ed in Q. assert (M := Hm x (or_introl eq_refl)). rewrite Es in M.
    set (m1 := set_mask B m i' j' k' (m i j k)).
    assert (K : forall a b c, m1 a b c = m a b c \/ m1 a b c = q a b c).
    { intros a b c. unfold m1, set_mask. destruct (Nat.eqb_spec a i') as [->|]; cbn [andb]; auto. destruct (Nat.eqb_spec b j') as [->|]; cbn [andb]; auto. destruct (Nat.eqb_spec c k') as [->|]; auto. right. congruence. }
    destruct (IH m1) as [A1 A2].
    { intros y Hy. apply Hq. right. auto. }
    { intros y Hy. specialize (Hm y (or_intror Hy)). destruct (src y) as [[a b] c]. destruct (K a b c) as [->| ->]; auto. }
    split.
    + intros a b c H. destruct (in_dec triple_dec (a, b, c) (map dst L)) as [I|NI]. { apply A1. auto. }
      destruct H as [H|H]; [|contradiction]. injection H as <- <- <-. cbv zeta in A2. rewrite A2 by auto. unfold m1, set_mask. rewrite !Nat.eqb_refl. cbn [andb]. congruence.
    + intros a b c H. rewrite A2 by tauto. unfold m1, set_mask. destruct (Nat.eqb_spec a i') as [->|]; cbn [andb]; auto. destruct (Nat.eqb_spec b j') as [->|]; cbn [andb]; auto. destruct (Nat.eqb_spec c k') as [->|]; auto. exfalso. apply H. auto.
Qed.

Lemma fold_prod {A X Y} (f : A -> X -> Y -> A) (lx : list X) (ly : list Y) : forall a, fold_left (fun a x => fold_left (fun a y => f a x y) ly a) lx a = fold_left (fun a p => f a (fst p) (snd p)) (list_prod lx ly) a.
Proof. induction lx as [|x lx IH]; intros a; cbn [fold_left list_prod]; auto. rewrite IH, fold_left_app. f_equal. clear IH. revert a. induction ly as [|y l IHy]; intros a; cbn [map fold_left]; auto. Qed.
Lemma assign_flat m li lj src dst : assign B h2 m li lj src dst = fold_left (fun m x => let '(i, j, k) := (fst (src (fst x) (fst (snd x))), snd (src (fst x) (fst (snd x))), snd (snd x)) in
    let '(i', j', k') := (fst (dst (fst x) (fst (snd x))), snd (dst (fst x) (fst (snd x))), snd (snd x)) in set_mask B m i' j' k' (m i j k)) (list_prod li (list_prod lj (seq 0 h2))) m.
Proof.
  unfold assign. set (f := fun (m : mask) i j k => set_mask B m (fst (dst i j)) (snd (dst i j)) k (m (fst (src i j)) (snd (src i j)) k)).
  transitivity (fold_left (fun m i => fold_left (fun m p => f m i (fst p) (snd p)) (list_prod lj (seq 0 h2)) m) li m).
  - revert m. induction li as [|i li IH]; intros m; cbn [fold_left]; auto. rewrite IH. f_equal. apply (fold_prod (fun m j k => f m i j k)).
  - rewrite (fold_prod (fun m i p => f m i (fst p) (snd p))). reflexivity.
Qed.
Lemma assign_get m li lj src dst (q : nat -> nat -> nat -> B) :
  (forall x y k, In x li -> In y lj -> k < h2 -> q (fst (dst x y)) (snd (dst x y)) k = q (fst (src x y)) (snd (src x y)) k /\ m (fst (src x y)) (snd (src x y)) k = q (fst (src x y)) (snd (src x y)) k) ->
  (forall x y k, In x li -> In y lj -> k < h2 -> assign B h2 m li lj src dst (fst (dst x y)) (snd (dst x y)) k = q (fst (dst x y)) (snd (dst x y)) k) /\
  (forall i j k, ~ (exists x y, In x li /\ In y lj /\ k < h2 /\ dst x y = (i, j)) -> assign B h2 m li lj src dst i j k = m i j k).
Proof.
  intros H. rewrite assign_flat.
  destruct (fold_writes (list_prod li (list_prod lj (seq 0 h2))) (fun x => (fst (dst (fst x) (fst (snd x))), snd (dst (fst x) (fst (snd x))), snd (snd x))) (fun x => (fst (src (fst x) (fst (snd x))), snd (src (fst x) (fst (snd x))), snd (snd x))) m q) as [A1 A2].
  - intros [x [y k]] I. cbn [fst snd]. rewrite !in_prod_iff, in_seq in I. apply H; try tauto; lia.
  - intros [x [y k]] I. cbn [fst snd]. rewrite !in_prod_iff, in_seq in I. apply H; try tauto; lia.
  - split.
    + intros x y k Hx Hy Hk. apply A1. apply in_map_iff. exists (x, (y, k)). cbn [fst snd]. split; auto. rewrite !in_prod_iff, in_seq. repeat split; auto; lia.
    + intros i j k N. apply A2. intros I. apply N. apply in_map_iff in I. destruct I as [[x [y k']] [E I]]. cbn [fst snd] in E. rewrite !in_prod_iff, in_seq in I. injection E as <- <- <-. exists x, y. split; [tauto|]. split; [tauto|]. split; [lia|]. destruct (dst x y); auto.
Qed.

(** Row from which row i comes. *)
Definition fld (n i : nat) : nat := if (3 <=? n / 2 + 1) && (n / 2 <? i) then n - 1 - i + parity n else i.
Lemma div2 n : n = 2 * (n / 2) + n mod 2 /\ n mod 2 < 2.
Proof. split; [apply Nat.div_mod_eq|apply Nat.mod_upper_bound; lia]. Qed.
Lemma fld_le n i : i <= n / 2 -> fld n i = i.
Proof. intros H. unfold fld. destruct (Nat.ltb_spec (n / 2) i); [lia|]. now rewrite andb_false_r. Qed.

Lemma mirror_first_get (m : mask) i j k : i < n0 -> k < h2 -> mirror_first B n0 n1 h2 m i j k = m (if j <=? n1 / 2 then fld n0 i else i) j k.
Proof.
  intros Hi Hk. unfold mirror_first, fld. destruct (Nat.leb_spec 3 (n0 / 2 + 1)) as [H3|]; [|cbn [andb]; now destruct (j <=? n1 / 2)]. cbn [andb].
  destruct (div2 n0) as [D M]. unfold parity.
  destruct (assign_get m (seq 0 (n0 / 2)) (seq 0 (n1 / 2 + 1)) (fun x j => (1 - n0 mod 2 + x, j)) (fun x j => (n0 - 1 - x, j)) (fun i j k => m (if n0 / 2 <? i then n0 - 1 - i + (1 - n0 mod 2) else i) j k)) as [A1 A2].
  - intros x y k' Hx Hy Hk'. rewrite in_seq in *. cbn [fst snd].
    assert (E : (if n0 / 2 <? 1 - n0 mod 2 + x then n0 - 1 - (1 - n0 mod 2 + x) + (1 - n0 mod 2) else 1 - n0 mod 2 + x) = 1 - n0 mod 2 + x) by (destruct (Nat.ltb_spec (n0 / 2) (1 - n0 mod 2 + x)); lia).
    rewrite E. split; auto. f_equal. destruct (Nat.ltb_spec (n0 / 2) (n0 - 1 - x)); lia.
  - cbn [fst snd] in *. destruct (Nat.leb_spec j (n1 / 2)) as [Hj|Hj].
    + destruct (Nat.ltb_spec (n0 / 2) i) as [Hd|Hd].
      * specialize (A1 (n0 - 1 - i) j k). replace (n0 - 1 - (n0 - 1 - i)) with i in A1 by lia. rewrite A1; [|apply in_seq; lia|apply in_seq; lia|auto]. destruct (Nat.ltb_spec (n0 / 2) i); [auto|lia].
      * assert (C : i = n0 / 2 /\ n0 mod 2 = 0 \/ ~ (i = n0 / 2 /\ n0 mod 2 = 0)) by lia. destruct C as [[-> C]|C].
        { specialize (A1 (n0 / 2 - 1) j k). replace (n0 - 1 - (n0 / 2 - 1)) with (n0 / 2) in A1 by lia. rewrite A1; [|apply in_seq; lia|apply in_seq; lia|auto]. rewrite Nat.ltb_irrefl. auto. }
        apply A2. intros (x & y & X & Y & _ & E). rewrite in_seq in *. injection E as E1 E2. lia.
    + apply A2. intros (x & y & X & Y & _ & E). rewrite in_seq in *. injection E as E1 E2. lia.
Qed.
Lemma mirror_second_get (m : mask) i j k : i < n0 -> j < n1 -> k < h2 -> mirror_second B n0 n1 h2 m i j k = m i (fld n1 j) k.
Proof.
  intros Hi Hj Hk. unfold mirror_second, fld. destruct (Nat.leb_spec 3 (n1 / 2 + 1)) as [H3|]; [|auto]. cbn [andb].
  destruct (div2 n1) as [D M]. unfold parity.
  destruct (assign_get m (seq 0 n0) (seq 0 (n1 / 2)) (fun i x => (i, 1 - n1 mod 2 + x)) (fun i x => (i, n1 - 1 - x)) (fun i j k => m i (if n1 / 2 <? j then n1 - 1 - j + (1 - n1 mod 2) else j) k)) as [A1 A2].
  - intros y x k' Hy Hx Hk'. rewrite in_seq in *. cbn [fst snd].
    assert (E : (if n1 / 2 <? 1 - n1 mod 2 + x then n1 - 1 - (1 - n1 mod 2 + x) + (1 - n1 mod 2) else 1 - n1 mod 2 + x) = 1 - n1 mod 2 + x) by (destruct (Nat.ltb_spec (n1 / 2) (1 - n1 mod 2 + x)); lia).
    rewrite E. split; auto. f_equal. destruct (Nat.ltb_spec (n1 / 2) (n1 - 1 - x)); lia.
  - cbn [fst snd] in *. destruct (Nat.ltb_spec (n1 / 2) j) as [Hd|Hd].
    + specialize (A1 i (n1 - 1 - j) k). replace (n1 - 1 - (n1 - 1 - j)) with j in A1 by lia. rewrite A1; [|apply in_seq; lia|apply in_seq; lia|auto]. destruct (Nat.ltb_spec (n1 / 2) j); [auto|lia].
    + assert (C : j = n1 / 2 /\ n1 mod 2 = 0 \/ ~ (j = n1 / 2 /\ n1 mod 2 = 0)) by lia. destruct C as [[-> C]|C].
      { specialize (A1 i (n1 / 2 - 1) k). replace (n1 - 1 - (n1 / 2 - 1)) with (n1 / 2) in A1 by lia. rewrite A1; [|apply in_seq; lia|apply in_seq; lia|auto]. rewrite Nat.ltb_irrefl. auto. }
      apply A2. intros (x & y & X & Y & _ & E). rewrite in_seq in *. injection E as E1 E2. lia.
Qed.
Lemma mirror_mask_get (m : mask) i j k : i < n0 -> j < n1 -> k < h2 -> mirror_mask B n0 n1 h2 m i j k = m (if fld n1 j <=? n1 / 2 then fld n0 i else i) (fld n1 j) k.
Proof. intros Hi Hj Hk. unfold mirror_mask. rewrite mirror_second_get by auto. apply mirror_first_get; auto. Qed.
End Mask.

(** Drawing. *)
Lemma fill_range_get : forall l i j (m : mask bool) v i' j' k', fold_left (fun m k => set_mask bool m i j k v) l m i' j' k' = if (i' =? i) && (j' =? j) && existsb (Nat.eqb k') l then v else m i' j' k'.
Proof.
  induction l as [|k l IH]; intros i j m v i' j' k'; cbn [fold_left existsb]. { now rewrite !andb_false_r. }
  rewrite IH, set_mask_get. destruct ((i' =? i) && (j' =? j)); cbn [andb]; auto. destruct (k' =? k), (existsb (Nat.eqb k') l); auto.
Qed.
Lemma existsb_seq k a n : existsb (Nat.eqb k) (seq a n) = (a <=? k) && (k <? a + n).
Proof.
  apply eq_true_iff_eq. rewrite existsb_exists, andb_true_iff, Nat.leb_le, Nat.ltb_lt. split.
  - intros (x & I & E). apply Nat.eqb_eq in E. subst. apply in_seq in I. lia.
  - intros H. exists k. rewrite Nat.eqb_refl. split; auto. apply in_seq. lia.
Qed.
Section Draw.
Variables (n0 n1 h2 : nat) (kmin kmax : nat -> nat -> nat).
Lemma draw_line_get (m : mask bool) i j i' j' k : k < h2 -> kmin i j <= kmax i j -> draw_line h2 kmin kmax m i j i' j' k = if (i' =? i) && (j' =? j) then (kmin i j <=? k) && (k <? kmax i j) else m i' j' k.
Proof.
  intros Hk Hle. unfold draw_line, fill_range. rewrite !fill_range_get, !existsb_seq. destruct ((i' =? i) && (j' =? j)); cbn [andb]; auto.
  repeat match goal with |- context [?a <=? ?b] => destruct (Nat.leb_spec a b) | |- context [?a <? ?b] => destruct (Nat.ltb_spec a b) end; cbn [andb]; auto; lia.
Qed.
Lemma draw_get (m : mask bool) i j k : k < h2 -> (forall i j, i <= n0 / 2 -> j <= n1 / 2 -> kmin i j <= kmax i j) -> draw n0 n1 h2 kmin kmax m i j k = if (i <=? n0 / 2) && (j <=? n1 / 2) then (kmin i j <=? k) && (k <? kmax i j) else m i j k.
Proof.
  intros Hk H. unfold draw. rewrite fold_prod.
  assert (G : forall L (m : mask bool), (forall p, In p L -> kmin (fst p) (snd p) <= kmax (fst p) (snd p)) -> fold_left (fun m p => draw_line h2 kmin kmax m (fst p) (snd p)) L m i j k = if existsb (fun p => (i =? fst p) && (j =? snd p)) L then (kmin i j <=? k) && (k <? kmax i j) else m i j k).
  { clear -Hk. induction L as [|[a b] L IH]; intros m HL; cbn [fold_left existsb]; auto. rewrite IH by (intros; apply HL; right; auto). cbn [fst snd].
    assert (X := HL (a, b) (or_introl eq_refl)). cbn [fst snd] in X. rewrite draw_line_get by auto. destruct ((i =? a) && (j =? b)) eqn:E; cbn [orb]; auto. apply andb_true_iff in E. destruct E as [E1 E2]. apply Nat.eqb_eq in E1, E2. subst. now destruct (existsb _ L). }
  rewrite G. 2:{ intros [a b] I. apply in_prod_iff in I. rewrite !in_seq in I. cbn [fst snd]. apply H; lia. }
  replace (existsb (fun p => (i =? fst p) && (j =? snd p)) (list_prod (seq 0 (n0 / 2 + 1)) (seq 0 (n1 / 2 + 1)))) with ((i <=? n0 / 2) && (j <=? n1 / 2)); auto.
  apply eq_true_iff_eq. rewrite existsb_exists, andb_true_iff, !Nat.leb_le. split.
  - intros [A B]. exists (i, j). cbn [fst snd]. rewrite !Nat.eqb_refl. split; auto. apply in_prod_iff. rewrite !in_seq. lia.
  - intros ([a b] & I & E). cbn in E. apply andb_true_iff in E. destruct E as [E1 E2]. apply Nat.eqb_eq in E1, E2. subst. apply in_prod_iff in I. rewrite !in_seq in I. lia.
Qed.
End Draw.

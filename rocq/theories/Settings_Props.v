(** C116: settings of the 3D finder. *)
Require Import List Bool Arith Lia ZArith.
Require Import Verif.Base Verif.Traj_Model Verif.Particles_Model Verif.Boo_Model Verif.Corr_Model Verif.Pyramid_Model Verif.Deconv_Model Verif.Deconv_Spec Verif.Deconv_Props Verif.Settings_Model.
Import ListNotations.

(** ** What the user asked, from the history of calls only *)
Section Spec.
  Context {K R : Type}.
  (** A kernel fits a finder of [d] planes. *)
  Definition fits (d : nat) (k : list K) : Prop := length k = d / 2 + 1.
  Definition loaded (d : nat) (h : list (call K R)) : Prop := exists k, In (LoadKernel k) h /\ fits d k.
  (** Deconvolution was asked after a kernel was loaded, and not cancelled since. *)
  Definition deconvolving (d : nat) (h : list (call K R)) : Prop := exists h1 h2, h = h1 ++ SetDeconv true :: h2 /\ loaded d h1 /\ ~ In (SetDeconv false) h2.
  Definition last_kernel (d : nat) (h : list (call K R)) (k : list K) : Prop := exists h1 h2, h = h1 ++ LoadKernel k :: h2 /\ fits d k /\ forall k', In (LoadKernel k') h2 -> ~ fits d k'.
  Definition last_half (h : list (call K R)) (b : bool) : Prop := (exists h1 h2, h = h1 ++ SetHalfZ b :: h2 /\ forall b', ~ In (SetHalfZ b') h2) \/ (b = false /\ forall b', ~ In (SetHalfZ b') h).
  Definition last_ratio (one : R) (h : list (call K R)) (r : R) : Prop := (exists h1 h2, h = h1 ++ SetZX r :: h2 /\ forall r', ~ In (SetZX r') h2) \/ (r = one /\ forall r', ~ In (SetZX r') h).
End Spec.

Section Proofs.
  Context {K R : Type} (one half : R).
  Notation state := (settings K R). Notation calls := (list (call K R)).
  Variables p r c : nat.
  Notation start := (create K R one [p; r; c]).
  Notation after h := (run1 K R h start).

  Lemma run1_snoc : forall (h : calls) x (s : state), run1 K R (h ++ [x]) s = snd (apply1 K R x (run1 K R h s)).
  Proof. intros h x s. unfold run1. rewrite fold_left_app. reflexivity. Qed.
  Lemma shape_kept : forall (x : call K R) (s : state), shape K R (snd (apply1 K R x s)) = shape K R s.
  Proof. intros [b|k|b|q] s; cbn [apply1]; [destruct (_ && _)|destruct (negb _)| |]; reflexivity. Qed.
  Lemma shape_after : forall h : calls, shape K R (after h) = [p; r; c].
  Proof. intros h. induction h as [|x h IH] using rev_ind; [reflexivity|]. rewrite run1_snoc, shape_kept. exact IH. Qed.
  Lemma depth_after : forall h : calls, get_depth K R (after h) = p.
  Proof. intros h. unfold get_depth. rewrite shape_after. reflexivity. Qed.

  Lemma snoc_split : forall A (h h1 h2 : list A) x y, h ++ [x] = h1 ++ y :: h2 -> (h2 = [] /\ h = h1 /\ x = y) \/ exists h3, h2 = h3 ++ [x] /\ h = h1 ++ y :: h3.
  Proof.
    intros A h h1 h2 x y E. destruct h2 as [|z h2] using rev_ind.
    - left. apply app_inj_tail in E as [-> ->]. auto.
    - right. clear IHh2. exists h2. rewrite app_comm_cons, app_assoc in E. apply app_inj_tail in E as [-> ->]. auto.
  Qed.
  Lemma kernel_len : forall h : calls, length (kernel K R (after h)) = p / 2 + 1 <-> loaded p h.
  Proof.
    intros h. induction h as [|x h IH] using rev_ind.
    - cbn. split; [lia|]. intros [k [[] _]].
    - rewrite run1_snoc.
      assert (S : loaded p h -> loaded p (h ++ [x])) by (intros [k [I F]]; exists k; split; [apply in_or_app; auto|exact F]).
      assert (W : (forall k, x = LoadKernel k -> ~ fits p k) -> loaded p (h ++ [x]) -> loaded p h).
      { intros N [k [I F]]. apply in_app_or in I as [I|[I|[]]]; [exists k; auto|]. exfalso. exact (N k I F). }
      destruct x as [b|k|b|q]; cbn [apply1].
      + destruct (_ && _); cbn [snd kernel]; rewrite IH; (split; [exact S|apply W; discriminate]).
      + rewrite depth_after. destruct (Nat.eqb_spec (length k) (p / 2 + 1)) as [E|E]; cbn [negb snd kernel].
        * split; [|intros _; exact E]. intros _. exists k. split; [apply in_or_app; right; left; reflexivity|exact E].
        * rewrite IH. split; [exact S|]. apply W. intros k' Ek. injection Ek as <-. exact E.
      + cbn [snd kernel]. rewrite IH. split; [exact S|apply W; discriminate].
      + cbn [snd kernel]. rewrite IH. split; [exact S|apply W; discriminate].
  Qed.

  (** ** The settings after any history of calls *)
  (** Deconvolution is on if and only if it was asked after a kernel of the right length was loaded, and not cancelled since. *)
  Theorem C116_deconv : forall h : calls, deconv K R (after h) = true <-> deconvolving p h.
  Proof.
    intros h. induction h as [|x h IH] using rev_ind.
    - cbn. split; [discriminate|]. intros [h1 [h2 [E _]]]. destruct h1; discriminate.
    - assert (Kp : x <> SetDeconv true -> x <> SetDeconv false -> deconvolving p h <-> deconvolving p (h ++ [x])).
      { intros N1 N2. split.
        - intros [h1 [h2 [E [L N]]]]. exists h1, (h2 ++ [x]). split; [rewrite E, <- app_assoc; reflexivity|]. split; [exact L|]. intros I. apply in_app_or in I as [I|[I|[]]]; auto.
        - intros [h1 [h2 [E [L N]]]]. apply snoc_split in E as [[_ [_ E]]|[h3 [-> ->]]]; [contradiction|]. exists h1, h3. split; [reflexivity|]. split; [exact L|]. intros I. apply N, in_or_app. auto. }
      rewrite run1_snoc. destruct x as [[|]|k|b|q].
      + cbn [apply1 andb]. rewrite depth_after. destruct (Nat.eqb_spec (length (kernel K R (after h))) (p / 2 + 1)) as [E|E]; cbn [negb snd deconv].
        * split; [|reflexivity]. intros _. exists h, []. split; [reflexivity|]. split; [apply kernel_len; exact E|intros []].
        * rewrite IH. split.
          -- intros [h1 [h2 [E' [L N]]]]. exists h1, (h2 ++ [SetDeconv true]). split; [rewrite E', <- app_assoc; reflexivity|]. split; [exact L|]. intros I. apply in_app_or in I as [I|[I|[]]]; [auto|discriminate].
          -- intros [h1 [h2 [E' [L N]]]]. apply snoc_split in E' as [[_ [-> _]]|[h3 [-> ->]]].
             ++ exfalso. apply E. apply kernel_len. exact L.
             ++ exists h1, h3. split; [reflexivity|]. split; [exact L|]. intros I. apply N, in_or_app. auto.
      + cbn. split; [discriminate|]. intros [h1 [h2 [E [L N]]]]. apply snoc_split in E as [[_ [_ E]]|[h3 [-> ->]]]; [discriminate|]. exfalso. apply N, in_or_app. right. left. reflexivity.
      + rewrite <- Kp by discriminate. rewrite <- IH. cbn [apply1]. destruct (negb _); reflexivity.
      + rewrite <- Kp by discriminate. rewrite <- IH. reflexivity.
      + rewrite <- Kp by discriminate. rewrite <- IH. reflexivity.
  Qed.
  (** The kernel is the last one of the right length. *)
  Theorem C116_kernel : forall (h : calls) k, last_kernel p h k -> kernel K R (after h) = k.
  Proof.
    intros h k [h1 [h2 [-> [F N]]]]. induction h2 as [|x h2 IH] using rev_ind.
    - rewrite run1_snoc. cbn [apply1]. rewrite depth_after. unfold fits in F. rewrite F, Nat.eqb_refl. reflexivity.
    - rewrite app_comm_cons, app_assoc, run1_snoc. specialize (IH (fun k' I => N k' (in_or_app _ _ _ (or_introl I)))). rewrite <- IH at 2.
      destruct x as [b|k'|b|q]; cbn [apply1]; [destruct (_ && _); reflexivity| |reflexivity|reflexivity].
      rewrite depth_after. destruct (Nat.eqb_spec (length k') (p / 2 + 1)) as [E|E]; [|reflexivity].
      exfalso. apply (N k'); [apply in_or_app; right; left; reflexivity|exact E].
  Qed.
  (** Calls that throw: deconvolution without a kernel, or a kernel of another length; the settings are kept. *)
  Theorem C116_throws : forall (h : calls) (x : call K R),
    (fst (apply1 K R x (after h)) = false <-> (x = SetDeconv true /\ ~ loaded p h) \/ (exists k, x = LoadKernel k /\ ~ fits p k)) /\
    (fst (apply1 K R x (after h)) = false -> snd (apply1 K R x (after h)) = after h).
  Proof.
    intros h x. split.
    - destruct x as [[|]|k|b|q]; cbn [apply1 andb].
      + rewrite depth_after. destruct (Nat.eqb_spec (length (kernel K R (after h))) (p / 2 + 1)) as [E|E]; cbn [negb fst].
        * split; [discriminate|]. intros [[_ N]|[k [Ek _]]]; [|discriminate]. exfalso. apply N, kernel_len, E.
        * split; [|reflexivity]. intros _. left. split; [reflexivity|]. intros L. apply E, kernel_len, L.
      + split; [discriminate|]. intros [[E _]|[k [Ek _]]]; discriminate.
      + rewrite depth_after. destruct (Nat.eqb_spec (length k) (p / 2 + 1)) as [E|E]; cbn [negb fst].
        * split; [discriminate|]. intros [[E' _]|[k' [Ek N]]]; [discriminate|]. injection Ek as <-. contradiction.
        * split; [|reflexivity]. intros _. right. exists k. auto.
      + split; [discriminate|]. intros [[E _]|[k [Ek _]]]; discriminate.
      + split; [discriminate|]. intros [[E _]|[k [Ek _]]]; discriminate.
    - destruct x as [b|k|b|q]; cbn [apply1]; [destruct (_ && _)|destruct (negb _)| |]; cbn [fst snd]; try discriminate; reflexivity.
  Qed.
  Lemma half_after : forall (h : calls) b, last_half h b -> halfZ K R (after h) = b.
  Proof.
    assert (Q : forall (x : call K R) (s : state), (forall b, x <> SetHalfZ b) -> halfZ K R (snd (apply1 K R x s)) = halfZ K R s).
    { intros [b|k|b|q] s N; cbn [apply1]; [destruct (_ && _)|destruct (negb _)| |]; try reflexivity. exfalso. exact (N b eq_refl). }
    intros h b [[h1 [h2 [-> N]]]|[-> N]].
    - induction h2 as [|x h2 IH] using rev_ind; [rewrite run1_snoc; reflexivity|]. rewrite app_comm_cons, app_assoc, run1_snoc, Q.
      + apply IH. intros b' I. apply (N b'), in_or_app. auto.
      + intros b' ->. apply (N b'), in_or_app. right. left. reflexivity.
    - induction h as [|x h IH] using rev_ind; [reflexivity|]. rewrite run1_snoc, Q.
      + apply IH. intros b' I. apply (N b'), in_or_app. auto.
      + intros b' ->. apply (N b'), in_or_app. right. left. reflexivity.
  Qed.
  Lemma ratio_after : forall (h : calls) q, last_ratio one h q -> ZXratio K R (after h) = q.
  Proof.
    assert (Q : forall (x : call K R) (s : state), (forall q, x <> SetZX q) -> ZXratio K R (snd (apply1 K R x s)) = ZXratio K R s).
    { intros [b|k|b|q] s N; cbn [apply1]; [destruct (_ && _)|destruct (negb _)| |]; try reflexivity. exfalso. exact (N q eq_refl). }
    intros h b [[h1 [h2 [-> N]]]|[-> N]].
    - induction h2 as [|x h2 IH] using rev_ind; [rewrite run1_snoc; reflexivity|]. rewrite app_comm_cons, app_assoc, run1_snoc, Q.
      + apply IH. intros b' I. apply (N b'), in_or_app. auto.
      + intros b' ->. apply (N b'), in_or_app. right. left. reflexivity.
    - induction h as [|x h IH] using rev_ind; [reflexivity|]. rewrite run1_snoc, Q.
      + apply IH. intros b' I. apply (N b'), in_or_app. auto.
      + intros b' ->. apply (N b'), in_or_app. right. left. reflexivity.
  Qed.

  (** ** The first blur after any history of calls *)
  Section Blur.
    Context {V C : Type} (fwd : list V -> list C) (bwd : nat -> list C -> list V) (cmul : nat -> C -> K -> C) (blur3 : R -> list nat -> list V -> list V) (negative : V -> bool) (zero : V).
    Hypothesis fwd_len : forall l, length (fwd l) = length l / 2 + 1.
    Hypothesis bwd_len : forall n f, length (bwd n f) = n.
    Hypothesis blur_len : forall q d im, length (blur3 q d im) = length im.
    Notation first_blur h im := (preblur K R one half V C fwd bwd cmul blur3 negative zero (after h) im).
    Hypothesis positive : 0 < p /\ 0 < r /\ 0 < c.
    (** With deconvolution: the kernel is never read out of its bounds; every line along the depth, blurred with a ratio of one, is convolved with the last kernel loaded; negative pixels become zero. *)
    Theorem C116_deconvolution : forall (h : calls) im, deconvolving p h -> length im = p * r * c ->
      exists k im', last_kernel p h k /\ first_blur h im = Val im' /\ length im' = length im /\
        forall x, valid [p; r; c] x -> exists l v, line_through [p; r; c] 0 (blur3 one [p; r; c] im) x l /\
          nth_error (bwd p (map (fun ck => cmul p (fst ck) (snd ck)) (combine (fwd l) k))) (nth 0 x 0) = Some v /\
          nth_error im' (address [p; r; c] x) = Some (if negative v then zero else v).
    Proof.
      intros h im D L.
      assert (Lk : exists k, last_kernel p h k).
      { assert (Ld : loaded p h). { destruct D as [h1 [h2 [-> [[k [I F]] _]]]]. exists k. split; [apply in_or_app; auto|exact F]. }
        clear D. induction h as [|x h IH] using rev_ind; [destruct Ld as [k [[] _]]|].
        assert (W : (forall k, x = LoadKernel k -> ~ fits p k) -> exists k, last_kernel p (h ++ [x]) k).
        { intros N. destruct IH as [k [h1 [h2 [-> [F N']]]]].
          - destruct Ld as [k [I F]]. apply in_app_or in I as [I|[I|[]]]; [exists k; auto|]. exfalso. exact (N k I F).
          - exists k, h1, (h2 ++ [x]). split; [rewrite <- app_assoc; reflexivity|]. split; [exact F|]. intros k' I. apply in_app_or in I as [I|[I|[]]]; [auto|]. apply N. exact I. }
        destruct x as [b|k|b|q]; try (apply W; discriminate). destruct (Nat.eq_dec (length k) (p / 2 + 1)) as [E|E].
        - exists k, h, []. split; [reflexivity|]. split; [exact E|]. intros k' [].
        - apply W. intros k' Ek. injection Ek as <-. exact E. }
      destruct Lk as [k Lk]. exists k. unfold preblur. rewrite (proj2 (C116_deconv h) D), (C116_kernel h k Lk), shape_after.
      assert (Sz : length (blur3 one [p; r; c] im) = size [p; r; c]). { rewrite blur_len, L. cbn [size]. lia. }
      destruct (C71_convolve V C K fwd bwd cmul fwd_len bwd_len [p; r; c] 0 k (blur3 one [p; r; c] im)) as [im' [E [L' A]]].
      - repeat constructor; tauto.
      - cbn. lia.
      - exact Sz.
      - destruct Lk as [h1 [h2 [_ [F _]]]]. unfold fits in F. cbn [nth]. lia.
      - exists (map (fun x => if negative x then zero else x) im'). split; [exact Lk|]. rewrite E. split; [reflexivity|]. split; [rewrite map_length, L', blur_len; reflexivity|].
        intros x Vx. destruct (A x Vx) as [l [Ll An]]. cbn [nth] in An.
        destruct (nth_error (bwd p _) (nth 0 x 0)) as [v|] eqn:Nv.
        + exists l, v. split; [exact Ll|]. split; [exact Nv|]. rewrite nth_error_map, An. reflexivity.
        + exfalso. apply nth_error_None in Nv. rewrite bwd_len in Nv. destruct x as [|x0 x]; cbn in Vx; [tauto|]. cbn in Nv. lia.
    Qed.
    Theorem C116_no_negative : forall (h : calls) im im', deconvolving p h -> negative zero = false -> first_blur h im = Val im' -> Forall (fun x => negative x = false) im'.
    Proof.
      intros h im im' D Z E. unfold preblur in E. rewrite (proj2 (C116_deconv h) D) in E. destruct (convolve _ _ _ _ _ _ _ _ _ _) as [m| |]; try discriminate. injection E as <-.
      apply Forall_forall. intros x I. apply in_map_iff in I as [y [<- _]]. destruct (negative y) eqn:N; [exact Z|exact N].
    Qed.
    (** Without: the ratio along the depth is a half if asked, else the last ratio given (one at first). *)
    Theorem C116_plain : forall (h : calls) im b q, ~ deconvolving p h -> last_half h b -> last_ratio one h q ->
      first_blur h im = Val (blur3 (if b then half else q) [p; r; c] im).
    Proof.
      intros h im b q D Hb Hq. unfold preblur. destruct (deconv K R (after h)) eqn:E; [exfalso; apply D, C116_deconv, E|]. rewrite (half_after h b Hb), (ratio_after h q Hq), shape_after. reflexivity.
    Qed.
  End Blur.
End Proofs.

(** ** A finder with several octaves: the settings of the second one are those of its own history, the others only know the ratio. *)
Lemma run_all_cons : forall (K R : Type) (x : call K R) h os, run_all K R (x :: h) os = run_all K R h (snd (apply_all K R x os)).
Proof. reflexivity. Qed.
Definition is_ratio {K R} (x : call K R) : bool := match x with SetZX _ => true | _ => false end.
Theorem C116_multiscale : forall (K R : Type) (h : list (call K R)) (o0 o1 : settings K R) rest,
  run_all K R h (o0 :: o1 :: rest) = run1 K R (filter is_ratio h) o0 :: run1 K R h o1 :: map (run1 K R (filter is_ratio h)) rest /\
  forall x, is_ratio x = false -> fst (apply_all K R x (run_all K R h (o0 :: o1 :: rest))) = fst (apply1 K R x (run1 K R h o1)).
Proof.
  intros K R h o0 o1 rest.
  assert (E : run_all K R h (o0 :: o1 :: rest) = run1 K R (filter is_ratio h) o0 :: run1 K R h o1 :: map (run1 K R (filter is_ratio h)) rest).
  { revert o0 o1 rest. induction h as [|x h IH]; intros o0 o1 rest; [cbn; rewrite map_id; reflexivity|].
    rewrite run_all_cons. destruct x as [b|k|b|q]; cbn [apply_all at_second snd map filter is_ratio].
    - rewrite IH. reflexivity.
    - rewrite IH. reflexivity.
    - rewrite IH. reflexivity.
    - rewrite IH, map_map. reflexivity. }
  split; [exact E|]. intros x Nx. rewrite E. destruct x; try discriminate; reflexivity.
Qed.
(** Refuted: with a single octave (small volumes) every call succeeds and deconvolution is never done: nothing tells the user that it was ignored, nor that no kernel was given. *)
Theorem C116_single_octave_refuted : forall (K R : Type) (h : list (call K R)) (o : settings K R), exists o', run_all K R h [o] = [o'] /\ deconv K R o' = deconv K R o /\ kernel K R o' = kernel K R o /\
  forall x, fst (apply_all K R x [o']) = true.
Proof.
  intros K R h o. revert o. induction h as [|x h IH]; intros o.
  - exists o. split; [reflexivity|]. split; [reflexivity|]. split; [reflexivity|]. intros [b|k|b|q]; reflexivity.
  - rewrite run_all_cons. destruct x as [b|k|b|q]; cbn [apply_all at_second snd map]; try apply IH.
    destruct (IH (snd (apply1 K R (SetZX q) o))) as [o' (E & D & Kk & X)]. exists o'. split; [exact E|]. auto.
Qed.

(** ** Example: four planes; a kernel of two numbers is refused, one of three is accepted, then deconvolution is possible. *)
Definition ex_history : list (call Z Z) := [SetDeconv true; LoadKernel [1; 2]%Z; SetZX 2%Z; LoadKernel [1; 0; 1]%Z; SetDeconv true; LoadKernel [5]%Z; SetHalfZ true].
Example C116_history_met : deconvolving 4 ex_history /\ last_kernel 4 ex_history [1; 0; 1]%Z /\ ~ deconvolving 4 (firstn 4 ex_history) /\ last_ratio 1%Z (firstn 4 ex_history) 2%Z /\ last_half (firstn 4 ex_history) false /\
  run1 Z Z ex_history (create Z Z 1%Z [4; 1; 1]) = {| shape := [4; 1; 1]; ZXratio := 2%Z; halfZ := true; deconv := true; kernel := [1; 0; 1]%Z |}.
Proof.
  split; [exists (firstn 4 ex_history), (skipn 5 ex_history); split; [reflexivity|split; [exists [1; 0; 1]%Z; split; [cbn; tauto|reflexivity]|intros [E|[E|[]]]; discriminate]]|].
  split; [exists (firstn 3 ex_history), (skipn 4 ex_history); split; [reflexivity|split; [reflexivity|intros k [E|[E|[E|[]]]]; try discriminate; injection E as <-; discriminate]]|].
  split; [intros D; apply (C116_deconv 1%Z 4 1 1) in D; discriminate|].
  split; [left; exists (firstn 2 ex_history), [LoadKernel [1; 0; 1]%Z]; split; [reflexivity|intros q [E|[]]; discriminate]|].
  split; [right; split; [reflexivity|intros b [E|[E|[E|[E|[]]]]]; discriminate]|reflexivity].
Qed.
(** Toy transforms of the right lengths: the first pixels of the line, and back repeated. *)
Example C116_example : preblur Z Z 1%Z 0%Z Z Z (fun l => firstn (length l / 2 + 1) (l ++ [0; 0]%Z)) (fun n f => firstn n (f ++ repeat 0%Z n)) (fun _ x k => (x * k)%Z) (fun q _ => map (fun x => x - q)%Z) (fun x => (x <? 0)%Z) 0%Z
    (run1 Z Z ex_history (create Z Z 1%Z [4; 1; 1])) [0; 5; 7; 9]%Z = Val [0; 0; 6; 0]%Z.
Proof. reflexivity. Qed.

Print Assumptions C116_deconv.
Print Assumptions C116_kernel.
Print Assumptions C116_throws.
Print Assumptions C116_deconvolution.
Print Assumptions C116_no_negative.
Print Assumptions C116_plain.
Print Assumptions C116_multiscale.
Print Assumptions C116_single_octave_refuted.

(** C113: the scale space of an octave.  C114: the octaves of an image. *)
Require Import ZArith List Bool Arith Lia.
Require Import Verif.Base Verif.RTree_Model Verif.ListX Verif.Traj_Model Verif.Particles_Model Verif.Corr_Model Verif.Boo_Model Verif.Pyramid_Model Verif.Par_Props Verif.Fill_Model Verif.Fill_Spec Verif.Fill_Proofs.
Import ListNotations.
Local Open Scope nat_scope.

Section C113.
  Context {P : Type} (blur : nat -> img P -> img P) (pre : img P -> img P) (sub : img P -> img P -> img P).
  Notation fill := (fill P blur sub). Notation preblur_and_fill := (preblur_and_fill P blur pre sub).
  (** In 1D and 2D, an image of the dimensions of the finder gives the Gaussian layers and their differences; it is not modified; what the finder contained
      before does not matter. *)
  Theorem C113_fill : forall o im g0, nth_error (lG o) 0 = Some g0 -> length (lD o) < length (lG o) -> dims im = dims g0 ->
    exists o', fill false o im = Val (true, (o', im)) /\ length (lG o') = length (lG o) /\ length (lD o') = length (lD o) /\ gaussians_of blur im o' /\ differences_of blur sub im o'.
  Proof.
    intros o im g0 H0 L Hd. rewrite (fill_ok blur sub false o im g0 H0 L Hd). eexists. split; [reflexivity|].
    destruct (filled_shows blur sub false o im) as [A [B [_ [L1 L2]]]]. auto.
  Qed.
  (** Blurred first by the first blur. *)
  Theorem C113_preblur : forall o im g0, nth_error (lG o) 0 = Some g0 -> length (lD o) < length (lG o) -> dims im = dims g0 ->
    exists o', preblur_and_fill false o im = Val (true, (o', im)) /\ length (lG o') = length (lG o) /\ length (lD o') = length (lD o) /\ gaussians_of blur (pre im) o' /\ differences_of blur sub (pre im) o'.
  Proof.
    intros o im g0 H0 L Hd. rewrite (preblur_ok blur pre sub false o im g0 H0 L Hd). eexists. split; [reflexivity|].
    destruct (filled_shows blur sub false o (pre im)) as [A [B [_ [L1 L2]]]]. auto.
  Qed.
  (** In 3D the Gaussian layers are the same, the differences are those of before (they are not computed), and the image given is replaced by its last blur. *)
  Theorem C113_volume : forall o im g0, nth_error (lG o) 0 = Some g0 -> length (lD o) < length (lG o) -> dims im = dims g0 ->
    exists o', fill true o im = Val (true, (o', blurred blur im (length (lG o) - 1))) /\ length (lG o') = length (lG o) /\ gaussians_of blur im o' /\ lD o' = lD o.
  Proof.
    intros o im g0 H0 L Hd. rewrite (fill_ok blur sub true o im g0 H0 L Hd). eexists. split; [reflexivity|].
    destruct (filled_shows blur sub true o im) as [A [_ [B [L1 _]]]]. auto.
  Qed.
  Theorem C113_preblur_volume : forall o im g0, nth_error (lG o) 0 = Some g0 -> length (lD o) < length (lG o) -> dims im = dims g0 ->
    exists o', preblur_and_fill true o im = Val (true, (o', blurred blur (pre im) (length (lG o) - 1))) /\ length (lG o') = length (lG o) /\ gaussians_of blur (pre im) o' /\ lD o' = lD o.
  Proof.
    intros o im g0 H0 L Hd. rewrite (preblur_ok blur pre sub true o im g0 H0 L Hd). eexists. split; [reflexivity|].
    destruct (filled_shows blur sub true o (pre im)) as [A [_ [B [L1 _]]]]. auto.
  Qed.
  (** An image of other dimensions throws; neither the finder nor the image is modified. *)
  Theorem C113_throws : forall three o im g0, nth_error (lG o) 0 = Some g0 -> dims im <> dims g0 ->
    fill three o im = Val (false, (o, im)) /\ preblur_and_fill three o im = Val (false, (o, im)).
  Proof.
    intros three o im g0 H0 Hd. unfold Fill_Model.fill, Fill_Model.preblur_and_fill. rewrite (at_index_ok _ _ _ _ H0). cbn [obind].
    destruct (matches (dims im) (dims g0)) eqn:E; [apply matches_eq in E; contradiction|]. auto.
  Qed.
End C113.

(** Differences add up: on integers, the sum of all the differences of Gaussians is the last Gaussian layer minus the first one, pixel by pixel. *)
Definition minus (a b : img Z) : img Z := mkImg (dims a) (map (fun p => (fst p - snd p)%Z) (combine (pix a) (pix b))).
Definition at_pixel (p : nat) (im : img Z) : Z := nth p (pix im) 0%Z.
Theorem C113_differences_add_up : forall (blur : nat -> img Z -> img Z) im (o : octave Z) p N, (forall i x, length (pix (blur i x)) = length (pix x)) ->
  differences_of blur minus im o -> length (lD o) = N -> p < length (pix im) ->
  fold_right Z.add 0%Z (map (at_pixel p) (lD o)) = (at_pixel p (blurred blur im N) - at_pixel p im)%Z.
Proof.
  intros blur im [G D] p N Hb HD HN Hp. unfold differences_of in HD. cbn [lD] in *.
  assert (Lb : forall i, length (pix (blurred blur im i)) = length (pix im)). { intros i; induction i as [|i IH]; [reflexivity|]. cbn. rewrite Hb. exact IH. }
  assert (E : D = map (fun i => minus (blurred blur im (i + 1)) (blurred blur im i)) (seq 0 N)).
  { symmetry. apply nth_ext_x; [rewrite map_length, seq_length; auto|]. intros k x Hx. pose proof (nth_error_lt _ _ _ Hx). rewrite nth_error_map, nth_error_seq by lia. cbn. f_equal. symmetry. apply HD. exact Hx. }
  subst D. clear HD HN. rewrite map_map.
  assert (A : forall i, at_pixel p (minus (blurred blur im (i + 1)) (blurred blur im i)) = (at_pixel p (blurred blur im (i + 1)) - at_pixel p (blurred blur im i))%Z).
  { intros i. unfold at_pixel, minus. cbn [pix]. rewrite (nth_indep _ 0%Z ((fun q : Z * Z => (fst q - snd q)%Z) (0, 0)%Z)) by (rewrite map_length, combine_length, !Lb; lia).
    rewrite (map_nth (fun q : Z * Z => (fst q - snd q)%Z)). rewrite combine_nth by (rewrite !Lb; reflexivity). reflexivity. }
  rewrite (map_ext _ _ A). clear A.
  assert (T : forall n s, fold_right Z.add 0%Z (map (fun i => (at_pixel p (blurred blur im (i + 1)) - at_pixel p (blurred blur im i))%Z) (seq s n)) = (at_pixel p (blurred blur im (s + n)) - at_pixel p (blurred blur im s))%Z).
  { intros n; induction n as [|n IH]; intros s; [cbn [seq map fold_right]; rewrite Nat.add_0_r; lia|]. cbn [seq map fold_right]. rewrite IH. rewrite Nat.add_1_r. replace (S s + n) with (s + S n) by lia. lia. }
  exact (T N 0).
Qed.

Section C114.
  Context {P : Type} (blur : nat -> img P -> img P) (pre : img P -> img P) (sub : img P -> img P -> img P) (half up : img P -> img P) (down : list nat -> img P -> img P) (D n : nat).
  Hypothesis blur_dims : forall i im, dims (blur i im) = dims im.
  Hypothesis pre_dims : forall im, dims (pre im) = dims im.
  Hypothesis half_dims : forall im, dims (half im) = dims im.
  Hypothesis down_dims : forall d im, dims (down d im) = d.
  Notation fill_all := (fill_all P blur pre sub half up down D).
  (** An image [I] that the finder was made for. *)
  Definition made_for (shapes : list (list nat)) (I : img P) : Prop :=
    of_dimension D (dims I) /\ nth_error shapes 0 = Some (twice D (dims I)) /\ (forall s, nth_error shapes 1 = Some s -> s = dims I) /\ (forall im, dims im = dims I -> dims (up im) = twice D (dims I)).
  (** [I1] is what octave 1 starts from (before its blur) and what remains in the user's image. *)
  Definition octaves_of (use0 : bool) (shapes : list (list nat)) (I I1 : img P) (os os' : list (octave P)) : Prop :=
    well_sized n shapes os' /\ (use0 = false -> nth_error os' 0 = nth_error os 0) /\
    forall o x, (use0 = true \/ 1 <= o) -> nth_error os' o = Some x ->
      gaussians_of blur (source blur pre half up down n shapes I I1 o) x /\ (D <> 3 -> differences_of blur sub (source blur pre half up down n shapes I I1 o) x).
  Lemma any_image : forall use0 (m : mat) shapes os h I, well_sized n shapes os -> nth_error h (buf m) = Some I -> made_for shapes I ->
    let I1 := if use0 && (D =? 2) && is_float m then half I else I in
    exists os' h', fill_all use0 m (os, h) = Val (true, (os', h')) /\ octaves_of use0 shapes I I1 os os' /\
      nth_error h' (buf m) = Some I1 /\ (forall b, b < length h -> b <> buf m -> nth_error h' b = nth_error h b).
  Proof.
    intros use0 m shapes os h I W Eh [HD [H0 [H1 Hup]]] I1.
    destruct (fill_all_ok blur pre sub half up down D n blur_dims pre_dims half_dims down_dims use0 m shapes os h I W Eh HD H0 H1 Hup) as [os' [h' [E [W' [A0 [A1 [B C]]]]]]].
    fold (shares D use0 m) in I1. exists os', h'. split; [exact E|]. split; [|split; [exact B|exact C]].
    assert (L : length os' = length os). { rewrite (sized_len n _ _ W'), (sized_len n _ _ W). reflexivity. }
    split; [exact W'|]. split.
    - intros U. destruct (nth_error os 0) as [x|] eqn:Ex; [rewrite (A0 x eq_refl), U; reflexivity|]. apply nth_error_None. apply nth_error_None in Ex. lia.
    - intros o x Ho Ex. destruct (nth_error os o) as [y|] eqn:Ey; [|apply nth_error_None in Ey; apply nth_error_lt in Ex; lia].
      assert (X : x = filled blur sub (D =? 3) y (source blur pre half up down n shapes I I1 o)).
      { destruct o as [|o].
        - specialize (A0 y Ey). destruct use0; [|destruct Ho as [Ho|Ho]; [discriminate|lia]]. rewrite Ex in A0. injection A0 as A0. exact A0.
        - specialize (A1 (S o) y ltac:(lia) Ey). rewrite Ex in A1. injection A1 as A1. exact A1. }
      subst x. destruct (filled_shows blur sub (D =? 3) y (source blur pre half up down n shapes I I1 o)) as [G [Df _]]. split; [exact G|]. intros N3. apply Df. apply Nat.eqb_neq. exact N3.
  Qed.
  (** Signals, volumes, images of integers, and images of floats without the first octave: all octaves in use start from the image given, which is not modified, nor
      is any other image. *)
  Theorem C114_octaves : forall use0 (m : mat) shapes os h I, well_sized n shapes os -> nth_error h (buf m) = Some I -> made_for shapes I ->
    D <> 2 \/ is_float m = false \/ use0 = false ->
    exists os' h', fill_all use0 m (os, h) = Val (true, (os', h')) /\ octaves_of use0 shapes I I os os' /\ (forall b, b < length h -> nth_error h' b = nth_error h b).
  Proof.
    intros use0 m shapes os h I W Eh M Hc. destruct (any_image use0 m shapes os h I W Eh M) as [os' [h' [E [O [B C]]]]].
    assert (F : use0 && (D =? 2) && is_float m = false).
    { destruct Hc as [Hc|[Hc|Hc]]; [apply Nat.eqb_neq in Hc; rewrite Hc, andb_false_r; reflexivity|rewrite Hc, andb_false_r; reflexivity|rewrite Hc; reflexivity]. }
    rewrite F in O, B. exists os', h'. split; [exact E|]. split; [exact O|]. intros b Hb. destruct (Nat.eq_dec b (buf m)) as [->|N]; [congruence|auto].
  Qed.
  (** Images of floats with the first octave (the default): the user's image is replaced by its blur, and octave 1 and the next ones start from that. *)
  Theorem C114_float_refuted : forall (m : mat) shapes os h I, D = 2 -> is_float m = true -> well_sized n shapes os -> nth_error h (buf m) = Some I -> made_for shapes I ->
    exists os' h', fill_all true m (os, h) = Val (true, (os', h')) /\ octaves_of true shapes I (half I) os os' /\ nth_error h' (buf m) = Some (half I).
  Proof.
    intros m shapes os h I HD Hf W Eh M. destruct (any_image true m shapes os h I W Eh M) as [os' [h' [E [O [B _]]]]].
    rewrite Hf, HD in O, B. cbn [andb Nat.eqb] in O, B. exists os', h'. auto.
  Qed.
  (** What the finder saw before does not matter: two finders of the same dimensions, whatever they contain, have the same octaves (those in use) after the same image. *)
  Theorem C114_history : forall use0 (m : mat) shapes os1 h1 os2 h2 I, well_sized n shapes os1 -> well_sized n shapes os2 -> nth_error h1 (buf m) = Some I -> nth_error h2 (buf m) = Some I ->
    made_for shapes I ->
    exists os1' h1' os2' h2', fill_all use0 m (os1, h1) = Val (true, (os1', h1')) /\ fill_all use0 m (os2, h2) = Val (true, (os2', h2')) /\
      forall o x y, (use0 = true \/ 1 <= o) -> nth_error os1' o = Some x -> nth_error os2' o = Some y -> lG x = lG y /\ (D <> 3 -> lD x = lD y).
  Proof.
    intros use0 m shapes os1 h1 os2 h2 I W1 W2 E1 E2 M.
    destruct (any_image use0 m shapes os1 h1 I W1 E1 M) as [os1' [h1' [R1 [[V1 [_ O1]] _]]]]. destruct (any_image use0 m shapes os2 h2 I W2 E2 M) as [os2' [h2' [R2 [[V2 [_ O2]] _]]]].
    exists os1', h1', os2', h2'. split; [exact R1|]. split; [exact R2|]. intros o x y Ho Ex Ey.
    destruct (O1 o x Ho Ex) as [G1 D1]. destruct (O2 o y Ho Ey) as [G2 D2].
    destruct (sized_nth n _ _ _ _ V1 Ex) as [_ [_ [_ [Lx1 [Lx2 _]]]]]. destruct (sized_nth n _ _ _ _ V2 Ey) as [_ [_ [_ [Ly1 [Ly2 _]]]]]. split.
    - apply nth_ext_x; [congruence|]. intros k g Hg. rewrite (G2 _ _ Hg). destruct (nth_error (lG x) k) as [g'|] eqn:Ek; [rewrite (G1 _ _ Ek); reflexivity|]. apply nth_error_None in Ek. apply nth_error_lt in Hg. lia.
    - intros N. apply nth_ext_x; [congruence|]. intros k g Hg. rewrite (D2 N _ _ Hg). destruct (nth_error (lD x) k) as [g'|] eqn:Ek; [rewrite (D1 N _ _ Ek); reflexivity|]. apply nth_error_None in Ek. apply nth_error_lt in Hg. lia.
  Qed.
  (** An image whose rows or columns are not those of the finder throws, and nothing is modified. *)
  Theorem C114_throws : forall use0 (m : mat) shapes os h I, well_sized n shapes os -> nth_error h (buf m) = Some I -> shapes <> [] ->
    dim_back 2 (dims I) <> (if D =? 1 then 1 else dim_back 2 (nth 0 shapes []) / 2) \/ dim_back 1 (dims I) <> dim_back 1 (nth 0 shapes []) / 2 ->
    fill_all use0 m (os, h) = Val (false, (os, h)).
  Proof.
    intros use0 m shapes os h I W Eh Ne Hd. unfold Fill_Model.fill_all. cbn [fst snd].
    destruct os as [|o0 os]; [inversion W; subst; contradiction|]. cbn [at_index nth_error obind].
    destruct (sized_nth n _ _ 0 o0 W eq_refl) as [g [Eg [Dg _]]]. change (at_index (o0 :: os) 0) with (@Val (octave P) o0). cbn [obind].
    rewrite (at_index_ok _ _ _ _ Eg). cbn [obind]. rewrite (at_index_ok _ _ _ _ Eh). cbn [obind].
    assert (F : (dim_back 2 (dims I) =? width D (dims g)) && (dim_back 1 (dims I) =? height (dims g)) = false).
    { rewrite Dg. unfold width, height. apply andb_false_iff. rewrite !Nat.eqb_neq. exact Hd. }
    rewrite F. reflexivity.
  Qed.
End C114.

(** A finder of one layer for images of 2 x 2: octave 0 of 4 x 4 and octave 1 of 2 x 2 (smaller than what the constructors accept, which does not matter here). Blurs
    divide by 2, pixel by pixel. *)
Definition ex_blur (im : img Z) : img Z := mkImg (dims im) (map (fun x => (x / 2)%Z) (pix im)).
Definition ex_up (im : img Z) : img Z := mkImg [4; 4] (flat_map (fun x => [x; x; x; x]) (pix im)).
Definition ex_down (d : list nat) (im : img Z) : img Z := mkImg d (firstn (fold_right Nat.mul 1 d) (pix im)).
Definition ex_blank (d : list nat) : octave Z := mkOct (repeat (mkImg d (repeat 0%Z (fold_right Nat.mul 1 d))) 4) (repeat (mkImg d (repeat 0%Z (fold_right Nat.mul 1 d))) 3).
Definition ex_finder : list (octave Z) := [ex_blank [4; 4]; ex_blank [2; 2]; ex_blank [1; 1]].
Definition ex_image : img Z := mkImg [2; 2] [64; 128; 64; 32]%Z.
Definition ex_fill := fill_all Z (fun _ => ex_blur) ex_blur minus ex_blur ex_up ex_down 2.
Example C114_hypotheses_met : well_sized 1 [[4; 4]; [2; 2]; [1; 1]] ex_finder /\ made_for ex_up 2 [[4; 4]; [2; 2]; [1; 1]] ex_image /\
  (forall im, dims (ex_blur im) = dims im) /\ (forall d im, dims (ex_down d im) = d).
Proof.
  split; [|split; [|split; reflexivity]].
  - unfold well_sized, ex_finder, ex_blank. repeat constructor; cbn; auto.
  - split; [reflexivity|]. split; [reflexivity|]. split; [intros s E; inversion E; reflexivity|]. intros im Hd. reflexivity.
Qed.
(** The first Gaussian layer of octave 1, for an image of integers and for the same image of floats, that also comes back changed. *)
Definition first_layer (o : nat) (r : ends (state Z)) : option (list Z) := match r with Val (_, (os, _)) => option_map (fun x => match lG x with g :: _ => pix g | [] => [] end) (nth_error os o) | _ => None end.
Definition image_after (r : ends (state Z)) : option (list Z) := match r with Val (_, (_, h)) => option_map pix (nth_error h 0) | _ => None end.
Example C114_integers_and_floats :
  first_layer 1 (ex_fill true (mkMat false 0) (ex_finder, [ex_image])) = Some [32; 64; 32; 16]%Z /\ image_after (ex_fill true (mkMat false 0) (ex_finder, [ex_image])) = Some (pix ex_image) /\
  first_layer 1 (ex_fill true (mkMat true 0) (ex_finder, [ex_image])) = Some [16; 32; 16; 8]%Z /\ image_after (ex_fill true (mkMat true 0) (ex_finder, [ex_image])) = Some [32; 64; 32; 16]%Z /\
  first_layer 2 (ex_fill true (mkMat false 0) (ex_finder, [ex_image])) = Some [16]%Z.
Proof. do 4 (split; [vm_compute; reflexivity|]). vm_compute; reflexivity. Qed.
(** Asking twice with the same image of floats gives two different answers. *)
Theorem C114_twice_refuted : exists os1 h1, ex_fill true (mkMat true 0) (ex_finder, [ex_image]) = Val (true, (os1, h1)) /\
  first_layer 1 (Val (true, (os1, h1))) = Some [16; 32; 16; 8]%Z /\ first_layer 1 (ex_fill true (mkMat true 0) (os1, h1)) = Some [8; 16; 8; 4]%Z.
Proof. eexists. eexists. split; [vm_compute; reflexivity|]. split; vm_compute; reflexivity. Qed.
(** A volume of the right rows and columns and of the wrong number of planes throws too late: octave 0 has been overwritten. *)
Definition ex_up3 (im : img Z) : img Z := mkImg [4; 4; 4] (repeat 7%Z 64).
Theorem C114_planes_refuted : exists os h, fill_all Z (fun _ => ex_blur) ex_blur minus ex_blur ex_up3 ex_down 3 true (mkMat false 0) ([ex_blank [4; 4; 4]; ex_blank [2; 2; 2]], [mkImg [1; 2; 2] [1; 2; 3; 4]%Z]) = Val (false, (os, h)) /\
  first_layer 0 (Val (false, (os, h))) = Some (repeat 7%Z 64) /\ nth_error os 1 = Some (ex_blank [2; 2; 2]).
Proof. eexists. eexists. split; [vm_compute; reflexivity|]. split; vm_compute; reflexivity. Qed.

Print Assumptions C113_fill.
Print Assumptions C113_preblur.
Print Assumptions C113_volume.
Print Assumptions C113_preblur_volume.
Print Assumptions C113_throws.
Print Assumptions C113_differences_add_up.
Print Assumptions C114_octaves.
Print Assumptions C114_float_refuted.
Print Assumptions C114_history.
Print Assumptions C114_throws.
Print Assumptions C114_twice_refuted.
Print Assumptions C114_planes_refuted.

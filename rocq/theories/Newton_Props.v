(** C137: positions better than the pixel in the tracker. *)
Require Import List Bool Arith ZArith QArith Qround Lia Lqa.
Require Import Verif.Base Verif.ListX Verif.Traj_Model Verif.Particles_Model Verif.Boo_Model Verif.Corr_Model Verif.Corr_Proofs Verif.Tracker_Spec Verif.Peaks_Model Verif.Peaks_Spec Verif.Peaks_Proofs Verif.Peaks_Props Verif.Newton_Spec Verif.Newton_Model Verif.Newton_Proofs.
Import ListNotations.
Local Open Scope nat_scope.

Definition inside (n0 n1 n2 : nat) (t : nat * nat * nat) : Prop := let '(i, j, k) := t in i < n0 /\ j < n1 /\ k < n2 /\ window_inside n0 i /\ window_inside n1 j /\ window_inside n2 k.
Definition flat (n1 n2 : nat) (t : nat * nat * nat) : nat := let '(i, j, k) := t in (i * n1 + j) * n2 + k.
Definition top_at (n0 n1 n2 : nat) (img : nat -> nat -> nat -> Q) (t : nat * nat * nat) : Prop := let '(i, j, k) := t in top n0 n1 n2 img i j k.
(** The order of the coordinates asked *)
Definition ordered (fortran : bool) {A} (v : list A) : list A := if fortran then rev v else v.

Lemma negative_iff c : negative c = true <-> before c.
Proof. destruct c as [q|b|]; cbn; [apply Qneg_iff|tauto|split; [discriminate|tauto]]. Qed.
Lemma choose {A B} (R : A -> B -> Prop) (eqA : forall x y : A, {x = y} + {x <> y}) (d : B) : forall l, (forall a, In a l -> exists b, R a b) -> exists f, forall a, In a l -> R a (f a).
Proof.
  induction l as [|a l IH]; intros H; [exists (fun _ => d); intros a []|]. destruct (H a (or_introl eq_refl)) as [b Hb]. destruct IH as [f Hf]; [intros; apply H; right; auto|].
  exists (fun x => if eqA x a then b else f x). intros x Hx. destruct (eqA x a) as [->|N]; auto. destruct Hx as [<-|Hx]; [congruence|auto].
Qed.
Lemma triple_eq (x y : nat * nat * nat) : {x = y} + {x <> y}.
Proof. repeat decide equality. Qed.

Section Image.
  Variables (n0 n1 n2 : nat) (data : list Q) (img : nat -> nat -> nat -> Q).
  Hypothesis Himg : is_image n0 n1 n2 data img.

  (** The particles given for a list of pixels: those that no pixel of their window outshines, without negative pixel in it, last first, each at its position; those before
      the first pixel in the first dimension are lost. *)
  Theorem C137_list fortran ts : Forall (inside n0 n1 n2) ts ->
    exists pos good c, sub_pixel n0 n1 n2 data fortran (map (flat n1 n2) ts) = Val c /\
      positions c = map (fun t => ordered fortran (pos t)) (filter good (rev ts)) /\
      box c = ordered fortran (map (fun n => (0, inject_Z (Z.of_nat n))%Q) [n0; n1; n2]) /\
      forall t, In t ts -> (good t = true -> top_at n0 n1 n2 img t) /\
        (top_at n0 n1 n2 img t -> position n0 n1 n2 img t (pos t) /\ (good t = true <-> ~ before (hd NaN (pos t)))).
  Proof.
    intros F. rewrite Forall_forall in F. set (first := fun v : list num => match v with c :: _ => negb (negative c) | [] => true end).
    destruct (choose (fun t v => centroid n0 n1 n2 data (flat n1 n2 t) = Val v /\ ((top_at n0 n1 n2 img t /\ position n0 n1 n2 img t v) \/ (~ top_at n0 n1 n2 img t /\ v = discarded))) triple_eq [] ts) as [pos Hp].
    { intros [[i j] k] Ht. destruct (F _ Ht) as (Hi & Hj & Hk & W0 & W1 & W2). destruct (centroid_ok n0 n1 n2 data img Himg i j k Hi Hj Hk W0 W1 W2) as (v & E & C). exists v. split; auto. }
    assert (Es : osequence (map (centroid n0 n1 n2 data) (rev (map (flat n1 n2) ts))) = Val (map pos (rev ts))).
    { rewrite <- map_rev, map_map. apply osequence_map_ok. intros t Ht. apply in_rev in Ht. apply (Hp t Ht). }
    exists pos, (fun t => first (pos t)). eexists. unfold sub_pixel. rewrite Es. cbn [omap]. split; [reflexivity|]. fold first.
    assert (Fi : forall l, filter first (map pos l) = map pos (filter (fun t => first (pos t)) l)) by (induction l as [|t l IH]; auto; cbn [map filter]; rewrite IH; destruct (first (pos t)); reflexivity).
    assert (Len : forall t, In t ts -> exists a b c, pos t = [a; b; c]). { intros [[i j] k] Ht. destruct (proj2 (Hp _ Ht)) as [[_ (r0 & r1 & r2 & E & _)]|[_ E]]; rewrite E; [eauto|unfold discarded; cbn; eauto]. }
    split; [|split].
    - rewrite Fi. destruct fortran; cbn [positions ordered]; auto. rewrite map_map. apply map_ext_in. intros t Ht. apply filter_In in Ht. destruct Ht as [Ht _]. apply in_rev in Ht. destruct (Len t Ht) as (a & b & c & ->). reflexivity.
    - destruct fortran; reflexivity.
    - intros t Ht. destruct (proj2 (Hp t Ht)) as [[T P]|[T E]]; split; auto.
      + intros _. split; auto. destruct (Len t Ht) as (a & b & c & ->). cbn [first hd]. rewrite negb_true_iff, <- negative_iff. destruct (negative a); split; congruence.
      + intros G. rewrite E in G. discriminate.
      + intros T'. contradiction.
  Qed.

  (** The pixels marked by findPixelCenters have their windows inside the image, when no dimension has 5 to 12 pixels. *)
  Theorem C137_track above lt m m' : 0 < n0 /\ 0 < n1 /\ 0 < n2 -> length m = n0 * n1 * n2 -> (forall i j k, marked n0 n1 n2 m i j k -> interior n0 n1 n2 i j k) ->
    find_pixel_centers Q above lt n0 n1 n2 data m = Val m' -> ~ 5 <= n0 <= 12 -> ~ 5 <= n1 <= 12 -> ~ 5 <= n2 <= 12 ->
    exists ts, flat_positions m' = map (flat n1 n2) ts /\ Forall (inside n0 n1 n2) ts.
  Proof.
    intros P L Hm R D0 D1 D2. destruct (facts Q above lt n0 n1 n2 data img Himg P m L Hm m' R) as (m1 & _ & L' & _). unfold flat_positions.
    assert (G : forall l, (forall p, In p l -> p < n0 * n1 * n2) -> exists ts, filter (fun p => nth p m' false) l = map (flat n1 n2) ts /\ Forall (inside n0 n1 n2) ts).
    { induction l as [|p l IH]; intros B; [exists []; auto|]. destruct IH as (ts & E & F); [intros; apply B; right; auto|]. cbn [filter]. destruct (nth p m' false) eqn:Np; [|exists ts; auto].
      destruct (idx_ex n0 n1 n2 p (B p (or_introl eq_refl))) as (i & j & k & Hi & Hj & Hk & Ei). exists ((i, j, k) :: ts). rewrite E. cbn [map]. split; [f_equal; auto|]. constructor; auto.
      assert (M : marked n0 n1 n2 m' i j k) by (apply marked_nth; auto; rewrite <- Ei; auto).
      destruct (C69_window Q above lt n0 n1 n2 data img m m' i j k P Himg L Hm R M D0 D1 D2) as (W0 & W1 & W2 & _). cbn. repeat split; auto; apply W0 || apply W1 || apply W2; auto. }
    apply G. intros p Hp. apply in_seq in Hp. unfold elements in L'. lia.
  Qed.
End Image.

(** The position is that of the summit when the pixels around are on a parabola. *)
Theorem C137_parabola n x f r h k c : refined n x f r -> 5 <= n -> ~ (k == 0)%Q -> (forall m, (-2 <= m <= 2)%Z -> (f m == h - k * ((inject_Z (Z.of_nat x) + inject_Z m - c) * (inject_Z (Z.of_nat x) + inject_Z m - c)))%Q) ->
  exists q, r = Num q /\ (q == c)%Q.
Proof.
  intros R N K H. set (y := inject_Z (Z.of_nat x)) in *. assert (C : (curv12 f == - 24 * k)%Q) by (unfold curv12; rewrite !H by lia; unfold inject_Z; ring).
  destruct R as [[L _]|[[_ (q & s & -> & St & E)]|[_ [Fl _]]]]; [lia| |apply flat_iff in Fl; lra]. exists q. split; auto. fold y in E. rewrite E. apply step_iff in St. destruct St as [_ St]. rewrite St.
  assert (Sl : (slope12 f == - 24 * k * (y - c))%Q) by (unfold slope12; rewrite !H by lia; unfold inject_Z; ring). rewrite C, Sl. field. auto.
Qed.
(** It does not depend on the gain and the offset of the brightness. *)
Theorem C137_light n x f g r q a b : refined n x f r -> ~ (a == 0)%Q -> (forall m, (-2 <= m <= 2)%Z -> (g m == a * f m + b)%Q) -> r = Num q -> forall r', refined n x g r' -> exists q', r' = Num q' /\ (q' == q)%Q.
Proof.
  intros R A H Er r' R'. assert (C : (curv12 g == a * curv12 f)%Q) by (unfold curv12; rewrite !H by lia; ring). assert (Sl : (slope12 g == a * slope12 f)%Q) by (unfold slope12; rewrite !H by lia; ring).
  destruct R as [[L (q0 & E0 & Q0)]|[[L (q0 & s & E0 & St & Q0)]|[L [_ [N _]]]]]; [| |congruence]; rewrite E0 in Er; injection Er as ->.
  - destruct R' as [[L' (q1 & E1 & Q1)]|[[L' _]|[L' _]]]; try lia. exists q1. split; auto. rewrite Q1, Q0. reflexivity.
  - apply step_iff in St. destruct St as [Nf St]. destruct R' as [[L' _]|[[L' (q1 & s' & E1 & St' & Q1)]|[L' [Fl _]]]]; [lia| |].
    + exists q1. split; auto. rewrite Q1, Q0. apply step_iff in St'. destruct St' as [Ng St']. rewrite St, St', C, Sl. field. auto.
    + exfalso. apply flat_iff in Fl. rewrite C in Fl. apply Nf. destruct (Qmult_integral _ _ Fl); auto. contradiction.
Qed.
(** Mirroring the five pixels mirrors the position. *)
Theorem C137_mirror n x f g r q : refined n x f r -> (forall m, (-2 <= m <= 2)%Z -> (g m == f (- m)%Z)%Q) -> r = Num q -> forall r', refined n x g r' -> exists q', r' = Num q' /\ (q' - inject_Z (Z.of_nat x) == - (q - inject_Z (Z.of_nat x)))%Q.
Proof.
  intros R H Er r' R'. assert (C : (curv12 g == curv12 f)%Q) by (unfold curv12; rewrite (H (-2)%Z), (H (-1)%Z), (H 0%Z), (H 1%Z), (H 2%Z) by lia; cbn [Z.opp]; ring).
  assert (Sl : (slope12 g == - slope12 f)%Q) by (unfold slope12; rewrite (H (-2)%Z), (H (-1)%Z), (H 1%Z), (H 2%Z) by lia; cbn [Z.opp]; ring).
  destruct R as [[L (q0 & E0 & Q0)]|[[L (q0 & s & E0 & St & Q0)]|[L [_ [N _]]]]]; [| |congruence]; rewrite E0 in Er; injection Er as ->.
  - destruct R' as [[L' (q1 & E1 & Q1)]|[[L' _]|[L' _]]]; try lia. exists q1. split; auto. lra.
  - apply step_iff in St. destruct St as [Nf St]. destruct R' as [[L' _]|[[L' (q1 & s' & E1 & St' & Q1)]|[L' [Fl _]]]]; [lia| |].
    + exists q1. split; auto. apply step_iff in St'. destruct St' as [Ng St']. assert (Y : (s' == - s)%Q) by (rewrite St, St', C, Sl; field; auto). lra.
    + exfalso. apply flat_iff in Fl. rewrite C in Fl. auto.
Qed.
(** It is within one pixel of the summit if the brightness does not fall, over two pixels, by more than four times what it falls over one. *)
Theorem C137_near n x f r : refined n x f r -> 5 <= n -> (forall m, (-2 <= m <= 2)%Z -> (f m <= f 0%Z)%Q) ->
  let one := ((f 0%Z - f (-1)%Z) + (f 0%Z - f 1%Z))%Q in let two := ((f 0%Z - f (-2)%Z) + (f 0%Z - f 2%Z))%Q in (0 < one)%Q -> (two <= 4 * one)%Q ->
  exists q, r = Num q /\ (inject_Z (Z.of_nat x) - 1 <= q <= inject_Z (Z.of_nat x) + 1)%Q.
Proof.
  intros R N H one two P B. assert (H1 := H (-2)%Z). assert (H2 := H (-1)%Z). assert (H3 := H 1%Z). assert (H4 := H 2%Z). assert (C : (curv12 f < 0)%Q) by (unfold curv12, one, two in *; lra).
  destruct R as [[L _]|[[_ (q & s & -> & St & E)]|[_ [Fl _]]]]; [lia| |apply flat_iff in Fl; lra]. exists q. split; auto. apply step_iff in St. destruct St as [Nc St].
  assert (Es : (s * curv12 f == - slope12 f)%Q) by (rewrite St; field; auto). specialize (H1 ltac:(lia)). specialize (H2 ltac:(lia)). specialize (H3 ltac:(lia)). specialize (H4 ltac:(lia)).
  assert (U : (s <= 1)%Q). { apply Qnot_lt_le. intros G. assert (X : (0 < (s - 1) * - curv12 f)%Q) by (apply Qmult_lt_0_compat; lra). unfold curv12, slope12, one, two in *. lra. }
  assert (V : (-1 <= s)%Q). { apply Qnot_lt_le. intros G. assert (X : (0 < (-1 - s) * - curv12 f)%Q) by (apply Qmult_lt_0_compat; lra). unfold curv12, slope12, one, two in *. lra. }
  lra.
Qed.

(** An image of one line of pixels *)
Definition line (l : list Q) (i j k : nat) : Q := nth k l 0%Q.
Lemma line_image l : is_image 1 1 (length l) l (line l).
Proof. intros i j k Hi Hj Hk. unfold Tracker_Spec.flat_pixel. assert (i = 0) by lia. assert (j = 0) by lia. subst. cbn [Nat.mul Nat.add]. apply nth_error_nth'. auto. Qed.
Definition at_least (t x : Q) : bool := Qle_bool t x.
Definition less (x y : Q) : bool := negb (Qle_bool y x).
(** A summit on the edge of a terrace: the position is seven pixels away, before the first pixel of the image. *)
Definition terrace : list Q := [0; 0; 0; 0; 0; 14; 15; 15; 15; 0; 0; 0; 0]%Q.
Theorem C137_far_refuted : exists m', find_pixel_centers Q (at_least 1) less 1 1 13 terrace (repeat false 13) = Val m' /\ flat_positions m' = [6] /\ top 1 1 13 (line terrace) 0 0 6 /\
  exists q c, sub_pixel 1 1 13 terrace false [6] = Val c /\ positions c = [[Num 0; Num 0; Num q]]%Q /\ (q == -1)%Q.
Proof.
  eexists. split; [vm_compute; reflexivity|]. split; [reflexivity|]. split.
  - intros a b c _ _ [Hc _]. unfold line. do 13 (destruct c as [|c]; [cbn; lra|]). lia.
  - do 2 eexists. split; [vm_compute; reflexivity|]. split; [reflexivity|]. reflexivity.
Qed.
(** Five equal pixels: the position is not a number, it is given, and its intensity can not be asked. *)
Theorem C137_flat_refuted : exists m', find_pixel_centers Q (at_least 1) less 1 1 13 (repeat 7%Q 13) (repeat false 13) = Val m' /\ flat_positions m' = [6] /\
  exists x y b, sub_pixel 1 1 13 (repeat 7%Q 13) false [6] = Val (mkTracked [[x; y; NaN]] b) /\ intensities 1 1 13 (repeat 7%Q 13) false [[x; y; NaN]] = UB.
Proof. eexists. split; [vm_compute; reflexivity|]. split; [reflexivity|]. do 3 eexists. split; vm_compute; reflexivity. Qed.

(** The intensity written for a position is that of the pixel of its integer parts, over the number of pixels. *)
Theorem C137_intensity n0 n1 n2 data img fortran q0 q1 q2 : is_image n0 n1 n2 data img -> (0 <= q0 < inject_Z (Z.of_nat n0))%Q -> (0 <= q1 < inject_Z (Z.of_nat n1))%Q -> (0 <= q2 < inject_Z (Z.of_nat n2))%Q ->
  intensity n0 n1 n2 data fortran (ordered fortran [Num q0; Num q1; Num q2]) = Val (img (Z.to_nat (Qfloor q0)) (Z.to_nat (Qfloor q1)) (Z.to_nat (Qfloor q2)) / inject_Z (Z.of_nat (n0 * n1 * n2)))%Q.
Proof.
  intros Himg B0 B1 B2. assert (T : forall q n, (0 <= q < inject_Z (Z.of_nat n))%Q -> to_size (Num q) = Val (Z.to_nat (Qfloor q)) /\ Z.to_nat (Qfloor q) < n).
  { intros q n [A B]. cbn [to_size]. destruct (Qle_bool q (-1)) eqn:E; [apply Qle_bool_iff in E; lra|]. split; auto. assert (F := Qfloor_le q). assert (G := Qlt_floor q). apply Qfloor_resp_le in A. change (Qfloor 0) with 0%Z in A.
    assert (X : (inject_Z (Qfloor q) < inject_Z (Z.of_nat n))%Q) by lra. rewrite <- Zlt_Qlt in X. lia. }
  destruct (T q0 n0 B0) as [T0 L0]. destruct (T q1 n1 B1) as [T1 L1]. destruct (T q2 n2 B2) as [T2 L2]. unfold intensity.
  assert (Er : (if fortran then revert (ordered fortran [Num q0; Num q1; Num q2]) else ordered fortran [Num q0; Num q1; Num q2]) = [Num q0; Num q1; Num q2]) by (destruct fortran; reflexivity). rewrite Er.
  cbn [map osequence]. rewrite T0, T1, T2. cbn [obind omap map combine fst snd list_sum fold_right].
  replace (_ + _) with (Z.to_nat (Qfloor q0) * (n1 * n2) + Z.to_nat (Qfloor q1) * n2 + Z.to_nat (Qfloor q2)) by lia. rewrite (at_pixel n0 n1 n2 data img Himg) by auto. reflexivity.
Qed.
(** It is not always that of the summit. *)
Definition bump : list Q := [0; 0; 0; 0; 0; 8; 10; 4; 0; 0; 0; 0; 0]%Q.
Theorem C137_intensity_refuted : exists q b, sub_pixel 1 1 13 bump false [6] = Val (mkTracked [[Num 0; Num 0; Num q]]%Q b) /\ (q == 6 - (8 # 27))%Q /\
  exists i, intensities 1 1 13 bump false [[Num 0; Num 0; Num q]]%Q = Val [i] /\ (i == 8 / 13)%Q /\ (i < line bump 0 0 6 / 13)%Q.
Proof. do 2 eexists. split; [vm_compute; reflexivity|]. split; [reflexivity|]. eexists. split; [vm_compute; reflexivity|]. split; [reflexivity|]. vm_compute. reflexivity. Qed.

Lemma times_one c : same c (times 1 c).
Proof. destruct c as [q|b|]; cbn; [ring|destruct b; reflexivity|auto]. Qed.
(** The particles of a time step: the depths, and the depth of the box, are multiplied by the ratio; intensities are those before; asking again gives the same, and writes nothing. *)
Theorem C137_iterate n0 n1 n2 data fortran ratio export nb kept c : sub_pixel n0 n1 n2 data fortran kept = Val c -> Forall (fun v => length v = 3) (positions c) ->
  (export = true -> exists l, intensities n0 n1 n2 data fortran (positions c) = Val l) ->
  exists s w, dereference n0 n1 n2 data None false export fortran ratio nb kept = Val (s, Some s, w) /\
    (export = false -> w = None) /\ (export = true -> exists l, w = Some l /\ intensities n0 n1 n2 data fortran (positions c) = Val l) /\
    Forall2 (fun v v' => exists x y z x' y', v = [x; y; z] /\ v' = [x'; y'; times ratio z] /\ same x x' /\ same y y') (positions c) (positions s) /\
    (exists d0 d1 d2, box c = [d0; d1; d2] /\ exists e0 e1, box s = [(fst d0, e0); (fst d1, e1); (fst d2, snd d2 * ratio)]%Q /\ (e0 == snd d0)%Q /\ (e1 == snd d1)%Q) /\
    forall data' reached kept' export' fortran' ratio', dereference n0 n1 n2 data' (Some s) reached export' fortran' ratio' nb kept' = Val (s, Some s, None).
Proof.
  intros E L X. exists (scale ratio c). unfold dereference. rewrite E. cbn [obind].
  assert (G : exists w, (if export then omap Some (intensities n0 n1 n2 data fortran (positions c)) else Val None) = Val w /\ (export = false -> w = None) /\ (export = true -> exists l, w = Some l /\ intensities n0 n1 n2 data fortran (positions c) = Val l)).
  { destruct export; [destruct (X eq_refl) as [l El]; exists (Some l); rewrite El; split; [reflexivity|]; split; [discriminate|eauto]|exists None; split; [reflexivity|]; split; [auto|discriminate]]. }
  destruct G as (w & Ew & W1 & W2). exists w. rewrite Ew. cbn [obind]. split; [reflexivity|]. split; auto. split; auto. split; [|split].
  - cbn [scale positions]. clear E X Ew W1 W2. induction (positions c) as [|v l IH]; [constructor|]. apply Forall_cons_iff in L. destruct L as [Lv Ll]. cbn [map]. constructor; auto. destruct v as [|x [|y [|z [|]]]]; try discriminate.
    exists x, y, z, (times 1 x), (times 1 y). split; [reflexivity|]. split; [reflexivity|]. split; apply times_one.
  - unfold sub_pixel in E. destruct (osequence _); try discriminate. cbn [omap] in E. injection E as <-. destruct fortran; cbn [box scale combine map fst snd]; do 3 eexists; split; try reflexivity; do 2 eexists; split; try reflexivity; cbn [snd edge]; split; ring.
  - reflexivity.
Qed.

(** After the last time step there is no particle, no intensity, and the empty set is kept too. *)
Theorem C137_past n0 n1 n2 data fortran ratio export nb kept : exists s, dereference n0 n1 n2 data None true export fortran ratio nb kept = Val (s, Some s, None) /\ positions s = [] /\ box s = nb /\
  forall data' reached kept' export' fortran' ratio', dereference n0 n1 n2 data' (Some s) reached export' fortran' ratio' nb kept' = Val (s, Some s, None).
Proof. eexists. split; [reflexivity|]. repeat split; reflexivity. Qed.

(** A bright spot in a line of thirteen pixels, on a parabola with its summit at 6.2: found at 6.2, and its neighbours are within a pixel. *)
Definition spot : list Q := [0; 0; 0; 0; 100 - (220 # 100) * (220 # 100) * 10; 100 - (120 # 100) * (120 # 100) * 10; 100 - (20 # 100) * (20 # 100) * 10; 100 - (80 # 100) * (80 # 100) * 10; 100 - (180 # 100) * (180 # 100) * 10; 0; 0; 0; 0]%Q.
Example C137_case : inside 1 1 13 (0, 0, 6) /\ top 1 1 13 (line spot) 0 0 6 /\ exists q b, sub_pixel 1 1 13 spot true [6] = Val (mkTracked [[Num q; Num 0; Num 0]]%Q b) /\ (q == 31 # 5)%Q /\ exists s i, dereference 1 1 13 spot None false true true 2 [] [6] = Val (s, Some s, Some [i]) /\ positions s = [[Num (1 * q); Num (1 * 0); Num (2 * 0)]]%Q.
Proof.
  split; [|split].
  - cbn. unfold window_inside. lia.
  - intros a b c _ _ [Hc W]. unfold line. do 13 (destruct c as [|c]; [cbn; lra|]). lia.
  - do 2 eexists. split; [vm_compute; reflexivity|]. split; [reflexivity|]. do 2 eexists. split; vm_compute; reflexivity.
Qed.
Example C137_parabola_case : forall m, (-2 <= m <= 2)%Z -> (nth (further 6 m) spot 0 == 100 - 10 * ((inject_Z (Z.of_nat 6) + inject_Z m - (31 # 5)) * (inject_Z (Z.of_nat 6) + inject_Z m - (31 # 5))))%Q.
Proof. intros m Hm. assert (C : (m = -2 \/ m = -1 \/ m = 0 \/ m = 1 \/ m = 2)%Z) by lia. destruct C as [->|[->|[->|[->| ->]]]]; reflexivity. Qed.

Print Assumptions C137_list.
Print Assumptions C137_track.
Print Assumptions C137_parabola.
Print Assumptions C137_light.
Print Assumptions C137_mirror.
Print Assumptions C137_near.
Print Assumptions C137_far_refuted.
Print Assumptions C137_flat_refuted.
Print Assumptions C137_intensity.
Print Assumptions C137_intensity_refuted.
Print Assumptions C137_iterate.
Print Assumptions C137_past.

(** C156: the tracking of an image as a whole. *)
Require Import List Bool Arith ZArith QArith Qround Lia Lqa Sorted Permutation.
Require Import Verif.Base Verif.ListX Verif.Traj_Model Verif.Particles_Model Verif.Boo_Model Verif.Corr_Model Verif.Corr_Proofs Verif.Tracker_Model Verif.Tracker_Spec Verif.Tracker_Props Verif.Peaks_Model Verif.Peaks_Spec Verif.Peaks_Proofs Verif.Peaks_Props
  Verif.Threshold_Proofs Verif.Newton_Spec Verif.Newton_Model Verif.Newton_Proofs Verif.Newton_Props Verif.Xyz_Model Verif.Xyz_Spec.
Import ListNotations.
Local Open Scope nat_scope.

(** * Lists *)
Lemma sorted_rev {A} (R : A -> A -> Prop) l : StronglySorted R l -> StronglySorted (fun a b => R b a) (rev l).
Proof.
  induction 1 as [|a l Hs IH F]; [constructor|]. cbn [rev]. assert (G : forall r, StronglySorted (fun a b => R b a) r -> Forall (fun x => R a x) r -> StronglySorted (fun a b => R b a) (r ++ [a])).
  { induction 1 as [|x r Hr IHr Fr]; intros Fa; cbn [app]; [constructor; [constructor|constructor]|]. inversion Fa; subst. constructor; auto. apply Forall_app. split; auto. }
  apply G; auto. apply Forall_rev. exact F.
Qed.
Lemma sorted_map {A B} (R : B -> B -> Prop) (f : A -> B) l : StronglySorted (fun a b => R (f a) (f b)) l -> StronglySorted R (map f l).
Proof. induction 1 as [|a l Hs IH F]; cbn [map]; constructor; auto. apply Forall_map. exact F. Qed.
Lemma sorted_ext {A} (R R' : A -> A -> Prop) l : (forall a b, In a l -> In b l -> R a b -> R' a b) -> StronglySorted R l -> StronglySorted R' l.
Proof.
  intros H Hs. induction Hs as [|a l Hs IH F]; constructor. { apply IH. intros x y Hx Hy. apply H; right; auto. }
  rewrite Forall_forall in *. intros x Hx. apply H; [left; auto|right; auto|auto].
Qed.
Section Sort.
  Variable I : nat -> Z.
  Lemma ins_filter (P : nat -> bool) x : forall l, StronglySorted (fun a b => (I a <= I b)%Z) l ->
    filter P (ins (fun a b => (I a <? I b)%Z) x l) = if P x then ins (fun a b => (I a <? I b)%Z) x (filter P l) else filter P l.
  Proof.
    induction 1 as [|y l Hs IH F]; cbn [ins filter]; [destruct (P x); reflexivity|]. destruct (Z.ltb_spec (I x) (I y)) as [L|L].
    - cbn [filter]. destruct (P x) eqn:Ex; auto. destruct (P y) eqn:Ey; cbn [ins].
      + destruct (Z.ltb_spec (I x) (I y)); [reflexivity|lia].
      + assert (G : forall r, Forall (fun b => (I y <= I b)%Z) r -> ins (fun a b => (I a <? I b)%Z) x r = x :: r). { intros [|z r] Fr; auto. inversion Fr; subst. cbn [ins]. destruct (Z.ltb_spec (I x) (I z)); [reflexivity|lia]. }
        rewrite G; auto. rewrite Forall_forall in *. intros z Hz. apply filter_In in Hz. apply F. tauto.
    - cbn [filter]. rewrite IH. destruct (P y), (P x); auto. cbn [ins]. destruct (Z.ltb_spec (I x) (I y)); [lia|reflexivity].
  Qed.
  Lemma by_intensity_filter (P : nat -> bool) l : by_intensity I (filter P l) = filter P (by_intensity I l).
  Proof.
    unfold by_intensity, sort_by. assert (G : forall l acc, StronglySorted (fun a b => (I a <= I b)%Z) acc ->
      fold_left (fun acc x => ins (fun a b => (I a <? I b)%Z) x acc) (filter P l) (filter P acc) = filter P (fold_left (fun acc x => ins (fun a b => (I a <? I b)%Z) x acc) l acc)).
    { clear. induction l as [|x l IH]; intros acc Hs; cbn [filter fold_left]; auto. rewrite <- IH by (apply ins_by; exact Hs). rewrite ins_filter by exact Hs. destruct (P x); reflexivity. }
    apply (G l []). constructor.
  Qed.
  (** In a sorted list, what satisfies an upward closed condition is at the end. *)
  Lemma sorted_cut (P : nat -> bool) l : StronglySorted (fun a b => (I a <= I b)%Z) l -> (forall a b, In a l -> In b l -> (I a <= I b)%Z -> P a = true -> P b = true) -> exists pre, l = pre ++ filter P l.
  Proof.
    induction 1 as [|y l Hs IH F]; intros H; [exists []; reflexivity|]. cbn [filter]. destruct (P y) eqn:Ey.
    - exists []. cbn [app]. f_equal. symmetry. rewrite Forall_forall in F. assert (G : forall r, (forall z, In z r -> P z = true) -> filter P r = r). { induction r as [|z r IHr]; intros Hr; auto. cbn [filter]. rewrite Hr by (left; auto). f_equal. apply IHr. intros w Hw. apply Hr. right. exact Hw. }
      apply G. intros z Hz. apply (H y z); [left; auto|right; auto|auto|auto].
    - destruct IH as [pre E]. { intros a b Ha Hb. apply H; right; auto. } exists (y :: pre). cbn [app]. f_equal. exact E.
  Qed.
End Sort.
Lemma sort_ext (I J : nat -> Z) l : (forall a b, In a l -> In b l -> (I a <? I b)%Z = (J a <? J b)%Z) -> by_intensity I l = by_intensity J l.
Proof.
  intros H. unfold by_intensity, sort_by.
  assert (G : forall r acc, (forall a, In a (r ++ acc) -> In a l) -> fold_left (fun acc x => ins (fun a b => (I a <? I b)%Z) x acc) r acc = fold_left (fun acc x => ins (fun a b => (J a <? J b)%Z) x acc) r acc).
  { induction r as [|x r IH]; intros acc Hin; auto. cbn [fold_left].
    assert (E : ins (fun a b => (I a <? I b)%Z) x acc = ins (fun a b => (J a <? J b)%Z) x acc).
    { assert (Hx : In x l) by (apply Hin; left; auto). assert (Ha : forall a, In a acc -> In a l) by (intros a Ha; apply Hin; right; apply in_app_iff; auto). clear Hin IH. induction acc as [|y acc IH]; auto. cbn [ins]. rewrite (H x y) by (auto; apply Ha; left; auto). destruct (J x <? J y)%Z; auto. f_equal. apply IH. intros a Hb. apply Ha. right. exact Hb. }
    rewrite E. apply IH. intros a Ha. apply Hin. apply in_app_iff in Ha. destruct Ha as [Ha|Ha]; [right; apply in_app_iff; auto|]. apply (Permutation_in _ (ins_perm _ x acc)) in Ha. destruct Ha as [<-|Ha]; [left; auto|right; apply in_app_iff; auto]. }
  apply G. intros a Ha. rewrite app_nil_r in Ha. exact Ha.
Qed.

(** * Marks of two images *)
Section Marks.
  Variables (n0 n1 n2 : nat) (aboveA aboveB : Z -> bool) (DA DB : nat -> Z) (P : nat -> bool) (ma mb : list bool).
  Notation N := (elements n0 n1 n2).
  Notation off := (offset n0 n1 n2).
  Hypothesis pos : 0 < n0 /\ 0 < n1 /\ 0 < n2.
  Hypothesis Za : forall q, q < off \/ N - off <= q -> nth q ma false = false.
  Hypothesis Zb : forall q, q < off \/ N - off <= q -> nth q mb false = false.
  Hypothesis Ka : forall q, off <= q < N - off -> nth q ma false = decide Z aboveA Z.ltb n0 n1 n2 DA ma q.
  Hypothesis Kb : forall q, off <= q < N - off -> nth q mb false = decide Z aboveB Z.ltb n0 n1 n2 DB mb q.
  Hypothesis Ab : forall p, p < N -> aboveB (DB p) = aboveA (DA p) && P p.
  Hypothesis Lt : forall p q, p < N -> q < N -> (DA p <? DA q)%Z = (DB p <? DB q)%Z.
  Hypothesis Up : forall p q, p < N -> q < N -> P p = true -> (DA p <= DA q)%Z -> P q = true.
  Lemma existsb_ext_in {A} (f g : A -> bool) : forall l, (forall x, In x l -> f x = g x) -> existsb f l = existsb g l.
  Proof. induction l as [|x l IH]; intros H; auto. cbn [existsb]. rewrite (H x) by (left; auto). f_equal. apply IH. intros; apply H; right; auto. Qed.
  Lemma marks : forall q, nth q mb false = nth q ma false && P q.
  Proof.
    induction q as [q IH] using lt_wf_ind. destruct (Nat.lt_ge_cases q off) as [L|L]; [rewrite Za, Zb by auto; reflexivity|]. destruct (Nat.lt_ge_cases q (N - off)) as [R|R]; [|rewrite Za, Zb by auto; reflexivity].
    rewrite Ka, Kb by auto. unfold decide.
    assert (S6 : forall s, In s (strides n0 n1 n2) -> 0 < s /\ s <= q /\ q + s < N). { intros s Hs. assert (B := stride_le n0 n1 n2 s Hs). assert (B' := stride_pos n0 n1 n2 pos s Hs). lia. }
    rewrite Ab by lia.
    rewrite (existsb_ext_in (fun s => (DB q <? DB (q - s)) || (DB q <? DB (q + s)))%Z (fun s => (DA q <? DA (q - s)) || (DA q <? DA (q + s)))%Z). 2:{ intros s Hs. destruct (S6 s Hs) as (S1 & S2 & S3). rewrite !Lt by lia. reflexivity. }
    destruct (aboveA (DA q)); cbn [andb]; auto. destruct (P q) eqn:Pq; cbn [andb]; [|rewrite andb_false_r; reflexivity]. rewrite andb_true_r.
    destruct (existsb (fun s => (DA q <? DA (q - s)) || (DA q <? DA (q + s)))%Z (strides n0 n1 n2)) eqn:Eg; cbn [negb andb]; auto. f_equal.
    apply existsb_ext_in. intros s Hs. destruct (S6 s Hs) as (S1 & S2 & S3). rewrite IH by lia. destruct (nth (q - s) ma false) eqn:Em; cbn [andb]; auto.
    apply (Up q (q - s)); try lia; auto. destruct (Z.leb_spec (DA q) (DA (q - s))) as [G|G]; auto. exfalso.
    assert (Rg : off <= q - s < N - off). { split; [|lia]. destruct (Nat.lt_ge_cases (q - s) off); [rewrite Za in Em by auto; discriminate|auto]. }
    rewrite Ka in Em by auto. unfold decide in Em. apply andb_true_iff in Em as [Em _]. apply andb_true_iff in Em as [_ Em]. apply negb_true_iff in Em. rewrite <- not_true_iff_false in Em. apply Em. apply existsb_exists. exists s. split; auto. replace (q - s + s) with q by lia. apply orb_true_iff. right. apply Z.ltb_lt. exact G.
  Qed.
End Marks.

Section Image.
  Variables (n0 n1 n2 : nat) (band : list Z -> list Z).
  Hypothesis U : usual_size n0 n1 n2.
  Notation N := (n0 * n1 * n2).
  Notation in_image := (Xyz_Spec.in_image n0 n1 n2).
  Notation value := (Xyz_Spec.value n1 n2).
  Notation flat := (Newton_Props.flat n1 n2).
  Definition tri (p : nat) : pixel := at_flat n1 n2 (fun i j k => (i, j, k)) p.
  Lemma pos : 0 < n0 /\ 0 < n1 /\ 0 < n2.
  Proof. destruct U as ([A _] & [B _] & [C _]). auto. Qed.
  Lemma tri_flat t : in_image t -> tri (flat t) = t.
  Proof. destruct t as [[i j] k]. intros (Hi & Hj & Hk). apply (D_idx pixel n1 n2 (fun i j k => (i, j, k)) i j k Hj Hk). Qed.
  Lemma flat_bound t : in_image t -> flat t < N.
  Proof. destruct t as [[i j] k]. intros (Hi & Hj & Hk). apply (idx_bound n0 n1 n2 i j k Hi Hj Hk). Qed.
  Lemma flat_tri p : p < N -> in_image (tri p) /\ flat (tri p) = p.
  Proof. intros H. destruct (idx_ex n0 n1 n2 p H) as (i & j & k & Hi & Hj & Hk & E). assert (Hin : in_image (i, j, k)) by (cbn; auto). assert (Ep : p = flat (i, j, k)) by exact E. rewrite Ep, tri_flat by exact Hin. auto. Qed.
  Lemma at_flat_tri (F : pixel -> Z) p : at_flat n1 n2 (fun i j k => F (i, j, k)) p = F (tri p).
  Proof. reflexivity. Qed.

  (** ** The steps before the refinement *)
  Definition unpadded (block data : list Z) : Prop := unpad Z 0%Z n0 n1 n2 true block = Val (false, data) /\ is_image n0 n1 n2 data (fun i j k => value block (i, j, k)).
  Lemma unpad_ok block : block_of_image n0 n1 n2 block -> exists data, unpadded block data.
  Proof.
    intros L. destruct (C67_unpad Z 0%Z n0 n1 n2 block L) as (data & E & Ld & H). exists data. split; [exact E|]. intros i j k Hi Hj Hk. rewrite H by auto. unfold Xyz_Spec.value.
    destruct (padded_pixel n1 n2 block i j k) eqn:Ep; auto. exfalso. apply nth_error_None in Ep. rewrite L in Ep. assert (P1 : i * n1 + j < n0 * n1). { assert ((i + 1) * n1 <= n0 * n1) by (apply Nat.mul_le_mono_r; lia). lia. }
    assert (Hk2 : k < 2 * (n2 / 2 + 1)). { assert (D := Nat.div_mod_eq n2 2). assert (M := Nat.mod_upper_bound n2 2 ltac:(lia)). lia. }
    set (w := 2 * (n2 / 2 + 1)) in *. clearbody w. assert ((i * n1 + j + 1) * w <= (n0 * n1) * w) by (apply Nat.mul_le_mono_r; lia). lia.
  Qed.
  Lemma pixel_of block data p : unpadded block data -> p < N -> pixel_value data p = value block (tri p).
  Proof. intros [_ HI] Hp. unfold pixel_value. assert (E := HD Z n0 n1 n2 data _ HI p Hp). apply nth_error_nth with (d := 0%Z) in E. rewrite E. reflexivity. Qed.
  Lemma positions_lt m p : length m = N -> In p (flat_positions m) -> p < N.
  Proof. intros L H. apply filter_In in H as [H _]. apply in_seq in H. lia. Qed.
  Lemma in_positions m t : length m = N -> in_image t -> In (flat t) (flat_positions m) <-> let '(i, j, k) := t in marked n0 n1 n2 m i j k.
  Proof.
    intros L Ht. assert (B := flat_bound t Ht). unfold flat_positions. rewrite filter_In, in_seq. destruct t as [[i j] k]. rewrite (marked_nth n0 n1 n2 m i j k L). destruct Ht as (Hi & Hj & Hk). unfold idx. unfold Newton_Props.flat in *. split.
    - intros [_ H]. auto.
    - intros (_ & _ & _ & H). split; [lia|exact H].
  Qed.
  Definition searched (T : Z) (block data : list Z) (m m' : list bool) : Prop := centers n0 n1 n2 T data m = Val m' /\ clean_map n0 n1 n2 m'.
  Lemma search_ok T block data m : unpadded block data -> clean_map n0 n1 n2 m -> exists m', searched T block data m m'.
  Proof.
    intros [_ HI] [L Hm]. destruct (C69_total Z (fun x => (T * Z.of_nat (elements n0 n1 n2) <=? x)%Z) Z.ltb n0 n1 n2 data _ m pos HI L) as (m' & E & L'). exists m'. split; [exact E|]. split; [lia|].
    intros i j k M. apply (C69_marked Z _ Z.ltb n0 n1 n2 data _ m m' i j k pos HI L Hm E M).
  Qed.
  Lemma positions_inside m : clean_map n0 n1 n2 m -> Forall (Newton_Props.inside n0 n1 n2) (map tri (flat_positions m)).
  Proof.
    intros [L Hm]. apply Forall_forall. intros t Ht. apply in_map_iff in Ht as (p & <- & Hp). destruct (flat_tri p (positions_lt m p L Hp)) as [Ht Ef]. rewrite <- Ef in Hp. apply in_positions in Hp; auto. destruct (tri p) as [[i j] k]. destruct (Hm i j k Hp) as (A0 & A1 & A2).
    destruct Ht as (Hi & Hj & Hk). cbn. unfold away, large, window_inside in *. destruct U as ([_ U0] & [_ U1] & [_ U2]). repeat split; try assumption; lia.
  Qed.
  (** The marks for two images and thresholds in the same order *)
  Lemma compare_marks T1 T2 b1 b2 d1 d2 m1 m2 m1' m2' (P : pixel -> bool) : unpadded b1 d1 -> unpadded b2 d2 -> clean_map n0 n1 n2 m1 -> clean_map n0 n1 n2 m2 -> searched T1 b1 d1 m1 m1' -> searched T2 b2 d2 m2 m2' ->
    (forall t, in_image t -> (T2 * Z.of_nat N <=? value b2 t)%Z = (T1 * Z.of_nat N <=? value b1 t)%Z && P t) ->
    (forall t u, in_image t -> in_image u -> (value b1 t <? value b1 u)%Z = (value b2 t <? value b2 u)%Z) ->
    (forall t u, in_image t -> in_image u -> P t = true -> (value b1 t <= value b1 u)%Z -> P u = true) ->
    flat_positions m2' = filter (fun p => P (tri p)) (flat_positions m1') /\ (forall p, nth p m2' false = nth p m1' false && P (tri p)).
  Proof.
    intros [_ I1] [_ I2] [L1 H1] [L2 H2] [R1 C1] [R2 C2] Ab Lt Up.
    destruct (facts Z _ Z.ltb n0 n1 n2 d1 _ I1 pos m1 L1 H1 m1' R1) as (s1 & _ & _ & Z1 & K1 & M1). destruct (facts Z _ Z.ltb n0 n1 n2 d2 _ I2 pos m2 L2 H2 m2' R2) as (s2 & _ & _ & Z2 & K2 & M2).
    assert (Tri : forall p, p < elements n0 n1 n2 -> in_image (tri p)) by (intros p Hp; apply (flat_tri p Hp)).
    assert (Mk := marks n0 n1 n2 _ _ _ _ (fun p => P (tri p)) s1 s2 pos Z1 Z2 K1 K2 (fun p Hp => Ab _ (Tri p Hp)) (fun p q Hp Hq => Lt _ _ (Tri p Hp) (Tri q Hq)) (fun p q Hp Hq => Up _ _ (Tri p Hp) (Tri q Hq))).
    assert (E : forall p, nth p m2' false = nth p m1' false && P (tri p)).
    { intros p. destruct (Nat.lt_ge_cases p N) as [Hp|Hp]. 2:{ rewrite !nth_overflow by (destruct C1, C2; lia). reflexivity. }
      specialize (Mk p). destruct (idx_ex n0 n1 n2 p Hp) as (i & j & k & Hi & Hj & Hk & Ep). apply eq_iff_eq_true. rewrite andb_true_iff.
      assert (A1 := marked_nth n0 n1 n2 m1' i j k (proj1 C1)). assert (A2 := marked_nth n0 n1 n2 m2' i j k (proj1 C2)). assert (B1 := M1 i j k). assert (B2 := M2 i j k). rewrite <- Ep in A1, A2, B1, B2.
      cbv beta in Mk. rewrite Mk in B2. rewrite andb_true_iff in B2. clear - A1 A2 B1 B2 Hi Hj Hk. tauto. }
    split; [|exact E]. unfold flat_positions. destruct C1 as [-> _]. destruct C2 as [-> _]. generalize (seq 0 N). induction l as [|p l IH]; auto. cbn [filter]. rewrite E. destruct (nth p m1' false); cbn [andb filter]; [|exact IH]. destruct (P (tri p)); [f_equal|]; exact IH.
  Qed.

  (** ** The whole program *)
  Lemma image_Q block data : unpadded block data -> is_image n0 n1 n2 (map inject_Z data) (pixels_Q (value block)).
  Proof. intros [_ HI] i j k Hi Hj Hk. specialize (HI i j k Hi Hj Hk). unfold flat_pixel in *. unfold pixels_Q. rewrite nth_error_map, HI. reflexivity. Qed.
  Lemma run_ok T auto fortran fuel m block : block_of_image n0 n1 n2 (band block) -> clean_map n0 n1 n2 m ->
    exists data m', unpadded (band block) data /\ searched T (band block) data m m' /\
      track_xyz n0 n1 n2 band T auto fortran fuel m block = obind (candidates auto fuel data m') (fun kept => match kept with None => Val (None, m') | Some l => omap (fun c => (Some c, m')) (sub_pixel n0 n1 n2 (map inject_Z data) fortran l) end).
  Proof.
    intros Hb Hm. destruct (unpad_ok (band block) Hb) as (data & Hd). destruct (search_ok T (band block) data m Hd Hm) as (m' & Hs). exists data, m'. split; auto. split; auto.
    unfold track_xyz. rewrite (proj1 Hd). cbn [obind snd]. rewrite (proj1 Hs). reflexivity.
  Qed.
  (** The refinement of the centres kept *)
  Definition refined_at (F : pixel -> Z) (fortran : bool) (ts : list pixel) (pos : pixel -> list num) (good : pixel -> bool) (c : tracked) : Prop :=
    positions c = map (fun t => ordered fortran (pos t)) (filter good ts) /\ box c = ordered fortran (map (fun n => (0, inject_Z (Z.of_nat n))%Q) [n0; n1; n2]) /\
    forall t, In t ts -> (good t = true -> top_pixel n0 n1 n2 F t) /\ (top_pixel n0 n1 n2 F t -> position n0 n1 n2 (pixels_Q F) t (pos t) /\ (good t = true <-> ~ before (hd NaN (pos t)))).
  Lemma refine_ok block data fortran l m : unpadded block data -> clean_map n0 n1 n2 m -> (forall p, In p l -> In p (flat_positions m)) ->
    exists pos good c, sub_pixel n0 n1 n2 (map inject_Z data) fortran l = Val c /\ refined_at (value block) fortran (rev (map tri l)) pos good c.
  Proof.
    intros Hd Hm Hl. assert (F : Forall (Newton_Props.inside n0 n1 n2) (map tri l)). { apply Forall_forall. intros t Ht. apply in_map_iff in Ht as (p & <- & Hp). apply (proj1 (Forall_forall _ _) (positions_inside m Hm)). apply in_map. auto. }
    destruct (C137_list n0 n1 n2 (map inject_Z data) _ (image_Q block data Hd) fortran (map tri l) F) as (ps & good & c & E & Ep & Eb & H).
    assert (El : map flat (map tri l) = l). { rewrite map_map. rewrite <- (map_id l) at 2. apply map_ext_in. intros p Hp. apply flat_tri. apply (positions_lt m); [apply Hm|auto]. }
    rewrite El in E. exists ps, good, c. split; auto. split; auto. split; auto. intros t Ht. apply in_rev in Ht. specialize (H t Ht). destruct t as [[i j] k]. exact H.
  Qed.

  (** Without automatic threshold the tracking always gives particles.  They come from summits, listed from the brightest to the dimmest, of which none are adjacent, that are at least as bright as the threshold
      times the number of pixels; all strict summits as bright are there; those that are not the top of a window without negative pixel, or whose position is before the first pixel, are left out. *)
  Theorem C156_track T fortran fuel m block : block_of_image n0 n1 n2 (band block) -> clean_map n0 n1 n2 m ->
    let F := value (band block) in
    exists c m' ts pos good, track_xyz n0 n1 n2 band T false fortran fuel m block = Val (Some c, m') /\ clean_map n0 n1 n2 m' /\
      (positions c = map (fun t => ordered fortran (pos t)) (filter good ts) /\ box c = ordered fortran (map (fun n => (0, inject_Z (Z.of_nat n))%Q) [n0; n1; n2]) /\
        forall t, In t ts -> (good t = true -> top_pixel n0 n1 n2 F t) /\ (top_pixel n0 n1 n2 F t -> position n0 n1 n2 (pixels_Q F) t (pos t) /\ (good t = true <-> ~ before (hd NaN (pos t))))) /\
      NoDup ts /\ StronglySorted (fun t u => (F u <= F t)%Z) ts /\ (forall t u, In t ts -> In u ts -> ~ adjacent_pixels n0 n1 n2 t u) /\
      (forall t, In t ts -> inner n0 n1 n2 t /\ bright_enough n0 n1 n2 F T t /\ summit n0 n1 n2 F t) /\
      (forall t, inner n0 n1 n2 t -> bright_enough n0 n1 n2 F T t -> strict_summit n0 n1 n2 F t -> In t ts).
  Proof.
    intros Hb Hm F. destruct (run_ok T false fortran fuel m block Hb Hm) as (data & m' & Hd & Hs & E). cbn [candidates obind] in E. set (l := by_intensity (pixel_value data) (flat_positions m')) in *.
    assert (Hl : forall p, In p l <-> In p (flat_positions m')) by (intros p; apply sort_by_in).
    destruct (refine_ok (band block) data fortran l m' Hd (proj2 Hs) (fun p => proj1 (Hl p))) as (ps & good & c & Ec & Hc). rewrite Ec in E. cbn [omap] in E.
    exists c, m', (rev (map tri l)), ps, good. split; [exact E|]. split; [apply Hs|]. split; [exact Hc|].
    assert (Lm : length m' = N) by apply Hs. assert (Lt : forall p, In p l -> p < N) by (intros p Hp; apply (positions_lt m' p Lm); apply Hl; exact Hp).
    assert (In_ts : forall t, In t (rev (map tri l)) <-> in_image t /\ let '(i, j, k) := t in marked n0 n1 n2 m' i j k).
    { intros t. rewrite <- in_rev, in_map_iff. split.
      - intros (p & <- & Hp). destruct (flat_tri p (Lt p Hp)) as [Ht Ef]. split; auto. apply (in_positions m' (tri p) Lm Ht). rewrite Ef. apply Hl. exact Hp.
      - intros [Ht M]. exists (flat t). split; [apply tri_flat; exact Ht|]. apply Hl. apply (in_positions m' t Lm Ht). exact M. }
    destruct Hd as [Hu HI]. destruct Hs as [R [_ Cm]]. destruct Hm as [L0 H0].
    split; [|split; [|split; [|split]]].
    - apply NoDup_rev. assert (Nl : NoDup l). { apply (Permutation_NoDup (l := flat_positions m')). { apply Permutation_sym, sort_by_perm. } apply NoDup_filter, seq_NoDup. }
      clear -Nl Lt. induction Nl as [|p l Np Nl IH]; cbn [map]; constructor. 2:{ apply IH. intros; apply Lt; right; auto. }
      intros H. apply in_map_iff in H as (q & Eq & Hq). apply Np. replace p with q; auto. rewrite <- (proj2 (flat_tri q (Lt q (or_intror Hq)))), <- (proj2 (flat_tri p (Lt p (or_introl eq_refl)))), Eq. reflexivity.
    - rewrite <- map_rev. apply sorted_map. apply (sorted_ext (fun a b => (pixel_value data b <= pixel_value data a)%Z)).
      + intros a b Ha Hbb Hab. apply in_rev in Ha, Hbb. rewrite !(pixel_of (band block) data) in Hab by (try (split; assumption); apply Lt; assumption). exact Hab.
      + apply sorted_rev. apply by_intensity_sorted.
    - intros [[i j] k] [[a b] c'] Ht Hu' Ad. apply In_ts in Ht as [_ Ht]. apply In_ts in Hu' as [_ Hu']. exact (C69_apart Z _ Z.ltb n0 n1 n2 data _ m m' i j k a b c' pos HI L0 H0 R Ad (conj Ht Hu')).
    - intros [[i j] k] Ht. apply In_ts in Ht as [Ht M]. destruct (C69_marked Z _ Z.ltb n0 n1 n2 data _ m m' i j k pos HI L0 H0 R M) as (A & B & C). split; [split; [exact Ht|exact A]|]. split; [apply Z.leb_le in B; exact B|].
      intros [[a b] c'] Ad. specialize (C a b c' Ad). apply Z.ltb_ge in C. exact C.
    - intros [[i j] k] [Ht A] B C. apply In_ts. split; auto. destruct Ht as (Hi & Hj & Hk). apply (C69_found Z (fun x => (T * Z.of_nat (elements n0 n1 n2) <=? x)%Z) Z.ltb n0 n1 n2 data (fun i j k => value (band block) (i, j, k)) m m' i j k); auto.
      + intros x y. rewrite Z.ltb_lt, Z.ltb_ge. lia.
      + exact pos.
      + apply Z.leb_le. exact B.
      + intros a b c' Ad. apply Z.ltb_lt. apply (C (a, b, c') Ad).
  Qed.

  (** A higher threshold only removes particles at the end of the list, whatever maps are left by the previous images. *)
  Lemma sub_pixel_app data fortran a b cb : sub_pixel n0 n1 n2 data fortran (a ++ b) = Val cb -> forall c, sub_pixel n0 n1 n2 data fortran b = Val c -> exists rest, positions cb = positions c ++ rest /\ box cb = box c.
  Proof.
    unfold sub_pixel. rewrite rev_app_distr, map_app.
    assert (G : forall (A : Type) (x y : list (outcome A)) v w, osequence (x ++ y) = Val v -> osequence x = Val w -> exists r, v = w ++ r).
    { induction x as [|o x IH]; intros y v w Hv Hw. { injection Hw as <-. exists v. reflexivity. } cbn [osequence app] in *. destruct o as [z| |]; try discriminate. cbn [obind] in *. destruct (osequence (x ++ y)) as [v'| |] eqn:Ev; try discriminate. destruct (osequence x) as [w'| |] eqn:Ew; try discriminate. cbn in Hv, Hw. injection Hv as <-. injection Hw as <-. destruct (IH y v' w' Ev eq_refl) as (r & ->). exists r. reflexivity. }
    destruct (osequence (map (centroid n0 n1 n2 data) (rev b) ++ map (centroid n0 n1 n2 data) (rev a))) as [v| |] eqn:Ev; try discriminate. intros Hv c Hc. destruct (osequence (map (centroid n0 n1 n2 data) (rev b))) as [w| |] eqn:Ew; try discriminate.
    destruct (G _ _ _ v w Ev Ew) as (r & ->). cbn [omap] in Hv, Hc. injection Hv as <-. injection Hc as <-. rewrite filter_app. destruct fortran; cbn [positions box]; [rewrite map_app|]; eexists; split; reflexivity.
  Qed.
  Theorem C156_threshold T1 T2 fortran fuel m1 m2 block c1 c2 m1' m2' : (T1 <= T2)%Z -> block_of_image n0 n1 n2 (band block) -> clean_map n0 n1 n2 m1 -> clean_map n0 n1 n2 m2 ->
    track_xyz n0 n1 n2 band T1 false fortran fuel m1 block = Val (Some c1, m1') -> track_xyz n0 n1 n2 band T2 false fortran fuel m2 block = Val (Some c2, m2') ->
    exists rest, positions c1 = positions c2 ++ rest /\ box c1 = box c2.
  Proof.
    intros Le Hb H1 H2 R1 R2. destruct (run_ok T1 false fortran fuel m1 block Hb H1) as (d & x1 & Hd & Hs1 & E1). destruct (run_ok T2 false fortran fuel m2 block Hb H2) as (d2 & x2 & Hd2 & Hs2 & E2).
    assert (d2 = d) as -> by (destruct Hd as [A _]; destruct Hd2 as [B _]; congruence). clear Hd2. rewrite R1 in E1. rewrite R2 in E2. cbn [candidates obind] in E1, E2.
    set (P := fun t => (T2 * Z.of_nat N <=? value (band block) t)%Z). set (I := pixel_value d) in *.
    destruct (compare_marks T1 T2 (band block) (band block) d d m1 m2 x1 x2 P Hd Hd H1 H2 Hs1 Hs2) as [Ef _].
    { intros t _. unfold P. destruct (Z.leb_spec (T2 * Z.of_nat N) (value (band block) t)) as [A|A]; [|rewrite andb_false_r; reflexivity]. symmetry. rewrite andb_true_r. apply Z.leb_le. assert (T1 * Z.of_nat N <= T2 * Z.of_nat N)%Z by (apply Z.mul_le_mono_nonneg_r; lia). lia. }
    { reflexivity. } { intros t u _ _. unfold P. rewrite !Z.leb_le. lia. }
    rewrite Ef, by_intensity_filter in E2. destruct (sorted_cut I (fun p => P (tri p)) (by_intensity I (flat_positions x1)) (by_intensity_sorted I _)) as [pre Ep].
    { intros a b Ha Hb' Hab. apply sort_by_in in Ha, Hb'. apply (positions_lt x1) in Ha; [|apply Hs1]. apply (positions_lt x1) in Hb'; [|apply Hs1]. unfold I in Hab. rewrite !(pixel_of (band block) d) in Hab by assumption. unfold P. rewrite !Z.leb_le. lia. }
    rewrite Ep in E1. destruct (sub_pixel n0 n1 n2 (map inject_Z d) fortran (pre ++ _)) as [k1| |] eqn:K1; try discriminate. destruct (sub_pixel n0 n1 n2 (map inject_Z d) fortran (filter _ _)) as [k2| |] eqn:K2; try discriminate.
    cbn [omap] in E1, E2. injection E1 as -> _. injection E2 as -> _. exact (sub_pixel_app _ _ _ _ k1 K1 k2 K2).
  Qed.
  (** So does the automatic threshold. *)
  Theorem C156_auto T fortran fuel m m2 block c1 c2 m1' m2' : block_of_image n0 n1 n2 (band block) -> clean_map n0 n1 n2 m -> clean_map n0 n1 n2 m2 ->
    track_xyz n0 n1 n2 band T false fortran fuel m block = Val (Some c1, m1') -> track_xyz n0 n1 n2 band T true fortran fuel m2 block = Val (Some c2, m2') ->
    exists rest, positions c1 = positions c2 ++ rest /\ box c1 = box c2.
  Proof.
    intros Hb H1 H2 R1 R2. destruct (run_ok T false fortran fuel m block Hb H1) as (d & x1 & Hd & Hs1 & E1). destruct (run_ok T true fortran fuel m2 block Hb H2) as (d2 & x2 & Hd2 & Hs2 & E2).
    assert (d2 = d) as -> by (destruct Hd as [A _]; destruct Hd2 as [B _]; congruence). clear Hd2. rewrite R1 in E1. rewrite R2 in E2. cbn [candidates obind] in E1, E2.
    destruct (compare_marks T T (band block) (band block) d d m m2 x1 x2 (fun _ => true) Hd Hd H1 H2 Hs1 Hs2) as [Ef _]; auto. { intros t _. rewrite andb_true_r. reflexivity. }
    assert (Et : flat_positions x2 = flat_positions x1). { rewrite Ef. generalize (flat_positions x1). induction l as [|a l IH]; auto. cbn [filter]. f_equal. exact IH. } rewrite Et in E2.
    unfold auto_threshold in E2. destruct (by_intensity (pixel_value d) (flat_positions x1)) as [|c0 l] eqn:El; [discriminate|]. destruct (_ =? _)%Z; [discriminate|]. cbn [obind] in E2. destruct (valley _ _) as [t|]; [|discriminate]. cbn [option_map] in E2.
    set (n := fold_left Nat.add _ 0) in E2. rewrite <- (firstn_skipn n (c0 :: l)) in E1. destruct (sub_pixel n0 n1 n2 (map inject_Z d) fortran (firstn n (c0 :: l) ++ _)) as [k1| |] eqn:K1; try discriminate. destruct (sub_pixel n0 n1 n2 (map inject_Z d) fortran (skipn n (c0 :: l))) as [k2| |] eqn:K2; try discriminate.
    cbn [omap] in E1, E2. injection E1 as -> _. injection E2 as -> _. exact (sub_pixel_app _ _ _ _ k1 K1 k2 K2).
  Qed.
  (** When no pixel of the interior reaches the threshold (a dark frame), no particle is found; but the automatic threshold takes the first of no centre: undefined behaviour. *)
  Theorem C156_dark_refuted T fortran fuel m block : block_of_image n0 n1 n2 (band block) -> clean_map n0 n1 n2 m -> (forall t, inner n0 n1 n2 t -> ~ bright_enough n0 n1 n2 (value (band block)) T t) ->
    (exists c m', track_xyz n0 n1 n2 band T false fortran fuel m block = Val (Some c, m') /\ positions c = []) /\ track_xyz n0 n1 n2 band T true fortran fuel m block = UB.
  Proof.
    intros Hb Hm Dk. split.
    - destruct (C156_track T fortran fuel m block Hb Hm) as (c & m' & ts & ps & good & E & _ & (Ep & _) & _ & _ & _ & A & _). exists c, m'. split; auto. destruct ts as [|t ts]; [exact Ep|]. exfalso. destruct (A t (or_introl eq_refl)) as (B & C & _). exact (Dk t B C).
    - destruct (run_ok T true fortran fuel m block Hb Hm) as (d & m' & Hd & Hs & E). rewrite E. cbn [candidates].
      assert (El : flat_positions m' = []). { destruct (flat_positions m') as [|p l] eqn:El; auto. exfalso. assert (Hp : In p (flat_positions m')) by (rewrite El; left; auto). assert (Lp := positions_lt m' p (proj1 (proj2 Hs)) Hp). destruct (flat_tri p Lp) as [Ht Ef].
        rewrite <- Ef in Hp. apply (in_positions m' (tri p) (proj1 (proj2 Hs)) Ht) in Hp. destruct (tri p) as [[i j] k]. destruct Hd as [_ HI]. destruct Hs as [R _]. destruct Hm as [L0 H0].
        destruct (C69_marked Z _ Z.ltb n0 n1 n2 d _ m m' i j k pos HI L0 H0 R Hp) as (A & B & _). apply (Dk (i, j, k)); [split; assumption|]. apply Z.leb_le in B. exact B. }
      rewrite El. reflexivity.
  Qed.

  (** ** Brightness *)
  Lemma refined_common n x y f g r r' a : refined n x f r -> refined n y g r' -> (0 < a)%Q -> (5 <= n -> forall m, (-2 <= m <= 2)%Z -> (g m == a * f m)%Q) -> away_by (Z.of_nat y - Z.of_nat x) r r'.
  Proof.
    intros R R' A H. assert (Ed : (inject_Z (Z.of_nat y - Z.of_nat x) == inject_Z (Z.of_nat y) - inject_Z (Z.of_nat x))%Q) by (unfold inject_Z, Qeq; cbn; lia).
    destruct R as [[L (q & -> & Eq)]|R]; [destruct R' as [[_ (q' & -> & Eq')]|[[L' _]|[L' _]]]; try lia|]. { cbn. rewrite Ed, Eq, Eq'. ring. }
    assert (L5 : 5 <= n) by (destruct R as [[L _]|[L _]]; exact L). specialize (H L5). assert (C : (curv12 g == a * curv12 f)%Q) by (unfold curv12; rewrite !H by lia; ring). assert (Sl : (slope12 g == a * slope12 f)%Q) by (unfold slope12; rewrite !H by lia; ring). clear H.
    destruct R' as [[L' _]|R']; [lia|]. destruct R as [[_ (q & s & -> & St & Eq)]|(_ & Fl & Nn & W)]; destruct R' as [[_ (q' & s' & -> & St' & Eq')]|(_ & Fl' & Nn' & W')].
    - apply step_iff in St, St'. destruct St as [N1 St]. destruct St' as [N2 St']. cbn. rewrite Ed, Eq, Eq', St, St', C, Sl. field. split; [exact N1|lra].
    - exfalso. apply step_iff in St. apply flat_iff in Fl'. rewrite C in Fl'. destruct (Qmult_integral _ _ Fl'); [lra|]. tauto.
    - exfalso. apply step_iff in St'. apply flat_iff in Fl. rewrite C, Fl in St'. destruct St' as [N2 _]. apply N2. ring.
    - destruct (through_ex f) as (a0 & a1 & a2 & a3 & a4 & Tf). destruct (through_ex g) as (b0 & b1 & b2 & b3 & b4 & Tg). destruct (W _ _ _ _ _ Tf) as (W0 & W1 & W2). destruct (W' _ _ _ _ _ Tg) as (V0 & V1 & V2).
      destruct (through_coefs _ _ _ _ _ _ Tf) as [Cf _]. destruct (through_coefs _ _ _ _ _ _ Tg) as [Cg _]. assert (E1 : (b1 == a * a1)%Q) by (rewrite <- Cf in Sl; rewrite <- Cg in Sl; lra). clear - E1 A W0 W1 W2 V0 V1 V2.
      destruct (Q_dec a1 0) as [[D|D]|D].
      + rewrite (W2 D), V2; [reflexivity|]. rewrite E1. assert (0 < a * (- a1))%Q by (apply Qmult_lt_0_compat; lra). lra.
      + rewrite (W1 D), V1; [reflexivity|]. rewrite E1. apply Qmult_lt_0_compat; lra.
      + rewrite (W0 D), V0; [exact Logic.I|]. rewrite E1, D. ring.
  Qed.
  Lemma away_same r r' : away_by 0 r r' -> same r r'.
  Proof. destruct r as [p| |], r' as [q| |]; cbn; auto. intros ->. change (inject_Z 0) with 0%Q. ring. Qed.
  Lemma same_before r r' : same r r' -> before r <-> before r'.
  Proof. destruct r as [p| |], r' as [q| |]; cbn; try tauto; [intros ->; tauto|intros ->; tauto]. Qed.
  (** The same outcome, up to the way rational numbers are written *)
  Definition alike (o1 o2 : outcome (option tracked * list bool)) : Prop :=
    match o1, o2 with
    | Val (Some c1, m1), Val (Some c2, m2) => m1 = m2 /\ box c1 = box c2 /\ Forall2 (Forall2 same) (positions c1) (positions c2)
    | Val (None, m1), Val (None, m2) => m1 = m2
    | UB, UB => True
    | _, _ => False
    end.
  Lemma auto_ext (I1 I2 : nat -> Z) p q fuel l : (0 < p)%Z -> (0 < q)%Z -> (forall c, In c l -> (q * I2 c = p * I1 c)%Z) -> auto_threshold I1 fuel l = auto_threshold I2 fuel l.
  Proof.
    intros Hp Hq H. unfold auto_threshold. assert (Es : by_intensity I2 l = by_intensity I1 l).
    { apply sort_ext. intros a b Ha Hb. apply eq_iff_eq_true. rewrite !Z.ltb_lt. assert (A := H a Ha). assert (B := H b Hb). split; intros L.
      - apply (Z.mul_lt_mono_pos_l q) in L; auto. apply (Z.mul_lt_mono_pos_l p); auto. lia.
      - apply (Z.mul_lt_mono_pos_l p) in L; auto. apply (Z.mul_lt_mono_pos_l q); auto. lia. }
    rewrite Es. assert (Hs : forall c, In c (by_intensity I1 l) -> (q * I2 c = p * I1 c)%Z) by (intros c Hc; apply H; apply sort_by_in in Hc; exact Hc). clear Es H. destruct (by_intensity I1 l) as [|c0 r]; auto.
    assert (H0 := Hs c0 (or_introl eq_refl)). assert (H1 := Hs (last (c0 :: r) c0) (last_in (c0 :: r) c0 ltac:(discriminate))). set (e := last (c0 :: r) c0) in *. clearbody e.
    assert (Eb : (I1 e =? I1 c0)%Z = (I2 e =? I2 c0)%Z). { apply eq_iff_eq_true. rewrite !Z.eqb_eq. split; intros E; rewrite E in H1. - apply (Z.mul_reg_l _ _ q); lia. - apply (Z.mul_reg_l _ _ p); lia. }
    rewrite <- Eb. destruct (Z.eqb_spec (I1 e) (I1 c0)) as [E|E]; auto. f_equal.
    assert (Eh : histogram I1 (I1 c0) (I1 e) (c0 :: r) = histogram I2 (I2 c0) (I2 e) (c0 :: r)).
    { unfold histogram. generalize (repeat 0 100). revert Hs. generalize (c0 :: r). intros l0. induction l0 as [|c l0 IH]; intros Hs h; auto. cbn [fold_left].
      assert (Hc := Hs c (or_introl eq_refl)). assert (Ei : bin (I1 c0) (I1 e) (I1 c) = bin (I2 c0) (I2 e) (I2 c)).
      { unfold bin. f_equal. assert (N1 : (I1 e - I1 c0 <> 0)%Z) by lia. assert (N2 : (I2 e - I2 c0 <> 0)%Z). { intros X. assert (q * (I2 e - I2 c0) = p * (I1 e - I1 c0))%Z by lia. rewrite X, Z.mul_0_r in H. symmetry in H. apply Z.mul_eq_0 in H. lia. }
        rewrite <- (Z.div_mul_cancel_l ((I1 c - I1 c0) * 100) (I1 e - I1 c0) p) by lia. rewrite <- (Z.div_mul_cancel_l ((I2 c - I2 c0) * 100) (I2 e - I2 c0) q) by lia. f_equal; lia. }
      rewrite Ei. apply IH. intros x Hx. apply Hs. right. exact Hx. }
    rewrite Eh. reflexivity.
  Qed.
  Lemma top_scaled F1 F2 p q t : (0 < p)%Z -> (0 < q)%Z -> (forall u, in_image u -> (q * F2 u = p * F1 u)%Z) -> Newton_Props.inside n0 n1 n2 t -> top_pixel n0 n1 n2 F1 t <-> top_pixel n0 n1 n2 F2 t.
  Proof.
    intros Hp Hq H Ht. destruct t as [[i j] k]. destruct Ht as (Hi & Hj & Hk & _). cbn [top_pixel]. unfold top, pixels_Q.
    assert (G : forall (G1 G2 : pixel -> Z) a b, (0 < a)%Z -> (0 < b)%Z -> (forall u, in_image u -> (b * G2 u = a * G1 u)%Z) -> (forall x y z, in_window n0 i x -> in_window n1 j y -> in_window n2 k z -> (0 <= inject_Z (G1 (x, y, z)) <= inject_Z (G1 (i, j, k)))%Q) -> forall x y z, in_window n0 i x -> in_window n1 j y -> in_window n2 k z -> (0 <= inject_Z (G2 (x, y, z)) <= inject_Z (G2 (i, j, k)))%Q).
    { intros G1 G2 a b Ha Hb HG HT x y z Hx Hy Hz. destruct (HT x y z Hx Hy Hz) as [A B]. change 0%Q with (inject_Z 0) in A |- *. rewrite <- Zle_Qle in A, B. rewrite <- !Zle_Qle.
      assert (E1 := HG (x, y, z) (conj (proj1 Hx) (conj (proj1 Hy) (proj1 Hz)))). assert (E2 := HG (i, j, k) (conj Hi (conj Hj Hk))). split.
      - apply (Z.mul_le_mono_pos_l _ _ b); auto. rewrite E1, Z.mul_0_r. apply Z.mul_nonneg_nonneg; lia.
      - apply (Z.mul_le_mono_pos_l _ _ b); auto. rewrite E1, E2. apply Z.mul_le_mono_nonneg_l; lia. }
    split; [apply (G F1 F2 p q Hp Hq H)|apply (G F2 F1 q p Hq Hp)]. intros u Hu. symmetry. auto.
  Qed.
  Lemma window5 n x m : x < n -> window_inside n x -> 5 <= n -> (-2 <= m <= 2)%Z -> further x m < n.
  Proof. intros Hx W L Hm. specialize (W L). unfold further. lia. Qed.
  Lemma position_scaled F1 F2 p q t v w : (0 < p)%Z -> (0 < q)%Z -> (forall u, in_image u -> (q * F2 u = p * F1 u)%Z) -> Newton_Props.inside n0 n1 n2 t ->
    position n0 n1 n2 (pixels_Q F1) t v -> position n0 n1 n2 (pixels_Q F2) t w -> Forall2 same v w.
  Proof.
    intros Hp Hq H Ht Pv Pw. destruct t as [[i j] k]. destruct Ht as (Hi & Hj & Hk & W0 & W1 & W2). destruct Pv as (x & y & z & -> & X & Y & Zz). destruct Pw as (x' & y' & z' & -> & X' & Y' & Zz').
    set (a := (inject_Z p / inject_Z q)%Q). assert (Qp : (0 < inject_Z p)%Q) by (change 0%Q with (inject_Z 0); rewrite <- Zlt_Qlt; exact Hp). assert (Qq : (0 < inject_Z q)%Q) by (change 0%Q with (inject_Z 0); rewrite <- Zlt_Qlt; exact Hq).
    assert (A : (0 < a)%Q) by (apply Qlt_shift_div_l; lra).
    assert (G : forall u, in_image u -> (inject_Z (F2 u) == a * inject_Z (F1 u))%Q). { intros u Hu. unfold a. assert (E : (inject_Z q * inject_Z (F2 u) == inject_Z p * inject_Z (F1 u))%Q) by (rewrite <- !inject_Z_mult, (H u Hu); reflexivity). field_simplify_eq; lra. }
    repeat (apply Forall2_cons; [apply away_same|]); [| | |constructor].
    - rewrite <- (Z.sub_diag (Z.of_nat i)). apply (refined_common n0 i i _ _ x x' a X X' A). intros L m Hm. apply G. repeat split; auto. apply window5; auto.
    - rewrite <- (Z.sub_diag (Z.of_nat j)). apply (refined_common n1 j j _ _ y y' a Y Y' A). intros L m Hm. apply G. repeat split; auto. apply window5; auto.
    - rewrite <- (Z.sub_diag (Z.of_nat k)). apply (refined_common n2 k k _ _ z z' a Zz Zz' A). intros L m Hm. apply G. repeat split; auto. apply window5; auto.
  Qed.
  Lemma nth_ext_len (x y : list bool) : length x = length y -> (forall p, nth p x false = nth p y false) -> x = y.
  Proof. intros L H. apply (nth_ext x y false false L). intros n _. apply H. Qed.
  Lemma rev_same v w : Forall2 same v w -> Forall2 same (rev v) (rev w).
  Proof. induction 1 as [|a b v w Hab H IH]; [constructor|]. cbn [rev]. apply Forall2_app; auto. Qed.
  (** The gain and the offset of the brightness do not matter if the threshold follows the gain: here the images are in the ratio p / q. *)
  Theorem C156_light p q b T1 T2 auto fortran fuel m b1 b2 : keeps_size n0 n1 n2 band -> linear_without_mean n0 n1 n2 band -> (0 < p)%Z -> (0 < q)%Z ->
    block_of_image n0 n1 n2 b1 -> block_of_image n0 n1 n2 b2 -> (forall t, in_image t -> (q * value b2 t = p * value b1 t + b)%Z) -> (q * T2 = p * T1)%Z -> clean_map n0 n1 n2 m ->
    alike (track_xyz n0 n1 n2 band T1 auto fortran fuel m b1) (track_xyz n0 n1 n2 band T2 auto fortran fuel m b2).
  Proof.
    intros Ks Lin Hp Hq B1 B2 HL HT Hm. assert (HV := Lin b1 b2 p q b B1 B2 HL). destruct (run_ok T1 auto fortran fuel m b1 (Ks b1 B1) Hm) as (d1 & m1 & D1 & S1 & E1). destruct (run_ok T2 auto fortran fuel m b2 (Ks b2 B2) Hm) as (d2 & m2 & D2 & S2 & E2).
    assert (Ord : forall t u, in_image t -> in_image u -> (value (band b1) t <? value (band b1) u)%Z = (value (band b2) t <? value (band b2) u)%Z).
    { intros t u Ht Hu. apply eq_iff_eq_true. rewrite !Z.ltb_lt. assert (A := HV t Ht). assert (B := HV u Hu). split; intros L; [apply (Z.mul_lt_mono_pos_l p) in L; auto; apply (Z.mul_lt_mono_pos_l q); auto; lia|apply (Z.mul_lt_mono_pos_l q) in L; auto; apply (Z.mul_lt_mono_pos_l p); auto; lia]. }
    destruct (compare_marks T1 T2 (band b1) (band b2) d1 d2 m m m1 m2 (fun _ => true) D1 D2 Hm Hm S1 S2) as [_ Em]; auto.
    { intros t Ht. rewrite andb_true_r. apply eq_iff_eq_true. rewrite !Z.leb_le. assert (A := HV t Ht). assert (Et : (q * (T2 * Z.of_nat N) = p * (T1 * Z.of_nat N))%Z) by (rewrite !Z.mul_assoc, HT; reflexivity).
      split; intros L; [apply (Z.mul_le_mono_pos_l _ _ q) in L; auto; apply (Z.mul_le_mono_pos_l _ _ p); auto; lia|apply (Z.mul_le_mono_pos_l _ _ p) in L; auto; apply (Z.mul_le_mono_pos_l _ _ q); auto; lia]. }
    assert (m2 = m1) as ->. { apply nth_ext_len. { destruct S1 as [_ [-> _]]. destruct S2 as [_ [-> _]]. reflexivity. } intros x. rewrite Em. apply andb_true_r. } clear Em.
    assert (Lm : length m1 = N) by apply S1. assert (Hv : forall c, In c (flat_positions m1) -> (q * pixel_value d2 c = p * pixel_value d1 c)%Z). { intros c Hc. apply positions_lt in Hc; auto. rewrite (pixel_of _ _ c D1 Hc), (pixel_of _ _ c D2 Hc). apply HV. apply flat_tri. exact Hc. }
    assert (Ec : candidates auto fuel d2 m1 = candidates auto fuel d1 m1). { unfold candidates. destruct auto; [symmetry; apply (auto_ext _ _ p q); auto|]. do 2 f_equal. apply sort_ext. intros x y Hx Hy. apply positions_lt in Hx, Hy; auto. rewrite !(pixel_of _ _ _ D1), !(pixel_of _ _ _ D2) by assumption. symmetry. apply Ord; apply flat_tri; assumption. }
    rewrite E1, E2, Ec. assert (Hin : forall l, candidates auto fuel d1 m1 = Val (Some l) -> forall c, In c l -> In c (flat_positions m1)).
    { unfold candidates. intros l Hl c Hc. destruct auto; [|injection Hl as <-; apply sort_by_in in Hc; exact Hc]. unfold auto_threshold in Hl. assert (Hb := sort_by_in (fun a b => (pixel_value d1 a <? pixel_value d1 b)%Z) (flat_positions m1) c). fold (by_intensity (pixel_value d1) (flat_positions m1)) in Hb. destruct (by_intensity (pixel_value d1) (flat_positions m1)) as [|c0 r]; [discriminate|]. destruct (_ =? _)%Z; [discriminate|]. injection Hl as Hl. destruct (valley _ _); [|discriminate]. injection Hl as <-. apply Hb.
      rewrite <- (firstn_skipn (fold_left Nat.add (firstn n (histogram (pixel_value d1) (pixel_value d1 c0) (pixel_value d1 (last (c0 :: r) c0)) (c0 :: r))) 0) (c0 :: r)). apply in_app_iff. right. exact Hc. }
    destruct (candidates auto fuel d1 m1) as [[l|]| |] eqn:El; cbn [obind]; try reflexivity; try exact Logic.I.
    2:{ unfold candidates in El. destruct auto; [|discriminate]. unfold auto_threshold in El. destruct (by_intensity _ _); [discriminate|]. destruct (_ =? _)%Z; discriminate. }
    specialize (Hin l eq_refl). destruct (refine_ok (band b1) d1 fortran l m1 D1 (proj2 S1) Hin) as (p1 & g1 & c1 & K1 & P1 & X1 & H1). destruct (refine_ok (band b2) d2 fortran l m1 D2 (proj2 S2) Hin) as (p2 & g2 & c2 & K2 & P2 & X2 & H2).
    rewrite K1, K2. cbn [omap alike]. split; auto. split; [congruence|]. rewrite P1, P2.
    assert (Ins : forall t, In t (rev (map tri l)) -> Newton_Props.inside n0 n1 n2 t). { intros t Ht. apply in_rev in Ht. apply in_map_iff in Ht as (c & <- & Hc). apply (proj1 (Forall_forall _ _) (positions_inside m1 (proj2 S1))). apply in_map. auto. }
    revert H1 H2 Ins. generalize (rev (map tri l)). clear - Hp Hq HV. induction l as [|t l IH]; intros H1 H2 Ins; [constructor|]. specialize (IH (fun t Ht => H1 t (or_intror Ht)) (fun t Ht => H2 t (or_intror Ht)) (fun t Ht => Ins t (or_intror Ht))).
    specialize (H1 t (or_introl eq_refl)). specialize (H2 t (or_introl eq_refl)). specialize (Ins t (or_introl eq_refl)). assert (Tp := top_scaled _ _ p q t Hp Hq HV Ins). destruct H1 as [A1 B1]. destruct H2 as [A2 B2].
    assert (Sm : top_pixel n0 n1 n2 (value (band b1)) t -> Forall2 same (p1 t) (p2 t)). { intros X. apply (position_scaled _ _ p q t _ _ Hp Hq HV Ins). - apply B1. exact X. - apply B2. apply Tp. exact X. }
    assert (Hd : forall v w, Forall2 same v w -> (before (hd NaN v) <-> before (hd NaN w))). { intros v w [|x y v' w' Hxy _]; [tauto|]. cbn. apply same_before. exact Hxy. }
    assert (Eg : g1 t = g2 t). { apply eq_iff_eq_true. split; intros G; [assert (X := A1 G)|assert (X := proj2 Tp (A2 G))]; assert (Hs := Hd _ _ (Sm X)); destruct (B1 X) as [_ C1]; destruct (B2 (proj1 Tp X)) as [_ C2]; tauto. }
    cbn [filter]. rewrite <- Eg. destruct (g1 t) eqn:G; [|exact IH]. cbn [map]. apply Forall2_cons; [|exact IH]. specialize (Sm (A1 eq_refl)). unfold ordered. destruct fortran; [apply rev_same|]; exact Sm.
  Qed.

  (** ** Motion *)
  Lemma next_cases i j k x y z : next n0 n1 n2 i j k x y z -> (13 <= n0 /\ x = S i /\ y = j /\ z = k) \/ (13 <= n1 /\ x = i /\ y = S j /\ z = k) \/ (13 <= n2 /\ x = i /\ y = j /\ z = S k).
  Proof. intros []; auto 8. Qed.
  Lemma inner_inside t : inner n0 n1 n2 t -> Newton_Props.inside n0 n1 n2 t.
  Proof. destruct t as [[i j] k]. intros [(Hi & Hj & Hk) (A0 & A1 & A2)]. cbn. unfold away, large, window_inside in *. destruct U as ([_ U0] & [_ U1] & [_ U2]). repeat split; try assumption; lia. Qed.
  Lemma mod_near n x a d : x < n -> (Z.of_nat ((x + a) mod n) + d < Z.of_nat n)%Z -> (0 <= Z.of_nat ((x + a) mod n) + d)%Z -> (0 <= Z.of_nat x + d)%Z -> (Z.to_nat (Z.of_nat x + d) + a) mod n = Z.to_nat (Z.of_nat ((x + a) mod n) + d).
  Proof.
    intros Hx H1 H2 H3. apply Nat2Z.inj. rewrite Nat2Z.inj_mod, Nat2Z.inj_add, !Z2Nat.id by lia. rewrite Nat2Z.inj_mod, Nat2Z.inj_add in *.
    rewrite <- (Z.mod_small ((Z.of_nat x + Z.of_nat a) mod Z.of_nat n + d) (Z.of_nat n)) by lia. rewrite Zplus_mod_idemp_l. f_equal. lia.
  Qed.
  Notation shifted := (Xyz_Spec.shifted n0 n1 n2).
  (** When the image moves, with periodic boundaries, the particles found move by the same number of pixels: here for strict summits that are in the interior before and after. *)
  Theorem C156_moved a T fortran fuel m1 m2 b1 b2 c1 c2 m1' m2' t : keeps_size n0 n1 n2 band -> moves_along n0 n1 n2 band -> block_of_image n0 n1 n2 b1 -> block_of_image n0 n1 n2 b2 ->
    (forall t, in_image t -> value b2 t = value b1 (shifted a t)) -> clean_map n0 n1 n2 m1 -> clean_map n0 n1 n2 m2 ->
    track_xyz n0 n1 n2 band T false fortran fuel m1 b1 = Val (Some c1, m1') -> track_xyz n0 n1 n2 band T false fortran fuel m2 b2 = Val (Some c2, m2') ->
    let u := shifted a t in let F := value (band b1) in
    inner n0 n1 n2 t -> inner n0 n1 n2 u -> bright_enough n0 n1 n2 F T u -> strict_summit n0 n1 n2 F u -> top_pixel n0 n1 n2 F u ->
    exists v1 v2, position n0 n1 n2 (pixels_Q F) u v1 /\ displaced t u v2 v1 /\ (~ before (hd NaN v1) -> In (ordered fortran v1) (positions c1)) /\ (~ before (hd NaN v2) -> In (ordered fortran v2) (positions c2)).
  Proof.
    intros Ks Mv B1 B2 HS H1 H2 R1 R2 u F It Iu Br St Tp. assert (HV := Mv a b1 b2 B1 B2 HS).
    destruct (C156_track T fortran fuel m1 b1 (Ks b1 B1) H1) as (x1 & y1 & ts1 & p1 & g1 & E1 & _ & (P1 & _ & Q1) & _ & _ & _ & _ & A1). rewrite R1 in E1. injection E1 as <- <-.
    destruct (C156_track T fortran fuel m2 b2 (Ks b2 B2) H2) as (x2 & y2 & ts2 & p2 & g2 & E2 & _ & (P2 & _ & Q2) & _ & _ & _ & _ & A2). rewrite R2 in E2. injection E2 as <- <-.
    assert (Wt := inner_inside t It). assert (Wu := inner_inside u Iu). destruct It as [Ht It]. destruct Iu as [Hu Iu]. assert (Eu : value (band b2) t = F u) by (apply HV; exact Ht).
    (* pixels near t move to pixels near u *)
    destruct a as [[ax ay] az]. destruct t as [[i j] k]. subst u. cbn [Xyz_Spec.shifted] in *. set (i' := (i + ax) mod n0) in *. set (j' := (j + ay) mod n1) in *. set (k' := (k + az) mod n2) in *.
    assert (Near : forall n x y d, x < n -> (13 <= n -> 6 <= x /\ x + 6 < n) -> (13 <= n -> 6 <= (x + y) mod n /\ (x + y) mod n + 6 < n) -> 13 <= n -> (-2 <= d <= 2)%Z -> (Z.to_nat (Z.of_nat x + d) + y) mod n = Z.to_nat (Z.of_nat ((x + y) mod n) + d)).
    { intros n x y d Hx W1 W2 L Hd. specialize (W1 L). specialize (W2 L). apply mod_near; lia. }
    destruct It as (It0 & It1 & It2). destruct Iu as (Iu0 & Iu1 & Iu2). unfold away, large in *. destruct Ht as (Hi & Hj & Hk). destruct Hu as (Hi' & Hj' & Hk').
    assert (N0 := fun d => Near n0 i ax d Hi It0 Iu0). assert (N1 := fun d => Near n1 j ay d Hj It1 Iu1). assert (N2 := fun d => Near n2 k az d Hk It2 Iu2). fold i' in N0. fold j' in N1. fold k' in N2. clear Near.
    destruct U as ([U0 U0'] & [U1 U1'] & [U2 U2']).
    assert (Br2 : bright_enough n0 n1 n2 (value (band b2)) T (i, j, k)) by (unfold bright_enough; rewrite Eu; exact Br).
    assert (St2 : strict_summit n0 n1 n2 (value (band b2)) (i, j, k)).
    { intros [[x y] z] Ad. rewrite Eu.
      assert (Gs : forall x y z x' y' z', x < n0 -> y < n1 -> z < n2 -> (x + ax) mod n0 = x' -> (y + ay) mod n1 = y' -> (z + az) mod n2 = z' -> adjacent_pixels n0 n1 n2 (i', j', k') (x', y', z') -> (value (band b2) (x, y, z) < F (i', j', k'))%Z).
      { intros x0 y0 z0 x' y' z' Hx Hy Hz <- <- <- Hadj. rewrite HV by (cbn; auto). apply St. exact Hadj. }
      destruct Ad as [Ad|Ad]; apply next_cases in Ad; destruct Ad as [(Lg & Ex & Ey & Ez)|[(Lg & Ex & Ey & Ez)|(Lg & Ex & Ey & Ez)]]; [subst x y z|subst x y z|subst x y z| | |].
      - apply (Gs (S i) j k (S i') j' k'); try reflexivity; try lia. { specialize (N0 1%Z Lg ltac:(lia)). replace (Z.to_nat (Z.of_nat i + 1)) with (S i) in N0 by lia. rewrite N0. lia. } left. constructor. assumption.
      - apply (Gs i (S j) k i' (S j') k'); try reflexivity; try lia. { specialize (N1 1%Z Lg ltac:(lia)). replace (Z.to_nat (Z.of_nat j + 1)) with (S j) in N1 by lia. rewrite N1. lia. } left. constructor. assumption.
      - apply (Gs i j (S k) i' j' (S k')); try reflexivity; try lia. { specialize (N2 1%Z Lg ltac:(lia)). replace (Z.to_nat (Z.of_nat k + 1)) with (S k) in N2 by lia. rewrite N2. lia. } left. constructor. assumption.
      - assert (Ep : S (i' - 1) = i') by lia. subst y z. apply (Gs x j k (i' - 1) j' k'); try reflexivity; try lia. { specialize (N0 (-1)%Z Lg ltac:(lia)). replace (Z.to_nat (Z.of_nat i + -1)) with x in N0 by lia. rewrite N0. lia. } right. rewrite <- Ep at 2. constructor. assumption.
      - assert (Ep : S (j' - 1) = j') by lia. subst x z. apply (Gs i y k i' (j' - 1) k'); try reflexivity; try lia. { specialize (N1 (-1)%Z Lg ltac:(lia)). replace (Z.to_nat (Z.of_nat j + -1)) with y in N1 by lia. rewrite N1. lia. } right. rewrite <- Ep at 2. constructor. assumption.
      - assert (Ep : S (k' - 1) = k') by lia. subst x y. apply (Gs i j z i' j' (k' - 1)); try reflexivity; try lia. { specialize (N2 (-1)%Z Lg ltac:(lia)). replace (Z.to_nat (Z.of_nat k + -1)) with z in N2 by lia. rewrite N2. lia. } right. rewrite <- Ep at 2. constructor. assumption. }
    assert (Win : forall n x y a0, a0 < n -> ~ 5 <= n <= 12 -> 0 < n -> (forall d, 13 <= n -> (-2 <= d <= 2)%Z -> (Z.to_nat (Z.of_nat x + d) + y) mod n = Z.to_nat (Z.of_nat ((x + y) mod n) + d)) -> (13 <= n -> 6 <= x /\ x + 6 < n) -> (13 <= n -> 6 <= (x + y) mod n /\ (x + y) mod n + 6 < n) -> in_window n x a0 -> in_window n ((x + y) mod n) ((a0 + y) mod n)).
    { intros n x y a0 Ha Nn Pn Hn W1 W2 [_ W]. split; [apply Nat.mod_upper_bound; lia|]. intros L. assert (L13 : 13 <= n) by lia. specialize (W L). specialize (W1 L13). specialize (W2 L13). specialize (Hn (Z.of_nat a0 - Z.of_nat x)%Z L13 ltac:(lia)). replace (Z.to_nat (Z.of_nat x + (Z.of_nat a0 - Z.of_nat x))) with a0 in Hn by lia. rewrite Hn. lia. }
    assert (Tp2 : top_pixel n0 n1 n2 (value (band b2)) (i, j, k)).
    { intros x y z Hx Hy Hz. unfold pixels_Q. rewrite Eu, (HV (x, y, z)) by (cbn; split; [apply Hx|split; [apply Hy|apply Hz]]). apply Tp.
      - apply Win; auto. apply Hx.
      - apply Win; auto. apply Hy.
      - apply Win; auto. apply Hz. }
    assert (In1 := A1 (i', j', k') (conj (conj Hi' (conj Hj' Hk')) (conj Iu0 (conj Iu1 Iu2))) Br St). assert (In2 := A2 (i, j, k) (conj (conj Hi (conj Hj Hk)) (conj It0 (conj It1 It2))) Br2 St2).
    destruct (Q1 _ In1) as [_ C1]. specialize (C1 Tp). destruct C1 as [Po1 G1]. destruct (Q2 _ In2) as [_ C2]. specialize (C2 Tp2). destruct C2 as [Po2 G2].
    exists (p1 (i', j', k')), (p2 (i, j, k)). split; [exact Po1|]. split; [|split].
    - destruct Po1 as (x & y & z & -> & X & Y & Zz). destruct Po2 as (x' & y' & z' & -> & X' & Y' & Zz'). exists x', y', z', x, y, z. split; auto. split; auto.
      split; [|split].
      + apply (refined_common n0 i i' _ _ x' x 1 X' X); [reflexivity|]. intros L d Hd. rewrite Qmult_1_l. unfold pixels_Q. rewrite HV. 2:{ unfold further. cbn. repeat split; auto. specialize (It0 ltac:(lia)). lia. } unfold further. cbn [Xyz_Spec.shifted]. rewrite N0 by (auto; lia). reflexivity.
      + apply (refined_common n1 j j' _ _ y' y 1 Y' Y); [reflexivity|]. intros L d Hd. rewrite Qmult_1_l. unfold pixels_Q. rewrite HV. 2:{ unfold further. cbn. repeat split; auto. specialize (It1 ltac:(lia)). lia. } unfold further. cbn [Xyz_Spec.shifted]. rewrite N1 by (auto; lia). reflexivity.
      + apply (refined_common n2 k k' _ _ z' z 1 Zz' Zz); [reflexivity|]. intros L d Hd. rewrite Qmult_1_l. unfold pixels_Q. rewrite HV. 2:{ unfold further. cbn. repeat split; auto. specialize (It2 ltac:(lia)). lia. } unfold further. cbn [Xyz_Spec.shifted]. rewrite N2 by (auto; lia). reflexivity.
    - intros Nb. rewrite P1. apply in_map_iff. exists (i', j', k'). split; auto. apply filter_In. split; auto. apply G1. exact Nb.
    - intros Nb. rewrite P2. apply in_map_iff. exists (i, j, k). split; auto. apply filter_In. split; auto. apply G2. exact Nb.
  Qed.
End Image.

(** * The filter *)
Require Import Verif.Fft_Model Verif.Fft_Spec Verif.Fft_Props.
(** What is asked of the filter is true of exact Fourier transforms with a symmetric mask that rejects the mean. *)
Section Filter.
  Variables (n0 n1 n2 : nat) (w0 w1 w2 : Z * Z) (forward backward : list Z -> list Z) (mk : nat -> nat -> nat -> bool).
  Notation Root := (root Z 0%Z 1%Z Z.add Z.mul Z.opp).
  Hypotheses (P : 0 < n0 /\ 0 < n1 /\ 0 < n2) (R0 : Root n0 w0) (R1 : Root n1 w1) (R2 : Root n2 w2).
  Hypotheses (Hf : r2c Z 0%Z 1%Z Z.add Z.mul Z.opp n0 n1 n2 w0 w1 w2 forward) (Hb : c2r Z 0%Z 1%Z Z.add Z.mul Z.opp n0 n1 n2 w0 w1 w2 backward) (Hs : symmetric n0 n1 (n2 / 2 + 1) mk).
  Let band := fft_apply Z 0%Z 1%Z Z.mul n0 n1 n2 forward backward mk.
  Notation img := (Fft_Spec.image Z 0%Z n1 n2).
  Lemma img_value b t : img b t = (value n1 n2 b t, 0%Z).
  Proof. destruct t as [[i j] k]. unfold Fft_Spec.image, value, padded_pixel. cbn [fst snd]. f_equal. destruct (nth_error b _) eqn:E; [apply nth_error_nth; exact E|apply nth_overflow, nth_error_None; exact E]. Qed.
  Lemma in_pixels_iff t : In t (Fft_Spec.pixels n0 n1 n2) <-> in_image n0 n1 n2 t.
  Proof. destruct t as [[i j] k]. destruct P as (P0 & P1 & P2). exact (in_pixels n0 n1 n2 P0 P1 P2 (i, j, k)). Qed.
  Lemma value_map_mul q b t : value n1 n2 (map (Z.mul q) b) t = (q * value n1 n2 b t)%Z.
  Proof. destruct t as [[i j] k]. unfold value, padded_pixel. rewrite nth_error_map. destruct (nth_error b _); cbn [option_map]; lia. Qed.
  Theorem C156_filter : keeps_size n0 n1 n2 band /\ moves_along n0 n1 n2 band /\ (mk 0 0 0 = false -> linear_without_mean n0 n1 n2 band).
  Proof.
    destruct P as (P0 & P1 & P2). assert (Ks : keeps_size n0 n1 n2 band). { intros b L. apply (C150_filter Z 0%Z 1%Z Z.add Z.mul Z.opp ring_Z n0 n1 n2 w0 w1 w2 R0 R1 R2 P0 P1 P2 forward backward mk b Hf Hb Hs L). }
    split; [exact Ks|]. split.
    - intros a b1 b2 L1 L2 H t Ht. apply in_pixels_iff in Ht.
      assert (E := C150_moved Z 0%Z 1%Z Z.add Z.mul Z.opp ring_Z n0 n1 n2 w0 w1 w2 R0 R1 R2 P0 P1 P2 forward backward mk Hf Hb Hs a b1 b2 L1 L2). assert (Sh : forall x, Fft_Spec.shifted n0 n1 n2 a x = Xyz_Spec.shifted n0 n1 n2 a x) by (intros [[x y] z]; destruct a as [[ax ay] az]; reflexivity).
      specialize (E ltac:(intros x Hx; rewrite (img_value b2), (img_value b1), Sh; f_equal; apply H; apply in_pixels_iff; exact Hx) t Ht). rewrite (img_value (fft_apply _ _ _ _ _ _ _ _ _ _ b2)), (img_value (fft_apply _ _ _ _ _ _ _ _ _ _ b1)), Sh in E. injection E as E. exact E.
    - intros M b1 b2 p q b L1 L2 H t Ht. apply in_pixels_iff in Ht.
      assert (Mul : forall c b', length b' = block_size n0 n1 n2 -> (value n1 n2 (band (map (Z.mul c) b')) t = c * value n1 n2 (band b') t)%Z).
      { intros c b' L. assert (L' : length (map (Z.mul c) b') = block_size n0 n1 n2) by (rewrite map_length; exact L).
        assert (E := C150_linear Z 0%Z 1%Z Z.add Z.mul Z.opp ring_Z n0 n1 n2 w0 w1 w2 R0 R1 R2 P0 P1 P2 forward backward mk Hf Hb Hs (c, 0%Z) (0%Z, 0%Z) b' b' (map (Z.mul c) b') L L L').
        specialize (E ltac:(intros x Hx; rewrite (img_value b'), (img_value (map _ _)), value_map_mul; unfold cadd, cmul; cbn [fst snd]; f_equal; lia) t Ht). rewrite (img_value (fft_apply _ _ _ _ _ _ _ _ _ _ b')), (img_value (fft_apply _ _ _ _ _ _ _ _ _ _ (map _ _))) in E. unfold cadd, cmul in E. cbn [fst snd] in E. injection E as E. unfold band. rewrite E. lia. }
      assert (E := C150_brightness Z 0%Z 1%Z Z.add Z.mul Z.opp ring_Z n0 n1 n2 w0 w1 w2 R0 R1 R2 P0 P1 P2 forward backward mk Hf Hb Hs (b, 0%Z) (map (Z.mul p) b1) (map (Z.mul q) b2) ltac:(rewrite map_length; exact L1) ltac:(rewrite map_length; exact L2) M).
      specialize (E ltac:(intros x Hx; rewrite (img_value (map _ b1)), (img_value (map _ b2)), (value_map_mul p), (value_map_mul q); unfold cadd; cbn [fst snd]; f_equal; apply H; apply in_pixels_iff; exact Hx) t Ht). rewrite (img_value (fft_apply _ _ _ _ _ _ _ _ _ _ (map _ b1))), (img_value (fft_apply _ _ _ _ _ _ _ _ _ _ (map _ b2))) in E. injection E as E. fold band in E. rewrite !Mul in E by assumption. exact E.
  Qed.
End Filter.

(** * Cases *)
(** A line of pixels, from which the mean is removed (and that is multiplied by the number of pixels): the filter that rejects only the null frequency *)
Definition line_sum (n : nat) (b : list Z) : Z := fold_right Z.add 0%Z (map (fun k => value 1 n b (0%nat, 0%nat, k%nat)) (seq 0 n)).
Definition without_mean (n : nat) (b : list Z) : list Z := map (fun x => Z.of_nat n * x - line_sum n b)%Z b.
Lemma line_pixel n t : in_image 1 1 n t -> exists k, t = (0%nat, 0%nat, k%nat) /\ k < n.
Proof. destruct t as [[i j] k]. intros (Hi & Hj & Hk). exists k. split; auto. repeat f_equal; lia. Qed.
Lemma without_mean_at n b k : block_of_image 1 1 n b -> k < n -> (value 1 n (without_mean n b) (0%nat, 0%nat, k%nat) = Z.of_nat n * value 1 n b (0%nat, 0%nat, k%nat) - line_sum n b)%Z.
Proof.
  intros L Hk. unfold without_mean. generalize (line_sum n b). intros s. unfold value, padded_pixel. cbn [Nat.mul Nat.add]. rewrite nth_error_map. destruct (nth_error b k) eqn:E; [reflexivity|]. exfalso. apply nth_error_None in E. unfold block_of_image in L.
  assert (D := Nat.div_mod_eq n 2). assert (M := Nat.mod_upper_bound n 2 ltac:(lia)). lia.
Qed.
Lemma sum_perm l l' : Permutation l l' -> fold_right Z.add 0%Z l = fold_right Z.add 0%Z l'.
Proof. induction 1; cbn [fold_right]; lia. Qed.
Lemma nodup_map {A B} (f : A -> B) l : (forall x y, In x l -> In y l -> f x = f y -> x = y) -> NoDup l -> NoDup (map f l).
Proof.
  intros H Nl. induction Nl as [|a l Na Nl IH]; cbn [map]; constructor; [|apply IH; intros x y Hx Hy; apply H; right; auto].
  intros Hin. apply in_map_iff in Hin as (x & E & Hx). apply Na. rewrite <- (H x a); auto; [right|left]; auto.
Qed.
Lemma shift_perm n a : Permutation (map (fun k => (k + a) mod n) (seq 0 n)) (seq 0 n).
Proof.
  apply NoDup_Permutation_bis.
  - apply nodup_map.
    + intros x y Hx Hy E. apply in_seq in Hx, Hy. assert (D1 := Nat.div_mod_eq (x + a) n). assert (D2 := Nat.div_mod_eq (y + a) n). rewrite E in D1. set (u := (x + a) / n) in *. set (v := (y + a) / n) in *. clearbody u v.
      assert (C : u = v \/ u < v \/ v < u) by lia. destruct C as [->|[C|C]]; [lia| |].
      * assert (n * (u + 1) <= n * v) by (apply Nat.mul_le_mono_l; lia). lia.
      * assert (n * (v + 1) <= n * u) by (apply Nat.mul_le_mono_l; lia). lia.
    + apply seq_NoDup.
  - rewrite map_length. auto.
  - intros x Hx. apply in_map_iff in Hx as (y & <- & Hy). apply in_seq in Hy. apply in_seq. assert (B := Nat.mod_upper_bound (y + a) n). lia.
Qed.
Lemma without_mean_ok n : 0 < n -> keeps_size 1 1 n (without_mean n) /\ moves_along 1 1 n (without_mean n) /\ linear_without_mean 1 1 n (without_mean n).
Proof.
  intros Pn. split; [|split].
  - intros b L. unfold without_mean, block_of_image. rewrite map_length. exact L.
  - intros [[ax ay] az] b1 b2 L1 L2 H t Ht. destruct (line_pixel n t Ht) as (k & -> & Hk). assert (Sh : forall k, Xyz_Spec.shifted 1 1 n (ax, ay, az) (0%nat, 0%nat, k%nat) = (0%nat, 0%nat, ((k + az) mod n)%nat)) by (intros x; unfold Xyz_Spec.shifted; rewrite !Nat.mod_1_r; reflexivity). rewrite Sh.
    assert (Hm : (k + az) mod n < n) by (apply Nat.mod_upper_bound; lia). rewrite !without_mean_at by assumption. rewrite (H (0%nat, 0%nat, k%nat)), Sh by exact Ht. f_equal. unfold line_sum.
    rewrite <- (sum_perm _ _ (Permutation_map (fun k => value 1 n b1 (0%nat, 0%nat, k%nat)) (shift_perm n az))). rewrite map_map. f_equal. apply map_ext_in. intros x Hx. apply in_seq in Hx. rewrite (H (0%nat, 0%nat, x%nat)), Sh by (cbn; lia). reflexivity.
  - intros b1 b2 p q b L1 L2 H t Ht. destruct (line_pixel n t Ht) as (k & -> & Hk). rewrite !without_mean_at by assumption. assert (E := H (0%nat, 0%nat, k%nat) Ht).
    assert (S : (q * line_sum n b2 = p * line_sum n b1 + Z.of_nat n * b)%Z).
    { unfold line_sum. assert (G : forall l, (forall x, In x l -> x < n) -> (q * fold_right Z.add 0 (map (fun k => value 1 n b2 (0%nat, 0%nat, k%nat)) l) = p * fold_right Z.add 0 (map (fun k => value 1 n b1 (0%nat, 0%nat, k%nat)) l) + Z.of_nat (length l) * b)%Z).
      { induction l as [|x l IH]; intros Hl; [cbn; lia|]. cbn [map fold_right length]. rewrite Nat2Z.inj_succ. specialize (IH (fun y Hy => Hl y (or_intror Hy))). assert (Ex := H (0%nat, 0%nat, x%nat)). cbn [in_image] in Ex. specialize (Ex ltac:(specialize (Hl x (or_introl eq_refl)); lia)). lia. }
      rewrite G by (intros x Hx; apply in_seq in Hx; lia). rewrite seq_length. reflexivity. }
    rewrite Z.mul_sub_distr_l, S. replace (q * (Z.of_nat n * value 1 n b2 (0%nat, 0%nat, k%nat)))%Z with (Z.of_nat n * (q * value 1 n b2 (0%nat, 0%nat, k%nat)))%Z by lia. rewrite E. lia.
Qed.
(** Two spots, then the same brighter on a background, then moved by three pixels; the padding does not matter. *)
Definition spots : list Z := [0; 0; 0; 0; 0; 0; 0; 3; 6; 9; 7; 3; 0; 0; 0; 2; 5; 8; 5; 2; 0; 0; 0; 0; 0; 0; 77; 78]%Z.
Definition brighter : list Z := map (fun x => 2 * x + 5)%Z spots.
Definition spots_moved : list Z := skipn 3 (firstn 26 spots) ++ firstn 3 spots ++ [1; 2]%Z.
Definition found (o : outcome (option tracked * list bool)) : list (list num) := match o with Val (Some c, _) => map (map (fun x => match x with Num q => Num (Qred q) | _ => x end)) (positions c) | _ => [] end.
Example C156_case : let blank := repeat false 26 in
  usual_size 1 1 26 /\ clean_map 1 1 26 blank /\ block_of_image 1 1 26 spots /\ block_of_image 1 1 26 spots_moved /\
  (forall t, in_image 1 1 26 t -> (1 * value 1 26 brighter t = 2 * value 1 26 spots t + 5)%Z) /\ (forall t, in_image 1 1 26 t -> value 1 26 spots_moved t = value 1 26 spots (Xyz_Spec.shifted 1 1 26 (0%nat, 0%nat, 3%nat) t)) /\
  inner 1 1 26 (0%nat, 0%nat, 6%nat) /\ strict_summit 1 1 26 (value 1 26 (without_mean 26 spots)) (0%nat, 0%nat, 9%nat) /\ bright_enough 1 1 26 (value 1 26 (without_mean 26 spots)) 5 (0%nat, 0%nat, 9%nat) /\ top_pixel 1 1 26 (value 1 26 (without_mean 26 spots)) (0%nat, 0%nat, 9%nat) /\
  found (track_xyz 1 1 26 (without_mean 26) 5 false false 1 blank spots) = [[Num 0; Num 0; Num (155 # 17)]; [Num 0; Num 0; Num 17]]%Q /\
  found (track_xyz 1 1 26 (without_mean 26) 7 false false 1 blank spots) = [[Num 0; Num 0; Num (155 # 17)]]%Q /\
  found (track_xyz 1 1 26 (without_mean 26) 5 true false 1 blank spots) = [[Num 0; Num 0; Num (155 # 17)]; [Num 0; Num 0; Num 17]]%Q /\
  found (track_xyz 1 1 26 (without_mean 26) 10 false true 1 blank brighter) = [[Num (155 # 17); Num 0; Num 0]; [Num 17; Num 0; Num 0]]%Q /\
  track_xyz 1 1 26 (without_mean 26) 8 true false 1 blank spots = UB /\
  found (track_xyz 1 1 26 (without_mean 26) 5 false false 1 blank spots_moved) = [[Num 0; Num 0; Num (104 # 17)]; [Num 0; Num 0; Num 14]]%Q.
Proof.
  intros blank.
  assert (All : forall (Q : pixel -> Prop), (forall k, In k (seq 0 26) -> Q (0%nat, 0%nat, k%nat)) -> forall t, in_image 1 1 26 t -> Q t). { intros Q H t Ht. destruct (line_pixel 26 t Ht) as (k & -> & Hk). apply H. apply in_seq. lia. }
  split. { unfold usual_size, usual. lia. }
  split. { split; [reflexivity|]. intros i j k (_ & _ & _ & M). exfalso. apply nth_error_In, repeat_spec in M. discriminate. }
  split; [reflexivity|]. split; [reflexivity|].
  split. { apply All. intros k Hk. cbn [seq In] in Hk. repeat (destruct Hk as [<-|Hk]; [vm_compute; reflexivity|]). destruct Hk. }
  split. { apply All. intros k Hk. cbn [seq In] in Hk. repeat (destruct Hk as [<-|Hk]; [vm_compute; reflexivity|]). destruct Hk. }
  split. { split; [cbn; lia|]. unfold interior, away, large. repeat split; lia. }
  split. { intros [[i j] k] [Ad|Ad]; apply next_cases in Ad; destruct Ad as [(Lg & _)|[(Lg & _)|(_ & Ex & Ey & Ez)]]; try lia; [subst i j k; vm_compute; reflexivity|]. assert (i = 0) by lia. assert (j = 0) by lia. assert (k = 8) by lia. subst. vm_compute. reflexivity. }
  split. { vm_compute. discriminate. }
  split. { intros a b c [Ha _] [Hb _] [Hc W]. assert (a = 0) by lia. assert (b = 0) by lia. assert (D : c = 7 \/ c = 8 \/ c = 9 \/ c = 10 \/ c = 11) by lia. subst. destruct D as [->|[->|[->|[->| ->]]]]; vm_compute; split; discriminate. }
  repeat split; vm_compute; reflexivity.
Qed.
Print Assumptions C156_track. Print Assumptions C156_threshold. Print Assumptions C156_auto. Print Assumptions C156_dark_refuted. Print Assumptions C156_light. Print Assumptions C156_moved. Print Assumptions C156_filter. Print Assumptions C156_case.

(** C124: the first run of boo and the next ones. *)
Require Import ZArith List Bool Arith Lia Sorted.
Require Import Verif.Base Verif.SortU Verif.ListX Verif.Box_Model Verif.Box_Spec Verif.RTree_Model Verif.RTree_Spec Verif.RTree_Heuristics Verif.Index_Model Verif.Index_Spec Verif.Index_Props Verif.Particles_Model Verif.Particles_Spec Verif.Particles_Props Verif.Rerun_Model.
Import ListNotations.
Local Open Scope nat_scope.

(** * Specification *)
(** [lo] and [hi] are the smallest and the largest coordinates along axis k. *)
Definition extent (l : list (list Z)) (k : nat) (lo hi : Z) : Prop :=
  (exists q, In q l /\ coord k q = lo) /\ (exists q, In q l /\ coord k q = hi) /\ forall q, In q l -> (lo <= coord k q <= hi)%Z.
(** Along each axis the set is wider than twice the margin, and no particle is exactly at the margin from a face. *)
Definition wide_and_clear (l : list (list Z)) (margin : Z) : Prop :=
  forall k lo hi, k < 3 -> extent l k lo hi -> (2 * margin < hi - lo)%Z /\ forall q, In q l -> (coord k q <> lo + margin /\ coord k q <> hi - margin)%Z.
(** At least the margin away from all faces. *)
Definition deep (l : list (list Z)) (margin : Z) (p : list Z) : Prop := forall k lo hi, k < 3 -> extent l k lo hi -> (lo + margin <= coord k p <= hi - margin)%Z.

(** * Proofs *)
Lemma extent_ex l k : l <> [] -> exists lo hi, extent l k lo hi.
Proof.
  induction l as [|p l IH]; [congruence|]. intros _. destruct l as [|q l].
  - exists (coord k p), (coord k p). split; [exists p; cbn; auto|]. split; [exists p; cbn; auto|]. intros x [<-|[]]. lia.
  - destruct IH as [lo [hi [[a [Ha Ea]] [[b [Hb Eb]] B]]]]; [discriminate|]. exists (Z.min lo (coord k p)), (Z.max hi (coord k p)).
    split; [destruct (Z.min_spec lo (coord k p)) as [[_ ->]|[_ ->]]; [exists a; split; [right; auto|auto]|exists p; split; [left; auto|auto]]|].
    split; [destruct (Z.max_spec hi (coord k p)) as [[_ ->]|[_ ->]]; [exists p; split; [left; auto|auto]|exists b; split; [right; auto|auto]]|].
    intros x [<-|Hx]; [lia|]. specialize (B x Hx). lia.
Qed.
Lemma extent_fun l k lo hi lo' hi' : extent l k lo hi -> extent l k lo' hi' -> lo = lo' /\ hi = hi'.
Proof. intros [[a [Ha Ea]] [[b [Hb Eb]] B]] [[a' [Ha' Ea']] [[b' [Hb' Eb']] B']]. pose proof (B _ Ha'). pose proof (B _ Hb'). pose proof (B' _ Ha). pose proof (B' _ Hb). lia. Qed.
Lemma coord3 p : point3 p -> p = [coord 0 p; coord 1 p; coord 2 p].
Proof. intros [x [y [z ->]]]. reflexivity. Qed.
Lemma bounds3 p : point3 p -> bounds p 0 = [(coord 0 p, coord 0 p); (coord 1 p, coord 1 p); (coord 2 p, coord 2 p)].
Proof. intros [x [y [z ->]]]. unfold bounds. cbn [map]. rewrite !Z.sub_0_r, !Z.add_0_r. reflexivity. Qed.

Section Same.
  Variables (c : config) (st : particles) (margin : Z).
  Hypotheses (Hok : config_ok c) (Hd : dims c = 3) (Hne : pts st <> []) (Hp : Forall point3 (pts st)) (Hm : (0 <= margin)%Z)
    (Hr : forall p k, In p (pts st) -> k < 3 -> (dbl_min <= coord k p <= dbl_max)%Z) (Hw : wide_and_clear (pts st) margin).
  Lemma points p : In p (pts st) -> point3 p.
  Proof. rewrite Forall_forall in Hp. auto. Qed.
  Lemma first_ok : exists ids, inside_first c st margin false = Some ids /\ picks (pts st) (fun _ p => deep (pts st) margin p) ids.
  Proof.
    destruct (extent_ex (pts st) 0 Hne) as [l0 [h0 E0]]. destruct (extent_ex (pts st) 1 Hne) as [l1 [h1 E1]]. destruct (extent_ex (pts st) 2 Hne) as [l2 [h2 E2]].
    set (h := [(l0, h0); (l1, h1); (l2, h2)]). set (items := map (fun p => bounds p 0) (pts st)).
    assert (Hi : forall b, In b items <-> exists p, In p (pts st) /\ b = [(coord 0 p, coord 0 p); (coord 1 p, coord 1 p); (coord 2 p, coord 2 p)]).
    { intros b. unfold items. rewrite in_map_iff. split; intros [p [A B]].
      - exists p. split; [auto|]. rewrite <- A. apply bounds3. apply points. auto.
      - exists p. split; [|auto]. rewrite B. apply bounds3. apply points. auto. }
    assert (Hh : is_hull h items).
    { split.
      - intros b Hb. apply Hi in Hb as [p [Hpi ->]]. pose proof (proj2 (proj2 E0) p Hpi). pose proof (proj2 (proj2 E1) p Hpi). pose proof (proj2 (proj2 E2) p Hpi). unfold sub, h. repeat constructor; cbn; lia.
      - intros b Lb B. destruct b as [|[a0 b0] [|[a1 b1] [|[a2 b2] [|? ?]]]]; try discriminate Lb.
        assert (G : forall p, In p (pts st) -> (a0 <= coord 0 p <= b0 /\ a1 <= coord 1 p <= b1 /\ a2 <= coord 2 p <= b2)%Z).
        { intros p Hpi. assert (X : sub [(coord 0 p, coord 0 p); (coord 1 p, coord 1 p); (coord 2 p, coord 2 p)] [(a0, b0); (a1, b1); (a2, b2)]) by (apply B, Hi; eauto).
          unfold sub in X. inversion X as [|? ? ? ? X0 Y0]; subst. inversion Y0 as [|? ? ? ? X1 Y1]; subst. inversion Y1 as [|? ? ? ? X2 Y2]; subst. cbn in X0, X1, X2. lia. }
        destruct E0 as [[q0 [Q0 F0]] [[r0 [R0 G0]] _]], E1 as [[q1 [Q1 F1]] [[r1 [R1 G1]] _]], E2 as [[q2 [Q2 F2]] [[r2 [R2 G2]] _]].
        pose proof (G _ Q0). pose proof (G _ R0). pose proof (G _ Q1). pose proof (G _ R1). pose proof (G _ Q2). pose proof (G _ R2). unfold sub, h. repeat constructor; cbn; lia. }
    destruct (C12_rstar_inside c items h margin false Hok Hd) as [t [ids [r [Et [Ei [Rg [So [I1 I2]]]]]]]].
    - unfold items. intros E. apply map_eq_nil in E. auto.
    - rewrite Forall_forall. intros b Hb. apply Hi in Hb as [p [Hpi ->]]. split; [reflexivity|]. pose proof (Hr p 0 Hpi). pose proof (Hr p 1 Hpi). pose proof (Hr p 2 Hpi). repeat constructor; cbn [fst snd]; lia.
    - exact Hh.
    - reflexivity.
    - exists ids. split. { unfold inside_first, make_index. fold items. rewrite Et. cbn [pindex]. exact Ei. }
      split; [exact So|]. destruct (Hw 0 l0 h0 ltac:(lia) E0) as [W0 C0]. destruct (Hw 1 l1 h1 ltac:(lia) E1) as [W1 C1]. destruct (Hw 2 l2 h2 ltac:(lia) E2) as [W2 C2].
      assert (Hdeep : forall p, deep (pts st) margin p <-> (l0 + margin <= coord 0 p <= h0 - margin /\ l1 + margin <= coord 1 p <= h1 - margin /\ l2 + margin <= coord 2 p <= h2 - margin)%Z).
      { intros p. split; [intros D; split; [apply (D 0); auto|split; [apply (D 1); auto|apply (D 2); auto]]|]. intros [D0 [D1 D2]] k lo hi Hk E. destruct k as [|[|[|k]]]; [| | |lia].
        - destruct (extent_fun _ _ _ _ _ _ E E0) as [-> ->]. auto. - destruct (extent_fun _ _ _ _ _ _ E E1) as [-> ->]. auto. - destruct (extent_fun _ _ _ _ _ _ E E2) as [-> ->]. auto. }
      assert (Ni : forall i b, nth_error items i = Some b -> exists p, nth_error (pts st) i = Some p /\ In p (pts st) /\ b = [(coord 0 p, coord 0 p); (coord 1 p, coord 1 p); (coord 2 p, coord 2 p)]).
      { intros i b E. unfold items in E. rewrite nth_error_map in E. destruct (nth_error (pts st) i) as [p|] eqn:Ep; [|discriminate]. cbn in E. injection E as <-. exists p. split; [auto|]. assert (J := nth_error_In _ _ Ep). split; [auto|]. apply bounds3, points, J. }
      intros i. split.
      + intros Hin. destruct (I1 i Hin) as [b [Eb A]]. destruct (Ni i b Eb) as [p [Ep [Hpi ->]]]. exists p. split; [auto|]. apply Hdeep. cbn [axes] in A.
        pose proof (A 0 _ _ ltac:(cbn; lia) eq_refl eq_refl) as A0. pose proof (A 1 _ _ ltac:(cbn; lia) eq_refl eq_refl) as A1. pose proof (A 2 _ _ ltac:(cbn; lia) eq_refl eq_refl) as A2. cbn [fst snd] in A0, A1, A2. specialize (A0 W0). specialize (A1 W1). specialize (A2 W2). lia.
      + intros [p [Ep D]]. apply Hdeep in D. assert (Hpi := nth_error_In _ _ Ep). assert (Eb : nth_error items i = Some [(coord 0 p, coord 0 p); (coord 1 p, coord 1 p); (coord 2 p, coord 2 p)]).
        { unfold items. rewrite nth_error_map, Ep. cbn [option_map]. f_equal. apply bounds3, points, Hpi. }
        apply (I2 i _ Eb).
        * intros n e f Hn He Hf Hwd. destruct n as [|[|[|n]]]; cbn in Hn, He, Hf; try lia; injection He as <-; injection Hf as <-; cbn [fst snd]; lia.
        * right. destruct Rg as [Lr Rn]. pose proof (Rn 0 _ eq_refl) as R0. pose proof (Rn 1 _ eq_refl) as R1. pose proof (Rn 2 _ eq_refl) as R2. cbn [axes Nat.ltb Nat.leb andb fst snd] in R0, R1, R2.
          rewrite (proj2 (Z.ltb_lt _ _) W0) in R0. rewrite (proj2 (Z.ltb_lt _ _) W1) in R1. rewrite (proj2 (Z.ltb_lt _ _) W2) in R2.
          destruct r as [|r0 [|r1 [|r2 [|? ?]]]]; try discriminate Lr. cbn in R0, R1, R2. injection R0 as ->. injection R1 as ->. injection R2 as ->.
          specialize (C0 p Hpi). specialize (C1 p Hpi). specialize (C2 p Hpi). unfold meets. repeat constructor; cbn [fst snd]; lia.
  Qed.
  Lemma later_ok : exists ids, inside_later st margin false = Some ids /\ picks (pts st) (fun _ p => deep (pts st) margin p) ids.
  Proof.
    destruct (C38_image_coordinates st margin false Hne) as [ids [E [So P]]]; [|exact Hm|].
    { rewrite Forall_forall. intros p Hpi. split; [apply points; auto|]. rewrite (coord3 p (points p Hpi)). pose proof (Hr p 0 Hpi). pose proof (Hr p 1 Hpi). pose proof (Hr p 2 Hpi). unfold dbl_min in *. repeat constructor; lia. }
    exists ids. split; [exact E|]. split; [exact So|]. intros i. rewrite P. split; intros [p [Ep D]]; exists p; (split; [auto|]).
    - intros k lo hi Hk [_ [_ B]]. destruct (D k Hk) as [[q [Hq Q]] [q' [Hq' Q']]]. pose proof (B q Hq). pose proof (B q' Hq'). lia.
    - intros k Hk. destruct (extent_ex (pts st) k Hne) as [lo [hi Ex]]. specialize (D k lo hi Hk Ex). destruct Ex as [[a [Ha Ea]] [[b [Hb Eb]] _]]. split; [exists a|exists b]; (split; [auto|lia]).
  Qed.
End Same.

(** * Theorems *)
(** The first run and the later ones keep the same particles, when the set is wide enough and no particle is exactly at the margin: those at least the margin away from all faces.
    The values written are the same. *)
Theorem C124_same c st margin : config_ok c -> dims c = 3 -> pts st <> [] -> Forall point3 (pts st) -> (0 <= margin)%Z ->
  (forall p k, In p (pts st) -> k < 3 -> (dbl_min <= coord k p <= dbl_max)%Z) -> wide_and_clear (pts st) margin ->
  exists ids, inside_first c st margin false = Some ids /\ inside_later st margin false = Some ids /\ picks (pts st) (fun _ p => deep (pts st) margin p) ids /\
    forall T (dflt : T) v, first_run c st margin false dflt v = later_run st margin false dflt v.
Proof.
  intros Hok Hd Hne Hp Hm Hr Hw. destruct (first_ok c st margin) as [ids [E P]]; auto. destruct (later_ok c st margin) as [ids' [E' P']]; auto.
  assert (ids' = ids). { destruct P as [S1 P], P' as [S2 P']. apply ssorted_ext; auto. intros x. rewrite P, P'. tauto. } subst ids'.
  exists ids. split; [auto|]. split; [auto|]. split; [auto|]. intros T dflt v. unfold first_run, later_run. rewrite E, E'. reflexivity.
Qed.
(** The particles that get coarse-grained values are the same too: those deeper than the margin, or all of them when there is none. *)
Theorem C124_coarse c st margin : config_ok c -> dims c = 3 -> pts st <> [] -> Forall point3 (pts st) -> (0 <= margin)%Z ->
  (forall p k, In p (pts st) -> k < 3 -> (dbl_min <= coord k p <= dbl_max)%Z) -> wide_and_clear (pts st) margin ->
  exists ids, second_first c st margin false = Some ids /\ second_later st margin false = Some ids /\ StronglySorted lt ids /\
    forall i, In i ids <-> exists p, nth_error (pts st) i = Some p /\ (deep (pts st) margin p \/ forall q, In q (pts st) -> ~ deep (pts st) margin q).
Proof.
  intros Hok Hd Hne Hp Hm Hr Hw. destruct (C124_same c st margin Hok Hd Hne Hp Hm Hr Hw) as [ids [E [E' [[So P] _]]]]. exists (or_all (length (pts st)) ids).
  unfold second_first, second_later. rewrite E, E'. split; [reflexivity|]. split; [reflexivity|]. destruct ids as [|i0 ids].
  - cbn [or_all]. split; [apply seq_ssorted|]. assert (N : forall q, In q (pts st) -> ~ deep (pts st) margin q). { intros q Hq Dq. apply In_nth_error in Hq. destruct Hq as [j Ej]. apply (proj2 (P j)). exists q. auto. }
    intros i. rewrite in_seq. split; [|intros [p [Ei _]]; apply nth_error_lt in Ei; lia]. intros Hi. destruct (nth_error (pts st) i) as [p|] eqn:Ei; [exists p; auto|]. apply nth_error_None in Ei. lia.
  - cbn [or_all]. split; [exact So|]. intros i. rewrite (P i). split; intros [p [Ei D]]; exists p; [tauto|]. split; [auto|]. destruct D as [D|D]; [auto|]. exfalso.
    destruct (proj1 (P i0) (or_introl eq_refl)) as [q [Eq Dq]]. apply (D q); auto. apply nth_error_In in Eq. auto.
Qed.
(** What is written: with a selection that is not empty, the values of the particles selected and nothing for the others; with an empty one, the values of all. *)
Theorem C124_values {T} (dflt : T) ids v : StronglySorted lt ids -> (forall i, In i ids -> i < length v) ->
  exists v', kept_values dflt (length v) ids v = Some v' /\ length v' = length v /\
    forall i x, nth_error v i = Some x -> nth_error v' i = Some (if in_dec Nat.eq_dec i (or_all (length v) ids) then x else dflt).
Proof.
  intros So B. destruct ids as [|i0 ids].
  - exists v. split; [reflexivity|]. split; [reflexivity|]. intros i x E. rewrite E. destruct (in_dec Nat.eq_dec i (or_all (length v) [])) as [_|N]; [reflexivity|]. exfalso. apply N. apply in_seq. apply nth_error_lt in E. lia.
  - apply (C39_remove_outside dflt (i0 :: ids) v So B).
Qed.

(** * Cases and what fails *)
Definition unit60 : Z := (2 ^ 60)%Z.
Definition at60 (l : list (list Z)) : particles := new_particles (map (map (Z.mul unit60)) l) [] 1.
Example C124_case : let st := at60 [[1; 1; 1]; [9; 9; 9]; [5; 5; 5]; [5; 4; 6]; [5; 5; 8]]%Z in
  pts st <> [] /\ Forall point3 (pts st) /\ (forall p k, In p (pts st) -> k < 3 -> (dbl_min <= coord k p <= dbl_max)%Z) /\ wide_and_clear (pts st) (2 * unit60) /\
  inside_first lib_config st (2 * unit60) false = Some [2; 3] /\ first_run lib_config st (2 * unit60) false 0 [10; 20; 30; 40; 50] = Some [0; 0; 30; 40; 0].
Proof.
  cbv zeta. split; [discriminate|]. split; [repeat constructor; repeat eexists|]. split.
  { intros p k Hp Hk. cbn [at60 new_particles pts map In] in Hp. destruct k as [|[|[|k]]]; [| | |lia]; repeat (destruct Hp as [<-|Hp]; [vm_compute; split; discriminate|]); contradiction. }
  split; [|split; vm_compute; reflexivity].
  set (l := pts (at60 _)). assert (E : forall k, k < 3 -> extent l k unit60 (9 * unit60)).
  { intros k Hk. split; [exists (map (Z.mul unit60) [1; 1; 1]%Z)|split; [exists (map (Z.mul unit60) [9; 9; 9]%Z)|]].
    - split; [left; reflexivity|]. destruct k as [|[|[|k]]]; [reflexivity|reflexivity|reflexivity|lia].
    - split; [right; left; reflexivity|]. destruct k as [|[|[|k]]]; [reflexivity|reflexivity|reflexivity|lia].
    - intros q Hq. cbn [l at60 new_particles pts map In] in Hq. destruct k as [|[|[|k]]]; [| | |lia]; repeat (destruct Hq as [<-|Hq]; [vm_compute; split; discriminate|]); contradiction. }
  intros k lo hi Hk Ex. destruct (extent_fun _ _ _ _ _ _ Ex (E k Hk)) as [-> ->]. split; [vm_compute; reflexivity|].
  intros q Hq. cbn [l at60 new_particles pts map In] in Hq. destruct k as [|[|[|k]]]; [| | |lia]; repeat (destruct Hq as [<-|Hq]; [vm_compute; split; discriminate|]); contradiction.
Qed.
(** A slab thinner than twice the margin: the first run keeps the middle of it, the later runs find nobody inside and keep everybody, on the sides too. *)
Theorem C124_slab_refuted : exists st margin (v : list nat), first_run lib_config st margin false 0 v <> later_run st margin false 0 v /\
  first_run lib_config st margin false 0 v = Some [0; 0; 30] /\ later_run st margin false 0 v = Some [10; 20; 30].
Proof. exists (at60 [[1; 1; 1]; [9; 9; 3]; [5; 5; 2]]%Z), (2 * unit60)%Z, [10; 20; 30]. split; [vm_compute; discriminate|]. split; vm_compute; reflexivity. Qed.
(** With the option for walls (z not restricted), a layer of particles lying on the bottom wall is dropped for the most part by the first run, and kept by the later runs. *)
Definition bottom_layer : list (list Z) := flat_map (fun x : Z => map (fun y : Z => [x; y; 1]%Z) [1; 4; 5; 6; 9]%Z) [1; 4; 5; 6; 7; 8; 9; 10]%Z ++
  flat_map (fun x : Z => map (fun y : Z => [x; y; x - 150]%Z) [1; 4; 5; 6; 9]%Z) [204; 205; 206; 209]%Z.
Theorem C124_wall_refuted : exists st margin (ids : list nat), inside_first lib_config st margin true = Some [33; 36; 37; 38; 41; 42; 43; 46; 47; 48; 51; 52; 53] /\ inside_later st margin true = Some ids /\ In 6 ids /\ nth_error (pts st) 6 = Some (map (Z.mul unit60) [4; 4; 1]%Z) /\ length ids = 30.
Proof. exists (at60 bottom_layer), (2 * unit60)%Z. eexists. split; [vm_compute; reflexivity|]. split; [vm_compute; reflexivity|]. split; [left; reflexivity|]. split; vm_compute; reflexivity. Qed.

Print Assumptions C124_same.
Print Assumptions C124_values.
Print Assumptions C124_slab_refuted.
Print Assumptions C124_wall_refuted.
Print Assumptions C124_coarse.

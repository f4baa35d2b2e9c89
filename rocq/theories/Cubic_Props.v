(** Property C159: the order parameters Wl of getInvarients depend only on the angles between bonds. *)
Require Import Reals Qreals QArith ZArith List Bool Arith Lia Lra Ring.
Require Import Verif.Base Verif.ListX Verif.Traj_Model Verif.Particles_Model Verif.Particles_Spec Verif.Ngb_Spec Verif.PBoo_Model Verif.PBoo_Spec Verif.PBoo_Proofs Verif.PBoo_Props Verif.Boo_Model Verif.Boo_Spec Verif.Boo_Proofs Verif.Boo_Props Verif.Euler_Model Verif.Euler_Spec Verif.Euler_Cplx Verif.Euler_Proofs Verif.Euler_Geom Verif.Euler_Turn Verif.Euler_Harm Verif.Euler_Props.
Require Import Verif.Angle_Model Verif.Angle_Spec Verif.Angle_Proofs Verif.Angle_Props Verif.Cubic_Model Verif.Cubic_Spec Verif.Cubic_Proofs Verif.Cubic_Link Verif.Cubic_Bonds.
Import ListNotations.
Local Open Scope R_scope.

(** The symbol (l l l; 0 0 0) by Racah's formula *)
Definition symbol0 (l : nat) : R := Q2R (racah_coef (Z.of_nat l) 0 0) * sqrt (Q2R (racah_rad (Z.of_nat l) 0 0)).

(** W is a real number. *)
Lemma w_is_real q l : degree l -> length q = 36%nat -> realq q -> exists w, get_w q l = Val (w, 0).
Proof.
  intros Hl Lq Rq. destruct (C57_values R 0 1 Rplus Rmult Rminus Ropp RTheory divide_15 w3j_real q l (triples l) real_table_length Lq Hl (Rq l Hl) (triples_NoDup l Hl) (triples_in l)) as [w [n [_ [_ [_ E]]]]].
  unfold get_w. rewrite E. unfold divide_15. destruct (Req_EM_T n 0); [eexists; reflexivity|]. cbn [fst snd]. eexists. f_equal. apply pair_eq; [reflexivity|]. unfold Rdiv. ring.
Qed.
Lemma same_w a b l n : degree l -> length a = 36%nat -> length b = 36%nat -> realq a -> norms a l = Val n -> norms b l = Val n -> tri l (xs a l) (xs a l) (xs a l) = tri l (xs b l) (xs b l) (xs b l) -> exists w, get_w a l = Val (w, 0) /\ get_w b l = Val (w, 0).
Proof. intros Hl La Lb Ra Na Nb E. destruct (w_is_real a l Hl La Ra) as [w W]. exists w. split; auto. rewrite (get_w_value b l n), <- E by auto. rewrite (get_w_value a l n) in W by auto. exact W. Qed.

(** The half-turns of C135 do not change W, whatever the coefficients. *)
Theorem C159_turned axis q : axis <> null_vec -> length q = 36%nat -> realq q -> exists q', rotate_around axis q = Val q' /\ forall l, degree l -> exists w, get_w q l = Val (w, 0) /\ get_w q' l = Val (w, 0).
Proof.
  intros Na Lq Rq. destruct (C135_products axis q q Na Lq Lq Rq Rq) as [q' [q'' [E [_ K]]]]. exists q'. split; auto. intros l Hl. destruct (K l Hl) as [x [n [_ [_ [N1 N2]]]]].
  destruct axis as [[a b] c]. destruct (rotate_around_ok a b c q Na Lq Rq) as [res [E' [L' [R' T]]]]. rewrite E in E'. apply val_inj in E'. subst res. apply (same_w q q' l n); auto. symmetry. apply (tri_turned _ _ _ _ _ _ _ _ _ l (unit_sq a b c Na)); auto.
Qed.

(** * Angles *)
Lemma own_list ps ngb c k : k = / INR (length (nth c ngb [])) * 1 -> map (placed ps) (own_bonds ngb c) = map (fun v => (k, v)) (bonds_at ps ngb c).
Proof. intros ->. unfold own_bonds, bonds_at. rewrite !map_map. apply map_ext. intros q. unfold placed. cbn [fst snd]. rewrite diff_minus. auto. Qed.
Lemma map_fst_combine {A B} : forall (l : list A) (m : list B), length l = length m -> map fst (combine l m) = l.
Proof. induction l as [|a l IH]; intros [|b m] H; cbn in *; try discriminate; auto. f_equal. auto. Qed.
Lemma map_snd_combine {A B} : forall (l : list A) (m : list B), length l = length m -> map snd (combine l m) = m.
Proof. induction l as [|a l IH]; intros [|b m] H; cbn in *; try discriminate; auto. f_equal. auto. Qed.
Lemma bonds_true ps ngb c : apart ps ngb -> true_bonds (bonds_at ps ngb c).
Proof. intros A. apply Forall_forall. intros v I. apply in_map_iff in I as [q [<- I]]. rewrite minus_null. apply A. auto. Qed.
Lemma angles_matched k vs ws : same_angles vs ws -> true_bonds vs -> true_bonds ws -> matched (map (fun p => (k, p)) (combine vs ws)).
Proof.
  intros [L H] Tv Tw z z' I I'. apply in_map_iff in I as [p [<- I]]. apply in_map_iff in I' as [p' [<- I']]. cbn [fst snd]. unfold true_bonds in *. rewrite Forall_forall in Tv, Tw.
  assert (G : forall p, In p (combine vs ws) -> exists i, (i < length vs)%nat /\ p = (nth i vs null_vec, nth i ws null_vec)).
  { intros x Ix. apply (In_nth _ _ (null_vec, null_vec)) in Ix as [i [Hi E]]. rewrite combine_nth in E by auto. rewrite combine_length, <- L, Nat.min_id in Hi. eauto. }
  destruct (G _ I) as [i [Hi ->]], (G _ I') as [j [Hj ->]]. cbn [fst snd]. split; [apply Tv, nth_In; auto|]. split; [apply Tw, nth_In; lia|]. auto.
Qed.
(** Two particles, of the same sample or not, whose bonds make the same angles have the same W. *)
Theorem C159_angles ps ngb c ps' ngb' c' l : length ngb = length ps -> ngb_ok ngb -> apart ps ngb -> (c < length ps)%nat -> length ngb' = length ps' -> ngb_ok ngb' -> apart ps' ngb' -> (c' < length ps')%nat -> degree l ->
  same_angles (bonds_at ps ngb c) (bonds_at ps' ngb' c') -> exists b b' w, boo_at harmonic ps ngb c = Val b /\ boo_at harmonic ps' ngb' c' = Val b' /\ get_w b l = Val (w, 0) /\ get_w b' l = Val (w, 0).
Proof.
  intros Hn Hok A Hc Hn' Hok' A' Hc' Hl SA. destruct (own_made ps ngb Hn Hok c Hc) as [b [Eb Mb]]. destruct (own_made ps' ngb' Hn' Hok' c' Hc') as [b' [Eb' Mb']]. exists b, b'.
  assert (LL : length (nth c ngb []) = length (nth c' ngb' [])) by (destruct SA as [L _]; unfold bonds_at in L; rewrite !map_length in L; auto).
  set (k := / INR (length (nth c ngb [])) * 1) in *. rewrite (own_list ps ngb c k) in Mb by auto. rewrite (own_list ps' ngb' c' k) in Mb' by (unfold k; rewrite LL; auto).
  set (zs := map (fun p => (k, p)) (combine (bonds_at ps ngb c) (bonds_at ps' ngb' c'))).
  assert (MT : matched zs) by (apply angles_matched; auto using bonds_true).
  assert (E1 : map left_of zs = map (fun v => (k, v)) (bonds_at ps ngb c)). { unfold zs. rewrite map_map. transitivity (map (fun v : vec => (k, v)) (map fst (combine (bonds_at ps ngb c) (bonds_at ps' ngb' c')))); [rewrite map_map; auto|]. rewrite map_fst_combine by apply SA. auto. }
  assert (E2 : map right_of zs = map (fun v => (k, v)) (bonds_at ps' ngb' c')). { unfold zs. rewrite map_map. transitivity (map (fun v : vec => (k, v)) (map snd (combine (bonds_at ps ngb c) (bonds_at ps' ngb' c')))); [rewrite map_map; auto|]. rewrite map_snd_combine by apply SA. auto. }
  rewrite <- E1 in Mb. rewrite <- E2 in Mb'. destruct (norm_matched b b' zs l Hl MT Mb Mb') as [n [N1 N2]]. destruct (same_w b b' l n) as [w [W1 W2]]; auto; try apply Mb; try apply Mb'; [apply (tri_matched b b' zs); auto|]. exists w. auto.
Qed.

(** * Moving the sample *)
Definition both (f : vec -> vec) (ps : list vec) (i : R * (nat * nat)) : R * (vec * vec) := (fst i, (get_diff ps (fst (snd i)) (snd (snd i)), get_diff (map f ps) (fst (snd i)) (snd (snd i)))).
Lemma moved_w f ps is b b' l : similarity f -> inside ps is -> made b (map (placed ps) is) -> made b' (map (placed (map f ps)) is) -> degree l -> exists w, get_w b l = Val (w, 0) /\ get_w b' l = Val (w, 0).
Proof.
  intros Sf I Mb Mb' Hl. set (zs := map (both f ps) is). assert (E1 : map left_of zs = map (placed ps) is) by (unfold zs; rewrite map_map; auto). assert (E2 : map right_of zs = map (placed (map f ps)) is) by (unfold zs; rewrite map_map; auto).
  assert (MT : matched zs).
  { intros z z' Iz Iz'. apply in_map_iff in Iz as [i [<- Ii]]. apply in_map_iff in Iz' as [j [<- Ij]]. unfold inside in I. rewrite Forall_forall in I. destruct (I _ Ii) as [A1 [A2 A3]]. destruct (I _ Ij) as [B1 [B2 B3]]. unfold both. cbn [fst snd]. rewrite !diff_minus, !nth_moved by auto.
    split; [rewrite minus_null; auto|]. split; [rewrite minus_null; apply similar_inj; auto|]. symmetry. apply cosine_similar; auto. }
  rewrite <- E1 in Mb. rewrite <- E2 in Mb'. destruct (norm_matched b b' zs l Hl MT Mb Mb') as [n [N1 N2]]. apply (same_w b b' l n); auto; try apply Mb; try apply Mb'. apply (tri_matched b b' zs); auto.
Qed.
Theorem C159_moved f ps ngb c l : similarity f -> length ngb = length ps -> ngb_ok ngb -> apart ps ngb -> (c < length ps)%nat -> degree l ->
  exists b b' w, boo_at harmonic ps ngb c = Val b /\ boo_at harmonic (map f ps) ngb c = Val b' /\ get_w b l = Val (w, 0) /\ get_w b' l = Val (w, 0).
Proof.
  intros Sf Hn Hok A Hc Hl. destruct (own_made ps ngb Hn Hok c Hc) as [b [Eb Mb]]. destruct (own_made (map f ps) ngb ltac:(rewrite map_length; auto) Hok c ltac:(rewrite map_length; auto)) as [b' [Eb' Mb']]. exists b, b'.
  destruct (moved_w f ps _ b b' l Sf (own_inside ps ngb c Hn Hok A) Mb Mb' Hl) as [w [W1 W2]]. exists w. auto.
Qed.
Theorem C159_coarse f ps ngb c l : similarity f -> length ngb = length ps -> ngb_ok ngb -> symmetric ngb -> irreflexive ngb -> (forall p, (p < length ps)%nat -> nth p ngb [] <> []) -> apart ps ngb -> (c < length ps)%nat -> degree l ->
  exists b b' w, cg_boo_at harmonic ps ngb c = Val b /\ cg_boo_at harmonic (map f ps) ngb c = Val b' /\ get_w b l = Val (w, 0) /\ get_w b' l = Val (w, 0).
Proof.
  intros Sf Hn Hok Sy Ir Full A Hc Hl. destruct (cg_made ps ngb c Hn Hok Sy Ir Full Hc) as [b [Eb Mb]]. destruct (cg_made (map f ps) ngb c ltac:(rewrite map_length; auto) Hok Sy Ir ltac:(rewrite map_length; auto) ltac:(rewrite map_length; auto)) as [b' [Eb' Mb']]. exists b, b'.
  destruct (moved_w f ps _ b b' l Sf (cg_inside ps ngb c Hn Hok A) Mb Mb' Hl) as [w [W1 W2]]. exists w. auto.
Qed.

(** * Values *)
Lemma power_32 a : 0 < a -> Rpower a (3 / 2) = sqrt a * sqrt a * sqrt a.
Proof. intros H. replace (3 / 2) with (1 + / 2) by lra. rewrite Rpower_plus, Rpower_1, Rpower_sqrt by auto. rewrite sqrt_sqrt by lra. auto. Qed.
Lemma ez_zero l j : degree l -> (j <= 2 * l)%nat -> j <> l -> full (of_bond harmonic ez) l j = C0.
Proof. intros Hl Hj N. apply full_zero. apply ez_orders; auto. destruct (Nat.leb_spec l j); lia. Qed.
Lemma ez_center l : degree l -> full (of_bond harmonic ez) l l = rc (sqrt (amp l)).
Proof.
  intros Hl. replace (full (of_bond harmonic ez) l l) with (ratm (of_bond harmonic ez) l 0) by (rewrite <- (full_up _ l 0); f_equal; lia). unfold ez. rewrite bond_order0 by (auto; apply ez_nonnull). fold ez. change (0, 0, 1) with ez. rewrite norm_ez. replace (1 / 1) with 1 by field. rewrite P_one. unfold amp. f_equal. ring.
Qed.
Lemma norm_bond v l : degree l -> v <> null_vec -> norms (of_bond harmonic v) l = Val (amp l).
Proof.
  intros Hl N. rewrite (made_norm _ _ l (made_bond v)) by (auto; apply Forall_cons; auto). f_equal. unfold pairing, sum_over. cbn [fold_right fst snd]. replace (cosine v v) with 1; [rewrite P_one; ring|]. assert (Q := norm3_pos _ N). unfold cosine. destruct v as [[x y] z]. rewrite dot_norm. field. lra.
Qed.
Lemma w_symbol l m1 m2 : degree l -> legal l m1 m2 -> wz R 0 w3j_real l m1 m2 = Q2R (racah_coef (Z.of_nat l) m1 m2) * sqrt (Q2R (racah_rad (Z.of_nat l) m1 m2)).
Proof.
  intros Hl LG. assert (W := w3j_value l m1 m2 Hl LG). unfold get_w3j in W. destruct (w3j_range l m1 m2 Hl LG) as [E I]. rewrite E in W. cbn [obind] in W. rewrite (at_index_ok w3j_real 0) in W by (rewrite real_table_length; auto). apply val_eq in W. exact W.
Qed.
Lemma tri_ez l : degree l -> Cmul (kappa l) (tri l (xs (of_bond harmonic ez) l) (xs (of_bond harmonic ez) l) (xs (of_bond harmonic ez) l)) = rc (symbol0 l * (sqrt (amp l) * sqrt (amp l) * sqrt (amp l))).
Proof.
  intros Hl. rewrite <- inv_tri by (auto using bond_length). unfold legal_pairs. rewrite rsum_prod, zrange_sum. cbn [fst snd].
  assert (Z1 : forall j1 j2, (j1 <= 2 * l)%nat -> (j1 <> l \/ j2 <> l) -> (j2 <= 2 * l)%nat -> (if legalb l ((Z.of_nat j1 - Z.of_nat l)%Z, (Z.of_nat j2 - Z.of_nat l)%Z) then tz R 0 Rplus Rmult Rminus Ropp w3j_real (of_bond harmonic ez) l (Z.of_nat j1 - Z.of_nat l) (Z.of_nat j2 - Z.of_nat l) else C0) = C0).
  { intros j1 j2 H1 N H2. destruct (legalb _ _); auto. unfold tz. change (cmul R Rplus Rmult Rminus) with Cmul. rewrite cscal_rc. fold (full (of_bond harmonic ez) l j1). fold (full (of_bond harmonic ez) l j2). generalize (rat (of_bond harmonic ez) l (- (Z.of_nat j1 - Z.of_nat l) - (Z.of_nat j2 - Z.of_nat l))). intros t. destruct N as [N|N].
    - rewrite (ez_zero l j1) by auto. change (cplx R) with (R * R)%type in t. match goal with |- @eq _ ?a ?b => change (@eq (R * R)%type a b) end. ring.
    - rewrite (ez_zero l j2) by auto. change (cplx R) with (R * R)%type in t. match goal with |- @eq _ ?a ?b => change (@eq (R * R)%type a b) end. ring. }
  rewrite (sumc_one _ (S (2 * l)) l); [|lia|].
  - rewrite zrange_sum, (sumc_one _ (S (2 * l)) l); [|lia|].
    + replace (Z.of_nat l - Z.of_nat l)%Z with 0%Z by lia. cbn [legalb fst snd Z.add Z.abs]. unfold legalb. cbn [fst snd Z.add Z.abs]. rewrite (proj2 (Z.leb_le 0 (Z.of_nat l))) by lia. unfold tz. change (cmul R Rplus Rmult Rminus) with Cmul. rewrite cscal_rc, w_symbol by (auto; unfold legal; lia). fold (symbol0 l).
      cbn [Z.sub Z.opp Z.add]. replace (rat (of_bond harmonic ez) l 0) with (full (of_bond harmonic ez) l l) by (unfold full; f_equal; lia). rewrite ez_center by auto. rewrite <- !rc_mul. f_equal. ring.
    + intros j2 H2 N. apply Z1; auto; lia.
  - intros j1 H1 N. rewrite zrange_sum. apply sumc_zero. intros j2 H2. apply Z1; auto; lia.
Qed.
(** A single bond has for W the symbol (l l l; 0 0 0), in any direction. *)
Theorem C159_single v l : v <> null_vec -> degree l -> get_w (of_bond harmonic v) l = Val (symbol0 l, 0).
Proof.
  intros N Hl. assert (AP := amp_pos l). rewrite (get_w_value _ l (amp l)) by (auto using bond_length, norm_bond). f_equal.
  assert (Q : forall u, u <> null_vec -> cosine u u = 1) by (intros u Nu; assert (Q := norm3_pos _ Nu); unfold cosine; destruct u as [[x y] z]; rewrite dot_norm; field; lra).
  replace (tri l (xs (of_bond harmonic v) l) (xs (of_bond harmonic v) l) (xs (of_bond harmonic v) l)) with (F3 l ez ez ez).
  2: { change (F3 l ez ez ez = F3 l v v v). apply F3_angles; auto using ez_nonnull; rewrite !Q; auto using ez_nonnull. }
  unfold F3. rewrite tri_ez by auto. unfold divide_15. destruct (Req_EM_T (amp l) 0); [lra|]. rewrite power_32 by auto. unfold rc. cbn [fst snd]. assert (S0 := sqrt_lt_R0 _ AP). apply pair_eq; field; lra.
Qed.
Lemma symbol0_2 : symbol0 2 = - sqrt (2 / 35).
Proof.
  assert (D : degree 2) by (split; [exists 1%nat; auto|lia]). assert (W := w_symbol 2 0 0 D ltac:(unfold legal; lia)). unfold symbol0. rewrite <- W. unfold wz. replace (index_of 2 0 0) with 1%nat by reflexivity. unfold w3j_real. cbn [map nth w3j_table fst snd]. replace (Q2R (-1)) with (-1) by (unfold Q2R; cbn; lra). replace (Q2R (2 # 35)) with (2 / 35) by (unfold Q2R; cbn; lra). ring.
Qed.
(** A particle without neighbours has W = 0. *)
Theorem C159_isolated ps ngb c l : length ngb = length ps -> ngb_ok ngb -> (c < length ps)%nat -> nth c ngb [] = [] -> degree l -> exists b, boo_at harmonic ps ngb c = Val b /\ get_w b l = Val (0, 0).
Proof.
  intros Hn Hok Hc E Hl. destruct (own_made ps ngb Hn Hok c Hc) as [b [Eb Mb]]. exists b. split; auto. unfold own_bonds in Mb. rewrite E in Mb. cbn [map] in Mb. assert (N := made_norm b [] l Mb (Forall_nil _) Hl). unfold pairing, sum_over in N. cbn [fold_right] in N. rewrite Rmult_0_r in N.
  rewrite (get_w_value b l 0) by (auto; apply Mb). f_equal. rewrite (tri_made b [] l Mb Hl). cbn [wsum fold_right]. unfold divide_15. destruct (Req_EM_T 0 0); [|congruence]. cring.
Qed.

(** * getWl *)
Lemma w_entry m1 m2 i w : w3j_index 2 m1 m2 = Val i -> nth_error w3j_real i = Some w -> get_w3j w3j_real 2 m1 m2 = Val w.
Proof. intros E H. unfold get_w3j. rewrite E. cbn [obind]. unfold at_index. rewrite H. auto. Qed.
Lemma short_value q a p r n : length q = 36%nat -> ratm q 2 0 = (a, 0) -> ratm q 2 1 = C0 -> ratm q 2 2 = (p, r) -> norms q 2 = Val n ->
  get_w_short q 2 = Val (divide_15 n (12 * (sqrt (2 / 35) * (a * (p * p + r * r) - a * a * a)), 0)) /\ n = 2 * (p * p + r * r) + a * a.
Proof.
  intros Lq E0 E1 E2 N. assert (D : degree 2) by (split; [exists 1%nat; auto|lia]).
  destruct (C57_values R 0 1 Rplus Rmult Rminus Ropp RTheory divide_15 w3j_real q 2 [(0, 0); (0, 1); (0, 2); (1, 1)]%Z real_table_length Lq D) as [w [n' [W [N' [E _]]]]].
  - rewrite E0. auto.
  - apply NoDup_cons; [cbn; intuition discriminate|]. apply NoDup_cons; [cbn; intuition discriminate|]. apply NoDup_cons; [cbn; intuition discriminate|]. apply NoDup_cons; [cbn; intuition discriminate|constructor].
  - intros m1 m2. cbn [In]. split.
    + intros [X|[X|[X|[X|[]]]]]; injection X as <- <-; cbn; lia.
    + intros [H1 H2]. assert (C : (m1 = 0 /\ m2 = 0 \/ m1 = 0 /\ m2 = 1 \/ m1 = 0 /\ m2 = 2 \/ m1 = 1 /\ m2 = 1)%Z) by lia. destruct C as [[-> ->]|[[-> ->]|[[-> ->]|[-> ->]]]]; auto.
  - rewrite N' in N. apply val_inj in N. subst n'.
    assert (W00 : w 0%Z 0%Z = - sqrt (2 / 35)). { apply val_inj. rewrite <- W by (unfold legal; lia). erewrite w_entry; [|reflexivity|reflexivity]. f_equal. cbn [fst snd]. replace (Q2R (-1)) with (-1) by (unfold Q2R; cbn; lra). replace (Q2R (2 # 35)) with (2 / 35) by (unfold Q2R; cbn; lra). ring. }
    assert (W02 : w 0%Z 2%Z = sqrt (2 / 35)). { apply val_inj. rewrite <- W by (unfold legal; lia). erewrite w_entry; [|reflexivity|reflexivity]. f_equal. cbn [fst snd]. replace (Q2R 1) with 1 by (unfold Q2R; cbn; lra). replace (Q2R (2 # 35)) with (2 / 35) by (unfold Q2R; cbn; lra). ring. }
    assert (Z0 : rat q 2 0 = (a, 0)) by (rewrite <- E0; reflexivity). assert (Z1 : rat q 2 1 = (0, 0)) by (change (0, 0) with C0; rewrite <- E1; reflexivity). assert (Z2 : rat q 2 2 = (p, r)) by (rewrite <- E2; reflexivity).
    assert (Y2 : rat q 2 (-2) = (p, - r)). { change (rat q 2 (-2)) with (cconj R Ropp (ratm q 2 2)). rewrite E2. reflexivity. }
    split.
    + unfold get_w_short. rewrite E. f_equal. f_equal. cbn [map fst snd Z.sub Z.opp Z.add]. rewrite Z0, Z1, Z2, Y2. rewrite W00, W02. generalize (rat q 2 (-1)), (w 0 1)%Z, (w 1 1)%Z. intros [t1 t2] x y. unfold csum. cbn [fold_left]. unfold twelve, ktwo, cadd, cscal, cmul, c0. cbn [fst snd]. apply pair_eq; ring.
    + rewrite (norm_ok R 0 1 Rplus Rmult q 2 D Lq) in N'. apply val_inj in N'. rewrite <- N'. cbn [seq map]. rewrite E0, E1, E2. unfold re_prod, ksum, ktwo, C0. cbn [fold_left fst snd]. ring.
Qed.
(** getWl, the shorter sum, depends on the direction of a bond: 12 times the symbol along z, 3/4 of it along x. *)
Theorem C159_wl_refuted : get_w_short (of_bond harmonic (0, 0, 1)) 2 = Val (12 * - sqrt (2 / 35), 0) /\ get_w_short (of_bond harmonic (1, 0, 0)) 2 = Val (3 / 4 * - sqrt (2 / 35), 0) /\
  get_w (of_bond harmonic (0, 0, 1)) 2 = Val (- sqrt (2 / 35), 0) /\ get_w (of_bond harmonic (1, 0, 0)) 2 = Val (- sqrt (2 / 35), 0).
Proof.
  assert (D : degree 2) by (split; [exists 1%nat; auto|lia]). assert (Nx : (1, 0, 0) <> null_vec) by (intros E; injection E; lra). assert (Nz := ez_nonnull).
  assert (AP := amp_pos 2). assert (S0 := sqrt_lt_R0 _ AP). assert (SS := sqrt_sqrt _ (Rlt_le _ _ AP)).
  assert (T0 : forall v, v <> null_vec -> get_w (of_bond harmonic v) 2 = Val (- sqrt (2 / 35), 0)) by (intros v N; rewrite C159_single, symbol0_2 by auto; auto).
  split; [|split; [|split; auto]].
  - change (0, 0, 1) with ez. destruct (short_value (of_bond harmonic ez) (sqrt (amp 2)) 0 0 (amp 2)) as [E _]; auto using bond_length, norm_bond.
    + replace (ratm (of_bond harmonic ez) 2 0) with (full (of_bond harmonic ez) 2 2) by reflexivity. rewrite ez_center by auto. auto.
    + apply ez_orders; auto; lia.
    + apply ez_orders; auto; lia.
    + rewrite E. f_equal. unfold divide_15. destruct (Req_EM_T (amp 2) 0); [lra|]. rewrite power_32 by auto. cbn [fst snd]. apply pair_eq; field; lra.
  - destruct (ratm (of_bond harmonic (1, 0, 0)) 2 2) as [p r] eqn:E2.
    assert (E0 : ratm (of_bond harmonic (1, 0, 0)) 2 0 = (- / 2 * sqrt (amp 2), 0)).
    { rewrite bond_order0 by auto. unfold rc. apply pair_eq; auto. rewrite (proj1 (proj2 (C157_legendre _))). fold (amp 2). assert (N2 : norm3 (1, 0, 0) = 1) by (unfold norm3; replace (1 * 1 + 0 * 0 + 0 * 0) with 1 by ring; apply sqrt_1). rewrite N2. field. }
    assert (E1 : ratm (of_bond harmonic (1, 0, 0)) 2 1 = C0).
    { destruct (C135_vertical 1 (of_bond harmonic (1, 0, 0)) ltac:(lra) (bond_length _) (real_bond _)) as [res [E V]]. rewrite C135_bond in E by auto. apply val_inj in E. subst res. specialize (V 2%nat 1%nat D ltac:(lia)). cbn [Nat.even] in V.
      replace (turned (0, 0, 1) (1, 0, 0)) with (scaled (-1) (1, 0, 0)) in V by (unfold turned, scaled, minus, dot; f_equal; [f_equal|]; field). rewrite C135_direction in V by (auto; lra). destruct (ratm (of_bond harmonic (1, 0, 0)) 2 1) as [t u]. cbn [fst snd] in V. injection V as V1 V2. unfold C0. apply pair_eq; lra. }
    destruct (short_value (of_bond harmonic (1, 0, 0)) (- / 2 * sqrt (amp 2)) p r (amp 2)) as [E NN]; auto using bond_length, norm_bond.
    rewrite E. f_equal. unfold divide_15. destruct (Req_EM_T (amp 2) 0); [lra|]. rewrite power_32 by auto. cbn [fst snd]. assert (PR : p * p + r * r = 3 / 8 * (sqrt (amp 2) * sqrt (amp 2))) by (rewrite SS; replace (- / 2 * sqrt (amp 2) * (- / 2 * sqrt (amp 2))) with (/ 4 * (sqrt (amp 2) * sqrt (amp 2))) in NN by field; rewrite SS in NN; lra).
    rewrite PR. apply pair_eq; field; lra.
Qed.
(** Two clusters with the same angles, at other distances and in other directions; the sample of C157_case meets the hypotheses on samples. *)
Example C159_case : same_angles [(2, 0, 0); (0, 0, 5)] [(0, 3, 0); (1, 0, 0)] /\ true_bonds [(2, 0, 0); (0, 0, 5)] /\ true_bonds [(0, 3, 0); (1, 0, 0)] /\
  let ps := [(0, 0, 0); (2, 0, 0); (0, 0, 5)] in let ngb := [[1; 2]; [0]; [0]]%nat in length ngb = length ps /\ ngb_ok ngb /\ apart ps ngb /\ similarity quarter_turn /\ bonds_at ps ngb 0 = [(2, 0, 0); (0, 0, 5)] /\
  exists b b' w, boo_at harmonic ps ngb 0 = Val b /\ boo_at harmonic (map quarter_turn ps) ngb 0 = Val b' /\ get_w b 2 = Val (w, 0) /\ get_w b' 2 = Val (w, 0).
Proof.
  destruct C157_case as [Ln [Hok [Sy [Ir [A [Full [D [Sf [B _]]]]]]]]].
  assert (N2 : norm3 (2, 0, 0) = 2) by (unfold norm3; replace (2 * 2 + 0 * 0 + 0 * 0) with (2 * 2) by ring; apply sqrt_square; lra). assert (N5 : norm3 (0, 0, 5) = 5) by (unfold norm3; replace (0 * 0 + 0 * 0 + 5 * 5) with (5 * 5) by ring; apply sqrt_square; lra).
  assert (N3 : norm3 (0, 3, 0) = 3) by (unfold norm3; replace (0 * 0 + 3 * 3 + 0 * 0) with (3 * 3) by ring; apply sqrt_square; lra). assert (N1 : norm3 (1, 0, 0) = 1) by (unfold norm3; replace (1 * 1 + 0 * 0 + 0 * 0) with 1 by ring; apply sqrt_1).
  split; [split; auto|].
  - intros [|[|i]] [|[|j]] Hi Hj; cbn in Hi, Hj; try lia; cbn [nth]; unfold cosine; rewrite ?N1, ?N2, ?N3, ?N5; unfold dot; field.
  - split; [apply Forall_cons; [intros E; injection E; lra|apply Forall_cons; [intros E; injection E; lra|constructor]]|]. split; [apply Forall_cons; [intros E; injection E; lra|apply Forall_cons; [intros E; injection E; lra|constructor]]|].
    cbv zeta. do 5 (split; [assumption|]). apply C159_moved; auto. cbn. lia.
Qed.

Print Assumptions C159_turned.
Print Assumptions C159_angles.
Print Assumptions C159_moved.
Print Assumptions C159_coarse.
Print Assumptions C159_single.
Print Assumptions C159_isolated.
Print Assumptions C159_wl_refuted.
Print Assumptions C159_case.

(** Property C157: the order parameters Ql depend only on the angles between bonds. *)
Require Import Reals ZArith List Bool Arith Lia Lra Ring Sorted.
Require Import Verif.Base Verif.ListX Verif.Traj_Model Verif.Particles_Model Verif.Particles_Spec Verif.Ngb_Spec Verif.PBoo_Model Verif.PBoo_Spec Verif.PBoo_Proofs Verif.PBoo_Props Verif.Boo_Model Verif.Boo_Spec Verif.Boo_Props Verif.Euler_Model Verif.Euler_Spec Verif.Euler_Cplx Verif.Euler_Proofs Verif.Euler_Geom Verif.Euler_Turn Verif.Euler_Harm Verif.Euler_Props.
Require Import Verif.Angle_Model Verif.Angle_Spec Verif.Angle_Proofs.
Import ListNotations.
Local Open Scope R_scope.

(** The product of the coefficients of two bonds depends only on the angle between them. *)
Theorem C157_angle v w l : v <> null_vec -> w <> null_vec -> degree l -> inner (of_bond harmonic v) (of_bond harmonic w) l = Val ((2 * INR l + 1) / (4 * PI) * P l (cosine v w)).
Proof.
  intros Nv Nw Hl. rewrite inner_herm by (auto using bond_length; apply real_bond; auto). rewrite herm_bonds by auto. reflexivity.
Qed.
(** The first Legendre polynomials; all of them are 1 at 1 and between -1 and 1. *)
Theorem C157_legendre x : P 0 x = 1 /\ P 2 x = (3 * x * x - 1) / 2 /\ forall l, degree l -> P l 1 = 1 /\ P l (- x) = P l x.
Proof.
  split; [|split].
  - unfold P, legendre, legendre_derivative, rfact, Binomial.C. cbn. field.
  - unfold P, legendre, legendre_derivative, rfact, Binomial.C. cbn. field.
  - intros l Hl. split; [apply P_one|apply P_even; auto].
Qed.
Lemma P_bound v w l : v <> null_vec -> w <> null_vec -> degree l -> -1 <= P l (cosine v w) <= 1.
Proof.
  intros Nv Nw Hl. assert (N : forall u, u <> null_vec -> norms (of_bond harmonic u) l = Val (amp l)).
  { intros u Nu. rewrite (made_norm _ _ l (made_bond u)); auto; [|repeat constructor; auto]. f_equal. unfold pairing, sum_over. cbn [fold_right fst snd]. replace (cosine u u) with 1.
    - rewrite P_one. ring.
    - unfold cosine. destruct u as [[x y] z]. rewrite dot_norm. assert (Q := norm3_pos _ Nu). field. lra. }
  destruct (C59_cauchy_schwarz R 0 1 Rplus Rmult Rminus Ropp RTheory (fun x => 0 <= x) (fun x y Hx Hy => Rplus_le_le_0_compat x y Hx Hy) Rle_0_sqr (of_bond harmonic v) (of_bond harmonic w) l (bond_length v) (bond_length w) Hl (real_bond v l Hl) (real_bond w l Hl)) as [na [nb [ab [E1 [E2 [E3 [_ CS]]]]]]].
  rewrite N in E1, E2 by auto. apply val_inj in E1, E2. rewrite C157_angle in E3 by auto. apply val_inj in E3. fold (amp l) in E3. subst na nb ab. assert (A := amp_pos l). assert (Q : 0 <= amp l * amp l * (1 - P l (cosine v w) * P l (cosine v w))) by lra. set (p := P l (cosine v w)) in *.
  assert (0 <= 1 - p * p). { apply Rmult_le_reg_l with (amp l * amp l); [nra|lra]. } split; nra.
Qed.

(** * Particles *)
Definition placed (ps : list vec) (i : R * (nat * nat)) : R * vec := (fst i, get_diff ps (fst (snd i)) (snd (snd i))).
Definition own_bonds (ngb : list (list nat)) (c : nat) : list (R * (nat * nat)) := map (fun q => (/ INR (length (nth c ngb [])) * 1, (c, q))) (nth c ngb []).
Lemma diff_minus ps p q : get_diff ps p q = minus (nth q ps null_vec) (nth p ps null_vec).
Proof. unfold get_diff, minus. unfold null_vec. destruct (nth q ps (0, 0, 0)) as [[x y] z], (nth p ps (0, 0, 0)) as [[x' y'] z']. auto. Qed.
Lemma minus_null a b : minus a b = null_vec <-> a = b.
Proof. destruct a as [[x y] z], b as [[x' y'] z']. unfold minus, null_vec. split; [intros E; injection E as E1 E2 E3; f_equal; [f_equal|]; lra|]. intros E. injection E as -> -> ->. f_equal; [f_equal|]; ring. Qed.
Lemma harm_sym ps p q : one_harm harmonic ps p q = one_harm harmonic ps q p.
Proof.
  unfold one_harm. rewrite !diff_minus. set (a := nth q ps null_vec). set (b := nth p ps null_vec). assert (D : {a = b} + {a <> b}).
  { destruct a as [[x y] z], b as [[x' y'] z']. destruct (Req_EM_T x x') as [->|N]; [|right; congruence]. destruct (Req_EM_T y y') as [->|N]; [|right; congruence]. destruct (Req_EM_T z z') as [->|N]; [left; auto|right; congruence]. }
  destruct D as [->|N]; auto. rewrite <- (C135_direction (-1) (minus a b)); [|lra|rewrite minus_null; auto]. f_equal. destruct a as [[x y] z], b as [[x' y'] z']. unfold scaled, minus. f_equal; [f_equal|]; ring.
Qed.
Section Particles.
  Variables (ps : list vec) (ngb : list (list nat)).
  Hypothesis Hn : length ngb = length ps.
  Hypothesis Hok : ngb_ok ngb.
  Lemma own_made c : (c < length ps)%nat -> exists b, boo_at harmonic ps ngb c = Val b /\ made b (map (placed ps) (own_bonds ngb c)).
  Proof.
    intros Hc. destruct (nth_error_ex ngb c ltac:(lia)) as [l E]. assert (El : nth c ngb [] = l) by (apply nth_error_nth; auto). eexists. split; [unfold boo_at; apply (C77_one _ _ _ _ _ _ _ Hn Hok c l E)|].
    unfold own_bonds. rewrite El. unfold mean_from. rewrite map_length. destruct (Nat.eqb_spec (length l) 0) as [Z0|Z0]; [destruct l; [apply made_zero|discriminate]|].
    assert (M : made (total boo_add boo_zero (map (one_harm harmonic ps c) l)) ([] ++ concat (map (fun q => [(1, get_diff ps c q)]) l))).
    { unfold total. apply made_total; [|apply made_zero]. clear. induction l; cbn [map]; constructor; auto. apply made_bond. }
    apply (made_div _ (length l)) in M. replace (map (placed ps) (map (fun q => (/ INR (length l) * 1, (c, q))) l)) with (reweigh (/ INR (length l)) ([] ++ concat (map (fun q => [(1, get_diff ps c q)]) l))); auto.
    cbn [app]. unfold reweigh. rewrite concat_map, !map_map. cbn [map fst snd]. generalize (/ INR (length l)). intros k. clear. induction l as [|q l IH]; cbn [map concat app]; auto. rewrite <- IH. reflexivity.
  Qed.
  Lemma own_ok c : apart ps ngb -> bonds_ok' (map (placed ps) (own_bonds ngb c)).
  Proof.
    intros A. apply Forall_forall. intros x I. apply in_map_iff in I as [i [<- I]]. unfold own_bonds in I. apply in_map_iff in I as [q [<- I]]. unfold placed. cbn [fst snd]. rewrite diff_minus, minus_null. apply A. auto.
  Qed.
End Particles.
Lemma sum_scal {A} k (f : A -> R) l : sum_over l (fun a => k * f a) = k * sum_over l f.
Proof. unfold sum_over. induction l as [|a l IH]; cbn [fold_right]; [ring|]. rewrite IH. ring. Qed.
Lemma sum_ext {A} (f g : A -> R) l : (forall a, In a l -> f a = g a) -> sum_over l f = sum_over l g.
Proof. unfold sum_over. induction l as [|a l IH]; intros H; cbn [fold_right]; auto. rewrite IH by (intros; apply H; right; auto). rewrite H by (left; auto). auto. Qed.
Lemma sum_map {A B} (g : B -> A) (f : A -> R) l : sum_over (map g l) f = sum_over l (fun b => f (g b)).
Proof. unfold sum_over. induction l as [|a l IH]; cbn [map fold_right]; auto. rewrite IH. auto. Qed.
Lemma own_pairing ps ngb c d l : nth c ngb [] <> [] -> nth d ngb [] <> [] -> pairing l (map (placed ps) (own_bonds ngb c)) (map (placed ps) (own_bonds ngb d)) = mean_P l (bonds_at ps ngb c) (bonds_at ps ngb d).
Proof.
  intros Nc Nd. unfold pairing, mean_P, bonds_at, own_bonds. rewrite !map_length, !sum_map. set (lc := nth c ngb []) in *. set (ld := nth d ngb []) in *.
  assert (P0 : forall l : list nat, l <> [] -> INR (length l) <> 0) by (intros [|x l'] H; [congruence|apply not_0_INR; discriminate]). assert (P1 := P0 _ Nc). assert (P2 := P0 _ Nd).
  transitivity (sum_over lc (fun q => / (INR (length lc) * INR (length ld)) * sum_over ld (fun q' => P l (cosine (minus (nth q ps null_vec) (nth c ps null_vec)) (minus (nth q' ps null_vec) (nth d ps null_vec)))))).
  - apply sum_ext. intros q _. rewrite !sum_map. rewrite <- sum_scal. apply sum_ext. intros q' _. unfold placed. cbn [fst snd]. rewrite !diff_minus. field. auto.
  - rewrite sum_scal. unfold Rdiv. rewrite Rmult_comm. f_equal. apply sum_ext. intros q _. rewrite sum_map. auto.
Qed.
Lemma ql_value b ws l : made b ws -> bonds_ok' ws -> degree l -> get_ql b l = Val (sqrt (pairing l ws ws)).
Proof.
  intros M O Hl. unfold get_ql. rewrite (made_norm b ws l M O Hl). cbn [omap]. f_equal. f_equal. unfold amp. rewrite plus_INR, mult_INR. cbn [INR]. assert (Pi := PI_RGT_0). assert (L := pos_INR l). field. lra.
Qed.
Lemma normed_value a b ws ws' l : made a ws -> made b ws' -> bonds_ok' ws -> bonds_ok' ws' -> degree l -> 0 < pairing l ws ws -> 0 < pairing l ws' ws' ->
  normed_product a b l = Val (pairing l ws ws' / sqrt (pairing l ws ws * pairing l ws' ws')).
Proof.
  intros Ma Mb Oa Ob Hl P1 P2. unfold normed_product. rewrite (made_inner a b ws ws' l), (made_norm a ws l), (made_norm b ws' l) by auto. cbn [obind omap]. f_equal. assert (A := amp_pos l).
  replace (amp l * pairing l ws ws * (amp l * pairing l ws' ws')) with (amp l * amp l * (pairing l ws ws * pairing l ws' ws')) by ring. rewrite sqrt_mult_alt by nra. rewrite sqrt_square by lra.
  assert (Q : 0 < sqrt (pairing l ws ws * pairing l ws' ws')) by (apply sqrt_lt_R0; nra). field. lra.
Qed.

(** Ql of a particle: the root of the mean, over all the pairs of its bonds, of the Legendre polynomial of their angle. *)
Theorem C157_own ps ngb c l : length ngb = length ps -> ngb_ok ngb -> apart ps ngb -> (c < length ps)%nat -> nth c ngb [] <> [] -> degree l ->
  exists b, boo_at harmonic ps ngb c = Val b /\ get_ql b l = Val (sqrt (mean_P l (bonds_at ps ngb c) (bonds_at ps ngb c))).
Proof.
  intros Hn Hok A Hc Nc Hl. destruct (own_made ps ngb Hn Hok c Hc) as [b [E M]]. exists b. split; auto. rewrite (ql_value b _ l M (own_ok ps ngb c A) Hl), own_pairing by auto. auto.
Qed.
(** Without neighbours it is null. *)
Theorem C157_isolated ps ngb c l : length ngb = length ps -> ngb_ok ngb -> (c < length ps)%nat -> nth c ngb [] = [] -> degree l -> exists b, boo_at harmonic ps ngb c = Val b /\ get_ql b l = Val 0.
Proof.
  intros Hn Hok Hc Nc Hl. destruct (own_made ps ngb Hn Hok c Hc) as [b [E M]]. exists b. split; auto. unfold own_bonds in M. rewrite Nc in M. rewrite (ql_value b _ l M (Forall_nil _) Hl). f_equal. cbn. apply sqrt_0.
Qed.
(** The normed product of two particles, which tells whether they are similar: the same mean over the pairs of bonds of both. *)
Theorem C157_product ps ngb c d l : length ngb = length ps -> ngb_ok ngb -> apart ps ngb -> (c < length ps)%nat -> (d < length ps)%nat -> nth c ngb [] <> [] -> nth d ngb [] <> [] -> degree l ->
  0 < mean_P l (bonds_at ps ngb c) (bonds_at ps ngb c) -> 0 < mean_P l (bonds_at ps ngb d) (bonds_at ps ngb d) ->
  exists a b, boo_at harmonic ps ngb c = Val a /\ boo_at harmonic ps ngb d = Val b /\
    normed_product a b l = Val (mean_P l (bonds_at ps ngb c) (bonds_at ps ngb d) / sqrt (mean_P l (bonds_at ps ngb c) (bonds_at ps ngb c) * mean_P l (bonds_at ps ngb d) (bonds_at ps ngb d))).
Proof.
  intros Hn Hok A Hc Hd Nc Nd Hl P1 P2. destruct (own_made ps ngb Hn Hok c Hc) as [a [Ea Ma]]. destruct (own_made ps ngb Hn Hok d Hd) as [b [Eb Mb]]. exists a, b. split; auto. split; auto.
  rewrite (normed_value a b _ _ l Ma Mb (own_ok ps ngb c A) (own_ok ps ngb d A) Hl); rewrite !own_pairing by auto; auto.
Qed.
(** Ql is between 0 and 1, and 1 for one bond. *)
Lemma sum_le {A} (f g : A -> R) l : (forall a, In a l -> f a <= g a) -> sum_over l f <= sum_over l g.
Proof. unfold sum_over. induction l as [|a l IH]; intros H; cbn [fold_right]; [lra|]. assert (X := H a (or_introl eq_refl)). assert (Y := IH (fun b I => H b (or_intror I))). lra. Qed.
Lemma sum_const {A} k (l : list A) : sum_over l (fun _ => k) = INR (length l) * k.
Proof. unfold sum_over. induction l as [|a l IH]; [cbn; ring|]. cbn [fold_right length]. rewrite IH, S_INR. ring. Qed.
Theorem C157_range ps ngb c l : length ngb = length ps -> ngb_ok ngb -> apart ps ngb -> (c < length ps)%nat -> nth c ngb [] <> [] -> degree l ->
  exists b q, boo_at harmonic ps ngb c = Val b /\ get_ql b l = Val q /\ 0 <= q <= 1 /\ (l = 0%nat -> q = 1) /\ (length (nth c ngb []) = 1%nat -> q = 1).
Proof.
  intros Hn Hok A Hc Nc Hl. destruct (C157_own ps ngb c l Hn Hok A Hc Nc Hl) as [b [E Q]]. exists b. eexists. split; [exact E|]. split; [exact Q|].
  assert (B : forall v, In v (bonds_at ps ngb c) -> v <> null_vec). { intros v I. unfold bonds_at in I. apply in_map_iff in I as [q [<- I]]. rewrite minus_null. apply A. auto. }
  assert (L0 : bonds_at ps ngb c <> []) by (unfold bonds_at; destruct (nth c ngb []); [congruence|discriminate]).
  assert (LL : length (bonds_at ps ngb c) = length (nth c ngb [])) by (unfold bonds_at; apply map_length). rewrite <- LL. generalize dependent (bonds_at ps ngb c). intros bs Q B L0 _. clear E Q.
  assert (N0 : 0 < INR (length bs)) by (apply lt_0_INR; destruct bs; [congruence|cbn; lia]).
  assert (M1 : mean_P l bs bs <= 1). { unfold mean_P. apply Rmult_le_reg_r with (INR (length bs) * INR (length bs)); [nra|]. unfold Rdiv. rewrite Rmult_assoc, Rinv_l by nra. rewrite Rmult_1_r, Rmult_1_l.
    apply Rle_trans with (sum_over bs (fun _ => INR (length bs) * 1)); [|rewrite sum_const; lra]. apply sum_le. intros v Iv. rewrite <- (sum_const 1 bs). apply sum_le. intros w Iw. apply P_bound; auto. }
  split; [|split].
  - split; [apply sqrt_pos|]. rewrite <- sqrt_1. apply sqrt_le_1_alt. auto.
  - intros ->. apply eq_trans with (sqrt 1); [|apply sqrt_1]. f_equal. unfold mean_P. rewrite (sum_ext _ (fun _ => INR (length bs) * 1)); [rewrite sum_const; field; lra|]. intros v _. rewrite <- (sum_const 1 bs). apply sum_ext. intros w _. exact (proj1 (C157_legendre (cosine v w))).
  - intros L1. destruct bs as [|v [|w bs]]; try discriminate. apply eq_trans with (sqrt 1); [|apply sqrt_1]. f_equal. unfold mean_P, sum_over. cbn [fold_right length INR]. replace (cosine v v) with 1; [rewrite P_one; field|]. unfold cosine. assert (Nv := B v (or_introl eq_refl)). destruct v as [[x y] z]. rewrite dot_norm. assert (Q := norm3_pos _ Nv). field. lra.
Qed.

(** * Moving the sample *)
Lemma norm_polar a b c d : 2 * dot (minus a c) (minus b d) = norm3 (minus a d) * norm3 (minus a d) + norm3 (minus c b) * norm3 (minus c b) - norm3 (minus a b) * norm3 (minus a b) - norm3 (minus c d) * norm3 (minus c d).
Proof. destruct a as [[a1 a2] a3], b as [[b1 b2] b3], c as [[c1 c2] c3], d as [[d1 d2] d3]. unfold minus. rewrite !norm3_sq. unfold dot. ring. Qed.
Lemma cosine_similar f a b c d : similarity f -> a <> c -> b <> d -> cosine (minus (f a) (f c)) (minus (f b) (f d)) = cosine (minus a c) (minus b d).
Proof.
  intros [k [Hk H]] Nac Nbd. unfold cosine. rewrite !H. assert (X := norm_polar a b c d). assert (Y := norm_polar (f a) (f b) (f c) (f d)). rewrite !H in Y.
  assert (E : dot (minus (f a) (f c)) (minus (f b) (f d)) = k * k * dot (minus a c) (minus b d)) by nra. rewrite E.
  assert (P1 : 0 < norm3 (minus a c)) by (apply norm3_pos; rewrite minus_null; auto). assert (P2 : 0 < norm3 (minus b d)) by (apply norm3_pos; rewrite minus_null; auto). field. lra.
Qed.
Lemma similar_inj f a b : similarity f -> a <> b -> f a <> f b.
Proof.
  intros [k [Hk H]] N E. assert (P0 : 0 < norm3 (minus a b)) by (apply norm3_pos; rewrite minus_null; auto). specialize (H a b). rewrite E in H. replace (minus (f b) (f b)) with null_vec in H by (symmetry; apply minus_null; auto).
  replace (norm3 null_vec) with 0 in H; [nra|]. unfold null_vec, norm3. replace (0 * 0 + 0 * 0 + 0 * 0) with 0 by ring. symmetry. apply sqrt_0.
Qed.
Definition inside (ps : list vec) (is : list (R * (nat * nat))) : Prop := Forall (fun i => (fst (snd i) < length ps)%nat /\ (snd (snd i) < length ps)%nat /\ nth (snd (snd i)) ps null_vec <> nth (fst (snd i)) ps null_vec) is.
Lemma nth_moved f ps p : (p < length ps)%nat -> nth p (map f ps) null_vec = f (nth p ps null_vec).
Proof. intros H. rewrite (nth_indep _ null_vec (f null_vec)) by (rewrite map_length; auto). apply map_nth. Qed.
Lemma pairing_moved f ps is is' l : similarity f -> inside ps is -> inside ps is' -> pairing l (map (placed (map f ps)) is) (map (placed (map f ps)) is') = pairing l (map (placed ps) is) (map (placed ps) is').
Proof.
  intros S1 I1 I2. unfold pairing. rewrite !sum_map. apply sum_ext. intros i Ii. rewrite !sum_map. apply sum_ext. intros j Ij. unfold inside in *. rewrite Forall_forall in I1, I2. destruct (I1 _ Ii) as [A1 [A2 A3]]. destruct (I2 _ Ij) as [B1 [B2 B3]].
  unfold placed. cbn [fst snd]. rewrite !diff_minus, !nth_moved by auto. rewrite cosine_similar by auto. auto.
Qed.
Lemma inside_ok ps is : inside ps is -> bonds_ok' (map (placed ps) is).
Proof. intros I. apply Forall_forall. intros x H. apply in_map_iff in H as [i [<- Ii]]. unfold inside in I. rewrite Forall_forall in I. destruct (I _ Ii) as [_ [_ N]]. unfold placed. cbn [fst snd]. rewrite diff_minus, minus_null. auto. Qed.
Lemma inside_moved f ps is : similarity f -> inside ps is -> inside (map f ps) is.
Proof. intros Sf I. unfold inside in *. eapply Forall_impl; [|exact I]. intros i [A [B C]]. cbv beta. rewrite map_length, !nth_moved by auto. split; auto. split; auto. apply similar_inj; auto. Qed.
Lemma own_inside ps ngb c : length ngb = length ps -> ngb_ok ngb -> apart ps ngb -> inside ps (own_bonds ngb c).
Proof.
  intros Hn Hok A. apply Forall_forall. intros i I. unfold own_bonds in I. apply in_map_iff in I as [q [<- I]]. cbn [fst snd]. destruct (le_lt_dec (length ngb) c) as [L|L]; [rewrite nth_overflow in I by auto; destruct I|].
  destruct (Hok c (nth c ngb []) (nth_error_nth' _ _ L)) as [_ R1]. split; [lia|]. split; [rewrite <- Hn; apply R1; auto|]. apply A. auto.
Qed.
Theorem C157_moved f ps ngb c d l : similarity f -> length ngb = length ps -> ngb_ok ngb -> apart ps ngb -> (c < length ps)%nat -> (d < length ps)%nat -> degree l ->
  exists a b a' b' q, boo_at harmonic ps ngb c = Val a /\ boo_at harmonic ps ngb d = Val b /\ boo_at harmonic (map f ps) ngb c = Val a' /\ boo_at harmonic (map f ps) ngb d = Val b' /\
    get_ql a l = Val q /\ get_ql a' l = Val q /\ normed_product a' b' l = normed_product a b l.
Proof.
  intros Sf Hn Hok A Hc Hd Hl. destruct (own_made ps ngb Hn Hok c Hc) as [a [Ea Ma]]. destruct (own_made ps ngb Hn Hok d Hd) as [b [Eb Mb]].
  assert (Hn' : length ngb = length (map f ps)) by (rewrite map_length; auto). assert (Hc' : (c < length (map f ps))%nat) by (rewrite map_length; auto). assert (Hd' : (d < length (map f ps))%nat) by (rewrite map_length; auto).
  destruct (own_made (map f ps) ngb Hn' Hok c Hc') as [a' [Ea' Ma']]. destruct (own_made (map f ps) ngb Hn' Hok d Hd') as [b' [Eb' Mb']].
  assert (Ic := own_inside ps ngb c Hn Hok A). assert (Id := own_inside ps ngb d Hn Hok A). assert (Ic' := inside_moved f ps _ Sf Ic). assert (Id' := inside_moved f ps _ Sf Id).
  exists a, b, a', b'. eexists. do 4 (split; [eassumption|]). split; [apply (ql_value a _ l Ma (inside_ok _ _ Ic) Hl)|]. split.
  - rewrite (ql_value a' _ l Ma' (inside_ok _ _ Ic') Hl), pairing_moved by auto. auto.
  - unfold normed_product. rewrite (made_inner a b _ _ l Ma Mb (inside_ok _ _ Ic) (inside_ok _ _ Id) Hl), (made_norm a _ l Ma (inside_ok _ _ Ic) Hl), (made_norm b _ l Mb (inside_ok _ _ Id) Hl).
    rewrite (made_inner a' b' _ _ l Ma' Mb' (inside_ok _ _ Ic') (inside_ok _ _ Id') Hl), (made_norm a' _ l Ma' (inside_ok _ _ Ic') Hl), (made_norm b' _ l Mb' (inside_ok _ _ Id') Hl). rewrite !pairing_moved by auto. auto.
Qed.

(** * Coarse-grained order parameters *)
Definition cg_bonds (ngb : list (list nat)) (c : nat) : list (R * (nat * nat)) :=
  map (fun i => (/ INR (1 + length (nth c ngb [])) * fst i, snd i)) (own_bonds ngb c ++ concat (map (own_bonds ngb) (nth c ngb []))).
Lemma cg_made ps ngb c : length ngb = length ps -> ngb_ok ngb -> symmetric ngb -> irreflexive ngb -> (forall p, (p < length ps)%nat -> nth p ngb [] <> []) -> (c < length ps)%nat ->
  exists b, cg_boo_at harmonic ps ngb c = Val b /\ made b (map (placed ps) (cg_bonds ngb c)).
Proof.
  intros Hn Hok Sy Ir Full Hc. unfold cg_boo_at. destruct (C77_all _ boo_zero boo_add boo_div (one_harm harmonic ps) (length ps) ngb Hn Hok Sy Ir (harm_sym ps)) as [res [E [Lr R1]]]. unfold all_boos. rewrite E. cbn [obind].
  assert (Made : forall p, (p < length ps)%nat -> made (nth p res boo_zero) (map (placed ps) (own_bonds ngb p))).
  { intros p Hp. destruct (nth_error_ex ngb p ltac:(lia)) as [lp Ep]. assert (Np := Full p Hp). rewrite (nth_error_nth _ _ _ Ep) in Np. destruct (R1 p lp Ep Np) as [b [Eb Gb]]. destruct (own_made ps ngb Hn Hok p Hp) as [b' [Eb' Mb']]. unfold boo_at in Eb'. rewrite Gb in Eb'. injection Eb' as ->. rewrite (nth_error_nth _ _ _ Eb). auto. }
  destruct (nth_error_ex ngb c ltac:(lia)) as [lc Ec]. destruct (nth_error_ex res c ltac:(lia)) as [bc Ebc]. eexists. split; [apply (get_cg_val _ boo_zero boo_add boo_div (length ps) ngb Hn Hok res c lc bc Lr Ec Ebc)|].
  assert (El : nth c ngb [] = lc) by (apply nth_error_nth; auto). unfold cg_bonds. rewrite El.
  assert (M : made (total boo_add bc (map (fun q => nth q res boo_zero) lc)) (map (placed ps) (own_bonds ngb c) ++ concat (map (fun q => map (placed ps) (own_bonds ngb q)) lc))).
  { unfold total. apply made_total; [|rewrite <- (nth_error_nth _ _ boo_zero Ebc); auto]. assert (IR : Forall (fun q => (q < length ps)%nat) lc) by (apply Forall_forall; intros q I; rewrite <- Hn; apply (proj2 (Hok c lc Ec)); auto). clear Ec El. induction IR as [|q lc' Hq F IH]; cbn [map]; constructor; auto. }
  apply (made_div _ (1 + length lc)) in M. match goal with |- made _ ?w => replace w with (reweigh (/ INR (1 + length lc)) (map (placed ps) (own_bonds ngb c) ++ concat (map (fun q => map (placed ps) (own_bonds ngb q)) lc))) end; auto.
  unfold reweigh. generalize (/ INR (1 + length lc)). intros k. rewrite !map_app, !map_map. f_equal. rewrite !concat_map, !map_map. f_equal. apply map_ext. intros q. rewrite !map_map. auto.
Qed.
Lemma cg_inside ps ngb c : length ngb = length ps -> ngb_ok ngb -> apart ps ngb -> inside ps (cg_bonds ngb c).
Proof.
  intros Hn Hok A. unfold cg_bonds, inside. apply Forall_forall. intros i I. apply in_map_iff in I as [j [<- I]]. cbn [snd]. assert (X : forall p, In j (own_bonds ngb p) -> (fst (snd j) < length ps)%nat /\ (snd (snd j) < length ps)%nat /\ nth (snd (snd j)) ps null_vec <> nth (fst (snd j)) ps null_vec).
  { intros p Ip. assert (O := own_inside ps ngb p Hn Hok A). unfold inside in O. rewrite Forall_forall in O. apply O. auto. }
  apply in_app_iff in I as [I|I]; [eauto|]. apply in_concat in I as [l [Il I]]. apply in_map_iff in Il as [q [<- _]]. eauto.
Qed.
Theorem C157_coarse f ps ngb c l : similarity f -> length ngb = length ps -> ngb_ok ngb -> symmetric ngb -> irreflexive ngb -> (forall p, (p < length ps)%nat -> nth p ngb [] <> []) -> apart ps ngb -> (c < length ps)%nat -> degree l ->
  exists b b' q, cg_boo_at harmonic ps ngb c = Val b /\ cg_boo_at harmonic (map f ps) ngb c = Val b' /\ get_ql b l = Val q /\ get_ql b' l = Val q.
Proof.
  intros Sf Hn Hok Sy Ir Full A Hc Hl. destruct (cg_made ps ngb c Hn Hok Sy Ir Full Hc) as [b [Eb Mb]]. assert (Hn' : length ngb = length (map f ps)) by (rewrite map_length; auto). assert (Hc' : (c < length (map f ps))%nat) by (rewrite map_length; auto).
  destruct (cg_made (map f ps) ngb c Hn' Hok Sy Ir ltac:(rewrite map_length; auto) Hc') as [b' [Eb' Mb']]. assert (I := cg_inside ps ngb c Hn Hok A). assert (I' := inside_moved f ps _ Sf I). exists b, b'. eexists. split; auto. split; auto.
  split; [apply (ql_value b _ l Mb (inside_ok _ _ I) Hl)|]. rewrite (ql_value b' _ l Mb' (inside_ok _ _ I') Hl), pairing_moved by auto. auto.
Qed.

(** The coefficients themselves do change. *)
Theorem C157_coefficients_refuted : of_bond harmonic (1, 0, 0) <> of_bond harmonic (0, 0, 1).
Proof.
  assert (Nx : (1, 0, 0) <> null_vec) by (intros E; injection E; lra). assert (Nz := ez_nonnull). unfold ez in Nz. assert (D : degree 2) by (split; [exists 1%nat; auto|lia]). intros E.
  assert (A := C157_angle (1, 0, 0) (0, 0, 1) 2 Nx Nz D). rewrite E in A. rewrite (C157_angle (0, 0, 1) (0, 0, 1) 2 Nz Nz D) in A. apply val_inj in A. apply Rmult_eq_reg_l in A; [|assert (X := amp_pos 2); unfold amp in X; lra].
  assert (N1 := norm_ez). unfold ez in N1. assert (N2 : norm3 (1, 0, 0) = 1) by (unfold norm3; replace (1 * 1 + 0 * 0 + 0 * 0) with 1 by ring; apply sqrt_1). destruct (C157_legendre (cosine (0, 0, 1) (0, 0, 1))) as [_ [E1 _]]. destruct (C157_legendre (cosine (1, 0, 0) (0, 0, 1))) as [_ [E2 _]]. rewrite E1, E2 in A. unfold cosine, dot in A. rewrite N1, N2 in A. lra.
Qed.
(** Two neighbours at the same position are taken for a bond along z: Ql then depends on the orientation of the sample. *)
Definition quarter_turn (v : vec) : vec := let '(x, y, z) := v in (- z, y, x).
Lemma null_as_z : of_bond harmonic null_vec = of_bond harmonic ez.
Proof.
  unfold of_bond. rewrite spherical_ez. unfold spherical, null_vec. replace (norm3 (0, 0, 0)) with 0 by (unfold norm3; replace (0 * 0 + 0 * 0 + 0 * 0) with 0 by ring; symmetry; apply sqrt_0). rewrite Rabs_R0. destruct (Req_EM_T 0 0); [auto|congruence].
Qed.
Lemma quarter_similar : similarity quarter_turn.
Proof. exists 1. split; [lra|]. intros [[x y] z] [[x' y'] z']. unfold quarter_turn, minus, norm3. rewrite Rmult_1_l. f_equal. ring. Qed.
Theorem C157_coincident_refuted : exists ps ngb a a', length ngb = length ps /\ ngb_ok ngb /\ symmetric ngb /\ irreflexive ngb /\ similarity quarter_turn /\ boo_at harmonic ps ngb 0 = Val a /\ boo_at harmonic (map quarter_turn ps) ngb 0 = Val a' /\ get_ql a 2 = Val (1 / 2) /\ get_ql a' 2 = Val 1.
Proof.
  set (ps := [(0, 0, 0); (0, 0, 0); (1, 0, 0)] : list vec). set (ngb := [[1; 2]; [0]; [0]]%nat).
  assert (Hok : ngb_ok ngb) by (intros [|[|[|i]]] l E; try (injection E as <-); try (destruct i; discriminate); (split; [repeat constructor|intros j [<-|H]; [cbn; lia|]; try destruct H as [<-|[]]; try destruct H; cbn; lia])).
  assert (D : degree 2) by (split; [exists 1%nat; auto|lia]).
  assert (G : forall qs : list vec, length qs = 3%nat -> exists b, boo_at harmonic qs ngb 0 = Val b /\ made b [(/ 2 * 1, get_diff qs 0 1); (/ 2 * 1, get_diff qs 0 2)]).
  { intros qs L. destruct (own_made qs ngb (eq_sym L) Hok 0%nat ltac:(lia)) as [b [E M]]. exists b. split; [exact E|exact M]. }
  assert (Swap : forall b v, made b [(/ 2 * 1, null_vec); (/ 2 * 1, v)] -> made b [(/ 2 * 1, ez); (/ 2 * 1, v)]).
  { intros b v [L [R1 F]]. split; auto. split; auto. intros l j Hl Hj. rewrite F by auto. rewrite !wfull_cons, null_as_z. auto. }
  destruct (G ps eq_refl) as [a [Ea Ma]]. destruct (G (map quarter_turn ps) eq_refl) as [a' [Ea' Ma']].
  assert (E1 : get_diff ps 0 1 = null_vec) by (unfold get_diff, ps, null_vec; cbn [nth]; f_equal; [f_equal|]; ring). assert (E2 : get_diff ps 0 2 = (1, 0, 0)) by (unfold get_diff, ps; cbn [nth]; f_equal; [f_equal|]; ring).
  assert (E1' : get_diff (map quarter_turn ps) 0 1 = null_vec) by (unfold get_diff, ps, quarter_turn, null_vec; cbn [nth map]; f_equal; [f_equal|]; ring). assert (E2' : get_diff (map quarter_turn ps) 0 2 = ez) by (unfold get_diff, ps, quarter_turn, ez; cbn [nth map]; f_equal; [f_equal|]; ring).
  rewrite E1, E2 in Ma. rewrite E1', E2' in Ma'. apply Swap in Ma, Ma'.
  assert (Nx : (1, 0, 0) <> null_vec) by (intros E; injection E; lra). assert (N2 : norm3 (1, 0, 0) = 1) by (unfold norm3; replace (1 * 1 + 0 * 0 + 0 * 0) with 1 by ring; apply sqrt_1).
  assert (C1' : cosine ez ez = 1) by (unfold cosine; rewrite norm_ez; unfold dot, ez; field). assert (C2' : cosine (1, 0, 0) (1, 0, 0) = 1) by (unfold cosine; rewrite N2; unfold dot; field). assert (C3 : cosine ez (1, 0, 0) = 0) by (unfold cosine; rewrite N2, norm_ez; unfold dot, ez; field). assert (C4 : cosine (1, 0, 0) ez = 0) by (unfold cosine; rewrite N2, norm_ez; unfold dot, ez; field).
  destruct (C157_legendre 0) as [_ [P0 _]].
  exists ps, ngb, a, a'. split; auto. split; auto. split; [|split; [|split; [apply quarter_similar|split; [auto|split; [auto|split]]]]].
  - intros i j [l [E I]]. destruct i as [|[|[|i]]]; try (destruct i; discriminate); injection E as <-; destruct I as [<-|I]; try destruct I as [<-|[]]; try destruct I; (eexists; split; [reflexivity|cbn; auto]).
  - intros i [l [E I]]. destruct i as [|[|[|i]]]; try (destruct i; discriminate); injection E as <-; destruct I as [I|I]; try discriminate; try destruct I as [I|[]]; try discriminate; destruct I.
  - rewrite (ql_value a _ 2 Ma); [|apply Forall_cons; [apply ez_nonnull|apply Forall_cons; auto]|auto]. f_equal. unfold pairing, sum_over. cbn [fold_right fst snd]. rewrite C1', C2', C3, C4, P_one, P0. match goal with |- sqrt ?e = _ => replace e with (/ 2 * / 2) by field end. rewrite sqrt_square by lra. lra.
  - rewrite (ql_value a' _ 2 Ma'); [|apply Forall_cons; [apply ez_nonnull|apply Forall_cons; [apply ez_nonnull|auto]]|auto]. f_equal. unfold pairing, sum_over. cbn [fold_right fst snd]. rewrite C1', P_one. match goal with |- sqrt ?e = _ => replace e with 1 by field end. apply sqrt_1.
Qed.
(** Three particles at right angles, turned. *)
Example C157_case : let ps := [(0, 0, 0); (2, 0, 0); (0, 0, 5)] in let ngb := [[1; 2]; [0]; [0]]%nat in length ngb = length ps /\ ngb_ok ngb /\ symmetric ngb /\ irreflexive ngb /\ apart ps ngb /\ (forall p, (p < length ps)%nat -> nth p ngb [] <> []) /\ degree 2 /\ similarity quarter_turn /\
  bonds_at ps ngb 0 = [(2, 0, 0); (0, 0, 5)] /\ mean_P 2 (bonds_at ps ngb 0) (bonds_at ps ngb 0) = 1 / 4.
Proof.
  cbv zeta. assert (B : bonds_at [(0, 0, 0); (2, 0, 0); (0, 0, 5)] [[1; 2]; [0]; [0]]%nat 0 = [(2, 0, 0); (0, 0, 5)]) by (unfold bonds_at, minus; cbn [nth map]; f_equal; [|f_equal]; (f_equal; [f_equal|]; ring)).
  split; auto. split; [intros [|[|[|i]]] l E; try (injection E as <-); try (destruct i; discriminate); (split; [repeat constructor|intros j [<-|H]; [cbn; lia|]; try destruct H as [<-|[]]; try destruct H; cbn; lia])|].
  split; [intros i j [l [E I]]; destruct i as [|[|[|i]]]; try (destruct i; discriminate); injection E as <-; destruct I as [<-|I]; try destruct I as [<-|[]]; try destruct I; (eexists; split; [reflexivity|cbn; auto])|].
  split; [intros i [l [E I]]; destruct i as [|[|[|i]]]; try (destruct i; discriminate); injection E as <-; destruct I as [I|I]; try discriminate; try destruct I as [I|[]]; try discriminate; destruct I|].
  split; [intros [|[|[|c]]] q I; cbn [nth] in I; try (destruct c; destruct I); destruct I as [<-|I]; try destruct I as [<-|[]]; try destruct I; cbn [nth]; intros E; injection E; lra|].
  split; [intros [|[|[|p]]] H; cbn in *; try lia; discriminate|]. split; [split; [exists 1%nat; auto|lia]|]. split; [apply quarter_similar|]. split; auto. rewrite B. unfold mean_P, sum_over, cosine, dot. cbn [fold_right length INR].
  assert (N2 : norm3 (2, 0, 0) = 2) by (unfold norm3; replace (2 * 2 + 0 * 0 + 0 * 0) with (2 * 2) by ring; apply sqrt_square; lra). assert (N5 : norm3 (0, 0, 5) = 5) by (unfold norm3; replace (0 * 0 + 0 * 0 + 5 * 5) with (5 * 5) by ring; apply sqrt_square; lra).
  rewrite N2, N5. repeat match goal with |- context [P 2 ?x] => rewrite (proj1 (proj2 (C157_legendre x))) end. field.
Qed.

Print Assumptions C157_angle.
Print Assumptions C157_legendre.
Print Assumptions C157_own.
Print Assumptions C157_isolated.
Print Assumptions C157_product.
Print Assumptions C157_range.
Print Assumptions C157_moved.
Print Assumptions C157_coarse.
Print Assumptions C157_coefficients_refuted.
Print Assumptions C157_coincident_refuted.
Print Assumptions C157_case.

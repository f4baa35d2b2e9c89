(** The cubic invariant of three bonds depends only on the angles between them. *)
Require Import Reals ZArith List Bool Arith Lia Lra Ring.
Require Import Verif.Base Verif.Traj_Model Verif.Particles_Model Verif.Boo_Model Verif.Boo_Spec Verif.Boo_Props Verif.Euler_Model Verif.Euler_Spec Verif.Euler_Cplx Verif.Euler_Proofs Verif.Euler_Geom Verif.Euler_Turn Verif.Euler_Harm Verif.Euler_Props.
Require Import Verif.Angle_Model Verif.Angle_Spec Verif.Angle_Proofs Verif.Angle_Props Verif.Cubic_Proofs Verif.Cubic_Spec.
Import ListNotations.
Local Open Scope R_scope.

(** * Half-turns *)
Lemma turned_xs x y z q res l : turns x y z q res -> degree l -> forall j, (j <= 2 * l)%nat -> xs res l j = changed (rc z) (x, - y) (x, y) (Copp (rc z)) (2 * l) (xs q l) j.
Proof. intros T Hl. apply changed_only. intros u v. specialize (T l Hl u v). unfold pol in T. rewrite T. unfold tu, tv. f_equal. ring. Qed.
Lemma turn_det x y z : x * x + y * y + z * z = 1 -> let d := Csub (Cmul (rc z) (Copp (rc z))) (Cmul (x, - y) (x, y)) in Cmul d d = C1.
Proof. intros U d. replace d with (rc (-1)); [cring|]. unfold d, Csub, Cadd, cadd, Cmul, cmul, Copp, copp, rc. cbn [fst snd]. apply pair_eq; [lra|ring]. Qed.
Lemma tri_turned x y z a b c a' b' c' l : x * x + y * y + z * z = 1 -> degree l -> turns x y z a a' -> turns x y z b b' -> turns x y z c c' -> tri l (xs a' l) (xs b' l) (xs c' l) = tri l (xs a l) (xs b l) (xs c l).
Proof.
  intros U Hl Ta Tb Tc. rewrite <- (tri_changed l (rc z) (x, - y) (x, y) (Copp (rc z)) (xs a l) (xs b l) (xs c l) (turn_det x y z U) (degree_even l Hl)).
  rewrite (lin_depends _ (fun t => tri l t (xs b' l) (xs c' l)) _ (changed (rc z) (x, - y) (x, y) (Copp (rc z)) (2 * l) (xs a l)) (tri_lin1 l _ _)) by (apply turned_xs; auto).
  rewrite (lin_depends _ (fun t => tri l _ t (xs c' l)) _ (changed (rc z) (x, - y) (x, y) (Copp (rc z)) (2 * l) (xs b l)) (tri_lin2 l _ _)) by (apply turned_xs; auto).
  rewrite (lin_depends _ (fun t => tri l _ _ t) _ (changed (rc z) (x, - y) (x, y) (Copp (rc z)) (2 * l) (xs c l)) (tri_lin3 l _ _)) by (apply turned_xs; auto). auto.
Qed.
Definition F3 (l : nat) (a b c : vec) : C := tri l (xs (of_bond harmonic a) l) (xs (of_bond harmonic b) l) (xs (of_bond harmonic c) l).
Lemma turns_bond x y z v : (x, y, z) <> null_vec -> v <> null_vec -> let n := norm3 (x, y, z) in turns (x / n) (y / n) (z / n) (of_bond harmonic v) (of_bond harmonic (turned (x, y, z) v)).
Proof. intros N Nv n l Hl u w. destruct v as [[a b] c]. apply pol_turned; auto. Qed.
Lemma F3_turned h a b c l : degree l -> h <> null_vec -> a <> null_vec -> b <> null_vec -> c <> null_vec -> F3 l (turned h a) (turned h b) (turned h c) = F3 l a b c.
Proof. intros Hl Nh Na Nb Nc. destruct h as [[x y] z]. unfold F3. apply (tri_turned (x / norm3 (x, y, z)) (y / norm3 (x, y, z)) (z / norm3 (x, y, z))); auto using turns_bond. apply (unit_sq x y z Nh). Qed.

(** * Mirrors *)
Definition mirror (h v : vec) : vec := minus v (scaled (2 * dot h v / dot h h) h).
Lemma mirror_turned h v : turned h v = scaled (-1) (mirror h v).
Proof. destruct h as [[x y] z], v as [[a b] c]. unfold turned, mirror, minus, scaled. f_equal; [f_equal|]; ring. Qed.
Lemma dot_null v : dot v v = 0 <-> v = null_vec.
Proof. destruct v as [[x y] z]. unfold dot, null_vec. split; [|intros E; injection E as -> -> ->; ring]. intros E. assert (H1 := Rle_0_sqr x). assert (H2 := Rle_0_sqr y). assert (H3 := Rle_0_sqr z). unfold Rsqr in *. assert (x * x = 0) by lra. assert (y * y = 0) by lra. assert (z * z = 0) by lra. f_equal; [f_equal|]; nra. Qed.
Lemma mirror_dot h v w : h <> null_vec -> dot (mirror h v) (mirror h w) = dot v w.
Proof.
  intros N. assert (D : dot h h <> 0) by (rewrite dot_null; auto). destruct h as [[x y] z], v as [[a b] c], w as [[a' b'] c']. unfold mirror. set (k := 2 * dot (x, y, z) (a, b, c) / dot (x, y, z) (x, y, z)). set (k' := 2 * dot (x, y, z) (a', b', c') / dot (x, y, z) (x, y, z)).
  assert (K : k * dot (x, y, z) (x, y, z) = 2 * dot (x, y, z) (a, b, c)) by (unfold k; field; auto). assert (K' : k' * dot (x, y, z) (x, y, z) = 2 * dot (x, y, z) (a', b', c')) by (unfold k'; field; auto). clearbody k k'. unfold dot, scaled, minus in *.
  apply Rminus_diag_uniq. transitivity (k * (k' * (x * x + y * y + z * z) - 2 * (x * a' + y * b' + z * c')) / 2 + k' * (k * (x * x + y * y + z * z) - 2 * (x * a + y * b + z * c)) / 2); [field|]. rewrite K, K'. field.
Qed.
Lemma mirror_null h v : h <> null_vec -> v <> null_vec -> mirror h v <> null_vec.
Proof. intros Nh Nv. rewrite <- dot_null, mirror_dot by auto. rewrite dot_null. auto. Qed.
Lemma mirror_fix h v : dot h v = 0 -> mirror h v = v.
Proof. intros E. unfold mirror. rewrite E. destruct h as [[x y] z], v as [[a b] c]. unfold minus, scaled, Rdiv. f_equal; [f_equal|]; ring. Qed.
Lemma mirror_swap a b : dot a a = dot b b -> a <> b -> mirror (minus a b) a = b.
Proof.
  intros E N. assert (Nh : minus a b <> null_vec) by (rewrite minus_null; auto). assert (D : dot (minus a b) (minus a b) <> 0) by (rewrite dot_null; auto).
  assert (K : dot (minus a b) (minus a b) = 2 * dot (minus a b) a). { destruct a as [[x y] z], b as [[x' y'] z']. unfold dot, minus in *. lra. }
  unfold mirror. replace (2 * dot (minus a b) a / dot (minus a b) (minus a b)) with 1 by (rewrite <- K; field; auto). destruct a as [[x y] z], b as [[x' y'] z']. unfold minus, scaled. f_equal; [f_equal|]; ring.
Qed.
Lemma dot_minus a b c : dot (minus a b) c = dot a c - dot b c. Proof. destruct a as [[x y] z], b as [[x' y'] z'], c as [[t u] v]. unfold dot, minus. ring. Qed.
Lemma vec_dec (a b : vec) : {a = b} + {a <> b}.
Proof. destruct a as [[x y] z], b as [[x' y'] z']. destruct (Req_EM_T x x') as [->|N]; [|right; congruence]. destruct (Req_EM_T y y') as [->|N]; [|right; congruence]. destruct (Req_EM_T z z') as [->|N]; [left; auto|right; congruence]. Qed.
(** Three vectors are taken to three others with the same scalar products by at most three mirrors. *)
Section Gram.
  Variable F : vec -> vec -> vec -> C.
  Hypothesis HF : forall h a b c, h <> null_vec -> a <> null_vec -> b <> null_vec -> c <> null_vec -> F (mirror h a) (mirror h b) (mirror h c) = F a b c.
  Lemma gram3 a b c c' : a <> null_vec -> b <> null_vec -> c <> null_vec -> dot c c = dot c' c' -> dot c a = dot c' a -> dot c b = dot c' b -> F a b c = F a b c'.
  Proof.
    intros Na Nb Nc E Ea Eb. destruct (vec_dec c c') as [->|N]; auto. assert (Nh : minus c c' <> null_vec) by (rewrite minus_null; auto). rewrite <- (HF (minus c c') a b c) by auto. rewrite (mirror_swap c c') by auto. rewrite !mirror_fix by (rewrite dot_minus; lra). auto.
  Qed.
  Lemma gram2 a b c b' c' : a <> null_vec -> b <> null_vec -> c <> null_vec -> dot b b = dot b' b' -> dot c c = dot c' c' -> dot b a = dot b' a -> dot c a = dot c' a -> dot c b = dot c' b' -> F a b c = F a b' c'.
  Proof.
    intros Na Nb Nc Eb Ec Eba Eca Ecb. destruct (vec_dec b b') as [->|N]; [apply gram3; auto|]. assert (Nh : minus b b' <> null_vec) by (rewrite minus_null; auto). rewrite <- (HF (minus b b') a b c) by auto.
    assert (Fa : mirror (minus b b') a = a) by (apply mirror_fix; rewrite dot_minus; lra). assert (Sb : mirror (minus b b') b = b') by (apply mirror_swap; auto). rewrite Fa, Sb.
    apply gram3; auto using mirror_null; [rewrite <- Sb; auto using mirror_null|rewrite mirror_dot; auto| |].
    - rewrite <- Fa at 1. rewrite mirror_dot; auto.
    - rewrite <- Sb at 2. rewrite mirror_dot; auto.
  Qed.
  Lemma gram1 a b c a' b' c' : a <> null_vec -> b <> null_vec -> c <> null_vec -> dot a a = dot a' a' -> dot b b = dot b' b' -> dot c c = dot c' c' -> dot b a = dot b' a' -> dot c a = dot c' a' -> dot c b = dot c' b' -> F a b c = F a' b' c'.
  Proof.
    intros Na Nb Nc Ea Eb Ec Eba Eca Ecb. destruct (vec_dec a a') as [->|N]; [apply gram2; auto|]. assert (Nh : minus a a' <> null_vec) by (rewrite minus_null; auto). rewrite <- (HF (minus a a') a b c) by auto.
    assert (Sa : mirror (minus a a') a = a') by (apply mirror_swap; auto). rewrite Sa.
    apply gram2; auto using mirror_null; [rewrite <- Sa; auto using mirror_null|rewrite mirror_dot; auto|rewrite mirror_dot; auto| | |rewrite mirror_dot; auto].
    - rewrite <- Sa at 2. rewrite mirror_dot; auto.
    - rewrite <- Sa at 2. rewrite mirror_dot; auto.
  Qed.
End Gram.
Lemma F3_mirror l h a b c : degree l -> h <> null_vec -> a <> null_vec -> b <> null_vec -> c <> null_vec -> F3 l (mirror h a) (mirror h b) (mirror h c) = F3 l a b c.
Proof.
  intros Hl Nh Na Nb Nc. rewrite <- (F3_turned h a b c l) by auto. rewrite !mirror_turned. unfold F3. rewrite !C135_direction by (try lra; auto using mirror_null). auto.
Qed.
Lemma F3_angles l a b c a' b' c' : degree l -> a <> null_vec -> b <> null_vec -> c <> null_vec -> a' <> null_vec -> b' <> null_vec -> c' <> null_vec ->
  cosine b a = cosine b' a' -> cosine c a = cosine c' a' -> cosine c b = cosine c' b' -> F3 l a b c = F3 l a' b' c'.
Proof.
  intros Hl Na Nb Nc Na' Nb' Nc' E1 E2 E3.
  assert (U : forall v, v <> null_vec -> / norm3 v <> 0) by (intros v N; apply Rinv_neq_0_compat; assert (P0 := norm3_pos _ N); lra).
  assert (SC : forall v w, v <> null_vec -> w <> null_vec -> dot (scaled (/ norm3 v) v) (scaled (/ norm3 w) w) = cosine v w).
  { intros v w Nv Nw. assert (P1 := norm3_pos _ Nv). assert (P2 := norm3_pos _ Nw). unfold cosine. destruct v as [[x y] z], w as [[x' y'] z']. unfold dot, scaled. field. lra. }
  assert (C1 : forall v, v <> null_vec -> cosine v v = 1). { intros v Nv. assert (P1 := norm3_pos _ Nv). unfold cosine. destruct v as [[x y] z]. rewrite dot_norm. field. lra. }
  assert (ND : forall v, v <> null_vec -> scaled (/ norm3 v) v <> null_vec) by (intros v Nv; rewrite <- dot_null, SC, C1 by auto; lra).
  transitivity (F3 l (scaled (/ norm3 a) a) (scaled (/ norm3 b) b) (scaled (/ norm3 c) c)); [unfold F3; rewrite !C135_direction by auto; auto|].
  transitivity (F3 l (scaled (/ norm3 a') a') (scaled (/ norm3 b') b') (scaled (/ norm3 c') c')); [|unfold F3; rewrite !C135_direction by auto; auto].
  apply (gram1 (F3 l)); auto; rewrite ?SC, ?C1 by auto; auto. intros. apply F3_mirror; auto.
Qed.

(** * Sums of bonds *)
Definition wsum (ws : list (R * vec)) (G : vec -> C) : C := fold_right (fun p s => Cadd (Cmul (rc (fst p)) (G (snd p))) s) C0 ws.
Lemma lin_add_at n G x y k : lin n G -> G (fun j => Cadd (Cmul k (x j)) (y j)) = Cadd (Cmul k (G x)) (G y).
Proof. intros [phi H]. rewrite !H. rewrite <- sumc_scal, <- sumc_add. apply sumc_ext. intros. ring. Qed.
Lemma lin_null n G : lin n G -> G (fun _ => C0) = C0.
Proof. intros [phi H]. rewrite H. apply sumc_zero. intros. ring. Qed.
Lemma lin_made b ws l G : made b ws -> degree l -> lin (2 * l) G -> G (xs b l) = wsum ws (fun v => G (xs (of_bond harmonic v) l)).
Proof.
  intros [_ [_ Fb]] Hl HG. rewrite (lin_depends (2 * l) G _ (fun j => Cmul (rc (/ wt (2 * l) j)) (wfull ws l j)) HG) by (intros; unfold xs; rewrite Fb by auto; auto). clear Fb b.
  induction ws as [|[k v] ws IH].
  - cbn [wsum fold_right]. rewrite <- (lin_null (2 * l) G HG). apply (lin_depends (2 * l) G _ _ HG). intros. cbn [wfull fold_right]. ring.
  - cbn [wsum fold_right fst snd]. fold (wsum ws (fun v => G (xs (of_bond harmonic v) l))). rewrite <- IH, <- (lin_add_at (2 * l) G _ _ (rc k) HG). apply (lin_depends (2 * l) G _ _ HG). intros i _. rewrite wfull_cons. unfold xs. ring.
Qed.
Lemma wsum_map {A} (g : A -> R * vec) is G : wsum (map g is) G = fold_right (fun i s => Cadd (Cmul (rc (fst (g i))) (G (snd (g i)))) s) C0 is.
Proof. induction is as [|i is IH]; cbn [map wsum fold_right]; auto. rewrite <- IH. auto. Qed.
Lemma fold_same {A} (f g : A -> C) is : (forall i, In i is -> f i = g i) -> fold_right (fun i s => Cadd (f i) s) C0 is = fold_right (fun i s => Cadd (g i) s) C0 is.
Proof. induction is as [|i is IH]; intros H; cbn [fold_right]; auto. rewrite IH, H; cbn [In] in *; auto. Qed.
Lemma tri_made b ws l : made b ws -> degree l -> tri l (xs b l) (xs b l) (xs b l) = wsum ws (fun u => wsum ws (fun v => wsum ws (fun w => F3 l u v w))).
Proof.
  intros M Hl. rewrite (lin_made b ws l (fun x => tri l x (xs b l) (xs b l)) M Hl (tri_lin1 l _ _)).
  transitivity (wsum ws (fun u => wsum ws (fun v => tri l (xs (of_bond harmonic u) l) (xs (of_bond harmonic v) l) (xs b l)))).
  - unfold wsum at 1 2. apply fold_same. intros p _. f_equal. rewrite (lin_made b ws l (fun y => tri l (xs (of_bond harmonic (snd p)) l) y (xs b l)) M Hl (tri_lin2 l _ _)). auto.
  - unfold wsum at 1 3. apply fold_same. intros p _. f_equal. unfold wsum at 1 2. apply fold_same. intros p' _. f_equal. rewrite (lin_made b ws l (fun z => tri l (xs (of_bond harmonic (snd p)) l) (xs (of_bond harmonic (snd p')) l) z) M Hl (tri_lin3 l _ _)). auto.
Qed.
(** Two sums of bonds with the same weights and the same angles *)
Definition left_of (z : R * (vec * vec)) : R * vec := (fst z, fst (snd z)).
Definition right_of (z : R * (vec * vec)) : R * vec := (fst z, snd (snd z)).
Definition matched (zs : list (R * (vec * vec))) : Prop := forall z z', In z zs -> In z' zs -> fst (snd z) <> null_vec /\ snd (snd z) <> null_vec /\ cosine (fst (snd z)) (fst (snd z')) = cosine (snd (snd z)) (snd (snd z')).
Lemma tri_matched b b' zs l : degree l -> matched zs -> made b (map left_of zs) -> made b' (map right_of zs) -> tri l (xs b l) (xs b l) (xs b l) = tri l (xs b' l) (xs b' l) (xs b' l).
Proof.
  intros Hl H M M'. rewrite (tri_made b _ l M Hl), (tri_made b' _ l M' Hl). rewrite !wsum_map. apply fold_same. intros i Ii. unfold left_of at 1, right_of at 1. cbn [fst snd]. f_equal. rewrite !wsum_map. apply fold_same. intros j Ij. unfold left_of at 1, right_of at 1. cbn [fst snd]. f_equal. rewrite !wsum_map. apply fold_same. intros k Ik. unfold left_of, right_of. cbn [fst snd]. f_equal.
  destruct (H i i Ii Ii) as [A1 [A2 _]], (H j i Ij Ii) as [B1 [B2 B3]], (H k i Ik Ii) as [D1 [D2 D3]], (H k j Ik Ij) as [_ [_ D4]]. apply F3_angles; auto.
Qed.
Lemma norm_matched b b' zs l : degree l -> matched zs -> made b (map left_of zs) -> made b' (map right_of zs) -> exists n, norms b l = Val n /\ norms b' l = Val n.
Proof.
  intros Hl H M M'. exists (amp l * pairing l (map left_of zs) (map left_of zs)). split.
  - apply made_norm; auto. apply Forall_forall. intros x I. apply in_map_iff in I as [z [<- I]]. apply (H z z I I).
  - rewrite (made_norm b' _ l M'); auto; [|apply Forall_forall; intros x I; apply in_map_iff in I as [z [<- I]]; apply (H z z I I)]. f_equal. f_equal. unfold pairing. rewrite !sum_map. apply sum_ext. intros i Ii. rewrite !sum_map. apply sum_ext. intros j Ij. destruct (H i j Ii Ij) as [_ [_ E]]. unfold left_of, right_of. cbn [fst snd]. rewrite E. auto.
Qed.

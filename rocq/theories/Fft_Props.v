(** C150: the filter in Fourier space. *)
Require Import List Arith Bool Lia Ring Permutation ZArith.
Require Verif.Traj_Proofs.
Require Import Verif.ListX Verif.Tracker_Model Verif.Tracker_Spec Verif.Tracker_Props Verif.Fft_Model Verif.Fft_Spec.
Import ListNotations.
Local Open Scope nat_scope.

Section C150.
  Variables (V : Type) (zero one : V) (add mul : V -> V -> V) (opp : V -> V).
  Hypothesis RT : ring_theory zero one add mul (fun a b => add a (opp b)) opp eq.
  Add Ring VR : RT.
  Notation cx := (Fft_Spec.cx V).
  Notation c0 := (Fft_Spec.c0 V zero).
  Notation c1 := (Fft_Spec.c1 V zero one).
  Notation cadd := (Fft_Spec.cadd V add).
  Notation cmul := (Fft_Spec.cmul V add mul opp).
  Notation conj := (Fft_Spec.conj V opp).
  Notation cpow := (Fft_Spec.cpow V zero one add mul opp).
  Notation csum := (Fft_Spec.csum V zero add).
  Notation cnat := (Fft_Spec.cnat V zero one add).
  Notation root := (Fft_Spec.root V zero one add mul opp).
  Let copp (a : cx) : cx := (opp (fst a), opp (snd a)).
  Lemma CT : ring_theory c0 c1 cadd cmul (fun a b => cadd a (copp b)) copp eq.
  Proof.
    constructor; intros; repeat match goal with x : cx |- _ => destruct x end; unfold Fft_Spec.cadd, Fft_Spec.cmul, copp, Fft_Spec.c0, Fft_Spec.c1; cbn [fst snd]; try reflexivity; f_equal; ring.
  Qed.
  Add Ring CR : CT.
  Lemma conj_mul a b : conj (cmul a b) = cmul (conj a) (conj b).
  Proof. unfold Fft_Spec.conj, Fft_Spec.cmul. cbn [fst snd]. f_equal; ring. Qed.
  Lemma conj_add a b : conj (cadd a b) = cadd (conj a) (conj b).
  Proof. unfold Fft_Spec.conj, Fft_Spec.cadd. cbn [fst snd]. f_equal; ring. Qed.
  Lemma conj_conj a : conj (conj a) = a.
  Proof. destruct a. unfold Fft_Spec.conj. cbn [fst snd]. f_equal; ring. Qed.
  Lemma conj0 : conj c0 = c0.
  Proof. unfold Fft_Spec.conj, Fft_Spec.c0. cbn [fst snd]. f_equal; ring. Qed.
  Lemma conj1 : conj c1 = c1.
  Proof. unfold Fft_Spec.conj, Fft_Spec.c1. cbn [fst snd]. f_equal; ring. Qed.

  (** * Sums *)
  Lemma csum_ext {I} (l : list I) g h : (forall x, In x l -> g x = h x) -> csum l g = csum l h.
  Proof. unfold Fft_Spec.csum. induction l as [|x l IH]; intros H; [reflexivity|]. cbn [fold_right]. rewrite (H x (or_introl eq_refl)), IH by (intros y Hy; apply H; right; exact Hy). reflexivity. Qed.
  Lemma csum_cons {I} x (l : list I) g : csum (x :: l) g = cadd (g x) (csum l g).
  Proof. reflexivity. Qed.
  Lemma csum_app {I} (l l' : list I) g : csum (l ++ l') g = cadd (csum l g) (csum l' g).
  Proof. induction l as [|x l IH]; [change (csum l' g = cadd c0 (csum l' g)); ring|]. cbn [app]. rewrite !csum_cons, IH. ring. Qed.
  Lemma csum_zero {I} (l : list I) : csum l (fun _ => c0) = c0.
  Proof. induction l as [|x l IH]; [reflexivity|]. rewrite csum_cons, IH. ring. Qed.
  Lemma csum_add {I} (l : list I) g h : csum l (fun x => cadd (g x) (h x)) = cadd (csum l g) (csum l h).
  Proof. induction l as [|x l IH]; [change (c0 = cadd c0 c0); ring|]. rewrite !csum_cons, IH. ring. Qed.
  Lemma csum_mul {I} (l : list I) a g : csum l (fun x => cmul a (g x)) = cmul a (csum l g).
  Proof. induction l as [|x l IH]; [change (c0 = cmul a c0); ring|]. rewrite !csum_cons, IH. ring. Qed.
  Lemma csum_mul_r {I} (l : list I) a g : csum l (fun x => cmul (g x) a) = cmul (csum l g) a.
  Proof. induction l as [|x l IH]; [change (c0 = cmul c0 a); ring|]. rewrite !csum_cons, IH. ring. Qed.
  Lemma csum_swap {I J} (l : list I) (l' : list J) g : csum l (fun x => csum l' (fun y => g x y)) = csum l' (fun y => csum l (fun x => g x y)).
  Proof.
    induction l as [|x l IH]; [symmetry; apply (csum_zero l')|]. rewrite csum_cons, IH, <- csum_add. apply csum_ext. intros y _. reflexivity.
  Qed.
  Lemma csum_map {I J} (f : I -> J) l g : csum (map f l) g = csum l (fun x => g (f x)).
  Proof. induction l as [|x l IH]; [reflexivity|]. cbn [map]. rewrite !csum_cons, IH. reflexivity. Qed.
  Lemma csum_prod {I J} (l : list I) (l' : list J) g : csum (list_prod l l') g = csum l (fun x => csum l' (fun y => g (x, y))).
  Proof. induction l as [|x l IH]; [reflexivity|]. cbn [list_prod]. rewrite csum_app, csum_map, IH, csum_cons. reflexivity. Qed.
  Lemma csum_perm {I} (l l' : list I) g : Permutation l l' -> csum l g = csum l' g.
  Proof. intros P. induction P as [|x l l' P IH|x y l|l l' l'' P IH P' IH']; [reflexivity|rewrite !csum_cons, IH; reflexivity|rewrite !csum_cons; ring|congruence]. Qed.
  Lemma csum_conj {I} (l : list I) g : conj (csum l g) = csum l (fun x => conj (g x)).
  Proof. induction l as [|x l IH]; [apply conj0|]. rewrite !csum_cons, conj_add, IH. reflexivity. Qed.
  Lemma csum_const {I} (l : list I) : csum l (fun _ => c1) = cnat (length l).
  Proof.
    unfold Fft_Spec.cnat. generalize 0. induction l as [|x l IH]; intros a; [reflexivity|]. cbn [length seq]. rewrite !csum_cons, (IH (S a)). reflexivity.
  Qed.
  Lemma csum_pick {I} (eqd : forall x y : I, {x = y} + {x <> y}) l g a : NoDup l -> In a l -> csum l (fun x => if eqd x a then g x else c0) = g a.
  Proof.
    intros N. induction N as [|x l Hx N IH]; intros H; [destruct H|]. rewrite csum_cons. destruct (eqd x a) as [->|Na].
    - rewrite (csum_ext l _ (fun _ => c0)); [rewrite csum_zero; ring|]. intros y Hy. destruct (eqd y a) as [->|]; [contradiction|reflexivity].
    - destruct H as [->|H]; [congruence|]. rewrite (IH H). ring.
  Qed.

  (** * Powers of a root *)
  Lemma cpow_add w a b : cpow w (a + b) = cmul (cpow w a) (cpow w b).
  Proof. induction a as [|a IH]; cbn [Nat.add Fft_Spec.cpow]; [ring|rewrite IH; ring]. Qed.
  Lemma cpow_one w n a : cpow w n = c1 -> cpow w (n * a) = c1.
  Proof. intros H. induction a as [|a IH]; [rewrite Nat.mul_0_r; reflexivity|]. rewrite Nat.mul_succ_r, cpow_add, IH, H. ring. Qed.
  Lemma cpow_mod n w a : root n w -> 0 < n -> cpow w (a mod n) = cpow w a.
  Proof. intros [_ [H _]] P. rewrite (Nat.div_mod a n) at 2 by lia. rewrite cpow_add, (cpow_one w n _ H). ring. Qed.
  Lemma cpow_mod_r n w a b : root n w -> 0 < n -> cpow w (a * (b mod n)) = cpow w (a * b).
  Proof. intros H P. rewrite <- (cpow_mod n w (a * (b mod n)) H P), <- (cpow_mod n w (a * b) H P). f_equal. apply Nat.mul_mod_idemp_r. lia. Qed.
  Lemma cpow_conj n w a : root n w -> cmul (cpow w a) (conj (cpow w a)) = c1.
  Proof.
    intros [H _]. induction a as [|a IH]; cbn [Fft_Spec.cpow]; [rewrite conj1; ring|]. rewrite conj_mul. replace (cmul (cmul w (cpow w a)) (cmul (conj w) (conj (cpow w a)))) with (cmul (cmul w (conj w)) (cmul (cpow w a) (conj (cpow w a)))) by ring. rewrite H, IH. ring.
  Qed.
  Lemma cpow_opposite n w a b : root n w -> 0 < n -> b <= n -> cpow w (a * opposite n b) = conj (cpow w (a * b)).
  Proof.
    intros H P Hb. unfold opposite. rewrite (cpow_mod_r n w a (n - b) H P).
    assert (E : cmul (cpow w (a * b)) (cpow w (a * (n - b))) = c1). { rewrite <- cpow_add. replace (a * b + a * (n - b)) with (n * a) by nia. apply cpow_one. apply H. }
    assert (C := cpow_conj n w (a * b) H).
    transitivity (cmul (cmul (cpow w (a * b)) (conj (cpow w (a * b)))) (cpow w (a * (n - b)))); [rewrite C; ring|].
    transitivity (cmul (cmul (cpow w (a * b)) (cpow w (a * (n - b)))) (conj (cpow w (a * b)))); [ring|rewrite E; ring].
  Qed.
  Lemma orthogonal n w x y : root n w -> x < n -> y < n -> csum (seq 0 n) (fun a => cmul (cpow w (a * x)) (conj (cpow w (a * y)))) = if Nat.eq_dec x y then cnat n else c0.
  Proof.
    intros H Hx Hy. rewrite (csum_ext _ _ (fun a => cpow w (a * ((x + (n - y)) mod n)))).
    2: { intros a _. rewrite <- (cpow_opposite n w a y H) by lia. unfold opposite. rewrite (cpow_mod_r n w a (n - y) H) by lia. rewrite <- cpow_add, (cpow_mod_r n w a _ H) by lia. f_equal. lia. }
    destruct (Nat.eq_dec x y) as [->|Nxy].
    - replace (y + (n - y)) with n by lia. rewrite Nat.mod_same by lia. unfold Fft_Spec.cnat. apply csum_ext. intros a _. rewrite Nat.mul_0_r. reflexivity.
    - apply H. split; [|apply Nat.mod_upper_bound; lia]. destruct (Nat.lt_ge_cases x y) as [L|L].
      + rewrite Nat.mod_small by lia. lia.
      + replace (x + (n - y)) with ((x - y) + 1 * n) by lia. rewrite Nat.mod_add by lia. rewrite Nat.mod_small by lia. lia.
  Qed.

  (** * Three dimensions *)
  Variables (n0 n1 n2 : nat) (w0 w1 w2 : cx).
  Hypotheses (R0 : root n0 w0) (R1 : root n1 w1) (R2 : root n2 w2) (P0 : 0 < n0) (P1 : 0 < n1) (P2 : 0 < n2).
  Notation pixels := (Fft_Spec.pixels n0 n1 n2).
  Notation wave := (Fft_Spec.wave V zero one add mul opp w0 w1 w2).
  Notation spectrum := (Fft_Spec.spectrum V zero one add mul opp n0 n1 n2 w0 w1 w2).
  Notation filtered := (Fft_Spec.filtered V zero one add mul opp n0 n1 n2 w0 w1 w2).
  Notation opposites := (Fft_Spec.opposites n0 n1 n2).
  Notation opposite3 := (Fft_Spec.opposite3 n0 n1 n2).
  Notation shifted := (Fft_Spec.shifted n0 n1 n2).
  Notation image := (Fft_Spec.image V zero n1 n2).
  Notation half := (Fft_Spec.half V zero n1 n2).
  Notation block_size := (Fft_Spec.block_size n0 n1 n2).
  Notation r2c := (Fft_Spec.r2c V zero one add mul opp n0 n1 n2 w0 w1 w2).
  Notation c2r := (Fft_Spec.c2r V zero one add mul opp n0 n1 n2 w0 w1 w2).
  Notation hermitian := (Fft_Spec.hermitian V opp n0 n1 n2).
  Notation stores := (Fft_Spec.stores V zero n0 n1 n2).
  Definition idx_dec (x y : idx) : {x = y} + {x <> y}.
  Proof. repeat decide equality. Defined.
  Lemma in_pixels x : In x pixels <-> fst (fst x) < n0 /\ snd (fst x) < n1 /\ snd x < n2.
  Proof. unfold Fft_Spec.pixels. destruct x as [[a b] c]. unfold idx. rewrite !in_prod_iff, !in_seq. cbn [fst snd]. lia. Qed.
  Lemma nodup_prod {A B} (l : list A) (l' : list B) : NoDup l -> NoDup l' -> NoDup (list_prod l l').
  Proof.
    intros N N'. induction N as [|x l Hx N IH]; [constructor|]. cbn [list_prod]. apply Traj_Proofs.NoDup_app_x; [|exact IH|].
    - apply FinFun.Injective_map_NoDup; [|exact N']. intros a b E. congruence.
    - intros [a b] H1 H2. apply in_map_iff in H1 as [y [E _]]. apply in_prod_iff in H2 as [H2 _]. assert (x = a) by congruence. subst. contradiction.
  Qed.
  Lemma nodup_pixels : NoDup pixels.
  Proof. unfold Fft_Spec.pixels. repeat apply nodup_prod; apply seq_NoDup. Qed.
  Lemma length_pixels : length pixels = n0 * n1 * n2.
  Proof. unfold Fft_Spec.pixels, idx. rewrite !prod_length, !seq_length. reflexivity. Qed.
  Lemma reindex (s : idx -> idx) g : (forall x, In x pixels -> In (s x) pixels) -> (forall x y, In x pixels -> In y pixels -> s x = s y -> x = y) -> csum pixels (fun x => g (s x)) = csum pixels g.
  Proof.
    intros Hin Hinj. rewrite <- (csum_map s). apply csum_perm. apply NoDup_Permutation_bis.
    - assert (G : forall l, (forall x, In x l -> In x pixels) -> NoDup l -> NoDup (map s l)); [|apply G; [auto|apply nodup_pixels]].
      intros l Hl N. induction N as [|x l Hx N IH]; [constructor|]. cbn [map]. constructor; [|apply IH; intros y Hy; apply Hl; right; exact Hy]. intros H. apply in_map_iff in H as [y [E Hy]]. apply Hx. rewrite (Hinj x y); [exact Hy|apply Hl; left; reflexivity|apply Hl; right; exact Hy|congruence].
    - rewrite map_length. lia.
    - intros y Hy. apply in_map_iff in Hy as [x [<- Hx]]. auto.
  Qed.
  Lemma csum_sep (A B C : nat -> cx) : csum pixels (fun x => cmul (cmul (A (fst (fst x))) (B (snd (fst x)))) (C (snd x))) = cmul (cmul (csum (seq 0 n0) A) (csum (seq 0 n1) B)) (csum (seq 0 n2) C).
  Proof.
    unfold Fft_Spec.pixels, idx. rewrite !csum_prod. cbn [fst snd]. rewrite (csum_ext (seq 0 n0) _ (fun a => cmul (A a) (cmul (csum (seq 0 n1) B) (csum (seq 0 n2) C)))); [rewrite csum_mul_r; ring|].
    intros a _. rewrite (csum_ext (seq 0 n1) _ (fun b => cmul (B b) (cmul (A a) (csum (seq 0 n2) C)))); [rewrite csum_mul_r; ring|]. intros b _. rewrite csum_mul. ring.
  Qed.
  Lemma cnat_add a b : cnat (a + b) = cadd (cnat a) (cnat b).
  Proof. unfold Fft_Spec.cnat at 1. rewrite seq_app, csum_app, !csum_const, !seq_length. reflexivity. Qed.
  Lemma cnat_mul a b : cnat (a * b) = cmul (cnat a) (cnat b).
  Proof. induction a as [|a IH]; [change (c0 = cmul c0 (cnat b)); ring|]. cbn [Nat.mul]. rewrite cnat_add, IH. change (S a) with (1 + a). rewrite cnat_add. change (cnat 1) with (cadd c1 c0). ring. Qed.
  Lemma wave_sym f x : wave f x = wave x f.
  Proof. unfold Fft_Spec.wave. rewrite (Nat.mul_comm (fst (fst f))), (Nat.mul_comm (snd (fst f))), (Nat.mul_comm (snd f)). reflexivity. Qed.
  Lemma orthogonal3 f g : In f pixels -> In g pixels -> csum pixels (fun x => cmul (wave f x) (conj (wave g x))) = if idx_dec f g then cnat (n0 * n1 * n2) else c0.
  Proof.
    intros Hf Hg. apply in_pixels in Hf as [F0 [F1 F2]]. apply in_pixels in Hg as [G0 [G1 G2]].
    set (A := fun a => cmul (cpow w0 (a * fst (fst f))) (conj (cpow w0 (a * fst (fst g))))). set (B := fun b => cmul (cpow w1 (b * snd (fst f))) (conj (cpow w1 (b * snd (fst g))))). set (C := fun c => cmul (cpow w2 (c * snd f)) (conj (cpow w2 (c * snd g)))).
    transitivity (csum pixels (fun x => cmul (cmul (A (fst (fst x))) (B (snd (fst x)))) (C (snd x)))).
    { apply csum_ext. intros x _. rewrite (wave_sym f x), (wave_sym g x). unfold Fft_Spec.wave, A, B, C. rewrite !conj_mul. ring. }
    rewrite (csum_sep A B C). unfold A, B, C.
    rewrite (orthogonal n0 w0 _ _ R0 F0 G0), (orthogonal n1 w1 _ _ R1 F1 G1), (orthogonal n2 w2 _ _ R2 F2 G2). destruct f as [[a b] c], g as [[a' b'] c']. cbn [fst snd].
    destruct (idx_dec (a, b, c) (a', b', c')) as [E|E].
    - assert (a = a' /\ b = b' /\ c = c') as [<- [<- <-]] by (split; [congruence|split; congruence]). destruct (Nat.eq_dec a a); [|congruence]. destruct (Nat.eq_dec b b); [|congruence]. destruct (Nat.eq_dec c c); [|congruence]. rewrite !cnat_mul. reflexivity.
    - destruct (Nat.eq_dec a a') as [->|]; [|ring]. destruct (Nat.eq_dec b b') as [->|]; [|ring]. destruct (Nat.eq_dec c c') as [->|]; [congruence|ring].
  Qed.
  Lemma opposite_lt n i : 0 < n -> opposite n i < n.
  Proof. intros H. unfold opposite. apply Nat.mod_upper_bound. lia. Qed.
  Lemma opposite_twice n i : i < n -> opposite n (opposite n i) = i.
  Proof. intros H. unfold opposite. destruct (Nat.eq_dec i 0) as [->|N0]; [rewrite Nat.sub_0_r, Nat.mod_same, Nat.sub_0_r, Nat.mod_same by lia; reflexivity|]. rewrite (Nat.mod_small (n - i)) by lia. rewrite Nat.mod_small by lia. lia. Qed.
  Lemma opposites_in p x : In x pixels -> In (opposites p x) pixels.
  Proof. rewrite !in_pixels. intros [A [B C]]. unfold Fft_Spec.opposites. cbn [fst snd]. assert (H := opposite_lt). destruct p as [[[] []] []]; cbn [fst snd]; repeat split; auto. Qed.
  Lemma opposites_twice p x : In x pixels -> opposites p (opposites p x) = x.
  Proof. rewrite in_pixels. intros [A [B C]]. destruct x as [[a b] c]. unfold Fft_Spec.opposites. cbn [fst snd] in *. destruct p as [[[] []] []]; cbn [fst snd]; rewrite ?opposite_twice by assumption; reflexivity. Qed.
  Lemma cpow_side n w (b : bool) a x : root n w -> 0 < n -> a < n -> x < n -> cpow w (a * (if b then opposite n x else x)) = cpow w ((if b then opposite n a else a) * x).
  Proof. intros H P Ha Hx. destruct b; [|reflexivity]. rewrite (cpow_opposite n w a x H P) by lia. rewrite (Nat.mul_comm (opposite n a)), (cpow_opposite n w x a H P) by lia. rewrite (Nat.mul_comm a x). reflexivity. Qed.
  Lemma wave_opposites p f x : In f pixels -> In x pixels -> wave f (opposites p x) = wave (opposites p f) x.
  Proof.
    intros Hf Hx. apply in_pixels in Hf as [F0 [F1 F2]]. apply in_pixels in Hx as [G0 [G1 G2]]. unfold Fft_Spec.wave, Fft_Spec.opposites. cbn [fst snd]. rewrite (cpow_side n0 w0 _ _ _ R0 P0 F0 G0), (cpow_side n1 w1 _ _ _ R1 P1 F1 G1), (cpow_side n2 w2 _ _ _ R2 P2 F2 G2). reflexivity.
  Qed.
  Lemma wave_opposite3 f x : In f pixels -> In x pixels -> wave (opposite3 f) x = conj (wave f x).
  Proof.
    intros Hf Hx. unfold Fft_Spec.opposite3. rewrite <- wave_opposites by assumption. apply in_pixels in Hx as [G0 [G1 G2]]. unfold Fft_Spec.wave, Fft_Spec.opposites. cbn [fst snd]. rewrite (cpow_opposite n0 w0 _ _ R0 P0), (cpow_opposite n1 w1 _ _ R1 P1), (cpow_opposite n2 w2 _ _ R2 P2) by lia. rewrite !conj_mul. reflexivity.
  Qed.
  Lemma shifted_in a x : In (shifted a x) pixels.
  Proof. apply in_pixels. unfold Fft_Spec.shifted. cbn [fst snd]. repeat split; apply Nat.mod_upper_bound; lia. Qed.
  Lemma shift_inj n a x y : 0 < n -> x < n -> y < n -> (x + a) mod n = (y + a) mod n -> x = y.
  Proof.
    intros P Hx Hy E. assert (Ex := Nat.div_mod (x + a) n). assert (Ey := Nat.div_mod (y + a) n). rewrite E in Ex. destruct (Nat.lt_trichotomy ((x + a) / n) ((y + a) / n)) as [L|[L|L]]; nia.
  Qed.
  Lemma shifted_inj a x y : In x pixels -> In y pixels -> shifted a x = shifted a y -> x = y.
  Proof.
    rewrite !in_pixels. destruct x as [[x1 x2] x3], y as [[y1 y2] y3]. unfold Fft_Spec.shifted. cbn [fst snd]. intros [A [B C]] [A' [B' C']] E. injection E as E1 E2 E3.
    rewrite (shift_inj n0 _ _ _ P0 A A' E1), (shift_inj n1 _ _ _ P1 B B' E2), (shift_inj n2 _ _ _ P2 C C' E3). reflexivity.
  Qed.
  Lemma wave_shifted f a x : wave f (shifted a x) = cmul (wave f x) (wave f a).
  Proof. unfold Fft_Spec.wave, Fft_Spec.shifted. cbn [fst snd]. rewrite (cpow_mod_r n0 w0 _ _ R0 P0), (cpow_mod_r n1 w1 _ _ R1 P1), (cpow_mod_r n2 w2 _ _ R2 P2), !Nat.mul_add_distr_l, !cpow_add. ring. Qed.
  Lemma wave_unit f x : cmul (wave f x) (conj (wave f x)) = c1.
  Proof.
    unfold Fft_Spec.wave. rewrite !conj_mul. set (a := cpow w0 _). set (b := cpow w1 _). set (c := cpow w2 _). replace (cmul (cmul (cmul a b) c) (cmul (cmul (conj a) (conj b)) (conj c))) with (cmul (cmul (cmul a (conj a)) (cmul b (conj b))) (cmul c (conj c))) by ring.
    unfold a, b, c. rewrite (cpow_conj n0 w0 _ R0), (cpow_conj n1 w1 _ R1), (cpow_conj n2 w2 _ R2). ring.
  Qed.

  (** * The filter on functions *)
  Lemma spectrum_ext v v' f : (forall x, In x pixels -> v x = v' x) -> spectrum v f = spectrum v' f.
  Proof. intros H. apply csum_ext. intros x Hx. rewrite (H x Hx). reflexivity. Qed.
  Lemma filtered_ext keep v v' x : (forall x, In x pixels -> v x = v' x) -> filtered keep v x = filtered keep v' x.
  Proof. intros H. apply csum_ext. intros f _. rewrite (spectrum_ext v v' f H). reflexivity. Qed.
  Lemma spectrum_filtered keep v f : In f pixels -> spectrum (filtered keep v) f = if keep f then cmul (cnat (n0 * n1 * n2)) (spectrum v f) else c0.
  Proof.
    intros Hf. unfold Fft_Spec.spectrum at 1, Fft_Spec.filtered. rewrite (csum_ext pixels _ (fun x => csum pixels (fun g => cmul (if keep g then spectrum v g else c0) (cmul (wave g x) (conj (wave f x)))))).
    2: { intros x _. rewrite <- csum_mul_r. apply csum_ext. intros g _. destruct (keep g); ring. }
    rewrite csum_swap. rewrite (csum_ext pixels _ (fun g => if idx_dec g f then cmul (if keep g then spectrum v g else c0) (cnat (n0 * n1 * n2)) else c0)).
    2: { intros g Hg. rewrite csum_mul, (orthogonal3 g f Hg Hf). destruct (idx_dec g f); [reflexivity|ring]. }
    rewrite (csum_pick idx_dec pixels (fun g => cmul (if keep g then spectrum v g else c0) (cnat (n0 * n1 * n2))) f nodup_pixels Hf). destruct (keep f); ring.
  Qed.
  Lemma filtered_twice keep v x : filtered keep (filtered keep v) x = cmul (cnat (n0 * n1 * n2)) (filtered keep v x).
  Proof.
    unfold Fft_Spec.filtered at 1. rewrite (csum_ext pixels _ (fun f => cmul (cnat (n0 * n1 * n2)) (if keep f then cmul (spectrum v f) (wave f x) else c0))); [rewrite csum_mul; reflexivity|].
    intros f Hf. rewrite (spectrum_filtered keep v f Hf). destruct (keep f); ring.
  Qed.
  Lemma spectrum_linear a b v v' f : spectrum (fun x => cadd (cmul a (v x)) (cmul b (v' x))) f = cadd (cmul a (spectrum v f)) (cmul b (spectrum v' f)).
  Proof. unfold Fft_Spec.spectrum. rewrite <- !csum_mul, <- csum_add. apply csum_ext. intros x _. ring. Qed.
  Lemma filtered_linear keep a b v v' x : filtered keep (fun x => cadd (cmul a (v x)) (cmul b (v' x))) x = cadd (cmul a (filtered keep v x)) (cmul b (filtered keep v' x)).
  Proof. unfold Fft_Spec.filtered. rewrite <- !csum_mul, <- csum_add. apply csum_ext. intros f _. rewrite spectrum_linear. destruct (keep f); ring. Qed.
  Lemma filtered_shift keep a v x : filtered keep (fun x => v (shifted a x)) x = filtered keep v (shifted a x).
  Proof.
    unfold Fft_Spec.filtered. apply csum_ext. intros f Hf. destruct (keep f); [|reflexivity]. rewrite wave_shifted. unfold Fft_Spec.spectrum. rewrite <- (reindex (shifted a) (fun x => cmul (v x) (conj (wave f x)))); [|intros y _; apply shifted_in|apply shifted_inj].
    rewrite (csum_ext pixels (fun x0 => cmul (v (shifted a x0)) (conj (wave f x0))) (fun y => cmul (cmul (v (shifted a y)) (conj (wave f (shifted a y)))) (wave f a))); [rewrite csum_mul_r; ring|].
    intros y _. rewrite wave_shifted, conj_mul. transitivity (cmul (cmul (v (shifted a y)) (conj (wave f y))) (cmul (wave f a) (conj (wave f a)))); [rewrite wave_unit; ring|ring].
  Qed.
  Lemma filtered_mirror keep p v x : In x pixels -> (forall f, In f pixels -> keep (opposites p f) = keep f) -> filtered keep (fun x => v (opposites p x)) x = filtered keep v (opposites p x).
  Proof.
    intros Hx Hk. assert (Inj : forall y z, In y pixels -> In z pixels -> opposites p y = opposites p z -> y = z) by (intros y z Hy Hz E; rewrite <- (opposites_twice p y Hy), <- (opposites_twice p z Hz), E; reflexivity).
    unfold Fft_Spec.filtered. rewrite <- (reindex (opposites p) (fun f => if keep f then cmul (spectrum (fun x0 => v (opposites p x0)) f) (wave f x) else c0)) by (auto using opposites_in). apply csum_ext. intros f Hf. rewrite (Hk f Hf). destruct (keep f); [|reflexivity].
    rewrite <- (wave_opposites p f x Hf Hx). f_equal. unfold Fft_Spec.spectrum. rewrite <- (reindex (opposites p) (fun y => cmul (v y) (conj (wave f y)))) by (auto using opposites_in). apply csum_ext. intros y Hy. rewrite (wave_opposites p f y Hf Hy). reflexivity.
  Qed.
  Lemma wave0 x : wave (0, 0, 0) x = c1.
  Proof. unfold Fft_Spec.wave. cbn [fst snd Nat.mul Fft_Spec.cpow]. ring. Qed.
  Lemma spectrum_const c f : In f pixels -> spectrum (fun _ => c) f = if idx_dec (0, 0, 0) f then cmul c (cnat (n0 * n1 * n2)) else c0.
  Proof.
    intros Hf. unfold Fft_Spec.spectrum. rewrite csum_mul. rewrite (csum_ext pixels _ (fun x => cmul (wave (0, 0, 0) x) (conj (wave f x)))) by (intros x _; rewrite wave0; ring). rewrite orthogonal3; [|apply in_pixels; cbn [fst snd]; lia|exact Hf]. destruct (idx_dec (0, 0, 0) f); ring.
  Qed.
  Lemma filtered_const keep c x : filtered keep (fun _ => c) x = if keep (0, 0, 0) then cmul c (cnat (n0 * n1 * n2)) else c0.
  Proof.
    unfold Fft_Spec.filtered. rewrite (csum_ext pixels _ (fun f => if idx_dec f (0, 0, 0) then (fun f => if keep f then cmul (cmul c (cnat (n0 * n1 * n2))) (wave f x) else c0) f else c0)).
    - rewrite (csum_pick idx_dec pixels (fun f => if keep f then cmul (cmul c (cnat (n0 * n1 * n2))) (wave f x) else c0)); [|apply nodup_pixels|apply in_pixels; cbn [fst snd]; lia]. rewrite wave0. destruct (keep (0, 0, 0)); ring.
    - intros f Hf. cbn beta. rewrite (spectrum_const c f Hf). destruct (idx_dec f (0, 0, 0)) as [->|E']; [destruct (idx_dec (0, 0, 0) (0, 0, 0)); [reflexivity|congruence]|]. destruct (idx_dec (0, 0, 0) f); [congruence|]. destruct (keep f); ring.
  Qed.
  Lemma filtered_all v x : In x pixels -> filtered (fun _ => true) v x = cmul (cnat (n0 * n1 * n2)) (v x).
  Proof.
    intros Hx. unfold Fft_Spec.filtered, Fft_Spec.spectrum. rewrite (csum_ext pixels _ (fun f => csum pixels (fun y => cmul (v y) (cmul (wave x f) (conj (wave y f)))))).
    2: { intros f _. rewrite <- csum_mul_r. apply csum_ext. intros y _. rewrite (wave_sym x f), (wave_sym y f). ring. }
    rewrite csum_swap. rewrite (csum_ext pixels _ (fun y => if idx_dec y x then cmul (v y) (cnat (n0 * n1 * n2)) else c0)).
    - rewrite (csum_pick idx_dec pixels (fun y => cmul (v y) (cnat (n0 * n1 * n2))) x nodup_pixels Hx). ring.
    - intros y Hy. rewrite csum_mul, (orthogonal3 x y Hx Hy). destruct (idx_dec y x) as [->|E']; [destruct (idx_dec x x); [reflexivity|congruence]|]. destruct (idx_dec x y); [congruence|]. ring.
  Qed.

  (** * The loop on the block *)
  Notation apply_mask := (Fft_Model.apply_mask V zero one mul).
  Notation mask_memory := (Fft_Model.mask_memory n0 n1 n2).
  Notation fft_apply := (Fft_Model.fft_apply V zero one mul n0 n1 n2).
  Lemma apply_length b : forall c, length (apply_mask c b) = length c.
  Proof. induction b as [|x b IH]; intros c; [reflexivity|]. destruct c as [|re [|im c]]; [reflexivity|reflexivity|]. cbn [Fft_Model.apply_mask length]. rewrite IH. reflexivity. Qed.
  Lemma apply_nth b : forall c l (d : bool), l < length b -> 2 * length b <= length c -> nth (2 * l) (apply_mask c b) zero = (if nth l b d then nth (2 * l) c zero else zero) /\ nth (2 * l + 1) (apply_mask c b) zero = (if nth l b d then nth (2 * l + 1) c zero else zero).
  Proof.
    induction b as [|x b IH]; intros c l d Hl Hc; cbn [length] in *; [lia|]. destruct c as [|re [|im c]]; cbn [length] in Hc; [lia|lia|]. cbn [Fft_Model.apply_mask].
    destruct l as [|l].
    - cbn [Nat.mul Nat.add nth]. unfold float_of. destruct x; split; ring.
    - replace (2 * S l) with (S (S (2 * l))) by lia. replace (S (S (2 * l)) + 1) with (S (S (2 * l + 1))) by lia. cbn [nth]. apply IH; lia.
  Qed.
  Lemma nth_flat_seq {A} (g : nat -> list A) k d : (forall a, length (g a) = k) -> forall n s a r, a < n -> r < k -> nth (a * k + r) (flat_map g (seq s n)) d = nth r (g (s + a)) d.
  Proof.
    intros Hg. induction n as [|n IH]; intros s a r Ha Hr; [lia|]. cbn [seq flat_map]. destruct a as [|a].
    - rewrite app_nth1 by (rewrite Hg; lia). rewrite Nat.add_0_r. reflexivity.
    - rewrite app_nth2 by (rewrite Hg; lia). rewrite Hg. replace (S a * k + r - k) with (a * k + r) by lia. rewrite IH by lia. f_equal. f_equal. lia.
  Qed.
  Lemma length_flat_seq {A} (g : nat -> list A) k : (forall a, length (g a) = k) -> forall n s, length (flat_map g (seq s n)) = n * k.
  Proof. intros Hg. induction n as [|n IH]; intros s; [reflexivity|]. cbn [seq flat_map]. rewrite app_length, Hg, IH. lia. Qed.
  Lemma memory_length m : length (mask_memory m) = n0 * n1 * (n2 / 2 + 1).
  Proof. unfold Fft_Model.mask_memory. rewrite (length_flat_seq _ (n1 * (n2 / 2 + 1))); [lia|]. intros i. apply length_flat_seq. intros j. rewrite map_length, seq_length. reflexivity. Qed.
  Lemma memory_nth m i j k : i < n0 -> j < n1 -> k <= n2 / 2 -> nth ((i * n1 + j) * (n2 / 2 + 1) + k) (mask_memory m) false = m i j k.
  Proof.
    intros Hi Hj Hk. unfold Fft_Model.mask_memory. replace ((i * n1 + j) * (n2 / 2 + 1) + k) with (i * (n1 * (n2 / 2 + 1)) + (j * (n2 / 2 + 1) + k)) by lia.
    rewrite (nth_flat_seq _ (n1 * (n2 / 2 + 1))); [|intros a; apply length_flat_seq; intros b; rewrite map_length, seq_length; reflexivity|exact Hi|nia].
    rewrite (nth_flat_seq _ (n2 / 2 + 1)); [|intros a; rewrite map_length, seq_length; reflexivity|exact Hj|lia]. cbn [Nat.add].
    rewrite (nth_indep _ false (m i j 0)) by (rewrite map_length, seq_length; lia). rewrite map_nth, seq_nth by lia. reflexivity.
  Qed.
  Lemma half_masked c m f : length c = block_size -> In f pixels -> snd f <= n2 / 2 -> half (apply_mask c (mask_memory m)) f = if m (fst (fst f)) (snd (fst f)) (snd f) then half c f else c0.
  Proof.
    intros Hc Hf Hk. apply in_pixels in Hf as [Hi [Hj _]]. unfold Fft_Spec.half. set (l := (fst (fst f) * n1 + snd (fst f)) * (n2 / 2 + 1) + snd f).
    assert (E := memory_nth m (fst (fst f)) (snd (fst f)) (snd f) Hi Hj Hk). fold l in E.
    destruct (apply_nth (mask_memory m) c l false) as [E1 E2]; [rewrite memory_length; unfold l; assert (fst (fst f) * n1 + snd (fst f) < n0 * n1) by nia; set (q := n2 / 2) in *; nia|rewrite memory_length, Hc; unfold Fft_Spec.block_size; lia|].
    rewrite E1, E2, E. destruct (m _ _ _); reflexivity.
  Qed.
  Lemma freq_low k : k <= n2 / 2 -> freq n2 k = k.
  Proof. intros H. unfold freq. assert (n2 / 2 * 2 <= n2) by (rewrite Nat.mul_comm; apply Nat.mul_div_le; lia). lia. Qed.
  Lemma kept_opposites m p f : symmetric n0 n1 (n2 / 2 + 1) m -> In f pixels -> kept3 n2 m (opposites p f) = kept3 n2 m f.
  Proof.
    intros Hs Hf. apply in_pixels in Hf as [Hi [Hj Hk]]. unfold kept3, Fft_Spec.opposites. destruct f as [[i j] k]. cbn [fst snd] in *.
    assert (Ek : freq n2 (if snd p then opposite n2 k else k) = freq n2 k) by (destruct (snd p); [apply (freq_opposite n2 k Hk)|reflexivity]). rewrite Ek. assert (Hq : freq n2 k < n2 / 2 + 1) by (assert (H := freq_half n2 k Hk); lia).
    assert (Hj' : (if snd (fst p) then opposite n1 j else j) < n1) by (destruct (snd (fst p)); [apply opposite_lt; exact P1|exact Hj]).
    transitivity (m i (if snd (fst p) then opposite n1 j else j) (freq n2 k)); [destruct (fst (fst p)); [exact (proj1 (Hs i _ _ Hi Hj' Hq))|reflexivity]|destruct (snd (fst p)); [exact (proj2 (Hs i j _ Hi Hj Hq))|reflexivity]].
  Qed.
  Lemma spectrum_real block f : In f pixels -> spectrum (image block) (opposite3 f) = conj (spectrum (image block) f).
  Proof.
    intros Hf. unfold Fft_Spec.spectrum. rewrite csum_conj. apply csum_ext. intros x Hx. rewrite (wave_opposite3 f x Hf Hx), conj_mul. f_equal. unfold Fft_Spec.conj, Fft_Spec.image. cbn [fst snd]. f_equal. ring.
  Qed.
  (** The filter keeps the waves of the image whose frequencies are in the mask, and multiplies by the number of pixels as FFTW does. *)
  Theorem C150_filter forward backward m block : r2c forward -> c2r backward -> symmetric n0 n1 (n2 / 2 + 1) m -> length block = block_size ->
    length (fft_apply forward backward m block) = block_size /\ forall x, In x pixels -> image (fft_apply forward backward m block) x = filtered (kept3 n2 m) (image block) x.
  Proof.
    intros Hf Hb Hs Hl. destruct (Hf block Hl) as [Lf Ef]. unfold Fft_Model.fft_apply. destruct (Hb (apply_mask (forward block) (mask_memory m)) (fun f => if kept3 n2 m f then spectrum (image block) f else c0)) as [L E].
    - rewrite apply_length. exact Lf.
    - intros f Hin. cbn beta. unfold Fft_Spec.opposite3 at 1. rewrite (kept_opposites m _ f Hs Hin). destruct (kept3 n2 m f); [apply spectrum_real; exact Hin|symmetry; apply conj0].
    - intros f Hin Hk. rewrite (half_masked _ m f Lf Hin Hk). unfold kept3. rewrite (freq_low _ Hk). destruct (m _ _ _); [apply Ef; assumption|reflexivity].
    - split; [exact L|]. intros x Hx. rewrite (E x Hx). unfold Fft_Spec.filtered. apply csum_ext. intros f _. destruct (kept3 n2 m f); [reflexivity|ring].
  Qed.
  (** The masks of the band-pass and low-pass filters, for dimensions that are even or 1 *)
  Theorem C150_band forward backward kmin kmax m block : r2c forward -> c2r backward -> n0 mod 2 = 0 \/ n0 = 1 -> n1 mod 2 = 0 \/ n1 = 1 -> (forall i j, i <= n0 / 2 -> j <= n1 / 2 -> kmin i j <= kmax i j) -> length block = block_size ->
    forall x, In x pixels -> image (fft_apply forward backward (make_band_pass n0 n1 (n2 / 2 + 1) kmin kmax m) block) x =
      filtered (fun f => let lo := kmin (freq n0 (fst (fst f))) (freq n1 (snd (fst f))) in let hi := kmax (freq n0 (fst (fst f))) (freq n1 (snd (fst f))) in (lo <=? freq n2 (snd f)) && (freq n2 (snd f) <? hi)) (image block) x.
  Proof.
    intros Hf Hb H0 H1 Hk Hl x Hx. destruct (C150_filter forward backward (make_band_pass n0 n1 (n2 / 2 + 1) kmin kmax m) block Hf Hb) as [_ E]; [apply C68_symmetric; assumption|exact Hl|]. rewrite (E x Hx). unfold Fft_Spec.filtered. apply csum_ext. intros f Hin. apply in_pixels in Hin as [I [J K]].
    assert (B := C68_band_pass n0 n1 (n2 / 2 + 1) kmin kmax m (fst (fst f)) (snd (fst f)) (freq n2 (snd f)) H0 H1 Hk I J ltac:(assert (H := freq_half n2 _ K); lia)). cbv zeta. unfold kept3.
    destruct (make_band_pass _ _ _ _ _ _ _ _ _).
    - destruct (proj1 B eq_refl) as [B1 B2]. rewrite (proj2 (Nat.leb_le _ _) B1), (proj2 (Nat.ltb_lt _ _) B2). reflexivity.
    - destruct (Nat.leb_spec (kmin (freq n0 (fst (fst f))) (freq n1 (snd (fst f)))) (freq n2 (snd f))) as [L|L]; [|reflexivity]. destruct (Nat.ltb_spec (freq n2 (snd f)) (kmax (freq n0 (fst (fst f))) (freq n1 (snd (fst f))))) as [L'|L']; [|reflexivity]. discriminate (proj2 B (Logic.conj L L')).
  Qed.

  (** * Consequences, for any mask that does not depend on the signs of the frequencies *)
  Section Program.
    Variables (forward backward : list V -> list V) (m : mask bool).
    Hypotheses (Hf : r2c forward) (Hb : c2r backward) (Hs : symmetric n0 n1 (n2 / 2 + 1) m).
    Let run := fft_apply forward backward m.
    Lemma run_ok block x : length block = block_size -> In x pixels -> image (run block) x = filtered (kept3 n2 m) (image block) x.
    Proof. intros L Hx. apply (C150_filter forward backward m block Hf Hb Hs L). exact Hx. Qed.
    (** The spectrum of the result *)
    Theorem C150_spectrum block f : length block = block_size -> In f pixels -> spectrum (image (run block)) f = if kept3 n2 m f then cmul (cnat (n0 * n1 * n2)) (spectrum (image block) f) else c0.
    Proof. intros L Hin. rewrite (spectrum_ext _ (filtered (kept3 n2 m) (image block)) f) by (intros x Hx; apply run_ok; assumption). apply spectrum_filtered. exact Hin. Qed.
    (** Filtering again only multiplies by the number of pixels. *)
    Theorem C150_twice block x : length block = block_size -> In x pixels -> image (run (run block)) x = cmul (cnat (n0 * n1 * n2)) (image (run block) x).
    Proof.
      intros L Hx. assert (L' : length (run block) = block_size) by (apply (C150_filter forward backward m block Hf Hb Hs L)). rewrite (run_ok (run block) x L' Hx), (run_ok block x L Hx). rewrite (filtered_ext _ _ (filtered (kept3 n2 m) (image block)) x) by (intros y Hy; apply run_ok; assumption). apply filtered_twice.
    Qed.
    (** Combinations of images, brightness added everywhere, images moved or mirrored *)
    Theorem C150_linear a c b1 b2 b3 : length b1 = block_size -> length b2 = block_size -> length b3 = block_size -> (forall x, In x pixels -> image b3 x = cadd (cmul a (image b1 x)) (cmul c (image b2 x))) ->
      forall x, In x pixels -> image (run b3) x = cadd (cmul a (image (run b1) x)) (cmul c (image (run b2) x)).
    Proof. intros L1 L2 L3 H x Hx. rewrite !run_ok by assumption. rewrite (filtered_ext _ _ _ x H). apply filtered_linear. Qed.
    Theorem C150_brightness c b1 b2 : length b1 = block_size -> length b2 = block_size -> m 0 0 0 = false -> (forall x, In x pixels -> image b2 x = cadd (image b1 x) c) -> forall x, In x pixels -> image (run b2) x = image (run b1) x.
    Proof.
      intros L1 L2 H0 H x Hx. rewrite !run_ok by assumption. rewrite (filtered_ext _ _ (fun x => cadd (cmul c1 (image b1 x)) (cmul c1 ((fun _ => c) x))) x) by (intros y Hy; rewrite (H y Hy); ring).
      rewrite (filtered_linear (kept3 n2 m) c1 c1 (image b1) (fun _ => c) x), filtered_const. unfold kept3. cbn [fst snd]. unfold freq. cbn [Nat.min]. rewrite H0. ring.
    Qed.
    Theorem C150_moved a b1 b2 : length b1 = block_size -> length b2 = block_size -> (forall x, In x pixels -> image b2 x = image b1 (shifted a x)) -> forall x, In x pixels -> image (run b2) x = image (run b1) (shifted a x).
    Proof. intros L1 L2 H x Hx. rewrite !run_ok by (try assumption; apply shifted_in). rewrite (filtered_ext _ _ (fun x => image b1 (shifted a x)) x H). apply filtered_shift. Qed.
    Theorem C150_mirrored p b1 b2 : length b1 = block_size -> length b2 = block_size -> (forall x, In x pixels -> image b2 x = image b1 (opposites p x)) -> forall x, In x pixels -> image (run b2) x = image (run b1) (opposites p x).
    Proof. intros L1 L2 H x Hx. rewrite !run_ok by (try assumption; apply opposites_in; assumption). rewrite (filtered_ext _ _ (fun x => image b1 (opposites p x)) x H). apply filtered_mirror; [exact Hx|]. intros f Hin. apply kept_opposites; assumption. Qed.
    (** A mask that keeps everything *)
    Theorem C150_all block x : length block = block_size -> In x pixels -> (forall i j k, i < n0 -> j < n1 -> k <= n2 / 2 -> m i j k = true) -> image (run block) x = cmul (cnat (n0 * n1 * n2)) (image block x).
    Proof.
      intros L Hx H. rewrite (run_ok block x L Hx), <- (filtered_all (image block) x Hx). unfold Fft_Spec.filtered. apply csum_ext. intros f Hin. apply in_pixels in Hin as [I [J K]]. unfold kept3. rewrite H; [reflexivity|exact I|exact J|apply freq_half; exact K].
    Qed.
  End Program.

  (** * What is assumed of FFTW can be done: transforms by the definition *)
  Definition naive_forward (block : list V) : list V :=
    flat_map (fun i => flat_map (fun j => flat_map (fun k => let s := spectrum (image block) (i, j, k) in [fst s; snd s]) (seq 0 (n2 / 2 + 1))) (seq 0 n1)) (seq 0 n0).
  Definition whole (block : list V) (f : idx) : cx := if snd f <=? n2 / 2 then half block f else conj (half block (opposite3 f)).
  Definition naive_backward (block : list V) : list V :=
    flat_map (fun x => flat_map (fun y => map (fun z => fst (csum pixels (fun f => cmul (whole block f) (wave f (x, y, z))))) (seq 0 (2 * (n2 / 2 + 1)))) (seq 0 n1)) (seq 0 n0).
  Lemma half_mod k : k < n2 -> n2 / 2 < k -> opposite n2 k <= n2 / 2.
  Proof. intros H L. unfold opposite. rewrite Nat.mod_small by lia. assert (E := Nat.div_mod n2 2 ltac:(lia)). assert (M := Nat.mod_upper_bound n2 2 ltac:(lia)). lia. Qed.
  Theorem C150_fftw : (forall a, a = opp a -> a = zero) -> r2c naive_forward /\ c2r naive_backward.
  Proof.
    intros H2. split.
    - intros block Hl.
      assert (L3 : forall i j, length (flat_map (fun k => let s := spectrum (image block) (i, j, k) in [fst s; snd s]) (seq 0 (n2 / 2 + 1))) = 2 * (n2 / 2 + 1)) by (intros i j; rewrite (length_flat_seq _ 2); [lia|reflexivity]).
      assert (L2 : forall i, length (flat_map (fun j => flat_map (fun k => let s := spectrum (image block) (i, j, k) in [fst s; snd s]) (seq 0 (n2 / 2 + 1))) (seq 0 n1)) = n1 * (2 * (n2 / 2 + 1))) by (intros i; apply length_flat_seq; exact (L3 i)).
      split; [unfold naive_forward, Fft_Spec.block_size; rewrite (length_flat_seq _ _ L2); lia|]. intros [[i j] k] Hin Hk. apply in_pixels in Hin as [I [J K]]. cbn [fst snd] in *.
      assert (G : forall r, r < 2 -> nth (2 * ((i * n1 + j) * (n2 / 2 + 1) + k) + r) (naive_forward block) zero = nth r [fst (spectrum (image block) (i, j, k)); snd (spectrum (image block) (i, j, k))] zero).
      { intros r Hr. unfold naive_forward. set (h := n2 / 2) in *. replace (2 * ((i * n1 + j) * (h + 1) + k) + r) with (i * (n1 * (2 * (h + 1))) + (j * (2 * (h + 1)) + (k * 2 + r))) by lia.
        rewrite (nth_flat_seq _ _ _ L2) by nia. rewrite (nth_flat_seq _ _ _ (L3 (0 + i))) by lia. rewrite (nth_flat_seq _ 2) by (try reflexivity; lia). reflexivity. }
      unfold Fft_Spec.half. cbn [fst snd]. rewrite (surjective_pairing (spectrum (image block) (i, j, k))). f_equal; [rewrite <- (Nat.add_0_r (2 * _)); apply (G 0); lia|apply (G 1); lia].
    - intros block F Hl Hh Hst.
      assert (L3 : forall x y, length (map (fun z => fst (csum pixels (fun f => cmul (whole block f) (wave f (x, y, z))))) (seq 0 (2 * (n2 / 2 + 1)))) = 2 * (n2 / 2 + 1)) by (intros x y; rewrite map_length, seq_length; reflexivity).
      assert (L2 : forall x, length (flat_map (fun y => map (fun z => fst (csum pixels (fun f => cmul (whole block f) (wave f (x, y, z))))) (seq 0 (2 * (n2 / 2 + 1)))) (seq 0 n1)) = n1 * (2 * (n2 / 2 + 1))) by (intros x; apply length_flat_seq; exact (L3 x)).
      split; [unfold naive_backward, Fft_Spec.block_size; rewrite (length_flat_seq _ _ L2); lia|]. intros [[x y] z] Hx. assert (Hx' := Hx). apply in_pixels in Hx' as [X [Y Zz]]. cbn [fst snd] in *.
      assert (W : forall f, In f pixels -> whole block f = F f).
      { intros f Hin. unfold whole. destruct (Nat.leb_spec (snd f) (n2 / 2)) as [L|L]; [apply Hst; assumption|]. rewrite (Hst (opposite3 f)); [rewrite (Hh f Hin); apply conj_conj|apply opposites_in; exact Hin|]. apply in_pixels in Hin as [_ [_ K]]. unfold Fft_Spec.opposite3, Fft_Spec.opposites. cbn [fst snd]. apply half_mod; assumption. }
      assert (Re : conj (csum pixels (fun f => cmul (F f) (wave f (x, y, z)))) = csum pixels (fun f => cmul (F f) (wave f (x, y, z)))).
      { rewrite csum_conj. rewrite <- (reindex opposite3 (fun f => cmul (F f) (wave f (x, y, z)))); [|intros f Hin; apply opposites_in; exact Hin|intros f g Hf' Hg' E; rewrite <- (opposites_twice (true, true, true) f Hf'), <- (opposites_twice (true, true, true) g Hg'); unfold Fft_Spec.opposite3 in E; rewrite E; reflexivity].
        apply csum_ext. intros f Hin. rewrite conj_mul, (Hh f Hin), (wave_opposite3 f _ Hin Hx). reflexivity. }
      assert (Im : snd (csum pixels (fun f => cmul (F f) (wave f (x, y, z)))) = zero). { apply H2. rewrite <- Re at 1. reflexivity. }
      unfold Fft_Spec.image. cbn [fst snd]. rewrite (surjective_pairing (csum pixels (fun f => cmul (F f) (wave f (x, y, z))))), Im. f_equal.
      unfold naive_backward. set (h2 := 2 * (n2 / 2 + 1)) in *. assert (Hz : z < h2) by (unfold h2; assert (E := Nat.div_mod n2 2 ltac:(lia)); assert (M := Nat.mod_upper_bound n2 2 ltac:(lia)); lia).
      replace ((x * n1 + y) * h2 + z) with (x * (n1 * h2) + (y * h2 + z)) by lia. rewrite (nth_flat_seq _ _ _ L2) by nia. rewrite (nth_flat_seq _ _ _ (L3 (0 + x))) by lia.
      rewrite (nth_indep _ zero (fst (csum pixels (fun f => cmul (whole block f) (wave f (0 + x, 0 + y, 0)))))) by (rewrite map_length, seq_length; exact Hz). rewrite (map_nth (fun z => fst (csum pixels (fun f => cmul (whole block f) (wave f (0 + x, 0 + y, z)))))), seq_nth by exact Hz. cbn [Nat.add]. f_equal. apply csum_ext. intros f Hin. rewrite (W f Hin). reflexivity.
  Qed.
End C150.

(** * Gaussian integers: an image of 2 x 4 x 4 pixels *)
Definition w2 : Z * Z := (-1, 0)%Z.
Definition w4 : Z * Z := (0, 1)%Z.
Lemma roots_Z : root Z 0%Z 1%Z Z.add Z.mul Z.opp 2 w2 /\ root Z 0%Z 1%Z Z.add Z.mul Z.opp 4 w4.
Proof.
  split; (split; [reflexivity|]); (split; [reflexivity|]); intros d H.
  - assert (d = 1) as -> by lia. reflexivity.
  - assert (d = 1 \/ d = 2 \/ d = 3) as [->|[->| ->]] by lia; reflexivity.
Qed.
Lemma ring_Z : ring_theory 0%Z 1%Z Z.add Z.mul (fun a b => Z.add a (Z.opp b)) Z.opp eq.
Proof. constructor; intros; ring. Qed.
Definition fwd4 := naive_forward Z 0%Z 1%Z Z.add Z.mul Z.opp 2 4 4 w2 w4 w4.
Definition bwd4 := naive_backward Z 0%Z 1%Z Z.add Z.mul Z.opp 2 4 4 w2 w4 w4.
Definition band4 := make_band_pass 2 4 3 (fun i j => if (i =? 0) && (j =? 0) then 1 else 0) (fun i j => 2 - i - j) (fun _ _ _ => false).
(** the padding is not part of the image *)
Definition image4 : list Z := flat_map (fun l => map (fun k => Z.of_nat (l * l + k * (l + k))) (seq 0 4) ++ [77; 78]%Z) (seq 0 8).
Lemma case4 : r2c Z 0%Z 1%Z Z.add Z.mul Z.opp 2 4 4 w2 w4 w4 fwd4 /\ c2r Z 0%Z 1%Z Z.add Z.mul Z.opp 2 4 4 w2 w4 w4 bwd4.
Proof. apply (C150_fftw Z 0%Z 1%Z Z.add Z.mul Z.opp ring_Z 2 4 4 w2 w4 w4); try apply roots_Z; lia. Qed.
Example C150_case : symmetric 2 4 3 band4 /\ (forall x, In x (pixels 2 4 4) -> image Z 0%Z 4 4 (fft_apply Z 0%Z 1%Z Z.mul 2 4 4 fwd4 bwd4 band4 (fft_apply Z 0%Z 1%Z Z.mul 2 4 4 fwd4 bwd4 band4 image4)) x =
    cmul Z Z.add Z.mul Z.opp (cnat Z 0%Z 1%Z Z.add (2 * 4 * 4)) (image Z 0%Z 4 4 (fft_apply Z 0%Z 1%Z Z.mul 2 4 4 fwd4 bwd4 band4 image4) x)) /\
  firstn 4 (fft_apply Z 0%Z 1%Z Z.mul 2 4 4 fwd4 bwd4 band4 image4) = [-960; -1024; -608; -544]%Z.
Proof.
  assert (S4 : symmetric 2 4 3 band4) by (apply C68_symmetric; left; reflexivity). split; [exact S4|]. split.
  - intros x Hx. apply (C150_twice Z 0%Z 1%Z Z.add Z.mul Z.opp ring_Z 2 4 4 w2 w4 w4); try apply roots_Z; try lia; try apply case4; try assumption. reflexivity.
  - vm_compute. reflexivity.
Qed.

(** With an odd dimension the mask drawn is not symmetric, and what is given to FFTW is half of no spectrum of a real image: its result is not documented.  Here 3 planes of one pixel, for any forward transform. *)
Section Odd.
Variables (V : Type) (zero one : V) (add mul : V -> V -> V) (opp : V -> V).
Hypothesis RT : ring_theory zero one add mul (fun a b => add a (opp b)) opp eq.
Add Ring VR2 : RT.
Theorem C150_odd_refuted : one <> zero -> exists kmin kmax block, (forall i j, kmin i j <= kmax i j) /\ length block = block_size 3 1 1 /\
  forall u0 u1 u2 forward, r2c V zero one add mul opp 3 1 1 u0 u1 u2 forward ->
    ~ exists F, hermitian V opp 3 1 1 F /\ stores V zero 3 1 1 (apply_mask V zero one mul (forward block) (mask_memory 3 1 1 (make_band_pass 3 1 1 kmin kmax (fun _ _ _ => false)))) F.
Proof.
  intros N1. exists (fun _ _ => 0), (fun _ _ => 1), [one; zero; zero; zero; zero; zero]. split; [intros; lia|]. split; [reflexivity|]. intros u0 u1 u2 forward Hf [F [Hh Hst]].
  destruct (Hf [one; zero; zero; zero; zero; zero] eq_refl) as [L E]. assert (I1 : In (1, 0, 0) (pixels 3 1 1)) by (cbn; tauto). assert (I2 : In (2, 0, 0) (pixels 3 1 1)) by (cbn; tauto).
  assert (A : F (2, 0, 0) = conj V opp (F (1, 0, 0))) by exact (Hh (1, 0, 0) I1). rewrite <- (Hst (1, 0, 0) I1), <- (Hst (2, 0, 0) I2) in A by (cbn; lia).
  rewrite (half_masked V zero one add mul opp RT 3 1 1) in A by (try assumption; cbn; lia). rewrite (half_masked V zero one add mul opp RT 3 1 1) in A by (try assumption; cbn; lia). cbn [fst snd] in A.
  change (make_band_pass 3 1 1 _ _ _ 1 0 0) with true in A. change (make_band_pass 3 1 1 _ _ _ 2 0 0) with false in A. cbn iota in A. rewrite (E (1, 0, 0) I1) in A by (cbn; lia).
  apply N1. apply (f_equal fst) in A. cbn in A. rewrite A. ring.
Qed.
End Odd.
Print Assumptions C150_filter. Print Assumptions C150_band. Print Assumptions C150_spectrum. Print Assumptions C150_twice. Print Assumptions C150_linear. Print Assumptions C150_brightness. Print Assumptions C150_moved. Print Assumptions C150_mirrored. Print Assumptions C150_all. Print Assumptions C150_fftw. Print Assumptions C150_odd_refuted.

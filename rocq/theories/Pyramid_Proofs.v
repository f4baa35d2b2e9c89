(** Proofs about the pyramid of octaves. *)
Require Import List Bool Arith Lia.
Require Import Verif.Base Verif.ListX Verif.Traj_Model Verif.Particles_Model Verif.Corr_Model Verif.RTree_Model Verif.Boo_Model Verif.Pyramid_Model Verif.Pyramid_Spec.
Import ListNotations.
Local Open Scope nat_scope.

(** * Loops of writes *)
Lemma nth_error_repeat_x {A} (x : A) n p : p < n -> nth_error (repeat x n) p = Some x.
Proof. revert p. induction n as [|n IH]; intros p H; [lia|]. destruct p; cbn; auto. apply IH. lia. Qed.
Lemma at_some {A} (m : list A) p x : nth_error m p = Some x -> at_index m p = Val x.
Proof. unfold at_index. intros ->. auto. Qed.
Lemma loop_writes {A B} (addr : A -> nat) (val : A -> list B -> outcome B) (v : A -> B) : forall L m0, NoDup (map addr L) -> (forall a, In a L -> addr a < length m0) ->
  (forall a m, In a L -> length m = length m0 -> (forall p, ~ In p (map addr L) -> nth_error m p = nth_error m0 p) -> val a m = Val (v a)) ->
  exists m', ofold (fun a m => obind (val a m) (fun x => write (addr a) x m)) L m0 = Val m' /\ length m' = length m0 /\
    (forall a, In a L -> nth_error m' (addr a) = Some (v a)) /\ (forall p, ~ In p (map addr L) -> nth_error m' p = nth_error m0 p).
Proof.
  induction L as [|a L IH]; intros m0 ND B0 HV; cbn [ofold].
  - exists m0. split; auto. split; auto. split; [intros a []|auto].
  - cbn [map] in ND. apply NoDup_cons_iff in ND. destruct ND as [N1 N2]. rewrite (HV a m0) by (auto; left; auto). cbn [obind]. unfold write at 1. replace (addr a <? length m0) with true by (symmetry; apply Nat.ltb_lt, B0; left; auto). cbn [obind].
    assert (G : forall q, nth_error (RTree_Model.set_nth (addr a) (v a) m0) q = if q =? addr a then Some (v a) else nth_error m0 q) by (intros q; apply set_nth_get, B0; left; auto).
    destruct (IH (RTree_Model.set_nth (addr a) (v a) m0)) as [m' (E & L' & W & U)]; auto.
    + intros b Hb. rewrite set_nth_len. apply B0. right. auto.
    + intros b m Hb Hl Hm. rewrite set_nth_len in Hl. apply HV; [right; auto|auto|]. intros p Hp. rewrite Hm by (intros X; apply Hp; right; auto). rewrite G. destruct (Nat.eqb_spec p (addr a)); auto. subst p. elim Hp. left. auto.
    + exists m'. rewrite set_nth_len in L'. split; auto. split; auto. split.
      * intros b [<-|Hb]; [|auto]. rewrite U by auto. rewrite G, Nat.eqb_refl. auto.
      * intros p Hp. rewrite U by (intros X; apply Hp; right; auto). rewrite G. destruct (Nat.eqb_spec p (addr a)); auto. subst p. elim Hp. left. auto.
Qed.
Lemma ofold_seq_inv {W} (I : nat -> W -> Prop) (f : nat -> W -> outcome W) : forall n s w, I s w -> (forall k w, s <= k < s + n -> I k w -> exists w', f k w = Val w' /\ I (S k) w') ->
  exists w', ofold f (seq s n) w = Val w' /\ I (s + n) w'.
Proof.
  induction n as [|n IH]; intros s w H S; cbn [seq ofold].
  - exists w. rewrite Nat.add_0_r. auto.
  - destruct (S s w ltac:(lia) H) as [w' [E H']]. rewrite E. cbn [obind]. replace (s + Datatypes.S n) with (Datatypes.S s + n) by lia. apply IH; auto. intros k v Hk. apply S. lia.
Qed.
Lemma ofold_app {A W} (f : A -> W -> outcome W) : forall l l' w, ofold f (l ++ l') w = obind (ofold f l w) (ofold f l').
Proof. induction l as [|a l IH]; intros l' w; cbn [ofold app obind]; auto. destruct (f a w); cbn [obind]; auto. Qed.
Lemma ofold_nest {A B W} (f : A -> B -> W -> outcome W) (li : list B) : forall lj w,
  ofold (fun j w => ofold (f j) li w) lj w = ofold (fun p w => f (fst p) (snd p) w) (list_prod lj li) w.
Proof.
  induction lj as [|j lj IH]; intros w; cbn [ofold list_prod]; auto. rewrite ofold_app. assert (E : forall l w, ofold (f j) l w = ofold (fun p w => f (fst p) (snd p) w) (map (fun y => (j, y)) l) w).
  { clear. induction l as [|b l IH]; intros w; cbn [ofold map fst snd]; auto. destruct (f j b w); cbn [obind]; auto. }
  rewrite E. destruct (ofold _ (map _ li) w); cbn [obind]; auto.
Qed.
Lemma filter_seq f k n : k <= n -> (forall j, f j = (j <? k)) -> filter f (seq 0 n) = seq 0 k.
Proof.
  intros H E. replace n with (k + (n - k)) by lia. rewrite seq_app, filter_app. assert (A : filter f (seq 0 k) = seq 0 k).
  { assert (G : forall l, (forall x, In x l -> f x = true) -> filter f l = l) by (induction l as [|x l IH]; intros Hl; cbn; auto; rewrite Hl by (left; auto); f_equal; apply IH; intros; apply Hl; right; auto).
    apply G. intros x Hx. apply in_seq in Hx. rewrite E. apply Nat.ltb_lt. lia. }
  assert (B : filter f (seq (0 + k) (n - k)) = []).
  { assert (G : forall l, (forall x, In x l -> f x = false) -> filter f l = []) by (induction l as [|x l IH]; intros Hl; cbn; auto; rewrite Hl by (left; auto); apply IH; intros; apply Hl; right; auto).
    apply G. intros x Hx. apply in_seq in Hx. rewrite E. apply Nat.ltb_ge. lia. }
  rewrite A, B, app_nil_r. auto.
Qed.
Lemma ltb_iff a b c d : (a < b <-> c < d) -> (a <? b) = (c <? d).
Proof. intros H. destruct (Nat.ltb_spec a b), (Nat.ltb_spec c d); auto; lia. Qed.
Lemma below_even n : below (fun i => 2 * i) (2 * n) = seq 0 n.
Proof. apply filter_seq; [lia|]. intros j. apply ltb_iff. lia. Qed.
Lemma below_odd n : below (fun i => 2 * i + 2) (2 * n) = seq 0 (n - 1).
Proof. apply filter_seq; [lia|]. intros j. apply ltb_iff. lia. Qed.
Lemma below_next n : below (fun i => i + 1) n = seq 0 (n - 1).
Proof. apply filter_seq; [lia|]. intros j. apply ltb_iff. lia. Qed.

(** * Indices *)
Lemma idx_inj W r c r' c' : c < W -> c' < W -> r * W + c = r' * W + c' -> r = r' /\ c = c'.
Proof.
  intros H H' E. assert (r = r'); [|subst; lia]. assert (X := f_equal (fun x => x / W) E). cbn beta in X. rewrite !Nat.div_add_l, !Nat.div_small in X by lia. lia.
Qed.
Lemma idx_lt W H r c : r < H -> c < W -> r * W + c < H * W.
Proof. intros. apply Nat.lt_le_trans with ((r + 1) * W); [lia|]. apply Nat.mul_le_mono_r. lia. Qed.
Lemma half_even i : (2 * i) / 2 = i.
Proof. rewrite Nat.mul_comm. apply Nat.div_mul. lia. Qed.
Lemma half_odd i : (2 * i + 1) / 2 = i.
Proof. symmetry. apply Nat.div_unique with (r := 1); lia. Qed.
Lemma even_cases c : (exists i, c = 2 * i) \/ (exists i, c = 2 * i + 1).
Proof. destruct (Nat.Even_or_Odd c) as [[i H]|[i H]]; [left|right]; exists i; auto. Qed.
Lemma even_2 i : Nat.even (2 * i) = true.
Proof. apply Nat.even_spec. exists i. auto. Qed.
Lemma even_21 i : Nat.even (2 * i + 1) = false.
Proof. rewrite Nat.even_add, even_2. auto. Qed.

(** * Dimensions *)
Lemma halves1_spec : forall fuel c k x, c < fuel -> nth_error (halves1 fuel c) k = Some x <-> x = c / 2 ^ k /\ 12 <= x.
Proof.
  induction fuel as [|f IH]; intros c k x H; [lia|]. cbn [halves1]. destruct (Nat.leb_spec 12 c).
  - destruct k as [|k]; cbn [nth_error].
    + rewrite Nat.pow_0_r, Nat.div_1_r. split; [intros E; injection E as <-; auto|intros [-> _]; auto].
    + rewrite IH by (assert (c / 2 < c) by (apply Nat.div_lt; lia); lia). rewrite Nat.pow_succ_r', Nat.div_div by (try lia; apply Nat.pow_nonzero; lia). tauto.
  - split; [destruct k; discriminate|]. intros [-> X]. assert (c / 2 ^ k <= c) by (apply Nat.div_le_upper_bound; [apply Nat.pow_nonzero; lia|]; assert (2 ^ k <> 0) by (apply Nat.pow_nonzero; lia); nia). lia.
Qed.
Lemma div_pow_le c k : c / 2 ^ k <= c.
Proof. apply Nat.div_le_upper_bound; [apply Nat.pow_nonzero; lia|]. assert (2 ^ k <> 0) by (apply Nat.pow_nonzero; lia). nia. Qed.
Lemma div_pow_succ c k : c / 2 ^ S k = c / 2 / 2 ^ k.
Proof. rewrite Nat.pow_succ_r', Nat.div_div by (try lia; apply Nat.pow_nonzero; lia). auto. Qed.
Lemma halves2_spec : forall fuel r c k x y, r < fuel -> nth_error (halves2 fuel r c) k = Some (x, y) <-> (x = r / 2 ^ k /\ y = c / 2 ^ k) /\ 12 <= x /\ 12 <= y.
Proof.
  induction fuel as [|f IH]; intros r c k x y H; [lia|]. cbn [halves2]. destruct ((12 <=? r) && (12 <=? c)) eqn:E.
  - apply andb_true_iff in E. rewrite !Nat.leb_le in E. destruct k as [|k]; cbn [nth_error].
    + rewrite Nat.pow_0_r, !Nat.div_1_r. split; [intros Q; injection Q as <- <-; auto|intros [[-> ->] _]; auto].
    + rewrite IH by (assert (r / 2 < r) by (apply Nat.div_lt; lia); lia). rewrite !div_pow_succ. tauto.
  - split; [destruct k; discriminate|]. intros [[-> ->] X]. exfalso. apply andb_false_iff in E. rewrite !Nat.leb_gt in E. assert (A := div_pow_le r k). assert (B := div_pow_le c k). lia.
Qed.
Lemma halves3_spec : forall fuel p r c k x y z, p < fuel -> nth_error (halves3 fuel p r c) k = Some (x, y, z) <-> (x = p / 2 ^ k /\ y = r / 2 ^ k /\ z = c / 2 ^ k) /\ 10 <= x /\ 10 <= y /\ 10 <= z.
Proof.
  induction fuel as [|f IH]; intros p r c k x y z H; [lia|]. cbn [halves3]. destruct ((10 <=? p) && (10 <=? r) && (10 <=? c)) eqn:E.
  - rewrite !andb_true_iff in E. rewrite !Nat.leb_le in E. destruct k as [|k]; cbn [nth_error].
    + rewrite Nat.pow_0_r, !Nat.div_1_r. split; [intros Q; injection Q as <- <- <-; tauto|intros [(-> & -> & ->) _]; auto].
    + rewrite IH by (assert (p / 2 < p) by (apply Nat.div_lt; lia); lia). rewrite !div_pow_succ. tauto.
  - split; [destruct k; discriminate|]. intros [(-> & -> & ->) X]. exfalso. rewrite !andb_false_iff in E. rewrite !Nat.leb_gt in E. assert (A := div_pow_le p k). assert (B := div_pow_le r k). assert (C := div_pow_le c k). lia.
Qed.

Lemma NoDup_prod {A B} (l : list A) (l' : list B) : NoDup l -> NoDup l' -> NoDup (list_prod l l').
Proof.
  intros H H'. induction l as [|a l IH]; cbn [list_prod]; [constructor|]. apply NoDup_cons_iff in H. destruct H as [N1 N2].
  assert (G : forall (l1 l2 : list (A * B)), NoDup l1 -> NoDup l2 -> (forall b, In b l1 -> ~ In b l2) -> NoDup (l1 ++ l2)).
  { clear. induction l1 as [|a l1 IH]; intros l2 H1 H2 H; auto. apply NoDup_cons_iff in H1. destruct H1. cbn. constructor; [rewrite in_app_iff; intros [?|?]; [auto|apply (H a); auto; left; auto]|]. apply IH; auto. intros b Hb. apply H. right. auto. }
  apply G; auto.
  - apply FinFun.Injective_map_NoDup; auto. intros x y E. injection E. auto.
  - intros [x y] Hx Hy. apply in_map_iff in Hx. destruct Hx as [z [E _]]. injection E as <- <-. apply in_prod_iff in Hy. tauto.
Qed.
Lemma NoDup_map_inj {A B} (f : A -> B) (l : list A) : NoDup l -> (forall x y, In x l -> In y l -> f x = f y -> x = y) -> NoDup (map f l).
Proof.
  induction l as [|a l IH]; intros ND H; cbn [map]; [constructor|]. apply NoDup_cons_iff in ND. destruct ND as [N1 N2]. constructor.
  - intros X. apply in_map_iff in X. destruct X as [b [E Hb]]. apply N1. rewrite (H a b); auto; [left; auto|right; auto].
  - apply IH; auto. intros x y Hx Hy. apply H; right; auto.
Qed.

Section Pixels.
  Variables (P : Type) (zero : P) (half : P -> P -> P) (mean4 : P -> P -> P -> P -> P) (mean8 : list P -> P).

  (** * Downscaling *)
  Lemma downscale1_ok c a g : (forall i, i < 2 * c -> nth_error a i = Some (g i)) -> exists m, downscale1 P half a c = Val m /\ length m = c /\ forall i, i < c -> nth_error m i = Some (Some (half (g (2 * i)) (g (2 * i + 1)))).
  Proof.
    intros Ha. destruct (loop_writes (fun i => i) (fun i (_ : list (option P)) => obind (at_index a (2 * i)) (fun x => omap (fun y => Some (half x y)) (at_index a (2 * i + 1)))) (fun i => Some (half (g (2 * i)) (g (2 * i + 1)))) (seq 0 c) (repeat None c)) as [m (E & L & W & _)].
    - rewrite map_id. apply seq_NoDup.
    - intros i Hi. apply in_seq in Hi. rewrite repeat_length. lia.
    - intros i m Hi _ _. apply in_seq in Hi. rewrite (at_some a (2 * i) (g (2 * i))) by (apply Ha; lia). cbn [obind]. rewrite (at_some a (2 * i + 1) (g (2 * i + 1))) by (apply Ha; lia). auto.
    - exists m. split; [exact E|]. split; [rewrite L; apply repeat_length|]. intros i Hi. apply W. apply in_seq. lia.
  Qed.
  Lemma downscale2_ok R C a g r c : r = R / 2 -> c = C / 2 -> (forall i j, i < R -> j < C -> at2 a C i j = Some (g i j)) ->
    exists m, downscale2 P mean4 R C a r c = Val m /\ length m = r * c /\
      forall i j, i < r -> j < c -> at2 m c i j = Some (Some (mean4 (g (2 * i) (2 * j)) (g (2 * i + 1) (2 * j)) (g (2 * i) (2 * j + 1)) (g (2 * i + 1) (2 * j + 1)))).
  Proof.
    intros -> -> Ha. assert (HR := Nat.div_mod_eq R 2). assert (HR' := Nat.mod_upper_bound R 2 ltac:(lia)). assert (HC := Nat.div_mod_eq C 2). assert (HC' := Nat.mod_upper_bound C 2 ltac:(lia)).
    set (r := R / 2) in *. set (c := C / 2) in *. unfold downscale2.
    rewrite (filter_seq (fun i => 2 * i + 1 <? R) r r) by (auto; intros; apply ltb_iff; lia). rewrite (filter_seq (fun j => 2 * j + 1 <? C) c c) by (auto; intros; apply ltb_iff; lia).
    rewrite ofold_nest.
    destruct (loop_writes (fun p => snd p * c + fst p)
      (fun p (_ : list (option P)) => obind (at_index a (2 * snd p * C + 2 * fst p)) (fun x => obind (at_index a ((2 * snd p + 1) * C + 2 * fst p)) (fun y => obind (at_index a (2 * snd p * C + (2 * fst p + 1))) (fun z => omap (fun t => Some (mean4 x y z t)) (at_index a ((2 * snd p + 1) * C + (2 * fst p + 1)))))))
      (fun p => Some (mean4 (g (2 * snd p) (2 * fst p)) (g (2 * snd p + 1) (2 * fst p)) (g (2 * snd p) (2 * fst p + 1)) (g (2 * snd p + 1) (2 * fst p + 1)))) (list_prod (seq 0 c) (seq 0 r)) (repeat None (r * c))) as [m (E & L & W & _)].
    - apply NoDup_map_inj; [apply NoDup_prod; apply seq_NoDup|]. intros [j i] [j' i'] H H' Q. apply in_prod_iff in H. apply in_prod_iff in H'. rewrite !in_seq in H. rewrite !in_seq in H'. cbn [fst snd] in Q. apply idx_inj in Q; [|lia|lia]. destruct Q; congruence.
    - intros [j i] H. apply in_prod_iff in H. rewrite !in_seq in H. rewrite repeat_length. cbn [fst snd]. apply idx_lt; lia.
    - intros [j i] m H _ _. apply in_prod_iff in H. rewrite !in_seq in H. cbn [fst snd]. unfold at2 in Ha.
      rewrite (at_some a _ (g (2 * i) (2 * j))) by (apply Ha; lia). cbn [obind]. rewrite (at_some a _ (g (2 * i + 1) (2 * j))) by (apply Ha; lia). cbn [obind].
      rewrite (at_some a _ (g (2 * i) (2 * j + 1))) by (apply Ha; lia). cbn [obind]. rewrite (at_some a _ (g (2 * i + 1) (2 * j + 1))) by (apply Ha; lia). auto.
    - exists m. split; [exact E|]. split; [rewrite L; apply repeat_length|]. intros i j Hi Hj. specialize (W (j, i)). cbn [fst snd] in W. apply W. apply in_prod_iff. rewrite !in_seq. lia.
  Qed.
  Lemma downscale3_ok D R C a g d r c : d = D / 2 -> r = R / 2 -> c = C / 2 -> (forall k j i, k < D -> j < R -> i < C -> at3 a R C k j i = Some (g k j i)) ->
    exists m, downscale3 P zero mean8 D R C a d r c = Val m /\ length m = d * r * c /\
      forall k j i, k < d -> j < r -> i < c -> at3 m r c k j i = Some (mean8 [g (2 * k) (2 * j) (2 * i); g (2 * k) (2 * j) (2 * i + 1); g (2 * k) (2 * j + 1) (2 * i); g (2 * k) (2 * j + 1) (2 * i + 1);
        g (2 * k + 1) (2 * j) (2 * i); g (2 * k + 1) (2 * j) (2 * i + 1); g (2 * k + 1) (2 * j + 1) (2 * i); g (2 * k + 1) (2 * j + 1) (2 * i + 1)]).
  Proof.
    intros -> -> -> Ha. assert (HD := Nat.div_mod_eq D 2). assert (HD' := Nat.mod_upper_bound D 2 ltac:(lia)). assert (HR := Nat.div_mod_eq R 2). assert (HR' := Nat.mod_upper_bound R 2 ltac:(lia)). assert (HC := Nat.div_mod_eq C 2). assert (HC' := Nat.mod_upper_bound C 2 ltac:(lia)).
    set (d := D / 2) in *. set (r := R / 2) in *. set (c := C / 2) in *. unfold downscale3.
    rewrite (filter_seq (fun i => 2 * i + 1 <? D) d d) by (auto; intros; apply ltb_iff; lia). rewrite (filter_seq (fun i => 2 * i + 1 <? R) r r) by (auto; intros; apply ltb_iff; lia). rewrite (filter_seq (fun j => 2 * j + 1 <? C) c c) by (auto; intros; apply ltb_iff; lia).
    set (body := fun k j i (m : list P) => obind (omap mean8 (osequence (map (fun t => let '(u, v, w) := t in at_index a (((2 * k + u) * R + (2 * j + v)) * C + (2 * i + w)))
                 [(0, 0, 0); (0, 0, 1); (0, 1, 0); (0, 1, 1); (1, 0, 0); (1, 0, 1); (1, 1, 0); (1, 1, 1)]))) (fun x => write ((k * r + j) * c + i) x m)).
    assert (F : forall l m, ofold (fun k m => ofold (fun j m => ofold (body k j) (seq 0 c) m) (seq 0 r) m) l m = ofold (fun p m => body (fst p) (fst (snd p)) (snd (snd p)) m) (list_prod l (list_prod (seq 0 r) (seq 0 c))) m).
    { intros l m. rewrite <- (ofold_nest (fun k p m => body k (fst p) (snd p) m)). revert m. induction l as [|k l IH]; intros m; cbn [ofold]; auto. rewrite (ofold_nest (fun j => body k j)). destruct (ofold _ (list_prod (seq 0 r) (seq 0 c)) m); cbn [obind]; auto. }
    change (exists m, ofold (fun k m => ofold (fun j m => ofold (body k j) (seq 0 c) m) (seq 0 r) m) (seq 0 d) (repeat zero (d * r * c)) = Val m /\ length m = d * r * c /\
      forall k j i, k < d -> j < r -> i < c -> at3 m r c k j i = Some (mean8 [g (2 * k) (2 * j) (2 * i); g (2 * k) (2 * j) (2 * i + 1); g (2 * k) (2 * j + 1) (2 * i); g (2 * k) (2 * j + 1) (2 * i + 1);
        g (2 * k + 1) (2 * j) (2 * i); g (2 * k + 1) (2 * j) (2 * i + 1); g (2 * k + 1) (2 * j + 1) (2 * i); g (2 * k + 1) (2 * j + 1) (2 * i + 1)])).
    rewrite F.
    destruct (loop_writes (fun p : nat * (nat * nat) => (fst p * r + fst (snd p)) * c + snd (snd p))
      (fun p (_ : list P) => omap mean8 (osequence (map (fun t => let '(u, v, w) := t in at_index a (((2 * fst p + u) * R + (2 * fst (snd p) + v)) * C + (2 * snd (snd p) + w))) [(0, 0, 0); (0, 0, 1); (0, 1, 0); (0, 1, 1); (1, 0, 0); (1, 0, 1); (1, 1, 0); (1, 1, 1)])))
      (fun p => mean8 (map (fun t => let '(u, v, w) := t in g (2 * fst p + u) (2 * fst (snd p) + v) (2 * snd (snd p) + w)) [(0, 0, 0); (0, 0, 1); (0, 1, 0); (0, 1, 1); (1, 0, 0); (1, 0, 1); (1, 1, 0); (1, 1, 1)]))
      (list_prod (seq 0 d) (list_prod (seq 0 r) (seq 0 c))) (repeat zero (d * r * c))) as [m (E & L & W & _)].
    - apply NoDup_map_inj; [repeat apply NoDup_prod; apply seq_NoDup|]. intros [k [j i]] [k' [j' i']] H H' Q. rewrite !in_prod_iff, !in_seq in H. rewrite !in_prod_iff, !in_seq in H'. cbn [fst snd] in Q. apply idx_inj in Q; [|lia|lia]. destruct Q as [Q ->]. apply idx_inj in Q; [|lia|lia]. destruct Q as [-> ->]. auto.
    - intros [k [j i]] H. rewrite !in_prod_iff, !in_seq in H. rewrite repeat_length. cbn [fst snd]. apply idx_lt; [apply idx_lt|]; lia.
    - intros [k [j i]] m H _ _. rewrite !in_prod_iff, !in_seq in H. cbn [fst snd]. unfold at3 in Ha. cbn [map osequence].
      assert (X : forall u v w, u < 2 -> v < 2 -> w < 2 -> at_index a (((2 * k + u) * R + (2 * j + v)) * C + (2 * i + w)) = Val (g (2 * k + u) (2 * j + v) (2 * i + w))) by (intros; apply at_some, Ha; lia).
      rewrite !X by lia. reflexivity.
    - exists m. split; [exact E|]. split; [rewrite L; apply repeat_length|]. intros k j i Hk Hj Hi. specialize (W (k, (j, i))). cbn [fst snd map] in W. rewrite !Nat.add_0_r in W. apply W. rewrite !in_prod_iff, !in_seq. lia.
  Qed.

  (** * Upscaling: the three kinds of loops *)
  Lemma copy_even_ok input s u W c m g : W = 2 * c -> u + W <= length m -> (forall i, i < c -> nth_error input (s + i) = Some (g i)) ->
    exists m', copy_even P input s u W m = Val m' /\ length m' = length m /\ (forall i, i < c -> nth_error m' (u + 2 * i) = Some (g i)) /\ (forall p, (forall i, i < c -> p <> u + 2 * i) -> nth_error m' p = nth_error m p).
  Proof.
    intros -> L H. unfold copy_even. rewrite below_even.
    destruct (loop_writes (fun i => u + 2 * i) (fun i (_ : list P) => at_index input (s + i)) g (seq 0 c) m) as [m' (E & L' & A & B)].
    - apply FinFun.Injective_map_NoDup; [intros x y; lia|apply seq_NoDup].
    - intros i Hi. apply in_seq in Hi. lia.
    - intros i m' Hi _ _. apply in_seq in Hi. apply at_some, H. lia.
    - exists m'. split; [exact E|]. split; auto. split; [intros i Hi; apply A, in_seq; lia|]. intros p Hp. apply B. intros X. apply in_map_iff in X. destruct X as [i [Q Hi]]. apply in_seq in Hi. apply (Hp i); lia.
  Qed.
  Lemma interpolate_ok u n m g : 1 <= u -> u + 2 * n < length m + 1 -> (forall i, i <= n -> nth_error m (u + 2 * i - 1) = Some (g i)) -> (n > 0 -> u + 2 * n - 1 < length m) ->
    exists m', interpolate P half u 2 (seq 0 n) m = Val m' /\ length m' = length m /\ (forall i, i < n -> nth_error m' (u + 2 * i) = Some (half (g i) (g (i + 1)))) /\ (forall p, (forall i, i < n -> p <> u + 2 * i) -> nth_error m' p = nth_error m p).
  Proof.
    intros Hu L H _. unfold interpolate.
    destruct (loop_writes (fun i => u + 2 * i) (fun i (m : list P) => obind (at_index m (u + 2 * i - 1)) (fun a => omap (half a) (at_index m (u + 2 * i + 1)))) (fun i => half (g i) (g (i + 1))) (seq 0 n) m) as [m' (E & L' & A & B)].
    - apply FinFun.Injective_map_NoDup; [intros x y; lia|apply seq_NoDup].
    - intros i Hi. apply in_seq in Hi. lia.
    - intros i m' Hi _ Q. apply in_seq in Hi.
      assert (X : forall q, q <= n -> nth_error m' (u + 2 * q - 1) = Some (g q)). { intros q Hq. rewrite Q; [apply H; auto|]. intros Y. apply in_map_iff in Y. destruct Y as [z [Y _]]. lia. }
      rewrite (at_some m' _ (g i)) by (apply X; lia). cbn [obind]. rewrite (at_some m' _ (g (i + 1))) by (rewrite <- X by lia; f_equal; lia). auto.
    - exists m'. split; [exact E|]. split; auto. split; [intros i Hi; apply A, in_seq; lia|]. intros p Hp. apply B. intros X. apply in_map_iff in X. destruct X as [i [Q Hi]]. apply in_seq in Hi. apply (Hp i); lia.
  Qed.
  Lemma between_ok u v w n m g h : (v + n <= u \/ u + n <= v) -> (v + n <= w \/ w + n <= v) -> v + n <= length m -> (forall i, i < n -> nth_error m (u + i) = Some (g i)) -> (forall i, i < n -> nth_error m (w + i) = Some (h i)) ->
    exists m', between P half u v w n m = Val m' /\ length m' = length m /\ (forall i, i < n -> nth_error m' (v + i) = Some (half (g i) (h i))) /\ (forall p, (p < v \/ v + n <= p) -> nth_error m' p = nth_error m p).
  Proof.
    intros D1 D2 L G H. unfold between.
    destruct (loop_writes (fun i => v + i) (fun i (m : list P) => obind (at_index m (u + i)) (fun a => omap (half a) (at_index m (w + i)))) (fun i => half (g i) (h i)) (seq 0 n) m) as [m' (E & L' & A & B)].
    - apply FinFun.Injective_map_NoDup; [intros x y; lia|apply seq_NoDup].
    - intros i Hi. apply in_seq in Hi. lia.
    - intros i m' Hi _ Q. apply in_seq in Hi.
      assert (X : forall p, (p < v \/ v + n <= p) -> nth_error m' p = nth_error m p). { intros p Hp. apply Q. intros Y. apply in_map_iff in Y. destruct Y as [z [Y Hz]]. apply in_seq in Hz. lia. }
      rewrite (at_some m' _ (g i)) by (rewrite X by lia; apply G; lia). cbn [obind]. rewrite (at_some m' _ (h i)) by (rewrite X by lia; apply H; lia). auto.
    - exists m'. split; [exact E|]. split; auto. split; [intros i Hi; apply A, in_seq; lia|]. intros p Hp. apply B. intros X. apply in_map_iff in X. destruct X as [i [Q Hi]]. apply in_seq in Hi. lia.
  Qed.
  (** Copy and interpolation of one line of an image of zeros. *)
  Lemma line_ok input s u c m g : u + 2 * c <= length m -> (forall x, x < 2 * c -> nth_error m (u + x) = Some zero) -> (forall i, i < c -> nth_error input (s + i) = Some (g i)) ->
    exists m', obind (copy_even P input s u (2 * c) m) (interpolate P half (u + 1) 2 (seq 0 (c - 1))) = Val m' /\ length m' = length m /\
      (forall x, x < 2 * c -> nth_error m' (u + x) = Some (interp half zero c g x)) /\ (forall p, p < u \/ u + 2 * c <= p -> nth_error m' p = nth_error m p).
  Proof.
    intros L Z H. destruct (copy_even_ok input s u (2 * c) c m g eq_refl L H) as [m1 (E1 & L1 & A1 & B1)]. rewrite E1. cbn [obind]. destruct c as [|c].
    - exists m1. split; [reflexivity|]. split; auto. split; [lia|]. intros p Hp. apply B1. lia.
    - replace (S c - 1) with c by lia. destruct (interpolate_ok (u + 1) c m1 g) as [m2 (E2 & L2 & A2 & B2)]; [lia|lia| |lia|].
      + intros i Hi. rewrite <- (A1 i) by lia. f_equal. lia.
      + exists m2. split; auto. split; [congruence|]. split.
        * intros x Hx. unfold interp. destruct (even_cases x) as [[i ->]|[i ->]].
          -- rewrite even_2, half_even. rewrite B2 by lia. apply A1. lia.
          -- rewrite even_21, half_odd. destruct (Nat.ltb_spec (2 * i + 1 + 1) (2 * S c)).
             ++ rewrite <- A2 by lia. f_equal. lia.
             ++ rewrite B2 by lia. rewrite B1 by lia. apply Z. lia.
        * intros p Hp. rewrite B2 by lia. apply B1. lia.
  Qed.
  Lemma upscale1_ok c input g : (forall i, i < c -> nth_error input i = Some (g i)) -> exists m, upscale1 P zero half c input = Val m /\ length m = 2 * c /\ forall x, x < 2 * c -> nth_error m x = Some (interp half zero c g x).
  Proof.
    intros H. assert (L : length (repeat zero (c * 2)) = 2 * c) by (rewrite repeat_length; lia).
    destruct (line_ok input 0 0 c (repeat zero (c * 2)) g) as [m (E & L1 & A & _)]; [lia|intros x Hx; apply nth_error_repeat_x; lia|auto|].
    exists m. split; [|split; [lia|auto]]. unfold upscale1. rewrite below_next. unfold copy_even in E. rewrite below_even in E. exact E.
  Qed.

  (** * Two dimensions *)
  Lemma upscale2_ok r c input g : (forall j i, j < r -> i < c -> at2 input c j i = Some (g j i)) ->
    exists m, upscale2 P zero half r c input = Val m /\ length m = (2 * r) * (2 * c) /\
      forall y x, y < 2 * r -> x < 2 * c -> at2 m (2 * c) y x = Some (interp half zero r (fun j => interp half zero c (g j) x) y).
  Proof.
    intros Hin. unfold upscale2. cbv zeta. rewrite (Nat.mul_comm r 2), (Nat.mul_comm c 2), !below_even, !below_odd. set (W := 2 * c) in *.
    destruct (ofold_seq_inv (fun k (m : list P) => length m = 2 * r * W /\ forall y x, y < 2 * r -> x < W -> at2 m W y x = Some (if Nat.even y && (y / 2 <? k) then interp half zero c (g (y / 2)) x else zero))
      (fun j m => obind (copy_even P input (j * c) (2 * j * W) W m) (interpolate P half (2 * j * W + 1) 2 (seq 0 (c - 1)))) r 0 (repeat zero (2 * r * W))) as [m1 (E1 & L1 & A1)].
    - split; [apply repeat_length|]. intros y x Hy Hx. rewrite andb_false_r. apply nth_error_repeat_x. apply idx_lt; auto.
    - intros j m Hj (L & A). assert (B : 2 * j * W + W <= 2 * r * W) by (replace (2 * j * W + W) with ((2 * j + 1) * W) by lia; apply Nat.mul_le_mono_r; lia).
      destruct (line_ok input (j * c) (2 * j * W) c m (g j)) as [m' (E & L' & A' & B')].
      + fold W. lia.
      + fold W. intros x Hx. fold (at2 m W (2 * j) x). rewrite A by lia. rewrite half_even. replace (j <? j) with false by (symmetry; apply Nat.ltb_ge; lia). rewrite andb_false_r. auto.
      + intros i Hi. apply (Hin j i); lia.
      + fold W in E, A', B'. exists m'. split; [exact E|]. split; [congruence|]. intros y x Hy Hx. destruct (Nat.eq_dec y (2 * j)) as [->|Ne].
        * rewrite half_even, even_2. replace (j <? S j) with true by (symmetry; apply Nat.ltb_lt; lia). cbn [andb]. apply A'. auto.
        * unfold at2. rewrite B'.
          -- fold (at2 m W y x). rewrite A by auto. destruct (even_cases y) as [[i ->]|[i ->]]; [|rewrite even_21; auto]. rewrite even_2, half_even. cbn [andb]. rewrite (ltb_iff i j i (S j)); auto. lia.
          -- destruct (Nat.lt_ge_cases y (2 * j)); [left|right].
             ++ apply Nat.lt_le_trans with ((y + 1) * W); [lia|]. apply Nat.mul_le_mono_r. lia.
             ++ apply Nat.le_trans with ((2 * j + 1) * W); [lia|]. apply Nat.le_trans with (y * W); [apply Nat.mul_le_mono_r; lia|lia].
    - rewrite E1. cbn [obind]. cbn [Nat.add] in A1.
      destruct (ofold_seq_inv (fun k (m : list P) => length m = 2 * r * W /\ forall y x, y < 2 * r -> x < W -> at2 m W y x = Some (if Nat.even y then interp half zero c (g (y / 2)) x else if y / 2 <? k then half (interp half zero c (g (y / 2)) x) (interp half zero c (g (y / 2 + 1)) x) else zero))
        (fun j => between P half (2 * j * W) ((2 * j + 1) * W) ((2 * j + 2) * W) W) (r - 1) 0 m1) as [m2 (E2 & L2 & A2)].
      + split; auto. intros y x Hy Hx. rewrite A1 by auto. destruct (even_cases y) as [[i ->]|[i ->]]; [rewrite even_2, half_even|rewrite even_21; auto]. replace (i <? r) with true by (symmetry; apply Nat.ltb_lt; lia). auto.
      + intros j m Hj (L & A). assert (B : (2 * j + 3) * W <= 2 * r * W) by (apply Nat.mul_le_mono_r; lia).
        destruct (between_ok (2 * j * W) ((2 * j + 1) * W) ((2 * j + 2) * W) W m (interp half zero c (g j)) (interp half zero c (g (j + 1)))) as [m' (E & L' & A' & B')]; [right; lia|left; lia|lia| | |].
        * intros x Hx. fold (at2 m W (2 * j) x). rewrite A by lia. rewrite even_2, half_even. auto.
        * intros x Hx. replace (2 * j + 2) with (2 * (j + 1)) by lia. fold (at2 m W (2 * (j + 1)) x). rewrite A by lia. rewrite even_2, half_even. auto.
        * exists m'. split; [exact E|]. split; [congruence|]. intros y x Hy Hx. destruct (Nat.eq_dec y (2 * j + 1)) as [->|Ne].
          -- rewrite even_21, half_odd. replace (j <? S j) with true by (symmetry; apply Nat.ltb_lt; lia). apply A'. auto.
          -- unfold at2. rewrite B'.
             ++ fold (at2 m W y x). rewrite A by auto. destruct (even_cases y) as [[i ->]|[i ->]]; [rewrite even_2; auto|]. rewrite even_21, half_odd. rewrite (ltb_iff i j i (S j)); auto. lia.
             ++ destruct (Nat.lt_ge_cases y (2 * j + 1)); [left|right].
                ** apply Nat.lt_le_trans with ((y + 1) * W); [lia|]. apply Nat.mul_le_mono_r. lia.
                ** apply Nat.le_trans with ((2 * j + 2) * W); [lia|]. apply Nat.le_trans with (y * W); [apply Nat.mul_le_mono_r; lia|lia].
      + rewrite E2. exists m2. split; auto. split; auto. intros y x Hy Hx. rewrite A2 by auto. unfold interp at 4. destruct (even_cases y) as [[i ->]|[i ->]]; [rewrite even_2; auto|]. rewrite even_21, half_odd. cbn [Nat.add]. rewrite (ltb_iff (2 * i + 1 + 1) (2 * r) i (r - 1)); auto. lia.
  Qed.
End Pixels.

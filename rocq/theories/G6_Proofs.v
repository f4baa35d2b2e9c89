Require Import ZArith QArith List Bool Arith Lia.
Require Import Verif.Base Verif.ListX Verif.RTree_Model Verif.Traj_Model Verif.Center_Model Verif.Center_Proofs Verif.Particles_Model Verif.Particles_Spec Verif.Particles_Proofs Verif.Particles_Props Verif.Corr_Model Verif.Corr_Proofs Verif.Boo_Model
  Verif.PBoo_Model Verif.G6_Model Verif.G6_Spec.
Import ListNotations.
Local Open Scope nat_scope.

Lemma pairs_map {A C} (f : A -> C) : forall l, pairs_of (map f l) = map (fun xy => (f (fst xy), f (snd xy))) (pairs_of l).
Proof. induction l as [|x l IH]; [reflexivity|]. cbn [map pairs_of]. rewrite map_app, !map_map, IH. reflexivity. Qed.
Lemma filter_map_x {A C} (f : A -> C) (P : C -> bool) : forall l, filter P (map f l) = map f (filter (fun x => P (f x)) l).
Proof. induction l as [|x l IH]; [reflexivity|]. cbn. rewrite IH. destruct (P (f x)); reflexivity. Qed.
Lemma filter_app_x {A} (P : A -> bool) : forall a b, filter P (a ++ b) = filter P a ++ filter P b.
Proof. induction a as [|x a IH]; intros b; [reflexivity|]. cbn. rewrite IH. destruct (P x); reflexivity. Qed.
Lemma filter_none {A} (P : A -> bool) l : (forall x, In x l -> P x = false) -> filter P l = [].
Proof. induction l as [|x l IH]; intros H; [reflexivity|]. cbn. rewrite (H x) by (left; auto). apply IH. intros; apply H; right; auto. Qed.
Lemma filter_all {A} (P : A -> bool) l : (forall x, In x l -> P x = true) -> filter P l = l.
Proof. induction l as [|x l IH]; intros H; [reflexivity|]. cbn. rewrite (H x) by (left; auto). f_equal. apply IH. intros; apply H; right; auto. Qed.
Lemma pairs_filter {A} (P : A -> bool) : forall l, pairs_of (filter P l) = filter (fun xy => P (fst xy) && P (snd xy)) (pairs_of l).
Proof.
  induction l as [|x l IH]; [reflexivity|]. cbn [filter pairs_of]. rewrite filter_app_x, filter_map_x. cbn [fst snd]. destruct (P x) eqn:E; cbn [pairs_of andb].
  - rewrite IH. reflexivity.
  - rewrite (filter_none (fun _ => false)) by auto. exact IH.
Qed.
Lemma pairs_seq n : forall a, pairs_of (seq a n) = filter (fun ij => fst ij <? snd ij) (list_prod (seq a n) (seq a n)).
Proof.
  induction n as [|n IH]; intros a; [reflexivity|]. cbn [seq pairs_of list_prod map]. rewrite filter_app_x. cbn [filter fst snd]. rewrite Nat.ltb_irrefl. f_equal.
  - rewrite filter_map_x. cbn [fst snd]. rewrite filter_all; [reflexivity|]. intros x Hx. apply in_seq in Hx. apply Nat.ltb_lt. lia.
  - rewrite IH. assert (G : forall l m, (forall x, In x l -> a < x) -> filter (fun ij => fst ij <? snd ij) (list_prod l m) = filter (fun ij => fst ij <? snd ij) (list_prod l (a :: m))).
    { induction l as [|x l IHl]; intros m H; [reflexivity|]. cbn [list_prod map]. rewrite !filter_app_x. cbn [app filter map fst snd]. destruct (Nat.ltb_spec x a) as [C|C]; [specialize (H x (or_introl eq_refl)); lia|]. f_equal. apply IHl. intros y Hy. apply H. right; auto. }
    apply G. intros x Hx. apply in_seq in Hx. lia.
Qed.
Lemma pairs_couples n : pairs_of (seq 0 n) = couples n.
Proof. apply pairs_seq. Qed.
Lemma couples_in n i j : In (i, j) (couples n) <-> i < j < n.
Proof. unfold couples. rewrite filter_In, in_prod_iff, !in_seq. cbn [fst snd]. rewrite Nat.ltb_lt. lia. Qed.

Section G6.
  Variables (V : Type) (zero : V) (add : V -> V -> V) (B : Type) (null : B -> bool) (inner : B -> B -> V).
  Lemma at_index_some {A} (l : list A) i x : nth_error l i = Some x -> at_index l i = Val x.
  Proof. intros H. unfold at_index. rewrite H. reflexivity. Qed.
  Lemma flags_filter {A} (f : nat -> bool) : forall (l : list A) a, map fst (filter snd (combine (seq a (length l)) (map f (seq a (length l))))) = filter f (seq a (length l)).
  Proof. induction l as [|x l IH]; intros a; [reflexivity|]. cbn [length seq map combine filter snd]. destruct (f a); cbn [map fst]; rewrite IH; reflexivity. Qed.
  Lemma slab_ok zlim pos (boo : list B) : length boo = length pos -> slab B null zlim pos boo = Val (filter (eligible null zlim pos boo) (seq 0 (length pos))).
  Proof.
    intros L. unfold slab.
    assert (E : forall l k, (forall i p, nth_error l i = Some p -> nth_error pos (k + i) = Some p) ->
      osequence (map (fun ip => if in_slab zlim (snd ip) then omap (fun b => negb (null b)) (at_index boo (fst ip)) else Val false) (combine (seq k (length l)) l)) = Val (map (eligible null zlim pos boo) (seq k (length l)))).
    { induction l as [|p l IH]; intros k H; [reflexivity|]. cbn [length seq combine map osequence fst snd]. rewrite (IH (S k)) by (intros i q Hq; replace (S k + i) with (k + S i) by lia; apply H; auto).
      specialize (H 0 p eq_refl). rewrite Nat.add_0_r in H. assert (Hk : k < length boo) by (rewrite L; eapply nth_error_lt; eauto). destruct (nth_error_ex boo k Hk) as [b Hb].
      rewrite (at_index_some boo k b Hb). unfold eligible at 2. rewrite H, Hb. unfold in_slab. destruct zlim as [[lo hi]|]; [|cbn; rewrite andb_true_r; reflexivity].
      destruct ((lo <? nth 2 p 0)%Z && (nth 2 p 0 <? hi)%Z); cbn; [rewrite andb_true_r|rewrite andb_false_r]; reflexivity. }
    rewrite (E pos 0) by (intros; auto). cbn [omap]. rewrite flags_filter. reflexivity.
  Qed.
  Definition product (boo : list B) (ij : nat * nat) : V := match nth_error boo (fst ij), nth_error boo (snd ij) with Some b, Some b' => inner b b' | _, _ => zero end.
  Lemma g6_fold m pos boo n : (0 < m)%Z -> 0 < n -> Forall point3 pos -> length boo = length pos -> forall prs nb gl,
    (forall i j, In (i, j) prs -> i < length pos /\ j < length pos) -> length nb = n -> length gl = n ->
    exists nb' gl', ofold (g6_pair V add B inner m pos boo) prs (nb, gl) = Val (nb', gl') /\ length nb' = n /\ length gl' = n /\
      (forall k x, nth_error nb k = Some x -> nth_error nb' k = Some (x + length (filter (apart pos n m k) prs))) /\
      (forall k x, nth_error gl k = Some x -> nth_error gl' k = Some (fold_left add (map (product boo) (filter (apart pos n m k) prs)) x)).
  Proof.
    intros Hm Hn Hp Hb. induction prs as [|[i j] prs IH]; intros nb gl Hi Ln Lg.
    - exists nb, gl. cbn [ofold filter length map fold_left]. repeat split; auto. intros k x Hx. rewrite Nat.add_0_r. auto.
    - destruct (Hi i j (or_introl eq_refl)) as [H1 H2]. destruct (nth_error_ex pos i H1) as [p Ep]. destruct (nth_error_ex pos j H2) as [q Eq].
      destruct (nth_error_ex boo i) as [b Eb]; [lia|]. destruct (nth_error_ex boo j) as [b' Eb']; [lia|].
      assert (P3 : point3 p /\ point3 q) by (split; eapply Forall_forall; eauto using nth_error_In). destruct P3 as [P3 Q3].
      cbn [ofold]. unfold g6_pair at 1. cbn [fst snd]. rewrite (at_index_some _ _ _ Ep), (at_index_some _ _ _ Eq). cbn [obind]. rewrite (sqdist_dist2 q p Q3 P3), (dist2_sym q p).
      assert (Fk : forall k, apart pos n m k (i, j) = ((dist2 p q <? m * m)%Z && (Z.of_nat k * Z.of_nat k * (m * m) <=? Z.of_nat n * Z.of_nat n * dist2 p q)%Z && (Z.of_nat n * Z.of_nat n * dist2 p q <? (Z.of_nat k + 1) * (Z.of_nat k + 1) * (m * m))%Z)) by (intros k; unfold apart; cbn [fst snd]; rewrite Ep, Eq; reflexivity).
      destruct (Z.ltb_spec (dist2 p q) (m * m)) as [C|C].
      + assert (D0 : (0 <= dist2 p q)%Z) by (rewrite <- sqdist_dist2 by auto; apply sqdist_nonneg). rewrite Ln.
        destruct (rdf_bin_spec n m (dist2 p q) Hm (conj D0 C) Hn 0) as [R _]. set (r := rdf_bin n m (dist2 p q)) in *.
        assert (Rk : forall k, apart pos n m k (i, j) = (r =? k)).
        { intros k. rewrite Fk. cbn [andb]. destruct (rdf_bin_spec n m (dist2 p q) Hm (conj D0 C) Hn k) as [_ R2]. fold r in R2. destruct (Nat.eqb_spec r k) as [E|E].
          - apply R2 in E as [E1 E2]. apply Z.leb_le in E1. apply Z.ltb_lt in E2. rewrite E1, E2. reflexivity.
          - destruct (Z.leb_spec (Z.of_nat k * Z.of_nat k * (m * m)) (Z.of_nat n * Z.of_nat n * dist2 p q)); [|reflexivity]. destruct (Z.ltb_spec (Z.of_nat n * Z.of_nat n * dist2 p q) ((Z.of_nat k + 1) * (Z.of_nat k + 1) * (m * m))); [|reflexivity]. exfalso. apply E, R2. auto. }
        rewrite (at_index_some _ _ _ Eb), (at_index_some _ _ _ Eb'). cbn [obind].
        destruct (nth_error_ex nb r) as [x Ex]; [lia|]. destruct (nth_error_ex gl r) as [v Ev]; [lia|]. unfold incr. rewrite Ex, Ev. cbn [obind].
        destruct (IH (set_nth r (S x) nb) (set_nth r (add v (inner b b')) gl)) as [nb' [gl' [E [L1 [L2 [K1 K2]]]]]]; [intros; apply Hi; right; auto|rewrite set_nth_len; auto|rewrite set_nth_len; auto|].
        exists nb', gl'. split; [exact E|]. split; [auto|]. split; [auto|]. split; intros k y Hy; cbn [filter]; rewrite Rk.
        * destruct (Nat.eqb_spec r k) as [F|F].
          -- subst k. assert (y = x) by congruence. subst y. rewrite (K1 r (S x)) by (rewrite set_nth_get by lia; rewrite Nat.eqb_refl; auto). cbn [length]. f_equal. lia.
          -- apply K1. rewrite set_nth_get by lia. destruct (Nat.eqb_spec k r); [congruence|auto].
        * destruct (Nat.eqb_spec r k) as [F|F].
          -- subst k. assert (y = v) by congruence. subst y. rewrite (K2 r (add v (inner b b'))) by (rewrite set_nth_get by lia; rewrite Nat.eqb_refl; auto). cbn [map fold_left]. replace (product boo (i, j)) with (inner b b') by (unfold product; cbn [fst snd]; rewrite Eb, Eb'; reflexivity). reflexivity.
          -- apply K2. rewrite set_nth_get by lia. destruct (Nat.eqb_spec k r); [congruence|auto].
      + cbn [obind]. destruct (IH nb gl) as [nb' [gl' [E [L1 [L2 [K1 K2]]]]]]; [intros; apply Hi; right; auto|auto|auto|].
        exists nb', gl'. split; [exact E|]. split; [auto|]. split; [auto|]. split; intros k y Hy; cbn [filter]; rewrite Fk; cbn [andb]; auto.
  Qed.
  Lemma nth_seq_map {A} (d : A) : forall l, map (fun i => nth i l d) (seq 0 (length l)) = l.
  Proof. induction l as [|x l IH]; [reflexivity|]. cbn [length seq map]. f_equal. rewrite <- IH at 2. rewrite <- seq_shift, map_map. reflexivity. Qed.
  Lemma ofold_map {A C W} (f : A -> C) (g : C -> W -> outcome W) : forall l w, ofold g (map f l) w = ofold (fun a => g (f a)) l w.
  Proof. induction l as [|x l IH]; intros w; [reflexivity|]. cbn [map ofold]. destruct (g (f x) w); cbn [obind]; auto. Qed.
  Lemma ofold_same {A W} (f g : A -> W -> outcome W) : forall l w, (forall a w, In a l -> f a w = g a w) -> ofold f l w = ofold g l w.
  Proof. induction l as [|x l IH]; intros w H; [reflexivity|]. cbn [ofold]. rewrite H by (left; auto). destruct (g x w); cbn [obind]; auto. apply IH. intros; apply H; right; auto. Qed.
  Lemma reduce_ok m pos boo sel w : length boo = length pos -> (forall i, In i sel -> i < length pos) -> exists cen boo', osequence (map (at_index pos) sel) = Val cen /\ osequence (map (at_index boo) sel) = Val boo' /\
    length cen = length sel /\ ofold (g6_pair V add B inner m cen boo') (pairs_of (seq 0 (length cen))) w = ofold (g6_pair V add B inner m pos boo) (pairs_of sel) w.
  Proof.
    intros L H. assert (Ex : forall {A} (l : list A), length l = length pos -> exists r, osequence (map (at_index l) sel) = Val r /\ length r = length sel /\ forall k i, nth_error sel k = Some i -> at_index r k = at_index l i).
    { intros A l Ll. clear L. induction sel as [|i sel IH]; [exists []; repeat split; auto; intros [|k] i; discriminate|].
      destruct IH as [r [E [Lr K]]]; [intros; apply H; right; auto|]. destruct (nth_error_ex l i) as [x Ex]; [rewrite Ll; apply H; left; auto|]. exists (x :: r). cbn [map osequence]. rewrite (at_index_some _ _ _ Ex), E. cbn.
      split; [reflexivity|]. split; [auto|]. intros [|k] j Hk; cbn in Hk; [injection Hk as <-; rewrite (at_index_some _ _ _ Ex); reflexivity|]. rewrite <- (K k j Hk). reflexivity. }
    destruct (Ex _ pos eq_refl) as [cen [E1 [L1 K1]]]. destruct (Ex _ boo L) as [boo' [E2 [L2 K2]]]. exists cen, boo'. split; [auto|]. split; [auto|]. split; [auto|]. rewrite L1.
    replace (pairs_of sel) with (pairs_of (map (fun i => nth i sel 0) (seq 0 (length sel)))) by (rewrite nth_seq_map; reflexivity). rewrite pairs_map, ofold_map.
    apply ofold_same. intros [i j] s Hin. rewrite pairs_couples in Hin. apply couples_in in Hin. unfold g6_pair. cbn [fst snd].
    assert (N : forall i, i < length sel -> nth_error sel i = Some (nth i sel 0)) by (intros; apply nth_error_nth'; auto). assert (Ni : i < length sel) by lia. assert (Nj : j < length sel) by lia. rewrite (K1 _ _ (N i Ni)), (K1 _ _ (N j Nj)), (K2 _ _ (N i Ni)), (K2 _ _ (N j Nj)). reflexivity.
  Qed.
End G6.

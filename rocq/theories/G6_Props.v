(** C107: the correlation of the bond orientational order. *)
Require Import ZArith QArith List Bool Arith Lia Lqa.
Require Import Verif.Base Verif.ListX Verif.RTree_Model Verif.Traj_Model Verif.Center_Model Verif.Particles_Model Verif.Particles_Spec Verif.Particles_Proofs Verif.Particles_Props Verif.Ngb_Model Verif.Ngb_Spec Verif.Corr_Model Verif.Corr_Proofs Verif.Boo_Model Verif.Boo_Proofs
  Verif.PBoo_Model Verif.PBoo_Spec Verif.PBoo_Proofs Verif.PBoo_Props Verif.G6_Model Verif.G6_Spec Verif.G6_Proofs.
Import ListNotations.
Local Open Scope nat_scope.

Section C107.
  Variables (V : Type) (zero : V) (add : V -> V -> V) (B : Type) (null : B -> bool) (inner : B -> B -> V).
  (** The pairs of row k: two eligible particles whose distance falls into the k-th of n equal parts of the cutoff. *)
  Definition row_pairs (zlim : option (Z * Z)) (m : Z) (n : nat) (pos : list (list Z)) (boo : list B) (k : nat) : list (nat * nat) :=
    filter (fun ij => eligible null zlim pos boo (fst ij) && eligible null zlim pos boo (snd ij) && apart pos n m k ij) (couples (length pos)).
  Lemma filter_filter {A} (P P' : A -> bool) : forall l, filter P' (filter P l) = filter (fun x => P x && P' x) l.
  Proof. induction l as [|x l IH]; [reflexivity|]. cbn [filter]. destruct (P x) eqn:E; cbn [filter andb]; [destruct (P' x); rewrite IH; reflexivity|exact IH]. Qed.

  (** One row per bin: its distance, the sum of the scalar products of the orders of its pairs, and their number; never out of the histogram. *)
  Theorem C107_rows zlim m n pos boo : (0 < m)%Z -> 0 < n -> Forall point3 pos -> length boo = length pos ->
    exists rows, g6_rows V zero add B null inner zlim m n pos boo = Val rows /\ length rows = n /\
      forall k, k < n -> exists x, (x == inject_Z (Z.of_nat k) / inject_Z (Z.of_nat n) * (inject_Z m / 2))%Q /\
        nth_error rows k = Some (x, fold_left add (map (fun ij => match nth_error boo (fst ij), nth_error boo (snd ij) with Some b, Some b' => inner b b' | _, _ => zero end) (row_pairs zlim m n pos boo k)) zero,
          length (row_pairs zlim m n pos boo k)).
  Proof.
    intros Hm Hn Hp L. unfold g6_rows. rewrite (slab_ok B null zlim pos boo L). cbn [obind]. set (sel := filter (eligible null zlim pos boo) (seq 0 (length pos))).
    destruct (reduce_ok V add B inner m pos boo sel (repeat 0 n, repeat zero n) L) as [cen [boo' [E1 [E2 [L1 E3]]]]].
    { intros i Hi. apply filter_In in Hi as [Hi _]. apply in_seq in Hi. lia. }
    rewrite E1. cbn [obind]. rewrite E2. cbn [obind]. rewrite E3. unfold sel. rewrite pairs_filter, pairs_couples.
    destruct (g6_fold V zero add B inner m pos boo n Hm Hn Hp L (filter (fun xy => eligible null zlim pos boo (fst xy) && eligible null zlim pos boo (snd xy)) (couples (length pos))) (repeat 0 n) (repeat zero n)) as [nb [gl [E [K1 [K2 [K3 K4]]]]]].
    - intros i j Hij. apply filter_In in Hij as [Hij _]. apply couples_in in Hij. lia.
    - apply repeat_length.
    - apply repeat_length.
    - rewrite E. cbn [omap fst snd]. eexists. split; [reflexivity|]. split; [rewrite map_length, !combine_length, seq_length; lia|]. intros k Hk.
      specialize (K3 k 0 (nth_error_repeat_x _ _ _ Hk)). specialize (K4 k zero (nth_error_repeat_x _ _ _ Hk)). rewrite filter_filter in K3, K4. fold (row_pairs zlim m n pos boo k) in K3, K4.
      assert (K5 : nth_error (combine (seq 0 n) nb) k = Some (k, length (row_pairs zlim m n pos boo k))) by (apply combine_nth; [apply nth_error_seq; auto|exact K3]).
      eexists. split; [|rewrite nth_error_map, (combine_nth _ _ _ _ _ K5 K4); reflexivity]. reflexivity.
  Qed.
  (** The pairs considered are those of two different particles, each once. *)
  Theorem C107_each_pair_once n : NoDup (couples n) /\ forall i j, In (i, j) (couples n) <-> i < j < n.
  Proof.
    split; [|apply couples_in]. apply NoDup_filter. assert (G : forall (a b : list nat), NoDup a -> NoDup b -> NoDup (list_prod a b)).
    { induction a as [|x a IH]; intros b Ha Hb; [constructor|]. inversion Ha as [|x' a' Hx Ha']; subst. cbn [list_prod]. 
      assert (Gd : forall c d : list (nat * nat), NoDup c -> NoDup d -> (forall z, In z c -> ~ In z d) -> NoDup (c ++ d)).
      { induction c as [|z c IHc]; intros d Hc Hd Hz; [exact Hd|]. inversion Hc as [|z' c' Hz1 Hc1]; subst. cbn. constructor; [rewrite in_app_iff; intros [K|K]; [contradiction|exact (Hz z (or_introl eq_refl) K)]|apply IHc; auto]. intros w Hw. apply Hz. right; auto. }
      apply Gd; [|apply IH; auto|].
      - clear -Hb. induction Hb as [|y b Hy Hb IHb]; [constructor|]. cbn. constructor; [|auto]. rewrite in_map_iff. intros [w [E I]]. injection E as ->. contradiction.
      - intros [u v] Hu Hu'. apply in_map_iff in Hu as [w [E _]]. injection E as <- <-. apply in_prod_iff in Hu' as [Hu' _]. contradiction. }
    apply G; apply seq_NoDup.
  Qed.
  (** Two particles are counted in one row at most, the one of their distance; and in one when they are near enough. *)
  Theorem C107_one_row m n pos i j : (0 < m)%Z -> 0 < n -> Forall point3 pos -> forall p q, nth_error pos i = Some p -> nth_error pos j = Some q ->
    ((dist2 p q < m * m)%Z -> exists k, k < n /\ forall k', apart pos n m k' (i, j) = true <-> k' = k) /\ ((m * m <= dist2 p q)%Z -> forall k, apart pos n m k (i, j) = false).
  Proof.
    intros Hm Hn Hp p q Ep Eq. assert (P3 : point3 p /\ point3 q) by (split; eapply Forall_forall; eauto using nth_error_In). destruct P3 as [P3 Q3]. unfold apart. cbn [fst snd]. rewrite Ep, Eq. split; intros C.
    - assert (D0 : (0 <= dist2 p q)%Z) by (rewrite <- sqdist_dist2 by auto; apply Center_Proofs.sqdist_nonneg).
      destruct (rdf_bin_spec n m (dist2 p q) Hm (conj D0 C) Hn 0) as [R _]. exists (rdf_bin n m (dist2 p q)). split; [exact R|]. intros k.
      destruct (rdf_bin_spec n m (dist2 p q) Hm (conj D0 C) Hn k) as [_ R2]. rewrite !andb_true_iff, Z.leb_le, !Z.ltb_lt. split; [intros [[_ A] A']; symmetry; apply R2; auto|intros ->; destruct (proj1 R2 eq_refl); auto].
    - intros k. destruct (Z.ltb_spec (dist2 p q) (m * m)); [lia|reflexivity].
  Qed.

  Variables (zeroB : B) (addB : B -> B -> B) (divn : B -> nat -> B).
  (** Mode 0: the order read is used as it is.  Mode 1: the mean over a particle and its neighbours where none of these is null, nothing elsewhere. *)
  Theorem C107_modes radius zlim m nbins pos raw ngb : length ngb = length pos -> length raw = length pos -> ngb_ok ngb ->
    g6_main V zero add B null inner zeroB addB divn radius false zlim m nbins pos raw ngb = g6_rows V zero add B null inner zlim m nbins pos raw /\
    exists boo, g6_main V zero add B null inner zeroB addB divn radius true zlim m nbins pos raw ngb = g6_rows V zero add B null inner zlim m nbins pos boo /\ length boo = length pos /\
      forall c l, nth_error ngb c = Some l -> nth_error boo c = Some (if forallb (fun q => negb (null (nth q raw zeroB))) l then divn (fold_left addB (map (fun q => nth q raw zeroB) l) (nth c raw zeroB)) (1 + length l) else zeroB).
  Proof.
    intros Ln Lr Hok. split; [reflexivity|]. unfold g6_main, all_boo.
    assert (S : second_inside B null raw ngb = Val (filter (fun c => forallb (fun q => negb (null (nth q raw zeroB))) (nth c ngb [])) (seq 0 (length ngb)))).
    { unfold second_inside. rewrite (osequence_map_ok _ (fun l => forallb (fun q => negb (null (nth q raw zeroB))) l)).
      - cbn [omap]. rewrite <- (flags_filter _ ngb 0). do 4 f_equal. rewrite <- (nth_seq_map [] ngb) at 1. rewrite map_map. reflexivity.
      - intros l Hl. apply In_nth_error in Hl as [c Hc]. destruct (Hok c l Hc) as [_ Hq]. rewrite Ln, <- Lr in Hq. clear Hc. induction l as [|q l IH]; [reflexivity|]. cbn [no_null forallb].
        rewrite (at_index_some raw q (nth q raw zeroB)) by (apply nth_error_nth', Hq; left; auto). cbn [obind]. rewrite IH by (intros; apply Hq; right; auto). reflexivity. }
    rewrite S. cbn [obind]. destruct (C77_coarse B zeroB addB divn (length pos) ngb Ln Hok (filter (fun c => forallb (fun q => negb (null (nth q raw zeroB))) (nth c ngb [])) (seq 0 (length ngb))) raw []) as [boo [E [Lb K]]]; [auto| |].
    { apply Forall_forall. intros c Hc. apply filter_In in Hc as [Hc _]. apply in_seq in Hc. lia. }
    exists boo. rewrite E. cbn [obind]. split; [reflexivity|]. split; [auto|]. intros c l Hl. rewrite (K c l Hl). f_equal.
    assert (X : existsb (Nat.eqb c) (filter (fun c => forallb (fun q => negb (null (nth q raw zeroB))) (nth c ngb [])) (seq 0 (length ngb))) = forallb (fun q => negb (null (nth q raw zeroB))) l).
    { destruct (forallb _ l) eqn:F.
      - apply existsb_exists. exists c. split; [|apply Nat.eqb_refl]. apply filter_In. split; [apply in_seq; apply nth_error_lt in Hl; lia|]. rewrite (nth_error_nth _ _ [] Hl). exact F.
      - destruct (existsb _ _) eqn:G; [|reflexivity]. apply existsb_exists in G as [d [Hd Ed]]. apply Nat.eqb_eq in Ed. subst d. apply filter_In in Hd as [_ Hd]. rewrite (nth_error_nth _ _ [] Hl) in Hd. congruence. }
    rewrite X. destruct (forallb _ l); [reflexivity|]. destruct c; reflexivity.
  Qed.
End C107.

(** Orders of one rational coefficient. *)
Definition qnull (b : Z) : bool := (b =? 0)%Z.
Definition g6q := g6_main Z 0%Z Z.add Z qnull Z.mul 0%Z Z.add (fun b n => (b / Z.of_nat n)%Z).
(** The range should be in diameters: two particles of radius 2 in contact, at distance 4, are one diameter apart.  With a range of 3 diameters
    in 6 bins they are reported at 2 (the bin after them at 2.5) as the radius is not used; a range of 1 diameter and a half misses them. *)
Theorem C107_range_refuted : exists pos radius, dist2 (nth 0 pos []) (nth 1 pos []) = ((2 * radius) * (2 * radius))%Z
  /\ (exists rows x, g6q radius false None 6 6 pos [1; 1]%Z [] = Val rows /\ nth_error rows 4 = Some (x, 1%Z, 1) /\ (x == 2)%Q /\ forall k y v c, nth_error rows k = Some (y, v, c) -> c <> 0 -> k = 4)
  /\ (exists rows, g6q radius false None 3 6 pos [1; 1]%Z [] = Val rows /\ forall k y v c, nth_error rows k = Some (y, v, c) -> c = 0).
Proof.
  exists [[0; 0; 0]; [0; 4; 0]]%Z, 2%Z. split; [reflexivity|]. split.
  - eexists. eexists. split; [vm_compute; reflexivity|]. split; [reflexivity|]. split; [reflexivity|]. intros k y v c H Hc. do 6 (destruct k as [|k]; [cbn in H; injection H as <- <- <-; try reflexivity; congruence|]). destruct k; discriminate.
  - eexists. split; [vm_compute; reflexivity|]. intros k y v c H. do 6 (destruct k as [|k]; [cbn in H; injection H as <- <- <-; reflexivity|]). destruct k; discriminate.
Qed.
(** Coarse graining tests the neighbours only: a particle without order of its own gets one, and is counted. *)
Theorem C107_null_centre_refuted : exists pos raw ngb, ngb_ok ngb /\ nth_error raw 0 = Some 0%Z /\ all_boo Z qnull 0%Z Z.add (fun b n => (b / Z.of_nat n)%Z) true 4 raw ngb = Val [4; 0; 0; 8]%Z
  /\ (exists rows, g6q 1 true None 4 2 pos raw ngb = Val rows /\ map (fun r => (snd (fst r), snd r)) rows = [(32%Z, 1); (0%Z, 0)])
  /\ (exists rows, g6q 1 false None 4 2 pos raw ngb = Val rows /\ map (fun r => (snd (fst r), snd r)) rows <> [(32%Z, 1); (0%Z, 0)]).
Proof.
  exists [[0; 0; 0]; [9; 0; 0]; [18; 0; 0]; [0; 1; 0]]%Z, [0; 6; 6; 8]%Z, [[1; 2]; [0]; [0]; []]. split; [|split; [reflexivity|split; [reflexivity|split]]].
  - intros i l E. do 4 (destruct i as [|i]; [injection E as <-; split; [repeat constructor; lia|cbn; intros j I; intuition lia]|]). destruct i; discriminate.
  - eexists. split; vm_compute; reflexivity.
  - eexists. split; [vm_compute; reflexivity|]. vm_compute. discriminate.
Qed.
(** A concrete case of the general statements: four particles, one of null order, one out of the slab. *)
Example C107_case : let pos := [[0; 0; 0]; [1; 0; 1]; [3; 0; 0]; [0; 2; 9]]%Z in let boo := [2; 3; 0; 7]%Z in
  Forall point3 pos /\ (exists rows, g6_rows Z 0%Z Z.add Z qnull Z.mul (Some (-1, 5)%Z) 4 4 pos boo = Val rows /\ map (fun r => (snd (fst r), snd r)) rows = [(0%Z, 0); (6%Z, 1); (0%Z, 0); (0%Z, 0)])
  /\ row_pairs Z qnull (Some (-1, 5)%Z) 4 4 pos boo 1 = [(0, 1)] /\ (exists rows, g6_rows Z 0%Z Z.add Z qnull Z.mul None 40 4 pos boo = Val rows /\ map (fun r => (snd (fst r), snd r)) rows = [(41%Z, 3); (0%Z, 0); (0%Z, 0); (0%Z, 0)]).
Proof. cbv zeta. split; [repeat (apply Forall_cons; [eexists _, _, _; reflexivity|]); apply Forall_nil|]. split; [eexists; split; vm_compute; reflexivity|]. split; [vm_compute; reflexivity|eexists; split; vm_compute; reflexivity]. Qed.

Print Assumptions C107_rows.
Print Assumptions C107_each_pair_once.
Print Assumptions C107_one_row.
Print Assumptions C107_modes.
Print Assumptions C107_range_refuted.
Print Assumptions C107_null_centre_refuted.

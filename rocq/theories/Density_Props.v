(** C86: number density.  C87: normalised pair correlation functions. *)
Require Import ZArith List Bool Arith Lia Permutation Sorted.
Require Import Verif.Base Verif.SortU Verif.ListX Verif.Box_Model Verif.Box_Spec Verif.Box_Proofs Verif.RTree_Model Verif.RTree_Spec Verif.RTree_Proofs Verif.RTree_Props Verif.RTree_Heuristics
  Verif.Index_Model Verif.Index_Spec Verif.Index_Proofs Verif.Traj_Model Verif.Center_Model Verif.Center_Proofs
  Verif.Particles_Model Verif.Particles_Spec Verif.Particles_Proofs Verif.Particles_Props Verif.Corr_Model Verif.Corr_Proofs Verif.Pyramid_Proofs Verif.PBoo_Proofs Verif.Density_Model Verif.Density_Proofs.
Import ListNotations.
Local Open Scope nat_scope.

(** C86.  The number of particles over the volume between the extreme coordinates. *)
Theorem C86_density l bb r : Forall point3 l -> l <> [] -> exists v, number_density (new_particles l bb r) = Val (length l, v) /\ extent l v.
Proof.
  intros H Hne. destruct l as [|p l]; [congruence|]. destruct (no_index_volume (p :: l) p H (or_introl eq_refl)) as [v [E A]]. exists v. split; auto.
  unfold number_density, density_box. cbn [new_particles pindex pts omap]. cbn [omap]. rewrite A. reflexivity.
Qed.
(** With an index, the same, if the coordinates are positive (DBL_MIN at least): image coordinates. *)
Theorem C86_density_index c l bb r : config_ok c -> dims c = 3 -> Forall point3 l -> l <> [] ->
  Forall (Forall (fun x => (dbl_min <= x <= dbl_max)%Z)) l ->
  exists st v, make_index c (new_particles l bb r) = Some st /\ number_density st = Val (length l, v) /\ extent l v.
Proof.
  intros Hok H3 H Hne Hpos. set (items := map (fun p => bounds p 0) l).
  assert (Hdim : Forall (fun b => length b = dims c) items).
  { unfold items. rewrite Forall_map. eapply Forall_impl; [|exact H]. intros p [x [y [z ->]]]. rewrite H3. reflexivity. }
  destruct (rstar_run_ok c (numbered items) Hok (numbered_dim _ _ Hdim)) as (t & E & _).
  pose (lfs := map lf_of (combine (seq 0 (length items)) items)). assert (Hbox : map lbox lfs = items) by apply numbered_boxes.
  destruct (C09_overall_box_is_hull c lfs t) as [b [Hb Hh]]; auto.
  - intros Hn. apply Hne. apply (f_equal (@length _)) in Hbox. rewrite Hn in Hbox. unfold items in Hbox. rewrite map_length in Hbox. destruct l; [auto|discriminate].
  - apply (proj1 (Forall_map lbox (fun b => length b = dims c /\ Forall (fun e => (fst e <= dbl_max)%Z /\ (dbl_min <= snd e)%Z) b) lfs)). rewrite Hbox. unfold items. rewrite Forall_map.
    apply Forall_forall. intros p Hp. split; [eapply Forall_forall in Hdim; [exact Hdim|apply (in_map (fun p => bounds p 0)); auto]|]. unfold bounds. rewrite Forall_map. eapply Forall_forall in Hpos; [|exact Hp].
    eapply Forall_impl; [|exact Hpos]. intros x Hx. cbn [fst snd]. rewrite Z.sub_0_r, Z.add_0_r. cbn beta in Hx. split; apply Hx.
  - rewrite rstar_run_run, numbered_inserts in E. exact E.
  - rewrite Hbox in Hh. exists (mkParticles l (Some t) bb r), (area b). split; [|split].
    + unfold make_index, new_particles. cbn [pts pbb pradius]. fold items. unfold rstar_build. rewrite E. reflexivity.
    + unfold number_density, density_box. cbn [pindex pts]. rewrite Hb. reflexivity.
    + apply hull_volume; auto.
Qed.
(** A translation does not change it. *)
Lemma translate_overall v t : overall_box (translate_tree v t) = option_map (fun b => translate b v) (overall_box t).
Proof. unfold overall_box, translate_tree. destruct (troot t) as [n|] eqn:E; cbn; [|rewrite E; reflexivity]. destruct n; reflexivity. Qed.
Lemma extent_shift l v x : Forall point3 l -> point3 v -> extent l x -> extent (map (fun p => Particles_Model.vadd p v) l) x.
Proof.
  intros H [a [b [c ->]]] [x0 [x1 [y0 [y1 [z0 [z1 [Ex [Ey [Ez ->]]]]]]]]].
  assert (X : forall d lo hi, d < 3 -> extremes l d lo hi -> extremes (map (fun p => Particles_Model.vadd p [a; b; c]) l) d (lo + nth d [a; b; c] 0)%Z (hi + nth d [a; b; c] 0)%Z).
  { intros d lo hi Hd [E1 [[p [Hp Ep]] [q [Hq Eq]]]].
    assert (N : forall p, In p l -> nth d (Particles_Model.vadd p [a; b; c]) 0%Z = (nth d p 0 + nth d [a; b; c] 0)%Z).
    { intros u Hu. assert (P : point3 u) by (eapply Forall_forall in H; eauto). destruct P as [e [f [g ->]]]. destruct d as [|[|[|]]]; [reflexivity|reflexivity|reflexivity|lia]. }
    split; [|split].
    - intros u Hu. apply in_map_iff in Hu as [w [<- Hw]]. rewrite N by auto. specialize (E1 w Hw). lia.
    - exists (Particles_Model.vadd p [a; b; c]). split; [apply (in_map (fun p => Particles_Model.vadd p [a; b; c])); auto|rewrite N by auto; lia].
    - exists (Particles_Model.vadd q [a; b; c]). split; [apply (in_map (fun p => Particles_Model.vadd p [a; b; c])); auto|rewrite N by auto; lia]. }
  do 6 eexists. split; [apply (X 0 _ _ ltac:(lia) Ex)|]. split; [apply (X 1 _ _ ltac:(lia) Ey)|]. split; [apply (X 2 _ _ ltac:(lia) Ez)|]. cbn [nth]. f_equal; [f_equal|]; lia.
Qed.
Theorem C86_translation st v : Forall point3 (pts st) -> point3 v -> number_density (shift st v) = number_density st.
Proof.
  intros H Hv. unfold number_density, density_box. cbn [shift pindex pts]. destruct (pindex st) as [t|]; cbn [option_map].
  - rewrite translate_overall. destruct (overall_box t) as [b|]; cbn [option_map omap]; [|reflexivity]. rewrite map_length, area_translate. reflexivity.
  - destruct (pts st) as [|p l] eqn:Ep; [reflexivity|]. cbn [map]. cbn [omap]. f_equal. f_equal; [cbn; rewrite map_length; auto|].
    destruct (no_index_volume (p :: l) p H (or_introl eq_refl)) as [x [E A]].
    destruct (no_index_volume (map (fun p => Particles_Model.vadd p v) (p :: l)) (Particles_Model.vadd p v)) as [y [E' A']]; [|left; auto|].
    { rewrite Forall_map. eapply Forall_impl; [|exact H]. intros q [e [f [g ->]]]. destruct Hv as [a [b [c ->]]]. cbn. unfold point3. eauto. }
    cbn [map] in A'. rewrite A, A'. apply (extent_fun _ _ _ E'). apply extent_shift; auto.
Qed.
(** Undefined for an empty set. *)
Theorem C86_empty_refuted c bb r : number_density (new_particles [] bb r) = UB /\ exists st, make_index c (new_particles [] bb r) = Some st /\ number_density st = UB.
Proof. split; [reflexivity|]. eexists. split; reflexivity. Qed.
(** With an index, a rescaling of the positions does not change it. *)
Theorem C86_rescaled_refuted st t m : pindex st = Some t -> number_density (rescale_all st m) = number_density st.
Proof. intros H. unfold number_density, density_box, rescale_all, rescale. cbn [pindex pts]. rewrite H, map_length. reflexivity. Qed.
(** Negative coordinates: 33 particles on a diagonal have 2.26 times less density once they are indexed. *)
Definition neg_points : list (list Z) := map (fun i => let x := (- 2 ^ 1074 * (10 + Z.of_nat i))%Z in [x; x; x]) (seq 0 33).
Definition denser (c : config) (l : list (list Z)) (n : nat) (v0 : Z) : bool :=
  match make_index c (new_particles l [] 1) with
  | Some st => match number_density (new_particles l [] 1), number_density st with
               | Val (a, v), Val (b, w) => (a =? n) && (b =? n) && (v =? v0)%Z && (2 * v <? w)%Z
               | _, _ => false end
  | None => false end.
Lemma denser_ok c l n v0 : denser c l n v0 = true -> exists st v w, make_index c (new_particles l [] 1) = Some st /\
  number_density (new_particles l [] 1) = Val (n, v) /\ number_density st = Val (n, w) /\ v = v0 /\ (w > 2 * v)%Z.
Proof.
  unfold denser. destruct (make_index c (new_particles l [] 1)) as [st|]; [|discriminate]. destruct (number_density (new_particles l [] 1)) as [[a v]| |]; try discriminate.
  destruct (number_density st) as [[b w]| |] eqn:D; try discriminate. rewrite !andb_true_iff, !Nat.eqb_eq, Z.eqb_eq, Z.ltb_lt. intros [[[-> ->] X1] X2]. exists st, v, w. repeat split; auto. apply Z.lt_gt; auto.
Qed.
Theorem C86_negative_refuted : exists st v w, make_index lib_config (new_particles neg_points [] 1) = Some st /\
  number_density (new_particles neg_points [] 1) = Val (33, v) /\ number_density st = Val (33, w) /\ v = ((32 * 2 ^ 1074) ^ 3)%Z /\ (w > 2 * v)%Z.
Proof. apply denser_ok. vm_compute. reflexivity. Qed.
Example C86_case : extent [[1; 2; 3]; [5; 4; 4]; [2; 9; 7]]%Z 112 /\ number_density (new_particles [[1; 2; 3]; [5; 4; 4]; [2; 9; 7]]%Z [] 1) = Val (3, 112%Z).
Proof.
  split; [|reflexivity]. exists 1%Z, 5%Z, 2%Z, 9%Z, 3%Z, 7%Z.
  assert (X : forall d p q lo hi, In p [[1; 2; 3]; [5; 4; 4]; [2; 9; 7]]%Z -> In q [[1; 2; 3]; [5; 4; 4]; [2; 9; 7]]%Z -> nth d p 0%Z = lo -> nth d q 0%Z = hi ->
    forallb (fun p => (lo <=? nth d p 0)%Z && (nth d p 0 <=? hi)%Z) [[1; 2; 3]; [5; 4; 4]; [2; 9; 7]]%Z = true -> extremes [[1; 2; 3]; [5; 4; 4]; [2; 9; 7]]%Z d lo hi).
  { intros d p q lo hi Hp Hq Ep Eq F. split; [|split; eauto]. intros u Hu. rewrite forallb_forall in F. specialize (F u Hu). rewrite andb_true_iff, !Z.leb_le in F. exact F. }
  split; [|split; [|split; [|reflexivity]]]; [apply (X 0 [1; 2; 3]%Z [5; 4; 4]%Z)|apply (X 1 [1; 2; 3]%Z [2; 9; 7]%Z)|apply (X 2 [1; 2; 3]%Z [2; 9; 7]%Z)]; try reflexivity; cbn; auto 10.
Qed.

(** C87. *)
Section Rdf.
  Variables (V : Type) (zero : V) (of_nat : nat -> V) (add mul div : V -> V -> V) (norm : nat -> Z -> nat -> Z -> nat -> V) (legendre : V).
  Lemma normalize_ok nm g : g <> [] -> exists g', normalize_rdf V zero of_nat div nm g = Val g' /\ length g' = length g /\ nth_error g' 0 = Some (div zero nm) /\
    forall k x, 0 < k -> nth_error g k = Some x -> nth_error g' k = Some (div (div x nm) (of_nat (k * k))).
  Proof.
    intros H. destruct g as [|x0 g]; [congruence|]. eexists. split; [reflexivity|]. split; [cbn; rewrite map_length, combine_length, seq_length, Nat.min_id; auto|]. split; [reflexivity|].
    intros [|k] x Hk Hx; [lia|]. cbn [nth_error] in *. rewrite nth_error_map. assert (L : k < length g) by (apply nth_error_Some; congruence).
    assert (E : nth_error (combine g (seq 1 (length g))) k = Some (x, S k)); [|rewrite E; reflexivity].
    { apply nth_error_combine_x; auto. rewrite (nth_error_nth' _ 0) by (rewrite seq_length; auto). rewrite seq_nth by auto. reflexivity. }
  Qed.
  (** The k-th element of n, for k > 0, is the number of ordered pairs (i,j), i selected, j any other particle, with k/n <= distance/cutoff < (k+1)/n, over the norm and over k^2; the first one is null. *)
  Theorem C87_rdf c l bb r ops n cutoff sel num vol : config_ok c -> dims c = 3 -> Forall point3 l -> Forall pop_ok ops -> indexed ops = true ->
    0 < n -> (0 < cutoff)%Z -> (forall i, In i sel -> i < length (positions l ops)) ->
    exists st, prun c (new_particles l bb r) ops = Some st /\
      (number_density st = Val (num, vol) ->
       exists g, get_rdf V zero of_nat div norm st n cutoff sel = Val g /\ length g = n /\
        let nm := norm num vol n cutoff (length sel) in
        nth_error g 0 = Some (div zero nm) /\
        forall k, 0 < k < n -> nth_error g k = Some (div (div (of_nat (length (filter (in_bin (positions l ops) n cutoff k) (all_pairs (positions l ops) sel)))) nm) (of_nat (k * k)))).
  Proof.
    intros Hok H3 Hl Ho Hx Hn Hc Hs. destruct (C40_rdf c l bb r ops n cutoff sel Hok H3 Hl Ho Hx Hn Hc Hs) as [st [g [cnt [E [R [L [_ K]]]]]]]. exists st. split; auto. intros D.
    unfold get_rdf. rewrite R. cbn [obind fst]. rewrite D. cbn [obind fst snd]. set (nm := norm num vol n cutoff (length sel)).
    destruct (normalize_ok nm (map of_nat g)) as [g' [E' [L' [Z0 K']]]]; [destruct g; [cbn in L; lia|discriminate]|]. exists g'. rewrite map_length in L'. split; [auto|]. split; [congruence|]. cbv zeta. split; [auto|].
    intros k Hk. apply K'; [lia|]. rewrite nth_error_map, (K k) by lia. reflexivity.
  Qed.
  (** Without bin the result is never defined. *)
  Theorem C87_no_bin_refuted st cutoff sel v : get_rdf V zero of_nat div norm st 0 cutoff sel <> Val v.
  Proof.
    unfold get_rdf, rdf. destruct (rdf_loop st cutoff sel (repeat 0 0, 0)) as [[g cnt]| |] eqn:E; cbn [obind fst]; try discriminate.
    destruct (number_density st) as [d| |] eqn:D; cbn [obind]; try discriminate.
    - assert (X : g = []). { cut (forall sel s s', fst s = [] -> rdf_loop st cutoff sel s = Val s' -> fst s' = []); [intros H; apply (H sel (repeat 0 0, 0) (g, cnt) eq_refl E)|].
        assert (P : forall i l s s', fst s = [] -> rdf_pairs st cutoff i l s = Val s' -> fst s' = []).
        { intros i. induction l as [|j l IH]; intros s s' F H; cbn [rdf_pairs] in H; [injection H as <-; auto|]. destruct (nth_error (pts st) i); [|discriminate]. destruct (nth_error (pts st) j); [|discriminate].
          unfold incr in H. rewrite F in H. destruct (rdf_bin _ _ _); discriminate. }
        clear - P. induction sel as [|i sel IH]; intros s s' F H; cbn [rdf_loop] in H; [injection H as <-; auto|].
        destruct (euclid_of st i cutoff) as [l| |]; try discriminate. cbn [obind] in H. destruct (rdf_pairs st cutoff i l s) as [s1| |] eqn:E1; try discriminate. cbn [obind] in H. eapply IH; [|exact H]. eapply P; eauto. }
      subst g. cbn. discriminate.
  Qed.

  Variables (B : Type) (null : B -> bool) (inner : B -> B -> V).
  (** Both have a bond orientational order. *)
  Definition both (boos : list B) (ij : nat * nat) : bool :=
    match nth_error boos (fst ij), nth_error boos (snd ij) with Some b, Some b' => negb (null b) && negb (null b') | _, _ => false end.
  Definition product (boos : list B) (ij : nat * nat) : V :=
    match nth_error boos (fst ij), nth_error boos (snd ij) with Some b, Some b' => inner b b' | _, _ => zero end.
  Definition counted (l : list (list Z)) (boos : list B) (n : nat) (cutoff : Z) (k : nat) (sel : list nat) : list (nat * nat) :=
    filter (fun ij => both boos ij && in_bin l n cutoff k ij) (all_pairs l sel).

  Lemma gl_fold st boos n cutoff : (0 < cutoff)%Z -> 0 < n -> Forall point3 (pts st) -> length boos = length (pts st) -> forall prs g gl cnt,
    (forall ij, In ij prs -> close_pair (pts st) cutoff ij = true) -> length g = n -> length gl = n ->
    exists g' gl' cnt', ofold (gl_pair V add B null inner st boos cutoff) prs (g, gl, cnt) = Val (g', gl', cnt') /\ length g' = n /\ length gl' = n /\
      (forall k x, nth_error g k = Some x -> nth_error g' k = Some (x + length (filter (fun ij => both boos ij && in_bin (pts st) n cutoff k ij) prs))) /\
      (forall k x, nth_error gl k = Some x -> nth_error gl' k = Some (fold_left add (map (product boos) (filter (fun ij => both boos ij && in_bin (pts st) n cutoff k ij) prs)) x)).
  Proof.
    intros Hc Hn Hp Hb. induction prs as [|[i j] prs IH]; intros g gl cnt Hcl Lg Lgl.
    - exists g, gl, cnt. cbn. repeat split; auto. intros k x Hx. rewrite Nat.add_0_r. auto.
    - assert (C := Hcl (i, j) (or_introl eq_refl)). unfold close_pair in C. cbn [fst snd] in C.
      destruct (nth_error (pts st) i) as [p|] eqn:Ei; [|discriminate]. destruct (nth_error (pts st) j) as [q|] eqn:Ej; [|discriminate].
      apply andb_true_iff in C as [Ne D]. apply Z.ltb_lt in D.
      assert (P3 : point3 p) by (eapply Forall_forall in Hp; [exact Hp|eapply nth_error_In, Ei]). assert (Q3 : point3 q) by (eapply Forall_forall in Hp; [exact Hp|eapply nth_error_In, Ej]).
      destruct (nth_error_ex boos i) as [b Ebi]; [rewrite Hb; apply nth_error_Some; congruence|]. destruct (nth_error_ex boos j) as [b' Ebj]; [rewrite Hb; apply nth_error_Some; congruence|].
      cbn [ofold]. unfold gl_pair at 1. cbn [fst snd]. rewrite Ebi, Ebj. cbn [filter]. assert (Bo : both boos (i, j) = negb (null b) && negb (null b')) by (unfold both; cbn [fst snd]; rewrite Ebi, Ebj; auto). rewrite Bo.
      destruct (negb (null b) && negb (null b')) eqn:Enull.
      + rewrite Ei, Ej. rewrite sqdist_dist2 by auto. assert (D0 : (0 <= dist2 q p)%Z) by (rewrite <- sqdist_dist2 by auto; apply sqdist_nonneg).
        assert (S := fun k => rdf_bin_spec n cutoff (dist2 q p) Hc (conj D0 D) Hn k). set (r := rdf_bin (length g) cutoff (dist2 q p)). assert (Er : r = rdf_bin n cutoff (dist2 q p)) by (unfold r; congruence).
        assert (Hr : r < n) by (rewrite Er; apply (S 0)). unfold incr. destruct (nth_error_ex g r) as [x0 X0]; [lia|]. destruct (nth_error_ex gl r) as [v0 V0]; [lia|]. rewrite X0, V0. cbn [obind].
        destruct (IH (set_nth r (Datatypes.S x0) g) (set_nth r (add v0 (inner b b')) gl) (Datatypes.S cnt)) as [g' [gl' [cnt' [E [L1 [L2 [K1 K2]]]]]]]; [intros; apply Hcl; right; auto|rewrite set_nth_len; auto|rewrite set_nth_len; auto|].
        exists g', gl', cnt'. split; [exact E|]. split; [auto|]. split; [auto|].
        assert (IB : forall k, in_bin (pts st) n cutoff k (i, j) = (r =? k)).
        { intros k. unfold in_bin. cbn [fst snd]. rewrite Ei, Ej, Ne. apply eq_true_iff_eq. rewrite !andb_true_iff, Z.leb_le, !Z.ltb_lt, Nat.eqb_eq, Er, (proj2 (S k)). intuition. }
        split; intros k x Hx; rewrite IB; cbn [andb].
        * rewrite (K1 k (if r =? k then Datatypes.S x else x)). { destruct (r =? k); cbn [length]; f_equal; lia. }
          rewrite set_nth_get by lia. rewrite (Nat.eqb_sym k r). destruct (Nat.eqb_spec r k) as [<-|]; [congruence|auto].
        * rewrite (K2 k (if r =? k then add x (inner b b') else x)). { destruct (r =? k); [|auto]. cbn [map fold_left]. assert (Pr : product boos (i, j) = inner b b') by (unfold product; cbn [fst snd]; rewrite Ebi, Ebj; auto). rewrite Pr. reflexivity. }
          rewrite set_nth_get by lia. rewrite (Nat.eqb_sym k r). destruct (Nat.eqb_spec r k) as [<-|]; [congruence|auto].
      + cbn [obind andb]. destruct (IH g gl cnt) as [g' [gl' [cnt' [E [L1 [L2 [K1 K2]]]]]]]; auto; [intros; apply Hcl; right; auto|]. exists g', gl', cnt'. auto.
  Qed.
  Lemma filter_filter_x {A} (f g : A -> bool) l : filter f (filter g l) = filter (fun x => g x && f x) l.
  Proof. induction l as [|x l IH]; [auto|]. cbn. destruct (g x); cbn; [destruct (f x); cbn; congruence|auto]. Qed.
  Lemma counted_close l boos n cutoff k sel : filter (fun ij => both boos ij && in_bin l n cutoff k ij) (filter (close_pair l cutoff) (all_pairs l sel)) = counted l boos n cutoff k sel.
  Proof.
    unfold counted. rewrite filter_filter_x. apply filter_ext. intros [i j]. unfold close_pair, in_bin. cbn [fst snd]. destruct (nth_error l i), (nth_error l j); cbn [andb]; rewrite ?andb_false_r; auto.
    destruct (negb (i =? j)), (dist2 l1 l0 <? cutoff * cutoff)%Z; cbn [andb]; rewrite ?andb_false_r; auto.
  Qed.
  (** The element k > 0 is the sum of the products of the pairs of the bin k whose two orders are not null, in the order of the selection, over 13/(4 pi) times their number, or null if there is none; and g counts these pairs only. *)
  Theorem C87_gl c l bb r ops n cutoff sel boos num vol : config_ok c -> dims c = 3 -> Forall point3 l -> Forall pop_ok ops -> indexed ops = true ->
    0 < n -> (0 < cutoff)%Z -> (forall i, In i sel -> i < length (positions l ops)) -> length boos = length (positions l ops) ->
    exists st, prun c (new_particles l bb r) ops = Some st /\
      (number_density st = Val (num, vol) ->
       exists g gl, get_gl V zero of_nat add mul div norm legendre B null inner st boos n cutoff sel = Val (g, gl) /\ length g = n /\ length gl = n /\
        let nm := norm num vol n cutoff (length sel) in
        nth_error g 0 = Some (div zero nm) /\ nth_error gl 0 = Some zero /\
        forall k, 0 < k < n -> let prs := counted (positions l ops) boos n cutoff k sel in
          nth_error g k = Some (div (div (of_nat (length prs)) nm) (of_nat (k * k))) /\
          nth_error gl k = Some (if length prs =? 0 then zero else div (fold_left add (map (product boos) prs) zero) (mul legendre (of_nat (length prs))))).
  Proof.
    intros Hok H3 Hl Ho Hx Hn Hc Hs Hb. destruct (history_ok c l bb r ops Hok H3 Hl Ho) as [st [E [Hm [Hp Hi]]]]. destruct (Hi Hx) as [t [Ht Hit]]. exists st. split; auto. intros D. rewrite <- Hm in *.
    unfold get_gl, gl_bins. rewrite (all_euclid c st t Hok H3 Hp Ht Hit) by auto.
    destruct (gl_fold st boos n cutoff Hc Hn Hp Hb (filter (close_pair (pts st) cutoff) (all_pairs (pts st) sel)) (repeat 0 n) (repeat zero n) 0) as [g [gl [cnt [E1 [L1 [L2 [K1 K2]]]]]]];
      [intros ij H; apply filter_In in H; apply H|apply repeat_length|apply repeat_length|]. rewrite E1. cbn [obind].
    assert (G : exists gl', normalize_gl V zero of_nat mul div legendre g gl = Val gl' /\ length gl' = n /\ nth_error gl' 0 = Some zero /\
      forall k v x, 0 < k -> nth_error gl k = Some v -> nth_error g k = Some x -> nth_error gl' k = Some (if x =? 0 then zero else div v (mul legendre (of_nat x)))).
    { destruct gl as [|v0 gl]; [cbn in L2; lia|]. destruct g as [|x0 g]; [cbn in L1; lia|]. eexists. split; [reflexivity|]. cbn [skipn]. split; [cbn in *; rewrite map_length, combine_length; lia|]. split; [reflexivity|].
      intros [|k] v x Hk Hv Hx'; [lia|]. cbn [nth_error] in *. rewrite nth_error_map, (nth_error_combine_x _ _ _ _ _ Hv Hx'). reflexivity. }
    destruct G as [gl' [EG [LG [G0 GK]]]]. rewrite EG. cbn [obind]. rewrite D. cbn [obind fst snd]. set (nm := norm num vol n cutoff (length sel)).
    destruct (normalize_ok nm (map of_nat g)) as [g' [E' [L' [Z0 K']]]]; [destruct g; [cbn in L1; lia|discriminate]|]. rewrite E'. cbn [omap]. exists g', gl'. rewrite map_length in L'. split; [auto|]. split; [congruence|]. split; [auto|].
    cbv zeta. split; [auto|]. split; [auto|]. intros k Hk.
    assert (R1 : nth_error (repeat 0 n) k = Some 0) by (apply nth_error_repeat_x; lia).
    assert (R2 : nth_error (repeat zero n) k = Some zero) by (apply nth_error_repeat_x; lia).
    assert (A1 := K1 k 0 R1). assert (A2 := K2 k zero R2). rewrite counted_close in A1. rewrite counted_close in A2. cbn [Nat.add] in A1. assert (P : 0 < k) by lia. split.
    - apply K'; [lia|]. rewrite nth_error_map, A1. reflexivity.
    - rewrite (GK k _ _ P A2 A1). reflexivity.
  Qed.
End Rdf.
(** Integers as doubles: the four particles of a row, the third one without orientational order. *)
Example C87_case : exists st, prun lib_config (new_particles ex_row [] 1) [PIndex] = Some st /\ indexed [PIndex] = true /\ Forall point3 ex_row /\
  get_rdf Z 0%Z (fun n => Z.of_nat n * 1000)%Z Z.div (fun _ _ _ _ _ => 1%Z) st 4 8 [0; 1; 2; 3] = Val [0; 4; 1; 0]%Z /\
  get_gl Z 0%Z Z.of_nat Z.add Z.mul Z.div (fun _ _ _ _ _ => 1%Z) 1%Z Z (fun b => b =? 0)%Z Z.mul st [2; 3; 0; 5]%Z 4 8 [0; 1; 2; 3] = Val ([0; 2; 0; 0]%Z, [0; 6; 0; 15]%Z).
Proof. eexists. split; [vm_compute; reflexivity|]. split; [reflexivity|]. split; [repeat (constructor; [eexists _, _, _; reflexivity|]); constructor|]. split; vm_compute; reflexivity. Qed.

Print Assumptions C86_density. Print Assumptions C86_density_index. Print Assumptions C86_translation. Print Assumptions C86_empty_refuted.
Print Assumptions C86_rescaled_refuted. Print Assumptions C86_negative_refuted. Print Assumptions C87_rdf. Print Assumptions C87_no_bin_refuted. Print Assumptions C87_gl.

(** C141: the program rdf, with and without periodic boundary conditions. *)
Require Import String.
Require Import ZArith List Bool Arith Lia Sorted Ascii.
Require Import Verif.Base Verif.SortU Verif.ListX Verif.Dec Verif.Box_Model Verif.RTree_Model Verif.RTree_Spec Verif.RTree_Heuristics Verif.Index_Model Verif.Traj_Model Verif.Center_Model Verif.Particles_Model Verif.Particles_Spec Verif.Particles_Proofs
  Verif.Particles_Props Verif.Periodic_Model Verif.Periodic_Spec Verif.Periodic_Props Verif.Corr_Model Verif.Density_Model Verif.Density_Props Verif.Export_Model Verif.Export_Spec Verif.Export_Proofs Verif.Export_Props
  Verif.Files_Model Verif.Cloud_Model Verif.Cloud_Props Verif.Perco_Model Verif.Perco_Props Verif.Rerun_Model Verif.Rerun_Props Verif.Rdf_Spec Verif.Rdf_Model.
Import ListNotations.
Local Open Scope nat_scope.
Local Open Scope list_scope.
Local Notation length := List.length.

(** * The text *)
Lemma rdf_text_words V (show : V -> text) (abscissa : nat -> V) g : (forall v, word (show v)) -> words (rdf_text V show abscissa g) = rdf_words show abscissa g.
Proof.
  intros Hw.
  assert (R : forall q, words (flat_map (fun kv : nat * V => show (abscissa (fst kv)) ++ [tab] ++ show (snd kv) ++ [newline]) q) = flat_map (fun kv => [show (abscissa (fst kv)); show (snd kv)]) q).
  { induction q as [|[k v] q IH]; [reflexivity|]. cbn [flat_map fst snd]. rewrite <- !app_assoc. assert (H1 : forall w c x, word w -> is_space c = true -> words (w ++ [c] ++ x) = w :: words x) by (intros; apply words_head; auto). rewrite !H1 by (auto; reflexivity). rewrite IH. reflexivity. }
  unfold rdf_text, rdf_words. change (txt "#r" ++ [tab] ++ txt "g" ++ newline :: ?x) with (txt "#r" ++ tab :: (txt "g" ++ newline :: x)). rewrite (words_head (txt "#r") tab) by tok. rewrite (words_head (txt "g") newline) by tok. rewrite R. reflexivity.
Qed.

(** * A particle further than the range from the faces of the set sees no image *)
Lemma axis_self lo hi (b : Z * Z) x i q m : (fst b <= x <= snd b)%Z -> (fst b <= lo)%Z -> (hi <= snd b)%Z -> (lo + m <= q <= hi - m)%Z -> (0 < m)%Z -> (0 < Periodic_Spec.width b)%Z -> (Z.abs (x + i * Periodic_Spec.width b - q) < m)%Z -> i = 0%Z.
Proof. unfold Periodic_Spec.width. destruct b as [b0 b1]. cbn [fst snd]. intros Hx Hlo Hhi Hq Hm Hw Ha. destruct (Z.lt_trichotomy i 0) as [Hi|[Hi|Hi]]; [exfalso; nia|auto|exfalso; nia]. Qed.
Lemma only_self l bb cutoff p q p' : cell bb -> l <> [] -> Forall point3 l -> Forall (in_box bb) l -> In p l -> point3 q -> deep l cutoff q -> (0 < cutoff)%Z -> image bb p p' -> closer3 p' q cutoff -> p' = p.
Proof.
  intros [ex [ey [ez [-> [Wx [Wy Wz]]]]]] Hne H3 Hin Hp [u [v [w ->]]] Hd Hc Hi [_ Hcl]. assert (X : point3 p) by (rewrite Forall_forall in H3; auto). destruct X as [x [y [z ->]]]. destruct Hi as [i [j [k ->]]].
  rewrite Forall_forall in Hin.
  assert (G : forall a b0 b1 b2, in_box [b0; b1; b2] a -> point3 a -> (fst b0 <= coord 0 a <= snd b0 /\ fst b1 <= coord 1 a <= snd b1 /\ fst b2 <= coord 2 a <= snd b2)%Z).
  { intros a b0 b1 b2 Ha [a0 [a1 [a2 ->]]]. inversion Ha as [|? ? ? ? A0 Ha1]; subst. inversion Ha1 as [|? ? ? ? A1 Ha2]; subst. inversion Ha2 as [|? ? ? ? A2 _]; subst. unfold within in *. cbn. auto. }
  assert (Gl : forall a, In a l -> (fst ex <= coord 0 a <= snd ex /\ fst ey <= coord 1 a <= snd ey /\ fst ez <= coord 2 a <= snd ez)%Z) by (intros a Ha; apply G; [auto|rewrite Forall_forall in H3; auto]).
  pose proof (Gl _ Hp) as Bp. cbn in Bp. cbn [dist2] in Hcl.
  destruct (extent_ex l 0 Hne) as [lx [hx Ex]]. destruct (extent_ex l 1 Hne) as [ly [hy Ey]]. destruct (extent_ex l 2 Hne) as [lz [hz Ez]].
  pose proof (Hd 0 _ _ ltac:(lia) Ex) as Dx. pose proof (Hd 1 _ _ ltac:(lia) Ey) as Dy. pose proof (Hd 2 _ _ ltac:(lia) Ez) as Dz. cbn in Dx, Dy, Dz.
  assert (Lx : (fst ex <= lx /\ hx <= snd ex)%Z). { destruct Ex as [[a [Ia <-]] [[b [Ib <-]] _]]. pose proof (Gl _ Ia). pose proof (Gl _ Ib). lia. }
  assert (Ly : (fst ey <= ly /\ hy <= snd ey)%Z). { destruct Ey as [[a [Ia <-]] [[b [Ib <-]] _]]. pose proof (Gl _ Ia). pose proof (Gl _ Ib). lia. }
  assert (Lz : (fst ez <= lz /\ hz <= snd ez)%Z). { destruct Ez as [[a [Ia <-]] [[b [Ib <-]] _]]. pose proof (Gl _ Ia). pose proof (Gl _ Ib). lia. }
  assert (Sq : forall s : Z, (s * s < cutoff * cutoff)%Z -> (Z.abs s < cutoff)%Z) by (intros; nia).
  set (A := (x + i * Periodic_Spec.width ex - u)%Z) in *. set (B := (y + j * Periodic_Spec.width ey - v)%Z) in *. set (C := (z + k * Periodic_Spec.width ez - w)%Z) in *.
  pose proof (Z.square_nonneg A) as QA. pose proof (Z.square_nonneg B) as QB. pose proof (Z.square_nonneg C) as QC.
  assert (i = 0%Z) by (apply (axis_self lx hx ex x i u cutoff); try tauto; apply Sq; unfold A in *; lia). assert (j = 0%Z) by (apply (axis_self ly hy ey y j v cutoff); try tauto; apply Sq; unfold B in *; lia). assert (k = 0%Z) by (apply (axis_self lz hz ez z k w cutoff); try tauto; apply Sq; unfold C in *; lia).
  clear A B C Hcl QA QB QC.
  subst. rewrite !Z.mul_0_l, !Z.add_0_r. reflexivity.
Qed.

Section C141.
  Variables (V : Type) (zero : V) (of_nat : nat -> V) (div : V -> V -> V) (norm : nat -> Z -> nat -> Z -> nat -> V) (show : V -> text) (abscissa : nat -> V).
  Hypothesis Hw : forall v, word (show v).
  Variables (c : config) (l : list (list Z)) (bb : box) (r : Z) (filename : text) (n : nat) (cutoff : Z).
  (** Coordinates are positive doubles; the set is wider than twice the range along each axis and no particle is exactly at the range from a face. *)
  Hypotheses (Hok : config_ok c) (H3 : dims c = 3) (Hne : l <> []) (Hp : Forall point3 l) (Hn : 0 < n) (Hc : (0 < cutoff)%Z).
  Hypotheses (Hrange : forall p k, In p l -> k < 3 -> (dbl_min <= coord k p <= dbl_max)%Z) (Hwide : wide_and_clear l cutoff).
  Local Notation run := (rdf_program V zero of_nat div norm show abscissa c (new_particles l bb r) filename n cutoff).
  Local Notation prun := (periodic_rdf V zero of_nat div norm show abscissa c (new_particles l bb r) filename n cutoff).
  (** The ordered pairs with their first particle in [sel], closer than the cut-off, in the k-th of n equal bins. *)
  Definition pairs_in (sel : list nat) (k : nat) : nat := length (filter (in_bin l n cutoff k) (all_pairs l sel)).
  Definition one_file (g : list V) (d d' : disk) : Prop :=
    (exists t, d' (stem_of filename ++ txt ".rdf") = Some t /\ words t = rdf_words show abscissa g) /\ forall m, m <> stem_of filename ++ txt ".rdf" -> d' m = d m.

  Lemma rdf_setup : exists st t sel vol, make_index c (new_particles l bb r) = Some st /\ pts st = l /\ pbb st = bb /\ pindex st = Some t /\ index_of c l t /\ rdf_selection st cutoff = Val sel /\
    picks l (fun _ p => deep l cutoff p) sel /\ number_density st = Val (length l, vol) /\ Density_Proofs.extent l vol.
  Proof.
    destruct (first_ok c (new_particles l bb r) cutoff Hok H3 Hne Hp Hrange Hwide) as [sel [Es Ps]]. cbn [new_particles pts] in Ps.
    destruct (C86_density_index c l bb r Hok H3 Hp Hne) as [st [vol [Ei [Ed Ee]]]].
    { apply Forall_forall. intros p Ip. assert (X : point3 p) by (rewrite Forall_forall in Hp; auto). destruct X as [x [y [z ->]]]. pose proof (Hrange _ 0 Ip ltac:(lia)). pose proof (Hrange _ 1 Ip ltac:(lia)). pose proof (Hrange _ 2 Ip ltac:(lia)). unfold coord in *; cbn [nth] in *. repeat (apply Forall_cons; [assumption|]). apply Forall_nil. }
    destruct (history_ok c l bb r [PIndex] Hok H3 Hp) as [st' [E' [Em [_ Hi]]]]; [repeat constructor|]. cbn [Particles_Model.prun] in E'. cbn in E'. rewrite Ei in E'. injection E' as <-. destruct (Hi eq_refl) as [t [Et It]]. cbn in Em. rewrite Em in It.
    exists st, t, sel, vol. split; [auto|]. split; [auto|]. split; [unfold make_index in Ei; destruct (rstar_build c _); [|discriminate]; injection Ei as <-; reflexivity|]. split; [auto|]. split; [auto|].
    split; [|auto]. unfold inside_first in Es. rewrite Ei, Et in Es. unfold rdf_selection. rewrite Et, Es. reflexivity.
  Qed.
  Lemma put_one g d : one_file g d (put_file d (rdf_name filename) (rdf_text V show abscissa g)).
  Proof. split; [exists (rdf_text V show abscissa g); split; [apply put_same|apply rdf_text_words; auto]|]. intros m Hm. apply put_other. auto. Qed.
  Lemma plain_rdf st sel : make_index c (new_particles l bb r) = Some st -> pts st = l -> (forall i, In i sel -> i < length l) -> exists g cnt, rdf st n cutoff sel = Val (g, cnt) /\ length g = n /\ forall k, k < n -> nth_error g k = Some (pairs_in sel k).
  Proof.
    intros Ei Ep Hs. destruct (C40_rdf c l bb r [PIndex] n cutoff sel Hok H3 Hp) as [st' [g [cnt [E' [Er [Lg [_ K]]]]]]]; [repeat constructor|reflexivity|auto|auto|exact Hs|]. cbn in E'. rewrite Ei in E'. injection E' as <-.
    exists g, cnt. split; [auto|]. split; [auto|]. intros k Hk. apply K. auto.
  Qed.
  Lemma normal_ok nm sel g : length g = n -> (forall k, k < n -> nth_error g k = Some (pairs_in sel k)) -> exists g', normalize_rdf V zero of_nat div nm (map of_nat g) = Val g' /\ normalised zero of_nat div nm n (pairs_in sel) g'.
  Proof.
    intros Lg K. destruct (normalize_ok V zero of_nat div nm (map of_nat g)) as [g' [E' [L' [Z0 K']]]]; [destruct g; [cbn in Lg; lia|discriminate]|]. exists g'. rewrite map_length in L'. split; [auto|]. split; [congruence|]. split; [auto|].
    intros k Hk. apply K'; [lia|]. rewrite nth_error_map, (K k) by lia. reflexivity.
  Qed.
  (** C141.  The centres are the particles further than the range from the extreme coordinates; the density is that between the extreme coordinates. *)
  Theorem C141_plain d : exists d' g sel vol, run d = Val d' /\ picks l (fun _ p => deep l cutoff p) sel /\ Density_Proofs.extent l vol /\
    normalised zero of_nat div (norm (length l) vol n cutoff (length sel)) n (pairs_in sel) g /\ one_file g d d'.
  Proof.
    destruct rdf_setup as [st [t [sel [vol [Ei [Ep [_ [_ [_ [Es [P [Ed Ee]]]]]]]]]]]]. assert (Hs : forall i, In i sel -> i < length l) by (intros i H; apply P in H as [p [E _]]; eapply nth_error_lt; eauto).
    destruct (plain_rdf st sel Ei Ep Hs) as [g [cnt [Er [Lg K]]]]. destruct (normal_ok (norm (length l) vol n cutoff (length sel)) sel g Lg K) as [g' [En N]].
    eexists. exists g', sel, vol. split; [|split; [exact P|split; [exact Ee|split; [exact N|apply put_one]]]].
    unfold rdf_program, rdf_main. rewrite Ei, Es. cbn [obind]. unfold get_rdf. rewrite Er. cbn [obind fst]. rewrite Ed. cbn [obind fst snd]. rewrite En. reflexivity.
  Qed.
  (** What does not hold: when no particle is that far from the faces, the program succeeds, and each value written is zero over a norm for no particle (zero over zero). *)
  Theorem C141_no_centre_refuted d : (forall p, In p l -> ~ deep l cutoff p) -> exists d' g vol, run d = Val d' /\ Density_Proofs.extent l vol /\
    normalised zero of_nat div (norm (length l) vol n cutoff 0) n (fun _ => 0) g /\ one_file g d d'.
  Proof.
    intros H. destruct (C141_plain d) as [d' [g [sel [vol [E [P [Ee [N F]]]]]]]]. assert (sel = []). { destruct sel as [|i sel]; [auto|]. destruct (proj1 (proj2 P i) (or_introl eq_refl)) as [p [Ei D]]. apply nth_error_In in Ei. destruct (H p Ei D). }
    subst sel. exists d', g, vol. auto.
  Qed.

  Section Periodic.
    Hypotheses (Hcell : cell bb) (Hin : Forall (in_box bb) l).
    Lemma same_loop st t : make_index c (new_particles l bb r) = Some st -> pts st = l -> pbb st = bb -> pindex st = Some t -> index_of c l t ->
      forall sel g, (forall i, In i sel -> exists p, nth_error l i = Some p /\ deep l cutoff p) -> per_rdf_loop st cutoff sel g = rdf_loop st cutoff sel g.
    Proof.
      intros Ei Ep Eb Et It. destruct (C44_neighbours c l bb r [PIndex] Hok H3 Hp) as [st2 [E2 K2]]; [repeat constructor|reflexivity|]. cbn in E2. rewrite Ei in E2. injection E2 as <-. rewrite Eb in K2. cbn in K2.
      destruct (K2 Hcell Hin cutoff) as [_ N]. assert (Hp' : Forall point3 (pts st)) by (rewrite Ep; auto). assert (It' : index_of c (pts st) t) by (rewrite Ep; auto).
      induction sel as [|i sel IH]; intros g Hs; [reflexivity|]. cbn [per_rdf_loop rdf_loop]. destruct (Hs i (or_introl eq_refl)) as [a [Ea Da]]. assert (Ia := nth_error_In _ _ Ea). assert (Pa : point3 a) by (rewrite Forall_forall in Hp; auto).
      destruct (N i a Ea) as [ids [E1 [S1 P1]]]. destruct (euclid_of_spec c st t Hok H3 Hp' Et It' i a cutoff) as [ids' [E1' [S1' P1']]]; [rewrite Ep; auto|].
      assert (Self : forall j b b', nth_error l j = Some b -> image bb b b' -> closer3 b' a cutoff -> b' = b). { intros j b b' Ej Im Cl. apply (only_self l bb cutoff b a b'); auto. eapply nth_error_In; eauto. }
      assert (ids' = ids). { apply ssorted_ext; auto. intros j. rewrite P1, P1', Ep. split.
        - intros [b [Ej [Nj Cl]]]. exists b. split; [auto|]. split; [auto|]. exists b. split; [|auto]. destruct Hcell as [ex [ey [ez [-> _]]]]. assert (X : point3 b) by (rewrite Forall_forall in Hp; apply Hp; eapply nth_error_In; eauto). destruct X as [x [y [z ->]]]. exists 0%Z, 0%Z, 0%Z. rewrite !Z.mul_0_l, !Z.add_0_r. reflexivity.
        - intros [b [Ej [Nj [b' [Im Cl]]]]]. exists b. split; [auto|]. split; [auto|]. rewrite <- (Self j b b' Ej Im Cl). auto. }
      subst ids'. rewrite E1, E1'. cbn [obind].
      assert (Pr : forall L g, (forall j, In j L -> In j ids) -> per_rdf_pairs st cutoff i L g = rdf_pairs st cutoff i L g).
      { induction L as [|j L IHL]; intros g0 HL; [reflexivity|]. cbn [per_rdf_pairs rdf_pairs]. rewrite Ep, Ea. assert (Ij := HL j (or_introl eq_refl)). apply P1' in Ij. rewrite Ep in Ij. destruct Ij as [b [Ej [Nj Cl]]]. rewrite Ej.
        assert (Pb : point3 b) by (rewrite Forall_forall in Hp; apply Hp; eapply nth_error_In; eauto). destruct Pa as [u [v [w ->]]]. destruct Pb as [x [y [z ->]]]. rewrite Forall_forall in Hin.
        destruct (C43_minimum_image st j x y z u v w) as [ex [ey [ez [dx [dy [dz [Ebx [Ed [_ [_ [_ [Im Mn]]]]]]]]]]]]; [rewrite Eb; auto|rewrite Ep; auto|rewrite Eb; apply Hin; eapply nth_error_In; eauto|rewrite Eb; apply Hin; auto|].
        rewrite Ed. cbn [obind]. assert (Id : image bb [x; y; z] [x; y; z]) by (rewrite <- Eb, Ebx; exists 0%Z, 0%Z, 0%Z; rewrite !Z.mul_0_l, !Z.add_0_r; reflexivity).
        rewrite Eb in Im, Mn. specialize (Mn _ Id). assert (Sf : [u + dx; v + dy; w + dz]%Z = [x; y; z]). { apply (Self j _ _ Ej Im). destruct Cl as [C1 C2]. split; [auto|lia]. }
        injection Sf as Sx Sy Sz. assert (Dx : dx = (x - u)%Z) by lia. assert (Dy : dy = (y - v)%Z) by lia. assert (Dz : dz = (z - w)%Z) by lia. subst dx dy dz.
        replace (norm_sq [x - u; y - v; z - w]%Z) with (sqdist [x; y; z] [u; v; w]) by (cbn; ring). destruct (incr _ _) as [g1|]; [|reflexivity]. apply IHL. intros; apply HL; right; auto. }
      rewrite (Pr ids g) by auto. destruct (rdf_pairs st cutoff i ids g) as [g1| |]; cbn [obind]; auto. apply IH. intros; apply Hs; right; auto.
    Qed.
    (** With periodic boundary conditions the centres and the pairs are the same: a centre is so far from the faces that no image is within range.  Only the density changes: it is that of the cell. *)
    Theorem C141_periodic d : exists d' g sel, prun d = Val d' /\ picks l (fun _ p => deep l cutoff p) sel /\
      normalised zero of_nat div (norm (length l) (area bb) n cutoff (length sel)) n (pairs_in sel) g /\ one_file g d d'.
    Proof.
      destruct rdf_setup as [st [t [sel [vol [Ei [Ep [Eb [Et [It [Es [P [Ed Ee]]]]]]]]]]]]. assert (Hs : forall i, In i sel -> i < length l) by (intros i H; apply P in H as [p [E _]]; eapply nth_error_lt; eauto).
      destruct (plain_rdf st sel Ei Ep Hs) as [g [cnt [Er [Lg K]]]]. destruct (normal_ok (norm (length l) (area bb) n cutoff (length sel)) sel g Lg K) as [g' [En N]].
      eexists. exists g', sel. split; [|split; [exact P|split; [exact N|apply put_one]]].
      unfold periodic_rdf, rdf_main. rewrite Ei, Es. cbn [obind]. unfold per_get_rdf. rewrite (same_loop st t Ei Ep Eb Et It) by (intros i H; apply P; auto). unfold rdf in Er. rewrite Er. cbn [obind fst]. rewrite Ep, Eb, En. reflexivity.
    Qed.
  End Periodic.
End C141.

(** * Cases *)
Definition six_points : list (list Z) := map (map (Z.mul unit60)) [[1; 1; 1]; [99; 99; 99]; [50; 50; 50]; [52; 50; 50]; [54; 50; 51]; [6; 50; 50]]%Z.
Definition cell100 : box := repeat (0, 100 * unit60)%Z 3.
Definition rdf6 (per : bool) (d : disk) : outcome disk :=
  (if per then periodic_rdf else rdf_program) nat 0 (Nat.mul 100) (fun a b => a * 100 / b) (fun _ _ _ _ m => m * 100) print_nat (fun k => k) lib_config (new_particles six_points cell100 unit60) (txt "a_t0.dat") 10 (10 * unit60)%Z d.
Example C141_case : (forall v, word (print_nat v)) /\ six_points <> [] /\ Forall point3 six_points /\ (forall p k, In p six_points -> k < 3 -> (dbl_min <= coord k p <= dbl_max)%Z) /\ wide_and_clear six_points (10 * unit60) /\ cell cell100 /\ Forall (in_box cell100) six_points.
Proof.
  split; [intros v; apply (codec_nat v)|]. split; [discriminate|]. split; [repeat constructor; repeat eexists|].
  split. { intros p k Hp Hk. cbn [six_points map In] in Hp. destruct k as [|[|[|k]]]; [| | |lia]; repeat (destruct Hp as [<-|Hp]; [vm_compute; split; discriminate|]); contradiction. }
  assert (E : forall k, k < 3 -> extent six_points k unit60 (99 * unit60)).
  { intros k Hk. split; [exists (map (Z.mul unit60) [1; 1; 1]%Z)|split; [exists (map (Z.mul unit60) [99; 99; 99]%Z)|]].
    - split; [left; reflexivity|]. destruct k as [|[|[|k]]]; [reflexivity|reflexivity|reflexivity|lia].
    - split; [right; left; reflexivity|]. destruct k as [|[|[|k]]]; [reflexivity|reflexivity|reflexivity|lia].
    - intros q Hq. cbn [six_points map In] in Hq. destruct k as [|[|[|k]]]; [| | |lia]; repeat (destruct Hq as [<-|Hq]; [vm_compute; split; discriminate|]); contradiction. }
  split. { intros k lo hi Hk Ex. destruct (extent_fun _ _ _ _ _ _ Ex (E k Hk)) as [-> ->]. split; [vm_compute; reflexivity|].
    intros q Hq. cbn [six_points map In] in Hq. destruct k as [|[|[|k]]]; [| | |lia]; repeat (destruct Hq as [<-|Hq]; [vm_compute; split; discriminate|]); contradiction. }
  split; [do 3 eexists; split; [reflexivity|]; repeat split|]. repeat (apply Forall_cons; [repeat (apply Forall2_cons; [vm_compute; split; discriminate|]); apply Forall2_nil|]). apply Forall_nil.
Qed.
(** "The periodic pair correlation function counts the pairs that are close through a face" is false: the first two particles, at opposite corners, are at distance square root of 12 in the crystal;
    only the three particles in the middle are centres.  Values: 100 pairs/centre/bin squared. *)
Theorem C141_images_refuted : (exists a b b', nth_error six_points 0 = Some a /\ nth_error six_points 1 = Some b /\ image cell100 b b' /\ dist2 b' a = (12 * unit60 * unit60)%Z) /\
  (exists d', rdf6 true (fun _ => None) = Val d' /\ d' (txt "a_t0.rdf") = Some (rdf_text nat print_nat (fun k => k) [0; 0; 100 * (4 * 100 / 3) / 400; 0; 100 * (2 * 100 / 3) / 1600; 0; 0; 0; 0; 0])) /\
  exists d', rdf6 false (fun _ => None) = Val d' /\ d' (txt "a_t0.rdf") = Some (rdf_text nat print_nat (fun k => k) [0; 0; 100 * (4 * 100 / 3) / 400; 0; 100 * (2 * 100 / 3) / 1600; 0; 0; 0; 0; 0]).
Proof.
  split; [|split; eexists; split; vm_compute; reflexivity].
  exists (map (Z.mul unit60) [1; 1; 1]%Z), (map (Z.mul unit60) [99; 99; 99]%Z), (map (Z.mul unit60) [-1; -1; -1]%Z). split; [reflexivity|]. split; [reflexivity|]. split; [exists (-1)%Z, (-1)%Z, (-1)%Z; vm_compute; reflexivity|vm_compute; reflexivity].
Qed.
(** "Centres are further than the range from the faces" is false along an axis where the set is narrower than twice the range: that axis is not cut. *)
Theorem C141_narrow_refuted : exists l st sel p, make_index lib_config (new_particles l [] 1) = Some st /\ rdf_selection st (10 * unit60) = Val sel /\ In 2 sel /\ nth_error l 2 = Some p /\ ~ deep l (10 * unit60) p.
Proof.
  exists (map (map (Z.mul unit60)) [[1; 1; 1]; [99; 99; 9]; [50; 50; 5]]%Z). eexists. exists [2], (map (Z.mul unit60) [50; 50; 5]%Z). split; [vm_compute; reflexivity|]. split; [vm_compute; reflexivity|]. split; [left; reflexivity|]. split; [reflexivity|].
  intros D. assert (E : extent (map (map (Z.mul unit60)) [[1; 1; 1]; [99; 99; 9]; [50; 50; 5]]%Z) 2 unit60 (9 * unit60)).
  { split; [eexists; split; [left; reflexivity|reflexivity]|]. split; [eexists; split; [right; left; reflexivity|reflexivity]|]. intros q Hq. cbn [map In] in Hq. repeat (destruct Hq as [<-|Hq]; [vm_compute; split; discriminate|]). contradiction. }
  specialize (D 2 _ _ ltac:(lia) E). vm_compute in D. destruct D as [D _]. apply D. reflexivity.
Qed.

Print Assumptions C141_plain.
Print Assumptions C141_no_centre_refuted.
Print Assumptions C141_periodic.
Print Assumptions C141_images_refuted.
Print Assumptions C141_narrow_refuted.

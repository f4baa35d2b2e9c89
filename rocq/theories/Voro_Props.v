(** C136: the program cgVoro. *)
Require Import String.
Require Import ZArith QArith List Bool Arith NArith Lia Lqa Sorting.Sorted Permutation Ascii.
Require Import Verif.Base Verif.ListX Verif.Dec Verif.Traj_Model Verif.Particles_Model Verif.Boo_Model Verif.Corr_Model Verif.Corr_Proofs Verif.Files_Model Verif.Files_Spec Verif.Files_Proofs Verif.Files_Props Verif.Export_Model Verif.RTree_Model
  Verif.Voro_Model Verif.Voro_Spec Verif.Voro_Proofs Verif.Voro_Chance.
Import ListNotations.
Local Open Scope nat_scope.
Local Open Scope list_scope.
Notation length := List.length.

(** Averages *)
Section Averages.
  Variables (n : nat) (vols : list Q) (ngbs : list (list Z)).
  Hypothesis (Lv : length vols = n) (Ok : cells_ok n ngbs).
  Hypothesis Hpos : forall q, q < n -> bulk (ngb_of ngbs q) = true -> (0 < value vols q)%Q.
  Lemma coarse_inv fuel r : coarse fuel n vols ngbs = Some r -> exists cg, r = Val cg /\ inv n vols ngbs [] cg.
  Proof. unfold coarse. destruct (start n vols ngbs Lv Ok Hpos) as [st [E I]]. rewrite E. intros H. eapply result; eauto. Qed.
  Lemma cell_ngb p : have_cell ngbs p = true <-> ngb_of ngbs p <> [].
  Proof. unfold have_cell, ngb_of. destruct (nth p ngbs []); split; intros H; congruence. Qed.
  Theorem C136_mean fuel r : coarse fuel n vols ngbs = Some r ->
    exists cg, r = Val cg /\ length cg = n /\ forall p, p < n -> donors ngbs p <> [] -> (value cg p == Qmean (map (value vols) (donors ngbs p)))%Q.
  Proof. intros H. destruct (coarse_inv fuel r H) as [cg [E I]]. exists cg. split; auto. split; [apply I|]. intros p Hp D. apply (i_donors _ _ _ _ _ I p Hp D). Qed.
  Theorem C136_second fuel cg : coarse fuel n vols ngbs = Some (Val cg) -> forall p, p < n -> donors ngbs p = [] ->
    (ngb_of ngbs p = [] -> value cg p = 0%Q) /\
    (ngb_of ngbs p <> [] -> exists f : nat -> bool, (forall q, q < n -> donors ngbs q <> [] -> f q = true) /\
       let used := filter f (real_ngb (ngb_of ngbs p)) in used <> [] /\ (value cg p == Qmean (map (value cg) used))%Q).
  Proof.
    intros H p Hp D. destruct (coarse_inv fuel _ H) as [cg' [E I]]. injection E as <-. split; intros C.
    - apply (i_none _ _ _ _ _ I); auto. destruct (have_cell ngbs p) eqn:B; auto. apply cell_ngb in B. congruence.
    - apply cell_ngb in C. destruct (i_avg _ _ _ _ _ I p Hp D) as [f [F1 [F2 [_ F3]]]]; [apply (i_done _ _ _ _ _ I); auto|]. exists f. auto.
  Qed.
  Theorem C136_between fuel cg lo hi : coarse fuel n vols ngbs = Some (Val cg) -> (forall q, q < n -> bulk (ngb_of ngbs q) = true -> (lo <= value vols q <= hi)%Q) ->
    forall p, p < n -> ngb_of ngbs p <> [] -> (0 < value cg p)%Q /\ (lo <= value cg p <= hi)%Q.
  Proof.
    intros H B p Hp C. destruct (coarse_inv fuel _ H) as [cg' [E I]]. injection E as <-. apply cell_ngb in C. assert (V : (0 < value cg p)%Q) by (apply (i_done _ _ _ _ _ I); auto). split; auto. apply (i_bounds _ _ _ _ _ I); auto.
  Qed.
  Lemma queue_in st p : give_all vols ngbs (repeat 0%Q n, repeat 0 n) = Val st -> (In p (left_over ngbs (snd st)) <-> p < n /\ ngb_of ngbs p <> [] /\ donors ngbs p = []).
  Proof.
    intros E. destruct (after_first n vols ngbs Lv Ok) as [cg [d [E' [_ [_ [_ [_ Q0]]]]]]]. rewrite E in E'. injection E' as ->. cbn [snd]. rewrite Q0, filter_In, in_seq, <- cell_ngb. split.
    - intros [H1 H2]. destruct (donors ngbs p); [|discriminate]. split; [lia|auto].
    - intros [H1 [H2 H3]]. rewrite H3. split; [lia|auto].
  Qed.
  Lemma queue_short st : give_all vols ngbs (repeat 0%Q n, repeat 0 n) = Val st -> length (left_over ngbs (snd st)) <= n.
  Proof.
    intros E. destruct (start n vols ngbs Lv Ok Hpos) as [st' [E' I]]. rewrite E in E'. injection E' as <-. apply (i_nodup) in I. rewrite <- (seq_length n 0). apply NoDup_incl_length; auto.
    intros p Hp. apply queue_in in Hp; auto. apply in_seq. lia.
  Qed.
  (** The program ends exactly when every cell is joined to one that has a value, and then within n*n iterations. *)
  Theorem C136_ends : (forall p, p < n -> ngb_of ngbs p <> [] -> fed ngbs p) <-> exists fuel r, coarse fuel n vols ngbs = Some r.
  Proof.
    destruct (start n vols ngbs Lv Ok Hpos) as [st [E I]]. unfold coarse. rewrite E. split.
    - intros F. destruct (ends n vols ngbs Lv Ok (length (left_over ngbs (snd st))) _ _ eq_refl I) as [cg Ec]; [|eauto].
      intros p Hp. apply (queue_in st p E) in Hp. apply F; tauto.
    - intros [fuel [r H]] p Hp C. destruct (donors ngbs p) as [|d ds] eqn:D; [|apply fed_donor; congruence].
      destruct (in_dec Nat.eq_dec p (left_over ngbs (snd st))) as [J|J]; [|exfalso; apply J, (queue_in st p E); auto].
      destruct (coarse_inv fuel r) as [cg [_ I']]; [unfold coarse; rewrite E; exact H|]. apply (i_fed _ _ _ _ _ I'); auto. apply (i_done _ _ _ _ _ I'); auto. apply cell_ngb. auto.
  Qed.
  Theorem C136_iterations : (forall p, p < n -> ngb_of ngbs p <> [] -> fed ngbs p) -> exists cg, forall fuel, n * n <= fuel -> coarse fuel n vols ngbs = Some (Val cg).
  Proof.
    intros F. destruct (start n vols ngbs Lv Ok Hpos) as [st [E I]]. unfold coarse. rewrite E. assert (L := queue_short st E). set (m := length (left_over ngbs (snd st))) in *.
    destruct (ends n vols ngbs Lv Ok m _ _ eq_refl I) as [cg Ec].
    - intros p Hp. apply (queue_in st p E) in Hp. apply F; tauto.
    - exists cg. intros fuel Hf. assert (m * m <= n * n) by (apply Nat.mul_le_mono; auto). replace fuel with (m * m + (fuel - m * m)) by lia. apply more. auto.
  Qed.
  (** When all cells are near the walls the program does not end. *)
  Theorem C136_walls_refuted p : (forall q, q < n -> bulk (ngb_of ngbs q) = false) -> p < n -> ngb_of ngbs p <> [] -> forall fuel, coarse fuel n vols ngbs = None.
  Proof.
    intros B Hp C fuel. destruct (coarse fuel n vols ngbs) as [r|] eqn:E; auto. exfalso.
    assert (F : fed ngbs p) by (apply (proj2 C136_ends); eauto).
    assert (N : forall q, fed ngbs q -> False). { induction 1 as [q D|]; auto. apply D. destruct (donors ngbs q) as [|x l] eqn:Ed; auto. exfalso. assert (J : In x (donors ngbs q)) by (rewrite Ed; left; auto). apply (donors_bulk n vols ngbs Lv Ok Hpos) in J. destruct J as [J1 J2]. rewrite B in J2 by auto. discriminate. }
    eauto.
  Qed.
End Averages.

(** Reading the cells back *)
Lemma read_ints_ok : forall ngb rest, read_ints (repeat 0%Z (length ngb)) (map Int ngb ++ rest, true) = Val (ngb, (rest, true)).
Proof. induction ngb as [|z l IH]; intros rest; auto. cbn [length repeat read_ints map app read_int obind fst snd]. rewrite IH. reflexivity. Qed.
Lemma read_int_end b o : read_int (b, false) o = Val (o, (b, false)).
Proof. destruct b as [|[z|q] b]; reflexivity. Qed.
Lemma read_ints_end : forall olds b, read_ints olds (b, false) = Val (olds, (b, false)).
Proof. induction olds as [|z l IH]; intros b; auto. cbn [read_ints]. rewrite read_int_end. cbn [obind fst snd]. rewrite IH. reflexivity. Qed.
Lemma nat_index p : as_index (Z.of_nat p) = Val p.
Proof. rewrite as_index_ok by lia. rewrite Nat2Z.id. auto. Qed.
Lemma read_one st c rest : r_buf st = (print_cell c ++ rest, true) -> vid c < length (r_vols st) -> length (r_ngbs st) = length (r_vols st) -> nth (vid c) (r_ngbs st) [] = [] ->
  read_cell st = Val (mkReading (Some (Z.of_nat (vid c))) (Some (Z.of_nat (length (vngb c)))) (set_nth (vid c) (vvol c) (r_vols st)) (set_nth (vid c) (vngb c) (r_ngbs st)) (rest, true)).
Proof.
  intros B H L N. unfold read_cell. rewrite B. unfold print_cell. cbn [app read_int obind fst snd defined]. rewrite nat_index. cbn [obind]. rewrite (at_ok 0%Q) by auto. cbn [obind read_real fst snd read_int defined]. rewrite nat_index. cbn [obind].
  rewrite (at_ok []) by lia. rewrite N. cbn [obind]. unfold resized. rewrite firstn_nil. cbn [app length]. rewrite Nat.sub_0_r. rewrite read_ints_ok. reflexivity.
Qed.
(** After the last cell the loop runs once more, without effect. *)
Lemma read_last st p : r_buf st = ([], true) -> r_p st = Some (Z.of_nat p) -> p < length (r_vols st) -> length (r_ngbs st) = length (r_vols st) -> r_s st = Some (Z.of_nat (length (nth p (r_ngbs st) []))) ->
  read_cell st = Val (mkReading (r_p st) (r_s st) (r_vols st) (r_ngbs st) ([], false)).
Proof.
  intros B P H L E. unfold read_cell. rewrite B, P, E. cbn [read_int obind fst snd defined]. rewrite nat_index. cbn [obind]. rewrite (at_ok 0%Q) by auto. cbn [obind read_real fst snd read_int defined]. rewrite nat_index. cbn [obind].
  rewrite (at_ok []) by lia. cbn [obind]. unfold resized. rewrite firstn_all, Nat.sub_diag. cbn [repeat]. rewrite app_nil_r, read_ints_end. cbn [omap obind fst snd].
  change (nth p (r_vols st) 0%Q) with (value (r_vols st) p). rewrite set_self by auto. f_equal. f_equal.
  clear. revert p. induction (r_ngbs st) as [|l ls IH]; intros [|p]; cbn; auto. f_equal. auto.
Qed.
Lemma read_all : forall cs st fuel, length (r_ngbs st) = length (r_vols st) -> r_buf st = (print_cells cs, true) -> NoDup (map vid cs) -> Forall (fun c => vid c < length (r_vols st) /\ nth (vid c) (r_ngbs st) [] = []) cs ->
  (cs = [] -> exists p, r_p st = Some (Z.of_nat p) /\ p < length (r_vols st) /\ r_s st = Some (Z.of_nat (length (nth p (r_ngbs st) [])))) -> length cs < fuel ->
  exists st', read_cells fuel st = Val st' /\ r_vols st' = fold_left (fun l c => set_nth (vid c) (vvol c) l) cs (r_vols st) /\ r_ngbs st' = fold_left (fun l c => set_nth (vid c) (vngb c) l) cs (r_ngbs st).
Proof.
  induction cs as [|c cs IH]; intros st fuel L B N F P Hf.
  - destruct (P eq_refl) as [p [P1 [P2 P3]]]. destruct fuel as [|fuel]; [lia|]. eexists. cbn [read_cells]. rewrite B. cbn [snd]. rewrite (read_last st p) by auto. cbn [obind]. destruct fuel; cbn [read_cells r_buf snd]; split; try reflexivity; cbn; auto.
  - cbn [length] in Hf. destruct fuel as [|fuel]; [lia|]. apply Forall_cons_iff in F. destruct F as [[F1 F2] F]. cbn [map] in N. inversion N as [|? ? N1 N2]; subst.
    cbn [print_cells flat_map] in B. cbn [read_cells]. rewrite B. cbn [snd]. rewrite (read_one st c (print_cells cs)) by auto. cbn [obind].
    destruct (IH (mkReading (Some (Z.of_nat (vid c))) (Some (Z.of_nat (length (vngb c)))) (set_nth (vid c) (vvol c) (r_vols st)) (set_nth (vid c) (vngb c) (r_ngbs st)) (print_cells cs, true)) fuel) as [st' [E [V G]]]; cbn [r_vols r_ngbs r_buf r_p r_s]; rewrite ?set_nth_len; auto; try lia.
    + rewrite Forall_forall in F |- *. intros c' Hc. destruct (F c' Hc) as [A1 A2]. split; auto. rewrite nth_set by lia. rewrite (proj2 (Nat.eqb_neq (vid c') (vid c))); auto. intros E. apply N1. rewrite <- E. apply in_map. auto.
    + intros _. exists (vid c). split; auto. split; auto. rewrite nth_set by lia. rewrite Nat.eqb_refl. auto.
    + exists st'. split; auto.
Qed.
Lemma fold_set {A} (d : A) (f : vcell -> A) : forall cs l, NoDup (map vid cs) -> Forall (fun c => vid c < length l) cs ->
  length (fold_left (fun l c => set_nth (vid c) (f c) l) cs l) = length l /\ (forall c, In c cs -> nth (vid c) (fold_left (fun l c => set_nth (vid c) (f c) l) cs l) d = f c) /\
  forall p, ~ In p (map vid cs) -> nth p (fold_left (fun l c => set_nth (vid c) (f c) l) cs l) d = nth p l d.
Proof.
  induction cs as [|c cs IH]; intros l N F; cbn [fold_left]; [split; auto; split; [intros c []|auto]|]. apply Forall_cons_iff in F. destruct F as [F1 F]. cbn [map] in N. inversion N as [|? ? N1 N2]; subst.
  destruct (IH (set_nth (vid c) (f c) l) N2) as [A0 [B C]]; [eapply Forall_impl; [|exact F]; intros c' H'; cbv beta in *; rewrite set_nth_len; auto|]. rewrite set_nth_len in A0. split; auto. split.
  - intros c' [<-|Hc]; auto. rewrite C by auto. rewrite nth_set by auto. rewrite Nat.eqb_refl. auto.
  - intros p Hp. cbn [map In] in Hp. rewrite C by tauto. rewrite nth_set by auto. rewrite (proj2 (Nat.eqb_neq p (vid c))); auto.
Qed.
Lemma print_length cs : length cs <= length (print_cells cs).
Proof. induction cs as [|c cs IH]; auto. cbn [print_cells flat_map length]. rewrite app_length. cbn [print_cell length]. unfold print_cells in IH. lia. Qed.
Theorem C136_read n cs : cs <> [] -> NoDup (map vid cs) -> Forall (fun c => vid c < n) cs ->
  exists vols ngbs, get_volumes n (print_cells cs) = Val (vols, ngbs) /\ length vols = n /\ length ngbs = n /\ Forall (StronglySorted Z.le) ngbs /\
    (forall c, In c cs -> value vols (vid c) = vvol c /\ Permutation (ngb_of ngbs (vid c)) (vngb c)) /\
    (forall p, ~ In p (map vid cs) -> value vols p = 0%Q /\ ngb_of ngbs p = []).
Proof.
  intros N0 N F. destruct (read_all cs (mkReading None None (repeat 0%Q n) (repeat [] n) (print_cells cs, true)) (S (length (print_cells cs)))) as [st [E [V G]]]; cbn [r_vols r_ngbs r_buf r_p r_s]; rewrite ?repeat_length; auto.
  - eapply Forall_impl; [|exact F]. intros c Hc. cbv beta in *. split; auto. apply nth_repeat.
  - congruence.
  - assert (H := print_length cs). lia.
  - cbn [r_vols r_ngbs] in V, G. destruct (fold_set 0%Q vvol cs (repeat 0%Q n) N) as [A1 [A2 A3]]; [rewrite repeat_length; auto|]. destruct (fold_set [] vngb cs (repeat [] n) N) as [B1 [B2 B3]]; [rewrite repeat_length; auto|].
    rewrite <- V in A1, A2, A3. rewrite <- G in B1, B2, B3. rewrite repeat_length in A1, B1. exists (r_vols st), (map (sort_by Z.ltb) (r_ngbs st)). unfold get_volumes. rewrite E. split; [reflexivity|]. split; auto. split; [rewrite map_length; auto|].
    assert (M : forall p, ngb_of (map (sort_by Z.ltb) (r_ngbs st)) p = sort_by Z.ltb (nth p (r_ngbs st) [])) by (intros p; unfold ngb_of; change (@nil Z) with (sort_by Z.ltb []) at 1; apply map_nth).
    split; [|split].
    + apply Forall_forall. intros l Hl. apply in_map_iff in Hl. destruct Hl as [l' [<- _]]. exact (sort_Z_sorted (fun z => z) l').
    + intros c Hc. split; [apply A2; auto|]. rewrite M, B2 by auto. apply sort_by_perm.
    + intros p Hp. unfold value. rewrite A3, M, B3 by auto. rewrite !nth_repeat. auto.
Qed.
(** Without any cell the loop uses a variable that was never given a value. *)
Theorem C136_read_refuted n : get_volumes n (print_cells []) = UB.
Proof. reflexivity. Qed.

(** Particles near the walls *)
Definition walled (ngb : list Z) : bool := existsb (fun z => (z <? 0)%Z) ngb.
Lemma walled_front z l : StronglySorted Z.le (z :: l) -> walled (z :: l) = (z <? 0)%Z.
Proof.
  intros H. inversion H as [|? ? _ F]; subst. unfold walled. cbn [existsb]. destruct (Z.ltb_spec z 0) as [L|L]; auto. cbn. destruct (existsb (fun z => (z <? 0)%Z) l) eqn:E; auto. apply existsb_exists in E. destruct E as [y [Hy Y]]. rewrite Forall_forall in F. specialize (F y Hy). apply Z.ltb_lt in Y. lia.
Qed.
Lemma unique_head x l : exists r, unique (x :: l) = x :: r.
Proof. revert x. induction l as [|y l IH]; intros x; [exists []; reflexivity|]. cbn [unique]. destruct (x =? y)%Z eqn:E; [|eauto]. destruct (IH y) as [r Er]. cbn [unique] in Er. rewrite Er. eauto. Qed.
Lemma unique_ok l : StronglySorted Z.le l -> StronglySorted Z.lt (unique l) /\ forall z, In z (unique l) <-> In z l.
Proof.
  induction l as [|x l IH]; intros S0; [split; [constructor|tauto]|]. inversion S0 as [|? ? S1 F]; subst. destruct (IH S1) as [A B]. destruct l as [|y l].
  - split; [repeat constructor|tauto].
  - destruct (unique_head y l) as [r Er]. change (unique (x :: y :: l)) with (if (x =? y)%Z then match unique (y :: l) with _ :: r => x :: r | [] => [x] end else x :: unique (y :: l)). rewrite Er in *. destruct (Z.eqb_spec x y) as [->|N].
    + split; auto. intros z. rewrite B. cbn. tauto.
    + split.
      * constructor; auto. inversion A as [|? ? _ Fr]; subst. inversion F as [|? ? Hxy _]; subst. constructor; [lia|]. eapply Forall_impl; [|exact Fr]. intros; lia.
      * intros z. cbn [In] in B |- *. rewrite B. tauto.
Qed.
Lemma flat_fst {A} (f : A -> bool) (g : A -> list Z) ps : flat_map fst (map (fun p => if f p then ([p], g p) else ([], [])) ps) = filter f ps /\ flat_map snd (map (fun p => if f p then ([p], g p) else ([], [])) ps) = flat_map g (filter f ps).
Proof. induction ps as [|p ps [I1 I2]]; auto. cbn [map flat_map filter]. rewrite I1, I2. destruct (f p); auto. Qed.
Theorem C136_outside n ngbs : cells_ok n ngbs -> Forall (fun ngb => ngb <> []) ngbs ->
  exists second, get_outsides ngbs = Val (filter (fun p => walled (ngb_of ngbs p)) (seq 0 n), second) /\ StronglySorted Z.lt second /\
    forall z, In z second <-> exists p, p < n /\ walled (ngb_of ngbs p) = true /\ (z = Z.of_nat p \/ (In z (ngb_of ngbs p) /\ (0 <= z)%Z)).
Proof.
  intros Ok F. unfold get_outsides. rewrite (ok_n _ _ Ok).
  assert (E : forall p, In p (seq 0 n) -> outsides_of ngbs p = Val (if walled (ngb_of ngbs p) then ([p], Z.of_nat p :: filter (fun z => (0 <=? z)%Z) (ngb_of ngbs p)) else ([], []))).
  { intros p Hp. apply in_seq in Hp. unfold outsides_of. rewrite (at_ok []) by (rewrite (ok_n _ _ Ok); lia). cbn [obind]. change (nth p ngbs []) with (ngb_of ngbs p). assert (Sp := ngb_sorted n ngbs Ok p). rewrite centres_ok by auto.
    assert (N : ngb_of ngbs p <> []) by (rewrite Forall_forall in F; apply F, nth_In; rewrite (ok_n _ _ Ok); lia). destruct (ngb_of ngbs p) as [|z l]; [congruence|]. rewrite walled_front by auto. reflexivity. }
  rewrite (osequence_map_ok _ _ _ E). cbn [omap obind]. destruct (flat_fst (fun p => walled (ngb_of ngbs p)) (fun p => Z.of_nat p :: filter (fun z => (0 <=? z)%Z) (ngb_of ngbs p)) (seq 0 n)) as [F1 F2]. rewrite F1, F2. eexists. split; [reflexivity|].
  destruct (unique_ok _ (sort_Z_sorted (fun z => z) (flat_map (fun p => Z.of_nat p :: filter (fun z => (0 <=? z)%Z) (ngb_of ngbs p)) (filter (fun p => walled (ngb_of ngbs p)) (seq 0 n))))) as [U1 U2]. split; [exact U1|].
  intros z. etransitivity; [apply U2|]. rewrite sort_by_in, in_flat_map. split.
  - intros [p [Hp I]]. apply filter_In in Hp. destruct Hp as [Hp W]. apply in_seq in Hp. exists p. split; [lia|]. split; auto. destruct I as [<-|I]; auto. apply filter_In in I. destruct I as [I H0]. apply Z.leb_le in H0. auto.
  - intros [p [Hp [W I]]]. exists p. split; [apply filter_In; split; auto; apply in_seq; lia|]. destruct I as [->|[I H0]]; [left; auto|right]. apply filter_In. split; auto. apply Z.leb_le. auto.
Qed.
(** A particle without cell makes the search of the outside read an element of an empty list. *)
Lemma osequence_ub {A} (l : list (outcome A)) : Forall (fun o => o <> Throw) l -> In UB l -> osequence l = UB.
Proof.
  induction l as [|o l IH]; intros F I; [destruct I|]. apply Forall_cons_iff in F. destruct F as [F1 F]. destruct o as [a| |]; [|congruence|reflexivity]. destruct I as [I|I]; [discriminate|]. cbn [osequence]. rewrite IH by auto. reflexivity.
Qed.
Theorem C136_outside_refuted ngbs p : p < length ngbs -> ngb_of ngbs p = [] -> get_outsides ngbs = UB.
Proof.
  intros Hp E. unfold get_outsides. rewrite osequence_ub; auto.
  - apply Forall_forall. intros o Ho. apply in_map_iff in Ho. destruct Ho as [q [<- Hq]]. apply in_seq in Hq. unfold outsides_of. rewrite (at_ok []) by lia. cbn [obind]. destruct (nth q ngbs []); discriminate.
  - apply in_map_iff. exists p. split; [|apply in_seq; lia]. unfold outsides_of. rewrite (at_ok []) by lia. cbn [obind]. change (nth p ngbs []) with (ngb_of ngbs p). rewrite E. reflexivity.
Qed.

(** Bonds *)
Definition machine_int (z : Z) : Prop := (- 2 ^ 31 <= z < 2 ^ 31)%Z.
Lemma unsigned_pos z : (0 <= z)%Z -> machine_int z -> unsigned z = z.
Proof. unfold machine_int, unsigned. intros H M. apply Z.mod_small. lia. Qed.
Lemma unsigned_neg z : (z < 0)%Z -> machine_int z -> unsigned z = (z + 2 ^ 64)%Z.
Proof. unfold machine_int, unsigned. intros H M. rewrite <- (Z.mod_add z 1) by lia. apply Z.mod_small. lia. Qed.
Lemma split3 ngb p : StronglySorted Z.le ngb -> exists w a b, ngb = w ++ a ++ b /\ Forall (fun z => (z < 0)%Z) w /\ Forall (fun z => (0 <= z < Z.of_nat p)%Z) a /\ Forall (fun z => (Z.of_nat p <= z)%Z) b /\
  filter (fun z => (Z.of_nat p <=? z)%Z) ngb = b.
Proof.
  intros S0. assert (E := sorted_split ngb (Z.of_nat p) S0). set (b := filter (fun z => (Z.of_nat p <=? z)%Z) ngb) in *. set (c := filter (fun z => (z <? Z.of_nat p)%Z) ngb) in *.
  assert (Sc : StronglySorted Z.le c). { rewrite E in S0. clear - S0. induction c as [|x c IH]; [constructor|]. inversion S0 as [|? ? S1 F]; subst. constructor; auto. apply Forall_app in F. tauto. }
  assert (Ec := sorted_split c 0 Sc). exists (filter (fun z => (z <? 0)%Z) c), (filter (fun z => (0 <=? z)%Z) c), b. rewrite app_assoc, <- Ec. split; auto. split; [|split; [|split; auto]]; apply Forall_forall; intros z Hz.
  - apply filter_In in Hz. apply Z.ltb_lt. tauto.
  - apply filter_In in Hz. destruct Hz as [Hz H0]. apply Z.leb_le in H0. unfold c in Hz. apply filter_In in Hz. destruct Hz as [_ Hz]. apply Z.ltb_lt in Hz. lia.
  - unfold b in Hz. apply filter_In in Hz. apply Z.leb_le. tauto.
Qed.
Theorem C136_bonds p ngb : StronglySorted Z.le ngb -> Forall machine_int ngb -> machine_int (Z.of_nat p) ->
  (bonds_of p ngb = map (pair p) (filter (fun z => (Z.of_nat p <=? z)%Z) ngb) \/ bonds_of p ngb = map (pair p) ngb) /\
  (walled ngb = false -> bonds_of p ngb = map (pair p) (filter (fun z => (Z.of_nat p <=? z)%Z) ngb)) /\
  ((forall z, In z ngb -> (z < 0 \/ Z.of_nat p <= z)%Z) -> bonds_of p ngb = map (pair p) ngb).
Proof.
  intros S0 M Mp. destruct (split3 ngb p S0) as [w [a [b [E [W [A [B Eb]]]]]]]. unfold bonds_of. rewrite Eb.
  assert (Bw : Forall (fun z => (unsigned z <? Z.of_nat p)%Z = false) w). { rewrite Forall_forall in W, M |- *. intros z Hz. assert (I : In z ngb) by (rewrite E; apply in_or_app; auto). rewrite unsigned_neg; auto. apply Z.ltb_ge. specialize (M z I). unfold machine_int in *. lia. }
  assert (Ba : Forall (fun z => (unsigned z <? Z.of_nat p)%Z = true) a). { rewrite Forall_forall in A, M |- *. intros z Hz. assert (I : In z ngb) by (rewrite E; apply in_or_app; right; apply in_or_app; auto). specialize (A z Hz). rewrite unsigned_pos by (auto; lia). apply Z.ltb_lt. lia. }
  assert (Bb : Forall (fun z => (unsigned z <? Z.of_nat p)%Z = false) b). { rewrite Forall_forall in B, M |- *. intros z Hz. assert (I : In z ngb) by (rewrite E; apply in_or_app; right; apply in_or_app; auto). specialize (B z Hz). rewrite unsigned_pos by (auto; lia). apply Z.ltb_ge. lia. }
  set (before := fun z => (unsigned z <? Z.of_nat p)%Z) in *. split; [|split].
  - assert (L : lower_bound before ngb = 0 \/ lower_bound before ngb = length w + length a).
    { rewrite E. unfold lower_bound. rewrite Forall_forall in Bw, Ba, Bb. apply (lower_three before (w ++ a ++ b) (length w)); rewrite ?app_length; try lia.
      - intros i Hi. rewrite app_nth1 by auto. apply Bw, nth_In. auto.
      - intros i Hi. rewrite app_nth2 by lia. rewrite app_nth1 by lia. apply Ba, nth_In. lia.
      - intros i Hi. rewrite ?app_length in Hi. rewrite !app_nth2 by lia. apply Bb, nth_In. lia. }
    destruct L as [L|L]; rewrite L; [right; reflexivity|left]. rewrite E, app_assoc, <- app_length, skip_app. reflexivity.
  - intros H. assert (Ew : w = []). { destruct w as [|z w]; auto. exfalso. assert (I : walled ngb = true); [|congruence]. apply existsb_exists. exists z. split; [rewrite E; left; auto|]. apply Z.ltb_lt. inversion W; auto. }
    rewrite E, Ew. cbn [app]. rewrite lower_bound_part, skip_app; auto.
  - intros H. assert (Ea : a = []). { destruct a as [|z a]; auto. exfalso. inversion A as [|? ? Az _]; subst. specialize (H z). rewrite in_app_iff in H. cbn [In app] in H. destruct (H ltac:(auto)); lia. }
    rewrite E, Ea. cbn [app]. assert (L : lower_bound before (w ++ b) = 0) by (apply (lower_bound_part before [] (w ++ b)); [constructor|apply Forall_app; auto]). rewrite L. reflexivity.
Qed.
(** The walls of the first particle are written as bonds. *)
Theorem C136_bonds_refuted ngbs z : Forall (StronglySorted Z.le) ngbs -> Forall (Forall machine_int) ngbs -> In z (ngb_of ngbs 0) -> (z < 0)%Z -> In (0, z) (print_bonds ngbs).
Proof.
  intros S0 M I N. destruct ngbs as [|ngb ngbs]; [destruct I|]. cbn [ngb_of nth] in I. unfold ngb_of in I. cbn [nth] in I. inversion S0 as [|? ? S1 _]; subst. inversion M as [|? ? M1 _]; subst.
  unfold print_bonds. cbn [length seq combine flat_map]. apply in_or_app. left. cbn [fst snd]. destruct (C136_bonds 0 ngb S1 M1) as [_ [_ E]]; [unfold machine_int; lia|]. rewrite E by (intros; lia). apply in_map. auto.
Qed.

(** The box given to voro++ holds all particles, away from the walls. *)
Lemma greatest_ok l : forall a, (a <= fold_left Qgreatest l a)%Q /\ forall x, In x l -> (x <= fold_left Qgreatest l a)%Q.
Proof.
  induction l as [|y l IH]; intros a; cbn [fold_left]; [split; [apply Qle_refl|intros x []]|]. destruct (IH (Qgreatest a y)) as [A B]. assert (G : (a <= Qgreatest a y)%Q /\ (y <= Qgreatest a y)%Q) by (unfold Qgreatest; destruct (Qlt_le_dec a y); lra).
  split; [lra|]. intros x [<-|H]; [lra|auto].
Qed.
Lemma least_ok l : forall a, (fold_left Qleast l a <= a)%Q /\ forall x, In x l -> (fold_left Qleast l a <= x)%Q.
Proof.
  induction l as [|y l IH]; intros a; cbn [fold_left]; [split; [apply Qle_refl|intros x []]|]. destruct (IH (Qleast a y)) as [A B]. assert (G : (Qleast a y <= a)%Q /\ (Qleast a y <= y)%Q) by (unfold Qleast; destruct (Qlt_le_dec y a); lra).
  split; [lra|]. intros x [<-|H]; [lra|auto].
Qed.
Lemma greatest_in l : forall a, In (fold_left Qgreatest l a) (a :: l).
Proof. induction l as [|y l IH]; intros a; cbn [fold_left]; [left; auto|]. destruct (IH (Qgreatest a y)) as [E|H]; [|right; right; auto]. rewrite <- E. unfold Qgreatest. destruct (Qlt_le_dec a y); cbn; auto. Qed.
Lemma least_in l : forall a, In (fold_left Qleast l a) (a :: l).
Proof. induction l as [|y l IH]; intros a; cbn [fold_left]; [left; auto|]. destruct (IH (Qleast a y)) as [E|H]; [|right; right; auto]. rewrite <- E. unfold Qleast. destruct (Qlt_le_dec y a); cbn; auto. Qed.
(** The three coordinates of a point *)
Definition coordinates (p : Q * Q * Q) : list Q := let '(x, y, z) := p in [x; y; z].
Theorem C136_box ps : ps <> [] -> exists b, voro_box ps = Val b /\ length b = 3 /\ forall d, d < 3 -> let e := nth d b (0, 0)%Q in let at_axis p := nth d (coordinates p) 0%Q in
  (forall p, In p ps -> (fst e + 1 <= at_axis p <= snd e - 1)%Q) /\ (exists p, In p ps /\ (at_axis p == fst e + 1)%Q) /\ (exists p, In p ps /\ (at_axis p == snd e - 1)%Q).
Proof.
  destruct ps as [|f ps]; [congruence|]. intros _. eexists. split; [reflexivity|]. split; [reflexivity|]. intros d Hd. cbv zeta. assert (At : forall p, nth d (coordinates p) 0%Q = coord d p) by (intros [[? ?] ?]; destruct d as [|[|[|d]]]; [reflexivity|reflexivity|reflexivity|lia]). setoid_rewrite At. set (l := map (coord d) (f :: ps)).
  assert (E : nth d (map (fun d => ((fold_left Qleast (map (coord d) (f :: ps)) (coord d f) - 1)%Q, (fold_left Qgreatest (map (coord d) (f :: ps)) (coord d f) + 1)%Q)) [0; 1; 2]) (0, 0)%Q = ((fold_left Qleast l (coord d f) - 1)%Q, (fold_left Qgreatest l (coord d f) + 1)%Q)).
  { destruct d as [|[|[|d]]]; [reflexivity|reflexivity|reflexivity|lia]. }
  rewrite E. cbn [fst snd]. destruct (greatest_ok l (coord d f)) as [_ G]. destruct (least_ok l (coord d f)) as [_ L].
  assert (W : forall x, In x (coord d f :: l) -> exists p, In p (f :: ps) /\ coord d p = x). { intros x [<-|H]; [exists f; split; [left|]; auto|]. apply in_map_iff in H. destruct H as [p [<- Hp]]. eauto. }
  split; [|split].
  - intros p Hp. assert (I : In (coord d p) l) by (apply in_map; auto). specialize (G _ I). specialize (L _ I). lra.
  - destruct (W _ (least_in l (coord d f))) as [p [Hp Ep]]. exists p. split; auto. rewrite Ep. ring.
  - destruct (W _ (greatest_in l (coord d f))) as [p [Hp Ep]]. exists p. split; auto. rewrite Ep. ring.
Qed.

(** What voro++ is trusted to give: at most a cell per particle, faces towards walls or other particles. *)
Record cells_of (n : nat) (cs : list vcell) : Prop := {
  c_some : cs <> [];
  c_once : NoDup (map vid cs);
  c_range : Forall (fun c => vid c < n /\ vngb c <> [] /\ (0 < vvol c)%Q /\ Forall (fun z => (z < Z.of_nat n)%Z /\ z <> Z.of_nat (vid c)) (vngb c)) cs }.
(** The numbers of a cell, or of none *)
Definition cell_at (cs : list vcell) (p : nat) (v : Q) (ngb : list Z) : Prop :=
  (exists c, In c cs /\ vid c = p /\ v = vvol c /\ Permutation ngb (vngb c)) \/ (~ In p (map vid cs) /\ v = 0%Q /\ ngb = []).
Lemma read_cells_ok n cs : cells_of n cs -> exists vols ngbs, get_volumes n (print_cells cs) = Val (vols, ngbs) /\ length vols = n /\ cells_ok n ngbs /\ (forall p, p < n -> cell_at cs p (value vols p) (ngb_of ngbs p)) /\
  forall q, q < n -> bulk (ngb_of ngbs q) = true -> (0 < value vols q)%Q.
Proof.
  intros [C1 C2 C3]. destruct (C136_read n cs C1 C2) as [vols [ngbs [E [Lv [Ln [S0 [A B]]]]]]]; [eapply Forall_impl; [|exact C3]; cbv beta; tauto|]. exists vols, ngbs. split; auto. split; auto.
  assert (At : forall p, cell_at cs p (value vols p) (ngb_of ngbs p)).
  { intros p. destruct (in_dec Nat.eq_dec p (map vid cs)) as [I|I].
    - apply in_map_iff in I. destruct I as [c [<- Ic]]. left. exists c. destruct (A c Ic). auto.
    - right. destruct (B p I). auto. }
  rewrite Forall_forall in C3. split; [|split; auto].
  - constructor; auto.
    + apply Forall_forall. intros l Hl. apply (In_nth _ _ []) in Hl. destruct Hl as [p [Hp <-]]. change (nth p ngbs []) with (ngb_of ngbs p). apply Forall_forall. intros z Hz. destruct (At p) as [[c [Ic [Ep [_ P]]]]|[_ [_ E0]]]; [|rewrite E0 in Hz; destruct Hz].
      destruct (C3 c Ic) as [_ [_ [_ F]]]. rewrite Forall_forall in F. apply F. eapply Permutation_in; eauto.
    + intros p I. destruct (At p) as [[c [Ic [Ep [_ P]]]]|[_ [_ E0]]]; [|rewrite E0 in I; destruct I]. destruct (C3 c Ic) as [_ [_ [_ F]]]. rewrite Forall_forall in F. destruct (F (Z.of_nat p)) as [_ N]; [eapply Permutation_in; eauto|]. congruence.
  - intros q Hq Bk. destruct (At q) as [[c [Ic [Ep [V P]]]]|[_ [_ E0]]]; [|rewrite E0 in Bk; discriminate]. rewrite V. apply C3. auto.
Qed.
Section Program.
  Variable voro : list (Q * Q * Q) -> list (Q * Q) -> list vcell.
  (** The five files of a step, when every particle has a cell and the cells are joined to one away from the walls. *)
  Theorem C136_files ps b vol cgn bonds outside outside2 : voro_box ps = Val b -> cells_of (length ps) (voro ps b) -> (forall p, p < length ps -> In p (map vid (voro ps b))) ->
    exists vols ngbs, length vols = length ps /\ cells_ok (length ps) ngbs /\ (forall p, p < length ps -> cell_at (voro ps b) p (value vols p) (ngb_of ngbs p)) /\
      ((forall p, p < length ps -> fed ngbs p) -> exists cgs second, forall fuel, length ps * length ps <= fuel ->
         coarse fuel (length ps) vols ngbs = Some (Val cgs) /\
         step_files voro fuel vol cgn bonds outside outside2 ps =
           Some (Val [(vol, Values vols); (cgn, Values cgs); (bonds, Pairs (print_bonds ngbs)); (outside, Ids (filter (fun p => walled (ngb_of ngbs p)) (seq 0 (length ps)))); (outside2, Zs second)]) /\
         forall z, In z second <-> exists p, p < length ps /\ walled (ngb_of ngbs p) = true /\ (z = Z.of_nat p \/ (In z (ngb_of ngbs p) /\ (0 <= z)%Z))).
  Proof.
    intros Eb C All. destruct (read_cells_ok _ _ C) as [vols [ngbs [E [Lv [Ok [At Pos]]]]]]. exists vols, ngbs. split; auto. split; auto. split; auto. intros F.
    destruct (C136_iterations (length ps) vols ngbs Lv Ok Pos) as [cgs Ec]; [intros; auto|].
    assert (Ne : Forall (fun ngb => ngb <> []) ngbs).
    { apply Forall_forall. intros l Hl. apply (In_nth _ _ []) in Hl. destruct Hl as [p [Hp <-]]. rewrite (ok_n _ _ Ok) in Hp. change (nth p ngbs []) with (ngb_of ngbs p). destruct (At p Hp) as [[c [Ic [_ [_ P]]]]|[N _]]; [|exfalso; auto].
      destruct C as [_ _ C3]. rewrite Forall_forall in C3. destruct (C3 c Ic) as [_ [N _]]. intros E0. rewrite E0 in P. apply Permutation_nil in P. auto. }
    destruct (C136_outside _ _ Ok Ne) as [second [Eo [_ Hs]]]. exists cgs, second. intros fuel Hf. split; [auto|]. split; auto. unfold step_files, diagram. rewrite Eb. cbn [obind]. rewrite E, Ec by auto. cbn [omap obind]. rewrite Eo. reflexivity.
  Qed.
  (** One file: without "_t" in its name the averages are written in the table only and the program fails. *)
  Theorem C136_single fuel filename ps vols ngbs cgs o : diagram voro fuel ps = Some (Val (vols, ngbs, cgs)) -> get_outsides ngbs = Val o ->
    let stem := cut_ext filename in
    let files := [(stem ++ txt ".csv", Rows (combine ps cgs)); (stem ++ txt ".bonds", Pairs (print_bonds ngbs)); (stem ++ txt ".outside", Ids (fst o)); (stem ++ txt ".outside2", Zs (snd o))] in
    (rfind (txt "_t") stem = None -> single voro fuel filename ps = Some (Val (files, false))) /\
    (forall k, rfind (txt "_t") stem = Some k -> single voro fuel filename ps = Some (Val (files ++ [(firstn k stem ++ txt "_space" ++ skipn k stem ++ txt ".vol", Values cgs)], true))).
  Proof. intros E Eo. cbv zeta. unfold single. rewrite E, Eo. cbn [omap obind]. split; [intros ->|intros k ->]; reflexivity. Qed.
End Program.
(** The "_t" may be that of the folder: the averages go to another folder. *)
Theorem C136_folder_refuted voro fuel ps vols ngbs cgs o : diagram voro fuel ps = Some (Val (vols, ngbs, cgs)) -> get_outsides ngbs = Val o ->
  exists files, single voro fuel (txt "my_test/run.dat") ps = Some (Val (files ++ [(txt "my_space_test/run.vol", Values cgs)], true)) /\ In (txt "my_test/run.csv") (map fst files).
Proof.
  intros E Eo. destruct (C136_single voro fuel (txt "my_test/run.dat") ps vols ngbs cgs o E Eo) as [_ H]. eexists. split; [apply (H 2); reflexivity|]. left. reflexivity.
Qed.

(** The names of the files of a step. *)
Theorem C136_names filename tok head ds ext n off t : digit_free tok -> splits tok filename head (ds ++ [dot] ++ ext) -> numeral ds -> no_percent filename -> ~ In dot ext ->
  absent tok (txt ".vol") -> absent tok (txt ".bonds") -> absent tok (txt ".outside") -> absent tok (txt ".outside2") -> (t + off < 2 ^ 64)%N ->
  exists dat num, file_serie filename tok n off = Val dat /\ writes (length ds) (t + off) num /\
    step_names dat t = Val [head ++ tok ++ num ++ txt ".vol"; head ++ txt "_space" ++ tok ++ num ++ txt ".vol"; head ++ txt "_voro" ++ tok ++ num ++ txt ".bonds"; head ++ tok ++ num ++ txt ".outside"; head ++ tok ++ num ++ txt ".outside2"].
Proof.
  intros Hf Hs Hd Hp He A1 A2 A3 A4 Ht. assert (Nd : forall s, no_digit_first (dot :: s)) by (intros s; exists dot, s; split; reflexivity).
  assert (Pc : forall s, existsb (Ascii.eqb percent) (txt s) = false -> no_percent (txt s)). { intros s H I. assert (E : existsb (Ascii.eqb percent) (txt s) = true); [|congruence]. apply existsb_exists. exists percent. split; [exact I|apply Ascii.eqb_refl]. }
  assert (Nt : no_digit_first ([dot] ++ ext)) by apply Nd.
  destruct (C54_names tok filename head ds ([dot] ++ ext) n off Hs Hd Nt Hp) as [dat [Ed _]].
  assert (CE : forall x, no_digit_first (txt x) -> absent tok (txt x) -> no_percent (txt x) -> exists fs, change_ext dat (txt x) = Val fs /\ exists s, writes (length ds) (t + off) s /\ step_name fs t = head ++ tok ++ s ++ txt x).
  { intros x X1 X2 X3. destruct (C54_change_ext tok filename head ds ([dot] ++ ext) n off Hs Hd Nt Hp [] ext (txt x) Hf eq_refl He X1 X2 X3) as [d' [fs [E1 [E2 E3]]]]. assert (d' = dat) by congruence. subst d'. exists fs. split; auto. }
  assert (PE : forall po x, no_percent (txt po) -> no_digit_first (txt x) -> absent tok (txt x) -> no_percent (txt x) -> exists fs, add_postfix_ext dat (txt po) (txt x) = Val fs /\ exists s, writes (length ds) (t + off) s /\ step_name fs t = head ++ txt po ++ tok ++ s ++ txt x).
  { intros po x X0 X1 X2 X3. destruct (C54_add_postfix_ext tok filename head ds ([dot] ++ ext) n off Hs Hd Nt Hp (txt po) [] ext (txt x) Hf X0 eq_refl He X1 X2 X3) as [d' [fs [E1 [E2 E3]]]]. assert (d' = dat) by congruence. subst d'. exists fs. split; auto. }
  destruct (CE ".outside"%string (Nd _) A3 (Pc ".outside"%string eq_refl)) as [o [Eo [s1 [W1 N1]]]]. destruct (CE ".outside2"%string (Nd _) A4 (Pc ".outside2"%string eq_refl)) as [o2 [Eo2 [s2 [W2 N2]]]]. destruct (CE ".vol"%string (Nd _) A1 (Pc ".vol"%string eq_refl)) as [v [Ev [s3 [W3 N3]]]].
  destruct (PE "_space"%string ".vol"%string (Pc "_space"%string eq_refl) (Nd _) A1 (Pc ".vol"%string eq_refl)) as [cg [Ec [s4 [W4 N4]]]]. destruct (PE "_voro"%string ".bonds"%string (Pc "_voro"%string eq_refl) (Nd _) A2 (Pc ".bonds"%string eq_refl)) as [b [Eb [s5 [W5 N5]]]].
  exists dat, s1. split; auto. split; auto. unfold step_names. rewrite Eo. cbn [obind]. rewrite Eo2. cbn [obind]. rewrite Ev. cbn [obind]. rewrite Ec. cbn [obind]. rewrite Eb. cbn [omap obind map].
  rewrite N1, N2, N3, N4, N5. rewrite (writes_fun _ _ _ _ W2 W1), (writes_fun _ _ _ _ W3 W1), (writes_fun _ _ _ _ W4 W1), (writes_fun _ _ _ _ W5 W1). reflexivity.
Qed.

(** Five particles in a row; the first, fourth and fifth are near walls. *)
Example C136_case : let ps := map (fun k => (inject_Z k, 0, 0)%Q) [0; 1; 2; 3; 4]%Z in
  let cs := [mkVcell 3 4 [2; -2; 4]%Z; mkVcell 0 1 [1; -1]%Z; mkVcell 1 2 [0; 2]%Z; mkVcell 2 3 [3; 1]%Z; mkVcell 4 5 [3; -3]%Z] in
  cells_of 5 cs /\ (forall p, p < 5 -> In p (map vid cs)) /\
  exists ngbs, get_volumes 5 (print_cells cs) = Val ([1; 2; 3; 4; 5]%Q, ngbs) /\ (forall p, p < 5 -> fed ngbs p) /\ ngbs = [[-1; 1]; [0; 2]; [1; 3]; [-2; 2; 4]; [-3; 3]]%Z /\
  map Qred (match coarse 25 5 [1; 2; 3; 4; 5]%Q ngbs with Some (Val l) => l | _ => [] end) = [2; 5 # 2; 5 # 2; 3; 3]%Q /\
  get_outsides ngbs = Val ([0; 3; 4], [0; 1; 2; 3; 4]%Z) /\ print_bonds ngbs = [(0, (-1)%Z); (0, 1%Z); (1, 2%Z); (2, 3%Z); (3, 4%Z)] /\ voro_box ps = Val [(-1, 5); (-1, 1); (-1, 1)]%Q.
Proof.
  cbv zeta. split; [|split].
  - constructor; [discriminate| |].
    + cbn. repeat (constructor; [cbn; intuition lia|]). constructor.
    + repeat (constructor; [cbn; repeat split; try lia; try discriminate; repeat constructor; lia|]). constructor.
  - intros p Hp. destruct p as [|[|[|[|[|p]]]]]; cbn; try lia; auto.
  - exists [[-1; 1]; [0; 2]; [1; 3]; [-2; 2; 4]; [-3; 3]]%Z. split; [vm_compute; reflexivity|]. split.
    + assert (F3 : fed [[-1; 1]; [0; 2]; [1; 3]; [-2; 2; 4]; [-3; 3]]%Z 3) by (apply fed_donor; vm_compute; discriminate).
      intros p Hp. destruct p as [|[|[|[|[|p]]]]]; try lia; try (apply fed_donor; vm_compute; discriminate). apply (fed_ngb _ 4 3); auto. vm_compute. auto.
    + repeat split; vm_compute; reflexivity.
Qed.

Print Assumptions C136_mean.
Print Assumptions C136_second.
Print Assumptions C136_between.
Print Assumptions C136_ends.
Print Assumptions C136_iterations.
Print Assumptions C136_walls_refuted.
Print Assumptions C136_read.
Print Assumptions C136_read_refuted.
Print Assumptions C136_outside.
Print Assumptions C136_outside_refuted.
Print Assumptions C136_bonds.
Print Assumptions C136_bonds_refuted.
Print Assumptions C136_box.
Print Assumptions C136_files.
Print Assumptions C136_single.
Print Assumptions C136_folder_refuted.
Print Assumptions C136_names.
Print Assumptions C136_case.

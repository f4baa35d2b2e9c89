(** Lemmas on the second chance of mains/cgVoro.cpp. *)
Require Import ZArith QArith List Bool Arith Lia Lqa Sorting.Sorted Permutation.
Require Import Verif.Base Verif.ListX Verif.Traj_Model Verif.Particles_Model Verif.Boo_Model Verif.Corr_Model Verif.RTree_Model Verif.Voro_Model Verif.Voro_Spec Verif.Voro_Proofs.
Import ListNotations.
Local Open Scope nat_scope.

Lemma set_twice {A} i (x y : A) l : set_nth i x (set_nth i y l) = set_nth i x l.
Proof. revert l. induction i as [|i IH]; intros [|z l]; cbn; auto. f_equal. auto. Qed.
Lemma set_self (l : list Q) i : i < length l -> set_nth i (value l i) l = l.
Proof. revert l. unfold value. induction i as [|i IH]; intros [|z l] H; cbn in *; auto; try lia. f_equal. apply IH. lia. Qed.

Section Chance.
  Variables (n : nat) (vols : list Q) (ngbs : list (list Z)).
  Hypothesis (Lv : length vols = n) (Ok : cells_ok n ngbs).
  Hypothesis Hpos : forall q, q < n -> bulk (ngb_of ngbs q) = true -> (0 < value vols q)%Q.

  Definition pos (cg : list Q) (q : nat) : bool := if Qlt_le_dec 0 (value cg q) then true else false.
  Lemma pos_true cg q : pos cg q = true -> (0 < value cg q)%Q.
  Proof. unfold pos. destruct (Qlt_le_dec 0 (value cg q)); [auto|discriminate]. Qed.
  Lemma pos_of cg q : (0 < value cg q)%Q -> pos cg q = true.
  Proof. intros H. unfold pos. destruct (Qlt_le_dec 0 (value cg q)) as [L|L]; auto. lra. Qed.
  Definition signs (cg : list Q) : Prop := forall q, (value cg q == 0)%Q \/ (0 < value cg q)%Q.
  Lemma take_ok p cg : length cg = n -> p < n -> signs cg -> forall zs y k, Forall (fun z => (0 <= z < Z.of_nat n)%Z) zs -> ~ In (Z.of_nat p) zs ->
    let used := filter (pos cg) (map Z.to_nat zs) in
    exists x, ofold (take_from p) zs (set_nth p y cg, k) = Val (set_nth p x cg, k + length used) /\ (x == y + Qtotal (map (value cg) used))%Q /\ (used = [] -> x = y).
  Proof.
    intros L Hp Sg. induction zs as [|z zs IH]; intros y k F N; cbv zeta.
    - exists y. cbn. split; [f_equal; f_equal; lia|]. split; [ring|auto].
    - apply Forall_cons_iff in F. destruct F as [Hz F]. rewrite ofold_cons. unfold take_from at 1. cbn [fst snd]. rewrite as_index_ok by lia. cbn [obind]. rewrite (at_ok 0%Q) by (rewrite set_nth_len; lia). cbn [obind].
      rewrite nth_set by lia. assert (Np : (Z.to_nat z =? p) = false) by (apply Nat.eqb_neq; intros E; apply N; left; lia). rewrite Np. change (nth (Z.to_nat z) cg 0%Q) with (value cg (Z.to_nat z)).
      assert (N' : ~ In (Z.of_nat p) zs) by (intros I; apply N; right; auto). cbn [map filter]. destruct (Qlt_le_dec 1 (1 + value cg (Z.to_nat z) * value cg (Z.to_nat z))) as [Q1|Q1].
      + assert (V : (0 < value cg (Z.to_nat z))%Q). { destruct (Sg (Z.to_nat z)) as [E|E]; auto. rewrite E in Q1. lra. }
        rewrite (pos_of _ _ V). unfold increase. rewrite as_index_ok by lia. cbn [obind]. rewrite Nat2Z.id. rewrite (at_ok 0%Q) by (rewrite set_nth_len; lia). cbn [omap obind]. rewrite nth_set by lia. rewrite Nat.eqb_refl, set_twice.
        destruct (IH (y + value cg (Z.to_nat z))%Q (S k) F N') as [x [E [X _]]]. exists x. rewrite E. split; [f_equal; f_equal; cbn [length]; lia|]. split; [|discriminate]. rewrite X. cbn [map Qtotal fold_right]. unfold Qtotal. ring.
      + assert (V : pos cg (Z.to_nat z) = false). { unfold pos. destruct (Qlt_le_dec 0 (value cg (Z.to_nat z))) as [Q0|Q0]; auto. exfalso. nra. }
        rewrite V. cbn [obind]. apply IH; auto.
  Qed.
  Lemma map_filter_real ngb : map Z.to_nat (filter (fun z => (0 <=? z)%Z) ngb) = real_ngb ngb.
  Proof. reflexivity. Qed.
  Lemma turn_ok p cg : length cg = n -> p < n -> signs cg -> let used := filter (pos cg) (real_ngb (ngb_of ngbs p)) in
    exists x, obind (at_index ngbs p) (fun ngb => ofold (take_from p) (centres ngb) (cg, 0)) = Val (set_nth p x cg, length used) /\ (x == value cg p + Qtotal (map (value cg) used))%Q /\ (used = [] -> x = value cg p).
  Proof.
    intros L Hp Sg. cbv zeta. rewrite (at_ok []) by (rewrite (ok_n _ _ Ok); auto). cbn [obind]. change (nth p ngbs []) with (ngb_of ngbs p). rewrite centres_ok by (eapply ngb_sorted; eauto).
    replace (cg, 0) with (set_nth p (value cg p) cg, 0) by (rewrite set_self; auto; lia). unfold real_ngb. apply (take_ok p cg L Hp Sg).
    - apply Forall_forall. intros z Hz. apply filter_In in Hz. destruct Hz as [Hz H0]. apply Z.leb_le in H0. split; auto. eapply ngb_range; eauto.
    - intros I. apply filter_In in I. destruct I as [I _]. apply (ok_self _ _ Ok p I).
  Qed.

  Definition averaged (cg : list Q) (p : nat) : Prop := exists f : nat -> bool, (forall q, q < n -> donors ngbs q <> [] -> f q = true) /\
    let used := filter f (real_ngb (ngb_of ngbs p)) in used <> [] /\ Forall (fun q => q < n /\ (0 < value cg q)%Q) used /\ (value cg p == Qmean (map (value cg) used))%Q.
  Record inv (queue : list nat) (cg : list Q) : Prop := {
    i_len : length cg = n;
    i_nodup : NoDup queue;
    i_queue : forall p, In p queue -> p < n /\ have_cell ngbs p = true /\ donors ngbs p = [] /\ value cg p = 0%Q;
    i_done : forall p, p < n -> have_cell ngbs p = true -> ~ In p queue -> (0 < value cg p)%Q;
    i_donors : forall p, p < n -> donors ngbs p <> [] -> (0 < value cg p)%Q /\ (value cg p == Qmean (map (value vols) (donors ngbs p)))%Q;
    i_signs : signs cg;
    i_fed : forall p, p < n -> (0 < value cg p)%Q -> fed ngbs p;
    i_avg : forall p, p < n -> donors ngbs p = [] -> (0 < value cg p)%Q -> averaged cg p;
    i_none : forall p, p < n -> have_cell ngbs p = false -> donors ngbs p = [] -> value cg p = 0%Q;
    i_bounds : forall lo hi, (forall q, q < n -> bulk (ngb_of ngbs q) = true -> (lo <= value vols q <= hi)%Q) -> forall p, p < n -> (0 < value cg p)%Q -> (lo <= value cg p <= hi)%Q }.

  Lemma total_pos l : l <> [] -> Forall (fun x => (0 < x)%Q) l -> (0 < Qtotal l)%Q.
  Proof.
    intros N F. destruct F as [|x l H F]; [congruence|]. change (0 < x + Qtotal l)%Q. assert (0 <= Qtotal l)%Q; [|lra]. clear N. induction F as [|y l Hy F IH]; [apply Qle_refl|]. change (0 <= y + Qtotal l)%Q. lra.
  Qed.
  Lemma mean_pos l : l <> [] -> Forall (fun x => (0 < x)%Q) l -> (0 < Qmean l)%Q.
  Proof.
    intros N F. assert (T := total_pos l N F). unfold Qmean. assert (P : (0 < inject_Z (Z.of_nat (length l)))%Q). { change 0%Q with (inject_Z 0). rewrite <- Zlt_Qlt. destruct l; [congruence|cbn; lia]. }
    apply Qlt_shift_div_l; auto.
  Qed.
  Lemma mean_between lo hi l : l <> [] -> Forall (fun x => (lo <= x <= hi)%Q) l -> (lo <= Qmean l <= hi)%Q.
  Proof.
    intros N F. unfold Qmean. assert (P : (0 < inject_Z (Z.of_nat (length l)))%Q). { change 0%Q with (inject_Z 0). rewrite <- Zlt_Qlt. destruct l; [congruence|cbn; lia]. }
    assert (T : (lo * inject_Z (Z.of_nat (length l)) <= Qtotal l <= hi * inject_Z (Z.of_nat (length l)))%Q).
    { clear N P. induction F as [|x l H F IH]; [split; cbn [length Qtotal fold_right]; change (inject_Z (Z.of_nat 0)) with 0%Q; rewrite Qmult_0_r; apply Qle_refl|]. cbn [length]. rewrite Nat2Z.inj_succ. unfold Z.succ. rewrite inject_Z_plus. change (Qtotal (x :: l)) with (x + Qtotal l)%Q. change (inject_Z 1) with 1%Q. lra. }
    split; [apply Qle_shift_div_l|apply Qle_shift_div_r]; tauto.
  Qed.
  Lemma total_map_eq (f g : nat -> Q) l : (forall q, In q l -> (f q == g q)%Q) -> (Qtotal (map f l) == Qtotal (map g l))%Q.
  Proof. induction l as [|q l IH]; intros H; [reflexivity|]. cbn [map]. change (f q + Qtotal (map f l) == g q + Qtotal (map g l))%Q. rewrite IH by (intros; apply H; right; auto). rewrite (H q) by (left; auto). reflexivity. Qed.
  Lemma donors_bulk p q : In q (donors ngbs p) -> q < n /\ bulk (ngb_of ngbs q) = true.
  Proof. unfold donors. rewrite in_flat_map. intros [x [Hx I]]. apply in_seq in Hx. rewrite (ok_n _ _ Ok) in Hx. destruct (bulk (ngb_of ngbs x)) eqn:B; [|destruct I]. apply repeat_spec in I. subst. split; auto. lia. Qed.
  Lemma real_range p q : In q (real_ngb (ngb_of ngbs p)) -> q < n.
  Proof. unfold real_ngb. rewrite in_map_iff. intros [z [<- Hz]]. apply filter_In in Hz. destruct Hz as [Hz H0]. apply Z.leb_le in H0. assert (H := ngb_range n ngbs Ok p z Hz). lia. Qed.

  Lemma start : exists st, give_all vols ngbs (repeat 0%Q n, repeat 0 n) = Val st /\ inv (left_over ngbs (snd st)) (first_means st).
  Proof.
    destruct (after_first n vols ngbs Lv Ok) as [cg [d [E [L1 [L2 [M [Z0 Q0]]]]]]]. exists (cg, d). split; [exact E|]. cbn [snd]. rewrite Q0.
    assert (P : forall p, p < n -> donors ngbs p <> [] -> (0 < value (first_means (cg, d)) p)%Q).
    { intros p Hp N. rewrite (M p Hp N). apply mean_pos; [destruct (donors ngbs p); [congruence|discriminate]|]. apply Forall_forall. intros x Hx. apply in_map_iff in Hx. destruct Hx as [q [<- Hq]]. apply donors_bulk in Hq. apply Hpos; tauto. }
    constructor; auto.
    - apply NoDup_filter, seq_NoDup.
    - intros p I. apply filter_In in I. destruct I as [I H]. apply in_seq in I. destruct (donors ngbs p) eqn:D; [|discriminate]. split; [lia|]. split; auto. split; auto. apply Z0; auto. lia.
    - intros p Hp C N. apply P; auto. intros D. apply N. apply filter_In. split; [apply in_seq; lia|]. rewrite D. auto.
    - intros p. destruct (Nat.lt_ge_cases p n) as [Hp|Hp]; [|left; unfold value; rewrite nth_overflow by lia; reflexivity]. destruct (donors ngbs p) eqn:D.
      + left. rewrite Z0 by auto. reflexivity.
      + right. apply P; auto. congruence.
    - intros p Hp V. apply fed_donor. intros D. rewrite Z0 in V by auto. lra.
    - intros p Hp D V. rewrite Z0 in V by auto. lra.
    - intros lo hi B p Hp V. assert (D : donors ngbs p <> []) by (intros D; rewrite Z0 in V by auto; lra). rewrite (M p Hp D). apply mean_between; [destruct (donors ngbs p); [congruence|discriminate]|].
      apply Forall_forall. intros x Hx. apply in_map_iff in Hx. destruct Hx as [q [<- Hq]]. apply donors_bulk in Hq. apply B; tauto.
  Qed.
  Lemma rotate p queue cg : inv (p :: queue) cg -> inv (queue ++ [p]) cg.
  Proof.
    intros I. destruct I. assert (Pm : Permutation (p :: queue) (queue ++ [p])) by apply Permutation_cons_append. constructor; auto.
    - eapply Permutation_NoDup; eauto.
    - intros q Hq. apply i_queue0. eapply Permutation_in; [apply Permutation_sym; eauto|auto].
    - intros q Hq C N. apply i_done0; auto. intros H. apply N. eapply Permutation_in; eauto.
  Qed.
  Lemma settle p queue cg x : inv (p :: queue) cg -> let used := filter (pos cg) (real_ngb (ngb_of ngbs p)) in used <> [] -> (x == Qmean (map (value cg) used))%Q -> inv queue (set_nth p x cg).
  Proof.
    intros I used N X. destruct I. destruct (i_queue0 p (or_introl eq_refl)) as [Hp [Cp [Dp Vp]]]. inversion i_nodup0 as [|? ? Np ND]; subst.
    assert (G : forall q, value (set_nth p x cg) q = if q =? p then x else value cg q) by (intros q; unfold value; apply nth_set; lia).
    assert (U : Forall (fun q => q < n /\ (0 < value cg q)%Q /\ q <> p) used).
    { apply Forall_forall. intros q Hq. apply filter_In in Hq. destruct Hq as [Hq P]. apply pos_true in P. split; [eapply real_range; eauto|]. split; auto. intros ->. rewrite Vp in P. lra. }
    assert (Xp : (0 < x)%Q). { rewrite X. apply mean_pos; [destruct used; [congruence|discriminate]|]. apply Forall_forall. intros y Hy. apply in_map_iff in Hy. destruct Hy as [q [<- Hq]]. rewrite Forall_forall in U. apply U; auto. }
    assert (K : forall us, Forall (fun q => q <> p) us -> map (value (set_nth p x cg)) us = map (value cg) us).
    { intros us F. apply map_ext_in. intros q Hq. rewrite G. rewrite Forall_forall in F. rewrite (proj2 (Nat.eqb_neq q p)); auto. }
    assert (Av : averaged (set_nth p x cg) p).
    { exists (pos cg). split; [intros q Hq D; apply pos_of, i_donors0; auto|]. cbv zeta. fold used. split; auto. rewrite K by (eapply Forall_impl; [|exact U]; intros q [_ [_ H]]; exact H). rewrite G, Nat.eqb_refl. split; auto.
      eapply Forall_impl; [|exact U]. intros q [A [B C]]. split; auto. rewrite G, (proj2 (Nat.eqb_neq q p)); auto. }
    constructor; auto.
    - rewrite set_nth_len. auto.
    - intros q Hq. destruct (i_queue0 q (or_intror Hq)) as [A [B [C D]]]. split; auto. split; auto. split; auto. rewrite G, (proj2 (Nat.eqb_neq q p)); auto. intros ->. auto.
    - intros q Hq C Nq. rewrite G. destruct (Nat.eqb_spec q p) as [->|E]; auto. apply i_done0; auto. intros [H|H]; auto.
    - intros q Hq D. rewrite G. destruct (Nat.eqb_spec q p) as [->|E]; [congruence|]. auto.
    - intros q. rewrite G. destruct (q =? p); auto.
    - intros q Hq V. rewrite G in V. destruct (Nat.eqb_spec q p) as [->|E]; [|auto].
      destruct used as [|u us] eqn:Eu; [congruence|]. assert (Iu : In u (filter (pos cg) (real_ngb (ngb_of ngbs p)))) by (fold used; rewrite Eu; left; auto). apply filter_In in Iu. destruct Iu as [Iu Pu].
      apply (fed_ngb ngbs p u Iu). apply i_fed0; [eapply real_range; eauto|apply pos_true; auto].
    - intros q Hq D V. rewrite G in V. destruct (Nat.eqb_spec q p) as [->|E]; auto. destruct (i_avg0 q Hq D V) as [f [F1 F2]]. exists f. split; auto. cbv zeta in *. destruct F2 as [F2 [F3 F4]]. split; auto.
      assert (F5 : Forall (fun r => r <> p) (filter f (real_ngb (ngb_of ngbs q)))). { eapply Forall_impl; [|exact F3]. intros r [_ R] ->. rewrite Vp in R. lra. }
      rewrite K by auto. rewrite G, (proj2 (Nat.eqb_neq q p)) by auto. split; auto. apply Forall_forall. intros r Hr. rewrite Forall_forall in F3, F5. destruct (F3 r Hr). split; auto. rewrite G, (proj2 (Nat.eqb_neq r p)); auto.
    - intros q Hq C D. rewrite G. destruct (Nat.eqb_spec q p) as [->|E]; [congruence|]. auto.
    - intros lo hi B q Hq V. rewrite G in V |- *. destruct (Nat.eqb_spec q p) as [->|E]; [|apply i_bounds0; auto]. rewrite X. apply mean_between; [destruct used; [congruence|discriminate]|].
      apply Forall_forall. intros y Hy. apply in_map_iff in Hy. destruct Hy as [r [<- Hr]]. rewrite Forall_forall in U. apply i_bounds0; auto; apply U; auto.
  Qed.
  (** One iteration *)
  Lemma iterate p queue cg : inv (p :: queue) cg -> let used := filter (pos cg) (real_ngb (ngb_of ngbs p)) in
    (used = [] /\ (forall fuel, second_chance (S fuel) ngbs (p :: queue) cg = second_chance fuel ngbs (queue ++ [p]) cg) /\ inv (queue ++ [p]) cg) \/
    (used <> [] /\ exists cg', (forall fuel, second_chance (S fuel) ngbs (p :: queue) cg = second_chance fuel ngbs queue cg') /\ inv queue cg').
  Proof.
    intros I used. destruct (i_queue _ _ I p (or_introl eq_refl)) as [Hp [Cp [Dp Vp]]]. assert (L := i_len _ _ I). destruct (turn_ok p cg L Hp (i_signs _ _ I)) as [x [E [X U]]]. fold used in E, X, U.
    destruct used as [|u us] eqn:Eu.
    - left. split; auto. split; [|apply rotate; auto]. intros fuel. cbn [second_chance]. rewrite E. cbn [length Nat.eqb]. rewrite U by auto. rewrite set_self by lia. reflexivity.
    - right. split; [discriminate|]. eexists. split; [intros fuel; cbn [second_chance]; rewrite E; cbn [length Nat.eqb]; reflexivity|]. rewrite set_twice. apply settle; auto; fold used; rewrite Eu; [discriminate|].
      rewrite nth_set by lia. rewrite Nat.eqb_refl, X, Vp. unfold Qmean. rewrite map_length. cbn [length]. rewrite Qplus_0_l. reflexivity.
  Qed.
  Lemma result : forall fuel queue cg r, inv queue cg -> second_chance fuel ngbs queue cg = Some r -> exists cg', r = Val cg' /\ inv [] cg'.
  Proof.
    induction fuel as [|fuel IH]; intros queue cg r I H; (destruct queue as [|p queue]; [injection H as <-; eauto|]).
    - discriminate.
    - destruct (iterate p queue cg I) as [[_ [E I']]|[_ [cg' [E I']]]]; rewrite E in H; eauto.
  Qed.
  Lemma unfed : forall fuel queue cg p, inv queue cg -> In p queue -> ~ fed ngbs p -> second_chance fuel ngbs queue cg = None.
  Proof.
    induction fuel as [|fuel IH]; intros queue cg p I Ip N; (destruct queue as [|q queue]; [destruct Ip|]); [reflexivity|].
    destruct (iterate q queue cg I) as [[_ [E I']]|[U [cg' [E I']]]]; rewrite E.
    - apply (IH _ _ p); auto. apply in_or_app. destruct Ip as [->|Ip]; [right; left|left]; auto.
    - apply (IH _ _ p); auto. destruct Ip as [->|Ip]; auto. exfalso. apply N. destruct (i_queue _ _ I p (or_introl eq_refl)) as [Hp _].
      destruct (filter (pos cg) (real_ngb (ngb_of ngbs p))) as [|u us] eqn:Eu; [congruence|]. assert (Iu : In u (filter (pos cg) (real_ngb (ngb_of ngbs p)))) by (rewrite Eu; left; auto). apply filter_In in Iu. destruct Iu as [Iu Pu].
      apply (fed_ngb ngbs p u Iu). apply (i_fed _ _ I); [eapply real_range; eauto|apply pos_true; auto].
  Qed.
  (** Somebody can be given a value. *)
  Lemma candidate queue cg p : inv queue cg -> fed ngbs p -> p < n -> (0 < value cg p)%Q \/ exists q, In q queue /\ filter (pos cg) (real_ngb (ngb_of ngbs q)) <> [].
  Proof.
    intros I F. induction F as [p D|p q Iq F IH]; intros Hp; [left; apply (i_donors _ _ I); auto|].
    destruct (IH (real_range p q Iq)) as [V|V]; [|auto]. destruct (in_dec Nat.eq_dec p queue) as [J|J].
    - right. exists p. split; auto. intros E. assert (K : In q []) by (rewrite <- E; apply filter_In; split; auto; apply pos_of; auto). destruct K.
    - left. apply (i_done _ _ I); auto. unfold have_cell. unfold real_ngb, ngb_of in Iq. destruct (nth p ngbs []); [destruct Iq|reflexivity].
  Qed.
  Lemma progress : forall a p b fuel cg, inv (a ++ p :: b) cg -> filter (pos cg) (real_ngb (ngb_of ngbs p)) <> [] ->
    exists queue' cg' k, k <= length a /\ S (length queue') = length (a ++ p :: b) /\ (forall x, In x queue' -> In x (a ++ p :: b)) /\ inv queue' cg' /\ second_chance (S k + fuel) ngbs (a ++ p :: b) cg = second_chance fuel ngbs queue' cg'.
  Proof.
    induction a as [|h a IH]; intros p b fuel cg I N.
    - cbn [app] in *. destruct (iterate p b cg I) as [[E _]|[_ [cg' [E I']]]]; [congruence|]. exists b, cg', 0. split; [cbn; lia|]. split; [reflexivity|]. split; [intros; right; auto|]. split; auto.
    - cbn [app] in *. destruct (iterate h (a ++ p :: b) cg I) as [[_ [E I']]|[_ [cg' [E I']]]].
      + rewrite <- app_assoc in I'. cbn [app] in I'. destruct (IH p (b ++ [h]) fuel cg I' N) as [q' [cg' [k [Hk [L [S0 [I2 E2]]]]]]]. exists q', cg', (S k). split; [cbn; lia|]. split.
        { rewrite L. cbn [length]. rewrite !app_length. cbn [length]. rewrite app_length. cbn [length]. lia. }
        split. { intros x Hx. apply S0 in Hx. rewrite in_app_iff in Hx. cbn [In] in Hx |- *. rewrite in_app_iff in *. cbn [In] in *. tauto. }
        split; auto. change (S (S k) + fuel) with (S (S k + fuel)). rewrite E. rewrite <- app_assoc. cbn [app]. exact E2.
      + exists (a ++ p :: b), cg', 0. split; [lia|]. split; [reflexivity|]. split; [intros; right; auto|]. split; auto.
  Qed.
  Lemma more : forall fuel queue cg r k, second_chance fuel ngbs queue cg = Some r -> second_chance (fuel + k) ngbs queue cg = Some r.
  Proof.
    induction fuel as [|fuel IH]; intros [|p queue] cg r k H.
    - destruct k; exact H.
    - discriminate.
    - destruct k; exact H.
    - cbn [Nat.add second_chance] in *. destruct (obind (at_index ngbs p) (fun ngb => ofold (take_from p) (centres ngb) (cg, 0))) as [[cg' nb]| |]; auto. destruct (nb =? 0); auto.
  Qed.
  Lemma ends : forall m queue cg, length queue = m -> inv queue cg -> (forall p, In p queue -> fed ngbs p) -> exists cg', second_chance (m * m) ngbs queue cg = Some (Val cg').
  Proof.
    induction m as [|m IH]; intros queue cg L I F.
    - destruct queue; [|discriminate]. exists cg. reflexivity.
    - destruct queue as [|p0 queue0] eqn:Eq; [discriminate|]. rewrite <- Eq in *. assert (J : In p0 queue) by (rewrite Eq; left; auto).
      destruct (i_queue _ _ I p0 J) as [H0 [_ [_ V0]]]. destruct (candidate queue cg p0 I (F p0 J) H0) as [V|[q [Iq N]]]; [rewrite V0 in V; lra|].
      apply in_split in Iq. destruct Iq as [a [b Eab]]. rewrite Eab in I, L. destruct (progress a q b (m * m) cg I N) as [q' [cg' [k [Hk [L' [S0 [I' E]]]]]]].
      assert (L2 : length q' = m) by lia. destruct (IH q' cg' L2 I') as [cg2 E2].
      + intros x Hx. apply F. rewrite Eab. apply S0. auto.
      + exists cg2. rewrite E2 in E. rewrite Eab. replace (S m * S m) with (S k + m * m + (S m * S m - (S k + m * m))); [apply more; exact E|]. assert (k <= m) by (rewrite app_length in L; cbn [length] in L; lia). lia.
  Qed.
End Chance.

(** Proofs about mains/sp5c.cpp. *)
Require Import List Bool Arith Lia Sorted.
Require Import Verif.Base Verif.SortU Verif.ListX Verif.Traj_Model Verif.Particles_Spec Verif.Ngb_Model Verif.Ngb_Spec Verif.Ngb_Proofs Verif.Spindle_Model Verif.Spindle_Spec.
Import ListNotations.
Local Open Scope nat_scope.

Section Ring.
  Variables (adj : nat -> nat -> Prop) (com : list nat) (r : list (nat * list nat)).
  Hypothesis sym : forall x y, adj x y -> adj y x.
  Hypothesis irr : forall x, ~ adj x x.
  Hypothesis nd : NoDup com.
  Hypothesis len : length com = 5.
  Hypothesis rows : forall x, In x com -> exists f g, ring_of r x = Some [f; g] /\ f <> g /\ forall y, In y com /\ adj x y <-> y = f \/ y = g.

  (** The neighbour of x in the ring that is not p, found by the program. *)
  Lemma other x p : In x com -> In p com -> adj x p -> exists y f g, ring_of r x = Some [f; g] /\ (if negb (f =? p) then f else g) = y /\
    In y com /\ adj x y /\ y <> p /\ y <> x /\ forall z, In z com -> adj x z -> z = p \/ z = y.
  Proof.
    intros Hx Hp Ha. destruct (rows x Hx) as [f [g [E [N I]]]]. exists (if negb (f =? p) then f else g), f, g. split; [auto|]. split; [auto|].
    assert (J : p = f \/ p = g) by (apply I; auto).
    set (y := if negb (f =? p) then f else g). assert (Y : y = f \/ y = g) by (unfold y; destruct (negb (f =? p)); auto).
    assert (NP : y <> p). { unfold y. destruct (Nat.eqb_spec f p) as [Q|Q]; cbn; [|auto]. intros Q'. apply N. congruence. }
    apply I in Y as K. destruct K as [K1 K2]. split; [auto|]. split; [auto|]. split; [auto|]. split; [intros Q; rewrite Q in K2; apply (irr x K2)|].
    intros z Hz Az. assert (Z : z = f \/ z = g) by (apply I; auto). clearbody y. destruct J, Y, Z; subst; auto; congruence.
  Qed.
  (** A set of at least three members closed by adjacency is the whole. *)
  Lemma closed_all S : NoDup S -> incl S com -> 3 <= length S -> (forall x y, In x S -> In y com -> adj x y -> In y S) -> incl com S.
  Proof.
    intros NS IS L C w Hw. destruct (in_dec Nat.eq_dec w S) as [?|Nw]; [auto|]. exfalso.
    destruct (rows w Hw) as [f [g [_ [N I]]]]. destruct (proj2 (I f) (or_introl eq_refl)) as [Hf Af]. destruct (proj2 (I g) (or_intror eq_refl)) as [Hg Ag].
    assert (L6 : length (w :: f :: g :: S) <= length com).
    { apply NoDup_incl_length.
      - constructor; [|constructor; [|constructor; auto]].
        + intros [Q|[Q|Q]]; [subst; apply (irr _ Af)|subst; apply (irr _ Ag)|auto].
        + intros [Q|Q]; [congruence|]. apply Nw. apply (C f w); auto.
        + intros Q. apply Nw. apply (C g w); auto.
      - intros z [<-|[<-|[<-|Hz]]]; auto. }
    cbn in L6. lia.
  Qed.
  Lemma walk_ring fuel v0 f g : 5 <= fuel -> In v0 com -> ring_of r v0 = Some [f; g] ->
    exists a b, ring_walk fuel r g g v0 = Some [f; a; b; g; v0] /\ NoDup [v0; f; a; b; g] /\ (forall x, In x com <-> In x [v0; f; a; b; g]) /\
      (adj v0 f /\ adj f a /\ adj a b /\ adj b g /\ adj g v0) /\ (~ adj v0 a /\ ~ adj f b /\ ~ adj a g /\ ~ adj b v0 /\ ~ adj g f).
  Proof.
    intros Hf H0 E0. destruct (rows v0 H0) as [f' [g' [E' [N I]]]]. rewrite E0 in E'. injection E' as <- <-.
    destruct (proj2 (I f) (or_introl eq_refl)) as [If Af]. destruct (proj2 (I g) (or_intror eq_refl)) as [Ig Ag].
    assert (Nf0 : f <> v0) by (intros Q; rewrite Q in Af; apply (irr _ Af)). assert (Ng0 : g <> v0) by (intros Q; rewrite Q in Ag; apply (irr _ Ag)).
    assert (Only0 : forall z, In z com -> adj v0 z -> z = f \/ z = g) by (intros z Hz Az; apply I; auto).
    destruct (other f v0 If H0 (sym _ _ Af)) as [a [f1 [g1 [E1 [X1 [Ia [Aa [Na0 [Naf Only1]]]]]]]]].
    assert (Nag : a <> g).
    { clear X1 E1. intros Q. subst a. assert (C : incl com [v0; f; g]).
      { apply closed_all; [repeat constructor; cbn; intuition congruence| |cbn; lia|].
        - intros z [<-|[<-|[<-|[]]]]; auto.
        - intros x y [<-|[<-|[<-|[]]]] Hy Axy; cbn.
          + destruct (Only0 y Hy Axy); subst; auto. + destruct (Only1 y Hy Axy); subst; auto.
          + destruct (other g v0 Ig H0 (sym _ _ Ag)) as [y1 [? [? [_ [_ [_ [_ [_ [_ Only4]]]]]]]]]. destruct (Only4 f If (sym _ _ Aa)) as [Q|Q]; [congruence|]. destruct (Only4 y Hy Axy); subst; auto. }
      apply NoDup_incl_length in C; auto. cbn in C. lia. }
    destruct (other a f Ia If (sym _ _ Aa)) as [b [f2 [g2 [E2 [X2 [Ib [Ab [Nbf [Nba Only2]]]]]]]]].
    assert (Nb0 : b <> v0) by (clear X2; intros Q; subst b; destruct (Only0 a Ia (sym _ _ Ab)); congruence).
    assert (Nbg : b <> g).
    { clear X2 E2 X1 E1. intros Q. subst b. assert (C : incl com [v0; f; a; g]).
      { apply closed_all; [repeat constructor; cbn; intuition congruence| |cbn; lia|].
        - intros z [<-|[<-|[<-|[<-|[]]]]]; auto.
        - intros x y [<-|[<-|[<-|[<-|[]]]]] Hy Axy; cbn.
          + destruct (Only0 y Hy Axy); subst; auto. + destruct (Only1 y Hy Axy); subst; auto. + destruct (Only2 y Hy Axy); subst; auto.
          + destruct (other g v0 Ig H0 (sym _ _ Ag)) as [y1 [? [? [_ [_ [_ [_ [_ [_ Only4]]]]]]]]]. destruct (Only4 a Ia (sym _ _ Ab)) as [Q|Q]; [congruence|]. destruct (Only4 y Hy Axy); subst; auto. }
      apply NoDup_incl_length in C; auto. cbn in C. lia. }
    assert (ND : NoDup [v0; f; a; b; g]) by (repeat constructor; cbn; intuition congruence).
    assert (All : forall x, In x com <-> In x [v0; f; a; b; g]).
    { intros x. assert (J : incl [v0; f; a; b; g] com) by (intros z [<-|[<-|[<-|[<-|[<-|[]]]]]]; auto). split; [|apply J].
      apply NoDup_length_incl; auto. cbn. lia. }
    destruct (other b a Ib Ia (sym _ _ Ab)) as [u [f3 [g3 [E3 [X3 [Iu [Au [Nua [Nub Only3]]]]]]]]].
    assert (Eu : u = g). { clear X1 X2 X3. apply All in Iu. destruct Iu as [Q|[Q|[Q|[Q|[Q|[]]]]]]; subst; try congruence. - destruct (Only0 b Ib (sym _ _ Au)); congruence. - destruct (Only1 b Ib (sym _ _ Au)); congruence. }
    rewrite Eu in X3, Iu, Au, Nua, Nub, Only3.
    destruct (other g b Ig Ib (sym _ _ Au)) as [w [f4 [g4 [E4 [X4 [Iw [Aw [Nwb [Nwg Only4]]]]]]]]].
    assert (Ew : w = v0) by (clear X4; destruct (Only4 v0 H0 (sym _ _ Ag)); congruence). rewrite Ew in X4, Iw, Aw, Nwb, Nwg, Only4.
    exists a, b. split; [|split; [exact ND|split; [exact All|split; [repeat split; auto|]]]].
    - destruct fuel as [|[|[|[|[|fuel]]]]]; try lia. cbn [ring_walk].
      rewrite E0. cbn [List.last]. rewrite (proj2 (Nat.eqb_neq f g)) by auto. cbn [negb]. rewrite (proj2 (Nat.eqb_neq v0 g)) by auto.
      rewrite E1. cbn [List.last]. rewrite X1, (proj2 (Nat.eqb_neq f g)) by auto.
      rewrite E2. cbn [List.last]. rewrite X2, (proj2 (Nat.eqb_neq a g)) by auto.
      rewrite E3. cbn [List.last]. rewrite X3, (proj2 (Nat.eqb_neq b g)) by auto.
      rewrite E4. cbn [List.last]. rewrite X4, Nat.eqb_refl. reflexivity.
    - split; [intros Q; destruct (Only0 a Ia Q); congruence|]. split; [intros Q; destruct (Only1 b Ib Q); congruence|]. split; [intros Q; destruct (Only2 g Ig Q); congruence|].
      split; [intros Q; destruct (Only3 v0 H0 Q); congruence|]. intros Q; destruct (Only4 f If Q); congruence.
  Qed.
End Ring.

Section Program.
  Variables (bonds : list (nat * nat)) (n : nat) (ngb : list (list nat)).
  Hypothesis Ln : length ngb = n.
  Hypothesis Lk : forall i j, linked ngb i j <-> adjacent bonds i j.
  Hypothesis Hok : ngb_ok ngb.
  Hypothesis irr : forall x, ~ adjacent bonds x x.
  Lemma adj_sym x y : adjacent bonds x y -> adjacent bonds y x.
  Proof. unfold adjacent. tauto. Qed.

  Lemma ring_lists_ok com : StronglySorted lt com -> forall todo, (forall c, In c todo -> c < n) -> exists r, ring_lists ngb com todo = Some r /\ map fst r = todo /\
    forall c l, In (c, l) r -> StronglySorted lt l /\ forall y, In y l <-> In y com /\ adjacent bonds c y.
  Proof.
    intros Hc. induction todo as [|c todo IH]; intros H; cbn [ring_lists].
    - exists []. split; [auto|]. split; [auto|]. intros c l [].
    - destruct (nth_error_ex ngb c) as [l El]; [rewrite Ln; apply H; simpl; auto|]. rewrite El. destruct IH as [r [Er [M P]]]; [intros; apply H; simpl; auto|]. rewrite Er.
      exists ((c, set_inter l com) :: r). split; [auto|]. split; [cbn; f_equal; auto|]. intros c' l' [Q|Q]; [|eapply P; eauto]. injection Q as <- <-.
      destruct (Hok _ _ El) as [Sl _]. destruct (set_inter_spec l com Sl Hc) as [S1 S2]. split; [auto|]. intros y. rewrite S2, <- (linked_iff _ _ _ El), Lk. tauto.
  Qed.
  Lemma ring_of_in r c : NoDup (map fst r) -> forall l, In (c, l) r -> ring_of r c = Some l.
  Proof.
    induction r as [|[k l0] r IH]; intros N l H; [destruct H|]. cbn in *. inversion N as [|? ? N1 N2]; subst. destruct H as [H|H].
    - injection H as -> ->. rewrite Nat.eqb_refl. auto.
    - destruct (Nat.eqb_spec k c) as [->|Q]; [|auto]. exfalso. apply N1. apply in_map_iff. exists (c, l). auto.
  Qed.
  Definition ends_at (i : nat) (b : nat * nat) : bool := (fst b =? i) || (snd b =? i).
  Lemma step_ok fuel b st : 5 <= fuel -> fst b < snd b -> snd b < n -> length (snd st) = n -> exists st', spindle_step fuel ngb b st = Some st' /\
    ((spindle_bond bonds b /\ exists rec, seven_cluster bonds (fst b) (snd b) rec /\ fst st' = fst st ++ rec /\ length (snd st') = n /\
        forall i, nth i (snd st') 0 = nth i (snd st) 0 + (if ends_at i b then 1 else 0)) \/ (~ spindle_bond bonds b /\ st' = st)).
  Proof.
    intros Hf Hpq Hq Ls. destruct b as [p q]. cbn [fst snd] in *. unfold spindle_step. cbn [fst snd].
    destruct (nth_error_ex ngb p) as [lp Ep]; [lia|]. destruct (nth_error_ex ngb q) as [lq Eq]; [lia|]. rewrite Ep, Eq. cbv zeta.
    destruct (Hok _ _ Ep) as [Sp Bp]. destruct (Hok _ _ Eq) as [Sq _]. destruct (set_inter_spec lp lq Sp Sq) as [Sc Ic]. set (com := set_inter lp lq) in *.
    assert (Sh : forall x, In x com <-> shared bonds (p, q) x) by (intros x; rewrite Ic, <- (linked_iff _ _ _ Ep), <- (linked_iff _ _ _ Eq), !Lk; unfold shared; cbn; tauto).
    assert (NC : NoDup com) by (apply ssorted_NoDup; auto).
    destruct (Nat.eqb_spec (length com) 5) as [L5|L5]; [|exists st; split; [auto|]; right; split; [|auto]; intros [X _]; apply L5; apply (proj1 (exactly_list 5 com _ Sc Sh)); auto].
    assert (Bc : forall c, In c com -> c < n) by (intros c I; apply Ic in I as [I _]; apply Bp in I; lia).
    destruct (ring_lists_ok com Sc com Bc) as [r [Er [Mr Pr]]]. rewrite Er.
    assert (Rx : forall x, In x com -> exists l, In (x, l) r /\ ring_of r x = Some l).
    { intros x I. rewrite <- Mr in I. apply in_map_iff in I as [[x' l] [Q I]]. cbn in Q. subst x'. exists l. split; [auto|]. apply ring_of_in; auto. rewrite Mr. auto. }
    destruct (forallb (fun cl => length (snd cl) =? 2) r) eqn:F.
    - rewrite forallb_forall in F.
      assert (rows : forall x, In x com -> exists f g, ring_of r x = Some [f; g] /\ f <> g /\ forall y, In y com /\ adjacent bonds x y <-> y = f \/ y = g).
      { intros x I. destruct (Rx x I) as [l [Il El]]. specialize (F _ Il). cbn in F. apply Nat.eqb_eq in F. destruct l as [|f [|g [|]]]; try discriminate. destruct (Pr _ _ Il) as [S1 S2].
        exists f, g. split; [auto|]. split. { apply StronglySorted_inv in S1 as [_ S1]. inversion S1; subst. lia. } intros y. rewrite <- S2. simpl. split; [intros [->|[->|[]]]; auto|intros [->| ->]; auto]. }
      assert (SB : spindle_bond bonds (p, q)).
      { split; [apply (proj2 (exactly_list 5 com _ Sc Sh)); auto|]. intros x Hx. apply Sh in Hx. destruct (rows x Hx) as [f [g [_ [N I]]]]. exists [f; g]. split; [repeat constructor; simpl; intuition|]. split; [reflexivity|].
        intros y. rewrite <- Sh, I. simpl. intuition. }
      clearbody com. assert (Hd : exists v0 com', com = v0 :: com') by (destruct com as [|v0 com']; [discriminate|eauto]). destruct Hd as [v0 [com' Ecom]].
      assert (I0 : In v0 com) by (rewrite Ecom; simpl; auto). destruct (rows v0 I0) as [f [g [E0 _]]].
      destruct (walk_ring (adjacent bonds) com r adj_sym irr NC L5 rows fuel v0 f g Hf I0 E0) as [a [b [W [ND [All [A1 A2]]]]]].
      assert (RR : ring_record fuel (p, q) com r = Some [p; q; v0; f; a; b; g]) by (unfold ring_record; rewrite Ecom, E0; cbn [List.last]; rewrite W; reflexivity). rewrite RR.
      unfold upd. destruct (nth_error_ex (snd st) p) as [cp Ecp]; [lia|]. rewrite Ecp. destruct (nth_error_ex (RTree_Model.set_nth p (S cp) (snd st)) q) as [cq Ecq]; [rewrite set_nth_len; lia|]. rewrite Ecq.
      eexists. split; [reflexivity|]. left. split; [auto|]. exists [p; q; v0; f; a; b; g]. cbn [fst snd]. split; [|split; [reflexivity|split; [rewrite !set_nth_len; auto|]]].
      + exists v0, f, a, b, g. split; [auto|]. split; [auto|]. split; [intros x; rewrite <- All; apply Sh|]. split; [tauto|tauto].
      + intros i. rewrite set_nth_get in Ecq by lia. assert (Npq : (q =? p) = false) by (apply Nat.eqb_neq; lia). rewrite Npq in Ecq. unfold ends_at. cbn [fst snd].
        assert (G : forall l k, nth k l 0 = match nth_error l k with Some x => x | None => 0 end) by (induction l as [|? l IHl]; intros [|k]; cbn; auto).
        rewrite !G, set_nth_get by (rewrite set_nth_len; lia). destruct (Nat.eqb_spec i q) as [->|Ni].
        * rewrite Nat.eqb_refl, orb_true_r, Ecq. lia.
        * rewrite set_nth_get by lia. destruct (Nat.eqb_spec i p) as [->|Nj].
          -- rewrite Nat.eqb_refl, Ecp. cbn. lia.
          -- rewrite (proj2 (Nat.eqb_neq p i)), (proj2 (Nat.eqb_neq q i)) by auto. cbn. lia.
    - exists st. split; [auto|]. right. split; [|auto]. intros [_ X]. apply not_true_iff_false in F. apply F. apply forallb_forall. intros [x l] I. cbn. apply Nat.eqb_eq.
      destruct (Pr _ _ I) as [S1 S2]. apply (proj1 (exactly_list 2 l (fun y => shared bonds (p, q) y /\ adjacent bonds x y) S1 (fun y => ltac:(rewrite S2, Sh; tauto)))). apply X. apply Sh.
      rewrite <- Mr. apply in_map_iff. exists (x, l). auto.
  Qed.
  Lemma spindles_ok fuel : 5 <= fuel -> forall bs st, StronglySorted lex bs -> Forall (fun b => fst b < snd b /\ snd b < n) bs -> length (snd st) = n -> exists prs s',
    spindles fuel ngb bs st = Some (fst st ++ concat (map snd prs), s') /\ length s' = n /\ StronglySorted lex (map fst prs) /\
    (forall b, In b (map fst prs) <-> In b bs /\ spindle_bond bonds b) /\ Forall (fun x => seven_cluster bonds (fst (fst x)) (snd (fst x)) (snd x)) prs /\
    forall i, nth i s' 0 = nth i (snd st) 0 + length (filter (ends_at i) (map fst prs)).
  Proof.
    intros Hf. induction bs as [|b bs IH]; intros st So F Ls; cbn [spindles].
    - exists [], (snd st). cbn. rewrite app_nil_r. destruct st as [x y]. split; [auto|]. split; [auto|]. split; [constructor|]. split; [intros b; split; [intros []|intros [[] _]]|]. split; [constructor|auto].
    - apply StronglySorted_inv in So as [So Fo]. pose proof (Forall_inv F) as [H1 H2]. pose proof (Forall_inv_tail F) as F'. destruct (step_ok fuel b st Hf H1 H2 Ls) as [st' [E K]]. rewrite E.
      destruct K as [[SB [rec [SC [E1 [L1 C]]]]]|[NB ->]].
      + destruct (IH st' So F' L1) as [prs [s' [E2 [L2 [So2 [I2 [F2 C2]]]]]]]. exists ((b, rec) :: prs), s'. cbn [map fst snd concat]. rewrite E2, E1, <- app_assoc. split; [auto|]. split; [auto|].
        split. { constructor; [auto|]. rewrite Forall_forall in *. intros c I. apply Fo. apply I2 in I. tauto. }
        split. { intros c. simpl. rewrite I2. split; [intros [<-|I]; tauto|intros [[<-|I] Q]; auto]. }
        split; [constructor; auto|]. intros i. rewrite C2, C. cbn [filter]. destruct (ends_at i b); cbn [length]; lia.
      + destruct (IH st So F' Ls) as [prs [s' [E2 [L2 [So2 [I2 [F2 C2]]]]]]]. exists prs, s'. split; [auto|]. split; [auto|]. split; [auto|]. split; [|split; auto].
        intros c. rewrite I2. simpl. split; [tauto|]. intros [[<-|I] Q]; [contradiction|auto].
  Qed.
End Program.

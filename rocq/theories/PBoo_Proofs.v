Require Import List Bool Arith Lia Sorted.
Require Import Verif.Base Verif.SortU Verif.ListX Verif.Traj_Model Verif.Particles_Model Verif.RTree_Model Verif.Particles_Spec Verif.Ngb_Model Verif.Ngb_Spec Verif.Ngb_Proofs Verif.Corr_Model Verif.Corr_Proofs Verif.Boo_Model Verif.Pyramid_Model Verif.Pyramid_Proofs Verif.Tracker_Proofs.
Require Import Verif.PBoo_Model Verif.PBoo_Spec.
Import ListNotations.
Local Open Scope nat_scope.

Definition bond_rows (s : nat) (rows : list (list nat)) : list (nat * nat) :=
  flat_map (fun pl => map (pair (fst pl)) (after (fst pl) (snd pl))) (combine (seq s (length rows)) rows).

Lemma after_sorted p : forall l, StronglySorted lt l -> StronglySorted lt (after p l).
Proof. induction l as [|x l IH]; intros H; cbn [after]; auto. destruct (x <? p + 1); auto. apply IH. inversion H; auto. Qed.

Lemma bond_rows_in : forall rows s b, (forall i l, nth_error rows i = Some l -> StronglySorted lt l) ->
  (In b (bond_rows s rows) <-> s <= fst b /\ fst b < snd b /\ exists l, nth_error rows (fst b - s) = Some l /\ In (snd b) l).
Proof.
  induction rows as [|r rows IH]; intros s b H.
  - cbn. split; [tauto|]. intros [_ [_ [l [E _]]]]. destruct (fst b - s); discriminate.
  - unfold bond_rows. cbn [length seq combine flat_map fst snd]. rewrite in_app_iff. fold (bond_rows (S s) rows).
    rewrite IH by (intros i l E; apply (H (S i) l E)). rewrite in_map_iff. assert (Hr := H 0 r eq_refl). split.
    + intros [[x [E I]]|[A [C [l [E I]]]]].
      * subst b. cbn [fst snd]. apply after_spec in I; [|apply lt_le_sorted; auto]. split; [lia|]. split; [tauto|]. exists r. rewrite Nat.sub_diag. split; [reflexivity|tauto].
      * split; [lia|]. split; [auto|]. exists l. replace (fst b - s) with (S (fst b - S s)) by lia. auto.
    + intros [A [C [l [E I]]]]. destruct (Nat.eq_dec (fst b) s) as [Q|Q].
      * left. exists (snd b). split; [rewrite <- Q; destruct b; auto|]. rewrite Q, Nat.sub_diag in E. injection E as ->. apply after_spec; [apply lt_le_sorted; auto|]. split; [auto|lia].
      * right. split; [lia|]. split; [auto|]. exists l. replace (fst b - s) with (S (fst b - S s)) in E by lia. auto.
Qed.
Lemma sorted_app_lex : forall l1 l2, StronglySorted lex l1 -> StronglySorted lex l2 -> (forall a b, In a l1 -> In b l2 -> lex a b) -> StronglySorted lex (l1 ++ l2).
Proof.
  induction l1 as [|a l1 IH]; intros l2 H1 H2 H; cbn [app]; auto. inversion H1; subst. constructor.
  - apply IH; auto. intros; apply H; simpl; auto.
  - apply Forall_app. split; auto. apply Forall_forall. intros b I. apply H; simpl; auto.
Qed.
Lemma bond_rows_sorted : forall rows s, (forall i l, nth_error rows i = Some l -> StronglySorted lt l) -> StronglySorted lex (bond_rows s rows).
Proof.
  induction rows as [|r rows IH]; intros s H; [constructor|].
  unfold bond_rows. cbn [length seq combine flat_map fst snd]. fold (bond_rows (S s) rows). apply sorted_app_lex.
  - assert (X := after_sorted s r (H 0 r eq_refl)). induction X as [|x l X IX F]; cbn [map]; constructor; auto.
    apply Forall_forall. intros b I. apply in_map_iff in I as [y [<- I]]. right. cbn. split; auto. rewrite Forall_forall in F. auto.
  - apply IH. intros i l E. apply (H (S i) l E).
  - intros a b I J. apply in_map_iff in I as [y [<- I]]. apply bond_rows_in in J; [|intros i l E; apply (H (S i) l E)]. left. cbn. lia.
Qed.

Lemma ofold_flat {A C W} (f : C -> W -> outcome W) (g : A -> list C) : forall l w, ofold (fun a w => ofold f (g a) w) l w = ofold f (flat_map g l) w.
Proof. induction l as [|a l IH]; intros w; cbn [ofold flat_map]; auto. rewrite ofold_app. destruct (ofold f (g a) w); cbn [obind]; auto. Qed.
Lemma ofold_map_x {A C W} (f : C -> W -> outcome W) (g : A -> C) : forall l w, ofold f (map g l) w = ofold (fun a => f (g a)) l w.
Proof. induction l as [|a l IH]; intros w; cbn [ofold map]; auto. destruct (f (g a) w); cbn [obind]; auto. Qed.
Lemma ofold_ext_x {A W} (f g : A -> W -> outcome W) : forall l w, (forall a v, In a l -> f a v = g a v) -> ofold f l w = ofold g l w.
Proof. induction l as [|a l IH]; intros w H; cbn [ofold]; auto. rewrite H by (simpl; auto). destruct (g a w); cbn [obind]; auto. apply IH. intros; apply H; simpl; auto. Qed.

Lemma over_bonds_flat ngb {W} (f : nat -> nat -> W -> outcome W) w : over_bonds ngb f w = ofold (fun b => f (fst b) (snd b)) (bond_rows 0 ngb) w.
Proof.
  unfold over_bonds, bond_rows. rewrite <- ofold_flat. apply ofold_ext_x. intros pl v _. rewrite ofold_map_x. reflexivity.
Qed.

Section PB.
  Variables (B : Type) (add : B -> B -> B).
  Notation deposit := (deposit B add).
  Notation deposits := (deposits B add).
  Definition at_cell (c : nat) (ws : list (nat * B)) : list B := map snd (filter (fun w => fst w =? c) ws).

  Lemma deposits_spec : forall ws bs ks, length ks = length bs -> Forall (fun w => fst w < length bs) ws ->
    exists bs' ks', deposits ws (bs, ks) = Val (bs', ks') /\ length bs' = length bs /\ length ks' = length bs /\
      forall c b k, nth_error bs c = Some b -> nth_error ks c = Some k ->
        nth_error bs' c = Some (total add b (at_cell c ws)) /\ nth_error ks' c = Some (k + length (at_cell c ws)).
  Proof.
    induction ws as [|[i y] ws IH]; intros bs ks L H.
    - exists bs, ks. repeat split; auto. rewrite Nat.add_0_r. auto.
    - inversion H as [|? ? Hi Hw]; subst. cbn [fst] in Hi.
      unfold PBoo_Model.deposits. cbn [ofold]. unfold PBoo_Model.deposit at 1. cbn [fst snd].
      destruct (nth_error_ex bs i Hi) as [b Eb]. destruct (nth_error_ex ks i ltac:(lia)) as [k Ek].
      unfold at_index. rewrite Eb, Ek. cbn [obind]. rewrite write_ok by auto. cbn [obind]. rewrite write_ok by lia. cbn [obind].
      fold deposit. destruct (IH (set_nth i (add b y) bs) (set_nth i (k + 1) ks)) as [bs' [ks' [E [L1 [L2 R]]]]].
      + rewrite !set_nth_len; auto.
      + rewrite set_nth_len; auto.
      + rewrite set_nth_len in *. exists bs', ks'. split; [exact E|]. split; [auto|]. split; [auto|].
        intros c b0 k0 Hb Hk. unfold at_cell. cbn [filter fst]. destruct (Nat.eqb_spec i c) as [->|N].
        * assert (b0 = b) by congruence. assert (k0 = k) by congruence. subst.
          destruct (R c (add b y) (k + 1)) as [R1 R2]; [rewrite set_nth_get by auto; destruct (Nat.eqb_spec c c); [auto|lia] | rewrite set_nth_get by lia; destruct (Nat.eqb_spec c c); [auto|lia] |].
          split; [exact R1|]. rewrite R2. cbn [map length]. unfold at_cell. f_equal. lia.
        * destruct (R c b0 k0) as [R1 R2]; [rewrite set_nth_get by auto; destruct (Nat.eqb_spec c i); [lia|auto]|rewrite set_nth_get by lia; destruct (Nat.eqb_spec c i); [lia|auto]|].
          auto.
  Qed.

  Lemma deposits_app ws1 ws2 st : deposits (ws1 ++ ws2) st = obind (deposits ws1 st) (deposits ws2).
  Proof. apply ofold_app. Qed.
  Lemma deposits_flat {A} (ws : A -> list (nat * B)) f : forall L st, (forall b v, In b L -> f b v = deposits (ws b) v) -> ofold f L st = deposits (flat_map ws L) st.
  Proof. intros L st H. unfold PBoo_Model.deposits. rewrite <- ofold_flat. apply ofold_ext_x. exact H. Qed.
  Lemma at_cell_app c ws1 ws2 : at_cell c (ws1 ++ ws2) = at_cell c ws1 ++ at_cell c ws2.
  Proof. unfold at_cell. rewrite filter_app, map_app. auto. Qed.
  Lemma at_cell_flat {A} c (ws : A -> list (nat * B)) (y : A -> B) (P : A -> bool) : forall L,
    (forall b, In b L -> at_cell c (ws b) = if P b then [y b] else []) -> at_cell c (flat_map ws L) = map y (filter P L).
  Proof.
    induction L as [|b L IH]; intros H; [reflexivity|]. cbn [flat_map filter]. rewrite at_cell_app, H by (simpl; auto).
    rewrite IH by (intros; apply H; simpl; auto). destruct (P b); reflexivity.
  Qed.
  Lemma at_cell_same c (y : B) : forall cs, NoDup cs -> at_cell c (map (fun x => (x, y)) cs) = if existsb (Nat.eqb c) cs then [y] else [].
  Proof.
    induction cs as [|x cs IH]; intros H; [reflexivity|]. inversion H; subst. unfold at_cell. cbn [map filter fst existsb]. fold (at_cell c (map (fun x => (x, y)) cs)).
    rewrite (Nat.eqb_sym c x). destruct (Nat.eqb_spec x c) as [->|N]; cbn [orb].
    - cbn [map snd]. unfold at_cell in IH. rewrite IH by auto.
      assert (E : existsb (Nat.eqb c) cs = false). { destruct (existsb (Nat.eqb c) cs) eqn:E; auto. apply existsb_exists in E as [z [I Q]]. apply Nat.eqb_eq in Q. subst. contradiction. }
      rewrite E. auto.
    - apply IH; auto.
  Qed.
End PB.

Lemma filter_bonds ngb (P : nat * nat -> bool) (C : nat -> nat -> Prop) : ngb_ok ngb -> (forall p q, In (p, q) (bond_rows 0 ngb) -> (P (p, q) = true <-> C p q)) ->
  bonds_such ngb C (filter P (bond_rows 0 ngb)).
Proof.
  intros H HP. split.
  - apply lex_filter. apply bond_rows_sorted. intros i l E. apply (H i l E).
  - intros p q. rewrite filter_In. assert (X : In (p, q) (bond_rows 0 ngb) <-> p < q /\ linked ngb p q).
    { rewrite bond_rows_in by (intros i l E; apply (H i l E)). cbn [fst snd]. rewrite Nat.sub_0_r. unfold linked. intuition lia. }
    split.
    + intros [I E]. apply HP in E; auto. tauto.
    + intros [A [K D]]. assert (I : In (p, q) (bond_rows 0 ngb)) by tauto. split; auto. apply HP; auto.
Qed.

Lemma own_bonds_list ngb c L l (B : Type) (harm : nat -> nat -> B) : ngb_ok ngb -> symmetric ngb -> irreflexive ngb -> (forall p q, harm p q = harm q p) ->
  bonds_such ngb (own c) L -> nth_error ngb c = Some l -> map (fun b => harm (fst b) (snd b)) L = map (harm c) l.
Proof.
  intros H Sy Ir Hs [So In_] E.
  set (other := fun b : nat * nat => if fst b =? c then snd b else fst b).
  assert (Eq : map other L = l).
  { apply ssorted_ext.
    - assert (G : forall L', (forall b, In b L' -> In b L) -> StronglySorted lex L' -> StronglySorted lt (map other L')).
      { induction L' as [|b L' IH]; intros Sub SL; cbn [map]; constructor.
        - apply IH; [intros; apply Sub; simpl; auto|inversion SL; auto].
        - apply Forall_forall. intros x I. apply in_map_iff in I as [d [<- I]]. inversion SL as [|? ? _ F]; subst. rewrite Forall_forall in F. specialize (F d I).
          assert (B1 := Sub b (or_introl eq_refl)). assert (B2 := Sub d (or_intror I)). destruct b as [p1 q1], d as [p2 q2]. apply In_ in B1. apply In_ in B2.
          unfold other, lex, own in *. cbn [fst snd] in *. destruct (Nat.eqb_spec p1 c), (Nat.eqb_spec p2 c); lia. }
      apply G; auto.
    - apply (H c l E).
    - intros x. rewrite in_map_iff. split.
      + intros [[p q] [<- I]]. apply In_ in I as [A [K O]]. unfold other, own in *. cbn [fst snd] in *. destruct (Nat.eqb_spec p c) as [->|N].
        * destruct K as [l' [E' I]]. congruence.
        * destruct O as [O|O]; [congruence|]. subst q. apply Sy in K. destruct K as [l' [E' I]]. congruence.
      + intros I. assert (K : linked ngb c x) by (exists l; auto). assert (N : c <> x) by (intros ->; apply (Ir x K)).
        destruct (Nat.lt_ge_cases c x).
        * exists (c, x). split; [unfold other; cbn; rewrite Nat.eqb_refl; auto|]. apply In_. split; [auto|]. split; [auto|]. left; auto.
        * exists (x, c). split; [unfold other; cbn; destruct (Nat.eqb_spec x c); [lia|auto]|]. apply In_. split; [lia|]. split; [apply Sy; auto|]. right; auto. }
  rewrite <- Eq, map_map. apply map_ext_in. intros [p q] I. apply In_ in I as [_ [_ O]]. unfold own, other in *. cbn [fst snd] in *.
  destruct (Nat.eqb_spec p c) as [->|N]; auto. destruct O as [O|O]; [congruence|]. subst. apply Hs.
Qed.

Section PG.
  Variables (B : Type) (zero : B) (add : B -> B -> B) (divn : B -> nat -> B).
  Variables (harm : nat -> nat -> B).
  Variables (n : nat) (ngb : list (list nat)).
  Hypothesis Hn : length ngb = n.
  Hypothesis Hok : ngb_ok ngb.
  Notation L := (bond_rows 0 ngb).
  Notation hb := (fun b : nat * nat => harm (fst b) (snd b)).

  Lemma L_in p q : In (p, q) L <-> p < q /\ linked ngb p q.
  Proof. rewrite bond_rows_in by (intros i l E; apply (Hok i l E)). cbn [fst snd]. rewrite Nat.sub_0_r. unfold linked. intuition lia. Qed.
  Lemma L_bound b : In b L -> fst b < snd b /\ fst b < n /\ snd b < n.
  Proof. destruct b as [p q]. intros I. apply L_in in I as [A K]. cbn [fst snd]. split; auto. assert (X := linked_lt ngb p q K). destruct K as [l [E I]]. assert (Y := proj2 (Hok p l E) q I). lia. Qed.
  Lemma one_bond_ok b : In b L -> one_bond B harm n (fst b) (snd b) = Val (hb b).
  Proof. intros I. destruct (L_bound b I) as [_ [P Q]]. unfold one_bond. apply Nat.ltb_lt in P, Q. rewrite P, Q. reflexivity. Qed.
  Lemma commons_ok b : In b L -> exists lp lq, nth_error ngb (fst b) = Some lp /\ nth_error ngb (snd b) = Some lq /\ commons ngb (fst b) (snd b) = Val (set_inter lp lq).
  Proof.
    intros I. destruct (L_bound b I) as [_ [P Q]]. destruct (nth_error_ex ngb (fst b)) as [lp E]; [lia|]. destruct (nth_error_ex ngb (snd b)) as [lq F]; [lia|].
    exists lp, lq. unfold commons, at_index. rewrite E, F. auto.
  Qed.
  Definition cs (b : nat * nat) : list nat := set_inter (nth (fst b) ngb []) (nth (snd b) ngb []).
  Lemma commons_cs b : In b L -> commons ngb (fst b) (snd b) = Val (cs b) /\ StronglySorted lt (cs b) /\ forall c, In c (cs b) <-> common ngb (fst b) (snd b) c.
  Proof.
    intros I. destruct (commons_ok b I) as [lp [lq [E [F G]]]]. unfold cs. rewrite (nth_error_nth _ _ _ E), (nth_error_nth _ _ _ F). split; auto.
    destruct (set_inter_spec lp lq) as [S1 S2]; [apply (Hok _ _ E)|apply (Hok _ _ F)|]. split; auto. intros c. rewrite S2. unfold common. rewrite (linked_iff ngb _ lp E), (linked_iff ngb _ lq F). tauto.
  Qed.
  Lemma cs_lt b c : In b L -> In c (cs b) -> c < n.
  Proof. intros I J. destruct (commons_cs b I) as [_ [_ X]]. apply X in J as [[l [E J]] _]. rewrite <- Hn. apply (Hok _ _ E). auto. Qed.

  Lemma resize_len old : length (resize B zero n old) = n.
  Proof. unfold resize. rewrite app_length, firstn_length, repeat_length. lia. Qed.
  Lemma resize_nth old c : c < n -> nth_error (resize B zero n old) c = Some (nth c old zero).
  Proof.
    intros H. unfold resize. destruct (Nat.lt_ge_cases c (length old)) as [K|K].
    - rewrite nth_error_app1 by (rewrite firstn_length; lia).
      rewrite (nth_error_nth' (firstn n old) zero) by (rewrite firstn_length; lia). f_equal.
      rewrite <- (firstn_skipn n old) at 2. rewrite app_nth1 by (rewrite firstn_length; lia). reflexivity.
    - rewrite nth_error_app2 by (rewrite firstn_length; lia). rewrite nth_error_repeat_x by (rewrite firstn_length; lia). rewrite nth_overflow by lia. reflexivity.
  Qed.

  Definition ws (b : nat * nat) : list (nat * B) := [(fst b, hb b); (snd b, hb b)].
  Definition wsurf (b : nat * nat) : list (nat * B) := ws b ++ map (fun c => (c, hb b)) (cs b).
  Definition ownb (c : nat) (b : nat * nat) : bool := (c =? fst b) || (c =? snd b).
  Definition surfb (c : nat) (b : nat * nat) : bool := ownb c b || existsb (Nat.eqb c) (cs b).
  Lemma ws_in b : In b L -> Forall (fun w => fst w < n) (ws b).
  Proof. intros I. destruct (L_bound b I) as [_ [P Q]]. repeat constructor; auto. Qed.
  Lemma wsurf_in b : In b L -> Forall (fun w => fst w < n) (wsurf b).
  Proof. intros I. apply Forall_app. split; [apply ws_in; auto|]. apply Forall_forall. intros w J. apply in_map_iff in J as [c [<- J]]. apply (cs_lt b c I J). Qed.
  Lemma flat_in (f : nat * nat -> list (nat * B)) : (forall b, In b L -> Forall (fun w => fst w < n) (f b)) -> Forall (fun w => fst w < n) (flat_map f L).
  Proof. intros H. apply Forall_forall. intros w J. apply in_flat_map in J as [b [I J]]. assert (X := H b I). rewrite Forall_forall in X. auto. Qed.
  Lemma ws_cell c b : In b L -> at_cell B c (ws b) = if ownb c b then [hb b] else [].
  Proof.
    intros I. destruct (L_bound b I) as [O _]. unfold at_cell, ws, ownb. cbn [filter fst]. rewrite (Nat.eqb_sym c (fst b)), (Nat.eqb_sym c (snd b)).
    destruct (Nat.eqb_spec (fst b) c), (Nat.eqb_spec (snd b) c); cbn; auto. lia.
  Qed.
  Lemma wsurf_cell c b : irreflexive ngb -> In b L -> at_cell B c (wsurf b) = if surfb c b then [hb b] else [].
  Proof.
    intros Ir I. unfold wsurf. rewrite at_cell_app, ws_cell by auto. destruct (commons_cs b I) as [_ [S1 S2]]. rewrite at_cell_same by (apply ssorted_NoDup; auto).
    unfold surfb. destruct (ownb c b) eqn:O; cbn [orb]; auto. destruct (existsb (Nat.eqb c) (cs b)) eqn:X; auto. exfalso.
    apply existsb_exists in X as [z [J E]]. apply Nat.eqb_eq in E. subst z. apply S2 in J as [J1 J2]. unfold ownb in O. apply orb_prop in O as [O|O]; apply Nat.eqb_eq in O; subst c; [apply (Ir _ J1)|apply (Ir _ J2)].
  Qed.
  Lemma ownb_spec c p q : ownb c (p, q) = true <-> own c p q.
  Proof. unfold ownb, own. cbn. rewrite orb_true_iff, !Nat.eqb_eq. tauto. Qed.
  Lemma surfb_spec c p q : In (p, q) L -> (surfb c (p, q) = true <-> own_or_surface ngb c p q).
  Proof.
    intros I. unfold surfb, own_or_surface. rewrite orb_true_iff, ownb_spec. destruct (commons_cs _ I) as [_ [_ X]]. rewrite <- (X c). rewrite existsb_exists.
    split; intros [A|A]; auto. - destruct A as [z [J E]]. apply Nat.eqb_eq in E. subst; auto. - right. exists c. split; auto. apply Nat.eqb_refl.
  Qed.

  (** The two sums and their counts. *)
  Lemma sums (f : nat * nat -> list (nat * B)) (P : nat -> nat * nat -> bool) (C : nat -> nat -> nat -> Prop) old :
    (forall b, In b L -> Forall (fun w => fst w < n) (f b)) -> (forall c b, In b L -> at_cell B c (f b) = if P c b then [hb b] else []) ->
    (forall c p q, In (p, q) L -> (P c (p, q) = true <-> C c p q)) ->
    exists bs ks, deposits B add (flat_map f L) (resize B zero n old, repeat 0 n) = Val (bs, ks) /\ length bs = n /\ length ks = n /\
      forall c, c < n -> exists l, bonds_such ngb (C c) l /\ nth_error bs c = Some (total add (nth c old zero) (map hb l)) /\ nth_error ks c = Some (length l).
  Proof.
    intros F1 F2 F3. destruct (deposits_spec B add (flat_map f L) (resize B zero n old) (repeat 0 n)) as [bs [ks [E [L1 [L2 R]]]]].
    - rewrite resize_len, repeat_length; auto.
    - rewrite resize_len. apply flat_in; auto.
    - rewrite resize_len in *. exists bs, ks. split; [auto|]. split; [auto|]. split; [auto|]. intros c Hc. exists (filter (P c) L). split; [apply filter_bonds; auto|].
      destruct (R c _ 0 (resize_nth old c Hc) (nth_error_repeat_x 0 n c Hc)) as [R1 R2]. rewrite (at_cell_flat B c f hb (P c)) in R1, R2 by (intros; apply F2; auto).
      rewrite map_length in R2. auto.
  Qed.
  Lemma nth_combine {A C} (l : list A) : forall (l' : list C) i x y, nth_error l i = Some x -> nth_error l' i = Some y -> nth_error (combine l l') i = Some (x, y).
  Proof. induction l as [|a l IH]; intros [|b l'] [|i] x y E F; cbn in *; try discriminate; [congruence|apply IH; auto]. Qed.

  Lemma get_boos_val old : exists res, get_boos B zero add divn harm n ngb old = Val res /\ length res = n /\
    forall c, c < n -> exists l, bonds_such ngb (own c) l /\ nth_error res c = Some (divn (total add (nth c old zero) (map hb l)) (length l)).
  Proof.
    destruct (sums ws ownb own old) as [bs [ks [E [L1 [L2 R]]]]].
    { apply ws_in. } { intros c b I. apply ws_cell; auto. } { intros; apply ownb_spec. }
    unfold get_boos. rewrite over_bonds_flat. rewrite (deposits_flat B add ws) by (intros b v I; rewrite one_bond_ok by auto; reflexivity).
    rewrite E. cbn [omap fst snd]. eexists. split; [reflexivity|]. split; [rewrite map_length, combine_length; lia|].
    intros c Hc. destruct (R c Hc) as [l [Bl [E1 E2]]]. exists l. split; auto. apply map_nth_error with (f := fun bk => divn (fst bk) (snd bk)) (d := (_, _)). apply nth_combine; eauto.
  Qed.
  Lemma normal_nth bs ks c b k : nth_error bs c = Some b -> nth_error ks c = Some k -> nth_error (normal B divn (bs, ks)) c = Some (if k =? 0 then b else divn b k).
  Proof. intros E F. unfold normal. cbn [fst snd]. rewrite (map_nth_error (divnz B divn) c _ (nth_combine _ _ _ _ _ E F)). reflexivity. Qed.
  Lemma normal_len bs ks : length bs = n -> length ks = n -> length (normal B divn (bs, ks)) = n.
  Proof. intros. unfold normal. cbn [fst snd]. rewrite map_length, combine_length. lia. Qed.
  Lemma get_surf_val old : irreflexive ngb -> exists res, get_surf_boos B zero add divn harm n ngb old = Val res /\ length res = n /\
    forall c, c < n -> exists l, bonds_such ngb (own_or_surface ngb c) l /\ nth_error res c = Some (if length l =? 0 then nth c old zero else divn (total add (nth c old zero) (map hb l)) (length l)).
  Proof.
    intros Ir. destruct (sums wsurf surfb (own_or_surface ngb) old) as [bs [ks [E [L1 [L2 R]]]]].
    { apply wsurf_in. } { intros c b I. apply wsurf_cell; auto. } { intros; apply surfb_spec; auto. }
    unfold get_surf_boos. rewrite over_bonds_flat. rewrite (deposits_flat B add wsurf).
    2:{ intros b v I. rewrite one_bond_ok by auto. cbn [obind]. destruct (commons_cs b I) as [C _]. rewrite C. cbn [obind]. unfold wsurf. rewrite deposits_app. reflexivity. }
    rewrite E. cbn [omap]. eexists. split; [reflexivity|]. split; [apply normal_len; auto|].
    intros c Hc. destruct (R c Hc) as [l [Bl [E1 E2]]]. exists l. split; auto. rewrite (normal_nth _ _ _ _ _ E1 E2). destruct l; reflexivity.
  Qed.
  Lemma both_val : forall M s1 s2 r1 r2, (forall b, In b M -> In b L) -> deposits B add (flat_map ws M) s1 = Val r1 -> deposits B add (flat_map wsurf M) s2 = Val r2 ->
    ofold (fun b s2 => obind (one_bond B harm n (fst b) (snd b)) (fun y =>
         obind (deposits B add [(fst b, y); (snd b, y)] (fst s2)) (fun st =>
         obind (deposits B add [(fst b, y); (snd b, y)] (snd s2)) (fun ss =>
         obind (commons ngb (fst b) (snd b)) (fun cs =>
         obind (deposits B add (map (fun c => (c, y)) cs) ss) (fun ss => Val (st, ss))))))) M (s1, s2) = Val (r1, r2).
  Proof.
    induction M as [|b M IH]; intros s1 s2 r1 r2 Sub H1 H2; [cbn in *; congruence|].
    assert (I := Sub b (or_introl eq_refl)). cbn [ofold flat_map fst snd] in *. rewrite one_bond_ok by auto. cbn [obind]. destruct (commons_cs b I) as [C _].
    unfold wsurf at 1 in H2. rewrite <- app_assoc in H2. rewrite !deposits_app in H1, H2. fold (ws b). 
    destruct (deposits B add (ws b) s1) as [t1| |]; cbn [obind] in *; try discriminate.
    destruct (deposits B add (ws b) s2) as [t2| |]; cbn [obind] in *; try discriminate.
    rewrite C. cbn [obind]. rewrite deposits_app in H2. destruct (deposits B add (map (fun c => (c, hb b)) (cs b)) t2) as [t3| |]; cbn [obind] in *; try discriminate.
    apply IH; auto. intros; apply Sub; simpl; auto.
  Qed.
  Lemma get_both_val old olds : irreflexive ngb -> exists res ress, get_boos_surf_boos B zero add divn harm n ngb old olds = Val (res, ress) /\ length res = n /\
    get_surf_boos B zero add divn harm n ngb olds = Val ress /\
    forall c, c < n -> exists l, bonds_such ngb (own c) l /\ nth_error res c = Some (if length l =? 0 then nth c old zero else divn (total add (nth c old zero) (map hb l)) (length l)).
  Proof.
    intros Ir. destruct (sums ws ownb own old) as [bs [ks [E [L1 [L2 R]]]]].
    { apply ws_in. } { intros c b I. apply ws_cell; auto. } { intros; apply ownb_spec. }
    destruct (sums wsurf surfb (own_or_surface ngb) olds) as [bs' [ks' [E' _]]].
    { apply wsurf_in. } { intros c b I. apply wsurf_cell; auto. } { intros; apply surfb_spec; auto. }
    exists (normal B divn (bs, ks)), (normal B divn (bs', ks')). split; [|split; [apply normal_len; auto|split]].
    - unfold get_boos_surf_boos. rewrite over_bonds_flat. rewrite (both_val L _ _ _ _ (fun b I => I) E E'). reflexivity.
    - unfold get_surf_boos. rewrite over_bonds_flat. rewrite (deposits_flat B add wsurf).
      2:{ intros b v I. rewrite one_bond_ok by auto. cbn [obind]. destruct (commons_cs b I) as [C _]. rewrite C. cbn [obind]. unfold wsurf. rewrite deposits_app. reflexivity. }
      rewrite E'. reflexivity.
    - intros c Hc. destruct (R c Hc) as [l [Bl [E1 E2]]]. exists l. split; auto. rewrite (normal_nth _ _ _ _ _ E1 E2). destruct l; reflexivity.
  Qed.

  Lemma get_boo_val c l : nth_error ngb c = Some l -> get_boo B zero add divn harm n ngb c = Val (if length l =? 0 then zero else divn (total add zero (map (harm c) l)) (length l)).
  Proof.
    intros E. unfold get_boo, at_index. rewrite E. cbn [obind]. assert (Hc := nth_error_lt _ _ _ E).
    assert (O : forall q acc, In q l -> omap (add acc) (one_bond B harm n c q) = Val (add acc (harm c q))).
    { intros q acc I. unfold one_bond. assert (X := proj2 (Hok _ _ E) q I). destruct (Nat.ltb_spec c n); [|lia]. destruct (Nat.ltb_spec q n); [|lia]. reflexivity. }
    destruct l as [|x l']; [reflexivity|]. rewrite (ofold_ok _ (fun q acc => add acc (harm c q))) by (intros; apply O; auto). cbn [omap length Nat.eqb].
    unfold total. rewrite fold_left_map_x. reflexivity.
  Qed.
  Lemma get_cg_val boo c l b : length boo = n -> nth_error ngb c = Some l -> nth_error boo c = Some b ->
    get_cg_boo B add divn ngb boo c = Val (divn (total add b (map (fun q => nth q boo zero) l)) (1 + length l)).
  Proof.
    intros Lb E F. unfold get_cg_boo, at_index. rewrite F, E. cbn [obind]. rewrite (ofold_ok _ (fun q acc => add acc (nth q boo zero))).
    - cbn [omap]. unfold total. rewrite fold_left_map_x. reflexivity.
    - intros q v I. assert (X := proj2 (Hok _ _ E) q I). rewrite (nth_error_nth' boo zero) by lia. reflexivity.
  Qed.
  Lemma writes_sel (f : nat -> outcome B) (g : nat -> B) : forall sel bs, length bs = n -> (forall p, In p sel -> p < n /\ f p = Val (g p)) ->
    exists res, ofold (fun p bs => obind (f p) (fun b => write p b bs)) sel bs = Val res /\ length res = n /\
      forall c, c < n -> nth_error res c = if existsb (Nat.eqb c) sel then Some (g c) else nth_error bs c.
  Proof.
    induction sel as [|p sel IH]; intros bs Lb H; [exists bs; auto|].
    destruct (H p (or_introl eq_refl)) as [Hp Ep]. cbn [ofold]. rewrite Ep. cbn [obind]. rewrite write_ok by lia. cbn [obind].
    destruct (IH (set_nth p (g p) bs)) as [res [E [Lr R]]]; [rewrite set_nth_len; auto|intros; apply H; simpl; auto|].
    exists res. split; [auto|]. split; [auto|]. intros c Hc. rewrite R by auto. cbn [existsb]. rewrite set_nth_get by lia.
    destruct (existsb (Nat.eqb c) sel); [rewrite orb_true_r; auto|]. rewrite orb_false_r. destruct (Nat.eqb_spec c p); subst; auto.
  Qed.

  (** removeOutside *)
  Lemma wipe_val from upto bs : length bs = n -> upto <= n -> exists res, wipe B zero from upto bs = Val res /\ length res = n /\
    forall c, c < n -> nth_error res c = if (from <=? c) && (c <? upto) then Some zero else nth_error bs c.
  Proof.
    intros Lb Hu. destruct (writes_sel (fun _ => Val zero) (fun _ => zero) (seq from (upto - from)) bs Lb) as [res [E [Lr R]]].
    { intros p I. apply in_seq in I. split; [lia|auto]. }
    exists res. split; [exact E|]. split; [auto|]. intros c Hc. rewrite R by auto.
    assert (X : existsb (Nat.eqb c) (seq from (upto - from)) = (from <=? c) && (c <? upto)).
    { apply eq_true_iff_eq. rewrite existsb_exists, andb_true_iff, Nat.leb_le, Nat.ltb_lt. split.
      - intros [x [I Q]]. apply Nat.eqb_eq in Q. subst. apply in_seq in I. lia.
      - intros I. exists c. split; [apply in_seq; lia|apply Nat.eqb_refl]. }
    rewrite X. reflexivity.
  Qed.
  Lemma remove_val : forall inside p bs, length bs = n -> StronglySorted lt inside -> (forall i, In i inside -> p <= i < n) -> 
    exists res, remove_outside B zero n inside p bs = Val res /\ length res = n /\
      forall c, c < n -> nth_error res c = if (c <? p) || existsb (Nat.eqb c) inside then nth_error bs c else Some zero.
  Proof.
    induction inside as [|it inside IH]; intros p bs Lb So H; cbn [remove_outside].
    - destruct (wipe_val p n bs Lb (le_n _)) as [res [E [Lr R]]]. exists res. split; [auto|]. split; [auto|]. intros c Hc. rewrite R by auto. cbn [existsb]. rewrite orb_false_r.
      destruct (Nat.leb_spec p c), (Nat.ltb_spec c n), (Nat.ltb_spec c p); cbn [andb]; try lia; auto.
    - destruct (H it (or_introl eq_refl)) as [H1 H2]. destruct (wipe_val p it bs Lb ltac:(lia)) as [r1 [E1 [L1 R1]]]. rewrite E1. cbn [obind].
      inversion So as [|? ? So' F]; subst. rewrite Forall_forall in F. destruct (IH (it + 1) r1 L1 So') as [res [E [Lr R]]].
      { intros i I. assert (X := F i I). assert (Y := H i (or_intror I)). lia. }
      exists res. split; [auto|]. split; [auto|]. intros c Hc. rewrite R by auto. rewrite R1 by auto. cbn [existsb].
      assert (X : existsb (Nat.eqb c) inside = true -> it < c). { intros X. apply existsb_exists in X as [z [I Q]]. apply Nat.eqb_eq in Q. subst. auto. }
      destruct (existsb (Nat.eqb c) inside); [specialize (X eq_refl)|clear X];
      destruct (Nat.leb_spec p c), (Nat.ltb_spec c p), (Nat.ltb_spec c (it + 1)), (Nat.ltb_spec c it), (Nat.eqb_spec c it); cbn [andb orb]; try lia; auto.
  Qed.

  (** getFlipBOOs *)
  Variables (turn : nat -> nat -> B -> B) (null : B -> bool).
  Definition live (boo : list B) (b : nat * nat) : bool := negb (null (nth (fst b) boo zero)) && negb (null (nth (snd b) boo zero)).
  Definition wflip (boo : list B) (b : nat * nat) : list (nat * B) :=
    if live boo b then [(fst b, turn (fst b) (snd b) (nth (snd b) boo zero)); (snd b, turn (fst b) (snd b) (nth (fst b) boo zero))] else [].
  Definition mate (c : nat) (b : nat * nat) : nat := if fst b =? c then snd b else fst b.
  Lemma get_flip_val boo bonds : length boo = n -> Forall (fun b => fst b < snd b < n) bonds ->
    exists res, get_flip_boos B add divn turn null n boo bonds = Val res /\ length res = n /\
      forall c, c < n -> let M := filter (fun b => ownb c b && live boo b) bonds in
        nth_error res c = Some (divn (total add (nth c boo zero) (map (fun b => turn (fst b) (snd b) (nth (mate c b) boo zero)) M)) (1 + length M)).
  Proof.
    intros Lb Hb. rewrite Forall_forall in Hb.
    destruct (deposits_spec B add (flat_map (wflip boo) bonds) boo (repeat 1 (length boo))) as [bs [ks [E [L1 [L2 R]]]]].
    - apply repeat_length.
    - apply Forall_forall. intros w J. apply in_flat_map in J as [b [I J]]. specialize (Hb b I). unfold wflip in J. destruct (live boo b); [|contradiction]. destruct J as [<-|[<-|[]]]; cbn; lia.
    - unfold get_flip_boos. rewrite (deposits_flat B add (wflip boo)).
      2:{ intros b v I. specialize (Hb b I). unfold at_index, wflip, live. rewrite (nth_error_nth' boo zero) by lia. cbn [obind]. destruct (null (nth (fst b) boo zero)); cbn [negb andb]; [reflexivity|].
          rewrite (nth_error_nth' boo zero) by lia. cbn [obind]. destruct (null (nth (snd b) boo zero)); cbn [negb andb]; [reflexivity|].
          destruct (Nat.ltb_spec (fst b) n); [|lia]. destruct (Nat.ltb_spec (snd b) n); [|lia]. reflexivity. }
      rewrite E. cbn [omap fst snd]. eexists. split; [reflexivity|]. split; [rewrite map_length, combine_length; lia|].
      intros c Hc. cbv zeta. set (M := filter _ bonds). destruct (R c (nth c boo zero) 1) as [R1 R2]; [apply nth_error_nth'; lia|apply nth_error_repeat_x; lia|].
      assert (X : at_cell B c (flat_map (wflip boo) bonds) = map (fun b => turn (fst b) (snd b) (nth (mate c b) boo zero)) M).
      { apply at_cell_flat. intros b I. specialize (Hb b I). unfold wflip. destruct (live boo b); [|rewrite andb_false_r; reflexivity]. rewrite andb_true_r. unfold at_cell, ownb, mate. cbn [filter fst].
        rewrite (Nat.eqb_sym c (fst b)), (Nat.eqb_sym c (snd b)). destruct (Nat.eqb_spec (fst b) c), (Nat.eqb_spec (snd b) c); cbn; auto; try lia. }
      rewrite X in R1, R2. rewrite map_length in R2. apply map_nth_error with (f := fun bk => divn (fst bk) (snd bk)) (d := (_, _)). apply nth_combine; [exact R1|exact R2].
  Qed.
End PG.

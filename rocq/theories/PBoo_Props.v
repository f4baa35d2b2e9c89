(** C77: bond orientational order of all the particles. *)
Require Import List Bool Arith Lia Sorted QArith.
Require Import Verif.Base Verif.SortU Verif.ListX Verif.Traj_Model Verif.Particles_Model Verif.Particles_Spec Verif.Ngb_Model Verif.Ngb_Spec Verif.Ngb_Proofs Verif.PBoo_Model Verif.PBoo_Spec Verif.PBoo_Proofs.
Import ListNotations.
Local Open Scope nat_scope.

Section C77.
  Variables (B : Type) (zero : B) (add : B -> B -> B) (divn : B -> nat -> B).
  Variables (harm : nat -> nat -> B) (turn : nat -> nat -> B -> B) (null : B -> bool) (n : nat) (ngb : list (list nat)).
  Hypothesis Hn : length ngb = n.
  Hypothesis Hok : ngb_ok ngb.
  Notation hb := (fun b : nat * nat => harm (fst b) (snd b)).

  (** The order of one particle is the mean of the harmonics over its neighbours, null without neighbours. *)
  Theorem C77_one c l : nth_error ngb c = Some l -> get_boo B zero add divn harm n ngb c = Val (mean_from add divn zero (map (harm c) l)).
  Proof. intros E. rewrite (get_boo_val B zero add divn harm n ngb Hn Hok c l E). unfold mean_from. rewrite map_length. reflexivity. Qed.

  (** All at once: the same values, for every particle that has neighbours, the harmonics of a bond not depending on its direction. *)
  Theorem C77_all : symmetric ngb -> irreflexive ngb -> (forall p q, harm p q = harm q p) ->
    exists res, get_boos B zero add divn harm n ngb [] = Val res /\ length res = n /\
      forall c l, nth_error ngb c = Some l -> l <> [] -> exists b, nth_error res c = Some b /\ get_boo B zero add divn harm n ngb c = Val b.
  Proof.
    intros Sy Ir Hs. destruct (get_boos_val B zero add divn harm n ngb Hn Hok []) as [res [E [Lr R]]]. exists res. split; [auto|]. split; [auto|].
    intros c l El Hl. destruct (R c) as [M [BM EM]]. { rewrite <- Hn. apply (nth_error_lt _ _ _ El). }
    eexists. split; [exact EM|]. rewrite (C77_one c l El). f_equal. replace (nth c [] zero) with zero by (destruct c; reflexivity).
    assert (X := own_bonds_list ngb c M l B harm Hok Sy Ir Hs BM El). unfold mean_from. rewrite X. assert (Y : length M = length l) by (rewrite <- (map_length hb M), X, map_length; auto).
    rewrite Y, map_length. destruct l; [congruence|reflexivity].
  Qed.
  (** But a particle without neighbours is divided by zero, where getBOO gives the null value. *)
  Theorem C77_isolated_refuted c : symmetric ngb -> nth_error ngb c = Some [] ->
    get_boo B zero add divn harm n ngb c = Val zero /\ exists res, get_boos B zero add divn harm n ngb [] = Val res /\ nth_error res c = Some (divn zero 0).
  Proof.
    intros Sy El. split; [rewrite (C77_one c [] El); reflexivity|]. destruct (get_boos_val B zero add divn harm n ngb Hn Hok []) as [res [E [Lr R]]]. exists res. split; auto.
    destruct (R c) as [M [[_ BM] EM]]. { rewrite <- Hn. apply (nth_error_lt _ _ _ El). }
    assert (M = []). { destruct M as [|[p q] M]; auto. exfalso. destruct (proj1 (BM p q) (or_introl eq_refl)) as [_ [K O]].
      assert (K' : exists x, linked ngb c x) by (destruct O as [O|O]; subst c; [exists q; auto|exists p; apply Sy; auto]). destruct K' as [x [l [E' I]]]. rewrite El in E'. injection E' as <-. contradiction. }
    subst M. rewrite EM. destruct c; reflexivity.
  Qed.
  (** And what the vector held before the call is counted in the sum. *)
  Theorem C77_reused_refuted old c : c < n -> exists res M, get_boos B zero add divn harm n ngb old = Val res /\ bonds_such ngb (own c) M /\
    nth_error res c = Some (divn (total add (nth c old zero) (map hb M)) (length M)).
  Proof. intros Hc. destruct (get_boos_val B zero add divn harm n ngb Hn Hok old) as [res [E [Lr R]]]. destruct (R c Hc) as [M [BM EM]]. exists res, M. auto. Qed.

  (** With surface bonds: the mean over the bonds of the particle and the bonds between two of its neighbours; no division by zero. *)
  Theorem C77_surface : irreflexive ngb -> exists res, get_surf_boos B zero add divn harm n ngb [] = Val res /\ length res = n /\
    forall c, c < n -> exists M, bonds_such ngb (own_or_surface ngb c) M /\ nth_error res c = Some (mean_from add divn zero (map hb M)).
  Proof.
    intros Ir. destruct (get_surf_val B zero add divn harm n ngb Hn Hok [] Ir) as [res [E [Lr R]]]. exists res. split; [auto|]. split; [auto|].
    intros c Hc. destruct (R c Hc) as [M [BM EM]]. exists M. split; [auto|]. rewrite EM. unfold mean_from. rewrite map_length. replace (nth c [] zero) with zero by (destruct c; reflexivity). reflexivity.
  Qed.
  (** Both at once: getBOO for every particle, isolated ones included, and the same surface values. *)
  Theorem C77_both : symmetric ngb -> irreflexive ngb -> (forall p q, harm p q = harm q p) ->
    exists res ress, get_boos_surf_boos B zero add divn harm n ngb [] [] = Val (res, ress) /\ get_surf_boos B zero add divn harm n ngb [] = Val ress /\ length res = n /\
      forall c, c < n -> exists b, nth_error res c = Some b /\ get_boo B zero add divn harm n ngb c = Val b.
  Proof.
    intros Sy Ir Hs. destruct (get_both_val B zero add divn harm n ngb Hn Hok [] [] Ir) as [res [ress [E [Lr [E2 R]]]]]. exists res, ress. split; [auto|]. split; [auto|]. split; [auto|].
    intros c Hc. destruct (R c Hc) as [M [BM EM]]. destruct (nth_error_ex ngb c ltac:(lia)) as [l El]. eexists. split; [exact EM|]. rewrite (C77_one c l El). f_equal. replace (nth c [] zero) with zero by (destruct c; reflexivity).
    assert (X := own_bonds_list ngb c M l B harm Hok Sy Ir Hs BM El). unfold mean_from. rewrite X. assert (Y : length M = length l) by (rewrite <- (map_length hb M), X, map_length; auto).
    rewrite Y, map_length. reflexivity.
  Qed.

  (** A selection: its values are those of getBOO, the others are kept; and coarse graining is the mean over the particle and its neighbours. *)
  Theorem C77_selection sel old : Forall (fun p => p < n) sel -> exists res, get_boos_sel B zero add divn harm n ngb sel old = Val res /\ length res = n /\
    forall c, c < n -> (In c sel -> exists b, nth_error res c = Some b /\ get_boo B zero add divn harm n ngb c = Val b) /\ (~ In c sel -> nth_error res c = Some (nth c old zero)).
  Proof.
    intros Hs. rewrite Forall_forall in Hs. unfold get_boos_sel.
    destruct (writes_sel B n ngb Hn (get_boo B zero add divn harm n ngb) (fun c => mean_from add divn zero (map (harm c) (nth c ngb []))) sel (resize B zero n old)) as [res [E [Lr R]]].
    - apply (resize_len B zero n ngb Hn).
    - intros p I. split; [auto|]. apply C77_one. apply nth_error_nth'. specialize (Hs p I). lia.
    - exists res. split; [exact E|]. split; [auto|]. intros c Hc. rewrite R by auto. split; intros I.
      + assert (X : existsb (Nat.eqb c) sel = true) by (apply existsb_exists; exists c; split; [auto|apply Nat.eqb_refl]). rewrite X. eexists. split; [reflexivity|]. apply C77_one. apply nth_error_nth'. lia.
      + destruct (existsb (Nat.eqb c) sel) eqn:X; [apply existsb_exists in X as [z [J Q]]; apply Nat.eqb_eq in Q; subst; contradiction|]. apply (resize_nth B zero n ngb Hn); auto.
  Qed.
  Theorem C77_coarse sel boo old : length boo = n -> Forall (fun p => p < n) sel -> exists res, get_cg_boos B zero add divn n ngb sel boo old = Val res /\ length res = n /\
    forall c l, nth_error ngb c = Some l -> nth_error res c = Some (if existsb (Nat.eqb c) sel then divn (total add (nth c boo zero) (map (fun q => nth q boo zero) l)) (1 + length l) else nth c old zero).
  Proof.
    intros Lb Hs. rewrite Forall_forall in Hs. unfold get_cg_boos.
    destruct (writes_sel B n ngb Hn (get_cg_boo B add divn ngb boo) (fun c => divn (total add (nth c boo zero) (map (fun q => nth q boo zero) (nth c ngb []))) (1 + length (nth c ngb []))) sel (resize B zero n old)) as [res [E [Lr R]]].
    - apply (resize_len B zero n ngb Hn).
    - intros p I. specialize (Hs p I). split; [auto|]. apply (get_cg_val B zero add divn n ngb Hn Hok boo p); auto; [apply nth_error_nth'; lia|apply nth_error_nth'; lia].
    - exists res. split; [exact E|]. split; [auto|]. intros c l El. assert (Hc := nth_error_lt _ _ _ El). rewrite Hn in Hc. rewrite R by auto. rewrite (nth_error_nth _ _ [] El).
      destruct (existsb (Nat.eqb c) sel); [reflexivity|]. apply (resize_nth B zero n ngb Hn); auto.
  Qed.

  (** Flips along a set of bonds: each particle with its mates by these bonds, turned, except along bonds with a null end. *)
  Theorem C77_flip boo bonds : length boo = n -> bond_set bonds -> Forall (fun b => fst b < snd b < n) bonds ->
    exists res, get_flip_boos B add divn turn null n boo bonds = Val res /\ length res = n /\
      forall c, c < n -> exists P, (forall b, P b = true <-> own c (fst b) (snd b) /\ null (nth (fst b) boo zero) = false /\ null (nth (snd b) boo zero) = false) /\
        nth_error res c = Some (divn (total add (nth c boo zero) (map (fun b => turn (fst b) (snd b) (nth (other_end c b) boo zero)) (filter P bonds))) (1 + length (filter P bonds))).
  Proof.
    intros Lb _ Hb. destruct (get_flip_val B zero add divn n ngb Hn turn null boo bonds Lb Hb) as [res [E [Lr R]]]. exists res. split; [auto|]. split; [auto|].
    intros c Hc. eexists. split; [|apply (R c Hc)]. intros [p q]. unfold live. rewrite !andb_true_iff, !negb_true_iff. unfold ownb, own. cbn [fst snd]. rewrite orb_true_iff, !Nat.eqb_eq. tauto.
  Qed.

  (** Removing the values outside of a sorted selection of particles. *)
  Theorem C77_outside inside bs : length bs = n -> StronglySorted lt inside -> Forall (fun p => p < n) inside ->
    exists res, remove_outside B zero n inside 0 bs = Val res /\ length res = n /\
      forall c, c < n -> (In c inside -> nth_error res c = nth_error bs c) /\ (~ In c inside -> nth_error res c = Some zero).
  Proof.
    intros Lb So Hi. rewrite Forall_forall in Hi. destruct (remove_val B zero n ngb Hn inside 0 bs Lb So) as [res [E [Lr R]]].
    { intros i I. specialize (Hi i I). lia. }
    exists res. split; [auto|]. split; [auto|]. intros c Hc. rewrite R by auto. cbn [Nat.ltb Nat.leb orb]. split; intros I.
    - assert (X : existsb (Nat.eqb c) inside = true) by (apply existsb_exists; exists c; split; [auto|apply Nat.eqb_refl]). rewrite X. reflexivity.
    - destruct (existsb (Nat.eqb c) inside) eqn:X; [apply existsb_exists in X as [z [J Q]]; apply Nat.eqb_eq in Q; subst; contradiction|reflexivity].
  Qed.
End C77.

(** Unsorted selections lose selected values, selections past the end write out of bounds. *)
Theorem C77_outside_refuted : (exists inside, remove_outside nat 0 4 inside 0 [10; 11; 12; 13] = Val [0; 0; 0; 0] /\ In 3 inside /\ In 1 inside)
  /\ remove_outside nat 0 2 [5] 0 [10; 11] = UB.
Proof. split; [exists [3; 1; 0]|]; vm_compute; intuition. Qed.

(** A concrete case: a triangle 0 1 2, a particle 3 linked to 2, an isolated particle 4.  Values are fractions, [None] stands for NaN. *)
Definition qadd (a b : option Q) : option Q := match a, b with Some x, Some y => Some (Qred (x + y)) | _, _ => None end.
Definition qdiv (a : option Q) (k : nat) : option Q := match a with Some x => if k =? 0 then None else Some (Qred (x / inject_Z (Z.of_nat k))) | None => None end.
Definition tri : list (list nat) := [[1; 2]; [0; 2]; [0; 1; 3]; [2]; []].
Definition qharm (p q : nat) : option Q := Some (inject_Z (Z.of_nat (p * q + p + q))).
Example C77_case_ok : ngb_ok tri /\ symmetric tri /\ irreflexive tri /\ forall p q, qharm p q = qharm q p.
Proof.
  assert (K : forall i j, linked tri i j -> In (i, j) [(0,1);(0,2);(1,0);(1,2);(2,0);(2,1);(2,3);(3,2)]).
  { intros i j [l [E I]]. do 5 (destruct i as [|i]; [injection E as <-; cbn in I; intuition (subst; cbn; tauto)|]). destruct i; discriminate. }
  split; [|split; [|split]].
  - intros i l E. do 5 (destruct i as [|i]; [injection E as <-; split; [repeat constructor|cbn; intros j I; intuition lia]|]). destruct i; discriminate.
  - intros i j L. assert (X : forall i j l, nth_error tri i = Some l -> In j l -> linked tri i j) by (intros; eexists; eauto).
    apply K in L. cbn in L. repeat (destruct L as [L|L]; [injection L as <- <-; eapply X; [reflexivity|cbn; tauto]|]). destruct L.
  - intros i L. apply K in L. cbn in L. repeat (destruct L as [L|L]; [injection L as <- E; discriminate|]). destruct L.
  - intros p q. unfold qharm. do 3 f_equal. lia.
Qed.
Example C77_case : get_boos (option Q) (Some 0%Q) qadd qdiv qharm 5 tri [] = Val [Some (3 # 2)%Q; Some 3%Q; Some 6%Q; Some 11%Q; None]
  /\ get_boos_surf_boos (option Q) (Some 0%Q) qadd qdiv qharm 5 tri [] [] =
     Val ([Some (3 # 2)%Q; Some 3%Q; Some 6%Q; Some 11%Q; Some 0%Q], [Some (8 # 3)%Q; Some (8 # 3)%Q; Some (19 # 4)%Q; Some 11%Q; Some 0%Q])
  /\ get_boo (option Q) (Some 0%Q) qadd qdiv qharm 5 tri 4 = Val (Some 0%Q)
  /\ get_boos (option Q) (Some 0%Q) qadd qdiv qharm 5 tri [Some 10%Q] = Val [Some (13 # 2)%Q; Some 3%Q; Some 6%Q; Some 11%Q; None].
Proof. vm_compute. auto. Qed.

Print Assumptions C77_one.
Print Assumptions C77_all.
Print Assumptions C77_isolated_refuted.
Print Assumptions C77_reused_refuted.
Print Assumptions C77_surface.
Print Assumptions C77_both.
Print Assumptions C77_selection.
Print Assumptions C77_coarse.
Print Assumptions C77_flip.
Print Assumptions C77_outside.
Print Assumptions C77_outside_refuted.

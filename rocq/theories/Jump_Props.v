(** C119: frequency of jumps between cages; C120: life times of cages. *)
Require Import ZArith QArith List Bool Arith Lia.
Require Import Verif.Base Verif.ListX Verif.RTree_Model Verif.Traj_Model Verif.Traj_Spec Verif.Traj_Proofs Verif.Particles_Model Verif.Corr_Model Verif.Corr_Proofs Verif.Boo_Model Verif.Pyramid_Proofs Verif.Dyn_Model Verif.Dyn_Proofs Verif.Cluster_Spec Verif.Par_Proofs Verif.TrajMap_Proofs Verif.Dyn_Spec Verif.Cages_Proofs Verif.Dyn_Props Verif.Jump_Model.
Import ListNotations.
Local Open Scope nat_scope.

(** * Specification *)
(** The time e is the last one of a cage of the trajectory. *)
Definition cage_end (cages : list traj) (T : traj) (e : nat) : Prop :=
  exists c q, In c cages /\ at_time c e q /\ at_time T e q /\ forall u q', at_time c u q' -> u <= e.
(** The index of cages is exact where there are cages, and the cages cover the trajectories: each step of a trajectory is in a cage made of steps of this trajectory only. *)
Definition indexed (cages : trajindex) : Prop :=
  (forall k c t p, nth_error (trajs cages) k = Some c -> at_time c t p -> invert cages t p = Some k) /\
  (forall k c, nth_error (trajs cages) k = Some c -> steps c <> [] /\ (Z.of_nat (start c + length (steps c)) <= 2 ^ 64)%Z).
Definition covered_at (cages : trajindex) (T : traj) (t : nat) : Prop :=
  exists k c p, nth_error (trajs cages) k = Some c /\ at_time c t p /\ at_time T t p /\ forall u q, at_time c u q -> at_time T u q.
Definition covered (ti cages : trajindex) : Prop := forall T t p, In T (trajs ti) -> at_time T t p -> covered_at cages T t.

(** * Proofs *)
Definition cell (js : list (list nat)) (u p : nat) : nat := nth p (nth u js []) 0.
Definition atb (T : traj) (u p : nat) : bool := (start T <=? u) && match nth_error (steps T) (u - start T) with Some q => q =? p | None => false end.
Lemma atb_iff T u p : atb T u p = true <-> at_time T u p.
Proof.
  unfold atb, at_time. rewrite andb_true_iff, Nat.leb_le. split.
  - intros [A B]. exists (u - start T). split; [lia|]. destruct (nth_error _ _) as [q|]; [|discriminate]. apply Nat.eqb_eq in B. congruence.
  - intros [k [-> E]]. replace (start T + k - start T) with k by lia. rewrite E. split; [lia|apply Nat.eqb_refl].
Qed.
Lemma nth_set_d : forall (A : Type) (d : A) l i x j, i < length l -> nth j (set_nth i x l) d = if j =? i then x else nth j l d.
Proof.
  intros A d l i x j H. destruct (lt_dec j (length l)) as [L|L].
  - pose proof (nth_set_x A l i x j H) as E. destruct (j =? i); [apply nth_error_nth; auto|].
    rewrite (nth_error_nth' l d L) in E. apply nth_error_nth; auto.
  - destruct (Nat.eqb_spec j i) as [->|]; [lia|]. rewrite !nth_overflow; auto; try lia. rewrite set_nth_len. lia.
Qed.
Lemma map_set_nth_len : forall (js : list (list nat)) u row, map (@length nat) (set_nth u row js) = set_nth u (length row) (map (@length nat) js).
Proof. induction js as [|a js IH]; intros [|u] row; cbn; auto. f_equal. apply IH. Qed.
Lemma set_nth_same : forall (l : list nat) u x, nth_error l u = Some x -> set_nth u x l = l.
Proof. induction l as [|a l IH]; intros [|u] x H; cbn in *; try congruence. f_equal. apply IH; auto. Qed.
Lemma incr_at_ok u p js : u < length js -> p < length (nth u js []) ->
  exists js', incr_at u p js = Val js' /\ map (@length nat) js' = map (@length nat) js /\ forall v q, cell js' v q = cell js v q + (if (v =? u) && (q =? p) then 1 else 0).
Proof.
  intros Hu Hp. unfold incr_at, at_index. rewrite (nth_error_nth' js [] Hu). cbn [obind]. rewrite (nth_error_nth' _ 0 Hp). cbn [omap]. eexists. split; [reflexivity|]. split.
  - rewrite map_set_nth_len, set_nth_len. apply set_nth_same. rewrite nth_error_map, (nth_error_nth' js [] Hu). reflexivity.
  - intros v q. unfold cell. rewrite nth_set_d by auto. destruct (Nat.eqb_spec v u) as [->|]; cbn [andb]; [|lia]. rewrite nth_set_d by auto. destruct (q =? p) eqn:E; [|lia]. apply Nat.eqb_eq in E as ->. lia.
Qed.

Section JumpProofs.
  Variables (ti cages : trajindex) (tau : nat).
  Hypothesis (C : consistent ti).
  Definition shaped (js : list (list nat)) : Prop := map (@length nat) js = map (@length nat) (inverse ti).
  Lemma small_of T : In T (trajs ti) -> small T.
  Proof. intros H. apply In_nth_error in H as [k H]. destruct C as [_ C2]. destruct (C2 k T H) as [A B]. split; auto. Qed.
  Lemma in_shape js T u p : shaped js -> In T (trajs ti) -> at_time T u p -> u < length js /\ p < length (nth u js []).
  Proof.
    intros Sh H A. apply In_nth_error in H as [k H]. assert (E : invert ti u p = Some k) by (apply C; eauto). unfold invert in E. destruct (nth_error (inverse ti) u) as [row|] eqn:Er; [|discriminate].
    assert (Lp : p < length row) by (eapply nth_error_lt; eauto). assert (Lu : u < length (inverse ti)) by (eapply nth_error_lt; eauto).
    assert (L : length js = length (inverse ti)) by (rewrite <- (map_length (@length nat) js), Sh, map_length; auto). split; [lia|].
    assert (X : nth_error (map (@length nat) js) u = nth_error (map (@length nat) (inverse ti)) u) by (rewrite Sh; auto). rewrite !nth_error_map, Er, (nth_error_nth' js []) in X by lia. cbn in X. injection X as ->. auto.
  Qed.
  Lemma mark_ok T lo hi js : In T (trajs ti) -> shaped js -> start T <= lo -> hi < start T + length (steps T) ->
    exists js', mark T lo hi js = Val js' /\ shaped js' /\ forall u p, cell js' u p = cell js u p + (if (lo <=? u) && (u <=? hi) && atb T u p then 1 else 0).
  Proof.
    intros HT. unfold mark. assert (G : forall n lo js, shaped js -> start T <= lo -> lo + n <= start T + length (steps T) ->
      exists js', ofold (fun u js => obind (access T u) (fun p => incr_at u p js)) (seq lo n) js = Val js' /\ shaped js' /\ forall u p, cell js' u p = cell js u p + (if (lo <=? u) && (u <? lo + n) && atb T u p then 1 else 0)).
    { induction n as [|n IH]; intros a js0 Sh Ha Hb.
      - exists js0. split; [reflexivity|]. split; auto. intros u p. destruct (Nat.leb_spec a u), (Nat.ltb_spec u (a + 0)); cbn [andb]; lia.
      - cbn [seq ofold]. destruct (at_time_ex T a) as [p Hp]; [lia|]. destruct (in_shape js0 T a p Sh HT Hp) as [Lu Lp]. assert (E : access T a = Val p) by (apply access_val; auto; apply small_of; auto). rewrite E. cbn [obind].
        destruct (incr_at_ok a p js0 Lu Lp) as [js1 [E1 [S1 Q1]]]. rewrite E1. cbn [obind]. destruct (IH (S a) js1) as [js2 [E2 [S2 Q2]]]; [unfold shaped in *; congruence|lia|lia|]. exists js2. split; [exact E2|]. split; auto.
        intros v q. rewrite Q2, Q1. destruct (Nat.eqb_spec v a) as [->|Nv]; cbn [andb].
        + rewrite (proj2 (Nat.leb_le a a)) by lia. rewrite (proj2 (Nat.leb_gt (S a) a)) by lia. rewrite (proj2 (Nat.ltb_lt a (a + S n))) by lia. cbn [andb].
          destruct (Nat.eqb_spec q p) as [->|Nq]; [rewrite (proj2 (atb_iff T a p) Hp); lia|]. destruct (atb T a q) eqn:Eq; [|lia]. apply atb_iff in Eq. exfalso. apply Nq. eapply at_time_fun; eauto.
        + destruct (Nat.leb_spec (S a) v), (Nat.leb_spec a v), (Nat.ltb_spec v (S a + n)), (Nat.ltb_spec v (a + S n)); cbn [andb]; try lia. }
    intros Sh Hlo Hhi. destruct (le_lt_dec lo hi) as [L|L].
    - destruct (G (hi + 1 - lo) lo js Sh Hlo) as [js' [E [Sh' Q']]]; [lia|]. exists js'. split; auto. split; auto. intros u p. rewrite Q'. do 2 f_equal. replace (lo + (hi + 1 - lo)) with (hi + 1) by lia.
      destruct (Nat.ltb_spec u (hi + 1)), (Nat.leb_spec u hi); auto; lia.
    - replace (hi + 1 - lo) with 0 by lia. exists js. split; [reflexivity|]. split; auto. intros u p. destruct (Nat.leb_spec lo u), (Nat.leb_spec u hi); cbn [andb]; lia.
  Qed.
  Lemma last_exact T : steps T <> [] -> (Z.of_nat (start T + length (steps T)) <= 2 ^ 64)%Z -> Z.to_nat (last_time T) = start T + length (steps T) - 1 /\ last_time T = Z.of_nat (start T + length (steps T) - 1).
  Proof. intros A B. assert (X : small T) by (split; auto). rewrite last_time_exact by auto. assert (0 < length (steps T)) by (destruct (steps T); [congruence|cbn; lia]). lia. Qed.
  Definition near (u e : nat) : bool := (e <=? u + tau / 2) && (u <=? e + tau / 2).

  (** one turn: the cage found is c *)
  Lemma turn_ok T t k c p js : In T (trajs ti) -> shaped js -> at_time T t p -> nth_error (trajs cages) k = Some c -> steps c <> [] -> (Z.of_nat (start c + length (steps c)) <= 2 ^ 64)%Z ->
    invert cages t p = Some k -> let e := start c + length (steps c) - 1 in
    exists js', turn cages tau T t js = Val (e, js') /\ shaped js' /\ forall u q, cell js' u q = cell js u q + (if near u e && atb T u q then 1 else 0).
  Proof.
    intros HT Sh A Hk Hc1 Hc2 Hi e. unfold turn. unfold invert in Hi. destruct (nth_error (inverse cages) t) as [row|] eqn:Er; [|discriminate]. unfold at_index at 1. rewrite Er. cbn [obind].
    assert (Sm : small T) by (apply small_of; auto). assert (E : access T t = Val p) by (apply access_val; auto). rewrite E. cbn [obind]. unfold at_index at 1. rewrite Hi. cbn [obind]. unfold at_index at 1. rewrite Hk. cbn [obind].
    destruct (last_exact c Hc1 Hc2) as [-> _]. fold e. destruct Sm as [Sm1 Sm2]. destruct (last_exact T Sm1) as [-> _]; [unfold size_mod in Sm2; lia|]. cbv zeta.
    assert (LT : 0 < length (steps T)) by (destruct (steps T); [congruence|cbn; lia]).
    destruct (mark_ok T (Nat.max (start T + tau / 2) e - tau / 2) (Nat.min (start T + length (steps T) - 1) (e + tau / 2)) js HT Sh) as [js' [E' [Sh' Q']]]; [lia|lia|].
    rewrite E'. cbn [omap]. exists js'. split; auto. split; auto. intros u q. rewrite Q'. do 2 f_equal. destruct (atb T u q) eqn:Eq; [|rewrite !andb_false_r; auto]. apply atb_iff in Eq. apply at_time_range in Eq. rewrite !andb_true_r. unfold near.
    destruct (Nat.leb_spec (Nat.max (start T + tau / 2) e - tau / 2) u), (Nat.leb_spec u (Nat.min (start T + length (steps T) - 1) (e + tau / 2))), (Nat.leb_spec e (u + tau / 2)), (Nat.leb_spec u (e + tau / 2)); cbn [andb]; auto; lia.
  Qed.
  Definition count (f : nat -> bool) (l : list nat) : nat := length (filter f l).

  Lemma walk_unfold T fuel t js : In T (trajs ti) -> (Z.of_nat (start T + length (steps T)) < 2 ^ 64)%Z -> walk cages tau fuel T t js =
    if t <? start T + length (steps T) then match fuel with 0 => None | S f => match turn cages tau T t js with Val (e, js') => walk cages tau f T (e + 1) js' | Throw => Some Throw | UB => Some UB end end else Some (Val js).
  Proof.
    intros HT Hb. destruct (small_of T HT) as [A B]. destruct (last_exact T A) as [_ L]; [lia|]. assert (0 < length (steps T)) by (destruct (steps T); [congruence|cbn; lia]).
    assert (E : (Z.of_nat t <? (last_time T + 1) mod size_mod)%Z = (t <? start T + length (steps T))).
    { rewrite L. rewrite Z.mod_small by (unfold size_mod; lia). destruct (Nat.ltb_spec t (start T + length (steps T))); [apply Z.ltb_lt; lia|apply Z.ltb_ge; lia]. }
    destruct fuel; cbn [walk]; rewrite E; reflexivity.
  Qed.

  Section Good.
    Hypothesis (I : indexed cages).
    Lemma walk_ok T : In T (trajs ti) -> (Z.of_nat (start T + length (steps T)) < 2 ^ 64)%Z -> (forall t p, at_time T t p -> covered_at cages T t) ->
      forall n t js fuel, start T + length (steps T) - t <= n -> n <= fuel -> start T <= t -> shaped js ->
      exists js' L, walk cages tau fuel T t js = Some (Val js') /\ shaped js' /\ NoDup L /\ (forall e, In e L <-> cage_end (trajs cages) T e /\ t <= e) /\
        forall u p, cell js' u p = cell js u p + (if atb T u p then count (near u) L else 0).
    Proof.
      intros HT Hb Cov. induction n as [|n IH]; intros t js fuel Hn Hf Ht Sh; rewrite walk_unfold by auto.
      - destruct (Nat.ltb_spec t (start T + length (steps T))) as [|Hge]; [lia|]. exists js, []. split; auto. split; auto. split; [constructor|]. split.
        + intros e. split; [contradiction|]. intros [[c [q [_ [_ [A _]]]]] Hte]. apply at_time_range in A. lia.
        + intros u p. cbn. destruct (atb T u p); lia.
      - destruct (Nat.ltb_spec t (start T + length (steps T))) as [Hlt|Hge].
        + destruct fuel as [|f]; [lia|]. destruct (at_time_ex T t) as [p Hp]; [lia|]. destruct (Cov t p Hp) as [k [c [p' [Hk [Hc [Hp' Sub]]]]]]. assert (p' = p) as -> by (eapply at_time_fun; eauto).
          destruct I as [I1 I2]. destruct (I2 k c Hk) as [Nc Bc]. destruct (turn_ok T t k c p js HT Sh Hp Hk Nc Bc (I1 k c t p Hk Hc)) as [js1 [E1 [S1 Q1]]]. rewrite E1. set (e := start c + length (steps c) - 1) in *.
          assert (Lc : 0 < length (steps c)) by (destruct (steps c); [congruence|cbn; lia]). pose proof (at_time_range c t p Hc) as Rc.
          destruct (at_time_ex c e) as [qe Hqe]; [lia|]. pose proof (Sub e qe Hqe) as HTe. pose proof (at_time_range T e qe HTe) as RTe.
          destruct (IH (e + 1) js1 f) as [js2 [L [E2 [S2 [ND [HL Q2]]]]]]; [lia|lia|lia|auto|].
          exists js2, (e :: L). split; [exact E2|]. split; auto. split; [|split].
          * constructor; auto. intros X. apply HL in X. lia.
          * intros x. cbn [In]. split.
            -- intros [<-|X]; [|apply HL in X as [X1 X2]; split; [auto|lia]]. split; [|lia]. exists c, qe. split; [eapply nth_error_In; eauto|]. split; auto. split; auto. intros u q' Hu. apply at_time_range in Hu. lia.
            -- intros [X Hx]. destruct (Nat.eq_dec e x) as [|Ne]; auto. right. apply HL. split; auto. destruct (le_lt_dec (e + 1) x) as [|Lx]; auto. exfalso. destruct X as [d [q [Hd [A1 [A2 A3]]]]].
               (* x is in the cage c as well *)
               assert (Hcx : exists q', at_time c x q') by (apply at_time_ex; lia). destruct Hcx as [q' Hq']. pose proof (Sub x q' Hq') as Tq. assert (q' = q) as -> by (eapply at_time_fun; eauto).
               apply In_nth_error in Hd as [k' Hd]. pose proof (I1 k' d x q Hd A1) as J1. pose proof (I1 k c x q Hk Hq') as J2. assert (k' = k) as -> by congruence. assert (d = c) as -> by congruence.
               specialize (A3 e qe Hqe). lia.
          * intros u q. rewrite Q2, Q1. unfold count. cbn [filter]. destruct (atb T u q); [|rewrite andb_false_r; lia]. rewrite andb_true_r. destruct (near u e); cbn [length]; lia.
        + exists js, []. split; auto. split; auto. split; [constructor|]. split.
          * intros e. split; [contradiction|]. intros [[c [q [_ [_ [A _]]]]] Hte]. apply at_time_range in A. lia.
          * intros u p. cbn. destruct (atb T u p); lia.
    Qed.
    Hypothesis (V : covered ti cages) (B : forall T, In T (trajs ti) -> (Z.of_nat (start T + length (steps T)) < 2 ^ 64)%Z).
    Lemma walk_all_ok fuel : (forall T, In T (trajs ti) -> length (steps T) <= fuel) -> forall tri js, (forall T, In T tri -> In T (trajs ti)) -> shaped js ->
      exists js' Ls, walk_all cages tau fuel tri js = Some (Val js') /\ shaped js' /\ Forall2 (fun T L => NoDup L /\ forall e, In e L <-> cage_end (trajs cages) T e) tri Ls /\
        forall u p, cell js' u p = cell js u p + fold_right (fun TL s => s + (if atb (fst TL) u p then count (near u) (snd TL) else 0)) 0 (combine tri Ls).
    Proof.
      intros Hf. induction tri as [|T tri IH]; intros js Hin Sh.
      - exists js, []. split; [reflexivity|]. split; [exact Sh|]. split; [constructor|]. intros u p. cbn. lia.
      - assert (HT : In T (trajs ti)) by (apply Hin; left; auto). cbn [walk_all].         destruct (walk_ok T HT (B T HT) (fun t p => V T t p HT) (length (steps T)) (start T) js fuel) as [js1 [L [E [S1 [ND [HL Q]]]]]]; [lia|apply Hf; auto|lia|auto|]. rewrite E.
        destruct (IH js1) as [js2 [Ls [E2 [S2 [F Q2]]]]]; [intros; apply Hin; right; auto|auto|]. exists js2, (L :: Ls). split; auto. split; auto. split.
        + constructor; auto. split; auto. intros e. rewrite HL. split; [tauto|]. intros X. split; auto. destruct X as [c [q [_ [_ [A _]]]]]. apply at_time_range in A. lia.
        + intros u p. rewrite Q2, Q. cbn [combine fold_right fst snd]. lia.
    Qed.
  End Good.
End JumpProofs.

Lemma combine_nth_error : forall (A B : Type) (l : list A) (r : list B) k x, nth_error (combine l r) k = Some x -> nth_error l k = Some (fst x) /\ nth_error r k = Some (snd x).
Proof.
  induction l as [|a l IH]; intros r k x H; [destruct k; discriminate|]. destruct r as [|b r]; [destruct k; discriminate|].
  destruct k as [|k]; cbn in *; [injection H as <-; auto|apply IH; auto].
Qed.
Lemma forall2_nth : forall (A B : Type) (R : A -> B -> Prop) l r k x, Forall2 R l r -> nth_error l k = Some x -> exists y, nth_error r k = Some y /\ nth_error (combine l r) k = Some (x, y) /\ R x y.
Proof.
  intros A B R l r k x F. revert k. induction F as [|a b l r Hab F IH]; intros k H; [destruct k; discriminate|]. destruct k as [|k]; cbn in *.
  - injection H as ->. exists b. auto.
  - apply IH. auto.
Qed.
Lemma sum_none : forall (A : Type) (f : A -> bool) (g : A -> nat) l, (forall j x, nth_error l j = Some x -> f x = false) -> fold_right (fun x s => s + (if f x then g x else 0)) 0 l = 0.
Proof.
  induction l as [|a l IH]; intros H; [reflexivity|]. cbn [fold_right]. rewrite IH by (intros j x; apply (H (S j))). rewrite (H 0 a eq_refl). reflexivity.
Qed.
Lemma sum_single : forall (A : Type) (f : A -> bool) (g : A -> nat) l k x, nth_error l k = Some x -> f x = true -> (forall j y, nth_error l j = Some y -> f y = true -> j = k) ->
  fold_right (fun x s => s + (if f x then g x else 0)) 0 l = g x.
Proof.
  induction l as [|a l IH]; intros k x Hk Hf U; [destruct k; discriminate|]. cbn [fold_right]. destruct k as [|k]; cbn in Hk.
  - injection Hk as ->. rewrite Hf, sum_none; [lia|]. intros j y Hy. destruct (f y) eqn:E; auto. specialize (U (S j) y Hy E). lia.
  - rewrite (IH k x Hk Hf); [|intros j y Hy E; specialize (U (S j) y Hy E); lia]. destruct (f a) eqn:E; [|lia]. specialize (U 0 a eq_refl E). lia.
Qed.
Lemma cell_no_jump ti u p : cell (no_jump ti) u p = 0.
Proof.
  unfold cell, no_jump. destruct (nth_in_or_default u (map (fun row => repeat 0 (length row)) (inverse ti)) []) as [H| ->]; [|destruct p; reflexivity].
  apply in_map_iff in H as [row [<- _]]. revert p. induction (length row) as [|n IH]; intros [|p]; cbn; auto.
Qed.

(** C119.  Where the index of cages covers the trajectories, the program gives to each step u of each trajectory the number of cages of this trajectory that end within tau/2 of u,
    divided by the number of steps from u - tau/2 (included) to u + tau/2 (excluded) that exist. *)
Theorem C119_frequency ti cages tau fuel : consistent ti -> (forall T, In T (trajs ti) -> (Z.of_nat (start T + length (steps T)) < 2 ^ 64)%Z) -> indexed cages -> covered ti cages ->
  (forall T, In T (trajs ti) -> length (steps T) <= fuel) ->
  exists fs, export_jump ti cages tau fuel = Some (Val fs) /\ map (@length (option Q)) fs = map (@length nat) (inverse ti) /\
    forall T u p, In T (trajs ti) -> at_time T u p -> exists ends, NoDup ends /\ (forall e, In e ends <-> cage_end (trajs cages) T e /\ u - tau / 2 <= e <= u + tau / 2) /\
      let steps_seen := Nat.min (length (inverse ti)) (u + tau / 2) - (u - tau / 2) in
      exists v, nth_error (nth u fs []) p = Some v /\ v = if steps_seen =? 0 then None else Some (inject_Z (Z.of_nat (length ends)) / inject_Z (Z.of_nat steps_seen))%Q.
Proof.
  intros C B I V Hf. assert (S0 : shaped ti (no_jump ti)). { unfold shaped, no_jump. rewrite map_map. apply map_ext. intros r. apply repeat_length. }
  destruct (walk_all_ok ti cages tau C I V B fuel Hf (trajs ti) (no_jump ti)) as [js [Ls [E [Sh [F Q]]]]]; auto.
  set (den := fun u => Nat.min (length (inverse ti)) (u + tau / 2) - (Nat.max (tau / 2) u - tau / 2)).
  set (conv := fun u n => if den u =? 0 then None else Some (inject_Z (Z.of_nat n) / inject_Z (Z.of_nat (den u)))%Q).
  assert (Ln : length js = length (inverse ti)) by (rewrite <- (map_length (@length nat) js), Sh, map_length; auto).
  assert (Ef : osequence (map (frequencies ti tau js) (seq 0 (length (inverse ti)))) = Val (map (fun u => map (conv u) (nth u js [])) (seq 0 (length (inverse ti))))).
  { apply osequence_map_ok. intros u Hu. apply in_seq in Hu. unfold frequencies, at_index. rewrite (nth_error_nth' js []) by lia. reflexivity. }
  eexists. split; [unfold export_jump; rewrite E, Ef; reflexivity|]. split.
  - rewrite <- Sh. rewrite map_map. rewrite <- Ln. clear. apply nth_ext with (d := 0) (d' := 0); rewrite ?map_length, ?seq_length; auto. intros n Hn.
    rewrite (nth_indep _ 0 (length (map (conv 0) (nth 0 js [])))) by (rewrite map_length, seq_length; auto).
    rewrite (map_nth (fun u => length (map (conv u) (nth u js []))) (seq 0 (length js)) 0 n), seq_nth, map_length by auto. cbn [Nat.add].
    change 0 with (length (@nil nat)). rewrite map_nth. reflexivity.
  - intros T u p HT A. destruct (in_shape ti C js T u p Sh HT A) as [Lu Lp]. pose proof HT as HT'. apply In_nth_error in HT' as [k Hk].
    destruct (forall2_nth _ _ _ _ _ _ _ F Hk) as [L [HL [Hc [ND Hin]]]]. exists (filter (near tau u) L). split; [apply NoDup_filter; auto|]. split.
    { intros e. rewrite filter_In, Hin. unfold near. rewrite andb_true_iff, !Nat.leb_le. split; intros [X Y]; (split; [auto|lia]). }
    assert (Hcell : cell js u p = length (filter (near tau u) L)).
    { rewrite Q, cell_no_jump. cbn [Nat.add]. rewrite (sum_single _ (fun TL => atb (fst TL) u p) (fun TL => count (near tau u) (snd TL)) (combine (trajs ti) Ls) k (T, L) Hc); [reflexivity|apply atb_iff; auto|].
      intros j [T' L'] Hj Hat. cbn [fst] in Hat. apply atb_iff in Hat. apply combine_nth_error in Hj as [Hj _]. cbn [fst] in Hj.
      assert (X1 : invert ti u p = Some j) by (apply C; eauto). assert (X2 : invert ti u p = Some k) by (apply C; eauto). congruence. }
    cbv zeta. exists (conv u (cell js u p)). split.
    + assert (X : nth u (map (fun u => map (conv u) (nth u js [])) (seq 0 (length (inverse ti)))) [] = map (conv u) (nth u js [])).
      { apply nth_error_nth. rewrite nth_error_map. rewrite (nth_error_nth' (seq 0 (length (inverse ti))) 0) by (rewrite seq_length; lia). cbn [option_map]. rewrite seq_nth by lia. reflexivity. }
      rewrite X. apply map_nth_error. apply nth_error_nth'. auto.
    + unfold conv, den. rewrite Hcell. replace (Nat.max (tau / 2) u - tau / 2) with (u - tau / 2) by lia. reflexivity.
Qed.

Lemma walk_none ti cages tau T : consistent ti -> In T (trajs ti) -> (Z.of_nat (start T + length (steps T)) < 2 ^ 64)%Z ->
  (forall t p, at_time T t p -> exists k c, nth_error (trajs cages) k = Some c /\ steps c <> [] /\ (Z.of_nat (start c + length (steps c)) <= 2 ^ 64)%Z /\ invert cages t p = Some k /\
     start T <= start c + length (steps c) < start T + length (steps T)) ->
  forall fuel t js, start T <= t < start T + length (steps T) -> shaped ti js -> walk cages tau fuel T t js = None.
Proof.
  intros C HT Hb H. induction fuel as [|f IH]; intros t js Ht Sh; rewrite (walk_unfold ti cages tau C T) by auto; destruct (Nat.ltb_spec t (start T + length (steps T))) as [_|]; try lia; auto.
  destruct (at_time_ex T t Ht) as [p Hp]. destruct (H t p Hp) as [k [c [Hk [Nc [Bc [Hi He]]]]]].
  destruct (turn_ok ti cages tau C T t k c p js HT Sh Hp Hk Nc Bc Hi) as [js' [E [Sh' _]]]. rewrite E. apply IH; auto. assert (0 < length (steps c)) by (destruct (steps c); [congruence|cbn; lia]). lia.
Qed.
Lemma consecutive_bound : forall l s, consecutive s l -> forall c, In c l -> s < start c + length (steps c) <= s + length (concat (map steps l)) /\ steps c <> [].
Proof.
  induction l as [|c0 l IH]; intros s Hc c Hin; [contradiction|]. cbn [map concat consecutive] in *. destruct Hc as [Hs [Hn Hc]]. rewrite app_length.
  assert (0 < length (steps c0)) by (destruct (steps c0); [congruence|cbn; lia]). destruct Hin as [<-|Hin]; [split; [lia|auto]|]. destruct (IH _ Hc c Hin) as [X Y]. split; [lia|auto].
Qed.
(** The index that getCages itself gives does not cover the trajectories it splits (C50: their last step is in no cage).  As soon as the first trajectory is split, the program never ends,
    whatever the averaging time: when it looks for the cage of the last step it is sent back to the first cage. *)
Theorem C119_never_ends_refuted sep thr res ti T0 rest cages : consistent ti -> (forall T, In T (trajs ti) -> (Z.of_nat (start T + length (steps T)) < 2 ^ 64)%Z) -> (0 < thr)%Z ->
  trajs ti = T0 :: rest -> cages_of (sep 0) thr res T0 <> Val [T0] -> get_cages sep thr res ti (map (@length nat) (inverse ti)) = Val cages ->
  forall tau fuel, export_jump ti cages tau fuel = None.
Proof.
  intros C B Ht Etr Hsplit Hget tau fuel.
  assert (HT0 : In T0 (trajs ti)) by (rewrite Etr; left; auto). assert (N0 : nth_error (trajs ti) 0 = Some T0) by (rewrite Etr; auto).
  assert (Bl : forall tr T, nth_error (trajs ti) tr = Some T -> (Z.of_nat (length (steps T)) < 2 ^ 64)%Z). { intros tr T H. apply nth_error_In in H. specialize (B T H). lia. }
  destruct C as [C1 C2] eqn:EC. clear EC. destruct (C2 0 T0 N0) as [Ne0 _]. destruct (C50_cages (sep 0) thr res T0 Ne0 (B T0 HT0) Ht) as [X|[cs0 [E0 [L2 [Cons Cat]]]]]; [congruence|].
  destruct (all_cages_ok sep thr res ti (conj C1 C2) Bl Ht rest 1) as [l [El [A1 _]]]; [intros i T Hi; rewrite Etr; exact Hi|].
  destruct (all_cages_ok sep thr res ti (conj C1 C2) Bl Ht (trajs ti) 0) as [cs [Ecs [P1 [P2 _]]]]; [auto|].
  assert (cs = cs0 ++ l) as ->. { rewrite Etr in Ecs. cbn [all_cages] in Ecs. rewrite E0, El in Ecs. congruence. }
  unfold get_cages in Hget. rewrite Ecs in Hget. destruct (make_inverse (cs0 ++ l) _) as [inv|] eqn:Ei; [|discriminate]. injection Hget as <-.
  unfold make_inverse in Ei. destruct (inv_all_ok (cs0 ++ l) (map (fun n => repeat 0 n) (map (@length nat) (inverse ti))) 0) as [inv' [Ei' [Si [Q1 Q2]]]].
  { intros i c t p Hi Hat. apply cell_zeros. destruct (P1 i c t p Hi Hat) as [j [T [HT HatT]]]. assert (Hinv : invert ti t p = Some j) by (apply C1; eauto). unfold invert in Hinv.
    destruct (nth_error (inverse ti) t) as [row|] eqn:Er; [|discriminate]. exists (length row). split; [apply map_nth_error; auto|eapply nth_error_lt; eauto]. }
  { exact P2. }
  assert (inv' = inv) as -> by congruence. unfold export_jump. rewrite Etr. cbn [walk_all]. set (cages := mkIndex (cs0 ++ l) inv) in *.
  assert (Lr : length (removelast (steps T0)) = length (steps T0) - 1) by (rewrite removelast_firstn_len, firstn_length; lia).
  assert (L0 : 0 < length (steps T0)) by (destruct (steps T0); [congruence|cbn; lia]).
  assert (Piece : forall i c, nth_error cs0 i = Some c -> nth_error (cs0 ++ l) i = Some c /\ steps c <> [] /\ (Z.of_nat (start c + length (steps c)) <= 2 ^ 64)%Z /\ start T0 <= start c + length (steps c) < start T0 + length (steps T0)).
  { intros i c Hi. split; [apply nth_error_firstn_cat; auto|]. destruct (consecutive_bound _ _ Cons c (nth_error_In _ _ Hi)) as [X Y]. rewrite Cat, Lr in X. specialize (B T0 HT0). split; [auto|]. split; lia. }
  rewrite (walk_none ti cages tau T0 (conj C1 C2) HT0 (B T0 HT0)); [reflexivity| |lia|unfold shaped, no_jump; rewrite map_map; apply map_ext; intros; apply repeat_length].
  intros t p Hp. pose proof (at_time_range T0 t p Hp) as Rt. destruct (Nat.eq_dec (t + 1) (start T0 + length (steps T0))) as [Elast|Nlast].
  - destruct cs0 as [|c0 cs0]; [cbn in L2; lia|]. destruct (Piece 0 c0 eq_refl) as [Y1 [Y2 [Y3 Y4]]]. exists 0, c0. split; [exact Y1|]. split; [auto|]. split; [auto|]. split; [|auto].
    change (invert cages t p) with (Traj_Proofs.cell inv t p). rewrite Q2.
    + assert (Hinv : invert ti t p = Some 0) by (apply C1; eauto). unfold invert in Hinv. destruct (nth_error (inverse ti) t) as [row|] eqn:Er; [|discriminate].
      unfold Traj_Proofs.cell. rewrite nth_error_map, nth_error_map, Er. cbn [option_map]. apply nth_error_repeat_x. eapply nth_error_lt; eauto.
    + intros i c Hi Hat. destruct (lt_dec i (length (c0 :: cs0))) as [Li|Li].
      * rewrite nth_error_app1 in Hi by auto. destruct (Piece i c Hi) as [_ [_ [_ Y]]]. apply at_time_range in Hat. lia.
      * rewrite nth_error_app2 in Hi by lia. destruct (A1 _ c t p Hi Hat) as [j [T [HT HatT]]].
        assert (X1 : invert ti t p = Some (S j)) by (apply C1; exists T; split; [rewrite Etr; exact HT|auto]). assert (X2 : invert ti t p = Some 0) by (apply C1; eauto). congruence.
  - destruct (consecutive_cover cs0 (start T0) Cons t p) as [i [c [Hi Hat]]].
    { rewrite Cat. destruct Hp as [k [-> Hk]]. exists k. cbn [start steps]. split; auto. rewrite removelast_firstn_len. rewrite nth_error_firstn_y by lia. auto. }
    destruct (Piece i c Hi) as [Y1 [Y2 [Y3 Y4]]]. exists i, c. split; [exact Y1|]. split; [auto|]. split; [auto|]. split; [|auto].
    change (invert cages t p) with (Traj_Proofs.cell inv t p). rewrite (Q1 i c t p Y1 Hat). reflexivity.
Qed.

(** * C120 *)
(** The distribution of life times: row k of the file is the number of cages of k steps; the program writes out of its array as soon as a cage lasts as many steps as there are frames. *)
Theorem C120_spans size cages : (forall c, In c cages -> length (steps c) < size) ->
  exists l, cage_spans size cages = Val l /\ length l = size /\ forall k, k < size -> nth_error l k = Some (length (filter (fun c => length (steps c) =? k) cages)).
Proof.
  unfold cage_spans. assert (G : forall cages spans, (forall c, In c cages -> length (steps c) < length spans) ->
    exists l, ofold (fun c spans => let k := length (steps c) in omap (fun n => set_nth k (S n) spans) (at_index spans k)) cages spans = Val l /\ length l = length spans /\
      forall k x, nth_error spans k = Some x -> nth_error l k = Some (x + length (filter (fun c => length (steps c) =? k) cages))).
  { induction cages0 as [|c cs IH]; intros spans H.
    - exists spans. split; [reflexivity|]. split; auto. intros k x Hk. rewrite Hk. cbn. f_equal. lia.
    - cbn [ofold]. assert (Hc : length (steps c) < length spans) by (apply H; left; auto). destruct (nth_error_ex spans _ Hc) as [n Hn]. cbv zeta. unfold at_index at 1. rewrite Hn. cbn [omap obind].
      destruct (IH (set_nth (length (steps c)) (S n) spans)) as [l [E [Ll Hl]]]; [intros d Hd; rewrite set_nth_len; apply H; right; auto|]. exists l. split; [exact E|]. split; [rewrite Ll; apply set_nth_len|].
      intros k x Hk. cbn [filter]. pose proof (nth_set_x _ spans (length (steps c)) (S n) k Hc) as Hs. rewrite Nat.eqb_sym. destruct (Nat.eqb_spec k (length (steps c))) as [->|Nk].
      + rewrite (Hl _ _ Hs). cbn [length]. f_equal. assert (x = n) by congruence. lia.
      + rewrite Hk in Hs. apply Hl; auto. }
  intros H. destruct (G cages (repeat 0 size)) as [l [E [L Q]]]; [intros c Hc; rewrite repeat_length; auto|]. exists l. split; auto. split; [rewrite L; apply repeat_length|]. intros k Hk.
  apply (Q k 0). apply nth_error_repeat_x. auto.
Qed.
Theorem C120_long_cage_refuted size cages c : In c cages -> size <= length (steps c) -> cage_spans size cages = UB.
Proof.
  unfold cage_spans. assert (G : forall cages spans, length spans <= length (steps c) -> In c cages -> ofold (fun c spans => let k := length (steps c) in omap (fun n => set_nth k (S n) spans) (at_index spans k)) cages spans = UB).
  { induction cages0 as [|d cs IH]; intros spans H Hin; [contradiction|]. cbn [ofold]. cbv zeta. destruct Hin as [->|Hin].
    - unfold at_index. rewrite (proj2 (nth_error_None spans (length (steps c)))) by auto. reflexivity.
    - unfold at_index at 1. destruct (nth_error spans (length (steps d))) as [n|]; cbn [omap obind]; [|reflexivity]. apply IH; auto. rewrite set_nth_len. auto. }
  intros Hin H. apply G; auto. rewrite repeat_length. auto.
Qed.

Lemma inv_write_some inv t p tr inv' : inv_write inv t p tr = Some inv' -> (exists x, Traj_Proofs.cell inv t p = Some x) /\ map (@length nat) inv' = map (@length nat) inv.
Proof.
  unfold inv_write, Traj_Proofs.cell. destruct (nth_error inv t) as [row|] eqn:Er; [|discriminate]. destruct (nth_error row p) as [x|] eqn:Ex; [|discriminate]. intros H. injection H as <-. split; [eauto|].
  rewrite map_set_nth_len, set_nth_len. apply set_nth_same. rewrite nth_error_map, Er. reflexivity.
Qed.
Lemma inv_traj_some tr : forall ps inv t inv', inv_traj inv t tr ps = Some inv' -> map (@length nat) inv' = map (@length nat) inv /\ forall k p, nth_error ps k = Some p -> exists x, Traj_Proofs.cell inv (t + k) p = Some x.
Proof.
  induction ps as [|p ps IH]; intros inv t inv' H; cbn [inv_traj] in H; [injection H as <-; split; auto; intros [|k] p Hk; discriminate|].
  destruct (inv_write inv t p tr) as [inv1|] eqn:E; [|discriminate]. destruct (inv_write_some _ _ _ _ _ E) as [X S1]. destruct (IH _ _ _ H) as [S2 Y]. split; [congruence|].
  intros [|k] q Hq; cbn in Hq; [injection Hq as <-; rewrite Nat.add_0_r; auto|]. replace (t + S k) with (S t + k) by lia. apply (cell_shape inv1 inv); auto.
Qed.
Lemma inv_all_some : forall tri tr inv inv', inv_all inv tr tri = Some inv' -> forall c t p, In c tri -> at_time c t p -> exists x, Traj_Proofs.cell inv t p = Some x.
Proof.
  induction tri as [|T tri IH]; intros tr inv inv' H c t p Hin Hat; [contradiction|]. cbn [inv_all] in H. destruct (inv_traj inv (start T) tr (steps T)) as [inv1|] eqn:E; [|discriminate].
  destruct (inv_traj_some _ _ _ _ _ E) as [S1 X]. destruct Hin as [->|Hin].
  - destruct Hat as [k [-> Hk]]. apply X; auto.
  - apply (cell_shape inv1 inv); auto. eapply IH; eauto.
Qed.
(** A second run reads the cages back.  It takes for the number of positions of each frame the number of cages at that time.  If every position is below that number, it gets the exact index of
    the cages; if one is not, it writes out of the array. *)
Theorem C120_reload cages size : (forall c, In c cages -> start c + length (steps c) <= size) ->
  (forall i j c d t p, nth_error cages i = Some c -> nth_error cages j = Some d -> at_time c t p -> at_time d t p -> i = j) ->
  let number t := length (filter (fun c => (start c <=? t) && (t <? start c + length (steps c))) cages) in
  ((forall c t p, In c cages -> at_time c t p -> p < number t) ->
     exists ci, reload_cages cages size = Val ci /\ trajs ci = cages /\ map (@length nat) (inverse ci) = map number (seq 0 size) /\
       forall k c t p, nth_error cages k = Some c -> at_time c t p -> invert ci t p = Some k) /\
  ((exists c t p, In c cages /\ at_time c t p /\ number t <= p) -> reload_cages cages size = UB).
Proof.
  intros Hs Hu number. unfold reload_cages, index_frame_sizes. destruct (count_trajs_ok cages (repeat 0 size)) as [r [Er [Lr Qr]]].
  { intros i U HU. rewrite repeat_length. apply Hs. eapply nth_error_In; eauto. }
  assert (R : forall t, t < size -> nth_error r t = Some (number t)). { intros t Ht. rewrite (Qr t 0); [reflexivity|]. apply nth_error_repeat_x. auto. }
  rewrite repeat_length in Lr. rewrite Er. split.
  - intros Hp. destruct (make_inverse_ok cages r) as [inv [Ei [Si Qi]]].
    + intros i c t p Hi Hat. apply nth_error_In in Hi. pose proof (at_time_range c t p Hat). specialize (Hs c Hi). exists (number t). split; [apply R; lia|eapply Hp; eauto].
    + exact Hu.
    + rewrite Ei. exists (mkIndex cages inv). split; auto. split; auto. split; [|exact Qi]. cbn [inverse]. rewrite Si. apply nth_ext with (d := 0) (d' := 0); [rewrite map_length, seq_length; auto|].
      intros n Hn. rewrite (nth_error_nth _ _ 0 (R n ltac:(lia))). symmetry. apply nth_error_nth. rewrite nth_error_map. rewrite (nth_error_nth' (seq 0 size) 0) by (rewrite seq_length; lia). rewrite seq_nth by lia. reflexivity.
  - intros [c [t [p [Hc [Hat Hle]]]]]. destruct (make_inverse cages r) as [inv|] eqn:Ei; auto. exfalso.
    destruct (inv_all_some _ _ _ _ Ei c t p Hc Hat) as [x Hx]. assert (X : exists x, Traj_Proofs.cell (map (fun n => repeat 0 n) r) t p = Some x) by eauto. apply cell_zeros in X as [n [Hn Hp]].
    pose proof (at_time_range c t p Hat). specialize (Hs c Hc). rewrite R in Hn by lia. injection Hn as <-. lia.
Qed.

(** * Cases *)
Definition consb (ti : trajindex) : bool :=
  forallb (fun tr => match nth_error (trajs ti) tr with
    | Some T => negb (length (steps T) =? 0) && (Z.of_nat (start T + length (steps T)) <=? 2 ^ 64)%Z &&
                forallb (fun k => match nth_error (steps T) k with Some p => match invert ti (start T + k) p with Some x => x =? tr | None => false end | None => true end) (seq 0 (length (steps T)))
    | None => true end) (seq 0 (length (trajs ti))) &&
  forallb (fun t => match nth_error (inverse ti) t with
    | Some row => forallb (fun p => match nth_error row p with Some tr => match nth_error (trajs ti) tr with Some T => atb T t p | None => false end | None => true end) (seq 0 (length row))
    | None => true end) (seq 0 (length (inverse ti))).
Lemma consb_ok ti : consb ti = true -> consistent ti.
Proof.
  unfold consb. rewrite andb_true_iff, !forallb_forall. intros [H1 H2].
  assert (F : forall tr T, nth_error (trajs ti) tr = Some T -> steps T <> [] /\ (Z.of_nat (start T + length (steps T)) <= 2 ^ 64)%Z /\ forall t p, at_time T t p -> invert ti t p = Some tr).
  { intros tr T HT. specialize (H1 tr). rewrite HT in H1. assert (L : tr < length (trajs ti)) by (eapply nth_error_lt; eauto). specialize (H1 ltac:(apply in_seq; lia)). rewrite !andb_true_iff in H1. destruct H1 as [[A B] D].
    split; [intros X; rewrite X in A; discriminate|]. split; [apply Z.leb_le; auto|]. intros t p [k [-> Hk]]. rewrite forallb_forall in D. specialize (D k ltac:(apply in_seq; split; [lia|eapply nth_error_lt; eauto])).
    rewrite Hk in D. destruct (invert ti (start T + k) p) as [x|]; [|discriminate]. apply Nat.eqb_eq in D. congruence. }
  split; [|intros tr T HT; destruct (F tr T HT) as [A [B _]]; auto]. intros t p tr. split.
  - intros E. unfold invert in E. destruct (nth_error (inverse ti) t) as [row|] eqn:Er; [|discriminate]. specialize (H2 t). rewrite Er in H2. specialize (H2 ltac:(apply in_seq; split; [lia|eapply nth_error_lt; eauto])).
    rewrite forallb_forall in H2. specialize (H2 p ltac:(apply in_seq; split; [lia|eapply nth_error_lt; eauto])). rewrite E in H2. destruct (nth_error (trajs ti) tr) as [T|]; [|discriminate]. exists T. split; auto. apply atb_iff. auto.
  - intros [T [HT A]]. destruct (F tr T HT) as [_ [_ X]]. auto.
Qed.
Lemma consistent_indexed ti : consistent ti -> indexed ti.
Proof. intros [A B]. split; [intros k c t p H1 H2; apply A; exists c; split; auto|intros k c H; exact (B k c H)]. Qed.

(** One trajectory of five steps, in two cages of two and three steps; and another that leaves no cage. *)
Definition jump_ti := mkIndex [mkTraj 0 [0; 1; 0; 0; 0]; mkTraj 1 [0; 1]] [[0]; [1; 0]; [0; 1]; [0]; [0]].
Definition jump_cages := mkIndex [mkTraj 0 [0; 1]; mkTraj 2 [0; 0; 0]; mkTraj 1 [0; 1]] [[0]; [2; 0]; [1; 2]; [1]; [1]].
Example C119_case : consistent jump_ti /\ indexed jump_cages /\ covered jump_ti jump_cages /\
  export_jump jump_ti jump_cages 2 5 = Some (Val [[Some (1 # 1)]; [Some (1 # 2); Some (1 # 2)]; [Some (1 # 2); Some (1 # 2)]; [Some (1 # 2)]; [Some (1 # 2)]])%Q.
Proof.
  split; [apply consb_ok; reflexivity|]. split; [apply consistent_indexed, consb_ok; reflexivity|]. split; [|vm_compute; reflexivity].
  assert (D : forall k c T, nth_error (trajs jump_cages) k = Some c -> (forallb (fun i => match nth_error (steps c) i with Some p => atb T (start c + i) p | None => true end) (seq 0 (length (steps c)))) = true ->
    forall u q, at_time c u q -> at_time T u q).
  { intros k c T _ H u q [i [-> Hi]]. rewrite forallb_forall in H. specialize (H i ltac:(apply in_seq; split; [lia|eapply nth_error_lt; eauto])). rewrite Hi in H. apply atb_iff. auto. }
  intros T t p HT A. pose proof (at_time_range T t p A) as R. destruct HT as [<-|[<-|[]]]; cbn [start steps length] in R.
  - destruct (lt_dec t 2).
    + exists 0, (mkTraj 0 [0; 1]), p. split; [reflexivity|]. split; [|split; [auto|eapply (D 0); reflexivity]]. destruct A as [k [-> Hk]]. exists k. split; [auto|]. cbn [start steps] in *. do 2 (destruct k; [exact Hk|]). lia.
    + exists 1, (mkTraj 2 [0; 0; 0]), p. split; [reflexivity|]. split; [|split; [auto|eapply (D 1); reflexivity]]. destruct A as [k [-> Hk]]. cbn [start steps] in *. exists (k - 2). cbn [start steps]. split; [lia|].
      destruct k as [|[|k]]; [lia|lia|]. cbn in Hk. replace (S (S k) - 2) with k by lia. exact Hk.
  - exists 2, (mkTraj 1 [0; 1]), p. split; [reflexivity|]. split; [auto|]. split; [auto|]. intros u q X. exact X.
Qed.
(** An averaging time below two steps: every value is a division by zero. *)
Theorem C119_short_time_refuted ti cages tau fuel fs : tau < 2 -> export_jump ti cages tau fuel = Some (Val fs) -> forall f v, In f fs -> In v f -> v = None.
Proof.
  intros Ht E f v Hf Hv. unfold export_jump in E. destruct (walk_all cages tau fuel (trajs ti) (no_jump ti)) as [[js| |]|]; try discriminate. injection E as E.
  apply osequence_inv in E. apply In_nth_error in Hf as [k Hk]. assert (Hz : tau / 2 = 0) by (apply Nat.div_small; auto).
  assert (G : forall l fs k f, Forall2 (fun (o : outcome (list (option Q))) x => o = Val x) (map (frequencies ti tau js) l) fs -> nth_error fs k = Some f -> exists u, In u l /\ frequencies ti tau js u = Val f).
  { clear. induction l as [|u l IH]; intros fs k f F Hk; inversion F; subst; [destruct k; discriminate|]. destruct k as [|k]; cbn in Hk; [injection Hk as <-; exists u; split; [left; auto|auto]|].
    destruct (IH _ _ _ H3 Hk) as [w [A B]]. exists w. split; [right; auto|auto]. }
  destruct (G _ _ _ _ E Hk) as [u [_ Hu]]. unfold frequencies in Hu. rewrite Hz in Hu. cbv zeta in Hu.
  assert (Hd : Nat.min (length (inverse ti)) (u + 0) - (Nat.max 0 u - 0) = 0) by lia. rewrite Hd in Hu. destruct (at_index js u) as [row| |]; try discriminate. cbn in Hu. injection Hu as <-.
  apply in_map_iff in Hv as [n [<- _]]. reflexivity.
Qed.
(** A trajectory that is split: three steps, then two, and the last step is in no cage. *)
Definition split_ti := mkIndex [mkTraj 0 [0; 0; 0; 0; 0; 0]; mkTraj 0 [1; 1; 1; 1; 1; 1]] [[0; 1]; [0; 1]; [0; 1]; [0; 1]; [0; 1]; [0; 1]].
Definition only_first (k : nat) : nat -> nat -> nat -> Z := if k =? 0 then cut3 else fun _ _ _ => 1%Z.
Example C119_split_case : consistent split_ti /\ cages_of (only_first 0) 5 2 (mkTraj 0 [0; 0; 0; 0; 0; 0]) <> Val [mkTraj 0 [0; 0; 0; 0; 0; 0]] /\
  get_cages only_first 5 2 split_ti (map (@length nat) (inverse split_ti)) =
    Val (mkIndex [mkTraj 0 [0; 0; 0]; mkTraj 3 [0; 0]; mkTraj 0 [1; 1; 1; 1; 1; 1]] [[0; 2]; [0; 2]; [0; 2]; [1; 2]; [1; 2]; [0; 2]]).
Proof. split; [apply consb_ok; reflexivity|]. split; [vm_compute; discriminate|reflexivity]. Qed.
(** The cages of a run cannot be read back by the next one: a file of cages with a split trajectory before one that goes on, and the program writes out of the array. *)
Theorem C120_reload_refuted : exists sep thr res ti cages, consistent ti /\ get_cages sep thr res ti (map (@length nat) (inverse ti)) = Val cages /\ reload_cages (trajs cages) (length (inverse ti)) = UB.
Proof. exists only_first, 5%Z, 2, split_ti. eexists. split; [apply consb_ok; reflexivity|]. split; [apply C119_split_case|]. vm_compute. reflexivity. Qed.
Example C120_case : cage_spans 6 [mkTraj 0 [0; 0; 0]; mkTraj 3 [0; 0]; mkTraj 2 [1; 1]] = Val [0; 0; 2; 1; 0; 0] /\
  cage_spans 6 (trajs split_ti) = UB /\ reload_cages (trajs jump_cages) 5 = Val jump_cages.
Proof. repeat split. Qed.

Print Assumptions C119_frequency.
Print Assumptions C119_never_ends_refuted.
Print Assumptions C119_short_time_refuted.
Print Assumptions C119_case.
Print Assumptions C119_split_case.
Print Assumptions C120_spans.
Print Assumptions C120_long_cage_refuted.
Print Assumptions C120_reload.
Print Assumptions C120_reload_refuted.
Print Assumptions C120_case.

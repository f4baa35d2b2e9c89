(** The index of the cages of all the trajectories. *)
Require Import ZArith List Bool Arith Lia.
Require Import Verif.Base Verif.ListX Verif.RTree_Model Verif.Traj_Model Verif.Traj_Spec Verif.Traj_Proofs Verif.Cluster_Spec Verif.Dyn_Model Verif.Dyn_Spec Verif.Dyn_Proofs.
Import ListNotations.
Local Open Scope nat_scope.

Lemma nth_error_firstn_cat {A} (l1 l2 : list A) k x : nth_error l1 k = Some x -> nth_error (l1 ++ l2) k = Some x.
Proof. intros H. rewrite nth_error_app1; auto. eapply nth_error_lt; eauto. Qed.
Lemma nth_error_firstn_y {A} k (l : list A) i : i < k -> nth_error (firstn k l) i = nth_error l i.
Proof. revert k i. induction l as [|x l IH]; intros [|k] [|i] H; simpl; auto; try lia. apply IH. lia. Qed.
(** The positions of consecutive trajectories are those of their concatenation, each in one of them. *)
Lemma consecutive_at : forall cs s, consecutive s cs -> forall i c t p, nth_error cs i = Some c -> at_time c t p -> at_time (mkTraj s (concat (map steps cs))) t p.
Proof.
  induction cs as [|c0 cs IH]; intros s Hc i c t p Hi Hat; [destruct i; discriminate|]. cbn [consecutive] in Hc. destruct Hc as [Hs [Hn Hc]]. cbn [map concat]. destruct i as [|i].
  - injection Hi as <-. destruct Hat as [k [-> Hk]]. exists k. cbn [start steps]. split; [lia|]. apply nth_error_firstn_cat. auto.
  - destruct (IH _ Hc i c t p Hi Hat) as [k [E Hk]]. cbn [start steps] in *. exists (length (steps c0) + k). cbn [start steps]. split; [lia|]. rewrite nth_error_app2 by lia.
    replace (length (steps c0) + k - length (steps c0)) with k by lia. auto.
Qed.
Lemma consecutive_range : forall cs s, consecutive s cs -> forall i c t p, nth_error cs i = Some c -> at_time c t p -> s <= t.
Proof.
  induction cs as [|c0 cs IH]; intros s Hc i c t p Hi Hat; [destruct i; discriminate|]. cbn [consecutive] in Hc. destruct Hc as [Hs [Hn Hc]]. destruct i as [|i].
  - injection Hi as <-. apply at_time_range in Hat. lia.
  - specialize (IH _ Hc i c t p Hi Hat). lia.
Qed.
Lemma consecutive_one : forall cs s, consecutive s cs -> forall i j c d t p q, nth_error cs i = Some c -> nth_error cs j = Some d -> at_time c t p -> at_time d t q -> i = j.
Proof.
  induction cs as [|c0 cs IH]; intros s Hc i j c d t p q Hi Hj Hp Hq; [destruct i; discriminate|]. cbn [consecutive] in Hc. destruct Hc as [Hs [Hn Hc]]. destruct i as [|i], j as [|j]; auto.
  - injection Hi as <-. apply at_time_range in Hp. pose proof (consecutive_range cs _ Hc j d t q Hj Hq). lia.
  - injection Hj as <-. apply at_time_range in Hq. pose proof (consecutive_range cs _ Hc i c t p Hi Hp). lia.
  - f_equal. apply (IH _ Hc i j c d t p q); auto.
Qed.
Lemma removelast_nth {A} : forall (l : list A) k x, nth_error (removelast l) k = Some x -> nth_error l k = Some x.
Proof. induction l as [|a l IH]; intros k x H; [auto|]. destruct l as [|b l]; [destruct k; discriminate|]. destruct k as [|k]; auto. apply IH. auto. Qed.

(** What cages_of guarantees for one trajectory. *)
Definition cage_list (T : traj) (cs : list traj) : Prop :=
  (forall i c t p, nth_error cs i = Some c -> at_time c t p -> at_time T t p) /\
  (forall i j c d t p q, nth_error cs i = Some c -> nth_error cs j = Some d -> at_time c t p -> at_time d t q -> i = j) /\
  (forall t p, at_time T t p -> t + 1 < start T + length (steps T) -> exists i c, nth_error cs i = Some c /\ at_time c t p).
Lemma consecutive_cover : forall cs s, consecutive s cs -> forall t p, at_time (mkTraj s (concat (map steps cs))) t p -> exists i c, nth_error cs i = Some c /\ at_time c t p.
Proof.
  induction cs as [|c0 cs IH]; intros s Hc t p [k [E Hk]]; cbn [start steps map concat] in *; [destruct k; discriminate|]. cbn [consecutive] in Hc. destruct Hc as [Hs [Hn Hc]].
  destruct (Nat.lt_ge_cases k (length (steps c0))) as [Hlt|Hge].
  - exists 0, c0. split; auto. rewrite nth_error_app1 in Hk by auto. exists k. split; [lia|auto].
  - rewrite nth_error_app2 in Hk by auto. destruct (IH _ Hc t p) as [i [c [Hi Hat]]]; [exists (k - length (steps c0)); cbn [start steps]; split; [lia|auto]|]. exists (S i), c. auto.
Qed.
Lemma cages_of_list sep thr res T : small T -> (Z.of_nat (length (steps T)) < 2 ^ 64)%Z -> (0 < thr)%Z -> exists cs, cages_of sep thr res T = Val cs /\ cage_list T cs.
Proof.
  intros Hs Hl Ht. destruct (cages_of_ok sep thr res T Hs Hl Ht) as [E|[cs [E [H2 [Hc Hcat]]]]].
  - exists [T]. split; auto. split; [|split].
    + intros [|i] c t p Hi Hp; [injection Hi as <-; auto|destruct i; discriminate].
    + intros [|i] [|j] c d t p q Hi Hj _ _; auto; [destruct j; discriminate|destruct i; discriminate|destruct i; discriminate].
    + intros t p Hp _. exists 0, T. auto.
  - exists cs. split; auto. split; [|split].
    + intros i c t p Hi Hp. destruct (consecutive_at cs (start T) Hc i c t p Hi Hp) as [k [Ek Hk]]. cbn [start steps] in *. rewrite Hcat in Hk. exists k. split; auto. apply removelast_nth. auto.
    + apply (consecutive_one cs (start T) Hc).
    + intros t p [k [Ek Hk]] Hlast. apply (consecutive_cover cs (start T) Hc). exists k. cbn [start steps]. split; auto. rewrite Hcat.
      rewrite removelast_firstn_len. rewrite nth_error_firstn_y by lia. auto.
Qed.

(** All the trajectories. *)
Lemma all_cages_ok sep thr res ti : consistent ti -> (forall tr T, nth_error (trajs ti) tr = Some T -> (Z.of_nat (length (steps T)) < 2 ^ 64)%Z) -> (0 < thr)%Z ->
  forall tri k, (forall i T, nth_error tri i = Some T -> nth_error (trajs ti) (k + i) = Some T) ->
  exists cs, all_cages sep thr res k tri = Val cs /\
    (forall i c t p, nth_error cs i = Some c -> at_time c t p -> exists j T, nth_error tri j = Some T /\ at_time T t p) /\
    (forall i j c d t p, nth_error cs i = Some c -> nth_error cs j = Some d -> at_time c t p -> at_time d t p -> i = j) /\
    (forall j T t p, nth_error tri j = Some T -> at_time T t p -> t + 1 < start T + length (steps T) -> exists i c, nth_error cs i = Some c /\ at_time c t p).
Proof.
  intros [Hinv Hsm] Hlen Ht. induction tri as [|T tri IH]; intros k Hk.
  - exists []. split; auto. split; [|split]; intros [|i]; discriminate.
  - cbn [all_cages]. assert (HT : nth_error (trajs ti) k = Some T) by (replace k with (k + 0) by lia; apply Hk; auto).
    destruct (cages_of_list (sep k) thr res T (Hsm k T HT) (Hlen k T HT) Ht) as [cs [E [C1 [C2 C3]]]]. rewrite E.
    destruct (IH (S k)) as [ds [Ed [D1 [D2 D3]]]]; [intros i U Hi; replace (S k + i) with (k + S i) by lia; apply Hk; auto|]. rewrite Ed. exists (cs ++ ds). split; auto.
    assert (Hcross : forall i j c d t p, nth_error cs i = Some c -> nth_error ds j = Some d -> at_time c t p -> at_time d t p -> False).
    { intros i j c d t p Hi Hj Hc Hd. destruct (D1 j d t p Hj Hd) as [j' [U [HU HatU]]]. assert (HatT := C1 i c t p Hi Hc).
      assert (HU' : nth_error (trajs ti) (k + S j') = Some U) by (apply Hk; auto).
      assert (E1 : invert ti t p = Some k) by (apply Hinv; eauto). assert (E2 : invert ti t p = Some (k + S j')) by (apply Hinv; eauto). rewrite E1 in E2. injection E2. lia. }
    split; [|split].
    + intros i c t p Hi Hp. destruct (Nat.lt_ge_cases i (length cs)) as [Hlt|Hge].
      * rewrite nth_error_app1 in Hi by auto. exists 0, T. split; auto. eapply C1; eauto.
      * rewrite nth_error_app2 in Hi by auto. destruct (D1 _ c t p Hi Hp) as [j [U [HU HatU]]]. exists (S j), U. auto.
    + intros i j c d t p Hi Hj Hc Hd. destruct (Nat.lt_ge_cases i (length cs)) as [Hi'|Hi'], (Nat.lt_ge_cases j (length cs)) as [Hj'|Hj'].
      * rewrite nth_error_app1 in Hi, Hj by auto. apply (C2 i j c d t p p); auto.
      * rewrite nth_error_app1 in Hi by auto. rewrite nth_error_app2 in Hj by auto. exfalso. eapply Hcross; eauto.
      * rewrite nth_error_app2 in Hi by auto. rewrite nth_error_app1 in Hj by auto. exfalso. eapply Hcross; eauto.
      * rewrite nth_error_app2 in Hi, Hj by auto. assert (i - length cs = j - length cs) by (eapply D2; eauto). lia.
    + intros [|j] U t p HU Hat Hlast.
      * injection HU as <-. destruct (C3 t p Hat Hlast) as [i [c [Hi Hc]]]. exists i, c. split; auto. apply nth_error_firstn_cat. auto.
      * destruct (D3 j U t p HU Hat Hlast) as [i [c [Hi Hc]]]. exists (length cs + i), c. split; auto. rewrite nth_error_app2 by lia. replace (length cs + i - length cs) with i by lia. auto.
Qed.

(** C127: similarities of boo_flip. *)
Require Import List Arith Bool Lia Sorted.
Require Import Verif.ListX Verif.SortU Verif.Traj_Model Verif.Particles_Model Verif.Sim_Model.
Import ListNotations.
Local Open Scope nat_scope.

(** Small specification *)
Definition joins (b : nat * nat) (p : nat) : Prop := fst b = p \/ snd b = p.
(** [counts P l k]: exactly k elements of l satisfy P. *)
Inductive counts {A} (P : A -> Prop) : list A -> nat -> Prop :=
| counts_nil : counts P [] 0
| counts_yes x l k : P x -> counts P l k -> counts P (x :: l) (S k)
| counts_no x l k : ~ P x -> counts P l k -> counts P (x :: l) k.

Lemma lower_from_ok l x : (forall i j, i < j < length l -> nth i l 0 < nth j l 0) -> forall fuel first len, len < fuel -> first + len <= length l ->
  (forall i, i < first -> nth i l 0 < x) -> (forall i, first + len <= i < length l -> x <= nth i l 0) ->
  let r := lower_from fuel l x first len in first <= r <= first + len /\ (forall i, i < r -> nth i l 0 < x) /\ (forall i, r <= i < length l -> x <= nth i l 0).
Proof.
  intros Hs. induction fuel as [|f IH]; intros first len Hf Hl Hlo Hhi; [lia|]. cbn [lower_from]. destruct (Nat.eqb_spec len 0) as [->|Hn].
  - cbv zeta. split; [lia|]. split; [auto|]. intros i Hi. apply Hhi. lia.
  - cbv zeta. assert (H2 : len / 2 < len) by (apply Nat.div_lt; lia). set (h := len / 2) in *. destruct (Nat.ltb_spec (nth (first + h) l 0) x) as [Hx|Hx].
    + assert (E := IH (first + h + 1) (len - h - 1) ltac:(lia) ltac:(lia)). cbv zeta in E. destruct E as [E1 [E2 E3]].
      * intros i Hi. destruct (Nat.eq_dec i (first + h)) as [->|]; auto. assert (nth i l 0 < nth (first + h) l 0) by (apply Hs; lia). lia.
      * intros i Hi. apply Hhi. lia.
      * split; [lia|]. auto.
    + assert (E := IH first h ltac:(lia) ltac:(lia)). cbv zeta in E. destruct E as [E1 [E2 E3]]; auto.
      * intros i Hi. destruct (Nat.eq_dec i (first + h)) as [->|]; auto. assert (nth (first + h) l 0 < nth i l 0) by (apply Hs; lia). lia.
      * split; [lia|]. auto.
Qed.
Lemma sorted_nth l : StronglySorted lt l -> forall i j, i < j < length l -> nth i l 0 < nth j l 0.
Proof.
  induction 1 as [|x l Hs IH Hf]; intros i j Hij; cbn [length] in Hij; [lia|]. destruct j as [|j]; [lia|]. destruct i as [|i]; cbn [nth].
  - rewrite Forall_forall in Hf. apply Hf, nth_In. lia.
  - apply IH. lia.
Qed.
Lemma binary_search_iff l x : StronglySorted lt l -> binary_search l x = true <-> In x l.
Proof.
  intros Hs. assert (Hn := sorted_nth l Hs). assert (E := lower_from_ok l x Hn (S (length l)) 0 (length l) ltac:(lia) ltac:(lia) ltac:(intros; lia) ltac:(intros; lia)). cbv zeta in E. unfold binary_search. cbv zeta.
  set (r := lower_from (S (length l)) l x 0 (length l)) in *. destruct E as [E1 [E2 E3]]. rewrite andb_true_iff, Nat.ltb_lt, negb_true_iff, Nat.ltb_ge. split.
  - intros [Hr Hx]. assert (x <= nth r l 0) by (apply E3; lia). replace x with (nth r l 0) by lia. apply nth_In. auto.
  - intros Hi. apply (In_nth l x 0) in Hi. destruct Hi as [i [Hi Ei]]. assert (r <= i). { destruct (Nat.lt_ge_cases i r); auto. apply E2 in H. lia. }
    split; [lia|]. destruct (Nat.eq_dec r i) as [->|]; [lia|]. assert (nth r l 0 < nth i l 0) by (apply Hn; lia). lia.
Qed.
Lemma seq_sorted n : forall a, StronglySorted lt (seq a n).
Proof. induction n as [|n IH]; intros a; cbn [seq]; constructor; auto. apply Forall_forall. intros x Hx. apply in_seq in Hx. lia. Qed.

Lemma bump_ok p : forall nb, p < length nb -> exists nb', bump p nb = Val nb' /\ length nb' = length nb /\ forall q, nth q nb' 0 = nth q nb 0 + (if q =? p then 1 else 0).
Proof.
  induction p as [|p IH]; intros [|k nb] Hp; cbn [length] in Hp; try lia.
  - exists (S k :: nb). split; [reflexivity|]. split; [reflexivity|]. intros [|q]; cbn [nth Nat.eqb]; lia.
  - destruct (IH nb ltac:(lia)) as [nb' [E [L H]]]. exists (k :: nb'). cbn [bump]. rewrite E. split; [reflexivity|]. split; [cbn; lia|]. intros [|q]; cbn [nth Nat.eqb]; [lia|apply H].
Qed.

Section Statements.
  Variables (V : Type) (unset : V) (high : V -> bool) (n : nat) (null : nat -> bool) (same turned : nat -> nat -> V).
  Local Notation run := (sim_program V unset high n null same turned).
  (** The particles taken: all when none is inside *)
  Definition taken (inside : list nat) (p : nat) : Prop := p < n /\ null p = false /\ (inside = [] \/ In p inside).
  (** Both ends of the bond are taken. *)
  Definition measured (inside : list nat) (b : nat * nat) : Prop := taken inside (fst b) /\ taken inside (snd b).

  Lemma count_bond_ok v b nb : fst b < length nb -> snd b < length nb -> exists nb', count_bond V high v b nb = Val nb' /\ length nb' = length nb /\
    forall q, nth q nb' 0 = nth q nb 0 + (if high v then (if q =? fst b then 1 else 0) + (if q =? snd b then 1 else 0) else 0).
  Proof.
    intros H1 H2. unfold count_bond. destruct (high v).
    - destruct (bump_ok _ _ H1) as [nb1 [E1 [L1 N1]]]. rewrite E1. cbn [obind]. destruct (bump_ok (snd b) nb1 ltac:(lia)) as [nb2 [E2 [L2 N2]]]. exists nb2. split; auto. split; [lia|]. intros q. rewrite N2, N1. lia.
    - exists nb. split; [auto|]. split; [auto|]. intros; lia.
  Qed.
  Definition everyone (inside : list nat) : list nat := match inside with [] => seq 0 n | _ => inside end.
  Lemma everyone_sorted inside : StronglySorted lt inside -> StronglySorted lt (everyone inside).
  Proof. intros H. destruct inside; [apply seq_sorted|auto]. Qed.
  Lemma everyone_in inside p : p < n -> In p (everyone inside) <-> inside = [] \/ In p inside.
  Proof. intros Hp. destruct inside as [|x l]; cbn [everyone]; [rewrite in_seq; split; [auto|lia]|]. split; [auto|intros [E|E]; [discriminate|auto]]. Qed.
  Lemma skipped_ok inside b : StronglySorted lt inside -> fst b < n -> snd b < n -> exists sk, skipped n null (everyone inside) b = Val sk /\ (sk = false <-> measured inside b).
  Proof.
    intros Hs H1 H2. unfold skipped. rewrite (proj2 (Nat.ltb_lt _ _) H1), (proj2 (Nat.ltb_lt _ _) H2). assert (B1 := binary_search_iff _ (fst b) (everyone_sorted inside Hs)). assert (B2 := binary_search_iff _ (snd b) (everyone_sorted inside Hs)).
    rewrite everyone_in in B1, B2 by auto. unfold measured, taken. destruct (null (fst b)) eqn:E1.
    - exists true. split; auto. split; [discriminate|]. intros [[_ [H _]] _]. discriminate.
    - eexists. split; [reflexivity|]. rewrite !orb_false_iff, !negb_false_iff. rewrite B1, B2. split; [intros [[H3 H4] H5]|intros [[_ [_ H4]] [_ [H3 H5]]]]; auto.
  Qed.

  (** What happens over the bonds, for any counts at the start *)
  Lemma similarities_ok inside : StronglySorted lt inside -> forall bonds nb nbr, Forall (fun b => fst b < snd b < n) bonds -> length nb = n -> length nbr = n ->
    exists nb' nbr' s sr, similarities V unset high n null same turned (everyone inside) bonds nb nbr = Val (nb', nbr', s, sr) /\ length nb' = n /\ length nbr' = n /\
      Forall2 (fun b v => (measured inside b /\ v = same (fst b) (snd b)) \/ (~ measured inside b /\ v = unset)) bonds s /\
      Forall2 (fun b v => (measured inside b /\ v = turned (fst b) (snd b)) \/ (~ measured inside b /\ v = unset)) bonds sr /\
      forall p, exists k kr, counts (fun b => joins b p /\ measured inside b /\ high (same (fst b) (snd b)) = true) bonds k /\ nth p nb' 0 = nth p nb 0 + k /\
        counts (fun b => joins b p /\ measured inside b /\ high (turned (fst b) (snd b)) = true) bonds kr /\ nth p nbr' 0 = nth p nbr 0 + kr.
  Proof.
    intros Hs. induction bonds as [|b bonds IH]; intros nb nbr Hb L1 L2.
    - exists nb, nbr, [], []. split; [reflexivity|]. split; auto. split; auto. split; [constructor|]. split; [constructor|]. intros p. exists 0, 0. split; [constructor|]. split; [lia|]. split; [constructor|lia].
    - inversion Hb as [|? ? Hb0 Hbs]; subst. destruct (skipped_ok inside b Hs ltac:(lia) ltac:(lia)) as [sk [Esk Hsk]]. cbn [similarities]. rewrite Esk. cbn [obind]. destruct sk.
      + assert (Nm : ~ measured inside b) by (intros X; apply Hsk in X; discriminate). destruct (IH nb nbr Hbs L1 L2) as [nb' [nbr' [s [sr [E [M1 [M2 [F1 [F2 C]]]]]]]]]. rewrite E. cbn [omap].
        exists nb', nbr', (unset :: s), (unset :: sr). split; [reflexivity|]. split; auto. split; auto. split; [constructor; auto|]. split; [constructor; auto|]. intros p. destruct (C p) as [k [kr [C1 [E1 [C2 E2]]]]].
        exists k, kr. split; [apply counts_no; auto; tauto|]. split; auto. split; [apply counts_no; auto; tauto|auto].
      + assert (Hm : measured inside b) by (apply Hsk; auto). cbv zeta.
        destruct (count_bond_ok (same (fst b) (snd b)) b nb ltac:(lia) ltac:(lia)) as [nb1 [E1 [N1 C1]]]. destruct (count_bond_ok (turned (fst b) (snd b)) b nbr ltac:(lia) ltac:(lia)) as [nbr1 [E2 [N2 C2]]].
        rewrite E1. cbn [obind]. rewrite E2. cbn [obind]. destruct (IH nb1 nbr1 Hbs ltac:(lia) ltac:(lia)) as [nb' [nbr' [s [sr [E [M1 [M2 [F1 [F2 C]]]]]]]]]. rewrite E. cbn [omap].
        exists nb', nbr', (same (fst b) (snd b) :: s), (turned (fst b) (snd b) :: sr). split; [reflexivity|]. split; auto. split; auto. split; [constructor; auto|]. split; [constructor; auto|]. intros p. destruct (C p) as [k [kr [D1 [G1 [D2 G2]]]]].
        assert (One : forall v, exists j, j <= 1 /\ (if high v then (if p =? fst b then 1 else 0) + (if p =? snd b then 1 else 0) else 0) = j /\ (j = 1 <-> joins b p /\ high v = true)).
        { intros v. unfold joins. destruct (high v); [|exists 0; split; [lia|]; split; auto; split; [discriminate|intros [_ X]; discriminate]].
          destruct (Nat.eqb_spec p (fst b)), (Nat.eqb_spec p (snd b)); eexists; (split; [|split; [reflexivity|]]); lia. }
        destruct (One (same (fst b) (snd b))) as [j [J1 [J2 J3]]]. destruct (One (turned (fst b) (snd b))) as [jr [R1 [R2 R3]]]. exists (j + k), (jr + kr). specialize (C1 p). specialize (C2 p). rewrite J2 in C1. rewrite R2 in C2.
        split; [|split; [lia|split; [|lia]]].
        * destruct j as [|[|j]]; [|apply counts_yes; auto; tauto|lia]. apply counts_no; auto. intros [X [_ Y]]. assert (0 = 1) by (apply J3; auto). lia.
        * destruct jr as [|[|jr]]; [|apply counts_yes; auto; tauto|lia]. apply counts_no; auto. intros [X [_ Y]]. assert (0 = 1) by (apply R3; auto). lia.
  Qed.

  (** C127.  For bonds between existing particles: each bond whose ends are both taken gets the product of its ends, the others the value -2; the number
      written for a particle is the number of its measured bonds above one half.  The same with the second end turned. *)
  Theorem C127_similarities inside bonds : StronglySorted lt inside -> Forall (fun b => fst b < snd b < n) bonds ->
    exists nb nbr s sr, run inside bonds = Val (nb, nbr, s, sr) /\ length nb = n /\ length nbr = n /\
      Forall2 (fun b v => (measured inside b /\ v = same (fst b) (snd b)) \/ (~ measured inside b /\ v = unset)) bonds s /\
      Forall2 (fun b v => (measured inside b /\ v = turned (fst b) (snd b)) \/ (~ measured inside b /\ v = unset)) bonds sr /\
      forall p, p < n -> counts (fun b => joins b p /\ measured inside b /\ high (same (fst b) (snd b)) = true) bonds (nth p nb 0) /\
                         counts (fun b => joins b p /\ measured inside b /\ high (turned (fst b) (snd b)) = true) bonds (nth p nbr 0).
  Proof.
    intros Hs Hb. destruct (similarities_ok inside Hs bonds (repeat 0 n) (repeat 0 n) Hb (repeat_length _ _) (repeat_length _ _)) as [nb [nbr [s [sr [E [L1 [L2 [F1 [F2 C]]]]]]]]].
    exists nb, nbr, s, sr. split; [exact E|]. split; auto. split; auto. split; auto. split; auto. intros p Hp. destruct (C p) as [k [kr [C1 [E1 [C2 E2]]]]]. rewrite nth_repeat in E1. rewrite nth_repeat in E2. cbn in E1, E2. rewrite E1, E2. auto.
  Qed.
  (** Each similar bond is counted at its two ends: the sum of the counts is twice the number of similar bonds. *)
  Lemma sum_counts (P : nat * nat -> Prop) : forall bonds (nb : list nat), length nb = n -> Forall (fun b => fst b < snd b < n) bonds ->
    (forall p, p < n -> counts (fun b => joins b p /\ P b) bonds (nth p nb 0)) -> (forall b, In b bonds -> P b \/ ~ P b) -> exists k, counts P bonds k /\ list_sum nb = 2 * k.
  Proof.
    induction bonds as [|b bonds IH]; intros nb L Hb C D.
    - exists 0. split; [constructor|]. assert (Z : forall m l, length l = m -> (forall p, p < m -> nth p l 0 = 0) -> list_sum l = 0).
      { induction m as [|m IHm]; intros [|x l] Hl H; cbn in Hl; try discriminate; auto. change (list_sum (x :: l)) with (x + list_sum l). rewrite (IHm l); [|lia|intros p Hp; apply (H (S p)); lia]. specialize (H 0). cbn in H. lia. }
      apply (Z n nb L). intros p Hp. specialize (C p Hp). inversion C. auto.
    - assert (Hb0 := Forall_inv Hb). assert (Hbs := Forall_inv_tail Hb). cbn beta in Hb0. destruct (D b (or_introl eq_refl)) as [Pb|Nb].
      + set (nb' := map (fun p => nth p nb 0 - (if (p =? fst b) || (p =? snd b) then 1 else 0)) (seq 0 n)).
        assert (N' : forall p, p < n -> nth p nb' 0 = nth p nb 0 - (if (p =? fst b) || (p =? snd b) then 1 else 0)).
        { intros p Hp. unfold nb'. set (g := fun p => nth p nb 0 - (if (p =? fst b) || (p =? snd b) then 1 else 0)). rewrite (nth_indep _ 0 (g 0)) by (rewrite map_length, seq_length; auto). rewrite map_nth, seq_nth by auto. reflexivity. }
        assert (G : forall p, p < n -> ((p = fst b \/ p = snd b) -> 0 < nth p nb 0) /\ counts (fun b => joins b p /\ P b) bonds (nth p nb' 0)).
        { intros p Hp. rewrite N' by auto. specialize (C p Hp). inversion C as [|? ? k HP Hc E1|? ? k HN Hc E1]; subst.
          - split; [intros; lia|]. destruct HP as [[->| ->] _]; rewrite Nat.eqb_refl; rewrite ?orb_true_r; cbn [orb]; replace (S k - 1) with k by lia; auto.
          - assert (p <> fst b /\ p <> snd b) by (split; intros ->; apply HN; unfold joins; auto). split; [intros [X|X]; tauto|].
            rewrite (proj2 (Nat.eqb_neq _ _)), (proj2 (Nat.eqb_neq _ _)) by tauto. cbn [orb]. rewrite Nat.sub_0_r. auto. }
        destruct (IH nb') as [k [Ck Ek]]; [unfold nb'; rewrite map_length, seq_length; auto|auto|intros p Hp; apply G; auto|intros; apply D; right; auto|].
        exists (S k). split; [constructor; auto|].
        assert (Sum : forall (l : list nat) x y, x < y < length l -> 0 < nth x l 0 -> 0 < nth y l 0 -> list_sum l = 2 + list_sum (map (fun p => nth p l 0 - (if (p =? x) || (p =? y) then 1 else 0)) (seq 0 (length l)))).
        { assert (One : forall (l : list nat) f m, (forall p, p < length l -> nth p l 0 = f (m + p)) -> list_sum l = list_sum (map f (seq m (length l)))).
          { induction l as [|z l IHl]; intros f m Hf; [reflexivity|]. cbn [length seq map]. change (list_sum (z :: l)) with (z + list_sum l). change (list_sum (f m :: map f (seq (S m) (length l)))) with (f m + list_sum (map f (seq (S m) (length l)))). specialize (Hf 0) as Hz. cbn in Hz. rewrite Nat.add_0_r in Hz. rewrite <- Hz by lia.
            rewrite (IHl f (S m)); [reflexivity|]. intros p Hp. replace (S m + p) with (m + S p) by lia. apply (Hf (S p)). cbn. lia. }
          assert (Diff : forall x m a (f : nat -> nat), a <= x < a + m -> 0 < f x -> list_sum (map f (seq a m)) = 1 + list_sum (map (fun p => f p - (if p =? x then 1 else 0)) (seq a m))).
          { intros x. induction m as [|m IHm]; intros a f Ha Hf; [lia|]. cbn [seq map]. assert (LC : forall y l, list_sum (y :: l) = y + list_sum l) by reflexivity. rewrite !LC. destruct (Nat.eq_dec a x) as [->|Na].
            - rewrite Nat.eqb_refl. rewrite (map_ext_in f (fun p => f p - (if p =? x then 1 else 0)) (seq (S x) m)); [lia|]. intros p Hp. apply in_seq in Hp. rewrite (proj2 (Nat.eqb_neq _ _)) by lia. lia.
            - rewrite (proj2 (Nat.eqb_neq _ _)) by auto. rewrite (IHm (S a) f) by lia. lia. }
          intros l x y Hxy Px Py. rewrite (One l (fun p => nth p l 0) 0) by auto. rewrite (Diff x) by (auto; lia). rewrite (Diff y); [|lia|]. 2:{ rewrite (proj2 (Nat.eqb_neq _ _)) by lia. lia. }
          cbn [Nat.add]. do 2 f_equal. f_equal. apply map_ext. intros p. destruct (Nat.eqb_spec p x), (Nat.eqb_spec p y); cbn [orb]; lia. }
        rewrite (Sum nb (fst b) (snd b)); [|lia|apply G; [lia|auto]|apply G; [lia|auto]]. rewrite L. fold nb'. lia.
      + destruct (IH nb) as [k [Ck Ek]]; auto.
        * intros p Hp. specialize (C p Hp). inversion C; subst; auto. tauto.
        * intros; apply D; right; auto.
        * exists k. split; auto. apply counts_no; auto.
  Qed.
  Theorem C127_ends inside bonds nb nbr s sr : StronglySorted lt inside -> Forall (fun b => fst b < snd b < n) bonds -> run inside bonds = Val (nb, nbr, s, sr) ->
    exists k kr, counts (fun b => measured inside b /\ high (same (fst b) (snd b)) = true) bonds k /\ list_sum nb = 2 * k /\
      counts (fun b => measured inside b /\ high (turned (fst b) (snd b)) = true) bonds kr /\ list_sum nbr = 2 * kr.
  Proof.
    intros Hs Hb E. destruct (C127_similarities inside bonds Hs Hb) as [nb0 [nbr0 [s0 [sr0 [E0 [L1 [L2 [_ [_ C]]]]]]]]]. rewrite E in E0. inversion E0; subst nb0 nbr0 s0 sr0.
    assert (Dm : forall b, In b bonds -> measured inside b \/ ~ measured inside b).
    { intros b Hi. rewrite Forall_forall in Hb. specialize (Hb b Hi). destruct (skipped_ok inside b Hs ltac:(lia) ltac:(lia)) as [[|] [_ X]]; [right; rewrite <- X; discriminate|left; apply X; auto]. }
    destruct (sum_counts (fun b => measured inside b /\ high (same (fst b) (snd b)) = true) bonds nb L1 Hb) as [k [Ck Ek]].
    { intros p Hp. apply (proj1 (C p Hp)). }
    { intros b Hi. destruct (Dm b Hi); [|tauto]. destruct (high (same (fst b) (snd b))); [auto|]. right. intros [_ X]. discriminate. }
    destruct (sum_counts (fun b => measured inside b /\ high (turned (fst b) (snd b)) = true) bonds nbr L2 Hb) as [kr [Ckr Ekr]].
    { intros p Hp. apply (proj2 (C p Hp)). }
    { intros b Hi. destruct (Dm b Hi); [|tauto]. destruct (high (turned (fst b) (snd b))); [auto|]. right. intros [_ X]. discriminate. }
    exists k, kr. auto.
  Qed.
  (** A bond file of a larger set: the first end of a bond that is no particle is read out of bounds, after bonds that are in range. *)
  Theorem C127_out_of_range inside bonds b rest : StronglySorted lt inside -> Forall (fun b => fst b < snd b < n) bonds -> n <= fst b -> run inside (bonds ++ b :: rest) = UB.
  Proof.
    intros Hs Hb Hn. unfold sim_program. fold (everyone inside). assert (G : forall nb nbr, length nb = n -> length nbr = n -> similarities V unset high n null same turned (everyone inside) (bonds ++ b :: rest) nb nbr = UB).
    { induction Hb as [|x l Hx Hl IH]; intros nb nbr L1 L2; cbn [app similarities].
      - unfold skipped. rewrite (proj2 (Nat.ltb_ge _ _) Hn). reflexivity.
      - destruct (skipped_ok inside x Hs ltac:(lia) ltac:(lia)) as [sk [Esk _]]. rewrite Esk. cbn [obind]. destruct sk; [rewrite IH by auto; reflexivity|]. cbv zeta.
        destruct (count_bond_ok (same (fst x) (snd x)) x nb ltac:(lia) ltac:(lia)) as [nb1 [E1 [N1 _]]]. destruct (count_bond_ok (turned (fst x) (snd x)) x nbr ltac:(lia) ltac:(lia)) as [nbr1 [E2 [N2 _]]].
        rewrite E1. cbn [obind]. rewrite E2. cbn [obind]. rewrite IH by lia. reflexivity. }
    apply G; apply repeat_length.
  Qed.
End Statements.

(** A case: a chain of five particles, the last outside, the third without neighbours' order; products are sums of indices, above 2. *)
Example C127_case : sim_program nat 100 (Nat.ltb 2) 5 (Nat.eqb 2) Nat.add Nat.mul [0; 1; 2; 3] [(0, 1); (0, 3); (1, 2); (1, 3); (3, 4)] = Val ([1; 1; 0; 2; 0], [0; 1; 0; 1; 0], [1; 3; 100; 4; 100], [0; 0; 100; 3; 100]) /\
  StronglySorted lt [0; 1; 2; 3] /\ Forall (fun b => fst b < snd b < 5) [(0, 1); (0, 3); (1, 2); (1, 3); (3, 4)].
Proof. split; [reflexivity|]. split; [apply (seq_sorted 4 0)|]. repeat constructor. Qed.

Print Assumptions C127_similarities.
Print Assumptions C127_ends.
Print Assumptions C127_out_of_range.

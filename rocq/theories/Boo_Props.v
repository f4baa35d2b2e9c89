(** Properties C55 to C59 and C74: bond orientational order. *)
Require Import ZArith QArith List Bool Arith Lia Permutation Ring FinFun.
Require Import Verif.Base Verif.ListX Verif.RTree_Model Verif.Traj_Model Verif.Traj_Proofs Verif.Particles_Model Verif.Corr_Model Verif.Corr_Proofs Verif.Boo_Model Verif.Boo_Spec Verif.Boo_Proofs Verif.Boo2_Proofs.
Import ListNotations.
Local Open Scope nat_scope.

(** * C55: storage of the coefficients *)
(** Position i holds (i2l i, i2m i), a kept degree and an order, and the access by (l,m) reads it; the position is that of no other. *)
Theorem C55_storage_bijection K kopp (q : list (cplx K)) l m : length q = 36 -> degree l -> m <= l ->
  exists i x, i < 36 /\ nth_error i2l i = Some l /\ nth_error i2m i = Some m /\ nth_error q i = Some x /\ coef K kopp q l (Z.of_nat m) = Val x /\
    (forall j, nth_error i2l j = Some l -> nth_error i2m j = Some m -> j = i).
Proof.
  intros Hq Hl Hm. assert (B := degree_index l m Hl Hm).
  assert (C : forallb (fun l => forallb (fun m => let i := m + l * l / 4 in
     match nth_error i2l i, nth_error i2m i with Some a, Some b => (a =? l) && (b =? m) | _, _ => false end &&
     forallb (fun j => match nth_error i2l j, nth_error i2m j with Some a, Some b => negb ((a =? l) && (b =? m)) || (j =? i) | _, _ => false end) (seq 0 36)) (seq 0 (S l))) degrees = true) by (vm_compute; reflexivity).
  rewrite forallb_forall in C. specialize (C l (degree_in l Hl)). rewrite forallb_forall in C. specialize (C m ltac:(apply in_seq; lia)). cbv zeta in C. apply andb_true_iff in C. destruct C as [C1 C2].
  destruct (nth_error q (m + l * l / 4)) as [x|] eqn:E; [|apply nth_error_None in E; lia].
  exists (m + l * l / 4), x. destruct (nth_error i2l (m + l * l / 4)) as [a|]; [|discriminate]. destruct (nth_error i2m (m + l * l / 4)) as [b|]; [|discriminate]. apply andb_true_iff in C1. destruct C1 as [C1 C1']. apply Nat.eqb_eq in C1, C1'. subst a b.
  split; [auto|]. split; [auto|]. split; [auto|]. split; [auto|]. split.
  - unfold coef. destruct (Z.leb_spec 0 (Z.of_nat m)); [|lia]. rewrite Nat2Z.id. unfold at_index. rewrite E. auto.
  - intros j J1 J2. rewrite forallb_forall in C2. assert (Hj : j < 36) by (apply nth_error_lt in J1; exact J1). specialize (C2 j ltac:(apply in_seq; lia)). rewrite J1, J2, !Nat.eqb_refl in C2. cbn in C2. apply Nat.eqb_eq in C2. auto.
Qed.
(** Every position is one of these. *)
Theorem C55_positions i : i < 36 -> exists l m, nth_error i2l i = Some l /\ nth_error i2m i = Some m /\ degree l /\ m <= l.
Proof.
  intros Hi. assert (C : forallb (fun i => match nth_error i2l i, nth_error i2m i with Some l, Some m => Nat.even l && (l <=? 10) && (m <=? l) | _, _ => false end) (seq 0 36) = true) by (vm_compute; reflexivity).
  rewrite forallb_forall in C. specialize (C i ltac:(apply in_seq; lia)). destruct (nth_error i2l i) as [l|]; [|discriminate]. destruct (nth_error i2m i) as [m|]; [|discriminate]. apply andb_true_iff in C. destruct C as [C C3]. apply andb_true_iff in C. destruct C as [C1 C2]. apply Nat.leb_le in C2, C3. apply Nat.even_spec in C1. destruct C1 as [k ->].
  exists (2 * k), m. split; [auto|]. split; [auto|]. split; [split; [exists k; lia|auto]|auto].
Qed.
(** q(l,-m) = (-1)^m conj q(l,m). *)
Theorem C55_negative_orders K kopp (q : list (cplx K)) l m : length q = 36 -> degree l -> 0 < m <= l ->
  exists x, coef K kopp q l (Z.of_nat m) = Val x /\ coef K kopp q l (- Z.of_nat m) = Val (if Nat.even m then cconj K kopp x else copp K kopp (cconj K kopp x)).
Proof.
  intros Hq Hl Hm. assert (B := degree_index l m Hl ltac:(lia)). destruct (nth_error q (m + l * l / 4)) as [x|] eqn:E; [|apply nth_error_None in E; lia].
  exists x. unfold coef. destruct (Z.leb_spec 0 (Z.of_nat m)), (Z.leb_spec 0 (- Z.of_nat m)); try lia. rewrite Z.opp_involutive, Nat2Z.id. rewrite (Nat.add_comm (l * l / 4) m). unfold at_index. rewrite E. split; auto.
  rewrite Zmod_even. assert (Ev : Z.even (Z.of_nat m) = Nat.even m).
  { clear. destruct (Nat.even m) eqn:E.
    - apply Nat.even_spec in E. destruct E as [k ->]. rewrite Nat2Z.inj_mul. apply Z.even_spec. exists (Z.of_nat k). lia.
    - assert (O : Nat.odd m = true) by (unfold Nat.odd; rewrite E; auto). apply Nat.odd_spec in O. destruct O as [k ->]. apply not_true_iff_false. intros T. apply Z.even_spec in T. destruct T as [j Hj]. lia. }
  rewrite Ev. destruct (Nat.even m); auto.
Qed.

(** * C56: look-up of the Wigner 3j table *)
Theorem C56_in_range l m1 m2 : degree l -> legal l m1 m2 -> exists i, w3j_index l m1 m2 = Val i /\ i < length w3j_table.
Proof. intros Hl Hm. destruct (w3j_range l m1 m2 Hl Hm). eauto. Qed.
Theorem C56_symmetric {W} (table : list W) l m1 m2 n1 n2 :
  Permutation (args3 m1 m2) (args3 n1 n2) \/ Permutation (args3 m1 m2) (map Z.opp (args3 n1 n2)) -> get_w3j table l m1 m2 = get_w3j table l n1 n2.
Proof.
  intros H. unfold get_w3j. rewrite (w3j_index_perm l m1 m2 n1 n2); auto.
  assert (A : forall a b, map Z.abs (args3 a b) = [Z.abs a; Z.abs b; Z.abs (a + b)]) by (intros a b; unfold args3; cbn [map]; replace (- a - b)%Z with (- (a + b))%Z by lia; rewrite Z.abs_opp; auto).
  rewrite <- !A. destruct H as [H|H]; apply (Permutation_map Z.abs) in H; auto. rewrite map_map in H. rewrite (map_ext (fun x => Z.abs (- x)) Z.abs) in H by (intros; apply Z.abs_opp). auto.
Qed.
(** Two arguments that read the same entry are rearrangements of each other, up to a common sign. *)
Definition zl_eqb (a b : list Z) : bool := match a, b with [x; y; z], [x'; y'; z'] => ((x =? x') && (y =? y') && (z =? z'))%Z | _, _ => false end.
Definition rearr (a : list Z) : list (list Z) := match a with [x; y; z] => [[x; y; z]; [x; z; y]; [y; x; z]; [y; z; x]; [z; x; y]; [z; y; x]] | _ => [] end.
Lemma rearr_perm a b : existsb (zl_eqb b) (rearr a) = true -> Permutation a b.
Proof.
  intros H. apply existsb_exists in H. destruct H as [c [Hc E]]. destruct a as [|x [|y [|z [|? ?]]]]; try contradiction. unfold zl_eqb in E. cbn in Hc.
  destruct b as [|x' [|y' [|z' [|? ?]]]]; try discriminate.
  assert (b' : c = [x'; y'; z']).
  { repeat (destruct Hc as [<-|Hc]; [apply andb_true_iff in E; destruct E as [E E3]; apply andb_true_iff in E; destruct E as [E1 E2]; apply Z.eqb_eq in E1, E2, E3; subst; auto|]). contradiction. }
  rewrite <- b'. clear - Hc.
  destruct Hc as [<-|[<-|[<-|[<-|[<-|[<-|[]]]]]]].
  - auto.
  - apply perm_skip, perm_swap.
  - apply perm_swap.
  - eapply perm_trans; [apply perm_swap|apply perm_skip, perm_swap].
  - eapply perm_trans; [apply perm_skip, perm_swap|apply perm_swap].
  - eapply perm_trans; [apply perm_swap|]. eapply perm_trans; [apply perm_skip, perm_swap|apply perm_swap].
Qed.
Definition all_args : list (nat * (Z * Z)) := flat_map (fun l => map (fun p => (l, p)) (legal_pairs l)) degrees.
Definition keyed : list (N * (nat * (Z * Z))) := map (fun a => (N.of_nat (index_of (fst a) (fst (snd a)) (snd (snd a))), a)) all_args.
Definition apart (x y : N * (nat * (Z * Z))) : bool :=
  negb (N.eqb (fst x) (fst y)) || ((fst (snd x) =? fst (snd y)) &&
    let m := args3 (fst (snd (snd x))) (snd (snd (snd x))) in let n := args3 (fst (snd (snd y))) (snd (snd (snd y))) in
    (existsb (zl_eqb n) (rearr m) || existsb (zl_eqb n) (rearr (map Z.opp m)))).
Lemma all_apart : forallb (fun x => forallb (apart x) keyed) keyed = true.
Proof. vm_compute. reflexivity. Qed.
Lemma keyed_in l m1 m2 : degree l -> legal l m1 m2 -> In (N.of_nat (index_of l m1 m2), (l, (m1, m2))) keyed.
Proof.
  intros Hl Hm. unfold keyed. apply in_map_iff. exists (l, (m1, m2)). split; auto. unfold all_args. apply in_flat_map. exists l. split; [apply degree_in; auto|]. apply in_map_iff. exists (m1, m2). split; auto. apply legal_in. auto.
Qed.
Theorem C56_distinct l m1 m2 k n1 n2 i : degree l -> legal l m1 m2 -> degree k -> legal k n1 n2 -> w3j_index l m1 m2 = Val i -> w3j_index k n1 n2 = Val i ->
  l = k /\ (Permutation (args3 m1 m2) (args3 n1 n2) \/ Permutation (map Z.opp (args3 m1 m2)) (args3 n1 n2)).
Proof.
  intros Hl Hm Hk Hn E1 E2. assert (A := all_apart). rewrite forallb_forall in A. specialize (A _ (keyed_in l m1 m2 Hl Hm)). rewrite forallb_forall in A. specialize (A _ (keyed_in k n1 n2 Hk Hn)). unfold apart in A. cbn [fst snd] in A. unfold index_of in A. rewrite E1, E2, N.eqb_refl in A. cbn [negb orb] in A.
  apply andb_true_iff in A. destruct A as [A1 A2]. apply Nat.eqb_eq in A1. split; auto. cbv zeta in A2. apply orb_true_iff in A2. destruct A2 as [A2|A2]; apply rearr_perm in A2; auto.
Qed.
(** No entry is idle. *)
Theorem C56_all_used i : i < length w3j_table -> exists l m1 m2, degree l /\ legal l m1 m2 /\ w3j_index l m1 m2 = Val i.
Proof.
  intros Hi. assert (C : forallb (fun i => existsb (fun x => N.eqb (fst x) (N.of_nat i)) keyed) (seq 0 91) = true) by (vm_compute; reflexivity).
  rewrite forallb_forall in C. specialize (C i ltac:(apply in_seq; cbn in Hi; lia)). apply existsb_exists in C. destruct C as [[n [l [m1 m2]]] [Hx E]]. cbn [fst] in E. apply N.eqb_eq in E. subst n. unfold keyed in Hx. apply in_map_iff in Hx. destruct Hx as [[l' [a b]] [E Hx]]. cbn [fst snd] in E. injection E as E <- <- <-. assert (E0 : index_of l' a b = i) by lia. clear E. rename E0 into E.
  unfold all_args in Hx. apply in_flat_map in Hx. destruct Hx as [d [Hd Hx]]. apply in_map_iff in Hx. destruct Hx as [p [Ep Hp]]. injection Ep as -> ->. apply legal_in in Hp. exists l', a, b.
  assert (D : degree l').
  { unfold degrees in Hd. cbn in Hd. destruct Hd as [<-|[<-|[<-|[<-|[<-|[<-|[]]]]]]]; split; try lia; [exists 0|exists 1|exists 2|exists 3|exists 4|exists 5]; auto. }
  split; [auto|]. split; [auto|]. destruct (w3j_range l' a b D Hp) as [E' _]. rewrite E', E. auto.
Qed.

(** * C74: the table holds the Wigner 3j symbols *)
Definition entry_ok (l : nat) (m1 m2 : Z) : bool :=
  match get_w3j w3j_table l m1 m2 with
  | Val (c, r) => let a := racah_coef (Z.of_nat l) m1 m2 in let s := racah_rad (Z.of_nat l) m1 m2 in
      Qeq_bool (c * c * r) (a * a * s) && (Z.sgn (Qnum c) * Z.sgn (Qnum r) =? Z.sgn (Qnum a) * Z.sgn (Qnum s))%Z
  | _ => false
  end.
Lemma entries_ok : forallb (fun l => forallb (fun p => entry_ok l (fst p) (snd p)) (legal_pairs l)) degrees = true.
Proof. vm_compute. reflexivity. Qed.
Theorem C74_table_is_wigner_3j l m1 m2 : degree l -> legal l m1 m2 ->
  exists c r, get_w3j w3j_table l m1 m2 = Val (c, r) /\ same_root c r (racah_coef (Z.of_nat l) m1 m2) (racah_rad (Z.of_nat l) m1 m2).
Proof.
  intros Hl Hm. assert (C := all_legal entry_ok entries_ok l m1 m2 Hl Hm). unfold entry_ok in C. destruct (get_w3j w3j_table l m1 m2) as [[c r]| |]; try discriminate. exists c, r. split; auto. cbv zeta in C. apply andb_true_iff in C. destruct C as [C1 C2]. apply Qeq_bool_iff in C1. apply Z.eqb_eq in C2. split; auto.
Qed.
(** Under the radicals there are no negative numbers, so that the square roots exist. *)
Theorem C74_radicands l m1 m2 c r : degree l -> legal l m1 m2 -> get_w3j w3j_table l m1 m2 = Val (c, r) -> (0 < Qnum r)%Z /\ (0 < Qnum (racah_rad (Z.of_nat l) m1 m2))%Z.
Proof.
  intros Hl Hm E. assert (C := all_legal (fun l m1 m2 => match get_w3j w3j_table l m1 m2 with Val (c, r) => (0 <? Qnum r) && (0 <? Qnum (racah_rad (Z.of_nat l) m1 m2)) | _ => false end)%Z ltac:(vm_compute; reflexivity) l m1 m2 Hl Hm). cbv beta in C. rewrite E in C. apply andb_true_iff in C. rewrite !Z.ltb_lt in C. auto.
Qed.
(** For instance the symbol (2 2 2; 0 0 0) is -sqrt(2/35). *)
Example C74_example : get_w3j w3j_table 2 0 0 = Val ((-1) # 1, 2 # 35)%Q /\ (racah_coef 2 0 0 == (-3) # 4)%Q /\ (racah_rad 2 0 0 == 32 # 315)%Q.
Proof. vm_compute. auto. Qed.

(** * C57: the two ways of computing the cubic invariant *)
Section Ring.
  Variables (K : Type) (k0 k1 : K) (kadd kmul ksub : K -> K -> K) (kopp : K -> K).
  Variable Kr : ring_theory k0 k1 kadd kmul ksub kopp eq.
  Notation cplx := (cplx K).
  Notation coef := (coef K kopp).
  Notation sum_norm := (sum_norm K k0 k1 kadd kmul).
  Notation inner_product := (inner_product K k0 k1 kadd kmul ksub kopp).

  Lemma triples_in l m1 m2 : In (m1, m2) (triples l) <-> (0 <= m1 <= m2 /\ m1 + m2 <= Z.of_nat l)%Z.
  Proof.
    unfold triples. rewrite in_flat_map. split.
    - intros [a [Ha H]]. apply in_map_iff in H. destruct H as [b [E Hb]]. injection E as <- <-. apply in_seq in Ha, Hb. assert (X := Nat.mul_div_le l 2). lia.
    - intros H. exists (Z.to_nat m1). split.
      + apply in_seq. assert (Z.to_nat m1 <= l / 2) by (apply Nat.div_le_lower_bound; lia). lia.
      + apply in_map_iff. exists (Z.to_nat m2). split; [f_equal; lia|]. apply in_seq. lia.
  Qed.
  Lemma triples_NoDup l : degree l -> NoDup (triples l).
  Proof.
    intros Hl. assert (P : Permutation (triples l) (nodup (fun x y : Z * Z => ltac:(decide equality; apply Z.eq_dec)) (triples l))).
    { apply permb_ok. revert l Hl. apply all_degrees. vm_compute. reflexivity. }
    eapply Permutation_NoDup; [apply Permutation_sym; exact P|apply NoDup_nodup].
  Qed.
  (** [w]: the symbols read from the table; [t]: their products with three coefficients.  The values of getWl and getInvarients, for
      any enumeration [ts] of the pairs 0 <= m1 <= m2, m1+m2 <= l. *)
  Theorem C57_values rescale table q l ts : length table = 91 -> length q = 36 -> degree l -> snd (at_m K k0 q l 0) = k0 ->
    NoDup ts -> (forall m1 m2, In (m1, m2) ts <-> (0 <= m1 <= m2 /\ m1 + m2 <= Z.of_nat l)%Z) ->
    exists w n, (forall m1 m2, legal l m1 m2 -> get_w3j table l m1 m2 = Val (w m1 m2)) /\ sum_norm q l = Val n /\
      let t m1 m2 := cmul K kadd kmul ksub (cmul K kadd kmul ksub (cscal K kmul (w m1 m2) (at_z K k0 kopp q l m1)) (at_z K k0 kopp q l m2)) (at_z K k0 kopp q l (- m1 - m2)) in
      get_wl K k0 k1 kadd kmul ksub kopp rescale table q l
        = Val (rescale n (cscal K kmul (twelve K k1 kadd kmul) (csum K k0 kadd (map (fun p => t (fst p) (snd p)) ts)))) /\
      get_invarients K k0 k1 kadd kmul ksub kopp rescale table q l
        = Val (rescale n (ksum K k0 kadd (map (fun p => krep K k0 kadd (weight p) (fst (t (fst p) (snd p)))) ts), k0)).
  Proof.
    intros Ht Hq Hl Hre ND HI.
    assert (P : Permutation (triples l) ts).
    { apply NoDup_Permutation; auto using triples_NoDup. intros [m1 m2]. rewrite triples_in, HI. tauto. }
    assert (N := norm_ok K k0 k1 kadd kmul q l Hl Hq).
    eexists (wz K k0 table l), _. split; [|split; [exact N|]].
    - intros m1 m2 Hm. unfold get_w3j. destruct (w3j_range l m1 m2 Hl Hm) as [E I]. rewrite E. cbn [obind]. rewrite (at_index_ok table k0) by lia. auto.
    - split.
      + unfold get_wl. rewrite N. cbn [obind]. rewrite (wl_sum K k0 kadd kmul ksub kopp table q l Hl Ht Hq). cbn [omap]. rewrite (csum_perm K k0 k1 kadd kmul ksub kopp Kr _ _ (Permutation_map _ P)). reflexivity.
      + unfold get_invarients. rewrite N. assert (I := inv_sum K k0 kadd kmul ksub kopp table q l Hl Ht Hq). cbn [obind] in I |- *. rewrite I. cbn [omap]. rewrite (full_sum K k0 k1 kadd kmul ksub kopp Kr table q l Hl Hq Hre). do 3 f_equal.
        assert (KP : forall l1 l2, Permutation l1 l2 -> ksum K k0 kadd l1 = ksum K k0 kadd l2).
        { clear - Kr. induction 1; auto; rewrite ?(ksum_cons K k0 k1 kadd kmul ksub kopp Kr); try congruence. rewrite !(Radd_assoc Kr), (Radd_comm Kr y x). auto. }
        apply KP. apply (Permutation_map (fun p => krep K k0 kadd (weight p) (fst (tz K k0 kadd kmul ksub kopp table q l (fst p) (snd p))))). exact P.
  Qed.
  (** getInvarients sums over every legal argument, once. *)
  Theorem C57_invarients_sum rescale table q l ps : length table = 91 -> length q = 36 -> degree l ->
    NoDup ps -> (forall m1 m2, In (m1, m2) ps <-> legal l m1 m2) ->
    exists w n, (forall m1 m2, legal l m1 m2 -> get_w3j table l m1 m2 = Val (w m1 m2)) /\ sum_norm q l = Val n /\
      let t m1 m2 := cmul K kadd kmul ksub (cmul K kadd kmul ksub (cscal K kmul (w m1 m2) (at_z K k0 kopp q l m1)) (at_z K k0 kopp q l m2)) (at_z K k0 kopp q l (- m1 - m2)) in
      get_invarients K k0 k1 kadd kmul ksub kopp rescale table q l = Val (rescale n (csum K k0 kadd (map (fun p => t (fst p) (snd p)) ps))).
  Proof.
    intros Ht Hq Hl ND HI.
    assert (P : Permutation (legal_pairs l) ps).
    { apply NoDup_Permutation; auto.
      - unfold legal_pairs. apply NoDup_filter. assert (Z1 : NoDup (zrange l)) by (unfold zrange; apply Injective_map_NoDup; [intros x y E; lia|apply seq_NoDup]).
        assert (G : forall (l1 l2 : list Z), NoDup l1 -> NoDup l2 -> NoDup (list_prod l1 l2)).
        { clear. induction l1 as [|a l1 IH]; intros l2 H1 H2; cbn [list_prod]; [constructor|]. inversion H1; subst. apply Traj_Proofs.NoDup_app_x.
          - apply Injective_map_NoDup; auto. intros x y E; congruence.
          - apply IH; auto.
          - intros [x y] Hx Hy. apply in_map_iff in Hx. destruct Hx as [z [E _]]. injection E as -> ->. apply in_prod_iff in Hy. tauto. }
        auto.
      - intros [m1 m2]. rewrite legal_in, HI. tauto. }
    assert (N := norm_ok K k0 k1 kadd kmul q l Hl Hq).
    eexists (wz K k0 table l), _. split; [|split; [exact N|]].
    - intros m1 m2 Hm. unfold get_w3j. destruct (w3j_range l m1 m2 Hl Hm) as [E I]. rewrite E. cbn [obind]. rewrite (at_index_ok table k0) by lia. auto.
    - cbv zeta. unfold get_invarients. rewrite N. assert (I := inv_sum K k0 kadd kmul ksub kopp table q l Hl Ht Hq). cbn [obind] in I |- *. rewrite I. cbn [omap]. rewrite (csum_perm K k0 k1 kadd kmul ksub kopp Kr _ _ (Permutation_map _ P)). reflexivity.
  Qed.

  (** * C59: product and norm *)
  Theorem C59_symmetric a b l : length a = 36 -> length b = 36 -> degree l -> exists x, inner_product a b l = Val x /\ inner_product b a l = Val x.
  Proof.
    intros Ha Hb Hl. eexists. split; [apply (inner_ok K k0 k1 kadd kmul ksub kopp Kr); auto|]. rewrite (inner_ok K k0 k1 kadd kmul ksub kopp Kr) by auto. f_equal. rewrite (map_ext (fun m => re_prod K kadd kmul (at_m K k0 b l m) (at_m K k0 a l m)) (fun m => re_prod K kadd kmul (at_m K k0 a l m) (at_m K k0 b l m))); [|intros m; unfold re_prod; rewrite !((Rmul_comm Kr) (_ (at_m K k0 a l m))); auto]. f_equal. rewrite ((Rmul_comm Kr) (fst (at_m K k0 a l 0))), ((Rmul_comm Kr) (snd (at_m K k0 a l 0))). auto.
  Qed.
  (** The product is the sum over all orders -l..l of Re(a conj b), for coefficients whose order 0 is real. *)
  Theorem C59_value a b l : length a = 36 -> length b = 36 -> degree l -> snd (at_m K k0 a l 0) = k0 -> snd (at_m K k0 b l 0) = k0 ->
    inner_product a b l = Val (ksum K k0 kadd (map (fun m => re_prod K kadd kmul (at_z K k0 kopp a l m) (at_z K k0 kopp b l m)) (zrange l))).
  Proof.
    intros Ha Hb Hl Ra Rb. rewrite (inner_ok K k0 k1 kadd kmul ksub kopp Kr) by auto. f_equal. apply (inner_full K k0 k1 kadd kmul ksub kopp Kr); auto.
  Qed.
  Theorem C59_norm a l : length a = 36 -> degree l -> snd (at_m K k0 a l 0) = k0 -> exists n, sum_norm a l = Val n /\ inner_product a a l = Val n.
  Proof.
    intros Ha Hl Ra. eexists. split; [apply (norm_ok K k0 k1 kadd kmul); auto|]. rewrite (inner_ok K k0 k1 kadd kmul ksub kopp Kr) by auto. f_equal. rewrite Ra. unfold re_prod at 3. rewrite Ra. rewrite (proj1 (sub_add_0 K k0 k1 kadd kmul ksub kopp Kr (fst (at_m K k0 a l 0)))). reflexivity.
  Qed.
  (** Positivity and Cauchy-Schwarz, for any notion of non negative that contains the squares and their sums: the quotient computed by
      normedProduct is at most 1 in absolute value. *)
  Theorem C59_cauchy_schwarz (nonneg : K -> Prop) : (forall x y, nonneg x -> nonneg y -> nonneg (kadd x y)) -> (forall x, nonneg (kmul x x)) ->
    forall a b l, length a = 36 -> length b = 36 -> degree l -> snd (at_m K k0 a l 0) = k0 -> snd (at_m K k0 b l 0) = k0 ->
    exists na nb ab, sum_norm a l = Val na /\ sum_norm b l = Val nb /\ inner_product a b l = Val ab /\ nonneg na /\ nonneg (ksub (kmul na nb) (kmul ab ab)).
  Proof.
    intros Na Ns a b l Ha Hb Hl Ra Rb.
    exists (kdot K k0 kadd kmul (vec K k0 a l) (vec K k0 a l)), (kdot K k0 kadd kmul (vec K k0 b l) (vec K k0 b l)), (kdot K k0 kadd kmul (vec K k0 a l) (vec K k0 b l)).
    assert (X : forall c, length c = 36 -> snd (at_m K k0 c l 0) = k0 -> sum_norm c l = Val (kdot K k0 kadd kmul (vec K k0 c l) (vec K k0 c l))).
    { intros c Hc Rc. rewrite (norm_ok K k0 k1 kadd kmul) by auto. f_equal. rewrite (vec_dot K k0 k1 kadd kmul ksub kopp Kr). f_equal. unfold re_prod. rewrite Rc. apply (proj2 (sub_add_0 K k0 k1 kadd kmul ksub kopp Kr (fst (at_m K k0 c l 0)))). }
    split; [auto|]. split; [auto|]. split; [|split].
    - rewrite (inner_ok K k0 k1 kadd kmul ksub kopp Kr) by auto. f_equal. rewrite (vec_dot K k0 k1 kadd kmul ksub kopp Kr). f_equal. rewrite Ra, Rb. apply (sub_0 K k0 k1 kadd kmul ksub kopp Kr).
    - apply (kdot_pos K k0 k1 kadd kmul ksub kopp Kr); auto.
    - apply (cauchy K k0 k1 kadd kmul ksub kopp Kr); auto. apply vec_len.
  Qed.
End Ring.

(** The two are different numbers: the function that averages over fewer terms counts the pairs (0,0), (0,m) and (m,m) too often.  With
    a single non null coefficient q(6,0) = 1 and the same table getWl gives twelve times getInvarients. *)
Theorem C57_same_refuted : exists (table : list Z) q l, length table = 91 /\ length q = 36 /\ degree l /\ snd (at_m Z 0%Z q l 0) = 0%Z /\
  get_wl Z 0%Z 1%Z Z.add Z.mul Z.sub Z.opp (fun _ w => w) table q l = Val (12, 0)%Z /\
  get_invarients Z 0%Z 1%Z Z.add Z.mul Z.sub Z.opp (fun _ w => w) table q l = Val (1, 0)%Z.
Proof.
  exists (repeat 1%Z 91), (set_nth 9 (1, 0)%Z (repeat (0, 0)%Z 36)), 6. split; [reflexivity|]. split; [reflexivity|]. split; [split; [exists 3; auto|auto]|]. vm_compute. auto.
Qed.
(** Nor is the result of getWl a real number. *)
Theorem C57_real_refuted : exists (table : list Z) q l x y, length table = 91 /\ length q = 36 /\ degree l /\ snd (at_m Z 0%Z q l 0) = 0%Z /\
  get_wl Z 0%Z 1%Z Z.add Z.mul Z.sub Z.opp (fun _ w => w) table q l = Val (x, y) /\ y <> 0%Z.
Proof.
  exists (repeat 1%Z 91), (set_nth 2 (1, 1)%Z (set_nth 3 (1, 0)%Z (repeat (0, 0)%Z 36))), 2. eexists _, _. split; [reflexivity|]. split; [reflexivity|]. split; [split; [exists 1; auto|lia]|]. split; [vm_compute; reflexivity|]. split; [vm_compute; reflexivity|discriminate].
Qed.
(** The hypotheses of C57_values are met by real vectors with several coefficients. *)
Definition ex_q : list (Z * Z) := set_nth 4 (5, 0)%Z (set_nth 5 (1, 2)%Z (set_nth 6 (3, -1)%Z (repeat (0, 0)%Z 36))).
Example C57_example : length ex_q = 36 /\ degree 4 /\ snd (at_m Z 0%Z ex_q 4 0) = 0%Z /\
  get_invarients Z 0%Z 1%Z Z.add Z.mul Z.sub Z.opp (fun _ w => w) (map Z.of_nat (seq 1 91)) ex_q 4 = Val (1398, 0)%Z.
Proof. split; [reflexivity|]. split; [split; [exists 2; auto|lia]|]. vm_compute. auto. Qed.

(** * C58: exports *)
Theorem C58_binary K (q : list (cplx K)) out : length q = 36 -> 72 <= length out ->
  exists out', to_binary K q out = Val out' /\ length out' = length out /\ skipn 72 out' = skipn 72 out /\ of_binary K out' = Val q.
Proof.
  intros Hq Ho. unfold to_binary. rewrite Hq. destruct (Nat.ltb_spec (length out) (2 * 36)); [lia|]. eexists. split; [reflexivity|]. fold (flat K q). assert (F := flat_len K q). split; [|split].
  - rewrite app_length, skipn_length, F. lia.
  - rewrite skipn_app, F, Hq. replace (72 - 2 * 36) with 0 by lia. rewrite skipn_all2 by (rewrite F; lia). reflexivity.
  - destruct q as [|[k0 k] q']; [discriminate|]. apply (of_binary_flat K k0). auto.
Qed.
(** Text, for any conversion of numbers that reads back what it writes when a tab follows, skipping a leading tab. *)
Theorem C58_text K Ch tab (print : K -> list Ch) parse : (forall x s, parse (print x ++ tab :: s) = Val (x, tab :: s) /\ parse (tab :: print x ++ tab :: s) = Val (x, tab :: s)) ->
  forall (q : list (cplx K)) s, length q = 36 -> read_boo K Ch parse 36 (print_boo K Ch tab print q ++ s) = Val (q, tab :: s).
Proof. intros H q s Hq. rewrite <- Hq. apply read_print; auto. intros ->. discriminate. Qed.
(** The constructor from a string writes beyond the end of its 16 coefficients, whatever the string. *)
Theorem C58_string_refuted K k0 Ch parse_cplx s : of_string K k0 Ch parse_cplx s = UB.
Proof. unfold of_string. apply fill_ub; [rewrite repeat_length; lia|lia]. Qed.
(** Numbers in unary, for instance, are read back. *)
Definition ex_print (n : nat) : list bool := true :: repeat true n.
Fixpoint ex_count (s : list bool) : nat * list bool := match s with true :: s' => let (n, r) := ex_count s' in (S n, r) | _ => (0, s) end.
Definition ex_parse (s : list bool) : outcome (nat * list bool) :=
  let s := match s with false :: s' => s' | _ => s end in match s with true :: s' => Val (ex_count s') | _ => Throw end.
Example C58_example x s : ex_parse (ex_print x ++ false :: s) = Val (x, false :: s) /\ ex_parse (false :: ex_print x ++ false :: s) = Val (x, false :: s).
Proof.
  assert (C : ex_count (repeat true x ++ false :: s) = (x, false :: s)) by (induction x as [|x IH]; [reflexivity|]; cbn [repeat app ex_count]; rewrite IH; reflexivity).
  unfold ex_print, ex_parse. cbn [app]. rewrite C. auto.
Qed.

(** * C59 over the integers *)
Example C59_integers a b l : length a = 36 -> length b = 36 -> degree l -> snd (at_m Z 0%Z a l 0) = 0%Z -> snd (at_m Z 0%Z b l 0) = 0%Z ->
  exists na nb ab, sum_norm Z 0%Z 1%Z Z.add Z.mul a l = Val na /\ sum_norm Z 0%Z 1%Z Z.add Z.mul b l = Val nb /\ inner_product Z 0%Z 1%Z Z.add Z.mul Z.sub Z.opp a b l = Val ab /\ (0 <= na /\ 0 <= na * nb - ab * ab)%Z.
Proof. apply (C59_cauchy_schwarz Z 0%Z 1%Z Z.add Z.mul Z.sub Z.opp Zth (fun x => (0 <= x)%Z)); intros; nia. Qed.
Example C59_example : inner_product Z 0%Z 1%Z Z.add Z.mul Z.sub Z.opp ex_q ex_q 4 = Val 55%Z /\ sum_norm Z 0%Z 1%Z Z.add Z.mul ex_q 4 = Val 55%Z.
Proof. vm_compute. auto. Qed.
(** When the order 0 has an imaginary part the product with itself is not the norm. *)
Theorem C59_imaginary_refuted : exists q l, length q = 36 /\ degree l /\ inner_product Z 0%Z 1%Z Z.add Z.mul Z.sub Z.opp q q l = Val (-1)%Z /\ sum_norm Z 0%Z 1%Z Z.add Z.mul q l = Val 1%Z.
Proof. exists (set_nth 9 (0, 1)%Z (repeat (0, 0)%Z 36)), 6. split; [reflexivity|]. split; [split; [exists 3; auto|lia]|]. vm_compute. auto. Qed.

Print Assumptions C55_storage_bijection.
Print Assumptions C55_positions.
Print Assumptions C55_negative_orders.
Print Assumptions C56_in_range.
Print Assumptions C56_symmetric.
Print Assumptions C56_distinct.
Print Assumptions C56_all_used.
Print Assumptions C74_table_is_wigner_3j.
Print Assumptions C74_radicands.
Print Assumptions C57_values.
Print Assumptions C57_invarients_sum.
Print Assumptions C57_same_refuted.
Print Assumptions C57_real_refuted.
Print Assumptions C58_binary.
Print Assumptions C58_text.
Print Assumptions C58_string_refuted.
Print Assumptions C59_symmetric.
Print Assumptions C59_value.
Print Assumptions C59_norm.
Print Assumptions C59_cauchy_schwarz.
Print Assumptions C59_imaginary_refuted.

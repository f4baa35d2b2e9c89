(** C117: three-dimensional centres from clusters. *)
Require Import ZArith QArith Qround List Bool Arith Lia Lqa.
Require Import Verif.Base Verif.ListX Verif.Traj_Model Verif.Particles_Model Verif.Boo_Model Verif.Multi_Model Verif.Multi_Props Verif.Blobs_Model.
Import ListNotations.

(** ** What is expected, without the model *)
(** The signal of a cluster: as many points before, at 9/10 of the first radius, the radii, as many points after, at 9/10 of the last radius. *)
Definition padded (cl : list center3) (s : list Q) : Prop := exists f l, nth_error cl 0 = Some f /\ nth_error cl (length cl - 1) = Some l /\ length s = (3 * length cl)%nat /\
  forall i, (i < 3 * length cl)%nat -> nth_error s i = if (i <? length cl)%nat then Some ((9 # 10) * cr f)%Q else if (i <? 2 * length cl)%nat then option_map cr (nth_error cl (i - length cl)) else Some ((9 # 10) * cr l)%Q.
(** [a] moved by the fraction t towards [b] *)
Definition towards (t a b v : Q) : Prop := (v == (1 - t) * a + t * b)%Q.
(** The centre of a blob at place [k]+[t] of its cluster, [t] in [0,1). *)
Definition blob_center (cl : list center3) (k : nat) (t : Q) (c : center3) : Prop :=
  exists a, nth_error cl k = Some a /\
    match nth_error cl (k + 1) with
    | Some b => towards t (cx a) (cx b) (cx c) /\ towards t (cy a) (cy b) (cy c) /\ towards t (cz a) (cz b) (cz c + (1 # 2)) /\ towards t (cr a) (cr b) (cr c) /\ towards t (ci a) (ci b) (ci c)
    | None => c = a
    end.
(** The centres of a cluster are those of the blobs inside, in order. *)
Inductive centers_of (cl : list center3) : list Q -> list center3 -> Prop :=
| co_nil : centers_of cl [] []
| co_out : forall x bs cs, (x < inject_Z (Z.of_nat (length cl)) \/ inject_Z (Z.of_nat (2 * length cl)) <= x)%Q -> centers_of cl bs cs -> centers_of cl (x :: bs) cs
| co_in : forall x k t c bs cs, (x == inject_Z (Z.of_nat (length cl + k)) + t)%Q -> (0 <= t < 1)%Q -> blob_center cl k t c -> centers_of cl bs cs -> centers_of cl (x :: bs) (c :: cs).

Lemma trunc_at : forall x, (-1 < x)%Q -> exists n, trunc x = Z.of_nat n /\ ((x < 0)%Q /\ n = 0%nat \/ (inject_Z (Z.of_nat n) <= x < inject_Z (Z.of_nat n) + 1)%Q).
Proof.
  intros x H. destruct (Qlt_le_dec x 0) as [N|P].
  - exists 0%nat. split; [|left; auto]. destruct x as [n d]. unfold trunc, Qlt in *. cbn in *. rewrite <- (Z.opp_involutive n), Z.quot_opp_l by lia. rewrite Z.quot_small by lia. reflexivity.
  - assert (F : (0 <= Qfloor x)%Z). { apply Z.lt_succ_r. rewrite Zlt_Qlt. pose proof (Qlt_floor x) as L. replace (Z.succ (Qfloor x)) with (Qfloor x + 1)%Z by lia. change (inject_Z 0) with 0%Q. apply (Qle_lt_trans _ x); assumption. }
    exists (Z.to_nat (Qfloor x)). rewrite Z2Nat.id by exact F. split; [apply trunc_floor; exact P|]. right. split; [apply Qfloor_le|].
    pose proof (Qlt_floor x) as L. rewrite inject_Z_plus in L. exact L.
Qed.
Lemma inj_le : forall a b, (a <= b)%nat -> (inject_Z (Z.of_nat a) <= inject_Z (Z.of_nat b))%Q.
Proof. intros a b H. rewrite <- Zle_Qle. lia. Qed.
Lemma inj_S : forall a, (inject_Z (Z.of_nat (S a)) == inject_Z (Z.of_nat a) + 1)%Q.
Proof. intros a. rewrite Nat2Z.inj_succ. unfold Z.succ. rewrite inject_Z_plus. reflexivity. Qed.
Lemma last_nth : forall (cl : list center3) d, cl <> [] -> nth_error cl (length cl - 1) = Some (last cl d).
Proof.
  intros cl d N. destruct (exists_last N) as [l [a ->]]. rewrite last_last, app_length, nth_error_app2 by (cbn; lia). cbn. replace (length l + 1 - 1 - length l)%nat with 0%nat by lia. reflexivity.
Qed.
Lemma nth_repeat_x : forall A (x : A) n i, (i < n)%nat -> nth_error (repeat x n) i = Some x.
Proof. intros A x n. induction n as [|n IH]; intros [|i] H; cbn; try lia; [reflexivity|apply IH; lia]. Qed.

Theorem C117_signal : forall cl, cl <> [] -> exists s, signal cl = Val s /\ padded cl s /\ forall s', padded cl s' -> s' = s.
Proof.
  intros cl N. destruct cl as [|f cl]; [contradiction|]. set (c := f :: cl) in *. eexists. split; [reflexivity|].
  assert (P : padded c (repeat ((9 # 10) * cr f)%Q (length c) ++ map cr c ++ repeat ((9 # 10) * cr (last c f))%Q (length c))).
  { exists f, (last c f). split; [reflexivity|]. split; [apply last_nth; exact N|]. split; [rewrite !app_length, map_length, !repeat_length; lia|].
    intros i Hi. destruct (Nat.ltb_spec i (length c)) as [L|L].
    - rewrite nth_error_app1 by (rewrite repeat_length; exact L). apply nth_repeat_x. exact L.
    - rewrite nth_error_app2 by (rewrite repeat_length; exact L). rewrite repeat_length. destruct (Nat.ltb_spec i (2 * length c)) as [L2|L2].
      + rewrite nth_error_app1 by (rewrite map_length; lia). apply nth_error_map.
      + rewrite nth_error_app2 by (rewrite map_length; lia). rewrite map_length. apply nth_repeat_x. lia. }
  split; [exact P|]. intros s' P'. destruct P as [f1 [l1 (F1 & L1 & S1 & A1)]], P' as [f2 [l2 (F2 & L2 & S2 & A2)]]. rewrite F1 in F2. rewrite L1 in L2. injection F2 as <-. injection L2 as <-.
  assert (X : forall u v : list Q, length u = length v -> (forall i, (i < length u)%nat -> nth_error u i = nth_error v i) -> u = v).
  { intros u. induction u as [|a u IH]; intros [|b v] E H; try discriminate; [reflexivity|]. pose proof (H 0%nat ltac:(cbn; lia)) as H0. injection H0 as ->. f_equal. apply IH; [cbn in E; lia|]. intros i Hi. apply (H (S i)). cbn. lia. }
  apply X; [congruence|]. intros i Hi. rewrite S2 in Hi. rewrite A2, A1 by exact Hi. reflexivity.
Qed.

Lemma blob_out : forall cl x, cl <> [] -> (-1 < x)%Q -> (x < inject_Z (Z.of_nat (length cl)) \/ inject_Z (Z.of_nat (2 * length cl)) + 1 <= x)%Q -> blob cl x = Val None.
Proof.
  intros cl x Ne H O. unfold blob. destruct (Qle_bool x (-1)) eqn:B; [apply Qle_bool_iff in B; lra|]. destruct (trunc_at x H) as [n [E C]]. rewrite E, Nat2Z.id.
  destruct (Nat.ltb_spec n (length cl)) as [L|L]; [reflexivity|]. destruct (Nat.ltb_spec (length cl + length cl) n) as [L'|L']; [reflexivity|]. exfalso.
  destruct O as [O|O].
  - destruct C as [[C ->]|[C _]]; [destruct cl; [contradiction|cbn in L; lia]|]. apply inj_le in L. lra.
  - destruct C as [[C _]|[_ C]].
    + assert (I := inj_le 0 (2 * length cl) ltac:(lia)). change (inject_Z (Z.of_nat 0)) with 0%Q in I. lra.
    + assert (I := inj_le n (2 * length cl) ltac:(lia)). lra.
Qed.
Lemma trunc_known : forall x n, (inject_Z (Z.of_nat n) <= x < inject_Z (Z.of_nat n) + 1)%Q -> trunc x = Z.of_nat n.
Proof.
  intros x n [A B]. assert (I := inj_le 0 n ltac:(lia)). change (inject_Z (Z.of_nat 0)) with 0%Q in I. rewrite trunc_floor by lra.
  pose proof (Qfloor_le x). pose proof (Qlt_floor x) as L. rewrite inject_Z_plus in L. change (inject_Z 1) with 1%Q in L.
  assert (Qfloor x < Z.of_nat n + 1)%Z. { rewrite Zlt_Qlt, inject_Z_plus. change (inject_Z 1) with 1%Q. lra. }
  assert (Z.of_nat n < Qfloor x + 1)%Z. { rewrite Zlt_Qlt, inject_Z_plus. change (inject_Z 1) with 1%Q. lra. }
  lia.
Qed.
Lemma blob_in : forall cl x k t, (x == inject_Z (Z.of_nat (length cl + k)) + t)%Q -> (0 <= t < 1)%Q -> (k < length cl)%nat -> exists c, blob cl x = Val (Some c) /\ blob_center cl k t c.
Proof.
  intros cl x k t E T Hk. assert (I := inj_le 0 (length cl + k) ltac:(lia)). change (inject_Z (Z.of_nat 0)) with 0%Q in I.
  unfold blob. destruct (Qle_bool x (-1)) eqn:B; [apply Qle_bool_iff in B; lra|]. rewrite (trunc_known x (length cl + k)) by lra. rewrite Nat2Z.id.
  destruct (Nat.ltb_spec (length cl + k) (length cl)); [lia|]. destruct (Nat.ltb_spec (length cl + length cl) (length cl + k)); [lia|]. cbn [orb].
  replace (length cl + k - length cl)%nat with k by lia. destruct (nth_error_ex cl k Hk) as [a Ea]. unfold deref, at_index. rewrite Ea. cbn [obind].
  assert (F : (x - inject_Z (Z.of_nat (length cl + k)) == t)%Q) by (rewrite E; ring).
  destruct (Nat.eqb_spec (k + 1) (length cl)) as [K|K].
  - exists a. split; [reflexivity|]. exists a. split; [exact Ea|]. assert (Nn : nth_error cl (k + 1) = None) by (apply nth_error_None; lia). rewrite Nn. reflexivity.
  - destruct (nth_error_ex cl (k + 1) ltac:(lia)) as [b Eb]. rewrite Eb. cbn [omap]. eexists. split; [reflexivity|]. exists a. split; [exact Ea|]. rewrite Eb. unfold towards. cbn [cx cy cz cr ci].
    repeat split; rewrite F; ring.
Qed.
(** The place of a number in the signal: outside, inside, or the point just after the cluster. *)
Lemma place : forall (cl : list center3) x, (-1 < x)%Q -> (x < inject_Z (Z.of_nat (length cl)) \/ inject_Z (Z.of_nat (2 * length cl)) + 1 <= x)%Q \/ (inject_Z (Z.of_nat (2 * length cl)) <= x < inject_Z (Z.of_nat (2 * length cl)) + 1)%Q \/
  exists k t, (x == inject_Z (Z.of_nat (length cl + k)) + t)%Q /\ (0 <= t < 1)%Q /\ (k < length cl)%nat.
Proof.
  intros cl x H. destruct (Qlt_le_dec x (inject_Z (Z.of_nat (length cl)))) as [A|A]; [left; left; exact A|].
  destruct (Qlt_le_dec x (inject_Z (Z.of_nat (2 * length cl)) + 1)) as [B|B]; [|left; right; exact B].
  destruct (Qlt_le_dec x (inject_Z (Z.of_nat (2 * length cl)))) as [C|C]; [|right; left; auto].
  right. right. destruct (trunc_at x H) as [n [E [[N _]|[N1 N2]]]].
  - exfalso. assert (I := inj_le 0 (length cl) ltac:(lia)). change (inject_Z (Z.of_nat 0)) with 0%Q in I. lra.
  - assert (L1 : (length cl <= n)%nat). { apply Nat.nlt_ge. intros L. assert (I := inj_le (S n) (length cl) L). rewrite inj_S in I. lra. }
    assert (L2 : (n < 2 * length cl)%nat). { apply Nat.nle_gt. intros L. apply inj_le in L. lra. }
    exists (n - length cl)%nat, (x - inject_Z (Z.of_nat n))%Q. replace (length cl + (n - length cl))%nat with n by lia. split; [ring|]. split; [lra|lia].
Qed.
Lemma blobs_ok : forall cl bs, cl <> [] -> Forall (fun x => -1 < x /\ ~ (inject_Z (Z.of_nat (2 * length cl)) <= x < inject_Z (Z.of_nat (2 * length cl)) + 1))%Q bs ->
  exists l, osequence (map (blob cl) bs) = Val l /\ centers_of cl bs (somes l).
Proof.
  intros cl bs Ne H. induction H as [|x bs [X1 X2] H IH]; [exists []; split; [reflexivity|constructor]|]. destruct IH as [l [E C]]. cbn [map osequence].
  destruct (place cl x X1) as [P|[P|[k [t (Ex & T & Hk)]]]]; [|contradiction|].
  - rewrite (blob_out cl x Ne X1 P). cbn [obind]. rewrite E. exists (None :: l). split; [reflexivity|]. apply co_out; [|exact C]. destruct P as [P|P]; [left; exact P|right]. lra.
  - destruct (blob_in cl x k t Ex T Hk) as [c [B Bc]]. rewrite B. cbn [obind]. rewrite E. exists (Some c :: l). split; [reflexivity|]. eapply co_in; eauto.
Qed.

(** ** All clusters: clusters of a single member give nothing; the others the centres of the blobs found in their padded signal by a finder made for its length, in order. *)
Section All.
  Variable track : nat -> list Q -> option (list Q).
  Definition good_blobs (cl : list center3) : Prop := forall s, padded cl s -> exists bs, track (3 * length cl) s = Some bs /\
    Forall (fun x => -1 < x /\ ~ (inject_Z (Z.of_nat (2 * length cl)) <= x < inject_Z (Z.of_nat (2 * length cl)) + 1))%Q bs.
  Definition cluster_gives (cl cs : list center3) : Prop := if (length cl <? 2)%nat then cs = [] else exists s bs, padded cl s /\ track (3 * length cl) s = Some bs /\ centers_of cl bs cs.
  Definition cache_ok (cache : list (nat * nat)) : Prop := forall n m, In (n, m) cache -> m = (3 * n)%nat.
  Lemma cache_found : forall cache n, cache_ok cache -> exists cache', cache_ok cache' /\
    match find (fun e => fst e =? n)%nat cache with Some _ => cache | None => (n, (n + 2 * n)%nat) :: cache end = cache' /\ find (fun e => fst e =? n)%nat cache' = Some (n, (3 * n)%nat).
  Proof.
    intros cache n H. destruct (find _ cache) as [[a b]|] eqn:F.
    - exists cache. split; [exact H|]. split; [reflexivity|]. rewrite F. apply find_some in F as [I E]. cbn in E. apply Nat.eqb_eq in E. subst a. rewrite (H n b I). reflexivity.
    - eexists. split; [|split; [reflexivity|]].
      + intros a b [I|I]; [|exact (H a b I)]. injection I as <- <-. lia.
      + cbn [find fst]. rewrite Nat.eqb_refl. replace (n + 2 * n)%nat with (3 * n)%nat by lia. reflexivity.
  Qed.
  Lemma one_ok : forall cache cl, cache_ok cache -> ((2 <= length cl)%nat -> good_blobs cl) -> exists cache' cs, cache_ok cache' /\ one_cluster track cache cl = Val (cache', cs) /\ cluster_gives cl cs.
  Proof.
    intros cache cl Hc G. unfold one_cluster, cluster_gives. destruct (Nat.ltb_spec (length cl) 2) as [L|L].
    - destruct (Nat.ltb_spec (length cl * 3) 6); [|lia]. exists cache, []. auto.
    - destruct (Nat.ltb_spec (length cl * 3) 6); [lia|]. destruct (cache_found cache (length cl) Hc) as [cache' (Hc' & E & F)]. cbv zeta. rewrite E, F.
      assert (N : cl <> []) by (destruct cl; [cbn in L; lia|discriminate]). destruct (C117_signal cl N) as [s (Es & P & _)]. rewrite Es. cbn [obind].
      destruct (G L s P) as [bs [Tb Fb]]. rewrite Tb. destruct (blobs_ok cl bs N Fb) as [l [El Cl]]. rewrite El. exists cache', (somes l). split; [exact Hc'|]. split; [reflexivity|]. exists s, bs. auto.
  Qed.
  Theorem C117_blobs : forall cls, Forall (fun cl => (2 <= length cl)%nat -> good_blobs cl) cls -> exists css, get_blobs track cls = Val (concat css) /\ Forall2 cluster_gives cls css.
  Proof.
    intros cls H. unfold get_blobs. assert (C : cache_ok []) by (intros n m []). revert C. generalize (@nil (nat * nat)). induction H as [|cl cls G H IH]; intros cache C.
    - exists []. split; [reflexivity|constructor].
    - destruct (one_ok cache cl C G) as [cache' [cs (C' & E & Gv)]]. destruct (IH cache' C') as [css [E' F]]. exists (cs :: css). cbn [clusters_from]. rewrite E. cbn [obind fst snd]. rewrite E'. split; [reflexivity|]. constructor; assumption.
  Qed.
  (** Refuted: a blob found on the point just after the cluster reads past its end. *)
  Theorem C117_past_end_refuted : forall cl s x bs, (2 <= length cl)%nat -> padded cl s -> track (3 * length cl) s = Some (x :: bs) ->
    (inject_Z (Z.of_nat (2 * length cl)) <= x < inject_Z (Z.of_nat (2 * length cl)) + 1)%Q -> get_blobs track [cl] = UB.
  Proof.
    intros cl s x bs L P T X. unfold get_blobs. cbn [clusters_from]. unfold one_cluster. destruct (Nat.ltb_spec (length cl * 3) 6); [lia|].
    assert (C : cache_ok []) by (intros n m []). destruct (cache_found [] (length cl) C) as [cache' (Hc' & E & F)]. cbv zeta. rewrite E, F.
    assert (N : cl <> []) by (destruct cl; [cbn in L; lia|discriminate]). destruct (C117_signal cl N) as [s' (Es & P' & U)]. rewrite Es. cbn [obind]. rewrite <- (U s P), T. cbn [map osequence].
    assert (B : blob cl x = UB).
    { unfold blob. assert (I := inj_le 0 (2 * length cl) ltac:(lia)). change (inject_Z (Z.of_nat 0)) with 0%Q in I. destruct (Qle_bool x (-1)) eqn:Bq; [reflexivity|]. rewrite (trunc_known x (2 * length cl)) by lra. rewrite Nat2Z.id.
      destruct (Nat.ltb_spec (2 * length cl) (length cl)); [lia|]. destruct (Nat.ltb_spec (length cl + length cl) (2 * length cl)); [lia|]. cbn [orb].
      replace (2 * length cl - length cl)%nat with (length cl) by lia. unfold deref, at_index. assert (Q : nth_error cl (length cl) = None) by (apply nth_error_None; lia). rewrite Q. reflexivity. }
    rewrite B. reflexivity.
  Qed.
End All.

(** ** Every centre lies between two consecutive members of its cluster; the depth is half a step lower, *)
Definition between (a b v : Q) : Prop := (a <= v <= b \/ b <= v <= a)%Q.
Lemma towards_between : forall t a b v, (0 <= t < 1)%Q -> towards t a b v -> between a b v.
Proof.
  intros t a b v T E. unfold towards in E. unfold between. destruct (Qlt_le_dec b a) as [L|L]; [right|left].
  - assert (0 <= t * (a - b))%Q by (apply Qmult_le_0_compat; lra). assert (0 <= (1 - t) * (a - b))%Q by (apply Qmult_le_0_compat; lra). rewrite E. split; lra.
  - assert (0 <= t * (b - a))%Q by (apply Qmult_le_0_compat; lra). assert (0 <= (1 - t) * (b - a))%Q by (apply Qmult_le_0_compat; lra). rewrite E. split; lra.
Qed.
Theorem C117_between : forall cl k t c a b, (0 <= t < 1)%Q -> blob_center cl k t c -> nth_error cl k = Some a -> nth_error cl (k + 1) = Some b ->
  between (cx a) (cx b) (cx c) /\ between (cy a) (cy b) (cy c) /\ between (cz a) (cz b) (cz c + (1 # 2)) /\ between (cr a) (cr b) (cr c) /\ between (ci a) (ci b) (ci c).
Proof. intros cl k t c a b T [a' [Ea H]] Ea' Eb. rewrite Ea in Ea'. injection Ea' as ->. rewrite Eb in H. destruct H as (H1 & H2 & H3 & H4 & H5). repeat split; eapply towards_between; eauto. Qed.
(** except when the blob is at the last member: two clusters, one with one more member after the blob, give centres half a step apart in depth for the same blob. *)
Theorem C117_last_refuted : exists cl a, let c := mkC3 1 1 4 3 (-1) in blob (cl ++ [c]) (inject_Z (Z.of_nat (length (cl ++ [c]) + length cl))) = Val (Some c) /\
  blob (cl ++ [c; a]) (inject_Z (Z.of_nat (length (cl ++ [c; a]) + length cl))) = Val (Some (mkC3 1 1 (7 # 2) 3 (-1))).
Proof. exists [mkC3 1 1 3 2 (-1)], (mkC3 1 1 5 2 (-1)). split; vm_compute; reflexivity. Qed.

(** ** Example *)
Definition ex_cluster : list center3 := [mkC3 1 2 3 2 (-1); mkC3 2 2 4 4 (-3); mkC3 2 1 5 2 (-2)].
Definition ex_track (n : nat) (s : list Q) : option (list Q) := if (n =? length s)%nat then Some [2 # 1; 9 # 2; 15 # 2]%Q else None.
Example C117_hypotheses_met : good_blobs ex_track ex_cluster.
Proof.
  intros s [f [l (_ & _ & L & _)]]. exists [2 # 1; 9 # 2; 15 # 2]%Q. unfold ex_track. rewrite L, Nat.eqb_refl. split; [reflexivity|].
  repeat constructor; cbn [fst snd length ex_cluster Nat.mul Nat.add Z.of_nat Pos.of_succ_nat Pos.succ]; try reflexivity; intros [A B]; unfold Qle, Qlt in *; cbn in *; lia.
Qed.
Example C117_example : exists c, get_blobs ex_track [[mkC3 0 0 0 0 0]; ex_cluster; ex_cluster] = Val [c; c] /\ (cx c == 2 /\ cy c == 3 # 2 /\ cz c == 4 /\ cr c == 3 /\ ci c == - (5 # 2))%Q.
Proof. eexists. split; [vm_compute; reflexivity|]. vm_compute. auto. Qed.

Print Assumptions C117_signal.
Print Assumptions C117_blobs.
Print Assumptions C117_past_end_refuted.
Print Assumptions C117_between.
Print Assumptions C117_last_refuted.
Print Assumptions C117_example.

(** C98: centres found in two successive octaves. *)
Require Import ZArith List Bool Arith Lia.
Require Import Verif.Base Verif.Traj_Model Verif.Particles_Model Verif.Corr_Model Verif.Boo_Model.
Require Import Verif.Seam_Model Verif.Seam_Spec Verif.Seam_Proofs.
Import ListNotations.

(** the nearest pixel of the small image, of each centre of the last layer, is in the small image *)
Definition fits (s : nat) (hi lo : finder) : Prop :=
  forall i j, In (i, j, nl hi) (cs hi) -> 2 * i + s < 2 * s * cols lo /\ 2 * j + s < 2 * s * rows lo.

(** C98, called on the finder of high resolution: images are left unchanged; in each finder some centres are removed, the others stay in the same order,
    only centres of the last layer of the high resolution and of the first layer of the low resolution are removed; the binary images show the centres that remain. *)
Theorem C98_removes : forall hi lo, cols lo <> 0 -> 1 < cols hi / cols lo -> shows hi (nl hi) -> shows lo 1 -> fits (cols hi / cols lo) hi lo ->
  exists hi' lo', seam_binary hi lo = Val (hi', lo') /\ same_images hi hi' /\ same_images lo lo' /\ shows hi' (nl hi) /\ shows lo' 1 /\
    (exists keep, cs hi' = filter keep (cs hi) /\ forall c, layer_of c <> nl hi -> keep c = true) /\
    (exists keep, cs lo' = filter keep (cs lo) /\ forall c, layer_of c <> 1 -> keep c = true) /\
    (forall k j i, k <> nl hi -> flag hi' k j i = flag hi k j i) /\ (forall k j i, k <> 1 -> flag lo' k j i = flag lo k j i) /\
  (* no pair at the same place with different values survives *)
  (forall h l, In h (cs hi') -> In l (cs lo') -> layer_of h = nl hi -> layer_of l = 1 -> same_place (cols hi / cols lo) h l -> at_center hi h = at_center lo l) /\
  (* near a surviving centre of the low resolution, no centre of the high resolution is lower *)
  (forall h l, In h (cs hi') -> In l (cs lo') -> layer_of h = nl hi -> layer_of l = 1 -> about (cols hi / cols lo) h l -> (at_center lo l <= at_center hi h)%Z) /\
  (* for each removed centre a lower one survives near by *)
  (forall l, In l (cs lo) -> ~ In l (cs lo') -> exists h, In h (cs hi') /\ layer_of h = nl hi /\ about (cols hi / cols lo) h l /\ (at_center hi h < at_center lo l)%Z) /\
  (forall h, In h (cs hi) -> ~ In h (cs hi') -> exists l, In l (cs lo) /\ layer_of l = 1 /\ same_place (cols hi / cols lo) h l /\ (at_center lo l < at_center hi h)%Z /\
     (In l (cs lo') \/ exists h', In h' (cs hi') /\ layer_of h' = nl hi /\ about (cols hi / cols lo) h' l /\ (at_center hi h' < at_center lo l)%Z)).
Proof.
  intros hi lo Hc Hs Sh Sl Fit. set (s := cols hi / cols lo) in *.
  assert (ES : seam_binary hi lo = eliminate (Some s) hi lo).
  { unfold seam_binary. destruct (cols lo) as [|w] eqn:E; [contradiction|]. fold s. destruct s as [|[|s']]; [lia|lia|reflexivity]. }
  assert (Hfit : forall i j, In (i, j, nl hi) (cs hi) -> rescaled (Some s) i < cols lo /\ rescaled (Some s) j < rows lo).
  { intros i j I. destruct (Fit i j I) as [F1 F2]. pose proof (rescaled_nearest s i ltac:(lia)) as N1. pose proof (rescaled_nearest s j ltac:(lia)) as N2.
    unfold nearest in N1, N2. nia. }
  destruct (drop_high_ok (Some s) hi lo (cs hi) (flag hi)) as [fl1 [E1 F1]].
  { intros i j I. split; apply inside_lt; [apply Hfit, I|apply (proj2 Sh), I]. }
  set (hi' := with_flags hi (filter (fun c => negb (beaten_high (Some s) hi lo c)) (cs hi), fl1)).
  assert (Sh' : shows hi' (nl hi)).
  { apply (shows_filter hi (nl hi) (fun c => negb (beaten_high (Some s) hi lo c)) fl1 Sh). intros j i. rewrite F1. f_equal. f_equal.
    clear. induction (cs hi) as [|c l IH]; cbn; [reflexivity|]. rewrite IH, negb_involutive. reflexivity. }
  destruct (drop_low_ok s hi' lo (cs lo) (flag lo)) as [fl2 [E2 F2]].
  { intros i j I. apply inside_lt, (proj2 Sl), I. }
  { intros i j I. right. apply (proj1 Sl), I. }
  set (lo' := with_flags lo (filter (fun c => negb (beaten_low s hi' lo c)) (cs lo), fl2)).
  assert (Sl' : shows lo' 1).
  { apply (shows_filter lo 1 (fun c => negb (beaten_low s hi' lo c)) fl2 Sl). intros j i. rewrite F2. f_equal. f_equal.
    clear. induction (cs lo) as [|c l IH]; cbn; [reflexivity|]. rewrite IH, negb_involutive. reflexivity. }
  assert (LOW : forall l, beaten_low s hi' lo l = true <-> layer_of l = 1 /\ exists h, In h (cs hi') /\ layer_of h = nl hi /\ about s h l /\ (at_center hi h < at_center lo l)%Z).
  { intros [[i j] k]. unfold beaten_low. rewrite andb_true_iff, Nat.eqb_eq, existsb_exists. cbn [layer_of snd]. split.
    - intros [-> [j' [Wj E]]]. split; [reflexivity|]. apply existsb_exists in E. destruct E as [i' [Wi E]].
      apply andb_true_iff in E. destruct E as [Fl V]. apply in_window in Wj, Wi. apply Z.ltb_lt in V.
      change (nl hi') with (nl hi) in Fl, V. apply (proj1 Sh') in Fl. exists (i', j', nl hi). split; [exact Fl|]. split; [reflexivity|].
      split; [split; tauto|exact V].
    - intros [-> [[[i' j'] k'] [I [L [[A1 A2] V]]]]]. cbn in L. subst k'. split; [reflexivity|].
      pose proof (proj2 Sh' i' j' I) as [B1 B2].
      exists j'. split; [apply in_window; split; assumption|]. apply existsb_exists. exists i'. split; [apply in_window; split; assumption|].
      apply andb_true_iff. split; [apply (proj1 Sh'); exact I|apply Z.ltb_lt; exact V]. }
  assert (HIGH : forall h, In h (cs hi) -> (beaten_high (Some s) hi lo h = true <-> layer_of h = nl hi /\ exists l, In l (cs lo) /\ layer_of l = 1 /\ same_place s h l /\ (at_center lo l < at_center hi h)%Z)).
  { intros [[i j] k] I0. unfold beaten_high. rewrite !andb_true_iff, Nat.eqb_eq. cbn [layer_of snd]. split.
    - intros [[-> Fl] V]. split; [reflexivity|]. apply (proj1 Sl) in Fl. exists (rescaled (Some s) i, rescaled (Some s) j, 1). split; [exact Fl|]. split; [reflexivity|].
      split; [split; apply rescaled_nearest; lia|apply Z.ltb_lt; exact V].
    - intros [-> [[[i2 j2] k2] [I [L [[N1 N2] V]]]]]. cbn in L. subst k2.
      rewrite (nearest_unique s i _ _ (rescaled_nearest s i ltac:(lia)) N1), (nearest_unique s j _ _ (rescaled_nearest s j ltac:(lia)) N2).
      split; [split; [reflexivity|apply (proj1 Sl), I]|apply Z.ltb_lt; exact V]. }
  exists hi', lo'. split.
  { rewrite ES. unfold eliminate. rewrite E1. cbn [obind]. fold hi'. rewrite E2. reflexivity. }
  split; [repeat split|]. split; [repeat split|]. split; [exact Sh'|]. split; [exact Sl'|].
  split. { eexists. split; [reflexivity|]. intros [[i j] k] L. cbn in L. unfold beaten_high. destruct (Nat.eqb_spec k (nl hi)); [contradiction|reflexivity]. }
  split. { eexists. split; [reflexivity|]. intros [[i j] k] L. cbn in L. unfold beaten_low. destruct (Nat.eqb_spec k 1); [contradiction|reflexivity]. }
  split.
  { intros k j i Nk. cbn. rewrite F1. destruct (existsb _ (cs hi)) eqn:X; [|apply andb_true_r].
    apply existsb_exists in X. destruct X as [c [_ X]]. apply andb_true_iff in X. destruct X as [X1 X2]. apply is_at_eq in X1. subst c.
    unfold beaten_high in X2. destruct (Nat.eqb_spec k (nl hi)); [contradiction|discriminate]. }
  split.
  { intros k j i Nk. cbn. rewrite F2. destruct (existsb _ (cs lo)) eqn:X; [|apply andb_true_r].
    apply existsb_exists in X. destruct X as [c [_ X]]. apply andb_true_iff in X. destruct X as [X1 X2]. apply is_at_eq in X1. subst c.
    unfold beaten_low in X2. destruct (Nat.eqb_spec k 1); [contradiction|discriminate]. }
  assert (KEEPL : forall l, In l (cs lo') <-> In l (cs lo) /\ beaten_low s hi' lo l = false).
  { intros l. cbn. rewrite filter_In, negb_true_iff. reflexivity. }
  assert (KEEPH : forall h, In h (cs hi') <-> In h (cs hi) /\ beaten_high (Some s) hi lo h = false).
  { intros h. cbn. rewrite filter_In, negb_true_iff. reflexivity. }
  assert (NEARL : forall h l, In h (cs hi') -> In l (cs lo') -> layer_of h = nl hi -> layer_of l = 1 -> about s h l -> (at_center lo l <= at_center hi h)%Z).
  { intros h l Ih Il Lh Ll A. destruct (Z_lt_le_dec (at_center hi h) (at_center lo l)) as [V|V]; [|exact V]. exfalso.
    apply KEEPL in Il. assert (beaten_low s hi' lo l = true); [|destruct Il; congruence]. apply LOW. split; [exact Ll|]. exists h. repeat split; assumption. }
  split; [|split; [exact NEARL|split]].
  - intros [[i j] k] [[i2 j2] k2] Ih Il Lh Ll [N1 N2]. apply Z.le_antisymm.
    + destruct (Z_lt_le_dec (at_center lo (i2, j2, k2)) (at_center hi (i, j, k))) as [V|V]; [|exact V]. exfalso.
      apply KEEPH in Ih. assert (X : beaten_high (Some s) hi lo (i, j, k) = true); [|destruct Ih; congruence].
      apply HIGH; [apply Ih|]. split; [exact Lh|]. exists (i2, j2, k2). split; [apply KEEPL, Il|]. split; [exact Ll|]. split; [split; assumption|exact V].
    + apply NEARL; try assumption. split; apply nearest_window; try lia; assumption.
  - intros l Il Nl. destruct (beaten_low s hi' lo l) eqn:EB; [|exfalso; apply Nl, KEEPL; auto]. apply LOW in EB. apply EB.
  - intros h Ih Nh. destruct (beaten_high (Some s) hi lo h) eqn:EB; [|exfalso; apply Nh, KEEPH; auto].
    apply (HIGH h Ih) in EB. destruct EB as [_ [l [Il [Ll [P V]]]]]. exists l. split; [exact Il|]. split; [exact Ll|]. split; [exact P|]. split; [exact V|].
    destruct (beaten_low s hi' lo l) eqn:EL; [|left; apply KEEPL; auto]. right. apply LOW in EL. apply EL.
Qed.

(** C98: between finders of the same number of columns the roles are exchanged: the other finder is that of the last layer. *)
Theorem C98_same_size : forall a b, cols b <> 0 -> cols a / cols b = 1 -> seam_binary a b = omap (fun x => (snd x, fst x)) (eliminate (Some 1) b a).
Proof. intros a b H E. unfold seam_binary. rewrite E. destruct (cols b); [contradiction|reflexivity]. Qed.

(** Finding: called on the finder of low resolution, the ratio of sizes is the integer division 0 and its inverse infinite: the call is undefined as soon as
    the finder of low resolution has a centre in its first layer, although the code provides for this order. *)
Theorem C98_reversed_refuted : forall lo hi, cols lo < cols hi -> (exists c, In c (cs lo) /\ layer_of c = 1) ->
  (forall i j, In (i, j, nl hi) (cs hi) -> i < cols hi /\ j < rows hi) -> 0 < cols lo -> 0 < rows lo -> seam_binary lo hi = UB.
Proof.
  intros lo hi H [c [Ic Lc]] Hin C0 R0. unfold seam_binary. destruct (cols hi) as [|w] eqn:E; [lia|]. rewrite Nat.div_small by lia.
  unfold eliminate. destruct (drop_high_ok None hi lo (cs hi) (flag hi)) as [fl [E1 _]].
  { intros i j I. split; apply inside_lt; [cbn; lia|]. rewrite E. apply Hin, I. }
  rewrite E1. cbn [obind]. replace (existsb (fun c => snd c =? 1) (cs lo)) with true; [reflexivity|].
  symmetry. apply existsb_exists. exists c. split; [exact Ic|]. apply Nat.eqb_eq. exact Lc.
Qed.

(** A case: two overlapping centres, the one of low resolution is the lowest; another centre of high resolution stays. *)
Definition ex_hi : finder := {| nl := 3; rows := 16; cols := 16; value := fun k j i => if (k =? 3) && (i =? 8) && (j =? 9) then (-5)%Z else if (k =? 2) && (i =? 3) && (j =? 3) then (-7)%Z else 0%Z;
  flag := fun k j i => (k =? 3) && (i =? 8) && (j =? 9) || (k =? 2) && (i =? 3) && (j =? 3); cs := [(3, 3, 2); (8, 9, 3)] |}.
Definition ex_lo : finder := {| nl := 3; rows := 8; cols := 8; value := fun k j i => if (k =? 1) && (i =? 4) && (j =? 5) then (-6)%Z else 0%Z;
  flag := fun k j i => (k =? 1) && (i =? 4) && (j =? 5); cs := [(4, 5, 1)] |}.
Example C98_case : cols ex_lo <> 0 /\ 1 < cols ex_hi / cols ex_lo /\ shows ex_hi (nl ex_hi) /\ shows ex_lo 1 /\ fits (cols ex_hi / cols ex_lo) ex_hi ex_lo /\
  match seam_binary ex_hi ex_lo with Val (h, l) => cs h = [(3, 3, 2)] /\ cs l = [(4, 5, 1)] | _ => False end.
Proof.
  split; [discriminate|]. split; [vm_compute; lia|]. split; [|split; [|split]].
  - split; cbn.
    + intros i j. cbn. rewrite orb_true_iff, !andb_true_iff, !Nat.eqb_eq. split.
      * intros [[-> ->]|F]; [right; left; reflexivity|discriminate].
      * intros [[=]|[[= <- <-]|[]]]. left. auto.
    + intros i j [[=]|[[= <- <-]|[]]]. lia.
  - split; cbn.
    + intros i j. rewrite !andb_true_iff, !Nat.eqb_eq. split; [intros [-> ->]; now left|intros [[= <- <-]|[]]; auto].
    + intros i j [[= <- <-]|[]]. lia.
  - intros i j [[=]|[[= <- <-]|[]]]. cbn. lia.
  - vm_compute. auto.
Qed.

Print Assumptions C98_removes.
Print Assumptions C98_same_size.
Print Assumptions C98_reversed_refuted.

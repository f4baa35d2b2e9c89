(** C60, C61, C62, C76: local minima of the scale space. *)
Require Import ZArith List Bool Arith Lia.
Require Import Verif.Base Verif.ListX Verif.Traj_Model Verif.Particles_Model Verif.Corr_Model Verif.RTree_Model Verif.Boo_Model Verif.Minima_Model Verif.Minima_Spec Verif.Minima_Proofs Verif.Minima3_Proofs.
Import ListNotations.
Local Open Scope nat_scope.

Definition eqb2 (c d : nat * nat * nat) : bool := let '(k, j, i) := c in let '(k', j', i') := d in (k =? k') && (j =? j') && (i =? i').
Definition eqb1 (c d : nat * nat) : bool := let '(k, i) := c in let '(k', i') := d in (k =? k') && (i =? i').
Lemma eqb2_ok x y : eqb2 x y = true <-> x = y.
Proof.
  destruct x as [[k j] i], y as [[k' j'] i']. unfold eqb2. rewrite !andb_true_iff, !Nat.eqb_eq. split; [intros [[-> ->] ->]; auto|intros E; injection E; auto].
Qed.
Lemma eqb1_ok x y : eqb1 x y = true <-> x = y.
Proof. destruct x as [k i], y as [k' i']. unfold eqb1. rewrite !andb_true_iff, !Nat.eqb_eq. split; [intros [-> ->]; auto|intros E; injection E; auto]. Qed.

(** * C60.  [nl] layers may hold a minimum; [sizes] holds at least sizes[0..nl].  No read out of the images; no pixel twice; every center is a
    minimum among its 26 neighbours that passes the edge test; every strict minimum of the scanned part that passes it is a center; the
    binary image is true exactly at the centers. *)
Theorem C60_minima2_exact : forall nl rows cols px sizes tiny hessian, nl < length sizes ->
  exists ws, find2 nl rows cols px sizes tiny hessian = Val ws /\ NoDup (centers_of ws) /\
    (forall c, flag_after eqb2 ws c = true <-> In c (centers_of ws)) /\
    (forall k j i, In (k, j, i) (centers_of ws) ->
       1 <= k <= nl /\ inside (nth k sizes 0) j rows /\ inside (nth k sizes 0) i cols /\
       (let s := Nat.max (nth (base k) sizes 0 + 1) 3 in scanned s s j rows /\ scanned s s i cols) /\
       minimum adjacent2 (value2 px) tiny (k, j, i) /\ hessian (square (px k) j i) = true) /\
    (forall k j i, 1 <= k <= nl -> inside (nth k sizes 0) j rows -> inside (nth k sizes 0) i cols ->
       (let s := Nat.max (nth (base k) sizes 0 + 1) 3 in scanned s s j rows /\ scanned s s i cols) ->
       strict_minimum adjacent2 (value2 px) tiny (k, j, i) -> hessian (square (px k) j i) = true -> In (k, j, i) (centers_of ws)).
Proof.
  intros nl rows cols px sizes tiny hessian H. destruct (find2_spec nl rows cols px sizes tiny hessian H) as [ws (E & ND & S & C)]. exists ws. split; [auto|]. split; [apply centers_NoDup; auto|]. split; [|split].
  - intros c. apply flags_ok; [apply eqb2_ok|auto].
  - intros k j i Hc. destruct (S k j i Hc) as (A1 & A2 & A3 & A4 & A5 & A6 & A7). split; [auto|]. split; [auto|]. split; [auto|]. split; [split; auto|]. split; [exact A6|exact A7].
  - intros k j i A1 A2 A3 [A4 A5] A6 A7. apply C; auto.
Qed.
(** Pixels at the distance sizes[k] of the border, although allowed by the test on margins, are not scanned. *)
Theorem C60_border_refuted : exists nl rows cols px sizes k j i, nl < length sizes /\ 1 <= k <= nl /\ inside (nth k sizes 0) j rows /\ inside (nth k sizes 0) i cols /\
  strict_minimum adjacent2 (value2 px) (Z.eqb 0) (k, j, i) /\ find2 nl rows cols px sizes (Z.eqb 0) (fun _ => true) = Val [].
Proof.
  exists 1, 12, 12, (fun k j i => if (k =? 1) && (j =? 3) && (i =? 6) then (-1)%Z else 0%Z), [2; 3; 4; 5], 1, 3, 6. split; [cbn; lia|]. split; [lia|]. split; [cbn; unfold inside; lia|]. split; [cbn; unfold inside; lia|]. split; [|vm_compute; reflexivity].
  split; [cbn; lia|]. split; [reflexivity|]. intros [[k j] i] [Ne _]. unfold value2 at 1. cbn [Nat.eqb andb]. unfold value2. destruct (Nat.eqb_spec k 1), (Nat.eqb_spec j 3), (Nat.eqb_spec i 6); subst; cbn [andb]; try lia. easy.
Qed.
(** Two minima, one on an even layer; a third pixel of the same value beside the second is in the same block. *)
Example C60_example : omap centers_of (find2 2 14 14 (fun k j i => if (k =? 1) && (j =? 5) && (i =? 6) || (k =? 2) && (j =? 8) && (i =? 8) then (-3)%Z else if (k =? 2) && (j =? 8) && (i =? 9) then (-2)%Z else 0%Z) [1; 2; 3; 4; 5] (Z.eqb 0) (fun l => (nth 4 l 0 <? 0)%Z)) = Val [(1, 5, 6); (2, 8, 8)].
Proof. vm_compute. reflexivity. Qed.

(** * C61.  In one dimension, provided the sizes of odd scales are at least 2. *)
Theorem C61_minima1_exact : forall nl cols px pg sizes tiny gradient, nl < length sizes -> (forall k, k <= nl -> Nat.Odd k -> 2 <= nth k sizes 0) ->
  exists ws, find1 nl cols px pg sizes tiny gradient = Val ws /\ NoDup (centers_of ws) /\
    (forall c, flag_after eqb1 ws c = true <-> In c (centers_of ws)) /\
    (forall k i, In (k, i) (centers_of ws) ->
       1 <= k <= nl /\ inside (nth k sizes 0) i cols /\ (let s := nth (base k) sizes 0 + 1 in scanned s s i cols) /\
       minimum adjacent1 (value1 px) tiny (k, i) /\ gradient [pg k (i - 1); pg k i; pg k (i + 1)] = true) /\
    (forall k i, 1 <= k <= nl -> inside (nth k sizes 0) i cols -> (let s := nth (base k) sizes 0 + 1 in scanned s s i cols) ->
       strict_minimum adjacent1 (value1 px) tiny (k, i) -> gradient [pg k (i - 1); pg k i; pg k (i + 1)] = true -> In (k, i) (centers_of ws)).
Proof.
  intros nl cols px pg sizes tiny gradient H HA. destruct (find1_spec nl cols px pg sizes tiny gradient H HA) as [ws (E & ND & S & C)]. exists ws. split; [auto|]. split; [apply centers_NoDup; auto|]. split; [|split].
  - intros c. apply flags_ok; [apply eqb1_ok|auto].
  - intros k i Hc. destruct (S k i Hc) as (A1 & A2 & A4 & A6 & A7). split; [auto|]. split; [auto|]. split; [auto|]. split; [exact A6|exact A7].
  - intros k i A1 A2 A4 A6 A7. apply C; auto.
Qed.
(** With smaller sizes the pixels read are one or two places before the pixels named: a strict minimum in the middle of the signal is missed, and
    a pixel that is not a minimum is reported. *)
Theorem C61_small_sizes_refuted :
  (exists nl cols px pg sizes k i, nl < length sizes /\ 1 <= k <= nl /\ inside 3 i cols /\ strict_minimum adjacent1 (value1 px) (Z.eqb 0) (k, i) /\ find1 nl cols px pg sizes (Z.eqb 0) (fun _ => true) = Val [(k, i + 1, false)]) /\
  (exists nl cols px pg sizes k i, nl < length sizes /\ find1 nl cols px pg sizes (Z.eqb 0) (fun _ => true) = Val [(k, i, true)] /\ ~ minimum adjacent1 (value1 px) (Z.eqb 0) (k, i)).
Proof.
  split.
  - exists 1, 12, (fun k i => if (k =? 1) && (i =? 6) then (-1)%Z else 0%Z), (fun _ _ => 0%Z), [1; 1; 1; 1], 1, 6. split; [cbn; lia|]. split; [lia|]. split; [unfold inside; lia|]. split; [|vm_compute; reflexivity].
    split; [cbn; lia|]. split; [reflexivity|]. intros [k i] [Ne _]. unfold value1 at 1. cbn [Nat.eqb andb]. unfold value1. destruct (Nat.eqb_spec k 1), (Nat.eqb_spec i 6); subst; cbn [andb]; try lia. easy.
  - exists 1, 12, (fun k i => if negb (k =? 1) then 0%Z else if (i =? 6) || (i =? 7) then (-1)%Z else if i =? 8 then (-2)%Z else 0%Z), (fun _ _ => 0%Z), [1; 1; 1; 1], 1, 7. split; [cbn; lia|]. split; [vm_compute; reflexivity|].
    intros (_ & _ & M). specialize (M (1, 8)). cbn in M. assert ((-1 <= -2)%Z); [|lia]. apply M. split; [discriminate|]. unfold near. lia.
Qed.
Example C61_example : omap centers_of (find1 2 16 (fun k i => if (k =? 2) && (i =? 6) then (-3)%Z else if (k =? 1) && (i =? 11) then (-2)%Z else 0%Z) (fun _ _ => 0%Z) [1; 2; 3; 4; 5] (Z.eqb 0) (fun _ => true)) = Val [(2, 6); (1, 11)].
Proof. vm_compute. reflexivity. Qed.

(** * C62.  At every step the 8 offsets -3..4 show the planes around the current one, all of them in the image; loading planes never throws. *)
Theorem C62_window : forall nl depth rows cols g sizes, 3 <= nth 1 sizes 0 -> nth 1 sizes 0 + 3 <= depth ->
  exists sts, windows depth sizes = Val sts /\ length sts = length (planes_visited depth sizes) /\
  forall t st, nth_error sts t = Some st -> exists k, nth_error (planes_visited depth sizes) t = Some k /\
    forall o l j i, (-3 <= o <= 4)%Z -> l < nl + 3 -> j < rows -> i < cols ->
      (0 <= Z.of_nat k + o < Z.of_nat depth)%Z /\ getG nl rows cols g st (l, o, j, i) = Val (g l (Z.to_nat (Z.of_nat k + o)) j i).
Proof.
  intros nl depth rows cols g sizes H1 H2. destruct (windows_ok depth sizes H1 H2) as [sts (E & L & H)]. exists sts. split; [auto|]. split; [auto|]. intros t st Ht. destruct (H t st Ht) as (A & B & D). exists (nth 1 sizes 0 + 2 * t). split; [auto|].
  intros o l j i Ho Hl Hj Hi. split; [lia|]. apply getG_ok; auto.
Qed.
(** Sizes below 3 (blurring radius below about 1.3 with 3 layers) or fewer than sizes[1]+3 planes: the first load reads outside the image. *)
Theorem C62_outside_refuted : forall nl depth rows cols g dog sizes tiny hessian, nth 1 sizes 0 < 3 \/ depth < nth 1 sizes 0 + 3 ->
  find3 nl depth rows cols g dog sizes tiny hessian = UB.
Proof.
  intros. unfold find3, loadplanes. change (8 <? slot circ_init (-3) + 6) with false. cbv iota.
  replace ((Z.of_nat (nth 1 sizes 0%nat) - 3 <? 0)%Z || (Z.of_nat depth <? Z.of_nat (nth 1 sizes 0%nat) - 3 + Z.of_nat 6)%Z) with true; [reflexivity|]. symmetry. apply orb_true_iff. rewrite !Z.ltb_lt. lia.
Qed.
Example C62_example : omap (map (fun st => map (fun o => nth_error (slots st) (slot st o)) [-3; 0; 4]%Z)) (windows 14 [2; 3; 4]) =
  Val (map (map (fun p => Some (Some p))) [[0; 3; 7]; [2; 5; 9]; [4; 7; 11]; [6; 9; 13]]).
Proof. vm_compute. reflexivity. Qed.

(** * C76.  Three dimensions: as C60, with 80 neighbours; the subpixel shifts are computed from the values of the image around the center. *)
Theorem C76_minima3_exact : forall nl depth rows cols g dog sizes tiny hessian, nl < length sizes -> 3 <= nth 1 sizes 0 -> nth 1 sizes 0 + 3 <= depth -> tiny 0%Z = true ->
  exists res, find3 nl depth rows cols g dog sizes tiny hessian = Val res /\ NoDup (map fst res) /\
    (forall l p j i v, In ((l, p, j, i), v) res ->
       1 <= l <= nl /\ inside (nth l sizes 0) p depth /\ inside (nth l sizes 0) j rows /\ inside (nth l sizes 0) i cols /\
       (let s := nth 1 sizes 0 in scanned s (s + 1) p depth) /\ (let s := Nat.max (nth (base l) sizes 0) 3 in scanned s (s + 1) j rows /\ scanned s (s + 1) i cols) /\
       minimum adjacent3 (value3 dog g) tiny (l, p, j, i) /\ hessian (square (fun j i => value3 dog g (l, p, j, i)) j i) = true /\
       v = [seven (fun x => g (l - 1) p j x) i; seven (fun x => g (l - 1) p x i) j; seven (fun x => g (l - 1) x j i) p;
            [value3 dog g (l - 1, p, j, i); value3 dog g (l, p, j, i); value3 dog g (l + 1, p, j, i)]]) /\
    (forall l p j i, 1 <= l <= nl -> inside (nth l sizes 0) p depth -> inside (nth l sizes 0) j rows -> inside (nth l sizes 0) i cols ->
       (let s := nth 1 sizes 0 in scanned s (s + 1) p depth) -> (let s := Nat.max (nth (base l) sizes 0) 3 in scanned s (s + 1) j rows /\ scanned s (s + 1) i cols) ->
       strict_minimum adjacent3 (value3 dog g) tiny (l, p, j, i) -> hessian (square (fun j i => value3 dog g (l, p, j, i)) j i) = true -> In (l, p, j, i) (map fst res)).
Proof.
  intros nl depth rows cols g dog sizes tiny hessian H H3 HD HT. destruct (find3_spec nl depth rows cols g dog sizes tiny hessian H H3 HD HT) as [res (E & ND & S & C)]. exists res. split; [auto|]. split; [auto|].
  assert (V : forall c, val3 g dog c = value3 dog g c). { intros [[[l p] j] i]. unfold val3, value3. rewrite Nat.add_1_r. auto. }
  assert (P : forall l p j i, patch3 g dog (l, p, j, i) = square (fun j i => value3 dog g (l, p, j, i)) j i). { intros. unfold patch3, square, around. cbn [flat_map map app]. rewrite !V. auto. }
  split.
  - intros l p j i v Hc. destruct (S l p j i v Hc) as (A1 & A2 & A3 & A4 & A5 & A6 & A7 & (A8 & A9 & A10) & A11 & A12). rewrite V in *. rewrite P in A11.
    split; [auto|]. split; [auto|]. split; [auto|]. split; [auto|]. split; [auto|]. split; [split; auto|]. split; [|split; [auto|]].
    + split; [auto|]. split; [auto|]. intros d Hd. rewrite <- (V d). auto.
    + rewrite A12. unfold lines3, seven. cbn [seq map]. rewrite !V. assert (3 <= i /\ 3 <= j /\ 3 <= p) as (Q1 & Q2 & Q3). { destruct A5 as [A5 _], A6 as [A6 _], A7 as [A7 _]. unfold si3 in *. lia. }
      assert (F : forall x, 3 <= x -> x - 3 + 0 = x - 3 /\ x - 3 + 1 = x - 2 /\ x - 3 + 2 = x - 1 /\ x - 3 + 3 = x /\ x - 3 + 4 = x + 1 /\ x - 3 + 5 = x + 2 /\ x - 3 + 6 = x + 3) by (intros; lia).
      destruct (F i Q1) as (-> & -> & -> & -> & -> & -> & ->). destruct (F j Q2) as (-> & -> & -> & -> & -> & -> & ->). destruct (F p Q3) as (-> & -> & -> & -> & -> & -> & ->).
      replace (l - 1 + 0) with (l - 1) by lia. replace (l - 1 + 1) with l by lia. replace (l - 1 + 2) with (l + 1) by lia. auto.
  - intros l p j i A1 A2 A3 A4 A5 [A6 A7] (A8 & A9 & A10) A11. apply C; auto; [|rewrite P; auto]. split; [rewrite V; auto|]. split; [rewrite V; auto|]. intros d Hd. rewrite !V. auto.
Qed.
Example C76_example : omap (map fst) (find3 2 12 11 11 (fun l p j i => if (l =? 2) && (p =? 5) && (j =? 5) && (i =? 6) then (-4)%Z else 0%Z) Z.sub [2; 3; 4; 5; 6] (Z.eqb 0) (fun _ => true)) = Val [(1, 5, 5, 6)].
Proof. vm_compute. reflexivity. Qed.

Print Assumptions C60_minima2_exact.
Print Assumptions C60_border_refuted.
Print Assumptions C61_minima1_exact.
Print Assumptions C61_small_sizes_refuted.
Print Assumptions C62_window.
Print Assumptions C62_outside_refuted.
Print Assumptions C76_minima3_exact.

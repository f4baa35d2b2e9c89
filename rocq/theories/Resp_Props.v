(** C95: Gaussian kernels are shared.  C96: response at an intermediate scale. *)
Require Import ZArith List Bool Arith Lia.
Require Import Verif.Base Verif.SortU Verif.ListX Verif.Traj_Model Verif.Particles_Model Verif.Corr_Model Verif.RTree_Model Verif.Boo_Model Verif.Pyramid_Model Verif.Pyramid_Proofs Verif.Resp_Model Verif.Resp_Spec Verif.Resp_Proofs.
Import ListNotations.
Local Open Scope nat_scope.

Section C95.
  Variables (K : Type) (gaussian : nat -> Z -> K) (s : Z).
  Hypothesis Hs : (0 < s)%Z.
  Notation get := (get_kernel K gaussian s).
  Notation runs := (get_kernels K gaussian s).
  (** The map of a history: for each key the kernel of the first request with that key. *)
  Definition shares (history : list Z) (cache : list (nat * K)) : Prop :=
    forall k, match kernel_find K k cache with
              | Some v => exists before x after, history = before ++ x :: after /\ kernel_key s x = k /\ (forall y, In y before -> kernel_key s y <> k) /\ v = gaussian (kernel_rows s x) x
              | None => forall y, In y history -> kernel_key s y <> k
              end.
  Lemma get_shares history cache x : shares history cache -> shares (history ++ [x]) (snd (get x cache)).
  Proof.
    intros H k. unfold get_kernel. destruct (kernel_find K (kernel_key s x) cache) as [v|] eqn:E; cbn [snd].
    - specialize (H k). destruct (kernel_find K k cache) as [w|] eqn:E2.
      + destruct H as [b [y [a [-> [A [B C]]]]]]. exists b, y, (a ++ [x]). rewrite <- app_assoc. auto.
      + intros y Hy. apply in_app_or in Hy. destruct Hy as [Hy|[<-|[]]]; auto. intros Q. congruence.
    - cbn [kernel_find]. destruct (Nat.eqb_spec (kernel_key s x) k) as [Q|Q].
      + assert (Hx := H (kernel_key s x)). rewrite E in Hx. exists history, x, []. split; auto. split; auto. split; auto. rewrite <- Q. auto.
      + specialize (H k). destruct (kernel_find K k cache) as [w|].
        * destruct H as [b [y [a [-> [A [B C]]]]]]. exists b, y, (a ++ [x]). rewrite <- app_assoc. auto.
        * intros y Hy. apply in_app_or in Hy. destruct Hy as [Hy|[<-|[]]]; auto.
  Qed.
  Lemma runs_shares : forall l history cache, shares history cache -> shares (history ++ l) (snd (runs l cache)).
  Proof.
    induction l as [|x l IH]; intros history cache H; cbn [get_kernels].
    - cbn [snd]. rewrite app_nil_r. auto.
    - assert (G := get_shares history cache x H). destruct (get x cache) as [k c]. cbn [snd] in G. specialize (IH _ _ G). rewrite <- app_assoc in IH. destruct (runs l c) as [ks c']. exact IH.
  Qed.
  Lemma same_key x y : (0 <= x)%Z -> (0 <= y)%Z -> kernel_key s x = kernel_key s y -> (100 * Z.abs (x - y) < s)%Z.
  Proof.
    intros Hx Hy E. unfold kernel_key in E. assert (0 <= 100 * x / s)%Z by (apply Z.div_pos; lia). assert (0 <= 100 * y / s)%Z by (apply Z.div_pos; lia).
    assert (Q : (100 * x / s = 100 * y / s)%Z) by lia. assert (A := Z.div_mod (100 * x) s). assert (B := Z.div_mod (100 * y) s). assert (C := Z.mod_pos_bound (100 * x) s Hs). assert (D := Z.mod_pos_bound (100 * y) s Hs). rewrite Q in A. lia.
  Qed.
  (** C95.  After any history of requests since the start of the program, the kernel given for a width is the kernel of the first width
      requested with the same whole number of hundredths, which differs by less than a hundredth of pixel. *)
  Theorem C95_kernel history sigma : Forall (fun x => (0 <= x)%Z) (history ++ [sigma]) -> let cache := snd (runs history []) in
    exists before x after, history ++ [sigma] = before ++ x :: after /\ fst (get sigma cache) = gaussian (kernel_rows s x) x /\ (100 * Z.abs (sigma - x) < s)%Z /\
      (100 * sigma / s = 100 * x / s)%Z /\ (forall y, In y before -> (100 * y / s <> 100 * sigma / s)%Z).
  Proof.
    intros HF. cbv zeta. assert (H := runs_shares history [] [] (fun k => fun y (Hy : In y []) => match Hy with end)). cbn [app] in H.
    set (cache := snd (runs history [])) in *. assert (G := get_shares _ _ sigma H). specialize (G (kernel_key s sigma)). rewrite Forall_forall in HF.
    assert (E : kernel_find K (kernel_key s sigma) (snd (get sigma cache)) = Some (fst (get sigma cache))).
    { unfold get_kernel. destruct (kernel_find K (kernel_key s sigma) cache) eqn:E; cbn [fst snd]; auto. cbn [kernel_find]. rewrite Nat.eqb_refl. auto. }
    rewrite E in G. destruct G as [b [x [a [Q [A [B C]]]]]]. exists b, x, a. split; auto. split; auto.
    assert (Hpos : forall y, In y (history ++ [sigma]) -> (0 <= 100 * y / s)%Z) by (intros y Hy; apply Z.div_pos; auto; specialize (HF y Hy); lia).
    assert (Isig : In sigma (history ++ [sigma])) by (apply in_or_app; right; left; auto). assert (Ix : In x (history ++ [sigma])) by (rewrite Q; apply in_or_app; right; left; auto).
    split; [apply same_key; auto|]. assert (Ps := Hpos _ Isig). assert (Px := Hpos _ Ix). unfold kernel_key in *. split; [lia|]. intros y Hy Ey. apply (B y Hy). rewrite Ey. auto.
  Qed.
  (** A history of requests gives one kernel for each, that the cache gives at that moment. *)
  Theorem C95_each before x after cache : length (fst (runs (before ++ x :: after) cache)) = length (before ++ x :: after) /\
    nth_error (fst (runs (before ++ x :: after) cache)) (length before) = Some (fst (get x (snd (runs before cache)))).
  Proof.
    assert (Ln : forall l c, length (fst (runs l c)) = length l).
    { induction l as [|y l IH]; intros c; cbn [get_kernels]; [reflexivity|]. destruct (get y c) as [k c1]. specialize (IH c1). destruct (runs l c1) as [ks c2]. cbn [fst length] in *. lia. }
    split; [apply Ln|]. revert cache. induction before as [|y before IH]; intros cache; cbn [app get_kernels].
    - destruct (get x cache) as [k c1] eqn:E. destruct (runs after c1) as [ks c2]. cbn [fst snd length nth_error]. rewrite E. reflexivity.
    - destruct (get y cache) as [k c1]. specialize (IH c1). destruct (runs (before ++ x :: after) c1) as [ks c2]. destruct (runs before c1) as [ks' c3]. cbn [fst snd length nth_error] in *. exact IH.
  Qed.
  (** The number of elements is odd: two times 4 sigma, rounded, plus one; kernels that are shared differ by two elements at most. *)
  Theorem C95_rows sigma : (0 <= sigma)%Z -> exists r : nat, kernel_rows s sigma = 2 * r + 1 /\ (2 * Z.of_nat r * s <= 8 * sigma + s < 2 * (Z.of_nat r + 1) * s)%Z.
  Proof.
    intros H. exists (Z.to_nat ((8 * sigma + s) / (2 * s))). split.
    - unfold kernel_rows. set (r := Z.to_nat _). clearbody r. assert (Q : forall k, Nat.lor (k * 2 + 1) 1 = k * 2 + 1).
      { intros k. apply Nat.bits_inj. intros i. rewrite Nat.lor_spec. destruct i as [|i]; [|assert (B1 : Nat.testbit 1 (S i) = false) by (exact (Nat.bits_0 i)); rewrite B1; apply orb_false_r]. rewrite !Nat.bit0_odd. replace (k * 2 + 1) with (1 + 2 * k) by lia. rewrite Nat.odd_add_mul_2. auto. }
      rewrite Q. lia.
    - assert (A := Z.div_mod (8 * sigma + s) (2 * s)). assert (B := Z.mod_pos_bound (8 * sigma + s) (2 * s)). assert (0 <= (8 * sigma + s) / (2 * s))%Z by (apply Z.div_pos; lia). rewrite Z2Nat.id by auto. nia.
  Qed.
  Theorem C95_close_rows x y : (0 <= x)%Z -> (0 <= y)%Z -> (100 * Z.abs (x - y) < s)%Z -> kernel_rows s x <= kernel_rows s y + 2.
  Proof.
    intros Hx Hy H. destruct (C95_rows x Hx) as [a [-> A]]. destruct (C95_rows y Hy) as [b [-> B]]. destruct (le_lt_dec a (b + 1)); [lia|].
    assert ((Z.of_nat b + 2) * s <= Z.of_nat a * s)%Z by nia. nia.
  Qed.
  (** Further requests never change the kernel of a width. *)
  Theorem C95_stable sigma later cache : fst (get sigma (snd (runs later (snd (get sigma cache))))) = fst (get sigma cache).
  Proof.
    assert (G : forall l c k v, kernel_find K k c = Some v -> kernel_find K k (snd (runs l c)) = Some v).
    { induction l as [|x l IH]; intros c k v H; cbn [get_kernels]; auto. unfold get_kernel. destruct (kernel_find K (kernel_key s x) c) as [w|] eqn:E.
      - specialize (IH c k v H). destruct (runs l c). exact IH.
      - specialize (IH ((kernel_key s x, gaussian (kernel_rows s x) x) :: c) k v). destruct (runs l ((kernel_key s x, gaussian (kernel_rows s x) x) :: c)). apply IH. cbn [kernel_find]. destruct (Nat.eqb_spec (kernel_key s x) k); auto. subst. congruence. }
    assert (E : kernel_find K (kernel_key s sigma) (snd (get sigma cache)) = Some (fst (get sigma cache))).
    { unfold get_kernel. destruct (kernel_find K (kernel_key s sigma) cache) eqn:E; cbn [fst snd]; auto. cbn [kernel_find]. rewrite Nat.eqb_refl. auto. }
    unfold get_kernel at 1. rewrite (G later _ _ _ E). auto.
  Qed.
  (** The kernel depends on the past: two widths with the same whole number of hundredths, a first request for one of them. *)
  Theorem C95_history_refuted x y : kernel_key s x = kernel_key s y -> fst (get y (snd (runs [] []))) = gaussian (kernel_rows s y) y /\ fst (get y (snd (runs [x] []))) = gaussian (kernel_rows s x) x.
  Proof. intros E. split; [reflexivity|]. unfold get_kernel. cbn. rewrite E, Nat.eqb_refl. auto. Qed.
End C95.
(** The precision is not one percent of the width: 0.001 and 0.009 share a kernel. *)
Theorem C95_percent_refuted : fst (get_kernel (nat * Z) pair 1000 9 (snd (get_kernels (nat * Z) pair 1000 [1%Z] []))) = (1, 1%Z).
Proof. reflexivity. Qed.
Example C95_case : let sigmas := [1600; 2016; 1604; 1609; 1610; 1600]%Z in Forall (fun x => (0 <= x)%Z) sigmas /\
  fst (get_kernels (nat * Z) pair 1000 sigmas []) = [(13, 1600%Z); (17, 2016%Z); (13, 1600%Z); (13, 1600%Z); (13, 1610%Z); (13, 1600%Z)].
Proof. cbv zeta. split; [repeat constructor; lia|]. vm_compute. reflexivity. Qed.

(** C96.  For a square image the response is the blurred image, with null pixels outside. *)
Theorem C96_square n data ker cx cy : length data = n * n -> cx < n -> cy < n -> response2 n n data ker cx cy = Val (blurred2 (pixel2 n n data) ker cx cy).
Proof. intros. apply response2_ok; auto. Qed.
(** For any image, it is so for the pixels far from the ends. *)
Theorem C96_inside rows cols data ker cx cy : length data = rows * cols -> let h := length ker / 2 in cx + h < Nat.min rows cols -> cy + h < Nat.min rows cols ->
  response2 rows cols data ker cx cy = Val (blurred2 (pixel2 rows cols data) ker cx cy).
Proof. cbv zeta. intros. apply response2_ok; auto; lia. Qed.
(** The limits of rows and columns are exchanged.  In an image with more columns than rows the pixels near the last row read out of the image ... *)
Theorem C96_wide_refuted rows cols data ker h cx cy : length data = rows * cols -> length ker = 2 * h + 1 -> rows < cols -> cx < cols -> cy < rows -> rows <= cy + h -> cx < rows + h -> response2 rows cols data ker cx cy = UB.
Proof.
  intros Hd Hk Hrc Hcx Hcy Hlim Hloop. unfold response2. rewrite Hk. replace ((2 * h + 1) / 2) with h by (apply (Nat.div_unique (2 * h + 1) 2 h 1); lia).
  unfold span_of. set (xmin := cx + h + 1 - rows). set (ymin := cy + h + 1 - cols). set (xmax := Nat.min (2 * h + 1) (cx + h + 1)). set (ymax := Nat.min (2 * h + 1) (cy + h + 1)).
  destruct (ymax - ymin) as [|ny] eqn:Ey; [unfold ymax, ymin in *; lia|]. destruct (xmax - xmin) as [|nx] eqn:Ex; [unfold xmax, xmin in *; lia|]. cbn [seq ofold].
  rewrite Nat.sub_diag, Nat.sub_0_r. unfold at_index at 1. rewrite (proj2 (nth_error_None data _)); [reflexivity|]. rewrite Hd.
  assert (rows <= cy + h - ymin) by (unfold ymin; lia). assert (rows * cols <= (cy + h - ymin) * cols) by (apply Nat.mul_le_mono_r; auto). lia.
Qed.
Lemma weighted_null n ker : weighted (repeat 0%Z n) ker = 0%Z.
Proof. unfold weighted. revert n. induction ker as [|k ker IH]; intros [|n]; cbn [repeat combine fold_left fst snd]; auto. Qed.
(** ... those far on the right have no response at all, whatever the image ... *)
Theorem C96_right_refuted rows cols data ker h cx cy : length ker = 2 * h + 1 -> rows + h <= cx -> response2 rows cols data ker cx cy = Val 0%Z.
Proof.
  intros Hk H. unfold response2. rewrite Hk. replace ((2 * h + 1) / 2) with h by (apply (Nat.div_unique (2 * h + 1) 2 h 1); lia).
  cbv zeta. unfold span_of. replace (Nat.min (2 * h + 1) (cx + h + 1) - (cx + h + 1 - rows)) with 0 by lia. cbn [seq ofold].
  assert (G : forall l w, ofold (fun (_ : nat) (gx : list Z) => Val gx) l w = Val w) by (induction l; intros; cbn; auto). rewrite G. cbn [omap obind]. rewrite weighted_null. auto.
Qed.
(** ... and so are those of the last rows of an image with more rows than columns. *)
Theorem C96_tall_refuted rows cols data ker h cx cy : length ker = 2 * h + 1 -> cols + h <= cy -> response2 rows cols data ker cx cy = Val 0%Z.
Proof.
  intros Hk H. unfold response2. rewrite Hk. replace ((2 * h + 1) / 2) with h by (apply (Nat.div_unique (2 * h + 1) 2 h 1); lia).
  cbv zeta. unfold span_of. replace (Nat.min (2 * h + 1) (cy + h + 1) - (cy + h + 1 - cols)) with 0 by lia. cbn [seq ofold omap obind]. rewrite weighted_null. auto.
Qed.
(** Near the border the response is lower, even in a uniform image: in the corner only half of the kernel is used in each dimension. *)
Theorem C96_border_refuted n v ker h : length ker = 2 * h + 1 -> h < n -> let half := sum_to (h + 1) (fun t => nth t ker 0%Z) in
  response2 n n (repeat v (n * n)) ker 0 0 = Val (half * half * v)%Z.
Proof.
  intros Hk Hn. cbv zeta. rewrite C96_square by (rewrite ?repeat_length; lia). f_equal. unfold blurred2. rewrite Hk. set (w := fun t => nth t ker 0%Z).
  assert (P : forall y x, y < 2 * h + 1 -> x < 2 * h + 1 -> pixel2 n n (repeat v (n * n)) (under (2 * h + 1) 0 y) (under (2 * h + 1) 0 x) = if (y <? h + 1) && (x <? h + 1) then v else 0%Z).
  { intros y x Ly Lx. unfold pixel2, under. replace ((2 * h + 1) / 2) with h by (apply (Nat.div_unique (2 * h + 1) 2 h 1); lia). match goal with |- (if ?b then _ else _) = (if ?c then _ else _) => replace b with c end.
    - destruct (_ && _) eqn:C; auto. rewrite andb_true_iff, !Nat.ltb_lt in C. assert (I := idx_lt n n (h - y) (h - x)). replace (Z.to_nat (Z.of_nat 0 + Z.of_nat h - Z.of_nat y)) with (h - y) by lia. replace (Z.to_nat (Z.of_nat 0 + Z.of_nat h - Z.of_nat x)) with (h - x) by lia.
      rewrite nth_of_error, nth_error_repeat_x; auto. apply I; lia.
    - apply eq_true_iff_eq. rewrite !andb_true_iff, !Nat.ltb_lt, !Z.leb_le, !Z.ltb_lt. lia. }
  assert (Part : forall g, sum_to (2 * h + 1) (fun t => if t <? h + 1 then g t else 0%Z) = sum_to (h + 1) g).
  { intros g. rewrite !sum_to_L. replace (2 * h + 1) with (h + 1 + h) by lia. rewrite seq_app, sumL_app. rewrite (sumL_0 (seq (0 + (h + 1)) h)).
    - rewrite Z.add_0_r. apply sumL_ext. intros t Ht. apply in_seq in Ht. destruct (Nat.ltb_spec t (h + 1)); auto; lia.
    - intros t Ht. apply in_seq in Ht. destruct (Nat.ltb_spec t (h + 1)); auto; lia. }
  transitivity (sum_to (2 * h + 1) (fun y => if y <? h + 1 then (w y * (sum_to (h + 1) w * v))%Z else 0%Z)).
  - rewrite !sum_to_L. apply sumL_ext. intros y Hy. apply in_seq in Hy. destruct (Nat.ltb_spec y (h + 1)) as [B|B].
    + transitivity (sum_to (2 * h + 1) (fun x => if x <? h + 1 then (w x * (w y * v))%Z else 0%Z)).
      * apply sumL_ext. intros x Hx. apply in_seq in Hx. rewrite P by lia. destruct (Nat.ltb_spec y (h + 1)); [|lia]. cbn [andb]. unfold w. destruct (x <? h + 1); lia.
      * rewrite (Part (fun x => w x * (w y * v))%Z), !sum_to_L, sumL_scale. lia.
    + apply sumL_0. intros x Hx. apply in_seq in Hx. rewrite P by lia. destruct (Nat.ltb_spec y (h + 1)); [lia|]. cbn [andb]. lia.
  - rewrite (Part (fun y => w y * (sum_to (h + 1) w * v))%Z), !sum_to_L, sumL_scale. lia.
Qed.
(** The same in three dimensions, when rows and columns are as many. *)
Theorem C96_volume planes n data ker cx cy cz : length data = planes * n * n -> cx < n -> cy < n -> cz < planes -> response3 planes n n data ker cx cy cz = Val (blurred3 (pixel3 planes n n data) ker cx cy cz).
Proof. intros. apply response3_ok; auto. Qed.

(** In one dimension the signal is reflected at its ends. *)
Lemma mirrored_period n x p (k : nat) : mirrored n x p -> mirrored n (x + 2 * (Z.of_nat n - 1) * Z.of_nat k) p /\ mirrored n (x - 2 * (Z.of_nat n - 1) * Z.of_nat k) p.
Proof.
  intros H. induction k as [|k [A B]].
  - split; [replace (x + _)%Z with x by lia|replace (x - _)%Z with x by lia]; auto.
  - split.
    + replace (x + 2 * (Z.of_nat n - 1) * Z.of_nat (S k))%Z with (2 * (Z.of_nat n - 1) - (- (x + 2 * (Z.of_nat n - 1) * Z.of_nat k)))%Z by nia. apply Mirror_last, Mirror_first. auto.
    + replace (x - 2 * (Z.of_nat n - 1) * Z.of_nat (S k))%Z with (- (2 * (Z.of_nat n - 1) - (x - 2 * (Z.of_nat n - 1) * Z.of_nat k)))%Z by nia. apply Mirror_first, Mirror_last. auto.
Qed.
Lemma mirror_ok n x : 2 <= n -> mirrored n x (mirror x n) /\ mirror x n < n.
Proof.
  intros Hn. unfold mirror. destruct (Nat.eqb_spec n 1); [lia|]. set (P := (2 * (Z.of_nat n - 1))%Z). assert (HP : (0 < P)%Z) by (unfold P; lia).
  assert (A := Z.div_mod x P). assert (B := Z.mod_pos_bound x P HP). set (q := Z.to_nat (x mod P)). assert (Q : (x mod P = Z.of_nat q)%Z) by (unfold q; lia).
  assert (M : mirrored n (Z.of_nat q) (if q <? n then q else 2 * (n - 1) - q) /\ (if q <? n then q else 2 * (n - 1) - q) < n).
  { destruct (Nat.ltb_spec q n) as [L|L]; [split; auto; constructor; auto|]. split; [|lia].
    replace (Z.of_nat q) with (2 * (Z.of_nat n - 1) - Z.of_nat (2 * (n - 1) - q))%Z by (unfold P in *; lia). apply Mirror_last. constructor. lia. }
  destruct M as [M L]. split; auto. destruct (Z.le_gt_cases 0 (x / P)) as [S0|S0].
  - destruct (mirrored_period n (Z.of_nat q) _ (Z.to_nat (x / P)) M) as [M1 _]. rewrite Z2Nat.id in M1 by auto. fold P in M1. replace (Z.of_nat q + P * (x / P))%Z with x in M1 by lia. auto.
  - destruct (mirrored_period n (Z.of_nat q) _ (Z.to_nat (- (x / P))) M) as [_ M1]. rewrite Z2Nat.id in M1 by lia. fold P in M1. replace (Z.of_nat q - P * - (x / P))%Z with x in M1 by lia. auto.
Qed.
Theorem C96_mirror_unique n x p q : 2 <= n -> mirrored n x p -> mirrored n x q -> p = q.
Proof.
  intros Hn. assert (G : forall x p, mirrored n x p -> p < n /\ exists k, (x = 2 * (Z.of_nat n - 1) * k + Z.of_nat p \/ x = 2 * (Z.of_nat n - 1) * k - Z.of_nat p)%Z).
  { clear. intros x p H. induction H as [p Hp|x p H [L [k [->| ->]]]|x p H [L [k [->| ->]]]]; (split; [auto|]).
    - exists 0%Z. left. lia.
    - exists (- k)%Z. right. lia.
    - exists (- k)%Z. left. lia.
    - exists (1 - k)%Z. right. lia.
    - exists (1 - k)%Z. left. lia. }
  intros A B. apply G in A. apply G in B. destruct A as [A [k Hk]], B as [B [j Hj]]. assert (W : (0 < 2 * (Z.of_nat n - 1))%Z) by lia. set (P := (2 * (Z.of_nat n - 1))%Z) in *.
  destruct (Z.eq_dec (k - j) 0) as [E|E]; [assert (k = j) by lia; subst; lia|].
  assert (D : (P <= Z.abs (P * (k - j)))%Z) by (rewrite Z.abs_mul; nia). assert (D2 : (k - j = 1 \/ k - j = -1 \/ 2 * P <= Z.abs (P * (k - j)))%Z) by (rewrite Z.abs_mul; nia).
  assert ((P * k = P * j + P * (k - j))%Z) by lia. set (d := (P * (k - j))%Z) in *. destruct D2 as [D2|[D2|D2]]; [assert (d = P) by (unfold d; nia)|assert (d = - P)%Z by (unfold d; nia)|]; unfold P in *; lia.
Qed.
Theorem C96_line n data ker cx : 2 <= n -> length data = n -> exists shown, (forall t, t < length ker -> mirrored n (under (length ker) cx t) (shown t) /\ shown t < n) /\
  response1 n data ker cx = Val (sum_to (length ker) (fun t => nth (shown t) data 0 * nth t ker 0)%Z).
Proof.
  intros Hn Hd. exists (fun t => mirror (under (length ker) cx t) n). split; [intros t _; apply mirror_ok; auto|]. unfold response1.
  assert (G : forall l r, (forall t, In t l -> t < length ker) -> ofold (fun x r => obind (at_index data (mirror (Z.of_nat cx - Z.of_nat x + Z.of_nat (length ker / 2)) n)) (fun p => omap (fun k => (r + p * k)%Z) (at_index ker x))) l r
    = Val (r + sumL l (fun t => nth (mirror (under (length ker) cx t) n) data 0 * nth t ker 0))%Z).
  { induction l as [|t l IH]; intros r Hl; cbn [ofold]; [f_equal; unfold sumL; cbn; lia|]. replace (Z.of_nat cx - Z.of_nat t + Z.of_nat (length ker / 2))%Z with (under (length ker) cx t) by (unfold under; lia).
    rewrite at_nth by (rewrite Hd; apply mirror_ok; auto). cbn [obind]. rewrite at_nth by (apply Hl; left; auto). cbn [omap obind]. rewrite IH by (intros; apply Hl; right; auto). rewrite sumL_cons. f_equal. lia. }
  rewrite G; [f_equal; rewrite sum_to_L; lia|]. intros t Ht. apply in_seq in Ht. lia.
Qed.

(** [gaussianResponse]: negative scales and too few coordinates are refused; a whole scale gives the pixel of that layer; other scales blur the
    layer below, the last one for scales beyond. *)
Section Scale.
  Variables (s : Z) (n : nat) (layersG : list (list Z)) (kernel : Z -> nat -> list Z).
  Hypothesis Hs : (0 < s)%Z.
  Hypothesis Hlay : Forall (fun data => length data = n * n) layersG.
  Theorem C96_refused rows cols ci scale : (scale < 0)%Z \/ length ci < 2 -> gaussian_response s rows cols layersG kernel ci scale = Throw.
  Proof. intros H. unfold gaussian_response. destruct (Z.ltb_spec scale 0); auto. destruct H as [H|H]; [lia|]. destruct ci as [|a [|b ci]]; auto. cbn in H. lia. Qed.
  Theorem C96_layer cx cy rest k data : nth_error layersG k = Some data -> cx < n -> cy < n -> gaussian_response s n n layersG kernel (cx :: cy :: rest) (Z.of_nat k * s) = Val (nth (cy * n + cx) data 0%Z).
  Proof.
    intros Hk Hx Hy. unfold gaussian_response. destruct (Z.ltb_spec (Z.of_nat k * s) 0); [nia|]. rewrite Z.div_mul by lia. rewrite Nat2Z.id. assert (L := nth_error_lt _ _ _ Hk). rewrite Nat.min_l by lia.
    unfold at_index at 1. rewrite Hk. cbn [obind]. rewrite Z.eqb_refl. apply at_nth. rewrite Forall_forall in Hlay. rewrite (Hlay data) by (eapply nth_error_In; eauto). apply idx_lt; auto.
  Qed.
  Theorem C96_scale cx cy rest scale k data : (0 <= scale)%Z -> nth_error layersG k = Some data -> (Z.of_nat k * s < scale)%Z -> ((scale < (Z.of_nat k + 1) * s)%Z \/ k + 1 = length layersG) -> cx < n -> cy < n ->
    gaussian_response s n n layersG kernel (cx :: cy :: rest) scale = Val (blurred2 (pixel2 n n data) (kernel scale k) cx cy).
  Proof.
    intros H0 Hk Hlo Hhi Hx Hy. unfold gaussian_response. destruct (Z.ltb_spec scale 0); [lia|]. assert (L := nth_error_lt _ _ _ Hk).
    assert (E : Nat.min (Z.to_nat (scale / s)) (length layersG - 1) = k).
    { assert (A := Z.div_mod scale s). assert (B := Z.mod_pos_bound scale s Hs). assert (C : (Z.of_nat k <= scale / s)%Z) by (apply Z.div_le_lower_bound; lia). destruct Hhi as [Hhi|Hhi]; [|lia].
      assert (D : (scale / s < Z.of_nat k + 1)%Z) by (apply Z.div_lt_upper_bound; lia). lia. }
    rewrite E. unfold at_index at 1. rewrite Hk. cbn [obind]. destruct (Z.eqb_spec scale (Z.of_nat k * s)); [lia|]. apply C96_square; auto. rewrite Forall_forall in Hlay. apply Hlay. eapply nth_error_In. eauto.
  Qed.
End Scale.

Definition ex_square : list Z := [0; 0; 0; 0;  0; 8; 4; 0;  0; 4; 8; 0;  0; 0; 0; 1]%Z.
Example C96_case : response2 4 4 ex_square [1; 2; 1]%Z 1 1 = Val 56%Z /\ blurred2 (pixel2 4 4 ex_square) [1; 2; 1]%Z 1 1 = 56%Z /\
  response2 2 8 (repeat 1%Z 16) [1; 2; 1]%Z 1 1 = UB /\ response2 2 8 (repeat 1%Z 16) [1; 2; 1]%Z 5 0 = Val 0%Z /\ response2 8 2 (repeat 1%Z 16) [1; 2; 1]%Z 0 5 = Val 0%Z /\
  response1 4 [5; 0; 0; 0]%Z [1; 2; 1]%Z 0 = Val 10%Z /\ response1 4 [0; 5; 0; 0]%Z [1; 2; 1]%Z 0 = Val 10%Z /\
  response3 3 2 2 [0; 0; 0; 0; 0; 7; 0; 0; 1; 0; 0; 0]%Z [1; 2; 1]%Z 1 0 1 = Val 58%Z /\
  gaussian_response 2 4 4 [ex_square; ex_square] (fun _ _ => [1; 2; 1]%Z) [1; 1] 1 = Val 56%Z /\ gaussian_response 2 4 4 [ex_square; ex_square] (fun _ _ => [1; 2; 1]%Z) [1; 1] 2 = Val 8%Z.
Proof. do 9 (split; [vm_compute; reflexivity|]). vm_compute. reflexivity. Qed.

Print Assumptions C95_kernel.
Print Assumptions C95_each. Print Assumptions C95_rows. Print Assumptions C95_close_rows. Print Assumptions C95_stable. Print Assumptions C95_history_refuted. Print Assumptions C95_percent_refuted.
Print Assumptions C96_square. Print Assumptions C96_inside. Print Assumptions C96_wide_refuted. Print Assumptions C96_right_refuted. Print Assumptions C96_tall_refuted. Print Assumptions C96_border_refuted.
Print Assumptions C96_volume. Print Assumptions C96_mirror_unique. Print Assumptions C96_line. Print Assumptions C96_refused. Print Assumptions C96_layer. Print Assumptions C96_scale.

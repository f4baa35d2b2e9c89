(** C147: the correlation of the bond orientational order in a periodic cell. *)
Require Import String.
Require Import ZArith List Bool Arith Lia Sorted Ascii.
Require Import Verif.Base Verif.SortU Verif.ListX Verif.Dec Verif.Box_Model Verif.RTree_Model Verif.Traj_Model Verif.Center_Model Verif.Particles_Model Verif.Particles_Spec Verif.Particles_Proofs Verif.Particles_Props Verif.Ngb_Model Verif.Ngb_Spec Verif.Ngb_Proofs Verif.Corr_Model Verif.Corr_Proofs
  Verif.Boo_Model Verif.Boo_Proofs Verif.PBoo_Model Verif.PBoo_Spec Verif.PBoo_Proofs Verif.PBoo_Props Verif.G6_Model Verif.G6_Spec Verif.G6_Proofs Verif.G6_Props Verif.Periodic_Model Verif.Periodic_Spec Verif.Periodic_Proofs Verif.Periodic_Props
  Verif.Files_Model Verif.Files_Proofs Verif.Export_Model Verif.Export_Spec Verif.Export_Proofs Verif.Cloud_Model Verif.Cut_Props Verif.Perco_Model Verif.Perco_Props Verif.Pg6_Spec Verif.Pg6_Model.
Import ListNotations.
Local Open Scope nat_scope.
Local Open Scope list_scope.
Local Notation length := List.length.

Lemma couples_sorted n : StronglySorted lex (couples n).
Proof.
  unfold couples. assert (G : forall (a b : list nat), StronglySorted lt a -> StronglySorted lt b -> StronglySorted lex (list_prod a b)).
  { induction a as [|x a IH]; intros b Ha Hb; [constructor|]. inversion Ha as [|? ? Ha' Fa]; subst. cbn [list_prod].
    assert (App : forall u v : list (nat * nat), StronglySorted lex u -> StronglySorted lex v -> (forall p q, In p u -> In q v -> lex p q) -> StronglySorted lex (u ++ v)).
    { induction u as [|p u IHu]; intros v Hu Hv Huv; [exact Hv|]. inversion Hu as [|? ? Hu' Fu]; subst. cbn [app]. constructor; [apply IHu; auto; intros; apply Huv; auto; right; auto|].
      apply Forall_app. split; [exact Fu|]. apply Forall_forall. intros q Hq. apply Huv; [left; reflexivity|exact Hq]. }
    apply App; [|apply IH; assumption|].
    - clear - Hb. induction Hb as [|y b Hb IHb Fb]; [constructor|]. cbn [map]. constructor; [exact IHb|]. apply Forall_forall. intros q Hq. apply in_map_iff in Hq as [z [<- Hz]]. right. cbn. rewrite Forall_forall in Fb. auto.
    - intros p q Hp Hq. apply in_map_iff in Hp as [y [<- _]]. destruct q as [x' y']. apply in_prod_iff in Hq as [Hq _]. left. cbn. rewrite Forall_forall in Fa. auto. }
  apply lex_filter. apply G; apply seq_ssorted.
Qed.

Section Hist.
  Variables (V : Type) (zero : V) (add : V -> V -> V) (n : nat) (f : nat * nat -> list nat * list V -> outcome (list nat * list V)) (bin : nat * nat -> option nat) (val : nat * nat -> V).
  Definition fall (k : nat) (ij : nat * nat) : bool := match bin ij with Some r => r =? k | None => false end.
  Lemma hist_fold : forall prs nb gl,
    (forall ij nb gl, In ij prs -> length nb = n -> length gl = n -> match bin ij with None => f ij (nb, gl) = Val (nb, gl) | Some r => r < n /\ f ij (nb, gl) = Val (set_nth r (S (nth r nb 0)) nb, set_nth r (add (nth r gl zero) (val ij)) gl) end) ->
    length nb = n -> length gl = n ->
    exists nb' gl', ofold f prs (nb, gl) = Val (nb', gl') /\ length nb' = n /\ length gl' = n /\
      (forall k x, nth_error nb k = Some x -> nth_error nb' k = Some (x + length (filter (fall k) prs))) /\
      (forall k x, nth_error gl k = Some x -> nth_error gl' k = Some (fold_left add (map val (filter (fall k) prs)) x)).
  Proof.
    induction prs as [|ij prs IH]; intros nb gl Hs Ln Lg.
    - exists nb, gl. cbn [ofold filter length map fold_left]. repeat split; auto. intros k x Hx. rewrite Nat.add_0_r. exact Hx.
    - assert (H := Hs ij nb gl (or_introl eq_refl) Ln Lg). assert (Hs' : forall ij' nb gl, In ij' prs -> length nb = n -> length gl = n -> match bin ij' with None => f ij' (nb, gl) = Val (nb, gl) | Some r => r < n /\ f ij' (nb, gl) = Val (set_nth r (S (nth r nb 0)) nb, set_nth r (add (nth r gl zero) (val ij')) gl) end) by (intros; apply Hs; auto; right; auto).
      cbn [ofold]. destruct (bin ij) as [r|] eqn:Eb.
      + destruct H as [Hr ->]. cbn [obind]. destruct (IH (set_nth r (S (nth r nb 0)) nb) (set_nth r (add (nth r gl zero) (val ij)) gl) Hs') as [nb' [gl' [E [L1 [L2 [K1 K2]]]]]]; [rewrite set_nth_len; exact Ln|rewrite set_nth_len; exact Lg|].
        exists nb', gl'. split; [exact E|]. split; [exact L1|]. split; [exact L2|]. split; intros k y Hy; cbn [filter]; unfold fall at 1; rewrite Eb; destruct (Nat.eqb_spec r k) as [F|F].
        * subst k. rewrite (K1 r (S (nth r nb 0))) by (rewrite set_nth_get by lia; rewrite Nat.eqb_refl; reflexivity). cbn [length]. rewrite (nth_error_nth _ _ 0 Hy). f_equal. lia.
        * apply K1. rewrite set_nth_get by lia. destruct (Nat.eqb_spec k r); [congruence|exact Hy].
        * subst k. rewrite (K2 r (add (nth r gl zero) (val ij))) by (rewrite set_nth_get by lia; rewrite Nat.eqb_refl; reflexivity). cbn [map fold_left]. rewrite (nth_error_nth _ _ zero Hy). reflexivity.
        * apply K2. rewrite set_nth_get by lia. destruct (Nat.eqb_spec k r); [congruence|exact Hy].
      + rewrite H. cbn [obind]. destruct (IH nb gl Hs' Ln Lg) as [nb' [gl' [E [L1 [L2 [K1 K2]]]]]].
        exists nb', gl'. split; [exact E|]. split; [exact L1|]. split; [exact L2|]. split; intros k y Hy; cbn [filter]; unfold fall at 1; rewrite Eb; auto.
  Qed.
End Hist.

(** * Images *)
Section Images.
  Variables (b : box) (L : Z).
  Hypotheses (Hc : cell b) (Hs : shortest b L) (HL : (0 < L)%Z).
  (** Nearer than half of the shortest edge there is one image at most. *)
  Lemma one_image p q q1 q2 : point3 p -> image b q q1 -> image b q q2 -> (4 * dist2 q1 p < L * L)%Z -> (4 * dist2 q2 p < L * L)%Z -> q1 = q2.
  Proof.
    intros [u [v [w ->]]] I1 I2 D1 D2. destruct Hc as [ex [ey [ez [-> [Wx [Wy Wz]]]]]]. destruct Hs as [_ Sh].
    assert (S1 := Sh ex (or_introl eq_refl)). assert (S2 := Sh ey (or_intror (or_introl eq_refl))). assert (S3 := Sh ez (or_intror (or_intror (or_introl eq_refl)))).
    destruct q as [|x [|y [|z [|? ?]]]]; try contradiction. destruct I1 as [i [j [k ->]]]. destruct I2 as [i' [j' [k' ->]]]. cbn [dist2] in D1, D2.
    assert (G : forall W a a' c, (L <= W -> 4 * ((c + a * W) * (c + a * W)) < L * L -> 4 * ((c + a' * W) * (c + a' * W)) < L * L -> a = a')%Z).
    { clear - HL. intros W a a' c HW H1 H2. assert (A1 : (- L < 2 * (c + a * W) < L)%Z) by nia. assert (A2 : (- L < 2 * (c + a' * W) < L)%Z) by nia. assert (- L < (a - a') * W < L)%Z by lia. nia. }
    assert (Sq : forall t : Z, (0 <= t * t)%Z) by (intros t; apply Z.square_nonneg).
    assert (i = i'); [|assert (j = j'); [|assert (k = k')]].
    - apply (G (Periodic_Spec.width ex) i i' (x - u)%Z S1); [assert (P1 := Sq (y + j * Periodic_Spec.width ey - v)%Z); assert (P2 := Sq (z + k * Periodic_Spec.width ez - w)%Z)|assert (P1 := Sq (y + j' * Periodic_Spec.width ey - v)%Z); assert (P2 := Sq (z + k' * Periodic_Spec.width ez - w)%Z)]; lia.
    - apply (G (Periodic_Spec.width ey) j j' (y - v)%Z S2); [assert (P1 := Sq (x + i * Periodic_Spec.width ex - u)%Z); assert (P2 := Sq (z + k * Periodic_Spec.width ez - w)%Z)|assert (P1 := Sq (x + i' * Periodic_Spec.width ex - u)%Z); assert (P2 := Sq (z + k' * Periodic_Spec.width ez - w)%Z)]; lia.
    - apply (G (Periodic_Spec.width ez) k k' (z - w)%Z S3); [assert (P1 := Sq (x + i * Periodic_Spec.width ex - u)%Z); assert (P2 := Sq (y + j * Periodic_Spec.width ey - v)%Z)|assert (P1 := Sq (x + i' * Periodic_Spec.width ex - u)%Z); assert (P2 := Sq (y + j' * Periodic_Spec.width ey - v)%Z)]; lia.
    - subst. reflexivity.
  Qed.
End Images.

Definition pbin (b : box) (L : Z) (n : nat) (pos : list (list Z)) (ij : nat * nat) : option nat :=
  match nth_error pos (fst ij), nth_error pos (snd ij) with
  | Some p, Some q => let d2 := (4 * norm_sq (periodify b (vsub q p)))%Z in if (d2 <? L * L)%Z then Some (rdf_bin n L d2) else None
  | _, _ => None
  end.
Lemma in_cell b p : cell b -> in_box b p -> point3 p.
Proof. intros [ex [ey [ez [-> _]]]] H. inversion H as [|? x ? ? _ H1]; subst. inversion H1 as [|? y ? ? _ H2]; subst. inversion H2 as [|? z ? ? _ H3]; subst. inversion H3; subst. exists x, y, z. reflexivity. Qed.
Lemma norm_nonneg v : (0 <= norm_sq v)%Z.
Proof. induction v as [|x v IH]; cbn [norm_sq]; [lia|]. pose proof (Z.square_nonneg x). lia. Qed.
Lemma pbin_ok b L n pos i j k : cell b -> shortest b L -> (0 < L)%Z -> 0 < n -> Forall (in_box b) pos -> (pbin b L n pos (i, j) = Some k <-> image_apart b pos n L k i j).
Proof.
  intros Hc Hs HL Hn Hp. unfold pbin, image_apart. cbn [fst snd]. split.
  - intros H. destruct (nth_error pos i) as [p|] eqn:Ep; [|discriminate]. destruct (nth_error pos j) as [q|] eqn:Eq; [|discriminate].
    rewrite Forall_forall in Hp. assert (Bp := Hp p (nth_error_In _ _ Ep)). assert (Bq := Hp q (nth_error_In _ _ Eq)). destruct (in_cell b p Hc Bp) as [u [v [w ->]]]. destruct (in_cell b q Hc Bq) as [x [y [z ->]]].
    destruct (C43_minimum_image (new_particles pos b 1) j x y z u v w Hc Eq Bq Bp) as [ex [ey [ez [dx [dy [dz [_ [E [_ [_ [_ [I M]]]]]]]]]]]]. unfold per_diff in E. cbn [pts pbb new_particles] in E, I, M. rewrite Eq in E. assert (E' : periodify b (vsub [x; y; z] [u; v; w]) = [dx; dy; dz]) by congruence. rewrite E' in H. clear E E'.
    exists [u; v; w], [x; y; z], [u + dx; v + dy; w + dz]%Z. split; [reflexivity|]. split; [reflexivity|]. split; [exact I|]. cbv zeta.
    assert (D : dist2 [u + dx; v + dy; w + dz]%Z [u; v; w] = norm_sq [dx; dy; dz]) by (cbn [dist2 norm_sq]; ring). rewrite D. cbv zeta in H. destruct (Z.ltb_spec (4 * norm_sq [dx; dy; dz]) (L * L)) as [C|C]; [|discriminate]. split; [exact C|].
    assert (Hk : rdf_bin n L (4 * norm_sq [dx; dy; dz]) = k) by congruence. assert (N0 := norm_nonneg [dx; dy; dz]). apply (rdf_bin_spec n L (4 * norm_sq [dx; dy; dz])%Z HL (conj (Z.mul_nonneg_nonneg 4 _ ltac:(lia) N0) C) Hn k). exact Hk.
  - intros [p [q [q' [Ep [Eq [Iq [C R]]]]]]]. cbv zeta in C, R. rewrite Ep, Eq.
    rewrite Forall_forall in Hp. assert (Bp := Hp p (nth_error_In _ _ Ep)). assert (Bq := Hp q (nth_error_In _ _ Eq)). assert (P3 := in_cell b p Hc Bp). destruct P3 as [u [v [w ->]]]. destruct (in_cell b q Hc Bq) as [x [y [z ->]]].
    destruct (C43_minimum_image (new_particles pos b 1) j x y z u v w Hc Eq Bq Bp) as [ex [ey [ez [dx [dy [dz [_ [E [_ [_ [_ [I M]]]]]]]]]]]]. unfold per_diff in E. cbn [pts pbb new_particles] in E, I, M. rewrite Eq in E. assert (E' : periodify b (vsub [x; y; z] [u; v; w]) = [dx; dy; dz]) by congruence. rewrite E'. clear E E'.
    assert (D : dist2 [u + dx; v + dy; w + dz]%Z [u; v; w] = norm_sq [dx; dy; dz]) by (cbn [dist2 norm_sq]; ring). assert (C' : (4 * dist2 [u + dx; v + dy; w + dz] [u; v; w] < L * L)%Z) by (specialize (M q' Iq); lia).
    assert (q' = [u + dx; v + dy; w + dz]%Z) by (apply (one_image b L Hc Hs HL [u; v; w] [x; y; z] q' [u + dx; v + dy; w + dz]%Z); [exists u, v, w; reflexivity|assumption|assumption|assumption|assumption]). subst q'.
    rewrite D in C, R. cbv zeta. rewrite (proj2 (Z.ltb_lt _ _) C). f_equal. assert (N0 := norm_nonneg [dx; dy; dz]). apply (rdf_bin_spec n L (4 * norm_sq [dx; dy; dz])%Z HL (conj (Z.mul_nonneg_nonneg 4 _ ltac:(lia) N0) C) Hn k). exact R.
Qed.
Lemma smallest_ok a b c : shortest (edges_box [a; b; c]) (smallest [a; b; c]).
Proof.
  unfold shortest, smallest, edges_box. cbn [fold_left nth map]. rewrite Z.ltb_irrefl. split.
  - destruct (b <? a)%Z; destruct (c <? _)%Z; [exists (0, c)%Z|exists (0, b)%Z|exists (0, c)%Z|exists (0, a)%Z]; unfold Periodic_Spec.width; cbn [In fst snd]; split; auto; lia.
  - intros e [<-|[<-|[<-|[]]]]; unfold Periodic_Spec.width; cbn [fst snd]; destruct (Z.ltb_spec b a); destruct (Z.ltb_spec c a); destruct (Z.ltb_spec c b); lia.
Qed.
Lemma shortest_one b L L' : shortest b L -> shortest b L' -> L = L'.
Proof. intros [[e [I <-]] H] [[e' [I' <-]] H']. specialize (H _ I'). specialize (H' _ I). lia. Qed.
Lemma nth_error_rep {A} (x : A) n k : nth_error (repeat x n) k = if k <? n then Some x else None.
Proof. revert k. induction n as [|n IH]; intros [|k]; cbn [repeat nth_error]; auto. rewrite IH. reflexivity. Qed.

Lemma eq3 (x y z x' y' z' : Z) : x = x' -> y = y' -> z = z' -> [x; y; z] = [x'; y'; z'].
Proof. intros; subst; reflexivity. Qed.

Section C147.
  Variables (V : Type) (zero : V) (add : V -> V -> V) (show : V -> text) (abscissa : nat -> nat -> Z -> V) (B : Type) (null : B -> bool) (inner : B -> B -> V).
  Variables (zeroB : B) (addB : B -> B -> B) (divn : B -> nat -> B).
  Hypothesis show_word : forall v, word (show v).
  Local Notation run := (periodic_g6 V zero add show abscissa B null inner zeroB addB divn).
  (** The order of the particles that is correlated: as it is read, or (coarse grained) the mean over a particle and its neighbours when none of these is null, nothing otherwise. *)
  Definition order_used (coarse : bool) (raw : list B) (ngb : list (list nat)) (boo : list B) : Prop :=
    if coarse then length boo = length raw /\ forall c l, nth_error ngb c = Some l -> nth_error boo c = Some (if forallb (fun q => negb (null (nth q raw zeroB))) l then divn (fold_left addB (map (fun q => nth q raw zeroB) l) (nth c raw zeroB)) (1 + length l) else zeroB)
    else boo = raw.
  Lemma order_ok coarse (pos : list (list Z)) (raw : list B) (ngb : list (list nat)) : length raw = length pos -> length ngb = length pos -> ngb_ok ngb -> exists boo, all_boo B null zeroB addB divn coarse (length pos) raw ngb = Val boo /\ length boo = length pos /\ order_used coarse raw ngb boo.
  Proof.
    intros Lr Ln Hok. destruct coarse; [|exists raw; repeat split; auto]. unfold all_boo, order_used.
    assert (S2 : second_inside B null raw ngb = Val (filter (fun c => forallb (fun q => negb (null (nth q raw zeroB))) (nth c ngb [])) (seq 0 (length ngb)))).
    { unfold second_inside. rewrite (osequence_map_ok _ (fun l => forallb (fun q => negb (null (nth q raw zeroB))) l)).
      - cbn [omap]. rewrite <- (flags_filter _ ngb 0). do 4 f_equal. rewrite <- (nth_seq_map [] ngb) at 1. rewrite map_map. reflexivity.
      - intros l Hl. apply In_nth_error in Hl as [c Hc]. destruct (Hok c l Hc) as [_ Hq]. rewrite Ln, <- Lr in Hq. clear Hc. induction l as [|q l IH]; [reflexivity|]. cbn [no_null forallb].
        rewrite (at_index_some raw q (nth q raw zeroB)) by (apply nth_error_nth', Hq; left; auto). cbn [obind]. rewrite IH by (intros; apply Hq; right; auto). reflexivity. }
    rewrite S2. cbn [obind]. destruct (C77_coarse B zeroB addB divn (length pos) ngb Ln Hok (filter (fun c => forallb (fun q => negb (null (nth q raw zeroB))) (nth c ngb [])) (seq 0 (length ngb))) raw []) as [boo [E [Lb K]]]; [auto| |].
    { apply Forall_forall. intros c Hc. apply filter_In in Hc as [Hc _]. apply in_seq in Hc. lia. }
    exists boo. rewrite E. split; [reflexivity|]. split; [exact Lb|]. split; [congruence|]. intros c l Hl. rewrite (K c l Hl). f_equal.
    assert (X : existsb (Nat.eqb c) (filter (fun c => forallb (fun q => negb (null (nth q raw zeroB))) (nth c ngb [])) (seq 0 (length ngb))) = forallb (fun q => negb (null (nth q raw zeroB))) l).
    { destruct (forallb _ l) eqn:F.
      - apply existsb_exists. exists c. split; [|apply Nat.eqb_refl]. apply filter_In. split; [apply in_seq; apply nth_error_lt in Hl; lia|]. rewrite (nth_error_nth _ _ [] Hl). exact F.
      - destruct (existsb _ _) eqn:G; [|reflexivity]. apply existsb_exists in G as [d [Hd Ed]]. apply Nat.eqb_eq in Ed. subst d. apply filter_In in Hd as [_ Hd]. rewrite (nth_error_nth _ _ [] Hl) in Hd. congruence. }
    rewrite X. destruct (forallb _ l); [reflexivity|]. destruct c; reflexivity.
  Qed.
  (** The pairs of a bin, in the order of their numbers *)
  Definition pairs_at (b : box) (pos : list (list Z)) (n : nat) (L : Z) (k : nat) (prs : list (nat * nat)) : Prop :=
    StronglySorted lex prs /\ forall i j, In (i, j) prs <-> i < j /\ image_apart b pos n L k i j.
  Definition product (boo : list B) (ij : nat * nat) : V := inner (nth (fst ij) boo zeroB) (nth (snd ij) boo zeroB).

  Section Run.
    Variables (a b c : Z) (n : nat) (pos : list (list Z)).
    Hypotheses (Ha : (0 < a)%Z) (Hb : (0 < b)%Z) (Hc : (0 < c)%Z) (Hn : 0 < n).
    Local Notation bb := [(0, a); (0, b); (0, c)]%Z.
    Hypothesis Hpos : Forall (in_box bb) pos.
    Variable L : Z.
    Hypothesis HL : shortest bb L.
    Lemma L_pos : (0 < L)%Z. Proof. destruct HL as [[e [[<-|[<-|[<-|[]]]] <-]] _]; unfold Periodic_Spec.width; cbn [fst snd]; lia. Qed.
    Lemma bb_cell : cell bb. Proof. exists (0, a)%Z, (0, b)%Z, (0, c)%Z. unfold Periodic_Spec.width. cbn [fst snd]. repeat split; lia. Qed.
    Lemma smallest_L : smallest [a; b; c] = L. Proof. apply (shortest_one bb); [apply smallest_ok|exact HL]. Qed.
    Definition prs_at (k : nat) : list (nat * nat) := filter (fall (pbin bb L n pos) k) (couples (length pos)).
    Lemma prs_ok k : pairs_at bb pos n L k (prs_at k).
    Proof.
      split; [apply lex_filter, couples_sorted|]. intros i j. unfold prs_at. rewrite filter_In, couples_in. unfold fall. rewrite <- (pbin_ok bb L n pos i j k bb_cell HL L_pos Hn Hpos). split.
      - intros [H1 H2]. destruct (pbin bb L n pos (i, j)) as [r|]; [|discriminate]. apply Nat.eqb_eq in H2. subst r. split; [lia|reflexivity].
      - intros [H1 H2]. rewrite H2, Nat.eqb_refl. split; [|reflexivity]. unfold pbin in H2. cbn [fst snd] in H2. destruct (nth_error pos i); [|discriminate]. destruct (nth_error pos j) eqn:E; [|discriminate]. apply nth_error_lt in E. lia.
    Qed.
    Lemma run_file filename coarse degree raw ngb d boo : length boo = length pos -> all_boo B null zeroB addB divn coarse (length pos) raw ngb = Val boo ->
      run filename n [a; b; c] coarse degree pos raw ngb d = Val (put_file d (g6_name filename coarse degree)
        (g6_text V show degree (map (fun k => (abscissa k n L, fold_left add (map (product boo) (prs_at k)) zero, length (prs_at k))) (seq 0 n)))).
    Proof.
      intros Lb Eb. unfold periodic_g6. rewrite Eb. cbn [obind]. rewrite smallest_L. change (edges_box [a; b; c]) with bb. rewrite pairs_couples.
      destruct (hist_fold V zero add n (pg6_pair V add B inner L (new_particles pos bb 1) boo) (pbin bb L n pos) (product boo) (couples (length pos)) (repeat 0 n) (repeat zero n)) as [nb [gl [E [L1 [L2 [K1 K2]]]]]]; [|apply repeat_length|apply repeat_length|].
      - intros [i j] nb gl Hin Lnb Lgl. apply couples_in in Hin. destruct (nth_error_ex pos i) as [p Ep]; [lia|]. destruct (nth_error_ex pos j) as [q Eq]; [lia|]. unfold pbin, pg6_pair, per_diff. cbn [fst snd pts pbb new_particles]. rewrite Ep, Eq. cbn [obind]. cbv zeta.
        destruct (Z.ltb_spec (4 * norm_sq (periodify bb (vsub q p))) (L * L)) as [C|C]; [|reflexivity]. rewrite Lnb. assert (N0 := norm_nonneg (periodify bb (vsub q p))).
        destruct (rdf_bin_spec n L (4 * norm_sq (periodify bb (vsub q p)))%Z L_pos (conj (Z.mul_nonneg_nonneg 4 _ ltac:(lia) N0) C) Hn 0) as [R _]. set (r := rdf_bin n L (4 * norm_sq (periodify bb (vsub q p)))%Z) in *. split; [exact R|].
        destruct (nth_error_ex boo i) as [bi Ebi]; [lia|]. destruct (nth_error_ex boo j) as [bj Ebj]; [lia|]. rewrite (at_index_some _ _ _ Ebi), (at_index_some _ _ _ Ebj). cbn [obind]. destruct (nth_error_ex nb r) as [x Ex]; [lia|]. destruct (nth_error_ex gl r) as [v Ev]; [lia|]. unfold incr. rewrite Ex, Ev.
        rewrite (nth_error_nth _ _ 0 Ex), (nth_error_nth _ _ zero Ev). unfold product. cbn [fst snd]. rewrite (nth_error_nth _ _ zeroB Ebi), (nth_error_nth _ _ zeroB Ebj). reflexivity.
      - rewrite E. cbn [omap]. cbn [fst snd]. do 3 f_equal. apply nth_error_ext. intros k. destruct (Nat.lt_ge_cases k n) as [Hk|Hk].
        + assert (X1 : nth_error nb k = Some (length (prs_at k))) by (rewrite (K1 k 0); [reflexivity|rewrite nth_error_rep, (proj2 (Nat.ltb_lt _ _) Hk); reflexivity]).
          assert (X2 : nth_error gl k = Some (fold_left add (map (product boo) (prs_at k)) zero)) by (apply K2; rewrite nth_error_rep, (proj2 (Nat.ltb_lt _ _) Hk); reflexivity).
          assert (X3 : nth_error (seq 0 n) k = Some k) by (rewrite (nth_error_nth' _ 0) by (rewrite seq_length; exact Hk); rewrite seq_nth by exact Hk; reflexivity).
          assert (Cmb : forall A C (u : list A) (v : list C) x y, nth_error u k = Some x -> nth_error v k = Some y -> nth_error (combine u v) k = Some (x, y)).
          { clear. induction k as [|k IH]; intros A C [|x u] [|y v] x' y' H1 H2; cbn in *; try discriminate; [congruence|]. apply IH; assumption. }
          rewrite (map_nth_error _ k _ (Cmb _ _ _ _ _ _ (Cmb _ _ _ _ _ _ X3 X1) X2)). rewrite (map_nth_error _ k _ X3). reflexivity.
        + rewrite (proj2 (nth_error_None _ k)) by (rewrite map_length, !combine_length, seq_length; lia). symmetry. apply nth_error_None. rewrite map_length, seq_length. exact Hk.
    Qed.
    Lemma line3 x y z : word x -> word y -> word z -> words (x ++ tab :: y ++ tab :: z) = [x; y; z] /\ ~ In newline (x ++ tab :: y ++ tab :: z).
    Proof.
      intros Wx Wy Wz. split; [rewrite !words_head by auto; rewrite (words_one z Wz); reflexivity|].
      assert (N : forall w, word w -> ~ In newline w) by (intros w [_ H] I; rewrite forallb_forall in H; specialize (H _ I); discriminate).
      intros I. apply in_app_or in I as [I|[I|I]]; [exact (N x Wx I)|discriminate|]. apply in_app_or in I as [I|[I|I]]; [exact (N y Wy I)|discriminate|exact (N z Wz I)].
    Qed.
    Lemma g6_text_words degree rows : table (g6_text V show degree rows) (g6_words show degree rows).
    Proof.
      assert (W : word (txt "g" ++ print_nat degree ++ txt "(r)")).
      { destruct (print_word degree) as [_ P]. split; [discriminate|]. rewrite !forallb_app, P. reflexivity. }
      exists ((txt "#r" ++ tab :: (txt "g" ++ print_nat degree ++ txt "(r)") ++ tab :: txt "g(r)") :: map (fun r => show (fst (fst r)) ++ tab :: show (snd (fst r)) ++ tab :: print_nat (snd r)) rows). split; [|split].
      - unfold g6_text. cbn [flat_map].
        assert (E : flat_map (fun r : V * V * nat => show (fst (fst r)) ++ [tab] ++ show (snd (fst r)) ++ [tab] ++ print_nat (snd r) ++ [newline]) rows = flat_map (fun l => l ++ [newline]) (map (fun r : V * V * nat => show (fst (fst r)) ++ tab :: show (snd (fst r)) ++ tab :: print_nat (snd r)) rows)).
        { clear. induction rows as [|r rows IH]; [reflexivity|]. cbn [flat_map map]. rewrite IH. repeat (rewrite <- !app_assoc; cbn [app]). reflexivity. }
        rewrite E. repeat (rewrite <- !app_assoc; cbn [app]). reflexivity.
      - apply Forall_cons; [apply line3; [tok|exact W|tok]|]. apply Forall_forall. intros l H. apply in_map_iff in H as [r [<- _]]. apply line3; auto using print_word.
      - unfold g6_words. cbn [map]. f_equal; [apply line3; [tok|exact W|tok]|]. rewrite map_map. apply map_ext. intros r. apply line3; auto using print_word.
    Qed.
  End Run.

  (** The program writes one file: a header, then for each bin its abscissa, the sum of the products of the orders over the pairs having images at that distance (in the order of their numbers) and the number of these pairs.
      Distances go up to half of the shortest edge; every particle is taken, without regard to a null order. *)
  Theorem C147_file a b c n pos L stem ext coarse degree raw ngb d : let bb := [(0, a); (0, b); (0, c)]%Z in
    shortest bb L -> (0 < a)%Z -> (0 < b)%Z -> (0 < c)%Z -> 0 < n -> Forall (in_box bb) pos -> length raw = length pos -> length ngb = length pos -> ngb_ok ngb -> ~ In dot ext ->
    exists d' content boo prs, run (stem ++ [dot] ++ ext) n [a; b; c] coarse degree pos raw ngb d = Val d' /\
      d' (stem ++ (if coarse then txt ".cg" else txt ".g") ++ print_nat degree) = Some content /\ (forall f, f <> stem ++ (if coarse then txt ".cg" else txt ".g") ++ print_nat degree -> d' f = d f) /\
      length boo = length pos /\ order_used coarse raw ngb boo /\ (forall k, pairs_at bb pos n L k (prs k)) /\
      table content (g6_words show degree (map (fun k => (abscissa k n L, fold_left add (map (product boo) (prs k)) zero, length (prs k))) (seq 0 n))).
  Proof.
    intros bb HL Ha Hb Hc Hn Hp Lr Ln Hok He. destruct (order_ok coarse pos raw ngb Lr Ln Hok) as [boo [Eb [Lb Ob]]].
    eexists. eexists. exists boo, (prs_at a b c n pos L). split; [apply (run_file a b c n pos Ha Hb Hc Hn L HL (stem ++ [dot] ++ ext) coarse degree raw ngb d boo Lb Eb)|].
    unfold g6_name, stem_of. rewrite (cut_ext_ok stem ext He). split; [apply put_same|]. split; [intros f Hf; apply put_other; exact Hf|]. split; [exact Lb|]. split; [exact Ob|]. split; [intros k; apply prs_ok; assumption|]. apply g6_text_words.
  Qed.
  (** A pair is in one bin at most, and in one if and only if some images of the two particles are less than half of the shortest edge apart. *)
  Theorem C147_one_row bb L n pos i j : cell bb -> shortest bb L -> 0 < n -> Forall (in_box bb) pos ->
    (forall k k', image_apart bb pos n L k i j -> image_apart bb pos n L k' i j -> k = k') /\
    ((exists k, k < n /\ image_apart bb pos n L k i j) <-> exists p q q', nth_error pos i = Some p /\ nth_error pos j = Some q /\ image bb q q' /\ (4 * dist2 q' p < L * L)%Z).
  Proof.
    intros Hc HL Hn Hp. assert (L0 : (0 < L)%Z) by (destruct Hc as [ex [ey [ez [-> [Wx [Wy Wz]]]]]]; destruct HL as [[e [[<-|[<-|[<-|[]]]] <-]] _]; assumption). split; [|split].
    - intros k k' H H'. apply (pbin_ok bb L n pos i j k Hc HL L0 Hn Hp) in H. apply (pbin_ok bb L n pos i j k' Hc HL L0 Hn Hp) in H'. congruence.
    - intros [k [_ [p [q [q' [Ep [Eq [Iq [C _]]]]]]]]]. exists p, q, q'. auto.
    - intros [p [q [q' [Ep [Eq [Iq C]]]]]].
      assert (D0 : (0 <= 4 * dist2 q' p)%Z). { assert (0 <= dist2 q' p)%Z; [|lia]. unfold dist2. destruct q' as [|x [|y [|z [|? ?]]]]; try lia. destruct p as [|u [|v [|w [|? ?]]]]; try lia. pose proof (Z.square_nonneg (x - u)). pose proof (Z.square_nonneg (y - v)). pose proof (Z.square_nonneg (z - w)). lia. }
      destruct (rdf_bin_spec n L (4 * dist2 q' p)%Z L0 (conj D0 C) Hn (rdf_bin n L (4 * dist2 q' p)%Z)) as [R1 R2]. exists (rdf_bin n L (4 * dist2 q' p)%Z). split; [exact R1|]. exists p, q, q'. split; [exact Ep|]. split; [exact Eq|]. split; [exact Iq|]. cbv zeta. split; [exact C|]. apply R2. reflexivity.
  Qed.
  Lemma apart_moved bb v pos pos' n L k i j : moved bb v pos pos' -> image_apart bb pos n L k i j -> image_apart bb pos' n L k i j.
  Proof.
    intros M [p [q [q' [Ep [Eq [Iq R]]]]]].
    assert (Get : forall m x, nth_error pos m = Some x -> exists x', nth_error pos' m = Some x' /\ match x, v with [x; y; z], [u; w; t] => image bb [x + u; y + w; z + t]%Z x' | _, _ => False end).
    { clear - M. intros m x H. revert m x H. induction M as [|y y' l l' H0 M IH]; intros [|m] x H; cbn in *; try discriminate; [|auto]. exists y'. split; [reflexivity|]. assert (x = y) by congruence. subst x. exact H0. }
    destruct (Get i p Ep) as [p' [Ep' Ip]]. destruct (Get j q Eq) as [r [Er Ir]]. destruct v as [|u [|w [|t [|? ?]]]]; try (destruct p as [|? [|? [|? [|? ?]]]]; contradiction).
    destruct p as [|x [|y [|z [|? ?]]]]; try contradiction. destruct q as [|x1 [|y1 [|z1 [|? ?]]]]; try contradiction. destruct bb as [|ex [|ey [|ez [|? ?]]]]; try contradiction.
    destruct Iq as [i1 [j1 [k1 ->]]]. destruct Ip as [i2 [j2 [k2 ->]]]. destruct Ir as [i3 [j3 [k3 ->]]]. cbv zeta in R. cbn [dist2] in R.
    exists [x + u + i2 * Periodic_Spec.width ex; y + w + j2 * Periodic_Spec.width ey; z + t + k2 * Periodic_Spec.width ez]%Z, [x1 + u + i3 * Periodic_Spec.width ex; y1 + w + j3 * Periodic_Spec.width ey; z1 + t + k3 * Periodic_Spec.width ez]%Z,
      [x1 + u + (i1 + i2) * Periodic_Spec.width ex; y1 + w + (j1 + j2) * Periodic_Spec.width ey; z1 + t + (k1 + k2) * Periodic_Spec.width ez]%Z.
    split; [exact Ep'|]. split; [exact Er|]. split; [exists (i1 + i2 - i3)%Z, (j1 + j2 - j3)%Z, (k1 + k2 - k3)%Z; apply eq3; ring|]. cbv zeta. cbn [dist2].
    set (D := ((x1 + i1 * Periodic_Spec.width ex - x) * (x1 + i1 * Periodic_Spec.width ex - x) + (y1 + j1 * Periodic_Spec.width ey - y) * (y1 + j1 * Periodic_Spec.width ey - y) + (z1 + k1 * Periodic_Spec.width ez - z) * (z1 + k1 * Periodic_Spec.width ez - z))%Z) in R.
    match goal with |- (4 * ?E < _ /\ _)%Z => replace E with D by (unfold D; ring) end. exact R.
  Qed.
  Lemma moved_back bb v pos pos' : Forall2 (fun p p' => match p, v with [x; y; z], [u; w; t] => image bb [x + u; y + w; z + t]%Z p' | _, _ => False end) pos pos' -> moved bb (map Z.opp v) pos' pos.
  Proof.
    intros M. induction M as [|p p' l l' H M IH]; constructor; [|exact IH]. destruct p as [|x [|y [|z [|? ?]]]]; try contradiction. destruct v as [|u [|w [|t [|? ?]]]]; try contradiction. destruct bb as [|ex [|ey [|ez [|? ?]]]]; try contradiction.
    destruct H as [i [j [k ->]]]. cbn [map]. exists (- i)%Z, (- j)%Z, (- k)%Z. apply eq3; ring.
  Qed.
  (** The file does not depend on where the origin of the cell is put: moving all the particles, and putting back in the cell those that leave it, gives the same file, character for character. *)
  Theorem C147_moved a b c n pos pos' v filename coarse degree raw ngb d : let bb := [(0, a); (0, b); (0, c)]%Z in
    (0 < a)%Z -> (0 < b)%Z -> (0 < c)%Z -> 0 < n -> Forall (in_box bb) pos -> Forall (in_box bb) pos' -> moved bb v pos pos' -> length raw = length pos -> length ngb = length pos -> ngb_ok ngb ->
    run filename n [a; b; c] coarse degree pos' raw ngb d = run filename n [a; b; c] coarse degree pos raw ngb d.
  Proof.
    intros bb Ha Hb Hc Hn Hp Hp' M Lr Ln Hok. assert (Lp : length pos' = length pos) by (clear - M; induction M; cbn [length]; congruence).
    destruct (order_ok coarse pos raw ngb Lr Ln Hok) as [boo [Eb [Lb _]]]. assert (HL : shortest bb (smallest [a; b; c])) by apply smallest_ok. set (L := smallest [a; b; c]) in *.
    rewrite (run_file a b c n pos Ha Hb Hc Hn L HL filename coarse degree raw ngb d boo Lb Eb). rewrite <- Lp in Lb, Eb. rewrite (run_file a b c n pos' Ha Hb Hc Hn L HL filename coarse degree raw ngb d boo Lb Eb).
    do 3 f_equal. apply map_ext. intros k. assert (E : prs_at a b c n pos' L k = prs_at a b c n pos L k); [|rewrite E; reflexivity].
    destruct (prs_ok a b c n pos Ha Hb Hc Hn Hp L HL k) as [S1 I1]. destruct (prs_ok a b c n pos' Ha Hb Hc Hn Hp' L HL k) as [S2 I2]. apply lex_ext; [exact S2|exact S1|]. intros [i j]. rewrite I1, I2. split; intros [H1 H2]; (split; [exact H1|]).
    - exact (apart_moved bb (map Z.opp v) pos' pos n L k i j (moved_back bb v pos pos' M) H2).
    - exact (apart_moved bb v pos pos' n L k i j M H2).
  Qed.
End C147.

(** Orders of one integer coefficient, abscissa in quarters of n. *)
Definition pg6z := periodic_g6 Z 0%Z Z.add (show_Z 1) (fun r n L => (Z.of_nat r * L / (4 * Z.of_nat n))%Z) Z qnull Z.mul 0%Z Z.add (fun b n => (b / Z.of_nat n)%Z).
(** Particles 0 and 1 are neighbours through a face of the cell of edges 40, 40 and 60; 2 is 12 away from 0, 20 from 1. *)
Example C147_case : exists content, pg6z (txt "a.dat") 5 [40; 40; 60]%Z false 6 [[1; 5; 5]; [37; 5; 5]; [1; 5; 53]]%Z [2; 3; 5]%Z [[]; []; []] (fun _ => None) = Val (put_file (fun _ => None) (txt "a.g6") content)
  /\ words content = [txt "#r"; txt "g6(r)"; txt "g(r)"; txt "0"; txt "0"; txt "0"; txt "2"; txt "6"; txt "1"; txt "4"; txt "0"; txt "0"; txt "6"; txt "25"; txt "2"; txt "8"; txt "0"; txt "0"].
Proof. eexists. split; [vm_compute; reflexivity|vm_compute; reflexivity]. Qed.
Lemma show_Z_word z : word (show_Z 1 z).
Proof. exact (proj1 (codec_Z 1 z)). Qed.
Definition three : list (list Z) := [[1; 5; 5]; [37; 5; 5]; [1; 5; 53]]%Z.
Definition three' : list (list Z) := [[31; 0; 25]; [27; 40; 25]; [31; 0; 13]]%Z.
Lemma box3 a b c l : Forall (fun p => match p with [x; y; z] => (0 <= x <= a /\ 0 <= y <= b /\ 0 <= z <= c)%Z | _ => False end) l -> Forall (in_box [(0, a); (0, b); (0, c)]%Z) l.
Proof. intros H. eapply Forall_impl; [|exact H]. intros [|x [|y [|z [|? ?]]]] P; try contradiction. destruct P as [P1 [P2 P3]]. constructor; [exact P1|]. constructor; [exact P2|]. constructor; [exact P3|]. constructor. Qed.
Lemma three_in : Forall (in_box [(0, 40); (0, 40); (0, 60)]%Z) three.
Proof. apply box3. unfold three. apply Forall_cons; [lia|]. apply Forall_cons; [lia|]. apply Forall_cons; [lia|]. constructor. Qed.
Lemma empty3 : ngb_ok [[]; []; []].
Proof. intros i l H. assert (l = []) by (destruct i as [|[|[|i]]]; cbn in H; try congruence; destruct i; discriminate). subst l. split; [constructor|intros j []]. Qed.
(** These particles are within the hypotheses of C147_file, read or coarse grained. *)
Example C147_file_case coarse := C147_file Z 0%Z Z.add (show_Z 1) (fun r n L => (Z.of_nat r * L / (4 * Z.of_nat n))%Z) Z qnull Z.mul 0%Z Z.add (fun b n => (b / Z.of_nat n)%Z) show_Z_word
  40 40 60 5 three 40 (txt "a") (txt "dat") coarse 6 [2; 3; 5]%Z [[]; []; []] (fun _ => None) (smallest_ok 40 40 60) eq_refl eq_refl eq_refl (Nat.lt_0_succ 4) three_in eq_refl eq_refl empty3
  (fun H : In dot (txt "dat") => match H with or_introl e => ltac:(discriminate e) | or_intror (or_introl e) => ltac:(discriminate e) | or_intror (or_intror (or_introl e)) => ltac:(discriminate e) | or_intror (or_intror (or_intror f)) => f end).
(** The particles of C147_case moved by (-10, 35, 20); one of them has a coordinate on the border. *)
Example C147_moved_case : moved [(0, 40); (0, 40); (0, 60)]%Z [-10; 35; 20]%Z three three' /\ pg6z (txt "a.dat") 5 [40; 40; 60]%Z false 6 three' [2; 3; 5]%Z [[]; []; []] (fun _ => None) = pg6z (txt "a.dat") 5 [40; 40; 60]%Z false 6 three [2; 3; 5]%Z [[]; []; []] (fun _ => None).
Proof.
  assert (M : moved [(0, 40); (0, 40); (0, 60)]%Z [-10; 35; 20]%Z three three').
  { constructor; [exists 1%Z, (-1)%Z, 0%Z; reflexivity|]. constructor; [exists 0%Z, 0%Z, 0%Z; reflexivity|]. constructor; [exists 1%Z, (-1)%Z, (-1)%Z; reflexivity|]. constructor. }
  split; [exact M|]. apply (C147_moved Z 0%Z Z.add (show_Z 1) (fun r n L => (Z.of_nat r * L / (4 * Z.of_nat n))%Z) Z qnull Z.mul 0%Z Z.add (fun b n => (b / Z.of_nat n)%Z) 40 40 60 5 three three' [-10; 35; 20]%Z (txt "a.dat") false 6 [2; 3; 5]%Z [[]; []; []] (fun _ => None)); try reflexivity; [lia|exact three_in| |exact M|exact empty3].
  apply box3. unfold three'. apply Forall_cons; [lia|]. apply Forall_cons; [lia|]. apply Forall_cons; [lia|]. constructor.
Qed.
(** Without periodic conditions a particle with a null order is left out (C107); here it is counted among the pairs, though it adds nothing to the sum: with the same particles and the same bins, far from the borders, the two programs disagree. *)
Theorem C147_null_refuted : exists pos raw, Forall (in_box [(0, 40); (0, 40); (0, 40)]%Z) pos /\ nth_error raw 1 = Some 0%Z /\
  (exists content, pg6z (txt "a.dat") 2 [40; 40; 40]%Z false 6 pos raw [[]; []; []] (fun _ => None) = Val (put_file (fun _ => None) (txt "a.g6") content) /\ words content = [txt "#r"; txt "g6(r)"; txt "g(r)"; txt "0"; txt "10"; txt "3"; txt "5"; txt "0"; txt "0"]) /\
  (exists rows, g6q 1 false None 20 2 pos raw [] = Val rows /\ map (fun r => (snd (fst r), snd r)) rows = [(10%Z, 1); (0%Z, 0)]).
Proof.
  exists [[20; 20; 20]; [21; 20; 20]; [20; 21; 20]]%Z, [2; 0; 5]%Z. split; [apply box3; apply Forall_cons; [lia|]; apply Forall_cons; [lia|]; apply Forall_cons; [lia|constructor]|]. split; [reflexivity|]. split; eexists; (split; [vm_compute; reflexivity|vm_compute; reflexivity]).
Qed.
(** Only one period is taken off: particles of a trajectory that was not put back in the cell can be missed although images of them are nearly in contact. *)
Theorem C147_outside_refuted : exists pos, image_apart [(0, 40); (0, 40); (0, 40)]%Z pos 2 40 0 0 1 /\
  exists content, pg6z (txt "a.dat") 2 [40; 40; 40]%Z false 6 pos [2; 5]%Z [[]; []] (fun _ => None) = Val (put_file (fun _ => None) (txt "a.g6") content) /\ words content = [txt "#r"; txt "g6(r)"; txt "g(r)"; txt "0"; txt "0"; txt "0"; txt "5"; txt "0"; txt "0"].
Proof.
  exists [[0; 20; 20]; [81; 20; 20]]%Z. split; [|eexists; split; [vm_compute; reflexivity|vm_compute; reflexivity]].
  exists [0; 20; 20]%Z, [81; 20; 20]%Z, [1; 20; 20]%Z. split; [reflexivity|]. split; [reflexivity|]. split; [exists (-2)%Z, 0%Z, 0%Z; reflexivity|]. cbn. lia.
Qed.
Print Assumptions C147_file. Print Assumptions C147_one_row. Print Assumptions C147_moved. Print Assumptions C147_null_refuted. Print Assumptions C147_outside_refuted.

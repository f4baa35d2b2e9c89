(** Proofs about the filling of the scale space. *)
Require Import ZArith List Bool Arith Lia.
Require Import Verif.Base Verif.RTree_Model Verif.ListX Verif.Traj_Model Verif.Particles_Model Verif.Corr_Model Verif.Boo_Model Verif.Pyramid_Model Verif.Pyramid_Proofs Verif.Par_Proofs Verif.Par_Props Verif.Fill_Model Verif.Fill_Spec.
Import ListNotations.
Local Open Scope nat_scope.

Lemma matches_eq : forall a b, matches a b = true <-> a = b.
Proof.
  intros a b. unfold matches. rewrite andb_true_iff, Nat.eqb_eq, forallb_forall. split.
  - intros [L F]. apply nth_ext with 0 0; [exact L|]. intros k Hk. apply Nat.eqb_eq. apply F. apply in_seq. lia.
  - intros ->. split; [reflexivity|]. intros. apply Nat.eqb_refl.
Qed.
Lemma at_index_ok : forall A (l : list A) i x, nth_error l i = Some x -> at_index l i = Val x.
Proof. intros A l i x H. unfold at_index. rewrite H. reflexivity. Qed.
Lemma write_ok : forall A (l : list A) i x, i < length l -> write i x l = Val (set_nth i x l).
Proof. intros A l i x H. unfold write. apply Nat.ltb_lt in H. rewrite H. reflexivity. Qed.

Section Proofs.
  Context {P : Type} (blur : nat -> img P -> img P) (pre : img P -> img P) (sub : img P -> img P -> img P).
  Notation bl := (blurred blur).
  Lemma gaussians_ok : forall G g, nth_error G 0 = Some g ->
    ofold (fun i G => obind (at_index G i) (fun x => write (i + 1) (blur i x) G)) (seq 0 (length G - 1)) G = Val (map (bl g) (seq 0 (length G))).
  Proof.
    intros G g H0. assert (L0 : 0 < length G) by (eapply nth_error_lt; eauto).
    destruct (ofold_seq_inv (fun k G' => length G' = length G /\ forall i, i <= k -> nth_error G' i = Some (bl g i)) (fun i G => obind (at_index G i) (fun x => write (i + 1) (blur i x) G)) (length G - 1) 0 G) as [G' [E [L A]]].
    - split; [reflexivity|]. intros i Hi. replace i with 0 by lia. exact H0.
    - intros k G1 Hk [L A]. rewrite (at_index_ok _ _ _ _ (A k (le_n _))). cbn [obind]. rewrite write_ok by lia. eexists. split; [reflexivity|].
      split; [rewrite set_nth_len; exact L|]. intros i Hi. rewrite set_nth_get by lia. destruct (Nat.eqb_spec i (k + 1)) as [->|Ne].
      + rewrite Nat.add_1_r. reflexivity.
      + apply A. lia.
    - rewrite E. f_equal. apply nth_ext_x; [rewrite map_length, seq_length; exact L|]. intros i x Hx. rewrite nth_error_map in Hx.
      destruct (nth_error (seq 0 (length G)) i) as [j|] eqn:Ej; [|discriminate]. apply nth_error_seq_x in Ej as [-> Lj]. injection Hx as <-. apply A. lia.
  Qed.
  Lemma differences_ok : forall g n (D : list (img P)), length D < n ->
    ofold (fun i D => obind (at_index (map (bl g) (seq 0 n)) (i + 1)) (fun a => obind (at_index (map (bl g) (seq 0 n)) i) (fun b => write i (sub a b) D))) (seq 0 (length D)) D
    = Val (map (fun i => sub (bl g (i + 1)) (bl g i)) (seq 0 (length D))).
  Proof.
    intros g n D LD.
    assert (At : forall i, i < n -> at_index (map (bl g) (seq 0 n)) i = Val (bl g i)).
    { intros i Hi. apply at_index_ok. rewrite nth_error_map, nth_error_seq by exact Hi. reflexivity. }
    destruct (ofold_seq_inv (fun k D' => length D' = length D /\ forall i, i < k -> nth_error D' i = Some (sub (bl g (i + 1)) (bl g i)))
      (fun i D => obind (at_index (map (bl g) (seq 0 n)) (i + 1)) (fun a => obind (at_index (map (bl g) (seq 0 n)) i) (fun b => write i (sub a b) D))) (length D) 0 D) as [D' [E [L A]]].
    - split; [reflexivity|]. intros i Hi. lia.
    - intros k D1 Hk [L A]. rewrite !At by lia. cbn [obind]. rewrite write_ok by lia. eexists. split; [reflexivity|].
      split; [rewrite set_nth_len; exact L|]. intros i Hi. rewrite set_nth_get by lia. destruct (Nat.eqb_spec i k) as [->|Ne]; [reflexivity|]. apply A. lia.
    - rewrite E. f_equal. apply nth_ext_x; [rewrite map_length, seq_length; exact L|]. intros i x Hx. rewrite nth_error_map in Hx.
      destruct (nth_error (seq 0 (length D)) i) as [j|] eqn:Ej; [|discriminate]. apply nth_error_seq_x in Ej as [-> Lj]. injection Hx as <-. apply A. lia.
  Qed.
  Lemma volume_ok : forall G g, nth_error G 0 = Some g ->
    ofold (fun i st => omap (fun G => (blur i (fst st), G)) (write (i + 1) (blur i (fst st)) (snd st))) (seq 0 (length G - 1)) (g, G)
    = Val (bl g (length G - 1), map (bl g) (seq 0 (length G))).
  Proof.
    intros G g H0. assert (L0 : 0 < length G) by (eapply nth_error_lt; eauto).
    destruct (ofold_seq_inv (fun k (s : img P * list (img P)) => length (snd s) = length G /\ fst s = bl g k /\ forall i, i <= k -> nth_error (snd s) i = Some (bl g i))
      (fun i st => omap (fun G => (blur i (fst st), G)) (write (i + 1) (blur i (fst st)) (snd st))) (length G - 1) 0 (g, G)) as [[t G'] [E [L [T A]]]].
    - cbn. split; [reflexivity|]. split; [reflexivity|]. intros i Hi. replace i with 0 by lia. exact H0.
    - intros k [t G1] Hk [L [T A]]. cbn [fst snd] in *. subst t. rewrite write_ok by lia. cbn [omap]. eexists. split; [reflexivity|]. cbn [fst snd].
      split; [rewrite set_nth_len; exact L|]. split; [reflexivity|]. intros i Hi. rewrite set_nth_get by lia. destruct (Nat.eqb_spec i (k + 1)) as [->|Ne].
      + rewrite Nat.add_1_r. reflexivity.
      + apply A. lia.
    - rewrite E. cbn [fst snd] in *. subst t. cbn [plus]. f_equal. f_equal. apply nth_ext_x; [rewrite map_length, seq_length; exact L|]. intros i x Hx. rewrite nth_error_map in Hx.
      destruct (nth_error (seq 0 (length G)) i) as [j|] eqn:Ej; [|discriminate]. apply nth_error_seq_x in Ej as [-> Lj]. injection Hx as <-. apply A. lia.
  Qed.
  (** the octave after a fill from [g] *)
  Definition filled (three : bool) (o : octave P) (g : img P) : octave P :=
    mkOct (map (bl g) (seq 0 (length (lG o)))) (if three then lD o else map (fun i => sub (bl g (i + 1)) (bl g i)) (seq 0 (length (lD o)))).
  Lemma internal_ok : forall three o g temp, 0 < length (lG o) -> length (lD o) < length (lG o) -> (three = true -> temp = g) ->
    fill_internal P blur sub three (mkOct (set_nth 0 g (lG o)) (lD o)) temp = Val (filled three o g, if three then bl g (length (lG o) - 1) else temp).
  Proof.
    intros three o g temp L0 LD HT.
    assert (H0 : nth_error (set_nth 0 g (lG o)) 0 = Some g) by (rewrite set_nth_get by exact L0; reflexivity).
    unfold fill_internal, filled. destruct three.
    - rewrite (HT eq_refl). unfold fill_internal3. cbn [lG lD]. rewrite (volume_ok _ _ H0). cbn [omap fst snd]. rewrite set_nth_len. reflexivity.
    - unfold fill_internal2. cbn [lG lD]. rewrite (gaussians_ok _ _ H0). cbn [obind]. rewrite set_nth_len, differences_ok by exact LD. cbn [obind omap]. reflexivity.
  Qed.
  Lemma fill_ok : forall three o im g0, nth_error (lG o) 0 = Some g0 -> length (lD o) < length (lG o) -> dims im = dims g0 ->
    fill P blur sub three o im = Val (true, (filled three o im, if three then bl im (length (lG o) - 1) else im)).
  Proof.
    intros three o im g0 H0 LD Hd. unfold fill. rewrite (at_index_ok _ _ _ _ H0). cbn [obind]. rewrite (proj2 (matches_eq _ _) Hd).
    assert (L0 : 0 < length (lG o)) by (eapply nth_error_lt; eauto). rewrite write_ok by exact L0. cbn [obind]. rewrite internal_ok by auto. reflexivity.
  Qed.
  Lemma preblur_ok : forall three o im g0, nth_error (lG o) 0 = Some g0 -> length (lD o) < length (lG o) -> dims im = dims g0 ->
    preblur_and_fill P blur pre sub three o im = Val (true, (filled three o (pre im), if three then bl (pre im) (length (lG o) - 1) else im)).
  Proof.
    intros three o im g0 H0 LD Hd. unfold preblur_and_fill. rewrite (at_index_ok _ _ _ _ H0). cbn [obind]. rewrite (proj2 (matches_eq _ _) Hd).
    assert (L0 : 0 < length (lG o)) by (eapply nth_error_lt; eauto). rewrite write_ok by exact L0. cbn [obind]. rewrite internal_ok; auto; [|intros ->; reflexivity].
    destruct three; reflexivity.
  Qed.
  Lemma filled_shows : forall three o g, gaussians_of blur g (filled three o g) /\ (three = false -> differences_of blur sub g (filled three o g)) /\ (three = true -> lD (filled three o g) = lD o) /\
    length (lG (filled three o g)) = length (lG o) /\ length (lD (filled three o g)) = length (lD o).
  Proof.
    intros three o g. unfold filled. cbn [lG lD]. split; [|split; [|split; [|split]]].
    - intros i x Hx. cbn [lG] in Hx. rewrite nth_error_map in Hx. destruct (nth_error _ i) as [j|] eqn:Ej; [|discriminate]. apply nth_error_seq_x in Ej as [-> _]. injection Hx as <-. reflexivity.
    - intros -> i x Hx. cbn [lD] in Hx. rewrite nth_error_map in Hx. destruct (nth_error _ i) as [j|] eqn:Ej; [|discriminate]. apply nth_error_seq_x in Ej as [-> _]. injection Hx as <-. reflexivity.
    - intros ->. reflexivity.
    - rewrite map_length, seq_length. reflexivity.
    - destruct three; [reflexivity|]. rewrite map_length, seq_length. reflexivity.
  Qed.
  Lemma shows_eq : forall three o g, filled three o g = mkOct (map (bl g) (seq 0 (length (lG o)))) (if three then lD o else map (fun i => sub (bl g (i + 1)) (bl g i)) (seq 0 (length (lD o)))).
  Proof. reflexivity. Qed.

  Context (half up : img P -> img P) (down : list nat -> img P -> img P) (D n : nat).
  Hypothesis blur_dims : forall i im, dims (blur i im) = dims im.
  Hypothesis pre_dims : forall im, dims (pre im) = dims im.
  Hypothesis half_dims : forall im, dims (half im) = dims im.
  Hypothesis down_dims : forall d im, dims (down d im) = d.
  Lemma bl_dims : forall im i, dims (bl im i) = dims im.
  Proof. intros im i. induction i as [|i IH]; [reflexivity|]. cbn. rewrite blur_dims. exact IH. Qed.
  Lemma sized_nth : forall shapes (os : list (octave P)) o x, well_sized n shapes os -> nth_error os o = Some x ->
    exists g, nth_error (lG x) 0 = Some g /\ dims g = nth o shapes [] /\ length (lG x) = n + 3 /\ length (lD x) = n + 2 /\ Forall (fun g => dims g = nth o shapes []) (lG x).
  Proof.
    intros shapes os o x W. revert o. induction W as [|sh y shapes os [A [B C]] W IH]; intros [|o] E; cbn in E; try discriminate.
    - injection E as <-. destruct (lG y) as [|g G] eqn:Eg; [cbn in A; lia|]. exists g. cbn [nth nth_error]. split; [reflexivity|]. inversion C; subst. auto.
    - exact (IH o E).
  Qed.
  Lemma sized_len : forall shapes (os : list (octave P)), well_sized n shapes os -> length os = length shapes.
  Proof. intros shapes os W. induction W; cbn; congruence. Qed.
  Lemma sized_set : forall shapes (os : list (octave P)) o x three g, well_sized n shapes os -> nth_error os o = Some x -> dims g = nth o shapes [] -> well_sized n shapes (set_nth o (filled three x g) os).
  Proof.
    intros shapes os o x three g W. revert o. induction W as [|sh y shapes os [A [B C]] W IH]; intros [|o] E Hg; cbn in E; try discriminate.
    - injection E as <-. cbn [set_nth]. constructor; [|exact W]. destruct (filled_shows three y g) as [_ [_ [_ [L1 L2]]]]. rewrite L1, L2. split; [exact A|]. split; [exact B|].
      apply Forall_forall. intros z Hz. cbn [filled lG] in Hz. apply in_map_iff in Hz as [i [<- _]]. rewrite bl_dims. exact Hg.
    - cbn [set_nth]. constructor; [auto|]. apply IH; [exact E|exact Hg].
  Qed.
  Lemma fill_octave_ok : forall three o im shapes os h x, well_sized n shapes os -> nth_error os o = Some x -> dims im = nth o shapes [] ->
    fill_octave P blur sub three o im (os, h) = Val (true, (set_nth o (filled three x im) os, h)).
  Proof.
    intros three o im shapes os h x W E Hd. destruct (sized_nth _ _ _ _ W E) as [g [G0 [Dg [L1 [L2 _]]]]].
    unfold fill_octave. cbn [fst snd]. rewrite (at_index_ok _ _ _ _ E). cbn [obind]. rewrite (fill_ok three x im g G0); [|lia|congruence]. cbn [obind fst snd].
    rewrite write_ok by (eapply nth_error_lt; eauto). reflexivity.
  Qed.
  Definition step_up (three : bool) (acc : ends (state P)) (o : nat) : ends (state P) := andthen acc (fun s =>
        obind (at_index (fst s) (o - 1)) (fun prev => obind (at_index (lG prev) (length (lG prev) - 3)) (fun a =>
        obind (at_index (fst s) o) (fun x => obind (at_index (lG x) 0) (fun g => fill_octave P blur sub three o (down (dims g) a) s))))).
  Notation src := (source blur pre half up down n).
  (** the octaves from the third on *)
  Lemma loop_ok : forall three shapes I I1 os h k, well_sized n shapes os -> 2 + k <= length os ->
    (forall x, nth_error os 1 = Some x -> gaussians_of blur (src shapes I I1 1) x) ->
    exists os', fold_left (step_up three) (seq 2 k) (Val (true, (os, h))) = Val (true, (os', h)) /\ well_sized n shapes os' /\
      (forall o, o < 2 -> nth_error os' o = nth_error os o) /\ (forall o, 2 + k <= o -> nth_error os' o = nth_error os o) /\
      (forall o x, 2 <= o < 2 + k -> nth_error os o = Some x -> nth_error os' o = Some (filled three x (src shapes I I1 o))).
  Proof.
    intros three shapes I I1 os h k. induction k as [|k IH]; intros W Lk H1.
    - exists os. cbn [seq fold_left]. split; [reflexivity|]. split; [exact W|]. split; [auto|]. split; [auto|]. intros o x Ho. lia.
    - destruct IH as [os' [E [W' [B0 [B1 B2]]]]]; [exact W|lia|exact H1|].
      rewrite seq_S, fold_left_app, E. cbn [fold_left]. unfold step_up. cbn [andthen obind fst snd].
      assert (Ln : length os' = length os) by (rewrite (sized_len _ _ W), (sized_len _ _ W'); reflexivity).
      destruct (nth_error os' (2 + k - 1)) as [prev|] eqn:Ep; [|apply nth_error_None in Ep; lia].
      destruct (nth_error os' (2 + k)) as [x|] eqn:Ex; [|apply nth_error_None in Ex; lia].
      rewrite (at_index_ok _ _ _ _ Ep). cbn [obind]. destruct (sized_nth _ _ _ _ W' Ep) as [gp [_ [_ [Lp _]]]]. destruct (sized_nth _ _ _ _ W' Ex) as [gx [Gx [Dx _]]].
      assert (Gp : gaussians_of blur (src shapes I I1 (2 + k - 1)) prev).
      { destruct k as [|k'].
        - cbn [plus Nat.sub] in *. rewrite B0 in Ep by lia. apply H1. exact Ep.
        - destruct (nth_error os (2 + S k' - 1)) as [y|] eqn:Ey; [|apply nth_error_None in Ey; lia].
          assert (X : 2 <= 2 + S k' - 1 < 2 + S k') by lia. rewrite (B2 _ _ X Ey) in Ep. injection Ep as <-. apply filled_shows. }
      destruct (nth_error (lG prev) (length (lG prev) - 3)) as [a|] eqn:Ea; [|apply nth_error_None in Ea; lia].
      rewrite (at_index_ok _ _ _ _ Ea). cbn [obind]. rewrite (at_index_ok _ _ _ _ Ex). cbn [obind]. rewrite (at_index_ok _ _ _ _ Gx). cbn [obind].
      rewrite (Gp _ _ Ea). replace (length (lG prev) - 3) with n by lia. rewrite Dx.
      assert (Es : down (nth (2 + k) shapes []) (bl (src shapes I I1 (2 + k - 1)) n) = src shapes I I1 (2 + k)). { replace (2 + k - 1) with (S k) by lia. reflexivity. }
      rewrite Es. rewrite (fill_octave_ok three (2 + k) _ shapes os' h x W' Ex) by (rewrite <- Es; apply down_dims).
      assert (L2 : 2 + k < length os') by lia.
      eexists. split; [reflexivity|]. split; [apply sized_set; [exact W'|exact Ex|rewrite <- Es; apply down_dims]|].
      split; [|split].
      + intros o Ho. rewrite set_nth_get by exact L2. destruct (Nat.eqb_spec o (2 + k)); [lia|]. apply B0. exact Ho.
      + intros o Ho. rewrite set_nth_get by exact L2. destruct (Nat.eqb_spec o (2 + k)); [lia|]. apply B1. lia.
      + intros o y Ho Ey. rewrite set_nth_get by exact L2. destruct (Nat.eqb_spec o (2 + k)) as [->|Ne]; [|apply B2; [lia|exact Ey]].
        rewrite B1 in Ex by lia. congruence.
  Qed.
  Lemma sizes_checked : forall d, of_dimension D d -> (dim_back 2 d =? width D (twice D d)) && (dim_back 1 d =? height (twice D d)) = true.
  Proof.
    intros d H. unfold of_dimension in H. apply andb_true_iff. rewrite !Nat.eqb_eq. unfold width, height, twice, dim_back.
    destruct D as [|[|[|[|?]]]]; try contradiction.
    - destruct H as [c ->]. cbn [length Nat.sub nth Nat.eqb]. split; [reflexivity|]. rewrite Nat.mul_comm, Nat.div_mul by lia. reflexivity.
    - destruct d as [|a [|b [|? ?]]]; try discriminate. cbn [length Nat.sub nth Nat.eqb map]. split; rewrite Nat.mul_comm, Nat.div_mul by lia; reflexivity.
    - destruct d as [|a [|b [|e [|? ?]]]]; try discriminate. cbn [length Nat.sub nth Nat.eqb map]. split; rewrite Nat.mul_comm, Nat.div_mul by lia; reflexivity.
  Qed.
  Lemma fill_all_eq : forall use0 (m : mat) (s : state P), fill_all P blur pre sub half up down D use0 m s =
    (let three := D =? 3 in
    obind (at_index (fst s) 0) (fun o0 => obind (at_index (lG o0) 0) (fun g => obind (at_index (snd s) (buf m)) (fun input =>
    if negb ((dim_back 2 (dims input) =? width D (dims g)) && (dim_back 1 (dims input) =? height (dims g))) then Val (false, s) else
    andthen (if use0 then obind (upscale P half up D (snd s) m) (fun x => fill_octave P blur sub three 0 (snd x) (fst s, fst x)) else Val (true, s)) (fun s =>
    andthen (if 1 <? length (fst s) then
               obind (at_index (fst s) 1) (fun o1 => obind (convertTo P (snd s) m) (fun x => obind (at_index (fst x) (buf (snd x))) (fun copy =>
               obind (preblur_and_fill P blur pre sub three o1 copy) (fun r => omap (fun os => (fst r, (os, snd s))) (write 1 (fst (snd r)) (fst s))))))
             else Val (true, s)) (fun s =>
    fold_left (step_up three) (seq 2 (length (fst s) - 2)) (Val (true, s)))))))).
  Proof. reflexivity. Qed.
  Definition shares (use0 : bool) (m : mat) : bool := use0 && (D =? 2) && is_float m.
  Lemma upscale_ok : forall (m : mat) h I, nth_error h (buf m) = Some I ->
    exists h', upscale P half up D h m = Val (h', up (half I)) /\ nth_error h' (buf m) = Some (if (D =? 2) && is_float m then half I else I) /\
      (forall b, b < length h -> b <> buf m -> nth_error h' b = nth_error h b).
  Proof.
    intros m h I E. unfold upscale. assert (Lb : buf m < length h) by (eapply nth_error_lt; eauto).
    assert (Fresh : exists h', obind (convertTo P h m) (fun x => let '(h, half_blurred) := x in obind (at_index h (buf half_blurred)) (fun b => omap (fun h => (h, up (half b))) (write (buf half_blurred) (half b) h)))
        = Val (h', up (half I)) /\ nth_error h' (buf m) = Some I /\ (forall b, b < length h -> b <> buf m -> nth_error h' b = nth_error h b)).
    { unfold convertTo. rewrite (at_index_ok _ _ _ _ E). cbn [omap obind buf].
      assert (A : nth_error (h ++ [I]) (length h) = Some I) by (rewrite nth_error_app2, Nat.sub_diag by lia; reflexivity).
      rewrite (at_index_ok _ _ _ _ A). cbn [obind]. assert (L : length h < length (h ++ [I])) by (rewrite app_length; cbn; lia).
      rewrite write_ok by exact L. cbn [omap]. eexists. split; [reflexivity|]. split.
      - rewrite set_nth_get by exact L. destruct (Nat.eqb_spec (buf m) (length h)); [lia|]. rewrite nth_error_app1 by exact Lb. exact E.
      - intros b Hb Nb. rewrite set_nth_get by exact L. destruct (Nat.eqb_spec b (length h)); [lia|]. apply nth_error_app1. exact Hb. }
    destruct (D =? 2) eqn:E2; cbn [andb]; [|exact Fresh].
    unfold Mat_of. destruct (is_float m) eqn:Ef; [|exact Fresh].
    cbn [obind]. rewrite (at_index_ok _ _ _ _ E). cbn [obind]. rewrite write_ok by exact Lb. cbn [omap]. eexists. split; [reflexivity|]. split.
    - rewrite set_nth_get by exact Lb. rewrite Nat.eqb_refl. reflexivity.
    - intros b Hb Nb. rewrite set_nth_get by exact Lb. destruct (Nat.eqb_spec b (buf m)); [lia|reflexivity].
  Qed.
  Lemma fill_all_ok : forall use0 (m : mat) shapes os h I, well_sized n shapes os -> nth_error h (buf m) = Some I -> of_dimension D (dims I) ->
    nth_error shapes 0 = Some (twice D (dims I)) -> (forall s, nth_error shapes 1 = Some s -> s = dims I) ->
    (forall im, dims im = dims I -> dims (up im) = twice D (dims I)) ->
    let three := D =? 3 in let I1 := if shares use0 m then half I else I in
    exists os' h', fill_all P blur pre sub half up down D use0 m (os, h) = Val (true, (os', h')) /\ well_sized n shapes os' /\
      (forall x, nth_error os 0 = Some x -> nth_error os' 0 = Some (if use0 then filled three x (src shapes I I1 0) else x)) /\
      (forall o x, 1 <= o -> nth_error os o = Some x -> nth_error os' o = Some (filled three x (src shapes I I1 o))) /\
      nth_error h' (buf m) = Some I1 /\ (forall b, b < length h -> b <> buf m -> nth_error h' b = nth_error h b).
  Proof.
    intros use0 m shapes os h I W Eh HD H0 H1 Hup three I1. rewrite fill_all_eq. cbv zeta. fold three. cbn [fst snd].
    assert (Ls : length os = length shapes) by (apply sized_len; exact W).
    assert (Lo : 0 < length os) by (rewrite Ls; eapply nth_error_lt; eauto).
    destruct (nth_error os 0) as [o0|] eqn:E0; [|apply nth_error_None in E0; lia].
    destruct (sized_nth _ _ _ _ W E0) as [g [Eg [Dg _]]]. rewrite (nth_error_nth _ _ _ H0) in Dg.
    rewrite (at_index_ok _ _ _ _ E0). cbn [obind]. rewrite (at_index_ok _ _ _ _ Eg). cbn [obind]. rewrite (at_index_ok _ _ _ _ Eh). cbn [obind].
    rewrite Dg, (sizes_checked _ HD). cbn [negb].
    (* octave 0 *)
    assert (S0 : exists os1 h1, (if use0 then obind (upscale P half up D h m) (fun x => fill_octave P blur sub three 0 (snd x) (os, fst x)) else Val (true, (os, h))) = Val (true, (os1, h1)) /\
      well_sized n shapes os1 /\ nth_error os1 0 = Some (if use0 then filled three o0 (src shapes I I1 0) else o0) /\ (forall o, 1 <= o -> nth_error os1 o = nth_error os o) /\
      nth_error h1 (buf m) = Some I1 /\ (forall b, b < length h -> b <> buf m -> nth_error h1 b = nth_error h b)).
    { destruct use0.
      - destruct (upscale_ok m h I Eh) as [h' [U [U1 U2]]]. rewrite U. cbn [obind fst snd].
        assert (Du : dims (up (half I)) = nth 0 shapes []) by (rewrite Hup, (nth_error_nth _ _ _ H0); auto).
        rewrite (fill_octave_ok three 0 (up (half I)) shapes os h' o0 W E0 Du). eexists. eexists. split; [reflexivity|]. split; [apply sized_set; assumption|].
        split; [rewrite set_nth_get by exact Lo; reflexivity|]. split; [|split; [exact U1|exact U2]].
        intros o Ho. rewrite set_nth_get by exact Lo. destruct (Nat.eqb_spec o 0); [lia|reflexivity].
      - exists os, h. split; [reflexivity|]. split; [exact W|]. split; [exact E0|]. split; [auto|]. split; [exact Eh|auto]. }
    destruct S0 as [os1 [h1 [R1 [W1 [A0 [A1 [Hm Ho]]]]]]]. unfold ends, state in *. rewrite R1. cbn [andthen obind fst snd].
    assert (L1 : length os1 = length os) by (rewrite (sized_len _ _ W1); auto).
    destruct (1 <? length os1) eqn:E1.
    - apply Nat.ltb_lt in E1. destruct (nth_error os1 1) as [o1|] eqn:Eo1; [|apply nth_error_None in Eo1; lia].
      rewrite (at_index_ok _ _ _ _ Eo1). cbn [obind]. unfold convertTo. rewrite (at_index_ok _ _ _ _ Hm). cbn [omap obind fst snd buf].
      assert (A : nth_error (h1 ++ [I1]) (length h1) = Some I1) by (rewrite nth_error_app2, Nat.sub_diag by lia; reflexivity).
      rewrite (at_index_ok _ _ _ _ A). cbn [obind].
      destruct (nth_error shapes 1) as [s1|] eqn:Es1; [|apply nth_error_None in Es1; lia].
      assert (D1 : dims I1 = dims I) by (unfold I1; destruct (shares use0 m); auto).
      destruct (sized_nth _ _ _ _ W1 Eo1) as [g1 [G1 [Dg1 [Lg1 [Ld1 _]]]]].
      assert (N1 : nth 1 shapes [] = dims I1) by (rewrite (nth_error_nth _ _ _ Es1), D1; auto).
      rewrite (preblur_ok three o1 I1 g1 G1); [|lia|congruence]. cbn [obind fst snd]. rewrite write_ok by exact E1. cbn [omap andthen obind fst snd].
      set (os2 := set_nth 1 (filled three o1 (pre I1)) os1).
      assert (W2 : well_sized n shapes os2). { apply sized_set; [exact W1|exact Eo1|]. rewrite pre_dims. auto. }
      assert (L2 : length os2 = length os) by (rewrite (sized_len _ _ W2); auto).
      destruct (loop_ok three shapes I I1 os2 h1 (length os2 - 2) W2) as [os3 [R3 [W3 [B0 [B1 B2]]]]]; [lia| |].
      { intros x Hx. unfold os2 in Hx. rewrite set_nth_get in Hx by exact E1. cbn in Hx. injection Hx as <-. apply filled_shows. }
      unfold ends, state in *. rewrite R3. exists os3, h1. split; [reflexivity|]. split; [exact W3|]. split; [|split; [|split; [exact Hm|exact Ho]]].
      + intros x Hx. injection Hx as <-. rewrite B0 by lia. unfold os2. rewrite set_nth_get by exact E1. cbn [Nat.eqb]. exact A0.
      + intros o x Hge Hx. pose proof (nth_error_lt _ _ _ Hx) as Lx. destruct (Nat.eq_dec o 1) as [->|N].
        * rewrite B0 by lia. unfold os2. rewrite set_nth_get by exact E1. cbn [Nat.eqb]. rewrite A1 in Eo1 by lia. rewrite Hx in Eo1. injection Eo1 as <-. reflexivity.
        * apply B2; [lia|]. unfold os2. rewrite set_nth_get by exact E1. destruct (Nat.eqb_spec o 1); [lia|]. rewrite A1 by lia. exact Hx.
    - apply Nat.ltb_ge in E1. cbn [andthen obind fst snd]. replace (length os1 - 2) with 0 by lia. cbn [seq fold_left]. exists os1, h1.
      split; [reflexivity|]. split; [exact W1|]. split; [intros x Hx; injection Hx as <-; exact A0|]. split; [|split; [exact Hm|exact Ho]].
      intros o x Hge Hx. apply nth_error_lt in Hx. lia.
  Qed.
End Proofs.

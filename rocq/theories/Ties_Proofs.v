(** Which link is taken among links of equal lengths: the order is that of the lengths, then of the positions in the first frame, then in the second one. *)
Require Import ZArith List Bool Arith Lia Sorted Permutation.
Require Import Verif.Base Verif.SortU Verif.ListX Verif.Box_Model Verif.RTree_Model Verif.RTree_Spec Verif.RTree_Heuristics Verif.Index_Model Verif.Particles_Model Verif.Particles_Spec Verif.Particles_Proofs Verif.Particles_Props
  Verif.Traj_Model Verif.Traj_Spec Verif.Traj_Proofs Verif.TrajMap_Proofs Verif.Traj_Props Verif.Cluster_Spec Verif.Cluster2_Proofs Verif.Corr_Model Verif.Link_Model Verif.Link_Spec Verif.Link_Proofs Verif.Link_Props.
Import ListNotations.
Local Open Scope nat_scope.

(** The sort is stable. *)
Lemma ins_stable {A} (k : A -> Z) (R : A -> A -> Prop) x : forall l, StronglySorted (fun a b => (k a < k b)%Z \/ (k a = k b /\ R a b)) l -> (forall a, In a l -> R a x) ->
  StronglySorted (fun a b => (k a < k b)%Z \/ (k a = k b /\ R a b)) (ins (fun a b => (k a <? k b)%Z) x l).
Proof.
  induction l as [|y l IH]; intros Hs Hr; cbn [ins]; [constructor; constructor|]. inversion Hs as [|? ? Hs' Hf]; subst. destruct (Z.ltb_spec (k x) (k y)) as [H|H].
  - constructor; auto. constructor; [left; auto|]. rewrite Forall_forall in *. intros z Hz. specialize (Hf z Hz). left. lia.
  - constructor; [apply IH; auto; intros a Ha; apply Hr; right; auto|]. rewrite Forall_forall in *. intros z Hz. apply (Permutation_in _ (ins_perm _ _ _)) in Hz. destruct Hz as [<-|Hz]; [|auto].
    destruct (Z.eq_dec (k y) (k x)); [right; split; auto; apply Hr; left; auto|left; lia].
Qed.
Lemma sort_stable {A} (k : A -> Z) (R : A -> A -> Prop) l : StronglySorted R l -> StronglySorted (fun a b => (k a < k b)%Z \/ (k a = k b /\ R a b)) (sort_by (fun a b => (k a <? k b)%Z) l).
Proof.
  unfold sort_by. assert (G : forall l acc, StronglySorted R l -> StronglySorted (fun a b => (k a < k b)%Z \/ (k a = k b /\ R a b)) acc -> (forall a b, In a acc -> In b l -> R a b) ->
    StronglySorted (fun a b => (k a < k b)%Z \/ (k a = k b /\ R a b)) (fold_left (fun acc x => ins (fun a b => (k a <? k b)%Z) x acc) l acc)).
  { clear l. induction l as [|x l IH]; intros acc Hs Ha Hr; cbn [fold_left]; auto. inversion Hs as [|? ? Hs' Hf]; subst. apply IH; auto; [apply ins_stable; auto; intros; apply Hr; [auto|left; auto]|].
    intros a b Hin Hb. apply (Permutation_in _ (ins_perm _ _ _)) in Hin. destruct Hin as [<-|Hin]; [rewrite Forall_forall in Hf; auto|apply Hr; [auto|right; auto]]. }
  intros Hs. apply G; auto; [constructor|intros a b []].
Qed.
Lemma sorted_imp {A} (R R' : A -> A -> Prop) l : (forall a b, In a l -> In b l -> R a b -> R' a b) -> StronglySorted R l -> StronglySorted R' l.
Proof.
  induction l as [|x l IH]; intros H Hs; constructor; inversion Hs as [|? ? Hs' Hf]; subst; [apply IH; auto; intros; apply H; auto; right; auto|].
  rewrite Forall_forall in *. intros y Hy. apply H; [left; auto|right; auto|auto].
Qed.
Lemma sorted_app {A} (R : A -> A -> Prop) l l' : StronglySorted R l -> StronglySorted R l' -> (forall a b, In a l -> In b l' -> R a b) -> StronglySorted R (l ++ l').
Proof.
  induction l as [|x l IH]; intros H H' Hr; cbn; auto. inversion H as [|? ? Hs Hf]; subst. constructor; [apply IH; auto; intros; apply Hr; auto; right; auto|].
  apply Forall_app. split; auto. apply Forall_forall. intros y Hy. apply Hr; auto. left; auto.
Qed.
Lemma sorted_map {A B} (f : A -> B) (R : B -> B -> Prop) l : StronglySorted (fun a b => R (f a) (f b)) l -> StronglySorted R (map f l).
Proof. induction 1 as [|x l Hs IH Hf]; cbn; constructor; auto. rewrite Forall_forall in *. intros y Hy. apply in_map_iff in Hy as [z [<- Hz]]. auto. Qed.

(** Followers: shortest first, then in order. *)
Definition fol_before (x y : Z * nat) : Prop := (fst x < fst y)%Z \/ (fst x = fst y /\ snd x < snd y).
Lemma followers_sorted c now next range : config_ok c -> dims c = 3 -> Forall point3 (pts now) -> tree_ok c next -> forall fol, followers_by_dist now next range = Val fol -> Forall (StronglySorted fol_before) fol.
Proof.
  intros Hok H3 Hn [Hp [t [Et Hi]]]. unfold followers_by_dist. induction (pts now) as [|x l IH]; cbn [map osequence]; intros fol E; [injection E as <-; constructor|].
  inversion Hn; subst. destruct (search3 c next t Hok H3 Hp Et Hi x range (fun _ => false)) as [ids [Es [Hs _]]]; auto.
  assert (Ex : euclid_by_dist next x range = Val (sort_by (fun x y => (fst x <? fst y)%Z) (map (fun i => (d_of (pts next) x i, i)) ids))) by (unfold euclid_by_dist, select_enclosed; rewrite Et; cbn [obind]; rewrite Es; reflexivity).
  rewrite Ex in E. cbn [obind] in E. destruct (osequence (map (fun p => euclid_by_dist next p range) l)) as [fol'| |] eqn:Eo; try discriminate. cbn in E. injection E as <-. constructor; [|apply IH; auto].
  apply (sort_stable fst (fun x y => snd x < snd y)). apply sorted_map. apply (sorted_imp lt); auto.
Qed.

(** Taken, or before it in the order something taken that conflicts. *)
Lemma go_order (R : Z * link -> Z * link -> Prop) (pre : list (Z * link)) : forall ls f, (forall x, In x f -> exists d, In (d, x) pre) -> StronglySorted R (pre ++ ls) ->
  forall d l, In (d, l) ls -> In l (fold_left (fun f l => frame_insert (snd l) f) ls f) \/
    exists d' l', In l' (fold_left (fun f l => frame_insert (snd l) f) ls f) /\ conflict l' l /\ R (d', l') (d, l) /\ In (d', l') (pre ++ ls).
Proof.
  intros ls. revert pre. induction ls as [|a ls IH]; intros pre f Hf Hs d l [].
  - subst a. cbn [fold_left snd]. destruct (frame_insert_hit l f) as [x [Hx [Hc Hor]]]. destruct Hor as [Hin| ->]; [right|left; apply go_incl; auto].
    destruct (Hf x Hin) as [d' Hd']. exists d', x. split; [apply go_incl, Hx|]. split; auto. split; [|apply in_or_app; auto].
    clear - Hs Hd'. induction pre as [|b pre IHp]; [destruct Hd'|]. cbn in Hs. inversion Hs as [|? ? Hs' Hf']; subst. destruct Hd' as [->|Hd']; auto. rewrite Forall_forall in Hf'. apply (Hf' (d, l)). apply in_or_app. right. left; auto.
  - cbn [fold_left]. replace (pre ++ a :: ls) with ((pre ++ [a]) ++ ls) in * by (rewrite <- app_assoc; auto). apply IH; auto. intros x Hx. apply frame_insert_in in Hx. destruct Hx as [Hx| ->].
    + destruct (Hf x Hx) as [d' Hd']. exists d'. apply in_or_app; auto.
    + exists (fst a). apply in_or_app. right. left. destruct a; auto.
Qed.
Lemma start_new_incl linked x : forall ps f nb, In x f -> In x (fst (start_new ps linked f nb)).
Proof. induction ps as [|p ps IH]; intros f nb H; cbn [start_new]; auto. destruct (linked p); apply IH; auto. apply frame_insert_incl; auto. Qed.

(** The order of the possible links: by trajectory in the order of the positions, then as the followers. *)
Definition link_before (g : frame) (x y : Z * link) : Prop := exists p p', In (p, snd (snd x)) g /\ In (p', snd (snd y)) g /\ (p < p' \/ (p = p' /\ fol_before (fst x, fst (snd x)) (fst y, fst (snd y)))).
Lemma gather_sorted fol g : Forall (StronglySorted fol_before) fol -> forall ps ls, StronglySorted (fun x y : link => fst x < fst y) ps -> (forall x, In x ps -> In x g) -> gather_links fol ps = Some ls -> StronglySorted (link_before g) ls.
Proof.
  intros Hf. induction ps as [|[p tr] ps IH]; intros ls Hs Hg E; cbn [gather_links] in E; [injection E as <-; constructor|]. inversion Hs as [|? ? Hs' Hlt]; subst.
  destruct (nth_error fol p) as [m|] eqn:Em; [|discriminate]. destruct (gather_links fol ps) as [ls'|] eqn:El; [|discriminate]. injection E as <-. apply sorted_app.
  - apply sorted_map. rewrite Forall_forall in Hf. apply (sorted_imp fol_before); [|apply Hf; eapply nth_error_In; eauto]. intros a b _ _ H. exists p, p. cbn [fst snd]. split; [apply Hg; left; auto|]. split; [apply Hg; left; auto|]. right; split; [reflexivity|destruct a, b; exact H].
  - apply IH; auto. intros x Hx. apply Hg. right; auto.
  - intros a b Ha Hb. apply in_map_iff in Ha as [[d q] [<- Ha]]. destruct b as [d' [q' tr']]. assert (K : exists p', In (p', tr') ps /\ p < p').
    { clear - Hb El Hlt. revert ls' El Hb. induction ps as [|[p1 t1] ps IH]; intros ls' El Hb; cbn [gather_links] in El; [injection El as <-; destruct Hb|]. inversion Hlt as [|? ? H1 H2]; subst.
      destruct (nth_error fol p1) as [m1|]; [|discriminate]. destruct (gather_links fol ps) as [l1|] eqn:E1; [|discriminate]. injection El as <-. apply in_app_or in Hb as [Hb|Hb].
      - apply in_map_iff in Hb as [[d1 q1] [E2 _]]. cbn in E2. injection E2 as _ _ <-. exists p1. split; [left; auto|auto].
      - destruct (IH H2 l1 eq_refl Hb) as [p' [A B]]. exists p'. split; [right; auto|auto]. }
    destruct K as [p' [A B]]. exists p, p'. cbn [fst snd]. split; [apply Hg; left; auto|]. split; [apply Hg; right; auto|left; auto].
Qed.
Lemma by_pos_sorted f : NoDup (map fst f) -> StronglySorted (fun x y : link => fst x < fst y) (by_pos f).
Proof.
  intros Hn. unfold by_pos. assert (Hn' : NoDup (map fst (sort_by (fun x y : link => fst x <? fst y) f))) by (apply (Permutation_NoDup (l := map fst f)); auto; apply Permutation_map, Permutation_sym, sort_by_perm).
  assert (Hs : StronglySorted (fun x y : link => fst x <= fst y) (sort_by (fun x y : link => fst x <? fst y) f)).
  { assert (E : sort_by (fun x y : link => fst x <? fst y) f = sort_by (fun x y : link => (Z.of_nat (fst x) <? Z.of_nat (fst y))%Z) f).
    { unfold sort_by. generalize (@nil link). induction f as [|a f IH]; intros acc; cbn [fold_left]; auto. inversion Hn; subst. rewrite IH; auto. f_equal.
      - clear. induction acc as [|y acc IH]; cbn [ins]; auto. destruct (Nat.ltb_spec (fst a) (fst y)), (Z.ltb_spec (Z.of_nat (fst a)) (Z.of_nat (fst y))); try lia; auto. f_equal; auto.
      - apply (Permutation_NoDup (l := map fst f)); auto. apply Permutation_map, Permutation_sym, sort_by_perm. }
    rewrite E. apply (sorted_imp (fun x y => (Z.of_nat (fst x) <= Z.of_nat (fst y))%Z)); [intros; lia|]. apply (sort_Z_sorted (fun x : link => Z.of_nat (fst x))). }
  revert Hs Hn'. generalize (sort_by (fun x y : link => fst x <? fst y) f). clear. induction l as [|a l IH]; intros Hs Hn; constructor; inversion Hs as [|? ? H1 H2]; inversion Hn as [|? ? N1 N2]; subst; auto.
  rewrite Forall_forall in *. intros b Hb. specialize (H2 b Hb). assert (fst a <> fst b) by (intros E; apply N1; rewrite E; apply in_map; auto). lia.
Qed.
(** One frame: a possible link from position p to position q is taken, or meets one that is taken and comes before it. *)
Definition before (d : Z) (p q : nat) (d' : Z) (p' q' : nat) : Prop := (d < d')%Z \/ (d = d' /\ (p < p' \/ (p = p' /\ q < q'))).
Lemma push_order tm fol n tm' : good (last (frames tm) []) -> Forall (StronglySorted fol_before) fol -> trajmap_push tm fol n = Some tm' ->
  forall d q p tr mm, In (p, tr) (last (frames tm) []) -> nth_error fol p = Some mm -> In (d, q) mm -> In (q, tr) (last (frames tm') []) \/
    exists d' q' p' tr' mm', In (p', tr') (last (frames tm) []) /\ nth_error fol p' = Some mm' /\ In (d', q') mm' /\ In (q', tr') (last (frames tm') []) /\ ((q' = q /\ tr' <> tr) \/ (tr' = tr /\ q' <> q)) /\ before d' p' q' d p q.
Proof.
  intros Hg Hf E. unfold trajmap_push in E. set (g := last (frames tm) []) in *. destruct (gather_links fol (by_pos g)) as [ls|] eqn:El; [|discriminate]. set (f := insert_links (sort_links ls)) in *.
  destruct (forallb _ f); [|discriminate]. destruct (start_new (seq 0 n) (fun p => existsb (fun l => fst l =? p) f) f (nb_traj tm)) as [f' nb'] eqn:En. injection E as <-. cbn [frames]. rewrite last_last.
  assert (Inc : forall x, In x f -> In x f') by (intros x Hx; replace f' with (fst (start_new (seq 0 n) (fun p => existsb (fun l => fst l =? p) f) f (nb_traj tm))) by (rewrite En; auto); apply start_new_incl; auto).
  assert (Hs : StronglySorted (link_before g) ls) by (apply (gather_sorted fol g Hf (by_pos g)); auto; [apply by_pos_sorted; apply Hg|intros x; apply by_pos_in]).
  assert (Hso : StronglySorted (fun a b => (fst a < fst b)%Z \/ (fst a = fst b /\ link_before g a b)) (sort_links ls)) by (apply (sort_stable (@fst Z link)); auto).
  assert (Hls : forall d q tr, In (d, (q, tr)) ls <-> exists p mm, In (p, tr) g /\ nth_error fol p = Some mm /\ In (d, q) mm).
  { intros d q tr. assert (Hb : forall l, In l (by_pos g) -> fst l < length fol).
    { clear - El. revert ls El. induction (by_pos g) as [|[p t] ps IH]; intros ls E l Hl; [destruct Hl|]. cbn [gather_links] in E. destruct (nth_error fol p) as [m|] eqn:K; [|discriminate].
      destruct (gather_links fol ps) as [l'|]; [|discriminate]. destruct Hl as [<-|Hl]; [cbn; eapply nth_error_lt; eauto|apply (IH l'); auto]. }
    destruct (gather_links_ok fol (by_pos g) Hb) as [ls0 [E0 H]]. assert (ls0 = ls) by congruence. subst ls0. rewrite H. split; intros [p [mm [A B]]]; exists p, mm; split; auto; apply by_pos_in; auto. }
  intros d q p tr mm Hp Hm Hd. assert (Hin : In (d, (q, tr)) (sort_links ls)) by (apply sort_links_in, Hls; eauto).
  destruct (go_order _ [] (sort_links ls) [] (fun x (H : In x []) => match H with end) Hso d (q, tr) Hin) as [H|[d' [[q' tr'] [H1 [H2 [H4 H5]]]]]]; [left; apply Inc; exact H|].
  cbn [app] in H5. apply sort_links_in, Hls in H5. destruct H5 as [p' [mm' [P1 [P2 P3]]]]. destruct (Nat.eq_dec q' q) as [Eq|Nq], (Nat.eq_dec tr' tr) as [Et|Nt].
  - subst. left. apply Inc; exact H1.
  - right. exists d', q', p', tr', mm'. split; auto. split; auto. split; auto. split; [apply Inc; exact H1|]. split; [left; auto|].
    destruct H4 as [H4|[H4 (a & b & A & B & K)]]; [left; exact H4|cbn [fst snd] in *; subst d']. assert (G2 : forall x y t, In (x, t) g -> In (y, t) g -> x = y) by (intros x y t X Y; destruct Hg as [_ Hg]; clear - Hg X Y; induction g as [|[u v] g IH]; [destruct X|]; cbn in Hg; inversion Hg; subst; destruct X as [X|X], Y as [Y|Y]; [congruence| | |auto]; exfalso; match goal with H : ~ In _ _ |- _ => apply H end; apply in_map_iff; [exists (y, t)|exists (x, t)]; (split; [cbn; congruence|auto])).
    assert (a = p') by (apply (G2 a p' tr'); auto). assert (b = p) by (apply (G2 b p tr); auto). subst a b. right. split; auto. destruct K as [K|[K [K1|[_ K1]]]]; [left; auto| |right; auto]. exfalso; cbn [fst] in K1; lia.
  - right. exists d', q', p', tr', mm'. split; auto. split; auto. split; auto. split; [apply Inc; exact H1|]. split; [right; auto|].
    destruct H4 as [H4|[H4 (a & b & A & B & K)]]; [left; exact H4|cbn [fst snd] in *; subst d']. assert (G2 : forall x y t, In (x, t) g -> In (y, t) g -> x = y) by (intros x y t X Y; destruct Hg as [_ Hg]; clear - Hg X Y; induction g as [|[u v] g IH]; [destruct X|]; cbn in Hg; inversion Hg; subst; destruct X as [X|X], Y as [Y|Y]; [congruence| | |auto]; exfalso; match goal with H : ~ In _ _ |- _ => apply H end; apply in_map_iff; [exists (y, t)|exists (x, t)]; (split; [cbn; congruence|auto])).
    assert (a = p') by (apply (G2 a p' tr'); auto). assert (b = p) by (apply (G2 b p tr); auto). subst a b. right. split; auto. destruct K as [K|[K [K1|[_ K1]]]]; [left; auto| |right; auto]. exfalso; cbn [fst] in K1; lia.
  - exfalso. destruct H2 as [H2|H2]; cbn in H2; auto.
Qed.
Lemma push_frames tm fol n tm' : trajmap_push tm fol n = Some tm' -> frames tm' = frames tm ++ [last (frames tm') []].
Proof.
  unfold trajmap_push. destruct (gather_links _ _) as [ls|]; [|discriminate]. destruct (forallb _ _); [|discriminate]. destruct (start_new _ _ _ _) as [f' nb']. intros E. injection E as <-. cbn [frames]. rewrite last_last. auto.
Qed.
Lemma link_steps range : forall fs tm tm', link_frames range fs tm = Val tm' -> frames tm <> [] -> exists rest, frames tm' = frames tm ++ rest /\
  forall t now next, nth_error fs t = Some now -> nth_error fs (S t) = Some next -> exists fol a b, followers_by_dist now next range = Val fol /\ trajmap_push a fol (length (pts next)) = Some b /\
    nth_error (frames tm') (length (frames tm) - 1 + t) = Some (last (frames a) []) /\ nth_error (frames tm') (length (frames tm) + t) = Some (last (frames b) []).
Proof.
  induction fs as [|now [|next fs] IH]; intros tm tm' E Hne; cbn [link_frames] in E; [injection E as <-; exists []; split; [rewrite app_nil_r; auto|intros t a b H; destruct t; discriminate]| |].
  { injection E as <-. exists []. split; [rewrite app_nil_r; auto|]. intros t a b _ H. destruct t; discriminate. }
  destruct (followers_by_dist now next range) as [fol| |] eqn:Ef; try discriminate. cbn [obind] in E. destruct (trajmap_push tm fol (length (pts next))) as [tm1|] eqn:Ep; [|discriminate].
  assert (F := push_frames _ _ _ _ Ep). destruct (IH tm1 tm' E) as [rest [Er Hs]]; [rewrite F; destruct (frames tm); discriminate|]. assert (L1 : length (frames tm1) = S (length (frames tm))) by (rewrite F, app_length; cbn; lia).
  exists (last (frames tm1) [] :: rest). split; [rewrite Er, F at 1; rewrite <- app_assoc; reflexivity|]. intros [|t] n1 n2 H1 H2.
  - cbn in H1, H2. injection H1 as <-. injection H2 as <-. exists fol, tm, tm1. split; auto. split; auto. rewrite !Nat.add_0_r. rewrite Er. split.
    + rewrite nth_error_app1 by lia. rewrite F. rewrite nth_error_app1 by (destruct (frames tm); [congruence|cbn; lia]). apply last_nth_error; auto.
    + rewrite nth_error_app1 by lia. rewrite F at 1. rewrite nth_error_app2, Nat.sub_diag by lia. reflexivity.
  - destruct (Hs t n1 n2 H1 H2) as (fol' & a & b & A1 & A2 & A3 & A4). exists fol', a, b. split; auto. split; auto. rewrite L1 in A3, A4. assert (0 < length (frames tm)) by (destruct (frames tm); [congruence|cbn; lia]).
    split; [rewrite <- A3; f_equal; lia|rewrite <- A4; f_equal; lia].
Qed.

(** [link]: a possible link is taken, or meets one that is taken and comes before it in the order of lengths, then of the positions. *)
Lemma link_ordered c radius frames fs ti : config_ok c -> dims c = 3 -> Forall (frame_ready c) frames -> link_all c radius frames = Val (fs, ti) ->
  forall t p q x y, pos_at frames t p x -> pos_at frames (t + 1) q y -> closer3 y x (2 * radius) -> (exists tr, on_traj ti tr t p /\ on_traj ti tr (t + 1) q) \/
    exists p' q' x' y' tr, pos_at frames t p' x' /\ pos_at frames (t + 1) q' y' /\ closer3 y' x' (2 * radius) /\ on_traj ti tr t p' /\ on_traj ti tr (t + 1) q' /\
      before (dist2 y' x') p' q' (dist2 y x) p q /\ ((p' = p /\ q' <> q) \/ (p' <> p /\ q' = q)).
Proof.
  intros Hok H3 Hr EL. destruct (osequence_ready c Hok H3 frames Hr) as [fs' [Es [Hm Hf]]]. unfold link_all in EL. rewrite Es in EL. cbn [obind] in EL.
  destruct fs' as [|first rest] eqn:Efs; [discriminate|]. rewrite <- Efs in *. assert (Hpos : forall t p x, pos_at frames t p x <-> exists st, nth_error fs' t = Some st /\ nth_error (pts st) p = Some x).
  { intros t p x. unfold pos_at. assert (E : nth_error (map pts fs') t = nth_error (map pts frames) t) by (rewrite Hm; auto). rewrite !nth_error_map in E. destruct (nth_error fs' t), (nth_error frames t); cbn in E; try discriminate.
    - injection E as E. split; intros [st [H1 H2]]; injection H1 as <-; eexists; split; eauto; congruence.
    - split; intros [st [H1 _]]; discriminate. }
  destruct (link_history c (radius * 2) Hok H3 fs' Hf first rest (trajmap_new (length (pts first))) Efs) as [h [Hrun [Hh [Hsz _]]]].
  destruct (C19_index (length (pts first)) h Hh) as [tm [ti' [Et [Ei [_ [_ Hfr]]]]]]. assert (Elf := Hrun tm Et). rewrite Elf in EL. cbn [obind] in EL. rewrite Ei in EL. injection EL as _ <-.
  destruct (C16_bijection _ _ Hh) as [tm' [Et' [Hs Hbij]]]. assert (tm' = tm) by congruence. subst tm'. rewrite Hsz in Hbij.
  assert (Hon : forall t p tr, on_traj ti' tr t p <-> exists f, frame_at tm t f /\ In (p, tr) f) by (intros t p tr; unfold on_traj; symmetry; apply Hfr).
  destruct (link_steps _ _ _ _ Elf) as [_ [_ Hst]]; [discriminate|]. cbn [Traj_Model.frames trajmap_new length] in Hst.
  intros t p q x y Hx Hy Hc. apply Hpos in Hx as [now [N1 Hx]]. apply Hpos in Hy as [next [N2 Hy]]. rewrite Nat.add_1_r in *. destruct (Hst t now next N1 N2) as (fol & a & b & F1 & F2 & A1 & A2). cbn in A1, A2.
  assert (Hnow : tree_ok c now) by (rewrite Forall_forall in Hf; apply Hf; eapply nth_error_In; eauto). assert (Hnext : tree_ok c next) by (rewrite Forall_forall in Hf; apply Hf; eapply nth_error_In; eauto). destruct Hnow as [Hn3 _].
  destruct (followers_ok c now next (radius * 2) Hok H3 Hn3 Hnext) as [fol' [F1' [Lf Kf]]]. assert (fol' = fol) by congruence. subst fol'. assert (So := followers_sorted c now next (radius * 2) Hok H3 Hn3 Hnext fol F1).
  set (g := last (Traj_Model.frames a) []) in *. set (f := last (Traj_Model.frames b) []) in *. destruct (Hbij t g A1) as [Lg [Hcov [Hfun [Hinj _]]]]. destruct (Hbij (S t) f A2) as [Lf' [Hcov' [Hfun' [Hinj' _]]]].
  assert (Lg' : length g = length (pts now)) by (rewrite nth_error_map, N1 in Lg; cbn in Lg; congruence).
  destruct (proj1 (Hcov p)) as [tr Hp]; [rewrite Lg'; eapply nth_error_lt; eauto|]. destruct (nth_error_ex fol p) as [mm Hmm]; [rewrite Lf; eapply nth_error_lt; eauto|]. rewrite (Z.mul_comm 2) in *.
  assert (Good : good g).
  { destruct (run_hist_new (length (pts first)) h Hh) as [tm0 [E0 Hi]]. assert (tm0 = tm) by congruence. subst tm0. apply (fa_good _ _ (hist_facts _ _ _ _ Hi) t g A1). }
  destruct (push_order a fol (length (pts next)) b Good So F2 (dist2 y x) q p tr mm Hp Hmm) as [H|(d' & q' & p' & tr' & mm' & P1 & P2 & P3 & P4 & Hor & Hb)]; [apply (Kf p x mm Hx Hmm); eauto| |].
  - left. exists tr. split; apply Hon; [exists g|exists f]; auto.
  - right. destruct (nth_error_ex (pts now) p') as [x' Hx']; [rewrite <- Lg'; apply Hcov; eauto|]. apply (Kf p' x' mm' Hx' P2) in P3 as (y' & Hy' & Hc' & ->).
    exists p', q', x', y', tr'. split; [apply Hpos; eauto|]. split; [apply Hpos; eauto|]. split; auto. split; [apply Hon; exists g; auto|]. split; [apply Hon; exists f; auto|]. split; auto.
    destruct Hor as [[-> Ht]|[-> Hq]]; [right|left]; split; auto; [intros ->; apply Ht; eauto|eauto].
Qed.

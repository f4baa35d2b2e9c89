(** C148: the header of a .lif file. *)
Require Import ZArith List Bool Arith String Lia Sorted.
Require Import Verif.ListX Verif.Traj_Model Verif.Particles_Model Verif.Corr_Model Verif.Corr_Proofs Verif.Lif2_Proofs Verif.Xml_Model Verif.Xml_Spec.
Require Verif.Lif_Model.
Import ListNotations.
Local Open Scope nat_scope.
Local Open Scope string_scope.
Local Open Scope list_scope.
Local Notation length := List.length.

(** * Attributes and children *)
Lemma assoc_app {A} k (v : A) l1 l2 : ~ In k (map fst l1) -> assoc k (l1 ++ (k, v) :: l2) = Some v.
Proof. induction l1 as [|[k' v'] l1 IH]; cbn [app assoc map fst In]; intros H; [rewrite String.eqb_refl; reflexivity|]. destruct (String.eqb_spec k k') as [->|]; [tauto|]. apply IH. tauto. Qed.
Lemma assoc_none {A} k (l : list (string * A)) : ~ In k (map fst l) -> assoc k l = None.
Proof. induction l as [|[k' v'] l1 IH]; cbn [assoc map fst In]; intros H; [reflexivity|]. destruct (String.eqb_spec k k') as [->|]; [tauto|]. apply IH. tauto. Qed.
Lemma attribute_ok n a v : attr n a v -> attribute a n = Val (Some v).
Proof. intros [t [l1 [l2 [k [-> H]]]]]. unfold attribute. rewrite assoc_app by exact H. reflexivity. Qed.
Lemma attribute_no n a : no_attr n a -> attribute a n = Val None.
Proof. intros [t [l [k [-> H]]]]. unfold attribute. rewrite assoc_none by exact H. reflexivity. Qed.
Lemma need_ok n a v : attr n a v -> need a n = Val v.
Proof. intros H. unfold need. rewrite (attribute_ok n a v H). reflexivity. Qed.
Lemma query_ok p n a x old : num p n a x -> query p a n old = Val (Some x).
Proof. intros [s [H E]]. unfold query. rewrite (attribute_ok n a s H). cbn [omap obind]. rewrite E. reflexivity. Qed.
Lemma attr_fun n a v w : attr n a v -> attr n a w -> v = w.
Proof. intros H H'. apply attribute_ok in H. apply attribute_ok in H'. congruence. Qed.
Lemma attr_elem n a v : attr n a v -> exists t l k, n = Element t l k.
Proof. intros [t [l1 [l2 [k [-> _]]]]]. eauto. Qed.
Lemma first_child_ok n tag c : first_of n tag c -> first_child tag n = Some c.
Proof.
  intros [l1 [l2 [E [V F]]]]. unfold first_child. rewrite E. clear E. induction F as [|x l1 Hx F IH]; cbn [app find].
  - unfold named. rewrite V, String.eqb_refl. reflexivity.
  - unfold named at 1. destruct (String.eqb_spec (value x) tag); [contradiction|]. exact IH.
Qed.
Lemma first_child_none n tag : none_of n tag -> first_child tag n = None.
Proof. unfold none_of, first_child. induction 1 as [|x l Hx F IH]; cbn [find]; [reflexivity|]. unfold named at 1. destruct (String.eqb_spec (value x) tag); [contradiction|]. exact IH. Qed.
Lemma osequence_f2 {A B C} (f : A -> outcome B) (g : C -> B) (R : A -> C -> Prop) : (forall a c, R a c -> f a = Val (g c)) -> forall l m, Forall2 R l m -> osequence (map f l) = Val (map g m).
Proof. intros H. induction 1 as [|a c l m Hac F IH]; [reflexivity|]. cbn [map osequence]. rewrite (H a c Hac). cbn [obind]. rewrite IH. reflexivity. Qed.

(** * Maps of strings *)
Definition sorted_keys {A} (m : list (string * A)) : Prop := StronglySorted (fun x y => String.compare (fst x) (fst y) = Lt) m.
Lemma eqb_cmp k k' : String.compare k k' <> Eq -> String.eqb k k' = false.
Proof. intros H. destruct (String.eqb_spec k k') as [->|]; [rewrite cmp_refl in H; congruence|reflexivity]. Qed.
Lemma assoc_above {A} k (m : list (string * A)) : Forall (fun y => String.compare k (fst y) = Lt) m -> assoc k m = None.
Proof. induction 1 as [|[k' v'] m H F IH]; cbn [assoc]; [reflexivity|]. cbn [fst] in H. rewrite (eqb_cmp k k') by (rewrite H; discriminate). exact IH. Qed.
Lemma minsert_ok {A} k (v : A) m : sorted_keys m -> sorted_keys (minsert k v m) /\ (forall k', assoc k' (minsert k v m) = match assoc k' m with Some w => Some w | None => if String.eqb k' k then Some v else None end).
Proof.
  assert (In_m : forall m x, In x (minsert k v m) -> x = (k, v) \/ In x m).
  { clear. induction m as [|[k' v'] m IH]; intros x H; cbn [minsert] in H; [destruct H as [<-|[]]; auto|]. destruct (String.compare k k') eqn:C; [auto|destruct H as [<-|H]; auto|]. destruct H as [<-|H]; [right; left; reflexivity|]. destruct (IH x H); [auto|right; right; auto]. }
  induction m as [|[k' v'] m IH]; intros So.
  - cbn [minsert]. split; [repeat constructor|]. intros k2. cbn [assoc]. reflexivity.
  - inversion So as [|? ? So' F]; subst. cbn [fst] in F. cbn [minsert]. destruct (String.compare k k') eqn:C.
    + apply String.compare_eq_iff in C. subst k'. split; [exact So|]. intros k2. cbn [assoc]. destruct (String.eqb_spec k2 k); [reflexivity|]. destruct (assoc k2 m); reflexivity.
    + split.
      * constructor; [exact So|]. apply Forall_cons; [exact C|]. eapply Forall_impl; [|exact F]. intros y Hy. cbn [fst] in *. eapply cmp_trans; eauto.
      * intros k2. cbn [assoc]. destruct (String.eqb_spec k2 k) as [->|N]; [|destruct (String.eqb k2 k'); [reflexivity|destruct (assoc k2 m); reflexivity]].
        rewrite (eqb_cmp k k') by (rewrite C; discriminate). rewrite assoc_above; [reflexivity|]. eapply Forall_impl; [|exact F]. intros y Hy. cbn [fst] in *. eapply cmp_trans; eauto.
    + destruct (IH So') as [S2 A2]. split.
      * constructor; [exact S2|]. apply Forall_forall. intros y Hy. destruct (In_m m y Hy) as [->|I]; [cbn [fst]; apply cmp_gt; exact C|]. rewrite Forall_forall in F. apply F. exact I.
      * intros k2. cbn [assoc]. rewrite A2. destruct (String.eqb k2 k'); reflexivity.
Qed.
Lemma lookup_cons {A} k k' (v : A) l : lookup String.eqb k ((k', v) :: l) = if String.eqb k' k then Some v else lookup String.eqb k l.
Proof. unfold lookup. cbn [find fst]. destruct (String.eqb k' k); reflexivity. Qed.
Lemma mfold_ok {A} (l : list (string * A)) : forall m, sorted_keys m -> let m' := fold_left (fun m r => minsert (fst r) (snd r) m) l m in
  sorted_keys m' /\ forall k, assoc k m' = match assoc k m with Some w => Some w | None => lookup String.eqb k l end.
Proof.
  induction l as [|[k v] l IH]; intros m So; cbn [fold_left].
  - split; [exact So|]. intros k. unfold lookup. cbn. destruct (assoc k m); reflexivity.
  - destruct (minsert_ok k v m So) as [S1 A1]. destruct (IH (minsert k v m) S1) as [S2 A2]. cbn [fst snd]. split; [exact S2|]. intros k2. rewrite A2, A1, lookup_cons. rewrite (String.eqb_sym k k2). destruct (assoc k2 m); [reflexivity|]. destruct (String.eqb k2 k); reflexivity.
Qed.
Lemma keys_ext {A} : forall (m1 m2 : list (string * A)), sorted_keys m1 -> sorted_keys m2 -> (forall k, assoc k m1 = assoc k m2) -> m1 = m2.
Proof.
  induction m1 as [|[k v] m1 IH]; intros [|[k' v'] m2] S1 S2 H; [reflexivity| | |].
  - specialize (H k'). cbn [assoc] in H. rewrite String.eqb_refl in H. discriminate.
  - specialize (H k). cbn [assoc] in H. rewrite String.eqb_refl in H. discriminate.
  - inversion S1 as [|? ? S1' F1]; subst. inversion S2 as [|? ? S2' F2]; subst. cbn [fst] in *.
    assert (Up : forall (c d : string) (m : list (string * A)), String.compare c d = Lt -> Forall (fun y => String.compare d (fst y) = Lt) m -> assoc c m = None) by (intros c d m C F; apply assoc_above; eapply Forall_impl; [|exact F]; intros y Hy; eapply cmp_trans; eauto).
    destruct (cmp_cases k k') as [E|[C|C]].
    + subst k'. assert (Hk := H k). cbn [assoc] in Hk. rewrite String.eqb_refl in Hk. assert (v = v') by congruence. subst v'. f_equal. apply IH; [assumption|assumption|]. intros k2. specialize (H k2). cbn [assoc] in H.
      destruct (String.eqb_spec k2 k) as [E2|]; [rewrite E2|exact H]. rewrite !assoc_above by assumption. reflexivity.
    + specialize (H k). cbn [assoc] in H. rewrite String.eqb_refl, (eqb_cmp k k') in H by (rewrite C; discriminate). rewrite (Up k k' m2 C F2) in H. discriminate.
    + specialize (H k'). cbn [assoc] in H. rewrite String.eqb_refl, (eqb_cmp k' k) in H by (rewrite C; discriminate). rewrite (Up k' k m1 C F1) in H. discriminate.
Qed.
Definition known (id : Z) : Prop := (1 <= id <= 8)%Z.
Lemma known_name id : known id -> In (xdim_name id, id) names8.
Proof. intros H. unfold known in H. assert (C : (id = 1 \/ id = 2 \/ id = 3 \/ id = 4 \/ id = 5 \/ id = 6 \/ id = 7 \/ id = 8)%Z) by lia. unfold names8. destruct C as [->|[->|[->|[->|[->|[->|[->| ->]]]]]]]; cbn; tauto. Qed.
Lemma name8_of nm i : In (nm, i) names8 -> xdim_name i = nm /\ known i.
Proof. intros H. unfold known. cbn [names8 In] in H. repeat (destruct H as [H|H]; [injection H as <- <-; split; [reflexivity|lia]|]). destruct H. Qed.
Lemma name_inj i j : known i -> known j -> xdim_name i = xdim_name j -> i = j.
Proof.
  intros Hi Hj E. apply known_name in Hi. apply known_name in Hj. rewrite E in Hi.
  assert (F : forall nm a b, In (nm, a) names8 -> In (nm, b) names8 -> a = b); [|eapply F; eauto]. clear. intros nm a b H1 H2. cbn [names8 In] in H1, H2.
  repeat (destruct H1 as [H1|H1]; [injection H1 as <- <-; repeat (destruct H2 as [H2|H2]; [first [discriminate H2|injection H2 as <-; reflexivity]|]); destruct H2|]). destruct H1.
Qed.
Lemma name_T id : xdim_name id = "T" <-> id = 4%Z.
Proof.
  split; [|intros ->; reflexivity]. intros H. destruct (Z.eq_dec id 4) as [E|N]; [exact E|]. exfalso. unfold xdim_name in H.
  destruct (id =? 1)%Z; [discriminate|]. destruct (id =? 2)%Z; [discriminate|]. destruct (id =? 3)%Z; [discriminate|]. destruct (Z.eqb_spec id 4); [contradiction|].
  destruct (id =? 5)%Z; [discriminate|]. destruct (id =? 6)%Z; [discriminate|]. destruct (id =? 7)%Z; [discriminate|]. destruct (id =? 8)%Z; discriminate.
Qed.
Definition xdim_of_text (d : Z * (Z * Z)) : xdim := mkXdim (fst d) (Some (fst (snd d))) (Some (snd (snd d))).
Definition dims_map (ds : list (Z * (Z * Z))) : list (string * xdim) := fold_left (fun m x => minsert (xdim_name (x_id x)) x m) (map xdim_of_text ds) [].
Lemma dims_map_ok ds : sorted_keys (dims_map ds) /\ forall k, assoc k (dims_map ds) = option_map xdim_of_text (find (fun d => String.eqb (xdim_name (fst d)) k) ds).
Proof.
  assert (E : dims_map ds = fold_left (fun m r => minsert (fst r) (snd r) m) (map (fun d => (xdim_name (fst d), xdim_of_text d)) ds) []).
  { unfold dims_map. generalize (@nil (string * xdim)). induction ds as [|d ds IH]; intros m; [reflexivity|]. cbn [map fold_left]. apply IH. }
  rewrite E. destruct (mfold_ok (map (fun d => (xdim_name (fst d), xdim_of_text d)) ds) [] (SSorted_nil _)) as [S1 A1]. split; [exact S1|]. intros k. rewrite A1. cbn [assoc]. clear.
  unfold lookup. induction ds as [|d ds IH]; [reflexivity|]. cbn [map find fst]. destruct (String.eqb (xdim_name (fst d)) k); [reflexivity|exact IH].
Qed.
Lemma find_id (i : Z) ds nm : (forall d : Z * (Z * Z), In d ds -> (xdim_name (fst d) = nm <-> fst d = i)) -> find (fun d => String.eqb (xdim_name (fst d)) nm) ds = find (fun d => Z.eqb (fst d) i) ds.
Proof. intros H. induction ds as [|d ds IH]; [reflexivity|]. cbn [find]. rewrite IH by (intros; apply H; right; assumption). specialize (H d (or_introl eq_refl)). destruct (String.eqb_spec (xdim_name (fst d)) nm); destruct (Z.eqb_spec (fst d) i); tauto. Qed.
Definition canon (ds : list (Z * (Z * Z))) (nms : list (string * Z)) : list (string * xdim) :=
  flat_map (fun ni => match find (fun d => Z.eqb (fst d) (snd ni)) ds with Some d => [(fst ni, xdim_of_text d)] | None => [] end) nms.
Lemma canon_sorted ds : forall nms, sorted_keys nms -> sorted_keys (canon ds nms) /\ forall x, In x (canon ds nms) -> exists i, In (fst x, i) nms.
Proof.
  induction nms as [|[nm i] nms IH]; intros So; [split; [constructor|intros x []]|]. inversion So as [|? ? So' F]; subst. destruct (IH So') as [S1 I1]. unfold canon. cbn [flat_map fst snd]. fold (canon ds nms). destruct (find _ ds) as [d|]; cbn [app].
  - split; [constructor; [exact S1|]|].
    + apply Forall_forall. intros x Hx. destruct (I1 x Hx) as [j Hj]. rewrite Forall_forall in F. exact (F _ Hj).
    + intros x [<-|Hx]; [exists i; left; reflexivity|]. destruct (I1 x Hx) as [j Hj]. exists j. right. exact Hj.
  - split; [exact S1|]. intros x Hx. destruct (I1 x Hx) as [j Hj]. exists j. right. exact Hj.
Qed.
Lemma canon_assoc ds k : forall nms, sorted_keys nms -> assoc k (canon ds nms) = match assoc k nms with Some i => option_map xdim_of_text (find (fun d => Z.eqb (fst d) i) ds) | None => None end.
Proof.
  induction nms as [|[nm i] nms IH]; intros So; [reflexivity|]. inversion So as [|? ? So' F]; subst. unfold canon. cbn [flat_map fst snd assoc]. fold (canon ds nms).
  destruct (String.eqb_spec k nm) as [->|N].
  - destruct (find _ ds) as [d|]; cbn [app assoc option_map]; [rewrite String.eqb_refl; reflexivity|]. rewrite IH by exact So'. rewrite assoc_above by exact F. reflexivity.
  - destruct (find _ ds) as [d|]; cbn [app assoc]; [rewrite (proj2 (String.eqb_neq k nm) N)|]; apply IH; exact So'.
Qed.
Lemma names8_sorted : sorted_keys names8.
Proof. unfold names8. repeat (constructor; [|repeat (apply Forall_cons; [vm_compute; reflexivity|]); apply Forall_nil]). constructor. Qed.
Lemma dims_canon ds : Forall (fun d => known (fst d)) ds -> dims_map ds = canon ds names8.
Proof.
  intros K. destruct (dims_map_ok ds) as [S1 A1]. apply keys_ext; [exact S1|apply canon_sorted, names8_sorted|]. intros k. rewrite A1, (canon_assoc ds k names8 names8_sorted).
  destruct (assoc k names8) as [i|] eqn:E.
  - assert (I : In (k, i) names8). { revert E. generalize names8. induction l as [|[a b] l IH]; cbn [assoc]; [discriminate|]. destruct (String.eqb_spec k a) as [->|]; intros H; [left; congruence|right; auto]. }
    destruct (name8_of k i I) as [Nk Ki]. f_equal. apply find_id. intros d Hd. rewrite Forall_forall in K. split; [intros Ed; apply name_inj; [apply K; exact Hd|exact Ki|congruence]|intros ->; exact Nk].
  - replace (find _ ds) with (@None (Z * (Z * Z))); [reflexivity|]. symmetry. destruct (find _ ds) as [d|] eqn:G; [|reflexivity]. exfalso. apply find_some in G as [G1 G2]. apply String.eqb_eq in G2. subst k. rewrite Forall_forall in K. specialize (K d G1). apply known_name in K.
    revert K E. generalize names8. induction l as [|[a b] l IH]; cbn [assoc In]; [tauto|]. destruct (String.eqb_spec (xdim_name (fst d)) a); [discriminate|]. intros [H|H]; [congruence|auto].
Qed.

Lemma find_settings_none l : Forall (fun n => value n = "Attachment" -> has n "Name") l -> Forall (fun n => ~ hardware n) l -> forall cur, find_settings l cur = Val cur.
Proof.
  induction 1 as [|n l Hn Fn IH]; intros F cur; [reflexivity|]. inversion F as [|? ? Hh F']; subst. cbn [find_settings]. unfold named. destruct (String.eqb_spec (value n) "Attachment") as [E|]; [|apply IH; exact F'].
  destruct (Hn E) as [s Hs]. rewrite (need_ok n "Name" s Hs). cbn [obind]. destruct (String.eqb_spec s "HardwareSettingList") as [->|]; [|apply IH; exact F'].
  destruct (kids n) eqn:K; [apply IH; exact F'|]. exfalso. apply Hh. split; [exact E|]. split; [exact Hs|congruence].
Qed.
Lemma find_settings_some l1 a l2 : Forall (fun n => value n = "Attachment" -> has n "Name") (l1 ++ a :: l2) -> hardware a -> Forall (fun n => ~ hardware n) l2 -> forall cur, find_settings (l1 ++ a :: l2) cur = Val (Some a).
Proof.
  intros F Ha F2. induction l1 as [|n l1 IH]; intros cur; cbn [app] in *; inversion F as [|? ? Hn F']; subst; cbn [find_settings].
  - destruct Ha as [E [Hs K]]. unfold named. rewrite E. cbn [String.eqb]. rewrite (need_ok a "Name" _ Hs). cbn [obind]. destruct (kids a); [congruence|]. apply find_settings_none; assumption.
  - unfold named. destruct (String.eqb_spec (value n) "Attachment") as [E|]; [|apply IH; exact F']. destruct (Hn E) as [s Hs]. rewrite (need_ok n "Name" s Hs). cbn [obind]. apply IH. exact F'.
Qed.

Lemma app_nil_s s : (s ++ "")%string = s.
Proof. induction s as [|c s IH]; [reflexivity|]. cbn [append]. rewrite IH. reflexivity. Qed.
Lemma app_assoc_s a b c : (a ++ (b ++ c))%string = ((a ++ b) ++ c)%string.
Proof. induction a as [|x a IH]; [reflexivity|]. cbn [append]. rewrite IH. reflexivity. Qed.
Lemma concat_cons x l : String.concat "" (x :: l) = (x ++ String.concat "" l)%string.
Proof. destruct l; [cbn; rewrite app_nil_s; reflexivity|]. reflexivity. Qed.
Lemma concat_app a b : String.concat "" (a ++ b) = (String.concat "" a ++ String.concat "" b)%string.
Proof. induction a as [|x a IH]; [reflexivity|]. cbn [app]. rewrite !concat_cons, IH, app_assoc_s. reflexivity. Qed.
Lemma written_app s a b : written s (a ++ b) = (written s a ++ written s b)%string.
Proof. unfold written. rewrite filter_app, map_app, concat_app. reflexivity. Qed.
Lemma written_given {A} (f : A -> string) l : written Given (map (fun x => (Given, f x)) l) = String.concat "" (map f l) /\ written Cout (map (fun x => (Given, f x)) l) = "".
Proof. unfold written. induction l as [|x l [IH1 IH2]]; [split; reflexivity|]. cbn [map filter fst snd]. rewrite !concat_cons, IH1. split; [reflexivity|exact IH2]. Qed.
Lemma written_cout {A} (f : A -> string) l : written Cout (map (fun x => (Cout, f x)) l) = String.concat "" (map f l) /\ written Given (map (fun x => (Cout, f x)) l) = "".
Proof. unfold written. induction l as [|x l [IH1 IH2]]; [split; reflexivity|]. cbn [map filter fst snd]. rewrite !concat_cons, IH1. split; [reflexivity|exact IH2]. Qed.
Lemma canon_map ds nms : canon ds nms = map (fun ni => (fst ni, mkXdim (snd ni) (Some match lookup Z.eqb (snd ni) ds with Some n => fst n | None => 0%Z end) (Some match lookup Z.eqb (snd ni) ds with Some n => snd n | None => 0%Z end)))
  (filter (fun ni => match lookup Z.eqb (snd ni) ds with Some _ => true | None => false end) nms).
Proof.
  induction nms as [|[nm i] nms IH]; [reflexivity|]. unfold canon. cbn [flat_map filter fst snd]. fold (canon ds nms). rewrite IH. unfold lookup. destruct (find (fun d => Z.eqb (fst d) i) ds) as [[j v]|] eqn:E.
  - assert (j = i) by (apply find_some in E as [_ E]; apply Z.eqb_eq in E; exact E). subst j. cbn [option_map app map fst snd]. rewrite E. reflexivity.
  - reflexivity.
Qed.

Section C148.
  Variables (int_of ulong_of ull_of : string -> option Z) (hex_of : string -> list Z) (V : Type) (dbl : string -> V).
  Variables (zero one : V) (is0 : V -> bool) (div : V -> V -> V).
  Local Notation parse := (parse_serie int_of ulong_of ull_of hex_of).
  Local Notation describes := (describes int_of ulong_of ull_of hex_of).
  Lemma channel_ok n c : is_channel int_of n c -> channel_of int_of n = Val (mkChannel (Some (fst c)) (Some (snd c))).
  Proof.
    intros [H1 [H2 [[s3 H3] [[s4 H4] [s5 H5]]]]]. unfold channel_of. destruct (attr_elem n _ _ H3) as [t [l [k E]]].
    assert (X : exists o, query int_of "DataType" n None = Val o) by (subst n; unfold query, attribute; cbn [omap obind]; eexists; reflexivity). destruct X as [o ->]. cbn [obind].
    rewrite (query_ok _ _ _ _ None H1). cbn [obind]. rewrite (query_ok _ _ _ _ None H2). cbn [obind]. rewrite (need_ok _ _ _ H3). cbn [obind]. rewrite (need_ok _ _ _ H4). cbn [obind]. rewrite (need_ok _ _ _ H5). reflexivity.
  Qed.
  Lemma xdim_ok n d : is_dim int_of ull_of n d -> xdim_of int_of ull_of n = Val (xdim_of_text d).
  Proof. intros [H1 [H2 [H3 [s4 H4]]]]. unfold xdim_of. rewrite (query_ok _ _ _ _ None H1). cbn [obind]. rewrite (query_ok _ _ _ _ None H2). cbn [obind]. rewrite (need_ok _ _ _ H4). cbn [obind]. rewrite (query_ok _ _ _ _ None H3). reflexivity. Qed.
  Lemma setting_ok n s : is_setting n s -> setting_of n = Val s.
  Proof. intros [H1 [H2 [[s3 H3] [s4 H4]]]]. unfold setting_of. rewrite (need_ok _ _ _ H1). cbn [obind]. rewrite (need_ok _ _ _ H3). cbn [obind]. rewrite (need_ok _ _ _ H4). cbn [obind]. rewrite (need_ok _ _ _ H2). destruct s; reflexivity. Qed.
  Lemma old_ok l ts : Forall2 (is_stamp ulong_of) l ts -> forall hi lo, old_stamps ulong_of l hi lo = Val (map (fun hl => Some ((fst hl * 4294967296 + snd hl) / 10000)%Z) ts).
  Proof.
    induction 1 as [|n [h w] l ts [H1 [H2 [B1 B2]]] F IH]; intros hi lo; [reflexivity|]. cbn [old_stamps fst snd] in *. rewrite (query_ok _ _ _ _ hi H1). cbn [obind]. rewrite (query_ok _ _ _ _ lo H2). cbn [obind]. rewrite IH. cbn [omap obind map fst snd].
    rewrite Z.mod_small by lia. reflexivity.
  Qed.
  Lemma stamps_ok multi image ts : stamps int_of ulong_of hex_of multi image ts -> parse_stamps int_of ulong_of hex_of multi (first_child "TimeStampList" image) = Val (map Some ts).
  Proof.
    intros [H|l k t rest H [s [Hs Es]] Hk Hm Ht Hl|l ts' H Hno F].
    - rewrite first_child_none by exact H. reflexivity.
    - rewrite (first_child_ok _ _ _ H). unfold parse_stamps. rewrite (attribute_ok _ _ _ Hs). cbn [obind]. rewrite Es. cbv zeta.
      assert (E : (if multi then negb (k =? 0)%Z else true) = true) by (destruct multi; [|reflexivity]; destruct (Z.eqb_spec k 0); [exfalso; apply Hm; auto|reflexivity]). rewrite E.
      rewrite (proj2 (Z.ltb_ge k 0) Hk). unfold get_text. rewrite Ht. destruct (Nat.ltb_spec (Z.to_nat k) (length (hex_of t))) as [C|C]; [lia|]. rewrite map_app. do 2 f_equal. clear. induction (Z.to_nat k - length (hex_of t)) as [|m IH]; [reflexivity|]. cbn [repeat map]. rewrite IH. reflexivity.
    - rewrite (first_child_ok _ _ _ H). unfold parse_stamps. rewrite (attribute_no _ _ Hno). cbn [obind]. cbv zeta. replace (if multi then negb (0 =? 0)%Z else false) with false by (destruct multi; reflexivity). rewrite (old_ok _ _ F). rewrite map_map. reflexivity.
  Qed.
  Lemma settings_ok image ss : Forall (fun n => value n = "Attachment" -> has n "Name") (kids image) -> settings image ss -> obind (find_settings (kids image) None) parse_settings = Val (fold_left (fun m r => minsert (fst r) (snd r) m) ss []).
  Proof.
    intros F [H|l1 a l2 f rest s ss' E Ha H Ek Hs Fs].
    - rewrite find_settings_none by assumption. reflexivity.
    - rewrite E in *. rewrite (find_settings_some l1 a l2 F Ha H). cbn [obind parse_settings]. rewrite Ek, (first_child_ok _ _ _ Hs). unfold named. rewrite (osequence_f2 setting_of (fun x => x) is_setting setting_ok _ _ Fs). rewrite map_id. reflexivity.
  Qed.
  Definition header_text (d : serie_text) : header :=
    mkHeader (t_name d) (dims_map (t_dims d)) (map (fun c => mkChannel (Some (fst c)) (Some (snd c))) (t_channels d)) (map Some (t_stamps d)) (fold_left (fun m r => minsert (fst r) (snd r) m) (t_settings d) []).
  Lemma parse_ok multi n d : describes multi n d -> parse multi n = Val (header_text d).
  Proof.
    intros [Hn [data [image [desc [chs [dims [H1 [H2 [H3 [H4 [H5 [H6 [H7 [H8 [H9 H10]]]]]]]]]]]]]]]. unfold parse_serie. rewrite (need_ok _ _ _ Hn). cbn [obind]. rewrite (first_child_ok _ _ _ H1), (first_child_ok _ _ _ H2), (first_child_ok _ _ _ H3).
    unfold parse_description. rewrite (first_child_ok _ _ _ H4), (first_child_ok _ _ _ H5). rewrite (osequence_f2 _ _ _ channel_ok _ _ H6). cbn [obind]. rewrite (osequence_f2 _ _ _ xdim_ok _ _ H7). cbn [omap obind]. rewrite (stamps_ok _ _ _ H8). cbn [obind].
    assert (Se := settings_ok _ _ H9 H10). destruct (find_settings (kids image) None) as [f| |]; cbn [obind] in *; try discriminate. rewrite Se. reflexivity.
  Qed.
  (** What a program sees of a series whose header has the format: its name; the resolution and colour of each channel; the number of time steps, that of the first dimension T or else 1;
      the numbers of elements along X, Y and Z, in this order whatever the order in the file; the size of a voxel along each axis, 0 if it is missing; and the ratio of the sizes along Z and X, 1 if that along Z is missing or null. *)
  Theorem C148_getters multi n d : describes multi n d -> exists h, parse multi n = Val h /\ h_name h = t_name d /\ h_stamps h = map Some (t_stamps d) /\ length (h_channels h) = length (t_channels d) /\
    (forall c tag res, nth_error (t_channels d) c = Some (tag, res) -> resolution h c = Val res /\ exists ch, nth_error (h_channels h) c = Some ch /\ channel_name ch = Val (colour tag)) /\
    (forall c, length (t_channels d) <= c -> resolution h c = UB) /\
    time_steps h = Val (match lookup Z.eqb 4%Z (t_dims d) with Some n => fst n | None => 1%Z end) /\
    (Forall (fun x => (1 <= fst x <= 8)%Z) (t_dims d) -> spatial h = Val (flat_map (fun axis => match lookup Z.eqb axis (t_dims d) with Some n => [fst n] | None => [] end) [1; 2; 3]%Z)) /\
    let size axis := match lookup String.eqb (axis_key axis) (t_settings d) with Some s => dbl s | None => zero end in
    (forall axis, axis < 3 -> voxel_size V dbl zero h axis = Val (size axis)) /\ zx_ratio V dbl zero one is0 div h = Val (if is0 (size 2) then one else div (size 2) (size 0)).
  Proof.
    intros D. exists (header_text d). split; [apply parse_ok; exact D|]. split; [reflexivity|]. split; [reflexivity|]. split; [apply map_length|].
    assert (Vx : forall axis, axis < 3 -> voxel_size V dbl zero (header_text d) axis = Val match lookup String.eqb (axis_key axis) (t_settings d) with Some s => dbl s | None => zero end).
    { intros axis Ha. unfold voxel_size. destruct (mfold_ok (t_settings d) [] (SSorted_nil _)) as [_ A]. cbn [assoc] in A. destruct axis as [|[|[|axis]]]; [| | |lia]; cbn [voxel_key h_settings header_text]; rewrite A; reflexivity. }
    split; [|split; [|split; [|split; [|split]]]].
    - intros c tag res H. unfold resolution. cbn [h_channels header_text]. rewrite (map_nth_error _ c _ H). cbn [fst snd]. split; [reflexivity|]. eexists. split; [reflexivity|]. unfold channel_name. cbn [c_tag]. f_equal. unfold colour.
      destruct (Z.eqb_spec tag 0); [subst; reflexivity|]. destruct (Z.eqb_spec tag 1); [subst; reflexivity|]. destruct (Z.eqb_spec tag 2); [subst; reflexivity|]. destruct (Z.eqb_spec tag 3); [subst; reflexivity|]. destruct tag as [|p|p]; [congruence| |reflexivity]. do 2 (destruct p as [p|p|]; try reflexivity; try congruence).
    - intros c H. unfold resolution. cbn [h_channels header_text]. rewrite (proj2 (nth_error_None _ c)) by (rewrite map_length; exact H). reflexivity.
    - unfold time_steps. cbn [h_dims header_text]. destruct (dims_map_ok (t_dims d)) as [_ A]. rewrite A. rewrite (find_id 4 (t_dims d) "T") by (intros x _; apply name_T). unfold lookup. destruct (find _ (t_dims d)) as [[i [a b]]|]; reflexivity.
    - intros K. unfold spatial. cbn [h_dims header_text]. rewrite (dims_canon _ K). clear D.
      assert (Lk : forall axis, lookup Z.eqb axis (t_dims d) = option_map snd (find (fun x => Z.eqb (fst x) axis) (t_dims d))) by (intros; reflexivity). cbn [flat_map]. rewrite !Lk.
      assert (Id : forall i x, find (fun x => Z.eqb (fst x) i) (t_dims d) = Some x -> fst x = i) by (intros i x H; apply find_some in H as [_ H]; apply Z.eqb_eq in H; exact H).
      unfold canon, names8. cbn [flat_map fst snd].
      destruct (find (fun x => Z.eqb (fst x) 5%Z) (t_dims d)) as [x5|] eqn:E5; destruct (find (fun x => Z.eqb (fst x) 6%Z) (t_dims d)) as [x6|] eqn:E6; destruct (find (fun x => Z.eqb (fst x) 4%Z) (t_dims d)) as [x4|] eqn:E4; destruct (find (fun x => Z.eqb (fst x) 8%Z) (t_dims d)) as [x8|] eqn:E8;
      destruct (find (fun x => Z.eqb (fst x) 1%Z) (t_dims d)) as [x1|] eqn:E1; destruct (find (fun x => Z.eqb (fst x) 7%Z) (t_dims d)) as [x7|] eqn:E7; destruct (find (fun x => Z.eqb (fst x) 2%Z) (t_dims d)) as [x2|] eqn:E2; destruct (find (fun x => Z.eqb (fst x) 3%Z) (t_dims d)) as [x3|] eqn:E3;
      repeat match goal with H : find _ _ = Some ?x |- _ => apply Id in H; destruct x as [? ?]; cbn [fst] in H; subst end; reflexivity.
    - exact Vx.
    - unfold zx_ratio. rewrite (Vx 0) by lia. cbn [obind]. rewrite (Vx 2) by lia. reflexivity.
  Qed.

  (** * What is not checked *)
  (** A text or a comment instead of an element, or an element without an attribute the program reads as a string *)
  Definition bad (n : node) (names : list string) : Prop := (forall t l k, n <> Element t l k) \/ exists a, In a names /\ no_attr n a.
  Lemma attribute_total n a : (exists o, attribute a n = Val o) \/ attribute a n = UB.
  Proof. destruct n; [left; eexists; reflexivity|right; reflexivity|right; reflexivity]. Qed.
  Lemma query_total (p : string -> option Z) n a old : (exists o, query p a n old = Val o) \/ query p a n old = UB.
  Proof. unfold query. destruct (attribute_total n a) as [[o ->]| ->]; [left; eexists; reflexivity|right; reflexivity]. Qed.
  Lemma need_total n a : (exists o, need a n = Val o) \/ need a n = UB.
  Proof. unfold need. destruct (attribute_total n a) as [[[o|] ->]| ->]; [left; eexists; reflexivity|right; reflexivity|right; reflexivity]. Qed.
  Lemma need_bad n a names : bad n names -> In a names -> (exists t l k, n = Element t l k) -> (exists b, In b names /\ need b n = UB).
  Proof. intros [H|[b [Hb Hn]]] _ [t [l [k E]]]; [exfalso; exact (H t l k E)|]. exists b. split; [exact Hb|]. unfold need. rewrite (attribute_no n b Hn). reflexivity. Qed.
  Ltac walk := repeat (cbn [obind omap];
    match goal with
    | |- context [query ?p ?a ?n ?o] => let v := fresh in destruct (query_total p n a o) as [[v ->]| ->]; [|cbn [obind omap]; auto; fail]
    | |- context [need ?a ?n] => let v := fresh in let E := fresh in destruct (need_total n a) as [[v E]|E]; rewrite E; [|cbn [obind omap]; auto; fail]
    end).
  Lemma channel_total n : (exists c, channel_of int_of n = Val c) \/ channel_of int_of n = UB.
  Proof. unfold channel_of. walk. left. eexists. reflexivity. Qed.
  Lemma xdim_total n : (exists c, xdim_of int_of ull_of n = Val c) \/ xdim_of int_of ull_of n = UB.
  Proof. unfold xdim_of. walk. destruct H; [left; eexists; reflexivity|right; reflexivity]. Qed.
  Lemma setting_total n : (exists c, setting_of n = Val c) \/ setting_of n = UB.
  Proof. unfold setting_of. walk. left. eexists. reflexivity. Qed.
  Lemma channel_bad n : bad n ["NameOfMeasuredQuantity"; "Unit"; "LUTName"] -> channel_of int_of n = UB.
  Proof.
    intros H. destruct n as [t l k|s|s]; [|reflexivity|reflexivity]. destruct (need_bad _ "Unit" _ H) as [b [Hb E]]; [cbn; tauto|eauto|]. unfold channel_of. walk.
    exfalso. cbn [In] in Hb. destruct Hb as [<-|[<-|[<-|[]]]]; congruence.
  Qed.
  Lemma xdim_bad n : bad n ["Unit"] \/ (exists s, attr n "DimID" s /\ int_of s = None) \/ no_attr n "DimID" -> xdim_of int_of ull_of n = UB.
  Proof.
    intros [H|H].
    - destruct n as [t l k|s|s]; [|reflexivity|reflexivity]. destruct (need_bad _ "Unit" _ H) as [b [Hb E]]; [cbn; tauto|eauto|]. destruct Hb as [<-|[]]. unfold xdim_of. walk. exfalso. congruence.
    - assert (Q : query int_of "DimID" n None = Val None) by (unfold query; destruct H as [[s [H E]]|H]; [rewrite (attribute_ok _ _ _ H); cbn [omap obind]; rewrite E|rewrite (attribute_no _ _ H)]; reflexivity).
      unfold xdim_of. rewrite Q. walk. reflexivity.
  Qed.
  Lemma osequence_total {A B} (f : A -> outcome B) l : (forall a, (exists b, f a = Val b) \/ f a = UB) -> (exists bs, osequence (map f l) = Val bs) \/ osequence (map f l) = UB.
  Proof. intros H. induction l as [|a l IH]; [left; eexists; reflexivity|]. cbn [map osequence]. destruct (H a) as [[b ->]| ->]; cbn [obind]; [|right; reflexivity]. destruct IH as [[bs ->]| ->]; [left; eexists; reflexivity|right; reflexivity]. Qed.
  Lemma osequence_ub {A B} (f : A -> outcome B) l : (forall a, (exists b, f a = Val b) \/ f a = UB) -> (exists a, In a l /\ f a = UB) -> osequence (map f l) = UB.
  Proof.
    intros H [x [Hx Ex]]. induction l as [|a l IH]; [destruct Hx|]. cbn [map osequence]. destruct Hx as [->|Hx]; [rewrite Ex; reflexivity|]. destruct (H a) as [[b ->]| ->]; cbn [obind]; [|reflexivity]. rewrite IH by exact Hx. reflexivity.
  Qed.
  Lemma description_total n : (exists c, parse_description int_of ull_of n = Val c) \/ parse_description int_of ull_of n = UB.
  Proof.
    unfold parse_description. destruct (first_child "Channels" n) as [c|]; [|left; eexists; reflexivity]. destruct (first_child "Dimensions" n) as [m|]; [|left; eexists; reflexivity].
    destruct (osequence_total (channel_of int_of) (kids c) channel_total) as [[cs ->]| ->]; [|right; reflexivity]. cbn [obind]. destruct (osequence_total (xdim_of int_of ull_of) (kids m) xdim_total) as [[ds ->]| ->]; [left; eexists; reflexivity|right; reflexivity].
  Qed.
  (** Undefined behaviour: a series without name or without data; a comment between the channels or the dimensions, or one of them without some attribute (a dimension without a number as DimID); more time stamps than announced, or none at all although some number is. *)
  Theorem C148_undefined multi n :
    (no_attr n "Name" -> parse multi n = UB) /\ (forall s, attr n "Name" s -> none_of n "Data" -> parse multi n = UB) /\
    (forall s data image, attr n "Name" s -> first_of n "Data" data -> first_of data "Image" image ->
      (forall desc chs dims, first_of image "ImageDescription" desc -> first_of desc "Channels" chs -> first_of desc "Dimensions" dims ->
        (Exists (fun x => bad x ["NameOfMeasuredQuantity"; "Unit"; "LUTName"]) (kids chs) \/ Exists (fun x => bad x ["Unit"] \/ (exists s, attr x "DimID" s /\ int_of s = None) \/ no_attr x "DimID") (kids dims)) -> parse multi n = UB) /\
      (forall l k, first_of image "TimeStampList" l -> num int_of l "NumberOfTimeStamps" k -> (0 < k)%Z ->
        (exists t rest, kids l = Text t :: rest /\ (k < Z.of_nat (length (hex_of t)))%Z) \/ kids l = [] -> parse multi n = UB)).
  Proof.
    split; [intros H; unfold parse_serie, need; rewrite (attribute_no _ _ H); reflexivity|]. split; [intros s Hs H; unfold parse_serie; rewrite (need_ok _ _ _ Hs); cbn [obind]; rewrite (first_child_none _ _ H); reflexivity|].
    intros s data image Hs H1 H2. unfold parse_serie. rewrite (need_ok _ _ _ Hs). cbn [obind]. rewrite (first_child_ok _ _ _ H1), (first_child_ok _ _ _ H2). split.
    - intros desc chs dims H3 H4 H5 B. rewrite (first_child_ok _ _ _ H3). assert (P : parse_description int_of ull_of desc = UB); [|rewrite P; reflexivity].
      unfold parse_description. rewrite (first_child_ok _ _ _ H4), (first_child_ok _ _ _ H5). destruct B as [B|B]; apply Exists_exists in B as [x [Hx Bx]].
      + rewrite (osequence_ub _ _ channel_total); [reflexivity|]. exists x. split; [exact Hx|apply channel_bad; exact Bx].
      + rewrite (osequence_ub (xdim_of int_of ull_of) _ xdim_total); [|exists x; split; [exact Hx|apply xdim_bad; exact Bx]]. destruct (osequence_total (channel_of int_of) (kids chs) channel_total) as [[cs ->]| ->]; reflexivity.
    - intros l k H3 [a [Ha Ea]] Hk B. assert (P : parse_stamps int_of ulong_of hex_of multi (first_child "TimeStampList" image) = UB).
      { rewrite (first_child_ok _ _ _ H3). unfold parse_stamps. rewrite (attribute_ok _ _ _ Ha). cbn [obind]. rewrite Ea. cbv zeta. replace (if multi then negb (k =? 0)%Z else true) with true by (destruct multi; [|reflexivity]; destruct (Z.eqb_spec k 0); [lia|reflexivity]).
        rewrite (proj2 (Z.ltb_ge k 0)) by lia. unfold get_text. destruct B as [[t [rest [E C]]]|E]; rewrite E; [|reflexivity]. destruct (Nat.ltb_spec (Z.to_nat k) (length (hex_of t))); [reflexivity|lia]. }
      rewrite P. destruct (first_child "ImageDescription" image) as [desc|]; [destruct (description_total desc) as [[c ->]| ->]|]; reflexivity.
  Qed.
  (** The list of the series: the elements of that name under Children of the first element, in this order, without those named BleachPointROISet.  Without a first element, without Children or when it is empty the constructor throws. *)
  Theorem C148_series multi root v name e c sel hs : num int_of root "Version" v -> (exists l1 l2, kids root = l1 ++ e :: l2 /\ (exists t l k, e = Element t l k) /\ Forall (fun x => forall t l k, x <> Element t l k) l1) ->
    attr e "Name" name -> first_of e "Children" c -> kids c <> [] -> kept (kids c) sel -> Forall2 (fun x h => parse multi x = Val h) sel hs ->
    parse_header int_of ulong_of ull_of hex_of multi (Some root) = Val (Some v, name, hs).
  Proof.
    intros Hv [l1 [l2 [El [[t [la [k ->]]] F1]]]] Hname Hc Kc Fn F. unfold parse_header. rewrite (query_ok int_of root "Version" v None Hv). cbn [obind].
    assert (Fd : find (fun n => match n with Element _ _ _ => true | _ => false end) (kids root) = Some (Element t la k)).
    { rewrite El. clear - F1. induction F1 as [|x l1 Hx F IH]; [reflexivity|]. cbn [app find]. destruct x; [exfalso; eapply Hx; reflexivity|exact IH|exact IH]. }
    rewrite Fd, (need_ok _ _ _ Hname). cbn [obind]. rewrite (first_child_ok _ _ _ Hc). destruct (kids c) as [|x0 xs] eqn:Ec; [congruence|]. rewrite <- Ec in *. clear Ec x0 xs Kc El Fd F1 Hc.
    match goal with |- omap _ ?X = _ => assert (E : exists hss, X = Val hss /\ List.concat hss = hs); [|destruct E as [hss [-> <-]]; reflexivity] end.
    revert hs F. induction Fn as [|x l l' Hx Fn IH|x l l' Ex Hs Fn IH|x s l l' Ex Hs Ns Fn IH]; intros hs F; cbn [filter map].
    - inversion F; subst. exists []. split; reflexivity.
    - unfold named at 1. rewrite (proj2 (String.eqb_neq _ _) Hx). apply IH. exact F.
    - unfold named at 1. rewrite Ex. match goal with |- context [if ?b then x :: _ else _] => change b with true end. cbn [map osequence]. rewrite (need_ok _ _ _ Hs). cbn [obind]. destruct (IH hs F) as [hss [E1 E2]]. exists ([] :: hss). split; [|exact E2].
      change (omap (cons []) (osequence (map (fun n => obind (need "Name" n) (fun s => if String.eqb s "BleachPointROISet" then Val [] else omap (fun h => [h]) (parse multi n))) (filter (named "Element") l))) = Val ([] :: hss)). rewrite E1. reflexivity.
    - inversion F as [|? h ? hs' Hh F']; subst. destruct (IH hs' F') as [hss [E1 E2]]. exists ([h] :: hss). split; [|cbn [List.concat app]; rewrite E2; reflexivity].
      unfold named at 1. rewrite Ex. match goal with |- context [if ?b then x :: _ else _] => change b with true end. cbn [map osequence]. rewrite (need_ok _ _ _ Hs). cbn [obind]. rewrite (proj2 (String.eqb_neq _ _) Ns), Hh. cbn [omap obind]. rewrite E1. reflexivity.
  Qed.
  Theorem C148_no_series multi root : (exists t l k, root = Element t l k) ->
    (Forall (fun x => forall t l k, x <> Element t l k) (kids root) -> parse_header int_of ulong_of ull_of hex_of multi (Some root) = Throw) /\
    (forall e l1 l2 name, kids root = l1 ++ e :: l2 -> (exists t l k, e = Element t l k) -> Forall (fun x => forall t l k, x <> Element t l k) l1 -> attr e "Name" name ->
      none_of e "Children" \/ (exists c, first_of e "Children" c /\ kids c = []) -> parse_header int_of ulong_of ull_of hex_of multi (Some root) = Throw).
  Proof.
    intros [t [l [k ->]]]. unfold parse_header. assert (X : exists o, query int_of "Version" (Element t l k) None = Val o) by (unfold query, attribute; cbn [omap obind]; eexists; reflexivity). destruct X as [o ->]. cbn [obind]. split.
    - intros F. replace (find _ _) with (@None node); [reflexivity|]. symmetry. induction F as [|x xs Hx F IH]; [reflexivity|]. cbn [find]. destruct x; [exfalso; eapply Hx; reflexivity|exact IH|exact IH].
    - intros e l1 l2 name El [te [le [ke ->]]] F1 Hn B.
      assert (Fd : find (fun n => match n with Element _ _ _ => true | _ => false end) (kids (Element t l k)) = Some (Element te le ke)).
      { rewrite El. clear - F1. induction F1 as [|x l1 Hx F IH]; [reflexivity|]. cbn [app find]. destruct x; [exfalso; eapply Hx; reflexivity|exact IH|exact IH]. }
      rewrite Fd, (need_ok _ _ _ Hn). cbn [obind]. destruct B as [B|[c [Hc Kc]]]; [rewrite (first_child_none _ _ B); reflexivity|]. rewrite (first_child_ok _ _ _ Hc), Kc. reflexivity.
  Qed.

  (** Printing a series to a stream.  The sizes of the voxels always go to the standard output; the stream given gets everything else. *)
  Variables (show_nat : nat -> string) (show_int : Z -> string) (show_nm : V -> string).
  Local Notation tabs s := (s ++ String (Ascii.ascii_of_nat 9) "")%string.
  Local Notation ends s := (s ++ String (Ascii.ascii_of_nat 10) "")%string.
  Theorem C148_print multi n d : describes multi n d -> Forall (fun x => (1 <= fst x <= 8)%Z) (t_dims d) -> exists h ev, parse multi n = Val h /\ print_serie V dbl zero show_nat show_int show_nm h = Val ev /\
    let present := filter (fun ni => match lookup Z.eqb (snd ni) (t_dims d) with Some _ => true | None => false end) names8 in
    written Given ev = (tabs (t_name d ++ ":") ++ tabs (show_nat (length present) ++ " dimensions")
      ++ String.concat "" (map (fun ni => (fst ni ++ " " ++ show_int (match lookup Z.eqb (snd ni) (t_dims d) with Some n => fst n | None => 0%Z end) ++ ", ")%string) present)
      ++ ends "" ++ tabs "" ++ tabs "Voxel sizes (nm)" ++ ends "" ++ String.concat "" (map (fun c => tabs (colour (fst c))) (t_channels d)))%string /\
    written Cout ev = String.concat "" (map (fun ni => tabs (show_nm (match lookup String.eqb (axis_key (Z.to_nat (snd ni - 1))) (t_settings d) with Some s => dbl s | None => zero end))) (filter (fun ni => (snd ni <? 4)%Z) present)).
  Proof.
    intros D K. exists (header_text d). rewrite (parse_ok multi n d D). unfold print_serie. cbn [h_dims h_name h_channels header_text]. rewrite (dims_canon _ K), canon_map.
    set (present := filter (fun ni => match lookup Z.eqb (snd ni) (t_dims d) with Some _ => true | None => false end) names8).
    assert (In8 : forall ni, In ni present -> xdim_name (snd ni) = fst ni /\ known (snd ni)) by (intros [nm i] H; apply filter_In in H as [H _]; exact (name8_of nm i H)).
    rewrite map_map. rewrite (osequence_map_ok _ (fun ni => (Given, (fst ni ++ " " ++ show_int (match lookup Z.eqb (snd ni) (t_dims d) with Some n => fst n | None => 0%Z end) ++ ", ")%string))) by (intros ni H; cbn [snd x_n x_id]; rewrite (proj1 (In8 ni H)); reflexivity). cbn [obind].
    assert (Fl : forall (f : string * Z -> string * xdim) l, (forall ni, x_id (snd (f ni)) = snd ni) -> filter (fun kx => (x_id (snd kx) <? 4)%Z) (map f l) = map f (filter (fun ni => (snd ni <? 4)%Z) l)).
    { clear. intros f l H. induction l as [|x l IH]; [reflexivity|]. cbn [map filter]. rewrite H, IH. destruct (snd x <? 4)%Z; reflexivity. }
    rewrite Fl by reflexivity. rewrite map_map.
    rewrite (osequence_map_ok _ (fun ni => (Cout, (show_nm (match lookup String.eqb (axis_key (Z.to_nat (snd ni - 1))) (t_settings d) with Some s => dbl s | None => zero end) ++ tab1)%string))).
    - cbn [obind]. rewrite map_map. rewrite (osequence_map_ok _ (fun c => colour (fst c))).
      + cbn [omap obind]. eexists. split; [reflexivity|]. split; [reflexivity|]. cbv zeta. rewrite map_length, (map_map (fun c : Z * Z => colour (fst c))). rewrite !written_app.
        rewrite (proj1 (written_given _ present)), (proj2 (written_given _ present)), (proj1 (written_given _ (t_channels d))), (proj2 (written_given _ (t_channels d))), (proj1 (written_cout _ (filter _ present))), (proj2 (written_cout _ (filter _ present))).
        split.
        * unfold written, tab1, line1. cbn [map filter fst snd]. rewrite !concat_cons. cbn [String.concat append]. rewrite !app_nil_s. do 4 (rewrite <- ?app_assoc_s; cbn [append]). reflexivity.
        * unfold written. cbn [map filter fst snd String.concat append]. rewrite !app_nil_s. reflexivity.
      + intros [tag res] _. unfold channel_name. cbn [c_tag fst snd]. f_equal. unfold colour.
        destruct (Z.eqb_spec tag 0); [subst; reflexivity|]. destruct (Z.eqb_spec tag 1); [subst; reflexivity|]. destruct (Z.eqb_spec tag 2); [subst; reflexivity|]. destruct (Z.eqb_spec tag 3); [subst; reflexivity|]. destruct tag as [|p|p]; [congruence| |reflexivity]. do 2 (destruct p as [p|p|]; try reflexivity; try congruence).
    - intros ni H. apply filter_In in H as [H H4]. apply Z.ltb_lt in H4. destruct (In8 ni H) as [_ Kn]. unfold known in Kn. cbn [snd x_id]. rewrite (proj2 (Z.ltb_ge (snd ni) 1)) by lia.
      destruct (C148_getters multi n d D) as [h' [P [_ [_ [_ [_ [_ [_ [_ [Vx _]]]]]]]]]]. rewrite (parse_ok multi n d D) in P. assert (h' = header_text d) by congruence. subst h'. rewrite Vx by lia. reflexivity.
  Qed.
End C148.

(** * A header *)
Require Import DecimalString.
Definition int10 (s : string) : option Z := match NilZero.int_of_string s with Some i => Some (Z.of_int i) | None => None end.
Definition words_hex (s : string) : list Z := match s with "C350 186A0" => [50000; 100000]%Z | "C350" => [50000]%Z | _ => [] end.
Definition channel_node (tag : string) : node := Element "ChannelDescription" [("DataType", "0"); ("ChannelTag", tag); ("Resolution", "8"); ("NameOfMeasuredQuantity", ""); ("Unit", ""); ("LUTName", "Gray")] [].
Definition dim_node (id n inc : string) : node := Element "DimensionDescription" [("DimID", id); ("NumberOfElements", n); ("Unit", "m"); ("BytesInc", inc)] [].
Definition record_node (i v : string) : node := Element "ScannerSettingRecord" [("Identifier", i); ("Unit", ""); ("Description", ""); ("Variant", v)] [].
Definition image_node (chs more recs : list node) : node :=
  Element "Image" [] ([Element "ImageDescription" [] [Element "Channels" [] chs; Element "Dimensions" [] [dim_node "3" "20" "4096"; dim_node "1" "64" "1"; dim_node "2" "64" "64"; dim_node "4" "10" "81920"]]] ++ more
    ++ [Comment "settings"; Element "Attachment" [("Name", "HardwareSettingList")] [Element "HardwareSetting" [] [Element "ScannerSetting" [] recs]]; Element "Attachment" [("Name", "HardwareSettingList")] []]).
Definition serie_node (chs more recs : list node) : node := Element "Element" [("Name", "Series012")] [Element "Data" [] [image_node chs more recs]].
Definition new_stamps : node := Element "TimeStampList" [("NumberOfTimeStamps", "3")] [Text "C350 186A0"].
Definition many_stamps : node := Element "TimeStampList" [("NumberOfTimeStamps", "1")] [Text "C350 186A0"].
Definition old_stamps2 : node := Element "TimeStampList" [] [Element "TimeStamp" [("HighInteger", "0"); ("LowInteger", "50000")] []; Element "TimeStamp" [("HighInteger", "0"); ("LowInteger", "100000")] []].
Definition recs2 : list node := [record_node "dblVoxelX" "1"; record_node "dblVoxelZ" "3"; record_node "dblVoxelZ" "5"].
Definition parse10 := parse_serie int10 int10 int10 words_hex.
Definition text12 (ts : list Z) : serie_text := mkSerieText "Series012" [(0, 8)]%Z [(3, (20, 4096)); (1, (64, 1)); (2, (64, 64)); (4, (10, 81920))]%Z ts [("dblVoxelX", "1"); ("dblVoxelZ", "3"); ("dblVoxelZ", "5")].
Lemma attr_here t a v l k : attr (Element t ((a, v) :: l) k) a v.
Proof. exists t, [], l, k. split; [reflexivity|intros []]. Qed.
Lemma attr_later t a v b w l k : a <> b -> attr (Element t l k) a v -> attr (Element t ((b, w) :: l) k) a v.
Proof. intros N [t' [l1 [l2 [k' [E H]]]]]. assert (t = t' /\ l = l1 ++ (a, v) :: l2 /\ k = k') as [<- [-> <-]] by (split; [congruence|split; congruence]). exists t, ((b, w) :: l1), l2, k. split; [reflexivity|]. cbn [map fst In]. intros [H1|H1]; [congruence|exact (H H1)]. Qed.
Ltac at_ := repeat (first [apply attr_here|apply attr_later; [discriminate|]]).
Ltac num_ := eexists; split; [at_|reflexivity].
Ltac has_ := eexists; at_.
Lemma first_here n tag c l : kids n = c :: l -> value c = tag -> first_of n tag c.
Proof. intros E V. exists [], l. split; [exact E|]. split; [exact V|constructor]. Qed.
Lemma described multi ts more : stamps int10 int10 words_hex multi (image_node [channel_node "0"] more recs2) ts -> (forall n, In n more -> value n = "TimeStampList") -> describes int10 int10 int10 words_hex multi (serie_node [channel_node "0"] more recs2) (text12 ts).
Proof.
  intros St Hm. split; [apply attr_here|]. do 5 eexists. split; [apply first_here with (l := []); reflexivity|]. split; [apply first_here with (l := []); reflexivity|]. split; [eapply first_here; reflexivity|]. split; [eapply first_here; reflexivity|]. split.
  - eexists [_], []. split; [reflexivity|]. split; [reflexivity|]. apply Forall_cons; [discriminate|constructor].
  - split; [constructor; [|constructor]; split; [num_|split; [num_|split; [has_|split; has_]]]|]. split.
    + unfold text12, t_dims. repeat (constructor; [split; [num_|split; [num_|split; [num_|has_]]]|]). constructor.
    + split; [exact St|]. assert (K : kids (image_node [channel_node "0"] more recs2) = (match kids (image_node [channel_node "0"] [] recs2) with x :: _ => [x] | [] => [] end ++ more ++ [Comment "settings"]) ++ Element "Attachment" [("Name", "HardwareSettingList")] [Element "HardwareSetting" [] [Element "ScannerSetting" [] recs2]] :: [Element "Attachment" [("Name", "HardwareSettingList")] []]).
      { cbn [kids image_node app]. rewrite <- !app_assoc. reflexivity. }
      split.
      * rewrite K. apply Forall_forall. intros n H E. apply in_app_or in H as [H|[<-|[<-|[]]]]; [|has_|has_]. apply in_app_or in H as [[<-|[]]|H]; [discriminate|]. apply in_app_or in H as [H|[<-|[]]]; [rewrite (Hm n H) in E; discriminate|discriminate].
      * eapply (Settings_some _ _ _ _ _ _ _ _ K); [split; [reflexivity|split; [at_|discriminate]]| |reflexivity|eapply first_here; reflexivity|].
        -- apply Forall_cons; [|constructor]. intros [_ [_ H]]. apply H. reflexivity.
        -- cbn [filter recs2 kids value record_node String.eqb]. repeat (constructor; [split; [at_|split; [at_|split; has_]]|]). constructor.
Qed.
(** It has the format, with time stamps of either kind or none. *)
Example C148_case : describes int10 int10 int10 words_hex false (serie_node [channel_node "0"] [] recs2) (text12 []) /\ describes int10 int10 int10 words_hex false (serie_node [channel_node "0"] [new_stamps] recs2) (text12 [50000; 100000; 0]%Z)
  /\ describes int10 int10 int10 words_hex false (serie_node [channel_node "0"] [old_stamps2] recs2) (text12 [5; 10]%Z)
  /\ exists h, parse10 false (serie_node [channel_node "0"] [new_stamps] recs2) = Val h /\ spatial h = Val [64; 64; 20]%Z /\ time_steps h = Val 10%Z.
Proof.
  assert (Fst : forall l, value l = "TimeStampList" -> first_of (image_node [channel_node "0"] [l] recs2) "TimeStampList" l).
  { intros l E. eexists [_], _. split; [reflexivity|]. split; [exact E|]. apply Forall_cons; [discriminate|constructor]. }
  split; [|split; [|split]].
  - apply described; [|intros n []]. apply Stamps_none. unfold none_of. cbn [kids image_node app]. repeat (apply Forall_cons; [discriminate|]). constructor.
  - apply described; [|intros n [<-|[]]; reflexivity]. apply (Stamps_new int10 int10 words_hex false _ new_stamps 3 "C350 186A0" []); [apply Fst; reflexivity|num_|lia|discriminate|reflexivity|cbn; lia].
  - apply described; [|intros n [<-|[]]; reflexivity]. apply (Stamps_old int10 int10 words_hex false _ old_stamps2 [(0, 50000); (0, 100000)]%Z); [apply Fst; reflexivity|exists "TimeStampList", [], (kids old_stamps2); split; [reflexivity|intros []]|].
    constructor; [|constructor; [|constructor]]; (split; [num_|split; [num_|cbn [fst snd]; lia]]).
  - eexists. split; [vm_compute; reflexivity|]. split; vm_compute; reflexivity.
Qed.
(** A file with a series and a region to bleach *)
Definition root_node : node := Element "LMSDataContainerHeader" [("Version", "2")] [Comment "made by hand"; Element "Element" [("Name", "sample.lif")] [Element "Children" [] [serie_node [channel_node "0"] [] recs2; Comment "end"; Element "Element" [("Name", "BleachPointROISet")] []]]].
Example C148_series_case : exists h, parse_header int10 int10 int10 words_hex false (Some root_node) = Val (Some 2%Z, "sample.lif", [h]) /\ h_name h = "Series012".
Proof.
  destruct (C148_getters int10 int10 int10 words_hex Z (fun _ => 0%Z) 0%Z 1%Z (Z.eqb 0) Z.div false _ _ (proj1 C148_case)) as [h [E [Hn _]]]. exists h. split; [|exact Hn].
  apply (C148_series int10 int10 int10 words_hex false root_node 2%Z "sample.lif" (Element "Element" [("Name", "sample.lif")] [Element "Children" [] [serie_node [channel_node "0"] [] recs2; Comment "end"; Element "Element" [("Name", "BleachPointROISet")] []]])
    (Element "Children" [] [serie_node [channel_node "0"] [] recs2; Comment "end"; Element "Element" [("Name", "BleachPointROISet")] []]) [serie_node [channel_node "0"] [] recs2] [h]).
  - num_.
  - exists [Comment "made by hand"], []. split; [reflexivity|]. split; [do 3 eexists; reflexivity|]. apply Forall_cons; [discriminate|constructor].
  - at_.
  - eapply first_here; reflexivity.
  - discriminate.
  - apply (Kept_serie _ "Series012"); [reflexivity|at_|discriminate|]. apply Kept_other; [discriminate|]. apply Kept_bleach; [reflexivity|at_|constructor].
  - constructor; [exact E|constructor].
Qed.
(** The same instants do not give the same time stamps in the two formats: the new one is not converted to ms.  A comment between the channels, or more time stamps than announced, is undefined behaviour. *)
Theorem C148_units_refuted : exists old new ho hn, parse10 false (serie_node [channel_node "0"] [old] recs2) = Val ho /\ parse10 false (serie_node [channel_node "0"] [new] recs2) = Val hn /\
  (exists l r rest, old = Element "TimeStampList" [] l /\ Forall2 (fun n lo => num int10 n "HighInteger" 0 /\ num int10 n "LowInteger" lo) l r /\ kids new = [Text rest] /\ words_hex rest = r) /\ h_stamps ho = [Some 5; Some 10]%Z /\ h_stamps hn = [Some 50000; Some 100000]%Z.
Proof.
  exists old_stamps2, (Element "TimeStampList" [("NumberOfTimeStamps", "2")] [Text "C350 186A0"]). eexists. eexists. split; [vm_compute; reflexivity|]. split; [vm_compute; reflexivity|]. split; [|split; reflexivity].
  exists (kids old_stamps2), [50000; 100000]%Z, "C350 186A0". split; [reflexivity|]. split; [|split; reflexivity]. constructor; [|constructor; [|constructor]]; (split; num_).
Qed.
(** A time stamp without a half takes silently the half of the one before. *)
Theorem C148_half_refuted : exists l h, first_of (image_node [channel_node "0"] [l] recs2) "TimeStampList" l /\ (exists a b, kids l = [a; b] /\ num int10 a "HighInteger" 0 /\ num int10 a "LowInteger" 50000 /\ num int10 b "HighInteger" 1 /\ no_attr b "LowInteger")%Z /\
  parse10 false (serie_node [channel_node "0"] [l] recs2) = Val h /\ h_stamps h = [Some 5; Some ((1 * 4294967296 + 50000) / 10000)]%Z.
Proof.
  exists (Element "TimeStampList" [] [Element "TimeStamp" [("HighInteger", "0"); ("LowInteger", "50000")] []; Element "TimeStamp" [("HighInteger", "1")] []]). eexists. split; [|split; [|split; vm_compute; reflexivity]].
  - eexists [_], _. split; [reflexivity|]. split; [reflexivity|]. apply Forall_cons; [discriminate|constructor].
  - do 2 eexists. split; [reflexivity|]. split; [num_|]. split; [num_|]. split; [num_|]. do 3 eexists. split; [reflexivity|]. intros [H|[]]; discriminate.
Qed.
Theorem C148_comment_refuted : parse10 false (serie_node [channel_node "0"] [] recs2) <> UB /\ parse10 false (serie_node [channel_node "0"; Comment "red is off"] [] recs2) = UB /\ parse10 false (serie_node [channel_node "0"] [many_stamps] recs2) = UB.
Proof. split; [vm_compute; discriminate|]. split; vm_compute; reflexivity. Qed.
(** Series that differ in the sizes of their voxels only are printed the same way to a file: the sizes go to the standard output. *)
Definition print10 (h : header) := print_serie Z (fun s => match int10 s with Some z => z | None => 0%Z end) 0%Z (fun n => NilZero.string_of_uint (Nat.to_uint n)) (fun z => NilZero.string_of_int (Z.to_int z)) (fun z => NilZero.string_of_int (Z.to_int z)) h.
Theorem C148_print_refuted : exists r r' h h' ev ev', parse10 false (serie_node [channel_node "0"; channel_node "2"] [] r) = Val h /\ parse10 false (serie_node [channel_node "0"; channel_node "2"] [] r') = Val h' /\ print10 h = Val ev /\ print10 h' = Val ev' /\
  voxel_size Z (fun s => match int10 s with Some z => z | None => 0%Z end) 0%Z h 0 = Val 1%Z /\ voxel_size Z (fun s => match int10 s with Some z => z | None => 0%Z end) 0%Z h' 0 = Val 2%Z /\ written Given ev = written Given ev' /\ written Cout ev <> written Cout ev' /\ written Cout ev <> "".
Proof.
  exists [record_node "dblVoxelX" "1"], [record_node "dblVoxelX" "2"]. do 4 eexists. split; [vm_compute; reflexivity|]. split; [vm_compute; reflexivity|]. split; [vm_compute; reflexivity|]. split; [vm_compute; reflexivity|]. split; [vm_compute; reflexivity|]. split; [vm_compute; reflexivity|]. split; [vm_compute; reflexivity|]. split; vm_compute; discriminate.
Qed.
(** The size along X is not checked: with a size along Z only, the ratio is a division by 0. *)
Theorem C148_ratio_refuted : exists h, parse10 false (serie_node [channel_node "0"] [] [record_node "dblVoxelZ" "3"]) = Val h /\ zx_ratio (Z * Z) (fun s => (match int10 s with Some z => z | None => 0%Z end, 1%Z)) (0, 1)%Z (1, 1)%Z (fun v => (fst v =? 0)%Z) (fun a b => (fst a, fst b)) h = Val (3, 0)%Z.
Proof. eexists. split; vm_compute; reflexivity. Qed.
(** Reading the pixels of a serie (Lif_Model) names the dimensions in the same way. *)
Theorem C148_names d : (forall nm, In (nm, Lif_Model.dim_id d) names8 -> Lif_Model.dim_name d = nm) /\
  ((forall nm, ~ In (nm, Lif_Model.dim_id d) names8) -> Lif_Model.dim_name d = "Invalid").
Proof.
  destruct d as [id n inc]. unfold Lif_Model.dim_name. cbn [Lif_Model.dim_id]. split.
  - intros nm H. cbn in H. repeat (destruct H as [H|H]; [injection H as <- <-; reflexivity|]). destruct H.
  - intros H. destruct id as [|p|p]; try reflexivity. do 4 (try destruct p as [p|p|]); try reflexivity; exfalso; (eapply H; cbn; tauto) || (eapply H; cbn; eauto 12).
Qed.

Print Assumptions C148_getters. Print Assumptions C148_undefined. Print Assumptions C148_series. Print Assumptions C148_no_series. Print Assumptions C148_print. Print Assumptions C148_units_refuted. Print Assumptions C148_comment_refuted. Print Assumptions C148_print_refuted. Print Assumptions C148_ratio_refuted.
Print Assumptions C148_half_refuted.
Print Assumptions C148_names.

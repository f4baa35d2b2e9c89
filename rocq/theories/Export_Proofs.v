Require Import String.
Require Import List Arith NArith Ascii Bool Lia Sorted.
Require Import Verif.Base Verif.Dec Verif.Traj_Model Verif.Particles_Model Verif.Ngb_Model Verif.Ngb_Spec Verif.Ngb_Proofs Verif.Export_Model Verif.Export_Spec.
Import ListNotations.
Local Open Scope nat_scope.
Local Open Scope list_scope.

Definition nsp (c : ascii) : bool := negb (is_space c).
Lemma words_word : forall w cur l, forallb nsp w = true -> words_from cur (w ++ l) = words_from (cur ++ w) l.
Proof.
  induction w as [|c w IH]; intros cur l H; cbn [app]; [rewrite app_nil_r; auto|]. cbn [forallb] in H. apply andb_true_iff in H as [Hc Hw].
  cbn [words_from]. unfold nsp in Hc. apply negb_true_iff in Hc. rewrite Hc. rewrite IH by auto. rewrite <- app_assoc. reflexivity.
Qed.
Lemma words_space_app : forall a cur c b, is_space c = true -> words_from cur (a ++ c :: b) = words_from cur a ++ words b.
Proof.
  induction a as [|x a IH]; intros cur c b H; cbn [app words_from].
  - rewrite H. reflexivity.
  - destruct (is_space x); rewrite IH by auto; [rewrite app_assoc|]; reflexivity.
Qed.
Lemma words_sep a c b : is_space c = true -> words (a ++ c :: b) = words a ++ words b.
Proof. apply words_space_app. Qed.
Lemma words_one w : word w -> words w = [w].
Proof. intros [N H]. unfold words. rewrite <- (app_nil_r w) at 1. rewrite words_word by exact H. cbn [words_from app]. destruct w; congruence. Qed.
Lemma words_head w c l : word w -> is_space c = true -> words (w ++ c :: l) = w :: words l.
Proof. intros W H. rewrite words_sep by auto. rewrite words_one by auto. reflexivity. Qed.
Lemma words_skip c l : is_space c = true -> words (c :: l) = words l.
Proof. intros H. unfold words. cbn [words_from]. rewrite H. reflexivity. Qed.
Lemma words_spaces sp l : forallb is_space sp = true -> words (sp ++ l) = words l.
Proof. induction sp as [|c sp IH]; intros H; cbn [app]; auto. cbn [forallb] in H. apply andb_true_iff in H as [Hc Hs]. rewrite words_skip by auto. auto. Qed.

Lemma span_split f : forall l a b, span_while f l = (a, b) -> l = a ++ b /\ forallb f a = true /\ match b with [] => True | c :: _ => f c = false end.
Proof.
  induction l as [|c l IH]; intros a b E; cbn [span_while] in E.
  - injection E as <- <-. auto.
  - destruct (f c) eqn:F.
    + destruct (span_while f l) as [a' b'] eqn:S. injection E as <- <-. destruct (IH _ _ eq_refl) as [E [A B]]. subst l. cbn. rewrite F. auto.
    + injection E as <- <-. auto.
Qed.
(** Streams whose end is reached only when nothing is left. *)
Definition sane (s : istream) : Prop := fail s = false /\ (eof s = true -> buf s = []).
Definition ends (rest : text) : bool := match rest with [] => true | _ => false end.
Lemma get_word_none s : sane s -> words (buf s) = [] -> exists s', get_word s = (None, s') /\ fail s' = true /\ eof s' = true.
Proof.
  intros [F E] W. unfold get_word, good_stream. rewrite F. destruct (eof s) eqn:Ee; cbn [negb andb].
  - eexists. split; [reflexivity|]. auto.
  - destruct (span_while is_space (buf s)) as [sp l] eqn:Q. apply span_split in Q as [Q1 [Q2 Q3]]. cbn [snd]. destruct l as [|c l]; [eexists; split; [reflexivity|auto]|].
    exfalso. rewrite Q1 in W. rewrite words_spaces in W by auto. destruct (span_while nsp (c :: l)) as [w r] eqn:S. assert (S' := S). apply span_split in S as [S1 [S2 S3]].
    destruct w as [|x w]. { cbn in S1. rewrite <- S1 in S3. unfold nsp in S3. rewrite Q3 in S3. discriminate. }
    assert (X : word (x :: w)) by (split; [discriminate|exact S2]). rewrite S1 in W. destruct r as [|d r].
    + rewrite app_nil_r, words_one in W by auto. discriminate.
    + rewrite words_head in W; auto; [discriminate|]. unfold nsp in S3. apply negb_false_iff in S3. auto.
Qed.
Lemma get_word_some s w ws : sane s -> words (buf s) = w :: ws -> exists sp rest, buf s = sp ++ w ++ rest /\ forallb is_space sp = true /\ word w /\
  match rest with [] => True | c :: _ => is_space c = true end /\ words rest = ws /\ eof s = false /\
  get_word s = (Some w, mkStream rest (ends rest) false).
Proof.
  intros [F E] W. unfold get_word, good_stream. rewrite F. destruct (eof s) eqn:Ee; [rewrite E in W by auto; discriminate|]. cbn [negb andb].
  destruct (span_while is_space (buf s)) as [sp l] eqn:Q. apply span_split in Q as [Q1 [Q2 Q3]]. cbn [snd]. rewrite Q1, words_spaces in W by auto. destruct l as [|c l]; [discriminate|].
  change (fun c0 : ascii => negb (is_space c0)) with nsp. destruct (span_while nsp (c :: l)) as [v r] eqn:S. assert (S' := S). apply span_split in S as [S1 [S2 S3]].
  destruct v as [|x v]. { cbn in S1. rewrite <- S1 in S3. unfold nsp in S3. rewrite Q3 in S3. discriminate. }
  assert (X : word (x :: v)) by (split; [discriminate|exact S2]). rewrite S1 in W.
  assert (Y : x :: v = w /\ words r = ws).
  { destruct r as [|d r]; [rewrite app_nil_r, words_one in W by auto; injection W as -> <-; auto|].
    rewrite words_head in W; auto. - injection W as -> <-. split; auto. apply words_skip. unfold nsp in S3. apply negb_false_iff in S3. auto. - unfold nsp in S3. apply negb_false_iff in S3. auto. }
  destruct Y as [Y1 Y2]. rewrite Y1 in *. exists sp, r. rewrite Q1, S1. split; [auto|]. split; [auto|]. split; [auto|]. split; [|split; [auto|split; [auto|reflexivity]]].
  destruct r; auto. unfold nsp in S3. apply negb_false_iff in S3. auto.
Qed.
Lemma sane_rest rest : sane (mkStream rest (ends rest) false).
Proof. split; [reflexivity|]. cbn. destruct rest; auto. discriminate. Qed.
Lemma sane_open l : sane (open_text l).
Proof. split; [reflexivity|]. cbn. discriminate. Qed.

Lemma digits_word l : forallb is_digit l = true -> forallb (fun c => negb (is_space c)) l = true.
Proof. induction l as [|c l IH]; cbn [forallb]; auto. rewrite !andb_true_iff. intros [A B]. rewrite digit_not_space by auto. auto. Qed.
Lemma print_word n : word (print_nat n).
Proof. unfold print_nat. destruct (print_N_ok (N.of_nat n)) as [A [B _]]. split; auto. apply digits_word; auto. Qed.
Lemma read_num_words s n ws : sane s -> words (buf s) = print_N n :: ws -> (n < two64)%N ->
  exists rest, read_num s = (Some n, mkStream rest (ends rest) false) /\ words rest = ws /\ length rest < length (buf s).
Proof.
  intros Sa W H. destruct (get_word_some s _ _ Sa W) as [sp [rest [E [S1 [S2 [S3 [S4 [S5 S6]]]]]]]]. exists rest. split; [|split; [auto|]].
  - destruct s as [b e f]. destruct Sa as [F _]. cbn [fail buf eof] in *. subst. rewrite read_num_print; auto.
    destruct rest as [|c r]; auto. destruct (is_digit c) eqn:D; auto. apply digit_not_space in D. congruence.
  - rewrite E, !app_length. destruct S2 as [S2 _]. destruct (print_N n); [congruence|]. cbn [length]. lia.
Qed.
Lemma read_num_none s : sane s -> words (buf s) = [] -> exists s', read_num s = (None, s') /\ fail s' = true.
Proof.
  intros Sa W. unfold read_num. destruct (get_word_none s Sa W) as [s' [G _]]. unfold get_word in G. destruct (good_stream s); [|eexists; split; [reflexivity|auto]].
  destruct (snd (span_while is_space (buf s))) as [|c l]; [eexists; split; [reflexivity|auto]|]. destruct (span_while _ (c :: l)). discriminate.
Qed.
Lemma read_num_failed s : fail s = true -> exists s', read_num s = (None, s') /\ fail s' = true.
Proof. intros F. unfold read_num, good_stream. rewrite F, andb_false_r. eexists; split; [reflexivity|auto]. Qed.

Section EP.
  Variables (A : Type) (conv : text -> option A).
  Lemma read_with_some s w v ws : sane s -> words (buf s) = w :: ws -> conv w = Some v ->
    exists rest, read_with conv s = (Some v, mkStream rest (ends rest) false) /\ words rest = ws /\ exists sp, buf s = sp ++ rest /\ words sp = [w].
  Proof.
    intros Sa W C. destruct (get_word_some s _ _ Sa W) as [sp [rest [E [S1 [S2 [S3 [S4 [S5 S6]]]]]]]]. exists rest. unfold read_with. rewrite S6, C. split; auto. split; auto.
    exists (sp ++ w). rewrite <- app_assoc. split; auto. rewrite words_spaces by auto. apply words_one; auto.
  Qed.
  Lemma read_with_none s : sane s -> words (buf s) = [] -> exists s', read_with conv s = (None, s') /\ fail s' = true /\ eof s' = true.
  Proof. intros Sa W. destruct (get_word_none s Sa W) as [s' [G [F E]]]. exists s'. unfold read_with. rewrite G. auto. Qed.
  Lemma read_with_failed s : fail s = true -> exists s', read_with conv s = (None, s') /\ fail s' = true /\ eof s' = eof s.
  Proof. intros F. unfold read_with, get_word, good_stream. rewrite F, andb_false_r. eexists; split; [reflexivity|auto]. Qed.
  Lemma read_many_failed : forall k s, fail s = true -> exists s', read_many conv k s = (repeat None k, s') /\ fail s' = true /\ eof s' = eof s.
  Proof.
    induction k as [|k IH]; intros s F; [exists s; auto|]. cbn [read_many repeat]. destruct (read_with_failed s F) as [s1 [E [F1 E1]]]. rewrite E.
    destruct (IH s1 F1) as [s2 [E2 [F2 E3]]]. rewrite E2. exists s2. split; [auto|]. split; [auto|congruence].
  Qed.
  (** Reading values that are there. *)
  Lemma read_many_ok : forall vs s ws, sane s -> words (buf s) = map fst vs ++ ws -> Forall (fun wv => conv (fst wv) = Some (snd wv)) vs ->
    exists s', read_many conv (length vs) s = (map (fun wv => Some (snd wv)) vs, s') /\ sane s' /\ words (buf s') = ws /\ (vs <> [] -> eof s' = ends (buf s')).
  Proof.
    induction vs as [|[w v] vs IH]; intros s ws Sa W H; [exists s; split; [auto|]; split; [auto|]; split; [auto|congruence]|].
    inversion H as [|? ? Hc Hv]; subst. cbn [map app fst snd] in *. destruct (read_with_some s w v _ Sa W Hc) as [rest [E [Wr _]]].
    cbn [length read_many]. rewrite E. destruct (IH (mkStream rest (ends rest) false) ws (sane_rest rest) Wr Hv) as [s' [E' [Sa' [W' En]]]]. rewrite E'. exists s'. split; [auto|]. split; [auto|]. split; [auto|].
    intros _. destruct vs as [|x vs]; [cbn in E'; injection E' as <-; reflexivity|apply En; discriminate].
  Qed.
  (** At the end of the text. *)
  Lemma read_many_none k s : sane s -> words (buf s) = [] -> exists s', read_many conv (S k) s = (repeat None (S k), s') /\ fail s' = true /\ eof s' = true.
  Proof.
    intros Sa W. cbn [read_many repeat]. destruct (read_with_none s Sa W) as [s1 [E [F1 E1]]]. rewrite E. destruct (read_many_failed k s1 F1) as [s2 [E2 [F2 E3]]]. rewrite E2. exists s2. split; [auto|]. split; [auto|congruence].
  Qed.
End EP.

Ltac tok := first [apply print_word | reflexivity | (split; [discriminate|reflexivity])].
Lemma tab_space : is_space tab = true. Proof. reflexivity. Qed.
Lemma nl_space : is_space newline = true. Proof. reflexivity. Qed.
Lemma spc_space : is_space spc = true. Proof. reflexivity. Qed.

Section Dat.
  Variables (V : Type) (zero : V) (show : V -> text) (parse : text -> option V) (rnd : V -> V).
  Hypothesis K : codec show parse rnd.
  Notation row := (fun p => map show (triple p)).
  Lemma show_word v : word (show v). Proof. apply K. Qed.
  Lemma print_row_words p l : words (print_row V show p ++ l) = row p ++ words l.
  Proof.
    destruct p as [[x y] z]. unfold print_row. rewrite <- !app_assoc. cbn [app]. rewrite !words_head by (auto using show_word). rewrite words_skip by auto. reflexivity.
  Qed.
  Lemma rows_words ps l : words (flat_map (print_row V show) ps ++ l) = flat_map row ps ++ words l.
  Proof. induction ps as [|p ps IH]; [reflexivity|]. cbn [flat_map]. rewrite <- !app_assoc, print_row_words, IH. reflexivity. Qed.
  Lemma export_dat_words upper ps : words (export_dat V show upper ps) = [txt "1"; print_nat (length ps); txt "1"] ++ map show (triple upper) ++ flat_map row ps.
  Proof.
    destruct upper as [[x y] z]. unfold export_dat. cbn [triple map].
    assert (O : word (txt "1")) by (split; [discriminate|reflexivity]).
    cbn [app]. rewrite !words_head by (auto using show_word, print_word). rewrite <- (app_nil_r (flat_map (print_row V show) ps)), rows_words, app_nil_r. reflexivity.
  Qed.
  Lemma read_rows_failed : forall n s, fail s = true -> read_rows V zero parse n s = repeat (zero, zero, zero) n.
  Proof.
    induction n as [|n IH]; intros s F; [reflexivity|]. cbn [read_rows repeat].
    destruct (read_with_failed V parse s F) as [s1 [E1 [F1 _]]]. rewrite E1. destruct (read_with_failed V parse s1 F1) as [s2 [E2 [F2 _]]]. rewrite E2.
    destruct (read_with_failed V parse s2 F2) as [s3 [E3 [F3 _]]]. rewrite E3. rewrite IH by auto. reflexivity.
  Qed.
  Lemma read_rows_words : forall n ps s, sane s -> words (buf s) = flat_map row ps ->
    read_rows V zero parse n s = map (on_triple rnd) (firstn n ps) ++ repeat (zero, zero, zero) (n - length ps).
  Proof.
    induction n as [|n IH]; intros ps s Sa W; [reflexivity|]. destruct ps as [|[[x y] z] ps].
    - cbn [firstn map app length]. rewrite Nat.sub_0_r. cbn [read_rows repeat]. destruct (read_with_none V parse s Sa W) as [s1 [E1 [F1 _]]]. rewrite E1.
      destruct (read_with_failed V parse s1 F1) as [s2 [E2 [F2 _]]]. rewrite E2. destruct (read_with_failed V parse s2 F2) as [s3 [E3 [F3 _]]]. rewrite E3. rewrite read_rows_failed by auto. reflexivity.
    - cbn [flat_map triple map app] in W. cbn [read_rows firstn map app length Nat.sub on_triple].
      destruct (read_with_some V parse s _ _ _ Sa W (proj2 (K x))) as [r1 [E1 [W1 _]]]. rewrite E1.
      destruct (read_with_some V parse _ _ _ _ (sane_rest r1) W1 (proj2 (K y))) as [r2 [E2 [W2 _]]]. rewrite E2.
      destruct (read_with_some V parse _ _ _ _ (sane_rest r2) W2 (proj2 (K z))) as [r3 [E3 [W3 _]]]. rewrite E3.
      rewrite (IH ps _ (sane_rest r3) W3). reflexivity.
  Qed.
  Lemma read_dat_words l n upper ps : (N.of_nat n < two64)%N -> words l = [txt "1"; print_nat n; txt "1"] ++ map show (triple upper) ++ flat_map row ps ->
    read_dat V zero parse l = (on_triple (fun v => Some (rnd v)) upper, map (on_triple rnd) (firstn n ps) ++ repeat (zero, zero, zero) (n - length ps)).
  Proof.
    intros Hn W. destruct upper as [[x y] z]. cbn [triple map app] in W. unfold read_dat. change (txt "1") with (print_N 1) in W.
    destruct (read_num_words (open_text l) 1 _ (sane_open l) W ltac:(reflexivity)) as [r1 [E1 [W1 _]]]. rewrite E1. unfold print_nat in W1.
    destruct (read_num_words _ _ _ (sane_rest r1) W1 Hn) as [r2 [E2 [W2 _]]]. rewrite E2.
    destruct (read_num_words _ _ _ (sane_rest r2) W2 ltac:(reflexivity)) as [r3 [E3 [W3 _]]]. rewrite E3.
    destruct (read_with_some V parse _ _ _ _ (sane_rest r3) W3 (proj2 (K x))) as [r4 [E4 [W4 _]]]. rewrite E4.
    destruct (read_with_some V parse _ _ _ _ (sane_rest r4) W4 (proj2 (K y))) as [r5 [E5 [W5 _]]]. rewrite E5.
    destruct (read_with_some V parse _ _ _ _ (sane_rest r5) W5 (proj2 (K z))) as [r6 [E6 [W6 _]]]. rewrite E6.
    rewrite Nat2N.id. rewrite (read_rows_words n ps _ (sane_rest r6) W6). reflexivity.
  Qed.

  (** VTK *)
  Lemma vtk_row_words p l : words (vtk_row V show p ++ l) = row p ++ words l.
  Proof.
    destruct p as [[x y] z]. unfold vtk_row. rewrite <- !app_assoc. cbn [app]. rewrite !words_head by (auto using show_word). rewrite words_skip by auto. reflexivity.
  Qed.
  Lemma vtk_rows_words ps l : words (flat_map (vtk_row V show) ps ++ l) = flat_map row ps ++ words l.
  Proof. induction ps as [|p ps IH]; [reflexivity|]. cbn [flat_map]. rewrite <- !app_assoc, vtk_row_words, IH. reflexivity. Qed.
  Lemma print_bond_words b c l : is_space c = true -> words (print_bond b ++ c :: l) = [print_nat (fst b); print_nat (snd b)] ++ words l.
  Proof. intros H. unfold print_bond. rewrite <- !app_assoc. cbn [app]. rewrite !words_head by (auto using print_word). reflexivity. Qed.
  Lemma tok2 x : words (txt "2 " ++ x) = txt "2" :: words x.
  Proof. change (txt "2 " ++ x) with (txt "2" ++ spc :: x). apply words_head; tok. Qed.
  Lemma vtk_cells_words bonds l : words (flat_map (fun b => txt "2 " ++ print_bond b ++ [newline]) bonds ++ l) = flat_map (fun b => [txt "2"; print_nat (fst b); print_nat (snd b)]) bonds ++ words l.
  Proof.
    induction bonds as [|b bonds IH]; [reflexivity|]. cbn [flat_map]. rewrite <- !app_assoc. cbn [app].
    rewrite tok2.
    rewrite print_bond_words by auto. rewrite IH. reflexivity.
  Qed.
  Lemma scalar_words name vs l : words (vtk_scalar V show (name, vs) ++ l) = [txt "SCALARS"] ++ words name ++ [txt "double"; txt "LOOKUP_TABLE"; txt "default"] ++ map show vs ++ words l.
  Proof.
    unfold vtk_scalar. cbn [fst snd]. rewrite <- !app_assoc. change (txt "SCALARS ") with (txt "SCALARS" ++ [spc]). rewrite <- app_assoc. cbn [app].
    rewrite words_head by tok. f_equal. change (txt " double") with (spc :: txt "double"). cbn [app]. rewrite words_sep by auto. f_equal.
    change (words ((txt "double" ++ newline :: (txt "LOOKUP_TABLE" ++ spc :: (txt "default" ++ newline :: flat_map (fun v => show v ++ [newline]) vs ++ l)))) = [txt "double"; txt "LOOKUP_TABLE"; txt "default"] ++ map show vs ++ words l).
    rewrite !words_head by tok. cbn [app]. do 3 f_equal.
    induction vs as [|v vs IH]; [reflexivity|]. cbn [flat_map map]. rewrite <- !app_assoc. cbn [app]. rewrite words_head by (auto using show_word). rewrite IH. reflexivity.
  Qed.
  Lemma vector_words name vs l : words (vtk_vector V show (name, vs) ++ l) = [txt "VECTORS"] ++ words name ++ [txt "double"] ++ flat_map row vs ++ words l.
  Proof.
    unfold vtk_vector. cbn [fst snd]. rewrite <- !app_assoc. change (txt "VECTORS ") with (txt "VECTORS" ++ [spc]). rewrite <- app_assoc. cbn [app].
    rewrite words_head by tok. f_equal. change (txt " double") with (spc :: txt "double"). cbn [app]. rewrite words_sep by auto. f_equal.
    change (words (txt "double" ++ newline :: (flat_map (vtk_row V show) vs ++ l)) = txt "double" :: flat_map row vs ++ words l).
    rewrite words_head by tok. rewrite vtk_rows_words. reflexivity.
  Qed.
  Definition scalar_of (f : text * list V) : list text := [txt "SCALARS"] ++ words (fst f) ++ [txt "double"; txt "LOOKUP_TABLE"; txt "default"] ++ map show (snd f).
  Definition vector_of (f : text * list (V * V * V)) : list text := [txt "VECTORS"] ++ words (fst f) ++ [txt "double"] ++ flat_map row (snd f).
  Lemma scalars_words fs l : words (flat_map (vtk_scalar V show) fs ++ l) = flat_map scalar_of fs ++ words l.
  Proof. induction fs as [|[nm vs] fs IH]; [reflexivity|]. cbn [flat_map]. rewrite <- app_assoc, scalar_words, IH. unfold scalar_of. cbn [fst snd]. rewrite <- !app_assoc. reflexivity. Qed.
  Lemma vectors_words fs l : words (flat_map (vtk_vector V show) fs ++ l) = flat_map vector_of fs ++ words l.
  Proof. induction fs as [|[nm vs] fs IH]; [reflexivity|]. cbn [flat_map]. rewrite <- app_assoc, vector_words, IH. unfold vector_of. cbn [fst snd]. rewrite <- !app_assoc. reflexivity. Qed.
  Lemma export_vtk_words name ps bonds scalars vectors : words (export_vtk V show name ps bonds scalars vectors) =
    words (txt "# vtk DataFile Version 3.0") ++ words name ++ [txt "ASCII"; txt "DATASET"; txt "POLYDATA"; txt "POINTS"; print_nat (length ps); txt "double"] ++ flat_map row ps ++
    [txt "LINES"; print_nat (length bonds); print_nat (length bonds * 3)] ++ flat_map (fun b => [txt "2"; print_nat (fst b); print_nat (snd b)]) bonds ++
    [txt "POINT_DATA"; print_nat (length ps)] ++ flat_map scalar_of scalars ++ flat_map vector_of vectors.
  Proof.
    unfold export_vtk, vtk_points, vtk_bonds. rewrite <- !app_assoc. cbn [app].
    rewrite words_sep by auto. rewrite words_sep by auto. do 2 f_equal.
    change (txt "POINTS ") with (txt "POINTS" ++ [spc]). change (txt " double") with (spc :: txt "double"). change (txt "LINES ") with (txt "LINES" ++ [spc]). change (txt "POINT_DATA ") with (txt "POINT_DATA" ++ [spc]).
    change (txt "DATASET POLYDATA") with (txt "DATASET" ++ spc :: txt "POLYDATA").
    rewrite <- !app_assoc. cbn [app]. rewrite !words_head by tok.
    do 6 f_equal. rewrite vtk_rows_words. f_equal. rewrite !words_head by tok. do 3 f_equal.
    rewrite vtk_cells_words. f_equal. rewrite !words_head by tok. do 2 f_equal.
    rewrite scalars_words. f_equal. rewrite <- (app_nil_r (flat_map (vtk_vector V show) vectors)), vectors_words, app_nil_r. reflexivity.
  Qed.
End Dat.

(** Bonds *)
Lemma span_length f : forall l a b, span_while f l = (a, b) -> length l = length a + length b.
Proof. intros l a b E. apply span_split in E as [E _]. subst. apply app_length. Qed.
Lemma read_num_shrinks s v s' : read_num s = (Some v, s') -> length (buf s') < length (buf s).
Proof.
  unfold read_num. destruct (good_stream s); [|discriminate]. destruct (span_while is_space (buf s)) as [sp l] eqn:E1. cbn [snd]. apply span_length in E1. destruct l as [|c l]; [discriminate|].
  destruct (span_while is_digit (c :: l)) as [ds rest] eqn:E2. apply span_length in E2. destruct ds as [|d ds]; [discriminate|].
  destruct (value_from 0 (d :: ds) <? two64)%N; [|discriminate]. intros E. injection E as _ <-. cbn [buf length] in *. lia.
Qed.
Lemma mk_bond_le x y : fst (mk_bond x y) <= snd (mk_bond x y).
Proof. unfold mk_bond. destruct (Nat.ltb_spec x y); cbn; lia. Qed.
Lemma insert_bond_set x y s : bond_set s -> bond_set (bond_insert (mk_bond x y) s).
Proof.
  intros [A B]. destruct (bond_insert_spec (mk_bond x y) s A) as [C D]. split; auto. rewrite Forall_forall in *. intros b I. apply D in I as [->|I]; auto. apply mk_bond_le.
Qed.
Lemma load_total : forall fuel s bonds, length (buf s) < fuel -> bond_set bonds -> exists r, load_bonds_loop fuel s bonds = Some r /\ bond_set r /\ incl bonds r.
Proof.
  induction fuel as [|fuel IH]; intros s bonds H HB; [lia|]. cbn [load_bonds_loop].
  destruct (read_num s) as [x s1] eqn:E1. destruct (read_num s1) as [y s2] eqn:E2.
  assert (Z : exists r, Some bonds = Some r /\ bond_set r /\ incl bonds r) by (exists bonds; split; [auto|split; [auto|apply incl_refl]]).
  destruct (fail s2); auto. destruct x as [x|]; auto. destruct y as [y|]; auto.
  apply read_num_shrinks in E1. apply read_num_shrinks in E2. destruct (IH s2 (bond_insert (mk_bond (N.to_nat x) (N.to_nat y)) bonds)) as [r [E [R I]]]; [lia|apply insert_bond_set; auto|].
  exists r. split; [auto|]. split; [auto|]. intros b J. apply I. apply (bond_insert_spec _ _ (proj1 HB)). auto.
Qed.
Lemma load_pairs : forall prs fuel s bonds, sane s -> words (buf s) = flat_map (fun p => [print_nat (fst p); print_nat (snd p)]) prs ->
  Forall (fun p => (N.of_nat (fst p) < two64)%N /\ (N.of_nat (snd p) < two64)%N) prs -> length (buf s) < fuel -> bond_set bonds ->
  exists r, load_bonds_loop fuel s bonds = Some r /\ bond_set r /\ forall b, In b r <-> In b bonds \/ exists p, In p prs /\ b = mk_bond (fst p) (snd p).
Proof.
  induction prs as [|[x y] prs IH]; intros fuel s bonds Sa W H Hf HB; (destruct fuel as [|fuel]; [lia|]); cbn [load_bonds_loop].
  - destruct (read_num_none s Sa W) as [s1 [E1 F1]]. rewrite E1. destruct (read_num_failed s1 F1) as [s2 [E2 F2]]. rewrite E2, F2. exists bonds. split; [auto|]. split; [auto|]. intros b. split; auto. intros [I|[p [[] _]]]. auto.
  - inversion H as [|? ? [Hx Hy] Hr]; subst. cbn [flat_map fst snd app] in *. unfold print_nat in W at 1 2.
    destruct (read_num_words s _ _ Sa W Hx) as [r1 [E1 [W1 L1]]]. rewrite E1. destruct (read_num_words _ _ _ (sane_rest r1) W1 Hy) as [r2 [E2 [W2 L2]]]. rewrite E2. cbn [fail buf] in *.
    rewrite !Nat2N.id. destruct (IH fuel (mkStream r2 (ends r2) false) (bond_insert (mk_bond x y) bonds) (sane_rest r2) W2 Hr) as [r [E [R I]]]; [cbn; lia|apply insert_bond_set; auto|].
    exists r. split; [auto|]. split; [auto|]. intros b. rewrite I. destruct (bond_insert_spec (mk_bond x y) bonds (proj1 HB)) as [_ D]. rewrite D. split.
    + intros [[->|J]|[p [J ->]]]; auto; right. * exists (x, y). simpl; auto. * exists p. simpl; auto.
    + intros [J|[p [[<-|J] ->]]]; auto. right. exists p. auto.
Qed.
Lemma save_bonds_words bonds : words (save_bonds bonds) = flat_map (fun p => [print_nat (fst p); print_nat (snd p)]) bonds.
Proof.
  unfold save_bonds. induction bonds as [|b bonds IH]; [reflexivity|]. cbn [flat_map]. rewrite <- app_assoc. cbn [app]. rewrite (print_bond_words b newline) by auto. rewrite IH. reflexivity.
Qed.

Section Q.
  Variables (V : Type) (show : V -> text) (parse : text -> option V) (rnd : V -> V).
  Hypothesis K : codec show parse rnd.
  Notation coded := (map (fun v => (show v, rnd v))).
  Lemma coded_ok vs : Forall (fun wv => parse (fst wv) = Some (snd wv)) (coded vs).
  Proof. apply Forall_forall. intros x I. apply in_map_iff in I as [v [<- I]]. apply K. Qed.
  Lemma all_vals_some (vs : list V) : all_vals V (map (fun wv => Some (snd wv)) (coded vs)) = map rnd vs.
  Proof. induction vs as [|v vs IH]; [reflexivity|]. cbn [map all_vals flat_map app snd] in *. unfold all_vals in *. cbn. rewrite IH. reflexivity. Qed.
  Lemma read_coded vs s ws : sane s -> words (buf s) = map show vs ++ ws ->
    exists s', read_many parse (length vs) s = (map (fun wv => Some (snd wv)) (coded vs), s') /\ sane s' /\ words (buf s') = ws /\ (vs <> [] -> eof s' = ends (buf s')).
  Proof.
    intros Sa W. destruct (read_many_ok V parse (coded vs) s ws Sa) as [s' [E [S1 [S2 S3]]]].
    - rewrite map_map. exact W.
    - apply coded_ok.
    - rewrite map_length in E. exists s'. split; [auto|]. split; [auto|]. split; [auto|]. intros N. apply S3. destruct vs; [congruence|discriminate].
  Qed.
  (** qlm *)
  Lemma load_qlm_loop_val : forall boos rest s done, sane s -> words (buf s) = flat_map (map show) boos -> Forall (fun b => length b = 72) boos ->
    load_qlm_loop V parse rest s done = if length boos <=? length rest then Val (done ++ map (map rnd) boos ++ skipn (length boos) rest) else UB.
  Proof.
    induction boos as [|b boos IH]; intros rest s done Sa W H.
    - cbn [length Nat.leb map app skipn]. destruct (read_many_none V parse 71 s Sa W) as [s' [E [F _]]]. destruct rest; cbn [load_qlm_loop]; rewrite E, F; reflexivity.
    - inversion H as [|? ? Hb Hr]; subst. cbn [flat_map] in W. destruct (read_coded b s _ Sa W) as [s' [E [S1 [S2 _]]]]. rewrite Hb in E. 
      destruct rest as [|r rest]; cbn [load_qlm_loop]; rewrite E, (proj1 S1); [reflexivity|]. rewrite (IH rest s' _ S1 S2 Hr). rewrite all_vals_some. cbn [length Nat.leb skipn map app].
      destruct (length boos <=? length rest); auto. rewrite <- app_assoc. reflexivity.
  Qed.
  Lemma record_words b l : words ((flat_map (fun v => show v ++ [tab]) b ++ [newline]) ++ l) = map show b ++ words l.
  Proof. induction b as [|v b IH]; cbn [flat_map map]; rewrite <- ?app_assoc; cbn [app]; [apply words_skip; reflexivity|]. rewrite words_head by (try reflexivity; apply K). rewrite <- app_assoc in IH. cbn [app] in IH. rewrite IH. reflexivity. Qed.
  Lemma save_qlm_words boos : words (save_qlm V show boos) = flat_map (map show) boos.
  Proof.
    unfold save_qlm. induction boos as [|b boos IH]; [reflexivity|]. cbn [flat_map]. rewrite record_words, IH. reflexivity.
  Qed.
  (** cloud *)
  Lemma load_boo_loop_val : forall vs rest s done, sane s -> words (buf s) = map show vs ->
    load_boo_loop V parse rest s done = if length vs <=? length rest then Val (done ++ map rnd vs ++ skipn (length vs) rest) else UB.
  Proof.
    induction vs as [|v vs IH]; intros rest s done Sa W.
    - destruct (read_with_none V parse s Sa W) as [s' [E _]]. destruct rest; cbn [load_boo_loop]; rewrite E; reflexivity.
    - cbn [map] in W. destruct (read_with_some V parse s _ _ _ Sa W (proj2 (K v))) as [r [E [W' _]]]. destruct rest as [|x rest]; cbn [load_boo_loop]; rewrite E; [reflexivity|].
      rewrite (IH rest _ _ (sane_rest r) W'). cbn [length Nat.leb map skipn app]. destruct (length vs <=? length rest); auto. rewrite <- app_assoc. reflexivity.
  Qed.
  Lemma load_boo_val header l qw vs : forallb not_newline header = true -> words l = map show vs ->
    load_boo V parse (header ++ newline :: l) qw = if length vs <=? length qw then Val (map rnd vs ++ skipn (length vs) qw) else UB.
  Proof.
    intros Hh W. unfold load_boo, get_line, open_text. cbn [good_stream eof fail negb andb buf]. rewrite (span_while_app not_newline header (newline :: l)) by (auto; reflexivity). cbn [snd].
    apply (load_boo_loop_val vs qw (mkStream l false false) []); [split; [reflexivity|discriminate]|exact W].
  Qed.
  (** q6m *)
  Lemma store_all (q vs : list V) : length q = length vs -> store q (map (fun wv => Some (snd wv)) (coded vs)) = map rnd vs.
  Proof. revert vs. induction q as [|x q IH]; intros [|v vs] H; try discriminate; auto. unfold store in *. cbn [map combine snd]. rewrite IH by (cbn in H; lia). reflexivity. Qed.
  Lemma store_none (q : list V) : store q (repeat None (length q)) = q.
  Proof. unfold store. induction q as [|x q IH]; auto. cbn. rewrite IH. reflexivity. Qed.
  (** What is left after reading: the white space at the end. *)
  Lemma trail_app a b : b <> [] -> trail (a ++ b) = trail b.
  Proof. intros H. unfold trail. rewrite rev_app_distr. destruct (rev b) as [|c r] eqn:E; auto. exfalso. apply H. rewrite <- (rev_involutive b), E. reflexivity. Qed.
  Lemma trail_word w : word w -> trail w = false.
  Proof.
    intros [N H]. unfold trail. destruct (rev w) as [|c r] eqn:E. { exfalso. apply N. rewrite <- (rev_involutive w), E. reflexivity. }
    rewrite forallb_forall in H. assert (I : In c w) by (apply in_rev; rewrite E; left; auto). specialize (H c I). apply negb_true_iff in H. auto.
  Qed.
  Lemma spaces_trail l : words l = [] -> l <> [] -> trail l = true.
  Proof.
    intros W N. unfold trail. destruct (rev l) as [|c r] eqn:E; auto. destruct (is_space c) eqn:Sc; auto. exfalso.
    assert (l = rev r ++ [c]) by (rewrite <- (rev_involutive l), E; reflexivity). subst l. clear E N.
    assert (G : forall a cur, words_from cur (a ++ [c]) <> []). { induction a as [|x a IH]; intros cur; cbn [app words_from]; [rewrite Sc; cbn [words_from]; destruct cur; discriminate|]. destruct (is_space x); [destruct cur; cbn [app]; [apply IH|discriminate]|apply IH]. }
    apply (G _ _ W).
  Qed.
  Lemma read_trail : forall vs s, sane s -> words (buf s) = map show vs -> vs <> [] -> exists s', read_many parse (length vs) s = (map (fun wv => Some (snd wv)) (coded vs), s') /\ sane s' /\ words (buf s') = [] /\ eof s' = negb (trail (buf s)).
  Proof.
    intros vs s Sa W N. 
    assert (G : forall vs s, sane s -> words (buf s) = map show vs -> vs <> [] -> exists s', read_many parse (length vs) s = (map (fun wv => Some (snd wv)) (coded vs), s') /\ eof s' = negb (trail (buf s))).
    { clear - K. induction vs as [|v vs IH]; intros s Sa W N; [congruence|]. cbn [map] in W. destruct (get_word_some s _ _ Sa W) as [sp [rest [E [S1 [S2 [S3 [S4 [S5 S6]]]]]]]].
      assert (R : read_with parse s = (Some (rnd v), mkStream rest (ends rest) false)) by (unfold read_with; rewrite S6, (proj2 (K v)); reflexivity).
      cbn [length read_many map snd]. rewrite R. destruct vs as [|v' vs].
      - cbn [read_many length map]. eexists. split; [reflexivity|]. cbn [eof]. rewrite E. destruct rest as [|c r].
        + rewrite app_nil_r, trail_app by (apply S2). rewrite trail_word by auto. reflexivity.
        + rewrite app_assoc, trail_app by discriminate. rewrite spaces_trail; [reflexivity|exact S4|discriminate].
      - destruct (IH (mkStream rest (ends rest) false) (sane_rest rest) S4 ltac:(discriminate)) as [s' [E' T]]. exists s'. rewrite E'. split; auto. rewrite T, E. cbn [buf].
        assert (rest <> []) by (intros ->; discriminate). rewrite app_assoc, trail_app by auto. reflexivity. }
    destruct (G vs s Sa W N) as [s' [E T]]. destruct (read_coded vs s [] Sa) as [s2 [E2 [A [B _]]]]; [rewrite app_nil_r; exact W|]. assert (s2 = s') by congruence. subst. exists s'. auto.
  Qed.
  Lemma load_q6m_end rest s done : sane s -> words (buf s) = [] -> eof s = false -> Forall (fun q => length q = 7) rest ->
    load_q6m_loop V parse rest s done = match rest with [] => UB | _ => Val (done ++ rest) end.
  Proof.
    intros Sa W E H. destruct rest as [|q rest]; cbn [load_q6m_loop]; rewrite E; [reflexivity|]. destruct (read_many_none V parse 6 s Sa W) as [s' [R [F Ee]]]. rewrite R.
    destruct rest; cbn [load_q6m_loop]; rewrite Ee; rewrite <- app_assoc; cbn [app]; inversion H as [|? ? Hq]; subst; rewrite <- Hq, store_none; reflexivity.
  Qed.
  Lemma load_q6m_val : forall q6s rest s done, sane s -> eof s = false -> words (buf s) = flat_map (map show) q6s -> Forall (fun q => length q = 7) q6s -> Forall (fun q => length q = 7) rest -> (q6s <> [] \/ buf s = [] \/ trail (buf s) = true) ->
    load_q6m_loop V parse rest s done =
      if (if trail (buf s) then length q6s <? length rest else length q6s <=? length rest) then Val (done ++ map (map rnd) q6s ++ skipn (length q6s) rest) else UB.
  Proof.
    induction q6s as [|q q6s IH]; intros rest s done Sa E W H Hr T.
    - assert (T' : trail (buf s) = true) by (destruct T as [T|[T|T]]; [congruence|rewrite T; reflexivity|auto]). rewrite T'. cbn [map app skipn length]. rewrite load_q6m_end by auto. destruct rest; reflexivity.
    - inversion H as [|? ? Hq Hs]; subst. destruct rest as [|r rest]; cbn [load_q6m_loop]; rewrite E; [destruct (trail (buf s)); reflexivity|].
      inversion Hr as [|? ? Hr1 Hr2]; subst. cbn [flat_map] in W. destruct q6s as [|q' q6s].
      + cbn [flat_map] in W. rewrite app_nil_r in W. destruct (read_trail q s Sa W) as [s' [R [S1 [S2 S3]]]]; [intros ->; discriminate|]. rewrite Hq in R. rewrite R. rewrite store_all by congruence.
        destruct (trail (buf s)) eqn:Tr; cbn [negb] in S3.
        * rewrite load_q6m_end by auto. cbn [length skipn map app]. destruct rest; [reflexivity|]. cbn. rewrite <- app_assoc. reflexivity.
        * destruct rest; cbn [load_q6m_loop]; rewrite S3; cbn [length skipn map app Nat.leb]; rewrite <- app_assoc; reflexivity.
      + destruct (read_coded q s _ Sa W) as [s' [R [S1 [S2 S3]]]]. rewrite Hq in R. rewrite R. rewrite store_all by congruence.
        assert (Nq : q <> []) by (intros ->; discriminate). assert (Ne : buf s' <> []). { intros X. rewrite X in S2. cbn [flat_map] in S2. inversion Hs as [|? ? Hq' _]; subst. destruct q'; [discriminate|discriminate]. }
        assert (Ee : eof s' = false) by (rewrite (S3 Nq); destruct (buf s'); [congruence|reflexivity]).
        assert (Tr : trail (buf s') = trail (buf s)).
        { clear - R Sa W K Nq Ne Hq. assert (G : forall q s ws s', sane s -> words (buf s) = map show q ++ ws -> read_many parse (length q) s = (map (fun wv => Some (snd wv)) (coded q), s') -> exists a, buf s = a ++ buf s').
          { clear - K. induction q as [|v q IH]; intros s ws s' Sa W R; [cbn in R; injection R as <-; exists []; auto|]. cbn [map app] in W. destruct (read_with_some V parse s _ _ _ Sa W (proj2 (K v))) as [rest [E [W' [sp [Eb _]]]]].
            cbn [length read_many] in R. rewrite E in R. destruct (read_many parse (length q) (mkStream rest (ends rest) false)) as [vs' s2] eqn:R2. cbn [map snd] in R. injection R as R3 <-. subst vs'.
            destruct (IH _ _ _ (sane_rest rest) W' R2) as [a Ea]. cbn [buf] in Ea. exists (sp ++ a). rewrite <- app_assoc, <- Ea. exact Eb. }
          rewrite <- Hq in R. destruct (G q s _ s' Sa W R) as [a Ea]. rewrite Ea, trail_app by auto. reflexivity. }
        rewrite (IH rest s' _ S1 Ee S2 Hs Hr2) by (left; discriminate). rewrite Tr. cbn [length skipn map app Nat.leb Nat.ltb]. rewrite <- app_assoc. reflexivity.
  Qed.
  Lemma q6_row_words q l : words ((flat_map (fun c => tab :: show c) q ++ [newline]) ++ l) = map show q ++ words l.
  Proof.
    rewrite <- app_assoc. cbn [app]. induction q as [|v q IH]; cbn [flat_map map app]; [apply words_skip; reflexivity|]. rewrite <- app_assoc. rewrite words_skip by reflexivity.
    destruct (flat_map (fun c => tab :: show c) q ++ newline :: l) as [|c t] eqn:E; [destruct (flat_map (fun c => tab :: show c) q); discriminate|].
    assert (Sc : is_space c = true) by (destruct q; cbn in E; injection E as <- _; reflexivity). rewrite words_head by (auto; apply K). rewrite <- IH, words_skip by auto. reflexivity.
  Qed.
  Lemma export_q6m_words q6s : words (export_q6m V show q6s) = flat_map (map show) q6s.
  Proof.
    unfold export_q6m. induction q6s as [|q q6s IH]; [reflexivity|]. cbn [flat_map]. rewrite q6_row_words, IH. reflexivity.
  Qed.
  Lemma export_q6m_trail q6s : trail (export_q6m V show q6s) = true.
  Proof.
    unfold export_q6m. destruct q6s as [|q q6s] using rev_ind; [reflexivity|]. rewrite flat_map_app. cbn [flat_map]. rewrite app_nil_r, !app_assoc. rewrite trail_app by discriminate. reflexivity.
  Qed.
End Q.

(** C128: files of invariants, and the fields of dat2vtk. *)
Require Import String.
Require Import List Arith NArith Ascii Bool Lia.
Require Import Verif.Base Verif.Dec Verif.Traj_Model Verif.Particles_Model Verif.Ngb_Model Verif.Ngb_Spec Verif.Files_Model Verif.Files_Spec Verif.Files_Proofs Verif.Export_Model Verif.Export_Spec Verif.Export_Proofs Verif.Export_Props Verif.Cloud_Model.
Import ListNotations.
Local Open Scope nat_scope.
Local Open Scope list_scope.

(** The last "_t" of a name without directory in its extension *)
Definition ordinary (head rest ext : text) : Prop := splits (txt "_t") (head ++ txt "_t" ++ rest ++ [dot] ++ ext) head (rest ++ [dot] ++ ext) /\ absent [dot] ext.

Section Names.
  Variables (head rest ext : text).
  Hypothesis H : ordinary head rest ext.
  Local Notation name := (head ++ txt "_t" ++ rest ++ [dot] ++ ext).
  Local Notation stem := (head ++ txt "_t" ++ rest).
  Lemma firstn_exact {A} (a b : list A) : firstn (List.length a) (a ++ b) = a.
  Proof. rewrite firstn_app, firstn_all, Nat.sub_diag. cbn. apply app_nil_r. Qed.
  Lemma skipn_exact {A} (a b : list A) : skipn (List.length a) (a ++ b) = b.
  Proof. rewrite skipn_app, skipn_all, Nat.sub_diag. reflexivity. Qed.
  Lemma stem_ok : stem_of name = stem.
  Proof.
    unfold stem_of, cut_ext. rewrite (rfind_splits [dot] name stem ext).
    - replace name with (stem ++ [dot] ++ ext) by (rewrite <- !app_assoc; reflexivity). apply firstn_exact.
    - destruct H as [_ Ha]. split; [rewrite <- !app_assoc; reflexivity|]. intros h' r' E. destruct (Nat.le_gt_cases (List.length h') (List.length stem)) as [L|L]; auto. exfalso.
      replace name with ((stem ++ [dot]) ++ ext) in E by (rewrite <- !app_assoc; reflexivity).
      apply (Ha (skipn (List.length (stem ++ [dot])) h') r'). assert (F := f_equal (skipn (List.length (stem ++ [dot]))) E). rewrite skipn_exact in F. rewrite F, skipn_app.
      rewrite (app_length stem). cbn [List.length]. replace (List.length stem + 1 - List.length h') with 0 by lia. reflexivity.
  Qed.
  Lemma rfind_name : rfind (txt "_t") name = Some (List.length head). Proof. apply (rfind_splits _ _ _ _ (proj1 H)). Qed.
  Lemma rfind_stem : rfind (txt "_t") stem = Some (List.length head).
  Proof.
    apply (rfind_splits _ _ head rest). split; [reflexivity|]. intros h' r' E. destruct H as [[_ Hm] _]. apply (Hm h' (r' ++ [dot] ++ ext)).
    replace name with (stem ++ [dot] ++ ext) by (rewrite <- !app_assoc; reflexivity). rewrite E, <- !app_assoc. reflexivity.
  Qed.
  (** C128.  boo writes the coarse grained invariants where dat2vtk reads them, when the time mark is not in the extension. *)
  Theorem C128_same_name : vtk_space_name name = Val (boo_space_name name) /\ boo_space_name name = head ++ txt "_space" ++ txt "_t" ++ rest ++ txt ".cloud".
  Proof.
    assert (B : boo_space_name name = head ++ txt "_space" ++ txt "_t" ++ rest ++ txt ".cloud").
    { unfold boo_space_name, boo_neck, boo_head. rewrite rfind_name, stem_ok. cbv zeta. rewrite firstn_exact. rewrite (proj2 (Nat.leb_le _ _)) by (rewrite app_length; lia). rewrite app_length, Nat.add_comm, Nat.add_sub.
      rewrite skipn_exact. rewrite (app_assoc (txt "_t") rest), firstn_exact. rewrite <- !app_assoc. reflexivity. }
    split; [|exact B]. rewrite B. unfold vtk_space_name. rewrite stem_ok. cbv zeta. rewrite rfind_stem, firstn_exact, skipn_exact. rewrite <- !app_assoc. reflexivity.
  Qed.
End Names.

Section Statements.
  Variables (B V : Type) (inv : nat -> B -> V * V) (zero : V) (show : V -> text) (parse : text -> option V) (rnd : V -> V).
  Hypothesis K : codec show parse rnd.
  Local Notation values b := (cloud_values B V inv b).
  (** Columns in the order of the names of the first line *)
  Definition q_of (l : nat) (b : B) : V := fst (inv l b).
  Definition w_of (l : nat) (b : B) : V := snd (inv l b).

  Lemma rows_words_c bs : words (cloud_rows B V inv show bs) = map show (flat_map (fun b => values b) bs).
  Proof.
    unfold cloud_rows. induction bs as [|b bs IH]; [reflexivity|]. cbn [flat_map]. rewrite (record_words V show parse rnd K (values b)), IH, map_app. reflexivity.
  Qed.
  Lemma values_len bs : List.length (flat_map (fun b => values b) bs) = List.length bs * 8.
  Proof. induction bs as [|b bs IH]; [reflexivity|]. cbn [flat_map]. rewrite app_length, IH. reflexivity. Qed.
  Lemma nth_values : forall bs p i b, nth_error bs p = Some b -> i < 8 -> nth (p * 8 + i) (map rnd (flat_map (fun b => values b) bs)) zero = rnd (nth i (values b) zero).
  Proof.
    induction bs as [|b0 bs IH]; intros [|p] i b E Hi; try discriminate; cbn [nth_error] in E.
    - injection E as ->. cbn [flat_map Nat.mul Nat.add]. rewrite map_app, app_nth1 by (rewrite map_length; auto). rewrite (nth_indep _ zero (rnd zero)) by (rewrite map_length; auto). apply map_nth.
    - cbn [flat_map]. rewrite map_app, app_nth2 by (rewrite map_length; cbn [cloud_values map app List.length]; lia). rewrite map_length. replace (S p * 8 + i - List.length (values b0)) with (p * 8 + i) by (cbn [cloud_values map app List.length]; lia). auto.
  Qed.

  (** C128.  What boo writes for the particles, for the coarse grained values, and boo_flip for the turned ones: loadBoo gives back, for each particle, the eight invariants
      q4 q6 q8 q10 w4 w6 w8 w10 in this order. *)
  Theorem C128_reload bs qw f : List.length qw = List.length bs * 8 -> In f [cloud_file B V inv show bs; space_file B V inv show bs; flip_file B V inv show bs] ->
    exists r, load_boo V parse f qw = Val r /\ List.length r = List.length qw /\
      forall p b, nth_error bs p = Some b -> map (fun i => nth (p * 8 + i) r zero) (seq 0 8) = map rnd [q_of 4 b; q_of 6 b; q_of 8 b; q_of 10 b; w_of 4 b; w_of 6 b; w_of 8 b; w_of 10 b].
  Proof.
    intros L Hf. assert (G : exists h, forallb not_newline h = true /\ f = h ++ newline :: cloud_rows B V inv show bs).
    { destruct Hf as [<-|[<-|[<-|[]]]]; [exists (names_line "q" "w")|exists (names_line "Q" "W")|exists (txt "#Q4" ++ [tab] ++ txt "Q6" ++ [tab] ++ txt "W4" ++ [tab] ++ txt "W6")]; split; reflexivity. }
    destruct G as [h [Hh ->]]. rewrite (C80_cloud V show parse rnd K h _ qw _ Hh (rows_words_c bs)). rewrite values_len, L, Nat.leb_refl. rewrite skipn_all2 by lia. rewrite app_nil_r.
    eexists. split; [reflexivity|]. split; [rewrite map_length, values_len; lia|]. intros p b E. cbn [seq map]. rewrite !(nth_values bs p _ b E) by lia. reflexivity.
  Qed.
  (** The first line names the columns. *)
  Theorem C128_names bs : exists h hs, forallb not_newline h = true /\ forallb not_newline hs = true /\
    cloud_file B V inv show bs = h ++ newline :: cloud_rows B V inv show bs /\ words h = map txt ["#q4"; "q6"; "q8"; "q10"; "w4"; "w6"; "w8"; "w10"]%string /\
    space_file B V inv show bs = hs ++ newline :: cloud_rows B V inv show bs /\ words hs = map txt ["#Q4"; "Q6"; "Q8"; "Q10"; "W4"; "W6"; "W8"; "W10"]%string.
  Proof. exists (names_line "q" "w"), (names_line "Q" "W"). repeat split. Qed.
  (** The file of the surface has no line of names: loadBoo drops the first particle, gives to each the invariants of the next one, and leaves the last as it was. *)
  Theorem C128_surf_refuted b0 bs qw : List.length qw = S (List.length bs) * 8 ->
    exists r, load_boo V parse (surf_file B V inv show (b0 :: bs)) qw = Val r /\
      (forall p b, nth_error bs p = Some b -> map (fun i => nth (p * 8 + i) r zero) (seq 0 8) = map (fun i => rnd (nth i (values b) zero)) (seq 0 8)) /\
      map (fun i => nth (List.length bs * 8 + i) r zero) (seq 0 8) = map (fun i => nth (List.length bs * 8 + i) qw zero) (seq 0 8).
  Proof.
    intros L. unfold surf_file, cloud_rows. cbn [flat_map]. rewrite <- app_assoc. change ([newline] ++ flat_map (fun b => flat_map (fun v => show v ++ [tab]) (values b) ++ [newline]) bs) with (newline :: cloud_rows B V inv show bs).
    assert (Hh : forallb not_newline (flat_map (fun v => show v ++ [tab]) (values b0)) = true).
    { induction (values b0) as [|v vs IH]; [reflexivity|]. cbn [flat_map]. rewrite !forallb_app, IH. cbn [forallb]. assert (W : word (show v)) by apply K. destruct W as [_ W].
      assert (X : forallb not_newline (show v) = true); [|rewrite X; reflexivity]. rewrite forallb_forall in W. apply forallb_forall. intros c Hc. specialize (W c Hc). destruct (not_newline c) eqn:E; auto. exfalso. revert W E. clear. destruct c as [[] [] [] [] [] [] [] []]; vm_compute; congruence. }
    rewrite (C80_cloud V show parse rnd K _ _ qw _ Hh (rows_words_c bs)). rewrite values_len, L. rewrite (proj2 (Nat.leb_le _ _)) by lia. eexists. split; [reflexivity|]. split.
    - intros p b E. apply map_ext_in. intros i Hi. apply in_seq in Hi. rewrite app_nth1; [apply nth_values; auto; lia|]. rewrite map_length, values_len. assert (p < List.length bs) by (apply nth_error_Some; congruence). lia.
    - apply map_ext_in. intros i Hi. apply in_seq in Hi. rewrite app_nth2 by (rewrite map_length, values_len; lia). rewrite map_length, values_len. rewrite Nat.add_comm, Nat.add_sub.
      rewrite <- (firstn_skipn (List.length bs * 8) qw) at 2. rewrite app_nth2; [|rewrite firstn_length; lia]. rewrite firstn_length. replace (Nat.min (List.length bs * 8) (List.length qw)) with (List.length bs * 8) by lia. f_equal. lia.
  Qed.

  Lemma column_ok n bs qw r i : n = List.length bs -> (forall p b, nth_error bs p = Some b -> map (fun i => nth (p * 8 + i) r zero) (seq 0 8) = map rnd (values b)) -> i < 8 -> qw = r ->
    table_column V zero n qw i = map (fun b => rnd (nth i (values b) zero)) bs.
  Proof.
    intros -> Hr Hi ->. unfold table_column. apply (nth_ext _ _ zero zero); [rewrite !map_length, seq_length; auto|]. intros p Hp. rewrite map_length, seq_length in Hp.
    destruct (nth_error bs p) as [b|] eqn:E; [|apply nth_error_None in E; lia]. specialize (Hr p b E).
    set (f := fun p => nth (p * 8 + i) r zero). rewrite (nth_indep _ zero (f 0)) by (rewrite map_length, seq_length; auto). rewrite map_nth, seq_nth by auto. unfold f. cbn [Nat.add].
    set (g := fun b => rnd (nth i (values b) zero)). rewrite (nth_indep (map g bs) zero (g b)) by (rewrite map_length; lia). rewrite map_nth. rewrite (nth_error_nth bs p b E). unfold g.
    assert (X := f_equal (fun l => nth i l zero) Hr). cbv beta in X. set (h := fun i => nth (p * 8 + i) r zero) in X. rewrite (nth_indep _ zero (h 0)) in X by (rewrite map_length, seq_length; auto). rewrite map_nth, seq_nth in X by auto.
    unfold h in X. cbn [Nat.add] in X. rewrite X. rewrite (nth_indep _ zero (rnd zero)) by (rewrite map_length; auto). apply map_nth.
  Qed.

  (** C128.  dat2vtk on the files of boo: one file, with the particles, their bonds and eight fields; those called W4 and W6 hold q8 and q10. *)
  Theorem C128_fields head rest ext disk argc dat bl bs cgs ps bonds : ordinary head rest ext -> 3 <= argc ->
    let name := head ++ txt "_t" ++ rest ++ [dot] ++ ext in let stem := head ++ txt "_t" ++ rest in
    disk name = Some dat -> snd (read_dat V zero parse dat) = ps -> List.length bs = List.length ps -> List.length cgs = List.length ps ->
    disk (stem ++ txt ".bonds") = Some bl -> load_bonds bl = Some bonds ->
    disk (stem ++ txt ".cloud") = Some (cloud_file B V inv show bs) -> disk (boo_space_name name) = Some (space_file B V inv show cgs) ->
    dat2vtk V zero show parse argc name disk = Val (stem ++ txt ".vtk", export_vtk V show (txt "particles") ps bonds
      [(txt "Q4", map (fun b => rnd (q_of 4 b)) bs); (txt "Q6", map (fun b => rnd (q_of 6 b)) bs); (txt "W4", map (fun b => rnd (q_of 8 b)) bs); (txt "W6", map (fun b => rnd (q_of 10 b)) bs);
       (txt "cgQ4", map (fun b => rnd (q_of 4 b)) cgs); (txt "cgQ6", map (fun b => rnd (q_of 6 b)) cgs); (txt "cgW4", map (fun b => rnd (q_of 8 b)) cgs); (txt "cgW6", map (fun b => rnd (q_of 10 b)) cgs)] []).
  Proof.
    intros Ho Ha name stem Hd Hps Lb Lc Hbl Hb Hc Hs. unfold dat2vtk. rewrite (proj2 (Nat.ltb_ge _ _)) by auto. cbv zeta. unfold name in *. rewrite (stem_ok head rest ext Ho). fold stem. rewrite Hd. cbn [obind]. rewrite Hps, Hbl. cbn [obind]. rewrite Hb, Hc. cbn [obind].
    destruct (C128_reload bs (repeat zero (List.length ps * 8)) (cloud_file B V inv show bs)) as [r [Er [_ Hr]]]; [rewrite repeat_length; lia|left; auto|]. rewrite Er. cbn [obind].
    rewrite (proj1 (C128_same_name head rest ext Ho)). cbn [obind]. rewrite Hs. cbn [obind].
    destruct (C128_reload cgs (repeat zero (List.length ps * 8)) (space_file B V inv show cgs)) as [r' [Er' [_ Hr']]]; [rewrite repeat_length; lia|right; left; auto|]. rewrite Er'. cbn [omap obind].
    cbn [seq map app combine]. rewrite !(column_ok (List.length ps) bs r r) by (auto; lia). rewrite !(column_ok (List.length ps) cgs r' r') by (auto; lia). reflexivity.
  Qed.
  (** The documented use, "dat2vtk filename", always stops on an exception. *)
  Theorem C128_syntax_refuted argc name disk : argc <= 2 -> dat2vtk V zero show parse argc name disk = Throw.
  Proof. intros Ha. unfold dat2vtk. rewrite (proj2 (Nat.ltb_lt _ _)) by lia. reflexivity. Qed.
  (** A name without time: nothing is ever written. *)
  Theorem C128_no_time_refuted argc name disk w : absent (txt "_t") (stem_of name) -> dat2vtk V zero show parse argc name disk <> Val w.
  Proof.
    intros Ha. unfold dat2vtk, vtk_space_name. rewrite (proj2 (rfind_none _ _) Ha). destruct (argc <? 3); [discriminate|]. cbv zeta.
    destruct (disk name); cbn [obind]; [|discriminate]. destruct (disk (stem_of name ++ txt ".bonds")); cbn [obind]; [|discriminate]. destruct (load_bonds t0); [|discriminate].
    destruct (disk (stem_of name ++ txt ".cloud")); cbn [obind]; [|discriminate]. destruct (load_boo _ _ _ _); cbn [obind]; discriminate.
  Qed.
End Statements.

(** "The field W4 of dat2vtk holds w4" is false: two particles without bonds, invariants 4 6 8 10 and 14 16 18 110 times the particle, plus one. *)
Definition inv_ex (l b : nat) : nat * nat := (l * b + 1, (10 + l) * b + 1).
Definition disk_ex (n : text) : option text :=
  let text_eqb a b := if list_eq_dec ascii_dec a b then true else false in
  if text_eqb n (txt "a_t0.dat") then Some (txt "1 2 1" ++ [newline] ++ txt "9 9 9" ++ [newline] ++ txt "0 0 0" ++ [newline] ++ txt "5 6 7" ++ [newline])
  else if text_eqb n (txt "a_t0.bonds") then Some (txt "0 1" ++ [newline])
  else if text_eqb n (txt "a_t0.cloud") then Some (cloud_file nat nat inv_ex print_nat [1; 2])
  else if text_eqb n (txt "a_space_t0.cloud") then Some (space_file nat nat inv_ex print_nat [3; 4]) else None.
Theorem C128_column_refuted : exists out, dat2vtk nat 0 print_nat nparse 3 (txt "a_t0.dat") disk_ex = Val (txt "a_t0.vtk", out) /\
  out = export_vtk nat print_nat (txt "particles") [(0, 0, 0); (5, 6, 7)] [(0, 1)]
    [(txt "Q4", [5; 9]); (txt "Q6", [7; 13]); (txt "W4", [9; 17]); (txt "W6", [11; 21]); (txt "cgQ4", [13; 17]); (txt "cgQ6", [19; 25]); (txt "cgW4", [25; 33]); (txt "cgW6", [31; 41])] [] /\
  map (fun b => snd (inv_ex 4 b)) [1; 2] = [15; 29].
Proof. eexists. split; [vm_compute; reflexivity|]. split; vm_compute; reflexivity. Qed.
Example C128_case : ordinary (txt "a") (txt "0") (txt "dat").
Proof.
  split; [split; [reflexivity|]|].
  - intros h r E. destruct h as [|c [|c1 h]]; cbn; [lia|lia|]. exfalso. cbn in E. injection E as _ _ E. do 7 (destruct h as [|? h]; [cbn in E; discriminate|]). discriminate.
  - intros h r E. do 4 (destruct h as [|? h]; [cbn in E; discriminate|]). discriminate.
Qed.
Print Assumptions C128_same_name. Print Assumptions C128_reload.
Print Assumptions C128_names. Print Assumptions C128_surf_refuted. Print Assumptions C128_fields. Print Assumptions C128_column_refuted.
Print Assumptions C128_syntax_refuted. Print Assumptions C128_no_time_refuted.

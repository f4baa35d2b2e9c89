(** C138: the vtk files of traj2vtk and cage2vtk. *)
Require Import String.
Require Import List Arith NArith Ascii Bool Lia.
Require Import Verif.Base Verif.Dec Verif.Traj_Model Verif.Particles_Model Verif.Ngb_Model Verif.Ngb_Spec Verif.Files_Proofs Verif.Export_Model Verif.Export_Spec Verif.Export_Proofs Verif.Export_Props Verif.DynFile_Proofs Verif.Film_Model.
Import ListNotations.
Local Open Scope nat_scope.
Local Open Scope list_scope.
Notation length := List.length.

Section Statements.
  Variables (V : Type) (zero : V) (show : V -> text) (parse : text -> option V) (rnd : V -> V).
  Hypothesis K : codec show parse rnd.
  (** The values of column [i], one per particle *)
  Definition col (i : nat) (rows : list (list V)) : list V := map (fun r => nth i r zero) rows.
  Local Notation read_values := (read_values V zero parse).

  Lemma count_words vs : words (count_text V show vs) = map show vs.
  Proof. unfold count_text. induction vs as [|v vs IH]; [reflexivity|]. cbn [flat_map map]. rewrite <- app_assoc. cbn [app]. rewrite words_head by (try reflexivity; apply K). rewrite IH. reflexivity. Qed.
  Lemma rows_words rows : words (boo_rows V show rows) = map show (concat rows).
  Proof. unfold boo_rows. induction rows as [|r rows IH]; [reflexivity|]. cbn [flat_map concat]. rewrite (record_words V show parse rnd K r), IH, map_app. reflexivity. Qed.
  Lemma values_ok n s vs : sane s -> words (buf s) = map show vs -> read_values n s = if length vs <=? n then Val (map rnd vs ++ repeat zero (n - length vs)) else UB.
  Proof.
    intros Sa W. unfold Film_Model.read_values. rewrite (load_boo_loop_val V show parse rnd K vs _ s [] Sa W). rewrite repeat_length. destruct (Nat.leb_spec (length vs) n); auto. cbn [app]. do 2 f_equal.
    revert n H. clear W Sa. induction (length vs) as [|k IH]; intros n H; [rewrite Nat.sub_0_r; reflexivity|]. destruct n; [lia|]. cbn [repeat skipn Nat.sub]. apply IH. lia.
  Qed.
  Lemma loop_failed : forall (arr : list V) s done, fail s = true -> load_boo_loop V parse arr s done = Val (done ++ arr).
  Proof. intros arr s done F. assert (R := read_with_failed V parse s F). destruct R as [s' [E _]]. destruct arr; cbn [load_boo_loop]; rewrite E; reflexivity. Qed.
  Lemma skip_ok h rest : forallb not_newline h = true -> skip_line (mkStream (h ++ newline :: rest) false false) = mkStream rest false false.
  Proof. intros H. unfold skip_line. rewrite get_line_exact by auto. reflexivity. Qed.
  Lemma open_ok l : open_text l = mkStream l false false. Proof. reflexivity. Qed.
  Lemma sane_fresh l : sane (mkStream l false false). Proof. split; [reflexivity|discriminate]. Qed.
  Lemma phi_ok n vs : length vs = n -> read_values n (skip_line (skip_line (stream_of (Some (phi_text V show vs))))) = Val (map rnd vs).
  Proof.
    intros L. cbn [stream_of]. rewrite open_ok. unfold phi_text, vtk_scalar. cbn [fst snd].
    replace (txt "SCALARS " ++ txt "phi" ++ txt " double" ++ [newline] ++ txt "LOOKUP_TABLE default" ++ [newline] ++ flat_map (fun v => show v ++ [newline]) vs)
      with (txt "SCALARS phi double" ++ newline :: (txt "LOOKUP_TABLE default" ++ newline :: count_text V show vs)) by reflexivity.
    rewrite !skip_ok by reflexivity. rewrite (values_ok n _ vs (sane_fresh _) (count_words vs)), L, Nat.leb_refl, Nat.sub_diag, app_nil_r. reflexivity.
  Qed.
  Lemma vel_ok n vs : length vs = n -> read_velocities V zero parse n (stream_of (Some (vel_text V show vs))) = map (on_triple rnd) vs.
  Proof.
    intros L. cbn [stream_of]. rewrite open_ok. unfold read_velocities, vel_text, vtk_vector. cbn [fst snd].
    replace (txt "VECTORS " ++ txt "V" ++ txt " double" ++ [newline] ++ flat_map (vtk_row V show) vs) with (txt "VECTORS V double" ++ newline :: flat_map (vtk_row V show) vs) by reflexivity.
    rewrite skip_ok by reflexivity. rewrite (read_rows_words V zero show parse rnd K n vs _ (sane_fresh _)).
    - rewrite firstn_all2, L, Nat.sub_diag, app_nil_r by lia. reflexivity.
    - cbn [buf]. rewrite <- (app_nil_r (flat_map _ vs)). rewrite (vtk_rows_words V show parse rnd K). apply app_nil_r.
  Qed.
  Lemma counts_ok n vs : length vs = n -> read_values n (stream_of (Some (count_text V show vs))) = Val (map rnd vs).
  Proof. intros L. cbn [stream_of]. rewrite open_ok. rewrite (values_ok n _ vs (sane_fresh _) (count_words vs)), L, Nat.leb_refl, Nat.sub_diag, app_nil_r. reflexivity. Qed.
  Lemma concat_len c : forall rows : list (list V), Forall (fun r => length r = c) rows -> length (concat rows) = length rows * c.
  Proof. induction 1 as [|r rows Hr _ IH]; [reflexivity|]. cbn [concat length]. rewrite app_length, IH, Hr. lia. Qed.
  Lemma concat_nth c : forall rows : list (list V), Forall (fun r => length r = c) rows -> forall p i, i < c -> nth (p * c + i) (concat rows) zero = nth i (nth p rows []) zero.
  Proof.
    induction 1 as [|r rows Hr _ IH]; intros p i Hi; [cbn [concat]; rewrite (nth_overflow (@nil (list V))) by (cbn; lia); rewrite !nth_overflow by (cbn; lia); reflexivity|]. cbn [concat]. destruct p as [|p]; cbn [nth Nat.mul Nat.add].
    - apply app_nth1. lia.
    - rewrite app_nth2 by lia. rewrite Hr. replace (c + p * c + i - c) with (p * c + i) by lia. auto.
  Qed.
  Lemma boo_ok header c rows n : forallb not_newline header = true -> Forall (fun r => length r = c) rows -> length rows * c <= n * 8 ->
    load_boo V parse (boo_text V show header rows) (repeat zero (n * 8)) = Val (map rnd (concat rows) ++ repeat zero (n * 8 - length rows * c)).
  Proof.
    intros Hh F L. unfold boo_text. rewrite (load_boo_val V show parse rnd K header _ (repeat zero (n * 8)) (concat rows) Hh (rows_words rows)). rewrite repeat_length, (concat_len c) by auto.
    rewrite (proj2 (Nat.leb_le _ _)) by auto. do 2 f_equal. generalize dependent (length rows * c). generalize (n * 8). intros m k. revert m. clear. induction k as [|k IH]; intros m L; [rewrite Nat.sub_0_r; reflexivity|].
    destruct m; [lia|]. cbn [repeat skipn Nat.sub]. apply IH. lia.
  Qed.
  Lemma nth_map_rnd l i : i < length l -> nth i (map rnd l) zero = rnd (nth i l zero).
  Proof. intros H. rewrite (nth_indep _ zero (rnd zero)) by (rewrite map_length; auto). apply map_nth. Qed.
  Lemma map_nth_seq {A} (d : A) l : map (fun p => nth p l d) (seq 0 (length l)) = l.
  Proof. apply (nth_ext _ _ d d); [rewrite map_length, seq_length; auto|]. intros i Hi. rewrite map_length, seq_length in Hi. set (f := fun p => nth p l d). rewrite (nth_indep _ d (f 0)) by (rewrite map_length, seq_length; auto). rewrite map_nth, seq_nth by auto. reflexivity. Qed.
  Lemma column_rows n rows i : Forall (fun r => length r = 8) rows -> length rows = n -> i < 8 -> film_column V zero n (map rnd (concat rows) ++ repeat zero (n * 8 - length rows * 8)) i = map rnd (col i rows).
  Proof.
    intros F L Hi. rewrite L, Nat.sub_diag, app_nil_r. unfold film_column, col. rewrite map_map. transitivity (map (fun r => rnd (nth i r zero)) (map (fun p => nth p rows []) (seq 0 n))); [|rewrite <- L, map_nth_seq; reflexivity]. rewrite map_map. apply map_ext_in. intros p Hp. apply in_seq in Hp.
    rewrite nth_map_rnd by (rewrite (concat_len 8) by auto; nia). rewrite (concat_nth 8) by auto. reflexivity.
  Qed.

  (** The files of one time step as the previous stages write them: every field of the vtk file holds, particle by particle, the values of the stage of that name;
      the volume fraction is there when it is asked. *)
  Definition stages (dat : text) (bl : text) (boo : text) (counts phi : list V) (vel : list (V * V * V)) : frame_files :=
    mkFiles (Some dat) (Some bl) (Some boo) (Some (count_text V show counts)) (Some (phi_text V show phi)) (Some (vel_text V show vel)).
  Theorem C138_traj dat bl ps bonds rows counts phi vel have_volume : snd (read_dat V zero parse dat) = ps -> load_bonds bl = Some bonds ->
    length rows = length ps -> Forall (fun r => length r = 8) rows -> length counts = length ps -> length phi = length ps -> length vel = length ps ->
    traj_frame V zero show parse have_volume (stages dat bl (boo_text V show traj_header rows) counts phi vel) = Val (export_vtk V show (txt "particles") ps bonds
      ([(txt "Q4", map rnd (col 0 rows)); (txt "Q6", map rnd (col 1 rows)); (txt "Q8", map rnd (col 2 rows)); (txt "Q10", map rnd (col 3 rows));
        (txt "W4", map rnd (col 4 rows)); (txt "W6", map rnd (col 5 rows)); (txt "W8", map rnd (col 6 rows)); (txt "W10", map rnd (col 7 rows));
        (txt "lostNgb", map rnd counts)] ++ if have_volume then [(txt "phi", map rnd phi)] else [])
      [(txt "velocity", map (on_triple rnd) vel)]).
  Proof.
    intros Hp Hb L F Lc Lf Lv. unfold traj_frame, film_frame, stages. cbn [dat_file bond_file boo_file count_file phi_file vel_file obind]. cbv zeta. rewrite Hp, Hb.
    rewrite (boo_ok traj_header 8 rows (length ps)) by (auto; lia). cbn [obind]. rewrite (counts_ok _ counts Lc). cbn [obind]. rewrite (phi_ok _ phi Lf), (vel_ok _ vel Lv).
    cbn [seq map]. rewrite !(column_rows (length ps) rows) by (auto; lia). destruct have_volume; reflexivity.
  Qed.
  (** If printing a value read gives the digits that were read, the vtk file holds the digits of the files. *)
  Theorem C138_digits dat bl ps bonds rows counts phi vel have_volume : (forall v, show (rnd v) = show v) -> snd (read_dat V zero parse dat) = ps -> load_bonds bl = Some bonds ->
    length rows = length ps -> Forall (fun r => length r = 8) rows -> length counts = length ps -> length phi = length ps -> length vel = length ps ->
    exists out, traj_frame V zero show parse have_volume (stages dat bl (boo_text V show traj_header rows) counts phi vel) = Val out /\
      out = export_vtk V show (txt "particles") ps bonds
      ([(txt "Q4", col 0 rows); (txt "Q6", col 1 rows); (txt "Q8", col 2 rows); (txt "Q10", col 3 rows); (txt "W4", col 4 rows); (txt "W6", col 5 rows); (txt "W8", col 6 rows); (txt "W10", col 7 rows);
        (txt "lostNgb", counts)] ++ if have_volume then [(txt "phi", phi)] else []) [(txt "velocity", vel)].
  Proof.
    intros I Hp Hb L F Lc Lf Lv. rewrite (C138_traj dat bl ps bonds rows counts phi vel have_volume) by auto. eexists. split; [reflexivity|].
    assert (Sc : forall nm vs, vtk_scalar V show (nm, map rnd vs) = vtk_scalar V show (nm, vs)).
    { intros nm vs. unfold vtk_scalar. cbn [fst snd]. assert (X : flat_map (fun v => show v ++ [newline]) (map rnd vs) = flat_map (fun v => show v ++ [newline]) vs) by (clear - I; induction vs as [|v vs IH]; [reflexivity|]; cbn [map flat_map]; rewrite I, IH; reflexivity). rewrite X. reflexivity. }
    assert (Ve : forall nm vs, vtk_vector V show (nm, map (on_triple rnd) vs) = vtk_vector V show (nm, vs)).
    { intros nm vs. unfold vtk_vector. cbn [fst snd]. assert (X : flat_map (vtk_row V show) (map (on_triple rnd) vs) = flat_map (vtk_row V show) vs) by (clear - I; induction vs as [|[[x y] z] vs IH]; [reflexivity|]; cbn [map flat_map on_triple vtk_row]; rewrite !I, IH; reflexivity). rewrite X. reflexivity. }
    unfold export_vtk. destruct have_volume; cbn [app flat_map]; rewrite Ve, !Sc; reflexivity.
  Qed.

  (** cage2vtk: the positions, bonds, jumps, volume fractions and velocities are those of the files, but the bond order file has four columns and is read as if it had eight:
      particle p is given the values of particle 2p, and null values in the second half. *)
  Theorem C138_cage dat bl ps bonds rows counts phi vel have_volume : snd (read_dat V zero parse dat) = ps -> load_bonds bl = Some bonds ->
    length rows = length ps -> Forall (fun r => length r = 4) rows -> length counts = length ps -> length phi = length ps -> length vel = length ps ->
    exists f, cage_frame V zero show parse have_volume (stages dat bl (boo_text V show cage_header rows) counts phi vel) = Val (export_vtk V show (txt "particles") ps bonds
      ([(txt "Q4", f 0); (txt "Q6", f 1); (txt "W4", f 2); (txt "W6", f 3); (txt "jumps", map rnd counts)] ++ if have_volume then [(txt "phi", map rnd phi)] else [])
      [(txt "velocity", map (on_triple rnd) vel)]) /\
      forall i, i < 4 -> f i = map (fun p => match nth_error rows (2 * p) with Some r => rnd (nth i r zero) | None => zero end) (seq 0 (length ps)).
  Proof.
    intros Hp Hb L F Lc Lf Lv. exists (film_column V zero (length ps) (map rnd (concat rows) ++ repeat zero (length ps * 8 - length rows * 4))). split.
    - unfold cage_frame, film_frame, stages. cbn [dat_file bond_file boo_file count_file phi_file vel_file obind]. cbv zeta. rewrite Hp, Hb.
      rewrite (boo_ok cage_header 4 rows (length ps)) by (auto; lia). cbn [obind]. rewrite (counts_ok _ counts Lc). cbn [obind]. rewrite (phi_ok _ phi Lf), (vel_ok _ vel Lv). destruct have_volume; reflexivity.
    - intros i Hi. unfold film_column. apply map_ext. intros p. replace (p * 8 + i) with ((2 * p) * 4 + i) by lia. destruct (nth_error rows (2 * p)) as [r|] eqn:E.
      + assert (B : 2 * p < length rows) by (apply nth_error_Some; congruence). rewrite app_nth1 by (rewrite map_length, (concat_len 4) by auto; nia). rewrite nth_map_rnd by (rewrite (concat_len 4) by auto; nia).
        rewrite (concat_nth 4) by auto. rewrite (nth_error_nth rows (2 * p) [] E). reflexivity.
      + apply nth_error_None in E. rewrite app_nth2 by (rewrite map_length, (concat_len 4) by auto; nia). apply nth_repeat.
  Qed.

  (** In the files of bond order every column is under its name: the fields of the vtk files of traj2vtk have the names of the columns. *)
  Theorem C138_header r : (length r = 8 -> combine (words traj_header) (words (boo_rows V show [r])) = combine (map txt ["#Q4"; "Q6"; "Q8"; "Q10"; "W4"; "W6"; "W8"; "W10"]%string) (map show r) /\ length (words traj_header) = length (words (boo_rows V show [r]))) /\
    (length r = 4 -> combine (words cage_header) (words (boo_rows V show [r])) = combine (map txt ["#Q4"; "Q6"; "W4"; "W6"]%string) (map show r) /\ length (words cage_header) = length (words (boo_rows V show [r]))).
  Proof.
    rewrite rows_words. cbn [concat]. rewrite app_nil_r. assert (A : words traj_header = map txt ["#Q4"; "Q6"; "Q8"; "Q10"; "W4"; "W6"; "W8"; "W10"]%string) by (vm_compute; reflexivity). assert (B : words cage_header = map txt ["#Q4"; "Q6"; "W4"; "W6"]%string) by (vm_compute; reflexivity).
    rewrite A, B, !map_length. split; intros L; rewrite L; split; reflexivity.
  Qed.

  (** A missing file of counts, of volume fractions or of velocities gives null values, not an error. *)
  Theorem C138_missing n : read_values n (stream_of None) = Val (repeat zero n) /\ read_values n (skip_line (skip_line (stream_of None))) = Val (repeat zero n) /\
    read_velocities V zero parse n (stream_of None) = repeat (zero, zero, zero) n.
  Proof.
    split; [|split].
    - unfold Film_Model.read_values. rewrite loop_failed by reflexivity. reflexivity.
    - unfold Film_Model.read_values. rewrite loop_failed by reflexivity. reflexivity.
    - unfold read_velocities. apply read_rows_failed. reflexivity.
  Qed.
  (** A value that cannot be read back, like "nan", and all those after it are null. *)
  Theorem C138_unread_refuted n vs w rest : parse w = None -> word w -> length vs <= n -> read_values n (stream_of (Some (count_text V show vs ++ w ++ newline :: rest))) = Val (map rnd vs ++ repeat zero (n - length vs)).
  Proof.
    intros P W. cbn [stream_of]. rewrite open_ok. unfold Film_Model.read_values. assert (G : forall vs arr s done, sane s -> words (buf s) = map show vs ++ w :: words rest -> length vs <= length arr ->
      load_boo_loop V parse arr s done = Val (done ++ map rnd vs ++ skipn (length vs) arr)).
    { clear vs. induction vs as [|v vs IH]; intros arr s done Sa Wd L.
      - cbn [map app length skipn]. destruct (get_word_some s _ _ Sa Wd) as [sp [r [_ [_ [_ [_ [_ [_ G]]]]]]]]. assert (R : exists s', read_with parse s = (None, s')) by (unfold read_with; rewrite G, P; eauto). destruct R as [s' R]. destruct arr; cbn [load_boo_loop]; rewrite R; reflexivity.
      - destruct arr as [|a arr]; [cbn in L; lia|]. cbn [map app] in Wd. destruct (read_with_some V parse s _ _ _ Sa Wd (proj2 (K v))) as [r [E [Wr _]]]. cbn [load_boo_loop]. rewrite E.
        rewrite (IH arr _ _ (sane_rest r) Wr) by (cbn in L; lia). cbn [map length skipn app]. rewrite <- app_assoc. reflexivity. }
    intros L. rewrite (G vs).
    - cbn [app]. do 2 f_equal. clear G. revert n L. induction (length vs) as [|k IH]; intros n L; [rewrite Nat.sub_0_r; reflexivity|]. destruct n; [lia|]. cbn [repeat skipn Nat.sub]. apply IH. lia.
    - apply sane_fresh.
    - cbn [buf]. clear G. unfold count_text. induction vs as [|v vs IH]; [cbn [flat_map app map]; apply words_head; auto|]. cbn [flat_map map app]. rewrite <- !app_assoc. cbn [app]. rewrite words_head by (try reflexivity; apply K). rewrite IH; [reflexivity|cbn in L; lia].
    - rewrite repeat_length. auto.
  Qed.
  (** A file with more values than particles writes out of bounds. *)
  Theorem C138_long_refuted n vs : n < length vs -> read_values n (stream_of (Some (count_text V show vs))) = UB.
  Proof. intros L. cbn [stream_of]. rewrite open_ok, (values_ok n _ vs (sane_fresh _) (count_words vs)). rewrite (proj2 (Nat.leb_gt _ _)) by auto. reflexivity. Qed.
End Statements.

(** One file per time step, in order, as long as the files of every step are right; those of the steps before a failure stay. *)
Theorem C138_steps frame files size : (forall t, t < size -> exists l, frame (files t) = Val l) -> exists w, film frame files (seq 0 size) = (w, Val tt) /\ map fst w = seq 0 size /\ forall t, t < size -> exists l, In (t, l) w /\ frame (files t) = Val l.
Proof.
  intros H. assert (G : forall ts, (forall t, In t ts -> t < size) -> exists w, film frame files ts = (w, Val tt) /\ map fst w = ts /\ forall t, In t ts -> exists l, In (t, l) w /\ frame (files t) = Val l).
  { induction ts as [|t ts IH]; intros B; [exists []; repeat split; intros ? []|]. destruct (H t (B t (or_introl eq_refl))) as [l El]. destruct IH as (w & Ew & Mw & Iw); [intros; apply B; right; auto|].
    exists ((t, l) :: w). cbn [film]. rewrite El, Ew. split; [reflexivity|]. split; [cbn; congruence|]. intros u [<-|Hu]; [exists l; split; [left; auto|auto]|]. destruct (Iw u Hu) as (l' & I' & E'). exists l'. split; [right|]; auto. }
  destruct (G (seq 0 size)) as (w & Ew & Mw & Iw); [intros t Ht; apply in_seq in Ht; lia|]. exists w. repeat split; auto. intros t Ht. apply Iw. apply in_seq. lia.
Qed.
Theorem C138_stops frame files size k : k < size -> (forall t, t < k -> exists l, frame (files t) = Val l) -> frame (files k) = Throw -> exists w, film frame files (seq 0 size) = (w, Throw) /\ map fst w = seq 0 k /\ forall t, t < k -> exists l, In (t, l) w /\ frame (files t) = Val l.
Proof.
  intros Hk H E. destruct (C138_steps frame files k H) as (w & Ew & Mw & Iw). exists w. split; [|auto]. replace size with (k + S (size - S k)) by lia. rewrite seq_app. cbn [seq Nat.add].
  assert (G : forall ts u, film frame files ts = (u, Val tt) -> film frame files (ts ++ k :: seq (S k) (size - S k)) = (u, Throw)).
  { induction ts as [|t ts IH]; intros u Eu; cbn [film app] in *; [injection Eu as <-; rewrite E; reflexivity|]. destruct (frame (files t)); try discriminate. destruct (film frame files ts) as [u' o']. injection Eu as <- ->. rewrite (IH u' eq_refl). reflexivity. }
  apply G. auto.
Qed.

(** Two particles, numbers in base 10 *)
Definition case_dat : text := export_dat nat print_nat (9, 9, 9) [(1, 2, 3); (4, 5, 6)].
Definition case_rows : list (list nat) := [[1; 2; 3; 4; 5; 6; 7; 8]; [11; 12; 13; 14; 15; 16; 17; 18]].
Example C138_case : snd (read_dat nat 0 nparse case_dat) = [(1, 2, 3); (4, 5, 6)] /\ load_bonds (txt "0 1") = Some [(0, 1)] /\
  traj_frame nat 0 print_nat nparse true (stages nat print_nat case_dat (txt "0 1") (boo_text nat print_nat traj_header case_rows) [3; 0] [50; 60] [(7, 8, 9); (1, 0, 1)]) =
  Val (export_vtk nat print_nat (txt "particles") [(1, 2, 3); (4, 5, 6)] [(0, 1)]
    [(txt "Q4", [1; 11]); (txt "Q6", [2; 12]); (txt "Q8", [3; 13]); (txt "Q10", [4; 14]); (txt "W4", [5; 15]); (txt "W6", [6; 16]); (txt "W8", [7; 17]); (txt "W10", [8; 18]); (txt "lostNgb", [3; 0]); (txt "phi", [50; 60])]
    [(txt "velocity", [(7, 8, 9); (1, 0, 1)])]).
Proof. split; [vm_compute; reflexivity|]. split; vm_compute; reflexivity. Qed.
(** cage2vtk on two particles with the values 1 2 3 4 and 11 12 13 14: the second particle has only null values. *)
Theorem C138_cage_refuted : exists out, cage_frame nat 0 print_nat nparse false (stages nat print_nat case_dat (txt "0 1") (boo_text nat print_nat cage_header [[1; 2; 3; 4]; [11; 12; 13; 14]]) [3; 0] [50; 60] [(7, 8, 9); (1, 0, 1)]) = Val out /\
  out = export_vtk nat print_nat (txt "particles") [(1, 2, 3); (4, 5, 6)] [(0, 1)] [(txt "Q4", [1; 0]); (txt "Q6", [2; 0]); (txt "W4", [3; 0]); (txt "W6", [4; 0]); (txt "jumps", [3; 0])] [(txt "velocity", [(7, 8, 9); (1, 0, 1)])].
Proof. eexists. split; [vm_compute; reflexivity|]. vm_compute. reflexivity. Qed.

Print Assumptions C138_traj. Print Assumptions C138_header. Print Assumptions C138_digits. Print Assumptions C138_cage. Print Assumptions C138_missing. Print Assumptions C138_unread_refuted.
Print Assumptions C138_long_refuted. Print Assumptions C138_steps. Print Assumptions C138_stops. Print Assumptions C138_cage_refuted.

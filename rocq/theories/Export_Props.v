(** C78, C79, C80: text files of particles, bonds, VTK, and bond orientational order. *)
Require Import String.
Require Import List Arith NArith Ascii Bool Lia Sorted.
Require Import Verif.Base Verif.Dec Verif.Traj_Model Verif.Particles_Model Verif.Ngb_Model Verif.Ngb_Spec Verif.Ngb_Proofs Verif.Export_Model Verif.Export_Spec Verif.Export_Proofs.
Import ListNotations.
Local Open Scope nat_scope.
Local Open Scope list_scope.

Section Files.
  Variables (V : Type) (zero : V) (show : V -> text) (parse : text -> option V) (rnd : V -> V).
  Hypothesis K : codec show parse rnd.

  (** C78: positions exported then read are the same, in the same order, each coordinate rounded once by the printing; so is the upper corner of the box. *)
  Theorem C78_round_trip upper ps : (N.of_nat (length ps) < two64)%N ->
    read_dat V zero parse (export_dat V show upper ps) = (on_triple (fun v => Some (rnd v)) upper, map (on_triple rnd) ps).
  Proof.
    intros H. rewrite (read_dat_words V zero show parse rnd K _ (length ps) upper ps H (export_dat_words V show parse rnd K upper ps)).
    rewrite firstn_all, Nat.sub_diag, app_nil_r. reflexivity.
  Qed.
  (** Any file with the words of such a header and rows is read, whatever its spacing: the announced number of particles; those that have no row are silently at the origin. *)
  Theorem C78_read l n upper ps : (N.of_nat n < two64)%N ->
    words l = [txt "1"; print_nat n; txt "1"] ++ map show (triple upper) ++ flat_map (fun p => map show (triple p)) ps ->
    read_dat V zero parse l = (on_triple (fun v => Some (rnd v)) upper, map (on_triple rnd) (firstn n ps) ++ repeat (zero, zero, zero) (n - length ps)).
  Proof. apply read_dat_words. exact K. Qed.
  (** A missing row gives no error but a particle at the origin. *)
  Theorem C78_truncated_refuted upper ps p : (N.of_nat (S (length ps)) < two64)%N ->
    exists l, words l = removelast (removelast (removelast (words (export_dat V show upper (ps ++ [p]))))) /\
      read_dat V zero parse l = (on_triple (fun v => Some (rnd v)) upper, map (on_triple rnd) ps ++ [(zero, zero, zero)]).
  Proof.
    intros H. set (ws := [txt "1"; print_nat (S (length ps)); txt "1"] ++ map show (triple upper) ++ flat_map (fun p => map show (triple p)) ps).
    assert (Ww : Forall word ws). { unfold ws. rewrite !Forall_app. split; [|split]. - repeat constructor; try apply print_word; try discriminate. - apply Forall_forall. intros w I. apply in_map_iff in I as [v [<- _]]. apply K.
      - apply Forall_forall. intros w I. apply in_flat_map in I as [q [_ I]]. apply in_map_iff in I as [v [<- _]]. apply K. }
    assert (X : words (flat_map (fun w => w ++ [newline]) ws) = ws). { clear - Ww. induction Ww as [|w ws Hw Ww IH]; [reflexivity|]. cbn [flat_map]. rewrite <- app_assoc. cbn [app]. rewrite words_head by (auto; reflexivity). rewrite IH. reflexivity. }
    exists (flat_map (fun w => w ++ [newline]) ws). split.
    - rewrite X. rewrite (export_dat_words V show parse rnd K). rewrite flat_map_app, app_length. cbn [flat_map length]. rewrite app_nil_r, Nat.add_1_r. unfold ws. destruct p as [[x y] z]. cbn [triple map].
      set (a := [txt "1"; print_nat (S (length ps)); txt "1"]). set (b := map show (triple upper)). set (c := flat_map _ ps).
      change [show x; show y; show z] with ([show x; show y] ++ [show z]). rewrite !app_assoc, removelast_last. change [show x; show y] with ([show x] ++ [show y]). rewrite !app_assoc, !removelast_last. reflexivity.
    - rewrite (C78_read _ (S (length ps)) upper ps H X). rewrite firstn_all2 by lia. replace (S (length ps) - length ps) with 1 by lia. reflexivity.
  Qed.

  (** C79: the VTK file announces as many points and cells as it holds, each bond being one cell. *)
  Theorem C79_vtk_counts name ps bonds scalars vectors :
    exists P L F, words (export_vtk V show name ps bonds scalars vectors) =
      words (txt "# vtk DataFile Version 3.0") ++ words name ++ [txt "ASCII"; txt "DATASET"; txt "POLYDATA"; txt "POINTS"; print_nat (length ps); txt "double"] ++ P ++
      [txt "LINES"; print_nat (length bonds); print_nat (length L)] ++ L ++ [txt "POINT_DATA"; print_nat (length ps)] ++ F /\
      P = map show (flat_map triple ps) /\ length P = 3 * length ps /\
      L = flat_map (fun b => [txt "2"; print_nat (fst b); print_nat (snd b)]) bonds /\
      F = flat_map (fun f => [txt "SCALARS"] ++ words (fst f) ++ [txt "double"; txt "LOOKUP_TABLE"; txt "default"] ++ map show (snd f)) scalars ++
          flat_map (fun f => [txt "VECTORS"] ++ words (fst f) ++ [txt "double"] ++ map show (flat_map triple (snd f))) vectors.
  Proof.
    assert (R : forall qs, flat_map (fun p => map show (triple p)) qs = map show (flat_map triple qs)). { induction qs as [|q qs IH]; [reflexivity|]. cbn [flat_map]. rewrite map_app, IH. reflexivity. }
    do 3 eexists. split; [|split; [|split; [|split]]]; [|reflexivity|rewrite map_length; induction ps as [|[[x y] z] ps IH]; [reflexivity|cbn [flat_map triple app length] in *; lia]|reflexivity|reflexivity].
    rewrite (export_vtk_words V show parse rnd K). rewrite R.
    assert (Ll : length (flat_map (fun b : nat * nat => [txt "2"; print_nat (fst b); print_nat (snd b)]) bonds) = length bonds * 3). { induction bonds as [|b bonds IH]; [reflexivity|]. cbn [flat_map app length]. rewrite IH. lia. }
    rewrite Ll. assert (Vv : flat_map (vector_of V show) vectors = flat_map (fun f => [txt "VECTORS"] ++ words (fst f) ++ [txt "double"] ++ map show (flat_map triple (snd f))) vectors)
      by (apply flat_map_ext; intros f; unfold vector_of; rewrite R; reflexivity).
    rewrite Vv. reflexivity.
  Qed.
End Files.

(** The number of values of a field is not compared to the number of points: the reader takes the following words as values. *)
Theorem C79_field_refuted : exists (ps : list (nat * nat * nat)) (f : text * list nat), length (snd f) <> length ps /\
  words (export_vtk nat print_nat [] ps [] [f] []) = words (export_vtk nat print_nat [] ps [] [] []) ++ [txt "SCALARS"; txt "q"; txt "double"; txt "LOOKUP_TABLE"; txt "default"; txt "7"].
Proof. exists [(1, 2, 3); (4, 5, 6)], (txt "q", [7]). split; [discriminate|vm_compute; reflexivity]. Qed.

(** C79: bonds saved then loaded are the same set. *)
Theorem C79_bonds_round_trip bonds : bond_set bonds -> Forall (fun b => (N.of_nat (snd b) < two64)%N) bonds -> load_bonds (save_bonds bonds) = Some bonds.
Proof.
  intros [So Le] H. destruct (load_pairs bonds (S (length (save_bonds bonds))) (open_text (save_bonds bonds)) [] (sane_open _) (save_bonds_words bonds)) as [r [E [[Sr _] I]]].
  - rewrite Forall_forall in *. intros b J. specialize (H b J). specialize (Le b J). split; lia.
  - cbn. lia.
  - split; constructor.
  - unfold load_bonds. rewrite E. f_equal. apply lex_ext; auto. intros b. rewrite I. rewrite Forall_forall in Le.
    assert (M : forall p, In p bonds -> mk_bond (fst p) (snd p) = p). { intros [x y] J. specialize (Le _ J). unfold mk_bond. cbn [fst snd] in *. destruct (Nat.ltb_spec x y); auto. f_equal; lia. }
    split. + intros [[]|[p [J ->]]]. rewrite M; auto. + intros J. right. exists b. split; auto. symmetry; auto.
Qed.
(** Any file of pairs of numbers, in any order and orientation, with repetitions, gives the set of these bonds. *)
Theorem C79_bonds_load l prs : words l = flat_map (fun p => [print_nat (fst p); print_nat (snd p)]) prs ->
  Forall (fun p => (N.of_nat (fst p) < two64)%N /\ (N.of_nat (snd p) < two64)%N) prs ->
  exists bonds, load_bonds l = Some bonds /\ bond_set bonds /\ forall x y, x <= y -> (In (x, y) bonds <-> In (x, y) prs \/ In (y, x) prs).
Proof.
  intros W H. destruct (load_pairs prs (S (length l)) (open_text l) [] (sane_open l) W H) as [r [E [B I]]]; [cbn; lia|split; constructor|].
  exists r. split; [exact E|]. split; [auto|]. intros x y Hxy. rewrite I. split.
  - intros [[]|[[a b] [J M]]]. unfold mk_bond in M. cbn [fst snd] in M. destruct (Nat.ltb_spec a b); injection M as -> ->; auto.
  - intros [J|J]; right; [exists (x, y)|exists (y, x)]; split; auto; unfold mk_bond; cbn [fst snd].
    + destruct (Nat.ltb_spec x y); auto. f_equal; lia.
    + destruct (Nat.ltb_spec y x); auto. f_equal; lia.
Qed.
(** Any file at all is read to its end or to the first thing that is not a number, and gives a set of bonds. *)
Theorem C79_bonds_total l : exists bonds, load_bonds l = Some bonds /\ bond_set bonds.
Proof. destruct (load_total (S (length l)) (open_text l) []) as [r [E [R _]]]; [cbn; lia|split; constructor|]. exists r. auto. Qed.

Section Boo.
  Variables (V : Type) (show : V -> text) (parse : text -> option V) (rnd : V -> V).
  Hypothesis K : codec show parse rnd.
  (** C80: coefficients of all the particles saved then loaded are the same, rounded once by the printing. *)
  Theorem C80_qlm_round_trip boos old : Forall (fun b => length b = 72) boos -> length old = length boos -> load_qlm V parse (save_qlm V show boos) old = Val (map (map rnd) boos).
  Proof.
    intros H L. unfold load_qlm. rewrite (load_qlm_loop_val V show parse rnd K boos); auto; [|apply sane_open|apply (save_qlm_words V show parse rnd K)].
    rewrite L, Nat.leb_refl, skipn_all2 by lia. rewrite app_nil_r. reflexivity.
  Qed.
  (** A file with fewer records leaves the last values as they were; with more records than particles it writes out of bounds. *)
  Theorem C80_qlm_other l boos old : Forall (fun b => length b = 72) boos -> words l = flat_map (map show) boos ->
    load_qlm V parse l old = if length boos <=? length old then Val (map (map rnd) boos ++ skipn (length boos) old) else UB.
  Proof. intros H W. unfold load_qlm. rewrite (load_qlm_loop_val V show parse rnd K boos); auto. apply sane_open. Qed.
  (** Degree 6: what is exported can never be loaded for the same particles, the final newline makes a row out of bounds. *)
  Theorem C80_q6m_refuted q6s old : Forall (fun q => length q = 7) q6s -> Forall (fun q => length q = 7) old -> length old = length q6s ->
    load_q6m V parse (export_q6m V show q6s) old = UB.
  Proof.
    intros H Ho L. unfold load_q6m. rewrite (load_q6m_val V show parse rnd K q6s); auto; [|apply sane_open|apply (export_q6m_words V show parse rnd K)|].
    - cbn [open_text buf]. rewrite export_q6m_trail, L, Nat.ltb_irrefl. reflexivity.
    - right. right. apply export_q6m_trail.
  Qed.
  (** Exactly: with white space at the end, one spare particle is needed; without, as many particles as rows. *)
  Theorem C80_q6m l q6s old : Forall (fun q => length q = 7) q6s -> Forall (fun q => length q = 7) old -> words l = flat_map (map show) q6s -> 
    load_q6m V parse l old = if (if trail l then length q6s <? length old else length q6s <=? length old) then Val (map (map rnd) q6s ++ skipn (length q6s) old) else UB.
  Proof.
    intros H Ho W. unfold load_q6m. rewrite (load_q6m_val V show parse rnd K q6s); auto; [apply sane_open|]. cbn [open_text buf]. destruct q6s as [|q q6s]; [right|left; discriminate].
    destruct l as [|c l]; [left; auto|right]. apply spaces_trail; [exact W|discriminate].
  Qed.
  (** Invariants: after the header line, at most 8 values per particle, in order; more write out of bounds. *)
  Theorem C80_cloud header l qw vs : forallb not_newline header = true -> words l = map show vs ->
    load_boo V parse (header ++ newline :: l) qw = if length vs <=? length qw then Val (map rnd vs ++ skipn (length vs) qw) else UB.
  Proof. apply load_boo_val. exact K. Qed.
End Boo.

(** Concrete cases: numbers printed in base 10. *)
Definition nparse (w : text) : option nat := match w with [] => None | _ => if forallb is_digit w then Some (N.to_nat (value_from 0 w)) else None end.
Example codec_nat : codec print_nat nparse (fun v => v).
Proof.
  intros v. split; [apply print_word|]. unfold nparse, print_nat. destruct (print_N_ok (N.of_nat v)) as [A [B C]]. rewrite B, C, Nat2N.id. destruct (print_N (N.of_nat v)); [congruence|reflexivity].
Qed.
Example C78_case : read_dat nat 0 nparse (export_dat nat print_nat (64, 64, 32) [(1, 2, 3); (40, 50, 60)]) = ((Some 64, Some 64, Some 32), [(1, 2, 3); (40, 50, 60)]).
Proof. vm_compute. reflexivity. Qed.
Example C79_case : load_bonds (txt "3 1 1 3 0 12 5 x 7 8") = Some [(0, 12); (1, 3)] /\ bond_set [(0, 12); (1, 3)].
Proof. split; [vm_compute; reflexivity|]. split; repeat constructor; cbn; lia. Qed.
Example C80_case : let q a := [a; a + 1; a + 2; a + 3; a + 4; a + 5; a + 6] in
  load_q6m nat nparse (export_q6m nat print_nat [q 10; q 20]) [q 0; q 0; q 5] = Val [q 10; q 20; q 5] /\ load_q6m nat nparse (export_q6m nat print_nat [q 10; q 20]) [q 0; q 0] = UB.
Proof. vm_compute. auto. Qed.

Print Assumptions C78_round_trip.
Print Assumptions C78_read.
Print Assumptions C78_truncated_refuted.
Print Assumptions C79_vtk_counts.
Print Assumptions C79_field_refuted.
Print Assumptions C79_bonds_round_trip.
Print Assumptions C79_bonds_load.
Print Assumptions C79_bonds_total.
Print Assumptions C80_qlm_round_trip.
Print Assumptions C80_qlm_other.
Print Assumptions C80_q6m_refuted.
Print Assumptions C80_q6m.
Print Assumptions C80_cloud.

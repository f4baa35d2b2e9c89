(** Proofs about names of series of images. *)
Require Import List Bool Arith NArith Ascii Lia.
Require Import Verif.Dec Verif.Traj_Model Verif.Particles_Model Verif.Files_Model Verif.Files_Spec Verif.Files_Proofs Verif.Serie_Model.
Import ListNotations.

Lemma absent_nil tok : tok <> [] -> absent tok [].
Proof. intros H h r E. destruct h, tok; cbn in E; congruence. Qed.
Lemma absent_cons tok c s : absent tok s -> prefixb tok (c :: s) = false -> absent tok (c :: s).
Proof. intros A P. apply rfind_none. apply rfind_none in A. cbn [rfind]. rewrite A, P. auto. Qed.
Lemma absent_app_r tok a s : absent tok (a ++ s) -> absent tok s.
Proof. intros A h r E. apply (A (a ++ h) r). rewrite E, !app_assoc. auto. Qed.
Lemma digit_not c n : is_digit c = true -> (n <? 48)%N || (57 <? n)%N = true -> (n < 256)%N -> c <> ascii_of_N n.
Proof.
  intros D H B ->. unfold is_digit in D. rewrite N_ascii_embedding in D by auto. apply andb_true_iff in D as [D1 D2]. apply N.leb_le in D1, D2. apply orb_true_iff in H as [H|H]; apply N.ltb_lt in H; lia.
Qed.
(** A mark (underscore, letter) does not begin in digits. *)
Lemma absent_digits c r s ds : c = ascii_of_N 95 -> numeral ds -> absent (c :: r) s -> absent (c :: r) (ds ++ s).
Proof.
  intros -> N A. induction ds as [|d ds IH]; [auto|]. cbn [app]. apply absent_cons; [apply IH; intros x Hx; apply N; right; auto|].
  cbn [prefixb]. assert (D : is_digit d = true) by (apply N; left; auto). assert (X : d <> ascii_of_N 95) by (apply digit_not; auto; reflexivity).
  destruct (Ascii.eqb_spec (ascii_of_N 95) d); [congruence|auto].
Qed.
Lemma absent_z_time ds tail : numeral ds -> absent z_mark tail -> absent z_mark (t_mark ++ ds ++ tail).
Proof.
  intros N A. apply absent_digits with (ds := ds) in A; auto. cbn [t_mark app]. apply absent_cons; [apply absent_cons|]; auto.
Qed.
Lemma absent_t_depth ds tail : numeral ds -> absent t_mark tail -> absent t_mark (z_mark ++ ds ++ tail).
Proof.
  intros N A. apply absent_digits with (ds := ds) in A; auto. cbn [z_mark app]. apply absent_cons; [apply absent_cons|]; auto.
Qed.
Lemma mark_free : digit_free t_mark /\ digit_free z_mark.
Proof. split; (split; [discriminate|]); intros c [<-|[<-|[]]]; reflexivity. Qed.
Lemma rfind_number mark head ds tail : mark = t_mark \/ mark = z_mark -> ds <> [] -> numeral ds -> absent mark tail -> rfind mark (head ++ mark ++ ds ++ tail) = Some (length head).
Proof. intros M D N A. apply rfind_splits with (r := ds ++ tail). apply splits_digits; auto. destruct M as [->| ->]; apply mark_free. Qed.
Lemma skipn_head {A} (h r : list A) k : skipn (length h + k) (h ++ r) = skipn k r.
Proof. induction h; cbn; auto. Qed.
Lemma digits_after_ok mark head ds tail : length mark = 2 -> numeral ds -> no_digit_first tail -> digits_after (head ++ mark ++ ds ++ tail) (length head) = Some (length ds, tail).
Proof.
  intros L N T. unfold digits_after. rewrite skipn_head. destruct mark as [|a [|b [|]]]; try discriminate. cbn [app skipn]. rewrite span_digits by auto.
  destruct T as [c [s [-> _]]]. auto.
Qed.
Lemma span_all ds : numeral ds -> span_while is_digit ds = (ds, []).
Proof.
  induction ds as [|d ds IH]; intros N; [auto|]. cbn. rewrite (N d) by (left; auto). rewrite IH; auto. intros x Hx. apply N. right. auto.
Qed.
Lemma digits_after_end mark head ds : length mark = 2 -> numeral ds -> digits_after (head ++ mark ++ ds) (length head) = None.
Proof.
  intros L N. unfold digits_after. rewrite skipn_head. destruct mark as [|a [|b [|]]]; try discriminate. cbn [app skipn]. rewrite span_all by auto. auto.
Qed.
Lemma firstn_head {A} (h r : list A) : firstn (length h) (h ++ r) = h.
Proof. rewrite firstn_app, firstn_all, Nat.sub_diag. cbn. apply app_nil_r. Qed.
Lemma resize_head (h r : text) : resize (length h) (h ++ r) = h.
Proof. unfold resize. rewrite firstn_head, app_length. replace (length h - (length h + length r)) with 0 by lia. apply app_nil_r. Qed.
Lemma c_str_all s : ~ In nul s -> c_str s = s.
Proof. induction s as [|c s IH]; intros H; [auto|]. cbn [c_str]. destruct (Ascii.eqb_spec c nul) as [->|]; [exfalso; apply H; left; auto|]. f_equal. apply IH. intros I. apply H. right. auto. Qed.
Lemma c_str_cut s r : ~ In nul s -> c_str (s ++ nul :: r) = s.
Proof. induction s as [|c s IH]; intros H; [auto|]. cbn [c_str app]. destruct (Ascii.eqb_spec c nul) as [->|]; [exfalso; apply H; left; auto|]. f_equal. apply IH. intros I. apply H. right. auto. Qed.
Lemma numeral_no_nul s : numeral s -> ~ In nul s.
Proof. intros N I. apply N in I. discriminate. Qed.
Lemma pad_no_nul w n : ~ In nul (pad w n).
Proof. apply numeral_no_nul. apply (pad_writes w n). Qed.
Lemma pad_is w n s : writes w n s -> pad w n = s.
Proof. intros H. exact (writes_fun w n _ _ (pad_writes w n) H). Qed.
Lemma writes_own ds : ds <> [] -> numeral ds -> writes (length ds) (value_from 0 ds) ds.
Proof. intros D N. split; auto. split; auto. assert (L := print_N_len _ ds N D eq_refl). lia. Qed.
Lemma no_percent_b s : no_percent s -> existsb (Ascii.eqb percent) s = false.
Proof. apply no_percent_iff. Qed.

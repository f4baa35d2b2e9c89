(** Reading back what was written. *)
Require Import List Arith NArith Ascii Bool Lia.
Require Import Verif.Dec Verif.Traj_Model Verif.TrajFile_Model.
Import ListNotations.

Definition fits (n : nat) : Prop := (N.of_nat n < two64)%N.

Lemma read_num_nat n ws rest : fits n -> forallb is_space ws = true ->
  (match rest with [] => True | c :: _ => is_digit c = false end) ->
  read_num (mkStream (ws ++ print_nat n ++ rest) false false) =
    (Some (N.of_nat n), mkStream rest (match rest with [] => true | _ => false end) false).
Proof. intros. apply read_num_print; auto. Qed.

Lemma tail_head ps : match flat_map (fun q => tab :: print_nat q) ps with [] => True | c :: _ => is_digit c = false end.
Proof. destruct ps; simpl; auto. Qed.
Lemma tail_nil ps : match flat_map (fun q => tab :: print_nat q) ps with [] => true | _ => false end = match ps with [] => true | _ => false end.
Proof. destruct ps; simpl; auto. Qed.

Lemma read_steps_tail : forall ps fuel idx acc, Forall fits ps -> length ps <= fuel ->
  read_steps fuel (mkStream (flat_map (fun q => tab :: print_nat q) ps) (match ps with [] => true | _ => false end) false) idx acc
  = Some (acc ++ ps).
Proof.
  induction ps as [|p ps IH]; intros fuel idx acc Hf Hl.
  - rewrite app_nil_r. destruct fuel; reflexivity.
  - destruct fuel as [|fuel]; [simpl in Hl; lia|]. inversion Hf; subst. cbn [read_steps eof].
    change (flat_map (fun q => tab :: print_nat q) (p :: ps)) with ([tab] ++ print_nat p ++ flat_map (fun q => tab :: print_nat q) ps).
    rewrite read_num_nat; auto; [|apply tail_head]. rewrite tail_nil, Nat2N.id, IH; auto; [|simpl in Hl; lia].
    rewrite <- app_assoc. reflexivity.
Qed.

Lemma read_line_ok p ps : fits p -> Forall fits ps ->
  read_line_steps (print_nat p ++ flat_map (fun q => tab :: print_nat q) ps) = Some (p :: ps).
Proof.
  intros Hp Hps. unfold read_line_steps, open_text. cbn [read_steps eof].
  pose proof (read_num_nat p [] (flat_map (fun q => tab :: print_nat q) ps) Hp eq_refl (tail_head ps)) as Hr.
  cbn [app] in Hr. rewrite Hr, tail_nil, Nat2N.id. clear Hr. rewrite read_steps_tail; auto.
  rewrite app_length. assert (length ps <= length (flat_map (fun q => tab :: print_nat q) ps)); [|lia].
  clear. induction ps as [|p ps IH]; simpl; auto. rewrite app_length. lia.
Qed.

Lemma digits_not_newline n : forallb not_newline (print_nat n) = true.
Proof.
  unfold print_nat. destruct (print_N_ok (N.of_nat n)) as [_ [H _]]. rewrite forallb_forall in *. intros c Hc.
  apply digit_not_newline, H, Hc.
Qed.
Lemma line_not_newline p ps : forallb not_newline (print_nat p ++ flat_map (fun q => tab :: print_nat q) ps) = true.
Proof.
  rewrite forallb_app, digits_not_newline. simpl. induction ps as [|q ps IH]; auto. simpl.
  rewrite forallb_app, digits_not_newline. auto.
Qed.

Definition traj_fits (T : traj) : Prop := steps T <> [] /\ fits (start T) /\ Forall fits (steps T).

(** What remains in the stream once the start time of [T] has been read. *)
Definition body (T : traj) : text :=
  match steps T with [] => [] | p :: ps => newline :: print_nat p ++ flat_map (fun q => tab :: print_nat q) ps ++ [newline] end.

Lemma print_index_body : forall tri, Forall traj_fits tri ->
  print_index tri = Some (flat_map (fun T => print_nat (start T) ++ body T) tri).
Proof.
  induction tri as [|T tri IH]; intros H; auto. inversion H as [|? ? [Hne _] Hr]; subst. cbn [print_index flat_map].
  unfold print_traj, body. destruct (steps T) as [|p ps] eqn:E; [congruence|]. rewrite IH by auto. f_equal.
  unfold body. rewrite <- !app_assoc. simpl. f_equal. f_equal. rewrite <- !app_assoc. reflexivity.
Qed.

Lemma read_loop_ok : forall tri fuel T acc, traj_fits T -> Forall traj_fits tri -> length tri < fuel ->
  read_index_loop fuel (mkStream (body T ++ flat_map (fun T => print_nat (start T) ++ body T) tri) false false)
    (Some (N.of_nat (start T))) acc = Some (acc ++ T :: tri).
Proof.
  induction tri as [|U tri IH]; intros fuel T acc HT Htri Hf; (destruct fuel as [|fuel]; [simpl in Hf; lia|]);
    destruct HT as [Hne [Hs Hps]]; cbn [read_index_loop good_stream eof fail negb andb]; unfold body at 1;
    destruct (steps T) as [|p ps] eqn:E; try congruence; inversion Hps; subst.
  - cbn [flat_map]. rewrite app_nil_r. unfold get_char at 1. cbn [good_stream eof fail negb andb buf]. unfold get_line. cbn [good_stream eof fail negb andb buf].
    rewrite app_assoc, span_while_app; [|apply line_not_newline|reflexivity].
    cbn beta iota. rewrite read_line_ok by auto. change (read_num _) with (@None N, mkStream [] true true).
    destruct fuel; cbn [read_index_loop good_stream eof fail negb andb]; rewrite Nat2N.id, <- E; destruct T; reflexivity.
  - unfold get_char at 1. cbn [app good_stream eof fail negb andb buf]. unfold get_line. cbn [good_stream eof fail negb andb buf].
    replace ((print_nat p ++ flat_map (fun q => tab :: print_nat q) ps ++ [newline]) ++ flat_map (fun T => print_nat (start T) ++ body T) (U :: tri))
      with ((print_nat p ++ flat_map (fun q => tab :: print_nat q) ps) ++ newline :: flat_map (fun T => print_nat (start T) ++ body T) (U :: tri))
      by (rewrite <- !app_assoc; reflexivity).
    rewrite span_while_app; [|apply line_not_newline|reflexivity].
    cbn beta iota. rewrite read_line_ok by auto. inversion Htri as [|? ? HU Htri']; subst.
    cbn [flat_map]. 
    change ((print_nat (start U) ++ body U) ++ flat_map (fun T => print_nat (start T) ++ body T) tri) with
      ((print_nat (start U) ++ body U) ++ flat_map (fun T => print_nat (start T) ++ body T) tri).
    rewrite <- app_assoc. 
    assert (Hh : exists c l, body U ++ flat_map (fun T => print_nat (start T) ++ body T) tri = c :: l /\ is_digit c = false).
    { unfold body at 1. destruct HU as [HU _]. destruct (steps U); [congruence|]. simpl. eauto. }
    pose proof (read_num_nat (start U) [] (body U ++ flat_map (fun T => print_nat (start T) ++ body T) tri)) as Hr.
    cbn [app] in Hr. rewrite Hr; auto.
    + destruct Hh as [c [l [Eh _]]]. 
      assert (match body U ++ flat_map (fun T => print_nat (start T) ++ body T) tri with [] => true | _ => false end = false) as -> by (rewrite Eh; auto).
      rewrite IH; auto; [|simpl in Hf; lia]. rewrite Nat2N.id, <- app_assoc, <- E. destruct T; reflexivity.
    + apply HU.
    + destruct Hh as [c [l [Eh Hc]]]. rewrite Eh. auto.
Qed.

Lemma read_index_ok tri acc : Forall traj_fits tri ->
  exists l, print_index tri = Some l /\ read_index l acc = Some (acc ++ tri).
Proof.
  intros H. exists (flat_map (fun T => print_nat (start T) ++ body T) tri). split; [apply print_index_body, H|].
  destruct tri as [|T tri].
  - simpl. rewrite app_nil_r. reflexivity.
  - inversion H as [|? ? HT Htri]; subst. unfold read_index, open_text.
    set (tl := flat_map (fun T => print_nat (start T) ++ body T) tri).
    assert (El : flat_map (fun T => print_nat (start T) ++ body T) (T :: tri) = [] ++ print_nat (start T) ++ (body T ++ tl)).
    { cbn [flat_map app]. rewrite <- app_assoc. reflexivity. }
    rewrite El. assert (Hh : exists c l, body T ++ tl = c :: l /\ is_digit c = false).
    { unfold body at 1. destruct HT as [HT _]. destruct (steps T); [congruence|]. simpl. eauto. }
    rewrite read_num_nat; [|apply HT|reflexivity|destruct Hh as [c [l [Eh Hc]]]; rewrite Eh; auto].
    assert (match body T ++ tl with [] => true | _ => false end = false) as -> by (destruct Hh as [c [l [-> _]]]; auto).
    apply read_loop_ok; auto.
    rewrite !app_length. assert (length tri <= length tl); [|lia].
    unfold tl. clear. induction tri as [|T tri IH]; simpl; auto. rewrite !app_length.
    destruct (print_nat_digit_head (start T)) as [c [l [-> _]]]. simpl. lia.
Qed.

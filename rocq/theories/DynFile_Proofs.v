(** Trajectory files: reading of the header and of the index that follows it. *)
Require Import String.
Require Import List Arith NArith Ascii Bool Lia.
Require Import Verif.Base Verif.ListX Verif.Dec Verif.Traj_Model Verif.Traj_Spec Verif.Traj_Proofs Verif.TrajFile_Model Verif.TrajFile_Proofs Verif.Particles_Model Verif.Export_Model Verif.Export_Spec Verif.Export_Proofs
  Verif.Files_Model Verif.DynFile_Model.
Import ListNotations.
Local Open Scope nat_scope.
Local Open Scope list_scope.

Lemma word_head w : word w -> exists c l, w = c :: l /\ is_space c = false.
Proof. intros [H1 H2]. destruct w as [|c l]; [congruence|]. cbn in H2. apply andb_true_iff in H2 as [H2 _]. apply negb_true_iff in H2. eauto. Qed.
Lemma get_word_exact sp w c rest : forallb is_space sp = true -> word w -> is_space c = true ->
  get_word (mkStream (sp ++ w ++ c :: rest) false false) = (Some w, mkStream (c :: rest) false false).
Proof.
  intros Hs Hw Hc. unfold get_word. cbn [good_stream eof fail negb andb buf]. destruct (word_head w Hw) as [x [l [E Hx]]].
  rewrite span_while_app; [|auto|rewrite E; exact Hx]. cbn [snd].
  pose proof (span_while_app (fun c => negb (is_space c)) w (c :: rest) (proj2 Hw)) as S. cbn beta iota in S. rewrite Hc in S. specialize (S eq_refl). rewrite E in *. cbn [app] in *. rewrite S. reflexivity.
Qed.
Lemma get_line_exact l rest : forallb not_newline l = true -> get_line (mkStream (l ++ newline :: rest) false false) = (l, mkStream rest false false).
Proof. intros H. unfold get_line. cbn [good_stream eof fail negb andb buf]. rewrite span_while_app by (auto; reflexivity). reflexivity. Qed.

Lemma read_index_from_ok tri : Forall traj_fits tri -> exists l, print_index tri = Some l /\ read_index_from (mkStream (newline :: l) false false) = Some tri.
Proof.
  intros H. exists (flat_map (fun T => print_nat (start T) ++ body T) tri). split; [apply print_index_body, H|].
  destruct tri as [|T tri]; [reflexivity|]. inversion H as [|? ? HT Htri]; subst. unfold read_index_from.
  set (tl := flat_map (fun T => print_nat (start T) ++ body T) tri).
  assert (El : newline :: flat_map (fun T => print_nat (start T) ++ body T) (T :: tri) = [newline] ++ print_nat (start T) ++ (body T ++ tl)).
  { cbn [flat_map app]. rewrite <- app_assoc. reflexivity. }
  rewrite El. assert (Hh : exists c l, body T ++ tl = c :: l /\ is_digit c = false).
  { unfold body at 1. destruct HT as [HT _]. destruct (steps T); [congruence|]. simpl. eauto. }
  rewrite read_num_nat; [|apply HT|reflexivity|destruct Hh as [c [l [Eh Hc]]]; rewrite Eh; auto].
  assert (match body T ++ tl with [] => true | _ => false end = false) as -> by (destruct Hh as [c [l [-> _]]]; auto).
  apply read_loop_ok; auto. cbn [buf].
  rewrite !app_length. assert (length tri <= length tl); [|lia].
  unfold tl. clear. induction tri as [|T tri IH]; simpl; auto. rewrite !app_length.
  destruct (print_nat_digit_head (start T)) as [c [l [-> _]]]. simpl. lia.
Qed.

Section Header.
  Variables (V : Type) (show : V -> text) (parse : text -> option V) (rnd : V -> V).
  Hypothesis K : codec show parse rnd.
  Lemma read_header_ok radius dt base token off size l : forallb not_newline base = true -> forallb not_newline token = true -> fits off -> fits size ->
    read_header V parse (show radius ++ [tab] ++ show dt ++ [newline] ++ base ++ [newline] ++ token ++ [newline] ++ print_nat off ++ [tab] ++ print_nat size ++ [newline] ++ l)
    = (Some (rnd radius), Some (rnd dt), base, token, Some (N.of_nat off), Some (N.of_nat size), mkStream (newline :: l) false false).
  Proof.
    intros Hb Ht Ho Hsz. unfold read_header, read_with, open_text. destruct (K radius) as [W1 P1]. destruct (K dt) as [W2 P2]. cbn [app].
    pose proof (get_word_exact [] (show radius) tab) as G. cbn [app] in G. rewrite G by (auto; reflexivity). rewrite P1. clear G.
    match goal with |- context [get_word (mkStream (tab :: show dt ++ newline :: ?r) false false)] => pose proof (get_word_exact [tab] (show dt) newline r) as G end. cbn [app] in G. rewrite G by (auto; reflexivity). rewrite P2. clear G.
    unfold get_char. cbn [good_stream eof fail negb andb buf]. rewrite get_line_exact by auto. rewrite get_line_exact by auto.
    match goal with |- context [read_num (mkStream (print_nat off ++ tab :: ?r) false false)] => pose proof (read_num_nat off [] (tab :: r) Ho eq_refl eq_refl) as G end. cbn [app] in G. rewrite G. clear G.
    match goal with |- context [read_num (mkStream (tab :: print_nat size ++ newline :: ?r) false false)] => pose proof (read_num_nat size [tab] (newline :: r) Hsz eq_refl eq_refl) as G end. cbn [app] in G. rewrite G. reflexivity.
  Qed.
  (** A space before the end of the first line. *)
  Lemma read_header_space radius dt base token off size l sp : is_space sp = true -> sp <> newline -> forallb not_newline base = true ->
    exists o s z, read_header V parse (show radius ++ [tab] ++ show dt ++ [sp; newline] ++ base ++ [newline] ++ token ++ [newline] ++ print_nat off ++ [tab] ++ print_nat size ++ [newline] ++ l)
    = (Some (rnd radius), Some (rnd dt), [], base, o, s, z) /\
    ((exists c t', token = c :: t' /\ is_space c = false /\ is_digit c = false) -> o = None).
  Proof.
    intros Hs Hn Hb. unfold read_header, read_with, open_text. destruct (K radius) as [W1 P1]. destruct (K dt) as [W2 P2]. cbn [app].
    pose proof (get_word_exact [] (show radius) tab) as G. cbn [app] in G. rewrite G by (auto; reflexivity). rewrite P1. clear G.
    match goal with |- context [get_word (mkStream (tab :: show dt ++ sp :: ?r) false false)] => pose proof (get_word_exact [tab] (show dt) sp r) as G end. cbn [app] in G. rewrite G by (auto; reflexivity). rewrite P2. clear G.
    unfold get_char. cbn [good_stream eof fail negb andb buf].
    match goal with |- context [get_line (mkStream (newline :: ?r) false false)] => pose proof (get_line_exact [] r eq_refl) as G end. cbn [app] in G. rewrite G. clear G. rewrite get_line_exact by auto.
    match goal with |- context [read_num ?st] => destruct (read_num st) as [o s5] eqn:E end. destruct (read_num s5) as [z s6] eqn:E6. do 3 eexists. split; [reflexivity|].
    intros [c [t' [-> [Hc Hd]]]]. unfold read_num in E. cbn [good_stream eof fail negb andb buf app span_while] in E. rewrite Hc in E. cbn [snd span_while] in E. rewrite Hd in E. injection E as <- _. reflexivity.
  Qed.
End Header.

(** makeInverse writes out of bounds as soon as a trajectory goes beyond the frames. *)
Lemma inv_write_none inv t p tr : length inv <= t -> inv_write inv t p tr = None.
Proof. intros H. unfold inv_write. apply nth_error_None in H. rewrite H. reflexivity. Qed.
Lemma inv_write_len inv t p tr inv' : inv_write inv t p tr = Some inv' -> length inv' = length inv.
Proof. unfold inv_write. destruct (nth_error inv t) as [row|]; [|discriminate]. destruct (nth_error row p); [|discriminate]. intros H. injection H as <-. apply set_nth_len. Qed.
Lemma inv_traj_len : forall ps inv t tr inv', inv_traj inv t tr ps = Some inv' -> length inv' = length inv.
Proof.
  induction ps as [|p ps IH]; intros inv t tr inv' H; [injection H as <-; auto|]. cbn [inv_traj] in H. destruct (inv_write inv t p tr) as [i1|] eqn:E; [|discriminate].
  apply inv_write_len in E. apply IH in H. lia.
Qed.
Lemma inv_traj_none : forall ps inv t tr, ps <> [] -> length inv < t + length ps -> inv_traj inv t tr ps = None.
Proof.
  induction ps as [|p ps IH]; intros inv t tr Hne H; [congruence|]. cbn [inv_traj]. destruct (inv_write inv t p tr) as [i1|] eqn:E; [|auto].
  destruct ps as [|q ps]. { rewrite inv_write_none in E; [discriminate|cbn in H; lia]. } apply IH; [discriminate|]. apply inv_write_len in E. cbn [length] in *. lia.
Qed.
Lemma inv_all_none T : steps T <> [] -> forall tri inv tr, In T tri -> length inv < start T + length (steps T) -> inv_all inv tr tri = None.
Proof.
  intros Hne. induction tri as [|U tri IH]; intros inv tr Hi H; [destruct Hi|]. cbn [inv_all]. destruct (inv_traj inv (start U) tr (steps U)) as [i1|] eqn:E; [|auto].
  destruct Hi as [->|Hi]. - rewrite inv_traj_none in E by auto. discriminate. - apply IH; auto. apply inv_traj_len in E. lia.
Qed.

Lemma folder_of_ok : forall folder name, (folder = [] \/ exists f c, folder = f ++ [c] /\ is_sep c = true) -> forallb (fun c => negb (is_sep c)) name = true -> folder_of (folder ++ name) = folder.
Proof.
  assert (N : forall name, forallb (fun c => negb (is_sep c)) name = true -> folder_of name = []).
  { induction name as [|c name IH]; intros H; [auto|]. cbn in H. apply andb_true_iff in H as [H1 H2]. cbn. rewrite IH by auto. destruct (is_sep c); [discriminate|auto]. }
  intros folder name H Hn. destruct H as [->|[f [c [-> Hc]]]]; [apply N, Hn|]. rewrite <- app_assoc. cbn [app].
  induction f as [|d f IH]; cbn [app folder_of]. - rewrite N by auto. rewrite Hc. auto. - rewrite IH. destruct f; reflexivity.
Qed.

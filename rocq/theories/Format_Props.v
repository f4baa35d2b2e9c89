(** C111: names of the files of a series asked by several threads. *)
Require Import List Bool Arith NArith Ascii Lia String.
Require Import Verif.Base Verif.Dec Verif.RTree_Model Verif.ListX Verif.Traj_Model Verif.Files_Model Verif.Format_Model.
Import ListNotations.
Local Open Scope nat_scope.

Lemma nth_set_y : forall A (l : list A) i x j, i < List.length l -> nth_error (set_nth i x l) j = if j =? i then Some x else nth_error l j.
Proof.
  intros A l; induction l as [|a l IH]; intros i x j H; [cbn in H; lia|].
  destruct i, j; cbn; auto. apply IH. cbn in H; lia.
Qed.
Lemma nth_lt_y : forall A (l : list A) i x, nth_error l i = Some x -> i < List.length l.
Proof. intros A l i x H. apply nth_error_Some. rewrite H. discriminate. Qed.

(** Vocabulary: every thread has asked for all its names; each thread has got the right names, in the order of its questions. *)
Definition all_answered (ths : list caller) : Prop := Forall (fun th => asks th = []) ths.
Definition right_names (fs : serie) (asked : list (list N)) (ths : list caller) : Prop := map names ths = map (map (step_name fs)) asked.

Section Private.
  Variables (fs : serie) (use : nat -> nat).
  Hypothesis inj : forall i j, use i = use j -> i = j.
  (** thread i, that was asked the names [todo] *)
  Definition on_track (f : option fmt) (todo : list N) (th : caller) : Prop :=
    exists past, todo = past ++ asks th /\ names th = map (step_name fs) past /\
      match phase th with
      | 0 => True
      | 1 => exists g, f = Some g /\ fed g = false /\ dumped g = false
      | _ => exists t r, asks th = t :: r /\ exists g, f = Some g /\ fed g = true /\ item g = pad (width fs) ((t + offset fs) mod two64)
      end.
  Definition tracks (asked : list (list N)) (s : list fmt * list caller) : Prop :=
    List.length (snd s) = List.length asked /\ (forall i, i < List.length asked -> use i < List.length (fst s)) /\
    forall i todo th, nth_error asked i = Some todo -> nth_error (snd s) i = Some th -> on_track (nth_error (fst s) (use i)) todo th.
  Lemma track_step : forall asked s i, tracks asked s -> exists s', call_step fs use s i = Val s' /\ tracks asked s'.
  Proof.
    intros asked [formats ths] i [L [U T]]. cbn [fst snd] in *. unfold call_step.
    destruct (nth_error ths i) as [[[|t r] ph got]|] eqn:E; [exists (formats, ths); split; [reflexivity|split; [exact L|split; [exact U|exact T]]]| |exists (formats, ths); split; [reflexivity|split; [exact L|split; [exact U|exact T]]]].
    assert (Li : i < List.length ths) by (eapply nth_lt_y; eauto).
    assert (Lu : use i < List.length formats) by (apply U; lia).
    destruct (nth_error formats (use i)) as [f|] eqn:Ef; [|apply nth_error_None in Ef; lia].
    destruct (nth_error asked i) as [todo|] eqn:Ea; [|apply nth_error_None in Ea; lia].
    destruct (T i todo _ Ea E) as [past [P1 [P2 P3]]]. cbn [asks names phase] in *. rewrite Ef in P3.
    assert (K : forall f' th', on_track (Some f') todo th' -> tracks asked (set_nth (use i) f' formats, set_nth i th' ths)).
    { intros f' th' H. split; [cbn; rewrite set_nth_len; exact L|]. split; [cbn; rewrite set_nth_len; exact U|]. cbn [fst snd]. intros j tj thj Hj Hth.
      rewrite nth_set_y in Hth by exact Li. rewrite nth_set_y by exact Lu. destruct (Nat.eqb_spec j i) as [->|D].
      - rewrite Nat.eqb_refl. assert (tj = todo) by congruence. assert (thj = th') by congruence. subst. exact H.
      - destruct (Nat.eqb_spec (use j) (use i)) as [Eu|_]; [apply inj in Eu; contradiction|]. eapply T; eauto. }
    destruct ph as [|[|ph]].
    - eexists. split; [reflexivity|]. apply K. exists past. split; [exact P1|]. split; [exact P2|]. cbn. eexists. split; [reflexivity|]. split; reflexivity.
    - destruct P3 as [g [Eg [F1 F2]]]. injection Eg as <-. unfold fmt_feed. rewrite F2, F1. eexists. split; [reflexivity|]. apply K.
      exists past. split; [exact P1|]. split; [exact P2|]. cbn. exists t, r. split; [reflexivity|]. eexists. split; [reflexivity|]. split; reflexivity.
    - destruct P3 as [t' [r' [Et [g [Eg [F1 F2]]]]]]. injection Eg as <-. injection Et as <- <-. unfold fmt_str. rewrite F1. eexists. split; [reflexivity|]. apply K.
      exists (past ++ [t]). split; [rewrite <- app_assoc; exact P1|]. split; [|exact I]. cbn. rewrite map_app, P2. cbn. rewrite F2. reflexivity.
  Qed.
  Lemma track_run : forall asked sched s, tracks asked s -> exists s', call_run fs use s sched = Val s' /\ tracks asked s'.
  Proof.
    intros asked sched; induction sched as [|i sched IH]; intros s T; cbn; [exists s; auto|].
    destruct (track_step asked s i T) as [s' [E T']]. rewrite E. apply IH. exact T'.
  Qed.
  Lemma tracks_end : forall asked s, tracks asked s -> all_answered (snd s) -> right_names fs asked (snd s).
  Proof.
    intros asked s [L [_ T]] A. unfold right_names. set (ths := snd s) in *. clearbody ths.
    assert (P : forall i todo th, nth_error asked i = Some todo -> nth_error ths i = Some th -> names th = map (step_name fs) todo).
    { intros i todo th Ha Ht. destruct (T i todo th Ha Ht) as [past [P1 [P2 _]]]. unfold all_answered in A. rewrite Forall_forall in A. rewrite (A th (nth_error_In _ _ Ht)), app_nil_r in P1. congruence. }
    clear T A. revert asked L P. induction ths as [|th ths IH]; intros [|todo asked] L P; cbn in L; try lia; [reflexivity|]. cbn. f_equal; [apply (P 0); reflexivity|].
    apply IH; [lia|]. intros i. apply (P (S i)).
  Qed.
End Private.
Lemma start_tracks : forall fs use asked formats, (forall i, i < List.length asked -> use i < List.length formats) -> tracks fs use asked (formats, start_calls asked).
Proof.
  intros fs use asked formats H. split; [unfold start_calls; cbn; apply map_length|]. split; [exact H|]. cbn [fst snd]. intros i todo th Ha Ht. unfold start_calls in Ht.
  rewrite nth_error_map, Ha in Ht. injection Ht as <-. exists []. cbn. auto.
Qed.
(** With a copy of the series for each thread, whatever the state it was copied in, no schedule throws, and each thread gets the names of the steps it asks for. *)
Theorem C111_private : forall fs formats asked sched, List.length formats = List.length asked ->
  exists s, private_names fs formats asked sched = Val s /\ (all_answered (snd s) -> right_names fs asked (snd s)).
Proof.
  intros fs formats asked sched L. destruct (track_run fs (fun i => i) (fun i j H => H) asked sched (formats, start_calls asked)) as [s [E T]].
  - apply start_tracks. intros i Hi. lia.
  - exists s. split; [exact E|]. eapply tracks_end; eauto.
Qed.

(** With a single series and a critical section around each call, likewise. *)
Section Critical.
  Variables (fs : serie).
  Definition between (asked : list (list N)) (s : list fmt * list caller) : Prop :=
    (exists f, fst s = [f]) /\ List.length (snd s) = List.length asked /\
    forall i todo th, nth_error asked i = Some todo -> nth_error (snd s) i = Some th -> phase th = 0 /\ exists past, todo = past ++ asks th /\ names th = map (step_name fs) past.
  Lemma block : forall asked s i, between asked s -> exists s', call_run fs (fun _ => 0) s [i; i; i] = Val s' /\ between asked s'.
  Proof.
    intros asked [formats ths] i [[f Ef] [L B]]. cbn [fst snd] in *. subst formats.
    destruct (nth_error ths i) as [th|] eqn:E.
    2: { assert (Id : call_step fs (fun _ => 0) ([f], ths) i = Val ([f], ths)) by (unfold call_step; rewrite E; reflexivity).
         exists ([f], ths). split; [cbn [call_run]; rewrite Id, Id, Id; reflexivity|]. split; [exists f; reflexivity|]. split; [exact L|exact B]. }
    assert (Li : i < List.length ths) by (eapply nth_lt_y; eauto).
    destruct (nth_error asked i) as [todo|] eqn:Ea; [|apply nth_error_None in Ea; lia].
    destruct (B i todo th Ea E) as [P0 [past [P1 P2]]]. destruct th as [[|t r] ph got]; cbn [phase asks names] in *; subst ph.
    - assert (Id : call_step fs (fun _ => 0) ([f], ths) i = Val ([f], ths)) by (unfold call_step; rewrite E; reflexivity).
      exists ([f], ths). split; [cbn [call_run]; rewrite Id, Id, Id; reflexivity|]. split; [exists f; reflexivity|]. split; [exact L|exact B].
    - assert (S : forall x y, set_nth i x (set_nth i y ths) = set_nth i x ths).
      { clear. revert i. induction ths as [|a ths IH]; intros [|i] x y; cbn; auto. rewrite IH. reflexivity. }
      eexists. split.
      + cbn [call_run]. unfold call_step at 1. rewrite E. cbn [nth_error set_nth]. unfold call_step at 1. rewrite nth_set_y, Nat.eqb_refl by exact Li. cbn [nth_error set_nth fmt_feed fmt_clear fed dumped]. rewrite S.
        unfold call_step at 1. rewrite nth_set_y, Nat.eqb_refl by exact Li. cbn [nth_error set_nth fmt_str fed item]. rewrite S. reflexivity.
      + split; [eexists; reflexivity|]. cbn [fst snd]. split; [rewrite set_nth_len; exact L|]. intros j tj thj Hj Ht. rewrite nth_set_y in Ht by exact Li.
        destruct (Nat.eqb_spec j i) as [->|D]; [|eapply B; eauto]. injection Ht as <-. assert (tj = todo) by congruence. subst tj. split; [reflexivity|].
        exists (past ++ [t]). cbn. rewrite <- app_assoc, map_app, P2. split; [exact P1|reflexivity].
  Qed.
  Lemma run_app : forall use a b s, call_run fs use s (a ++ b) = match call_run fs use s a with Val s' => call_run fs use s' b | Throw => Throw | UB => UB end.
  Proof. intros use a; induction a as [|i a IH]; intros b s; [reflexivity|]. cbn [app call_run]. destruct (call_step fs use s i); auto. Qed.
End Critical.
Theorem C111_critical : forall fs format asked turns,
  exists s, critical_names fs format asked turns = Val s /\ (all_answered (snd s) -> right_names fs asked (snd s)).
Proof.
  intros fs format asked turns. unfold critical_names, shared_names.
  assert (B : between fs asked ([format], start_calls asked)).
  { split; [exists format; reflexivity|]. split; [unfold start_calls; apply map_length|]. cbn [snd]. intros i todo th Ha Ht. unfold start_calls in Ht. rewrite nth_error_map, Ha in Ht. injection Ht as <-.
    split; [reflexivity|]. exists []. split; reflexivity. }
  revert B. generalize ([format], start_calls asked). induction turns as [|i turns IH]; intros s B.
  - exists s. split; [reflexivity|]. intros A. destruct B as [_ [L B]]. unfold right_names. set (ths := snd s) in *. clearbody ths.
    assert (P : forall i todo th, nth_error asked i = Some todo -> nth_error ths i = Some th -> names th = map (step_name fs) todo).
    { intros i todo th Ha Ht. destruct (B i todo th Ha Ht) as [_ [past [P1 P2]]]. unfold all_answered in A. rewrite Forall_forall in A. rewrite (A th (nth_error_In _ _ Ht)), app_nil_r in P1. congruence. }
    clear B A. revert asked L P. induction ths as [|th ths IH]; intros [|todo asked'] L P; cbn in L; try lia; [reflexivity|]. cbn. f_equal; [apply (P 0); reflexivity|].
    apply IH; [lia|]. intros i. apply (P (S i)).
  - destruct (block fs asked s i B) as [s' [E B']]. cbn [flat_map]. rewrite run_app, E. apply IH. exact B'.
Qed.
(** A thread alone: the name only depends on the step, whatever was asked before. *)
Theorem C111_one_thread : forall fs format steps, exists s, shared_names fs format [steps] (flat_map (fun _ => [0; 0; 0]) steps) = Val s /\ map names (snd s) = [map (step_name fs) steps].
Proof.
  intros fs format steps. destruct (C111_critical fs format [steps] (map (fun _ => 0) steps)) as [s [E R]]. unfold critical_names in E.
  assert (X : flat_map (fun i : nat => [i; i; i]) (map (fun _ : N => 0) steps) = flat_map (fun _ => [0; 0; 0]) steps) by (clear; induction steps; cbn; congruence).
  rewrite X in E. exists s. split; [exact E|]. apply (R : _ -> map names (snd s) = _). clear R X.
  assert (G : forall l f got s', call_run fs (fun _ => 0) ([f], [mkCaller l 0 got]) (flat_map (fun _ => [0; 0; 0]) l) = Val s' -> all_answered (snd s')).
  { induction l as [|t l IH]; intros f got s' H; [cbn in H; injection H as <-; constructor; [reflexivity|constructor]|]. cbn in H. exact (IH _ _ _ H). }
  exact (G steps format [] s E).
Qed.
(** But a series shared without protection: two threads that ask for steps 0 and 1 both get the name of step 1, so that both write to the same file ... *)
Definition ex_serie : serie := mkSerie (list_ascii_of_string "x_t") 1 (list_ascii_of_string ".qlm") [] 2 0.
Theorem C111_shared_refuted : exists fs format sched s, shared_names fs format [[0%N]; [1%N]] sched = Val s /\ all_answered (snd s) /\
  map names (snd s) = [[step_name fs 1]; [step_name fs 1]] /\ step_name fs 0 <> step_name fs 1.
Proof.
  exists ex_serie, (mkFmt false [] false), [0; 0; 1; 1; 0; 1]. eexists. split; [vm_compute; reflexivity|]. split; [repeat constructor|]. split; [reflexivity|vm_compute; discriminate].
Qed.
(** ... and the program may also die, with an argument missing or one too many. *)
Theorem C111_shared_throws_refuted : exists fs format, shared_names fs format [[0%N]; [1%N]] [0; 0; 1; 0] = Throw /\ shared_names fs format [[0%N]; [1%N]] [0; 1; 0; 1] = Throw.
Proof. exists ex_serie, (mkFmt false [] false). split; reflexivity. Qed.
Example C111_case : exists s, private_names ex_serie [mkFmt true [] true; mkFmt false [] false] [[0%N]; [1%N]] [0; 0; 1; 1; 0; 1] = Val s /\ all_answered (snd s) /\
  map names (snd s) = [[list_ascii_of_string "x_t0.qlm"]; [list_ascii_of_string "x_t1.qlm"]].
Proof. eexists. split; [vm_compute; reflexivity|]. split; [repeat constructor|reflexivity]. Qed.

Print Assumptions C111_private. Print Assumptions C111_critical. Print Assumptions C111_one_thread. Print Assumptions C111_shared_refuted. Print Assumptions C111_shared_throws_refuted.

(** C19, C49, C125, C136, C138, C144: which failures are exceptions and which are undefined behaviour. *)
Require Import String.
Require Import ZArith QArith List Arith Bool Lia.
Require Import Verif.Base Verif.Dec Verif.Traj_Model Verif.Particles_Model Verif.Dyn_Model Verif.Corr_Model Verif.Voro_Model Verif.Export_Model Verif.Perco_Model Verif.Film_Model Verif.Lboo_Model.
Require Verif.Perco_Props.
Import ListNotations.
Local Open Scope nat_scope.
Local Open Scope list_scope.
Local Notation length := List.length.

(** C19. Asking for a trajectory that is not there is undefined; asking one that is there for a time without position throws. *)
Theorem C19_outside ti t tr : length (trajs ti) <= tr -> convert ti t tr = UB.
Proof. intros H. unfold convert. rewrite (proj2 (nth_error_None _ _) H). reflexivity. Qed.
Theorem C19_absent ti t tr T : nth_error (trajs ti) tr = Some T -> exist_at T t = false -> convert ti t tr = Throw.
Proof. intros H E. unfold convert, access. rewrite H, E. reflexivity. Qed.

(** C49. The same for the position of a trajectory, where a time without frame or a position that its frame does not have is undefined. *)
Theorem C49_place (P : Type) (frames : list (list P)) ti tr t :
  (length (trajs ti) <= tr \/ length frames <= t -> place P frames ti tr t = UB) /\
  (forall T f, nth_error (trajs ti) tr = Some T -> nth_error frames t = Some f ->
     (exist_at T t = false -> place P frames ti tr t = Throw) /\
     (forall p, access T t = Val p -> (length f <= p -> place P frames ti tr t = UB) /\ (forall x, nth_error f p = Some x -> place P frames ti tr t = Val x))).
Proof.
  unfold place, position. split.
  - intros [H|H]; [rewrite (proj2 (nth_error_None _ _) H); reflexivity|]. destruct (nth_error (trajs ti) tr) as [T|]; [|reflexivity]. rewrite (proj2 (nth_error_None _ _) H). reflexivity.
  - intros T f HT Hf. rewrite HT, Hf. split; [intros E; unfold access; rewrite E; reflexivity|]. intros p Hp. rewrite Hp. split; [intros H; rewrite (proj2 (nth_error_None _ _) H); reflexivity|intros x Hx; rewrite Hx; reflexivity].
Qed.

(** C51. The displacement of a trajectory between two frames where it is not present both times throws. *)
Theorem C51_absent frames ti tr t0 t1 T f0 f1 : nth_error (trajs ti) tr = Some T -> nth_error frames t0 = Some f0 -> nth_error frames t1 = Some f1 ->
  (forall t p f, nth_error frames t = Some f -> access T t = Val p -> p < length f) -> (forall t, access T t <> UB) ->
  exist_at T t0 = false \/ exist_at T t1 = false -> displacement frames ti tr t0 t1 = Throw.
Proof.
  intros HT H0 H1 Hin Hub Hor.
  assert (P : forall t f, nth_error frames t = Some f -> (exist_at T t = false -> Dyn_Model.position Q frames T t = Throw) /\ Dyn_Model.position Q frames T t <> UB).
  { intros t f Hf. unfold Dyn_Model.position. rewrite Hf. split; [intros E; unfold access; rewrite E; reflexivity|]. destruct (access T t) as [p| |] eqn:Ea; [|discriminate|exfalso; exact (Hub t Ea)].
    destruct (nth_error f p) eqn:En; [discriminate|]. apply nth_error_None in En. specialize (Hin t p f Hf Ea). lia. }
  destruct (P t0 f0 H0) as [A0 B0], (P t1 f1 H1) as [A1 B1]. unfold displacement. rewrite HT. destruct Hor as [E|E].
  - rewrite (A0 E). destruct (Dyn_Model.position Q frames T t1); congruence.
  - rewrite (A1 E). destruct (Dyn_Model.position Q frames T t0); congruence.
Qed.
Example C51_absent_case : displacement [[1#1]; [2#1]; [5#1]]%Q (mkIndex [mkTraj 1 [0; 0]] []) 0 0 1 = Throw /\ displacement [[1#1]; [2#1]; [5#1]]%Q (mkIndex [mkTraj 1 [0; 0]] []) 0 1 2 = Val (5 - 2)%Q.
Proof. split; reflexivity. Qed.

(** C78. An empty file has no position and no box. *)
Theorem C78_empty (V : Type) (zero : V) parse : read_dat V zero parse [] = ((None, None, None), []).
Proof. reflexivity. Qed.

(** C125. A bond file that is there but lists a particle that the frame does not have, or is not made of pairs, is not taken for a missing one: what follows is undefined. *)
Lemma osequence_first {A} (l1 l2 : list (outcome A)) o : (forall x, In x l1 -> exists a, x = Val a) -> (forall a, o <> Val a) -> forall r, osequence (l1 ++ o :: l2) = r -> (o = UB -> r = UB) /\ (o = Throw -> r = Throw).
Proof.
  induction l1 as [|x l1 IH]; intros H N r <-.
  - split; intros ->; reflexivity.
  - destruct (H x (or_introl eq_refl)) as [a ->]. destruct (IH (fun y I => H y (or_intror I)) N _ eq_refl) as [I1 I2]. cbn [app osequence]. split; intros E; [rewrite (I1 E)|rewrite (I2 E)]; reflexivity.
Qed.
Theorem C125_damaged c frames bb r bonds name d t : t < length frames -> ngb_loaded frames bonds d t = UB -> (forall u, u < t -> exists n, ngb_loaded frames bonds d u = Val n) ->
  bonds_stage c frames bb r bonds name d = UB.
Proof.
  intros Ht E H. unfold bonds_stage. replace (length frames) with (t + S (length frames - S t)) by lia. rewrite seq_app, map_app. cbn [seq map Nat.add].
  destruct (osequence_first (map (ngb_loaded frames bonds d) (seq 0 t)) (map (ngb_loaded frames bonds d) (seq (S t) (length frames - S t))) (ngb_loaded frames bonds d t)) with (r := osequence (map (ngb_loaded frames bonds d) (seq 0 t) ++ ngb_loaded frames bonds d t :: map (ngb_loaded frames bonds d) (seq (S t) (length frames - S t)))) as [A _].
  - intros x I. apply in_map_iff in I as [u [<- I]]. apply in_seq in I. apply H. lia.
  - intros a. rewrite E. discriminate.
  - reflexivity.
  - rewrite (A E). reflexivity.
Qed.

(** C136. Without any particle, cgVoro looks at the first one nevertheless. *)
Theorem C136_empty voro fuel vol cg bonds outside outside2 : Voro_Model.step_files voro fuel vol cg bonds outside outside2 [] = Some UB.
Proof. reflexivity. Qed.

(** C138. The first step that fails ends the program in its own way; the files of the steps before it are there. *)
Theorem C138_first_failure frame files ts1 t ts2 (texts : nat -> text) : (forall u, In u ts1 -> frame (files u) = Val (texts u)) ->
  (frame (files t) = Throw -> film frame files (ts1 ++ t :: ts2) = (map (fun u => (u, texts u)) ts1, Throw)) /\
  (frame (files t) = UB -> film frame files (ts1 ++ t :: ts2) = (map (fun u => (u, texts u)) ts1, UB)).
Proof.
  induction ts1 as [|u ts1 IH]; intros H; cbn [app film map].
  - split; intros ->; reflexivity.
  - rewrite (H u (or_introl eq_refl)). destruct (IH (fun v I => H v (or_intror I))) as [I1 I2]. split; intros E; [rewrite (I1 E)|rewrite (I2 E)]; reflexivity.
Qed.

(** C144. A bond file missing in the middle of the series is an exception. *)
Theorem C144_missing st f d : d (f_bonds f) = None -> link_load st f d = Throw.
Proof. intros H. unfold link_load. rewrite H. reflexivity. Qed.

(** Cases: an index of one trajectory, from time 1 to 2. *)
Definition ex_index : trajindex := mkIndex [mkTraj 1 [0; 5]] [].
Example C49_place_case : place nat [[7]; [8]; [9]] ex_index 0 1 = Val 8 /\ place nat [[7]; [8]; [9]] ex_index 0 2 = UB /\ place nat [[7]; [8]; [9]] ex_index 0 0 = Throw /\ place nat [[7]; [8]; [9]] ex_index 1 0 = UB
  /\ convert ex_index 2 0 = Val 5 /\ convert ex_index 3 0 = Throw /\ convert ex_index 2 1 = UB.
Proof. repeat split; reflexivity. Qed.

(** A bond file of the first time that names particle 9. *)
Example C125_damaged_case : let d := fun n => if list_eq_dec Ascii.ascii_dec n (Files_Model.step_name (Perco_Props.p_serie ".bonds") 0%N) then Some (txt "0 9") else None in
  0 < length Perco_Props.p_frames /\ ngb_loaded Perco_Props.p_frames (Perco_Props.p_serie ".bonds") d 0 = UB.
Proof. cbv zeta. split; [vm_compute; lia|vm_compute; reflexivity]. Qed.
(** Two steps, the second without file of positions. *)
Example C138_failure_case : let frame := fun f => match dat_file f with Some l => Val l | None => Throw end in let files := fun t => mkFiles (if t =? 0 then Some (txt "x") else None) None None None None None in
  film frame files [0; 1; 2] = ([(0, txt "x")], Throw).
Proof. reflexivity. Qed.

Print Assumptions C19_outside.
Print Assumptions C19_absent.
Print Assumptions C49_place.
Print Assumptions C125_damaged.
Print Assumptions C136_empty.
Print Assumptions C138_first_failure.
Print Assumptions C144_missing.
Print Assumptions C51_absent.
Print Assumptions C78_empty.

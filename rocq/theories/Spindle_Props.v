(** C104: pairs of particles with a ring of five common neighbours, mains/sp5c.cpp. *)
Require Import List Bool Arith Lia Sorted.
Require Import Verif.Base Verif.ListX Verif.Particles_Spec Verif.Ngb_Model Verif.Ngb_Spec Verif.Ngb_Proofs Verif.Ngb_Props Verif.Spindle_Model Verif.Spindle_Spec Verif.Spindle_Proofs.
Import ListNotations.
Local Open Scope nat_scope.

(** C104: for bonds between different particles the program ends. The .sp5c file is the sequence of clusters of seven particles of the bonds with a ring of
    five common neighbours, once each, in the order of the bonds, the ring in order; the .n7a file gives for each particle the number of these bonds it belongs to. *)
Theorem C104_clusters n bonds fuel : bond_set bonds -> Forall (fun b => fst b < snd b /\ snd b < n) bonds -> 5 <= fuel ->
  exists clusters n7a, sp5c_program fuel n bonds = Some (concat (map snd clusters), n7a) /\
    StronglySorted lex (map fst clusters) /\ (forall b, In b (map fst clusters) <-> In b bonds /\ spindle_bond bonds b) /\
    Forall (fun x => seven_cluster bonds (fst (fst x)) (snd (fst x)) (snd x)) clusters /\
    length n7a = n /\ forall p, nth p n7a 0 = length (filter (fun b => (fst b =? p) || (snd b =? p)) (map fst clusters)).
Proof.
  intros BS F Hf. destruct (C34_round_trip n bonds BS) as [ngb [E [L [Lk [_ [_ Ok]]]]]]; [eapply Forall_impl; [|exact F]; cbn; tauto|].
  assert (F1 : Forall (fun b => fst b < snd b) bonds) by (eapply Forall_impl; [|exact F]; cbn; tauto).
  assert (irr : forall x, ~ adjacent bonds x x). { intros x [I|I]; rewrite Forall_forall in F1; apply F1 in I; cbn in I; lia. }
  unfold sp5c_program. rewrite E. destruct (spindles_ok bonds n ngb L Lk (Ok F1) irr fuel Hf bonds ([], repeat 0 n) (proj1 BS) F) as [prs [s' [E2 [L2 [So [I2 [F2 C2]]]]]]]; [apply repeat_length|].
  exists prs, s'. split; [exact E2|]. split; [auto|]. split; [auto|]. split; [auto|]. split; [auto|]. intros p. rewrite C2. cbn [snd]. rewrite nth_repeat. reflexivity.
Qed.
(** The number of particles in the file is a multiple of seven. *)
Theorem C104_sevens n bonds fuel : bond_set bonds -> Forall (fun b => fst b < snd b /\ snd b < n) bonds -> 5 <= fuel ->
  exists k out n7a, sp5c_program fuel n bonds = Some (out, n7a) /\ length out = 7 * k.
Proof.
  intros BS F Hf. destruct (C104_clusters n bonds fuel BS F Hf) as [cl [s [E [_ [_ [C _]]]]]]. exists (length cl), (concat (map snd cl)), s. split; [auto|]. clear E.
  induction C as [|x l H C IH]; [reflexivity|]. cbn [map concat length]. rewrite app_length, IH. destruct H as [a [b [c [d [e [-> _]]]]]]. cbn [length]. lia.
Qed.
(** A bond file with a particle bonded to itself: the clusters that follow are no longer aligned on seven particles. The five common neighbours of 0 and 1 are
    2 to 6, a chain whose ends 2 and 6 are bonded to themselves; the program writes five particles. *)
Definition self_bonds : list (nat * nat) := [(0, 1); (0, 2); (0, 3); (0, 4); (0, 5); (0, 6); (1, 2); (1, 3); (1, 4); (1, 5); (1, 6); (2, 2); (2, 3); (3, 4); (4, 5); (5, 6); (6, 6)].
Theorem C104_self_refuted : bond_set self_bonds /\ Forall (fun b => fst b <= snd b /\ snd b < 7) self_bonds /\ exists n7a, sp5c_program 100 7 self_bonds = Some ([0; 1; 2; 2; 3], n7a).
Proof.
  split; [|split].
  - split; [|repeat constructor]. unfold self_bonds. repeat (apply SSorted_cons; [|repeat (apply Forall_cons; [unfold lex; cbn; lia|]); apply Forall_nil]). apply SSorted_nil.
  - unfold self_bonds. repeat (apply Forall_cons; [cbn; lia|]). apply Forall_nil.
  - eexists. vm_compute. reflexivity.
Qed.
(** A bond with a ring of five common neighbours, whose order around the axis is 2 4 6 3 5. *)
Example C104_case : sp5c_program 5 7 [(0, 1); (0, 2); (0, 3); (0, 4); (0, 5); (0, 6); (1, 2); (1, 3); (1, 4); (1, 5); (1, 6); (2, 4); (2, 5); (3, 5); (3, 6); (4, 6)] = Some ([0; 1; 2; 4; 6; 3; 5], [1; 1; 0; 0; 0; 0; 0]) /\
  sp5c_program 5 7 [(0, 1); (0, 2); (0, 3); (0, 4); (0, 5); (0, 6); (1, 2); (1, 3); (1, 4); (1, 5); (1, 6); (2, 4); (2, 5); (3, 5); (3, 6)] = Some ([], [0; 0; 0; 0; 0; 0; 0]).
Proof. split; vm_compute; reflexivity. Qed.
Print Assumptions C104_clusters.
Print Assumptions C104_sevens.
Print Assumptions C104_self_refuted.

(** What an index contains and what its answers should be. *)
Require Import ZArith List Arith Sorted.
Require Import Verif.Box_Model Verif.Box_Spec Verif.Index_Model.
Import ListNotations.

(** Content after a history: the inserted (id, box) pairs, each moved by the later translations. *)
Fixpoint content (acc : list (nat * box)) (ops : list iop) : list (nat * box) :=
  match ops with
  | [] => acc
  | IInsert i b :: ops' => content ((i, b) :: acc) ops'
  | ITranslate v :: ops' => content (map (fun p => (fst p, translate (snd p) v)) acc) ops'
  end.
Definition contents (ops : list iop) := content [] ops.

Definition iop_dim (d : nat) (o : iop) : Prop :=
  match o with IInsert _ b => length b = d | ITranslate v => length v = d end.

(** [ids] is the strictly increasing list of the ids of the boxes satisfying [P]. *)
Definition selects (items : list (nat * box)) (P : box -> Prop) (ids : list nat) : Prop :=
  StronglySorted lt ids /\ forall i, In i ids <-> exists b, In (i, b) items /\ P b.

(** The box [b] stays [margin] away from the faces of [h] along the first [k] axes wide enough for it. *)
Definition away (margin : Z) (k : nat) (h b : box) : Prop :=
  forall n e f, n < k -> nth_error h n = Some e -> nth_error b n = Some f ->
    (2 * margin < snd e - fst e)%Z -> (fst e + margin <= fst f /\ snd f <= snd e - margin)%Z.
Definition axes (noz : bool) : nat := if noz then 2 else 3.

(** [r] is [h] reduced by [margin] along the first [k] axes wide enough for it. *)
Definition region (margin : Z) (k : nat) (h r : box) : Prop :=
  length r = length h /\
  forall n e, nth_error h n = Some e ->
    nth_error r n = Some (if ((n <? k) && (2 * margin <? snd e - fst e)%Z)%bool
                          then (fst e + margin, snd e - margin)%Z else e).

(** Along every axis the two boxes share more than a face. *)
Definition meets (b r : box) : Prop := Forall2 (fun f e => (fst e < snd f /\ fst f < snd e)%Z) b r.

(** As [selects] for the boxes enclosed by [r], except that a box touching [r] only by a face may be missed. *)
Definition selects_but_flat (items : list (nat * box)) (r : box) (ids : list nat) : Prop :=
  StronglySorted lt ids /\
  (forall i, In i ids -> exists b, In (i, b) items /\ sub b r) /\
  (forall i b, In (i, b) items -> sub b r -> meets b r -> In i ids).

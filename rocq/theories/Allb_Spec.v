(** Vocabulary for the bonds written by all_bonds. *)
Require Import String.
Require Import ZArith List Bool Arith.
Require Import Verif.Dec Verif.Export_Model Verif.Export_Spec Verif.Particles_Model Verif.Particles_Spec Verif.Particles_Props Verif.Density_Proofs Verif.Rerun_Props Verif.Rdf_Spec Verif.Rdf_Props.
Import ListNotations.
Local Open Scope nat_scope.
Local Open Scope list_scope.

Section Order.
  Variables (V : Type) (zero : V) (lt : V -> V -> bool).
  (** The values of the list can be sorted. *)
  Definition sortable (g : list V) : Prop := forall x y z, In x g -> In y g -> In z g ->
    lt x x = false /\ (lt x y = true -> lt y z = true -> lt x z = true) /\ (lt x y = false -> lt y z = false -> lt x z = false).
  (** [p] is the first of the largest values, [m] the first of the smallest from there on. *)
  Definition top_at (g : list V) (p : nat) : Prop := p < length g /\ (forall q, q < p -> lt (nth q g zero) (nth p g zero) = true) /\ forall q, q < length g -> lt (nth p g zero) (nth q g zero) = false.
  Definition dip_after (g : list V) (p m : nat) : Prop :=
    p <= m < length g /\ (forall q, p <= q < m -> lt (nth m g zero) (nth q g zero) = true) /\ forall q, p <= q < length g -> lt (nth q g zero) (nth m g zero) = false.
  Definition first_dip (g : list V) (m : nat) : Prop := exists p, top_at g p /\ dip_after g p m.
End Order.

(** The sum of several lists of [n] values, from the first to the last. *)
Definition sum_of {V} (zero : V) (add : V -> V -> V) (n : nat) (gs : list (list V)) (tot : list V) : Prop :=
  length tot = n /\ forall k, k < n -> nth k tot zero = fold_left add (map (fun g => nth k g zero) gs) zero.
(** The words of the file of the mean of [span] functions: two names, then two numbers for each bin. *)
Definition mean_words {V} (show : V -> text) (abscissa : nat -> V) (divn : V -> nat -> V) (span : nat) (tot : list V) : list text :=
  map txt ["#r"; "g(r)"]%string ++ flat_map (fun kv => [show (abscissa (fst kv)); show (divn (snd kv) span)]) (combine (seq 0 (length tot)) tot).
(** The pair correlation function of positions, in 200 bins up to 15 diameters (30 radii): centres are further than that from the faces. *)
Definition correlation {V} (zero : V) (of_nat : nat -> V) (div : V -> V -> V) (norm : nat -> Z -> nat -> Z -> nat -> V) (one : Z) (l : list (list Z)) (g : list V) : Prop :=
  let cutoff := (30 * one)%Z in exists sel vol, picks l (fun _ p => deep l cutoff p) sel /\ Density_Proofs.extent l vol /\
    normalised zero of_nat div (norm (length l) vol 200 cutoff (length sel)) 200 (pairs_in l 200 cutoff sel) g.
(** The text of a file: a line of title, then rows of two numbers, as words; [g] are the second numbers. *)
Definition rows_of {V} (parse : text -> option V) (file : text) (g : list V) : Prop :=
  exists title rest pairs, file = title ++ newline :: rest /\ ~ In newline title /\ Export_Spec.words rest = flat_map (fun ab => [fst ab; snd ab]) pairs /\
    (forall ab, In ab pairs -> parse (fst ab) <> None) /\ map (fun ab => parse (snd ab)) pairs = map Some g.

(** Vocabulary of the correlation of bond orientational order in a periodic cell. *)
Require Import String.
Require Import ZArith List Bool Arith.
Require Import Verif.Dec Verif.Box_Model Verif.Export_Model Verif.Export_Spec Verif.Particles_Spec Verif.Periodic_Spec.
Import ListNotations.
Local Open Scope nat_scope.
Local Open Scope list_scope.

(** The shortest edge of the cell *)
Definition shortest (b : box) (L : Z) : Prop := (exists e, In e b /\ width e = L) /\ forall e, In e b -> (L <= width e)%Z.
(** Particles i and j, some image of j being at distance d of i with k/n <= d/(L/2) < (k+1)/n and d < L/2. *)
Definition image_apart (b : box) (l : list (list Z)) (n : nat) (L : Z) (k : nat) (i j : nat) : Prop :=
  exists p q q', nth_error l i = Some p /\ nth_error l j = Some q /\ image b q q' /\
    let d2 := (4 * dist2 q' p)%Z in let N := Z.of_nat n in let K := Z.of_nat k in
    (d2 < L * L /\ K * K * (L * L) <= N * N * d2 /\ N * N * d2 < (K + 1) * (K + 1) * (L * L))%Z.
(** The same positions moved by a vector, each put back somewhere in the cell. *)
Definition moved (b : box) (v : list Z) (l l' : list (list Z)) : Prop :=
  Forall2 (fun p p' => match p, v with [x; y; z], [u; w; t] => image b [x + u; y + w; z + t]%Z p' | _, _ => False end) l l'.
(** A text made of lines, each of which ends with a newline, with these words *)
Definition table (content : text) (rows : list (list text)) : Prop :=
  exists lines, content = flat_map (fun l => l ++ [newline]) lines /\ Forall (fun l => ~ In newline l) lines /\ map words lines = rows.
(** The words of each line of the file: names of the columns, then for each bin the distance, the sum and the number of pairs. *)
Definition g6_words {V} (show : V -> text) (degree : nat) (rows : list (V * V * nat)) : list (list text) :=
  [txt "#r"; (txt "g" ++ print_nat degree ++ txt "(r)")%list; txt "g(r)"] :: map (fun r => [show (fst (fst r)); show (snd (fst r)); print_nat (snd r)]) rows.

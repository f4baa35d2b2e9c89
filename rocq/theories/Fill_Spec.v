(** What the scale space of an image is. *)
Require Import ZArith List Bool Arith.
Require Import Verif.Fill_Model.
Import ListNotations.
Local Open Scope nat_scope.

Section Spec.
  Context {P : Type} (blur : nat -> img P -> img P) (sub : img P -> img P -> img P).
  (** The image after the i first blurs. *)
  Fixpoint blurred (im : img P) (i : nat) : img P := match i with 0 => im | S i' => blur i' (blurred im i') end.
  (** The Gaussian layers are the image and its successive blurs. *)
  Definition gaussians_of (im : img P) (o : octave P) : Prop := forall i g, nth_error (lG o) i = Some g -> g = blurred im i.
  (** The other layers are the differences of successive Gaussian layers. *)
  Definition differences_of (im : img P) (o : octave P) : Prop := forall i d, nth_error (lD o) i = Some d -> d = sub (blurred im (i + 1)) (blurred im i).
  (** The image that octave o starts from: the first is half blurred and twice larger, the second is the (blurred) input [input1], the next ones are made of the
      Gaussian layer n of the previous one, at their dimensions. *)
  Context (pre half up : img P -> img P) (down : list nat -> img P -> img P).
  Fixpoint source (n : nat) (shapes : list (list nat)) (input input1 : img P) (o : nat) : img P :=
    match o with
    | 0 => up (half input)
    | S o' => match o' with 0 => pre input1 | S _ => down (nth o shapes []) (blurred (source n shapes input input1 o') n) end
    end.
End Spec.
(** A finder of n layers: n+3 Gaussian layers, n+2 differences, all layers of an octave of the same dimensions. *)
Definition well_sized {P} (n : nat) (shapes : list (list nat)) (os : list (octave P)) : Prop :=
  Forall2 (fun sh o => length (lG o) = n + 3 /\ length (lD o) = n + 2 /\ Forall (fun g => dims g = sh) (lG o)) shapes os.
(** Twice the dimensions of the input; a signal keeps its single row. *)
Definition twice (D : nat) (d : list nat) : list nat := if D =? 1 then match d with [r; c] => [r; 2 * c] | _ => d end else map (fun x => 2 * x) d.
(** D dimensions as OpenCV counts them: a signal is an image of one row. *)
Definition of_dimension (D : nat) (d : list nat) : Prop := match D with 1 => exists c, d = [1; c] | 2 => length d = 2 | 3 => length d = 3 | _ => False end.

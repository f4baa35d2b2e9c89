(** What the sub-pixel resolution should give: independent of the model of the code. *)
Require Import ZArith QArith.
Require Import Verif.Subpix_Model.
Local Open Scope Q_scope.

(** the parabola of extremum [m] *)
Definition parabola (alpha m beta x : Q) : Q := alpha * (x - m) * (x - m) + beta.
(** the result is a number equal to q *)
Definition is (x : num) (q : Q) : Prop := match x with Fin y => y == q | _ => False end.
(** the result is a number between a and b *)
Definition between (a b : Q) (x : num) : Prop := match x with Fin y => a <= y /\ y <= b | _ => False end.
Definition nat_Q (i : nat) : Q := inject_Z (Z.of_nat i).
(** the middle value is the largest, or the smallest, of three *)
Definition extremal (before at_i after : Z) : Prop := (before <= at_i /\ after <= at_i \/ at_i <= before /\ at_i <= after)%Z.

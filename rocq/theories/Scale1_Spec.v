(** What the scales on a line and in a volume should be: independent of the model of the code. *)
Require Import ZArith QArith.
Require Import Verif.Subpix_Model.
Local Open Scope Q_scope.

(** responses with their steepest slope at scale [m]: their second derivative vanishes there *)
Definition cubic (alpha m gamma delta x : Q) : Q := alpha * (x - m) * (x - m) * (x - m) + gamma * (x - m) + delta.
(** the empirical corrections, of the distance [d] from the steepest slope to the layer (on a line), from the layer to the extremum (in a volume) *)
Definition line_law (corr l d : Q) : Q := l - (105 # 100) * d + (8 # 100) * d * d - corr + (25 # 1000) * (l - 1).
Definition volume_law (d : Q) : Q := (107 # 100) * d + (235 # 1000) * (d * d) - (29 # 100) * (d * d * d) - (30 # 100) * (d * d * d * d).
(** the same result *)
Definition same (x y : num) : Prop := match x, y with Fin a, Fin b => a == b | Pinf, Pinf | Minf, Minf | NaN, NaN => True | _, _ => False end.
(** v, brought between a and b *)
Definition brought (a b v r : Q) : Prop := (a <= v -> v <= b -> r == v) /\ (v < a -> r == a) /\ (b < v -> r == b).

(** Vocabulary of the program of the multiscale tracker. *)
Require Import String.
Require Import ZArith List Bool Arith NArith Ascii.
Require Import Verif.Dec Verif.Center_Model Verif.Center_Spec Verif.Files_Spec Verif.Export_Model Verif.Export_Spec Verif.Settings_Model Verif.Pg6_Spec.
Import ListNotations.
Local Open Scope nat_scope.
Local Open Scope list_scope.
Local Notation length := List.length.

(** [img]: the [n] bytes of the file from number [off] on *)
Definition bytes_at {P} (file : list P) (off n : nat) (img : list P) : Prop :=
  exists before after, file = before ++ img ++ after /\ length before = off /\ length img = n.
(** The file of the centres of time step [t]: at least three digits *)
Definition centres_name (out : text) (t : nat) (name : text) : Prop := exists s, writes 3 (N.of_nat t) s /\ name = out ++ txt "_t" ++ s.
(** The words of a line: coordinates, radius and intensity *)
Definition centre_words (show : Z -> text) (c : center) : list text := map show (coords c ++ [radius c; intensity c]).
(** [c] and [c'] only differ by the coordinate along z, to which [f] is applied *)
Definition deeper (f : Z -> Z) (c c' : center) : Prop :=
  exists x y z, coords c = [x; y; z] /\ coords c' = [x; y; f z] /\ radius c' = radius c /\ intensity c' = intensity c.
(** Two centres, one of which is inside the other *)
Definition inside_other (a b : center) : Prop := (csqdist a b < Z.max (radius a) (radius b) * Z.max (radius a) (radius b))%Z.
(** The numbers at the beginning of a text *)
Definition leading {K} (parse : text -> option K) (l : text) (ks : list K) : Prop :=
  exists ws rest, words l = ws ++ rest /\ Forall2 (fun w k => parse w = Some k) ws ks /\ match rest with [] => True | w :: _ => parse w = None end.
(** The sizes of an image halved until one is below 10 *)
Inductive halvings : nat -> nat -> nat -> list (list nat) -> Prop :=
| Too_small p r c : p < 10 \/ r < 10 \/ c < 10 -> halvings p r c []
| Halve p r c l : 10 <= p -> 10 <= r -> 10 <= c -> halvings (p / 2) (r / 2) (c / 2) l -> halvings p r c ([p; r; c] :: l).
(** The settings of an octave: half of the first blur along z or not, deconvolution with a kernel or not *)
Definition octave_with {K R} (one : R) (sh : list nat) (half : bool) (k : option (list K)) : settings K R :=
  {| shape := sh; ZXratio := one; halfZ := half; deconv := match k with Some _ => true | None => false end; kernel := match k with Some l => l | None => [] end |}.
(** How --deconvolution and --deconvolution-kernel make the settings of the octave of the size [p;r;c] of the image, and the files then; [first k]: k is the kernel of the first image. *)
Inductive prepared {K R} (one : R) (p r c : nat) (first : list K -> Prop) (showK : K -> text) (parseK : text -> option K) (writable : text -> bool) (d : text -> option text) :
    Z -> option text -> (text -> option text) -> settings K R -> Prop :=
| Ready_plain kname d1 : (forall n, d1 n = d n) -> prepared one p r c first showK parseK writable d 0%Z kname d1 (octave_with one [p; r; c] true None)
| Ready_computed name k d1 : writable name = true -> first k -> length k = p / 2 + 1 -> d1 name = Some (flat_map (fun v => showK v ++ [tab]) k) -> (forall n, n <> name -> d1 n = d n) ->
    prepared one p r c first showK parseK writable d 1%Z (Some name) d1 (octave_with one [p; r; c] false (Some k))
| Ready_loaded name content k d1 : d name = Some content -> leading parseK content k -> length k = p / 2 + 1 -> (forall n, d1 n = d n) ->
    prepared one p r c first showK parseK writable d 2%Z (Some name) d1 (octave_with one [p; r; c] false (Some k))
| Ready_other mode kname d1 : mode <> 0%Z -> mode <> 1%Z -> mode <> 2%Z -> (forall n, d1 n = d n) -> prepared one p r c first showK parseK writable d mode kname d1 (octave_with one [p; r; c] false None).
(** The files after a run over the time steps [steps], [d1] being the ones before; [centres_in img]: the centres found in an image of [n] bytes, [f]: the depths are to be changed. *)
Definition files_written {P} (file : list P) (writable : text -> bool) (show : Z -> text) (centres_in : list P -> list center) (f : Z -> Z) (first inc n : nat) (out : text) (steps : nat -> Prop) (d1 d' : text -> option text) : Prop :=
  (forall t name img, steps t -> centres_name out t name -> bytes_at file (first + inc * t) n img ->
    (centres_in img <> [] -> writable name = true -> exists content scaled kept,
      d' name = Some content /\ table content (map (centre_words show) kept) /\ Forall2 (deeper f) (centres_in img) scaled /\ selection inside_other scaled kept) /\
    (centres_in img = [] \/ writable name = false -> d' name = d1 name)) /\
  forall name, (forall t, steps t -> ~ centres_name out t name) -> d' name = d1 name.

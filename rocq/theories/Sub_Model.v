(** Model of the programs MSD and ISF (mains): mean square displacement and self intermediate scattering function of sub-intervals. *)
Require Import String.
Require Import ZArith List Arith Ascii Bool.
Require Import Verif.Base Verif.Dec Verif.Traj_Model Verif.Particles_Model Verif.Corr_Model Verif.Isf_Model Verif.Export_Model Verif.Relax_Model.
Import ListNotations.
Local Open Scope nat_scope.
Local Open Scope list_scope.

(** How the program ends: normally, by an exception caught in main (EXIT_FAILURE), or outside of the language. *)
Inductive ending := Finished | Failed | Undefined.

(** atoi gives an int, stored in a size_t (MSD.cpp:17, 27-29; ISF.cpp:38, 48-50). *)
Definition to_size (a : Z) : Z := (a mod 2 ^ 64)%Z.
(** MSD.cpp:30, ISF.cpp:51, in size_t: is the triple let through? *)
Definition let_through (nframes : nat) (start stop av : Z) : bool :=
  negb ((Z.of_nat nframes <? (start + 1) mod 2 ^ 64)%Z || (Z.of_nat nframes <? (stop + av + 1) mod 2 ^ 64)%Z).

Section Sub.
  (** Doubles and times as in Relax_Model; [compute start stop av]: the function of the library, on the positions without drift;
      [ext]: end of the names, [col]: name of the column. *)
  Variables (V : Type) (show : V -> text) (timeof : nat -> V) (compute : nat -> nat -> nat -> outcome (list V)).
  Variables (stem ext col : text) (nframes : nat).
  (** MSD.cpp:24, 39; ISF.cpp:45, 60 *)
  Definition sub_name (start stop av : N) : text :=
    stem ++ txt "_" ++ print_N start ++ txt "from_" ++ print_N stop ++ txt "to_" ++ print_N av ++ txt "av" ++ ext.
  (** MSD.cpp:25-44, ISF.cpp:46-65: one file for each group of three arguments; the arguments that are left over are not read
      ([nbSub], a division of integers).  Gives the files in the order they are written, and the end of the program. *)
  Fixpoint sub_runs (args : list Z) : list (text * text) * ending :=
    match args with
    | a :: b :: c :: rest =>
        let start := to_size a in let stop := to_size b in let av := to_size c in
        if let_through nframes start stop av then
          match obind (compute (Z.to_nat start) (Z.to_nat stop) (Z.to_nat av)) (program_column V show timeof col) with
          | Val l => let '(ws, e) := sub_runs rest in ((sub_name (Z.to_N start) (Z.to_N stop) (Z.to_N av), l) :: ws, e)
          | Throw => ([], Failed)
          | UB => ([], Undefined)
          end
        else ([], Failed)
    | _ => ([], Finished)
    end.
  (** MSD.cpp:8-12, ISF.cpp:28-33: [least] arguments at least after the file name (none for MSD, two for ISF); [opened]: the files could be loaded. *)
  Definition sub_main (least : nat) (opened : bool) (args : list Z) : list (text * text) * ending :=
    if List.length args <? least then ([], Failed) else if opened then sub_runs args else ([], Failed).
End Sub.

Section Programs.
  (** As in Corr_Model and Isf_Model; [frames]: the positions after removeDrift (MSD.cpp:22, ISF.cpp:43). *)
  Variables (P V : Type) (zero : V) (add : V -> V -> V) (divn : V -> nat -> V) (muln : nat -> V -> V) (sqd : P -> P -> V).
  Variables (Wave : Type) (axis : nat -> P -> Wave) (cross : Wave -> Wave -> V) (one : V).
  Variables (show : V -> text) (timeof : nat -> V) (frames : list (list P)) (ti : trajindex) (stem : text).
  (** MSD.cpp:6-53 *)
  Definition msd_program (args : list Z) := sub_main V show timeof (get_msd_avg P V zero add divn muln sqd frames ti) stem (txt ".msd") (txt "MSD") (List.length frames) 0 true args.
  (** ISF.cpp:26-72 *)
  Definition isf_program (args : list Z) := sub_main V show timeof (self_isf_axes P V zero add divn muln Wave axis cross one frames ti) stem (txt ".isf") (txt "ISF") (List.length frames) 2 true args.
End Programs.

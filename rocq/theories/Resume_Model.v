(** Model of the run of mains/traj2vtk.cpp on files: stages skipped when their files are there, files written piece by piece, crashes at any point. *)
Require Import List Bool Arith.
Import ListNotations.
Local Open Scope nat_scope.

(** The outputs of the program: traj2vtk.cpp:316-325, 343-358.  Msd, Ngp and Isf are single files (number 0). *)
Inductive kind := Msd | Ngp | Isf | Vel | Lngb | Boo | CgBoo | Phi | Vtk.
Scheme Equality for kind.
Definition name : Type := (kind * nat)%type.
Definition name_eqb (a b : name) : bool := kind_beq (fst a) (fst b) && (snd a =? snd b).

Section Resume.
  Variable (A : Type).
  Definition text := list A.
  (** The disk: the outputs that exist and what they hold.  The inputs (trajectories, positions, bonds, .cloud and .vol files) do not change and are not in there. *)
  Definition disk := name -> option text.
  Definition upd (d : disk) (n : name) (o : option text) : disk := fun m => if name_eqb m n then o else d m.
  (** ofstream f(name, ios::out | ios::trunc) creates the file empty; then its characters get to the disk one after the other, and may stop anywhere (buffers are flushed at unknown places). *)
  Inductive op := Trunc (n : name) | Append (n : name) (c : A).
  Definition apply (d : disk) (o : op) : disk :=
    match o with
    | Trunc n => upd d n (Some [])
    | Append n c => upd d n (Some (match d n with Some s => s ++ [c] | None => [c] end))
    end.
  Definition applies (d : disk) (os : list op) : disk := fold_left apply os d.
  Definition write (n : name) (s : text) : list op := Trunc n :: map (Append n) s.
  (** ifstream(name).good() *)
  Definition present (d : disk) (n : name) : bool := match d n with Some _ => true | None => false end.
  Definition contents (d : disk) (n : name) : text := match d n with Some s => s | None => [] end.

  (** What the program computes from its inputs; [tau] is the averaging interval, in steps.  [arg]: argv[2]. *)
  Record inputs := mkInputs {
    size : nat;
    msd : text; ngp : text; isf : text;
    tau_read : text -> nat;                              (* loadTau, Relax_Model.load_tau *)
    vel : nat -> nat -> text; lngb : nat -> nat -> text; boo : nat -> nat -> text; cgboo : nat -> nat -> text; phi : nat -> nat -> text;
    has_vol : bool;                                      (* the .vol files are there *)
    vtk : nat -> text -> text -> text -> text -> text    (* from the files .lngb, _space.boo, .phi, .vel of that time, as they are *)
  }.
  Variables (I : inputs) (arg : option nat).
  Definition both (d : disk) (k : kind) : bool := present d (k, 0) && present d (k, size I - 1).
  (** A series computed in order, skipped if its first and last files are there: traj2vtk.cpp:397-404 (lost neighbours), 406-413, 415-422 (bond order), 435-450 (volume fractions);
      the loops on files are in 75-104, 206-222, 243-250. *)
  Definition series (k : kind) (f : nat -> text) (d : disk) : list op :=
    if both d k then [] else flat_map (fun t => write (k, t) (f t)) (seq 0 (size I)).
  (** 331-368: mean square displacements, non Gaussian parameter, scattering function *)
  Definition isf_stage (d : disk) : list op :=
    match arg with
    | Some _ => []
    | None => if present d (Isf, 0) then [] else write (Msd, 0) (msd I) ++ write (Ngp, 0) (ngp I) ++ write (Isf, 0) (isf I)
    end.
  (** 372-375, 391-394 *)
  Definition tau_of (d : disk) : nat := match arg with Some t => t | None => tau_read I (contents d (Isf, 0)) end.
  (** 370-388: velocities, written by several threads.  [vs tau]: the order in which their operations get to the disk. *)
  Definition vel_stage (vs : nat -> list op) (d : disk) : list op := if both d Vel then [] else vs (tau_of d).
  (** 435-450 *)
  Definition phi_stage (d : disk) : list op := if has_vol I then series Phi (phi I (tau_of d)) d else [].
  (** 452-520 *)
  Definition vtk_stage (d : disk) : list op :=
    flat_map (fun t => write (Vtk, t) (vtk I t (contents d (Lngb, t)) (contents d (CgBoo, t)) (contents d (Phi, t)) (contents d (Vel, t)))) (seq 0 (size I)).
  (** Stages one after the other, each looking at the disk left by the previous ones.  Simplification: the presence of the velocities and of the scattering function is looked at before the first
      stage (327-328), which writes no velocity. *)
  Fixpoint andthen (stages : list (disk -> list op)) (d : disk) : list op :=
    match stages with
    | [] => []
    | s :: ss => s d ++ andthen ss (applies d (s d))
    end.
  Definition stages (vs : nat -> list op) : list (disk -> list op) :=
    [ isf_stage; vel_stage vs; (fun d => series Lngb (lngb I (tau_of d)) d); (fun d => series Boo (boo I (tau_of d)) d); (fun d => series CgBoo (cgboo I (tau_of d)) d); phi_stage; vtk_stage ].
  Definition operations (vs : nat -> list op) (d : disk) : list op := andthen (stages vs) d.
  (** A whole run, and a run that is interrupted after n operations on the disk. *)
  Definition run (vs : nat -> list op) (d : disk) : disk := applies d (operations vs d).
  Definition crash (vs : nat -> list op) (n : nat) (d : disk) : disk := applies d (firstn n (operations vs d)).
End Resume.
Arguments Trunc {A} n. Arguments Append {A} n c.

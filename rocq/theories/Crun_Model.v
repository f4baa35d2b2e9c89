(** Model of the run of mains/cage2vtk.cpp on files: stages skipped when some of their files are there, files written piece by piece, crashes at any point.
    The computations are in Jump_Model (cages, jumps), Isf_Model and Relax_Model; here they are parameters. *)
Require Import List Bool Arith.
Import ListNotations.
Local Open Scope nat_scope.

(** The outputs, cage2vtk.cpp:200-207, 227-239, 272-279: [Dynamic] 0, 1, 2 are the files .msd, .ngp, .isf; [Cage] 0, 1 are .cages and _cages.span; the others are series, one file by time step. *)
Inductive kind := Dynamic | Vel | Cage | Jump | Boo | Phi | Vtk.
Scheme Equality for kind.
Definition name : Type := (kind * nat)%type.
Definition name_eqb (a b : name) : bool := kind_beq (fst a) (fst b) && (snd a =? snd b).

Section Run.
  Variable (A : Type).
  Definition text := list A.
  (** The disk: the outputs that exist and what they hold.  The inputs (trajectories, positions, bonds, .cloud and .vol files) do not change and are not in there. *)
  Definition disk := name -> option text.
  Definition upd (d : disk) (n : name) (o : option text) : disk := fun m => if name_eqb m n then o else d m.
  (** ofstream f(name, ios::out | ios::trunc) creates the file empty; then its characters get to the disk one after the other, and may stop anywhere. *)
  Inductive op := Trunc (n : name) | Append (n : name) (c : A).
  Definition apply (d : disk) (o : op) : disk :=
    match o with
    | Trunc n => upd d n (Some [])
    | Append n c => upd d n (Some (match d n with Some s => s ++ [c] | None => [c] end))
    end.
  Definition applies (d : disk) (os : list op) : disk := fold_left apply os d.
  Definition write (n : name) (s : text) : list op := Trunc n :: map (Append n) s.
  (** ifstream(name).good() *)
  Definition present (d : disk) (n : name) : bool := match d n with Some _ => true | None => false end.
  Definition contents (d : disk) (n : name) : text := match d n with Some s => s | None => [] end.

  (** What the program computes from its inputs.  [C]: cages with their inverse. *)
  Record inputs := mkInputs {
    C : Type;
    size : nat;
    msd : text; ngp : text; isf : text;
    tau_read : text -> nat;                              (* loadTau, Relax_Model.load_tau *)
    vel : nat -> nat -> text;                            (* of the interval and the time step *)
    cages : C; cages_text : text; span : text;           (* getCages, Jump_Model.get_cages, and the text written *)
    reload : text -> option C;                           (* cagesFile>>cages, makeInverse(getFrameSizes): Jump_Model.reload_cages; None: undefined behaviour *)
    jump : nat -> C -> nat -> text; boo : C -> nat -> text; phi : C -> nat -> text;
    has_vol : bool;                                      (* the .vol files are there *)
    vtk : nat -> text -> text -> option text -> text -> text    (* from the files .jump, _cage.boo, _cage.phi, .vel of that time, as they are *)
  }.
  Variables (I : inputs) (arg : option nat).
  (** How many files a stage writes. *)
  Definition number (k : kind) : nat := match k with Dynamic => 3 | Cage => 2 | _ => size I end.
  Definition both (d : disk) (k : kind) : bool := present d (k, 0) && present d (k, size I - 1).
  (** One file after the other. *)
  Definition sweep (k : kind) (f : nat -> text) : list op := flat_map (fun t => write (k, t) (f t)) (seq 0 (number k)).
  (** 219-249 *)
  Definition dynamic_stage (d : disk) : list op :=
    match arg with
    | Some _ => []
    | None => if present d (Dynamic, 2) then [] else sweep Dynamic (fun i => match i with 0 => msd I | 1 => ngp I | _ => isf I end)
    end.
  (** 253-256, 295-301: the interval is an argument, or read from the file .isf. *)
  Definition tau_of (d : disk) : nat := match arg with Some t => t | None => tau_read I (contents d (Dynamic, 2)) end.
  (** 251-266: velocities, written by several threads.  [vs tau]: the order in which their operations get to the disk. *)
  Definition vel_stage (vs : nat -> list op) (d : disk) : list op := if both d Vel then [] else vs (tau_of d).
  (** 268-284: skipped as soon as .cages exists. *)
  Definition cage_stage (d : disk) : list op := if present d (Cage, 0) then [] else sweep Cage (fun i => match i with 0 => cages_text I | _ => span I end).
  (** 304-311 *)
  Definition jump_stage (c : C I) (d : disk) : list op := if both d Jump then [] else sweep Jump (jump I (tau_of d) c).
  (** 313-320 *)
  Definition boo_stage (c : C I) (d : disk) : list op := if both d Boo then [] else sweep Boo (boo I c).
  (** 321-336 *)
  Definition phi_stage (c : C I) (d : disk) : list op := if both d Phi then [] else if has_vol I then sweep Phi (phi I c) else [].
  (** 338-402, on the disk [d]; [have]: haveVolume *)
  Definition vtk_stage (have : bool) (d : disk) : list op :=
    sweep Vtk (fun t => vtk I t (contents d (Jump, t)) (contents d (Boo, t)) (if have then Some (contents d (Phi, t)) else None) (contents d (Vel, t))).
  (** 209-211, 287-293: the cages in memory are those read in the file, if it was there at the beginning, else those just calculated. *)
  Definition cages_of (d : disk) : option (C I) := if present d (Cage, 0) then reload I (contents d (Cage, 0)) else Some (cages I).
  (** 209-402: the operations on the disk, and whether the end is reached.  Simplification: the presence of the velocities, the scattering function and the cages is looked at before the
      first stage (209-211); no stage writes the files of another one, so each stage looks at its own. *)
  Definition operations (vs : nat -> list op) (d : disk) : list op * bool :=
    let o1 := dynamic_stage d in let d1 := applies d o1 in
    let o2 := vel_stage vs d1 in let d2 := applies d1 o2 in
    let o3 := cage_stage d2 in let d3 := applies d2 o3 in
    match cages_of d with
    | None => (o1 ++ o2 ++ o3, false)
    | Some c =>
        let o4 := jump_stage c d3 in let d4 := applies d3 o4 in
        let o5 := boo_stage c d4 in let d5 := applies d4 o5 in
        let o6 := phi_stage c d5 in let d6 := applies d5 o6 in
        (o1 ++ o2 ++ o3 ++ o4 ++ o5 ++ o6 ++ vtk_stage (both d5 Phi || has_vol I) d6, true)
    end.
  (** A whole run, its end, and a run that is interrupted after n operations on the disk. *)
  Definition run (vs : nat -> list op) (d : disk) : disk := applies d (fst (operations vs d)).
  Definition ends (vs : nat -> list op) (d : disk) : bool := snd (operations vs d).
  Definition crash (vs : nat -> list op) (n : nat) (d : disk) : disk := applies d (firstn n (fst (operations vs d))).
End Run.
Arguments Trunc {A} n. Arguments Append {A} n c.

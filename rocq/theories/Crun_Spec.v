(** Vocabulary of the runs of cage2vtk: what each file must hold, and the disks left by interrupted runs. *)
Require Import List Bool Arith.
Require Import Verif.Crun_Model.
Import ListNotations.
Local Open Scope nat_scope.

(** The operations of several threads (or iterations), each in its order. *)
Inductive interleaved {O : Type} : list (list O) -> list O -> Prop :=
| over ls : (forall l, In l ls -> l = []) -> interleaved ls []
| one a o x b l : interleaved (a ++ x :: b) l -> interleaved (a ++ (o :: x) :: b) (o :: l).
Definition prefix {A : Type} (a b : list A) : Prop := exists r, b = a ++ r.
Section Spec.
  Variables (A : Type) (I : inputs A) (arg : option nat).
  (** The velocities of each time are written in order, those of different times in any order. *)
  Definition schedule (vs : nat -> list (op A)) : Prop :=
    forall tau, interleaved (map (fun t => write A (Vel, t) (vel A I tau t)) (seq 0 (size A I))) (vs tau).
  (** The averaging interval, and what each output must hold. *)
  Definition interval : nat := match arg with Some t => t | None => tau_read A I (isf A I) end.
  Definition of_series (f : nat -> text A) (t : nat) : option (text A) := if t <? size A I then Some (f t) else None.
  Definition expected (n : name) : option (text A) :=
    let t := snd n in
    match fst n with
    | Dynamic => match arg, t with None, 0 => Some (msd A I) | None, 1 => Some (ngp A I) | None, 2 => Some (isf A I) | _, _ => None end
    | Vel => of_series (vel A I interval) t
    | Cage => match t with 0 => Some (cages_text A I) | 1 => Some (span A I) | _ => None end
    | Jump => of_series (jump A I interval (cages A I)) t
    | Boo => of_series (boo A I (cages A I)) t
    | Phi => if has_vol A I then of_series (phi A I (cages A I)) t else None
    | Vtk => of_series (fun t => vtk A I t (jump A I interval (cages A I) t) (boo A I (cages A I) t) (if has_vol A I then Some (phi A I (cages A I) t) else None) (vel A I interval t)) t
    end.
  (** All files of that kind are there and hold what they must. *)
  Definition whole (d : disk A) (k : kind) : Prop := forall t, t < number A I k -> d (k, t) = expected (k, t).
  (** The files that make the program skip a stage are only there when all files of the stage are whole. *)
  Definition settled (d : disk A) : Prop :=
    (arg = None -> d (Dynamic, 2) <> None -> whole d Dynamic) /\ (d (Cage, 0) <> None -> whole d Cage) /\
    forall k, In k [Vel; Jump; Boo; Phi] -> d (k, 0) <> None -> d (k, size A I - 1) <> None -> whole d k.
  (** The disks after any number of interrupted runs, each leaving a disk with the property P. *)
  Inductive after_crashes (P : disk A -> Prop) : disk A -> Prop :=
  | no_run d : (forall n, d n = None) -> after_crashes P d
  | crashed d vs n : after_crashes P d -> schedule vs -> P (crash A I arg vs n d) -> after_crashes P (crash A I arg vs n d).
  Definition absent_or_whole (d : disk A) (n : name) : Prop := d n = None \/ d n = expected n.
  (** No interruption while the scattering function or the last file of a series is written, nor from the beginning of the file of cages to the end of that of their spans, nor between the first
      velocities written and the last if they include both ends. *)
  Definition clean (d : disk A) : Prop :=
    absent_or_whole d (Dynamic, 2) /\ (d (Cage, 0) <> None -> whole d Cage) /\ (forall k, In k [Jump; Boo; Phi] -> absent_or_whole d (k, size A I - 1)) /\
    (d (Vel, 0) <> None -> d (Vel, size A I - 1) <> None -> whole d Vel).
End Spec.

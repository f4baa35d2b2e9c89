(** Model of the files of dynamics, written by [exportDynamics] (lib/dynamicParticles.cpp) and by the programs traj2vtk and cage2vtk, and of [loadTau], that reads the relaxation time. *)
Require Import String.
Require Import ZArith List Arith Ascii Bool.
Require Import Verif.Base Verif.Dec Verif.Traj_Model Verif.Particles_Model Verif.Boo_Model Verif.Export_Model.
Import ListNotations.
Local Open Scope nat_scope.
Local Open Scope list_scope.

Section Relax.
  (** Doubles, as in Export_Model; [timeof t]: t*dt. *)
  Variables (V : Type) (zero : V) (show : V -> text) (parse : text -> option V) (timeof : nat -> V).
  (** One line: the time and the values of step t of each column. *)
  Definition dyn_row (cols : list (list V)) (t : nat) : outcome text :=
    omap (fun vs => show (timeof t) ++ flat_map (fun v => tab :: show v) vs ++ [newline]) (osequence (map (fun c => at_index c t) cols)).
  Definition dyn_rows (cols : list (list V)) (n : nat) : outcome text := omap (@List.concat ascii) (osequence (map (dyn_row cols) (seq 0 n))).
  (** traj2vtk.cpp:358-367, cage2vtk.cpp:233-242: the four columns, as many lines as the first one has steps. *)
  Definition program_isf (isf : list (list V)) : outcome text :=
    obind (at_index isf 0) (fun c0 => obind (osequence (map (at_index isf) (seq 0 4))) (fun cols =>
    omap (fun l => txt "#t" ++ tab :: txt "x" ++ tab :: txt "y" ++ tab :: txt "z" ++ tab :: txt "av" ++ newline :: l) (dyn_rows cols (List.length c0)))).
  (** traj2vtk.cpp:346-356, cage2vtk.cpp:221-231: the files .msd and .ngp. *)
  Definition program_column (name : text) (c : list V) : outcome text :=
    omap (fun l => txt "#t" ++ tab :: name ++ newline :: l) (dyn_rows [c] (List.length c)).

  (** dynamicParticles.cpp:1066-1105 [exportDynamics] of several sets: the texts of .msd, .isf and .ngp. *)
  Definition axis_names (name : text) : text := flat_map (fun a => tab :: name ++ txt "_" ++ a) [txt "x"; txt "y"; txt "z"; txt "av"].
  Definition export_dynamics (names : list text) (msd isf ngp : list (list V)) (nsets : nat) : outcome (text * text * text) :=
    obind (osequence (map (at_index names) (seq 0 nsets))) (fun ns =>
    obind (at_index msd 0) (fun c0 => let n := List.length c0 in
    obind (osequence (map (at_index msd) (seq 0 nsets))) (fun ms =>
    obind (osequence (map (at_index isf) (flat_map (fun s => map (fun d => 4 * s + d) (seq 0 4)) (seq 0 nsets)))) (fun is =>
    obind (osequence (map (at_index ngp) (seq 0 nsets))) (fun gs =>
    obind (dyn_rows ms n) (fun lm => obind (dyn_rows is n) (fun li => omap (fun lg =>
      (txt "#t" ++ flat_map (fun x => tab :: x) ns ++ lm, txt "#t" ++ flat_map axis_names ns ++ li, txt "#t" ++ flat_map (fun x => tab :: x) ns ++ lg)) (dyn_rows gs n)))))))).
  (** dynamicParticles.cpp:1107-1114: one set, with an empty name *)
  Definition export_dynamics1 (msd : list V) (isf : list (list V)) (ngp : list V) : outcome (text * text * text) := export_dynamics [[]] [msd] isf [ngp] 1.

  (** [above v]: v > exp(-1) *)
  Variable above : V -> bool.
  (** traj2vtk.cpp:258-267, cage2vtk.cpp:141-150: the values of each step; what cannot be read stays null. *)
  Fixpoint load_isf (n : nat) (s : istream) : list (list V) :=
    match n with
    | 0 => []
    | S n' => let '(_, s1) := get_word s in let '(vs, s2) := read_many parse 4 s1 in
              map (fun o => match o with Some v => v | None => zero end) vs :: load_isf n' s2
    end.
  (** std::upper_bound (libstdc++): halves the interval from [first] of length [len]. *)
  Fixpoint upper_bound (fuel : nat) (l : list V) (first len : nat) : nat :=
    match fuel with
    | 0 => first
    | S f => if len =? 0 then first else
             let half := len / 2 in
             if above (nth (first + half) l zero) then upper_bound f l first half else upper_bound f l (first + half + 1) (len - half - 1)
    end.
  (** traj2vtk.cpp:253-275, cage2vtk.cpp:136-158 [loadTau]; the numbers are size_t.  The last column is the average.  [UB]: back() of an empty vector. *)
  Definition load_tau (file : option text) (size : nat) : outcome Z :=
    let s := match file with Some l => open_text l | None => mkStream [] false true end in
    let av := map (fun r => nth 3 r zero) (load_isf size (snd (get_line s))) in
    if size =? 0 then UB
    else if above (List.last av zero) then Val (Z.of_nat (size - 1))
    else Val ((Z.of_nat (size - 1) - Z.of_nat (upper_bound (S size) (rev av) 0 size)) mod size_mod)%Z.
End Relax.

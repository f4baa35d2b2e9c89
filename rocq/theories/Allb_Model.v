(** Model of the program all_bonds (mains/all_bonds.cpp): from a trajectory file to the bonds of each time step.  The files of the series are in Files_Model, the trajectory file in
    DynFile_Model, the pair correlation function in Density_Model and Rdf_Model, the neighbours in Ngb_Model. *)
Require Import String.
Require Import ZArith List Bool Arith NArith Ascii.
Require Import Verif.Base Verif.Dec Verif.RTree_Model Verif.Box_Model Verif.Traj_Model Verif.Particles_Model Verif.Files_Model Verif.Ngb_Model Verif.Corr_Model Verif.Export_Model
  Verif.DynFile_Model Verif.Density_Model Verif.Rdf_Model Verif.Perco_Model.
Import ListNotations.
Local Open Scope nat_scope.
Local Open Scope list_scope.

(** How a run ends, with the files it leaves: EXIT_SUCCESS; an exception caught at all_bonds.cpp:151-155, or the assertion of line 43; still in the loop of line 115; undefined behaviour. *)
Inductive ending := Done (d : disk) | Failed (d : disk) | Running (d : disk) | Undefined.
Definition and_then {A} (d : disk) (x : outcome A) (f : A -> ending) : ending := match x with Val a => f a | Throw => Failed d | UB => Undefined end.

(** all_bonds.cpp:37: from the last dot on; substr(npos) throws. *)
Definition extension (filename : text) : outcome text := match rfind [dot] filename with Some p => Val (skipn p filename) | None => Throw end.
Definition text_eqb (a b : text) : bool := if list_eq_dec ascii_dec a b then true else false.

Section All_bonds.
  (** Doubles: [lt] is <, [is0] is == 0.0, [add] is +, [divn] the division by a size_t; [of_nat], [div], [norm] as in Density_Model; [show], [parse]: text of a double; [abscissa r] is r/200.0*15.0.
      [grid]: the coordinates of a position as exact numbers, [one] being 1.0 (particles.cpp:33 default radius). *)
  Variables (V : Type) (zero : V) (lt : V -> V -> bool) (is0 : V -> bool) (add : V -> V -> V) (divn : V -> nat -> V).
  Variables (of_nat : nat -> V) (div : V -> V -> V) (norm : nat -> Z -> nat -> Z -> nat -> V) (show : V -> text) (parse : text -> option V) (abscissa : nat -> V).
  Variables (grid : V * V * V -> list Z) (one : Z).

  (** all_bonds.cpp:80 *)
  Definition bins200 : nat := 200.
  (** all_bonds.cpp:99, particles.cpp:812-815: getRdf(200,15.0); the cut-off is 15 diameters. *)
  Definition frame_rdf (st : particles) : outcome (list V) :=
    let cutoff := (2 * 15 * pradius st)%Z in obind (rdf_selection st cutoff) (fun sel => get_rdf V zero of_nat div norm st bins200 cutoff sel).
  (** all_bonds.cpp:96-103 *)
  Definition add_frame (tot g : list V) : list V := map (fun xy => add (fst xy) (snd xy)) (combine tot g).
  Definition total_rdf (sts : list particles) : outcome (list V) := omap (fun gs => fold_left add_frame gs (repeat zero bins200)) (osequence (map frame_rdf sts)).
  (** all_bonds.cpp:105-108 *)
  Definition all_rdf_text (span : nat) (tot : list V) : text :=
    txt "#r" ++ [tab] ++ txt "g(r)" ++ newline :: flat_map (fun kv => show (abscissa (fst kv)) ++ [tab] ++ show (divn (snd kv) span) ++ [newline]) (combine (seq 0 (length tot)) tot).
  (** all_bonds.cpp:88-89: both numbers of a row go to the same place; a failed extraction leaves what is there (as in DynFile_Model). *)
  Fixpoint load_bins (n : nat) (s : istream) : list V :=
    match n with
    | 0 => []
    | S n' =>
        let '(a, s1) := read_with parse s in let '(b, s2) := read_with parse s1 in
        (match b, a with Some y, _ => y | None, Some x => x | None, None => zero end) :: load_bins n' s2
    end.
  (** all_bonds.cpp:81-111: total_g, and the disk afterwards; a file that exists can be opened. *)
  Definition rdf_stage (head : text) (sts : list particles) (d : disk) : outcome (list V * disk) :=
    let name := head ++ txt ".rdf" in
    match d name with
    | Some l => Val (load_bins bins200 (snd (get_line (open_text l))), d)
    | None => omap (fun tot => (tot, put_file d name (all_rdf_text (length sts) tot))) (total_rdf sts)
    end.
  (** std::max_element, then std::min_element from there (all_bonds.cpp:117-118): the first element that no other one beats. *)
  Definition peak (g : list V) : nat := min_index (fun a b => lt b a) g.
  Definition minimum (g : list V) : nat := peak g + min_index lt (skipn (peak g) g).
  (** all_bonds.cpp:115-121, the do ... while loop; [None]: still running after [fuel] turns. *)
  Fixpoint wait_minimum (fuel : nat) (g : list V) : option nat :=
    match fuel with
    | 0 => None
    | S fuel' => let m := minimum g in if is0 (nth m g zero) then wait_minimum fuel' g else Some m
    end.
  (** all_bonds.cpp:134-147: bonds closer than 15 m / 200 diameters.  Simplification: time steps one after the other (see Race_Model for the names asked by several threads). *)
  Definition bonds_step (m : nat) (bond : serie) (t : nat) (st : particles) (d : disk) : outcome disk :=
    omap (fun ngb => put_file d (step_name bond (N.of_nat t)) (save_bonds (ngb2bonds ngb))) (make_ngb_list st (15 * Z.of_nat m) 200).
  (** all_bonds.cpp:26-157.  The box of the files is not used.  [Undefined]: a number of the header is missing, or there is no time step. *)
  Definition all_bonds (c : config) (fuel : nat) (filename : text) (d : disk) : ending :=
    and_then d (extension filename) (fun ext =>
    if negb (text_eqb ext (txt ".traj")) then Failed d else
    match d filename with
    | None => Failed d
    | Some l =>
        match read_header V parse l with
        | (Some _, Some _, pattern, tok, Some off, Some span, _) =>
            and_then d (file_serie (folder_of filename ++ pattern) tok (N.to_nat span) off) (fun dat =>
            and_then d (change_ext dat (txt ".bonds")) (fun bond =>
            and_then d (fill_frames V zero parse d dat) (fun frames =>
            match rev frames with
            | [] => Undefined
            | [] :: _ => Failed d
            | _ =>
                and_then d (osequence (map (fun f => match make_index c (new_particles (map grid f) [] one) with Some st => Val st | None => UB end) frames)) (fun sts =>
                and_then d (serie_head dat) (fun head =>
                and_then d (rdf_stage head sts d) (fun gd =>
                match wait_minimum fuel (fst gd) with
                | None => Running (snd gd)
                | Some m => and_then (snd gd) (ofold (fun ts d' => bonds_step m bond (fst ts) (snd ts) d') (combine (seq 0 (length sts)) sts) (snd gd)) Done
                end)))
            end)))
        | _ => Undefined
        end
    end).
End All_bonds.

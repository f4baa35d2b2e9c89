(** Model of mains/lostngb.cpp and mains/dhlngb.cpp: how many neighbours change between two time steps. *)
Require Import ZArith List Bool Arith NArith Ascii.
Require Import Verif.Base Verif.Dec Verif.SortU Verif.Traj_Model Verif.Particles_Model Verif.Files_Model Verif.Boo_Model Verif.Ngb_Model Verif.Corr_Model.
Import ListNotations.
Local Open Scope nat_scope.

(** [f>>a]: a failed extraction leaves the variable unchanged; [None]: uninitialised.
    Simplification: the same when the text is not a number (since C++11 this stores 0). *)
Definition kept (new old : option N) : option N := match new with Some _ => new | None => old end.
(** lostngb.cpp:58-61, dhlngb.cpp:45-48: size_t a,b; while(f.good()) f>>a>>b: the successive values of (a, b); [None]: out of fuel. *)
Fixpoint bond_reads (fuel : nat) (s : istream) (a b : option N) : option (list (option N * option N)) :=
  if good_stream s then
    match fuel with
    | 0 => None
    | S fuel' =>
        let '(x, s1) := read_num s in
        let '(y, s2) := read_num s1 in
        option_map (cons (kept x a, kept y b)) (bond_reads fuel' s2 (kept x a) (kept y b))
    end
  else Some [].
(** easy[a].push_back(x) *)
Definition push_at (a x : nat) (easy : list (list nat)) : outcome (list (list nat)) := match ngb_push a x easy with Some e => Val e | None => UB end.
(** lostngb.cpp:62-63, dhlngb.cpp:49-50; [inv]: getInverse(t), the trajectory of each position. *)
Definition bin_bond (inv : list nat) (ab : option N * option N) (easy : list (list nat)) : outcome (list (list nat)) :=
  match ab with
  | (Some a, Some b) =>
      let a := N.to_nat a in let b := N.to_nat b in
      obind (at_index inv b) (fun tb => obind (push_at a tb easy) (fun easy => obind (at_index inv a) (fun ta => push_at b ta easy)))
  | _ => UB
  end.
(** lostngb.cpp:49-77, dhlngb.cpp:33-65 [fillNgbFrame]: the trajectories next to each position, sorted, without repetition.
    [file]: the content of the bond file; a file that cannot be opened is not [good()]. *)
Definition ngb_frame (inv : list nat) (file : option text) : outcome (list (list nat)) :=
  match file with
  | None => Val (map sort_unique (repeat [] (length inv)))
  | Some l =>
      match bond_reads (S (length l)) (open_text l) None None with
      | None => UB
      | Some reads => omap (map sort_unique) (ofold (bin_bond inv) reads (repeat [] (length inv)))
      end
  end.
(** os << v for an int *)
Definition print_int (v : Z) : text := if (v <? 0)%Z then "-"%char :: print_N (Z.to_N (- v)) else print_N (Z.to_N v).
(** copy to ostream_iterator<int>(f,"\n") *)
Definition lines_of (vs : list Z) : text := flat_map (fun v => print_int v ++ [newline]) vs.

Section Lost.
  (** [fs]: the files by name; [bonds], [lngb]: the series of bond files and of results. *)
  Variables (ti : trajindex) (fs : text -> option text) (bonds lngb : serie).
  Definition load_frame (t : nat) : outcome (list (list nat)) := obind (at_index (inverse ti) t) (fun inv => ngb_frame inv (fs (step_name bonds (N.of_nat t)))).
  (** the number of neighbours of trajectory T in [here] at position [p] that are not in [there] at position [q]: set_difference *)
  Definition missing (here there : list (list nat)) (p q : nat) : outcome Z :=
    obind (at_index here p) (fun l => omap (fun l' => Z.of_nat (length (set_diff l l'))) (at_index there q)).
  (** lostngb.cpp:85-100: the values of time step t0; [dyn]: the neighbours of all time steps. *)
  Definition post_lost (tau : nat) (dyn : list (list (list nat))) (t0 : nat) : outcome (list Z) :=
    obind (at_index (inverse ti) t0) (fun inv => osequence (map (fun tr =>
      match nth_error (trajs ti) tr with
      | None => UB
      | Some T =>
          if (Z.of_nat (t0 + tau) <=? last_time T)%Z then
            obind (at_index dyn (t0 + tau)) (fun later => obind (access T (t0 + tau)) (fun q =>
            obind (at_index dyn t0) (fun now => obind (access T t0) (fun p => missing later now q p))))
          else Val (-1)%Z
      end) inv)).
  (** lostngb.cpp:27-108, and the same function in traj2vtk.cpp:107-177, [export_post_lostNgb]: names and contents of the files. For tau > size the bound size-tau wraps to a number above size,
      hence the step [size] is reached, whose inverse does not exist. *)
  Definition export_post_lost (tau : nat) : outcome (list (text * text)) :=
    let size := length (inverse ti) in
    obind (osequence (map load_frame (seq 0 size))) (fun dyn =>
    osequence (map (fun t0 => omap (fun vs => (step_name lngb (N.of_nat t0), lines_of vs)) (post_lost tau dyn t0))
      (seq 0 (if size <? tau then S size else size - tau)))).

  (** dhlngb.cpp:121-138: the values of time step t; [initial] and [actual]: the neighbours at times t0 and t. *)
  Definition dyn_lost (t0 : nat) (initial actual : list (list nat)) (t : nat) : outcome (list Z) :=
    obind (at_index (inverse ti) t0) (fun inv => osequence (map (fun ptr =>
      match nth_error (trajs ti) (snd ptr) with
      | None => UB
      | Some T => if (Z.of_nat t <=? last_time T)%Z then obind (access T t) (fun q => missing initial actual (fst ptr) q) else Val (-1)%Z
      end) (combine (seq 0 (length inv)) inv))).
  (** dhlngb.cpp:101-146: [size] comes from the header of the trajectory file, as many as frames in the index. *)
  Definition export_dyn_lost (t0 : nat) : outcome (list (text * text)) :=
    let size := length (inverse ti) in
    if size <=? t0 + 1 then Throw else
    obind (load_frame t0) (fun initial =>
    osequence (map (fun t => obind (load_frame t) (fun actual => omap (fun vs => (step_name lngb (N.of_nat t), lines_of vs)) (dyn_lost t0 initial actual t)))
      (seq (t0 + 1) (size - (t0 + 1))))).
End Lost.

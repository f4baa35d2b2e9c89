(** Model of the programs dhlngb and lostngb (mains/dhlngb.cpp, mains/lostngb.cpp) from their arguments and the trajectory file to the files of results.
    The neighbours and their differences are in Lost_Model, the trajectory file in DynFile_Model, the names of the series in Files_Model. *)
Require Import String.
Require Import ZArith List Bool Arith NArith Ascii.
Require Import Verif.Base Verif.Dec Verif.Traj_Model Verif.Particles_Model Verif.Files_Model Verif.Boo_Model Verif.Corr_Model Verif.Export_Model Verif.DynFile_Model Verif.Jump_Model Verif.Lost_Model Verif.Sub_Model Verif.Perco_Model.
Import ListNotations.
Local Open Scope nat_scope.
Local Open Scope list_scope.

(** atoi (C library): white space, a sign, digits; 0 without any digit.  Undefined when the number is not an int. *)
Definition atoi (arg : text) : outcome Z :=
  let l := snd (span_while is_space arg) in
  let '(sign, l') := match l with
    | c :: l' => if Ascii.eqb c "-" then ((-1)%Z, l') else if Ascii.eqb c "+" then (1%Z, l') else (1%Z, l)
    | [] => (1%Z, [])
    end in
  let z := (sign * Z.of_N (value_from 0 (fst (span_while is_digit l'))))%Z in
  if (- 2 ^ 31 <=? z)%Z && (z <? 2 ^ 31)%Z then Val z else UB.

(** A stage, then what follows it with the same disk. *)
Definition upto {A} (d : disk) (x : outcome A) (f : A -> disk * outcome unit) : disk * outcome unit := match x with Val a => f a | Throw => (d, Throw) | UB => (d, UB) end.

Section Heter.
  (** [parse]: text of a double, for the radius and the time step, which are only displayed. *)
  Variables (V : Type) (parse : text -> option V).

  (** dhlngb.cpp:80-99, 107 and lostngb.cpp:123-142, 146: the series of positions, the number of time steps of the header and the trajectories.  [UB]: a number of the header is missing.
      Without time step in the header the frames are those of the trajectories (traj.cpp:185). *)
  Definition load_trajectories (filename : text) (d : disk) : outcome (nat * trajindex * (text * text * N)) :=
    match d filename with
    | None => Throw
    | Some l =>
        let '(_, _, pattern, tok, off, span, s) := read_header V parse l in
        match off, span, read_index_from s with
        | Some off, Some span, Some tri =>
            let n := N.to_nat span in
            omap (fun ti => (n, ti, (pattern, tok, off))) (reload_cages tri (if n =? 0 then S (Z.to_nat (get_max_time tri)) else n))
        | _, _, _ => UB
        end
    end.
  (** dhlngb.cpp:105-107, lostngb.cpp:146-148: the series of bonds and of results. *)
  Definition two_series (filename : text) (n : nat) (where_ : text * text * N) (postfix : text) : outcome (serie * serie) :=
    let '(pattern, tok, off) := where_ in
    obind (file_serie (folder_of filename ++ pattern) tok n off) (fun dat =>
    obind (change_ext dat (txt ".bonds")) (fun bonds =>
    omap (fun lngb => (bonds, lngb)) (add_postfix_ext dat postfix (txt ".lngb")))).

  (** dhlngb.cpp:115-145: the time steps [ts], one after the other, each one with its own bond file *)
  Fixpoint dh_steps (ti : trajindex) (bonds lngb : serie) (t0 : nat) (initial : list (list nat)) (ts : list nat) (d : disk) : disk * outcome unit :=
    match ts with
    | [] => (d, Val tt)
    | t :: ts' =>
        upto d (obind (load_frame ti d bonds t) (fun actual => dyn_lost ti t0 initial actual t)) (fun vs =>
        dh_steps ti bonds lngb t0 initial ts' (put_file d (step_name lngb (N.of_nat t)) (lines_of vs)))
    end.
  (** dhlngb.cpp:66-153.  [initial] is a size_t: -1 is the largest one, and line 101 adds one to it. *)
  Definition dhlngb (filename arg : text) (d : disk) : disk * outcome unit :=
    upto d (atoi arg) (fun a =>
    let initial := to_size a in
    upto d (load_trajectories filename d) (fun l =>
    let '(n, ti, w) := l in
    if (Z.of_nat n <=? (initial + 1) mod 2 ^ 64)%Z then (d, Throw) else
    upto d (two_series filename n w (txt "_" ++ arg ++ txt "dynhet")) (fun bl =>
    if (initial <? Z.of_nat (length (inverse ti)))%Z then
      let t0 := Z.to_nat initial in
      upto d (load_frame ti d (fst bl) t0) (fun frame => dh_steps ti (fst bl) (snd bl) t0 frame (seq (S t0) (n - S t0)) d)
    else (d, UB)))).

  (** lostngb.cpp:85-100 for the time step t0, as Lost_Model.post_lost, where t0+tau is a size_t *)
  Definition post_values (ti : trajindex) (tau : Z) (dyn : list (list (list nat))) (t0 : nat) : outcome (list Z) :=
    let u := ((Z.of_nat t0 + tau) mod 2 ^ 64)%Z in
    obind (at_index (inverse ti) t0) (fun inv => osequence (map (fun tr =>
      match nth_error (trajs ti) tr with
      | None => UB
      | Some T =>
          if (u <=? last_time T)%Z then
            obind (at_index dyn (Z.to_nat u)) (fun later => obind (access T (Z.to_nat u)) (fun q =>
            obind (at_index dyn t0) (fun now => obind (access T t0) (fun p => missing later now q p))))
          else Val (-1)%Z
      end) inv)).
  (** lostngb.cpp:84-107 *)
  Fixpoint post_steps (ti : trajindex) (lngb : serie) (tau : Z) (dyn : list (list (list nat))) (ts : list nat) (d : disk) : disk * outcome unit :=
    match ts with
    | [] => (d, Val tt)
    | t0 :: ts' => upto d (post_values ti tau dyn t0) (fun vs => post_steps ti lngb tau dyn ts' (put_file d (step_name lngb (N.of_nat t0)) (lines_of vs)))
    end.
  (** lostngb.cpp:84: the bound size-tau is a size_t; when tau > size it is larger than size, so that the time step [size] is reached, where the program is undefined. *)
  Definition post_turns (size : nat) (tau : Z) : nat := if (tau <=? Z.of_nat size)%Z then size - Z.to_nat tau else S size.
  (** lostngb.cpp:110-158; all bond files are read before the first result is written (51-80). *)
  Definition lostngb (filename arg : text) (d : disk) : disk * outcome unit :=
    upto d (atoi arg) (fun a =>
    let tau := to_size a in
    upto d (load_trajectories filename d) (fun l =>
    let '(n, ti, w) := l in
    upto d (two_series filename n w (txt "_post")) (fun bl =>
    let size := length (inverse ti) in
    upto d (osequence (map (load_frame ti d (fst bl)) (seq 0 size))) (fun dyn =>
    post_steps ti (snd bl) tau dyn (seq 0 (post_turns size tau)) d)))).
End Heter.

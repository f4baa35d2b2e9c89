(** Model of mains/cgVoro.cpp: volumes of the Voronoi cells, their averages over neighbours, cells near the walls, bonds. *)
Require Import String.
Require Import ZArith QArith List Bool Arith NArith Ascii.
Require Import Verif.Base Verif.Dec Verif.Traj_Model Verif.Particles_Model Verif.Boo_Model Verif.Corr_Model Verif.Files_Model Verif.Export_Model Verif.RTree_Model.
Import ListNotations.
Local Open Scope nat_scope.
Local Open Scope list_scope.

(** What voro++ knows of a cell: the particle, the volume, the other sides of the faces (a negative number is a wall). *)
Record vcell := mkVcell { vid : nat; vvol : Q; vngb : list Z }.
(** print_all_custom with the format of cgVoro.cpp:68: the numbers of each line, in order.  Simplification: numbers instead of their text
      (volumes have been rounded by the printing); the line feed at the end of each line lets good() be true after the last number. *)
Inductive number := Int (z : Z) | Real (q : Q).
Definition print_cell (c : vcell) : list number := Int (Z.of_nat (vid c)) :: Real (vvol c) :: Int (Z.of_nat (List.length (vngb c))) :: map Int (vngb c).
Definition print_cells (cs : list vcell) : list number := flat_map print_cell cs.

(** operator>> of the stream: [snd] of a stream is good().  A stream that is not good, or that ends, leaves the variable as it was. *)
Definition buffer : Type := (list number * bool)%type.
Definition read_int (b : buffer) (old : option Z) : outcome (option Z * buffer) :=
  match b with
  | (_, false) => Val (old, b)
  | ([], true) => Val (old, ([], false))
  | (Int z :: r, true) => Val (Some z, (r, true))
  | (Real _ :: _, true) => UB
  end.
Definition read_real (b : buffer) (old : Q) : outcome (Q * buffer) :=
  match b with
  | (_, false) => Val (old, b)
  | ([], true) => Val (old, ([], false))
  | (Real q :: r, true) => Val (q, (r, true))
  | (Int z :: r, true) => Val (inject_Z z, (r, true))
  end.
(** cgVoro.cpp:77-78: the neighbours, over those already there. *)
Fixpoint read_ints (olds : list Z) (b : buffer) : outcome (list Z * buffer) :=
  match olds with
  | [] => Val ([], b)
  | o :: olds' => obind (read_int b (Some o)) (fun xb => omap (fun rb => (match fst xb with Some x => x | None => o end :: fst rb, snd rb)) (read_ints olds' (snd xb)))
  end.
(** std::vector::resize *)
Definition resized (n : nat) (l : list Z) : list Z := firstn n l ++ repeat 0%Z (n - List.length l).
(** The index of a vector; a negative number is not one. *)
Definition as_index (z : Z) : outcome nat := if (z <? 0)%Z then UB else Val (Z.to_nat z).
(** cgVoro.cpp:70-79: one iteration.  [vars]: p and s, not initialised at first (a read of them is undefined). *)
Record reading := mkReading { r_p : option Z; r_s : option Z; r_vols : list Q; r_ngbs : list (list Z); r_buf : buffer }.
Definition defined (o : option Z) : outcome Z := match o with Some z => Val z | None => UB end.
Definition read_cell (st : reading) : outcome reading :=
  obind (read_int (r_buf st) (r_p st)) (fun pb =>
  obind (obind (defined (fst pb)) as_index) (fun p =>
  obind (at_index (r_vols st) p) (fun old =>
  obind (read_real (snd pb) old) (fun vb =>
  obind (read_int (snd vb) (r_s st)) (fun sb =>
  obind (obind (defined (fst sb)) as_index) (fun s =>
  obind (at_index (r_ngbs st) p) (fun ngb =>
  omap (fun nb => mkReading (fst pb) (fst sb) (set_nth p (fst vb) (r_vols st)) (set_nth p (fst nb) (r_ngbs st)) (snd nb))
    (read_ints (resized s ngb) (snd sb))))))))).
Fixpoint read_cells (fuel : nat) (st : reading) : outcome reading :=
  if snd (r_buf st) then match fuel with O => UB | S fuel' => obind (read_cell st) (read_cells fuel') end else Val st.
(** cgVoro.cpp:61-84 [get_volumes]: volumes and sorted neighbours of the [n] particles (std::sort of integers).
      Every iteration that leaves the stream good takes a number from it, hence the number of iterations. *)
Definition get_volumes (n : nat) (b : list number) : outcome (list Q * list (list Z)) :=
  omap (fun st => (r_vols st, map (sort_by Z.ltb) (r_ngbs st)))
    (read_cells (S (List.length b)) (mkReading None None (repeat 0%Q n) (repeat [] n) (b, true))).

(** std::lower_bound of libstdc++ (bits/stl_algobase.h): first place from [first], over [len] elements, found by halving. *)
Fixpoint lower (fuel : nat) (before : Z -> bool) (l : list Z) (first len : nat) : nat :=
  match fuel with
  | O => first
  | S fuel' => if len =? 0 then first
               else let half := len / 2 in
                    if before (nth (first + half) l 0%Z) then lower fuel' before l (first + half + 1) (len - half - 1) else lower fuel' before l first half
  end.
Definition lower_bound (before : Z -> bool) (l : list Z) : nat := lower (List.length l) before l 0 (List.length l).
(** lower_bound(begin, end, 0), cgVoro.cpp:124, 147: the neighbours that are not walls. *)
Definition centres (ngb : list Z) : list Z := skipn (lower_bound (fun z => (z <? 0)%Z) ngb) ngb.

(** An element of a vector of doubles is increased. *)
Definition increase (l : list Q) (z : Z) (v : Q) : outcome (list Q) :=
  obind (as_index z) (fun i => omap (fun x => set_nth i (x + v)%Q l) (at_index l i)).
Definition count_up (l : list nat) (z : Z) : outcome (list nat) :=
  obind (as_index z) (fun i => omap (fun x => set_nth i (S x) l) (at_index l i)).
(** cgVoro.cpp:95-111: each cell that is not near a wall gives its volume to itself and to its neighbours. *)
Definition give (v : Q) (z : Z) (st : list Q * list nat) : outcome (list Q * list nat) :=
  obind (increase (fst st) z v) (fun cg => omap (fun d => (cg, d)) (count_up (snd st) z)).
Definition near_wall (ngb : list Z) : bool := match ngb with [] => true | z :: _ => (z <? 0)%Z end.
Definition give_all (vols : list Q) (ngbs : list (list Z)) (st : list Q * list nat) : outcome (list Q * list nat) :=
  ofold (fun p st =>
    obind (at_index ngbs p) (fun ngb =>
    if near_wall ngb then Val st
    else obind (at_index vols p) (fun v => ofold (fun z st => give v z st) (Z.of_nat p :: ngb) st))) (seq 0 (List.length (fst st))) st.
(** cgVoro.cpp:112-118: the means, and the particles that had nothing but have a cell. *)
Definition divided (x : Q) (d : nat) : Q := if d =? 0 then x else (x / inject_Z (Z.of_nat d))%Q.
Definition first_means (st : list Q * list nat) : list Q := map (fun xd => divided (fst xd) (snd xd)) (combine (fst st) (snd st)).
Definition have_cell (ngbs : list (list Z)) (p : nat) : bool := match nth p ngbs [] with [] => false | _ => true end.
Definition left_over (ngbs : list (list Z)) (d : list nat) : list nat := filter (fun p => (nth p d 0 =? 0) && have_cell ngbs p) (seq 0 (List.length d)).
(** cgVoro.cpp:124-129: sum of the neighbours that have a value.  Simplification: without rounding, 1+v*v > 1 when v is not null (doubles: larger than about 1e-8). *)
Definition take_from (p : nat) (z : Z) (st : list Q * nat) : outcome (list Q * nat) :=
  obind (obind (as_index z) (at_index (fst st))) (fun v =>
  if Qlt_le_dec 1 (1 + v * v) then omap (fun cg => (cg, S (snd st))) (increase (fst st) (Z.of_nat p) v) else Val st).
(** cgVoro.cpp:120-134: the queue; [None]: still running after [fuel] iterations. *)
Fixpoint second_chance (fuel : nat) (ngbs : list (list Z)) (queue : list nat) (cg : list Q) : option (outcome (list Q)) :=
  match queue with
  | [] => Some (Val cg)
  | p :: queue' =>
      match fuel with
      | O => None
      | S fuel' =>
          match obind (at_index ngbs p) (fun ngb => ofold (take_from p) (centres ngb) (cg, 0)) with
          | Val (cg', nb) => if nb =? 0 then second_chance fuel' ngbs (queue' ++ [p]) cg'
                             else second_chance fuel' ngbs queue' (set_nth p (nth p cg' 0%Q / inject_Z (Z.of_nat nb))%Q cg')
          | Throw => Some Throw
          | UB => Some UB
          end
      end
  end.
(** cgVoro.cpp:86-137 [get_cgVolumes], after get_volumes; [n]: the number of particles. *)
Definition coarse (fuel n : nat) (vols : list Q) (ngbs : list (list Z)) : option (outcome (list Q)) :=
  match give_all vols ngbs (repeat 0%Q n, repeat 0 n) with
  | Val st => second_chance fuel ngbs (left_over ngbs (snd st)) (first_means st)
  | Throw => Some Throw
  | UB => Some UB
  end.

(** cgVoro.cpp:139-156 [getOutsides]; front() of an empty vector is undefined. *)
Definition outsides_of (ngbs : list (list Z)) (p : nat) : outcome (list nat * list Z) :=
  obind (at_index ngbs p) (fun ngb => match ngb with [] => UB | z :: _ => Val (if (z <? 0)%Z then ([p], Z.of_nat p :: centres ngb) else ([], [])) end).
(** std::list::unique *)
Fixpoint unique (l : list Z) : list Z :=
  match l with
  | x :: ((y :: _) as l') => if (x =? y)%Z then match unique l' with _ :: r => x :: r | [] => [x] end else x :: unique l'
  | _ => l
  end.
Definition get_outsides (ngbs : list (list Z)) : outcome (list nat * list Z) :=
  omap (fun parts => (flat_map fst parts, unique (sort_by Z.ltb (flat_map snd parts)))) (osequence (map (outsides_of ngbs) (seq 0 (List.length ngbs)))).

(** cgVoro.cpp:158-166 [print_bonds].  p is a size_t: the comparisons of lower_bound take the neighbours modulo 2^64, where walls are large numbers. *)
Definition unsigned (z : Z) : Z := (z mod 2 ^ 64)%Z.
Definition bonds_of (p : nat) (ngb : list Z) : list (nat * Z) := map (pair p) (skipn (lower_bound (fun z => (unsigned z <? Z.of_nat p)%Z) ngb) ngb).
Definition print_bonds (ngbs : list (list Z)) : list (nat * Z) := flat_map (fun pn => bonds_of (fst pn) (snd pn)) (combine (seq 0 (List.length ngbs)) ngbs).

(** cgVoro.cpp:265-276, 322-333: the box, one unit larger than the particles on each side; front() of an empty set is undefined. *)
Definition coord (d : nat) (p : Q * Q * Q) : Q := let '(x, y, z) := p in match d with 0 => x | 1 => y | _ => z end.
Definition Qgreatest (a b : Q) : Q := if Qlt_le_dec a b then b else a.
Definition Qleast (a b : Q) : Q := if Qlt_le_dec b a then b else a.
Definition voro_box (ps : list (Q * Q * Q)) : outcome (list (Q * Q)) :=
  match ps with
  | [] => UB
  | f :: _ => Val (map (fun d => ((fold_left Qleast (map (coord d) ps) (coord d f) - 1)%Q, (fold_left Qgreatest (map (coord d) ps) (coord d f) + 1)%Q)) [0; 1; 2])
  end.

(** The contents of the files: the values written, line by line. *)
Inductive content := Values (l : list Q) | Pairs (l : list (nat * Z)) | Ids (l : list nat) | Zs (l : list Z) | Rows (l : list (Q * Q * Q * Q)).
Section Program.
  (** [voro]: the cells made by voro++ for particles in a box. *)
  Variable voro : list (Q * Q * Q) -> list (Q * Q) -> list vcell.
  (** cgVoro.cpp:263-279, 321-337: the cells of the particles of a file, their volumes, averages, neighbours. *)
  Definition diagram (fuel : nat) (ps : list (Q * Q * Q)) : option (outcome (list Q * list (list Z) * list Q)) :=
    match obind (voro_box ps) (fun b => get_volumes (List.length ps) (print_cells (voro ps b))) with
    | Val (vols, ngbs) => match coarse fuel (List.length ps) vols ngbs with
                          | Some o => Some (omap (fun cg => (vols, ngbs, cg)) o)
                          | None => None
                          end
    | Throw => Some Throw
    | UB => Some UB
    end.
  (** cgVoro.cpp:282-308: the files of a time step. *)
  Definition step_files (fuel : nat) (vol cg bonds outside outside2 : text) (ps : list (Q * Q * Q)) : option (outcome (list (text * content))) :=
    match diagram fuel ps with
    | Some (Val (vols, ngbs, cgs)) => Some (omap (fun o => [(vol, Values vols); (cg, Values cgs); (bonds, Pairs (print_bonds ngbs)); (outside, Ids (fst o)); (outside2, Zs (snd o))]) (get_outsides ngbs))
    | Some Throw => Some Throw
    | Some UB => Some UB
    | None => None
    end.
  (** cgVoro.cpp:237-242, 282-306: the names of the files of step [t]. *)
  Definition step_names (dat : serie) (t : N) : outcome (list text) :=
    obind (change_ext dat (txt ".outside")) (fun o =>
    obind (change_ext dat (txt ".outside2")) (fun o2 =>
    obind (change_ext dat (txt ".vol")) (fun v =>
    obind (add_postfix_ext dat (txt "_space") (txt ".vol")) (fun cg =>
    omap (fun b => map (fun s => step_name s t) [v; cg; b; o; o2]) (add_postfix_ext dat (txt "_voro") (txt ".bonds")))))).
  (** cgVoro.cpp:318-371: one file.  What is written, and whether the program goes to its end: without "_t" in the name insert throws. *)
  Definition single (fuel : nat) (filename : text) (ps : list (Q * Q * Q)) : option (outcome (list (text * content) * bool)) :=
    let stem := cut_ext filename in
    match diagram fuel ps with
    | Some (Val (vols, ngbs, cgs)) => Some (omap (fun o =>
        let files := [(stem ++ txt ".csv", Rows (combine ps cgs)); (stem ++ txt ".bonds", Pairs (print_bonds ngbs)); (stem ++ txt ".outside", Ids (fst o)); (stem ++ txt ".outside2", Zs (snd o))] in
        match rfind (txt "_t") stem with
        | Some k => (files ++ [(firstn k stem ++ txt "_space" ++ skipn k stem ++ txt ".vol", Values cgs)], true)
        | None => (files, false)
        end) (get_outsides ngbs))
    | Some Throw => Some Throw
    | Some UB => Some UB
    | None => None
    end.
End Program.

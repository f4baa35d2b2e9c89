(** Model of the text files of particles, bonds and bond orientational order (lib/particles.cpp, particles.hpp, boo_data.cpp, fields.cpp). *)
Require Import String.
Require Import List Arith NArith Ascii Bool.
Require Import Verif.Base Verif.Dec Verif.Traj_Model Verif.Particles_Model Verif.Ngb_Model.
Import ListNotations.
Local Open Scope nat_scope.
Local Open Scope list_scope.

Definition txt (s : string) : text := list_ascii_of_string s.
Definition spc : ascii := " "%char.

(** C++ standard library: one word of a stream, up to the next white space. *)
Definition get_word (s : istream) : option text * istream :=
  if good_stream s then
    match snd (span_while is_space (buf s)) with
    | [] => (None, mkStream [] true true)
    | l => let '(w, rest) := span_while (fun c => negb (is_space c)) l in
           (Some w, mkStream rest (match rest with [] => true | _ => false end) false)
    end
  else (None, mkStream (buf s) (eof s) true).

Section Export.
  (** Doubles: printing (6 significant digits by default) and conversion of a word.
      Simplification: a word is converted entirely or makes the stream fail. *)
  Variables (V : Type) (zero : V) (show : V -> text) (parse : text -> option V).
  (** is >> x *)
  Definition read_with {A} (conv : text -> option A) (s : istream) : option A * istream :=
    match get_word s with
    | (Some w, s') => match conv w with Some v => (Some v, s') | None => (None, mkStream (buf s') false true) end
    | (None, s') => (None, s')
    end.
  Fixpoint read_many {A} (conv : text -> option A) (k : nat) (s : istream) : list (option A) * istream :=
    match k with
    | 0 => ([], s)
    | S k' => let '(v, s1) := read_with conv s in let '(vs, s2) := read_many conv k' s1 in (v :: vs, s2)
    end.

  (** particles.cpp:833-854 [exportToFile]; only the upper edges of the box are written. *)
  Definition print_row (p : V * V * V) : text :=
    let '(x, y, z) := p in show x ++ [tab] ++ show y ++ [tab] ++ show z ++ [tab] ++ [newline].
  Definition export_dat (upper : V * V * V) (ps : list (V * V * V)) : text :=
    let '(hx, hy, hz) := upper in
    txt "1" ++ [tab] ++ print_nat (length ps) ++ [tab] ++ txt "1" ++ [newline] ++
    show hx ++ [tab] ++ show hy ++ [tab] ++ show hz ++ [newline] ++ flat_map print_row ps.
  (** particles.cpp:33-60, constructor from a DAT file: upper edges of the box ([None]: not stored) and positions.
      A failed reading leaves the null coordinate. *)
  Fixpoint read_rows (n : nat) (s : istream) : list (V * V * V) :=
    match n with
    | 0 => []
    | S n' =>
        let '(x, s1) := read_with parse s in let '(y, s2) := read_with parse s1 in let '(z, s3) := read_with parse s2 in
        let val o := match o with Some v => v | None => zero end in
        (val x, val y, val z) :: read_rows n' s3
    end.
  Definition read_dat (l : text) : (option V * option V * option V) * list (V * V * V) :=
    let '(_, s1) := read_num (open_text l) in
    let '(size, s2) := read_num s1 in
    let '(_, s3) := read_num s2 in
    let '(hx, s4) := read_with parse s3 in
    let '(hy, s5) := read_with parse s4 in
    let '(hz, s6) := read_with parse s5 in
    ((hx, hy, hz), read_rows (match size with Some n => N.to_nat n | None => 0 end) s6).

  (** particles.cpp:857-871 [toVTKstream] of the positions. *)
  Definition vtk_row (p : V * V * V) : text := let '(x, y, z) := p in show x ++ [spc] ++ show y ++ [spc] ++ show z ++ [spc] ++ [newline].
  Definition vtk_points (name : text) (ps : list (V * V * V)) : text :=
    txt "# vtk DataFile Version 3.0" ++ [newline] ++ name ++ [newline] ++ txt "ASCII" ++ [newline] ++ txt "DATASET POLYDATA" ++ [newline] ++
    txt "POINTS " ++ print_nat (length ps) ++ txt " double" ++ [newline] ++ flat_map vtk_row ps.
  (** particles.hpp:261-265 [operator<<(Bond)]; particles.cpp:1014-1021 [toVTKstream] of the bonds. *)
  Definition print_bond (b : nat * nat) : text := print_nat (fst b) ++ [spc] ++ print_nat (snd b).
  Definition vtk_bonds (bonds : list (nat * nat)) : text :=
    txt "LINES " ++ print_nat (length bonds) ++ [spc] ++ print_nat (length bonds * 3) ++ [newline] ++
    flat_map (fun b => txt "2 " ++ print_bond b ++ [newline]) bonds.
  (** fields.cpp:33-55: a scalar field and a vector field, with their names. *)
  Definition vtk_scalar (f : text * list V) : text :=
    txt "SCALARS " ++ fst f ++ txt " double" ++ [newline] ++ txt "LOOKUP_TABLE default" ++ [newline] ++ flat_map (fun v => show v ++ [newline]) (snd f).
  Definition vtk_vector (f : text * list (V * V * V)) : text :=
    txt "VECTORS " ++ fst f ++ txt " double" ++ [newline] ++ flat_map vtk_row (snd f).
  (** particles.cpp:882-908 [exportToVTK] *)
  Definition export_vtk (name : text) (ps : list (V * V * V)) (bonds : list (nat * nat)) (scalars : list (text * list V)) (vectors : list (text * list (V * V * V))) : text :=
    vtk_points name ps ++ vtk_bonds bonds ++ txt "POINT_DATA " ++ print_nat (length ps) ++ [newline] ++ flat_map vtk_scalar scalars ++ flat_map vtk_vector vectors.

  (** Bonds written by copy to ostream_iterator<Bond>(f, "\n") (mains/linkboo.cpp:203, dynamicParticles.cpp). *)
  Definition save_bonds (bonds : list (nat * nat)) : text := flat_map (fun b => print_bond b ++ [newline]) bonds.
  (** particles.cpp:1000-1011 [loadBonds], through particles.hpp:266-272 [operator>>(Bond)] and istream_iterator;
      [None]: out of fuel. *)
  Fixpoint load_bonds_loop (fuel : nat) (s : istream) (bonds : list (nat * nat)) : option (list (nat * nat)) :=
    match fuel with
    | 0 => None
    | S fuel' =>
        let '(x, s1) := read_num s in
        let '(y, s2) := read_num s1 in
        if fail s2 then Some bonds
        else match x, y with
             | Some x, Some y => load_bonds_loop fuel' s2 (bond_insert (mk_bond (N.to_nat x) (N.to_nat y)) bonds)
             | _, _ => Some bonds
             end
    end.
  Definition load_bonds (l : text) : option (list (nat * nat)) := load_bonds_loop (S (length l)) (open_text l) [].

  (** boo_data.cpp:338-344 [operator<<(BooData)], each followed by a newline (mains/boo.cpp:95-99); 36 complex numbers as 72 doubles. *)
  Definition save_qlm (boos : list (list V)) : text := flat_map (fun b => flat_map (fun v => show v ++ [tab]) b ++ [newline]) boos.
  (** particles.cpp:593-606 [load_qlm]: copy of an istream_iterator<BooData> (boo_data.cpp:347-356) to BOO.begin(), on [boo] already
      resized to the number of particles.  A value that is not read is not stored since the stream failed. *)
  Definition all_vals (vs : list (option V)) : list V := flat_map (fun o => match o with Some v => [v] | None => [] end) vs.
  Fixpoint load_qlm_loop (rest : list (list V)) (s : istream) (done : list (list V)) : outcome (list (list V)) :=
    let '(vs, s') := read_many parse 72 s in
    if fail s' then Val (done ++ rest)
    else match rest with
         | [] => UB
         | _ :: rest' => load_qlm_loop rest' s' (done ++ [all_vals vs])
         end.
  Definition load_qlm (l : text) (boo : list (list V)) : outcome (list (list V)) := load_qlm_loop boo (open_text l) [].

  (** Complex numbers as "(re,im)": printing and conversion of a word. *)
  Variables (C : Type) (cshow : C -> text) (cparse : text -> option C).
  (** particles.cpp:559-573 [exportQ6m]: the seven coefficients of degree 6, indices 9 to 15, of each particle. *)
  Definition export_q6m (q6s : list (list C)) : text := flat_map (fun q => flat_map (fun c => tab :: cshow c) q ++ [newline]) q6s.
  (** particles.cpp:576-591 [load_q6m]; [rest] are the coefficients 9 to 15 of BOO[p], BOO[p+1]... *)
  Definition store {A} (old : list A) (vs : list (option A)) : list A := map (fun ov => match snd ov with Some v => v | None => fst ov end) (combine old vs).
  Fixpoint load_q6m_loop (rest : list (list C)) (s : istream) (done : list (list C)) : outcome (list (list C)) :=
    if eof s then Val (done ++ rest)
    else match rest with
         | [] => UB
         | q :: rest' => let '(vs, s') := read_many cparse 7 s in load_q6m_loop rest' s' (done ++ [store q vs])
         end.
  Definition load_q6m (l : text) (q6s : list (list C)) : outcome (list (list C)) := load_q6m_loop q6s (open_text l) [].

  (** particles.cpp:969-987 [loadBoo]: a line is skipped, all the numbers that follow are copied to the array [qw] of 8*size() values. *)
  Fixpoint load_boo_loop (rest : list V) (s : istream) (done : list V) : outcome (list V) :=
    match read_with parse s with
    | (Some v, s') => match rest with [] => UB | _ :: rest' => load_boo_loop rest' s' (done ++ [v]) end
    | (None, _) => Val (done ++ rest)
    end.
  Definition load_boo (l : text) (qw : list V) : outcome (list V) := load_boo_loop qw (snd (get_line (open_text l))) [].
End Export.

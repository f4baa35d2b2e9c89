(** Model of graphic/serieTracker.cpp (series of image files) and graphic/lifTracker.cpp (time steps of a Leica file). *)
Require Import List Bool Arith NArith Ascii.
Require Import Verif.Dec Verif.Traj_Model Verif.Particles_Model Verif.Corr_Model Verif.Files_Model Verif.Pyramid_Model Verif.Tracker_Model.
Import ListNotations.

Definition t_mark : text := [ascii_of_N 95; ascii_of_N 116].
Definition z_mark : text := [ascii_of_N 95; ascii_of_N 122].
Definition nul : ascii := ascii_of_N 0.
(** std::string::resize (C++ standard library): cuts, or completes with null characters. *)
Definition resize (n : nat) (s : text) : text := firstn n s ++ repeat nul (n - length s).
(** std::string::c_str read as a C string: up to the first null character. *)
Fixpoint c_str (s : text) : text := match s with [] => [] | c :: s' => if Ascii.eqb c nul then [] else c :: c_str s' end.

(** serieTracker.hpp: hasDepth and hasTime with the widths of the numbers, and the texts around. *)
Record pattern := mkPattern { p_head : text; p_z : option nat; p_t : option nat; p_tail : text }.
(** The digits after position pos+2: [None] when the name ends there (find_first_not_of gives npos). *)
Definition digits_after (name : text) (pos : nat) : option (nat * text) :=
  let '(ds, tail) := span_while is_digit (skipn (pos + 2) name) in
  match tail with [] => None | _ => Some (length ds, tail) end.
(** serieTracker.cpp:171-184: head, width and tail after looking for the time.  substr(npos) throws; so does a name without time for several
    time steps. *)
Definition parse_time (name : text) (nt : nat) : outcome (text * option nat * text) :=
  match rfind t_mark name with
  | Some pos => match digits_after name pos with Some (w, tail) => Val (firstn pos name, Some w, tail) | None => Throw end
  | None => if 1 <? nt then Throw else Val (name, None, [])
  end.
(** serieTracker.cpp:185-200: then looking for the depth.  [UB] stands for the width npos-(zpos+2), given to boost::format. *)
Definition parse_depth (name : text) (nz : nat) (htt : text * option nat * text) : outcome pattern :=
  let '(head, wt, tail) := htt in
  match rfind z_mark name with
  | Some pos =>
      match digits_after name pos, tail with
      | Some (w, tail'), [] => Val (mkPattern (resize pos head) (Some w) wt tail')
      | Some (w, _), _ => Val (mkPattern (resize pos head) (Some w) wt tail)
      | None, [] => Throw
      | None, _ => UB
      end
  | None => if 1 <? nz then Throw else Val (mkPattern head None wt tail)
  end.
(** serieTracker.cpp:203-213: the boost::format.  A name with a percent sign is not modelled ([UB]): boost::format would interpret it. *)
Definition serie_pattern (name : text) (nz nt : nat) : outcome pattern :=
  obind (parse_time name nt) (fun htt => obind (parse_depth name nz htt) (fun p =>
    if existsb (Ascii.eqb percent) (p_head p ++ p_tail p) then UB else Val p)).
(** boost::format "%|0wd|" after its mark. *)
Definition number (mark : text) (w : option nat) (n : N) : text := match w with Some w => mark ++ pad w n | None => [] end.
(** serieTracker.cpp:243, 250, 259, 266: str().c_str() of the format, fed with z then t when the name has them. *)
Definition slice_name (p : pattern) (z t : N) : text := c_str (p_head p ++ number z_mark (p_z p) z ++ number t_mark (p_t p) t ++ p_tail p).

(** CImg<unsigned char>::load: dimensions and pixels, x fastest, then y, z and channel. *)
Record picture (C : Type) := mkPicture { wid : nat; hei : nat; dep : nat; spec : nat; pixels : list C }.
Arguments mkPicture {C}. Arguments wid {C}. Arguments hei {C}. Arguments dep {C}. Arguments spec {C}. Arguments pixels {C}.
Section Steps.
(** As in Tracker_Model: float pixels, sums, bytes. *)
Variables (V T C : Type) (add : T -> V -> T) (zero_sum : T) (conv : C -> V) (over : T -> nat -> T).
Variables n0 n1 n2 : nat.
(** The files: [None] when CImg cannot load (it throws). *)
Variable disk : text -> option (picture C).
(** buffer.load then buffer.data()+buffer.offset(0,0,0,channel) (CImg): the pixels from there. *)
Definition load (channel : nat) (name : text) : outcome (list C) :=
  match disk name with Some b => Val (skipn (channel * (wid b * hei b * dep b)) (pixels b)) | None => Throw end.
(** serieTracker.cpp:226-270 setTimeStep: the block of the tracker, and its mean ([None]: not initialised). *)
Definition set_time_step (p : pattern) (channel : nat) (t : N) (m : list V) : outcome (list V * option T) :=
  omap (fun mm => (fst mm, option_map (fun s => over s (n0 * n1 * n2)) (snd mm)))
  (match p_z p with
   | None => obind (load channel (slice_name p 0 t)) (fun inp => omap (fun s => (mem V T C s, option_map (fun x => over x (n0 * n1 * n2)) (sum V T C s))) (fill_image V T C add conv n0 n1 n2 m inp))
   | Some _ => ofold (fun z mm => obind (load channel (slice_name p (N.of_nat z) t)) (fun inp => omap (fun s => (mem V T C s, sum V T C s)) (fill_slice V T C add conv n1 n2 z (fst mm) inp (snd mm)))) (seq 0 n0) (m, Some zero_sum)
   end).

(** graphic/lifTracker.cpp: the stream position, the time step, the block of the tracker. *)
Variable zero : V.
Record lif := mkLif { at_byte : nat; lstep : nat; lmem : list V }.
Variables (file : list C) (start inc steps : nat).
(** lifTracker.cpp:52-64 setTimeStep; lifFile.cpp:302-322 begin, getOffset: throws past the last step; a copy of the iterator is consumed, the
    stream moves. *)
Definition lif_set (t : nat) (s : lif) : outcome lif :=
  if steps <=? t then Throw
  else let off := start + inc * t in
    omap (fun f => mkLif (off + n0 * n1 * n2) t (mem V T C f)) (fill_image_uchar V T C zero add zero_sum conv n0 n1 n2 (lmem s) (skipn off file)).
(** lifTracker.cpp:70-83 operator++: nothing is read at the end of the file. *)
Definition lif_next (s : lif) : outcome lif :=
  if length file <=? at_byte s then Val (mkLif (at_byte s) (S (lstep s)) (lmem s))
  else omap (fun f => mkLif (at_byte s + n0 * n1 * n2) (S (lstep s)) (mem V T C f)) (fill_image_uchar V T C zero add zero_sum conv n0 n1 n2 (lmem s) (skipn (at_byte s) file)).
End Steps.

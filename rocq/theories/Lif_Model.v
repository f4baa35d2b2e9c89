(** Model of multiscale/src/lifFile.cpp (LifReader, LifSerie, LifSerieHeader) and multiscale/src/locatorfromlif.cpp. *)
Require Import String List Bool Arith ZArith.
Import ListNotations.
Local Open Scope Z_scope.

(** Bytes are integers from 0 to 255; a file is the list of its bytes; positions, sizes and offsets are integers, with explicit
    reductions where the code computes in unsigned int, int or unsigned long long. *)
Definition two31 : Z := 2147483648.
Definition two32 : Z := 4294967296.
Definition two63 : Z := 9223372036854775808.
Definition two64 : Z := 18446744073709551616.
Definition to_int (z : Z) : Z := (z + two31) mod two32 - two31.
Definition to_long (z : Z) : Z := (z + two63) mod two64 - two63.

(** Outcomes: a value; an exception; a read of uninitialised memory; an endless loop; undefined behaviour (memory overrun);
    [OutOfFuel] is an artefact of the model, excluded by C66_terminates. *)
Inductive res (A : Type) := Ok (a : A) | Refused | Uninitialised | Hangs | Overrun | OutOfFuel.
Arguments Ok {A} a.
Arguments Refused {A}.
Arguments Uninitialised {A}.
Arguments Hangs {A}.
Arguments Overrun {A}.
Arguments OutOfFuel {A}.
Definition bind {A B} (x : res A) (f : A -> res B) : res B :=
  match x with Ok a => f a | Refused => Refused | Uninitialised => Uninitialised | Hangs => Hangs | Overrun => Overrun | OutOfFuel => OutOfFuel end.

(** * std::ifstream (C++ standard library): a position and the failbit.  Every operation of the code that sets eofbit sets failbit too. *)
Record stream := mkStream { pos : Z; failed : bool }.
Definition size (file : list Z) : Z := Z.of_nat (length file).
(** tellg: -1 on a failed stream. *)
Definition tellg (s : stream) : Z := if failed s then -1 else pos s.
(** seekg(d, ios::cur) and seekg(p, ios::beg): nothing on a failed stream; beyond the end is fine, before the beginning fails. *)
Definition seek_to (p : Z) (s : stream) : stream :=
  if failed s then s else if p <? 0 then mkStream (pos s) true else mkStream p false.
Definition seek_cur (d : Z) (s : stream) : stream := seek_to (pos s + d) s.
Definition rest (file : list Z) (s : stream) : list Z := skipn (Z.to_nat (pos s)) file.
(** read(buffer, n): the bytes obtained; fewer than n at the end of the file, which fails the stream. *)
Definition read (file : list Z) (n : Z) (s : stream) : list Z * stream :=
  if failed s then ([], s)
  else let got := firstn (Z.to_nat n) (rest file s) in
       (got, mkStream (pos s + Z.of_nat (length got)) (negb (Z.of_nat (length got) =? n))).
(** file >> char: skips white space; at the end of the file the variable keeps its value. *)
Definition is_space (b : Z) : bool := (b =? 32) || ((9 <=? b) && (b <=? 13)).
Fixpoint next_char (l : list Z) (p : Z) : option (Z * Z) :=
  match l with [] => None | b :: l' => if is_space b then next_char l' (p + 1) else Some (b, p + 1) end.
Definition get_char (file : list Z) (c : option Z) (s : stream) : option Z * stream :=
  if failed s then (c, s)
  else match next_char (rest file s) (pos s) with
       | Some (b, p) => (Some b, mkStream p false)
       | None => (c, mkStream (size file) true)
       end.

(** Little-endian integers (x86). *)
Fixpoint le (bs : list Z) : Z := match bs with [] => 0 | b :: bs' => b + 256 * le bs' end.
(** lifFile.cpp:479-498 readInt, readUnsignedInt, readUnsignedLongLong (n = 4, 4, 8 bytes).  readInt is only compared with 0x70,
    which does not depend on its sign. *)
Definition read_number (file : list Z) (n : Z) (s : stream) : res (Z * stream) :=
  let '(bs, s') := read file n s in if failed s' then Uninitialised else Ok (le bs, s').

Definition mem_block_code : Z := 112.
Definition test_code : Z := 42.

(** lifFile.cpp:452: while(lifChar != TestCode) file>>lifChar; whether white space is skipped makes no difference.  At the end of
    the file lifChar keeps its value for ever: [None]. *)
Fixpoint find_test_code (l : list Z) (p : Z) : option Z :=
  match l with [] => None | b :: l' => if b =? test_code then Some (p + 1) else find_test_code l' (p + 1) end.

(** lifFile.cpp:421-422: every second byte. *)
Fixpoint every_second (l : list Z) : list Z :=
  match l with a :: _ :: l' => a :: every_second l' | [a] => [a] | [] => [] end.

Section Reader.
(** lifFile.cpp:326-385 LifHeader::parseHeader, over TinyXML: the version and the headers of the series (an oracle here). *)
Variable H : Type.
Variable parse_header : list Z -> res (Z * list H).
Variable file : list Z.

(** lifFile.cpp:255-274 LifSerie constructor (the file can be opened again). *)
Definition lif_serie (h : H) (offset memory_size : Z) : res (H * Z * Z) :=
  if size file <=? offset then Refused
  else if size file <? (offset + memory_size) mod two64 then Refused
  else Ok (h, offset, memory_size).

(** lifFile.cpp:427-473: the loop over memory blocks; [hs] are the series headers not yet used, [acc] the series built so far. *)
Fixpoint blocks (fuel : nat) (version : Z) (hs : list H) (c : option Z) (s : stream) (acc : list (H * Z * Z)) : res (list (H * Z * Z)) :=
  if tellg s <? size file then
    match fuel with
    | O => OutOfFuel
    | S fuel' =>
      bind (read_number file 4 s) (fun '(check, s) =>
      if negb (check =? mem_block_code) then Refused else
      let '(c, s) := get_char file c (seek_cur 4 s) in
      match c with
      | None => Uninitialised
      | Some ch =>
        if negb (ch =? test_code) then Refused else
        bind (read_number file (if 2 <=? version then 8 else 4) s) (fun '(memory_size, s) =>
        match find_test_code (rest file s) (pos s) with
        | None => Hangs
        | Some p =>
          bind (read_number file 4 (mkStream p false)) (fun '(n, s) =>
          let s := seek_cur ((n * 2) mod two32) s in
          if 0 <? memory_size then
            match hs with
            | [] => Refused
            | h :: hs' =>
                bind (lif_serie h (tellg s) memory_size) (fun e =>
                blocks fuel' version hs' (Some test_code) (seek_cur (to_long memory_size) s) (acc ++ [e]))
            end
          else blocks fuel' version hs (Some test_code) s acc)
        end)
      end)
    end
  else Ok acc.

(** lifFile.cpp:390-425, then the loop. *)
Definition lif_reader (fuel : nat) : res (list (H * Z * Z)) :=
  bind (read_number file 4 (mkStream 0 false)) (fun '(code, s) =>
  if negb (code =? mem_block_code) then Refused else
  let '(c, s) := get_char file None (seek_cur 4 s) in
  match c with
  | None => Uninitialised
  | Some ch =>
    if negb (ch =? test_code) then Refused else
    bind (read_number file 4 s) (fun '(n, s) =>
    let '(xml, s) := read file ((n * 2) mod two32) s in
    if failed s then Uninitialised else
    bind (parse_header (every_second xml)) (fun '(version, hs) =>
    blocks fuel version hs c s []))
  end).
End Reader.

(** * Series: dimensions and slices *)
(** lifFile.hpp:190-216 DimensionData: identifier, number of elements (int), bytes from one element to the next.  lengths, origins
    and units are left out. *)
Record dimension := mkDim { dim_id : Z; n_elements : Z; bytes_inc : Z }.
Definition dim_name (d : dimension) : string :=
  match dim_id d with
  | 1 => "X" | 2 => "Y" | 3 => "Z" | 4 => "T" | 5 => "Lambda" | 6 => "Rotation" | 7 => "XT Slices" | 8 => "TSlices" | _ => "Invalid"
  end%string.
(** std::map<string, DimensionData>::insert: the first entry of a name is kept; ordered by name. *)
Fixpoint map_insert (k : string) (d : dimension) (m : list (string * dimension)) : list (string * dimension) :=
  match m with
  | [] => [(k, d)]
  | (k', d') :: m' => match String.compare k k' with Lt => (k, d) :: m | Eq => m | Gt => (k', d') :: map_insert k d m' end
  end.
(** lifFile.cpp:160-182 parseImageDescription: the dimensions in the order of the XML. *)
Definition dimensions_of (ds : list dimension) : list (string * dimension) :=
  fold_left (fun m d => map_insert (dim_name d) d m) ds [].
Fixpoint map_find (k : string) (m : list (string * dimension)) : option dimension :=
  match m with [] => None | (k', d) :: m' => if String.eqb k k' then Some d else map_find k m' end.

(** A LifSerie (lifFile.hpp:51-99): its dimensions, its number of channels, the offset of its memory block. *)
Record serie := mkSerie { dimensions : list (string * dimension); n_channels : Z; offset : Z }.

(** lifFile.cpp:85-90, an int converted to size_t *)
Definition nb_time_steps (s : serie) : Z :=
  match map_find "T" (dimensions s) with None => 1 | Some d => n_elements d mod two64 end.
(** lifFile.cpp:93-100 *)
Definition spatial_dimensions (s : serie) : list Z :=
  map (fun kd => n_elements (snd kd) mod two64) (filter (fun kd => dim_id (snd kd) <? 4) (dimensions s)).
(** std::accumulate(begin, end, 1, multiplies<size_t>()): the accumulator is the int 1, so every product is converted to int. *)
Definition accumulate (ds : list Z) : Z := fold_left (fun acc d => to_int (((acc mod two64) * d) mod two64)) ds 1.
(** lifFile.cpp:103-107 and 110-115 (resize(2,1)) *)
Definition nb_pixels_time_step (s : serie) : Z := accumulate (spatial_dimensions s) mod two64.
Definition resize2 (l : list Z) : list Z := match l with a :: b :: _ => [a; b] | [a] => [a; 1] | [] => [1; 1] end.
Definition nb_pixels_slice (s : serie) : Z := accumulate (resize2 (spatial_dimensions s)) mod two64.

(** lifFile.cpp:311-323 *)
Definition get_offset (s : serie) (t : Z) : res Z :=
  if nb_time_steps s <=? t then Refused
  else if t =? 0 then Ok (offset s)
  else match map_find "T" (dimensions s) with None => Ok (offset s) | Some d => Ok ((offset s + (bytes_inc d * t) mod two64) mod two64) end.

Section Buffers.
Variable file : list Z.
(** The buffer given by the caller; reading more bytes than it has overruns it. *)
Definition fill_buffer (p n : Z) (buffer : list Z) (st : stream) : res (list Z * stream) :=
  let '(got, st') := read file (to_long n) (seek_to (to_long p) st) in
  if Z.of_nat (length buffer) <? Z.of_nat (length got) then Overrun else Ok (got ++ skipn (length got) buffer, st').
(** lifFile.cpp:280-286 *)
Definition fill3 (s : serie) (buffer : list Z) (t : Z) (st : stream) : res (list Z * stream) :=
  let n := (nb_pixels_time_step s * n_channels s) mod two64 in
  bind (get_offset s t) (fun p => fill_buffer p n buffer st).
(** lifFile.cpp:292-298 *)
Definition fill2 (s : serie) (buffer : list Z) (t z : Z) (st : stream) : res (list Z * stream) :=
  let n := (nb_pixels_slice s * n_channels s) mod two64 in
  bind (get_offset s t) (fun p => fill_buffer ((p + (z * n) mod two64) mod two64) n buffer st).

(** * locatorfromlif.cpp.  The slice is a matrix of dims[0] rows and dims[1] columns; the reconstructor is kept as the list of the
    images tracked and added to it, in order (its size is their number, reconstructor.hpp:33); tracking is not modelled here. *)
Record locator := mkLoc { loc_t : Z; total_t : Z; total_z : Z; rows : Z; cols : Z; slice : list Z; pushed : list (list Z); loc_file : stream }.
(** locatorfromlif.cpp:12-21; dims[1] of a series of one dimension is an overrun. *)
Definition new_locator (s : serie) (st : stream) : res locator :=
  match spatial_dimensions s with
  | d0 :: d1 :: ds => Ok (mkLoc 0 (nb_time_steps s) (match ds with d2 :: _ => d2 | [] => 1 end) d0 d1 (repeat 0 (Z.to_nat (d0 * d1))) [] st)
  | _ => Overrun
  end.
(** locatorfromlif.cpp:27-31 *)
Definition clear (l : locator) : locator :=
  mkLoc (loc_t l) (total_t l) (total_z l) (rows l) (cols l) (repeat 0 (length (slice l))) [] (loc_file l).
(** locatorfromlif.cpp:34-42 *)
Definition fill_next_slice (s : serie) (l : locator) : res locator :=
  if (total_t l <=? loc_t l) || (total_z l <=? Z.of_nat (length (pushed l))) then Refused
  else bind (fill2 s (slice l) 0 (Z.of_nat (length (pushed l))) (loc_file l)) (fun '(b, st) =>
    Ok (mkLoc (loc_t l) (total_t l) (total_z l) (rows l) (cols l) b (pushed l ++ [b]) st)).
(** locatorfromlif.cpp:44-51 *)
Fixpoint fill_slices (s : serie) (n : nat) (l : locator) : res locator :=
  match n with O => Ok l | S n' => bind (fill_next_slice s l) (fill_slices s n') end.
Definition fill_time_step (s : serie) (l : locator) : res locator := fill_slices s (Z.to_nat (total_z l)) (clear l).
(** locatorfromlif.cpp:52-62: only the time step counter. *)
Definition next_time_step (l : locator) : locator :=
  mkLoc (loc_t l + 1) (total_t l) (total_z l) (rows l) (cols l) (slice l) (pushed l) (loc_file l).
End Buffers.

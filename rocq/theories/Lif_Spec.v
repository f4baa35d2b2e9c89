(** Layout of a .lif file, independent of the reader. *)
Require Import List ZArith.
Import ListNotations.
Local Open Scope Z_scope.

(** The n bytes of v, least significant first. *)
Fixpoint bytes_of (n : nat) (v : Z) : list Z := match n with O => [] | S n' => v mod 256 :: bytes_of n' (v / 256) end.

(** A memory block: 4 bytes (size of what follows, not used), some bytes before the second test code (size and identifiers), the
    description (two bytes per character), the image data. *)
Record block := mkBlock { unused : list Z; gap : list Z; description : list (Z * Z); data : list Z }.
Definition chars (l : list (Z * Z)) : list Z := flat_map (fun c => [fst c; snd c]) l.
(** 0x70, 4 bytes, 0x2a, size of the data (4 bytes before version 2, then 8), gap, 0x2a, length of the description, description, data. *)
Definition size_bytes (version : Z) : nat := if 2 <=? version then 8%nat else 4%nat.
Definition prefix (version : Z) (b : block) : list Z :=
  bytes_of 4 112 ++ unused b ++ [42] ++ bytes_of (size_bytes version) (Z.of_nat (length (data b))) ++ gap b ++ [42] ++
  bytes_of 4 (Z.of_nat (length (description b))) ++ chars (description b).
Definition encode (version : Z) (b : block) : list Z := prefix version b ++ data b.
Definition encode_all (version : Z) (bs : list block) : list Z := flat_map (encode version) bs.
(** The file header: 0x70, 4 bytes, 0x2a, number of characters of the XML text, the text (two bytes per character). *)
Definition head (u : list Z) (xml : list (Z * Z)) : list Z := bytes_of 4 112 ++ u ++ [42] ++ bytes_of 4 (Z.of_nat (length xml)) ++ chars xml.

Definition byte (b : Z) : Prop := 0 <= b < 256.
Definition good_block (version : Z) (b : block) : Prop :=
  length (unused b) = 4%nat /\ ~ In 42 (gap b) /\ Z.of_nat (length (data b)) < 256 ^ Z.of_nat (size_bytes version) /\
  Z.of_nat (length (description b)) < 2 ^ 31.
Definition non_empty (bs : list block) : list block := filter (fun b => match data b with [] => false | _ => true end) bs.

(** The bytes of a file from position p, n of them. *)
Definition sub (file : list Z) (p n : Z) : list Z := firstn (Z.to_nat n) (skipn (Z.to_nat p) file).

(** * Series of images, 8 bits per channel, channels interlaced, lines after lines, planes after planes. *)
Section Packed.
Variables nx ny nz nch inc_t : Z.
(** Position, from the beginning of the data, of channel c of pixel (x, y, z) of time step t. *)
Definition pixel_position (t z y x c : Z) : Z := t * inc_t + ((z * ny + y) * nx + x) * nch + c.
End Packed.

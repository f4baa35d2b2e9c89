(** The format of the XML header of a .lif file, in words of XML trees. *)
Require Import ZArith List Bool Arith String.
Require Import Verif.Xml_Model.
Import ListNotations.
Local Open Scope nat_scope.
Local Open Scope string_scope.
Local Open Scope list_scope.
Local Notation length := List.length.

(** The element has the attribute [a], of value [v] (the first one if it is repeated); it has no attribute [a]. *)
Definition attr (n : node) (a v : string) : Prop := exists t l1 l2 k, n = Element t (l1 ++ (a, v) :: l2) k /\ ~ In a (map fst l1).
Definition no_attr (n : node) (a : string) : Prop := exists t l k, n = Element t l k /\ ~ In a (map fst l).
(** The first child of that name; no child of that name. *)
Definition first_of (n : node) (tag : string) (c : node) : Prop := exists l1 l2, kids n = l1 ++ c :: l2 /\ value c = tag /\ Forall (fun x => value x <> tag) l1.
Definition none_of (n : node) (tag : string) : Prop := Forall (fun x => value x <> tag) (kids n).
(** The first value of a key *)
Definition lookup {K A} (eqb : K -> K -> bool) (k : K) (l : list (K * A)) : option A := option_map snd (find (fun kv => eqb (fst kv) k) l).

Section Format.
  Variables (int_of ulong_of ull_of : string -> option Z) (hex_of : string -> list Z).
  (** An attribute that is a number *)
  Definition num (parse : string -> option Z) (n : node) (a : string) (x : Z) : Prop := exists s, attr n a s /\ parse s = Some x.
  Definition has (n : node) (a : string) : Prop := exists s, attr n a s.
  (** A channel: tag and resolution *)
  Definition is_channel (n : node) (c : Z * Z) : Prop := num int_of n "ChannelTag" (fst c) /\ num int_of n "Resolution" (snd c) /\ has n "NameOfMeasuredQuantity" /\ has n "Unit" /\ has n "LUTName".
  (** A dimension: identifier, number of elements and step in bytes *)
  Definition is_dim (n : node) (d : Z * (Z * Z)) : Prop := num int_of n "DimID" (fst d) /\ num int_of n "NumberOfElements" (fst (snd d)) /\ num ull_of n "BytesInc" (snd (snd d)) /\ has n "Unit".
  (** A setting of the scanner: identifier and variant *)
  Definition is_setting (n : node) (s : string * string) : Prop := attr n "Identifier" (fst s) /\ attr n "Variant" (snd s) /\ has n "Unit" /\ has n "Description".
  (** A time stamp of the old format: two halves, in units of 100 ns *)
  Definition is_stamp (n : node) (hl : Z * Z) : Prop := num ulong_of n "HighInteger" (fst hl) /\ num ulong_of n "LowInteger" (snd hl) /\ (0 <= fst hl < 4294967296)%Z /\ (0 <= snd hl < 4294967296)%Z.
  (** The time stamps of an image: none; as many as announced at most, the others being null; in the old format, in ms.  [multi]: the multiscale version of the program, for which 0 stamps is the old format. *)
  Inductive stamps (multi : bool) (image : node) : list Z -> Prop :=
  | Stamps_none : none_of image "TimeStampList" -> stamps multi image []
  | Stamps_new l k t rest : first_of image "TimeStampList" l -> num int_of l "NumberOfTimeStamps" k -> (0 <= k)%Z -> (multi = true -> k <> 0%Z) -> kids l = Text t :: rest -> (Z.of_nat (length (hex_of t)) <= k)%Z ->
      stamps multi image (hex_of t ++ repeat 0%Z (Z.to_nat k - length (hex_of t)))
  | Stamps_old l ts : first_of image "TimeStampList" l -> no_attr l "NumberOfTimeStamps" -> Forall2 is_stamp (kids l) ts ->
      stamps multi image (map (fun hl => (fst hl * 4294967296 + snd hl) / 10000)%Z ts).
  (** The settings of an image: those of the last attachment HardwareSettingList that is not empty *)
  Definition hardware (n : node) : Prop := value n = "Attachment" /\ attr n "Name" "HardwareSettingList" /\ kids n <> [].
  Inductive settings (image : node) : list (string * string) -> Prop :=
  | Settings_none : Forall (fun n => ~ hardware n) (kids image) -> settings image []
  | Settings_some l1 a l2 f rest s ss : kids image = l1 ++ a :: l2 -> hardware a -> Forall (fun n => ~ hardware n) l2 -> kids a = f :: rest -> first_of f "ScannerSetting" s ->
      Forall2 is_setting (filter (fun n => String.eqb (value n) "ScannerSettingRecord") (kids s)) ss -> settings image ss.
  (** A series: its name, channels, dimensions, time stamps and settings *)
  Record serie_text := mkSerieText { t_name : string; t_channels : list (Z * Z); t_dims : list (Z * (Z * Z)); t_stamps : list Z; t_settings : list (string * string) }.
  Definition describes (multi : bool) (n : node) (d : serie_text) : Prop :=
    attr n "Name" (t_name d) /\ exists data image desc chs dims, first_of n "Data" data /\ first_of data "Image" image /\ first_of image "ImageDescription" desc /\ first_of desc "Channels" chs /\ first_of desc "Dimensions" dims /\
      Forall2 is_channel (kids chs) (t_channels d) /\ Forall2 is_dim (kids dims) (t_dims d) /\ stamps multi image (t_stamps d) /\ Forall (fun n => value n = "Attachment" -> has n "Name") (kids image) /\ settings image (t_settings d).
End Format.
(** Names of the colours *)
Definition colour (tag : Z) : string := match tag with 0%Z => "Gray" | 1%Z => "Red" | 2%Z => "Green" | 3%Z => "Blue" | _ => "Unknown color" end.
(** The axes of space *)
Definition axis_key (d : nat) : string := ("dblVoxel" ++ match d with 0 => "X" | 1 => "Y" | _ => "Z" end)%string.
(** The series among the children: elements of that name, but for BleachPointROISet *)
Inductive kept : list node -> list node -> Prop :=
| Kept_nil : kept [] []
| Kept_other x l l' : value x <> "Element" -> kept l l' -> kept (x :: l) l'
| Kept_bleach x l l' : value x = "Element" -> attr x "Name" "BleachPointROISet" -> kept l l' -> kept (x :: l) l'
| Kept_serie x s l l' : value x = "Element" -> attr x "Name" s -> s <> "BleachPointROISet" -> kept l l' -> kept (x :: l) (x :: l').
(** The dimensions in the alphabetical order of their names *)
Definition names8 : list (string * Z) := [("Lambda", 5); ("Rotation", 6); ("T", 4); ("TSlices", 8); ("X", 1); ("XT Slices", 7); ("Y", 2); ("Z", 3)]%Z.
(** What is written to a stream *)
Definition written (s : stream) (ev : list (stream * string)) : string := String.concat "" (map snd (filter (fun e => match fst e, s with Given, Given => true | Cout, Cout => true | _, _ => false end) ev)).

(** Model of the XML header of a .lif file, graphic/lifFile.cpp and lifFile.hpp (LifHeader, LifSerieHeader); multiscale/src/lifFile.cpp differs in one line.
    TinyXML (external) is modelled by the trees it gives. *)
Require Import ZArith List Bool Arith String.
Require Import Verif.Traj_Model Verif.Particles_Model Verif.Corr_Model.
Import ListNotations.
Local Open Scope nat_scope.
Local Open Scope list_scope.
Local Open Scope string_scope.
Local Notation length := List.length.

(** TiXmlNode *)
Inductive node := Element (tag : string) (attrs : list (string * string)) (kids : list node) | Text (s : string) | Comment (s : string).
(** TiXmlNode::Value, FirstChild, IterateChildren, FirstChild(value), IterateChildren(value) *)
Definition value (n : node) : string := match n with Element t _ _ => t | Text s => s | Comment s => s end.
Definition kids (n : node) : list node := match n with Element _ _ k => k | _ => [] end.
Definition named (tag : string) (n : node) : bool := String.eqb (value n) tag.
Definition first_child (tag : string) (n : node) : option node := find (named tag) (kids n).
(** TiXmlElement::Attribute; [UB]: ToElement() is null *)
Fixpoint assoc {A} (k : string) (l : list (string * A)) : option A := match l with [] => None | (k', v) :: l' => if String.eqb k k' then Some v else assoc k l' end.
Definition attribute (name : string) (n : node) : outcome (option string) := match n with Element _ a _ => Val (assoc name a) | _ => UB end.
(** a std::string made from an attribute; [UB]: from a null pointer *)
Definition need (name : string) (n : node) : outcome string := obind (attribute name n) (fun v => match v with Some s => Val s | None => UB end).
(** TiXmlElement::QueryIntAttribute and others: the variable is left as it was ([old]; [None]: indeterminate) when there is no such attribute or it is not a number *)
Definition query {A} (parse : string -> option A) (name : string) (n : node) (old : option A) : outcome (option A) :=
  omap (fun v => match v with Some s => match parse s with Some x => Some x | None => old end | None => old end) (attribute name n).
(** TiXmlElement::GetText *)
Definition get_text (n : node) : option string := match kids n with Text s :: _ => Some s | _ => None end.
(** std::map<std::string, A>::insert: sorted keys, the first value stays *)
Fixpoint minsert {A} (k : string) (v : A) (m : list (string * A)) : list (string * A) :=
  match m with
  | [] => [(k, v)]
  | (k', v') :: m' => match String.compare k k' with Lt => (k, v) :: m | Eq => m | Gt => (k', v') :: minsert k v m' end
  end.

(** lifFile.hpp:162-184, 187-213, 227-236: what is used of the records.  The other members are read the same way and never used. *)
Record channel := mkChannel { c_tag : option Z; c_res : option Z }.
Record xdim := mkXdim { x_id : Z; x_n : option Z; x_inc : option Z }.
Record header := mkHeader { h_name : string; h_dims : list (string * xdim); h_channels : list channel; h_stamps : list (option Z); h_settings : list (string * string) }.

Section Xml.
  (** Reading numbers from text: int, unsigned long, unsigned long long (decimal), the numbers taken from a stream in hexadecimal until one fails, double (whatever >> leaves) *)
  Variables (int_of ulong_of ull_of : string -> option Z) (hex_of : string -> list Z) (V : Type) (dbl : string -> V).

  (** lifFile.cpp:502-517.  Simplification: IsLUTInverted is written as an int over a bool, with padding after it. *)
  Definition channel_of (n : node) : outcome channel :=
    obind (query int_of "DataType" n None) (fun _ => obind (query int_of "ChannelTag" n None) (fun tag => obind (query int_of "Resolution" n None) (fun res =>
    obind (need "NameOfMeasuredQuantity" n) (fun _ => obind (need "Unit" n) (fun _ => omap (fun _ => mkChannel tag res) (need "LUTName" n)))))).
  (** lifFile.hpp:194-208 *)
  Definition xdim_name (id : Z) : string :=
    (if id =? 1 then "X" else if id =? 2 then "Y" else if id =? 3 then "Z" else if id =? 4 then "T" else if id =? 5 then "Lambda" else if id =? 6 then "Rotation" else if id =? 7 then "XT Slices" else if id =? 8 then "TSlices" else "Invalid")%Z.
  (** lifFile.cpp:520-531; [UB] for an indeterminate DimID, as getName is called at once (178) *)
  Definition xdim_of (n : node) : outcome xdim :=
    obind (query int_of "DimID" n None) (fun id => obind (query int_of "NumberOfElements" n None) (fun k => obind (need "Unit" n) (fun _ => obind (query ull_of "BytesInc" n None) (fun inc =>
    match id with Some i => Val (mkXdim i k inc) | None => UB end)))).
  (** lifFile.cpp:534-542 *)
  Definition setting_of (n : node) : outcome (string * string) :=
    obind (need "Identifier" n) (fun i => obind (need "Unit" n) (fun _ => obind (need "Description" n) (fun _ => omap (fun v => (i, v)) (need "Variant" n)))).
  (** lifFile.cpp:160-182 *)
  Definition parse_description (n : node) : outcome (list channel * list (string * xdim)) :=
    match first_child "Channels" n, first_child "Dimensions" n with
    | Some c, Some d =>
        obind (osequence (map channel_of (kids c))) (fun cs =>
        omap (fun ds => (cs, fold_left (fun m x => minsert (xdim_name (x_id x)) x m) ds [])) (osequence (map xdim_of (kids d))))
    | _, _ => Val ([], [])
    end.
  (** lifFile.cpp:209-220: highInt and lowInt live across the children *)
  Fixpoint old_stamps (l : list node) (hi lo : option Z) : outcome (list (option Z)) :=
    match l with
    | [] => Val []
    | n :: l' =>
        obind (query ulong_of "HighInteger" n hi) (fun hi' => obind (query ulong_of "LowInteger" n lo) (fun lo' =>
        omap (cons (match hi', lo' with Some h, Some w => Some ((h * 4294967296 + w) mod 18446744073709551616 / 10000)%Z | _, _ => None end)) (old_stamps l' hi' lo')))
    end.
  (** lifFile.cpp:185-223; [multi]: as in multiscale/src/lifFile.cpp:190-192.  [Throw]: the vector cannot be that long; [UB]: the text is missing, or the numbers are written past the end of the vector *)
  Definition parse_stamps (multi : bool) (n : option node) : outcome (list (option Z)) :=
    match n with
    | None => Val []
    | Some n =>
        obind (attribute "NumberOfTimeStamps" n) (fun v =>
        let k := match v with Some s => match int_of s with Some k => k | None => 0%Z end | None => 0%Z end in
        if (if multi then negb (k =? 0)%Z else match v with Some _ => true | None => false end) then
          if (k <? 0)%Z then Throw else
          match get_text n with
          | None => UB
          | Some s => if (Z.to_nat k <? length (hex_of s))%nat then UB else Val (map Some (hex_of s) ++ repeat (Some 0%Z) (Z.to_nat k - length (hex_of s)))%list
          end
        else old_stamps (kids n) None None)
    end.
  (** lifFile.cpp:146-157: the last attachment of that name that is not empty *)
  Fixpoint find_settings (l : list node) (cur : option node) : outcome (option node) :=
    match l with
    | [] => Val cur
    | n :: l' =>
        if named "Attachment" n then
          obind (need "Name" n) (fun s => find_settings l' (if String.eqb s "HardwareSettingList" && negb (match kids n with [] => true | _ => false end) then Some n else cur))
        else find_settings l' cur
    end.
  (** lifFile.cpp:226-253 *)
  Definition parse_settings (n : option node) : outcome (list (string * string)) :=
    match n with
    | None => Val []
    | Some n =>
        match kids n with
        | [] => UB
        | f :: _ => match first_child "ScannerSetting" f with
                    | None => Val []
                    | Some s => omap (fun rs => fold_left (fun m r => minsert (fst r) (snd r) m) rs []) (osequence (map setting_of (filter (named "ScannerSettingRecord") (kids s))))
                    end
        end
    end.
  (** lifFile.cpp:35-44, 131-157; [UB]: no node Data *)
  Definition parse_serie (multi : bool) (n : node) : outcome header :=
    obind (need "Name" n) (fun name =>
    match first_child "Data" n with
    | None => UB
    | Some data =>
        match first_child "Image" data with
        | None => Val (mkHeader name [] [] [] [])
        | Some image =>
            obind (match first_child "ImageDescription" image with Some d => parse_description d | None => Val ([], []) end) (fun cd =>
            obind (parse_stamps multi (first_child "TimeStampList" image)) (fun st =>
            obind (find_settings (kids image) None) (fun f =>
            omap (fun se => mkHeader name (snd cd) (fst cd) st se) (parse_settings f))))
        end
    end).
  (** lifFile.cpp:362-385, [root]: the root element ([UB] if there is none); [Throw]: logic_error.  The version, the name and the series. *)
  Definition parse_header (multi : bool) (root : option node) : outcome (option Z * string * list header) :=
    match root with
    | None => UB
    | Some root =>
        obind (query int_of "Version" root None) (fun version =>
        match find (fun n => match n with Element _ _ _ => true | _ => false end) (kids root) with
        | None => Throw
        | Some e =>
            obind (need "Name" e) (fun name =>
            match first_child "Children" e with
            | None => Throw
            | Some c =>
                match kids c with
                | [] => Throw
                | _ => omap (fun hs => (version, name, List.concat hs))
                         (osequence (map (fun n => obind (need "Name" n) (fun s => if String.eqb s "BleachPointROISet" then Val [] else omap (fun h => [h]) (parse_serie multi n))) (filter (named "Element") (kids c))))
                end
            end)
        end)
    end.

  (** Doubles *)
  Variables (zero one : V) (is0 : V -> bool) (div : V -> V -> V).
  (** lifFile.cpp:66-76; the fourth character of the constant string is null; [UB] after it *)
  Definition voxel_key (d : nat) : option string := match d with 0 => Some "dblVoxelX" | 1 => Some "dblVoxelY" | 2 => Some "dblVoxelZ" | 3 => Some ("dblVoxel" ++ String Ascii.zero "") | _ => None end.
  Definition voxel_size (h : header) (d : nat) : outcome V :=
    match voxel_key d with None => UB | Some k => Val (match assoc k (h_settings h) with Some s => dbl s | None => zero end) end.
  (** lifFile.cpp:118-125 *)
  Definition zx_ratio (h : header) : outcome V :=
    obind (voxel_size h 0) (fun x => omap (fun z => if is0 z then one else div z x) (voxel_size h 2)).
  (** lifFile.cpp:79-82; [UB]: no such channel, or an indeterminate value *)
  Definition resolution (h : header) (c : nat) : outcome Z := match nth_error (h_channels h) c with Some (mkChannel _ (Some r)) => Val r | _ => UB end.
  (** lifFile.cpp:85-90 (as an int) and 93-100 *)
  Definition time_steps (h : header) : outcome Z := match assoc "T" (h_dims h) with None => Val 1%Z | Some x => match x_n x with Some n => Val n | None => UB end end.
  Definition spatial (h : header) : outcome (list Z) := osequence (map (fun kx => match x_n (snd kx) with Some n => Val n | None => UB end) (filter (fun kx => (x_id (snd kx) <? 4)%Z) (h_dims h))).

  (** lifFile.hpp:175-183; [UB]: an indeterminate tag *)
  Definition channel_name (c : channel) : outcome string :=
    match c_tag c with
    | None => UB
    | Some t => Val (if t =? 0 then "Gray" else if t =? 1 then "Red" else if t =? 2 then "Green" else if t =? 3 then "Blue" else "Unknown color")%Z
    end.
  Variables (show_nat : nat -> string) (show_int : Z -> string) (show_nm : V -> string).
  (** Where a text goes: the stream given, or the standard output *)
  Inductive stream := Given | Cout.
  Definition tab1 : string := String (Ascii.ascii_of_nat 9) "".
  Definition line1 : string := String (Ascii.ascii_of_nat 10) "".
  (** lifFile.cpp:560-579 and 598-602; [show_nm v]: the text of v*1E9 *)
  Definition print_serie (h : header) : outcome (list (stream * string)) :=
    obind (osequence (map (fun kx => match x_n (snd kx) with Some n => Val (Given, xdim_name (x_id (snd kx)) ++ " " ++ show_int n ++ ", ") | None => UB end) (h_dims h))) (fun ds =>
    obind (osequence (map (fun kx => if (x_id (snd kx) <? 1)%Z then UB else omap (fun v => (Cout, show_nm v ++ tab1)) (voxel_size h (Z.to_nat (x_id (snd kx) - 1)))) (filter (fun kx => (x_id (snd kx) <? 4)%Z) (h_dims h)))) (fun vs =>
    omap (fun cs => ([(Given, (h_name h ++ ":" ++ tab1 ++ show_nat (length (h_dims h)) ++ " dimensions" ++ tab1)%string)] ++ ds ++ [(Given, (line1 ++ tab1 ++ "Voxel sizes (nm)" ++ tab1)%string)] ++ vs ++ [(Given, line1)] ++ map (fun s => (Given, (s ++ tab1)%string)) cs)%list)
      (osequence (map channel_name (h_channels h))))).
End Xml.

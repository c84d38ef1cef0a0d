(** Executable model of the reading of debugging data by the generator: pkg/dwarfy/dwarf.go (Go).

    Simplifications (whole file):
    - debug/dwarf is not modelled: the entries of the section .debug_info come one after another ([item]), a null entry ends a list of children;
    - a Go map is a function or (Data.Entries for conversions) a list of pairs with different keys, in any order;
    - int has 64 bits; an offset is a number below 2^32. *)
From Coq Require Import ZArith String Ascii List Bool Decimal DecimalString.
From Verif Require Import Base.
Import ListNotations.

(** * NewData: pkg/dwarfy/dwarf.go:425-510 *)
(** what reader.Next gives: an entry with its offset, whether its tag is CompileUnit, whether children follow, and the attribute Sibling *)
Inductive item := Null | Die (offset : nat) (cu : bool) (children : bool) (sibling : option nat).
(** Entry.Parent and Entry.Children *)
Record node := { n_parent : option nat; n_children : list nat }.
(** parentsStack (the top first) with 0 for no sibling, and Data.Entries *)
Record reading := { r_stack : list (nat * nat); r_entries : nat -> option node }.
Definition put_node (e : nat -> option node) (o : nat) (n : node) : nat -> option node := fun x => if Nat.eqb x o then Some n else e x.
(** dwarf.go:426-434 *)
Definition reading0 : reading := {| r_stack := [(0, 0)]; r_entries := put_node (fun _ => None) 0 {| n_parent := None; n_children := [] |} |}%nat.
(** dwarf.go:465-478: the stack is cut below the first entry from the top whose sibling this entry is *)
Fixpoint below_sibling (offset : nat) (stack : list (nat * nat)) : option (list (nat * nat)) :=
  match stack with
  | [] => None
  | (_, s) :: r => if negb (Nat.eqb s 0) && Nat.eqb s offset then Some r else below_sibling offset r
  end.
(** dwarf.go:437-508: one round; an access to Children of a missing entry panics (None) *)
Definition read_item (st : reading) (i : item) : option reading :=
  match i with
  | Null => Some {| r_stack := match r_stack st with _ :: (_ :: _) as r => r | s => s end; r_entries := r_entries st |}
  | Die offset cu children sibling =>
    let stack := if cu then [(0, 0)]%nat else match below_sibling offset (r_stack st) with Some s => s | None => r_stack st end in
    let parent := match stack with [] => None | (p, _) :: _ => Some p end in
    let e := put_node (r_entries st) offset {| n_parent := parent; n_children := [] |} in
    let stack' := if children then (offset, match sibling with Some s => s | None => 0%nat end) :: stack else stack in
    match parent with
    | None => Some {| r_stack := stack'; r_entries := e |}
    | Some p => match e p with
                | None => None
                | Some n => Some {| r_stack := stack'; r_entries := put_node e p {| n_parent := n_parent n; n_children := n_children n ++ [offset] |} |}
                end
    end
  end.
Fixpoint read_items (st : reading) (l : list item) : option reading :=
  match l with [] => Some st | i :: r => match read_item st i with Some st' => read_items st' r | None => None end end.
(** dwarf.go:425-510 NewData: Data.Entries *)
Definition new_data (l : list item) : option (nat -> option node) := option_map r_entries (read_items reading0 l).

(** * Fields and their conversions *)
(** Field.Val: the dynamic types of Go; a float64 is the integer it represents *)
Inductive value := VNil | VInt64 (z : Z) | VUint64 (z : Z) | VInt (z : Z) | VFloat (z : Z) | VOffset (z : Z) | VDwarfOffset (z : Z) | VBool (b : bool) | VString (s : string) | VBytes (l : list Z) | VInts (l : list Z) | VList (l : list value).
(** Field.Class: dwarf.go:136-153 *)
Inductive class := ClassAddress | ClassBlock | ClassConstant | ClassExprLoc | ClassFlag | ClassLinePtr | ClassLocListPtr | ClassMacPtr | ClassRangeListPtr | ClassReference | ClassReferenceSig | ClassString | ClassUnknown.
Definition class_name (c : class) : string :=
  (match c with ClassAddress => "ClassAddress" | ClassBlock => "ClassBlock" | ClassConstant => "ClassConstant" | ClassExprLoc => "ClassExprLoc" | ClassFlag => "ClassFlag" | ClassLinePtr => "ClassLinePtr"
   | ClassLocListPtr => "ClassLocListPtr" | ClassMacPtr => "ClassMacPtr" | ClassRangeListPtr => "ClassRangeListPtr" | ClassReference => "ClassReference" | ClassReferenceSig => "ClassReferenceSig"
   | ClassString => "ClassString" | ClassUnknown => "ClassUnknown" end)%string.
(** pkg/dwarfy/dwarf.go:50-54 Field; the class is the text *)
Record attribute := { a_attr : string; a_val : value; a_class : string }.

(** conversions of Go: to uint64, int64 and Offset (uint32) of an int: modulo; of a float64 within the range: the number itself; otherwise the result depends on the processor ([wild]) *)
Section Fix.
Variable wild : Z -> Z.
Definition u64 (z : Z) : Z := z mod 2 ^ 64.
Definition u32 (z : Z) : Z := z mod 2 ^ 32.
Definition i64 (z : Z) : Z := let y := z mod 2 ^ 64 in if Z.ltb y (2 ^ 63) then y else (y - 2 ^ 64)%Z.
Definition float_u64 (z : Z) : Z := if Z.leb 0 z && Z.ltb z (2 ^ 64) then z else wild z.
Definition float_u32 (z : Z) : Z := if Z.leb 0 z && Z.ltb z (2 ^ 32) then z else wild z.
Definition float_i64 (z : Z) : Z := if Z.leb (- 2 ^ 63) z && Z.ltb z (2 ^ 63) then z else wild z.
(** dwarf.go:203-214: the elements that are numbers *)
Definition list_ints (l : list value) : list Z := flat_map (fun v => match v with VInt z => [z] | VFloat z => [float_i64 z] | _ => [] end) l.
(** dwarf.go:135-217 fixValBasedOnClass *)
Definition fix_val (c : string) (v : value) : value :=
  if (c =? "ClassAddress")%string || (c =? "ClassReferenceSig")%string then
    match v with VFloat z => VUint64 (float_u64 z) | VInt z => VUint64 (u64 z) | _ => v end
  else if (c =? "ClassReference")%string then
    match v with VFloat z => VOffset (float_u32 z) | VInt z => VOffset (u32 z) | VDwarfOffset z => VOffset z | _ => v end
  else if (c =? "ClassConstant")%string || (c =? "ClassLinePtr")%string || (c =? "ClassLocListPtr")%string || (c =? "ClassMacPtr")%string || (c =? "ClassRangeListPtr")%string || (c =? "ClassUnknown")%string then
    match v with VFloat z => VInt64 (float_i64 z) | VInt z => VInt64 z | _ => v end
  else if (c =? "ClassExprLoc")%string || (c =? "ClassBlock")%string then
    match v with VBytes l => VInts l | VList l => VInts (list_ints l) | _ => v end
  else v.
Definition fix_attribute (f : attribute) : attribute := {| a_attr := a_attr f; a_val := fix_val (a_class f) (a_val f); a_class := a_class f |}.
(** dwarf.go:56-66 NewField, of the name of the attribute, the value and the class *)
Definition new_field (attr : string) (v : value) (c : class) : attribute := fix_attribute {| a_attr := attr; a_val := v; a_class := class_name c |}.

(** pkg/dwarfy/dwarf.go:221-230 Entry; [e_files]: DeclFiles, nil or a list *)
Record entry := { e_parent : option Z; e_tag : string; e_fields : list attribute; e_children : list Z; e_files : option (list string) }.

(** * ToUnstructured and back: trees of maps, lists and values *)
Inductive unstructured := UMap (l : list (string * unstructured)) | UList (l : list unstructured) | UVal (v : value).
(** fmt.Sprintf("%d", o) *)
Definition show (o : Z) : string := NilZero.string_of_int (Z.to_int o).
(** strconv.Atoi for decimal numbers without a plus, 64 bits *)
Definition atoi (s : string) : option Z :=
  match NilZero.int_of_string s with
  | Some d => let z := Z.of_int d in if Z.leb (- 2 ^ 63) z && Z.ltb z (2 ^ 63) then Some z else None
  | None => None
  end.
(** dwarf.go:23-34 NewOffsetFromUnstructured *)
Definition offset_from (u : unstructured) : option Z :=
  match u with UVal (VString s) => option_map u32 (atoi s) | _ => None end.
Fixpoint key (k : string) (l : list (string * unstructured)) : option unstructured :=
  match l with [] => None | (j, u) :: r => if (j =? k)%string then Some u else key k r end.
(** dwarf.go:121-133 Field.ToUnstructured *)
Definition field_to (f : attribute) : unstructured :=
  let val := match a_val f with VOffset z => if (a_class f =? "ClassReference")%string then VString (show z) else a_val f | v => v end in
  UMap [("Attr", UVal (VString (a_attr f))); ("Val", UVal val); ("Class", UVal (VString (a_class f)))]%string.
(** dwarf.go:68-119 NewFieldFromUnstructured; a value of Val other than a string, number, boolean or list of numbers is not modelled (None) *)
Definition field_from (u : unstructured) : option attribute :=
  match u with
  | UMap m =>
    match key "Attr" m, key "Class" m, key "Val" m with
    | Some (UVal (VString a)), Some (UVal (VString c)), Some v =>
      if (c =? "ClassReference")%string then option_map (fun z => fix_attribute {| a_attr := a; a_val := VOffset z; a_class := c |}) (offset_from v)
      else match v with UVal x => Some (fix_attribute {| a_attr := a; a_val := x; a_class := c |}) | _ => None end
    | _, _, _ => None
    end
  | _ => None
  end.
Fixpoint all_some {A B} (f : A -> option B) (l : list A) : option (list B) :=
  match l with [] => Some [] | x :: r => match f x, all_some f r with Some y, Some s => Some (y :: s) | _, _ => None end end.
(** dwarf.go:355-386 Entry.ToUnstructured *)
Definition entry_to (e : entry) : unstructured :=
  UMap (("Tag", UVal (VString (e_tag e)))
        :: (match e_parent e with Some p => [("Parent", UVal (VString (show p)))] | None => [] end)
        ++ (match e_fields e with [] => [] | l => [("Fields", UList (map field_to l))] end)
        ++ (match e_children e with [] => [] | l => [("Children", UList (map (fun o => UVal (VString (show o))) l))] end)
        ++ (match e_files e with None | Some [] => [] | Some l => [("DeclFiles", UList (map (fun s => UVal (VString s)) l))] end))%string.
(** dwarf.go:265-353 NewEntryFromUnstructured *)
Definition entry_from (u : unstructured) : option entry :=
  match u with
  | UMap m =>
    match (match key "Parent" m with None => Some None | Some v => option_map Some (offset_from v) end),
          key "Tag" m,
          (match key "Fields" m with None => Some [] | Some (UList l) => all_some field_from l | _ => None end),
          (match key "Children" m with None => Some [] | Some (UList l) => all_some offset_from l | _ => None end),
          (match key "DeclFiles" m with None => Some None | Some (UList l) => option_map Some (all_some (fun v => match v with UVal (VString s) => Some s | _ => None end) l) | _ => None end) with
    | Some p, Some (UVal (VString t)), Some fs, Some cs, Some ds =>
      Some {| e_parent := p; e_tag := t; e_fields := map fix_attribute fs; e_children := cs; e_files := ds |}
    | _, _, _, _, _ => None
    end
  | _ => None
  end.
(** dwarf.go:568-577 Data.ToUnstructured; the pairs in the order of the iteration *)
Definition data_to (l : list (Z * entry)) : unstructured := UMap [("Entries", UMap (map (fun '(o, e) => (show o, entry_to e)) l))]%string.
(** dwarf.go:512-546 NewDataFromUnstructured *)
Definition data_from (u : unstructured) : option (list (Z * entry)) :=
  match u with
  | UMap m => match key "Entries" m with
              | Some (UMap l) => all_some (fun '(k, v) => match atoi k, entry_from v with Some o, Some e => Some (u32 o, e) | _, _ => None end) l
              | _ => None
              end
  | _ => None
  end.

(** * JSON and YAML: what a value is after Marshal and Unmarshal into interface{}, then fixValBasedOnClass (dwarf.go:548-566, 579-591) *)
(** float64(z), rounded to 53 bits, to even *)
Definition f64 (z : Z) : Z :=
  let a := Z.abs z in
  let e := (Z.log2 a - 52)%Z in
  if Z.leb e 0 then z
  else let q := (a / 2 ^ e)%Z in let r := (a mod 2 ^ e)%Z in let h := (2 ^ (e - 1))%Z in
       let q' := if Z.ltb h r || (Z.eqb r h && Z.odd q) then (q + 1)%Z else q in (Z.sgn z * (q' * 2 ^ e))%Z.
(** encoding/json: numbers become float64; a nil slice becomes null (nil); []byte and lists of other values do not occur in Data *)
Definition json (v : value) : value :=
  match v with
  | VInt64 z | VUint64 z | VInt z | VOffset z | VDwarfOffset z => VFloat (f64 z)
  | VInts [] => VNil
  | VInts l => VList (map (fun z => VFloat (f64 z)) l)
  | _ => v
  end.
(** gopkg.in/yaml.v3: numbers become int, or uint64 if they are too big for int; a nil slice becomes [] (an empty list) *)
Definition yaml_number (z : Z) : value := if Z.ltb z (2 ^ 63) then VInt z else VUint64 z.
Definition yaml (v : value) : value :=
  match v with
  | VInt64 z | VUint64 z | VInt z | VOffset z | VDwarfOffset z => yaml_number z
  | VInts l => VList (map yaml_number l)
  | _ => v
  end.
Definition through (codec : value -> value) (f : attribute) : attribute := fix_attribute {| a_attr := a_attr f; a_val := codec (a_val f); a_class := a_class f |}.
End Fix.

(** Executable model of the way of type information from debugging data to the run time: the builder of the generator pkg/metadb/metadb_builder.go:143-824
    (process... functions, arrays: MetadbModel), base types pkg/metadb/metadb_types.go:36-145, the printed C text of the types
    (modules/metac-reflect-gen/templates/_base_type.tpl, _enumeration_type.tpl, _qual_type.tpl, _typedef.tpl, _pointer_type.tpl, _reference_type.tpl,
    _subroutine_type.tpl, _array_type.tpl, _struct_type.tpl, _mixins.tpl) as the structures it initialises (EntryModel).

    Simplifications (whole file):
    - an attribute of a debugging entry is there or not; one whose Go value has another type counts as absent (entry.Val(..).(int64) gives ok = false);
    - objects that are no types: variables and functions are kept in a list of their own ([others]), blocks, namespaces and units are walked through but not kept; parents, locations and messages are left out;
    - entries ImportedModule and ImportedDeclaration (C++) are skipped;
    - the printed text is taken as the initialisers it consists of; a pointer &id is the number of the object with this id. *)
From Coq Require Import ZArith String List Bool Arith Cantor.
From Verif Require Import Base MetadbModel.
From Verif Require EntryModel.
Import ListNotations.
Open Scope string_scope.

(** tags of debugging entries: pkg/metadb/metadb_builder.go:728-793 processEntry and the tags of parts; [Skipped]: Label, CallSite, InlinedSubroutine *)
Inductive dtag :=
| DBase | DEnum | DArray | DPointer | DReference (r : refkind) | DUnspecified | DSubroutine | DTypedef | DQual (q : qual) | DStruct (g : tag)
| DVariable | DLexBlock | DSubprogram | DNamespace | Skipped
| DMember | DEnumerator | DSubrange | DParameter | DUnspecifiedParameters | DTemplateType | DImported | DUnit | DOther.
(** pkg/dwarfy/dwarf.go:56-70 Entry with the attributes that are read *)
Record die := { d_tag : dtag; d_children : list nat; d_name : option string; d_decl : option bool; d_type : option nat; d_size : option Z; d_align : option Z;
  d_encoding : option Z; d_value : option Z; d_location : option Z; d_bitoffset : option Z; d_databit : option Z; d_bits : option Z;
  d_lower : option Z; d_count : option Z; d_upper : option Z; d_stride : option Z }.

(** pkg/metadb/metadb_types.go:612-652 isTypeTag *)
Definition is_type_tag (t : dtag) : bool :=
  match t with DBase | DEnum | DArray | DPointer | DReference _ | DUnspecified | DSubroutine | DTypedef | DQual _ | DStruct _ => true | _ => false end.

(** * Base types *)
(** pkg/metadb/metadb_types.go:36-79 baseTypeSynonims *)
Definition synonyms : list (string * string) :=
  [("short", "short int"); ("signed short", "short int"); ("short signed", "short int"); ("signed short int", "short int"); ("short signed int", "short int");
   ("unsigned short", "unsigned short int"); ("short unsigned", "unsigned short int"); ("unsigned short int", "unsigned short int"); ("short unsigned int", "unsigned short int");
   ("signed int", "int"); ("signed", "int"); ("unsigned", "unsigned int");
   ("long", "long int"); ("signed long", "long int"); ("long signed ", "long int"); ("signed long int", "long int"); ("long signed int", "long int");
   ("unsigned long", "unsigned long int"); ("long unsigned ", "unsigned long int"); ("unsigned long int", "unsigned long int"); ("long unsigned int", "unsigned long int");
   ("long long", "long long int"); ("signed long long", "long long int"); ("signed long long int", "long long int");
   ("unsigned long long", "unsigned long long int"); ("long long unsigned", "unsigned long long int"); ("long long unsigned int", "unsigned long long int");
   ("complex float", "complex float"); ("float complex", "complex float"); ("complex double", "complex double"); ("double complex", "complex double");
   ("long double complex", "long complex double"); ("complex long double", "long complex double"); ("long complex double", "long complex double")].
(** metadb_types.go:81-87 deSynonim *)
Definition de_synonym (s : string) : string := match List.find (fun '(k, _) => k =? s) synonyms with Some (_, v) => v | None => s end.
(** metadb_types.go:105-123; the size is taken from the entry before (line 100) *)
Definition base_name (name : string) (size : option Z) : option string :=
  let n := de_synonym name in
  if n =? "complex" then
    match size with
    | Some 8%Z => Some "complex float" | Some 16%Z => Some "complex double" | Some 32%Z => Some "long complex double"
    | _ => None
    end
  else Some n.
(** pkg/dwarfy/encoding_string.go:34-55 Encoding.String *)
Definition encoding_text (z : Z) : string :=
  match z with
  | 0 => "Void" | 1 => "Address" | 2 => "Boolean" | 3 => "ComplexFloat" | 4 => "Float" | 5 => "Signed" | 6 => "SignedChar" | 7 => "Unsigned" | 8 => "UnsignedChar"
  | 9 => "ImaginaryFloat" | 10 => "PackedDecimal" | 11 => "NumericString" | 12 => "Edited" | 13 => "SignedFixed" | 14 => "UnsignedFixed" | 15 => "DecimalFloat"
  | 16 => "Utf" | 17 => "Ucs" | 18 => "Ascii" | 128 => "LoUser" | 255 => "HiUser"
  | _ => "Encoding(" ++ dec z ++ ")"
  end%Z.

(** * The builder *)
Section Builder.
Variable data : nat -> option die.     (* Data.Entries *)

(** metadb_builder.go:717-726 processTypeEntry *)
Definition type_entry (j : nat) : out unit := match data j with None => Err | Some d => if is_type_tag (d_tag d) then Ok tt else Err end.
(** the attribute Type: metadb_builder.go:302-312 and the same lines of the other functions; nil is void *)
Definition link_of (d : die) : out (option nat) := match d_type d with None => Ok None | Some j => try _ <- type_entry j; Ok (Some j) end.
Definition some {A} (x : option A) : bool := match x with Some _ => true | None => false end.
Definition declared_die (d : die) : bool := match d_decl d with Some b => b | None => false end.
(** metadb_types.go:19-24, metadb.go:66-70, metadb_mixin.go:13-53 *)
Definition common (d : die) (b : body) : object := {| o_name := d_name d; o_decl := declared_die d; o_size := d_size d; o_align := d_align d; o_body := b |}.

(** metadb_builder.go:157-169 processBaseType, metadb_types.go:99-145 *)
Definition base_type (d : die) : out object :=
  match d_name d with
  | None => Err
  | Some n =>
    match base_name n (d_size d) with
    | None => Err
    | Some n' =>
      if some (d_bits d) || some (d_bitoffset d) || some (d_databit d) then Err
      else Ok {| o_name := Some n'; o_decl := declared_die d; o_size := d_size d; o_align := d_align d;
                 o_body := BaseType (match d_encoding d with Some e => encoding_text e | None => "" end) |}
    end
  end.
(** metadb_builder.go:177-199 *)
Fixpoint enumerators (l : list nat) : out (list (string * Z)) :=
  match l with
  | [] => Ok []
  | c :: r => match data c with
              | Some d => match d_tag d, d_name d, d_value d with
                          | DEnumerator, Some n, Some v => try x <- enumerators r; Ok ((n, v) :: x)
                          | _, _, _ => Err
                          end
              | None => Err
              end
  end.
(** metadb_builder.go:224-252: the children of an array; their tags are looked at from the last to the first *)
Fixpoint subranges (l : list nat) : out (list subrange) :=
  match l with
  | [] => Ok []
  | c :: r => match data c with
              | Some d => match d_tag d with
                          | DSubrange => try x <- subranges r; Ok ({| s_index := c; s_lower := d_lower d; s_count := d_count d; s_upper := d_upper d |} :: x)
                          | _ => Err
                          end
              | None => Err
              end
  end.
(** metadb_builder.go:289-362 processMixinFunc: the parameters and what is done with other children ([f]); [dots]: hadUnspecifiedParam *)
Fixpoint func_params (f : nat -> list (nat * object) -> out (list (nat * object))) (dots : bool) (l : list nat) (acc : list (nat * object)) : out (list param * list (nat * object)) :=
  match l with
  | [] => Ok ([], acc)
  | c :: r =>
    match data c with
    | None => Err
    | Some d =>
      match d_tag d with
      | DUnspecifiedParameters | DParameter =>
        if dots then Err else
        let u := match d_tag d with DUnspecifiedParameters => true | _ => false end in
        try t <- link_of d;
        try x <- func_params f u r acc;
        let '(ps, acc') := x in
        Ok ({| a_unspec := if u then Some true else None; a_type := t; a_name := d_name d |} :: ps, acc')
      | DTemplateType => if dots then Err else func_params f dots r acc
      | _ => try acc1 <- f c acc; func_params f dots r acc1
      end
    end
  end.
(** metadb_builder.go:479-529: a member of a structure *)
Definition member (g : tag) (d : die) : out field :=
  match d_type d with
  | None => Err
  | Some j =>
    try _ <- type_entry j;
    if some (d_bitoffset d) && negb (some (d_size d)) then Err
    else if negb (some (d_location d)) && negb (match g with UnionType => true | _ => false end) && negb (some (d_databit d)) then Err
    else Ok {| f_name := d_name d; f_type := Some j; f_size := d_size d; f_align := d_align d; f_byte := match d_location d with Some v => v | None => 0%Z end;
               f_databit := d_databit d; f_bit := d_bitoffset d; f_bits := d_bits d |}
  end.
(** metadb_builder.go:473-539: the children of a structure; [f]: processEntry, it gives false for nil (a panic in newHierarchyItemFromIndex, lines 86-94) *)
Fixpoint struct_children (f : nat -> list (nat * object) -> out (bool * list (nat * object))) (g : tag) (l : list nat) (acc : list (nat * object))
  : out (list field * list (option nat) * list (nat * object)) :=
  match l with
  | [] => Ok ([], [], acc)
  | c :: r =>
    match data c with
    | None => Err
    | Some d =>
      match d_tag d with
      | DMember => try m <- member g d; try x <- struct_children f g r acc; let '(fs, hs, acc') := x in Ok (m :: fs, hs, acc')
      | DTemplateType => struct_children f g r acc
      | _ => try y <- f c acc;
             if fst y then try x <- struct_children f g r (snd y); let '(fs, hs, acc') := x in Ok (fs, Some c :: hs, acc') else Panic
      end
    end
  end.
(** the children of a lexical block (metadb_builder.go:570-578, [strict] = false), of a namespace (611-645) and of a unit (678-712) *)
Fixpoint scope (f : nat -> list (nat * object) -> out (bool * list (nat * object))) (strict : bool) (l : list nat) (acc : list (nat * object)) : out (list (nat * object)) :=
  match l with
  | [] => Ok acc
  | c :: r =>
    match data c with
    | None => Err
    | Some d =>
      if strict && match d_tag d with DImported => true | _ => false end then scope f strict r acc
      else try y <- f c acc; if strict && negb (fst y) then Panic else scope f strict r (snd y)
    end
  end.
(** metadb_builder.go:728-793 processEntry and the functions called by it; [acc]: the objects of types made so far. [fuel] bounds the depth.
    An array without the attribute Type: its link is a nil *IndexEntry in an interface (metadb_builder.go:220, 236), the signature of which panics. *)
Fixpoint process (fuel : nat) (i : nat) (acc : list (nat * object)) : out (bool * list (nat * object)) :=
  match fuel with
  | O => Nofuel
  | S fuel =>
    match data i with
    | None => Err
    | Some d =>
      let one x := try o <- x; Ok (true, (i, o) :: acc) in
      match d_tag d with
      | DBase => one (base_type d)
      | DEnum => one (try l <- enumerators (d_children d); Ok (common d (Enumeration l)))
      | DArray =>
        try rs <- subranges (d_children d);
        match d_type d with
        | None => Panic
        | Some t => try _ <- type_entry t; Ok (true, (process_array i (d_name d) (declared_die d) (d_size d) (d_align d) (d_stride d) t rs ++ acc)%list)
        end
      | DPointer => one (try t <- link_of d; Ok (common d (Pointer t)))
      | DReference r => one (try t <- link_of d; Ok (common d (Reference r t)))
      | DUnspecified => one (Ok (common d Unspecified))
      | DSubroutine => one (try t <- link_of d; try x <- func_params (fun _ a => Ok a) false (d_children d) []; Ok (common d (Subroutine (fst x) t)))
      | DTypedef => one (match d_name d with None => Err | Some _ => try t <- link_of d; Ok (common d (Typedef t)) end)
      | DQual q => one (try t <- link_of d; Ok (common d (Qual q t)))
      | DStruct g =>
        try x <- struct_children (process fuel) g (d_children d) acc;
        let '(fs, hs, acc') := x in Ok (true, (i, common d (Struct g fs hs)) :: acc')
      | DVariable => try _ <- link_of d; Ok (true, acc)
      | DLexBlock => try a <- scope (process fuel) false (d_children d) acc; Ok (true, a)
      | DSubprogram =>
        try _ <- link_of d;
        try x <- func_params (fun c a => try y <- process fuel c a; Ok (snd y)) false (d_children d) acc; Ok (true, snd x)
      | DNamespace => try a <- scope (process fuel) true (d_children d) acc; Ok (true, a)
      | Skipped => Ok (false, acc)
      | _ => Err
      end
    end
  end.
(** metadb_builder.go:650-715 processCompileUnit, 795-817 the first part of build; that a unit is met twice (lines 807-809) is left out *)
Fixpoint units (fuel : nat) (l : list nat) (acc : list (nat * object)) : out (list (nat * object)) :=
  match l with
  | [] => Ok acc
  | u :: r =>
    match data u with
    | Some d => match d_tag d, d_name d with
                | DUnit, Some _ => try a <- scope (process fuel) true (d_children d) acc; units fuel r a
                | _, _ => Err
                end
    | None => Err
    end
  end.
Definition build (fuel : nat) : out (list (nat * object)) := match data 0 with Some d => units fuel (d_children d) [] | None => Err end.
(** * Variables and functions *)
(** pkg/metadb/metadb.go Variable ([v_params] = None) and Subprogram *)
Record other := { v_name : option string; v_decl : bool; v_type : option nat; v_params : option (list param) }.
(** metadb_builder.go:543-562 processVariable *)
Definition variable (d : die) : out other := try t <- link_of d; Ok {| v_name := d_name d; v_decl := declared_die d; v_type := t; v_params := None |}.
(** metadb_builder.go:584-606 processSubprogram: the object itself; its parameters do not depend on what is found in the other children *)
Definition subprogram (d : die) : out other :=
  try t <- link_of d;
  try x <- func_params (fun _ a => Ok a) false (d_children d) [];
  Ok {| v_name := d_name d; v_decl := declared_die d; v_type := t; v_params := Some (fst x) |}.
Fixpoint gather (f : nat -> out (list (nat * other))) (l : list nat) : out (list (nat * other)) :=
  match l with [] => Ok [] | c :: r => try a <- f c; try b <- gather f r; Ok (a ++ b)%list end.
(** metadb_builder.go:728-793 processEntry: what the walk of [process] gives to appendDb (lines 561, 604) besides types. These objects are not looked for among those that are there already *)
Fixpoint others (fuel : nat) (i : nat) : out (list (nat * other)) :=
  match fuel with
  | O => Nofuel
  | S fuel =>
    match data i with
    | None => Err
    | Some d =>
      match d_tag d with
      | DVariable => try v <- variable d; Ok [(i, v)]
      | DSubprogram => try v <- subprogram d; try l <- gather (others fuel) (d_children d); Ok ((i, v) :: l)
      | DStruct _ | DLexBlock | DNamespace => gather (others fuel) (d_children d)
      | DUnit => Err
      | _ => Ok []
      end
    end
  end.
Definition build_others (fuel : nat) : out (list (nat * other)) :=
  match data 0 with Some d => gather (fun u => match data u with Some e => gather (others fuel) (d_children e) | None => Err end) (d_children d) | None => Err end.
End Builder.
(** builder.index after the first part: the object of an entry, the last one set *)
Definition made (l : list (nat * object)) (i : nat) : option object := option_map snd (List.find (fun '(j, _) => Nat.eqb j i) l).

(** * The printed text as the structures of include/metac/backend/entry.h *)
(** the numbers of the static entries: of an object, of the k-th member and of the k-th parameter of it *)
Definition ty (r : nat) : nat := (3 * r)%nat.
Definition mb (r k : nat) : nat := (3 * Cantor.to_nat (r, k) + 1)%nat.
Definition pr (r k : nat) : nat := (3 * Cantor.to_nat (r, k) + 2)%nat.
(** templates/_base_type.tpl:16 with include/metac/const.h:50-71; -1: no such constant, the text does not compile *)
Definition enc_code (e : string) : Z :=
  (match List.find (fun p => String.eqb (fst p) e)
     [("Void", 1); ("Address", 2); ("Boolean", 3); ("ComplexFloat", 4); ("Float", 5); ("Signed", 6); ("SignedChar", 7); ("Unsigned", 8); ("UnsignedChar", 9); ("ImaginaryFloat", 10);
      ("PackedDecimal", 11); ("NumericString", 12); ("Edited", 13); ("SignedFixed", 14); ("UnsignedFixed", 15); ("DecimalFloat", 16); ("Utf", 17); ("Ucs", 18); ("Ascii", 19)] with
   | Some (_, v) => v | None => -1 end)%Z.
(** an attribute that is not printed is zero *)
Definition or0 (x : option Z) : Z := match x with Some v => v | None => 0%Z end.
(** templates/_mixins.tpl:50-54 *)
Definition link_to (t : option nat) : option nat := option_map ty t.
Definition quals_of (q : qual) : EntryModel.qual :=
  match q with ConstType => EntryModel.QConst | VolatileType => EntryModel.QVolatile | RestrictType => EntryModel.QRestrict | MutableType => EntryModel.QMutable
             | SharedType => EntryModel.QShared | PackedType => EntryModel.QPacked end.
Definition aggr_of (g : tag) : EntryModel.aggr := match g with StructType => EntryModel.AStruct | UnionType => EntryModel.AUnion | ClassType => EntryModel.AClass end.
(** the entry of a type; [r] its number. A structure that is a declaration has no structure_type_info (_struct_type.tpl:25-31); a base type no mark of a declaration (_base_type.tpl:7-18).
    alignment, level, lower bound and stride are not in EntryModel. *)
Definition type_info (r : nat) (o : object) : EntryModel.info :=
  match o_body o with
  | BaseType e => EntryModel.IBase (or0 (o_size o)) (enc_code e)
  | Enumeration l => EntryModel.IEnum (or0 (o_size o)) (map (fun '(k, v) => (Some k, v)) l)
  | Qual q t => EntryModel.IQual (quals_of q) (link_to t)
  | Typedef t => EntryModel.ITypedef (link_to t)
  | Pointer t => EntryModel.IPointer (link_to t)
  | Unspecified => EntryModel.IOther 14
  | Reference k t => EntryModel.IReference (match k with RvalueReferenceType => true | ReferenceType => false end) (or0 (o_size o)) (link_to t)
  | Subroutine ps t => EntryModel.ISubroutine (link_to t) (map (pr r) (seq 0 (List.length ps)))
  | Array t _ _ c _ => EntryModel.IArray (link_to t) c
  | Struct g fs _ => if o_decl o then EntryModel.IAggr (aggr_of g) 0 [] else EntryModel.IAggr (aggr_of g) (or0 (o_size o)) (map (mb r) (seq 0 (List.length fs)))
  end.
Definition type_entry_of (r : nat) (o : object) : EntryModel.entry :=
  {| EntryModel.e_name := o_name o; EntryModel.e_declaration := match o_body o with BaseType _ => false | _ => o_decl o end; EntryModel.e_info := type_info r o |}.
(** templates/_struct_type.tpl:39-65 *)
Definition member_entry_of (f : field) : EntryModel.entry :=
  {| EntryModel.e_name := f_name f; EntryModel.e_declaration := false;
     EntryModel.e_info := EntryModel.IMember {| EntryModel.m_type := link_to (f_type f); EntryModel.m_byte_size := f_size f; EntryModel.m_byte_offset := f_byte f;
       EntryModel.m_data_bit_offset := f_databit f; EntryModel.m_bit_offset := f_bit f; EntryModel.m_bit_size := f_bits f |} |}.
(** templates/_subroutine_type.tpl:17-30 *)
Definition param_entry_of (p : param) : EntryModel.entry :=
  {| EntryModel.e_name := a_name p; EntryModel.e_declaration := false;
     EntryModel.e_info := EntryModel.IParam (match a_unspec p with Some true => true | _ => false end) (link_to (a_type p)) |}.
(** links lead to the object that is kept of equal ones *)
Definition relink_other (rep : nat -> nat) (v : other) : other :=
  {| v_name := v_name v; v_decl := v_decl v; v_type := option_map rep (v_type v); v_params := option_map (map (relink_param rep)) (v_params v) |}.
(** templates/_variable.tpl:8-17, _subprogram.tpl:8-37 *)
Definition other_entry_of (r : nat) (v : other) : EntryModel.entry :=
  {| EntryModel.e_name := v_name v; EntryModel.e_declaration := v_decl v;
     EntryModel.e_info := match v_params v with
                          | None => EntryModel.IVariable (link_to (v_type v))
                          | Some ps => EntryModel.ISubprogram (link_to (v_type v)) (map (pr r) (seq 0 (List.length ps)))
                          end |}.
Definition no_entry : EntryModel.entry := {| EntryModel.e_name := None; EntryModel.e_declaration := false; EntryModel.e_info := EntryModel.IOther (-1) |}.
(** the static entries of the compiled text of the types [H] and of the other objects [V] *)
Definition printed (H : nat -> option object) (V : nat -> option other) : EntryModel.db := fun n =>
  let q := (n / 3)%nat in
  match (n mod 3)%nat with
  | O => match H q with Some o => type_entry_of q o | None => match V q with Some v => other_entry_of q v | None => no_entry end end
  | 1%nat => let '(r, k) := Cantor.of_nat q in
             match H r with
             | Some o => match o_body o with Struct _ fs _ => match nth_error fs k with Some f => member_entry_of f | None => no_entry end | _ => no_entry end
             | None => no_entry
             end
  | _ => let '(r, k) := Cantor.of_nat q in
         let ps := match H r with
                   | Some o => match o_body o with Subroutine ps _ => ps | _ => [] end
                   | None => match V r with Some v => match v_params v with Some ps => ps | None => [] end | None => [] end
                   end in
         match nth_error ps k with Some p => param_entry_of p | None => no_entry end
  end.
(** the object of an entry *)
Definition other_at (W : list (nat * other)) (i : nat) : option other := option_map snd (List.find (fun '(j, _) => Nat.eqb j i) W).

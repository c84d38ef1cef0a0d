(** Executable model of the merging of types in the database of the generator (Go): pkg/metadb/metadb_types.go (the Signature methods),
    pkg/metadb/metadb_builder.go:195-287 (arrays), 815-910 (deduplicateTypes), 912-1077 (ids).

    Simplifications (whole file):
    - a debugging entry is its number; [graph i] is the object the builder made of entry i (IndexEntry.p), None: no object of a type (p is nil, or a variable, function, unit...);
      a link to a type (CommonLink.p, always an IndexEntry before streamline) is the number of the entry, None: nil (void);
    - [i_rep] of the state is IndexEntry.p after changes: the number of the entry whose object it is;
    - the part Hierarchy of a structure has types only (member functions, static members: C++); lists of parents, locations and log messages are left out;
    - the iteration of a Go map (builder.index) has an arbitrary order: it is the list given to [dedup]. *)
From Coq Require Import ZArith String Ascii List Bool Decimal DecimalString.
From Verif Require Import Base.
Import ListNotations.
Open Scope string_scope.

Inductive out (A : Type) := Ok (a : A) | Err | Panic | Nofuel.
Arguments Ok {A}. Arguments Err {A}. Arguments Panic {A}. Arguments Nofuel {A}.
Definition obind {A B} (x : out A) (f : A -> out B) : out B := match x with Ok a => f a | Err => Err | Panic => Panic | Nofuel => Nofuel end.
Notation "'try' x <- e ; f" := (obind e (fun x => f)) (at level 60, x name, e at level 60, right associativity).

(** tags of qualified types, references and structures: pkg/metadb/metadb_builder.go:763-783 *)
Inductive qual := ConstType | VolatileType | RestrictType | MutableType | SharedType | PackedType.
Inductive refkind := ReferenceType | RvalueReferenceType.
Inductive tag := StructType | UnionType | ClassType.
Definition qual_text (q : qual) : string :=
  match q with ConstType => "ConstType" | VolatileType => "VolatileType" | RestrictType => "RestrictType" | MutableType => "MutableType" | SharedType => "SharedType" | PackedType => "PackedType" end.
Definition ref_text (r : refkind) : string := match r with ReferenceType => "ReferenceType" | RvalueReferenceType => "RvalueReferenceType" end.
Definition tag_text (t : tag) : string := match t with StructType => "StructType" | UnionType => "UnionType" | ClassType => "ClassType" end.

(** pkg/metadb/metadb_types.go:465-482 StructField *)
Record field := { f_name : option string; f_type : option nat; f_size : option Z; f_align : option Z; f_byte : Z; f_databit : option Z; f_bit : option Z; f_bits : option Z }.
(** pkg/metadb/metadb_mixin.go:106-111 FuncParam *)
Record param := { a_unspec : option bool; a_type : option nat; a_name : option string }.
(** pkg/metadb/metadb_types.go:85-506: the kinds of types *)
Inductive body :=
| BaseType (enc : string)
| Enumeration (l : list (string * Z))
| Qual (q : qual) (t : option nat)
| Typedef (t : option nat)
| Pointer (t : option nat)
| Unspecified
| Reference (r : refkind) (t : option nat)
| Subroutine (ps : list param) (t : option nat)
| Array (t : option nat) (stride lower : option Z) (count level : Z)
| Struct (g : tag) (fs : list field) (hs : list (option nat)).
(** pkg/metadb/metadb_types.go:13-17 CommonType, metadb.go:58-62 Common, metadb_mixin.go:37-40 MixinByteSize *)
Record object := { o_name : option string; o_decl : bool; o_size : option Z; o_align : option Z; o_body : body }.

(** fmt.Sprintf("%d", v) *)
Definition dec (v : Z) : string := NilZero.string_of_int (Z.to_int v).
Definition opt {A} (x : option A) (f : A -> string) : string := match x with Some a => f a | None => "" end.

Section Signature.
(** the signature (comparable = false) of the object a link leads to *)
Variable link : nat -> out string.
(** "From:(" ... ")," of metadb_types.go:215-222, 257-264, 291-298, 352-359, 458-465 and "Returns:(" of 420-426, [pre] the text before *)
Definition link_part (pre : string) (t : option nat) : out string :=
  match t with None => Ok "" | Some j => try s <- link j; Ok (pre ++ s ++ "),") end.
(** pkg/metadb/metadb_types.go:401-418 *)
Fixpoint params_part (ps : list param) : out string :=
  match ps with
  | [] => Ok ""
  | p :: r =>
    try x <- (match a_unspec p with
              | Some true => Ok "UnspecifiedParam"
              | _ => match a_type p with Some j => link j | None => Ok "" end
              end);
    try y <- params_part r;
    Ok ("(" ++ x ++ ")," ++ y)
  end.
(** pkg/metadb/metadb_types.go:546-577 *)
Fixpoint fields_part (fs : list field) : out string :=
  match fs with
  | [] => Ok ""
  | f :: r =>
    try x <- link_part "Type:(" (f_type f);
    try y <- fields_part r;
    Ok ("(" ++ opt (f_name f) (fun n => "Name:" ++ n ++ ",") ++ x
        ++ opt (f_align f) (fun v => "Alignment:" ++ dec v ++ ",")
        ++ opt (f_bits f) (fun v => "BitSize:" ++ dec v ++ ",")
        ++ (match f_bit f with Some v => "BitOffset:" ++ dec v ++ "," | None => "ByteOffset:" ++ dec (f_byte f) ++ "," end)
        ++ opt (f_databit f) (fun v => "DataBitOffset:" ++ dec v ++ ",")
        ++ ")," ++ y)
  end.
(** pkg/metadb/metadb_types.go:580-593 *)
Fixpoint hier_part (hs : list (option nat)) : out string :=
  match hs with
  | [] => Ok ""
  | None :: _ => Err
  | Some j :: r => try x <- link j; try y <- hier_part r; Ok ("(" ++ x ++ ")," ++ y)
  end.
(** the first part of each signature *)
Definition head (b : body) : string :=
  match b with
  | BaseType _ => "BaseType,"
  | Enumeration _ => "EnumerationType,"
  | Qual q _ => "QualType:" ++ qual_text q ++ ","
  | Typedef _ => "Typedef,"
  | Pointer _ => "PointerType,"
  | Unspecified => "UnspecifiedType,"
  | Reference r _ => ref_text r ++ ","
  | Subroutine _ _ => "SubroutineType,"
  | Array _ _ _ _ _ => "ArrayType,"
  | Struct g _ _ => "Tag:" ++ tag_text g ++ ","
  end.
(** a BaseType and a Typedef must have a name: metadb_types.go:141-143, 244-246 *)
Definition needs_name (b : body) : bool := match b with BaseType _ | Typedef _ => true | _ => false end.
(** no check of isDeclaration: metadb_types.go:205-224 QualType, 306-316 UnspecifiedType *)
Definition no_decl_check (b : body) : bool := match b with Qual _ _ | Unspecified => true | _ => false end.
(** the part after the name *)
Definition rest (o : object) : out string :=
  match o_body o with
  | BaseType enc => Ok ("Encoding:" ++ enc ++ "," ++ opt (o_size o) (fun v => "ByteSize:" ++ dec v ++ ","))
  | Enumeration l =>
    Ok (opt (o_size o) (fun v => "ByteSize:" ++ dec v ++ ",") ++ opt (o_align o) (fun v => "Alignment:" ++ dec v ++ ",")
        ++ "Enumberators:(" ++ fold_right (fun '(k, v) s => "(" ++ k ++ ":" ++ dec v ++ ")," ++ s) "" l ++ "),")
  | Qual _ t | Typedef t | Pointer t | Reference _ t => link_part "From:(" t
  | Unspecified => Ok ""
  | Subroutine ps t =>
    try x <- params_part ps;
    try y <- link_part "Returns:(" t;
    Ok ((match ps with [] => "" | _ => "Takes:(" ++ x ++ ")," end) ++ y)
  | Array t stride lower count level =>
    try x <- link_part "From:(" t;
    Ok (opt stride (fun v => "StrideBitSize:" ++ dec v ++ ",") ++ opt lower (fun v => "LowerBound:" ++ dec v ++ ",")
        ++ "Count:" ++ dec count ++ "," ++ "Level:" ++ dec level ++ "," ++ x)
  | Struct _ fs hs =>
    try x <- fields_part fs;
    try y <- (match fs with [] => Ok "" | _ => hier_part hs end);
    Ok (opt (o_size o) (fun v => "ByteSize:" ++ dec v ++ ",") ++ opt (o_align o) (fun v => "Alignment:" ++ dec v ++ ",")
        ++ (match fs with [] => "" | _ => "Fields:(" ++ x ++ ")," end) ++ (match fs with [] => "" | _ => "Other:(" ++ y ++ ")," end))
  end.
(** the Signature methods *)
Definition signature_of (comparable : bool) (o : object) : out string :=
  match o_name o with
  | None => if needs_name (o_body o) then Err
            else if o_decl o && negb (no_decl_check (o_body o)) then Err else try x <- rest o; Ok (head (o_body o) ++ x)
  | Some n => if negb comparable then Ok (head (o_body o) ++ n)
              else if o_decl o && negb (no_decl_check (o_body o)) then Err else try x <- rest o; Ok (head (o_body o) ++ n ++ x)
  end.
End Signature.

(** pkg/metadb/metadb_builder.go:43-48: the signature of an IndexEntry is that of its object; [fuel] bounds the depth of the calls *)
Fixpoint signature (fuel : nat) (graph : nat -> option object) (rep : nat -> nat) (comparable : bool) (i : nat) : out string :=
  match fuel with
  | O => Nofuel
  | S fuel => match graph (rep i) with None => Panic | Some o => signature_of (signature fuel graph rep false) comparable o end
  end.

(** the state of deduplicateTypes *)
Record index := { i_rep : nat -> nat; i_dup : nat -> bool; i_headers : list (string * nat); i_sigs : list (string * string * nat); i_db : list nat }.
Definition index0 : index := {| i_rep := fun i => i; i_dup := fun _ => false; i_headers := []; i_sigs := []; i_db := [] |}.
Definition put {A} (f : nat -> A) (i : nat) (x : A) : nat -> A := fun j => if Nat.eqb j i then x else f j.
Definition find_header (h : string) (l : list (string * nat)) : option nat := option_map snd (List.find (fun '(k, _) => k =? h) l).
Definition find_sig (h c : string) (l : list (string * string * nat)) : option nat := option_map snd (List.find (fun '(k, d, _) => (k =? h) && (d =? c)) l).

(** pkg/metadb/metadb_builder.go:819-909: one round of the loop; [parent i]: the parent of the debugging entry *)
Definition dedup1 (fuel : nat) (graph : nat -> option object) (parent : nat -> nat) (st : index) (i : nat) : out index :=
  match graph i with
  | None => Ok st
  | Some o =>
    if i_dup st (parent i) then
      Ok {| i_rep := i_rep st; i_dup := put (i_dup st) i true; i_headers := i_headers st; i_sigs := i_sigs st; i_db := i_db st |}
    else
      try hs <- signature fuel graph (i_rep st) false i;
      if o_decl o then
        match find_header hs (i_headers st) with
        | Some f => Ok {| i_rep := put (i_rep st) i (i_rep st f); i_dup := put (i_dup st) i true; i_headers := i_headers st; i_sigs := i_sigs st; i_db := i_db st |}
        | None => Ok {| i_rep := i_rep st; i_dup := i_dup st; i_headers := (hs, i) :: i_headers st; i_sigs := i_sigs st; i_db := i_db st ++ [i_rep st i] |}
        end
      else
        try cs <- signature fuel graph (i_rep st) true i;
        match find_sig hs cs (i_sigs st) with
        | Some f => Ok {| i_rep := put (i_rep st) i (i_rep st f); i_dup := put (i_dup st) i true; i_headers := i_headers st; i_sigs := i_sigs st; i_db := i_db st |}
        | None => Ok {| i_rep := i_rep st; i_dup := i_dup st; i_headers := i_headers st; i_sigs := (hs, cs, i) :: i_sigs st; i_db := i_db st ++ [i_rep st i] |}
        end
  end.
(** pkg/metadb/metadb_builder.go:815-910 deduplicateTypes; [order]: the entries in the order of the iteration *)
Fixpoint dedup (fuel : nat) (graph : nat -> option object) (parent : nat -> nat) (st : index) (order : list nat) : out index :=
  match order with
  | [] => Ok st
  | i :: r => try st' <- dedup1 fuel graph parent st i; dedup fuel graph parent st' r
  end.

(** * The database: an object of the database with its links after streamline (metadb.go:44-56) *)
Definition relink_field (rep : nat -> nat) (f : field) : field :=
  {| f_name := f_name f; f_type := option_map rep (f_type f); f_size := f_size f; f_align := f_align f; f_byte := f_byte f; f_databit := f_databit f; f_bit := f_bit f; f_bits := f_bits f |}.
Definition relink_param (rep : nat -> nat) (p : param) : param := {| a_unspec := a_unspec p; a_type := option_map rep (a_type p); a_name := a_name p |}.
Definition relink_body (rep : nat -> nat) (b : body) : body :=
  match b with
  | BaseType _ | Enumeration _ | Unspecified => b
  | Qual q t => Qual q (option_map rep t)
  | Typedef t => Typedef (option_map rep t)
  | Pointer t => Pointer (option_map rep t)
  | Reference r t => Reference r (option_map rep t)
  | Subroutine ps t => Subroutine (map (relink_param rep) ps) (option_map rep t)
  | Array t s l c v => Array (option_map rep t) s l c v
  | Struct g fs hs => Struct g (map (relink_field rep) fs) (map (option_map rep) hs)
  end.
Definition relink (rep : nat -> nat) (o : object) : object :=
  {| o_name := o_name o; o_decl := o_decl o; o_size := o_size o; o_align := o_align o; o_body := relink_body rep (o_body o) |}.
Definition db_graph (graph : nat -> option object) (st : index) (r : nat) : option object :=
  if existsb (Nat.eqb r) (i_db st) then option_map (relink (i_rep st)) (graph r) else None.

(** * Ids: pkg/metadb/metadb_builder.go:912-1012 commonIdFromICommon, 1014-1077 appendDb *)
(** fmt.Sprintf("%04d", cnt) for cnt >= 0 *)
Definition dec4 (n : nat) : string :=
  let s := dec (Z.of_nat n) in
  match String.length s with 1%nat => "000" ++ s | 2%nat => "00" ++ s | 3%nat => "0" ++ s | _ => s end.
(** builder.names[prefix] *)
Fixpoint count_of (names : list (string * nat)) (p : string) : option nat :=
  match names with [] => None | (q, n) :: r => if q =? p then Some n else count_of r p end.
(** metadb_builder.go:914-999 [kind]: the prefix of the kind ("" for a BaseType), [name]: the name in snake case ("" if there is none) *)
Definition prefix_of (kind name : string) : string := if name =? "" then kind else if kind =? "" then name else kind ++ "_" ++ name.
(** metadb_builder.go:1000-1011 *)
Definition next_id (names : list (string * nat)) (prefix : string) : string * list (string * nat) :=
  let cnt := match count_of names prefix with None => 0%nat | Some c => S c end in
  (prefix ++ "_" ++ dec4 cnt, (prefix, cnt) :: names).
(** the ids of the objects appended one after another *)
Fixpoint ids (names : list (string * nat)) (objs : list (string * string)) : list string :=
  match objs with
  | [] => []
  | (kind, name) :: r => let '(id, names') := next_id names (prefix_of kind name) in id :: ids names' r
  end.

(** * Arrays: pkg/metadb/metadb_builder.go:195-287 processArrayType *)
(** a child SubrangeType: the number of the debugging entry and its attributes *)
Record subrange := { s_index : nat; s_lower : option Z; s_count : option Z; s_upper : option Z }.
(** metadb_builder.go:227-243; without the wrap of int64 *)
Definition range_count (s : subrange) : Z :=
  match s_count s with
  | Some c => c
  | None => match s_upper s with
            | Some u => match s_lower s with Some l => (u + 1 - l)%Z | None => (u + 1)%Z end
            | None => (-1)%Z
            end
  end.
(** metadb_builder.go:216-263: the loop, [ranges] from the last child to the first, [child] the number of the round, [t] the type of the elements (pTypeIndex);
    [acc]: the objects stored so far. Gives the outermost array (not stored in the loop) and the stored objects. *)
Fixpoint array_loop (child : nat) (t : nat) (ranges : list subrange) (acc : list (nat * object)) : option (body * list (nat * object)) :=
  match ranges with
  | [] => None
  | s :: r =>
    let arr := Array (Some t) None (s_lower s) (range_count s) (Z.of_nat child) in
    match r with
    | [] => Some (arr, acc)
    | _ => array_loop (S child) (s_index s) r ((s_index s, {| o_name := None; o_decl := false; o_size := None; o_align := None; o_body := arr |}) :: acc)
    end
  end.
(** metadb_builder.go:195-287; [name], [decl], [size], [align], [stride]: attributes of the entry of the array, [t] its attribute Type (always there for arrays).
    The objects stored, with their numbers. *)
Definition process_array (index : nat) (name : option string) (decl : bool) (size align stride : option Z) (t : nat) (children : list subrange) : list (nat * object) :=
  let '(top, stored) :=
    match array_loop 0 t (List.rev children) [] with
    | Some x => x
    | None => (Array (Some t) None None (-1) 0, [])
    end in
  match top with
  | Array e _ l c v => (index, {| o_name := name; o_decl := decl; o_size := size; o_align := align; o_body := Array e stride l c v |}) :: stored
  | _ => stored
  end.

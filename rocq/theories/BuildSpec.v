(** Specification of the way from debugging data to the run time (C74, C75, C76, C77), in terms of debugging entries on one side and of static entries on the other. *)
From Coq Require Import ZArith String Ascii List Bool Permutation.
From Verif Require Import Base MetadbModel MetadbSpec BuildModel.
From Verif Require Import EntryModel ValueModel.
Import ListNotations.

(** * Places where types are declared: units, namespaces, structures, functions and blocks in them *)
Definition kind_in (data : nat -> option die) (P : dtag -> Prop) (i : nat) : Prop := exists d, data i = Some d /\ P (d_tag d).
Definition child (data : nat -> option die) (i c : nat) : Prop := exists d, data i = Some d /\ In c (d_children d).
(** entries that are parts of an entry with tag [t] rather than declared in it *)
Definition part_of (t c : dtag) : Prop :=
  match t with
  | DUnit | DNamespace => c = DImported
  | DStruct _ => c = DMember \/ c = DTemplateType
  | DSubprogram => c = DParameter \/ c = DUnspecifiedParameters \/ c = DTemplateType
  | DLexBlock => False
  | _ => True
  end.
Inductive declared_in (data : nat -> option die) : nat -> Prop :=
| di_unit u c d e : child data 0 u -> data u = Some d -> In c (d_children d) -> data c = Some e -> ~ part_of (d_tag d) (d_tag e) -> declared_in data c
| di_more i c d e : declared_in data i -> data i = Some d -> In c (d_children d) -> data c = Some e -> ~ part_of (d_tag d) (d_tag e) -> declared_in data c.
Definition type_tag (t : dtag) : Prop :=
  match t with
  | DBase | DEnum | DArray | DPointer | DReference _ | DUnspecified | DSubroutine | DTypedef | DQual _ | DStruct _ => True
  | _ => False
  end.
(** a tree: an entry has one place *)
Record tree (data : nat -> option die) : Prop := {
  tr_root : forall i, ~ child data i 0;
  tr_once : forall i j c, child data i c -> child data j c -> i = j;
  tr_nodup : forall i d, data i = Some d -> NoDup (d_children d);
  tr_ends : exists rank : nat -> nat, forall i c, child data i c -> (rank c < rank i)%nat }.
(** an entry says its type by the attribute Type *)
Definition refers (data : nat -> option die) (i j : nat) : Prop := exists d, data i = Some d /\ d_type d = Some j.

(** structures of C have only members and nested types *)
Definition structs_plain (data : nat -> option die) : Prop :=
  forall i d g c e, data i = Some d -> d_tag d = DStruct g -> In c (d_children d) -> data c = Some e -> d_tag e = DMember \/ d_tag e = DTemplateType \/ type_tag (d_tag e).

(** ** Debugging data that the builder takes *)
Definition type_ok (data : nat -> option die) (d : die) : Prop := match d_type d with None => True | Some j => kind_in data type_tag j end.
Definition is_parameter (t : dtag) : Prop := match t with DParameter | DUnspecifiedParameters | DTemplateType => True | _ => False end.
(** the parts of a function: "..." is the last one *)
Definition params_ok (data : nat -> option die) (l : list nat) : Prop :=
  (forall c, In c l -> exists e, data c = Some e /\ (d_tag e = DParameter \/ d_tag e = DUnspecifiedParameters -> type_ok data e)) /\
  (forall l1 c l2 x, l = (l1 ++ c :: l2)%list -> kind_in data (eq DUnspecifiedParameters) c -> In x l2 -> ~ kind_in data is_parameter x).
(** a member has a type, and a place: in a union, by its offset, or by its first bit; a bit offset goes with the size of the unit *)
Definition member_ok (data : nat -> option die) (g : tag) (d : die) : Prop :=
  (exists t, d_type d = Some t /\ kind_in data type_tag t) /\ (d_bitoffset d <> None -> d_size d <> None) /\ (g = UnionType \/ d_location d <> None \/ d_databit d <> None).
Definition entry_ok (data : nat -> option die) (d : die) : Prop :=
  match d_tag d with
  | DBase => (exists n, d_name d = Some n /\ (n = "complex"%string -> d_size d = Some 8%Z \/ d_size d = Some 16%Z \/ d_size d = Some 32%Z)) /\ d_bits d = None /\ d_bitoffset d = None /\ d_databit d = None
  | DEnum => forall c, In c (d_children d) -> exists e, data c = Some e /\ d_tag e = DEnumerator /\ d_name e <> None /\ d_value e <> None
  | DArray => (exists t, d_type d = Some t /\ kind_in data type_tag t) /\ forall c, In c (d_children d) -> kind_in data (eq DSubrange) c
  | DPointer | DReference _ | DQual _ | DVariable => type_ok data d
  | DTypedef => d_name d <> None /\ type_ok data d
  | DSubroutine | DSubprogram => type_ok data d /\ params_ok data (d_children d)
  | DStruct g => forall c, In c (d_children d) -> exists e, data c = Some e /\ (d_tag e = DMember -> member_ok data g e) /\ d_tag e <> Skipped
  | DUnit | DNamespace => forall c, In c (d_children d) -> exists e, data c = Some e /\ d_tag e <> Skipped
  | DLexBlock => forall c, In c (d_children d) -> data c <> None
  | DUnspecified | Skipped => True
  | _ => False
  end.
Record accepted (data : nat -> option die) : Prop := {
  ac_root : data 0%nat <> None;
  ac_units : forall u, child data 0 u -> exists d, data u = Some d /\ d_tag d = DUnit /\ d_name d <> None /\ entry_ok data d;
  ac_entries : forall i d, declared_in data i -> data i = Some d -> d_tag d <> DUnit /\ entry_ok data d }.

(** * The size of a type of C by the debugging data *)
Inductive range_of (data : nat -> option die) (c : nat) (n : Z) : Prop :=
| ra_count d : data c = Some d -> d_count d = Some n -> range_of data c n
| ra_upper d u : data c = Some d -> d_count d = None -> d_upper d = Some u -> n = (u - match d_lower d with Some l => l | None => 0 end + 1)%Z -> range_of data c n.
Definition is_declaration (d : die) : Prop := d_decl d = Some true.
Inductive dw_size (data : nat -> option die) : nat -> Z -> Prop :=
| dz_plain i d z : data i = Some d -> (d_tag d = DBase \/ d_tag d = DEnum \/ exists g, d_tag d = DStruct g) -> ~ is_declaration d ->
    d_size d = Some z -> dw_size data i z
| dz_pointer i d : data i = Some d -> d_tag d = DPointer -> ~ is_declaration d -> dw_size data i 8
| dz_through i d j z : data i = Some d -> (d_tag d = DTypedef \/ exists q, d_tag d = DQual q) -> ~ is_declaration d -> d_type d = Some j -> dw_size data j z -> dw_size data i z
| dz_array i d j z ns : data i = Some d -> d_tag d = DArray -> ~ is_declaration d -> d_type d = Some j -> dw_size data j z ->
    Forall2 (range_of data) (d_children d) ns -> ns <> [] -> Forall (fun n => 0 < n)%Z ns -> dw_size data i (fold_right Z.mul z ns).

(** * What the run time says against the debugging data *)
(** along the dimensions of an array *)
Inductive array_way (R : db) : ref -> list Z -> ref -> Prop :=
| aw_last r n t : e_info (R r) = IArray (Some t) n -> array_way R r [n] t
| aw_more r n t ns e : e_info (R r) = IArray (Some t) n -> e_declaration (R t) = false -> array_way R t ns e -> array_way R r (n :: ns) e.
Definition to (Q : nat -> ref -> Prop) (j : option nat) (t : option ref) : Prop :=
  match j, t with None, None => True | Some x, Some y => Q x y | _, _ => False end.
Definition dw_encoding (e : option Z) (x : Z) : Prop := forall v, e = Some v -> (0 <= v <= 18)%Z -> x = (v + 1)%Z.
(** a member: its debugging entry and its entry at run time *)
Record member_says (Q : nat -> ref -> Prop) (d : die) (e : EntryModel.entry) : Prop := {
  ms_name : e_name e = d_name d;
  ms_info : exists m, e_info e = IMember m /\ to Q (d_type d) (m_type m) /\ m_bit_size m = d_bits d /\ m_bit_offset m = d_bitoffset d /\ m_data_bit_offset m = d_databit d /\
    (d_bitoffset d = None -> m_byte_offset m = match d_location d with Some v => v | None => 0%Z end) }.
(** the entries of the run time for the qualifiers and the kinds of structures *)
Definition same_qual (q : MetadbModel.qual) (q' : EntryModel.qual) : Prop :=
  In (q, q') [(ConstType, QConst); (VolatileType, QVolatile); (RestrictType, QRestrict); (MutableType, QMutable); (SharedType, QShared); (PackedType, QPacked)].
Definition same_aggr (g : tag) (k : aggr) : Prop := In (g, k) [(StructType, AStruct); (UnionType, AUnion); (ClassType, AClass)].
Definition says (data : nat -> option die) (R : db) (Q : nat -> ref -> Prop) (d : die) (r : ref) : Prop :=
  match d_tag d with
  | DBase => exists z x, e_info (R r) = IBase z x /\ (forall n, d_size d = Some n -> z = n) /\ dw_encoding (d_encoding d) x
  | DEnum => exists z l, e_info (R r) = IEnum z l /\ (forall n, d_size d = Some n -> z = n) /\
      Forall2 (fun c '(n, v) => exists x, data c = Some x /\ d_name x = n /\ d_value x = Some v) (d_children d) l
  | DPointer => exists t, e_info (R r) = IPointer t /\ to Q (d_type d) t
  | DTypedef => exists t, e_info (R r) = ITypedef t /\ to Q (d_type d) t
  | DQual q => exists q' t, same_qual q q' /\ e_info (R r) = IQual q' t /\ to Q (d_type d) t
  | DReference k => exists z t, e_info (R r) = IReference (match k with RvalueReferenceType => true | ReferenceType => false end) z t /\ to Q (d_type d) t
  | DUnspecified => exists k, e_info (R r) = IOther k
  | DArray => exists j e ns, d_type d = Some j /\ Q j e /\ array_way R r ns e /\
      match d_children d with
      | [] => ns = [(-1)%Z]
      | cs => Forall2 (fun c n => forall k, range_of data c k -> n = k) cs ns
      end
  | DSubroutine => exists t ps, e_info (R r) = ISubroutine t ps /\ to Q (d_type d) t /\
      exists cs, Forall2 (fun c p => exists x, data c = Some x /\
          (d_tag x = DUnspecifiedParameters /\ (exists t', e_info (R p) = IParam true t') \/ d_tag x = DParameter /\ exists t', e_info (R p) = IParam false t' /\ to Q (d_type x) t')) cs ps /\
        filter (fun c => match data c with Some x => match d_tag x with DParameter | DUnspecifiedParameters => true | _ => false end | None => false end) (d_children d) = cs
  | DStruct g => exists k z ms, same_aggr g k /\ e_info (R r) = IAggr k z ms /\ (forall n, d_size d = Some n -> z = n) /\
      Forall2 (fun c m => exists x, data c = Some x /\ member_says Q x (R m))
        (filter (fun c => match data c with Some x => match d_tag x with DMember => true | _ => false end | None => false end) (d_children d)) ms
  | _ => True
  end.
(** the run time agrees with the debugging data along all ways from related types on; a declaration of the run time stands for any definition of the name *)
Definition faithful (data : nat -> option die) (R : db) (Q : nat -> ref -> Prop) : Prop :=
  forall i r, Q i r -> exists d, data i = Some d /\ type_tag (d_tag d) /\ (d_tag d <> DBase -> e_name (R r) = d_name d) /\
    (~ is_declaration d -> e_declaration (R r) = false -> says data R Q d r).
(** the way to the size of a type meets a declaration *)
Inductive meets_declaration (R : db) : ref -> Prop :=
| md_here r : e_declaration (R r) = true -> meets_declaration R r
| md_typedef r t : e_info (R r) = ITypedef (Some t) -> meets_declaration R t -> meets_declaration R r
| md_qual r q t : e_info (R r) = IQual q (Some t) -> meets_declaration R t -> meets_declaration R r
| md_array r t n : e_info (R r) = IArray (Some t) n -> meets_declaration R t -> meets_declaration R r.

(** * From debugging data to the run time: [L] the objects of the builder, [st] the database; what a C compiler gives for one program *)
Record generated (data : nat -> option die) (parent : nat -> nat) (L : list (nat * object)) (st : index) : Prop := {
  ge_tree : tree data;
  ge_build : exists fuel, build data fuel = Ok L;
  ge_ok : graph_ok (made L);
  ge_one : one_definition (made L);
  ge_nested : nested_alone (made L) parent;
  ge_parent : forall i c, child data i c -> parent c = i;
  ge_base : forall i d, data i = Some d -> d_tag d = DBase -> ~ is_declaration d;
  ge_dedup : exists fuel order, NoDup order /\ (forall i, made L i <> None -> In i order) /\ dedup fuel (made L) parent index0 order = Ok st }.
(** the static entries of the program; [W]: its variables and functions *)
Definition run_time (L : list (nat * object)) (W : list (nat * other)) (st : index) : db :=
  printed (db_graph (made L) st) (fun i => option_map (relink_other (i_rep st)) (other_at W i)).

(** ** Variables and functions *)
(** the link of a variable, a function or a parameter: the type that the debugging data has; nothing stands for void *)
Definition leads (data : nat -> option die) (parent : nat -> nat) (st : index) (Q : nat -> ref -> Prop) (j : option nat) (t : option ref) : Prop :=
  match j, t with
  | None, None => True
  | Some x, Some y => kind_in data type_tag x /\ (declared_in data x -> i_dup st (parent x) = false \/ In (i_rep st x) (i_db st) -> Q x y)
  | _, _ => False
  end.
Definition parameters_of (data : nat -> option die) (d : die) : list nat :=
  filter (fun c => match data c with Some x => match d_tag x with DParameter | DUnspecifiedParameters => true | _ => false end | None => false end) (d_children d).
Record common_says (d : die) (e : EntryModel.entry) : Prop := {
  cs_name : e_name e = d_name d;
  cs_decl : e_declaration e = true <-> is_declaration d }.
Definition variable_says (to : option nat -> option ref -> Prop) (d : die) (e : EntryModel.entry) : Prop :=
  common_says d e /\ exists t, e_info e = IVariable t /\ to (d_type d) t.
Definition parameter_says (to : option nat -> option ref -> Prop) (x : die) (e : EntryModel.entry) : Prop :=
  e_name e = d_name x /\ exists t, e_info e = IParam (match d_tag x with DUnspecifiedParameters => true | _ => false end) t /\ to (d_type x) t.
Definition function_says (data : nat -> option die) (R : db) (to : option nat -> option ref -> Prop) (d : die) (e : EntryModel.entry) : Prop :=
  common_says d e /\ exists t ps, e_info e = ISubprogram t ps /\ to (d_type d) t /\
    Forall2 (fun c p => exists x, data c = Some x /\ parameter_says to x (R p)) (parameters_of data d) ps.

(** * Base types: the type specifiers of C (ISO C 6.7.2), in any order *)
Open Scope string_scope.
Definition spelled_as (c : ctype) : list (list string) :=
  match c with
  | CChar => [["char"]]
  | CUChar => [["unsigned"; "char"]]
  | CShort => [["short"]; ["signed"; "short"]; ["short"; "int"]; ["signed"; "short"; "int"]]
  | CUShort => [["unsigned"; "short"]; ["unsigned"; "short"; "int"]]
  | CInt => [["int"]; ["signed"]; ["signed"; "int"]]
  | CUInt => [["unsigned"]; ["unsigned"; "int"]]
  | CLong => [["long"]; ["signed"; "long"]; ["long"; "int"]; ["signed"; "long"; "int"]]
  | CULong => [["unsigned"; "long"]; ["unsigned"; "long"; "int"]]
  | CLLong => [["long"; "long"]; ["signed"; "long"; "long"]; ["long"; "long"; "int"]; ["signed"; "long"; "long"; "int"]]
  | CULLong => [["unsigned"; "long"; "long"]; ["unsigned"; "long"; "long"; "int"]]
  | CBool => [["_Bool"]]
  | CFloat => [["float"]] | CDouble => [["double"]] | CLDouble => [["long"; "double"]]
  | CFComplex => [["float"; "complex"]] | CDComplex => [["double"; "complex"]] | CLDComplex => [["long"; "double"; "complex"]]
  end.
Fixpoint words_from (cur : string) (s : string) : list string :=
  let done := match cur with EmptyString => [] | _ => [cur] end in
  match s with
  | EmptyString => done
  | String a r => if Ascii.eqb a " " then (done ++ words_from "" r)%list else words_from (cur ++ String a "") r
  end.
(** the words of a text *)
Definition words (s : string) : list string := words_from "" s.
(** the name means the type: by its words, or "complex" alone (Clang) by the size *)
Definition means (name : string) (size : option Z) (c : ctype) : Prop :=
  (exists l, In l (spelled_as c) /\ Permutation (words name) l) \/
  words name = ["complex"] /\ match c with CFComplex => size = Some 8%Z | CDComplex => size = Some 16%Z | CLDComplex => size = Some 32%Z | _ => False end.
(** the names GCC and Clang give to base types of C *)
Definition compilers (c : ctype) : list string :=
  match c with
  | CChar => ["char"] | CUChar => ["unsigned char"]
  | CShort => ["short int"; "short"] | CUShort => ["short unsigned int"; "unsigned short"]
  | CInt => ["int"] | CUInt => ["unsigned int"]
  | CLong => ["long int"; "long"] | CULong => ["long unsigned int"; "unsigned long"]
  | CLLong => ["long long int"; "long long"] | CULLong => ["long long unsigned int"; "unsigned long long"]
  | CBool => ["_Bool"] | CFloat => ["float"] | CDouble => ["double"] | CLDouble => ["long double"]
  | CFComplex => ["complex float"; "complex"] | CDComplex => ["complex double"; "complex"] | CLDComplex => ["complex long double"; "complex"]
  end.
(** the encoding of the type by DWARF (7.8), and its size on x86-64 *)
Definition dw_encoding_of (c : ctype) (e : Z) : Prop :=
  match c with
  | CChar => e = 6%Z \/ e = 8%Z
  | CUChar => e = 8%Z
  | CShort | CInt | CLong | CLLong => e = 5%Z
  | CUShort | CUInt | CULong | CULLong => e = 7%Z
  | CBool => e = 2%Z
  | CFloat | CDouble | CLDouble => e = 4%Z
  | CFComplex | CDComplex | CLDComplex => e = 3%Z
  end.
Definition size_of (c : ctype) : Z :=
  match c with
  | CChar | CUChar | CBool => 1 | CShort | CUShort => 2 | CInt | CUInt | CFloat => 4
  | CLong | CULong | CLLong | CULLong | CDouble | CFComplex => 8 | CLDouble | CDComplex => 16 | CLDComplex => 32
  end.

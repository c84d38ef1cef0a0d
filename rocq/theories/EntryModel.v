(** Executable model of the type information graph (include/metac/backend/entry.h) and of the functions of
    src/entry.c on it.

    A type entry pointer is [St r] (an entry of the generated, static database; [r] is its identity) or [Dy e]
    (a heap copy made by metac_new_entry; its identity never matters because only static entries are
    looked up by address). [option eptr] is a pointer that may be NULL. A database [db] gives the entry
    behind every static pointer; pointers inside entries are static or NULL, as generated and as produced
    by metac_new_element_count_entry. The union discriminated by [kind] is the inductive type [info].
    Arrays of members, parameters and enumerators are lists (their count fields are the list lengths).
    Fields the modelled functions never read (alignment, parents, hierarchy, linkage) are left out. *)
From Coq Require Import ZArith String List Bool.
From Verif Require Import Base.
Import ListNotations.
Open Scope Z_scope.

Definition ref := nat.

Inductive qual := QConst | QVolatile | QRestrict | QMutable | QShared | QPacked.
Inductive aggr := AStruct | AUnion | AClass.

(** include/metac/backend/entry.h:52-61 struct metac_member_info *)
Record minfo := { m_type : option ref; m_byte_size : option Z; m_byte_offset : Z;
                  m_data_bit_offset : option Z; m_bit_offset : option Z; m_bit_size : option Z }.

(** include/metac/backend/entry.h:147-183 the union of struct metac_entry *)
Inductive info :=
| ITypedef (t : option ref)
| IQual (q : qual) (t : option ref)
| IBase (size enc : Z)
| IPointer (t : option ref)
| IReference (rvalue : bool) (size : Z) (t : option ref)
| IEnum (size : Z) (l : list (option string * Z))
| IArray (t : option ref) (count : Z)
| IMember (m : minfo)
| IAggr (k : aggr) (size : Z) (members : list ref)
| IVariable (t : option ref)
| IParam (unspecified : bool) (t : option ref)
| ISubprogram (t : option ref) (params : list ref)
| ISubroutine (t : option ref) (params : list ref)
| IOther (kind : Z).      (* unspecified type, lex block, namespace, compile unit, invalid *)

Record entry := { e_name : option string; e_declaration : bool; e_info : info }.
Inductive eptr := St (r : ref) | Dy (e : entry).
Definition db := ref -> entry.
Definition deref (d : db) (p : eptr) : entry := match p with St r => d r | Dy e => e end.
Definition lift (t : option ref) : option eptr := option_map St t.

(** include/metac/const.h kinds *)
Definition KND_invalid := -1. Definition KND_typedef := 0. Definition KND_base_type := 1.
Definition KND_pointer_type := 2. Definition KND_enumeration_type := 3. Definition KND_subroutine_type := 4.
Definition KND_array_type := 5. Definition KND_reference_type := 12. Definition KND_rvalue_reference_type := 13.
Definition KND_member := 15. Definition KND_struct_type := 16. Definition KND_union_type := 17.
Definition KND_class_type := 18. Definition KND_variable := 19. Definition KND_func_parameter := 20.
Definition KND_subprogram := 21.
Definition kind_of (i : info) : Z :=
  match i with
  | ITypedef _ => KND_typedef
  | IQual QConst _ => 6 | IQual QVolatile _ => 7 | IQual QRestrict _ => 8 | IQual QMutable _ => 9
  | IQual QShared _ => 10 | IQual QPacked _ => 11
  | IBase _ _ => KND_base_type | IPointer _ => KND_pointer_type
  | IReference false _ _ => KND_reference_type | IReference true _ _ => KND_rvalue_reference_type
  | IEnum _ _ => KND_enumeration_type | IArray _ _ => KND_array_type | IMember _ => KND_member
  | IAggr AStruct _ _ => KND_struct_type | IAggr AUnion _ _ => KND_union_type | IAggr AClass _ _ => KND_class_type
  | IVariable _ => KND_variable | IParam _ _ => KND_func_parameter
  | ISubprogram _ _ => KND_subprogram | ISubroutine _ _ => KND_subroutine_type
  | IOther k => k
  end.

(** src/entry.c:78-81 metac_entry_kind, 83-86 metac_entry_name *)
Definition entry_kind (d : db) (p : option eptr) : Z :=
  match p with None => KND_invalid | Some e => kind_of (e_info (deref d e)) end.
Definition entry_name (d : db) (p : option eptr) : option string :=
  match p with None => None | Some e => e_name (deref d e) end.
(** src/entry.c:15-18 metac_entry_is_dynamic *)
Definition is_dynamic (p : option eptr) : bool := match p with Some (Dy _) => true | _ => false end.

(** include/metac/base.h metac_quals_t *)
Record quals := { q_const : bool; q_volatile : bool; q_restrict : bool; q_mutable : bool; q_shared : bool; q_packed : bool }.
Definition no_quals := Build_quals false false false false false false.
Definition add_qual (q : qual) (s : quals) : quals :=
  let is k := match q, k with QConst, QConst | QVolatile, QVolatile | QRestrict, QRestrict | QMutable, QMutable
                            | QShared, QShared | QPacked, QPacked => true | _, _ => false end in
  Build_quals (q_const s || is QConst) (q_volatile s || is QVolatile) (q_restrict s || is QRestrict)
              (q_mutable s || is QMutable) (q_shared s || is QShared) (q_packed s || is QPacked).

(** src/entry.c:162-210 the loop of metac_entry_final_entry. [out] is what *p_quals holds before the call;
    the result is the entry and what *p_quals holds afterwards. [fuel] bounds the number of steps. *)
Fixpoint final_loop (fuel : nat) (d : db) (p : option eptr) (acc out : quals) : res (option eptr * quals) :=
  match fuel with
  | O => OutOfFuel
  | S g =>
    match p with
    | None => Ret (None, out)
    | Some e =>
      match e_info (deref d e) with
      | ITypedef t => final_loop g d (lift t) acc out
      | IVariable t => final_loop g d (lift t) acc out
      | IParam true _ => Ret (p, out)
      | IParam false t => final_loop g d (lift t) acc out
      | IMember m => final_loop g d (lift (m_type m)) acc out
      | IQual q t => final_loop g d (lift t) (add_qual q acc) out
      | _ => Ret (p, acc)
      end
    end
  end.
Definition final_entry (fuel : nat) (d : db) (p : option eptr) (out : quals) : res (option eptr * quals) :=
  match p with None => Ret (None, out) | Some _ => final_loop fuel d p no_quals out end.

Local Open Scope res_scope.

(** The pattern repeated in src/entry.c:212-220, 284-292, 321-332, 457-465, 485-493, 524-534 (and value.c):
    final entry, NULL unless its kind is one of the wanted ones. *)
Definition final_if (fuel : nat) (d : db) (p : option eptr) (want : info -> bool) : res (option eptr) :=
  do r <- final_entry fuel d p no_quals;
  match fst r with
  | None => Ret None
  | Some e => Ret (if want (e_info (deref d e)) then Some e else None)
  end.
Definition is_base_info (i : info) := match i with IBase _ _ => true | _ => false end.
Definition is_pointer_info (i : info) := match i with IPointer _ => true | _ => false end.
Definition is_aggr_info (i : info) := match i with IAggr _ _ _ => true | _ => false end.
Definition is_array_info (i : info) := match i with IArray _ _ => true | _ => false end.
Definition is_enum_info (i : info) := match i with IEnum _ _ => true | _ => false end.
Definition is_fun_info (i : info) := match i with ISubprogram _ _ | ISubroutine _ _ => true | _ => false end.

(** src/entry.c:99-155 metac_entry_byte_size: [inl] the size, [inr] the error code. [mult] is the uint64
    variable multipier; metac_size_t arithmetic wraps modulo 2^64. sizeof( void* ) is 8. *)
Fixpoint byte_size_loop (fuel : nat) (d : db) (p : option eptr) (mult : Z) : res (Z + Z) :=
  match fuel with
  | O => OutOfFuel
  | S g =>
    match p with
    | None => Ret (inr (- EFAULT))
    | Some e =>
      match e_info (deref d e) with
      | IBase size _ => Ret (inl (uwrap 64 (size * mult)))
      | IEnum size _ => Ret (inl (uwrap 64 (size * mult)))
      | IPointer _ => Ret (inl (uwrap 64 (8 * mult)))
      | IAggr _ size _ => Ret (inl (uwrap 64 (size * mult)))
      | IReference _ size _ => Ret (inl (uwrap 64 (size * mult)))
      | IVariable t => byte_size_loop g d (lift t) mult
      | IParam _ t => byte_size_loop g d (lift t) mult
      | IMember m => byte_size_loop g d (lift (m_type m)) mult
      | ITypedef t => byte_size_loop g d (lift t) mult
      | IQual _ t => byte_size_loop g d (lift t) mult
      | IArray t count => if count <=? 0 then Ret (inr (- EFAULT))
                          else byte_size_loop g d (lift t) (uwrap 64 (mult * count))
      | ISubprogram _ _ | ISubroutine _ _ | IOther _ => Ret (inr (- EFAULT))
      end
    end
  end.
Definition byte_size (fuel : nat) (d : db) (p : option eptr) : res (Z + Z) := byte_size_loop fuel d p 1.

(** src/entry.c:222-243 _entry_check_base_type followed by 273-282 metac_entry_check_base_type. [names] are C
    strings; sizeof(long complex double) = 32 <> 16, so the renaming of lines 228-232 never happens on
    the modelled platform. assert(name != NULL): [Abort]. *)
Definition check_base_type (fuel : nat) (d : db) (p : option eptr) (name : string) (enc size : Z) : res Z :=
  do f <- final_if fuel d p is_base_info;
  match f with
  | None => Ret (- EINVAL)
  | Some e =>
    match e_name (deref d e), e_info (deref d e) with
    | None, _ => Abort
    | Some n, IBase bsize benc =>
        if String.eqb n name && ((benc =? 0) || (benc =? enc)) && ((bsize =? 0) || (bsize =? size))
        then Ret 0 else Ret (- EINVAL)
    | Some _, _ => Ret (- EINVAL)
    end
  end.

(** src/entry.c:294-319: is_pointer, is_void_pointer, is_declaration_pointer, pointer_entry *)
Definition is_pointer fuel d p : res bool := do f <- final_if fuel d p is_pointer_info; Ret (match f with Some _ => true | None => false end).
Definition pointer_target (d : db) (e : eptr) : option ref := match e_info (deref d e) with IPointer t => t | _ => None end.
Definition is_void_pointer fuel d p : res bool :=
  do f <- final_if fuel d p is_pointer_info;
  Ret (match f with Some e => match pointer_target d e with None => true | Some _ => false end | None => false end).
Definition is_declaration_pointer fuel d p : res bool :=
  do f <- final_if fuel d p is_pointer_info;
  Ret (match f with Some e => match pointer_target d e with None => false | Some t => e_declaration (d t) end | None => false end).
Definition pointer_entry fuel d p : res (option eptr) :=
  do f <- final_if fuel d p is_pointer_info;
  Ret (match f with Some e => lift (pointer_target d e) | None => None end).

(** the members array of a struct, union or class entry *)
Definition members_of (d : db) (e : eptr) : list ref := match e_info (deref d e) with IAggr _ _ l => l | _ => [] end.
(** src/entry.c:347-351 metac_entry_member_count *)
Definition member_count fuel d p : res Z :=
  do f <- final_if fuel d p is_aggr_info;
  Ret (match f with Some e => Z.of_nat (length (members_of d e)) | None => - EINVAL end).
(** src/entry.c:356-361 (and 563-577) the search loop over names; [i] is the loop variable *)
Fixpoint name_loop (d : db) (l : list ref) (name : string) (i : Z) : Z :=
  match l with
  | [] => - ENOENT
  | r :: l' => if named (e_name (d r)) name then i else name_loop d l' name (i + 1)
  end.
(** src/entry.c:353-363 metac_entry_member_name_to_id *)
Definition member_name_to_id fuel d p (name : string) : res Z :=
  do f <- final_if fuel d p is_aggr_info;
  Ret (match f with Some e => name_loop d (members_of d e) name 0 | None => - EINVAL end).
(** bounds check and array access of src/entry.c:368-369, 586-590 *)
Definition nth_id (l : list ref) (id : Z) : option eptr :=
  if (id <? 0) || (Z.of_nat (length l) <=? id) then None else lift (nth_error l (Z.to_nat id)).
(** src/entry.c:365-370 metac_entry_by_member_id *)
Definition by_member_id fuel d p (id : Z) : res (option eptr) :=
  do f <- final_if fuel d p is_aggr_info;
  Ret (match f with Some e => nth_id (members_of d e) id | None => None end).
(** include/metac/reflect.h metac_entry_id_t: an id and an optional name; the name wins *)
Record entry_id := { id_name : option string; id_num : Z }.
(** src/entry.c:372-392 metac_entry_by_member_ids *)
Fixpoint by_member_ids fuel d (p : option eptr) (final : bool) (ids : list entry_id) : res (option eptr) :=
  match ids with
  | [] => match p with
          | None => Ret None
          | Some _ => if final then do r <- final_entry fuel d p no_quals; Ret (fst r) else Ret p
          end
  | i :: rest =>
    match p with
    | None => Ret None
    | Some _ =>
      do f <- final_if fuel d p is_aggr_info;
      match f with
      | None => Ret None
      | Some e =>
        do id <- match id_name i with
                 | Some n => member_name_to_id fuel d f n
                 | None => Ret (id_num i)
                 end;
        if match id_name i with Some _ => id <? 0 | None => false end then Ret None
        else do q <- by_member_id fuel d f id; by_member_ids fuel d q final rest
      end
    end
  end.

(** src/entry.c:421-455 metac_entry_member_bitfield_offsets on a member: byte offset, bit offset, bit size;
    [Ub] when neither location attribute is present (0 is returned and the outputs stay uninitialised). *)
Definition opt0 (o : option Z) : Z := match o with Some v => v | None => 0 end.
Definition bitfield_offsets (m : minfo) : res (Z + Z * Z * Z) :=
  match m_bit_offset m with
  | Some bit_offset =>
      let bsz := opt0 (m_byte_size m) in
      if bsz =? 0 then Ret (inl (- EINVAL))
      else let bits := opt0 (m_bit_size m) in
           let dbo := uwrap 64 ((m_byte_offset m + bsz) * 8 - (bit_offset + bits)) in
           Ret (inr (Z.shiftr dbo 3, Z.land dbo 7, bits))
  | None =>
      match m_data_bit_offset m with
      | Some dbo => Ret (inr (Z.shiftr dbo 3, Z.land dbo 7, opt0 (m_bit_size m)))
      | None => Ub
      end
  end.

(** src/entry.c:471-475 metac_entry_element_count (int64 count returned as int), 477-483 element_entry *)
Definition array_of (d : db) (e : eptr) : option ref * Z := match e_info (deref d e) with IArray t c => (t, c) | _ => (None, 0) end.
Definition element_count fuel d p : res Z :=
  do f <- final_if fuel d p is_array_info;
  Ret (match f with Some e => swrap 32 (snd (array_of d e)) | None => - EINVAL end).
Definition element_entry fuel d p : res (option eptr) :=
  do f <- final_if fuel d p is_array_info;
  Ret (match f with Some e => lift (fst (array_of d e)) | None => None end).

(** src/entry.c:499-509 metac_entry_enumeration_to_name *)
Definition enumerators_of (d : db) (e : eptr) : list (option string * Z) := match e_info (deref d e) with IEnum _ l => l | _ => [] end.
Fixpoint enum_loop (l : list (option string * Z)) (v : Z) : option string :=
  match l with [] => None | (n, c) :: r => if c =? v then n else enum_loop r v end.
Definition enumeration_to_name fuel d p (v : Z) : res (option string) :=
  do f <- final_if fuel d p is_enum_info;
  Ret (match f with Some e => enum_loop (enumerators_of d e) v | None => None end).

(** src/entry.c:548-615 parameters: count, name to id, by id, by ids *)
Definition params_of (d : db) (e : eptr) : list ref := match e_info (deref d e) with ISubprogram _ l => l | ISubroutine _ l => l | _ => [] end.
Definition parameters_count fuel d p : res Z :=
  do f <- final_if fuel d p is_fun_info;
  Ret (match f with Some e => Z.of_nat (length (params_of d e)) | None => - EINVAL end).
Definition parameter_name_to_id fuel d p (name : string) : res Z :=
  do f <- final_if fuel d p is_fun_info;
  Ret (match f with Some e => name_loop d (params_of d e) name 0 | None => - EINVAL end).
Definition by_parameter_id fuel d p (id : Z) : res (option eptr) :=
  do f <- final_if fuel d p is_fun_info;
  Ret (match f with Some e => nth_id (params_of d e) id | None => None end).
Definition by_parameter_ids fuel d (p : option eptr) (final : bool) (i : entry_id) : res (option eptr) :=
  match p with
  | None => Ret None
  | Some _ =>
    do f <- final_if fuel d p is_fun_info;
    match f with
    | None => Ret None
    | Some e =>
      do id <- match id_name i with Some n => parameter_name_to_id fuel d f n | None => Ret (id_num i) end;
      if match id_name i with Some _ => id <? 0 | None => false end then Ret None
      else do q <- by_parameter_id fuel d f id;
           match q with
           | None => Ret None
           | Some _ => if final then do r <- final_entry fuel d q no_quals; Ret (fst r) else Ret q
           end
    end
  end.

(** src/entry.c:31-67 metac_new_element_count_entry; [a] is the outcome of calloc *)
Definition new_element_count_entry fuel d p (count : Z) (a : bool) : res (option eptr) :=
  match p with
  | None => Ret None
  | Some _ =>
    do f <- final_if fuel d p (fun i => is_array_info i || is_pointer_info i);
    match f with
    | None => Ret None
    | Some e =>
      let t := match e_info (deref d e) with IArray t _ => t | IPointer t => t | _ => None end in
      match t with
      | None => Ret None
      | Some _ => Ret (if a then Some (Dy (Build_entry None false (IArray t count))) else None)
      end
    end
  end.

(** src/entry_db.c:24-67 the database: three sorted levels searched with bsearch by strcmp *)
Definition entry_db := list (string * list (string * list (string * list ref))).
(** strcmp on C strings (unsigned bytes): the sign of the result *)
Definition byte_of (a : Ascii.ascii) : Z := Z.of_N (Ascii.N_of_ascii a).
Fixpoint strcmp (a b : string) : comparison :=
  match a, b with
  | EmptyString, EmptyString => Eq
  | EmptyString, String _ _ => Lt
  | String _ _, EmptyString => Gt
  | String x a', String y b' => match byte_of x ?= byte_of y with Eq => strcmp a' b' | c => c end
  end.
(** glibc bsearch (bits/stdlib-bsearch.h): half-open interval [lo,hi), probe at the middle *)
Fixpoint bsearch {A} (fuel : nat) (l : list (string * A)) (key : string) (lo hi : Z) : res (option A) :=
  match fuel with
  | O => OutOfFuel
  | S g =>
    if lo <? hi then
      let idx := (lo + hi) / 2 in
      match nth_error l (Z.to_nat idx) with
      | None => Ub
      | Some (k, v) => match strcmp key k with
                       | Lt => bsearch g l key lo idx
                       | Gt => bsearch g l key (idx + 1) hi
                       | Eq => Ret (Some v)
                       end
      end
    else Ret None
  end.
Definition bsearch_all {A} (l : list (string * A)) (key : string) : res (option A) :=
  bsearch (S (length l)) l key 0 (Z.of_nat (length l)).
Definition entry_from_entry_db (edb : entry_db) (file loc : string) (name : string) : res (option ref) :=
  do f <- bsearch_all edb file;
  match f with
  | None => Ret None
  | Some locs =>
    do l <- bsearch_all locs loc;
    match l with
    | None => Ret None
    | Some names =>
      do n <- bsearch_all names name;
      match n with
      | None => Ret None
      | Some [r] => Ret (Some r)
      | Some _ => Ret None
      end
    end
  end.

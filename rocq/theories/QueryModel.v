(** Model of the remaining questions about types of src/entry.c that are not in EntryModel: the flags of the kinds,
    base types, enumerators by number, results of functions, and the entries of members and parameters themselves.
    Not modelled here: metac_entry_is_va_list_parameter (639-653; see HandlerModel), raw_location_info (405-419,
    a plain copy of the fields of [minfo]). *)
From Coq Require Import ZArith String List Bool.
From Verif Require Import Base EntryModel.
Import ListNotations.
Open Scope Z_scope.
Local Open Scope res_scope.

(** the comparison with NULL in src/entry.c:245-247, 343-345, 467-469, 495-497, 536-538 *)
Definition non_null {A} (o : option A) : bool := match o with Some _ => true | None => false end.
(** src/entry.c:245-247 metac_entry_is_base_type *)
Definition is_base_type n d p : res bool := do f <- final_if n d p is_base_info; Ret (non_null f).
(** src/entry.c:343-345 metac_entry_has_members *)
Definition has_members_flag n d p : res bool := do f <- final_if n d p is_aggr_info; Ret (non_null f).
(** src/entry.c:467-469 metac_entry_has_elements *)
Definition has_elements_flag n d p : res bool := do f <- final_if n d p is_array_info; Ret (non_null f).
(** src/entry.c:495-497 metac_entry_is_enumeration *)
Definition is_enumeration n d p : res bool := do f <- final_if n d p is_enum_info; Ret (non_null f).
(** src/entry.c:536-538 metac_entry_has_parameters *)
Definition has_parameters_flag n d p : res bool := do f <- final_if n d p is_fun_info; Ret (non_null f).

(** src/entry.c:249-253 metac_entry_base_type_name *)
Definition base_type_name n d p : res (option string) :=
  do f <- final_if n d p is_base_info; Ret (match f with Some e => e_name (deref d e) | None => None end).
(** src/entry.c:255-271 metac_entry_base_type_byte_size, metac_entry_base_type_encoding with a place for the answer:
    [inl] what is stored there (0 is returned), [inr] the error *)
Definition base_of (d : db) (e : eptr) : Z * Z := match e_info (deref d e) with IBase z c => (z, c) | _ => (0, 0) end.
Definition base_type_byte_size n d p : res (Z + Z) :=
  do f <- final_if n d p is_base_info; Ret (match f with Some e => inl (fst (base_of d e)) | None => inr (- EINVAL) end).
Definition base_type_encoding n d p : res (Z + Z) :=
  do f <- final_if n d p is_base_info; Ret (match f with Some e => inl (snd (base_of d e)) | None => inr (- EINVAL) end).

(** src/entry.c:511-515 metac_entry_enumeration_info_size *)
Definition enumeration_info_size n d p : res Z :=
  do f <- final_if n d p is_enum_info; Ret (match f with Some e => Z.of_nat (length (enumerators_of d e)) | None => 0 end).
(** src/entry.c:517-522 metac_entry_enumeration_info: the element of the array stands for its address *)
Definition enumeration_info n d p (id : Z) : res (option (option string * Z)) :=
  do f <- final_if n d p is_enum_info;
  Ret (match f with
       | Some e => if (id <? 0) || (id >=? Z.of_nat (length (enumerators_of d e))) then None
                   else nth_error (enumerators_of d e) (Z.to_nat id)
       | None => None
       end).

(** src/entry.c:617-627 metac_entry_has_result, metac_entry_result_type: subprogram_info.type is read for both kinds
    (the two structures begin with the type) *)
Definition result_of (d : db) (e : eptr) : option ref := match e_info (deref d e) with ISubprogram t _ | ISubroutine t _ => t | _ => None end.
Definition has_result n d p : res bool :=
  do f <- final_if n d p is_fun_info; Ret (match f with Some e => non_null (result_of d e) | None => false end).
Definition result_type n d p : res (option eptr) :=
  do f <- final_if n d p is_fun_info; Ret (match f with Some e => lift (result_of d e) | None => None end).

(** src/entry.c:394-403 metac_entry_is_member, metac_entry_member_entry; 629-637, 655-660 metac_entry_is_parameter,
    metac_entry_is_unspecified_parameter, metac_entry_parameter_entry: about the entry itself, nothing is resolved *)
Definition is_member (d : db) (p : option eptr) : bool := match p with None => false | Some _ => entry_kind d p =? KND_member end.
Definition member_entry (d : db) (p : option eptr) : option eptr :=
  match p with None => None | Some e => match e_info (deref d e) with IMember m => lift (m_type m) | _ => None end end.
Definition is_parameter (d : db) (p : option eptr) : bool := match p with None => false | Some _ => entry_kind d p =? KND_func_parameter end.
Definition is_unspecified_parameter (d : db) (p : option eptr) : bool :=
  match p with None => false | Some e => match e_info (deref d e) with IParam u _ => u | _ => false end end.
Definition parameter_entry (d : db) (p : option eptr) : option eptr :=
  match p with None => None | Some e => match e_info (deref d e) with IParam u t => if u then None else lift t | _ => None end end.

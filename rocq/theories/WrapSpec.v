(** Specification of wrapping a call: what the caller of a variadic function passes for an argument of a C type (ISO 9899,
    6.5.2.2: default argument promotions) and what the storage holds afterwards. Of the model only the data types, the
    text of a declaration (public API) and the vocabulary of PStorSpec are used. *)
From Coq Require Import ZArith String List Bool.
From Verif Require Import Base EntryModel EntrySpec CdeclModel PStorModel PStorSpec WrapModel.
Import ListNotations.
Open Scope Z_scope.

(** the [k] bytes of the number [z], least significant first *)
Fixpoint le_bytes (k : nat) (z : Z) : list Z := match k with O => [] | S j => z mod 256 :: le_bytes j (z / 256) end.

Section Spec.
Variable d : db.
Variable nc : nat.
Variable promote : list Z -> list Z.      (* conversion of float to double *)
Variable va_fn : ref -> bool.             (* the struct can be read from a va_list *)
Variable tags : option (ref -> option va_handler).   (* the tag map; None: none is given *)
Variable oom : Prop.                      (* memory may be short *)
Definition handler (r : ref) (hd : va_handler) : Prop := exists tag, tags = Some tag /\ tag r = Some hd.

(** [arithmetic name b a]: an object [b] of the base type [name] is passed as [a] *)
Inductive arithmetic : string -> list Z -> arg -> Prop :=
| ar_char : forall v, -128 <= v < 128 -> arithmetic "char" (le_bytes 1 v) (Arg CInt (le_bytes 4 v))
| ar_uchar : forall v, 0 <= v < 256 -> arithmetic "unsigned char" (le_bytes 1 v) (Arg CInt (le_bytes 4 v))
| ar_short : forall v, -32768 <= v < 32768 -> arithmetic "short int" (le_bytes 2 v) (Arg CInt (le_bytes 4 v))
| ar_ushort : forall v, 0 <= v < 65536 -> arithmetic "unsigned short int" (le_bytes 2 v) (Arg CInt (le_bytes 4 v))
| ar_bool : forall v, v = 0 \/ v = 1 -> arithmetic "_Bool" (le_bytes 1 v) (Arg CInt (le_bytes 4 v))
| ar_int : forall b, length b = 4%nat -> arithmetic "int" b (Arg CInt b)
| ar_uint : forall b, length b = 4%nat -> arithmetic "unsigned int" b (Arg CInt b)
| ar_long : forall b, length b = 8%nat -> arithmetic "long int" b (Arg CLong b)
| ar_ulong : forall b, length b = 8%nat -> arithmetic "unsigned long int" b (Arg CLong b)
| ar_llong : forall b, length b = 8%nat -> arithmetic "long long int" b (Arg CLLong b)
| ar_ullong : forall b, length b = 8%nat -> arithmetic "unsigned long long int" b (Arg CLLong b)
| ar_float : forall b, length b = 4%nat -> arithmetic "float" b (Arg CDouble (promote b))
| ar_double : forall b, length b = 8%nat -> arithmetic "double" b (Arg CDouble b)
| ar_ldouble : forall b, length b = 16%nat -> arithmetic "long double" b (Arg CLDouble b)
| ar_fcomplex : forall b, length b = 8%nat -> arithmetic "complex float" b (Arg CFComplex b)
| ar_dcomplex : forall b, length b = 16%nat -> arithmetic "complex double" b (Arg CDComplex b)
| ar_ldcomplex : forall b, length b = 32%nat -> arithmetic "long complex double" b (Arg CLDComplex b).

(** [passes t b a]: an object [b] of type [t] is passed as the argument [a] *)
Inductive passes (t : ref) : list Z -> arg -> Prop :=
| ps_base : forall f name z enc b a, final_type d (Some (St t)) (Some (St f)) -> e_info (d f) = IBase z enc -> e_name (d f) = Some name ->
    arithmetic name b a -> z = Z.of_nat (length b) -> passes t b a
| ps_pointer : forall f u b, final_type d (Some (St t)) (Some (St f)) -> e_info (d f) = IPointer u -> length b = 8%nat -> passes t b (Arg CPtr b)
| ps_enum_small : forall f z l v k, final_type d (Some (St t)) (Some (St f)) -> e_info (d f) = IEnum z l -> z = Z.of_nat k -> k = 1%nat \/ k = 2%nat ->
    passes t (le_bytes k v) (Arg CInt (le_bytes 4 v))
| ps_enum_int : forall f l b, final_type d (Some (St t)) (Some (St f)) -> e_info (d f) = IEnum 4 l -> length b = 4%nat -> passes t b (Arg CInt b)
| ps_enum_long : forall f l b, final_type d (Some (St t)) (Some (St f)) -> e_info (d f) = IEnum 8 l -> length b = 8%nat -> passes t b (Arg CLong b)
| ps_struct : forall f k z l b, final_type d (Some (St t)) (Some (St f)) -> e_info (d f) = IAggr k z l -> va_fn f = true ->
    0 < z < 2 ^ 64 -> z = Z.of_nat (length b) -> passes t b (Arg (CStruct f) b).

(** the declaration text of a type is that of a va_list *)
Definition va_text (t : ref) : Prop :=
  exists s, entry_cdecl nc d (Some (St t)) = Ret (Some s) /\ (s = "va_list %s" \/ s = "struct __va_list_tag * %s")%string.
Definition ordinary (r t : ref) : Prop := e_info (d r) = IParam false (Some t) /\ ~ va_text t /\ exists o, entry_cdecl nc d (Some (St t)) = Ret o.
Definition va_list_param (r : ref) : Prop := exists t, e_info (d r) = IParam false (Some t) /\ va_text t.
Definition dots (r : ref) : Prop := exists t, e_info (d r) = IParam true t.

(** From [h] to [h'] the storage [s] went from [l] to [l']; blocks no longer in it are released, new ones belong to it, and
    nothing else changed: in particular nothing else is left allocated. *)
Definition goes (h h' : heap) (s : ptr) (l l' : list node) : Prop :=
  heap_ok h' /\ stores h' s l' /\ (forall q, In q (all_blocks l') -> In q (all_blocks l) \/ (h_next h <= q)%nat) /\
  (forall q, ~ In q (s :: all_blocks l) -> ~ In q (all_blocks l') -> h_blk h' q = h_blk h q) /\
  (forall q, In q (all_blocks l) -> ~ In q (all_blocks l') -> h_blk h' q = None).
Definition later (h h' : heap) : Prop := h_ok h' = h_ok h /\ (h_next h <= h_next h')%nat.

(** [gathers f hd before r args items]: called for the parameter [r] of [f], with the parameters before it captured as
    [before], the handler puts [items] into the storage it is given, or reports an error when memory is short. If [oom] is false nothing is
    demanded of the handler when allocations fail. *)
Definition gathers (f : eptr) (hd : va_handler) (before : list shape) (r : ref) (args : list arg) (items : list shape) : Prop :=
  forall h s l p a, oom \/ no_oom h -> heap_ok h -> stores h s (l ++ [NStor p (PStatic r) a []]) -> map shape_of l = before ->
  exists z h' rest l', hd h f s (Z.of_nat (length l)) a args = Ret (z, h', rest) /\ goes h h' a [] l' /\ later h h' /\
    (z = 0 -> map shape_of l' = items) /\ (no_oom h -> z = 0).
(** ... it reports an error *)
Definition refuses (f : eptr) (hd : va_handler) (before : list shape) (r : ref) (args : list arg) : Prop :=
  forall h s l p a, oom \/ no_oom h -> heap_ok h -> stores h s (l ++ [NStor p (PStatic r) a []]) -> map shape_of l = before ->
  exists z h' rest l', hd h f s (Z.of_nat (length l)) a args = Ret (z, h', rest) /\ goes h h' a [] l' /\ later h h' /\ z <> 0.

(** [captured f before l args xs]: the parameters [l] of the call (after those captured as [before]) with arguments [args] are
    the sequence [xs] *)
Inductive captured (f : eptr) : list shape -> list ref -> list arg -> list shape -> Prop :=
| cp_end : forall before args, captured f before [] args []
| cp_value : forall before r t l a args b xs, ordinary r t -> passes t b a ->
    captured f (before ++ [SBuf (inl r) b]) l args xs -> captured f before (r :: l) (a :: args) (SBuf (inl r) b :: xs)
| cp_va_list : forall before r l hd loc args items xs, va_list_param r -> handler r hd -> gathers f hd before r loc items ->
    captured f (before ++ [SStor (inl r) items]) l args xs -> captured f before (r :: l) (ArgList loc :: args) (SStor (inl r) items :: xs)
| cp_dots : forall before r hd args items, dots r -> handler r hd -> gathers f hd before r args items ->
    captured f before [r] args [SStor (inl r) items].

(** Parameters that cannot be captured *)
Inductive unusable (f : eptr) (before : list shape) : ref -> list arg -> Prop :=
| un_kind : forall r args, (forall u t, e_info (d r) <> IParam u t) -> unusable f before r args
| un_untyped : forall r args, e_info (d r) = IParam false None -> unusable f before r args
| un_size : forall r t args, ordinary r t -> (forall z, ~ has_size d (Some (St t)) z) -> unusable f before r args
| un_base : forall r t q name z enc args, ordinary r t -> final_type d (Some (St t)) (Some (St q)) -> e_info (d q) = IBase z enc -> e_name (d q) = Some name ->
    (forall b a, arithmetic name b a -> Z.of_nat (length b) <> z) -> 0 <= z < 2 ^ 64 -> unusable f before r args
| un_enum : forall r t q z l args, ordinary r t -> final_type d (Some (St t)) (Some (St q)) -> e_info (d q) = IEnum z l ->
    z <> 1 -> z <> 2 -> z <> 4 -> z <> 8 -> 0 <= z < 2 ^ 64 -> unusable f before r args
| un_empty : forall r t q k l args, ordinary r t -> final_type d (Some (St t)) (Some (St q)) -> e_info (d q) = IAggr k 0 l -> unusable f before r args
| un_other : forall r t q args, ordinary r t -> final_type d (Some (St t)) (Some q) ->
    match e_info (deref d q) with IBase _ _ | IPointer _ | IEnum _ _ | IAggr _ _ _ => False | _ => True end -> unusable f before r args
| un_no_tags : forall r args, va_list_param r \/ dots r -> tags = None -> unusable f before r args
| un_va_list : forall r hd loc args, va_list_param r -> handler r hd -> refuses f hd before r loc -> unusable f before r (ArgList loc :: args)
| un_dots : forall r hd args, dots r -> handler r hd -> refuses f hd before r args -> unusable f before r args.
(** the first parameters can be captured, the next one not *)
Inductive stuck (f : eptr) : list shape -> list ref -> list arg -> Prop :=
| st_here : forall before r l args, unusable f before r args -> stuck f before (r :: l) args
| st_value : forall before r t l a args b, ordinary r t -> passes t b a ->
    stuck f (before ++ [SBuf (inl r) b]) l args -> stuck f before (r :: l) (a :: args)
| st_va_list : forall before r l hd loc args items, va_list_param r -> handler r hd -> gathers f hd before r loc items ->
    stuck f (before ++ [SStor (inl r) items]) l args -> stuck f before (r :: l) (ArgList loc :: args).
End Spec.

(** A value made by the caller: a block of its own. *)
Definition owns (h : heap) (v : val) : Prop := vl_block v <> null /\ h_blk h (vl_block v) <> None /\ vl_block v <> vl_addr v.
(** [h'] with the block [p] released *)
Definition without (h : heap) (p : ptr) : heap := Build_heap (h_next h) (h_ok h) (upd (h_blk h) p None).

(** Specification of typed access to memory, independent of the macros of the model: bits of memory, the bits
    DWARF assigns to a member, what it means that a value has a C type. *)
From Coq Require Import ZArith String List Bool.
From Verif Require Import Base EntryModel EntrySpec ValueModel.
Import ListNotations.
Open Scope Z_scope.

(** Bit [i] (counted from the least significant bit of the byte at [base]) of memory. *)
Definition mbit (m : mem) (base i : Z) : bool := Z.testbit (m (base + i / 8)) (i mod 8).

(** DWARF: the member occupies bits [dbo .. dbo+bs-1] of the struct. DWARF 4 gives the position from the start of
    the struct; DWARF 3 counts from the most significant end of the [byte_size] bytes at [byte_offset]. *)
Definition field4 (mi : minfo) (dbo bs : Z) : Prop :=
  m_bit_offset mi = None /\ m_data_bit_offset mi = Some dbo /\ m_bit_size mi = Some bs.
Definition field3 (mi : minfo) (dbo bs : Z) : Prop :=
  exists bo sz, m_bit_offset mi = Some bo /\ m_byte_size mi = Some sz /\ m_bit_size mi = Some bs /\
    0 < sz /\ dbo + bs + bo = 8 * (m_byte_offset mi + sz).
Definition field_at (mi : minfo) (dbo bs : Z) : Prop :=
  (field4 mi dbo bs \/ field3 mi dbo bs) /\ 0 <= dbo < 2 ^ 64.
(** The field lies inside [w] consecutive bytes, as every field of an unpacked struct with a declared type of
    [w] bytes does. *)
Definition within (dbo bs w : Z) : Prop := exists u, 8 * u <= dbo /\ dbo + bs <= 8 * (u + w).

(** [x] is the content of the field, extended to [w] bytes with zeros or with copies of the sign bit. *)
Definition is_field (m : mem) (base dbo bs : Z) (sgn : bool) (w x : Z) : Prop :=
  0 <= x < 2 ^ (8 * w) /\
  forall i, 0 <= i < 8 * w ->
    Z.testbit x i = if i <? bs then mbit m base (dbo + i) else sgn && mbit m base (dbo + bs - 1).
(** [m'] is [m] with the low [bs] bits of [x] put into the field; no other bit of memory differs. *)
Definition field_set (m m' : mem) (base dbo bs x : Z) : Prop :=
  forall a j, 0 <= j < 8 ->
    let i := 8 * (a - base) + j in
    Z.testbit (m' a) j = if (dbo <=? i) && (i <? dbo + bs) then Z.testbit x (i - dbo) else Z.testbit (m a) j.

(** The value has the base type [name] with that encoding and size (an entry that leaves encoding or size
    open matches any). *)
Definition typed (d : db) (v : value) (name : string) (enc w : Z) : Prop :=
  exists e z c, final_type d (Some (v_entry v)) (Some e) /\ e_name (deref d e) = Some name /\
    e_info (deref d e) = IBase z c /\ (c = 0 \/ c = enc) /\ (z = 0 \/ z = w).
(** Somewhere on the way to the final type there is a const. *)
Definition is_const (d : db) (v : value) : Prop := exists qs f, resolves d (Some (v_entry v)) qs (Some f) /\ In QConst qs.
(** The value is not a bit-field. *)
Definition plain (d : db) (v : value) : Prop :=
  forall mi, e_info (deref d (v_entry v)) = IMember mi ->
    m_bit_offset mi = None /\ m_bit_size mi = None /\ m_data_bit_offset mi = None.
(** Every base type has a name (assertion in _entry_check_base_type; DWARF guarantees it). *)
Definition named_types (d : db) (v : value) : Prop :=
  forall e z c, final_type d (Some (v_entry v)) (Some e) -> e_info (deref d e) = IBase z c -> e_name (deref d e) <> None.

(** The number at [a], [n] bytes, least significant first. *)
Fixpoint number_at (m : mem) (a : Z) (n : nat) : Z := match n with O => 0 | S k => m a + 256 * number_at m (a + 1) k end.
(** [m'] differs from [m] only in the [n] bytes at [a], which hold [x]. *)
Definition bytes_set (m m' : mem) (a : Z) (n : nat) (x : Z) : Prop :=
  number_at m' a n = x mod 2 ^ (8 * Z.of_nat n) /\ forall b, b < a \/ a + Z.of_nat n <= b -> m' b = m b.

Definition signed_enc (enc : Z) : bool := (enc =? 6) || (enc =? 7).
Definition integer_enc (enc : Z) : Prop := In enc [3; 6; 7; 8; 9].
(** Two's complement reading of [n] bits. *)
Definition as_signed (n x : Z) : Z := if x <? 2 ^ (n - 1) then x else x - 2 ^ n.
(** The C types of the API: name, admitted encodings, size, signedness. *)
Definition c_types : list (ctype * (string * list Z * Z * bool)) :=
  [(CChar, ("char"%string, [7; 9], 1, true)); (CUChar, ("unsigned char"%string, [9], 1, false));
   (CShort, ("short int"%string, [6], 2, true)); (CUShort, ("unsigned short int"%string, [8], 2, false));
   (CInt, ("int"%string, [6], 4, true)); (CUInt, ("unsigned int"%string, [8], 4, false));
   (CLong, ("long int"%string, [6], 8, true)); (CULong, ("unsigned long int"%string, [8], 8, false));
   (CLLong, ("long long int"%string, [6], 8, true)); (CULLong, ("unsigned long long int"%string, [8], 8, false));
   (CBool, ("_Bool"%string, [3], 1, false)); (CFloat, ("float"%string, [5], 4, false)); (CDouble, ("double"%string, [5], 8, false));
   (CLDouble, ("long double"%string, [5], 16, false)); (CFComplex, ("complex float"%string, [4], 8, false));
   (CDComplex, ("complex double"%string, [4], 16, false)); (CLDComplex, ("long complex double"%string, [4], 32, false))].
Definition has_ctype (d : db) (v : value) (c : ctype) : Prop :=
  exists name encs w sg enc, In (c, (name, encs, w, sg)) c_types /\ In enc encs /\ typed d v name enc w.

(** The C type has an integer representation; the number a [w]-byte word denotes. *)
Definition c_integer (c : ctype) : Prop := In c [CBool; CChar; CUChar; CShort; CUShort; CInt; CUInt; CLong; CULong; CLLong; CULLong].
Definition denotes (c : ctype) (x y : Z) : Prop :=
  exists name encs w sg, In (c, (name, encs, w, sg)) c_types /\ y = if sg then as_signed (8 * w) x else x.

(** Enumerations. *)
Definition enum_type (d : db) (v : value) (z : Z) (l : list (option string * Z)) : Prop :=
  exists e, final_type d (Some (v_entry v)) (Some e) /\ e_info (deref d e) = IEnum z l.
Definition first_name (l : list (option string * Z)) (x : Z) (n : option string) : Prop :=
  (exists pre post, l = pre ++ (n, x) :: post /\ forall y, In y pre -> snd y <> x) \/
  (n = None /\ forall y, In y l -> snd y <> x).
Definition pointer_type (d : db) (v : value) : Prop :=
  exists e t, final_type d (Some (v_entry v)) (Some e) /\ e_info (deref d e) = IPointer t.
Definition array_type (d : db) (v : value) (t : ref) (c : Z) : Prop :=
  exists e, final_type d (Some (v_entry v)) (Some e) /\ e_info (deref d e) = IArray (Some t) c.
Definition aggr_type (d : db) (v : value) (l : list ref) : Prop :=
  exists e k z, final_type d (Some (v_entry v)) (Some e) /\ e_info (deref d e) = IAggr k z l.

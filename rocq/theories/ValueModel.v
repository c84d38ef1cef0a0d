(** Executable model of src/value.c (bit-fields, typed access, enumerations, pointers, elements, members) and
    of the typed wrappers in src/value_base_type.c, on the byte memory of Base.v, little-endian x86-64 with
    gcc's integer semantics (left shifts of int wrap, other signed overflow is undefined).

    A value is an entry pointer and a non-NULL address ([Build_value]); metac_new_value refuses NULL
    addresses. Allocation of the value handle itself is an argument where it matters. *)
From Coq Require Import ZArith String List Bool.
From Verif Require Import Base EntryModel.
Import ListNotations.
Open Scope Z_scope.
Open Scope res_scope.

Record value := { v_entry : eptr; v_addr : Z }.

(** int arithmetic used by the bit-field macros: 1 << n, a - b (int), and conversion of an int operand to
    the other operand's type ([w] = 1, 2: both are int; 4: unsigned int; 8: unsigned long). *)
Definition shl_int (a n : Z) : res Z := if (n <? 0) || (32 <=? n) then Ub else Ret (swrap 32 (a * 2 ^ n)).
Definition sub_int (a b : Z) : res Z :=
  let v := a - b in if (v <? - 2147483648) || (2147483647 <? v) then Ub else Ret v.
Definition conv (w : Z) (v : Z) : Z := if w =? 4 then uwrap 32 v else if w =? 8 then uwrap 64 v else v.
(** width in bits of the promoted type of an unsigned operand of [w] bytes *)
Definition promoted (w : Z) : Z := if w =? 8 then 64 else 32.
Definition is_word (w : Z) : bool := (w =? 1) || (w =? 2) || (w =? 4) || (w =? 8).

(** src/value.c:143-165 macro _read_ on the local copy [buf] *)
Definition bf_extract (buf : mem) (bo bs w : Z) (sgn : bool) : res Z :=
  let data := load buf 0 (Z.to_nat w) in
  if promoted w <=? bo then Ub else
  do one <- shl_int 1 bs;
  do mask <- sub_int one 1;
  let data := uwrap (8 * w) (Z.land (Z.shiftr data bo) (conv w mask)) in
  if sgn then
    do top <- shl_int 1 (bs - 1);
    if Z.land data (conv w top) =? 0 then Ret data
    else do neg <- shl_int (-1) bs; Ret (uwrap (8 * w) (Z.lxor (conv w neg) data))
  else Ret data.
(** number of bytes copied, src/value.c:137, 192, 222 *)
Definition bf_bytes (bo bs : Z) : Z := (bo + bs - 1) / 8 + 1.
(** src/value.c:118-170 _entry_bitfield_read for a member; [g] is the uninitialised content of buf[16]. *)
Definition bitfield_read (g m : mem) (mi : minfo) (base w : Z) (sgn : bool) : res (Z + Z) :=
  do o <- bitfield_offsets mi;
  match o with
  | inl _ => Ret (inl (- EINVAL))
  | inr (byo, bo, bs) =>
      if bs =? 0 then Abort else
      if 16 <? bf_bytes bo bs then Ub else
      let buf := copy_bytes m (base + byo) g 0 (bf_bytes bo bs) in
      if is_word w then do v <- bf_extract buf bo bs w sgn; Ret (inr v) else Ret (inl (- EINVAL))
  end.

(** src/value.c:200-217 macro _write_ on the local copy *)
Definition bf_insert (buf : mem) (bo bs w : Z) (v : Z) : res mem :=
  do one <- shl_int 1 bs;
  do mask <- sub_int one 1;
  if promoted w <=? bo then Ub else
  let data := uwrap (8 * w) (Z.shiftl (Z.land v (conv w mask)) bo) in
  do smask <- shl_int mask bo;
  let old := load buf 0 (Z.to_nat w) in
  Ret (store buf 0 (Z.to_nat w) (uwrap (8 * w) (Z.lor (Z.land old (conv w (Z.lnot smask))) data))).
(** src/value.c:172-226 _entry_bitfield_write *)
Definition bitfield_write (g m : mem) (mi : minfo) (base w : Z) (v : Z) : res (Z * mem) :=
  do o <- bitfield_offsets mi;
  match o with
  | inl _ => Ret (- EINVAL, m)
  | inr (byo, bo, bs) =>
      if bs =? 0 then Abort else
      if 16 <? bf_bytes bo bs then Ub else
      let buf := copy_bytes m (base + byo) g 0 (bf_bytes bo bs) in
      if is_word w then
        do buf' <- bf_insert buf bo bs w v;
        Ret (0, copy_bytes buf' 0 m (base + byo) (bf_bytes bo bs))
      else Ret (- EINVAL, m)
  end.
(** src/value.c:103-112 _entry_bitfield_supported: boolean 3, unsigned char 9, unsigned 8, signed char 7, signed 6 *)
Definition bitfield_supported (enc : Z) : bool := (enc =? 3) || (enc =? 9) || (enc =? 8) || (enc =? 7) || (enc =? 6).

(** the test of src/value.c:316-321 and 363-368: a member without bit location *)
Definition plain_member (mi : minfo) : bool :=
  match m_bit_offset mi, m_bit_size mi, m_data_bit_offset mi with None, None, None => true | _, _, _ => false end.

(** src/value.c:292-331 metac_value_base_type: [inl] error, [inr] the [w] bytes read as a number *)
Definition value_base_type (fuel : nat) (d : db) (g m : mem) (v : value) (name : string) (enc w : Z) : res (Z + Z) :=
  do f <- final_entry fuel d (Some (v_entry v)) no_quals;
  match fst f with
  | None => Ret (inl (- EINVAL))
  | Some e =>
    do err <- check_base_type fuel d (Some e) name enc w;
    if negb (err =? 0) then Ret (inl err) else
    match e_info (deref d (v_entry v)) with
    | IMember mi =>
        if plain_member mi then Ret (inr (load m (v_addr v) (Z.to_nat w)))
        else if bitfield_supported enc
             then bitfield_read g m mi (v_addr v - m_byte_offset mi) w ((enc =? 7) || (enc =? 6))
             else Ret (inl (- ENOTSUP))
    | _ => Ret (inr (load m (v_addr v) (Z.to_nat w)))
    end
  end.
(** src/value.c:333-378 metac_value_set_base_type: status and new memory *)
Definition value_set_base_type (fuel : nat) (d : db) (g m : mem) (v : value) (name : string) (enc w : Z) (x : Z) : res (Z * mem) :=
  do f <- final_entry fuel d (Some (v_entry v)) no_quals;
  match fst f with
  | None => Ret (- EINVAL, m)
  | Some e =>
    if q_const (snd f) then Ret (- EPERM, m) else
    do err <- check_base_type fuel d (Some e) name enc w;
    if negb (err =? 0) then Ret (err, m) else
    match e_info (deref d (v_entry v)) with
    | IMember mi =>
        if plain_member mi then Ret (0, store m (v_addr v) (Z.to_nat w) x)
        else if bitfield_supported enc then bitfield_write g m mi (v_addr v - m_byte_offset mi) w x
             else Ret (- ENOTSUP, m)
    | _ => Ret (0, store m (v_addr v) (Z.to_nat w) x)
    end
  end.

(** src/value_base_type.c: the supported C types *)
Inductive ctype := CChar | CUChar | CShort | CUShort | CInt | CUInt | CLong | CULong | CLLong | CULLong | CBool
                 | CFloat | CDouble | CLDouble | CFComplex | CDComplex | CLDComplex.
(** src/value_base_type.c:13-64 name, encoding, sizeof (char: signed encoding first, then unsigned) *)
Definition ct_name (c : ctype) : string :=
  match c with
  | CChar => "char" | CUChar => "unsigned char" | CShort => "short int" | CUShort => "unsigned short int"
  | CInt => "int" | CUInt => "unsigned int" | CLong => "long int" | CULong => "unsigned long int"
  | CLLong => "long long int" | CULLong => "unsigned long long int" | CBool => "_Bool"
  | CFloat => "float" | CDouble => "double" | CLDouble => "long double"
  | CFComplex => "complex float" | CDComplex => "complex double" | CLDComplex => "long complex double"
  end.
Definition ct_enc (c : ctype) : Z :=
  match c with
  | CChar => 7 | CUChar => 9 | CShort | CInt | CLong | CLLong => 6 | CUShort | CUInt | CULong | CULLong => 8
  | CBool => 3 | CFloat | CDouble | CLDouble => 5 | CFComplex | CDComplex | CLDComplex => 4
  end.
Definition ct_size (c : ctype) : Z :=
  match c with
  | CChar | CUChar | CBool => 1 | CShort | CUShort => 2 | CInt | CUInt | CFloat => 4
  | CLong | CULong | CLLong | CULLong | CDouble | CFComplex => 8 | CLDouble | CDComplex => 16 | CLDComplex => 32
  end.
(** src/value_base_type.c:13-64 metac_entry_is_<type> (also the metac_value_is_<type> wrappers 66-116) *)
Definition entry_is fuel d (p : option eptr) (c : ctype) : res bool :=
  do a <- check_base_type fuel d p (ct_name c) (ct_enc c) (ct_size c);
  match c with
  | CChar => if a =? 0 then Ret true else do b <- check_base_type fuel d p (ct_name c) 9 (ct_size c); Ret (b =? 0)
  | _ => Ret (a =? 0)
  end.
Definition value_is fuel d (v : value) (c : ctype) : res bool := entry_is fuel d (Some (v_entry v)) c.
(** src/value_base_type.c:118-169 metac_value_<type> *)
Definition value_get fuel d g m (v : value) (c : ctype) : res (Z + Z) :=
  do a <- value_base_type fuel d g m v (ct_name c) (ct_enc c) (ct_size c);
  match c, a with
  | CChar, inl _ => do b <- value_base_type fuel d g m v (ct_name c) 9 (ct_size c);
                    Ret (match b with inl _ => inl (- EFAULT) | inr x => inr x end)
  | _, _ => Ret a
  end.
(** src/value_base_type.c:171-222 metac_value_set_<type> *)
Definition value_set fuel d g m (v : value) (c : ctype) (x : Z) : res (Z * mem) :=
  do a <- value_set_base_type fuel d g m v (ct_name c) (ct_enc c) (ct_size c) x;
  match c with
  | CChar => if fst a =? 0 then Ret a
             else do b <- value_set_base_type fuel d g (snd a) v (ct_name c) 9 (ct_size c) x;
                  Ret (if fst b =? 0 then b else (- EFAULT, snd b))
  | _ => Ret a
  end.

(** src/value.c:451-463 value is an enumeration; 475-508 metac_value_enumeration (size 1, 2, 4, 8 read as
    signed numbers); [inl] error *)
Definition enum_size fuel d (e : eptr) : res (Z + Z) := byte_size fuel d (Some e).
Definition value_enumeration fuel d (m : mem) (v : value) : res (Z + Z) :=
  do f <- final_if fuel d (Some (v_entry v)) is_enum_info;
  match f with
  | None => Ret (inl (- EINVAL))
  | Some e =>
    do s <- enum_size fuel d e;
    match s with
    | inr _ => Ret (inl (- EFAULT))
    | inl z => if is_word z then Ret (inr (swrap (8 * z) (load m (v_addr v) (Z.to_nat z)))) else Ret (inl (- ENOTSUP))
    end
  end.
(** src/value.c:515-546 metac_value_set_enumeration *)
Definition value_set_enumeration fuel d (m : mem) (v : value) (x : Z) : res (Z * mem) :=
  do f <- final_if fuel d (Some (v_entry v)) is_enum_info;
  match f with
  | None => Ret (- EINVAL, m)
  | Some e =>
    do s <- enum_size fuel d e;
    match s with
    | inr _ => Ret (- EFAULT, m)
    | inl z => if is_word z then Ret (0, store m (v_addr v) (Z.to_nat z) x) else Ret (- ENOTSUP, m)
    end
  end.
(** src/value.c:510-513 metac_value_enumeration_to_name *)
Definition value_enumeration_to_name fuel d (v : value) (x : Z) : res (option string) :=
  do f <- final_if fuel d (Some (v_entry v)) is_enum_info;
  match f with None => Ret None | Some e => enumeration_to_name fuel d (Some e) x end.

(** src/value.c:614-631 metac_value_pointer, metac_value_set_pointer *)
Definition value_pointer fuel d (m : mem) (v : value) : res (Z + Z) :=
  do f <- final_if fuel d (Some (v_entry v)) is_pointer_info;
  Ret (match f with None => inl (- EINVAL) | Some _ => inr (load m (v_addr v) 8) end).
Definition value_set_pointer fuel d (m : mem) (v : value) (x : Z) : res (Z * mem) :=
  do f <- final_if fuel d (Some (v_entry v)) is_pointer_info;
  Ret (match f with None => (- EINVAL, m) | Some _ => (0, store m (v_addr v) 8 x) end).

(** the number a word of [c] denotes *)
Definition ct_signed (c : ctype) : bool := match c with CChar | CShort | CInt | CLong | CLLong => true | _ => false end.
Definition ct_number (c : ctype) (x : Z) : Z := if ct_signed c then swrap (8 * ct_size c) x else x.
(** src/value_base_type.c:228-237 macro _read_ of metac_value_num, tried for the types in this order. A _Bool
    object holding neither 0 nor 1 is undefined behaviour. *)
Definition num_types := [CBool; CChar; CUChar; CShort; CUShort; CInt; CUInt; CLong; CULong; CLLong; CULLong].
Fixpoint num_loop fuel d g m (v : value) (l : list ctype) : res (option Z) :=
  match l with
  | [] => Ret None
  | c :: r =>
    do is <- value_is fuel d v c;
    if is then
      do x <- value_get fuel d g m v c;
      match x with
      | inr n => match c with
                 | CBool => if (n =? 0) || (n =? 1) then Ret (Some (swrap 32 n)) else Ub
                 | _ => Ret (Some (swrap 32 (ct_number c n)))
                 end
      | inl _ => num_loop fuel d g m v r
      end
    else num_loop fuel d g m v r
  end.
(** src/value_base_type.c:224-259 metac_value_num *)
Definition value_num fuel d g m (v : value) : res (Z + Z) :=
  do a <- num_loop fuel d g m v num_types;
  match a with
  | Some n => Ret (inr n)
  | None =>
    do x <- value_enumeration fuel d m v;
    Ret (match x with inr n => inr (swrap 32 n) | inl _ => inl (- ENOTSUP) end)
  end.

(** the order in which equal and copy try the types, src/value_base_type.c:280-296, 326-342 *)
Definition all_types := [CChar; CUChar; CShort; CUShort; CInt; CUInt; CLong; CULong; CLLong; CULLong; CBool;
                         CFloat; CDouble; CLDouble; CFComplex; CDComplex; CLDComplex].
(** The C operator == on two objects of type [c] given their bytes. For integers it compares the numbers; for
    floating types the comparison [feq] is left open (NaN, signed zeros, padding of long double). *)
Section Equal.
Variable feq : ctype -> Z -> Z -> bool.
Definition is_integer (c : ctype) : bool :=
  match c with CFloat | CDouble | CLDouble | CFComplex | CDComplex | CLDComplex => false | _ => true end.
Definition c_equal (c : ctype) (x y : Z) : bool :=
  if is_integer c then ct_number c x =? ct_number c y else feq c x y.
(** src/value_base_type.c:261-302 metac_value_equal_base_type (negative: error) *)
Fixpoint equal_loop fuel d g m (v1 v2 : value) (l : list ctype) : res Z :=
  match l with
  | [] => Ret (- ENOTSUP)
  | c :: r =>
    do is1 <- value_is fuel d v1 c;
    if is1 then
      do is2 <- value_is fuel d v2 c;
      if is2 then
        do x <- value_get fuel d g m v1 c;
        match x with
        | inl _ => Ret (- EFAULT)
        | inr x => do y <- value_get fuel d g m v2 c;
                   match y with
                   | inl _ => Ret (- EFAULT)
                   | inr y => Ret (if c_equal c x y then 1 else 0)
                   end
        end
      else Ret (- EFAULT)
    else equal_loop fuel d g m v1 v2 r
  end.
Definition value_equal_base_type fuel d g m v1 v2 := equal_loop fuel d g m v1 v2 all_types.
End Equal.
(** src/value_base_type.c:304-346 metac_value_copy_base_type ([true]: p_dst_val is returned, [false]: NULL) *)
Fixpoint copy_loop fuel d g m (src dst : value) (l : list ctype) : res (bool * mem) :=
  match l with
  | [] => Ret (false, m)
  | c :: r =>
    do is1 <- value_is fuel d src c;
    if is1 then
      do is2 <- value_is fuel d dst c;
      if is2 then
        do x <- value_get fuel d g m src c;
        match x with
        | inl _ => Ret (false, m)
        | inr x => do s <- value_set fuel d g m dst c x; Ret (fst s =? 0, snd s)
        end
      else Ret (false, m)
    else copy_loop fuel d g m src dst r
  end.
Definition value_copy_base_type fuel d g m src dst := copy_loop fuel d g m src dst all_types.

(** src/value.c:548-568 equal and copy of enumerations, 633-654 of pointers *)
Definition value_equal_enumeration fuel d m v1 v2 : res Z :=
  do x <- value_enumeration fuel d m v1;
  do y <- match x with inl _ => Ret (inl 0) | inr _ => value_enumeration fuel d m v2 end;
  Ret (match x, y with inr a, inr b => if a =? b then 1 else 0 | _, _ => - EFAULT end).
Definition value_copy_enumeration fuel d m src dst : res (bool * mem) :=
  do x <- value_enumeration fuel d m src;
  match x with
  | inl _ => Ret (false, m)
  | inr a => do s <- value_set_enumeration fuel d m dst a; Ret (fst s =? 0, snd s)
  end.
Definition value_equal_pointer fuel d m v1 v2 : res Z :=
  do x <- value_pointer fuel d m v1;
  do y <- match x with inl _ => Ret (inl 0) | inr _ => value_pointer fuel d m v2 end;
  Ret (match x, y with inr a, inr b => if a =? b then 1 else 0 | _, _ => - EFAULT end).
Definition value_copy_pointer fuel d m src dst : res (bool * mem) :=
  do x <- value_pointer fuel d m src;
  match x with
  | inl _ => Ret (false, m)
  | inr a => do s <- value_set_pointer fuel d m dst a; Ret (fst s =? 0, snd s)
  end.

(** src/value.c:719-734 metac_new_value ([a]: both allocations succeed). Addresses are 64 bit. *)
Definition new_value (p : eptr) (addr : Z) (a : bool) : option value :=
  if addr =? 0 then None else if a then Some (Build_value p addr) else None.
(** src/value.c:400-413 metac_new_value_by_element_id; [id] is an int *)
Definition new_value_by_element_id fuel d (v : value) (id : Z) (a : bool) : res (option value) :=
  do f <- final_if fuel d (Some (v_entry v)) is_array_info;
  match f with
  | None => Ret None
  | Some e =>
    do count <- element_count fuel d (Some e);
    if count <? 0 then Ret None
    else if (id <? 0) || (count <=? id) then Ret None
    else
      do el <- element_entry fuel d (Some e);
      match el with
      | None => Ret None
      | Some p =>
        do z <- byte_size fuel d (Some p);
        match z with
        | inr _ => Ret None
        | inl sz => Ret (new_value p (uwrap 64 (v_addr v + uwrap 64 (sz * uwrap 64 id))) a)
        end
      end
  end.
(** src/value.c:436-449 metac_new_value_by_member_id *)
Definition new_value_by_member_id fuel d (v : value) (id : Z) (a : bool) : res (option value) :=
  do f <- final_if fuel d (Some (v_entry v)) is_aggr_info;
  match f with
  | None => Ret None
  | Some e =>
    do count <- member_count fuel d (Some e);
    if (id <? 0) || (count <=? id) then Ret None
    else
      do p <- by_member_id fuel d (Some e) id;
      match p with
      | None => Ret None
      | Some p =>
        match e_info (deref d p) with
        | IMember mi => Ret (new_value p (uwrap 64 (v_addr v + m_byte_offset mi)) a)
        | _ => Ret None
        end
      end
  end.
(** src/value.c:741-772 metac_new_element_count_value: pointer or (flexible) array to an array of known length *)
Definition new_element_count_value fuel d (m : mem) (v : value) (count : Z) (a : bool) : res (option value) :=
  do f <- final_if fuel d (Some (v_entry v)) (fun i => is_array_info i || is_pointer_info i);
  match f with
  | None => Ret None
  | Some e =>
    let addr := if is_pointer_info (e_info (deref d e)) then load m (v_addr v) 8 else v_addr v in
    if is_pointer_info (e_info (deref d e)) && (addr =? 0) then Ret None
    else
      do ne <- new_element_count_entry fuel d (Some (v_entry v)) count a;
      match ne with
      | None => Ret None
      | Some p => Ret (new_value p addr a)
      end
  end.

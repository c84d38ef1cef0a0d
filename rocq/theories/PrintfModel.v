(** Executable model of src/printf_format.c.

    A format string is the list of its characters before the terminating NUL, characters are
    numbers. [rd] is [format[pos]]: position [length s] holds the NUL, anything behind is the
    outcome [OOB] (read behind the terminator). Signed overflow of an int computation is the outcome
    [Overflow]. *)
From Coq Require Import ZArith List Bool.
Import ListNotations.
Open Scope Z_scope.

Inductive res (A : Type) := Ret (a : A) | OOB | Overflow | NoFuel | BadArg | HeapOverflow.
Arguments Ret {A} _. Arguments OOB {A}. Arguments Overflow {A}. Arguments NoFuel {A}.
Arguments BadArg {A}. Arguments HeapOverflow {A}.
Definition rbind {A B} (x : res A) (f : A -> res B) : res B :=
  match x with Ret a => f a | OOB => OOB | Overflow => Overflow | NoFuel => NoFuel
             | BadArg => BadArg | HeapOverflow => HeapOverflow end.
Notation "'let!' x := m 'in' k" := (rbind m (fun x => k)) (at level 200, x pattern, m at level 100, k at level 200).

Definition INT_MAX : Z := 2147483647.

Definition rd (s : list Z) (pos : nat) : res Z :=
  match nth_error s pos with
  | Some c => Ret c
  | None => if Nat.eqb pos (length s) then Ret 0 else OOB
  end.

(** ctype.h in the C locale; glibc's tables are also defined (false) for negative chars. *)
Definition isdigit (c : Z) : bool := (48 <=? c) && (c <=? 57).
Definition isalpha (c : Z) : bool := ((65 <=? c) && (c <=? 90)) || ((97 <=? c) && (c <=? 122)).

(** include/metac/backend/printf_format.h:9-20 *)
Record flags := Flags { plus : bool; minus : bool; pound : bool; oct : bool; space : bool }.
(** include/metac/backend/printf_format.h:23-30 *)
Inductive arg_len := psal_no | psal_h | psal_hh | psal_l | psal_ll | psal_L.
(** include/metac/backend/printf_format.h:33-39 *)
Record specifier := Spec { sflags : flags; format_len : Z; precision : Z; alen : arg_len; t : Z }.

(** src/printf_format.c:29-45 the loop over the flags (strlen(format) is [length s]). *)
Fixpoint flags_loop (fuel : nat) (s : list Z) (pos : nat) (f : flags) : res (nat * flags) :=
  match fuel with
  | O => NoFuel
  | S g =>
    if Nat.ltb pos (length s) then
      let! c := rd s pos in
      if c =? 43 (* + *) then flags_loop g s (S pos) (Flags true (minus f) (pound f) (oct f) (space f))
      else if c =? 45 (* - *) then flags_loop g s (S pos) (Flags (plus f) true (pound f) (oct f) (space f))
      else if c =? 35 (* # *) then flags_loop g s (S pos) (Flags (plus f) (minus f) true (oct f) (space f))
      else if c =? 48 (* 0 *) then flags_loop g s (S pos) (Flags (plus f) (minus f) (pound f) true (space f))
      else if c =? 32 (* space *) then flags_loop g s (S pos) (Flags (plus f) (minus f) (pound f) true (space f))
      else Ret (pos, f)
    else Ret (pos, f)
  end.

(** src/printf_format.c:48-57 and 64-72 the loop over digits; int arithmetic. *)
Fixpoint digits_loop (fuel : nat) (s : list Z) (pos : nat) (base acc : Z) : res (nat * Z) :=
  match fuel with
  | O => NoFuel
  | S g =>
    if Nat.ltb pos (length s) then
      let! c := rd s pos in
      if isdigit c then
        let v := acc * base + (c - 48) in
        if INT_MAX <? v then Overflow else digits_loop g s (S pos) base v
      else Ret (pos, acc)
    else Ret (pos, acc)
  end.

(** src/printf_format.c:60-73 *)
Definition parse_precision (s : list Z) (pos : nat) (base : Z) : res (nat * Z) :=
  if Nat.ltb pos (length s) then
    let! c := rd s pos in
    if c =? 46 (* . *) then digits_loop (S (length s)) s (S pos) base 0 else Ret (pos, -1)
  else Ret (pos, -1).

(** src/printf_format.c:76-94 *)
Definition parse_len (s : list Z) (pos : nat) : res (nat * arg_len) :=
  if Nat.ltb pos (length s) then
    let! c := rd s pos in
    if (c =? 104) || (c =? 108) || (c =? 76) then
      let a := if c =? 104 then psal_h else if c =? 108 then psal_l else psal_L in
      let pos := S pos in
      if Nat.ltb pos (length s) then
        let! c2 := rd s pos in
        match a with
        | psal_l => if c2 =? 108 then Ret (S pos, psal_ll) else Ret (pos, a)
        | psal_h => if c2 =? 104 then Ret (S pos, psal_hh) else Ret (pos, a)
        | _ => Ret (pos, a)
        end
      else Ret (pos, a)
    else Ret (pos, psal_no)
  else Ret (pos, psal_no).

(** src/printf_format.c:19-106 metac_parse_format_specifier; [None] is the return value 0. *)
Definition parse (s : list Z) (pos : nat) : res (nat * option specifier) :=
  let! c := rd s pos in
  if negb (c =? 37) then Ret (pos, None) else
  let! (pos, f) := flags_loop (S (length s)) s (S pos) (Flags false false false false false) in
  let base := if oct f then 8 else 10 in
  let! (pos, w) := digits_loop (S (length s)) s pos base 0 in
  let! (pos, p) := parse_precision s pos base in
  let! (pos, a) := parse_len s pos in
  let! c := rd s pos in
  if isalpha c then Ret (S pos, Some (Spec f w p a c)) else Ret (pos, None).

(** src/printf_format.c:109-124 metac_count_format_specifiers *)
Fixpoint count_loop (fuel : nat) (s : list Z) (pos : nat) (n : Z) : res Z :=
  match fuel with
  | O => NoFuel
  | S g =>
    if Nat.ltb pos (length s) then
      let! c := rd s pos in
      if c =? 37 then
        let! (pos', r) := parse s pos in
        count_loop g s (S pos') (match r with Some _ => n + 1 | None => n end)
      else count_loop g s (S pos) n
    else Ret n
  end.
Definition count (s : list Z) : res Z := count_loop (S (length s)) s 0 0.

(** * Storing the arguments *)

(** Types of the stored parameters (the [_type_] of the macros, char[len+1] for strings). *)
Inductive ctype :=
| TChar | TShort | TInt | TLong | TLLong | TUChar | TUShort | TUInt | TULong | TULLong
| TDouble | TLDouble | TVoidP | TCharP | TShortP | TIntP | TLongP | TLLongP | TCharArr (n : Z).
Definition sizeof (ty : ctype) : Z :=
  match ty with
  | TChar | TUChar => 1 | TShort | TUShort => 2 | TInt | TUInt => 4
  | TLDouble => 16 | TCharArr n => n | _ => 8
  end.

(** Variadic arguments by class: 32-bit integers, 64-bit integers, double, long double (opaque
    numbers), pointers, strings ([None] = NULL). va_arg with another class is undefined: [BadArg]. *)
Inductive arg := A32 (z : Z) | A64 (z : Z) | ADbl (x : Z) | ALDbl (x : Z) | APtr (p : Z) | AStr (b : option (list Z)).
Inductive va := Va32 | Va64 | VaDbl | VaLDbl | VaPtr | VaStr.

(** What is stored: a number of the given type, a pointer, a byte string with terminator. *)
Inductive content := CZero | CNum (z : Z) | CPtr (p : Z) | CBytes (b : list Z).
Definition content_size (ty : ctype) (c : content) : Z :=
  match c with CBytes b => Z.of_nat (length b) | CPtr _ => 8 | CNum _ => sizeof ty | CZero => 0 end.

(** A stored parameter: entry, allocated buffer size, content. *)
Record param := Param { ptype : ctype; psize : Z; pcontent : content }.

(** Conversion (cast) to an integer type of [bits] bits. *)
Definition swrap (bits z : Z) : Z := let m := 2 ^ bits in let r := z mod m in if r <? m / 2 then r else r - m.
Definition uwrap (bits z : Z) : Z := z mod 2 ^ bits.
Definition cast (ty : ctype) (z : Z) : Z :=
  match ty with
  | TChar => swrap 8 z | TShort => swrap 16 z | TInt => swrap 32 z | TLong | TLLong => swrap 64 z
  | TUChar => uwrap 8 z | TUShort => uwrap 16 z | TUInt => uwrap 32 z | TULong | TULLong => uwrap 64 z
  | _ => z
  end.

(** va_arg of the next argument: converted content. *)
Definition va_arg (v : va) (ty : ctype) (args : list arg) : res (content * list arg) :=
  match args with
  | [] => BadArg
  | a :: r => match v, a with
              | Va32, A32 z => Ret (CNum (cast ty z), r)
              | Va64, A64 z => Ret (CNum (cast ty z), r)
              | VaDbl, ADbl x => Ret (CNum x, r)
              | VaLDbl, ALDbl x => Ret (CNum x, r)
              | VaPtr, APtr p => Ret (CPtr p, r)
              | _, _ => BadArg
              end
  end.

(** The chain of cases, src/printf_format.c:239-330 (without 's'): type and va_arg type, [None] = -EFAULT. *)
Definition dispatch (tc : Z) (a : arg_len) : option (ctype * va) :=
  if tc =? 112 (* p *) then Some (TVoidP, VaPtr)
  else if tc =? 110 (* n *) then
    match a with psal_hh => Some (TCharP, VaPtr) | psal_h => Some (TShortP, VaPtr) | psal_no => Some (TIntP, VaPtr)
               | psal_l => Some (TLongP, VaPtr) | psal_ll => Some (TLLongP, VaPtr) | psal_L => None end
  else if (tc =? 99) || (tc =? 105) || (tc =? 100) (* c i d *) then
    if (tc =? 99) then Some (TChar, Va32)
    else match a with psal_hh => Some (TChar, Va32) | psal_h => Some (TShort, Va32) | psal_no => Some (TInt, Va32)
                    | psal_l => Some (TLong, Va64) | psal_ll => Some (TLLong, Va64) | psal_L => None end
  else if (tc =? 111) || (tc =? 117) || (tc =? 120) || (tc =? 88) (* o u x X *) then
    match a with psal_hh => Some (TUChar, Va32) | psal_h => Some (TUShort, Va32) | psal_no => Some (TUInt, Va32)
               | psal_l => Some (TULong, Va64) | psal_ll => Some (TULLong, Va64) | psal_L => None end
  else if (tc =? 102) || (tc =? 103) || (tc =? 101) (* f g e *) then
    match a with psal_no => Some (TDouble, VaDbl) | psal_L => Some (TLDouble, VaLDbl) | _ => None end
  else None.

(** metac_parameter_storage_append_by_buffer (src/value_with_args.c:122-143): a zeroed buffer; allocations succeed. *)
Definition append (st : list param) (ty : ctype) (size : Z) : list param := st ++ [Param ty size CZero].

(** metac_parameter_storage_new_param_value(param_id) and the copy into its buffer; [None]: no such parameter.
    Copying more bytes than the buffer has is [HeapOverflow]. *)
Fixpoint upd (st : list param) (i : nat) (p : param) : list param :=
  match st, i with
  | [], _ => []
  | _ :: r, O => p :: r
  | x :: r, S j => x :: upd r j p
  end.
Definition write (st : list param) (i : nat) (ty : ctype) (c : content) : res (list param) :=
  match nth_error st i with
  | None => OOB
  | Some p => if psize p <? content_size ty c then HeapOverflow else Ret (upd st i (Param (ptype p) (psize p) c))
  end.

(** One conversion, src/printf_format.c:184-335. [inl rc] = return rc at once. *)
Definition store_one (st : list param) (args : list arg) (id : nat) (sp : specifier) :
    res ((Z * list param) + (list param * list arg)) :=
  if t sp =? 115 (* s *) then
    match args with
    | AStr None :: r =>
      let st1 := append st TCharP 8 in
      match nth_error st1 id with
      | None => Ret (inl (-14, st1))
      | Some _ => let! st2 := write st1 id TCharP (CPtr 0) in Ret (inr (st2, r))
      end
    | AStr (Some b) :: r =>
      let st1 := append st (TCharArr (Z.of_nat (length b) + 1)) 8 in
      match nth_error st1 id with
      | None => Ret (inl (-14, st1))
      | Some _ => let! st2 := write st1 id TCharP (CBytes (b ++ [0])) in Ret (inr (st2, r))
      end
    | _ => BadArg
    end
  else
    match dispatch (t sp) (alen sp) with
    | None => Ret (inl (-14, st))
    | Some (ty, v) =>
      let st1 := append st ty (sizeof ty) in
      match nth_error st1 id with
      | None => Ret (inl (-14, st1))
      | Some _ =>
        let! (c, r) := va_arg v ty args in
        let! st2 := write st1 id ty c in
        Ret (inr (st2, r))
      end
    end.

(** src/printf_format.c:169-343 _new_value_from_format_specifier; result: return code and storage. *)
Fixpoint store_loop (fuel : nat) (s : list Z) (pos id : nat) (st : list param) (args : list arg) : res (Z * list param) :=
  match fuel with
  | O => NoFuel
  | S g =>
    if Nat.ltb pos (length s) then
      let! c := rd s pos in
      if c =? 37 then
        let! (pos', r) := parse s pos in
        match r with
        | None => store_loop g s (S pos') (S id) st args
        | Some sp =>
          let! x := store_one st args id sp in
          match x with
          | inl y => Ret y
          | inr (st', args') => store_loop g s (S pos') (S id) st' args'
          end
        end
      else store_loop g s (S pos) id st args
    else Ret (0, st)
  end.
Definition store (s : list Z) (st : list param) (args : list arg) : res (Z * list param) :=
  store_loop (S (length s)) s 0 0 st args.

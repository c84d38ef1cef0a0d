(** Executable model of _dprintable_string (src/value_string.c:14-111).

    The array content is a list of [len] characters (signed char values -128..127). The first checks
    (22-37: the value is an array of char elements) are the argument [is_char_array]; [a] is the outcome of
    calloc. Writing outside the allocated result is the outcome [HeapOverflow], a failed assertion is
    [Abort], int overflow of the length computation is [IntOverflow]. *)
From Coq Require Import ZArith List Bool.
Import ListNotations.
Open Scope Z_scope.

Inductive res (A : Type) := Ret (a : A) | HeapOverflow | Abort | IntOverflow.
Arguments Ret {A} _. Arguments HeapOverflow {A}. Arguments Abort {A}. Arguments IntOverflow {A}.

(** src/value_string.c:46-61 special_chars: in, out. *)
Definition special_chars : list (Z * Z) :=
  [(10, 110); (13, 114); (9, 116); (11, 118); (8, 98); (12, 102); (7, 97); (92, 92); (39, 39); (34, 34); (63, 63)].
Fixpoint special (l : list (Z * Z)) (c : Z) : option Z :=
  match l with
  | [] => None
  | (i, o) :: r => if c =? i then Some o else special r c
  end.
(** ctype.h isprint in the C locale (glibc: false for negative values). *)
Definition isprint (c : Z) : bool := (32 <=? c) && (c <=? 126).

(** src/value_string.c:63-81 the needed length; [None] = NULL is returned. *)
Fixpoint needed (s : list Z) (alloc : Z) : res (option Z) :=
  if 2147483647 <? alloc then IntOverflow else
  match s with
  | [] => Ret (Some alloc)
  | c :: r => match special special_chars c with
              | Some _ => needed r (alloc + 2)
              | None => if isprint c then needed r (alloc + 1) else Ret None
              end
  end.

(** res[j] = c; [cap] is the allocated length, [out] the characters written so far, [j = length out]. *)
Definition put (cap : Z) (out : list Z) (c : Z) : res (list Z) :=
  if Z.of_nat (length out) <? cap then Ret (out ++ [c]) else HeapOverflow.
Definition bind {A B} (x : res A) (f : A -> res B) : res B :=
  match x with Ret a => f a | HeapOverflow => HeapOverflow | Abort => Abort | IntOverflow => IntOverflow end.

(** src/value_string.c:87-103 *)
Fixpoint fill (cap : Z) (s : list Z) (out : list Z) : res (list Z) :=
  match s with
  | [] => Ret out
  | c :: r => match special special_chars c with
              | Some o => bind (put cap out 92) (fun out => bind (put cap out o) (fun out => fill cap r out))
              | None => if isprint c then bind (put cap out c) (fun out => fill cap r out) else Abort
              end
  end.

(** src/value_string.c:14-111; [Ret None] = NULL, [Ret (Some b)]: all [alloc_len] bytes of the result. *)
Definition dprintable_string (is_char_array : bool) (content : list Z) (a : bool) : res (option (list Z)) :=
  let len := Z.of_nat (length content) in
  if negb is_char_array then Ret None
  else if len <? 2 then Ret None
  else if negb (last content 1 =? 0) then Ret None
  else
    let s := removelast content in
    bind (needed s 1) (fun n =>
    match n with
    | None => Ret None
    | Some alloc =>
      if negb a then Ret None else
      bind (fill alloc s []) (fun out =>
      bind (put alloc out 0) (fun out =>
      if Z.of_nat (length out) =? alloc then Ret (Some out) else Abort))
    end).

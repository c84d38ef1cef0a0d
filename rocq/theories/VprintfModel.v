(** Executable model of capturing the arguments of a printf-like call: the part of src/printf_format.c that stores them
    (131-343), now on the heap of PStorModel with failing allocations, and the handler metac_handle_printf_format
    (src/entry_tag.c:789-834). Parsing is that of PrintfModel; arguments are those of WrapModel.
    Simplifications: the entries that WITH_METAC_DECLLOC finds for the types of the conversions exist ([tref]); strings
    live outside the heap ([cstr]). *)
From Coq Require Import ZArith String List Bool.
From Verif Require Import Base EntryModel PStorModel WrapModel.
From Verif Require PrintfModel.
Import ListNotations.
Open Scope Z_scope.
Local Open Scope res_scope.

(** the outcome of a function of PrintfModel *)
Definition of_printf {A} (x : PrintfModel.res A) : res A :=
  match x with PrintfModel.Ret a => Ret a | PrintfModel.NoFuel => OutOfFuel | _ => Ub end.
(** the number in a pointer object (little endian) *)
Fixpoint le_number (b : list Z) : Z := match b with [] => 0 | x :: r => x + 256 * le_number r end.

(** metac_new_value (src/value.c:702-733) of the i-th parameter of a storage: the block of the value, its entry (a copy
    if it is dynamic) and its address *)
Definition hval := (ptr * entry_ptr * ptr)%type.
Definition value_at (h : heap) (s : ptr) (i : Z) : res (option hval * heap) :=
  do v <- new_param_value (h_next h) h s i;
  match v with
  | None => Ret (None, h)
  | Some (e, a) =>
    let '(p, h1) := alloc h (BBytes [0]) in
    match p with
    | O => Ret (None, h1)
    | _ =>
      match e with
      | EStatic _ => Ret (Some (p, e, a), h1)
      | EBlock q => do '(c, h2) <- new_entry h1 q;
                    match c with O => do h3 <- free h2 p; Ret (None, h3) | _ => Ret (Some (p, EBlock c, a), h2) end
      end
    end
  end.
(** src/value.c:790-797 metac_value_delete *)
Definition value_delete (h : heap) (v : hval) : res heap := let '(p, e, _) := v in do h1 <- entry_delete h e; free h1 p.

Section Vprintf.
Variable demote : list Z -> list Z.
Variable tref : PrintfModel.ctype -> ref.      (* the entry of a type *)
Variable cstr : Z -> option (list Z).          (* the characters of the string at an address; None: there is none *)

(** src/entry.c:31-67 metac_new_element_count_entry of the entry of char * *)
Definition char_array (char : ref) (n : Z) : entry := Build_entry None false (IArray (Some char) n).

(** va_arg type and conversion of a type, src/printf_format.c:255-329 *)
Definition class_of (ty : PrintfModel.ctype) : cls :=
  match ty with
  | PrintfModel.TLong | PrintfModel.TULong => CLong
  | PrintfModel.TLLong | PrintfModel.TULLong => CLLong
  | PrintfModel.TDouble => CDouble
  | PrintfModel.TLDouble => CLDouble
  | PrintfModel.TChar | PrintfModel.TUChar | PrintfModel.TShort | PrintfModel.TUShort | PrintfModel.TInt | PrintfModel.TUInt => CInt
  | _ => CPtr
  end.
Definition conv_of (ty : PrintfModel.ctype) : conv :=
  match ty with
  | PrintfModel.TChar | PrintfModel.TUChar => Low 1
  | PrintfModel.TShort | PrintfModel.TUShort => Low 2
  | _ => Same
  end.

(** src/printf_format.c:186-231 case 's'; [w] is the pointer. [inl]: return -(EFAULT) *)
Definition store_string (h : heap) (s : ptr) (id : Z) (w : list Z) : res (heap + heap) :=
  if le_number w =? 0 then
    do x <- slot h s id (tref PrintfModel.TCharP) 8;
    match x with
    | inl h1 => Ret (inl h1)
    | inr (h1, a) => do h2 <- store_bytes h1 a w; Ret (inr h2)
    end
  else
    match cstr (le_number w) with
    | None => Ub
    | Some t =>
      let '(e, h1) := alloc h (BEntry (char_array (tref PrintfModel.TChar) (Z.of_nat (length t) + 1))) in
      match e with
      | O => Ret (inl h1)
      | _ =>
        do '(z, h2) <- append_by_buffer h1 s (Some (EBlock e)) 8;    (* sizeof(p) *)
        if negb (z =? 0) then Ret (inl h2)                              (* the entry stays allocated *)
        else
          do '(v, h3) <- value_at h2 s id;
          do h4 <- free h3 e;
          match v with
          | None => Ret (inl h4)
          | Some v => do h5 <- value_delete h4 v; do h6 <- store_bytes h5 (snd v) (t ++ [0]); Ret (inr h6)
          end
      end
    end.
(** src/printf_format.c:184-335 one conversion *)
Definition store_conv (h : heap) (s : ptr) (id : Z) (sp : PrintfModel.specifier) (args : list arg) : res (heap + heap * list arg) :=
  if PrintfModel.t sp =? 115 then
    do '(w, rest) <- va_arg CPtr args;
    do x <- store_string h s id w;
    Ret (match x with inl h1 => inl h1 | inr h1 => inr (h1, rest) end)
  else
    match PrintfModel.dispatch (PrintfModel.t sp) (PrintfModel.alen sp) with
    | None => Ret (inl h)
    | Some (ty, _) =>
      do x <- slot h s id (tref ty) (PrintfModel.sizeof ty);
      match x with
      | inl h1 => Ret (inl h1)
      | inr (h1, a) => do '(h2, rest) <- fetch demote h1 a (class_of ty) (conv_of ty) args; Ret (inr (h2, rest))
      end
    end.
(** src/printf_format.c:178-341 the loop *)
Fixpoint store_loop (fuel : nat) (h : heap) (s : ptr) (f : list Z) (pos : nat) (id : Z) (args : list arg) : res (Z * heap) :=
  match fuel with
  | O => OutOfFuel
  | S g =>
    if Nat.ltb pos (length f) then
      do c <- of_printf (PrintfModel.rd f pos);
      if c =? 37 then
        do '(pos', r) <- of_printf (PrintfModel.parse f pos);
        match r with
        | None => store_loop g h s f (S pos') (id + 1) args
        | Some sp =>
          do x <- store_conv h s id sp args;
          match x with
          | inl h1 => Ret (- EFAULT, h1)
          | inr (h1, rest) => store_loop g h1 s f (S pos') (id + 1) rest
          end
        end
      else store_loop g h s f (S pos) id args
    else Ret (0, h)
  end.
(** src/printf_format.c:131-139, 169-343 metac_store_vprintf_params, which reads a copy of the argument list *)
Definition store_vprintf (h : heap) (s : ptr) (f : list Z) (args : list arg) : res (Z * heap) :=
  match s with
  | O => Ret (- EINVAL, h)
  | _ => do _ <- of_printf (PrintfModel.count f); store_loop (S (length f)) h s f 0 0 args
  end.

Variables n : nat.
Variable d : db.
(** metac_value_is_pointer of a parameter *)
Definition pointer_entry (h : heap) (e : entry_ptr) : res bool :=
  do p <- (match e with EStatic r => Ret (St r) | EBlock q => do x <- get_entry h q; Ret (Dy x) end);
  do f <- final_if n d (Some p) is_pointer_info;
  Ret (match f with Some _ => true | None => false end).
(** src/entry_tag.c:789-834 metac_handle_printf_format, called for the parameter [i] of the function [f] with the storage
    [s] (level 0 of the hierarchy); [a] is the address of p_return_value. When the parameter does not exist the value of
    the parameter before it is not released (line 804). *)
Definition handle_printf_format : va_handler := fun h f s i a args =>
  do e <- by_parameter_id n d (Some f) i;
  do '(v, h1) <- value_at h s (i - 1);
  match e, v with
  | None, _ | _, None => Ret (- EINVAL, h1, args)
  | Some _, Some v =>
    let '(p, e, addr) := v in
    do b <- pointer_entry h1 e;
    if negb b then do h2 <- value_delete h1 v; Ret (- EINVAL, h2, args)
    else
      do w <- get_bytes h1 addr;
      if Nat.ltb (length w) 8 then Ub
      else
        do h2 <- value_delete h1 v;
        let q := le_number (firstn 8 w) in
        if q =? 0 then Ret (- EINVAL, h2, args)
        else if Nat.eqb a null then Ret (- EINVAL, h2, args)
        else match cstr q with
             | None => Ub
             | Some t => do '(z, h3) <- store_vprintf h2 a t args; Ret (z, h3, args)
             end
  end.
End Vprintf.

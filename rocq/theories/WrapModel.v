(** Executable model of wrapping a call: src/value_with_args.c:217-504 (_handle_subprogram, _value_parameter_wrap,
    metac_value_parameter_wrap, metac_value_parameter_vwrap) and src/value.c:800-851 (metac_new_value_with_call_params,
    metac_new_value_with_call_result and their destructors), on the heap of PStorModel.

    Simplifications (whole file):
    - the recursive iterator with its single task is replaced by a call (C05-C08 are about the iterator);
    - a value is a block of its own (its content is never looked at) with its entry and address kept in the result;
      entries are of the database, so a value owns nothing else;
    - variadic arguments are a list of objects of the promoted types; reading another type than the one passed is
      [Ub]; a va_list passed as an argument is the list of the arguments it refers to (its type is an array, so
      what is passed is its address: lines 283-287, linux);
    - the macro VA_ARG_IN_VA_ARG is 1 and the function of a struct to read it from a va_list
      (structure_type_info.p_va_arg_fn, generated) is `T val = va_arg(..., T); memcpy(buf, &val, sizeof(val)); return 1`;
      the generated text has a structure of sizeof(T) characters in place of T: for which T that is the same is the subject of AbiModel (C73);
    - object representations are those of x86-64: little endian, char is signed. *)
From Coq Require Import ZArith String List Bool.
From Verif Require Import Base EntryModel CdeclModel HandlerModel PStorModel.
Import ListNotations.
Open Scope Z_scope.
Local Open Scope res_scope.

(** types an argument can have when it is read by va_arg *)
Inductive cls := CInt | CLong | CLLong | CDouble | CLDouble | CFComplex | CDComplex | CLDComplex | CPtr | CStruct (r : ref).
Definition cls_eqb (a b : cls) : bool :=
  match a, b with
  | CInt, CInt | CLong, CLong | CLLong, CLLong | CDouble, CDouble | CLDouble, CLDouble | CFComplex, CFComplex
  | CDComplex, CDComplex | CLDComplex, CLDComplex | CPtr, CPtr => true
  | CStruct r, CStruct r' => Nat.eqb r r'
  | _, _ => false
  end.
Inductive arg := Arg (c : cls) (b : list Z) | ArgList (l : list arg).
Definition va_arg (c : cls) (l : list arg) : res (list Z * list arg) :=
  match l with Arg c' b :: r => if cls_eqb c c' then Ret (b, r) else Ub | _ => Ub end.
Definition va_arg_list (l : list arg) : res (list arg * list arg) :=
  match l with ArgList x :: r => Ret (x, r) | _ => Ub end.

(** `_type_ val = <an object of _va_type_>` *)
Inductive conv := Same | Low (k : nat) | ToBool | ToFloat.

(** src/value_with_args.c:346-362: pseudoname, sizeof(_type_), _va_type_, conversion *)
Definition base_table : list (string * Z * cls * conv) :=
  [("char", 1, CInt, Low 1); ("unsigned char", 1, CInt, Low 1); ("short int", 2, CInt, Low 2); ("unsigned short int", 2, CInt, Low 2);
   ("int", 4, CInt, Same); ("unsigned int", 4, CInt, Same); ("long int", 8, CLong, Same); ("unsigned long int", 8, CLong, Same);
   ("long long int", 8, CLLong, Same); ("unsigned long long int", 8, CLLong, Same); ("_Bool", 1, CInt, ToBool);
   ("float", 4, CDouble, ToFloat); ("double", 8, CDouble, Same); ("long double", 16, CLDouble, Same);
   ("complex float", 8, CFComplex, Same); ("complex double", 16, CDComplex, Same); ("long complex double", 32, CLDComplex, Same)]%string.
(** src/value_with_args.c:407-411 sizeof(_type_), _va_type_, conversion *)
Definition enum_table : list (Z * cls * conv) := [(1, CInt, Low 1); (2, CInt, Low 2); (4, CInt, Same); (8, CLong, Same); (8, CLLong, Same)].

(** A handler of METAC_RQVST_va_list: entry and storage of the function value, ev.va_list_param_id, the address of
    ev.p_return_value (a storage), the arguments; result: its return value and the arguments left *)
Definition va_handler := heap -> eptr -> ptr -> Z -> ptr -> list arg -> res (Z * heap * list arg).
(** a value: its own block, entry, address *)
Record val := { vl_block : ptr; vl_entry : eptr; vl_addr : ptr }.

Section Wrap.
Variables n nc : nat.               (* step budgets of the entry functions and of metac_entry_cdecl *)
Variable d : db.
Variable demote : list Z -> list Z. (* conversion of double to float *)
Variable va_fn : ref -> bool.       (* structure_type_info.p_va_arg_fn is not NULL *)
(** p_tag_map: None is NULL; the handler of the tag of a parameter, None without tag or handler *)
Variable tags : option (ref -> option va_handler).

Definition convert (c : conv) (b : list Z) : list Z :=
  match c with
  | Same => b
  | Low k => firstn k b
  | ToBool => [if forallb (Z.eqb 0) b then 0 else 1]
  | ToFloat => demote b
  end.

(** metac_parameter_storage_new_param_value with the block of the value: src/value_with_args.c:199-209, src/value.c:718-733;
    the block of the value and its address, None for NULL *)
Definition param_value (h : heap) (s : ptr) (i : Z) : res (option (ptr * ptr) * heap) :=
  do v <- new_param_value (h_next h) h s i;
  match v with
  | None => Ret (None, h)
  | Some (_, a) => let '(p, h1) := alloc h (BBytes [0]) in
                   match p with O => Ret (None, h1) | _ => Ret (Some (p, a), h1) end
  end.
(** memcpy(addr, &val, sizeof(val)) *)
Definition store_bytes (h : heap) (a : ptr) (b : list Z) : res heap :=
  do old <- get_bytes h a;
  if (Nat.ltb (length old) (length b)) then Ub else Ret (write h a (BBytes (b ++ skipn (length b) old))).

(** The body repeated in lines 327-342, 366-383, 389-404, 418-431: append a buffer, find it, release the value.
    [inl]: failure, the function returns; [inr]: addr *)
Definition slot (h : heap) (s : ptr) (i : Z) (r : ref) (sz : Z) : res (heap + heap * ptr) :=
  do '(z, h1) <- append_by_buffer h s (Some (EStatic r)) sz;
  if negb (z =? 0) then Ret (inl h1)
  else do '(v, h2) <- param_value h1 s i;
       match v with
       | None => Ret (inl h2)
       | Some (p, a) => do h3 <- free h2 p; Ret (inr (h3, a))
       end.
(** lines 338-341, 380-381, 400-403 *)
Definition fetch (h : heap) (a : ptr) (c : cls) (cv : conv) (args : list arg) : res (heap * list arg) :=
  do '(b, rest) <- va_arg c args; do h1 <- store_bytes h a (convert cv b); Ret (h1, rest).

(** state of the treatment of one parameter: heap, arguments left, addr (0: NULL so far) *)
Definition pst := (heap * list arg * ptr)%type.
(** one use of a macro: [hit] is its condition besides addr == NULL *)
Definition try_slot (s : ptr) (i : Z) (r : ref) (hit : bool) (sz : Z) (c : cls) (cv : conv) (st : pst) : res (heap + pst) :=
  let '(h, args, addr) := st in
  if Nat.eqb addr null && hit then
    do x <- slot h s i r sz;
    match x with
    | inl h1 => Ret (inl h1)
    | inr (h1, a) => if Nat.eqb a null then Ret (inr (h1, args, a)) else do '(h2, rest) <- fetch h1 a c cv args; Ret (inr (h2, rest, a))
    end
  else Ret (inr st).
Fixpoint try_base (t : list (string * Z * cls * conv)) (name : string) (bsz : Z) (s : ptr) (i : Z) (r : ref) (st : pst) : res (heap + pst) :=
  match t with
  | [] => Ret (inr st)
  | (nm, sz, c, cv) :: t' =>
    do x <- try_slot s i r (String.eqb name nm && (bsz =? sz)) sz c cv st;
    match x with inl h => Ret (inl h) | inr st' => try_base t' name bsz s i r st' end
  end.
Fixpoint try_enum (t : list (Z * cls * conv)) (bsz : Z) (s : ptr) (i : Z) (r : ref) (st : pst) : res (heap + pst) :=
  match t with
  | [] => Ret (inr st)
  | (sz, c, cv) :: t' =>
    do x <- try_slot s i r (bsz =? sz) sz c cv st;
    match x with inl h => Ret (inl h) | inr st' => try_enum t' bsz s i r st' end
  end.
(** lines 413-438; src/entry.c:336-341 metac_entry_struct_va_arg *)
Definition try_struct (t : ref) (bsz : Z) (s : ptr) (i : Z) (r : ref) (st : pst) : res (heap + pst) :=
  let '(h, args, addr) := st in
  do x <- slot h s i r bsz;
  match x with
  | inl h1 => Ret (inl h1)
  | inr (h1, a) =>
    if Nat.eqb a null then Ret (inr (h1, args, a))
    else
      do f <- final_if n d (Some (St t)) is_aggr_info;
      match f with
      | Some (St q) => if va_fn q then do '(h2, rest) <- fetch h1 a (CStruct q) Same args; Ret (inr (h2, rest, a))
                       else do h2 <- free h1 a; Ret (inr (h2, args, null))
      | _ => do h2 <- free h1 a; Ret (inr (h2, args, null))
      end
  end.

(** src/value_with_args.c:306-443 a normal parameter; [inl]: failure *)
Definition normal_param (h : heap) (s : ptr) (i : Z) (r : ref) (args : list arg) : res (heap + heap * list arg) :=
  match e_info (d r) with
  | IParam false (Some t) =>
    do sz <- byte_size n d (Some (St t));
    match sz with
    | inr _ => Ret (inl h)
    | inl bsz =>
      do fb <- final_if n d (Some (St t)) is_base_info;
      do fp <- final_if n d (Some (St t)) is_pointer_info;
      do fe <- final_if n d (Some (St t)) is_enum_info;
      do fm <- final_if n d (Some (St t)) is_aggr_info;
      do x <- match fb with
              | Some b => match e_name (deref d b) with
                          | None => Ub     (* strcmp(NULL, ...) *)
                          | Some name => try_base base_table name bsz s i r (h, args, null)
                          end
              | None =>
                match fp with
                | Some _ => try_slot s i r true 8 CPtr Same (h, args, null)
                | None =>
                  match fe with
                  | Some _ => try_enum enum_table bsz s i r (h, args, null)
                  | None =>
                    match fm with
                    | Some _ => try_struct t bsz s i r (h, args, null)
                    | None => Ret (inr (h, args, null))
                    end
                  end
                end
              end;
      match x with
      | inl h1 => Ret (inl h1)
      | inr (h1, rest, a) => Ret (if Nat.eqb a null then inl h1 else inr (h1, rest))
      end
    end
  | _ => Ret (inl h)
  end.

(** src/value_with_args.c:242-305 an unspecified or va_list parameter. Without tag or handler the value made in line
    263 is not released and a va_list argument is not read. *)
Definition variadic_param (h : heap) (f : eptr) (s : ptr) (i : Z) (r : ref) (isva : bool) (args : list arg) : res (heap + heap * list arg) :=
  match tags with
  | None => Ret (inl h)
  | Some tag =>
    do '(z, h1) <- append_by_storage (fun _ => true) (S (h_next h)) h s (Some (EStatic r));
    if negb (z =? 0) then Ret (inl h1)
    else
      do '(v, h2) <- param_value h1 s i;
      match v with
      | None => Ret (inl h2)
      | Some (p, a) =>
        match tag r with
        | None => Ret (inr (h2, args))
        | Some hd =>
          do '(loc, args1) <- (if isva then va_arg_list args else Ret (args, args));
          do '(z2, h3, rest) <- hd h2 f s i a loc;
          do h4 <- free h3 p;
          Ret (if negb (z2 =? 0) then inl h4 else inr (h4, if isva then args1 else rest))
        end
      end
  end.

(** src/value_with_args.c:235-446 the loop over the parameters (the count and the i-th parameter are those of the final
    entry); [true]: metac_recursive_iterator_done *)
Fixpoint params_loop (h : heap) (f : eptr) (s : ptr) (i : Z) (l : list ref) (args : list arg) : res (bool * heap) :=
  match l with
  | [] => Ret (true, h)
  | r :: l' =>
    match e_info (d r) with
    | IParam u _ =>
      do isva <- (if u then Ret false else is_va_list nc d (St r));
      do x <- (if u || isva then variadic_param h f s i r isva args else normal_param h s i r args);
      match x with
      | inl h1 => Ret (false, h1)
      | inr (h1, rest) => params_loop h1 f s (i + 1) l' rest
      end
    | _ => Ret (false, h)
    end
  end.

(** src/value_with_args.c:449-487 _value_parameter_wrap; the result is NULL (None) or p_val itself. Both
    metac_value_parameter_wrap and metac_value_parameter_vwrap (489-504) are this function on a va_list of their own. *)
Definition parameter_wrap (h : heap) (v : option val) (args : list arg) : res (option val * heap) :=
  match v with
  | None => Ret (None, h)
  | Some v =>
    do f <- final_if n d (Some (vl_entry v)) is_fun_info;
    match f with
    | None => Ret (None, h)
    | Some e =>
      if Nat.eqb (vl_addr v) null then Abort     (* line 231 *)
      else
        do '(ok, h1) <- params_loop h (vl_entry v) (vl_addr v) 0 (params_of d e) args;
        if ok then Ret (Some v, h1) else do h2 <- free h1 (vl_block v); Ret (None, h2)
    end
  end.

(** src/value.c:718-733 metac_new_value with an entry of the database *)
Definition new_value_block (h : heap) (e : eptr) (a : ptr) : option val * heap :=
  match a with
  | O => (None, h)
  | _ => let '(p, h1) := alloc h (BBytes [0]) in
         match p with O => (None, h1) | _ => (Some (Build_val p e a), h1) end
  end.
(** src/value.c:801-808 metac_new_value_with_call_params *)
Definition new_call_params (h : heap) (e : eptr) : option val * heap :=
  let '(s, h1) := new_storage h in new_value_block h1 e s.
(** src/value.c:810-814 metac_value_with_call_params_delete; metac_value_delete (791-798) reads through its argument
    without checking it *)
Definition call_params_delete (h : heap) (v : option val) : res heap :=
  match v with
  | None => Ub
  | Some v => do h1 <- free h (vl_block v); delete (h_next h) h1 (vl_addr v)
  end.

(** src/entry.c:617-627 metac_entry_has_result, metac_entry_result_type: subprogram_info.type is read for both kinds
    (the two structures begin with the type) *)
Definition result_type (e : eptr) : option ref := match e_info (deref d e) with ISubprogram t _ | ISubroutine t _ => t | _ => None end.
(** src/value.c:816-843 metac_new_value_with_call_result *)
Definition new_call_result (h : heap) (e : eptr) : res (option val * heap) :=
  do f <- final_if n d (Some e) is_fun_info;
  match f with
  | None => Ret (None, h)
  | Some q =>
    match result_type q with
    | None => Ret (None, h)
    | Some t =>
      do sz <- byte_size n d (Some (St t));
      match sz with
      | inr _ => Ret (None, h)
      | inl sz =>
        if sz <=? 0 then Ret (None, h)
        else
          let '(a, h1) := alloc h (BBytes (repeat 0 (Z.to_nat sz))) in
          let '(v, h2) := new_value_block h1 (St t) a in
          match v with
          | Some _ => Ret (v, h2)
          | None => do h3 <- free h2 a; Ret (None, h3)
          end
      end
    end
  end.
(** src/value.c:845-851 metac_value_with_call_result_delete *)
Definition call_result_delete (h : heap) (v : option val) : res heap :=
  match v with
  | None => Ret h
  | Some v => do h1 <- free h (vl_addr v); free h1 (vl_block v)
  end.
End Wrap.

(** Executable model of the handlers of src/entry_tag.c:378-787 (count by a sibling, zero ended string, container of,
    union member selection, pointer cast) as the deep functions of src/value_deep.c call them.

    Simplifications (whole file):
    - the hierarchy is the list of the values of the traversal, nearest first (property C46); its level is the
      number of ancestors (src/iterator.c:153-165);
    - p_ev is never NULL; the event METAC_RQVST_va_list does not occur (printf handlers: see PrintfModel);
    - names are C strings (strcmp is equality); a context is [None] when p_context is NULL;
    - a parameter storage is the sequence of its items (property C35), found by its address;
    - allocations: [al_sib i] the value of the sibling at position i, [al_cast] the cast pointer value, [al_res] the
      entry and the value returned. *)
From Coq Require Import ZArith String List Bool.
From Verif Require Import Base EntryModel ValueModel CdeclModel DeepModel.
Import ListNotations.
Open Scope Z_scope.
Local Open Scope res_scope.

Record allocs := { al_sib : Z -> bool; al_cast : bool; al_res : bool }.
Definition all_succeed := Build_allocs (fun _ => true) true true.

(** include/metac/reflect/entry_tag.h:370-387 struct metac_union_member_select_by_case and ..._context *)
Record ucase := { u_val : Z; u_name : option string; u_id : Z }.
Inductive uctx := SelectByField (fld : option string) (cases : list ucase) | Constant (id : Z).
(** include/metac/reflect/entry_tag.h:417-427 struct metac_ptr_cast_case and ..._context *)
Record pcase := { c_val : Z; c_entry : option ref }.
Record pctx := { pc_count : option string; pc_selector : option string; pc_cases : list pcase }.

(** name is not NULL and strcmp(name, "") != 0 *)
Definition given (s : option string) : option string :=
  match s with Some EmptyString => None | _ => s end.

Section Handlers.
Variables n nc : nat.                 (* step budgets of the entry functions and of metac_entry_cdecl *)
Variable d : db.
Variable g : mem.                     (* content of uninitialised buffers *)
Variable loads : Z -> list value.     (* the items of the parameter storage at an address *)
Variable stack : Z.                   (* address of the local variable p of metac_handle_container_of *)
Variable sf : nat.                    (* number of bytes strlen can look at before leaving mapped memory *)
Variable al : allocs.

(** src/value.c:428-430 metac_value_has_members *)
Definition has_members (v : value) : res bool :=
  do f <- final_if n d (Some (v_entry v)) is_aggr_info; Ret (match f with Some _ => true | None => false end).
(** src/entry.c:634-653 metac_entry_is_unspecified_parameter, metac_entry_is_va_list_parameter *)
Definition is_unspecified (p : eptr) : bool := match e_info (deref d p) with IParam u _ => u | _ => false end.
Definition is_va_list (p : eptr) : res bool :=
  match e_info (deref d p) with
  | IParam false t =>
    do s <- entry_cdecl nc d (lift t);
    Ret (match s with None => false
                    | Some s => String.eqb s "va_list %s" || String.eqb s "struct __va_list_tag * %s" end)
  | _ => Ret false
  end.
(** src/entry.c:540-546 metac_entry_has_parameter_load, src/value.c:675-679 *)
Definition has_parameter_load (v : value) : res bool :=
  do f <- final_if n d (Some (v_entry v)) is_fun_info;
  match f with
  | Some _ => Ret true
  | None => if is_unspecified (v_entry v) then Ret true else is_va_list (v_entry v)
  end.
(** src/value.c:690-700 metac_value_parameter_new_item, src/value_with_args.c:199-209 *)
Definition parameter_new_item (v : value) (i : Z) : option value :=
  match nth_error (loads (v_addr v)) (Z.to_nat i) with
  | Some x => new_value (v_entry x) (v_addr x) (al_sib al i)
  | None => None
  end.

(** src/value.c:244-249 metac_value_name of a value that may be NULL *)
Definition value_name (v : option value) : option string :=
  match v with None => None | Some w => e_name (deref d (v_entry w)) end.
(** src/value.c:790-797 metac_value_delete, which reads p_val->p_entry *)
Definition value_delete (v : option value) : res unit := match v with None => Ub | Some _ => Ret tt end.

(** src/entry_tag.c:402-417 and 419-434, 600-611 the loops over the siblings: the number found ([None]: no sibling has
    the name); [inl] the number could not be read. [item] makes the value of the i-th sibling. *)
Fixpoint sibling_loop (m : mem) (item : Z -> res (option value)) (name : string) (count : nat) (i : Z)
  : res (Z + option Z) :=
  match count with
  | O => Ret (inr None)
  | S k =>
    do s <- item i;
    if Base.named (value_name s) name then
      match s with
      | None => Ret (inl (- EFAULT))
      | Some w =>
        do x <- value_num n d g m w;
        do _ <- value_delete s;
        Ret (match x with inl _ => inl (- EFAULT) | inr y => inr (Some y) end)
      end
    else
      do _ <- value_delete s;
      sibling_loop m item name k (i + 1)
  end.
Definition member_item (v : value) (i : Z) : res (option value) := new_value_by_member_id n d v i (al_sib al i).
Definition member_count_of (v : value) : res nat :=
  do c <- member_count n d (Some (v_entry v)); Ret (Z.to_nat c).

(** src/entry_tag.c:378-437 metac_handle_count_by; [ctx]: p_context and the name in it *)
Definition handle_count_by (ctx : option (option string)) (m : mem) (ev : event) (h : list value)
  : res (Z * option value) :=
  match ev, h with
  | RQVST_union_member, _ | _, [] | _, [_] => Ret (0, None)
  | _, v :: parent :: _ =>
    match match ctx with None => None | Some s => given s end with
    | None => Ret (- EINVAL, None)
    | Some name =>
      do hm <- has_members parent;
      do r <- (if hm then
                 do c <- member_count_of parent; sibling_loop m (member_item parent) name c 0
               else
                 do hp <- has_parameter_load parent;
                 if hp then sibling_loop m (fun i => Ret (parameter_new_item parent i)) name (length (loads (v_addr parent))) 0
                 else Ret (inl (- EFAULT)));
      match r with
      | inl e => Ret (e, None)
      | inr None => Ret (0, None)
      | inr (Some y) => do w <- new_element_count_value n d m v y (al_res al); Ret (0, w)
      end
    end
  end.

(** strlen; leaving mapped memory is undefined behaviour *)
Fixpoint strlen (k : nat) (m : mem) (a : Z) : res Z :=
  match k with
  | O => Ub
  | S k => if m a =? 0 then Ret 0 else do r <- strlen k m (a + 1); Ret (r + 1)
  end.
(** src/entry_tag.c:439-468 metac_handle_zero_ended_string; the size_t strlen + 1 becomes an int *)
Definition handle_zero_ended_string (m : mem) (ev : event) (h : list value) : res (Z * option value) :=
  match ev, h with
  | RQVST_union_member, _ | _, [] => Ret (0, None)
  | _, v :: _ =>
    do ip <- is_pointer n d (Some (v_entry v));
    if negb ip then Ret (- EFAULT, None)
    else
      do t <- pointer_entry n d (Some (v_entry v));
      do f <- final_entry n d t no_quals;
      match fst f with
      | None => Ret (- EFAULT, None)
      | Some e =>
        if negb (is_base_info (e_info (deref d e))) || negb (Base.named (e_name (deref d e)) "char") then Ret (- EFAULT, None)
        else
          do p <- value_pointer n d m v;
          match p with
          | inl _ => Ret (- EFAULT, None)
          | inr a =>
            if a =? 0 then Ret (- EFAULT, None)
            else
              do l <- strlen sf m a;
              do w <- new_element_count_value n d m v (swrap 32 (l + 1)) (al_res al);
              Ret (0, w)
          end
      end
  end.

(** src/entry_tag.c:490-513 metac_handle_container_of; [ctx]: member_offset and p_coontainer_entry *)
Definition handle_container_of (ctx : option (Z * option ref)) (m : mem) (ev : event) (h : list value)
  : res (Z * option value) :=
  match ev with
  | RQVST_pointer_array_count =>
    match ctx with
    | None | Some (_, None) => Ret (- EINVAL, None)
    | Some (off, Some r) =>
      match h with
      | [] => Ret (0, None)
      | v :: _ =>
        do p <- value_pointer n d m v;
        match p with
        | inl _ => Ret (0, None)
        | inr a =>
          match new_value (St r) stack (al_cast al) with
          | None => Ret (- ENOMEM, None)
          | Some pv =>
            let m' := store m stack 8 (uwrap 64 (a - off)) in
            do w <- new_element_count_value n d m' pv 1 (al_res al);
            Ret (0, w)
          end
        end
      end
    end
  | _ => Ret (0, None)
  end.

(** src/entry_tag.c:615-635 the loop over the cases: the member to take, [inl] an error *)
Fixpoint case_loop (v : value) (cases : list ucase) (x : Z) : res (Z + Z) :=
  match cases with
  | [] => Ret (inl (- ENOENT))
  | c :: r =>
    if u_val c =? x then
      match u_name c with
      | Some s => do i <- member_name_to_id n d (Some (v_entry v)) s; Ret (if i <? 0 then inl (- EFAULT) else inr i)
      | None => Ret (inr (u_id c))
      end
    else case_loop v r x
  end.
(** src/entry_tag.c:574-655 metac_handle_union_member_select *)
Definition handle_union_member_select (ctx : option uctx) (m : mem) (ev : event) (h : list value)
  : res (Z * option value) :=
  match ev, h with
  | RQVST_union_member, v :: parent :: _ =>
    match ctx with
    | None => Ret (- EINVAL, None)
    | Some (SelectByField fld cases) =>
      match given fld with
      | None => Ret (- EINVAL, None)
      | Some name =>
        do hv <- has_members v;
        do hp <- has_members parent;
        if negb hv || negb hp then Ret (- EINVAL, None)
        else
          do c <- member_count_of parent;
          do r <- sibling_loop m (member_item parent) name c 0;
          match r with
          | inl e => Ret (e, None)
          | inr None => Ret (0, None)
          | inr (Some x) =>
            do i <- (match cases with [] => Ret (inr x) | _ => case_loop v cases x end);
            match i with
            | inl e => Ret (e, None)
            | inr i => do w <- new_value_by_member_id n d v i (al_res al); Ret (0, w)
            end
          end
      end
    | Some (Constant i) =>
      do hv <- has_members v;
      if negb hv then Ret (- EINVAL, None)
      else do w <- new_value_by_member_id n d v i (al_res al); Ret (0, w)
    end
  | _, _ => Ret (0, None)
  end.

(** the number in the member [i] of [v], src/entry_tag.c:749-754, 760-765: [None] after -EINVAL. metac_value_num of NULL
    is an error, after which the NULL value is deleted *)
Definition member_number (m : mem) (v : value) (i : Z) : res (option Z) :=
  do s <- member_item v i;
  do x <- (match s with None => Ret (inl (- EINVAL)) | Some w => value_num n d g m w end);
  do _ <- value_delete s;
  Ret (match x with inl _ => None | inr y => Some y end).
(** src/entry_tag.c:768-782 the loop over the cases *)
Fixpoint cast_loop (m : mem) (v : value) (cases : list pcase) (x count : Z) : res (Z * option value) :=
  match cases with
  | [] => Ret (0, None)
  | c :: r =>
    if x =? c_val c then
      match c_entry c with
      | None => Ret (- EINVAL, None)
      | Some t =>
        match new_value (St t) (v_addr v) (al_cast al) with
        | None => Ret (- ENOMEM, None)
        | Some pv => do w <- new_element_count_value n d m pv count (al_res al); Ret (0, w)
        end
      end
    else cast_loop m v r x count
  end.
(** src/entry_tag.c:726-787 metac_handle_ptr_cast *)
Definition handle_ptr_cast (ctx : option pctx) (m : mem) (ev : event) (h : list value) : res (Z * option value) :=
  match ev, h with
  | RQVST_pointer_array_count, v :: parent :: _ =>
    match ctx with
    | None => Ret (- EINVAL, None)
    | Some c =>
      match given (pc_selector c), pc_cases c with
      | None, _ | _, [] => Ret (- EINVAL, None)
      | Some name, cases =>
        do hp <- has_members parent;
        if negb hp then Ret (- EINVAL, None)
        else
          do i <- member_name_to_id n d (Some (v_entry parent)) name;
          if i <? 0 then Ret (- EINVAL, None)
          else
            do x <- member_number m parent i;
            match x with
            | None => Ret (- EINVAL, None)
            | Some x =>
              do y <- (match given (pc_count c) with
                       | None => Ret (Some 1)
                       | Some cn =>
                         do j <- member_name_to_id n d (Some (v_entry parent)) cn;
                         member_number m parent j
                       end);
              match y with
              | None => Ret (- EINVAL, None)
              | Some y => cast_loop m v cases x y
              end
            end
      end
    end
  | _, _ => Ret (0, None)
  end.

(** The handler a tag holds, with its context. *)
Inductive handler :=
| HCountBy (ctx : option (option string))
| HZeroEndedString
| HContainerOf (ctx : option (Z * option ref))
| HUnionSelect (ctx : option uctx)
| HPtrCast (ctx : option pctx).
Definition handle (k : handler) : mem -> event -> list value -> res (Z * option value) :=
  match k with
  | HCountBy c => handle_count_by c
  | HZeroEndedString => handle_zero_ended_string
  | HContainerOf c => handle_container_of c
  | HUnionSelect c => handle_union_member_select c
  | HPtrCast c => handle_ptr_cast c
  end.
(** src/value_deep.c:397-409, 447-457, 612-622: the tag of the entry of the value, (0, NULL) when there is none or it has no
    handler; [tags]: what metac_tag_map_tag finds (properties C31, C32) *)
Definition tag_handler (tags : eptr -> option handler) (m : mem) (ev : event) (h : list value) : res (Z * option value) :=
  match h with
  | [] => Ret (0, None)
  | v :: _ => match tags (v_entry v) with None => Ret (0, None) | Some k => handle k m ev h end
  end.
End Handlers.

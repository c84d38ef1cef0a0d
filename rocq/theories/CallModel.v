(** Executable model of the text of a function call: the part of metac_value_string_ex for values with parameter loads
    (src/value_string.c:124-130, 593-757), on top of TextModel, whose simplifications hold here too. The items of the
    parameter storage at an address are given by [loads], as in HandlerModel. *)
From Coq Require Import ZArith String Ascii List Bool.
From Verif Require Import Base EntryModel ValueModel DeepModel CdeclModel HandlerModel TextModel.
Import ListNotations.
Open Scope Z_scope.
Local Open Scope res_scope.
Local Open Scope string_scope.

Section Call.
Variable E : env.
Variables tagged deep : bool.
Variable float_text : ctype -> Z -> string.
Variable loads : Z -> list value.
Let n := en_fuel E.
Let d := en_db E.

(** the kinds of values with parameter loads: unspecified and va_list parameters, types of functions, functions *)
Inductive ckind := KVariadic | KSubroutine | KFunction.
(** value_string.c:124-130, 593-595 the dispatch; [k] bounds the work of metac_entry_cdecl. The assert of line 599 holds: it
    asks for the same thing. *)
Definition load_kind (k : nat) (v : value) : res (option ckind) :=
  let by_type :=
    do f <- final_info E v;
    Ret (match f with Some (ISubprogram _ _) => Some KFunction | Some (ISubroutine _ _) => Some KSubroutine | _ => None end) in
  match e_info (deref d (v_entry v)) with
  | IParam _ _ => do hp <- has_parameter_load n k d v; if hp then Ret (Some KVariadic) else by_type
  | _ => by_type
  end.
(** value_string.c:621-696 the loop over the texts of the items; outer [None]: failure. When the declaration of the type of an
    item fails, [out] is released at line 636 and again at line 699. *)
Fixpoint args_text (k : nat) (c : ckind) (l : list (eptr * option string)) (out : option string) : res (option (option string)) :=
  match l with
  | [] => Ret (Some out)
  | (_, None) :: _ => Ret None
  | (e, Some t) :: r =>
    let comma := match out with Some _ => ", " | None => "" end in
    match c with
    | KVariadic =>
      do pat <- entry_cdecl k d (Some e);
      match pat with
      | None => match out with None => Ret None | Some _ => Ub end
      | Some pat =>
        do ty <- fmt pat [Some ""];
        do x <- (if starts_with_quote t then fmt "%s%s%s" [Some (opt_text out); Some comma; Some t]
                 else fmt "%s%s(%s)%s" [Some (opt_text out); Some comma; Some (trim ty); Some t]);
        args_text k c r (Some x)
      end
    | _ =>
      do x <- fmt "%s%s%s" [Some (opt_text out); Some comma; Some t];
      args_text k c r (Some x)
    end
  end.
(** value_string.c:705-744 the texts around; for an ellipsis without items the result is NULL *)
Definition call_end (k : nat) (c : ckind) (v : value) (out : option string) : res (option string) :=
  match c with
  | KVariadic =>
    do va <- is_va_list k d (v_entry v);
    if va then do s <- fmt "VA_LIST(%s)" [out]; Ret (Some s) else Ret out
  | KSubroutine => do s <- fmt "(%s)(%s)" [e_name (deref d (v_entry v)); Some (opt_text out)]; Ret (Some s)
  | KFunction => do s <- fmt "%s(%s)" [e_name (deref d (v_entry v)); Some (opt_text out)]; Ret (Some s)
  end.
(** value_string.c:120-772 the traversal, for any value. An item without address has no value (src/value.c:720-722). *)
Fixpoint call_text (fuel : nat) (m : mem) (anc : list value) (v : value) : res (option string) :=
  match fuel with
  | O => OutOfFuel
  | S k =>
    do c <- load_kind k v;
    match c with
    | None => text E tagged deep float_text k m anc v
    | Some c =>
      let items := loads (v_addr v) in
      if existsb (fun w => v_addr w =? 0)%Z items then Ret None
      else
        do rs <- collect (call_text k m (v :: anc)) items;
        do out <- args_text k c (combine (map v_entry items) rs) None;
        match out with
        | None => Ret None
        | Some out => call_end k c v out
        end
    end
  end.
(** value_string.c:113-118 metac_value_string_ex *)
Definition call_string (fuel : nat) (m : mem) (v : option value) : res (option string) :=
  match v with None => Ret None | Some v => call_text fuel m [] v end.
End Call.

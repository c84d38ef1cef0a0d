(** Executable model of metac_value_string_ex (src/value_string.c:113-776), of metac_value_base_type_string
    (src/value_base_type.c:348-403), metac_value_enumeration_string (src/value.c:571-588) and
    metac_value_pointer_string (src/value.c:656-671): the text of a value.

    As in DeepModel the recursive iterator is replaced by recursion, values with parameter loads (functions,
    unspecified parameters, va_list parameters; value_string.c:564-757) are not modelled ([Abort]), and internal
    allocations succeed; the texts are shorter than INT_MAX. Texts of floating point numbers (printf's %f, %lf,
    %Lf and the complex forms) are left open: [float_text]. [tagged]: p_tag_map is not NULL; [deep]: wmode is
    METAC_WMODE_deep, otherwise METAC_WMODE_shallow (an invalid wmode makes pointers fail; not modelled). *)
From Coq Require Import ZArith String Ascii List Bool HexString.
From Verif Require Import Base EntryModel ValueModel DeepModel CdeclModel.
From Verif Require EscapeModel.
Import ListNotations.
Open Scope Z_scope.
Local Open Scope res_scope.
Local Open Scope string_scope.

(** a char as a character of a text *)
Definition chr (z : Z) : ascii := ascii_of_N (Z.to_N z).
Definition text_of (l : list Z) : string := string_of_list_ascii (map chr l).
Definition quote : ascii := """".

Section Text.
Variable E : env.
Variables tagged deep : bool.
Variable float_text : ctype -> Z -> string.
Let n := en_fuel E.
Let d := en_db E.
Let g := en_garbage E.

(** value_base_type.c:354-400 what is printed for the object [x] of type [c]: "'%c'" or PRIi8 for char, decimal for the
    other integers; a bool object holding neither 0 nor 1 is undefined behaviour *)
Definition number_text (c : ctype) (x : Z) : res string :=
  match c with
  | CChar => if EscapeModel.isprint (ct_number CChar x) then Ret (String "'" (String (chr (ct_number CChar x)) "'"))
             else Ret (dec (ct_number CChar x))
  | CBool => if (x =? 1)%Z then Ret "true" else if (x =? 0)%Z then Ret "false" else Ub
  | _ => Ret (if is_integer c then dec (ct_number c x) else float_text c x)
  end.
(** value_base_type.c:348-403 metac_value_base_type_string: the types in the order in which they are tried *)
Fixpoint base_text_loop (m : mem) (v : value) (l : list ctype) : res (option string) :=
  match l with
  | [] => Ret None
  | c :: r =>
    do is <- value_is n d v c;
    if is then
      do x <- value_get n d g m v c;
      match x with
      | inl _ => Ret None
      | inr x => do s <- number_text c x; Ret (Some s)
      end
    else base_text_loop m v r
  end.
Definition base_text m v := base_text_loop m v all_types.

(** value.c:571-588 metac_value_enumeration_string *)
Definition enum_text (m : mem) (v : value) : res (option string) :=
  do is <- value_kind_is E v is_enum_info;
  if is then
    do x <- value_enumeration n d m v;
    match x with
    | inl _ => Ret None
    | inr x =>
      do name <- value_enumeration_to_name n d v x;
      Ret (Some (match name with Some s => s | None => dec x end))
    end
  else Ret None.

(** value.c:656-671 metac_value_pointer_string; %p of glibc *)
Definition pointer_text (m : mem) (v : value) : res (option string) :=
  do is <- value_kind_is E v is_pointer_info;
  if is then
    do x <- value_pointer n d m v;
    Ret (match x with
         | inl _ => None
         | inr p => Some (if (p =? 0)%Z then "NULL" else HexString.of_N (Z.to_N p))
         end)
  else Ret None.

(** value_string.c:14-111 _dprintable_string; the part after the checks of lines 15-32 is EscapeModel *)
Definition array_content (m : mem) (w : value) (c : Z) : list Z :=
  map (fun i => swrap 8 (m (v_addr w + Z.of_nat i))) (seq 0 (Z.to_nat c)).
Definition printable_text (m : mem) (w : value) : res (option string) :=
  do ha <- value_kind_is E w is_array_info;
  if negb ha then Ret None
  else
    do el <- element_entry n d (Some (v_entry w));
    do f <- final_entry n d el no_quals;
    match fst f with
    | None => Ret None
    | Some e =>
      match e_info (deref d e) with
      | IBase _ _ =>
        match e_name (deref d e) with
        | None => Ub
        | Some nm =>
          if String.eqb nm "char" then
            do c <- element_count n d (Some (v_entry w));
            match EscapeModel.dprintable_string true (array_content m w c) true with
            | EscapeModel.Ret None => Ret None
            | EscapeModel.Ret (Some out) => Ret (Some (text_of (removelast out)))   (* without the terminating 0 *)
            | EscapeModel.Abort => Abort
            | EscapeModel.HeapOverflow | EscapeModel.IntOverflow => Ub
            end
          else Ret None
        end
      | _ => Ret None
      end
    end.

(** What the start state finds: failure, a finished text, dependencies. *)
Inductive tview :=
| TFail
| TDone (s : string)
| TFields (ch : list value)
| TItems (ch : list value)
| TPtr (arr : value).
Definition done (x : res (option string)) : res tview :=
  do s <- x; Ret (match s with Some s => TDone s | None => TFail end).
(** the tag's handler, when there is a tag map *)
Definition ask (m : mem) (ev : event) (l : list value) : res (Z * option value) :=
  if tagged then en_handler E m ev l else Ret (0, None).

(** value_string.c:313-353 start state of structs and unions *)
Definition tlook_aggr (m : mem) (k : aggr) (anc : list value) (v : value) : res tview :=
  do mcount <- member_count n d (Some (v_entry v));
  match k with
  | AUnion =>
    if (0 <? mcount)%Z then
      do h <- ask m RQVST_union_member (v :: anc);
      if negb (fst h =? 0)%Z then Ret TFail
      else Ret (TFields (match snd h with Some w => [w] | None => [] end))
    else Ret (TFields [])
  | _ => do l <- members_from E v (Z.to_nat mcount) 0;
         Ret (match l with Some l => TFields l | None => TFail end)
  end.
(** value_string.c:443-507 start state of arrays *)
Definition tlook_array (m : mem) (anc : list value) (v : value) : res tview :=
  do c <- element_count n d (Some (v_entry v));
  do local <- (if (c =? -1)%Z then
                 if tagged then
                   do h <- ask m RQVST_flex_array_count (v :: anc);
                   if negb (fst h =? 0)%Z then Ret (inl TFail)
                   else match snd h with
                        | Some w => Ret (inr w)
                        | None => Ret (inl (TDone ""))
                        end
                 else
                   do w <- new_element_count_value n d m v 0 true;
                   Ret (match w with Some w => inr w | None => inl TFail end)
               else Ret (inr v));
  match local with
  | inl x => Ret x
  | inr w =>
    do p <- printable_text m w;
    match p with
    | Some s => Ret (TDone (String quote (s ++ String quote "")))
    | None =>
      do c <- element_count n d (Some (v_entry w));
      do l <- elements_from E w (Z.to_nat c) 0;
      Ret (match l with Some l => TItems l | None => TFail end)
    end
  end.
(** value_string.c:148-250 start state of pointers *)
Definition tlook_pointer (m : mem) (anc : list value) (v : value) : res tview :=
  if negb deep then done (pointer_text m v)
  else
    do x <- value_pointer n d m v;
    match x with
    | inl _ => Ret TFail
    | inr p =>
      if (p =? 0)%Z then done (pointer_text m v)
      else
        do l <- level_introduced_loop E m v anc;
        if (0 <? l)%Z then Ret TFail
        else
          do h <- ask m RQVST_pointer_array_count (v :: anc);
          if negb (fst h =? 0)%Z then Ret TFail
          else if match snd h with Some w => negb (v_addr w =? p)%Z | None => false end then Ret TFail
          else
            do vp <- is_void_pointer n d (Some (v_entry v));
            match snd h, vp with
            | None, true => done (pointer_text m v)
            | _, _ =>
              do w <- match snd h with
                      | Some w => Ret (Some w)
                      | None => new_element_count_value n d m v 1 true
                      end;
              match w with
              | None => Ret TFail
              | Some w => do ha <- value_kind_is E w is_array_info;
                          Ret (if ha then TPtr w else TFail)
              end
            end
    end.
(** value_string.c:124-147, 564-566, 758-762 the dispatch on the kind *)
Definition tlook (m : mem) (anc : list value) (v : value) : res tview :=
  match e_info (deref d (v_entry v)) with
  | IParam true _ => Abort
  | _ =>
    do f <- final_info E v;
    match f with
    | Some (IBase _ _) => done (base_text m v)
    | Some (IEnum _ _) => done (enum_text m v)
    | Some (IAggr AStruct _ _) => tlook_aggr m AStruct anc v
    | Some (IAggr AUnion _ _) => tlook_aggr m AUnion anc v
    | Some (IArray _ _) => tlook_array m anc v
    | Some (IPointer _) => tlook_pointer m anc v
    | Some (ISubprogram _ _) | Some (ISubroutine _ _) => Abort
    | _ => Ret TFail
    end
  end.

(** src/value.c metac_value_name; the test of value_string.c:401-402 *)
Definition value_name (v : value) : option string := e_name (deref d (v_entry v)).
Definition anonymous (v : value) : bool :=
  match e_info (deref d (v_entry v)), value_name v with IMember _, None => true | _, _ => false end.
Definition opt_text (o : option string) : string := match o with Some s => s | None => "" end.
Definition sep (o : option string) : string := match o with Some _ => " " | None => "" end.
(** value_string.c:357-390 the loop over the members: names and texts; outer [None]: failure *)
Fixpoint fields_text (l : list (option string * option string)) (out : option string) : res (option (option string)) :=
  match l with
  | [] => Ret (Some out)
  | (_, None) :: _ => Ret None
  | (name, Some t) :: r =>
    if String.eqb t "" then fields_text r out
    else
      do x <- match name with
              | None => fmt "%s%s%s" [Some (opt_text out); Some (sep out); Some t]
              | Some nm => fmt "%s%s.%s = %s," [Some (opt_text out); Some (sep out); Some nm; Some t]
              end;
      fields_text r (Some x)
  end.
(** value_string.c:511-541 the loop over the elements *)
Fixpoint items_text (l : list (option string)) (out : option string) : res (option (option string)) :=
  match l with
  | [] => Ret (Some out)
  | None :: _ => Ret None
  | Some t :: r =>
    do x <- fmt "%s%s%s," [Some (opt_text out); Some (sep out); Some t];
    items_text r (Some x)
  end.
Definition starts_with_quote (s : string) : bool := match s with String c _ => Ascii.eqb c quote | EmptyString => false end.

(** value_string.c:252-306 the second state of pointers; [k] bounds the work of metac_entry_cdecl *)
Definition pointer_end (k : nat) (m : mem) (arr : value) (out : option string) : res (option string) :=
  match out with
  | None => Ret None
  | Some a =>
    do fl <- new_element_count_value n d m arr (-1) true;
    match fl with
    | None => Ret None
    | Some fl =>
      do pat <- entry_cdecl k d (Some (v_entry fl));
      match pat with
      | None => Ret None
      | Some pat =>
        do ty <- fmt pat [Some ""];
        do s <- (if starts_with_quote a then fmt "%s" [Some a] else fmt "(%s)%s" [Some ty; Some a]);
        Ret (Some s)
      end
    end
  end.

(** value_string.c:120-772 the traversal. [None]: failure. *)
Fixpoint text (fuel : nat) (m : mem) (anc : list value) (v : value) : res (option string) :=
  match fuel with
  | O => OutOfFuel
  | S k =>
    do w <- tlook m anc v;
    match w with
    | TFail => Ret None
    | TDone s => Ret (Some s)
    | TFields ch =>
      do rs <- collect (text k m (v :: anc)) ch;
      do out <- fields_text (combine (map value_name ch) rs) None;
      match out with
      | None => Ret None
      | Some out =>
        if anonymous v then Ret (Some (opt_text out))
        else do s <- fmt "{%s}" [Some (opt_text out)]; Ret (Some s)
      end
    | TItems ch =>
      do rs <- collect (text k m (v :: anc)) ch;
      do out <- items_text rs None;
      match out with
      | None => Ret None
      | Some out => do s <- fmt "{%s}" [Some (opt_text out)]; Ret (Some s)
      end
    | TPtr arr =>
      do a <- text k m (v :: anc) arr;
      pointer_end k m arr a
    end
  end.
(** value_string.c:113-118 metac_value_string_ex *)
Definition value_string_ex (fuel : nat) (m : mem) (v : option value) : res (option string) :=
  match v with None => Ret None | Some v => text fuel m [] v end.
End Text.

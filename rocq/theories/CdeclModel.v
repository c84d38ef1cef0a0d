(** Executable model of src/entry_cdecl.c: metac_entry_cdecl, the C declaration text of an entry.

    Strings are Coq strings (no NUL inside). The recursive iterator is replaced by structural recursion on
    [fuel] (C05-C08 are about the iterator itself): the dependencies a task asks for are computed first, in
    order, then the task goes on with their texts. Simplification: allocation never fails here (on failure
    the code frees what it holds and reports NULL, except that typedefs and base types call
    metac_recursive_iterator_done after metac_recursive_iterator_fail, src/entry_cdecl.c:62-65, which
    fails an assert); texts still queued when a subprogram fails are leaked by the code and not tracked. *)
From Coq Require Import ZArith String Ascii List Bool DecimalString.
From Verif Require Import Base EntryModel.
Import ListNotations.
Open Scope Z_scope.
Local Open Scope res_scope.
Local Open Scope string_scope.

(** vsnprintf as used by dsprintf (include/metac/backend/string.h:9-29): only the directives %s and %% are
    modelled; %ld, PRId64 and PRIu64 arguments are passed as their decimal text. A missing or NULL argument
    and any other directive are [Ub]. *)
Fixpoint fmt (f : string) (args : list (option string)) : res string :=
  match f with
  | EmptyString => Ret ""
  | String c f' =>
    if Ascii.eqb c "%" then
      match f' with
      | String c2 f2 =>
        if Ascii.eqb c2 "s" then
          match args with
          | Some a :: r => do x <- fmt f2 r; Ret (a ++ x)
          | _ => Ub
          end
        else if Ascii.eqb c2 "%" then do x <- fmt f2 args; Ret (String "%" x)
        else Ub
      | EmptyString => Ub
      end
    else do x <- fmt f' args; Ret (String c x)
  end.

(** %ld and PRId64/PRIu64 *)
Definition dec (z : Z) : string := NilZero.string_of_int (Z.to_int z).

(** include/metac/backend/string.h:31-46 trim_trailing_spaces *)
Fixpoint trim (s : string) : string :=
  match s with
  | EmptyString => ""
  | String c s' => let t := trim s' in
      match t with
      | EmptyString => if Ascii.eqb c " " then "" else String c ""
      | _ => String c t
      end
  end.

(** src/entry_cdecl.c:174-181 *)
Definition qual_str (q : qual) : string :=
  match q with QConst => "const %s" | QVolatile => "volatile %s" | QRestrict => "restrict %s"
             | QMutable => "mutable %s" | QShared => "shared %s" | QPacked => "packed %s" end.

(** src/entry_cdecl.c:71-86 the loop over enumerators; [val] is NULL at first *)
Fixpoint enumerators (l : list (option string * Z)) (val : option string) : res (option string) :=
  match l with
  | [] => Ret val
  | (n, v) :: r =>
    do x <- fmt "%s%s%s = %s," [Some (match val with None => "" | Some s => s end);
                                Some (match val with None => "" | Some _ => " " end); n; Some (dec v)];
    enumerators r (Some x)
  end.

(** src/entry_cdecl.c:274-325 the loop over the fields with the texts of their types; outer [None]: failure *)
Fixpoint fields (l : list (minfo * option string * option string)) (acc : option string) : res (option (option string)) :=
  match l with
  | [] => Ret (Some acc)
  | (_, _, None) :: _ => Ret None
  | (m, n, Some pat) :: r =>
    do name <- match n with
               | None => Ret None
               | Some x => match m_bit_size m with
                           | Some b => do y <- fmt "%s:%s" [Some x; Some (dec b)]; Ret (Some y)
                           | None => do y <- fmt "%s" [Some x]; Ret (Some y)
                           end
               end;
    do f <- fmt pat [Some (match name with Some y => y | None => "" end)];
    do a <- fmt "%s%s; " [Some (match acc with Some y => y | None => "" end); Some (trim f)];
    fields r (Some a)
  end.

(** src/entry_cdecl.c:386-428 and 502-541 the loop over parameters: [Some (Some (pat, name))] a parameter
    whose type has the text [pat], [Some None] "...", [None] failure *)
Fixpoint params (l : list (option (option (string * string)))) (acc : option string) : res (option (option string)) :=
  match l with
  | [] => Ret (Some acc)
  | None :: _ => Ret None
  | Some p :: r =>
    do x <- match p with
            | Some (pat, name) => do f <- fmt pat [Some name]; Ret (trim f)
            | None => Ret "..."
            end;
    do a <- fmt "%s%s%s" [Some (match acc with Some y => y | None => "" end);
                          Some (match acc with Some _ => ", " | None => "" end); Some x];
    params r (Some a)
  end.

(** results of the dependencies of a task, in order *)
Fixpoint collect {A B} (f : A -> res B) (l : list A) : res (list B) :=
  match l with
  | [] => Ret []
  | a :: r => do b <- f a; do bs <- collect f r; Ret (b :: bs)
  end.

(** src/entry_cdecl.c:17-591 metac_entry_cdecl: [None] is NULL *)
Fixpoint cdecl (fuel : nat) (d : db) (p : eptr) : res (option string) :=
  match fuel with
  | O => OutOfFuel
  | S g =>
    let e := deref d p in
    (* text of the type a pointer in the entry refers to; a NULL pointer is used as "void %s" *)
    let sub (t : option ref) : res (option string) :=
      match t with None => Ret (Some "void %s") | Some r => cdecl g d (St r) end in
    (* the parameter [r] of a function; [named] whether its name is printed *)
    let param (named : bool) (r : ref) : res (option (option (string * string))) :=
      match e_info (d r) with
      | IParam true _ => Ret (Some None)
      | IParam false None => Ret None
      | IParam false (Some t) =>
          do s <- cdecl g d (St t);
          Ret (match s with
               | None => None
               | Some pat => Some (Some (pat, if named then match e_name (d r) with Some n => n | None => "" end else ""))
               end)
      | _ => Abort
      end in
    let some (x : res string) : res (option string) := do s <- x; Ret (Some s) in
    match e_info e with
    | IVariable t =>                                                        (* 27-58 *)
        do s <- sub t;
        match s with None => Ret None | Some pat => some (fmt pat [e_name e]) end
    | ITypedef _ | IBase _ _ => some (fmt "%s %%s" [e_name e])              (* 59-67 *)
    | IEnum _ l =>                                                          (* 69-108 *)
        match e_name e with
        | None => do v <- enumerators l None;
                  some (fmt "enum {%s} %%s" [Some (match v with Some x => x | None => "" end)])
        | Some n => some (fmt "enum %s %%s" [Some n])
        end
    | IArray t count =>                                                     (* 110-146 *)
        do s <- sub t;
        match s with
        | None => Ret None
        | Some pat =>
          do size <- (if (0 <=? count)%Z then fmt "%%s[%s]" [Some (dec count)] else Ret "%s[]");
          some (fmt pat [Some size])
        end
    | IQual q t =>                                                          (* 148-206 *)
        do s <- sub t;
        match s with
        | None => Ret None
        | Some pat =>
          match t with
          | Some r => match e_info (d r) with
                      | IPointer _ => some (fmt pat [Some (qual_str q)])
                      | _ => some (fmt (qual_str q) [Some pat])
                      end
          | None => some (fmt (qual_str q) [Some pat])
          end
        end
    | IPointer t =>                                                         (* 208-238 *)
        do s <- sub t;
        match s with None => Ret None | Some pat => some (fmt pat [Some "* %s"]) end
    | IAggr AClass _ _ => Ret None                                          (* 582-585 *)
    | IAggr k _ l =>                                                        (* 240-358 *)
        let kw := match k with AStruct => "struct" | _ => "union" end in
        match e_name e with
        | Some n => some (fmt "%s %s %%s" [Some kw; Some n])
        | None =>
          do fs <- collect (fun r => match e_info (d r) with
                                     | IMember m => do s <- sub (m_type m); Ret (m, e_name (d r), s)
                                     | _ => Ub
                                     end) l;
          do x <- fields fs None;
          match x with
          | None => Ret None
          | Some v => some (fmt "%s {%s} %%s" [Some kw; Some (match v with Some y => y | None => "" end)])
          end
        end
    | ISubprogram t l =>                                                    (* 360-465 *)
        do s <- sub t;
        do ps <- collect (param true) (filter (fun r => match e_info (d r) with IParam _ _ => true | _ => false end) l);
        match s with
        | None => Ret None
        | Some pat =>
          do x <- params ps None;
          match x with
          | None => Ret None
          | Some v =>
            do f <- fmt "%s(%s)" [Some pat; Some "%s"];
            some (fmt f [e_name e; Some (match v with Some y => y | None => "" end)])
          end
        end
    | ISubroutine t l =>                                                    (* 467-580 *)
        do s <- sub t;
        do ps <- collect (param false) l;
        match s with
        | None => Ret None
        | Some pat =>
          do x <- params ps None;
          match x with
          | None => Ret None
          | Some v =>
            do f <- fmt "%s(%s)" [Some pat; Some "%s"];
            some (fmt f [Some "(%s)"; Some (match v with Some y => y | None => "" end)])
          end
        end
    | IReference _ _ _ | IMember _ | IParam _ _ | IOther _ => Ret None      (* 582-585 *)
    end
  end.

(** src/entry_cdecl.c:17-20: the entry point *)
Definition entry_cdecl (fuel : nat) (d : db) (p : option eptr) : res (option string) :=
  match p with None => Ret None | Some e => cdecl fuel d e end.

(** Specification of the texts of function calls: a reader of C call expressions that knows nothing about the value, and
    what a captured call contains. Of the model only the data types are used; TextSpec says what values show. *)
From Coq Require Import ZArith String Ascii List Bool DecimalString HexString.
From Verif Require Import Base EntryModel EntrySpec ValueModel ValueSpec DeepModel DeepSpec CdeclModel CdeclSpec TextSpec.
Import ListNotations.
Open Scope Z_scope.
Local Open Scope string_scope.

(** * Reading *)
(** An argument: a value, or VA_LIST with the arguments of the list. A call: the function by name, or what is called
    through a pointer: (name)(...). *)
Inductive argument := AOne (r : reading) | AList (l : list reading).
Record call := Call { c_direct : bool; c_name : string; c_args : list argument }.

(** a text up to the next comma or closing parenthesis *)
Fixpoint arg_word (s : string) : string * string :=
  match s with
  | EmptyString => ("", "")
  | String c r => if Ascii.eqb c "," || Ascii.eqb c ")" then ("", s) else let (w, q) := arg_word r in (String c w, q)
  end.
(** a value at the beginning of a text, and the rest *)
Fixpoint read_one (k : nat) (s : string) : option (reading * string) :=
  match k with
  | O => None
  | S k =>
    match s with
    | EmptyString => None
    | String c r =>
      if Ascii.eqb c "{" || Ascii.eqb c """" || Ascii.eqb c "'" then read k s
      else if Ascii.eqb c "(" then
        match type_of O r with
        | Some (ty, r2) => option_map (fun p => (RCast ty (fst p), snd p)) (read_one k r2)
        | None => None
        end
      else let (w, q) := arg_word s in if String.eqb w "" then None else Some (classify w, q)
    end
  end.
(** things separated by a comma and a space, up to the closing parenthesis *)
Fixpoint read_seq {A} (one : string -> option (A * string)) (k : nat) (s : string) : option (list A * string) :=
  match k with
  | O => None
  | S k =>
    match one s with
    | Some (x, String c r) =>
      if Ascii.eqb c ")" then Some ([x], r)
      else if Ascii.eqb c "," then
        match r with
        | String c2 r2 => if Ascii.eqb c2 " " then option_map (fun p => (x :: fst p, snd p)) (read_seq one k r2) else None
        | EmptyString => None
        end
      else None
    | _ => None
    end
  end.
Definition read_arg (k : nat) (s : string) : option (argument * string) :=
  if String.prefix "VA_LIST(" s
  then option_map (fun p => (AList (fst p), snd p)) (read_seq (read_one k) k (String.substring 8 (String.length s - 8) s))
  else option_map (fun p => (AOne (fst p), snd p)) (read_one k s).
(** the arguments, up to the end of the text *)
Definition read_args (k : nat) (s : string) : option (list argument) :=
  if String.eqb s ")" then Some []
  else match read_seq (read_arg k) k s with Some (l, "") => Some l | _ => None end.
(** a name up to the opening parenthesis *)
Fixpoint fun_name (s : string) : option (string * string) :=
  match s with
  | EmptyString => None
  | String c r => if Ascii.eqb c "(" then Some ("", r) else option_map (fun p => (String c (fst p), snd p)) (fun_name r)
  end.
Definition read_call (k : nat) (s : string) : option call :=
  match s with
  | EmptyString => None
  | String c r =>
    if Ascii.eqb c "(" then
      match type_of O r with
      | Some (nm, String c2 r2) => if Ascii.eqb c2 "(" then option_map (Call false nm) (read_args k r2) else None
      | _ => None
      end
    else match fun_name s with Some (nm, r) => option_map (Call true nm) (read_args k r) | None => None end
  end.
(** The whole text [s] is the call [c]. *)
Definition says_call (s : string) (c : call) : Prop := exists k, read_call k s = Some c.

(** * What can be written without ambiguity *)
Definition arg_char (c : ascii) : Prop := c <> ","%char /\ c <> ")"%char /\ c <> "("%char.
Fixpoint arg_readable (r : reading) : Prop :=
  match r with
  | RWord w => chars arg_char w /\ plain_word w
  | RCast ty x => balanced 0 ty /\ arg_readable x
  | _ => readable r
  end.
Definition argument_readable (a : argument) : Prop :=
  match a with AOne r => arg_readable r | AList l => Forall arg_readable l end.
Definition call_readable (c : call) : Prop :=
  Forall argument_readable (c_args c) /\
  if c_direct c then chars (fun x => x <> "("%char) (c_name c) /\ c_name c <> "" else balanced 0 (c_name c).

(** * What a captured call contains *)
Section ShowsCall.
Variable E : env.
Variables tagged deep : bool.
Variable float_text : ValueModel.ctype -> Z -> string.
Variable loads : Z -> list value.        (* the items captured in the storage at an address *)
Let d := en_db E.

(** the texts by which va_list is recognized *)
Definition va_list_text (s : string) : Prop := s = "va_list %s" \/ s = "struct __va_list_tag * %s".
(** An ellipsis, a parameter of type va_list, anything else that is not a function. *)
Definition ellipsis (v : value) : Prop := exists t, e_info (deref d (v_entry v)) = IParam true t.
Definition va_list (v : value) : Prop :=
  exists t s, e_info (deref d (v_entry v)) = IParam false t /\ va_list_text s /\ returns (fun k => entry_cdecl k d (lift t)) (Some s).
Definition simple (v : value) : Prop :=
  (forall t l, ~ has_info d v (ISubprogram t l) /\ ~ has_info d v (ISubroutine t l)) /\
  match e_info (deref d (v_entry v)) with
  | IParam true _ => False
  | IParam false t => exists o, returns (fun k => entry_cdecl k d (lift t)) o /\ forall s, o = Some s -> ~ va_list_text s
  | _ => True
  end.
Definition parameter (v : value) : Prop := exists u t, e_info (deref d (v_entry v)) = IParam u t.

(** The type of a value as text: its declaration without a name and without spaces at the end. *)
Definition type_text (w : value) (ty : string) : Prop :=
  exists a b, returns (fun k => entry_cdecl k d (Some (v_entry w))) (Some (a ++ "%s" ++ b)) /\ no_percent a /\ no_percent b /\
    trimmed (a ++ b) ty.
(** Values behind an ellipsis or in a va_list are shown with their types, except strings. *)
Inductive shows_typed (m : mem) (anc : list value) (w : value) : reading -> Prop :=
| ty_string l ty : simple w -> shows E tagged deep float_text m anc w (SValue (RText l)) -> type_text w ty -> shows_typed m anc w (RText l)
| ty_other r ty : simple w -> shows E tagged deep float_text m anc w (SValue r) -> (forall l, r <> RText l) -> type_text w ty -> shows_typed m anc w (RCast ty r).
(** The arguments shown for one captured item. *)
Definition items_of (v : value) (l : list value) : Prop := loads (v_addr v) = l /\ Forall (fun w => v_addr w <> 0) l.
Inductive shows_arg (m : mem) (anc : list value) (v : value) : list argument -> Prop :=
| sa_value r : simple v -> shows E tagged deep float_text m anc v (SValue r) -> shows_arg m anc v [AOne r]
| sa_dots l rs : ellipsis v -> items_of v l -> l <> [] -> Forall2 (shows_typed m (v :: anc)) l rs -> shows_arg m anc v (map AOne rs)
| sa_list l rs : va_list v -> items_of v l -> l <> [] -> Forall2 (shows_typed m (v :: anc)) l rs -> shows_arg m anc v [AList rs].
Inductive shows_call (m : mem) (v : value) : call -> Prop :=
| sc_function t ps nm l args : has_info d v (ISubprogram t ps) -> ~ parameter v -> name_is E v (Some nm) -> items_of v l ->
    Forall2 (shows_arg m [v]) l args -> shows_call m v (Call true nm (concat args))
| sc_pointer t ps nm l args : has_info d v (ISubroutine t ps) -> ~ parameter v -> name_is E v (Some nm) -> items_of v l ->
    Forall2 (shows_arg m [v]) l args -> shows_call m v (Call false nm (concat args)).

(** * Well-formed calls *)
(** Arguments are neither functions nor members nor skipped arrays; behind an ellipsis and in a va_list they have C types. *)
Definition argument_ok (m : mem) (anc : list value) (w : value) : Prop :=
  simple w /\ (forall a x, met_from E tagged deep m anc w a x -> proper E tagged deep m a x) /\ ~ anonymous_member E w /\ ~ skipped E tagged m anc w.
Definition typed_ok (m : mem) (anc : list value) (w : value) : Prop :=
  argument_ok m anc w /\ clean (deref d (v_entry w)) /\ exists T, is_type d (Some (v_entry w)) T.
Definition item_ok (m : mem) (anc : list value) (v : value) : Prop :=
  argument_ok m anc v \/ (ellipsis v \/ va_list v) /\ Forall (typed_ok m (v :: anc)) (loads (v_addr v)).
Definition function_value (v : value) : Prop :=
  (exists t ps, has_info d v (ISubprogram t ps) \/ has_info d v (ISubroutine t ps)) /\ ~ parameter v.
Definition call_ok (m : mem) (v : value) : Prop := function_value v /\ Forall (item_ok m [v]) (loads (v_addr v)).
(** Nothing that stops the program: besides what [calm] excludes, functions without name and va_lists without arguments. *)
Definition calm_from (m : mem) (anc : list value) (w : value) : Prop := forall a x, met_from E tagged deep m anc w a x -> calm E m x.
Definition calm_item (m : mem) (anc : list value) (v : value) : Prop :=
  (simple v -> calm_from m anc v) /\ (va_list v -> loads (v_addr v) <> []) /\
  (ellipsis v \/ va_list v -> Forall (calm_from m (v :: anc)) (loads (v_addr v))).
Definition calm_call (m : mem) (v : value) : Prop := (exists nm, name_is E v (Some nm)) /\ Forall (calm_item m [v]) (loads (v_addr v)).
End ShowsCall.

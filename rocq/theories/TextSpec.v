(** Specification of the texts of values: what a text of C initializer form says (a reader that knows nothing about the
    value), and what a value contains. *)
From Coq Require Import ZArith String Ascii List Bool DecimalString HexString.
From Verif Require Import Base EntryModel EntrySpec ValueModel ValueSpec DeepModel DeepSpec EscapeSpec CdeclModel CdeclSpec.
Import ListNotations.
Open Scope Z_scope.
Local Open Scope string_scope.

(** * Reading *)
(** What can be written: numbers, words (enumerators, true, NULL, floating point numbers), addresses, characters, strings,
    lists, lists of named fields, compound literals. *)
Inductive reading :=
| RNum (z : Z)
| RWord (w : string)
| RAddr (p : Z)
| RChar (c : Z)
| RText (l : list Z)
| RList (l : list reading)
| RFields (l : list (string * reading))
| RCast (type : string) (r : reading).

(** a text up to the next comma or closing brace *)
Fixpoint word_of (s : string) : string * string :=
  match s with
  | EmptyString => ("", "")
  | String c r => if Ascii.eqb c "," || Ascii.eqb c "}" then ("", s) else let (w, q) := word_of r in (String c w, q)
  end.
Definition classify (w : string) : reading :=
  match NilZero.int_of_string w with
  | Some i => RNum (Z.of_int i)
  | None => if String.prefix "0x" w then RAddr (HexString.to_Z w) else RWord w
  end.
(** a name up to the next space *)
Fixpoint name_of (s : string) : option (string * string) :=
  match s with
  | EmptyString => None
  | String c r => if Ascii.eqb c " " then Some ("", r) else option_map (fun p => (String c (fst p), snd p)) (name_of r)
  end.
(** the rest of a string literal; codes of characters *)
Definition code (c : ascii) : Z := Z.of_N (N_of_ascii c).
Fixpoint literal_of (s : string) : option (list Z * string) :=
  match s with
  | EmptyString => None
  | String c r =>
    if (code c =? 34)%Z then Some ([], r)
    else if (code c =? 92)%Z then
      match r with
      | EmptyString => None
      | String e q => match unescape1 (code e), literal_of q with Some x, Some (l, t) => Some (x :: l, t) | _, _ => None end
      end
    else option_map (fun p => (code c :: fst p, snd p)) (literal_of r)
  end.
(** the type name of a compound literal: up to the closing parenthesis that matches *)
Fixpoint type_of (depth : nat) (s : string) : option (string * string) :=
  match s with
  | EmptyString => None
  | String c r =>
    if Ascii.eqb c ")" then
      match depth with O => Some ("", r) | S k => option_map (fun p => (String c (fst p), snd p)) (type_of k r) end
    else option_map (fun p => (String c (fst p), snd p)) (type_of (if Ascii.eqb c "(" then S depth else depth) r)
  end.

(** A value at the beginning of a text, and the rest of the text. Lists: "{1, 2,}", fields: "{.a = 1, .b = 2,}". A quoted
    character that is a quote or a backslash is not valid C. *)
Fixpoint read (k : nat) (s : string) : option (reading * string) :=
  match k with
  | O => None
  | S k =>
    match s with
    | EmptyString => None
    | String c r =>
      if Ascii.eqb c "{" then
        match r with
        | EmptyString => None
        | String c2 r2 =>
          if Ascii.eqb c2 "}" then Some (RList [], r2)
          else if Ascii.eqb c2 "." then option_map (fun p => (RFields (fst p), snd p)) (read_fields k r)
          else option_map (fun p => (RList (fst p), snd p)) (read_items k r)
        end
      else if Ascii.eqb c """" then option_map (fun p => (RText (fst p), snd p)) (literal_of r)
      else if Ascii.eqb c "'" then
        match r with
        | String x (String q r2) =>
          if Ascii.eqb q "'" && negb (Ascii.eqb x "'") && negb (Ascii.eqb x "\") then Some (RChar (code x), r2) else None
        | _ => None
        end
      else if Ascii.eqb c "(" then
        match type_of O r with
        | Some (ty, r2) => option_map (fun p => (RCast ty (fst p), snd p)) (read k r2)
        | None => None
        end
      else let (w, q) := word_of s in if String.eqb w "" then None else Some (classify w, q)
    end
  end
with read_items (k : nat) (s : string) : option (list reading * string) :=
  match k with
  | O => None
  | S k =>
    match read k s with
    | Some (x, String c r) =>
      if Ascii.eqb c "," then
        match r with
        | EmptyString => None
        | String c2 r2 =>
          if Ascii.eqb c2 "}" then Some ([x], r2)
          else if Ascii.eqb c2 " " then option_map (fun p => (x :: fst p, snd p)) (read_items k r2)
          else None
        end
      else None
    | _ => None
    end
  end
with read_fields (k : nat) (s : string) : option (list (string * reading) * string) :=
  match k with
  | O => None
  | S k =>
    match s with
    | EmptyString => None
    | String c r =>
      if Ascii.eqb c "." then
        match name_of r with
        | Some (nm, String c1 (String c2 r1)) =>
          if Ascii.eqb c1 "=" && Ascii.eqb c2 " " then
            match read k r1 with
            | Some (x, String c r) =>
              if Ascii.eqb c "," then
                match r with
                | EmptyString => None
                | String c2 r2 =>
                  if Ascii.eqb c2 "}" then Some ([(nm, x)], r2)
                  else if Ascii.eqb c2 " " then option_map (fun p => ((nm, x) :: fst p, snd p)) (read_fields k r2)
                  else None
                end
              else None
            | _ => None
            end
          else None
        | _ => None
        end
      else None
    end
  end.
(** The whole text [s] says [r]. *)
Definition says (s : string) (r : reading) : Prop := exists k, read k s = Some (r, "").

(** * What can be written without ambiguity *)
(** Words: not empty, no comma, no closing brace, not beginning like something else and not a number. *)
Definition word_char (c : ascii) : Prop := c <> ","%char /\ c <> "}"%char.
Definition word_start (c : ascii) : Prop := ~ In c ["{"; """"; "'"; "("; "."]%char.
Definition plain_word (w : string) : Prop :=
  chars word_char w /\ (exists c r, w = String c r /\ word_start c) /\
  NilZero.int_of_string w = None /\ String.prefix "0x" w = false.
Definition plain_name (w : string) : Prop := chars (fun c => c <> " "%char) w.
(** Parentheses that match. *)
Fixpoint balanced (depth : nat) (s : string) : Prop :=
  match s with
  | EmptyString => depth = O
  | String c r =>
    if Ascii.eqb c ")" then match depth with O => False | S k => balanced k r end
    else balanced (if Ascii.eqb c "(" then S depth else depth) r
  end.
Fixpoint readable (r : reading) : Prop :=
  match r with
  | RNum _ => True
  | RWord w => plain_word w
  | RAddr p => 0 <= p
  | RChar c => c <> 39 /\ c <> 92
  | RText _ => True
  | RList l => (fix all l := match l with [] => True | x :: q => readable x /\ all q end) l
  | RFields l => (fix all l := match l with [] => True | (nm, x) :: q => plain_name nm /\ readable x /\ all q end) l
  | RCast ty x => balanced 0 ty /\ readable x
  end.

(** * What a value contains *)
Section Shows.
Variable E : env.
Variables tagged deep : bool.
Variable float_text : ValueModel.ctype -> Z -> string.
Let d := en_db E.

(** the object of type [c]: its bytes, or the bits of the bit-field *)
Inductive object (m : mem) (v : value) (c : ValueModel.ctype) : Z -> Prop :=
| ob_plain : has_ctype d v c -> ValueSpec.plain d v -> object m v c (number_at m (v_addr v) (Z.to_nat (ct_size c)))
| ob_field mi dbo bs x : has_ctype d v c -> c <> CChar -> c_integer c -> e_info (deref d (v_entry v)) = IMember mi ->
    field_at mi dbo bs -> 1 <= bs <= 30 -> ValueSpec.within dbo bs (ct_size c) ->
    is_field m (v_addr v - m_byte_offset mi) dbo bs (ct_signed c) (ct_size c) x -> object m v c x.

(** Scalars and pointers that are not followed. *)
Inductive scalar (m : mem) (anc : list value) (v : value) : reading -> Prop :=
| sc_char x y : object m v CChar x -> denotes CChar x y -> 32 <= y <= 126 -> scalar m anc v (RChar y)
| sc_byte x y : object m v CChar x -> denotes CChar x y -> ~ 32 <= y <= 126 -> scalar m anc v (RNum y)
| sc_integer c x y : object m v c x -> c_integer c -> c <> CChar -> c <> CBool -> denotes c x y -> scalar m anc v (RNum y)
| sc_true : object m v CBool 1 -> scalar m anc v (RWord "true")
| sc_false : object m v CBool 0 -> scalar m anc v (RWord "false")
| sc_float c x : object m v c x -> ~ c_integer c -> scalar m anc v (RWord (float_text c x))
| sc_enumerator z l n : enum_type d v z l -> In z [1; 2; 4; 8] ->
    first_name l (as_signed (8 * z) (number_at m (v_addr v) (Z.to_nat z))) (Some n) -> scalar m anc v (RWord n)
| sc_enum z l y : enum_type d v z l -> In z [1; 2; 4; 8] -> y = as_signed (8 * z) (number_at m (v_addr v) (Z.to_nat z)) ->
    first_name l y None -> scalar m anc v (RNum y)
| sc_null t : points d m v t 0 -> scalar m anc v (RWord "NULL")
| sc_shallow t p : points d m v t p -> p <> 0 -> deep = false -> scalar m anc v (RAddr p)
| sc_void p : points d m v None p -> p <> 0 -> deep = true -> no_loop d m anc p ->
    (tagged = true -> en_handler E m RQVST_pointer_array_count (v :: anc) = Ret (0, None)) -> scalar m anc v (RAddr p).

(** The array shown for a pointer in deep mode: no pointer on the way leads to the same place. *)
Inductive followed (m : mem) (anc : list value) (v : value) : value -> Prop :=
| fo_handled t p w : points d m v t p -> p <> 0 -> deep = true -> no_loop d m anc p -> tagged = true ->
    en_handler E m RQVST_pointer_array_count (v :: anc) = Ret (0, Some w) -> v_addr w = p -> followed m anc v w
| fo_one t p : points d m v (Some t) p -> p <> 0 -> deep = true -> no_loop d m anc p ->
    (tagged = true -> en_handler E m RQVST_pointer_array_count (v :: anc) = Ret (0, None)) -> followed m anc v (array_at t 1 p).
(** The members of a struct, the chosen member of a union (none: nothing is known about it). *)
Inductive parts (m : mem) (anc : list value) (v : value) : list value -> Prop :=
| pa_struct z l ch : has_info d v (IAggr AStruct z l) -> Forall2 (member_is d v) l ch -> parts m anc v ch
| pa_chosen z l w : has_info d v (IAggr AUnion z l) -> l <> [] -> tagged = true ->
    en_handler E m RQVST_union_member (v :: anc) = Ret (0, Some w) -> parts m anc v [w]
| pa_unknown z l : has_info d v (IAggr AUnion z l) ->
    (l <> [] -> tagged = true -> en_handler E m RQVST_union_member (v :: anc) = Ret (0, None)) -> parts m anc v [].
(** The array itself, or for a flexible one what the handler says (without tag map: no element). *)
Inductive array_of (m : mem) (anc : list value) (v : value) : value -> Prop :=
| ar_known t c : has_info d v (IArray t c) -> int_of c <> -1 -> array_of m anc v v
| ar_handled t c w : has_info d v (IArray t c) -> int_of c = -1 -> tagged = true ->
    en_handler E m RQVST_flex_array_count (v :: anc) = Ret (0, Some w) -> array_of m anc v w
| ar_empty t c : has_info d v (IArray (Some t) c) -> int_of c = -1 -> tagged = false -> v_addr v <> 0 -> array_of m anc v (array_at t 0 (v_addr v)).
Definition skipped (m : mem) (anc : list value) (v : value) : Prop :=
  exists t c, has_info d v (IArray t c) /\ int_of c = -1 /\ tagged = true /\
    en_handler E m RQVST_flex_array_count (v :: anc) = Ret (0, None).
(** An array of char holding a terminated text of printable characters (shorter than 2^30, see C17). *)
Definition char_array (w : value) (c : Z) : Prop :=
  exists r e b s, has_info d w (IArray (Some r) c) /\ final_type d (Some (St r)) (Some e) /\ e_info (deref d e) = IBase b s /\
    e_name (deref d e) = Some "char".
Definition text_in (m : mem) (w : value) (l : list Z) : Prop :=
  exists c, char_array w c /\ l <> [] /\ Forall presentable l /\ int_of c = Z.of_nat (length l) + 1 /\ int_of c < 2 ^ 30 /\
    forall i, (i <= length l)%nat -> as_signed 8 (m (v_addr w + Z.of_nat i)) = nth i l 0.
(** The type of a compound literal as text: the declaration of an array of the elements, without name. *)
Definition literal_type (t : ref) (ty : string) : Prop :=
  exists a b, returns (fun k => entry_cdecl k d (Some (Dy (Build_entry None false (IArray (Some t) (-1)))))) (Some (a ++ "%s" ++ b)) /\
    no_percent a /\ no_percent b /\ ty = a ++ b.

(** A value is shown as a reading, or as fields of the surrounding struct when it is an anonymous member, or it is left out. *)
Inductive shown := SNothing | SFields (l : list (string * reading)) | SValue (r : reading).
Definition name_is (v : value) (n : option string) : Prop := e_name (deref d (v_entry v)) = n.
Definition anonymous_member (v : value) : Prop := name_is v None /\ exists mi, e_info (deref d (v_entry v)) = IMember mi.
Definition braces (l : list (string * reading)) : reading := match l with [] => RList [] | _ => RFields l end.
Inductive shows (m : mem) : list value -> value -> shown -> Prop :=
| sh_scalar anc v r : scalar m anc v r -> shows m anc v (SValue r)
| sh_skipped anc v : skipped m anc v -> shows m anc v SNothing
| sh_text anc v w l : array_of m anc v w -> text_in m w l -> shows m anc v (SValue (RText l))
| sh_list anc v w ch l : array_of m anc v w -> (forall l, ~ text_in m w l) -> (forall c, char_array w c -> int_of c < 2 ^ 30) ->
    elements_are d w ch -> shows_items m (v :: anc) ch l -> shows m anc v (SValue (RList l))
| sh_struct anc v ch l : parts m anc v ch -> shows_fields m (v :: anc) ch l -> ~ anonymous_member v ->
    shows m anc v (SValue (braces l))
| sh_anonymous anc v ch l : parts m anc v ch -> shows_fields m (v :: anc) ch l -> anonymous_member v -> shows m anc v (SFields l)
| sh_string anc v w t c ty l : followed m anc v w -> shows m (v :: anc) w (SValue (RText l)) ->
    has_info d w (IArray (Some t) c) -> literal_type t ty -> shows m anc v (SValue (RText l))
| sh_target anc v w t c ty r : followed m anc v w -> shows m (v :: anc) w (SValue r) -> (forall l, r <> RText l) ->
    has_info d w (IArray (Some t) c) -> literal_type t ty -> shows m anc v (SValue (RCast ty r))
with shows_items (m : mem) : list value -> list value -> list reading -> Prop :=
| si_nil anc : shows_items m anc [] []
| si_cons anc w ch r l : shows m anc w (SValue r) -> shows_items m anc ch l -> shows_items m anc (w :: ch) (r :: l)
with shows_fields (m : mem) : list value -> list value -> list (string * reading) -> Prop :=
| sf_nil anc : shows_fields m anc [] []
| sf_named anc w ch n r l : shows m anc w (SValue r) -> name_is w (Some n) -> shows_fields m anc ch l ->
    shows_fields m anc (w :: ch) ((n, r) :: l)
| sf_inner anc w ch l' l : shows m anc w (SFields l') -> shows_fields m anc ch l -> shows_fields m anc (w :: ch) (l' ++ l)
| sf_skipped anc w ch l : shows m anc w SNothing -> shows_fields m anc ch l -> shows_fields m anc (w :: ch) l.

(** * Well-formed data *)
(** The values looked at when the text of [v] is made, each with the values on the way to it, nearest first; [a0] is the way
    to [v] itself. *)
Inductive met_from (m : mem) (a0 : list value) (v : value) : list value -> value -> Prop :=
| me_here : met_from m a0 v a0 v
| me_part anc x ch y : met_from m a0 v anc x -> parts m anc x ch -> In y ch -> met_from m a0 v (x :: anc) y
| me_element anc x w ch y : met_from m a0 v anc x -> array_of m anc x w -> elements_are d w ch -> In y ch -> met_from m a0 v (x :: anc) y
| me_target anc x w : met_from m a0 v anc x -> followed m anc x w -> met_from m a0 v (x :: anc) w.
Definition met (m : mem) (v : value) := met_from m [] v.
Record proper (m : mem) (anc : list value) (w : value) : Prop := {
  (* bit-fields as in an unpacked struct *)
  pr_field : forall c mi, has_ctype d w c -> e_info (deref d (v_entry w)) = IMember mi -> ValueSpec.plain d w \/
    exists dbo bs, c <> CChar /\ c_integer c /\ field_at mi dbo bs /\ 1 <= bs <= 30 /\ ValueSpec.within dbo bs (ct_size c);
  pr_enum : forall z l, enum_type d w z l -> In z [1; 2; 4; 8] /\ forall x, ~ In (Some "", x) l;
  (* members have names or are anonymous structs and unions *)
  pr_parts : forall ch y, parts m anc w ch -> In y ch ->
    (exists n, name_is y (Some n)) \/ anonymous_member y /\ exists k z l, has_info d y (IAggr k z l);
  (* the handler of flexible arrays gives an array; char arrays are not huge (see C17); no flexible arrays as elements *)
  pr_array : forall a, array_of m anc w a ->
    (exists t c, has_info d a (IArray t c)) /\ (forall c, char_array a c -> int_of c < 2 ^ 30) /\
    forall ch y, elements_are d a ch -> In y ch -> ~ anonymous_member y /\ ~ skipped m (w :: anc) y;
  (* pointers lead to arrays of C types *)
  pr_target : forall a, followed m anc w a -> ~ anonymous_member a /\ ~ skipped m (w :: anc) a /\
    exists t c T, has_info d a (IArray (Some t) c) /\ is_type d (Some (St t)) T }.
(** Nothing that stops the program: nameless base types (assert), bool objects with another value than 0 and 1; functions and
    unspecified parameters are not modelled. *)
Record calm (m : mem) (w : value) : Prop := {
  ca_named : named_types d w;
  ca_bool : forall x, object m w CBool x -> x = 0 \/ x = 1;
  ca_function : forall t l, ~ has_info d w (ISubprogram t l) /\ ~ has_info d w (ISubroutine t l);
  ca_unspecified : forall t, e_info (deref d (v_entry w)) <> IParam true t }.
End Shows.

(** * Finite declarations *)
(** The text of the declaration of [e] is made of the text of the type [t]. *)
Inductive spelled (d : db) (e : entry) : ref -> Prop :=
| sl_variable t : e_info e = IVariable (Some t) -> spelled d e t
| sl_array t c : e_info e = IArray (Some t) c -> spelled d e t
| sl_qual q t : e_info e = IQual q (Some t) -> spelled d e t
| sl_pointer t : e_info e = IPointer (Some t) -> spelled d e t
| sl_member k z l r mi t : e_name e = None -> e_info e = IAggr k z l -> In r l -> e_info (d r) = IMember mi -> m_type mi = Some t -> spelled d e t
| sl_result t l : e_info e = ISubprogram (Some t) l \/ e_info e = ISubroutine (Some t) l -> spelled d e t
| sl_param t0 l r t : e_info e = ISubprogram t0 l \/ e_info e = ISubroutine t0 l -> In r l -> e_info (d r) = IParam false (Some t) -> spelled d e t.
Definition finite_texts (d : db) (n : nat) : Prop :=
  exists rank : ref -> nat, (forall r, (rank r < n)%nat) /\ forall r t, spelled d (d r) t -> (rank t < rank r)%nat.

(** What is assumed about the database: types do not contain themselves, base types have names. *)
Record readable_db (E : env) (n0 : nat) : Prop := {
  rd_acyclic : acyclic (en_db E) n0;
  rd_fuel : en_fuel E = (n0 + 3)%nat;
  rd_garbage : bytes_ok (en_garbage E);
  rd_named : forall r z c, e_info (en_db E r) = IBase z c -> e_name (en_db E r) <> None }.
(** And for soundness: names without percent signs, floating point numbers have a text, handlers return. *)
Record printable_db (E : env) (float_text : ValueModel.ctype -> Z -> string) (n0 : nat) : Prop := {
  pd_db : readable_db E n0;
  pd_clean : forall r, clean (en_db E r);
  pd_float : forall c x, float_text c x <> "";
  pd_handler : forall m ev l, exists r, en_handler E m ev l = Ret r }.

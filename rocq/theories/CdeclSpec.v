(** Specification of declaration texts: what a type is, and what text declares a name with that type in C.
    Independent of CdeclModel except for the decimal text of a number. *)
From Coq Require Import ZArith String Ascii List Bool DecimalString.
From Verif Require Import Base EntryModel.
Import ListNotations.
Open Scope Z_scope.
Local Open Scope string_scope.

(** * Types of C, as finite terms *)
Inductive ctype :=
| TVoid
| TName (n : string)                       (* a base type or a typedef name *)
| TEnum (n : string) | TAnonEnum (l : list (string * Z))
| TAggr (union : bool) (n : string)
| TAnonAggr (union : bool) (fs : list (ctype * option string * option Z))   (* type, name, bit width *)
| TQual (q : qual) (t : ctype)
| TPtr (t : ctype)
| TArr (n : option Z) (t : ctype)          (* [None]: unknown length *)
| TFun (t : ctype) (ps : list (option ctype)).   (* [None]: the ellipsis *)

(** The type a type pointer stands for in the entry database [d]. *)
Inductive is_type (d : db) : option eptr -> ctype -> Prop :=
| it_void : is_type d None TVoid
| it_typedef : forall p n t, e_name (deref d p) = Some n -> e_info (deref d p) = ITypedef t -> is_type d (Some p) (TName n)
| it_base : forall p n s c, e_name (deref d p) = Some n -> e_info (deref d p) = IBase s c -> is_type d (Some p) (TName n)
| it_enum : forall p n s l, e_name (deref d p) = Some n -> e_info (deref d p) = IEnum s l -> is_type d (Some p) (TEnum n)
| it_anon_enum : forall p s l l', e_name (deref d p) = None -> e_info (deref d p) = IEnum s l ->
    l = map (fun x => (Some (fst x), snd x)) l' -> is_type d (Some p) (TAnonEnum l')
| it_struct : forall p n s l, e_name (deref d p) = Some n -> e_info (deref d p) = IAggr AStruct s l ->
    is_type d (Some p) (TAggr false n)
| it_union : forall p n s l, e_name (deref d p) = Some n -> e_info (deref d p) = IAggr AUnion s l ->
    is_type d (Some p) (TAggr true n)
| it_anon_struct : forall p s l fs, e_name (deref d p) = None -> e_info (deref d p) = IAggr AStruct s l ->
    are_fields d l fs -> is_type d (Some p) (TAnonAggr false fs)
| it_anon_union : forall p s l fs, e_name (deref d p) = None -> e_info (deref d p) = IAggr AUnion s l ->
    are_fields d l fs -> is_type d (Some p) (TAnonAggr true fs)
| it_qual : forall p q t T, e_info (deref d p) = IQual q t -> is_type d (lift t) T -> is_type d (Some p) (TQual q T)
| it_ptr : forall p t T, e_info (deref d p) = IPointer t -> is_type d (lift t) T -> is_type d (Some p) (TPtr T)
| it_arr : forall p t T n, e_info (deref d p) = IArray t n -> is_type d (lift t) T ->
    is_type d (Some p) (TArr (if (n <? 0)%Z then None else Some n) T)
| it_fun : forall p t T l ps, e_info (deref d p) = ISubroutine t l -> is_type d (lift t) T -> are_params d l ps ->
    is_type d (Some p) (TFun T (map (option_map fst) ps))
with are_fields (d : db) : list ref -> list (ctype * option string * option Z) -> Prop :=
| af_nil : are_fields d [] []
| af_cons : forall r m T l fs, e_info (d r) = IMember m -> is_type d (lift (m_type m)) T -> are_fields d l fs ->
    are_fields d (r :: l) ((T, e_name (d r), m_bit_size m) :: fs)
(** parameters: their types and names *)
with are_params (d : db) : list ref -> list (option (ctype * string)) -> Prop :=
| ap_nil : are_params d [] []
| ap_dots : forall r t l ps, e_info (d r) = IParam true t -> are_params d l ps -> are_params d (r :: l) (None :: ps)
| ap_cons : forall r t T l ps, e_info (d r) = IParam false (Some t) -> is_type d (Some (St t)) T -> are_params d l ps ->
    are_params d (r :: l) (Some (T, match e_name (d r) with Some n => n | None => "" end) :: ps).

(** * Declarations of C (ISO 9899, 6.7.6): [T D] where the declarator [D] wraps the declared name *)
Inductive dtor :=
| DName
| DParen (D : dtor)
| DArr (D : dtor) (n : option Z)
| DFun (D : dtor) (ps : list (option (ctype * string)))     (* parameters with the names they are given *)
| DPtr (q : option qual) (D : dtor).

(** the type "T D" gives to the name *)
Fixpoint means (D : dtor) (T : ctype) : ctype :=
  match D with
  | DName => T
  | DParen D => means D T
  | DArr D n => means D (TArr n T)
  | DFun D ps => means D (TFun T (map (option_map fst) ps))
  | DPtr None D => means D (TPtr T)
  | DPtr (Some q) D => means D (TQual q (TPtr T))
  end.
(** [] and () bind tighter than the star: they apply to a name or to something in parentheses or with a suffix *)
Definition direct (D : dtor) : Prop := match D with DPtr _ _ => False | _ => True end.
Fixpoint well_formed (D : dtor) : Prop :=
  match D with
  | DName => True
  | DParen D | DPtr _ D => well_formed D
  | DArr D _ | DFun D _ => direct D /\ well_formed D
  end.

Definition qual_word (q : qual) : string :=
  match q with QConst => "const" | QVolatile => "volatile" | QRestrict => "restrict"
             | QMutable => "mutable" | QShared => "shared" | QPacked => "packed" end.
Definition aggr_word (union : bool) : string := if union then "union" else "struct".
Definition decimal (z : Z) : string := NilZero.string_of_int (Z.to_int z).

(** [s'] is [s] without its trailing spaces *)
Definition ends_with_space (s : string) : Prop := exists x, s = x ++ " ".
Inductive spaces : string -> Prop := sp_nil : spaces "" | sp_cons : forall s, spaces s -> spaces (" " ++ s).
Definition trimmed (s s' : string) : Prop := ~ ends_with_space s' /\ exists w, spaces w /\ s = s' ++ w.

(** The text [s] declares [h] (a name, a place holder, or nothing) with type [T]. *)
Inductive declares : ctype -> string -> string -> Prop :=
| de_text : forall T0 D h sp a b, specifies T0 sp -> wraps D a b -> well_formed D ->
    declares (means D T0) h (sp ++ " " ++ a ++ h ++ b)
(** the declaration specifiers [s] name the type [T] *)
with specifies : ctype -> string -> Prop :=
| sp_void : specifies TVoid "void"
| sp_name : forall n, specifies (TName n) n
| sp_enum : forall n, specifies (TEnum n) ("enum " ++ n)
| sp_anon_enum : forall l s, enumerates l s -> specifies (TAnonEnum l) ("enum {" ++ s ++ "}")
| sp_aggr : forall u n, specifies (TAggr u n) (aggr_word u ++ " " ++ n)
| sp_anon_aggr : forall u fs s, lists_fields fs s -> specifies (TAnonAggr u fs) (aggr_word u ++ " {" ++ s ++ "}")
| sp_qual : forall q T s, specifies T s -> specifies (TQual q T) (qual_word q ++ " " ++ s)
(** the declarator [D] is written [a] before and [b] after the name *)
with wraps : dtor -> string -> string -> Prop :=
| wr_name : wraps DName "" ""
| wr_paren : forall D a b, wraps D a b -> wraps (DParen D) ("(" ++ a) (b ++ ")")
| wr_arr : forall D a b n, wraps D a b ->
    wraps (DArr D n) a (b ++ "[" ++ match n with Some z => decimal z | None => "" end ++ "]")
| wr_fun : forall D a b ps s, wraps D a b -> lists_params ps s -> wraps (DFun D ps) a (b ++ "(" ++ s ++ ")")
| wr_ptr : forall D a b, wraps D a b -> wraps (DPtr None D) ("* " ++ a) b
| wr_qptr : forall D a b q, wraps D a b -> wraps (DPtr (Some q) D) ("* " ++ qual_word q ++ " " ++ a) b
with lists_params : list (option (ctype * string)) -> string -> Prop :=
| lp_none : lists_params [] ""
| lp_one : forall p s, is_param p s -> lists_params [p] s
| lp_more : forall p q ps s t, is_param p t -> lists_params (q :: ps) s -> lists_params (p :: q :: ps) (t ++ ", " ++ s)
with is_param : option (ctype * string) -> string -> Prop :=
| ip_dots : is_param None "..."
| ip_decl : forall T h s s', declares T h s -> trimmed s s' -> is_param (Some (T, h)) s'
with lists_fields : list (ctype * option string * option Z) -> string -> Prop :=
| lf_nil : lists_fields [] ""
| lf_cons : forall fs s T n b t t',
    declares T (match n with
                | None => ""
                | Some x => match b with None => x | Some k => x ++ ":" ++ decimal k end
                end) t -> trimmed t t' -> lists_fields fs s ->
    lists_fields ((T, n, b) :: fs) (t' ++ "; " ++ s)
with enumerates : list (string * Z) -> string -> Prop :=
| en_nil : enumerates [] ""
| en_one : forall n v, enumerates [(n, v)] (n ++ " = " ++ decimal v ++ ",")
| en_more : forall l n v x s, enumerates (x :: l) s -> enumerates ((n, v) :: x :: l) (n ++ " = " ++ decimal v ++ ", " ++ s).

(** * The types whose text is right: no pointer to an array, no function returning an array, a function or a
    pointer to one, no qualifier over an array, a function or another qualifier of a pointer; the same inside
    field lists and parameter lists *)
Inductive named : ctype -> Prop :=
| nm_void : named TVoid
| nm_name : forall n, named (TName n)
| nm_enum : forall n, named (TEnum n)
| nm_anon_enum : forall l, named (TAnonEnum l)
| nm_aggr : forall u n, named (TAggr u n)
| nm_anon_aggr : forall u fs, regular_fields fs -> named (TAnonAggr u fs)
| nm_qual : forall q T, named T -> named (TQual q T)
(** types written before the name only *)
with flat : ctype -> Prop :=
| fl_named : forall T, named T -> flat T
| fl_ptr : forall T, flat T -> flat (TPtr T)
| fl_qptr : forall q T, flat T -> flat (TQual q (TPtr T))
(** functions, pointers to functions, pointers to those, ... *)
with callable : ctype -> Prop :=
| ca_fun : forall T ps, flat T -> regular_params ps -> callable (TFun T ps)
| ca_ptr : forall T, callable T -> callable (TPtr T)
| ca_qptr : forall q T, callable T -> callable (TQual q (TPtr T))
with regular : ctype -> Prop :=
| rg_flat : forall T, flat T -> regular T
| rg_callable : forall T, callable T -> regular T
| rg_arr : forall n T, regular T -> regular (TArr n T)
with regular_fields : list (ctype * option string * option Z) -> Prop :=
| rf_nil : regular_fields []
| rf_cons : forall T n b fs, regular T -> regular_fields fs -> regular_fields ((T, n, b) :: fs)
with regular_params : list (option ctype) -> Prop :=
| rp_nil : regular_params []
| rp_dots : forall ps, regular_params ps -> regular_params (None :: ps)
| rp_cons : forall T ps, regular T -> regular_params ps -> regular_params (Some T :: ps).

(** * Types without anonymous parts, whose names look like those of C: words of letters, digits and underscores,
    the first of a type name not being a keyword used here *)
Fixpoint chars (P : ascii -> Prop) (s : string) : Prop :=
  match s with EmptyString => True | String c r => P c /\ chars P r end.
Definition punctuation (c : ascii) : Prop :=
  In c ["*"; "["; "]"; "("; ")"; "%"; ","; "."; "{"; "}"; ";"]%char.
Definition proper_name (n : string) : Prop := n <> "" /\ ~ ends_with_space n /\ chars (fun c => ~ punctuation c) n.
Fixpoint first_word (s : string) : string :=
  match s with EmptyString => "" | String c r => if Ascii.eqb c " " then "" else String c (first_word r) end.
Definition keyword (w : string) : Prop :=
  In w ["void"; "enum"; "struct"; "union"; "const"; "volatile"; "restrict"; "mutable"; "shared"; "packed"].
Fixpoint plain (T : ctype) : Prop :=
  match T with
  | TVoid => True
  | TName n => proper_name n /\ ~ keyword (first_word n)
  | TEnum n | TAggr _ n => proper_name n
  | TAnonEnum _ | TAnonAggr _ _ => False
  | TQual _ T | TPtr T | TArr _ T => plain T
  | TFun T ps => plain T /\ (fix all l := match l with [] => True | None :: r => all r | Some T :: r => plain T /\ all r end) ps
  end.

(** * A call returns [a] for every sufficient budget of steps, and nothing else for a smaller one *)
Definition returns {A} (f : nat -> res A) (a : A) : Prop :=
  (forall k, f k = OutOfFuel \/ f k = Ret a) /\ exists n, forall k, (n <= k)%nat -> f k = Ret a.

(** * Names without a percent sign *)
Fixpoint no_percent (s : string) : Prop :=
  match s with EmptyString => True | String c r => c <> "%"%char /\ no_percent r end.
Definition clean (e : entry) : Prop :=
  (forall n, e_name e = Some n -> no_percent n) /\
  (forall s l n v, e_info e = IEnum s l -> In (Some n, v) l -> no_percent n).
(** a text with exactly one place holder *)
Definition one_hole (s : string) : Prop := exists a b, s = a ++ "%s" ++ b /\ no_percent a /\ no_percent b.

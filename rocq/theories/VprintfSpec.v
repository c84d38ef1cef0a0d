(** Specification of capturing the arguments of a printf-like call (ISO 9899, 7.21.6.1): what a call passes for a
    conversion and what is kept of it. Of the model only the data types are used. *)
From Coq Require Import ZArith List Bool.
From Verif Require Import Base EntryModel EntrySpec PStorModel PStorSpec WrapModel WrapSpec.
From Verif Require PrintfModel PrintfSpec.
Import ListNotations.
Open Scope Z_scope.

Section Spec.
Variable tref : PrintfModel.ctype -> ref.      (* the entry of a type *)
Variable cstr : Z -> option (list Z).          (* the characters of the string at an address *)

(** [keeps ty b a]: the argument [a] converted to [ty] is the object [b] *)
Inductive keeps : PrintfModel.ctype -> list Z -> arg -> Prop :=
| ke_int : forall ty k v, In (ty, k) [(PrintfModel.TChar, 1%nat); (PrintfModel.TUChar, 1%nat); (PrintfModel.TShort, 2%nat);
                                       (PrintfModel.TUShort, 2%nat); (PrintfModel.TInt, 4%nat); (PrintfModel.TUInt, 4%nat)] ->
    keeps ty (le_bytes k v) (Arg CInt (le_bytes 4 v))
| ke_long : forall ty v, In ty [PrintfModel.TLong; PrintfModel.TULong] -> keeps ty (le_bytes 8 v) (Arg CLong (le_bytes 8 v))
| ke_llong : forall ty v, In ty [PrintfModel.TLLong; PrintfModel.TULLong] -> keeps ty (le_bytes 8 v) (Arg CLLong (le_bytes 8 v))
| ke_double : forall b, length b = 8%nat -> keeps PrintfModel.TDouble b (Arg CDouble b)
| ke_ldouble : forall b, length b = 16%nat -> keeps PrintfModel.TLDouble b (Arg CLDouble b)
| ke_pointer : forall ty p, In ty [PrintfModel.TVoidP; PrintfModel.TCharP; PrintfModel.TShortP; PrintfModel.TIntP; PrintfModel.TLongP; PrintfModel.TLLongP] ->
    keeps ty (le_bytes 8 p) (Arg CPtr (le_bytes 8 p)).

(** the type char[n] *)
Definition chars (n : Z) : entry := Build_entry None false (IArray (Some (tref PrintfModel.TChar)) n).
(** [printed c a x]: for the conversion [c] the call passes [a], and [x] is what is kept: the object, or the characters of a
    string with the terminating zero, as an array in a buffer of 8 bytes. Strings of 8 characters or more are not covered
    (C14: they do not fit the buffer). *)
Inductive printed (c : PrintfSpec.directive) : arg -> shape -> Prop :=
| pr_value : forall ty b a, PrintfSpec.demanded c ty -> keeps ty b a -> printed c a (SBuf (inl (tref ty)) b)
| pr_null : PrintfSpec.dconv c = 115 -> PrintfSpec.dlen c = PrintfModel.psal_no ->
    printed c (Arg CPtr (le_bytes 8 0)) (SBuf (inl (tref PrintfModel.TCharP)) (le_bytes 8 0))
| pr_string : forall p t, PrintfSpec.dconv c = 115 -> PrintfSpec.dlen c = PrintfModel.psal_no -> 0 < p < 2 ^ 64 -> cstr p = Some t -> (length t < 8)%nat ->
    printed c (Arg CPtr (le_bytes 8 p)) (SBuf (inr (chars (Z.of_nat (length t) + 1))) (t ++ [0] ++ repeat 0 (7 - length t))).
(** ... for all conversions of a format; excess arguments are ignored *)
Inductive prints : list PrintfSpec.directive -> list arg -> list shape -> Prop :=
| pr_end : forall args, prints [] args []
| pr_next : forall c l a args x xs, printed c a x -> prints l args xs -> prints (c :: l) (a :: args) (x :: xs).

(** the first conversions are right, the next one is not among those the code knows *)
Definition known (c : PrintfSpec.directive) : Prop :=
  ~ In (PrintfSpec.dconv c) [69; 70; 71; 97; 65] /\ ~ (In (PrintfSpec.dconv c) [101; 102; 103] /\ PrintfSpec.dlen c = PrintfModel.psal_l).
Definition unknown (c : PrintfSpec.directive) : Prop := ~ In (PrintfSpec.dconv c) [115; 99; 112] /\ forall ty, PrintfSpec.demanded c ty -> ~ known c.
Inductive breaks : list PrintfSpec.directive -> list arg -> list shape -> Prop :=
| br_here : forall c l args, unknown c -> breaks (c :: l) args []
| br_next : forall c l a args x xs, printed c a x -> known c -> breaks l args xs -> breaks (c :: l) (a :: args) (x :: xs).

(** Formats as in C14: conversions are well-formed, separated by some other text, no %%; and all among those the code knows *)
Definition regular_format (ps : list PrintfSpec.piece) : Prop :=
  Forall PrintfSpec.wf_piece ps /\ PrintfSpec.separated ps /\ Forall (fun p => p <> PrintfSpec.PP) ps.
Definition usable (ps : list PrintfSpec.piece) : Prop := regular_format ps /\ Forall known (PrintfSpec.conversions ps).
(** The parameter before the format arguments cannot be used: not a pointer, NULL, or the text has an unknown conversion *)
Inductive bad_format (d : db) (r : ref) : list Z -> list arg -> list shape -> Prop :=
| bf_type : forall b args e, final_type d (Some (St r)) (Some e) -> (forall u, e_info (deref d e) <> IPointer u) -> bad_format d r b args []
| bf_null : forall t u args, final_type d (Some (St r)) (Some (St t)) -> e_info (d t) = IPointer u -> bad_format d r (le_bytes 8 0) args []
| bf_text : forall t u q ps args xs, final_type d (Some (St r)) (Some (St t)) -> e_info (d t) = IPointer u -> 0 < q < 2 ^ 64 ->
    cstr q = Some (PrintfSpec.format_text ps) -> regular_format ps -> breaks (PrintfSpec.conversions ps) args xs -> bad_format d r (le_bytes 8 q) args xs.
(** ... it points to a format, and the arguments are as it says *)
Inductive good_format (d : db) (r : ref) : list Z -> list arg -> list shape -> Prop :=
| gf_text : forall t u q ps args xs, final_type d (Some (St r)) (Some (St t)) -> e_info (d t) = IPointer u -> 0 < q < 2 ^ 64 ->
    cstr q = Some (PrintfSpec.format_text ps) -> usable ps -> prints (PrintfSpec.conversions ps) args xs -> good_format d r (le_bytes 8 q) args xs.
(** No string is copied, or memory is never short: without that the entry made for a string may stay allocated. *)
Definition stringless (xs : list shape) : Prop := Forall (fun x => match x with SBuf (inl _) _ => True | _ => False end) xs.
Definition tidy (h : heap) (xs : list shape) : Prop := no_oom h \/ stringless xs.
End Spec.

(** the arguments of parameters none of which is variadic *)
Inductive values (d : db) (nc : nat) (promote : list Z -> list Z) (va_fn : ref -> bool) : list ref -> list arg -> list shape -> Prop :=
| va_end : values d nc promote va_fn [] [] []
| va_next : forall r t l a args b xs, ordinary d nc r t -> passes d promote va_fn t b a -> values d nc promote va_fn l args xs ->
    values d nc promote va_fn (r :: l) (a :: args) (SBuf (inl r) b :: xs).

(** the whole argument list of a call: the last parameter is an ellipsis, or a va_list *)
Definition variadic_args (d : db) (nc : nat) (r : ref) (args0 args1 args : list arg) : Prop :=
  (dots d r /\ args = args0 ++ args1) \/ (va_list_param d nc r /\ args = args0 ++ [ArgList args1]).

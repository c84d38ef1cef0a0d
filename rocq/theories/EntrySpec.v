(** Specification of what type entries mean, independent of the loops in the model: which entries merely
    stand for another type, what a type resolves to, its size, and which member a path names. Only the
    data types of EntryModel are used. *)
From Coq Require Import ZArith String List Bool.
From Verif Require Import Base EntryModel.
Import ListNotations.
Open Scope Z_scope.

(** [stands_for i t q]: an entry with contents [i] only stands for the type [t]; [q] is the qualifier it adds. *)
Inductive stands_for : info -> option ref -> option qual -> Prop :=
| sf_typedef t : stands_for (ITypedef t) t None
| sf_variable t : stands_for (IVariable t) t None
| sf_param t : stands_for (IParam false t) t None
| sf_member m : stands_for (IMember m) (m_type m) None
| sf_qual q t : stands_for (IQual q t) t (Some q).
Definition final_kind (i : info) : Prop := forall t q, ~ stands_for i t q.
Definition opt_list {A} (o : option A) : list A := match o with Some x => [x] | None => [] end.

(** [resolves d p qs f]: following the chain from [p] ends at [f] ([None] = void), [qs] are the qualifiers met. *)
Inductive resolves (d : db) : option eptr -> list qual -> option eptr -> Prop :=
| res_void : resolves d None [] None
| res_stop e : final_kind (e_info (deref d e)) -> resolves d (Some e) [] (Some e)
| res_step e t q qs f : stands_for (e_info (deref d e)) t q -> resolves d (lift t) qs f ->
                        resolves d (Some e) (opt_list q ++ qs) f.
Definition final_type (d : db) (p f : option eptr) : Prop := exists qs, resolves d p qs f.

(** The flags are exactly the listed qualifiers. *)
Definition flags_are (s : quals) (qs : list qual) : Prop :=
  (q_const s = true <-> In QConst qs) /\ (q_volatile s = true <-> In QVolatile qs) /\
  (q_restrict s = true <-> In QRestrict qs) /\ (q_mutable s = true <-> In QMutable qs) /\
  (q_shared s = true <-> In QShared qs) /\ (q_packed s = true <-> In QPacked qs).

(** The dots of a variadic function: an entry without a type. *)
Definition is_dots (i : info) : Prop := exists t, i = IParam true t.

(** Types are built without cycles through typedefs, qualifiers and arrays; [n] bounds the nesting depth. *)
Definition contained (i : info) (t : option ref) : Prop :=
  (exists q, stands_for i t q) \/ (exists c, i = IArray t c) \/ i = IParam true t.
Definition acyclic (d : db) (n : nat) : Prop :=
  exists rank : ref -> nat, (forall r, (rank r < n)%nat) /\
    (forall r t, contained (e_info (d r)) (Some t) -> (rank t < rank r)%nat).

(** The size of a type in bytes, as an unbounded integer. *)
Inductive has_size (d : db) : option eptr -> Z -> Prop :=
| hs_base e z n : e_info (deref d e) = IBase z n -> has_size d (Some e) z
| hs_enum e z l : e_info (deref d e) = IEnum z l -> has_size d (Some e) z
| hs_pointer e t : e_info (deref d e) = IPointer t -> has_size d (Some e) 8
| hs_reference e b z t : e_info (deref d e) = IReference b z t -> has_size d (Some e) z
| hs_aggr e k z l : e_info (deref d e) = IAggr k z l -> has_size d (Some e) z
| hs_alias e t q z : stands_for (e_info (deref d e)) t q -> has_size d (lift t) z -> has_size d (Some e) z
| hs_dots e t z : e_info (deref d e) = IParam true t -> has_size d (lift t) z -> has_size d (Some e) z
| hs_array e t c z : e_info (deref d e) = IArray t c -> 0 < c -> has_size d (lift t) z -> has_size d (Some e) (c * z).

(** [picks d l i r]: the identifier [i] denotes the entry [r] of the list [l]: the first one with that name,
    or the one at that index when no name is given. *)
Definition picks (d : db) (l : list ref) (i : entry_id) (r : ref) : Prop :=
  match id_name i with
  | None => 0 <= id_num i /\ nth_error l (Z.to_nat (id_num i)) = Some r
  | Some n => exists pre post, l = pre ++ r :: post /\ e_name (d r) = Some n /\
                               (forall x, In x pre -> e_name (d x) <> Some n)
  end.
(** [path_to d p ids q]: walking the member path [ids] from [p] leads to [q]. *)
Inductive path_to (d : db) : eptr -> list entry_id -> eptr -> Prop :=
| pt_here p : path_to d p [] p
| pt_member p e k z l i r rest q : final_type d (Some p) (Some e) -> e_info (deref d e) = IAggr k z l ->
    picks d l i r -> path_to d (St r) rest q -> path_to d p (i :: rest) q.
(** [param_to d p i q]: [q] is the parameter of the function (type) [p] that [i] denotes. *)
Definition fun_params (i : info) (l : list ref) : Prop := (exists t, i = ISubprogram t l) \/ (exists t, i = ISubroutine t l).
Definition param_to (d : db) (p : eptr) (i : entry_id) (q : eptr) : Prop :=
  exists e l r, final_type d (Some p) (Some e) /\ fun_params (e_info (deref d e)) l /\ picks d l i r /\ q = St r.

(** Byte-wise lexicographic order of C strings. *)
Fixpoint bytes (s : string) : list Z := match s with EmptyString => [] | String c r => Z.of_N (Ascii.N_of_ascii c) :: bytes r end.
Inductive lex_lt : list Z -> list Z -> Prop :=
| lex_nil x l : lex_lt [] (x :: l)
| lex_head x y l k : x < y -> lex_lt (x :: l) (y :: k)
| lex_tail x l k : lex_lt l k -> lex_lt (x :: l) (x :: k).
(** Sorted by key, keys distinct. *)
Definition sorted {A} (l : list (string * A)) : Prop :=
  forall i j a b, (i < j)%nat -> nth_error l i = Some a -> nth_error l j = Some b -> lex_lt (bytes (fst a)) (bytes (fst b)).
Definition sorted_db (edb : entry_db) : Prop :=
  sorted edb /\ forall f locs, In (f, locs) edb -> sorted locs /\ forall l names, In (l, names) locs -> sorted names.
(** The declarations stored under a triple. *)
Definition stored (edb : entry_db) (file loc name : string) (l : list ref) : Prop :=
  exists locs names, In (file, locs) edb /\ In (loc, names) locs /\ In (name, l) names.

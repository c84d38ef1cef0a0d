(** Specification of what may be asked about a type: the type is resolved to its end and the answer is read off
    what is declared there. Only the data types of EntryModel and the relations of EntrySpec are used. *)
From Coq Require Import ZArith String List Bool.
From Verif Require Import Base EntryModel EntrySpec.
Import ListNotations.
Open Scope Z_scope.

(** [declared d p nm i]: [p] resolves to an entry with the name [nm] and the contents [i]. *)
Definition declared (d : db) (p : option eptr) (nm : option string) (i : info) : Prop :=
  exists e, final_type d p (Some e) /\ e_name (deref d e) = nm /\ e_info (deref d e) = i.
(** [shape d p i]: the same when the name does not matter. *)
Definition shape (d : db) (p : option eptr) (i : info) : Prop := exists nm, declared d p nm i.
(** [has_members d p l], [has_params d p l]: [p] is a struct, union or class with the members [l]; a function with
    the parameters [l]. *)
Definition has_members (d : db) (p : option eptr) (l : list ref) : Prop := exists k z, shape d p (IAggr k z l).
Definition has_params (d : db) (p : option eptr) (l : list ref) : Prop := exists t, shape d p (ISubprogram t l) \/ shape d p (ISubroutine t l).
(** [leads_to d p t]: [p] is a pointer to [t] or an array of [t]. *)
Definition leads_to (d : db) (p : option eptr) (t : ref) : Prop :=
  shape d p (IPointer (Some t)) \/ exists c, shape d p (IArray (Some t) c).
(** [first_named d l nm k]: the entry at position [k] of [l] is the first with the name [nm]. *)
Definition first_named (d : db) (l : list ref) (nm : string) (k : nat) : Prop :=
  (exists r, nth_error l k = Some r /\ e_name (d r) = Some nm) /\
  forall j x, (j < k)%nat -> nth_error l j = Some x -> e_name (d x) <> Some nm.
Definition unnamed (d : db) (l : list ref) (nm : string) : Prop := forall x, In x l -> e_name (d x) <> Some nm.
(** [index_answer d has nm c]: the answer [c] to the question for the position of the name [nm] in the list that
    [has] gives: the first position; -ENOENT when there is none; -EINVAL when there is no list. *)
Definition index_answer (d : db) (has : list ref -> Prop) (nm : string) (c : Z) : Prop :=
  (exists l k, has l /\ first_named d l nm k /\ c = Z.of_nat k) \/
  (exists l, has l /\ unnamed d l nm /\ c = - ENOENT) \/
  ((forall l, ~ has l) /\ c = - EINVAL).
Definition count_answer (has : list ref -> Prop) (c : Z) : Prop :=
  (exists l, has l /\ c = Z.of_nat (length l)) \/ ((forall l, ~ has l) /\ c = - EINVAL).
(** [at_index has k q]: [q] is the entry at the position [k]. *)
Definition at_index (has : list ref -> Prop) (k : Z) (q : eptr) : Prop :=
  exists l r, has l /\ 0 <= k /\ nth_error l (Z.to_nat k) = Some r /\ q = St r.
(** [fits_base d p nm enc size]: [p] is the base type called [nm]; its encoding and size are those given unless
    the database does not know them (0). *)
Definition fits_base (d : db) (p : option eptr) (nm : string) (enc size : Z) : Prop :=
  exists z c, declared d p (Some nm) (IBase z c) /\ (c = 0 \/ c = enc) /\ (z = 0 \/ z = size).

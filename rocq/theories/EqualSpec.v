(** Specification of deep comparison: two values are walked through together. *)
From Coq Require Import ZArith String List Bool.
From Verif Require Import Base EntryModel EntrySpec ValueModel ValueSpec DeepModel DeepSpec.
Import ListNotations.
Open Scope Z_scope.

(** The same steps from [v1] and from [v2] lead to [x1] and to [x2]: to the i-th part or argument of both, or to what both point to.
    Loops are not cut. The lists hold the values on the way, nearest first. *)
Inductive both (E : env) (M : mode) (m : mem) (v1 v2 : value) : list value -> value -> list value -> value -> Prop :=
| bt_here : both E M m v1 v2 [] v1 [] v2
| bt_part a1 x1 a2 x2 s1 c1 s2 c2 i y1 y2 : both E M m v1 v2 a1 x1 a2 x2 ->
    looks E M m a1 x1 (VNode s1 c1) -> looks E M m a2 x2 (VNode s2 c2) -> nth_error c1 i = Some y1 -> nth_error c2 i = Some y2 ->
    both E M m v1 v2 (x1 :: a1) y1 (x2 :: a2) y2
| bt_target a1 x1 a2 x2 p1 p2 y1 y2 : both E M m v1 v2 a1 x1 a2 x2 ->
    target E M m a1 x1 p1 y1 -> target E M m a2 x2 p2 y2 -> both E M m v1 v2 (x1 :: a1) y1 (x2 :: a2) y2
| bt_arg a1 x1 a2 x2 c1 c2 i y1 y2 : both E M m v1 v2 a1 x1 a2 x2 ->
    looks E M m a1 x1 (VCall c1) -> looks E M m a2 x2 (VCall c2) -> nth_error c1 i = Some y1 -> nth_error c2 i = Some y2 ->
    both E M m v1 v2 (x1 :: a1) y1 (x2 :: a2) y2.

(** A pointer with the address of a pointer above it leads to the same object. *)
Definition steady (E : env) (M : mode) (m : mem) (v : value) : Prop :=
  forall p pre a post x w t, sees E M m v (pre ++ a :: post) x -> target E M m post a p w -> points (en_db E) m x t p ->
    target E M m (pre ++ a :: post) x p w.

(** What makes two places indistinguishable. *)
Record alike (E : env) (M : mode) (feq : ctype -> Z -> Z -> bool) (m : mem) (a1 : list value) (x1 : value) (a2 : list value) (x2 : value) : Prop := {
  (** both of the same kind and extent *)
  al_kind : exists i1 i2, has_info (en_db E) x1 i1 /\ has_info (en_db E) x2 i2 /\ kind_of i1 = kind_of i2;
  al_extent : exists z, extent E M m a1 x1 z /\ extent E M m a2 x2 z;
  (** base types: the same C type; the same number, or equal according to the compiler's == *)
  al_base : forall z c, has_info (en_db E) x1 (IBase z c) -> exists k name encs w sg, In (k, (name, encs, w, sg)) c_types /\
    has_ctype (en_db E) x1 k /\ has_ctype (en_db E) x2 k /\
    (plain (en_db E) x1 -> plain (en_db E) x2 ->
       (c_integer k -> number_at m (v_addr x1) (Z.to_nat w) = number_at m (v_addr x2) (Z.to_nat w)) /\
       (~ c_integer k -> feq k (number_at m (v_addr x1) (Z.to_nat w)) (number_at m (v_addr x2) (Z.to_nat w)) = true));
  (** enumerations: the same number *)
  al_enum : forall z l, has_info (en_db E) x1 (IEnum z l) -> exists w, In w [1; 2; 4; 8] /\ size_of (en_db E) x1 w /\ size_of (en_db E) x2 w /\
    number_at m (v_addr x1) (Z.to_nat w) = number_at m (v_addr x2) (Z.to_nat w);
  (** the same number of parts *)
  al_parts : forall s1 c1, looks E M m a1 x1 (VNode s1 c1) -> exists s2 c2, looks E M m a2 x2 (VNode s2 c2) /\ length c1 = length c2;
  (** calls: the same number of arguments *)
  al_args : forall c1, looks E M m a1 x1 (VCall c1) -> exists c2, looks E M m a2 x2 (VCall c2) /\ length c1 = length c2;
  (** unions taken as memory: the same bytes *)
  al_union : forall z l s, mo_union M = UNION_as_mem -> has_info (en_db E) x1 (IAggr AUnion z l) -> looks E M m a1 x1 (VNode s []) ->
    forall i, 0 <= i < s -> m (v_addr x1 + i) = m (v_addr x2 + i);
  (** pointers: both lead to an object or none does; other pointers may have to be both NULL, or both the same address *)
  al_target : (exists p w, target E M m a1 x1 p w) <-> (exists p w, target E M m a2 x2 p w);
  al_null : forall t1 p1 t2 p2, mo_uptr M <> UPTR_ignore -> points (en_db E) m x1 t1 p1 -> points (en_db E) m x2 t2 p2 -> (p1 = 0 <-> p2 = 0);
  al_address : forall t1 p1 t2 p2, mo_uptr M = UPTR_as_values -> (forall p w, ~ target E M m a1 x1 p w) ->
    points (en_db E) m x1 t1 p1 -> points (en_db E) m x2 t2 p2 -> p1 = p2;
}.

(** * What the deep functions need in order to succeed, in terms of the data (used by Properties C60 and C61) *)
From Coq Require Import ZArith String List Bool.
From Verif Require Import Base EntryModel EntrySpec ValueModel ValueSpec DeepModel DeepSpec EqualSpec.
Import ListNotations.
Open Scope Z_scope.

(** Nothing below [v] stops the traversal: every value found has an address and is not a va_list parameter, the library
    can tell what it consists of (its type is known, handlers and the mode answer where the type does not), and no part
    starts before the whole. *)
Record visible (E : env) (M : mode) (m : mem) (v : value) : Prop := {
  vs_addr : forall anc x, reaches E M m v anc x -> v_addr x <> 0;
  vs_data : forall anc x, reaches E M m v anc x -> en_va E (v_entry x) = false;
  vs_view : forall anc x, reaches E M m v anc x -> exists w, looks E M m anc x w;
  vs_parts : forall anc x sz ch y, reaches E M m v anc x -> looks E M m anc x (VNode sz ch) -> In y ch -> v_addr x <= v_addr y
}.

(** All scalars below [v] can be read: base types of C (no bit-fields), enumerations of 1, 2, 4 or 8 bytes. *)
Definition readable (E : env) (M : mode) (m : mem) (v : value) : Prop :=
  forall anc w, reaches E M m v anc w ->
    (forall z c, has_info (en_db E) w (IBase z c) -> exists k, has_ctype (en_db E) w k /\ plain (en_db E) w) /\
    (forall z l, has_info (en_db E) w (IEnum z l) -> In z [1; 2; 4; 8]).
(** Base type values at corresponding places below [v1] and [v2] are of the same type. *)
Definition same_types (E : env) (M : mode) (m : mem) (v1 v2 : value) : Prop :=
  forall a1 x1 a2 x2 k1 k2, both E M m v1 v2 a1 x1 a2 x2 -> has_ctype (en_db E) x1 k1 -> has_ctype (en_db E) x2 k2 -> k1 = k2.

(** Nothing below [v] is a constant of a base type; enumerations have 1, 2, 4 or 8 bytes. *)
Definition writable (E : env) (M : mode) (m : mem) (v : value) : Prop :=
  forall anc x, reaches E M m v anc x ->
    (forall z c, has_info (en_db E) x (IBase z c) -> ~ is_const (en_db E) x) /\
    (forall z l, has_info (en_db E) x (IEnum z l) -> In z [1; 2; 4; 8]).
(** No more than one pointer is found to the same place in the middle of a block. *)
Definition inner_once (E : env) (M : mode) (m : mem) (v : value) (B : list block) : Prop :=
  forall anc x sz w anc' x' sz' w', reaches E M m v anc x -> looks E M m anc x (VPtr sz w) -> reaches E M m v anc' x' -> looks E M m anc' x' (VPtr sz' w') ->
    v_addr w = v_addr w' -> (exists s, In (v_addr w, s) B) \/ (anc = anc' /\ x = x').
(** The parts of a value are different values (elements have a size). *)
Definition parts_differ (E : env) (M : mode) (m : mem) (v : value) : Prop :=
  forall anc x sz ch, reaches E M m v anc x -> looks E M m anc x (VNode sz ch) -> NoDup ch.
(** The [n] calls of calloc_fn from number [from] on return memory for these sizes, apart from the [old] blocks and from that of the others. *)
Definition allocates (cal : nat -> Z -> Z) (from n : nat) (sizes : Z -> Prop) (old : list block) : Prop :=
  (forall j z, (from <= j < from + n)%nat -> sizes z -> 0 < cal j z /\ cal j z + z < 2 ^ 64 /\ forall b w, In (b, w) old -> cal j z + z <= b \/ b + w <= cal j z) /\
  (forall j j' z z', (from <= j)%nat -> (j < j' < from + n)%nat -> sizes z -> sizes z' -> cal j z + z <= cal j' z' \/ cal j' z' + z' <= cal j z).

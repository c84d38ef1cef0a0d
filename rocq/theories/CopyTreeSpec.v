(** Specification of deep copies as trees: every pointer of the copy has a block of its own. *)
From Coq Require Import ZArith String List Bool.
From Verif Require Import Base EntryModel EntrySpec ValueModel ValueSpec DeepModel DeepSpec CopySpec.
Import ListNotations.
Open Scope Z_scope.

(** What the source has to be like (loops are cut, see [reaches]): *)
Record unfoldable (E : env) (M : mode) (m : mem) (v : value) : Prop := {
  uf_bytes : bytes_ok m;
  uf_local : local E m;
  (** base types are types of C, no bit-fields *)
  uf_base : forall anc x z c, reaches E M m v anc x -> has_info (en_db E) x (IBase z c) ->
    exists k name encs sg, has_ctype (en_db E) x k /\ plain (en_db E) x /\ In (k, (name, encs, z, sg)) c_types;
  (** memory does not wrap around; parts do not begin before the whole and do not overlap *)
  uf_fits : forall anc x z, reaches E M m v anc x -> extent E M m anc x z -> 0 < v_addr x /\ v_addr x + z < 2 ^ 64;
  uf_parts : forall anc x sz ch y, reaches E M m v anc x -> looks E M m anc x (VNode sz ch) -> In y ch -> v_addr x <= v_addr y;
  uf_apart : forall anc x sz l1 y l2 y' l3 z z', reaches E M m v anc x -> looks E M m anc x (VNode sz (l1 ++ y :: l2 ++ y' :: l3)) ->
    extent E M m (x :: anc) y z -> extent E M m (x :: anc) y' z' -> apart (v_addr y) z (v_addr y') z';
  (** a pointer points into what it leads to *)
  uf_inside : forall anc x sz w z, reaches E M m v anc x -> looks E M m anc x (VPtr sz w) -> extent E M m (x :: anc) w z ->
    v_addr w <= number_at m (v_addr x) 8 < v_addr w + z;
  (** data only *)
  uf_data : forall anc x i, reaches E M m v anc x -> has_info (en_db E) x i -> ~ callable i;
}.
(** All that pointers lead to is in [B]. *)
Definition covered (E : env) (M : mode) (m : mem) (v : value) (B : list block) : Prop :=
  forall anc x sz w z, reaches E M m v anc x -> looks E M m anc x (VPtr sz w) -> extent E M m (x :: anc) w z -> exists b, In b B /\ within w z b.

(** The way from the value [v] to [x] (with [anc], nearest first) followed in the copy at [a]: it leads to [y] through the places
    [ys]. A pointer of the copy is followed to where its target begins: as far before the address it holds as in the source. *)
Inductive along (E : env) (M : mode) (m m' : mem) (v : value) (a : Z) : list value -> value -> list Z -> Z -> Prop :=
| al_here : along E M m m' v a [] v [] a
| al_part anc x ys y sz ch c : along E M m m' v a anc x ys y -> looks E M m anc x (VNode sz ch) -> In c ch ->
    along E M m m' v a (x :: anc) c (y :: ys) (y + (v_addr c - v_addr x))
| al_ptr anc x ys y sz w : along E M m m' v a anc x ys y -> looks E M m anc x (VPtr sz w) ->
    along E M m m' v a (x :: anc) w (y :: ys) (number_at m' y 8 - (number_at m (v_addr x) 8 - v_addr w)).
(** A pointer at [y] in the copy, whose target is in the block [b] from its start to its end. *)
Definition link_at (E : env) (M : mode) (m m' : mem) (v : value) (a y : Z) (b : block) : Prop :=
  exists anc x ys sz w, along E M m m' v a anc x ys y /\ looks E M m anc x (VPtr sz w) /\
    fst b = number_at m' y 8 - (number_at m (v_addr x) 8 - v_addr w) /\ extent E M m (x :: anc) w (snd b).

(** [m'] is [m] with a copy of [v] at [a] as a tree. *)
Record unfolded (E : env) (M : mode) (m m' : mem) (v : value) (z a : Z) (new : list block) : Prop := {
  (** scalars are the same *)
  un_scalar : forall anc x ys y s, along E M m m' v a anc x ys y -> scalar E M m anc x s false ->
    forall i, 0 <= i < s -> m' (y + i) = m (v_addr x + i);
  un_null : forall anc x ys y t, along E M m m' v a anc x ys y -> points (en_db E) m x t 0 -> number_at m' y 8 = 0;
  (** pointers to things of unknown type are dropped or kept, as the mode says *)
  un_opaque : forall anc x ys y t p sz, along E M m m' v a anc x ys y -> points (en_db E) m x t p -> p <> 0 ->
    looks E M m anc x (VLeaf sz) ->
    mo_uptr M = UPTR_ignore /\ number_at m' y 8 = 0 \/ mo_uptr M = UPTR_as_values /\ number_at m' y 8 = p;
  (** a loop leads back to what the same ancestor of the copy points to *)
  un_loop : forall anc x ys y sz l, along E M m m' v a anc x ys y -> looks E M m anc x (VLoop sz l) ->
    exists b, 0 < l /\ nth_error ys (Z.to_nat (l - 1)) = Some b /\ number_at m' y 8 = number_at m' b 8;
  (** every other pointer has a new block that is just large enough, and no two pointers share one; every new block is one of these *)
  un_block : forall anc x ys y sz w, along E M m m' v a anc x ys y -> looks E M m anc x (VPtr sz w) ->
    exists b, In b new /\ fst b = number_at m' y 8 - (number_at m (v_addr x) 8 - v_addr w) /\ extent E M m (x :: anc) w (snd b);
  un_own : forall y1 y2 b, link_at E M m m' v a y1 b -> link_at E M m m' v a y2 b -> y1 = y2;
  un_used : forall b, In b new -> exists y, link_at E M m m' v a y b;
  (** nothing else is changed *)
  un_frame : forall b, ~ (a <= b < a + z) -> (forall n s, In (n, s) new -> ~ (n <= b < n + s)) -> m' b = m b;
  un_bytes : bytes_ok m';
}.

(** Specification: comparing and copying captured calls. *)
From Coq Require Import ZArith String List Bool.
From Verif Require Import Base EntryModel EntrySpec ValueModel ValueSpec DeepModel DeepSpec CopySpec.
Import ListNotations.
Open Scope Z_scope.

(** A captured call and its arguments. *)
Definition captures (E : env) (c : value) (args : list value) : Prop :=
  (exists i, has_info (en_db E) c i /\ callable i) /\ args = en_items E (v_addr c).
(** Nothing behind the arguments is a call again: no `...` . *)
Definition only_call (E : env) (M : mode) (m : mem) (c : value) : Prop :=
  forall anc x i, sees E M m c anc x -> has_info (en_db E) x i -> callable i -> anc = [].
(** The arguments are as big as their types say. *)
Definition sizes_are (E : env) (M : mode) (m : mem) (c : value) (args : list value) (zs : list Z) : Prop :=
  Forall2 (fun w z => extent E M m [c] w z /\ size_of (en_db E) w z) args zs.

(** The buffers made from the [k]-th on: the arguments of the copy, and what goes where. *)
Fixpoint new_args (E : env) (k : nat) (args : list value) : list value :=
  match args with [] => [] | w :: r => Build_value (v_entry w) (en_buf E k) :: new_args E (S k) r end.
Fixpoint arg_regions (E : env) (k : nat) (args : list value) (zs : list Z) : list region :=
  match args, zs with w :: r, z :: zr => Build_region (v_addr w) z (en_buf E k) :: arg_regions E (S k) r zr | _, _ => [] end.

(** The buffers of the source, the new buffers and the blocks [B] in use are apart from each other; the new buffers are
    somewhere else than the storage of the destination. *)
Record roomy (roots : list region) (dst : Z) (B : list block) : Prop := {
  rm_fits : forall r, In r roots -> 0 < r_dst r /\ r_dst r + r_size r < 2 ^ 64;
  rm_src : forall r r', In r roots -> In r' roots -> r = r' \/ apart (r_src r) (r_size r) (r_src r') (r_size r');
  rm_dst : forall r r', In r roots -> In r' roots -> r = r' \/ apart (r_dst r) (r_size r) (r_dst r') (r_size r');
  rm_cross : forall r r', In r roots -> In r' roots -> apart (r_src r) (r_size r) (r_dst r') (r_size r');
  rm_blocks : forall r b w, In r roots -> In (b, w) B -> apart (r_src r) (r_size r) b w /\ apart (r_dst r) (r_size r) b w;
  rm_storage : forall r, In r roots -> r_dst r <> dst;
}.
Definition taken (roots : list region) (B : list block) : list block :=
  map (fun r => (r_src r, r_size r)) roots ++ map (fun r => (r_dst r, r_size r)) roots ++ B.

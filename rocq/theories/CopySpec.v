(** Specification of deep copies: one translation of addresses describes the whole result. *)
From Coq Require Import ZArith String List Bool.
From Verif Require Import Base EntryModel EntrySpec ValueModel ValueSpec DeepModel DeepSpec.
Import ListNotations.
Open Scope Z_scope.

(** A piece of memory and where its copy is. *)
Record region := { r_src : Z; r_size : Z; r_dst : Z }.
Definition in_region (r : region) (a z : Z) : Prop := r_src r <= a /\ a + z <= r_src r + r_size r.
Definition moved (r : region) (a : Z) : Z := r_dst r + (a - r_src r).
(** Two ranges have a byte in common. *)
Definition meet (a z b w : Z) : Prop := exists x, a <= x < a + z /\ b <= x < b + w.

(** The scalars the value consists of: [z] bytes, a pointer or not. A union whose member in use is unknown counts as one
    piece of memory. *)
Inductive scalar (E : env) (M : mode) (m : mem) (anc : list value) (x : value) : Z -> bool -> Prop :=
| sr_plain i z : has_info (en_db E) x i -> (match i with IBase _ _ | IEnum _ _ => True | _ => False end) ->
    size_of (en_db E) x z -> scalar E M m anc x z false
| sr_pointer t : has_info (en_db E) x (IPointer t) -> scalar E M m anc x 8 true
| sr_union z l sz : has_info (en_db E) x (IAggr AUnion z l) -> mo_union M = UNION_as_mem -> looks E M m anc x (VNode sz []) ->
    scalar E M m anc x sz false.

(** What the source has to be like: *)
Record orderly (E : env) (M : mode) (m : mem) (v : value) : Prop := {
  cp_bytes : bytes_ok m;
  (** handlers look at most up to the nearest pointer; pointers below a pointer with the same address lead to the same object *)
  cp_local : local E m;
  cp_coherent : coherent E M m v;
  (** base types are types of C, no bit-fields *)
  cp_base : forall anc x z c, sees E M m v anc x -> has_info (en_db E) x (IBase z c) ->
    exists k name encs sg, has_ctype (en_db E) x k /\ plain (en_db E) x /\ In (k, (name, encs, z, sg)) c_types;
  (** memory does not wrap around; parts do not begin before the whole *)
  cp_fits : forall anc x z, sees E M m v anc x -> extent E M m anc x z -> 0 < v_addr x /\ v_addr x + z < 2 ^ 64;
  cp_parts : forall anc x sz ch y, sees E M m v anc x -> looks E M m anc x (VNode sz ch) -> In y ch -> v_addr x <= v_addr y;
  (** memory is not used both as a pointer and as something else *)
  cp_views : forall anc x z b anc' x' z' b', sees E M m v anc x -> scalar E M m anc x z b -> sees E M m v anc' x' -> scalar E M m anc' x' z' b' ->
    meet (v_addr x) z (v_addr x') z' -> b = b' /\ (b = true -> v_addr x = v_addr x');
  (** a pointer points into what it leads to *)
  cp_inside : forall anc x p w z, sees E M m v anc x -> target E M m anc x p w -> extent E M m (x :: anc) w z ->
    v_addr w <= p < v_addr w + z;
  (** where unknown pointers are tolerated: there are none *)
  cp_opaque : forall anc x t p, (mo_uptr M = UPTR_ignore \/ mo_uptr M = UPTR_as_values) -> sees E M m v anc x -> points (en_db E) m x t p ->
    p <> 0 -> opaque (en_db E) t -> en_handler E m RQVST_pointer_array_count (x :: anc) <> Ret (0, None);
}.
(** and data only: no captured calls (their arguments are kept in storages, not in memory) *)
Record copyable (E : env) (M : mode) (m : mem) (v : value) : Prop := {
  cp_orderly :> orderly E M m v;
  cp_data : forall anc x i, sees E M m v anc x -> has_info (en_db E) x i -> ~ callable i;
}.

(** The blocks obtained by a sequence of calls. *)
Definition allocs (evs : list mem_event) : list block := flat_map (fun e => match e with EvCalloc a z => [(a, z)] | _ => [] end) evs.

(** Newly obtained memory: different blocks, apart from each other and from all memory in use. *)
Definition fresh_blocks (new old : list block) : Prop :=
  NoDup (map fst new) /\ blocks_ok new /\
  forall a z b s, In (a, z) new -> In (b, s) old -> a + z <= b \/ b + s <= a.

(** The destination is of the same type, and no bit-field unless the source is one. *)
Definition same_type (d : db) (x y : value) : Prop :=
  (forall f, final_type d (Some (v_entry x)) f <-> final_type d (Some (v_entry y)) f) /\ (plain d x -> plain d y).
Definition apart (a z b s : Z) : Prop := a + z <= b \/ b + s <= a.

(** [m'] is [m] with a copy of [v] at [a]; [R] says where everything went. *)
Record copied (E : env) (M : mode) (m m' : mem) (v : value) (z a : Z) (new : list block) (R : list region) : Prop := {
  cd_top : In (Build_region (v_addr v) z a) R;
  (** everything pointed to is in a block obtained for it *)
  cd_new : forall r, In r R -> r = Build_region (v_addr v) z a \/ In (r_dst r, r_size r) new;
  (** every other piece is something a pointer leads to *)
  cd_from : forall r, In r R -> r = Build_region (v_addr v) z a \/ exists w, pointee E M m v w (r_size r) /\ v_addr w = r_src r;
  cd_src : forall r r', In r R -> In r' R -> r = r' \/ r_src r + r_size r <= r_src r' \/ r_src r' + r_size r' <= r_src r;
  cd_dst : forall r r', In r R -> In r' R -> r = r' \/ r_dst r + r_size r <= r_dst r' \/ r_dst r' + r_size r' <= r_dst r;
  (** nothing else is changed *)
  cd_frame : forall b, ~ (a <= b < a + z) -> (forall n s, In (n, s) new -> ~ (n <= b < n + s)) -> m' b = m b;
  (** all that can be reached has a place *)
  cd_all : forall anc x s, sees E M m v anc x -> extent E M m anc x s -> exists r, In r R /\ in_region r (v_addr x) s;
  (** scalars are the same, pointers are translated *)
  cd_scalar : forall anc x s r, sees E M m v anc x -> scalar E M m anc x s false -> In r R -> in_region r (v_addr x) s ->
    forall i, 0 <= i < s -> m' (moved r (v_addr x) + i) = m (v_addr x + i);
  cd_null : forall anc x t r, sees E M m v anc x -> points (en_db E) m x t 0 -> In r R -> in_region r (v_addr x) 8 ->
    number_at m' (moved r (v_addr x)) 8 = 0;
  cd_pointer : forall anc x t p r, sees E M m v anc x -> points (en_db E) m x t p -> p <> 0 -> In r R -> in_region r (v_addr x) 8 ->
    exists q, In q R /\ r_src q <= p < r_src q + r_size q /\ number_at m' (moved r (v_addr x)) 8 = moved q p;
  (** no block was obtained that is not needed for something a pointer leads to *)
  cd_used : forall n s, In (n, s) new -> exists r, In r R /\ r_dst r = n /\ r_size r = s /\ exists w, pointee E M m v w s /\ v_addr w = r_src r;
  cd_bytes : bytes_ok m';
}.

(** The same with several places to begin with, [roots]: [m'] is [m] with a copy of all that is in the [roots] or can be reached
    from there. The value itself may be a captured call, whose roots are the buffers of its arguments. *)
Record spread (E : env) (M : mode) (m m' : mem) (v : value) (roots : list region) (new : list block) (R : list region) : Prop := {
  sp_roots : incl roots R;
  sp_new : forall r, In r R -> In r roots \/ In (r_dst r, r_size r) new;
  sp_from : forall r, In r R -> In r roots \/ exists w, pointee E M m v w (r_size r) /\ v_addr w = r_src r;
  sp_src : forall r r', In r R -> In r' R -> r = r' \/ r_src r + r_size r <= r_src r' \/ r_src r' + r_size r' <= r_src r;
  sp_dst : forall r r', In r R -> In r' R -> r = r' \/ r_dst r + r_size r <= r_dst r' \/ r_dst r' + r_size r' <= r_dst r;
  sp_frame : forall b, (forall r, In r roots -> ~ (r_dst r <= b < r_dst r + r_size r)) -> (forall n s, In (n, s) new -> ~ (n <= b < n + s)) -> m' b = m b;
  sp_all : forall anc x s, sees E M m v anc x -> (forall i, has_info (en_db E) x i -> ~ callable i) -> extent E M m anc x s ->
    exists r, In r R /\ in_region r (v_addr x) s;
  sp_scalar : forall anc x s r, sees E M m v anc x -> scalar E M m anc x s false -> In r R -> in_region r (v_addr x) s ->
    forall i, 0 <= i < s -> m' (moved r (v_addr x) + i) = m (v_addr x + i);
  sp_null : forall anc x t r, sees E M m v anc x -> points (en_db E) m x t 0 -> In r R -> in_region r (v_addr x) 8 ->
    number_at m' (moved r (v_addr x)) 8 = 0;
  sp_pointer : forall anc x t p r, sees E M m v anc x -> points (en_db E) m x t p -> p <> 0 -> In r R -> in_region r (v_addr x) 8 ->
    exists q, In q R /\ r_src q <= p < r_src q + r_size q /\ number_at m' (moved r (v_addr x)) 8 = moved q p;
  sp_used : forall n s, In (n, s) new -> exists r, In r R /\ r_dst r = n /\ r_size r = s /\ exists w, pointee E M m v w s /\ v_addr w = r_src r;
  sp_bytes : bytes_ok m';
}.

(** Specification: the same data at other places. *)
From Coq Require Import ZArith String List Bool.
From Verif Require Import Base EntryModel EntrySpec ValueModel ValueSpec DeepModel DeepSpec CopySpec.
Import ListNotations.
Open Scope Z_scope.

(** [x'] is where [x] went. *)
Definition counterpart (d : db) (R : list region) (x x' : value) : Prop :=
  same_type d x x' /\ exists r, In r R /\ r_src r <= v_addr x <= r_src r + r_size r /\ v_addr x' = moved r (v_addr x).
(** [w], at the same distance from [a'] as it was from [a] *)
Definition rebase (w : value) (a a' : Z) : value := Build_value (v_entry w) (v_addr w - a + a').
(** Handlers answer the same for the moved values: the same member of a union, the same number of elements. *)
Definition answers_alike (E : env) (M : mode) (m : mem) (v : value) (m' : mem) (R : list region) : Prop :=
  forall anc x anc' x', sees E M m v anc x -> Forall2 (counterpart (en_db E) R) (x :: anc) (x' :: anc') ->
  (forall ev, en_handler E m ev (x :: anc) = Ret (0, None) -> en_handler E m' ev (x' :: anc') = Ret (0, None)) /\
  (forall ev w, ev <> RQVST_pointer_array_count -> en_handler E m ev (x :: anc) = Ret (0, Some w) ->
     en_handler E m' ev (x' :: anc') = Ret (0, Some (rebase w (v_addr x) (v_addr x')))) /\
  (forall w, en_handler E m RQVST_pointer_array_count (x :: anc) = Ret (0, Some w) ->
     en_handler E m' RQVST_pointer_array_count (x' :: anc') = Ret (0, Some (rebase w (number_at m (v_addr x) 8) (number_at m' (v_addr x') 8)))).

(** [v'] in [m'] is the same as [v] in [m], each piece [r] of memory of [R] moved from [r_src r] to [r_dst r]. *)
Record relocated (E : env) (M : mode) (m : mem) (v : value) (m' : mem) (v' : value) (R : list region) : Prop := {
  rl_fits : forall r, In r R -> 0 < r_dst r /\ 0 <= r_size r /\ r_dst r + r_size r < 2 ^ 64;
  rl_src : forall r r', In r R -> In r' R -> r = r' \/ r_src r + r_size r <= r_src r' \/ r_src r' + r_size r' <= r_src r;
  rl_dst : forall r r', In r R -> In r' R -> r = r' \/ r_dst r + r_size r <= r_dst r' \/ r_dst r' + r_size r' <= r_dst r;
  (** the same type; not a parameter of type va_list *)
  rl_type : same_type (en_db E) v v';
  rl_load : en_va E (v_entry v') = false;
  rl_top : forall z, extent E M m [] v z -> exists r, In r R /\ in_region r (v_addr v) z /\ v_addr v' = moved r (v_addr v);
  rl_all : forall anc x s, sees E M m v anc x -> extent E M m anc x s -> exists r, In r R /\ in_region r (v_addr x) s;
  rl_scalar : forall anc x s r, sees E M m v anc x -> scalar E M m anc x s false -> In r R -> in_region r (v_addr x) s ->
    forall i, 0 <= i < s -> m' (moved r (v_addr x) + i) = m (v_addr x + i);
  rl_null : forall anc x t r, sees E M m v anc x -> points (en_db E) m x t 0 -> In r R -> in_region r (v_addr x) 8 ->
    number_at m' (moved r (v_addr x)) 8 = 0;
  rl_pointer : forall anc x t p r, sees E M m v anc x -> points (en_db E) m x t p -> p <> 0 -> In r R -> in_region r (v_addr x) 8 ->
    exists q, In q R /\ r_src q <= p < r_src q + r_size q /\ number_at m' (moved r (v_addr x)) 8 = moved q p;
  rl_answers : answers_alike E M m v m' R;
}.

(** What the data have to be like for a comparison with a moved version. *)
Record movable (E : env) (M : mode) (m : mem) (v : value) : Prop := {
  (** data only, no captured calls *)
  mv_data : forall anc x i, sees E M m v anc x -> has_info (en_db E) x i -> ~ callable i;
  (** base types are types of C *)
  mv_base : forall anc x z c, sees E M m v anc x -> has_info (en_db E) x (IBase z c) ->
    exists k name encs sg, has_ctype (en_db E) x k /\ In (k, (name, encs, z, sg)) c_types;
  mv_fits : forall anc x z, sees E M m v anc x -> extent E M m anc x z -> 0 < v_addr x /\ v_addr x + z < 2 ^ 64;
  (** parts do not begin before the whole *)
  mv_parts : forall anc x sz ch y, sees E M m v anc x -> looks E M m anc x (VNode sz ch) -> In y ch -> v_addr x <= v_addr y;
  (** a pointer points into what it leads to *)
  mv_inside : forall anc x p w z, sees E M m v anc x -> target E M m anc x p w -> extent E M m (x :: anc) w z ->
    v_addr w <= p < v_addr w + z;
  (** where unknown pointers are tolerated: there are none *)
  mv_opaque : forall anc x t p, mo_uptr M = UPTR_ignore -> sees E M m v anc x -> points (en_db E) m x t p ->
    p <> 0 -> opaque (en_db E) t -> en_handler E m RQVST_pointer_array_count (x :: anc) <> Ret (0, None);
}.

(** Specification: two structures that say the same on every way, with loops at the same places. *)
From Coq Require Import ZArith String List Bool.
From Verif Require Import Base EntryModel EntrySpec ValueModel ValueSpec DeepModel DeepSpec CopySpec MoveSpec.
Import ListNotations.
Open Scope Z_scope.

(** The way from [v] to [x] in [m] (with [anc], nearest first), followed from [v'] in [m']: it leads to [x'] through [anc']. *)
Inductive beside (E : env) (M : mode) (m : mem) (v : value) (m' : mem) (v' : value) : list value -> value -> list value -> value -> Prop :=
| bs_here : beside E M m v m' v' [] v [] v'
| bs_part anc x anc' x' sz ch c : beside E M m v m' v' anc x anc' x' -> looks E M m anc x (VNode sz ch) -> In c ch ->
    beside E M m v m' v' (x :: anc) c (x' :: anc') (rebase c (v_addr x) (v_addr x'))
| bs_ptr anc x anc' x' sz w : beside E M m v m' v' anc x anc' x' -> looks E M m anc x (VPtr sz w) ->
    beside E M m v m' v' (x :: anc) w (x' :: anc') (rebase w (number_at m (v_addr x) 8) (number_at m' (v_addr x') 8)).

(** Handlers answer the same on both ways: the same member of a union, the same number of elements. *)
Definition answers_beside (E : env) (M : mode) (m : mem) (v : value) (m' : mem) (v' : value) : Prop :=
  forall anc x anc' x', beside E M m v m' v' anc x anc' x' ->
  (forall ev, en_handler E m ev (x :: anc) = Ret (0, None) -> en_handler E m' ev (x' :: anc') = Ret (0, None)) /\
  (forall ev w, ev <> RQVST_pointer_array_count -> en_handler E m ev (x :: anc) = Ret (0, Some w) ->
     en_handler E m' ev (x' :: anc') = Ret (0, Some (rebase w (v_addr x) (v_addr x')))) /\
  (forall w, en_handler E m RQVST_pointer_array_count (x :: anc) = Ret (0, Some w) ->
     en_handler E m' RQVST_pointer_array_count (x' :: anc') = Ret (0, Some (rebase w (number_at m (v_addr x) 8) (number_at m' (v_addr x') 8)))).

(** [v'] in [m'] is like [v] in [m], wherever its parts are and however often they are stored. *)
Record mirrored (E : env) (M : mode) (m : mem) (v : value) (m' : mem) (v' : value) : Prop := {
  (** the same type; not a parameter of type va_list *)
  mr_type : same_type (en_db E) v v';
  mr_load : en_va E (v_entry v') = false;
  mr_fits : forall anc x anc' x' s, beside E M m v m' v' anc x anc' x' -> extent E M m anc x s -> 0 < v_addr x' /\ v_addr x' + s < 2 ^ 64;
  mr_scalar : forall anc x anc' x' s, beside E M m v m' v' anc x anc' x' -> scalar E M m anc x s false ->
    forall i, 0 <= i < s -> m' (v_addr x' + i) = m (v_addr x + i);
  mr_null : forall anc x anc' x' t, beside E M m v m' v' anc x anc' x' -> points (en_db E) m x t 0 -> number_at m' (v_addr x') 8 = 0;
  (** what a pointer to something of unknown type became: NULL, or no address of a pointer above *)
  mr_opaque : forall anc x anc' x' t p sz, beside E M m v m' v' anc x anc' x' -> points (en_db E) m x t p -> p <> 0 ->
    looks E M m anc x (VLeaf sz) ->
    number_at m' (v_addr x') 8 = 0 \/ no_loop (en_db E) m' anc' (number_at m' (v_addr x') 8);
  (** loops lead back by as many steps *)
  mr_loop : forall anc x anc' x' sz l, beside E M m v m' v' anc x anc' x' -> looks E M m anc x (VLoop sz l) ->
    exists a, 0 < l /\ nth_error anc' (Z.to_nat (l - 1)) = Some a /\ number_at m' (v_addr x') 8 = number_at m' (v_addr a) 8;
  (** what is no loop is none *)
  mr_ptr : forall anc x anc' x' sz w, beside E M m v m' v' anc x anc' x' -> looks E M m anc x (VPtr sz w) ->
    number_at m' (v_addr x') 8 <> 0 /\ no_loop (en_db E) m' anc' (number_at m' (v_addr x') 8);
  mr_answers : answers_beside E M m v m' v';
}.
(** What the data have to be like for such a comparison (ways that end at loops). *)
Record traversable (E : env) (M : mode) (m : mem) (v : value) : Prop := {
  (** data only, no captured calls *)
  tv_data : forall anc x i, reaches E M m v anc x -> has_info (en_db E) x i -> ~ callable i;
  (** base types are types of C *)
  tv_base : forall anc x z c, reaches E M m v anc x -> has_info (en_db E) x (IBase z c) ->
    exists k name encs sg, has_ctype (en_db E) x k /\ In (k, (name, encs, z, sg)) c_types;
  tv_fits : forall anc x z, reaches E M m v anc x -> extent E M m anc x z -> 0 < v_addr x /\ v_addr x + z < 2 ^ 64;
  (** parts do not begin before the whole *)
  tv_parts : forall anc x sz ch y, reaches E M m v anc x -> looks E M m anc x (VNode sz ch) -> In y ch -> v_addr x <= v_addr y;
}.

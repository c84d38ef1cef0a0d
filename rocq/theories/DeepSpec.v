(** Specification of the deep operations on values, independent of the traversal of the model. *)
From Coq Require Import ZArith String List Bool.
From Verif Require Import Base EntryModel EntrySpec ValueModel ValueSpec DeepModel.
Import ListNotations.
Open Scope Z_scope.

(** * Memory ranges *)
(** The range [h_addr, h_addr + h_size) of [x] lies in that of [y]; the two do not meet. *)
Definition inside (x y : hent) : Prop := h_addr y <= h_addr x /\ h_addr x + h_size x <= h_addr y + h_size y.
Definition apart (x y : hent) : Prop := h_addr x + h_size x <= h_addr y \/ h_addr y + h_size y <= h_addr x.
Definition laminar (l : list hent) : Prop :=
  forall x y, In x l -> In y l -> inside x y \/ inside y x \/ apart x y.
(** No other range of [l] contains [b]. *)
Definition outermost (l : list hent) (b : hent) : Prop := In b l /\ forall x, In x l -> inside b x -> x = b.
(** Ranges of a 64 bit memory; keys and entries of a map are distinct. *)
Definition ranges (l : list hent) : Prop :=
  NoDup (map h_addr l) /\ NoDup (map h_id l) /\
  forall h, In h l -> 0 < h_addr h /\ 0 <= h_size h /\ h_addr h + h_size h < 2 ^ 64.
Definition nonempty (l : list hent) : list hent := filter (fun h => 0 <? h_size h) l.

(** * The memory map as a tree *)
Inductive in_tree (x : ment) : ment -> Prop :=
| it_here : in_tree x x
| it_child e c : In c (me_ch e) -> in_tree x c -> in_tree x e.

(** * What a value consists of *)
(** The value is a pointer to [t] ([None]: void) holding the address [p]. *)
Definition points (d : db) (m : mem) (v : value) (t : option ref) (p : Z) : Prop :=
  (exists e, final_type d (Some (v_entry v)) (Some e) /\ e_info (deref d e) = IPointer t) /\ p = number_at m (v_addr v) 8.
(** Nothing is known about the target: void or a type that is only declared. *)
Definition opaque (d : db) (t : option ref) : Prop := match t with None => True | Some r => e_declaration (d r) = true end.
Definition has_info (d : db) (v : value) (i : info) : Prop :=
  exists e, final_type d (Some (v_entry v)) (Some e) /\ e_info (deref d e) = i.
Definition size_of (d : db) (v : value) (sz : Z) : Prop := exists z, has_size d (Some (v_entry v)) z /\ sz = z mod 2 ^ 64.
(** The member [r] of [v]; the element [i] (of size [z]) of the array [v]; the array of [c] elements at [p]. *)
Definition member_is (d : db) (v : value) (r : ref) (w : value) : Prop :=
  exists mi, e_info (d r) = IMember mi /\ w = Build_value (St r) ((v_addr v + m_byte_offset mi) mod 2 ^ 64) /\ v_addr w <> 0.
Definition element_is (v : value) (t : ref) (z : Z) (i : nat) (w : value) : Prop :=
  w = Build_value (St t) ((v_addr v + z * Z.of_nat i) mod 2 ^ 64) /\ v_addr w <> 0.
Definition array_at (t : ref) (c p : Z) : value := Build_value (Dy (Build_entry None false (IArray (Some t) c))) p.
(** The number of elements as an int. *)
Definition int_of (c : Z) : Z := (c + 2 ^ 31) mod 2 ^ 32 - 2 ^ 31.
(** Some ancestor is a pointer holding [p]; [l] is the distance to the nearest one. *)
Definition loop_at (d : db) (m : mem) (anc : list value) (p : Z) (l : Z) : Prop :=
  exists pre a post t, anc = pre ++ a :: post /\ l = Z.of_nat (length pre) + 1 /\ points d m a t p /\
    forall b t', In b pre -> ~ points d m b t' p.
Definition no_loop (d : db) (m : mem) (anc : list value) (p : Z) : Prop := forall a t, In a anc -> ~ points d m a t p.
(** All elements of [w]. *)
Definition elements_are (d : db) (w : value) (ch : list value) : Prop :=
  exists t c, has_info d w (IArray t c) /\ length ch = Z.to_nat (int_of c) /\
    (ch <> [] -> exists r z, t = Some r /\ has_size d (Some (St r)) z /\
       forall i y, nth_error ch i = Some y -> element_is w r z i y).

(** Where a pointer leads, whatever its ancestors point to: to what the handler says, or to one object of its type, or (in
    that mode) to one byte of unknown type. *)
Inductive target (E : env) (M : mode) (m : mem) (anc : list value) (v : value) (p : Z) : value -> Prop :=
| tg_handled t w : points (en_db E) m v t p -> p <> 0 -> en_handler E m RQVST_pointer_array_count (v :: anc) = Ret (0, Some w) ->
    (exists t' c, has_info (en_db E) w (IArray t' c)) -> target E M m anc v p w
| tg_typed t : points (en_db E) m v (Some t) p -> p <> 0 -> en_handler E m RQVST_pointer_array_count (v :: anc) = Ret (0, None) ->
    ~ opaque (en_db E) (Some t) -> target E M m anc v p (array_at t 1 p)
| tg_byte t : points (en_db E) m v t p -> p <> 0 -> en_handler E m RQVST_pointer_array_count (v :: anc) = Ret (0, None) ->
    opaque (en_db E) t -> mo_uptr M = UPTR_as_one_byte_ptr -> target E M m anc v p (array_at (en_uchar E) 1 p).

(** Functions, function types and unspecified parameters: what has parameters of its own. *)
Definition callable (i : info) : Prop := match i with IParam true _ | ISubprogram _ _ | ISubroutine _ _ => True | _ => False end.

(** The view the memory map takes of a value, given the ancestors and the answers of the handlers. *)
Inductive looks (E : env) (M : mode) (m : mem) (anc : list value) (v : value) : view -> Prop :=
| lk_scalar sz i : has_info (en_db E) v i -> (match i with IBase _ _ | IEnum _ _ => True | _ => False end) ->
    size_of (en_db E) v sz -> looks E M m anc v (VLeaf sz)
| lk_null sz t : points (en_db E) m v t 0 -> size_of (en_db E) v sz -> looks E M m anc v (VLeaf sz)
| lk_opaque sz t p : points (en_db E) m v t p -> p <> 0 -> no_loop (en_db E) m anc p -> opaque (en_db E) t ->
    en_handler E m RQVST_pointer_array_count (v :: anc) = Ret (0, None) -> (mo_uptr M = UPTR_ignore \/ mo_uptr M = UPTR_as_values) ->
    size_of (en_db E) v sz -> looks E M m anc v (VLeaf sz)
| lk_loop sz t p l : points (en_db E) m v t p -> p <> 0 -> loop_at (en_db E) m anc p l -> size_of (en_db E) v sz ->
    looks E M m anc v (VLoop sz l)
| lk_target sz p w : target E M m anc v p w -> no_loop (en_db E) m anc p -> size_of (en_db E) v sz -> looks E M m anc v (VPtr sz w)
| lk_struct sz l z ch : has_info (en_db E) v (IAggr AStruct z l) -> Forall2 (member_is (en_db E) v) l ch ->
    size_of (en_db E) v sz -> looks E M m anc v (VNode sz ch)
| lk_union sz l z ch : has_info (en_db E) v (IAggr AUnion z l) ->
    (ch = [] /\ (l = [] \/ en_handler E m RQVST_union_member (v :: anc) = Ret (0, None) /\ mo_union M <> UNION_fail)
     \/ exists w, ch = [w] /\ l <> [] /\ en_handler E m RQVST_union_member (v :: anc) = Ret (0, Some w)) ->
    size_of (en_db E) v sz -> looks E M m anc v (VNode sz ch)
| lk_array sz t c ch w : has_info (en_db E) v (IArray t c) ->
    (int_of c <> -1 /\ w = v
     \/ int_of c = -1 /\ (en_handler E m RQVST_flex_array_count (v :: anc) = Ret (0, Some w)
                         \/ en_handler E m RQVST_flex_array_count (v :: anc) = Ret (0, None) /\ mo_flx M = FLXARR_ignore /\
                            exists r, t = Some r /\ w = array_at r 0 (v_addr v))) ->
    elements_are (en_db E) w ch -> (if ch then sz = 0 else size_of (en_db E) w sz) ->
    looks E M m anc v (VNode sz ch)
| lk_flex_other t c w : has_info (en_db E) v (IArray t c) -> int_of c = -1 ->
    en_handler E m RQVST_flex_array_count (v :: anc) = Ret (0, Some w) -> (forall t' c', ~ has_info (en_db E) w (IArray t' c')) ->
    looks E M m anc v (VNode 0 [])
| lk_call i l : has_info (en_db E) v i -> callable i -> l = en_items E (v_addr v) -> Forall (fun w => v_addr w <> 0) l ->
    looks E M m anc v (VCall l).

(** [y] is found below [v]; the list holds the values on the way, nearest first. *)
Inductive reaches (E : env) (M : mode) (m : mem) (v : value) : list value -> value -> Prop :=
| re_here : reaches E M m v [] v
| re_node anc x sz ch y : reaches E M m v anc x -> looks E M m anc x (VNode sz ch) -> In y ch -> reaches E M m v (x :: anc) y
| re_ptr anc x sz y : reaches E M m v anc x -> looks E M m anc x (VPtr sz y) -> reaches E M m v (x :: anc) y
| re_call anc x l y : reaches E M m v anc x -> looks E M m anc x (VCall l) -> In y l -> reaches E M m v (x :: anc) y.
(** All scalars below [v] can be read and are equal to themselves: base types of C (no bit-fields, no NaN), enumerations
    of 1, 2, 4 or 8 bytes. *)
Definition comparable (E : env) (M : mode) (feq : ctype -> Z -> Z -> bool) (m : mem) (v : value) : Prop :=
  forall anc w, reaches E M m v anc w ->
    (forall z c, has_info (en_db E) w (IBase z c) -> exists k, has_ctype (en_db E) w k /\ plain (en_db E) w /\
       (c_integer k \/ exists name encs b sg, In (k, (name, encs, b, sg)) c_types /\
          feq k (number_at m (v_addr w) (Z.to_nat b)) (number_at m (v_addr w) (Z.to_nat b)) = true)) /\
    (forall z l, has_info (en_db E) w (IEnum z l) -> In z [1; 2; 4; 8]).

(** * Termination *)
(** A value of a type with contents [i] contains a value of type [t]: aliases, elements, members. *)
Definition nested (i : info) (t : ref) : Prop :=
  contained i (Some t) \/ exists k z l, i = IAggr k z l /\ In t l.
(** No type contains itself; [n] bounds the depth. *)
Definition finite_types (d : db) (n : nat) : Prop :=
  exists rank : ref -> nat, (forall r, (rank r < n)%nat) /\ forall r t, nested (e_info (d r)) t -> (rank t < rank r)%nat.
(** Handlers return; the union handler chooses a member, the flexible array handler an array of the same elements. *)
Definition tame (E : env) : Prop :=
  (forall m ev l, en_handler E m ev l <> OutOfFuel) /\
  (forall m v anc w z l, has_info (en_db E) v (IAggr AUnion z l) -> en_handler E m RQVST_union_member (v :: anc) = Ret (0, Some w) ->
     exists r mi, In r l /\ v_entry w = St r /\ e_info (en_db E r) = IMember mi) /\
  (forall m v anc w t c, has_info (en_db E) v (IArray t c) -> en_handler E m RQVST_flex_array_count (v :: anc) = Ret (0, Some w) ->
     exists r c', t = Some r /\ v_entry w = Dy (Build_entry None false (IArray (Some r) c'))).
(** Members are objects, an unspecified parameter has no type of its own. *)
Definition objects (d : db) : Prop :=
  ((forall r mi i, e_info (d r) = IMember mi -> has_info d (Build_value (St r) 0) i -> ~ callable i) /\
   (forall r t, e_info (d r) = IParam true t -> t = None))%type.
(** Captured calls: the storages of unspecified parameters are nested finitely often. *)
Definition finite_calls (E : env) : Prop :=
  objects (en_db E) /\
  exists (k : nat) (depth : Z -> nat), (forall a, (depth a < k)%nat) /\
    forall a w i, In w (en_items E a) -> has_info (en_db E) w i -> callable i -> (depth (v_addr w) < depth a)%nat.

(** * Allocations *)
(** The blocks that are live after a sequence of calls (first call first), [None] when something is released that is
    not live. The C library's free cannot release blocks of the caller's allocator. *)
Fixpoint remove_one (a : Z) (l : list Z) : option (list Z) :=
  match l with [] => None | b :: r => if a =? b then Some r else option_map (cons b) (remove_one a r) end.
Fixpoint live_from (l : list Z) (evs : list mem_event) : option (list Z) :=
  match evs with
  | [] => Some l
  | EvCalloc a _ :: r => live_from (a :: l) r
  | EvFree a :: r => match remove_one a l with Some l => live_from l r | None => None end
  | EvLibcFree _ :: _ => None
  end.
(** The calls made between two states (latest first in the logs). *)
Definition calls (s s' : cst) (evs : list mem_event) : Prop := c_log s' = rev evs ++ c_log s.

(** * Reachability, loops not cut *)
Definition is_ptr (d : db) (m : mem) (a : value) : Prop := exists t p, points d m a t p.
(** [y] can be reached from [v] through members, elements and pointers; the list holds the values on the way, nearest first. *)
Inductive sees (E : env) (M : mode) (m : mem) (v : value) : list value -> value -> Prop :=
| se_here : sees E M m v [] v
| se_node anc x sz ch y : sees E M m v anc x -> looks E M m anc x (VNode sz ch) -> In y ch -> sees E M m v (x :: anc) y
| se_ptr anc x p y : sees E M m v anc x -> target E M m anc x p y -> sees E M m v (x :: anc) y
| se_call anc x l y : sees E M m v anc x -> looks E M m anc x (VCall l) -> In y l -> sees E M m v (x :: anc) y.
(** Handlers look at most up to the nearest pointer above the value. *)
Inductive same_ctx (d : db) (m : mem) : list value -> list value -> Prop :=
| sc_nil : same_ctx d m [] []
| sc_ptr a b l l' : is_ptr d m a -> is_ptr d m b -> same_ctx d m (a :: l) (b :: l')
| sc_cons x l l' : same_ctx d m l l' -> same_ctx d m (x :: l) (x :: l').
Definition local (E : env) (m : mem) : Prop :=
  forall ev v anc anc', same_ctx (en_db E) m anc anc' -> en_handler E m ev (v :: anc) = en_handler E m ev (v :: anc').
(** A pointer below another pointer with the same address leads to the same object (of the same type). *)
Definition coherent (E : env) (M : mode) (m : mem) (v : value) : Prop :=
  forall p pre a post x w w', sees E M m v (pre ++ a :: post) x -> target E M m post a p w -> target E M m (pre ++ a :: post) x p w' -> w' = w.

(** The number of bytes from the start of a value to the end of its last part: its size, or more when a part, e.g. a flexible
    array whose length is known, reaches beyond it. *)
Definition ends (v : value) (ch : list value) (zs : list Z) : list Z :=
  map (fun p => (v_addr (fst p) - v_addr v + snd p) mod 2 ^ 64) (combine ch zs).
Inductive extent (E : env) (M : mode) (m : mem) : list value -> value -> Z -> Prop :=
| ex_whole anc v sz i : has_info (en_db E) v i -> (match i with IBase _ _ | IEnum _ _ | IPointer _ => True | _ => False end) ->
    size_of (en_db E) v sz -> extent E M m anc v sz
| ex_parts anc v sz ch zs : looks E M m anc v (VNode sz ch) -> Forall2 (extent E M m (v :: anc)) ch zs ->
    extent E M m anc v (fold_left Z.max (ends v ch zs) sz)
| ex_call anc v i : has_info (en_db E) v i -> callable i -> extent E M m anc v 0.

(** * Blocks of memory *)
(** The object [w] of [z] bytes is what a reachable pointer points to. *)
Definition pointee (E : env) (M : mode) (m : mem) (v w : value) (z : Z) : Prop :=
  exists anc x p, sees E M m v anc x /\ target E M m anc x p w /\ extent E M m (x :: anc) w z.
(** start and size *)
Definition block : Type := Z * Z.
Definition blocks_ok (B : list block) : Prop :=
  (forall b s, In (b, s) B -> 0 < b /\ 0 < s /\ b + s < 2 ^ 64) /\
  (forall b s b' s', In (b, s) B -> In (b', s') B -> (b, s) = (b', s') \/ b + s <= b' \/ b' + s' <= b).
Definition within (w : value) (z : Z) (b : block) : Prop := fst b <= v_addr w /\ v_addr w + z <= fst b + snd b.
(** All pointers lead into blocks of [B]; each such block has a pointer to its start, of a type that covers all that is pointed
    to in that block. *)
Definition held (E : env) (M : mode) (m : mem) (v : value) (B : list block) : Prop :=
  forall w z, pointee E M m v w z -> 0 < z /\ exists b, In b B /\ within w z b /\
    exists w' z', pointee E M m v w' z' /\ v_addr w' = fst b /\ within w' z' b /\ v_addr w + z <= fst b + z'.

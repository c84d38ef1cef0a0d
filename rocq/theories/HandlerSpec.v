(** Specification of what the handlers of src/entry_tag.c are for: numbers stored in objects, siblings found by name,
    strings, arrays of known length. *)
From Coq Require Import ZArith String List Bool.
From Verif Require Import Base EntryModel EntrySpec ValueModel ValueSpec DeepModel DeepSpec HandlerModel.
Import ListNotations.
Open Scope Z_scope.

(** The object [v] holds the number [y]: an integer, an integer bit-field (of at most 30 bits, see C18), an enumeration. *)
Inductive stores (d : db) (m : mem) (v : value) (y : Z) : Prop :=
| st_plain c name encs w sg : has_ctype d v c -> c_integer c -> In (c, (name, encs, w, sg)) c_types -> plain d v ->
    (c = CBool -> y = 0 \/ y = 1) -> denotes c (number_at m (v_addr v) (Z.to_nat w)) y -> stores d m v y
| st_field c name encs w sg mi dbo bs x : has_ctype d v c -> c_integer c -> c <> CChar -> In (c, (name, encs, w, sg)) c_types ->
    e_info (deref d (v_entry v)) = IMember mi -> field_at mi dbo bs -> 1 <= bs <= 30 -> ValueSpec.within dbo bs w ->
    is_field m (v_addr v - m_byte_offset mi) dbo bs sg w x -> (c = CBool -> y = 0 \/ y = 1) -> denotes c x y -> stores d m v y
| st_enum z l : enum_type d v z l -> In z [1; 2; 4; 8] -> y = as_signed (8 * z) (number_at m (v_addr v) (Z.to_nat z)) -> stores d m v y.
Definition fits_int (y : Z) : Prop := -2147483648 <= y <= 2147483647.
(** Looking at [v] as a number does no harm: it holds one, or it is of another type. *)
Definition inspectable (d : db) (m : mem) (v : value) : Prop :=
  (exists y, stores d m v y) \/ (named_types d v /\ forall c, c_integer c -> ~ has_ctype d v c).

(** [i] is the position of the first of the siblings [l] that has the name; [nm] gives their names. *)
Definition first_named {A} (nm : A -> option string) (l : list A) (name : string) (i : nat) (x : A) : Prop :=
  nth_error l i = Some x /\ nm x = Some name /\ forall j y, (j < i)%nat -> nth_error l j = Some y -> nm y <> Some name.
Definition ref_name (d : db) (r : ref) : option string := e_name (d r).
Definition val_name (d : db) (v : value) : option string := e_name (deref d (v_entry v)).
(** The parent is a struct, union or class with the members [l], all of which are at usable addresses. *)
Definition struct_of (d : db) (v : value) (l : list ref) : Prop :=
  aggr_type d v l /\ forall r, In r l -> exists s, member_is d v r s.
(** The parent is a function (its parameters are the items of its storage). *)
Definition function_of (d : db) (loads : Z -> list value) (v : value) (l : list value) : Prop :=
  (exists i, has_info d v i /\ match i with ISubprogram _ _ | ISubroutine _ _ => True | _ => False end) /\
  loads (v_addr v) = l /\ forall x, In x l -> v_addr x <> 0.
(** The sibling of the name, of a member or of a parameter. *)
Inductive sibling (d : db) (loads : Z -> list value) (parent : value) (name : string) (s : value) : Prop :=
| sb_member l i r : struct_of d parent l -> first_named (ref_name d) l name i r -> member_is d parent r s ->
    sibling d loads parent name s
| sb_param l i : function_of d loads parent l -> first_named (val_name d) l name i s -> sibling d loads parent name s.
(** None of the siblings has the name. *)
Inductive no_sibling (d : db) (loads : Z -> list value) (parent : value) (name : string) : Prop :=
| ns_member l : struct_of d parent l -> (forall r, In r l -> ref_name d r <> Some name) -> no_sibling d loads parent name
| ns_param l : function_of d loads parent l -> (forall x, In x l -> val_name d x <> Some name) -> no_sibling d loads parent name.

(** [w] is the array of [c] elements the pointer points to, or the flexible array with its [c] elements. *)
Inductive counted (d : db) (m : mem) (v : value) (c : Z) : value -> Prop :=
| ct_pointer t p : points d m v (Some t) p -> p <> 0 -> counted d m v c (array_at t c p)
| ct_array t c' : has_info d v (IArray (Some t) c') -> v_addr v <> 0 -> counted d m v c (array_at t c (v_addr v)).

(** The string of [k] characters at [p]. *)
Definition string_at (m : mem) (p k : Z) : Prop :=
  0 <= k /\ m (p + k) = 0 /\ forall i, 0 <= i < k -> m (p + i) <> 0.
Definition char_type (d : db) (t : ref) : Prop :=
  exists e z c, final_type d (Some (St t)) (Some e) /\ e_info (deref d e) = IBase z c /\ e_name (deref d e) = Some "char"%string.

(** The member of the union [l] a case names. *)
Definition named_by (d : db) (l : list ref) (c : ucase) (i : nat) : Prop :=
  match u_name c with
  | Some s => exists r, first_named (ref_name d) l s i r
  | None => u_id c = Z.of_nat i
  end.
(** The first case for the number [x]. *)
Definition first_case {A} (key : A -> Z) (cases : list A) (x : Z) (c : A) : Prop :=
  exists pre post, cases = pre ++ c :: post /\ key c = x /\ forall y, In y pre -> key y <> x.
(** What the number [x] selects: the member its first case names; without cases the member of that number. *)
Definition selected (d : db) (l : list ref) (cases : list ucase) (x : Z) (i : nat) : Prop :=
  (cases = [] /\ x = Z.of_nat i) \/ (exists c, first_case u_val cases x c /\ named_by d l c i).

(** A name is given; none is given: an empty name is no name. *)
Definition has_name (s : option string) (name : string) : Prop := s = Some name /\ name <> EmptyString.
Definition no_name (s : option string) : Prop := s = None \/ s = Some EmptyString.
(** The number of elements of a cast pointer: what the count sibling says, one without it. *)
Definition cast_count (d : db) (m : mem) (parent : value) (lp : list ref) (count : option string) (y : Z) : Prop :=
  (no_name count /\ y = 1) \/
  (exists name i r s, has_name count name /\ first_named (ref_name d) lp name i r /\ member_is d parent r s /\ stores d m s y /\ fits_int y).

(** Nothing in the surroundings of a value makes a handler read what is not there. *)
Definition safe_parent (d : db) (m : mem) (loads : Z -> list value) (nc : nat) (v : value) : Prop :=
  (forall l, aggr_type d v l -> forall r, In r l -> exists s, member_is d v r s /\ inspectable d m s) /\
  (forall x, In x (loads (v_addr v)) -> v_addr x <> 0 /\ inspectable d m x) /\
  (forall t, e_info (deref d (v_entry v)) = IParam false t -> exists s, CdeclModel.entry_cdecl nc d (lift t) = Ret s).
Definition safe_string (d : db) (m : mem) (sf : nat) (v : value) : Prop :=
  forall t p, points d m v (Some t) p -> p <> 0 -> char_type d t -> exists k, string_at m p k /\ k < Z.of_nat sf.

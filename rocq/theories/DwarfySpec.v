(** Specification of the reading of debugging data (C69, C70). *)
From Coq Require Import ZArith String List Bool.
From Verif Require Import Base DwarfyModel.
Import ListNotations.

(** * C69: a tree of debugging entries and how DWARF writes it: an entry, then, if it is said to have children, the children and a null entry *)
Inductive tree := Tree (offset : nat) (sibling : option nat) (children : option (list tree)).
Definition t_offset (t : tree) : nat := match t with Tree o _ _ => o end.
Definition t_kids (t : tree) : list tree := match t with Tree _ _ (Some l) => l | _ => [] end.
Fixpoint written (t : tree) : list item :=
  match t with
  | Tree o s None => [Die o false false s]
  | Tree o s (Some l) => Die o false true s :: flat_map written l ++ [Null]
  end.
Fixpoint offsets (t : tree) : list nat :=
  match t with Tree o _ None => [o] | Tree o _ (Some l) => o :: flat_map offsets l end.
(** the attribute Sibling is never one of the entry's own descendants *)
Inductive fair : tree -> Prop :=
| fair_leaf o s : fair (Tree o s None)
| fair_node o s l : (forall x, s = Some x -> ~ In x (flat_map offsets l)) -> (forall t, In t l -> fair t) -> fair (Tree o s (Some l)).
(** a unit: the entry of the unit, its children, and any number of null entries (one is usual; none and padding are met) *)
Record cunit := { c_offset : nat; c_sibling : option nat; c_kids : list tree; c_nulls : nat }.
Definition unit_written (c : cunit) : list item := Die (c_offset c) true true (c_sibling c) :: flat_map written (c_kids c) ++ repeat Null (c_nulls c).
Definition unit_offsets (c : cunit) : list nat := c_offset c :: flat_map offsets (c_kids c).
Definition unit_fair (c : cunit) : Prop := (forall x, c_sibling c = Some x -> ~ In x (flat_map offsets (c_kids c))) /\ (forall t, In t (c_kids c) -> fair t).
(** the entries say what the tree is *)
Inductive says (e : nat -> option node) (parent : nat) : tree -> Prop :=
| sy t : e (t_offset t) = Some {| n_parent := Some parent; n_children := map t_offset (t_kids t) |} -> (forall k, In k (t_kids t) -> says e (t_offset t) k) -> says e parent t.

(** * C70: the value has the type of its class (the table in dwarf.go:139-153), in its range *)
Definition in64 (z : Z) : Prop := (- 2 ^ 63 <= z < 2 ^ 63)%Z.
Inductive typed : class -> value -> Prop :=
| ty_address z : (0 <= z < 2 ^ 64)%Z -> typed ClassAddress (VUint64 z)
| ty_sig z : (0 <= z < 2 ^ 64)%Z -> typed ClassReferenceSig (VUint64 z)
| ty_block l : Forall (fun z => 0 <= z < 256)%Z l -> typed ClassBlock (VInts l)
| ty_expr l : Forall (fun z => 0 <= z < 256)%Z l -> typed ClassExprLoc (VInts l)
| ty_const z : in64 z -> typed ClassConstant (VInt64 z)
| ty_line z : in64 z -> typed ClassLinePtr (VInt64 z)
| ty_loc z : in64 z -> typed ClassLocListPtr (VInt64 z)
| ty_mac z : in64 z -> typed ClassMacPtr (VInt64 z)
| ty_range z : in64 z -> typed ClassRangeListPtr (VInt64 z)
| ty_flag b : typed ClassFlag (VBool b)
| ty_ref z : (0 <= z < 2 ^ 32)%Z -> typed ClassReference (VOffset z)
| ty_string s : typed ClassString (VString s)
| ty_unknown z : in64 z -> typed ClassUnknown (VInt64 z).
Definition typed_attribute (f : attribute) : Prop := exists c, a_class f = class_name c /\ typed c (a_val f).
Definition offset_ok (z : Z) : Prop := (0 <= z < 2 ^ 32)%Z.
Record typed_entry (e : entry) : Prop := {
  te_parent : forall p, e_parent e = Some p -> offset_ok p;
  te_fields : Forall typed_attribute (e_fields e);
  te_children : Forall offset_ok (e_children e);
  te_files : e_files e <> Some [] }.
(** the number of a value is exact in a float64 (up to 2^53), and no list is empty *)
Definition small (v : value) : Prop :=
  match v with VInt64 z | VUint64 z => (Z.abs z <= 2 ^ 53)%Z | VInts l => l <> [] | _ => True end.
(** the values of debug/dwarf (the same table before the conversions of metac) *)
Inductive raw : class -> value -> Prop :=
| raw_block l : Forall (fun z => 0 <= z < 256)%Z l -> raw ClassBlock (VBytes l)
| raw_expr l : Forall (fun z => 0 <= z < 256)%Z l -> raw ClassExprLoc (VBytes l)
| raw_ref z : (0 <= z < 2 ^ 32)%Z -> raw ClassReference (VDwarfOffset z)
| raw_same c v : typed c v -> c <> ClassBlock -> c <> ClassExprLoc -> c <> ClassReference -> raw c v.

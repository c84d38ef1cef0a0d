(** Specification of the merging of types (C67): types that are alike, by what they are made of. *)
From Coq Require Import ZArith String Ascii List Bool.
From Verif Require Import Base MetadbModel.
Import ListNotations.

(** * Alike: the same kind, name, sizes, offsets and parts; the types referred to are related by R *)
Inductive linked (R : nat -> nat -> Prop) : option nat -> option nat -> Prop :=
| ln_void : linked R None None
| ln_type i j : R i j -> linked R (Some i) (Some j).
Inductive field_alike (R : nat -> nat -> Prop) (f g : field) : Prop :=
| fa : f_name f = f_name g -> linked R (f_type f) (f_type g) -> f_align f = f_align g -> f_bits f = f_bits g -> f_bit f = f_bit g -> f_databit f = f_databit g ->
       (f_bit f = None -> f_byte f = f_byte g) -> field_alike R f g.
Inductive param_alike (R : nat -> nat -> Prop) (p q : param) : Prop :=
| pa_dots : a_unspec p = Some true -> a_unspec q = Some true -> param_alike R p q
| pa_type : a_unspec p <> Some true -> a_unspec q <> Some true -> linked R (a_type p) (a_type q) -> param_alike R p q.
Inductive same_kind : body -> body -> Prop :=
| sk_base e e' : same_kind (BaseType e) (BaseType e')
| sk_enum l l' : same_kind (Enumeration l) (Enumeration l')
| sk_qual q t t' : same_kind (Qual q t) (Qual q t')
| sk_typedef t t' : same_kind (Typedef t) (Typedef t')
| sk_pointer t t' : same_kind (Pointer t) (Pointer t')
| sk_unspec : same_kind Unspecified Unspecified
| sk_ref r t t' : same_kind (Reference r t) (Reference r t')
| sk_sub ps t ps' t' : same_kind (Subroutine ps t) (Subroutine ps' t')
| sk_array t s l c v t' s' l' c' v' : same_kind (Array t s l c v) (Array t' s' l' c' v')
| sk_struct g fs hs fs' hs' : same_kind (Struct g fs hs) (Struct g fs' hs').
Inductive alike (R : nat -> nat -> Prop) (a b : object) : Prop :=
| al_base e : o_body a = BaseType e -> o_body b = BaseType e -> o_size a = o_size b -> alike R a b
| al_enum l : o_body a = Enumeration l -> o_body b = Enumeration l -> o_size a = o_size b -> o_align a = o_align b -> alike R a b
| al_qual q t u : o_body a = Qual q t -> o_body b = Qual q u -> linked R t u -> alike R a b
| al_typedef t u : o_body a = Typedef t -> o_body b = Typedef u -> linked R t u -> alike R a b
| al_pointer t u : o_body a = Pointer t -> o_body b = Pointer u -> linked R t u -> alike R a b
| al_unspec : o_body a = Unspecified -> o_body b = Unspecified -> alike R a b
| al_ref r t u : o_body a = Reference r t -> o_body b = Reference r u -> linked R t u -> alike R a b
| al_sub ps t qs u : o_body a = Subroutine ps t -> o_body b = Subroutine qs u -> Forall2 (param_alike R) ps qs -> linked R t u -> alike R a b
| al_array t u s l c v : o_body a = Array t s l c v -> o_body b = Array u s l c v -> linked R t u -> alike R a b
| al_struct g fs hs gs ks : o_body a = Struct g fs hs -> o_body b = Struct g gs ks -> o_size a = o_size b -> o_align a = o_align b ->
    Forall2 (field_alike R) fs gs -> (fs <> [] -> Forall2 (linked R) hs ks) -> alike R a b.

(** ** The same by what is written in the source: a type with a name is taken by its kind and name *)
Inductive same_text (G : nat -> option object) : nat -> nat -> Prop :=
| st_named i j a b n : G i = Some a -> G j = Some b -> o_name a = Some n -> o_name b = Some n -> same_kind (o_body a) (o_body b) -> same_text G i j
| st_plain i j a b : G i = Some a -> G j = Some b -> o_name a = None -> o_name b = None -> alike (same_text G) a b -> same_text G i j.

(** ** The same to any depth: [Q] is kept along all links. A declaration stands for any definition of its kind and name. *)
Definition kept (G H : nat -> option object) (Q : nat -> nat -> Prop) : Prop :=
  forall i j, Q i j -> exists a b, G i = Some a /\ H j = Some b /\ o_name a = o_name b /\ same_kind (o_body a) (o_body b) /\
    (o_decl a = false -> o_decl b = false -> alike Q a b).
Definition agree (G H : nat -> option object) (i j : nat) : Prop := exists Q, kept G H Q /\ Q i j.

(** * What a C compiler gives *)
Definition special (c : ascii) : bool := existsb (Ascii.eqb c) [","; ":"; "("; ")"]%char.
(** a name: not empty, without the characters , : ( and ) *)
Definition tidy (s : string) : Prop := s <> ""%string /\ Forall (fun c => special c = false) (list_ascii_of_string s).
Definition tidy_opt (s : option string) : Prop := forall n, s = Some n -> tidy n.
Definition tidy_body (b : body) : Prop :=
  match b with
  | BaseType e => Forall (fun c => special c = false) (list_ascii_of_string e)
  | Enumeration l => Forall (fun '(k, _) => tidy k) l
  | Struct _ fs _ => Forall (fun f => tidy_opt (f_name f)) fs
  | _ => True
  end.
(** the links of an object *)
Definition links (o : object) : list (option nat) :=
  match o_body o with
  | BaseType _ | Enumeration _ | Unspecified => []
  | Qual _ t | Typedef t | Pointer t | Reference _ t | Array t _ _ _ _ => [t]
  | Subroutine ps t => map a_type ps ++ [t]
  | Struct _ fs hs => map f_type fs ++ hs
  end.
Record object_ok (G : nat -> option object) (o : object) : Prop := {
  ok_name : tidy_opt (o_name o);
  ok_body : tidy_body (o_body o);
  ok_needs : needs_name (o_body o) = true -> o_name o <> None;
  ok_decl : o_decl o = true -> o_name o <> None;
  ok_links : forall j, In (Some j) (links o) -> G j <> None;
  ok_hier : forall g fs hs, o_body o = Struct g fs hs -> ~ In None hs }.
(** every way through types without a name ends *)
Definition grounded (G : nat -> option object) : Prop :=
  exists rank : nat -> nat, forall i o j, G i = Some o -> o_name o = None -> In (Some j) (links o) -> (rank j < rank i)%nat.
Definition graph_ok (G : nat -> option object) : Prop := (forall i o, G i = Some o -> object_ok G o) /\ grounded G.
(** one definition rule: definitions of the same kind and name are the same *)
Definition one_definition (G : nat -> option object) : Prop :=
  forall i j a b n, G i = Some a -> G j = Some b -> o_decl a = false -> o_decl b = false -> o_name a = Some n -> o_name b = Some n -> same_kind (o_body a) (o_body b) -> agree G G i j.
(** a type is part of another debugging entry of a type only if just that type refers to it *)
Definition nested_alone (G : nat -> option object) (parent : nat -> nat) : Prop :=
  forall i o j, G i = Some o -> In (Some j) (links o) -> G (parent j) = None \/ parent j = i.

(** * Ids (C66) *)
Definition earlier (prefix : string) (objs : list (string * string)) (k : nat) : nat :=
  List.length (filter (fun '(kind, name) => String.eqb (prefix_of kind name) prefix) (firstn k objs)).

(** a number in decimal with zeros in front up to 4 digits *)
Fixpoint zeros (n : nat) : string := match n with O => EmptyString | S n => String "0" (zeros n) end.
Definition padded (n : nat) : string := (zeros (4 - String.length (dec (Z.of_nat n))) ++ dec (Z.of_nat n))%string.

(** * Arrays (C68): the object with number i is an array with the dimensions [ds] (the first one outermost) of elements [e] *)
Inductive is_array (G : nat -> option object) (e : nat) : nat -> list (option Z * Z) -> Prop :=
| ia_last i o s l c : G i = Some o -> o_body o = Array (Some e) s l c 0 -> is_array G e i [(l, c)]
| ia_more i o s l c j d ds : G i = Some o -> o_body o = Array (Some j) s l c (Z.of_nat (List.length (d :: ds))) -> is_array G e j (d :: ds) -> is_array G e i ((l, c) :: d :: ds).
Definition stored (l : list (nat * object)) (i : nat) : option object := option_map snd (List.find (fun '(j, _) => Nat.eqb j i) l).
(** the number of elements by DWARF: the count, or from the lower (0 if not given) to the upper bound; -1: open *)
Definition elements (s : subrange) (c : Z) : Prop :=
  match s_count s, s_upper s with
  | Some n, _ => c = n
  | None, Some u => (c - 1 + match s_lower s with Some l => l | None => 0 end = u)%Z
  | None, None => c = (-1)%Z
  end.

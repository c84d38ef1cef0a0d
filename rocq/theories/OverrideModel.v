(** Executable model of the settings of a module run: pkg/override/override.go:41-156 (Go).

    Simplifications (whole file):
    - a Go map is a list of pairs with different keys; it is iterated in the order of the list. Any order is one of the lists for the same map;
      the theorems are about lookups, for all lists;
    - an array or a scalar is a leaf with a number as its content, nil is [LNull]; only the map of a whole override may be nil;
    - copystructure.Copy succeeds; trees here are values, so the copy is the tree itself;
    - warnings are not modelled. *)
From Coq Require Import ZArith List Bool String.
From Verif Require Import Base.
Import ListNotations.
Open Scope Z_scope.

Inductive leaf := LNull | LData (x : Z).
Inductive tree := Leaf (x : leaf) | Table (l : list (string * tree)).
Definition table := list (string * tree).
(** v[key] *)
Fixpoint get (k : string) (l : table) : option tree :=
  match l with [] => None | (j, t) :: r => if String.eqb j k then Some t else get k r end.
(** v[key] = val *)
Fixpoint set (k : string) (t : tree) (l : table) : table :=
  match l with [] => [(k, t)] | (j, u) :: r => if String.eqb j k then (j, t) :: r else (j, u) :: set k t r end.
(** delete(v, key) *)
Definition remove (k : string) (l : table) : table := filter (fun '(j, _) => negb (String.eqb j k)) l.
(** pkg/override/override.go:123-126 istable *)
Definition istable (t : tree) : bool := match t with Table _ => true | Leaf _ => false end.
Definition isnil (t : tree) : bool := match t with Leaf LNull => true | _ => false end.

(** pkg/override/override.go:131-156 mergeTables; [src] is the tree of the map *)
Fixpoint merge_tables (merge : bool) (src : tree) (dst : table) {struct src} : table :=
  match src with
  | Leaf _ => dst
  | Table l =>
    (fix go (l : table) (dst : table) : table :=
       match l with
       | [] => dst
       | (key, val) :: r =>
         go r (match get key dst with
               | Some dv =>
                 if negb merge && isnil dv then remove key dst
                 else if istable val then
                   match dv with
                   | Table d => set key (Table (merge_tables merge val d)) dst
                   | Leaf _ => dst
                   end
                 else dst
               | None => set key val dst
               end)
       end) l dst
  end.
(** pkg/override/override.go:58-120 Merge *)
Fixpoint merge_top (merge : bool) (vc : table) (v : table) : table :=
  match vc with
  | [] => v
  | (key, val) :: r =>
    merge_top merge r
      (match get key v with
       | Some value =>
         if isnil value && negb merge then remove key v
         else match value with
              | Table dest => match val with Table _ => set key (Table (merge_tables merge val dest)) v | Leaf _ => v end
              | Leaf _ => v
              end
       | None => set key val v
       end)
  end.
Definition merge (low high : table) : table := merge_top true low high.
(** pkg/override/override.go:15-39 New: an error, or the pointer to a map; the map itself may be nil (YAML null) *)
Inductive parsed := Bad | Parsed (m : option table).
Inductive outcome := Failed | Panic | Merged (t : table).
(** pkg/override/override.go:41-54 MergeAll with the text of each override parsed by [parse]; an assignment to an entry of a nil map panics.
    A nil override meets no key, so every key of the settings is assigned to it. *)
Fixpoint merge_all (parse : string -> parsed) (acc : table) (overrides : list string) : outcome :=
  match overrides with
  | [] => Merged acc
  | o :: r =>
    match parse o with
    | Bad => Failed
    | Parsed None => match acc with [] => merge_all parse (merge acc []) r | _ :: _ => Panic end
    | Parsed (Some t) => merge_all parse (merge acc t) r
    end
  end.

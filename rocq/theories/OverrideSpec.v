(** Specification of merged settings (C65): what is found at a path. *)
From Coq Require Import ZArith List Bool String.
From Verif Require Import Base OverrideModel.
Import ListNotations.

Fixpoint lookup (t : tree) (p : list string) : option tree :=
  match p with
  | [] => Some t
  | k :: p => match t with
              | Leaf _ => None
              | Table l => match List.find (fun '(j, _) => String.eqb j k) l with Some (_, u) => lookup u p | None => None end
              end
  end.
Definition leaf_at (t : tree) (p : list string) (x : leaf) : Prop := lookup t p = Some (Leaf x).
Definition table_at (t : tree) (p : list string) : Prop := exists l, lookup t p = Some (Table l).
(** the settings [t] have no leaf on the way to [p] and none at [p] *)
Definition open_to (t : tree) (p : list string) : Prop := forall q r x, p = q ++ r -> ~ leaf_at t q x.
(** the settings [t] say nothing about [p] *)
Definition silent (t : tree) (p : list string) : Prop := lookup t p = None /\ open_to t p.
(** no map has a key twice *)
Inductive proper : tree -> Prop :=
| pr_leaf x : proper (Leaf x)
| pr_table l : NoDup (map fst l) -> (forall k t, In (k, t) l -> proper t) -> proper (Table l).
(** the settings of an override *)
Definition tree_of (m : option table) : tree := Table (match m with Some t => t | None => [] end).
(** the same settings: the same leaves and maps at the same paths *)
Definition alike (t u : tree) : Prop := forall p, (forall x, leaf_at t p x <-> leaf_at u p x) /\ (table_at t p <-> table_at u p).

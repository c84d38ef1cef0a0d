(** Specification side of the recursive iterator: dependency queues and finite trees of
    tasks. *)
From Coq Require Import ZArith List Bool.
Import ListNotations.
From Verif Require Import IteratorModel.
Open Scope Z_scope.

(** [queue c i l]: following the links, the dependencies queued on task [i] are [l], in order. *)
Fixpoint linked (c : nat -> option node) (first : option nat) (l : list nat) : Prop :=
  match l with
  | [] => first = None
  | x :: r => first = Some x /\ exists n, c x = Some n /\ linked c (le_next n) r
  end.
Definition queue (c : nat -> option node) (i : nat) (l : list nat) : Prop :=
  exists n, c i = Some n /\ linked c (deps n) l.

(** A task is finished (done or failed) / unfinished. *)
Definition finished (c : nat -> option node) (i : nat) : Prop :=
  exists n, c i = Some n /\ (state n = -2 \/ state n = -3).
Definition unfinished (c : nat -> option node) (i : nat) : Prop :=
  exists n, c i = Some n /\ state n <> -2 /\ state n <> -3.

(** A state some client can produce. *)
Definition reachable (it : iter) : Prop :=
  exists p calls os, run_calls (new_iterator p) calls = Ok (it, os).

(** [lineage c l]: each task of [l] is queued on the one behind it, the last one is the root. *)
Fixpoint lineage (c : nat -> option node) (l : list nat) : Prop :=
  match l with
  | [] => False
  | [i] => i = 0%nat
  | i :: ((j :: _) as r) => (exists q, queue c j q /\ In i q) /\ lineage c r
  end.

(** Finite trees of tasks, labelled with the input pointers. *)
Inductive tree := T (label : Z) (children : list tree).
Definition root (t : tree) : Z := match t with T p _ => p end.

(** The client expands the tree [t]: the sub-tasks of [p] are the labels of its children, no
    label is NULL. *)
Inductive expands (kids : Z -> list Z) : tree -> Prop :=
| Expands p ts : p <> 0 -> kids p = map root ts -> Forall (expands kids) ts -> expands kids (T p ts).

(** The recursive evaluation: result, own input, failure flag. *)
Fixpoint eval (f : Z -> list (Z * Z * bool) -> option Z) (t : tree) : Z * Z * bool :=
  match t with
  | T p ts => match f p (map (eval f) ts) with
              | Some o => (o, p, false)
              | None => (0, p, true)
              end
  end.

(** The order of visits of a recursive procedure. *)
Fixpoint trace (t : tree) : list event :=
  match t with T p ts => Enter p :: flat_map trace ts ++ [Leave p] end.

(** Number of tasks. *)
Fixpoint tsize (t : tree) : nat := match t with T _ ts => S (list_sum (map tsize ts)) end.

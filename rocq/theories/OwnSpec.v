(** Specification of the ownership of memory maps (C64). *)
From Coq Require Import ZArith List Bool.
From Verif Require Import Base OwnModel.
Import ListNotations.
Open Scope Z_scope.

(** [h'] has the blocks of [h] and, new and without repetition, [L] *)
Record grown (h h' : heap) (L : list ptr) : Prop := {
  gr_ok : h_ok h' = h_ok h;
  gr_next : (h_next h <= h_next h')%nat;
  gr_nodup : NoDup L;
  gr_new : forall q, In q L -> h_blk h q = None /\ h_blk h' q <> None;
  gr_same : forall q, ~ In q L -> h_blk h' q = h_blk h q }.
(** [h'] is [h] without the blocks [L] *)
Record released (h h' : heap) (L : list ptr) : Prop := {
  re_in : forall q, In q L -> h_blk h' q = None;
  re_out : forall q, ~ In q L -> h_blk h' q = h_blk h q }.
(** blocks below [h_next] only *)
Definition sane (h : heap) : Prop := (0 < h_next h)%nat /\ (forall q, (h_next h <= q)%nat -> h_blk h q = None) /\ h_blk h 0%nat = None.

(** blocks of a map of what a plan meets: value and entry for each part, and an array of children where there are any *)
Fixpoint weight (p : plan) : nat :=
  match p with
  | Refused => 0
  | Leaf _ => 2
  | Parts _ _ l _ => 2 + (match l with [] => 0 | _ => 1 end) + list_sum (map weight l)
  | Pointer _ _ _ t => 3 + weight t
  end.
(** nothing is rejected *)
Inductive accepted : plan -> Prop :=
| ac_leaf s : accepted (Leaf s)
| ac_parts s t l : Forall accepted l -> accepted (Parts s t l false)
| ac_pointer s t k p : accepted p -> accepted (Pointer s t k p).
(** addresses pointers lead to *)
Fixpoint keys (p : plan) : list Z :=
  match p with Refused | Leaf _ => [] | Parts _ _ l _ => concat (map keys l) | Pointer _ _ k t => k :: keys t end.
(** the allocations whose failure is not survived: the map, the hash map, the entry of a pointer (and its array of one child), the iterator *)
Definition mild (ok : kind -> nat -> bool) : Prop := forall k n, In k [KMap; KHash; KPtrEntry; KIter] -> ok k n = true.
Definition plenty (ok : kind -> nat -> bool) : Prop := forall k n, ok k n = true.

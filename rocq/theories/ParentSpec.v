(** Specification of the parents of types (C83). *)
From Coq Require Import ZArith String List Bool.
From Verif Require Import Base MetadbModel.
Import ListNotations.

Definition has (G : nat -> option object) (i : nat) : bool := match G i with Some _ => true | None => false end.
(** the debugging entries of types that stand for the object [r] of the database *)
Definition members (G : nat -> option object) (st : index) (order : list nat) (r : nat) : list nat := filter (fun i => has G i && Nat.eqb (i_rep st i) r) order.
(** the entries they are in; [P0 i]: the entry (or entries) with [i] in it *)
Definition scopes (G : nat -> option object) (P0 : nat -> list nat) (st : index) (order : list nat) (r : nat) : list nat := flat_map P0 (members G st order r).
(** [i] is an array with elements [j] *)
Definition element_of (G : nat -> option object) (i j : nat) : Prop := exists o s l c v, G i = Some o /\ o_body o = Array (Some j) s l c v.

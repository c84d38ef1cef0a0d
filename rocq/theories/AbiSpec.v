(** Specification: structures whose stand-in is passed the same way, in terms of their members. *)
From Coq Require Import ZArith List Arith.
From Verif Require Import AbiModel.
Import ListNotations.

(** bytes [8k, 8k+8) hold a byte of an integer, pointer or enumeration *)
Definition has_integer (t : layout) (k : nat) : Prop :=
  exists l, In l (y_leaves t) /\ l_prim l = Integer /\ l_off l < 8 * k + 8 /\ 8 * k < l_off l + l_size l.
(** no member at an odd place (packed), no long double *)
Definition ordinary (l : leaf) : Prop := l_prim l <> X87 /\ Nat.divide (l_size l) (l_off l).
Definition safe (t : layout) : Prop :=
  y_align t <= 8 /\ (16 < y_size t \/ (forall l, In l (y_leaves t) -> ordinary l) /\ (forall k, 8 * k < y_size t -> has_integer t k)).
(** an argument has as many bytes as its type *)
Definition sized (a : arg) : Prop := length (g_bytes a) = y_size (g_type a).
(** scalars have a size *)
Definition proper (t : layout) : Prop := 0 < y_size t /\ forall l, In l (y_leaves t) -> 0 < l_size l /\ (l_prim l = X87 -> l_size l = 16).

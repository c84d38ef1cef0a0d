(** Specification of the beginning of the objects that a pointer or an array leads to. *)
From Coq Require Import ZArith List.
From Verif Require Import Base EntryModel EntrySpec ValueModel ValueSpec DeepSpec.
Open Scope Z_scope.

(** [begins d m v t p]: [v] is a pointer to [t] that holds [p], or an array of [t] at [p]. *)
Definition begins (d : db) (m : mem) (v : value) (t : ref) (p : Z) : Prop :=
  points d m v (Some t) p \/ ((exists c, array_type d v t c) /\ p = v_addr v).

(** Shared vocabulary of the models of entries, values, tags, storages and memory maps: outcomes, machine
    words, byte memory, errno values. Nothing here models a function of /repo; each definition says which
    C notion it stands for. *)
From Coq Require Import ZArith String List Bool.
Import ListNotations.
Open Scope Z_scope.

(** Outcome of a C call: [Ret] it returns; [Abort] a failed assert; [Ub] undefined behaviour (wild access,
    signed overflow, ...); [OutOfFuel] the model's step budget ran out (an endless loop in C). *)
Inductive res (A : Type) := Ret (a : A) | Abort | Ub | OutOfFuel.
Arguments Ret {A} _. Arguments Abort {A}. Arguments Ub {A}. Arguments OutOfFuel {A}.
Definition bind {A B} (x : res A) (f : A -> res B) : res B :=
  match x with Ret a => f a | Abort => Abort | Ub => Ub | OutOfFuel => OutOfFuel end.
Declare Scope res_scope.
Delimit Scope res_scope with res.
Notation "'do' x <- e ; f" := (bind e (fun x => f)) (at level 60, x name, e at level 59, right associativity) : res_scope.
Notation "'do' ' p <- e ; f" := (bind e (fun p => f)) (at level 60, p pattern, e at level 59, right associativity) : res_scope.

(** Machine words: value modulo 2^n, as unsigned or two's complement number (gcc's conversion rule). *)
Definition uwrap (n v : Z) : Z := v mod 2 ^ n.
Definition swrap (n v : Z) : Z := (v + 2 ^ (n - 1)) mod 2 ^ n - 2 ^ (n - 1).

(** errno values (Linux). *)
Definition EPERM := 1. Definition ENOENT := 2. Definition ENOMEM := 12. Definition EFAULT := 14.
Definition EINVAL := 22. Definition ENOTSUP := 95. Definition EALREADY := 114.

(** Memory: one byte (0..255) per address. *)
Definition mem := Z -> Z.
Definition bytes_ok (m : mem) : Prop := forall a, 0 <= m a < 256.
(** Little-endian load of [n] bytes at [a]. *)
Fixpoint load (m : mem) (a : Z) (n : nat) : Z :=
  match n with O => 0 | S k => m a + 256 * load m (a + 1) k end.
(** Little-endian store of the low [n] bytes of [v] at [a]. *)
Fixpoint store (m : mem) (a : Z) (n : nat) (v : Z) : mem :=
  match n with
  | O => m
  | S k => store (fun x => if x =? a then v mod 256 else m x) (a + 1) k (v / 256)
  end.
(** memcpy(d, s, n) between memories (source and destination do not overlap). *)
Definition copy_bytes (src : mem) (s : Z) (dst : mem) (d : Z) (n : Z) : mem :=
  fun x => if (d <=? x) && (x <? d + n) then src (s + (x - d)) else dst x.

Definition string_eqb := String.eqb.
(** p == NULL or strcmp(p, name) == 0 tests on possibly absent names. *)
Definition named (n : option string) (name : string) : bool :=
  match n with Some x => String.eqb x name | None => false end.

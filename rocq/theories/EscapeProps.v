(** Property theorem about string rendering (C17). *)
From Coq Require Import ZArith List Bool Lia.
Import ListNotations.
From Verif Require Import EscapeModel EscapeSpec EscapeProof.
Open Scope Z_scope.

(** C17: for arrays below 2^30 elements (the lengths are computed in int) the rendering never leaves its buffer
    and never fails an assertion; it is produced exactly for terminated presentable text (when the allocation
    works), and read back it is that text; it consists of printable characters. *)
Theorem C17_rendering_lossless_partial : forall content a b, Z.of_nat (length content) < 2 ^ 30 ->
  exists o, dprintable_string b content a = Ret o /\
   (o <> None <-> b = true /\ a = true /\ exists s, content = s ++ [0] /\ s <> [] /\ Forall presentable s) /\
   (forall out, o = Some out -> exists s body, content = s ++ [0] /\ out = body ++ [0] /\
      unescape body = Some s /\ Forall (fun c => 32 <= c <= 126) body).
Proof. exact printable_spec. Qed.
Print Assumptions C17_rendering_lossless_partial.

(** From 2^30 characters to be escaped on, the int holding the length overflows. *)
Theorem C17_huge_array_refuted : forall n, 2 ^ 30 <= Z.of_nat n -> dprintable_string true (repeat 10 n ++ [0]) true = IntOverflow.
Proof. exact render_overflow. Qed.
Print Assumptions C17_huge_array_refuted.

(** "a", newline, quote, backslash, terminator. *)
Example ex_render : dprintable_string true [97; 10; 34; 92; 0] true = Ret (Some [97; 92; 110; 92; 34; 92; 92; 0]) /\
  unescape [97; 92; 110; 92; 34; 92; 92] = Some [97; 10; 34; 92] /\
  dprintable_string true [97; 0; 98; 0] true = Ret None /\ dprintable_string true [97; -61; 0] true = Ret None.
Proof. vm_compute. auto. Qed.

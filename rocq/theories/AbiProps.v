(** Property C73: structures passed by value to a wrapped function. *)
From Coq Require Import ZArith List Arith Lia.
From Verif Require Import AbiModel AbiSpec AbiProof.
Import ListNotations.

(** Every argument is captured with the bytes that were passed, whatever named arguments come before, if the structures among them are safe. *)
Theorem C73_captured_partial : forall f args, Forall sized args -> Forall (fun a => g_struct a = true -> safe (g_type a) /\ proper (g_type a)) args ->
  capture f args = Some (map g_bytes args).
Proof. exact capture_right. Qed.
Print Assumptions C73_captured_partial.

(** The condition cannot be weakened: each other structure is captured wrongly in some call. *)
Theorem C73_unsafe_refuted : forall t, proper t -> ~ safe t ->
  exists args, Forall sized args /\ (forall a, In a args -> g_struct a = true -> g_type a = t) /\ capture start args <> Some (map g_bytes args).
Proof. exact unsafe_wrong. Qed.
Print Assumptions C73_unsafe_refuted.

(** Examples: struct P { int x; short y; char z[2]; } between numbers, structures of 24 bytes *)
Definition tint : layout := {| y_size := 4; y_align := 4; y_leaves := [{| l_off := 0; l_size := 4; l_prim := Integer |}] |}.
Definition tdouble : layout := {| y_size := 8; y_align := 8; y_leaves := [{| l_off := 0; l_size := 8; l_prim := Sse |}] |}.
Definition tldouble : layout := {| y_size := 16; y_align := 16; y_leaves := [{| l_off := 0; l_size := 16; l_prim := X87 |}] |}.
Definition tP : layout := {| y_size := 8; y_align := 4; y_leaves := [{| l_off := 0; l_size := 4; l_prim := Integer |}; {| l_off := 4; l_size := 2; l_prim := Integer |};
  {| l_off := 6; l_size := 1; l_prim := Integer |}; {| l_off := 7; l_size := 1; l_prim := Integer |}] |}.
(** struct { double a, b, c; } *)
Definition t3 : layout := {| y_size := 24; y_align := 8; y_leaves := [{| l_off := 0; l_size := 8; l_prim := Sse |}; {| l_off := 8; l_size := 8; l_prim := Sse |}; {| l_off := 16; l_size := 8; l_prim := Sse |}] |}.
Definition num (t : layout) (z : Z) : arg := {| g_struct := false; g_type := t; g_bytes := repeat z (y_size t) |}.
Definition str (t : layout) (z : Z) : arg := {| g_struct := true; g_type := t; g_bytes := repeat z (y_size t) |}.
Definition some_call : list arg := [num tint 1; num tdouble 2; str tP 3; num tldouble 4; str t3 5; num long_type 6; num long_type 7; str tP 8; num tint 9].
Example C73_safe_P : safe tP /\ proper tP.
Proof.
  split; [split; [cbn; lia|right; split]|split; [cbn; lia|]].
  - intros l I. cbn in I. decompose [or] I; try contradiction; subst l; (split; [discriminate|]); cbn; [exists 0|exists 2|exists 6|exists 7]; reflexivity.
  - intros k L. cbn in L. exists {| l_off := 0; l_size := 4; l_prim := Integer |}. split; [cbn; auto|]. cbn. repeat split; lia.
  - intros l I. cbn in I. decompose [or] I; try contradiction; subst l; cbn; split; (lia || discriminate).
Qed.
Example C73_safe_3 : safe t3 /\ proper t3.
Proof.
  split; [split; [cbn; lia|left; cbn; lia]|split; [cbn; lia|]].
  intros l I. cbn in I. decompose [or] I; try contradiction; subst l; cbn; split; (lia || discriminate).
Qed.
Example C73_captured_example : capture start some_call = Some (map g_bytes some_call).
Proof.
  apply C73_captured_partial; [repeat constructor|]. pose proof C73_safe_P. pose proof C73_safe_3.
  repeat (apply Forall_cons; [cbn [g_struct g_type num str]; intros; (discriminate || assumption)|]). constructor.
Qed.
(** struct { double d; } alone: nothing passed is where it is read *)
Definition tD : layout := tdouble.
Example C73_double_refuted : proper tD /\ ~ safe tD /\ capture start [str tD 3] = None.
Proof.
  split; [split; [cbn; lia|]|split; [|reflexivity]].
  - intros l I. cbn in I. decompose [or] I; try contradiction; subst l; cbn; split; (lia || discriminate).
  - intros (_ & [H|(_ & H)]); [cbn in H; lia|]. destruct (H 0 ltac:(cbn; lia)) as (l & I & P & _). cbn in I. destruct I as [<-|[]]. discriminate.
Qed.
(** the next argument takes the place: f(struct { double d; } 3..., int 5...) is captured as (5..., nothing) *)
Example C73_double_shifts : va_arg (stand_in tD) (passed start [str tD 3; num long_type 5]) (va_start start) = Some (repeat 5%Z 8, {| c_gp := 3; c_fp := 0; c_off := 0 |}).
Proof. reflexivity. Qed.
(** struct { int a; char b; } __attribute__((packed)) with b first; struct { long double x; } *)
Example C73_packed_refuted : capture start [str {| y_size := 5; y_align := 1; y_leaves := [{| l_off := 0; l_size := 1; l_prim := Integer |}; {| l_off := 1; l_size := 4; l_prim := Integer |}] |} 1] = None.
Proof. reflexivity. Qed.
Example C73_long_double_refuted : capture start [str tldouble 1] = None.
Proof. reflexivity. Qed.

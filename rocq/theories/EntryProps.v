(** Property theorems about type entries: final type (C26), byte size (C27), member and parameter paths
    (C28), declaration database (C30). *)
From Coq Require Import ZArith String List Bool.
From Verif Require Import Base EntryModel EntrySpec EntryProof.
Import ListNotations.
Open Scope Z_scope.
Open Scope string_scope.

(** C26. Whatever the database, a result is the end of the chain of entries that stand for another type; it is
    not such an entry itself; exactly the qualifiers met are reported (nothing is reported for void and for
    the dots of a variadic function, where *p_quals keeps its old content). *)
Theorem C26_final_entry : forall n d p out f q, final_entry n d p out = Ret (f, q) ->
  exists qs, resolves d p qs f /\
    match f with
    | None => q = out
    | Some e => final_kind (e_info (deref d e)) /\
                (is_dots (e_info (deref d e)) -> q = out) /\ (~ is_dots (e_info (deref d e)) -> flags_are q qs)
    end.
Proof. exact final_entry_spec. Qed.
Print Assumptions C26_final_entry.

(** C26. Every chain that ends is resolved to its end. *)
Theorem C26_complete : forall d p qs f, resolves d p qs f -> exists n0, forall n out, (n0 <= n)%nat ->
  exists q, final_entry n d p out = Ret (f, q).
Proof. exact final_entry_enough. Qed.
Print Assumptions C26_complete.

(** C26. Resolving again changes nothing. *)
Theorem C26_idempotent : forall n d p out f q, final_entry n d p out = Ret (f, q) ->
  forall m out', (0 < m)%nat -> exists q', final_entry m d f out' = Ret (f, q').
Proof. exact final_entry_idem. Qed.
Print Assumptions C26_idempotent.

(** C26. The loop ends on every database without cyclic typedefs. *)
Theorem C26_terminates : forall d n p out, acyclic d n -> exists x, final_entry (n + 3) d p out = Ret x.
Proof. exact final_entry_total. Qed.
Print Assumptions C26_terminates.

(** C27. A reported size is the size of the type modulo 2^64; an error is reported exactly for types without size. *)
Theorem C27_byte_size : forall n d p x, byte_size n d p = Ret x ->
  match x with
  | inl v => exists z, has_size d p z /\ v = uwrap 64 z
  | inr e => e = - EFAULT /\ forall z, ~ has_size d p z
  end.
Proof. exact byte_size_spec. Qed.
Print Assumptions C27_byte_size.

(** C27. A type has at most one size and it is the size of its final type. *)
Theorem C27_size_unique : forall d p z, has_size d p z -> forall z', has_size d p z' -> z = z'.
Proof. exact has_size_fun. Qed.
Print Assumptions C27_size_unique.
Theorem C27_size_of_final_type : forall d p qs f, resolves d p qs f -> forall z, has_size d p z <-> has_size d f z.
Proof. exact size_of_final. Qed.
Print Assumptions C27_size_of_final_type.
Theorem C27_terminates : forall d n p, acyclic d n -> exists x, byte_size (n + 3) d p = Ret x.
Proof. exact byte_size_total. Qed.
Print Assumptions C27_terminates.

(** C28. The lookup returns [q] exactly if the path leads to [q]; hence NULL exactly if some step does not exist. *)
Theorem C28_member_path : forall n d ids p x, by_member_ids n d (Some p) false ids = Ret x -> forall q, x = Some q <-> path_to d p ids q.
Proof. exact by_member_ids_spec. Qed.
Print Assumptions C28_member_path.
(** C28. With the final flag the result is the final type of what the path leads to. *)
Theorem C28_member_path_final : forall n d ids p x, by_member_ids n d p true ids = Ret x ->
  exists y, by_member_ids n d p false ids = Ret y /\ final_type d y x.
Proof. exact by_member_ids_final. Qed.
Print Assumptions C28_member_path_final.
Theorem C28_member_path_terminates : forall d n, acyclic d n -> forall ids p final, exists x, by_member_ids (n + 3) d p final ids = Ret x.
Proof. exact by_member_ids_total. Qed.
Print Assumptions C28_member_path_terminates.
(** C28. The same for parameters of functions and function types. *)
Theorem C28_parameter : forall n d i p x, by_parameter_ids n d (Some p) false i = Ret x -> forall q, x = Some q <-> param_to d p i q.
Proof. exact by_parameter_ids_spec. Qed.
Print Assumptions C28_parameter.

(** C30. Lookup in a sorted database finds exactly the unambiguous declarations. *)
Theorem C30_database_lookup : forall edb file loc name, sorted_db edb ->
  exists r, entry_from_entry_db edb file loc name = Ret r /\ forall x, r = Some x <-> stored edb file loc name [x].
Proof. exact entry_db_spec. Qed.
Print Assumptions C30_database_lookup.
Theorem C30_at_most_one : forall edb file loc name l l', sorted_db edb ->
  stored edb file loc name l -> stored edb file loc name l' -> l = l'.
Proof. exact entry_db_unique. Qed.
Print Assumptions C30_at_most_one.

(** A database: 0 int, 1 const int, 2 typedef of 1, 3 typedef int[2][3] ... *)
Definition ex_db : db := fun r =>
  match r with
  | 0%nat => Build_entry (Some "int") false (IBase 4 6)
  | 1%nat => Build_entry None false (IQual QConst (Some 0%nat))
  | 2%nat => Build_entry (Some "cint_t") false (ITypedef (Some 1%nat))
  | 3%nat => Build_entry None false (IArray (Some 2%nat) 3)
  | 4%nat => Build_entry None false (IArray (Some 3%nat) 2)
  | 5%nat => Build_entry (Some "m") false (IMember (Build_minfo (Some 4%nat) None 0 None None None))
  | 6%nat => Build_entry (Some "n") false (IMember (Build_minfo (Some 2%nat) None 24 None None None))
  | 7%nat => Build_entry (Some "s") false (IAggr AStruct 28 [5%nat; 6%nat])
  | 8%nat => Build_entry (Some "v") false (IVariable (Some 7%nat))
  | 9%nat => Build_entry (Some "o") false (IMember (Build_minfo (Some 8%nat) None 0 None None None))
  | 10%nat => Build_entry None false (IAggr AUnion 28 [9%nat])
  | 11%nat => Build_entry (Some "x") false (IParam false (Some 2%nat))
  | 12%nat => Build_entry None false (IParam true None)
  | 13%nat => Build_entry (Some "f") false (ISubprogram None [11%nat; 12%nat])
  | _ => Build_entry None false (IOther (-1))
  end.
Example ex_final : final_entry 10 ex_db (Some (St 6%nat)) no_quals = Ret (Some (St 0%nat), Build_quals true false false false false false).
Proof. reflexivity. Qed.
Example ex_resolves : resolves ex_db (Some (St 6%nat)) [QConst] (Some (St 0%nat)).
Proof.
  apply (res_step ex_db (St 6%nat) (Some 2%nat) None [QConst]); [constructor|].
  apply (res_step ex_db (St 2%nat) (Some 1%nat) None [QConst]); [constructor|].
  apply (res_step ex_db (St 1%nat) (Some 0%nat) (Some QConst) []); [constructor|].
  apply res_stop. intros t q K. inversion K.
Qed.
Example ex_dots : final_entry 10 ex_db (Some (St 12%nat)) no_quals = Ret (Some (St 12%nat), no_quals).
Proof. reflexivity. Qed.
Example ex_size : byte_size 10 ex_db (Some (St 5%nat)) = Ret (inl 24).
Proof. reflexivity. Qed.
Example ex_no_size : byte_size 10 ex_db (Some (St 13%nat)) = Ret (inr (- EFAULT)).
Proof. reflexivity. Qed.
Example ex_acyclic : acyclic ex_db 8.
Proof.
  exists (fun r => match r with 0 => 0 | 1 => 1 | 2 => 2 | 3 => 3 | 4 => 4 | 5 => 5 | 6 => 3 | 7 => 0 | 8 => 1 | 9 => 2 | 11 => 3 | _ => 0 end)%nat.
  split.
  - intros r. do 14 (destruct r as [|r]; [vm_compute; repeat constructor|]). repeat constructor.
  - intros r t. do 14 (destruct r as [|r];
      [intros [(q & K)|[(c & K)|K]]; cbn in K; inversion K; subst; repeat constructor|]).
    intros [(q & K)|[(c & K)|K]]; cbn in K; inversion K.
Qed.
Example ex_path : by_member_ids 10 ex_db (Some (St 10%nat)) false [Build_entry_id (Some "o") 0; Build_entry_id None 1] = Ret (Some (St 6%nat)).
Proof. reflexivity. Qed.
Example ex_path_miss : by_member_ids 10 ex_db (Some (St 10%nat)) false [Build_entry_id (Some "o") 0; Build_entry_id None 2] = Ret None.
Proof. reflexivity. Qed.
Example ex_param : by_parameter_ids 10 ex_db (Some (St 13%nat)) true (Build_entry_id (Some "x") 0) = Ret (Some (St 0%nat)).
Proof. reflexivity. Qed.
Definition ex_edb : entry_db :=
  [("a.c", [("", [("f", [3%nat]); ("g", [4%nat; 5%nat])])]); ("b.c", [("", [("f", [6%nat])]); ("main", [])])].
Example ex_lookup : entry_from_entry_db ex_edb "b.c" "" "f" = Ret (Some 6%nat) /\ entry_from_entry_db ex_edb "a.c" "" "g" = Ret None.
Proof. split; reflexivity. Qed.
Example ex_sorted : sorted_db ex_edb.
Proof.
  assert (S2 : forall A (x y : string * A), lex_lt (bytes (fst x)) (bytes (fst y)) -> sorted [x; y]).
  { intros A x y L i j a b O. destruct i as [|[|[|i]]], j as [|[|[|j]]]; cbn; intros; try discriminate; try (exfalso; inversion O; fail);
    try (exfalso; inversion O as [|? O']; inversion O'; fail); congruence. }
  assert (S1 : forall A (x : string * A), sorted [x]).
  { intros A x i j a b O. destruct j as [|[|j]]; cbn; intros; try discriminate. inversion O. }
  assert (S0 : forall A, sorted (A := A) []) by (intros A [|i] [|j] a b O; cbn; discriminate).
  split.
  - apply S2. apply lex_head. reflexivity.
  - intros f locs [K|[K|[]]]; injection K as <- <-.
    + split; [apply S1|]. intros l names [K|[]]; injection K as <- <-. apply S2. apply lex_head; reflexivity.
    + split; [apply S2; apply lex_nil|]. intros l names [K|[K|[]]]; injection K as <- <-; [apply S1|apply S0].
Qed.

(** Properties of the parents of types at run time (C83). *)
From Coq Require Import ZArith String List Bool Lia.
From Verif Require Import Base MetadbModel MetadbSpec MetadbProof6 MetadbProps ParentModel ParentSpec ParentProof.
Import ListNotations.

(** C83. metac_entry_parent_count of a type of the generated code is the number of scopes its debugging entries are in (once for each debugging entry merged into the type),
    and metac_entry_parent_entry gives just the entries of those scopes, NULL for all other numbers; whatever the order of the iteration. *)
Theorem C83_parents : forall G parent P0 fuel order st ps, NoDup order -> dedup_parents fuel G parent index0 P0 order = Ok (st, ps) -> dedup fuel G parent index0 order = Ok st /\
  forall r, In r (i_db st) -> parent_count (entry_parents st ps r) = Z.of_nat (List.length (scopes G P0 st order r)) /\
    forall k, parent_entry (entry_parents st ps r) k = if (0 <=? k)%Z then option_map (i_rep st) (nth_error (scopes G P0 st order r) (Z.to_nat k)) else None.
Proof. exact parents_ok. Qed.
Print Assumptions C83_parents.

(** the lists of parents change nothing of the merging *)
Theorem C83_goes : forall G parent fuel order st P0 s, dedup fuel G parent st order = Ok s -> exists ps, dedup_parents fuel G parent st P0 order = Ok (s, ps).
Proof. intros G parent fuel order st P0. exact (dedup_same G parent fuel order st P0). Qed.
Print Assumptions C83_goes.

(** C83. A parent that is a type is a type of the generated code, where scopes that are types are not inside of types themselves. *)
Theorem C83_known_partial : forall G parent P0 fuel order st ps, NoDup order -> (forall i, G i <> None -> In i order) -> dedup_parents fuel G parent index0 P0 order = Ok (st, ps) ->
  (forall i p, G i <> None -> In p (P0 i) -> G p <> None -> G (parent p) = None) ->
  forall r k q, parent_entry (entry_parents st ps r) k = Some q -> entry_parents st ps q <> None \/ G q = None.
Proof. exact parents_known. Qed.
Print Assumptions C83_known_partial.

(** C83. The parent of a dimension of an array is the array it is the element of, that of the whole array the scope of the array. *)
Theorem C83_arrays : forall index parent name decl size align stride t children, NoDup (t :: index :: map s_index children) ->
  let G := stored (process_array index name decl size align stride t children) in let L := array_parents index parent children in
  NoDup (map fst L) /\ (forall k, In k (map fst L) <-> G k <> None) /\ In (index, [parent]) L /\
  (forall i j, element_of G i j -> G j <> None -> In (j, [i]) L).
Proof. exact array_parents_ok. Qed.
Print Assumptions C83_arrays.

(** int m[2][3] in two units 100 and 200: arrays 2, 12 with the inner arrays 3, 13 of int 1, 11 *)
Definition matrix_ranges (k : nat) : list subrange := [{| s_index := 4 + k; s_lower := None; s_count := None; s_upper := Some 1%Z |}; {| s_index := 3 + k; s_lower := None; s_count := None; s_upper := Some 2%Z |}]%nat.
Definition matrix_of (k : nat) : list (nat * object) := ((k + 1, def (Some "int"%string) (Some 4%Z) (BaseType "signed")) :: process_array (k + 2) None false None None None (k + 1) (matrix_ranges k))%nat.
Definition matrices : list (nat * object) := (matrix_of 0 ++ matrix_of 10)%list.
Definition unit_of (i : nat) : nat := if Nat.ltb i 10 then 100 else 200.
Definition listed (l : list (nat * list nat)) (i : nat) : list nat := match List.find (fun '(j, _) => Nat.eqb j i) l with Some (_, p) => p | None => [unit_of i] end.
Definition matrix_scopes : nat -> list nat := listed (array_parents 2 100 (matrix_ranges 0) ++ array_parents 12 200 (matrix_ranges 10)).
Definition matrix_parent (i : nat) : nat := match i with 3 => 2 | 13 => 12 | _ => unit_of i end%nat.
Example C83_ex : exists st ps, dedup_parents 100 (stored matrices) matrix_parent index0 matrix_scopes [11; 13; 2; 1; 12; 3]%nat = Ok (st, ps) /\ NoDup [11; 13; 2; 1; 12; 3]%nat /\
  (forall i, stored matrices i <> None -> In i [11; 13; 2; 1; 12; 3]%nat) /\ (forall i p, stored matrices i <> None -> In p (matrix_scopes i) -> stored matrices p <> None -> stored matrices (matrix_parent p) = None) /\
  i_db st = [11; 13; 2]%nat /\ entry_parents st ps 11 = Some [200; 100]%nat /\ entry_parents st ps 13 = Some [2; 2]%nat /\ entry_parents st ps 2 = Some [100; 200]%nat /\
  parent_count (entry_parents st ps 2) = 2%Z /\ parent_entry (entry_parents st ps 2) 1 = Some 200%nat /\ parent_entry (entry_parents st ps 2) 2 = None.
Proof.
  do 2 eexists. split; [vm_compute; reflexivity|]. split; [repeat constructor; cbn; lia|].
  assert (Dom : forall i, stored matrices i <> None -> In i [11; 13; 2; 1; 12; 3]%nat).
  { intros i H. destruct (stored matrices i) as [o|] eqn:S1; [apply stored_out in S1; cbn in S1; repeat (destruct S1 as [S1|S1]; [injection S1 as <- <-; cbn; tauto|]); destruct S1|destruct H; reflexivity]. }
  split; [exact Dom|]. split.
  - intros i p Gi Ip Gp. apply Dom in Gi. apply Dom in Gp. cbn in Gi. repeat (destruct Gi as [<-|Gi]; [vm_compute in Ip; destruct Ip as [<-|[]]; try (vm_compute; reflexivity); exfalso; cbn in Gp; lia|]). destruct Gi.
  - vm_compute. repeat split.
Qed.
Example C83_arrays_ex : NoDup (1 :: 2 :: map s_index (matrix_ranges 0))%nat /\ array_parents 2 100 (matrix_ranges 0) = [(2, [100]); (3, [2])]%nat /\ element_of (stored (matrix_of 0)) 2 3.
Proof. split; [repeat constructor; cbn; lia|]. split; [reflexivity|]. unfold element_of. vm_compute. repeat eexists. Qed.

(** C83 refuted for arrays of three dimensions in two units: the parent of the innermost array may be a type that is not in the database (its id is empty, the generated code is no C),
    depending on the order of the iteration. int a[2][3][4] of C67_arrays_refuted. *)
Definition cube_ranges (k : nat) : list subrange := [{| s_index := 5 + k; s_lower := None; s_count := None; s_upper := Some 1%Z |}; {| s_index := 3 + k; s_lower := None; s_count := None; s_upper := Some 2%Z |}; {| s_index := 4 + k; s_lower := None; s_count := None; s_upper := Some 3%Z |}]%nat.
Definition cube_scopes : nat -> list nat := listed (array_parents 2 100 (cube_ranges 0) ++ array_parents 12 200 (cube_ranges 10)).
Theorem C83_known_refuted : exists G parent P0 order st ps, graph_ok G /\ NoDup order /\ (forall i, G i <> None -> In i order) /\ (forall i, G i <> None -> exists p, P0 i = [p]) /\
  dedup_parents 100 G parent index0 P0 order = Ok (st, ps) /\
  exists r k q, parent_entry (entry_parents st ps r) k = Some q /\ G q <> None /\ entry_parents st ps q = None.
Proof.
  exists (stored cubes), cube_parent, cube_scopes, [1; 11; 14; 2; 12; 13; 3; 4]%nat. do 2 eexists. split; [exact cubes_ok|]. split; [repeat constructor; cbn; lia|].
  assert (Dom : forall i, stored cubes i <> None -> In i [1; 11; 14; 2; 12; 13; 3; 4]%nat).
  { intros i H. destruct (stored cubes i) as [o|] eqn:S1; [apply stored_out in S1; cbn in S1; repeat (destruct S1 as [S1|S1]; [injection S1 as <- <-; cbn; tauto|]); destruct S1|destruct H; reflexivity]. }
  split; [exact Dom|]. split; [intros i Gi; apply Dom in Gi; cbn in Gi; repeat (destruct Gi as [<-|Gi]; [eexists; vm_compute; reflexivity|]); destruct Gi|].
  split; [vm_compute; reflexivity|]. exists 14%nat, 0%Z, 13%nat. split; [vm_compute; reflexivity|]. split; [discriminate|vm_compute; reflexivity].
Qed.
Print Assumptions C83_known_refuted.

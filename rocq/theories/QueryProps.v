(** Property theorems about the questions that may be asked about a type (C84): pointers, arrays, members,
    parameters, enumerators, base types, and the arrays made of them. *)
From Coq Require Import ZArith String List Bool Lia.
From Verif Require Import Base EntryModel EntrySpec EntryProof EntryProps QuerySpec QueryProof.
Import ListNotations.
Open Scope Z_scope.
Open Scope string_scope.
Local Open Scope list_scope.

(** C84. Pointers: the questions see through names and qualifiers; the entry pointed to is the one declared. *)
Theorem C84_is_pointer : forall n d p b, is_pointer n d p = Ret b -> (b = true <-> exists t, shape d p (IPointer t)).
Proof. exact is_pointer_spec. Qed.
Print Assumptions C84_is_pointer.
Theorem C84_is_void_pointer : forall n d p b, is_void_pointer n d p = Ret b -> (b = true <-> shape d p (IPointer None)).
Proof. exact is_void_spec. Qed.
Print Assumptions C84_is_void_pointer.
Theorem C84_is_declaration_pointer : forall n d p b, is_declaration_pointer n d p = Ret b ->
  (b = true <-> exists t, shape d p (IPointer (Some t)) /\ e_declaration (d t) = true).
Proof. exact is_declaration_spec. Qed.
Print Assumptions C84_is_declaration_pointer.
Theorem C84_pointer_entry : forall n d p x, pointer_entry n d p = Ret x ->
  forall q, x = Some q <-> exists t, shape d p (IPointer (Some t)) /\ q = St t.
Proof. exact pointer_entry_spec. Qed.
Print Assumptions C84_pointer_entry.
Theorem C84_element_entry : forall n d p x, element_entry n d p = Ret x ->
  forall q, x = Some q <-> exists t c, shape d p (IArray (Some t) c) /\ q = St t.
Proof. exact element_entry_spec. Qed.
Print Assumptions C84_element_entry.

(** C84. Members: their number, the first position of a name, the entry at a position. *)
Theorem C84_member_count : forall n d p c, member_count n d p = Ret c -> count_answer (has_members d p) c.
Proof. exact member_count_spec. Qed.
Print Assumptions C84_member_count.
Theorem C84_member_index : forall n d p nm c, member_name_to_id n d p nm = Ret c -> index_answer d (has_members d p) nm c.
Proof. exact member_index_spec. Qed.
Print Assumptions C84_member_index.
Theorem C84_member_at : forall n d p k x, by_member_id n d p k = Ret x -> forall q, x = Some q <-> at_index (has_members d p) k q.
Proof. exact member_at_spec. Qed.
Print Assumptions C84_member_at.
(** C84. The same for the parameters of functions and of function types. *)
Theorem C84_parameter_count : forall n d p c, parameters_count n d p = Ret c -> count_answer (has_params d p) c.
Proof. exact param_count_spec. Qed.
Print Assumptions C84_parameter_count.
Theorem C84_parameter_index : forall n d p nm c, parameter_name_to_id n d p nm = Ret c -> index_answer d (has_params d p) nm c.
Proof. exact param_index_spec. Qed.
Print Assumptions C84_parameter_index.
Theorem C84_parameter_at : forall n d p k x, by_parameter_id n d p k = Ret x -> forall q, x = Some q <-> at_index (has_params d p) k q.
Proof. exact param_at_spec. Qed.
Print Assumptions C84_parameter_at.

(** C84. The name of a value of an enumeration is that of the first enumerator with the value. *)
Theorem C84_enumerator : forall n d p v x, enumeration_to_name n d p v = Ret x ->
  forall nm, x = Some nm <-> exists z pre post, shape d p (IEnum z (pre ++ (Some nm, v) :: post)) /\ forall y, In y pre -> snd y <> v.
Proof. exact enumerator_spec. Qed.
Print Assumptions C84_enumerator.

(** C84. A base type is accepted exactly if name, encoding and size agree, where 0 in the database agrees with all;
    assert fails only at a base type without a name. *)
Theorem C84_check_base_type : forall n d p nm enc size x, check_base_type n d p nm enc size = Ret x ->
  (x = 0 \/ x = - EINVAL) /\ (x = 0 <-> fits_base d p nm enc size).
Proof. exact check_base_spec. Qed.
Print Assumptions C84_check_base_type.
Theorem C84_check_aborts : forall n d p nm enc size, check_base_type n d p nm enc size = Abort -> exists z c, declared d p None (IBase z c).
Proof. exact check_base_abort. Qed.
Print Assumptions C84_check_aborts.

(** C84. An array of [count] elements made of a pointer or an array: the element type is what was pointed to, and it
    is [count] times as big. *)
Theorem C84_new_element_count : forall n d p count a x, new_element_count_entry n d p count a = Ret x ->
  forall q, x = Some q <-> a = true /\ exists t, leads_to d p t /\ q = Dy (Build_entry None false (IArray (Some t) count)).
Proof. exact new_count_spec. Qed.
Print Assumptions C84_new_element_count.
Theorem C84_new_element_size : forall n d p count a q t z, new_element_count_entry n d p count a = Ret (Some q) -> leads_to d p t ->
  0 < count -> has_size d (Some (St t)) z -> has_size d (Some q) (count * z).
Proof. exact new_count_sized. Qed.
Print Assumptions C84_new_element_size.

(** C84. All of these end on every database without cyclic typedefs. *)
Theorem C84_ends : forall d n p, acyclic d n ->
  (exists b, is_pointer (n + 3) d p = Ret b) /\ (exists b, is_void_pointer (n + 3) d p = Ret b) /\
  (exists b, is_declaration_pointer (n + 3) d p = Ret b) /\ (exists x, pointer_entry (n + 3) d p = Ret x) /\
  (exists x, element_entry (n + 3) d p = Ret x) /\
  (exists c, member_count (n + 3) d p = Ret c) /\ (forall nm, exists c, member_name_to_id (n + 3) d p nm = Ret c) /\
  (forall k, exists x, by_member_id (n + 3) d p k = Ret x) /\
  (exists c, parameters_count (n + 3) d p = Ret c) /\ (forall nm, exists c, parameter_name_to_id (n + 3) d p nm = Ret c) /\
  (forall k, exists x, by_parameter_id (n + 3) d p k = Ret x) /\
  (forall v, exists x, enumeration_to_name (n + 3) d p v = Ret x) /\
  (forall count a, exists x, new_element_count_entry (n + 3) d p count a = Ret x) /\
  ((forall z c, ~ declared d p None (IBase z c)) -> forall nm enc size, exists x, check_base_type (n + 3) d p nm enc size = Ret x).
Proof. exact queries_end. Qed.
Print Assumptions C84_ends.

(** The cases: the database of EntryProps (a struct behind a variable, an array behind a member, a function) and one
    with pointers and an enumeration whose second and third enumerators have the same value. *)
Definition q_db : db := fun r =>
  match r with
  | 0%nat => Build_entry (Some "int") false (IBase 4 6)
  | 1%nat => Build_entry None false (IPointer (Some 0%nat))
  | 2%nat => Build_entry (Some "ip_t") false (ITypedef (Some 1%nat))
  | 3%nat => Build_entry None false (IPointer None)
  | 4%nat => Build_entry (Some "hidden") true (IAggr AStruct 0 [])
  | 5%nat => Build_entry None false (IPointer (Some 4%nat))
  | 6%nat => Build_entry None false (IEnum 4 [(Some "A", 0); (Some "B", 1); (Some "C", 1)])
  | 7%nat => Build_entry (Some "e_t") false (ITypedef (Some 6%nat))
  | _ => Build_entry None false (IBase 1 0)
  end.
Example C84_pointers : is_pointer 10 q_db (Some (St 2%nat)) = Ret true /\ is_void_pointer 10 q_db (Some (St 2%nat)) = Ret false /\
  is_void_pointer 10 q_db (Some (St 3%nat)) = Ret true /\ pointer_entry 10 q_db (Some (St 2%nat)) = Ret (Some (St 0%nat)) /\
  is_declaration_pointer 10 q_db (Some (St 5%nat)) = Ret true /\ is_declaration_pointer 10 q_db (Some (St 2%nat)) = Ret false /\
  is_pointer 10 q_db (Some (St 7%nat)) = Ret false.
Proof. repeat split. Qed.
Example C84_members : member_count 10 ex_db (Some (St 8%nat)) = Ret 2 /\ member_name_to_id 10 ex_db (Some (St 8%nat)) "n" = Ret 1 /\
  member_name_to_id 10 ex_db (Some (St 8%nat)) "q" = Ret (- ENOENT) /\ member_name_to_id 10 ex_db (Some (St 0%nat)) "n" = Ret (- EINVAL) /\
  by_member_id 10 ex_db (Some (St 8%nat)) 1 = Ret (Some (St 6%nat)) /\ by_member_id 10 ex_db (Some (St 8%nat)) 2 = Ret None /\
  element_entry 10 ex_db (Some (St 5%nat)) = Ret (Some (St 3%nat)).
Proof. repeat split. Qed.
Example C84_parameters : parameters_count 10 ex_db (Some (St 13%nat)) = Ret 2 /\ parameter_name_to_id 10 ex_db (Some (St 13%nat)) "x" = Ret 0 /\
  by_parameter_id 10 ex_db (Some (St 13%nat)) 1 = Ret (Some (St 12%nat)) /\ by_parameter_id 10 ex_db (Some (St 13%nat)) (-1) = Ret None.
Proof. repeat split. Qed.
Example C84_enumerators : enumeration_to_name 10 q_db (Some (St 7%nat)) 1 = Ret (Some "B") /\ enumeration_to_name 10 q_db (Some (St 7%nat)) 2 = Ret None.
Proof. repeat split. Qed.
Example C84_bases : check_base_type 10 ex_db (Some (St 2%nat)) "int" 6 4 = Ret 0 /\ check_base_type 10 ex_db (Some (St 2%nat)) "int" 6 8 = Ret (- EINVAL) /\
  check_base_type 10 q_db (Some (St 8%nat)) "char" 6 1 = Abort.
Proof. repeat split. Qed.
Example C84_new_array : exists q, new_element_count_entry 10 q_db (Some (St 2%nat)) 5 true = Ret (Some q) /\ has_size q_db (Some q) (5 * 4) /\
  byte_size 10 q_db (Some q) = Ret (inl 20).
Proof.
  exists (Dy (Build_entry None false (IArray (Some 0%nat) 5))). split; [reflexivity|]. split; [|reflexivity].
  apply (C84_new_element_size 10 q_db (Some (St 2%nat)) 5 true _ 0%nat 4); [reflexivity| |lia|].
  - left. exists None, (St 1%nat). split; [|split; reflexivity]. exists []. apply (res_step q_db (St 2%nat) (Some 1%nat) None []); [constructor|].
    apply res_stop. intros t q K. inversion K.
  - eapply hs_base. reflexivity.
Qed.

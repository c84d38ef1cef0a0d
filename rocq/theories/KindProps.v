(** Property theorems about the kinds of types (C85): a type is of one kind and one C type; base types, enumerators by
    number, results, members and parameters themselves. *)
From Coq Require Import ZArith String List Bool Lia.
From Verif Require Import Base EntryModel EntrySpec EntryProof EntryProps QuerySpec QueryProof QueryProps QueryModel ValueModel KindProof.
Import ListNotations.
Open Scope Z_scope.
Open Scope string_scope.
Local Open Scope list_scope.

(** C85. The flags tell what the type resolves to (pointers: C84_is_pointer). *)
Theorem C85_flags : forall n d p b,
  (is_base_type n d p = Ret b -> (b = true <-> exists z c, shape d p (IBase z c))) /\
  (has_members_flag n d p = Ret b -> (b = true <-> exists l, has_members d p l)) /\
  (has_elements_flag n d p = Ret b -> (b = true <-> exists t c, shape d p (IArray t c))) /\
  (is_enumeration n d p = Ret b -> (b = true <-> exists z l, shape d p (IEnum z l))) /\
  (has_parameters_flag n d p = Ret b -> (b = true <-> exists l, has_params d p l)).
Proof. exact flags_spec. Qed.
Print Assumptions C85_flags.

(** C85. At most one of the six flags holds. *)
Theorem C85_one_kind : forall n m d p i j f g,
  nth_error [is_base_type; is_pointer; has_members_flag; has_elements_flag; is_enumeration; has_parameters_flag] i = Some f ->
  nth_error [is_base_type; is_pointer; has_members_flag; has_elements_flag; is_enumeration; has_parameters_flag] j = Some g ->
  f n d p = Ret true -> g m d p = Ret true -> i = j.
Proof. exact one_kind. Qed.
Print Assumptions C85_one_kind.

(** C85. Name, size and encoding of a base type. *)
Theorem C85_base_type : forall n d p,
  (forall x, base_type_name n d p = Ret x -> forall nm, x = Some nm <-> exists z c, declared d p (Some nm) (IBase z c)) /\
  (forall x, base_type_byte_size n d p = Ret x -> (exists z c, shape d p (IBase z c) /\ x = inl z) \/ ((forall z c, ~ shape d p (IBase z c)) /\ x = inr (- EINVAL))) /\
  (forall x, base_type_encoding n d p = Ret x -> (exists z c, shape d p (IBase z c) /\ x = inl c) \/ ((forall z c, ~ shape d p (IBase z c)) /\ x = inr (- EINVAL))).
Proof. exact base_info_spec. Qed.
Print Assumptions C85_base_type.

(** C85. Enumerators by number: those declared, in their order; and a walk over the numbers finds the name that
    enumeration_to_name gives. *)
Theorem C85_enumeration_info : forall n d p k x, enumeration_info n d p k = Ret x ->
  forall y, x = Some y <-> exists z l, shape d p (IEnum z l) /\ 0 <= k /\ nth_error l (Z.to_nat k) = Some y.
Proof. exact enum_info_spec. Qed.
Print Assumptions C85_enumeration_info.
Theorem C85_enumeration_size : forall n d p c, enumeration_info_size n d p = Ret c ->
  (exists z l, shape d p (IEnum z l) /\ c = Z.of_nat (length l)) \/ ((forall z l, ~ shape d p (IEnum z l)) /\ c = 0).
Proof. exact enum_size_spec. Qed.
Print Assumptions C85_enumeration_size.
Theorem C85_enumeration_walk : forall n m d p v x nm, enumeration_to_name n d p v = Ret x ->
  (forall k, exists y, enumeration_info m d p k = Ret y) ->
  (x = Some nm <-> exists k, enumeration_info m d p k = Ret (Some (Some nm, v)) /\
                             forall j o w, j < k -> enumeration_info m d p j = Ret (Some (o, w)) -> w <> v).
Proof. exact enum_walk. Qed.
Print Assumptions C85_enumeration_walk.
Theorem C85_enumeration_ends : forall n d p, acyclic d n -> forall k, exists y, enumeration_info (n + 3) d p k = Ret y.
Proof. exact enum_info_total. Qed.
Print Assumptions C85_enumeration_ends.

(** C85. The type of the result of a function or a function type; none for void. *)
Theorem C85_result : forall n d p,
  (forall x, result_type n d p = Ret x -> forall q, x = Some q <-> exists t l, (shape d p (ISubprogram (Some t) l) \/ shape d p (ISubroutine (Some t) l)) /\ q = St t) /\
  (forall b, has_result n d p = Ret b -> (b = true <-> exists t l, shape d p (ISubprogram (Some t) l) \/ shape d p (ISubroutine (Some t) l))).
Proof. exact result_spec. Qed.
Print Assumptions C85_result.

(** C85. The type of a member or of a parameter resolves to the same as the member or parameter. *)
Theorem C85_member_entry : forall d p q, member_entry d (Some p) = Some q ->
  is_member d (Some p) = true /\ forall f, final_type d (Some p) f <-> final_type d (Some q) f.
Proof. exact member_entry_spec. Qed.
Print Assumptions C85_member_entry.
Theorem C85_parameter_entry : forall d p q, parameter_entry d (Some p) = Some q ->
  is_parameter d (Some p) = true /\ is_unspecified_parameter d (Some p) = false /\ forall f, final_type d (Some p) f <-> final_type d (Some q) f.
Proof. exact parameter_entry_spec. Qed.
Print Assumptions C85_parameter_entry.

(** C85. At most one of metac_entry_is_char, ..., is_ldouble_complex holds; the type has then the name of that C type
    and its size on x86-64, if the size is known; it is a base type. *)
Definition c_types : list (ctype * (string * Z)) :=
  [(CChar, ("char", 1)); (CUChar, ("unsigned char", 1)); (CShort, ("short int", 2)); (CUShort, ("unsigned short int", 2));
   (CInt, ("int", 4)); (CUInt, ("unsigned int", 4)); (CLong, ("long int", 8)); (CULong, ("unsigned long int", 8));
   (CLLong, ("long long int", 8)); (CULLong, ("unsigned long long int", 8)); (CBool, ("_Bool", 1)); (CFloat, ("float", 4));
   (CDouble, ("double", 8)); (CLDouble, ("long double", 16)); (CFComplex, ("complex float", 8)); (CDComplex, ("complex double", 16));
   (CLDComplex, ("long complex double", 32))].
Theorem C85_one_ctype : forall n m d p c c', entry_is n d p c = Ret true -> entry_is m d p c' = Ret true -> c = c'.
Proof. exact one_ctype. Qed.
Print Assumptions C85_one_ctype.
Lemma c_types_all : forall c, exists nm s, In (c, (nm, s)) c_types /\ ct_name c = nm /\ ct_size c = s.
Proof. intros c. exists (ct_name c), (ct_size c). split; [|auto]. destruct c; cbn; tauto. Qed.
Theorem C85_ctype : forall n d p c, entry_is n d p c = Ret true ->
  exists nm s z e, In (c, (nm, s)) c_types /\ declared d p (Some nm) (IBase z e) /\ (z = 0 \/ z = s).
Proof.
  intros n d p c H. destruct (ctype_declared _ _ _ _ H) as (z & e & D & Z'). destruct (c_types_all c) as (nm & s & I & <- & <-).
  exists (ct_name c), (ct_size c), z, e. auto.
Qed.
Print Assumptions C85_ctype.
Theorem C85_ctype_is_base : forall n m d p c b, entry_is n d p c = Ret true -> is_base_type m d p = Ret b -> b = true.
Proof. exact ctype_is_base. Qed.
Print Assumptions C85_ctype_is_base.

(** The cases, in the databases of EntryProps and QueryProps. *)
Example C85_flags_example : is_base_type 10 ex_db (Some (St 2%nat)) = Ret true /\ has_members_flag 10 ex_db (Some (St 8%nat)) = Ret true /\
  has_elements_flag 10 ex_db (Some (St 5%nat)) = Ret true /\ is_enumeration 10 q_db (Some (St 7%nat)) = Ret true /\
  has_parameters_flag 10 ex_db (Some (St 13%nat)) = Ret true /\ has_members_flag 10 ex_db (Some (St 5%nat)) = Ret false.
Proof. repeat split. Qed.
Example C85_base_example : base_type_name 10 ex_db (Some (St 2%nat)) = Ret (Some "int") /\ base_type_byte_size 10 ex_db (Some (St 2%nat)) = Ret (inl 4) /\
  base_type_encoding 10 ex_db (Some (St 2%nat)) = Ret (inl 6) /\ base_type_encoding 10 ex_db (Some (St 7%nat)) = Ret (inr (- EINVAL)) /\
  entry_is 10 ex_db (Some (St 2%nat)) CInt = Ret true /\ entry_is 10 ex_db (Some (St 2%nat)) CLong = Ret false.
Proof. repeat split. Qed.
Example C85_enum_example : enumeration_info_size 10 q_db (Some (St 7%nat)) = Ret 3 /\ enumeration_info 10 q_db (Some (St 7%nat)) 2 = Ret (Some (Some "C", 1)) /\
  enumeration_info 10 q_db (Some (St 7%nat)) 3 = Ret None /\ enumeration_info 10 q_db (Some (St 7%nat)) (-1) = Ret None /\
  forall k, exists y, enumeration_info 10 q_db (Some (St 7%nat)) k = Ret y.
Proof. repeat split. intros k. unfold enumeration_info. cbn. eauto. Qed.
Definition k_db : db := fun r =>
  match r with
  | 0%nat => Build_entry (Some "f") false (ISubprogram (Some 1%nat) [2%nat])
  | 1%nat => Build_entry (Some "int") false (IBase 4 6)
  | 2%nat => Build_entry (Some "x") false (IParam false (Some 1%nat))
  | 3%nat => Build_entry None false (ISubroutine None [])
  | 4%nat => Build_entry (Some "m") false (IMember (Build_minfo (Some 1%nat) None 0 None None None))
  | _ => Build_entry None false (IParam true None)
  end.
Example C85_result_example : result_type 10 k_db (Some (St 0%nat)) = Ret (Some (St 1%nat)) /\ has_result 10 k_db (Some (St 0%nat)) = Ret true /\
  has_result 10 k_db (Some (St 3%nat)) = Ret false /\ parameter_entry k_db (Some (St 2%nat)) = Some (St 1%nat) /\
  member_entry k_db (Some (St 4%nat)) = Some (St 1%nat) /\ parameter_entry k_db (Some (St 5%nat)) = None /\ is_unspecified_parameter k_db (Some (St 5%nat)) = true.
Proof. repeat split. Qed.

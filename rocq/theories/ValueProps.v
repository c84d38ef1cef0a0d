(** Property theorems about typed access to memory: bit-fields (C18-C21), base types (C22), enumerations
    (C23, C24), integers (C25), elements and members (C29), copy and comparison (C48). *)
From Coq Require Import ZArith String List Bool Lia.
From Verif Require Import Base BaseProof EntryModel EntrySpec EntryProof ValueModel ValueSpec ValueProof ValueProof2.
Import ListNotations.
Open Scope Z_scope.

(** C18. Full statement: as below for every width from 1 to [8 * w]. Missing: widths above 30, for which the
    mask (1 << bs) - 1 overflows int (see C20_int_width_31_refuted).
    The bytes read are exactly the field, zero- or sign-extended to the size of the declared type, whatever
    the rest of memory and the uninitialised stack buffer [g] contain. *)
Theorem C18_bitfield_read_partial : forall d n g m v mi name enc w dbo bs,
  acyclic d n -> typed d v name enc w -> bytes_ok m -> bytes_ok g ->
  e_info (deref d (v_entry v)) = IMember mi -> field_at mi dbo bs ->
  integer_enc enc -> word w -> 1 <= bs <= 30 -> within dbo bs w ->
  exists x, value_base_type (n + 3) d g m v name enc w = Ret (inr x) /\
    is_field m (v_addr v - m_byte_offset mi) dbo bs (signed_enc enc) w x.
Proof. exact base_type_bits. Qed.
Print Assumptions C18_bitfield_read_partial.
(** C18 through the typed functions metac_value_<type>. *)
Theorem C18_typed_read_partial : forall d n g m v mi c dbo bs,
  acyclic d n -> has_ctype d v c -> c <> CChar -> c_integer c -> bytes_ok m -> bytes_ok g ->
  e_info (deref d (v_entry v)) = IMember mi -> field_at mi dbo bs -> 1 <= bs <= 30 -> within dbo bs (ct_size c) ->
  exists x, value_get (n + 3) d g m v c = Ret (inr x) /\ is_field m (v_addr v - m_byte_offset mi) dbo bs (ct_signed c) (ct_size c) x.
Proof. exact value_get_bits. Qed.
Print Assumptions C18_typed_read_partial.

(** C19. Full statement: as below for every width. Missing: widths above 30 and fields that end after bit 32
    of their first byte's word (possible for 64-bit declared types only; see C20_wide_write_refuted). *)
Theorem C19_bitfield_write_partial : forall d n g m v mi name enc w dbo bs x,
  acyclic d n -> typed d v name enc w -> ~ is_const d v -> bytes_ok m -> bytes_ok g ->
  e_info (deref d (v_entry v)) = IMember mi -> field_at mi dbo bs ->
  integer_enc enc -> word w -> 1 <= bs <= 30 -> within dbo bs w -> dbo mod 8 + bs <= 32 ->
  exists m', value_set_base_type (n + 3) d g m v name enc w x = Ret (0, m') /\
    field_set m m' (v_addr v - m_byte_offset mi) dbo bs x.
Proof. exact set_base_bits. Qed.
Print Assumptions C19_bitfield_write_partial.
Theorem C19_typed_write_partial : forall d n g m v mi c dbo bs x,
  acyclic d n -> has_ctype d v c -> ~ is_const d v -> c <> CChar -> c_integer c -> bytes_ok m -> bytes_ok g ->
  e_info (deref d (v_entry v)) = IMember mi -> field_at mi dbo bs -> 1 <= bs <= 30 -> within dbo bs (ct_size c) -> dbo mod 8 + bs <= 32 ->
  exists m', value_set (n + 3) d g m v c x = Ret (0, m') /\ field_set m m' (v_addr v - m_byte_offset mi) dbo bs x.
Proof. exact value_set_bits. Qed.
Print Assumptions C19_typed_write_partial.
(** C19. What is read from a field after it was set is the low [bs] bits of the value written, extended. *)
Theorem C19_read_back : forall m m' base dbo bs x sgn w y, field_set m m' base dbo bs x -> 0 <= dbo -> 1 <= bs -> bs <= 8 * w ->
  is_field m' base dbo bs sgn w y ->
  forall i, 0 <= i < 8 * w -> Z.testbit y i = if i <? bs then Z.testbit x i else sgn && Z.testbit x (bs - 1).
Proof. exact field_set_read. Qed.
Print Assumptions C19_read_back.

(** C21. Both ways to describe a field give its byte offset, bit offset in that byte and width. *)
Theorem C21_offsets : forall mi dbo bs, field_at mi dbo bs ->
  exists byo bo, bitfield_offsets mi = Ret (inr (byo, bo, bs)) /\ dbo = 8 * byo + bo /\ 0 <= bo < 8 /\ 0 <= byo.
Proof. exact offsets_spec. Qed.
Print Assumptions C21_offsets.
Theorem C21_dwarf3_dwarf4_agree : forall mi3 mi4 dbo bs, field3 mi3 dbo bs -> field4 mi4 dbo bs -> 0 <= dbo < 2 ^ 64 ->
  bitfield_offsets mi3 = bitfield_offsets mi4.
Proof. exact offsets_agree. Qed.
Print Assumptions C21_dwarf3_dwarf4_agree.

(** C22. Whatever the database and memory: a successful typed read is of a value of that type, and of an object
    that is not a bit-field it returns the object's bytes. *)
Theorem C22_read_sound : forall n d g m v c x, value_get n d g m v c = Ret (inr x) ->
  has_ctype d v c /\ (plain d v -> x = number_at m (v_addr v) (Z.to_nat (ct_size c))).
Proof. exact value_get_sound. Qed.
Print Assumptions C22_read_sound.
Theorem C22_read_complete : forall d n g m v c, acyclic d n -> has_ctype d v c -> plain d v ->
  value_get (n + 3) d g m v c = Ret (inr (number_at m (v_addr v) (Z.to_nat (ct_size c)))).
Proof. exact value_get_plain. Qed.
Print Assumptions C22_read_complete.
Theorem C22_read_other_type : forall d n g m v c, acyclic d n -> named_types d v -> ~ has_ctype d v c ->
  exists e, value_get (n + 3) d g m v c = Ret (inl e).
Proof. exact value_get_untyped. Qed.
Print Assumptions C22_read_other_type.
(** C22. A write that succeeds is to a non-const value of that type and changes only the object's bytes, which
    then hold the value; a write that fails (also any write to a const object) changes nothing. *)
Theorem C22_write_sound : forall n d g m v c x s m', value_set n d g m v c x = Ret (s, m') ->
  (s = 0 -> has_ctype d v c /\ ~ is_const d v /\ (plain d v -> bytes_set m m' (v_addr v) (Z.to_nat (ct_size c)) x)) /\
  (s <> 0 -> m' = m).
Proof. exact value_set_sound. Qed.
Print Assumptions C22_write_sound.
Theorem C22_write_complete : forall d n g m v c x, acyclic d n -> has_ctype d v c -> ~ is_const d v -> plain d v ->
  exists m', value_set (n + 3) d g m v c x = Ret (0, m').
Proof. exact value_set_plain. Qed.
Print Assumptions C22_write_complete.
(** C22. Read after write. *)
Theorem C22_round_trip : forall d n g m v c x m' g', acyclic d n -> plain d v -> value_set (n + 3) d g m v c x = Ret (0, m') ->
  value_get (n + 3) d g' m' v c = Ret (inr (x mod 2 ^ (8 * ct_size c))).
Proof. exact value_round. Qed.
Print Assumptions C22_round_trip.
(** C22. A value has at most one of the C types. *)
Theorem C22_one_type : forall d v c c', has_ctype d v c -> has_ctype d v c' -> c = c'.
Proof. exact has_ctype_fun. Qed.
Print Assumptions C22_one_type.

(** C23 *)
Theorem C23_read : forall d n m v z l, acyclic d n -> bytes_ok m -> enum_type d v z l -> word z ->
  value_enumeration (n + 3) d m v = Ret (inr (as_signed (8 * z) (number_at m (v_addr v) (Z.to_nat z)))).
Proof. exact enum_read. Qed.
Print Assumptions C23_read.
Theorem C23_write : forall d n m v z l x, acyclic d n -> enum_type d v z l -> word z ->
  exists m', value_set_enumeration (n + 3) d m v x = Ret (0, m') /\ bytes_set m m' (v_addr v) (Z.to_nat z) x.
Proof. exact enum_write. Qed.
Print Assumptions C23_write.
(** C23. Values representable as a signed number of the enumeration's size come back. *)
Theorem C23_round_trip : forall d n m v z l x m', acyclic d n -> bytes_ok m -> enum_type d v z l -> word z ->
  - 2 ^ (8 * z - 1) <= x < 2 ^ (8 * z - 1) ->
  value_set_enumeration (n + 3) d m v x = Ret (0, m') -> value_enumeration (n + 3) d m' v = Ret (inr x).
Proof. exact enum_round. Qed.
Print Assumptions C23_round_trip.
Theorem C23_name : forall d n v z l x, acyclic d n -> enum_type d v z l ->
  exists nm, value_enumeration_to_name (n + 3) d v x = Ret nm /\ first_name l x nm.
Proof. exact enum_name. Qed.
Print Assumptions C23_name.
Theorem C23_name_unique : forall l x a b, first_name l x a -> first_name l x b -> a = b.
Proof. exact first_name_fun. Qed.
Print Assumptions C23_name_unique.
Theorem C23_failed_write : forall n d m v x s m', value_set_enumeration n d m v x = Ret (s, m') ->
  (s = 0 -> exists z l, enum_type d v z l /\ bytes_set m m' (v_addr v) (Z.to_nat (z mod 2 ^ 64)) x) /\ (s <> 0 -> m' = m).
Proof. exact enum_write_sound. Qed.
Print Assumptions C23_failed_write.

(** C25. The number an integer object (bit-fields included: [x] is what the typed read returns) or an
    enumeration denotes is returned whenever it fits in int; nothing else is read as a number. *)
Theorem C25_integer : forall d n g m v c x y, acyclic d n -> has_ctype d v c -> c_integer c -> value_get (n + 3) d g m v c = Ret (inr x) ->
  0 <= x < 2 ^ (8 * ct_size c) -> (c = CBool -> x = 0 \/ x = 1) -> denotes c x y ->
  exists z, value_num (n + 3) d g m v = Ret (inr z) /\ (-2147483648 <= y <= 2147483647 -> z = y).
Proof. exact value_num_int. Qed.
Print Assumptions C25_integer.
Theorem C25_enumeration : forall d n g m v z l, acyclic d n -> bytes_ok m -> enum_type d v z l -> word z ->
  let y := as_signed (8 * z) (number_at m (v_addr v) (Z.to_nat z)) in
  exists r, value_num (n + 3) d g m v = Ret (inr r) /\ (-2147483648 <= y <= 2147483647 -> r = y).
Proof. exact value_num_enum. Qed.
Print Assumptions C25_enumeration.
Theorem C25_only_numbers : forall n d g m v r, value_num n d g m v = Ret (inr r) ->
  (exists c, c_integer c /\ has_ctype d v c) \/ (exists z l, enum_type d v z l).
Proof. exact value_num_sound. Qed.
Print Assumptions C25_only_numbers.

(** C29. An element value of an array that lies in the address space is inside the array, at its index. *)
Theorem C29_element : forall n d v id a v' t c z, new_value_by_element_id n d v id a = Ret (Some v') -> array_type d v t c ->
  has_size d (Some (St t)) z -> - 2147483648 <= c -> 0 <= z -> 0 < v_addr v -> v_addr v + c * z <= 2 ^ 64 - 1 ->
  0 <= id < c /\ v_entry v' = St t /\ v_addr v' = v_addr v + id * z.
Proof. exact element_place. Qed.
Print Assumptions C29_element.
(** C29. Every index of an array with at most INT_MAX elements gives a value (if the two allocations succeed). *)
Theorem C29_element_exists : forall d n v id t c z, acyclic d n -> array_type d v t c -> has_size d (Some (St t)) z ->
  0 <= id < c -> c <= 2147483647 -> uwrap 64 (v_addr v + z * id) <> 0 ->
  new_value_by_element_id (n + 3) d v id true = Ret (Some (Build_value (St t) (uwrap 64 (v_addr v + z * id)))).
Proof. exact element_complete. Qed.
Print Assumptions C29_element_exists.
(** C29. The elements tile the array: every byte of it belongs to exactly one of them. *)
Theorem C29_tiles : forall a c z b, 0 < z -> a <= b < a + c * z ->
  exists i, 0 <= i < c /\ (forall j, a + j * z <= b < a + (j + 1) * z <-> j = i).
Proof. exact element_tiles. Qed.
Print Assumptions C29_tiles.
Theorem C29_member : forall n d v id a v', new_value_by_member_id n d v id a = Ret (Some v') ->
  exists l r mi, aggr_type d v l /\ 0 <= id /\ nth_error l (Z.to_nat id) = Some r /\ e_info (d r) = IMember mi /\
    v_entry v' = St r /\ v_addr v' = uwrap 64 (v_addr v + m_byte_offset mi).
Proof. exact member_sound. Qed.
Print Assumptions C29_member.
Theorem C29_member_exists : forall d n v id l r mi, acyclic d n -> aggr_type d v l -> 0 <= id ->
  nth_error l (Z.to_nat id) = Some r -> e_info (d r) = IMember mi -> uwrap 64 (v_addr v + m_byte_offset mi) <> 0 ->
  new_value_by_member_id (n + 3) d v id true = Ret (Some (Build_value (St r) (uwrap 64 (v_addr v + m_byte_offset mi)))).
Proof. exact member_complete. Qed.
Print Assumptions C29_member_exists.

(** C48. Copying a base type value (neither side a bit-field) puts the source bytes into the destination and
    changes nothing else; a copy that is refused changes nothing; comparison of integers is equality. *)
Theorem C48_copy : forall d n g m src dst c, acyclic d n -> has_ctype d src c -> has_ctype d dst c -> ~ is_const d dst ->
  plain d src -> plain d dst ->
  exists m', value_copy_base_type (n + 3) d g m src dst = Ret (true, m') /\
    bytes_set m m' (v_addr dst) (Z.to_nat (ct_size c)) (number_at m (v_addr src) (Z.to_nat (ct_size c))).
Proof. exact copy_base_plain. Qed.
Print Assumptions C48_copy.
Theorem C48_copy_sound : forall n d g m src dst b m', value_copy_base_type n d g m src dst = Ret (b, m') ->
  (b = true -> exists c, has_ctype d src c /\ has_ctype d dst c /\ ~ is_const d dst /\
     exists x, value_get n d g m src c = Ret (inr x) /\ value_set n d g m dst c x = Ret (0, m')) /\
  (b = false -> m' = m).
Proof. exact copy_base_sound. Qed.
Print Assumptions C48_copy_sound.
Theorem C48_equal : forall feq d n g m v1 v2 c, acyclic d n -> bytes_ok m -> has_ctype d v1 c -> has_ctype d v2 c -> c_integer c ->
  plain d v1 -> plain d v2 ->
  exists r, value_equal_base_type feq (n + 3) d g m v1 v2 = Ret r /\ (r = 0 \/ r = 1) /\
    (r = 1 <-> number_at m (v_addr v1) (Z.to_nat (ct_size c)) = number_at m (v_addr v2) (Z.to_nat (ct_size c))).
Proof. exact equal_base_plain. Qed.
Print Assumptions C48_equal.
Theorem C48_equal_same_type : forall feq n d g m v1 v2 r, value_equal_base_type feq n d g m v1 v2 = Ret r -> 0 <= r ->
  exists c, has_ctype d v1 c /\ has_ctype d v2 c.
Proof. exact equal_base_sound. Qed.
Print Assumptions C48_equal_same_type.
Theorem C48_pointer : forall d n m v, acyclic d n -> pointer_type d v ->
  value_pointer (n + 3) d m v = Ret (inr (number_at m (v_addr v) 8)) /\
  forall x, exists m', value_set_pointer (n + 3) d m v x = Ret (0, m') /\ bytes_set m m' (v_addr v) 8 x.
Proof. exact pointer_ok. Qed.
Print Assumptions C48_pointer.
Theorem C48_pointer_sound : forall n d m v,
  (forall x, value_pointer n d m v = Ret (inr x) -> pointer_type d v) /\
  (forall x s m', value_set_pointer n d m v x = Ret (s, m') -> (s = 0 -> pointer_type d v) /\ (s <> 0 -> m' = m)).
Proof. exact pointer_sound. Qed.
Print Assumptions C48_pointer_sound.

(** A database for the examples and refutations. *)
Definition bits (t : nat) (dbo bs : Z) := IMember (Build_minfo (Some t) None 0 (Some dbo) None (Some bs)).
Definition ex_vdb : db := fun r =>
  match r with
  | 0%nat => Build_entry (Some "int"%string) false (IBase 4 6)
  | 1%nat => Build_entry (Some "unsigned char"%string) false (IBase 1 9)
  | 2%nat => Build_entry (Some "unsigned long int"%string) false (IBase 8 8)
  | 3%nat => Build_entry None false (IQual QConst (Some 0%nat))
  | 4%nat => Build_entry (Some "a"%string) false (bits 0 19 5)
  | 5%nat => Build_entry (Some "b"%string) false (bits 0 0 31)
  | 6%nat => Build_entry (Some "c"%string) false (bits 1 4 8)
  | 7%nat => Build_entry (Some "e"%string) false (bits 2 4 30)
  | 8%nat => Build_entry (Some "E"%string) false (IEnum 4 [(Some "A"%string, 0); (Some "B"%string, 1); (Some "C"%string, 1); (Some "M"%string, 4294967295)])
  | 9%nat => Build_entry None false (IQual QConst (Some 8%nat))
  | 10%nat => Build_entry (Some "f"%string) false (bits 8 0 2)
  | 11%nat => Build_entry None false (IPointer (Some 0%nat))
  | 12%nat => Build_entry None false (IQual QConst (Some 11%nat))
  | 13%nat => Build_entry None false (IArray (Some 0%nat) 3)
  | 14%nat => Build_entry None false (IArray (Some 1%nat) 4294967296)
  | 15%nat => Build_entry None false (IAggr AStruct 16 [4%nat; 10%nat])
  | 16%nat => Build_entry (Some "a3"%string) false (IMember (Build_minfo (Some 0%nat) (Some 4) 0 None (Some 8) (Some 5)))
  | _ => Build_entry None false (IOther (-1))
  end.
Definition ex_mem : mem := fun a => (a * 37 + 200) mod 256.
Example ex_vdb_acyclic : acyclic ex_vdb 3.
Proof.
  exists (fun r => match r with 3 | 4 | 5 | 6 | 7 | 9 | 10 | 12 | 13 | 14 | 16 => 1 | _ => 0 end)%nat.
  split.
  - intros r. do 17 (destruct r as [|r]; [vm_compute; repeat constructor|]). repeat constructor.
  - intros r t. do 17 (destruct r as [|r];
      [intros [(q & K)|[(c & K)|K]]; cbn in K; inversion K; subst; repeat constructor|]).
    intros [(q & K)|[(c & K)|K]]; cbn in K; inversion K.
Qed.
Example ex_mem_ok : bytes_ok ex_mem.
Proof. intros a. apply Z.mod_pos_bound. lia. Qed.
Lemma ex_final : forall r f,
  match e_info (ex_vdb r) with IMember mi => m_type mi = Some f | IQual _ t => t = Some f | _ => False end ->
  match e_info (ex_vdb f) with IBase _ _ | IEnum _ _ | IPointer _ => True | _ => False end ->
  exists qs, resolves ex_vdb (Some (St r)) qs (Some (St f)) /\ match e_info (ex_vdb r) with IQual q _ => qs = [q] | _ => qs = [] end.
Proof.
  intros r f H K. assert (FK : final_kind (e_info (deref ex_vdb (St f)))).
  { intros t q S. cbn [deref] in S. destruct (e_info (ex_vdb f)); inversion S; subst; contradiction. }
  destruct (e_info (ex_vdb r)) as [ |q t| | | | | |mi| | | | | | ] eqn:I; try contradiction.
  - subst t. exists [q]. split; auto. apply (res_step ex_vdb (St r) (Some f) (Some q) []); [cbn [deref]; rewrite I; constructor|apply res_stop; auto].
  - exists []. split; auto. apply (res_step ex_vdb (St r) (Some f) None []); [cbn [deref]; rewrite I; rewrite <- H; constructor|apply res_stop; auto].
Qed.
(** a 5-bit field of type int at bit 19 (DWARF 4), and the same described by DWARF 3 *)
Definition ex_field := Build_value (St 4%nat) 1000.
Example ex_field_typed : typed ex_vdb ex_field "int" 6 4 /\ has_ctype ex_vdb ex_field CInt /\ ~ is_const ex_vdb ex_field.
Proof.
  destruct (ex_final 4%nat 0%nat) as (qs & R & Q); try exact I; try reflexivity. cbn in Q. subst qs.
  assert (T : typed ex_vdb ex_field "int" 6 4). { exists (St 0%nat), 4, 6. split; [exists []; exact R|]. cbn. auto 8. }
  split; auto. split. - apply has_ctype_iff. left. exact T. - intros (qs & f & R' & IN). destruct (resolves_fun _ _ _ _ R _ _ R') as (<- & _). destruct IN.
Qed.
Example ex_field_at : field_at (Build_minfo (Some 0%nat) None 0 (Some 19) None (Some 5)) 19 5 /\
  field_at (Build_minfo (Some 0%nat) (Some 4) 0 None (Some 8) (Some 5)) 19 5 /\ within 19 5 4.
Proof.
  split; [split; [left; repeat split|lia]|]. split; [split; [right; exists 8, 4; repeat split; lia|lia]|]. exists 0. lia.
Qed.
Example ex_field_value : value_get 6 ex_vdb ex_mem ex_mem ex_field CInt = Ret (inr 0xfffffff3) /\
  value_get 6 ex_vdb ex_mem ex_mem (Build_value (St 16%nat) 1000) CInt = Ret (inr 0xfffffff3) /\ ex_mem 1002 = 0x9a.
Proof. vm_compute. auto. Qed.
Example ex_field_set : exists m', value_set 6 ex_vdb ex_mem ex_mem ex_field CInt 9 = Ret (0, m') /\ m' 1002 = 0x4a /\ m' 1001 = ex_mem 1001.
Proof. eexists. split; [vm_compute; reflexivity|]. vm_compute. auto. Qed.
Example ex_const_write : value_set 6 ex_vdb ex_mem ex_mem (Build_value (St 3%nat) 1000) CInt 9 = Ret (- EPERM, ex_mem).
Proof. vm_compute. reflexivity. Qed.
Example ex_enum : enum_type ex_vdb (Build_value (St 9%nat) 64) 4 [(Some "A"%string, 0); (Some "B"%string, 1); (Some "C"%string, 1); (Some "M"%string, 4294967295)].
Proof.
  destruct (ex_final 9%nat 8%nat) as (qs & R & Q); try exact I; try reflexivity. exists (St 8%nat). split; [exists qs; exact R|reflexivity].
Qed.
Example ex_enum_name : value_enumeration_to_name 6 ex_vdb (Build_value (St 9%nat) 64) 1 = Ret (Some "B"%string).
Proof. reflexivity. Qed.
Example ex_num : value_num 6 ex_vdb ex_mem ex_mem ex_field = Ret (inr (-13)).
Proof. vm_compute. reflexivity. Qed.
Example ex_array : array_type ex_vdb (Build_value (St 13%nat) 64) 0%nat 3 /\ has_size ex_vdb (Some (St 0%nat)) 4.
Proof.
  split. - exists (St 13%nat). split; [|reflexivity]. exists []. apply res_stop. intros t q K. inversion K. - eapply hs_base. reflexivity.
Qed.
Example ex_element : new_value_by_element_id 6 ex_vdb (Build_value (St 13%nat) 64) 2 true = Ret (Some (Build_value (St 0%nat) 72)) /\
  new_value_by_element_id 6 ex_vdb (Build_value (St 13%nat) 64) 3 true = Ret None.
Proof. split; reflexivity. Qed.
Example ex_member : new_value_by_member_id 6 ex_vdb (Build_value (St 15%nat) 64) 1 true = Ret (Some (Build_value (St 10%nat) 64)).
Proof. reflexivity. Qed.
Example ex_copy : exists m', value_copy_base_type 6 ex_vdb ex_mem ex_mem (Build_value (St 3%nat) 100) (Build_value (St 0%nat) 200) = Ret (true, m') /\ m' 201 = ex_mem 101.
Proof. eexists. split; [vm_compute; reflexivity|]. vm_compute. reflexivity. Qed.

(** C20 is false. A field [int b : 31] cannot be read without signed overflow ((1 << 31) - 1). *)
Theorem C20_int_width_31_refuted : exists d v mi, e_info (deref d (v_entry v)) = IMember mi /\ has_ctype d v CInt /\ field_at mi 0 31 /\ within 0 31 4 /\
  forall g m, value_get 6 d g m v CInt = Ub.
Proof.
  exists ex_vdb, (Build_value (St 5%nat) 1000). eexists. split; [reflexivity|]. split.
  { apply has_ctype_iff. left. destruct (ex_final 5%nat 0%nat) as (qs & R & Q); try exact I; try reflexivity. exists (St 0%nat), 4, 6. split; [exists qs; exact R|]. cbn. auto 8. }
  split; [split; [left; repeat split|lia]|]. split; [exists 0; lia|]. intros g m. reflexivity.
Qed.
Print Assumptions C20_int_width_31_refuted.
(** C20. A packed field [unsigned char c : 8] at bit 4 is read wrongly (only its low half). *)
Theorem C20_packed_refuted : exists d v mi g m x, e_info (deref d (v_entry v)) = IMember mi /\ has_ctype d v CUChar /\ field_at mi 4 8 /\ bytes_ok m /\
  value_get 6 d g m v CUChar = Ret (inr x) /\ ~ is_field m (v_addr v - m_byte_offset mi) 4 8 false 1 x.
Proof.
  exists ex_vdb, (Build_value (St 6%nat) 1000). eexists. exists ex_mem, (fun _ => 255). eexists. split; [reflexivity|]. split.
  { apply has_ctype_iff. left. destruct (ex_final 6%nat 1%nat) as (qs & R & Q); try exact I; try reflexivity. exists (St 1%nat), 1, 9. split; [exists qs; exact R|]. cbn. auto 8. }
  split; [split; [left; repeat split|lia]|]. split; [intros a; lia|]. split; [vm_compute; reflexivity|]. intros (_ & F). specialize (F 7 ltac:(lia)). vm_compute in F. discriminate.
Qed.
Print Assumptions C20_packed_refuted.
(** C20. Writing [unsigned long e : 30] at bit 4 clears bits of the neighbouring field. *)
Theorem C20_wide_write_refuted : exists d v mi g m m', e_info (deref d (v_entry v)) = IMember mi /\ has_ctype d v CULong /\ field_at mi 4 30 /\ within 4 30 8 /\
  bytes_ok m /\ value_set 6 d g m v CULong 0 = Ret (0, m') /\ ~ field_set m m' (v_addr v - m_byte_offset mi) 4 30 0.
Proof.
  exists ex_vdb, (Build_value (St 7%nat) 1000). eexists. exists ex_mem, (fun _ => 255). eexists. split; [reflexivity|]. split.
  { apply has_ctype_iff. left. destruct (ex_final 7%nat 2%nat) as (qs & R & Q); try exact I; try reflexivity. exists (St 2%nat), 8, 8. split; [exists qs; exact R|]. cbn. auto 8. }
  split; [split; [left; repeat split|lia]|]. split; [exists 0; lia|]. split; [intros a; lia|]. split; [reflexivity|].
  intros F. specialize (F 1004 3 ltac:(lia)). vm_compute in F. discriminate.
Qed.
Print Assumptions C20_wide_write_refuted.

(** C23 for unsigned enumerations: an enumerator that fits the 4 bytes does not come back and has no name. *)
Theorem C23_unsigned_refuted : exists d v l x m m', enum_type d v 4 l /\ 0 <= x < 2 ^ 32 /\ In (Some "M"%string, x) l /\
  value_set_enumeration 6 d m v x = Ret (0, m') /\ value_enumeration 6 d m' v = Ret (inr (-1)) /\ x <> -1 /\
  value_enumeration_to_name 6 d v (-1) = Ret None.
Proof.
  exists ex_vdb, (Build_value (St 9%nat) 64). eexists. exists 4294967295, ex_mem. eexists. split; [exact ex_enum|]. split; [lia|]. split; [cbn; auto 8|].
  split; [reflexivity|]. split; [vm_compute; reflexivity|]. split; [lia|reflexivity].
Qed.
Print Assumptions C23_unsigned_refuted.

(** C24 is false: const enumerations and pointers are written, and setting an enumeration bit-field
    overwrites its neighbours. *)
Theorem C24_const_enumeration_refuted : exists d v m m', is_const d v /\ value_set_enumeration 6 d m v 1 = Ret (0, m') /\ m' (v_addr v) <> m (v_addr v).
Proof.
  exists ex_vdb, (Build_value (St 9%nat) 64), ex_mem. eexists. split.
  { destruct (ex_final 9%nat 8%nat) as (qs & R & Q); try exact I; try reflexivity. cbn in Q. subst qs. exists [QConst], (St 8%nat). split; [exact R|left; reflexivity]. }
  split; [reflexivity|]. vm_compute. discriminate.
Qed.
Print Assumptions C24_const_enumeration_refuted.
Theorem C24_const_pointer_refuted : exists d v m m', is_const d v /\ value_set_pointer 6 d m v 1 = Ret (0, m') /\ m' (v_addr v) <> m (v_addr v).
Proof.
  exists ex_vdb, (Build_value (St 12%nat) 64), ex_mem. eexists. split.
  { destruct (ex_final 12%nat 11%nat) as (qs & R & Q); try exact I; try reflexivity. cbn in Q. subst qs. exists [QConst], (St 11%nat). split; [exact R|left; reflexivity]. }
  split; [reflexivity|]. vm_compute. discriminate.
Qed.
Print Assumptions C24_const_pointer_refuted.
Theorem C24_enumeration_bitfield_refuted : exists d v mi l m m', e_info (deref d (v_entry v)) = IMember mi /\ enum_type d v 4 l /\ field_at mi 0 2 /\
  bytes_ok m /\ value_set_enumeration 6 d m v 1 = Ret (0, m') /\ ~ field_set m m' (v_addr v - m_byte_offset mi) 0 2 1.
Proof.
  exists ex_vdb, (Build_value (St 10%nat) 64). eexists. eexists. exists (fun _ => 255). eexists. split; [reflexivity|]. split.
  { destruct (ex_final 10%nat 8%nat) as (qs & R & Q); try exact I; try reflexivity. exists (St 8%nat). split; [exists qs; exact R|reflexivity]. }
  split; [split; [left; repeat split|lia]|]. split; [intros a; lia|]. split; [reflexivity|].
  intros F. specialize (F 64 5 ltac:(lia)). vm_compute in F. discriminate.
Qed.
Print Assumptions C24_enumeration_bitfield_refuted.

(** C29 for arrays of more than INT_MAX elements: the count is truncated to int and elements are not found. *)
Theorem C29_huge_array_refuted : exists d v t c, array_type d v t c /\ 0 <= 0 < c /\ new_value_by_element_id 6 d v 0 true = Ret None.
Proof.
  exists ex_vdb, (Build_value (St 14%nat) 64), 1%nat, 4294967296. split.
  { exists (St 14%nat). split; [|reflexivity]. exists []. apply res_stop. intros t q K. inversion K. }
  split; [lia|reflexivity].
Qed.
Print Assumptions C29_huge_array_refuted.

(** Property theorems about the handlers of src/entry_tag.c (C33, C34) and what the deep functions do with them (C39, C40). *)
From Coq Require Import ZArith String List Bool Lia.
From Verif Require Import Base BaseProof EntryModel EntrySpec ValueModel ValueSpec CdeclModel DeepModel DeepSpec HandlerModel HandlerSpec.
From Verif Require Import DeepProof6 DeepProof8 HandlerProof HandlerProof2 HandlerProof3.
Import ListNotations.
Open Scope Z_scope.

(** * Examples: struct S { int n; int kind; char *name; int *arr; union U u; void *p; unsigned long wide; char flex[]; } *)
Definition mi (t : ref) (off : Z) : info := IMember (Build_minfo (Some t) None off None None None).
Definition ent (name : string) (i : info) : entry := Build_entry (Some name) false i.
Definition dbh : db := fun r =>
  match r with
  | 0%nat => ent "int"%string (IBase 4 6)
  | 1%nat => ent "char"%string (IBase 1 7)
  | 2%nat => Build_entry None false (IPointer (Some 1%nat))
  | 3%nat => Build_entry None false (IPointer (Some 0%nat))
  | 4%nat => ent "S"%string (IAggr AStruct 56 [10; 11; 12; 13; 14; 15; 18; 19]%nat)
  | 5%nat => ent "U"%string (IAggr AUnion 8 [16; 17]%nat)
  | 6%nat => Build_entry None false (IPointer None)
  | 7%nat => Build_entry None false (IPointer (Some 4%nat))
  | 8%nat => Build_entry None false (IArray (Some 1%nat) (-1))
  | 9%nat => ent "unsigned long int"%string (IBase 8 8)
  | 10%nat => ent "n"%string (mi 0%nat 0)
  | 11%nat => ent "kind"%string (mi 0%nat 4)
  | 12%nat => ent "name"%string (mi 2%nat 8)
  | 13%nat => ent "arr"%string (mi 3%nat 16)
  | 14%nat => ent "u"%string (mi 5%nat 24)
  | 15%nat => ent "p"%string (mi 6%nat 32)
  | 16%nat => ent "i"%string (mi 0%nat 0)
  | 17%nat => ent "s"%string (mi 2%nat 0)
  | 18%nat => ent "wide"%string (mi 9%nat 40)
  | 19%nat => ent "flex"%string (mi 8%nat 48)
  | 20%nat => ent "f"%string (ISubprogram None [21; 22]%nat)
  | 21%nat => ent "arr"%string (IParam false (Some 3%nat))
  | 22%nat => ent "cnt"%string (IParam false (Some 0%nat))
  | _ => Build_entry None false (IOther 0)
  end.
Fixpoint words (l : list (Z * Z)) : mem :=
  match l with [] => fun _ => 0 | (a, v) :: r => store (words r) a 8 v end.
(** the struct at 1000: n = 3, kind = 1, name = 5000 (the string "hi"), arr = 6000, u = 7, p = 7000, wide = 2^32 + 2 *)
Definition mh : mem := words [(1000, 3 + 2 ^ 32); (1008, 5000); (1016, 6000); (1024, 7); (1032, 7000); (1040, 2 ^ 32 + 2); (1048, 26984); (5000, 26984); (3000, 6000); (3008, 2)].
Definition g0 : mem := fun _ => 0.
Definition at_ (t : ref) (a : Z) : value := Build_value (St t) a.
Definition S0 : value := at_ 4%nat 1000.
Definition fun0 : value := at_ 20%nat 2000.
Definition loads0 : Z -> list value := fun a => if a =? 2000 then [at_ 21%nat 3000; at_ 22%nat 3008] else [].
Definition run (k : handler) (ev : event) (h : list value) := handle 7 30 dbh g0 loads0 900 100 all_succeed k mh ev h.
Definition rankh (r : ref) : nat :=
  match r with
  | 10%nat | 11%nat | 12%nat | 13%nat | 15%nat | 16%nat | 17%nat | 18%nat => 1 | 8%nat => 1 | 19%nat => 2 | 21%nat | 22%nat => 1 | 14%nat => 1 | _ => 0
  end.
Lemma dbh_acyclic : acyclic dbh 4.
Proof.
  exists rankh. split.
  - intro r. do 23 (destruct r as [|r]; [cbn; lia|]). cbn. lia.
  - intros r t H. destruct H as [[q H]|[[c H]|H]]; (do 23 (destruct r as [|r]; [cbn in H; inversion H; subst; cbn; try lia; fail|])); cbn in H; inversion H.
Qed.
Lemma words_ok : forall l, bytes_ok (words l).
Proof. induction l as [|[a v] l IH]; cbn [words]; [intro; lia|apply store_bytes_ok; exact IH]. Qed.
Lemma stop : forall d e, (forall t q, ~ stands_for (e_info (deref d e)) t q) -> final_type d (Some e) (Some e).
Proof. intros d e H. exists []. apply res_stop. exact H. Qed.
Lemma step : forall d e t q f, stands_for (e_info (deref d e)) t q -> final_type d (lift t) f -> final_type d (Some e) f.
Proof. intros d e t q f S [qs R]. eexists. eapply res_step; eauto. Qed.
Ltac final := repeat (eapply step; [cbn; constructor|cbn]); apply stop; intros ? ? X; cbn in X; inversion X.
Lemma int_stores : forall v y, final_type dbh (Some (v_entry v)) (Some (St 0%nat)) -> plain dbh v -> y = as_signed 32 (number_at mh (v_addr v) 4) -> stores dbh mh v y.
Proof.
  intros v y F P ->. eapply (st_plain dbh mh v _ CInt "int"%string [6] 4 true); auto.
  - exists "int"%string, [6], 4, true, 6. split; [cbn; tauto|]. split; [cbn; tauto|]. exists (St 0%nat), 4, 6. split; [exact F|]. cbn. auto.
  - cbn. tauto.
  - cbn. tauto.
  - discriminate.
  - exists "int"%string, [6], 4, true. split; [cbn; tauto|reflexivity].
Qed.
Lemma S0_members : struct_of dbh S0 [10; 11; 12; 13; 14; 15; 18; 19]%nat.
Proof.
  split; [exists (St 4%nat), AStruct, 56; split; [final|reflexivity]|]. intros r I. cbn [In] in I.
  repeat (destruct I as [<-|I]; [eexists; eexists; split; [reflexivity|]; split; [reflexivity|cbn; discriminate]|]). destruct I.
Qed.
Lemma S0_member : forall i r w, first_named (ref_name dbh) [10; 11; 12; 13; 14; 15; 18; 19]%nat w i r -> forall s, member_is dbh S0 r s -> sibling dbh loads0 S0 w s.
Proof. intros i r w F s M. eapply sb_member; eauto. exact S0_members. Qed.
Ltac foremost := split; [reflexivity|]; split; [reflexivity|]; intros j y L; repeat (destruct j as [|j]; [let Q := fresh in cbn; intro Q; injection Q as <-; discriminate|]); exfalso; lia.

(** * C33 *)
(** Count by: the array of exactly as many elements as the sibling member or parameter says. *)
Theorem C33_count_by : forall n nc d g m loads, acyclic d n -> bytes_ok m -> bytes_ok g -> forall ev v parent rest name s y w, counts ev -> name <> EmptyString ->
  sibling d loads parent name s -> stores d m s y -> fits_int y -> counted d m v y w ->
  handle_count_by (n + 3) nc d g loads all_succeed (Some (Some name)) m ev (v :: parent :: rest) = Ret (0, Some w).
Proof. exact count_by_ok. Qed.
Print Assumptions C33_count_by.
Example C33_count_by_example :
  (sibling dbh loads0 S0 "n"%string (at_ 10%nat 1000) /\ stores dbh mh (at_ 10%nat 1000) 3 /\ counted dbh mh (at_ 13%nat 1016) 3 (array_at 0%nat 3 6000) /\
   run (HCountBy (Some (Some "n"%string))) RQVST_pointer_array_count [at_ 13%nat 1016; S0] = Ret (0, Some (array_at 0%nat 3 6000))) /\
  (sibling dbh loads0 fun0 "cnt"%string (at_ 22%nat 3008) /\ stores dbh mh (at_ 22%nat 3008) 2 /\ counted dbh mh (at_ 21%nat 3000) 2 (array_at 0%nat 2 6000) /\
   run (HCountBy (Some (Some "cnt"%string))) RQVST_pointer_array_count [at_ 21%nat 3000; fun0] = Ret (0, Some (array_at 0%nat 2 6000))).
Proof.
  split.
  - split; [apply (S0_member 0 10%nat); [foremost|eexists; split; [reflexivity|]; split; [reflexivity|discriminate]]|].
    split; [apply int_stores; [final|intros mi0 H; cbn in H; injection H as <-; auto|vm_compute; reflexivity]|].
    split; [apply ct_pointer; [split; [exists (St 3%nat); split; [final|reflexivity]|vm_compute; reflexivity]|discriminate]|vm_compute; reflexivity].
  - split; [eapply (sb_param _ _ _ _ _ [at_ 21%nat 3000; at_ 22%nat 3008] 1)|].
    + split; [eexists; split; [exists (St 20%nat); split; [final|reflexivity]|exact I]|]. split; [reflexivity|]. intros x H. cbn [In] in H. destruct H as [<-|[<-|[]]]; discriminate.
    + foremost.
    + split; [apply int_stores; [final|intros mi0 H; cbn in H; discriminate|vm_compute; reflexivity]|].
      split; [apply ct_pointer; [split; [exists (St 3%nat); split; [final|reflexivity]|vm_compute; reflexivity]|discriminate]|vm_compute; reflexivity].
Qed.
(** Zero ended strings: as many characters as the string has with its terminator. *)
Theorem C33_string : forall n d m sf, acyclic d n -> forall ev v rest t p k, counts ev -> points d m v (Some t) p -> p <> 0 -> char_type d t -> string_at m p k ->
  k < Z.of_nat sf -> k < 2147483647 -> handle_zero_ended_string (n + 3) d sf all_succeed m ev (v :: rest) = Ret (0, Some (array_at t (k + 1) p)).
Proof. exact string_ok. Qed.
Print Assumptions C33_string.
Example C33_string_example : points dbh mh (at_ 12%nat 1008) (Some 1%nat) 5000 /\ char_type dbh 1%nat /\ string_at mh 5000 2 /\
  run HZeroEndedString RQVST_pointer_array_count [at_ 12%nat 1008; S0] = Ret (0, Some (array_at 1%nat 3 5000)).
Proof.
  split; [split; [exists (St 2%nat); split; [final|reflexivity]|vm_compute; reflexivity]|]. split; [exists (St 1%nat), 1, 7; split; [final|split; reflexivity]|].
  split; [|vm_compute; reflexivity]. split; [lia|]. split; [vm_compute; reflexivity|]. intros i H. assert (i = 0 \/ i = 1) as [-> | ->] by lia; vm_compute; discriminate.
Qed.
(** Container of: one object at the address [off] below the pointer, so that its member at [off] is where the pointer points. *)
Theorem C33_container_of : forall n d m stack, acyclic d n -> bytes_ok m -> forall v rest t0 p off r t e, points d m v t0 p -> stack <> 0 -> final_type d (Some (St r)) (Some e) ->
  e_info (deref d e) = IPointer (Some t) -> (p - off) mod 2 ^ 64 <> 0 ->
  exists w, handle_container_of (n + 3) d stack all_succeed (Some (off, Some r)) m RQVST_pointer_array_count (v :: rest) = Ret (0, Some w) /\
    has_info d w (IArray (Some t) 1) /\
    forall z r' x s, element_is w t z 0 x -> member_is d x r' s -> (exists mi, e_info (d r') = IMember mi /\ m_byte_offset mi = off) -> v_addr s = p.
Proof. exact container_thm. Qed.
Print Assumptions C33_container_of.
Example C33_container_of_example : points dbh mh (at_ 15%nat 1032) None 7000 /\
  run (HContainerOf (Some (16, Some 7%nat))) RQVST_pointer_array_count [at_ 15%nat 1032; S0] = Ret (0, Some (array_at 4%nat 1 6984)).
Proof. split; [split; [exists (St 6%nat); split; [final|reflexivity]|vm_compute; reflexivity]|vm_compute; reflexivity]. Qed.
(** Union selection: the member named by the first case of the number in the sibling; without cases the member of that number. *)
Theorem C33_union : forall n d g m loads, acyclic d n -> bytes_ok m -> bytes_ok g -> forall v parent rest name cases s x lp lu i r w, name <> EmptyString -> struct_of d parent lp ->
  sibling d loads parent name s -> stores d m s x -> fits_int x -> aggr_type d v lu -> selected d lu cases x i -> nth_error lu i = Some r -> member_is d v r w ->
  handle_union_member_select (n + 3) d g all_succeed (Some (SelectByField (Some name) cases)) m RQVST_union_member (v :: parent :: rest) = Ret (0, Some w).
Proof. exact (fun n => union_ok n 0). Qed.
Print Assumptions C33_union.
Theorem C33_union_constant : forall n d g m, acyclic d n -> forall v parent rest i lu r w, aggr_type d v lu -> nth_error lu i = Some r -> member_is d v r w ->
  handle_union_member_select (n + 3) d g all_succeed (Some (Constant (Z.of_nat i))) m RQVST_union_member (v :: parent :: rest) = Ret (0, Some w).
Proof. exact union_constant. Qed.
Print Assumptions C33_union_constant.
(** A number without a case is reported. *)
Theorem C33_union_no_case : forall n d g m loads, acyclic d n -> bytes_ok m -> bytes_ok g -> forall v parent rest name cases s x lp lu, name <> EmptyString -> struct_of d parent lp ->
  sibling d loads parent name s -> stores d m s x -> fits_int x -> aggr_type d v lu -> cases <> [] -> (forall c, In c cases -> u_val c <> x) ->
  handle_union_member_select (n + 3) d g all_succeed (Some (SelectByField (Some name) cases)) m RQVST_union_member (v :: parent :: rest) = Ret (- ENOENT, None).
Proof. exact (fun n => union_no_case n 0). Qed.
Print Assumptions C33_union_no_case.
Definition cases0 : list ucase := [Build_ucase 0 (Some "i"%string) 0; Build_ucase 1 (Some "s"%string) 0; Build_ucase 1 (Some "i"%string) 0].
Example C33_union_example : sibling dbh loads0 S0 "kind"%string (at_ 11%nat 1004) /\ stores dbh mh (at_ 11%nat 1004) 1 /\ aggr_type dbh (at_ 14%nat 1024) [16; 17]%nat /\
  selected dbh [16; 17]%nat cases0 1 1 /\ member_is dbh (at_ 14%nat 1024) 17%nat (at_ 17%nat 1024) /\
  run (HUnionSelect (Some (SelectByField (Some "kind"%string) cases0))) RQVST_union_member [at_ 14%nat 1024; S0] = Ret (0, Some (at_ 17%nat 1024)) /\
  run (HUnionSelect (Some (SelectByField (Some "kind"%string) []))) RQVST_union_member [at_ 14%nat 1024; S0] = Ret (0, Some (at_ 17%nat 1024)) /\
  run (HUnionSelect (Some (SelectByField (Some "n"%string) cases0))) RQVST_union_member [at_ 14%nat 1024; S0] = Ret (- ENOENT, None).
Proof.
  split; [apply (S0_member 1 11%nat); [foremost|eexists; split; [reflexivity|]; split; [reflexivity|discriminate]]|].
  split; [apply int_stores; [final|intros mi0 H; cbn in H; injection H as <-; auto|vm_compute; reflexivity]|].
  split; [exists (St 5%nat), AUnion, 8; split; [final|reflexivity]|].
  split; [right; exists (Build_ucase 1 (Some "s"%string) 0); split; [exists [Build_ucase 0 (Some "i"%string) 0], [Build_ucase 1 (Some "i"%string) 0]; split; [reflexivity|]; split; [reflexivity|];
    intros y [<-|[]]; discriminate|exists 17%nat; foremost]|].
  split; [eexists; split; [reflexivity|]; split; [reflexivity|discriminate]|]. vm_compute. repeat split.
Qed.
(** Pointer casts: the array of as many elements as the count sibling says (one without it), of the type of the first case of the number in the
    selector sibling. *)
Theorem C33_cast : forall n d g m, acyclic d n -> bytes_ok m -> bytes_ok g -> forall v parent rest c name lp i rs s x y cs r t p e, has_name (pc_selector c) name -> struct_of d parent lp ->
  first_named (ref_name d) lp name i rs -> member_is d parent rs s -> stores d m s x -> fits_int x -> cast_count d m parent lp (pc_count c) y ->
  first_case c_val (pc_cases c) x cs -> c_entry cs = Some r -> final_type d (Some (St r)) (Some e) -> e_info (deref d e) = IPointer (Some t) ->
  v_addr v <> 0 -> p = number_at m (v_addr v) 8 -> p <> 0 ->
  handle_ptr_cast (n + 3) d g all_succeed (Some c) m RQVST_pointer_array_count (v :: parent :: rest) = Ret (0, Some (array_at t y p)).
Proof. exact cast_ok. Qed.
Print Assumptions C33_cast.
Definition ctx0 : pctx := Build_pctx (Some "n"%string) (Some "kind"%string) [Build_pcase 0 (Some 2%nat); Build_pcase 1 (Some 3%nat)].
Example C33_cast_example : first_named (ref_name dbh) [10; 11; 12; 13; 14; 15; 18; 19]%nat "kind"%string 1 11%nat /\ first_case c_val (pc_cases ctx0) 1 (Build_pcase 1 (Some 3%nat)) /\
  run (HPtrCast (Some ctx0)) RQVST_pointer_array_count [at_ 15%nat 1032; S0] = Ret (0, Some (array_at 0%nat 3 7000)).
Proof.
  split; [foremost|]. split; [exists [Build_pcase 0 (Some 2%nat)], []; split; [reflexivity|]; split; [reflexivity|]; intros y [<-|[]]; discriminate|vm_compute; reflexivity].
Qed.
(** A count that does not fit an int is cut to its low 32 bits: 2^32 + 2 elements are taken for 2. *)
Theorem C33_wide_count_refuted : exists n nc d g m loads v parent name s y w w', acyclic d n /\ bytes_ok m /\ bytes_ok g /\ sibling d loads parent name s /\ stores d m s y /\
  counted d m v y w /\ handle_count_by (n + 3) nc d g loads all_succeed (Some (Some name)) m RQVST_pointer_array_count [v; parent] = Ret (0, Some w') /\ w' <> w.
Proof.
  exists 4%nat, 30%nat, dbh, g0, mh, loads0, (at_ 13%nat 1016), S0, "wide"%string, (at_ 18%nat 1040), (2 ^ 32 + 2), (array_at 0%nat (2 ^ 32 + 2) 6000), (array_at 0%nat 2 6000).
  split; [exact dbh_acyclic|]. split; [apply words_ok|]. split; [intro; unfold g0; lia|].
  split; [apply (S0_member 6 18%nat); [foremost|eexists; split; [reflexivity|]; split; [reflexivity|discriminate]]|].
  split; [|split; [apply ct_pointer; [split; [exists (St 3%nat); split; [final|reflexivity]|vm_compute; reflexivity]|discriminate]|split; [vm_compute; reflexivity|discriminate]]].
  eapply (st_plain dbh mh _ _ CULong "unsigned long int"%string [8] 8 false).
  - exists "unsigned long int"%string, [8], 8, false, 8. split; [cbn; tauto|]. split; [cbn; tauto|]. exists (St 9%nat), 8, 8. split; [final|cbn; auto].
  - cbn. tauto.
  - cbn. tauto.
  - intros mi0 H; cbn in H; injection H as <-; auto.
  - discriminate.
  - exists "unsigned long int"%string, [8], 8, false. split; [cbn; tauto|vm_compute; reflexivity].
Qed.
Print Assumptions C33_wide_count_refuted.
(** Flexible arrays of characters are documented (include/metac/reflect/entry_tag.h) as zero ended strings, but are refused. *)
Theorem C33_flexible_string_refuted : exists n d m sf v rest t c, acyclic d n /\ has_info d v (IArray (Some t) c) /\ char_type d t /\ string_at m (v_addr v) 2 /\
  handle_zero_ended_string (n + 3) d sf all_succeed m RQVST_flex_array_count (v :: rest) = Ret (- EFAULT, None).
Proof.
  exists 4%nat, dbh, mh, 100%nat, (at_ 19%nat 1048), [S0], 1%nat, (-1). split; [exact dbh_acyclic|]. split; [exists (St 8%nat); split; [final|reflexivity]|].
  split; [exists (St 1%nat), 1, 7; split; [final|split; reflexivity]|]. split; [|vm_compute; reflexivity].
  split; [lia|]. split; [vm_compute; reflexivity|]. intros i H. assert (i = 0 \/ i = 1) as [-> | ->] by lia; vm_compute; discriminate.
Qed.
Print Assumptions C33_flexible_string_refuted.

(** * C34 *)
(** A sibling that does not exist: nothing is supplied, or -EINVAL is reported. *)
Theorem C34_count_by_missing : forall n nc d g m loads, acyclic d n -> forall ev v parent rest name, counts ev -> name <> EmptyString -> no_sibling d loads parent name ->
  handle_count_by (n + 3) nc d g loads all_succeed (Some (Some name)) m ev (v :: parent :: rest) = Ret (0, None).
Proof. exact count_by_missing. Qed.
Print Assumptions C34_count_by_missing.
Theorem C34_union_missing : forall n d g m, acyclic d n -> forall v parent rest name cases lp lu, name <> EmptyString -> struct_of d parent lp ->
  (forall r, In r lp -> ref_name d r <> Some name) -> aggr_type d v lu ->
  handle_union_member_select (n + 3) d g all_succeed (Some (SelectByField (Some name) cases)) m RQVST_union_member (v :: parent :: rest) = Ret (0, None).
Proof. exact (fun n d g m => union_missing n 0 d g m (fun _ => [])). Qed.
Print Assumptions C34_union_missing.
Theorem C34_cast_selector_missing : forall n d g m al v parent rest c name lp, acyclic d n -> has_name (pc_selector c) name -> pc_cases c <> [] -> aggr_type d parent lp ->
  (forall r, In r lp -> ref_name d r <> Some name) -> handle_ptr_cast (n + 3) d g al (Some c) m RQVST_pointer_array_count (v :: parent :: rest) = Ret (- EINVAL, None).
Proof. exact cast_selector_missing. Qed.
Print Assumptions C34_cast_selector_missing.
(** A case that names a member the union does not have is an error, not an unknown choice; so is a tag without a name. *)
Theorem C34_union_case_missing : forall n d g m loads, acyclic d n -> bytes_ok m -> bytes_ok g -> forall v parent rest name cases s x lp lu c q, name <> EmptyString -> struct_of d parent lp -> sibling d loads parent name s ->
  stores d m s x -> fits_int x -> aggr_type d v lu -> first_case u_val cases x c -> u_name c = Some q -> (forall r, In r lu -> ref_name d r <> Some q) ->
  handle_union_member_select (n + 3) d g all_succeed (Some (SelectByField (Some name) cases)) m RQVST_union_member (v :: parent :: rest) = Ret (- EFAULT, None).
Proof. exact (fun n d g m => union_case_missing n 0 d g m). Qed.
Print Assumptions C34_union_case_missing.
Theorem C34_unnamed : forall n nc d g m loads al s v parent rest, no_name s ->
  (forall ev, counts ev -> handle_count_by n nc d g loads al (Some s) m ev (v :: parent :: rest) = Ret (- EINVAL, None)) /\
  (forall cases, handle_union_member_select n d g al (Some (SelectByField s cases)) m RQVST_union_member (v :: parent :: rest) = Ret (- EINVAL, None)) /\
  (forall c, pc_selector c = s -> handle_ptr_cast n d g al (Some c) m RQVST_pointer_array_count (v :: parent :: rest) = Ret (- EINVAL, None)).
Proof. exact unnamed_refused. Qed.
Print Assumptions C34_unnamed.
(** Whatever the context, the event and the types, no handler crashes, as long as memory lasts and the count sibling of a pointer cast exists. What
    is to be counted may be anything the program may read: siblings at usable addresses, strings that end. *)
Theorem C34_never_crash_partial : forall n nc d g m loads stack sf k ev h, acyclic d n -> bytes_ok m -> bytes_ok g ->
  (forall v parent rest, h = v :: parent :: rest -> safe_parent d m loads nc parent) ->
  (forall v rest, h = v :: rest -> safe_string d m sf v) ->
  (forall c v parent rest name l, k = HPtrCast (Some c) -> h = v :: parent :: rest -> has_name (pc_count c) name -> aggr_type d parent l ->
     exists r, In r l /\ ref_name d r = Some name) ->
  exists r, handle (n + 3) nc d g loads stack sf all_succeed k m ev h = Ret r.
Proof. exact handlers_never_crash. Qed.
Print Assumptions C34_never_crash_partial.
Lemma not_base : forall v e, final_type dbh (Some (v_entry v)) (Some e) -> (forall z c, e_info (deref dbh e) <> IBase z c) -> inspectable dbh mh v.
Proof.
  intros v e F H. right. split.
  - intros e' z c F' J. assert (Some e = Some e') by (eapply EntryProof.final_type_fun; eauto). assert (e = e') by congruence. subst e'. destruct (H _ _ J).
  - intros c _ (nm & encs & w & sg & enc & _ & _ & e' & z & c' & F' & _ & J & _). assert (Some e = Some e') by (eapply EntryProof.final_type_fun; eauto). assert (e = e') by congruence. subst e'. destruct (H _ _ J).
Qed.
Lemma S0_safe : safe_parent dbh mh loads0 30 S0.
Proof.
  split; [|split].
  - intros l (e & k & z & F & J) r I. assert (Some e = Some (St 4%nat)) by (eapply EntryProof.final_type_fun; [exact F|final]). assert (e = St 4%nat) by congruence. subst e. cbn in J. injection J as _ _ <-. clear H F.
    cbn [In] in I. repeat (destruct I as [<-|I]; [eexists; split; [eexists; split; [reflexivity|]; split; [reflexivity|discriminate]|]|]); [| | | | | | |  |destruct I].
    + left. eexists. apply int_stores; [|intros mi0 H; cbn in H; injection H as <-; auto|reflexivity]. cbn [v_entry]. final.
    + left. eexists. apply int_stores; [|intros mi0 H; cbn in H; injection H as <-; auto|reflexivity]. cbn [v_entry]. final.
    + eapply not_base; [final|discriminate].
    + eapply not_base; [final|discriminate].
    + eapply not_base; [final|discriminate].
    + eapply not_base; [final|discriminate].
    + left. eexists. eapply (st_plain dbh mh _ _ CULong "unsigned long int"%string [8] 8 false).
      * exists "unsigned long int"%string, [8], 8, false, 8. split; [cbn; tauto|]. split; [cbn; tauto|]. exists (St 9%nat), 8, 8. split; [final|cbn; auto].
      * cbn. tauto.
      * cbn. tauto.
      * intros mi0 H; cbn in H; injection H as <-; auto.
      * discriminate.
      * exists "unsigned long int"%string, [8], 8, false. split; [cbn; tauto|reflexivity].
    + eapply not_base; [final|discriminate].
  - intros x [].
  - intros t H. cbn in H. discriminate.
Qed.
Example C34_example : safe_parent dbh mh loads0 30 S0 /\ safe_string dbh mh 100 (at_ 12%nat 1008) /\
  no_sibling dbh loads0 S0 "len"%string /\
  run (HCountBy (Some (Some "len"%string))) RQVST_pointer_array_count [at_ 13%nat 1016; S0] = Ret (0, None) /\
  run (HUnionSelect (Some (SelectByField (Some "len"%string) cases0))) RQVST_union_member [at_ 14%nat 1024; S0] = Ret (0, None) /\
  run (HPtrCast (Some (Build_pctx None (Some "len"%string) (pc_cases ctx0)))) RQVST_pointer_array_count [at_ 15%nat 1032; S0] = Ret (- EINVAL, None).
Proof.
  split; [exact S0_safe|]. split.
  - intros t p ((e & F & J) & ->) _ _. exists 2. split; [|lia]. split; [lia|]. change (number_at mh (v_addr (at_ 12%nat 1008)) 8) with 5000.
    split; [vm_compute; reflexivity|]. intros i H. assert (i = 0 \/ i = 1) as [-> | ->] by lia; vm_compute; discriminate.
  - split; [apply (ns_member _ _ _ _ _ S0_members); intros r I; cbn [In] in I; repeat (destruct I as [<-|I]; [discriminate|]); destruct I|]. vm_compute. repeat split.
Qed.
Example C34_union_case_missing_example : no_name (Some EmptyString) /\ first_case u_val [Build_ucase 1 (Some "nope"%string) 0] 1 (Build_ucase 1 (Some "nope"%string) 0) /\
  run (HUnionSelect (Some (SelectByField (Some "kind"%string) [Build_ucase 1 (Some "nope"%string) 0]))) RQVST_union_member [at_ 14%nat 1024; S0] = Ret (- EFAULT, None) /\
  run (HUnionSelect (Some (SelectByField (Some ""%string) cases0))) RQVST_union_member [at_ 14%nat 1024; S0] = Ret (- EINVAL, None).
Proof. split; [right; reflexivity|]. split; [exists [], []; split; [reflexivity|]; split; [reflexivity|intros y []]|]. vm_compute. split; reflexivity. Qed.
(** A pointer cast whose count sibling does not exist crashes: metac_value_delete of NULL (src/entry_tag.c:761-765). *)
Theorem C34_cast_count_refuted : exists n nc d g m loads stack sf c v parent, acyclic d n /\ bytes_ok m /\ safe_parent d m loads nc parent /\
  handle (n + 3) nc d g loads stack sf all_succeed (HPtrCast (Some c)) m RQVST_pointer_array_count [v; parent] = Ub.
Proof.
  exists 4%nat, 30%nat, dbh, g0, mh, loads0, 900, 100%nat, (Build_pctx (Some "len"%string) (Some "kind"%string) (pc_cases ctx0)), (at_ 15%nat 1032), S0.
  split; [exact dbh_acyclic|]. split; [apply words_ok|]. split; [exact S0_safe|vm_compute; reflexivity].
Qed.
Print Assumptions C34_cast_count_refuted.
(** So do count by and union selection when there is no memory for the value of a sibling (src/entry_tag.c:407-416, 601-611). *)
Theorem C34_out_of_memory_refuted : exists n nc d g m loads stack sf al name v parent, acyclic d n /\ bytes_ok m /\ safe_parent d m loads nc parent /\
  handle (n + 3) nc d g loads stack sf al (HCountBy (Some (Some name))) m RQVST_pointer_array_count [v; parent] = Ub.
Proof.
  exists 4%nat, 30%nat, dbh, g0, mh, loads0, 900, 100%nat, (Build_allocs (fun _ => false) true true), "n"%string, (at_ 13%nat 1016), S0.
  split; [exact dbh_acyclic|]. split; [apply words_ok|]. split; [exact S0_safe|vm_compute; reflexivity].
Qed.
Print Assumptions C34_out_of_memory_refuted.

(** * The deep functions with these handlers *)
(** C40: with the handlers of metac on any tags, building memory maps, freeing, comparing and copying come to an end. *)
Theorem C40_with_handlers : forall n nc d g g' uchar loads stack sf al tags bufs M, finite_types d n -> (forall t, entry_cdecl nc d (lift t) <> OutOfFuel) ->
  finite_calls (metac_env n nc d g g' uchar loads stack sf al tags bufs) ->
  exists k0, forall k, (k0 <= k)%nat ->
    let E := metac_env n nc d g g' uchar loads stack sf al tags bufs in
    (forall m v, bytes_ok m -> new_memory_map E M k m v <> OutOfFuel) /\
    (forall ord m v, bytes_ok m -> free_ex E M ord k m v <> OutOfFuel) /\
    (forall feq m v1 v2, bytes_ok m -> equal_ex E M feq k m v1 v2 <> OutOfFuel) /\
    (forall ord cal sd src dst s, bytes_ok (c_mem s) -> (forall a b, sd a b <> OutOfFuel) -> copy_ex E M ord cal sd k src dst s <> OutOfFuel).
Proof. exact with_handlers. Qed.
Print Assumptions C40_with_handlers.
(** C39: without va_list parameters they satisfy what C39_exact asks of handlers. *)
Theorem C39_handlers_local : forall n nc d g g' uchar loads stack sf al tags bufs m, acyclic d n -> (forall p, is_va_list nc d p = Ret false) ->
  local (metac_env n nc d g g' uchar loads stack sf al tags bufs) m.
Proof. exact handlers_local. Qed.
Print Assumptions C39_handlers_local.
Lemma dbh_texts : forall t, exists s, entry_cdecl 30 dbh (lift t) = Ret s /\ match s with None => True | Some x => String.eqb x "va_list %s" || String.eqb x "struct __va_list_tag * %s" = false end.
Proof.
  intros [r|]; [|eexists; split; [reflexivity|exact I]]. cbn [lift option_map entry_cdecl].
  do 23 (destruct r as [|r]; [eexists; split; [vm_compute; reflexivity|first [exact I|reflexivity]]|]). eexists. split; [reflexivity|exact I].
Qed.
(** no type contains itself by value: the ranks of the types *)
Definition rankf (r : ref) : nat :=
  match r with
  | 4%nat => 4 | 14%nat => 3 | 5%nat => 2 | 10%nat | 11%nat | 12%nat | 13%nat | 15%nat | 16%nat | 17%nat | 18%nat | 8%nat => 1 | 19%nat => 2 | 21%nat | 22%nat => 1 | _ => 0
  end.
Definition tags0 (p : eptr) : option handler :=
  match p with St 13%nat => Some (HCountBy (Some (Some "n"%string))) | St 12%nat => Some HZeroEndedString
             | St 14%nat => Some (HUnionSelect (Some (SelectByField (Some "kind"%string) cases0))) | St 15%nat => Some (HPtrCast (Some ctx0)) | _ => None end.
Definition env0 : env := metac_env 5 30 dbh g0 g0 1%nat loads0 900 100 all_succeed tags0 (fun k => 7000 + 100 * Z.of_nat k).
Lemma static_end : forall d p f, final_type d (Some p) f -> forall r, p = St r -> exists r', f = Some (St r') \/ f = None.
Proof.
  intros d p f [qs R]. remember (Some p) as p0 eqn:Q0. revert p Q0. induction R as [|e0 K|e0 t q qs f' S R IH]; intros p Q0 r0 Q; try discriminate.
  - injection Q0 as ->. subst. exists r0. left. reflexivity.
  - destruct t as [t|]; [|exists O; right; inversion R; reflexivity]. eapply IH; [reflexivity|reflexivity].
Qed.
Lemma dbh_calls : finite_calls env0.
Proof.
  assert (K : forall r i mi0, e_info (dbh r) = IMember mi0 \/ r = 21%nat \/ r = 22%nat -> forall a, has_info dbh (Build_value (St r) a) i -> ~ callable i).
  { intros r i mi0 H a [e [F <-]]. assert (H' : r <> 20%nat) by (intros ->; destruct H as [H|[H|H]]; discriminate).
    destruct (static_end _ _ _ F _ eq_refl) as [r' [Q|Q]]; [|discriminate]. injection Q as ->. intro C.
    assert (r' = 20%nat) by (do 23 (destruct r' as [|r']; [first [reflexivity|destruct C]|]); destruct C). subst r'. clear C H.
    destruct F as [qs R]. remember (Some (St 20)%nat) as f0 eqn:Qf. remember (Some (v_entry (Build_value (St r) a))) as p0 eqn:Qp. cbn in Qp.
    revert r H' Qp. induction R as [|e0 S|e0 t q qs f S R IH]; intros r H' Qp; try discriminate.
    - congruence.
    - injection Qp as ->. cbn in S. destruct t as [t|]; [|inversion R; congruence]. apply (IH Qf t); [|reflexivity]. clear - S. intros ->.
      do 23 (destruct r as [|r]; [inversion S; fail|]). inversion S. }
  split; [split|].
  - intros r mi0 i H I. eapply K; [left; exact H|exact I].
  - intros r t H. do 23 (destruct r as [|r]; [discriminate H|]). discriminate H.
  - exists 1%nat, (fun _ => O). split; [intro; lia|]. intros a w i H I C. exfalso. cbn in H. unfold loads0 in H. destruct (a =? 2000); [|destruct H].
    destruct H as [<-|[<-|[]]]; [apply (K 21%nat i (Build_minfo None None 0 None None None) ltac:(auto) 3000 I C)|apply (K 22%nat i (Build_minfo None None 0 None None None) ltac:(auto) 3008 I C)].
Qed.
(** a struct and a call of f(arr, cnt), cnt numbers at arr *)
Definition tags1 (p : eptr) : option handler := match p with St 21%nat => Some (HCountBy (Some (Some "cnt"%string))) | _ => tags0 p end.
Example C40_with_handlers_example : finite_types dbh 5 /\ (forall t, entry_cdecl 30 dbh (lift t) <> OutOfFuel) /\ (forall p, is_va_list 30 dbh p = Ret false) /\
  finite_calls env0 /\
  (exists mm, new_memory_map env0 (Build_mode false UPTR_fail UNION_fail FLXARR_ignore) 40 mh S0 = Ret (Some mm)) /\
  (exists mm, new_memory_map (metac_env 5 30 dbh g0 g0 1%nat loads0 900 100 all_succeed tags1 (fun k => 7000 + 100 * Z.of_nat k)) (Build_mode false UPTR_fail UNION_fail FLXARR_ignore) 40 mh fun0 = Ret (Some mm) /\
     map (fun c => (v_addr (me_val c), map (fun x => (v_addr (me_val x), me_size x)) (me_ch c))) (me_ch (mm_top mm)) = [(3000, [(6000, 8)]); (3008, [])]).
Proof.
  split; [|split; [|split; [|split; [|split]]]].
  - exists rankf. split.
    + intro r. do 23 (destruct r as [|r]; [cbn; lia|]). cbn. lia.
    + intros r t [H|[k [z [l [A B]]]]].
      * destruct H as [[q H]|[[c H]|H]]; (do 23 (destruct r as [|r]; [cbn in H; inversion H; subst; cbn; try lia; fail|])); cbn in H; inversion H.
      * do 23 (destruct r as [|r]; [cbn in A; inversion A; subst; cbn in B; decompose [or] B; subst; cbn; try lia; try contradiction; fail|]). cbn in A. discriminate.
  - intro t. destruct (dbh_texts t) as (s & -> & _). discriminate.
  - intro p. unfold is_va_list. destruct (e_info (deref dbh p)); try reflexivity. destruct unspecified; [reflexivity|]. destruct (dbh_texts t) as (s & -> & H). cbn [bind]. destruct s; [rewrite H|]; reflexivity.
  - exact dbh_calls.
  - eexists. vm_compute. reflexivity.
  - eexists. split; vm_compute; reflexivity.
Qed.

(** Property theorems about copies and their release (C62). *)
From Coq Require Import ZArith String List Bool Permutation Lia.
From Verif Require Import Base BaseProof EntryModel EntrySpec ValueModel ValueSpec DeepModel DeepSpec DeepProof2 DeepProof6 DeepProof8 DeepProps
  CopySpec CopyProof CopyProps MoveSpec MoveProof5 MoveProps EqualSpec CompleteSpec CompleteProps RoundProof.
Import ListNotations.
Open Scope Z_scope.

(** C62. Deep free of a copy releases exactly the blocks that were obtained for the copy, each once, provided that the handlers say the
    same about the copy as about the source. *)
Theorem C62_copy_free_partial : forall E M n0 ord ord' cal same_decl k src dst s s' evs z B, acyclic (en_db E) n0 -> en_fuel E = (n0 + 3)%nat ->
  mo_tree M = false -> mo_union M <> UNION_ignore -> mo_uptr M <> UPTR_as_values -> (forall x, Permutation (ord x) x) -> (forall x, Permutation (ord' x) x) ->
  copy_ex E M ord cal same_decl k src dst s = Ret (true, s') -> calls s s' evs ->
  copyable E M (c_mem s) src -> extent E M (c_mem s) [] src z -> same_type (en_db E) src dst -> en_va E (v_entry dst) = false ->
  blocks_ok B -> held E M (c_mem s) src B ->
  (forall b w, In (b, w) B -> apart (v_addr src) z b w) ->
  0 < v_addr dst -> v_addr dst + z < 2 ^ 64 -> (forall b w, In (b, w) ((v_addr src, z) :: B) -> apart (v_addr dst) z b w) ->
  fresh_blocks (allocs evs) ((v_addr src, z) :: (v_addr dst, z) :: B) ->
  (mo_uptr M = UPTR_fail \/ mo_uptr M = UPTR_as_one_byte_ptr -> forall x, v_addr dst <= x < v_addr dst + z -> c_mem s x = 0) ->
  exists R, copied E M (c_mem s) (c_mem s') src z (v_addr dst) (allocs evs) R /\
    (answers_alike E M (c_mem s) src (c_mem s') R -> exists l, free_ex E M ord' k (c_mem s') dst = Ret (1, l) /\ Permutation l (map fst (allocs evs))).
Proof. exact copy_then_free. Qed.
Print Assumptions C62_copy_free_partial.
Example C62_copy_free_example : exists s' evs, copy_ex E0 M0 (fun l => l) (some_blocks 2) any_decl 20 (at_ 16%nat 400) (at_ 16%nat 800) (cst0 linked) = Ret (true, s') /\
  calls (cst0 linked) s' evs /\ acyclic (en_db E0) 7 /\ en_fuel E0 = (7 + 3)%nat /\ mo_uptr M0 <> UPTR_as_values /\
  copyable E0 M0 linked (at_ 16%nat 400) /\ (forall m v m' R, answers_alike E0 M0 m v m' R) /\
  map fst (allocs evs) = [5000; 5100] /\ free_ex E0 M0 (@rev hent) 20 (c_mem s') (at_ 16%nat 800) = Ret (1, [5100; 5000]).
Proof.
  eexists. exists [EvCalloc 5000 16; EvCalloc 5100 16]. split; [vm_compute; reflexivity|]. split; [reflexivity|].
  split; [apply finite_acyclic, db0_finite|]. split; [reflexivity|]. split; [discriminate|]. split; [exact copyable0|].
  split; [intros; apply no_handler_alike; reflexivity|]. split; [reflexivity|]. vm_compute. reflexivity.
Qed.

(** C62. The whole life of a copy: it is made, it compares equal to its source, and deep free of it releases what was obtained for it. *)
Theorem C62_life_cycle_partial : forall E M feq n0, finite_types (en_db E) n0 -> en_fuel E = (n0 + 3)%nat -> tame E -> finite_calls E ->
  mo_tree M = false -> mo_union M <> UNION_ignore -> mo_uptr M <> UPTR_as_values ->
  exists k0, forall k, (k0 <= k)%nat -> forall ord ord' cal same_decl src dst s z B, (forall x, Permutation (ord x) x) -> (forall x, Permutation (ord' x) x) ->
  (forall m' R, answers_alike E M (c_mem s) src m' R) ->
  visible E M (c_mem s) src -> writable E M (c_mem s) src -> comparable E M feq (c_mem s) src -> (forall y c, has_info (en_db E) src (IBase y c) -> ~ is_const (en_db E) dst) ->
  (forall f f', final_type (en_db E) (Some (v_entry src)) (Some f) -> final_type (en_db E) (Some (v_entry dst)) (Some f') -> same_decl (Some f) (Some f') = Ret true) ->
  copyable E M (c_mem s) src -> extent E M (c_mem s) [] src z -> same_type (en_db E) src dst -> en_va E (v_entry dst) = false ->
  blocks_ok B -> held E M (c_mem s) src B -> parts_differ E M (c_mem s) src -> inner_once E M (c_mem s) src B ->
  (forall b w, In (b, w) B -> apart (v_addr src) z b w) ->
  0 < v_addr dst -> v_addr dst + z < 2 ^ 64 -> (forall b w, In (b, w) ((v_addr src, z) :: B) -> apart (v_addr dst) z b w) ->
  allocates cal (c_calls s) (length B) (fun y => exists w, pointee E M (c_mem s) src w y) ((v_addr src, z) :: (v_addr dst, z) :: B) ->
  (mo_uptr M = UPTR_fail \/ mo_uptr M = UPTR_as_one_byte_ptr -> forall x, v_addr dst <= x < v_addr dst + z -> c_mem s x = 0) ->
  exists s' evs l, copy_ex E M ord cal same_decl k src dst s = Ret (true, s') /\ calls s s' evs /\
    equal_ex E M feq k (c_mem s') src dst = Ret 1 /\
    free_ex E M ord' k (c_mem s') dst = Ret (1, l) /\ Permutation l (map fst (allocs evs)).
Proof. exact life_cycle. Qed.
Print Assumptions C62_life_cycle_partial.
(** all premises together, for the circle of two nodes with a pointer into the second one *)
Example C62_life_cycle_example : finite_types (en_db E0) 7 /\ en_fuel E0 = (7 + 3)%nat /\ tame E0 /\ finite_calls E0 /\
  mo_tree M0 = false /\ mo_union M0 <> UNION_ignore /\ mo_uptr M0 <> UPTR_as_values /\ let s := cst0 linked in let src := at_ 16%nat 400 in let dst := at_ 16%nat 800 in
  let B := [(1000, 16); (2000, 24)] in
  (forall m' R, answers_alike E0 M0 (c_mem s) src m' R) /\
  visible E0 M0 (c_mem s) src /\ writable E0 M0 (c_mem s) src /\ comparable E0 M0 feq0 (c_mem s) src /\ (forall y c, has_info (en_db E0) src (IBase y c) -> ~ is_const (en_db E0) dst) /\
  copyable E0 M0 (c_mem s) src /\ extent E0 M0 (c_mem s) [] src 16 /\ same_type (en_db E0) src dst /\ en_va E0 (v_entry dst) = false /\
  blocks_ok B /\ held E0 M0 (c_mem s) src B /\ parts_differ E0 M0 (c_mem s) src /\ inner_once E0 M0 (c_mem s) src B /\
  (forall b w, In (b, w) B -> apart (v_addr src) 16 b w) /\ (forall b w, In (b, w) ((v_addr src, 16) :: B) -> apart (v_addr dst) 16 b w) /\
  allocates (some_blocks 2) (c_calls s) (length B) (fun y => exists w, pointee E0 M0 (c_mem s) src w y) ((v_addr src, 16) :: (v_addr dst, 16) :: B) /\
  (forall x, v_addr dst <= x < v_addr dst + 16 -> c_mem s x = 0).
Proof.
  destruct C60_example as [Q1 [Q2 [[Q3 Q4] _]]]. destruct C61_example as [Q5 [Q6 [Q7 [Q8 [Q9 [Q10 [Q11 Q12]]]]]]].
  destruct C41_copy_example as [s' [_ [_ [Q13 [Q14 [Q15 [Q16 [Q17 [Q18 [Q19 _]]]]]]]]]].
  cbn [c_mem cst0 c_calls length v_addr v_entry at_].
  do 5 (split; [assumption|]). split; [assumption|]. split; [discriminate|]. split; [intros; apply no_handler_alike; reflexivity|].
  split; [assumption|]. split; [assumption|]. split; [exact comparable0|]. do 4 (split; [assumption|]). split; [reflexivity|]. do 4 (split; [assumption|]).
  split; [intros b w [Q|[Q|[]]]; injection Q as <- <-; unfold apart; lia|]. split; [exact Q18|]. split; [exact Q12|exact Q19].
Qed.

(** Property theorems about pointers and arrays seen as arrays of a given length (C86). *)
From Coq Require Import ZArith String List Bool Lia.
From Verif Require Import Base EntryModel EntrySpec EntryProof ValueModel ValueSpec DeepSpec HandlerSpec HandlerProof HandlerProps CountSpec CountProof.
Import ListNotations.
Open Scope Z_scope.

(** C86. metac_new_element_count_value gives an array of just [c] elements that begins where the pointer points or the
    array is; with memory it gives one for each such value, and NULL for every other. *)
Theorem C86_made : forall k d m v c a w, new_element_count_value k d m v c a = Ret (Some w) ->
  a = true /\ exists t p, begins d m v t p /\ p <> 0 /\ w = array_at t c p.
Proof. exact made_sound. Qed.
Print Assumptions C86_made.
Theorem C86_made_always : forall n d m v c t p, acyclic d n -> begins d m v t p -> p <> 0 ->
  new_element_count_value (n + 3) d m v c true = Ret (Some (array_at t c p)).
Proof. exact made_complete. Qed.
Print Assumptions C86_made_always.
Theorem C86_null : forall n d m v c a, acyclic d n -> (forall t p, begins d m v t p -> p = 0) ->
  new_element_count_value (n + 3) d m v c a = Ret None.
Proof. exact made_null. Qed.
Print Assumptions C86_null.

(** C86. Its elements are the objects from there on, one after the other; there is one for each number below the count
    and for no other number. *)
Theorem C86_element : forall n k d m v c a w i a' x t p z, new_element_count_value k d m v c a = Ret (Some w) ->
  begins d m v t p -> has_size d (Some (St t)) z -> 0 <= z -> - 2147483648 <= c -> 0 < p -> p + c * z <= 2 ^ 64 - 1 ->
  new_value_by_element_id n d w i a' = Ret (Some x) -> 0 <= i < c /\ v_entry x = St t /\ v_addr x = p + i * z.
Proof. exact made_element. Qed.
Print Assumptions C86_element.
Theorem C86_element_exists : forall n d m v c t p z i, acyclic d n -> begins d m v t p -> p <> 0 -> has_size d (Some (St t)) z ->
  0 <= z -> 0 <= i < c -> c <= 2147483647 -> 0 < p -> p + c * z <= 2 ^ 64 - 1 ->
  exists w, new_element_count_value (n + 3) d m v c true = Ret (Some w) /\
            new_value_by_element_id (n + 3) d w i true = Ret (Some (Build_value (St t) (p + i * z))).
Proof. exact made_element_exists. Qed.
Print Assumptions C86_element_exists.

(** The pointer member at 1016 of HandlerProps holds 6000 and points to int. *)
Example C86_example : exists w, begins dbh mh (at_ 13%nat 1016) 0%nat 6000 /\ new_element_count_value 20 dbh mh (at_ 13%nat 1016) 3 true = Ret (Some w) /\
  new_value_by_element_id 20 dbh w 2 true = Ret (Some (at_ 0%nat 6008)) /\ new_value_by_element_id 20 dbh w 3 true = Ret None.
Proof.
  exists (array_at 0%nat 3 6000). split; [|split; [vm_compute; reflexivity|split; vm_compute; reflexivity]].
  left. split; [|vm_compute; reflexivity]. exists (St 3%nat). split; [|reflexivity]. exists [].
  apply (res_step dbh (St 13%nat) (Some 3%nat) None []); [constructor|]. apply res_stop. intros t q K. inversion K.
Qed.

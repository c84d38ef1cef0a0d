(** Property theorems about tag maps: lookup order and override rules (C31), fallback from an external map
    (C32), ownership of contexts and memory (C49). *)
From Coq Require Import ZArith String List Bool Permutation.
From Verif Require Import Base EntryModel EntrySpec EntryProof TagMapModel TagMapSpec TagMapProof.
Import ListNotations.
Open Scope Z_scope.
Open Scope string_scope.

(** C31. Whatever a lookup returns is the answer of the first responsible category that has one, or the default. *)
Theorem C31_lookup : forall ndebug n d m e o, wf m -> kind_ok d e -> tag_map_tag ndebug n d m e = Ret o -> answer d e m o.
Proof. exact (fun nd n d m e o W K H => lookup_sound nd n d e K m o W H). Qed.
Print Assumptions C31_lookup.

(** C31. There is one answer. *)
Theorem C31_answer_unique : forall d e m o o', wf m -> answer d e m o -> answer d e m o' -> o = o'.
Proof. exact (fun d e m o o' W H H' => answer_fun d e m o H W o' H'). Qed.
Print Assumptions C31_answer_unique.

(** C31. Maps with own categories always answer. *)
Theorem C31_terminates : forall d n m e ndebug, acyclic d n -> own_only m -> exists o, tag_map_tag ndebug (n + 3) d m e = Ret o.
Proof. exact (fun d n m e nd A O => lookup_total d n e nd m A (or_intror O)). Qed.
Print Assumptions C31_terminates.

(** C31. What one call of metac_tag_map_set_tag does: a failure leaves the map as it was; success binds the entry
    (or its final type) in the named category and nothing else changes; an entry that has a tag is
    overwritten only on request and otherwise the call says so. *)
Theorem C31_set : forall n d m c s m' f, wf m -> (forall e, k_entry c = Some e -> exists r, e = St r) ->
  set_tag n d m (k_category c) (k_override c) (k_entry c) (k_op c) (k_tag c) (k_allocs c) = Ret (s, m', f) ->
  wf m' /\ default_of m' = default_of m /\
  (forall j, Z.of_nat j <> k_category c -> cat_at m' j = cat_at m j) /\
  (s <> 0 -> m' = m) /\
  (s = 0 -> (k_op c = 1 \/ k_op c = 2) ->
     exists i mask l l' r t, k_category c = Z.of_nat i /\ cat_at m i = Some (Own mask l) /\ cat_at m' i = Some (Own mask l') /\
       k_tag c = Some t /\ target d c r /\ bound l' (St r) t /\ (forall e u, e <> St r -> bound l' e u <-> bound l e u) /\
       (unbound l (St r) \/ k_override c = true)) /\
  (s = 0 -> k_op c <> 1 -> k_op c <> 2 -> m' = m /\ f = nothing) /\
  (forall mask l r, k_override c = false -> 0 <= k_category c -> cat_at m (Z.to_nat (k_category c)) = Some (Own mask l) -> target d c r -> ~ unbound l (St r) ->
     k_tag c <> None -> s = - EALREADY).
Proof. exact set_then. Qed.
Print Assumptions C31_set.

(** C31. A tag that was set for an entry is what a lookup of the entry then returns, if no earlier category is
    responsible for it. *)
Theorem C31_found_after_set : forall n ndebug k d m c r m' f mask l o, wf m -> kind_ok d (St r) -> k_entry c = Some (St r) -> k_op c = TEO_entry ->
  set_tag n d m (k_category c) (k_override c) (k_entry c) (k_op c) (k_tag c) (k_allocs c) = Ret (0, m', f) ->
  cat_at m (Z.to_nat (k_category c)) = Some (Own mask l) -> admits d mask (St r) ->
  (forall j x, (Z.of_nat j < k_category c) -> cat_at m j = Some x -> ~ admits d (match x with Ext k _ => k | Own k _ => k end) (St r)) ->
  tag_map_tag ndebug k d m' (St r) = Ret o -> o = k_tag c.
Proof. exact found_after. Qed.
Print Assumptions C31_found_after_set.

(** C31. Every map that was created and then changed by any number of calls is well formed. *)
Theorem C31_reachable : forall n d cs df m f l ss m' g, Forall (fun c => match snd c with Some x => wf x | None => True end) cs ->
  new_tag_map_ex cs df true = Some (m, f) -> static_calls l -> run_calls n d m l = Ret (ss, m', g) -> wf m' /\ default_of m' = default_of m.
Proof. exact (fun n d cs df m f l ss m' g FA N SC R => run_wf n d l m ss m' g SC (new_wf cs df true m f FA N) R). Qed.
Print Assumptions C31_reachable.

(** C32. Compiled with NDEBUG the lookup always comes to an end with an answer (that an external map without a tag passes
    on to the next category is part of [answer], C31_lookup). *)
Theorem C32_fallback_ndebug_partial : forall d n m e, acyclic d n -> wf m -> kind_ok d e ->
  exists o, tag_map_tag true (n + 3) d m e = Ret o /\ answer d e m o.
Proof. exact (fun d n m e A W K => match lookup_total d n e true m A (or_introl eq_refl) with ex_intro _ o H => ex_intro _ o (conj H (lookup_sound true (n + 3) d e K m o W H)) end). Qed.
Print Assumptions C32_fallback_ndebug_partial.

(** C49. Over the life of a map - created, used by any calls, deleted - exactly the contexts of the default tag and of
    the tags that were successfully set are released, each as often as it was handed over. No memory of tags
    is freed that was not allocated, and none stays allocated unless an insertion into the hash map failed. *)
Theorem C49_contexts_released_once : forall n d cs df m0 f0 l ss m1 f1, new_tag_map_ex cs df true = Some (m0, f0) ->
  static_calls l -> run_calls n d m0 l = Ret (ss, m1, f1) ->
  Permutation (f_released f0 ++ f_released f1 ++ f_released (delete_map m1)) (match df with Some t => given t | None => [] end ++ taken l ss) /\
  0 <= f_blocks f0 + f_blocks f1 + f_blocks (delete_map m1) /\
  (Forall (fun c => a_put (k_allocs c) = true) l -> f_blocks f0 + f_blocks f1 + f_blocks (delete_map m1) = 0).
Proof. exact life. Qed.
Print Assumptions C49_contexts_released_once.

(** 0 int, 1 typedef of it, 2 member of type 1, 3 variable of type 1, 4 parameter *)
Definition tm_db : db := fun r =>
  match r with
  | 0%nat => Build_entry (Some "int") false (IBase 4 6)
  | 1%nat => Build_entry (Some "int_t") false (ITypedef (Some 0%nat))
  | 2%nat => Build_entry (Some "m") false (IMember (Build_minfo (Some 1%nat) None 0 None None None))
  | 3%nat => Build_entry (Some "v") false (IVariable (Some 1%nat))
  | 4%nat => Build_entry (Some "p") false (IParam false (Some 0%nat))
  | _ => Build_entry None false (IOther (-1))
  end.
Definition tg n := Build_tag (Some "t") 1 n true.
Definition ok_allocs := Build_allocs true true true.
(** category 0: members; category 1: everything and final types *)
Definition tm_cats : list (Z * option tmap) := [(4, None); (15, None)].
Definition tm_calls : list call :=
  [Build_call 0 false (Some (St 2%nat)) 1 (Some (tg 10)) ok_allocs;
   Build_call 1 false (Some (St 3%nat)) 2 (Some (tg 11)) ok_allocs;
   Build_call 0 false (Some (St 2%nat)) 1 (Some (tg 12)) ok_allocs;
   Build_call 0 true (Some (St 2%nat)) 1 (Some (tg 13)) ok_allocs;
   Build_call 7 true (Some (St 2%nat)) 1 (Some (tg 14)) ok_allocs;
   Build_call 1 true (Some (St 4%nat)) 1 (Some (tg 15)) (Build_allocs true false true)].
Example tm_life : exists m0 f0 m1 f1,
  new_tag_map_ex tm_cats (Some (tg 9)) true = Some (m0, f0) /\ static_calls tm_calls /\
  run_calls 10 tm_db m0 tm_calls = Ret ([0; 0; - EALREADY; 0; - EINVAL; - ENOMEM], m1, f1) /\
  f_released f1 = [10] /\ f_released (delete_map m1) = [13; 11; 9] /\
  tag_map_tag false 10 tm_db m1 (St 2%nat) = Ret (Some (tg 13)) /\
  tag_map_tag false 10 tm_db m1 (St 3%nat) = Ret (Some (tg 11)) /\
  tag_map_tag false 10 tm_db m1 (St 4%nat) = Ret (Some (tg 11)) /\
  tag_map_tag false 10 tm_db m1 (St 0%nat) = Ret (Some (tg 9)).
Proof.
  eexists _, _, _, _. split; [vm_compute; reflexivity|]. split.
  { repeat (constructor; [cbn; intros e E; eexists; apply eq_sym; injection E as <-; reflexivity|]). constructor. }
  repeat (split; [vm_compute; reflexivity|]). vm_compute; reflexivity.
Qed.
Example tm_hyps : (forall r, kind_ok tm_db (St r)) /\ acyclic tm_db 8 /\ admits tm_db 4 (St 2%nat) /\ ~ admits tm_db 4 (St 3%nat).
Proof.
  split. { intros r k. do 5 (destruct r as [|r]; [discriminate|]). cbn. intros E. injection E as <-. repeat split; discriminate. }
  split. { exists (fun r => match r with 0 => 0 | 1 => 1 | 2 => 2 | 3 => 2 | 4 => 1 | _ => 0 end)%nat. split.
    - intros r. do 5 (destruct r as [|r]; [vm_compute; repeat constructor|]). repeat constructor.
    - intros r t. do 5 (destruct r as [|r];
        [intros [(q & K)|[(c & K)|K]]; cbn in K; inversion K; subst; repeat constructor|]).
      intros [(q & K)|[(c & K)|K]]; cbn in K; inversion K. }
  split. { exists 2. split; [|reflexivity]. econstructor. reflexivity. }
  intros (b & B & T). inversion B as [? I|? ? I|? I]; subst; cbn in *; discriminate.
Qed.

(** C32 fails in the default build: the fallback path runs into assert(0) of line 185. The external map
    has a tag for the member only; the lookup of the variable aborts instead of returning the tag of the second category. *)
Theorem C32_fallback_refuted : exists d m e t, wf m /\ kind_ok d e /\ answer d e m (Some t) /\ tag_map_tag false 10 d m e = Abort.
Proof.
  exists tm_db, (TMap [Ext 7 (TMap [Own 7 [(St 2%nat, tg 1)]] None); Own 7 [(St 3%nat, tg 2)]] None), (St 3%nat), (tg 2).
  assert (K : kind_ok tm_db (St 3%nat)) by (intros k E; discriminate).
  assert (W : wf (TMap [Ext 7 (TMap [Own 7 [(St 2%nat, tg 1)]] None); Own 7 [(St 3%nat, tg 2)]] None)).
  { cbn. repeat split; repeat constructor; cbn; eauto; intros []. }
  repeat (split; [assumption|]). split; [|vm_compute; reflexivity].
  apply (C31_lookup true 10); auto.
Qed.
Print Assumptions C32_fallback_refuted.

(** C49: when hashmapPut fails the text of the tag stays allocated (line 228 frees the tag only). *)
Theorem C49_leak_refuted : exists m0 f0 l ss m1 f1, new_tag_map_ex tm_cats None true = Some (m0, f0) /\ static_calls l /\
  run_calls 10 tm_db m0 l = Ret (ss, m1, f1) /\ f_blocks f0 + f_blocks f1 + f_blocks (delete_map m1) = 1.
Proof.
  eexists _, _, [Build_call 0 false (Some (St 2%nat)) 1 (Some (tg 10)) (Build_allocs true true false)], _, _, _. split; [vm_compute; reflexivity|]. split.
  { repeat (constructor; [cbn; intros e E; eexists; apply eq_sym; injection E as <-; reflexivity|]). constructor. }
  split; [vm_compute; reflexivity|]. vm_compute; reflexivity.
Qed.
Print Assumptions C49_leak_refuted.

(** C49: "exactly once" needs the handed over contexts to be different: re-setting a tag with the same context
    releases the context while the stored tag still points to it. *)
Theorem C49_same_context_refuted : exists m0 f0 l ss m1 f1 t, new_tag_map_ex tm_cats None true = Some (m0, f0) /\ static_calls l /\
  run_calls 10 tm_db m0 l = Ret (ss, m1, f1) /\ tag_map_tag false 10 tm_db m1 (St 2%nat) = Ret (Some t) /\ In (t_context t) (f_released f1).
Proof.
  eexists _, _, [Build_call 0 false (Some (St 2%nat)) 1 (Some (tg 10)) ok_allocs; Build_call 0 true (Some (St 2%nat)) 1 (Some (tg 10)) ok_allocs], _, _, _, _. split; [vm_compute; reflexivity|]. split.
  { repeat (constructor; [cbn; intros e E; eexists; apply eq_sym; injection E as <-; reflexivity|]). constructor. }
  split; [vm_compute; reflexivity|]. split; [vm_compute; reflexivity|]. vm_compute. auto.
Qed.
Print Assumptions C49_same_context_refuted.

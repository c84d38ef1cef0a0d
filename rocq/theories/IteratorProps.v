(** Property theorems C05-C09 (recursive iterator). *)
From Coq Require Import ZArith List Bool.
Import ListNotations.
From Verif Require Import IteratorModel IteratorSpec IteratorProof IteratorProof2 IteratorProof3.
Open Scope Z_scope.

(** C05: no client, whatever calls it makes in whatever order, can make the iterator touch freed memory
    or follow a wild link (a violated contract ends in a failed assertion). *)
Theorem C05_no_undefined_behaviour : forall p calls, run_calls (new_iterator p) calls <> UB.
Proof. exact no_ub. Qed.
Print Assumptions C05_no_undefined_behaviour.

(** C05: next always terminates ([NoFuel] is impossible), changes nothing but the current task, reports the end
    only when the root is finished, and otherwise the task made current is unfinished, its input is what is
    returned and everything queued on it is finished. *)
Theorem C05_next_hands_out_ready_task : forall it, reachable it ->
  exists it' r, next it = Ok (it', r) /\ cells it' = cells it /\
    ((r = NEnd /\ finished (cells it) 0) \/
     (exists p l, r = NTask p /\ unfinished (cells it) 0 /\ unfinished (cells it) (cur it') /\
        (exists n, cells it (cur it') = Some n /\ p_in n = p) /\
        queue (cells it) (cur it') l /\ Forall (finished (cells it)) l)).
Proof. exact next_spec. Qed.
Print Assumptions C05_next_hands_out_ready_task.

(** C06: the queue-collect-finish client computes the recursive fold, visits in recursive order, and
    leaves nothing allocated. *)
Theorem C06_traversal_is_structural_recursion : forall kids f t, expands kids t ->
  forall s, (2 * tsize t < s)%nat ->
  exists it', drive kids f s (new_iterator (root t)) = Ok (Some (it', trace t)) /\
    get_out it' = Ok (eval f t) /\
    exists it'', iterator_free it' = Ok it'' /\ forall j, cells it'' j = None.
Proof. exact drive_spec. Qed.
Print Assumptions C06_traversal_is_structural_recursion.

(** C07: appending. *)
Theorem C07_append_at_end : forall it inp a it' rc l, reachable it -> append_dep it inp a = Ok (it', rc) ->
  queue (cells it) (cur it) l ->
  (rc = 0 /\ a = true /\ cur it' = cur it /\
     exists i, cells it i = None /\ queue (cells it') (cur it) (l ++ [i]) /\
       exists n, cells it' i = Some n /\ p_in n = inp /\ state n = 0)
  \/ (rc = -12 /\ a = false /\ it' = it).
Proof. exact append_spec. Qed.
Print Assumptions C07_append_at_end.

(** C07: dequeuing delivers the oldest with its own input and flag, and frees it. *)
Theorem C07_dequeue_oldest : forall it it' r l, reachable it -> dequeue it = Ok (it', r) ->
  queue (cells it) (cur it) l ->
  match l with
  | [] => r = None /\ it' = it
  | x :: l' => exists n, cells it x = Some n /\ finished (cells it) x /\
      r = Some (p_out n, p_in n, state n =? -3) /\
      cur it' = cur it /\ queue (cells it') (cur it) l' /\ cells it' x = None
  end.
Proof. exact dequeue_spec. Qed.
Print Assumptions C07_dequeue_oldest.

(** C07: no call changes any queue otherwise (of the current task or of another one). *)
Theorem C07_queues_change_only_so : forall it c it' o i l n, reachable it -> do_call it c = Ok (it', o) ->
  queue (cells it) i l -> cells it' i = Some n ->
  queue (cells it') i (if Nat.eqb i (cur it) then
    match c with CAppend _ true => l ++ [fresh it] | CDequeue => tl l | _ => l end else l).
Proof. exact queues_spec. Qed.
Print Assumptions C07_queues_change_only_so.

Theorem C07_preview : forall it i r l, reachable it -> 0 <= i -> get_dep_out it i = Ok r ->
  queue (cells it) (cur it) l ->
  match nth_error l (Z.to_nat i) with
  | None => r = Some None
  | Some x => exists n, cells it x = Some n /\ finished (cells it) x /\ r = Some (Some (p_out n, p_in n, state n =? -3))
  end.
Proof. exact get_dep_out_spec. Qed.
Print Assumptions C07_preview.

Theorem C07_queue_size : forall it l, reachable it -> queue (cells it) (cur it) l ->
  dep_queue_size it = Ok (Some (Z.of_nat (length l))).
Proof. exact queue_size_spec. Qed.
Print Assumptions C07_queue_size.

(** C08 *)
Theorem C08_failed_task_has_no_result : forall it it' b n, reachable it -> cells it (cur it) = Some n ->
  fail it = Ok (it', b) -> b = true /\ get_out it' = Ok (0, p_in n, true) /\ cur it' = cur it.
Proof. exact fail_spec. Qed.
Print Assumptions C08_failed_task_has_no_result.

Theorem C08_done_reports_pointer : forall it it' b o n, reachable it -> cells it (cur it) = Some n ->
  done it o = Ok (it', b) -> b = true /\ get_out it' = Ok (o, p_in n, false) /\ cur it' = cur it.
Proof. exact done_spec. Qed.
Print Assumptions C08_done_reports_pointer.

(** Whatever the client does later, a finished task keeps its result until its parent dequeues
    exactly that result. *)
Theorem C08_finished_is_final : forall it calls it' os i n, reachable it -> cells it i = Some n ->
  (state n = -2 \/ state n = -3) -> run_calls it calls = Ok (it', os) ->
  (exists n', cells it' i = Some n' /\ state n' = state n /\ p_out n' = p_out n /\ p_in n' = p_in n) \/
  (cells it' i = None /\ In (ODeq (Some (p_out n, p_in n, state n =? -3))) os).
Proof. exact finished_stable. Qed.
Print Assumptions C08_finished_is_final.

(** C46: level and input of an ancestor. *)
Theorem C46_level_and_ancestors : forall it, reachable it -> exists l, lineage (cells it) l /\ hd_error l = Some (cur it) /\
  level it = Ok (Some (Z.of_nat (length l) - 1)) /\
  forall k, get_in it k = Ok (Some (if k <? 0 then 0 else match nth_error l (Z.to_nat k) with
     | Some x => match cells it x with Some m => p_in m | None => 0 end | None => 0 end)) /\
     forall x, nth_error l (Z.to_nat k) = Some x -> cells it x <> None.
Proof. exact ancestors_spec. Qed.
Print Assumptions C46_level_and_ancestors.

(** C47: setting the state: refused for the error state, otherwise it is what is read back. *)
Theorem C47_state_read_back : forall it s, reachable it -> unfinished (cells it) (cur it) ->
  (s = -1 -> set_state it s = Ok (it, false)) /\
  (s <> -1 -> exists it', set_state it s = Ok (it', true) /\ get_state it' = Ok s /\ cur it' = cur it /\
     get_context it' = get_context it /\ (forall i, i <> cur it -> cells it' i = cells it i)).
Proof. exact set_state_spec. Qed.
Print Assumptions C47_state_read_back.

Theorem C47_context_read_back : forall it c, reachable it -> exists it', set_context it c = Ok it' /\
  get_context it' = Ok c /\ get_state it' = get_state it /\ get_out it' = get_out it /\ cur it' = cur it /\
  (forall i, i <> cur it -> cells it' i = cells it i).
Proof. exact set_context_spec. Qed.
Print Assumptions C47_context_read_back.

(** C09 is false of the code: after having collected all dependencies, queueing another one on the still
    unfinished task fails an assertion (src/iterator.c:263, [last_dep] is never reset by the dequeue). *)
Theorem C09_queue_more_later_refuted : exists it os n,
  run_calls (new_iterator 1) [CAppend 2 true; CNext; CDone 5; CNext; CDequeue] = Ok (it, os) /\
  cells it (cur it) = Some n /\ state n <> -2 /\ state n <> -3 /\
  append_dep it 3 true = Abort.
Proof.
  eexists. eexists. eexists. split; [vm_compute; reflexivity|]. split; [vm_compute; reflexivity|].
  split; [vm_compute; congruence|]. split; [vm_compute; congruence|]. vm_compute. reflexivity.
Qed.
Print Assumptions C09_queue_more_later_refuted.

(** C09, the part that holds: queueing works while the queue is not empty or if nothing has ever been
    queued on the task ([last_dep] still NULL). Missing: after the queue has been drained. *)
Theorem C09_queue_more_partial : forall it inp n l, reachable it -> cells it (cur it) = Some n ->
  state n <> -2 -> state n <> -3 -> queue (cells it) (cur it) l -> (l <> [] \/ last_dep n = None) ->
  exists it', append_dep it inp true = Ok (it', 0).
Proof. exact append_again. Qed.
Print Assumptions C09_queue_more_partial.

(** * Concrete cases *)

(** A client with three tasks, a failing one, seen from outside. *)
Example ex_calls : exists it, run_calls (new_iterator 1)
   [CNext; CAppend 2 true; CAppend 3 true; CQueueSize; CNext; CDone 20; CNext; CFail; CNext;
    CGetDepOut 1; CDequeue; CDequeue; CDequeue; CDone 10; CGetOut; CNext] =
  Ok (it, [ONext (NTask 1); OCode 0; OCode 0; OSize (Some 2); ONext (NTask 2); OBool true; ONext (NTask 3); OBool true;
           ONext (NTask 1); ODep (Some (Some (0, 3, true))); ODeq (Some (20, 2, false)); ODeq (Some (0, 3, true));
           ODeq None; OBool true; OOut (10, 1, false); ONext NEnd]).
Proof. eexists. vm_compute. reflexivity. Qed.

(** Hence a reachable state, with a queue of two, one finished. *)
Example ex_reachable : exists it, reachable it /\ cur it = 0%nat /\ queue (cells it) 0 [1%nat; 2%nat] /\
  finished (cells it) 1 /\ unfinished (cells it) 0.
Proof.
  eexists. split.
  - exists 1, [CNext; CAppend 2 true; CAppend 3 true; CNext; CDone 20; CNext; CFail; CNext]. eexists. vm_compute. reflexivity.
  - split; [reflexivity|]. split; [|split].
    + eexists. split; [reflexivity|]. cbn. split; [reflexivity|]. eexists. split; [reflexivity|]. cbn. split; [reflexivity|].
      eexists. split; reflexivity.
    + eexists. split; [reflexivity|]. cbn. auto.
    + eexists. split; [reflexivity|]. cbn. split; discriminate.
Qed.

(** A tree of tasks, evaluated by the driver: 1 has children 2 and 3, 3 has child 4; each task's result is
    10 * task + sum of the children's results, task 4 fails. *)
Definition ex_kids (p : Z) : list Z := if p =? 1 then [2; 3] else if p =? 3 then [4] else [].
Definition ex_f (p : Z) (l : list (Z * Z * bool)) : option Z :=
  if p =? 4 then None else Some (fold_left (fun a x => a + fst (fst x)) l (10 * p)).
Definition ex_tree : tree := T 1 [T 2 []; T 3 [T 4 []]].
Example ex_expands : expands ex_kids ex_tree.
Proof. repeat (constructor; try discriminate; try reflexivity). Qed.
Example ex_drive : exists it, drive ex_kids ex_f 9 (new_iterator 1) =
   Ok (Some (it, [Enter 1; Enter 2; Leave 2; Enter 3; Enter 4; Leave 4; Leave 3; Leave 1])) /\ get_out it = Ok (60, 1, false).
Proof. eexists. vm_compute. split; reflexivity. Qed.

(** Two levels deep. *)
Example ex_level : exists it os, run_calls (new_iterator 1) [CAppend 2 true; CNext; CAppend 3 true; CNext] = Ok (it, os) /\
  level it = Ok (Some 2) /\ get_in it 0 = Ok (Some 3) /\ get_in it 1 = Ok (Some 2) /\ get_in it 2 = Ok (Some 1) /\ get_in it 3 = Ok (Some 0).
Proof. eexists. eexists. split; [vm_compute; reflexivity|]. vm_compute. auto. Qed.

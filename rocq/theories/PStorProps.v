(** Property theorems about parameter storages: sequences of parameters (C35), deep copies (C36), memory (C37). *)
From Coq Require Import ZArith List Bool.
From Verif Require Import Base EntryModel PStorModel PStorSpec PStorProof.
Import ListNotations.
Open Scope Z_scope.

(** C35. While no allocation fails, any program that uses the API as documented, on any number of storages and at any
    nesting depth, runs to its end and its storages are the sequences the specification says. *)
Theorem C35_history : forall va ext p st t, world ext st t -> no_oom (st_heap st) -> legal va ext false p (seqs t) ->
  exists rs st' t', run va st p = Ret (rs, st') /\ world ext st' t' /\ asteps va ext false p (seqs t) rs (seqs t').
Proof. exact (fun va ext p st t W N L => match run_ok va ext false p st t W (fun _ => N) L with or_introl X => match Bool.diff_false_true (proj2 X) with end | or_intror X => X end). Qed.
Print Assumptions C35_history.

(** C35. Reading: the number of parameters; the i-th one has the entry and the bytes of the i-th parameter of the
    sequence; numbers outside of the range give NULL. *)
Theorem C35_read : forall ext st t k path l, world ext st t -> seq_at (seqs t) k path = Some l ->
  exists d, storage_at st k path = Ret d /\ size (st_heap st) d = Ret (Z.of_nat (length l)) /\
  forall id, exists v, new_param_value (h_next (st_heap st)) (st_heap st) d id = Ret v /\
    match (if id <? 0 then None else nth_error l (Z.to_nat id)) with
    | None => v = None
    | Some (SNull _) => v = None
    | Some (SBuf m b) => exists e a, v = Some (e, a) /\ entry_src (st_heap st) e m /\ get_bytes (st_heap st) a = Ret b
    | Some (SStor m li) => exists e a, v = Some (e, a) /\ entry_src (st_heap st) e m /\ storage_at st k (path ++ [Z.to_nat id]) = Ret a /\ seq_at (seqs t) k (path ++ [Z.to_nat id]) = Some li
    end.
Proof. exact read_ok. Qed.
Print Assumptions C35_read.

(** C35. With failing allocations: a failed operation reports an error and changes nothing (a failed copy keeps the
    parameters copied so far), except that a nested storage can be missing though success was reported (see
    C35_missing_storage_refuted). *)
Theorem C35_history_failures_partial : forall va ext p st t, world ext st t -> legal va ext true p (seqs t) ->
  run va st p = Abort \/ exists rs st' t', run va st p = Ret (rs, st') /\ world ext st' t' /\ asteps va ext true p (seqs t) rs (seqs t').
Proof. exact (fun va ext p st t W L => match run_ok va ext true p st t W (fun X => match Bool.diff_true_false X with end) L with or_introl X => or_introl (proj1 X) | or_intror X => or_intror X end). Qed.
Print Assumptions C35_history_failures_partial.

(** C36. A copy appends the same parameters at every depth; all other storages, the source among them, keep theirs; and
    (by [world]) no block belongs to two of them. *)
Theorem C36_copy : forall va ext st t k path k' path' ls ld, world ext st t -> no_oom (st_heap st) -> k <> k' ->
  seq_at (seqs t) k path = Some ls -> Forall (swhole va) ls -> seq_at (seqs t) k' path' = Some ld ->
  exists st' t', run_op va st (OCopy k path k' path') = Ret (0, st') /\ world ext st' t' /\ seqs t' = put_at (seqs t) k' path' (ld ++ ls) /\
    seq_at (seqs t') k' path' = Some (ld ++ ls) /\ forall j, j <> k' -> nth_error (seqs t') j = nth_error (seqs t) j.
Proof. exact copy_ok. Qed.
Print Assumptions C36_copy.

(** C36. A failed copy leaves all other storages alone and the destination usable; it is only complete when it says so. *)
Theorem C36_copy_failures_partial : forall va ext st t k path k' path' ls ld, world ext st t -> k <> k' ->
  seq_at (seqs t) k path = Some ls -> Forall (swhole va) ls -> seq_at (seqs t) k' path' = Some ld ->
  run_op va st (OCopy k path k' path') = Abort \/
  exists z st' t', run_op va st (OCopy k path k' path') = Ret (z, st') /\ world ext st' t' /\
    (forall j, j <> k' -> nth_error (seqs t') j = nth_error (seqs t) j) /\ exists part, seq_at (seqs t') k' path' = Some (ld ++ part) /\ (z = 0 -> part = ls).
Proof. exact copy_fails. Qed.
Print Assumptions C36_copy_failures_partial.

(** C36. A storage with parameters must not be copied to itself: the call does not return, whatever number of steps it gets. *)
Theorem C36_self_copy_hangs : forall va ext st t k l n, world ext st t -> no_oom (st_heap st) -> seq_at (seqs t) k [] = Some l -> l <> [] ->
  Forall (fun x => match x with SBuf _ _ => True | _ => False end) l -> exists s, storage_at st k [] = Ret s /\ copy va n (st_heap st) s s = OutOfFuel.
Proof. exact self_copy_hangs. Qed.
Print Assumptions C36_self_copy_hangs.

(** C37. At every moment of every program, with any allocations failing, the allocated blocks are exactly those of the
    storages that exist (and of the caller); no freed block is used or freed again (that would be [Ub]). *)
Theorem C37_blocks : forall va ext p st t, world ext st t -> legal va ext true p (seqs t) ->
  run va st p = Abort \/ exists rs st' t', run va st p = Ret (rs, st') /\ heap_ok (st_heap st') /\ map fst t' = st_roots st' /\ NoDup (tree_blocks t') /\
    (forall s l, In (s, l) t' -> stores (st_heap st') s l) /\ forall q, h_blk (st_heap st') q <> None -> In q (tree_blocks t') \/ In q (map fst ext).
Proof.
  exact (fun va ext p st t W L => match C35_history_failures_partial va ext p st t W L with or_introl X => or_introl X
    | or_intror (ex_intro _ rs (ex_intro _ st' (ex_intro _ t' (conj R (conj (conj HO (conj RT (conj ST (conj _ (conj ND (conj _ LV)))))) _))))) =>
        or_intror (ex_intro _ rs (ex_intro _ st' (ex_intro _ t' (conj R (conj HO (conj (eq_sym RT) (conj ND (conj ST LV)))))))) end).
Qed.
Print Assumptions C37_blocks.

(** C37. Deleting the storages that are left releases everything. *)
Theorem C37_delete_all : forall va ext t st, world ext st t ->
  exists st', run va st (delete_all (length t)) = Ret (repeat 0 (length t), st') /\ st_roots st' = [] /\ forall q, h_blk (st_heap st') q <> None <-> In q (map fst ext).
Proof. exact delete_all_ok. Qed.
Print Assumptions C37_delete_all.

(** Examples. One entry made at run time by the caller at address 1. *)
Definition ex_entry : entry := Build_entry None false (IPointer None).
Definition ex_va (r : ref) : bool := Nat.eqb r 7.
Definition ex_heap (ok : nat -> bool) : heap := Build_heap 2 ok (fun q => if Nat.eqb q 1 then Some (BEntry ex_entry) else None).
Definition ex_state (ok : nat -> bool) : state := Build_state (ex_heap ok) [].
Definition ex_ext : list (ptr * entry) := [(1%nat, ex_entry)].
Example ex_world : forall ok, world ex_ext (ex_state ok) [].
Proof.
  intros ok. split. { split; [cbn; auto|]. split; [reflexivity|]. intros q Q. cbn in *. destruct q as [|[|q]]; auto. inversion Q. inversion H0. }
  split; [reflexivity|]. split; [intros s l []|]. split. { intros q x [E|[]]. injection E as <- <-. reflexivity. }
  split; [constructor|]. split; [intros q I J; exact J|]. intros q I. right. cbn in I |- *. destruct q as [|[|q]]; cbn in I; auto.
Qed.
Definition ops (l : list op) : prog := fold_right (fun o p => Then o (fun _ => p)) Done l.
Definition ex_prog : prog := ops
  [ONew; OAppend 0 [] (EStatic 3%nat) 4; OAppendStorage 0 [] 7%nat; OAppend 0 [1%nat] (EBlock 1%nat) 2; OWrite 0 [1%nat] 0 [9; 8]; OAppend 0 [] (EStatic 4%nat) 0;
   ONew; OCopy 0 [] 1 []; OWrite 1 [1%nat] 0 [5; 5]; OCleanup 0 [1%nat]].
Example ex_legal : legal ex_va ex_ext false ex_prog [].
Proof. apply legalb_ok. repeat constructor. intros []. reflexivity. Qed.
Definition all_ok : nat -> bool := fun _ => true.
(** one storage is [3: 4 bytes of 0; 7: empty], its copy [3: 4 bytes of 0; 7: [entry of the caller: 5 5]] *)
Example ex_history : exists st', run ex_va (ex_state all_ok) ex_prog = Ret ([0; 0; 0; 0; 0; - EINVAL; 0; 0; 0; 0], st') /\
  asteps ex_va ex_ext false ex_prog [] [0; 0; 0; 0; 0; - EINVAL; 0; 0; 0; 0]
    [[SBuf (inl 3%nat) [0; 0; 0; 0]; SStor (inl 7%nat) []]; [SBuf (inl 3%nat) [0; 0; 0; 0]; SStor (inl 7%nat) [SBuf (inr ex_entry) [5; 5]]]].
Proof. eexists. split; [vm_compute; reflexivity|]. repeat (eapply as_then; [apply spec_step_sound; reflexivity|]). apply as_done. Qed.
(** a world that meets the hypotheses of C35_read, C36_copy, C36_copy_failures_partial and C37_delete_all *)
Definition ex_build : prog := ops [ONew; OAppend 0 [] (EStatic 3%nat) 4; OAppendStorage 0 [] 7%nat; OAppend 0 [1%nat] (EBlock 1%nat) 2; ONew; OAppend 1 [] (EStatic 3%nat) 1].
Example ex_built : exists rs st t, run ex_va (ex_state all_ok) ex_build = Ret (rs, st) /\ world ex_ext st t /\ no_oom (st_heap st) /\
  seq_at (seqs t) 0 [1%nat] = Some [SBuf (inr ex_entry) [0; 0]] /\ seq_at (seqs t) 1 [] = Some [SBuf (inl 3%nat) [0]] /\
  exists ls, seq_at (seqs t) 0 [] = Some ls /\ length ls = 2%nat /\ Forall (swhole ex_va) ls.
Proof.
  assert (ND : NoDup (map fst ex_ext)) by (repeat constructor; intros []). destruct (spec_run_ok ex_va ex_ext ex_build (ex_state all_ok) [] _ _ (ex_world all_ok) (fun n _ => eq_refl) ND eq_refl) as (st & t & R & W & E & N).
  do 3 eexists. split; [exact R|]. split; [exact W|]. split; [exact N|]. rewrite E. split; [reflexivity|]. split; [reflexivity|]. eexists. split; [reflexivity|]. split; [reflexivity|]. repeat constructor. exists 7%nat. auto.
Qed.
(** a program that copes with failures: legal also when allocations may fail *)
Definition ex_careful : prog := Then ONew (fun r => if r =? 0 then Then (OAppend 0 [] (EBlock 1%nat) 4) (fun r2 => Then (ODelete 0) (fun _ => Done)) else Done).
Example ex_careful_legal : legal ex_va ex_ext true ex_careful [].
Proof.
  cbn [ex_careful legal]. split. exists 0. eexists. apply a_new. intros z w A. inversion A; subst; clear A. 2:{ destruct (Z.eqb_spec z 0); [contradiction|]. exact I. }
  cbn [Z.eqb legal]. split. { do 2 eexists. apply (a_append _ _ _ _ _ _ _ (inr ex_entry) _ []). reflexivity. left. reflexivity. reflexivity. }
  intros z w A. split. { do 2 eexists. apply a_delete. inversion A; subst; cbn; auto. } intros. exact I.
Qed.
(** the third allocation fails *)
Example ex_careful_runs : exists st', run ex_va (ex_state (fun n => negb (Nat.eqb n 4))) ex_careful = Ret ([0; - EFAULT; 0], st') /\ h_blk (st_heap st') 2%nat = None /\ h_blk (st_heap st') 3%nat = None.
Proof. eexists. split; [vm_compute; reflexivity|]. split; reflexivity. Qed.

(** C35. The full claim is false when the inner storage cannot be allocated: the call reports success (line 153 tests the
    wrong pointer), the parameter is counted, and reading it gives NULL. *)
Theorem C35_missing_storage_refuted : exists ok st1 st2 d, run ex_va (ex_state ok) (ops [ONew]) = Ret ([0], st1) /\
  run_op ex_va st1 (OAppendStorage 0 [] 7%nat) = Ret (0, st2) /\ storage_at st2 0 [] = Ret d /\ size (st_heap st2) d = Ret 1 /\
  new_param_value 9 (st_heap st2) d 0 = Ret None.
Proof. exists (fun n => negb (Nat.eqb n 3)). do 3 eexists. split; [vm_compute; reflexivity|]. split; [vm_compute; reflexivity|]. split; [vm_compute; reflexivity|]. split; vm_compute; reflexivity. Qed.
Print Assumptions C35_missing_storage_refuted.

(** C36. "A failed copy returns an error" is false: when the inner storage of the destination cannot be allocated, an
    assertion stops the program. *)
Theorem C36_abort_refuted : exists ok st, run ex_va (ex_state ok) (ops [ONew; OAppendStorage 0 [] 7%nat; ONew]) = Ret ([0; 0; 0], st) /\
  run_op ex_va st (OCopy 0 [] 1 []) = Abort.
Proof. exists (fun n => negb (Nat.eqb n 6)). eexists. split; [vm_compute; reflexivity|]. vm_compute. reflexivity. Qed.
Print Assumptions C36_abort_refuted.

(** C36. Copying a storage that lost a nested storage reads through NULL. *)
Theorem C36_missing_storage_refuted : exists ok st, run ex_va (ex_state ok) (ops [ONew; OAppendStorage 0 [] 7%nat; ONew]) = Ret ([0; 0; 0], st) /\
  run_op ex_va st (OCopy 0 [] 1 []) = Ub.
Proof. exists (fun n => negb (Nat.eqb n 3)). eexists. split; [vm_compute; reflexivity|]. vm_compute. reflexivity. Qed.
Print Assumptions C36_missing_storage_refuted.

(** C37. The model detects a block that is released twice: no release of a released block returns. *)
Theorem C37_double_free_detected : forall h p h', p <> null -> free h p = Ret h' -> free h' p = Ub.
Proof.
  intros h p h' N F. destruct p as [|p]; [exfalso; apply N; reflexivity|]. cbn in F. destruct (h_blk h (S p)) eqn:B; [|discriminate].
  assert (E : h' = Build_heap (h_next h) (h_ok h) (upd (h_blk h) (S p) None)) by congruence. subst h'. cbn. unfold upd. rewrite PeanoNat.Nat.eqb_refl. reflexivity.
Qed.
Print Assumptions C37_double_free_detected.

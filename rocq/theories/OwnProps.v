(** C64: a memory map owns what is allocated for it; deletion releases all of it, and a construction that fails leaves nothing behind. *)
From Coq Require Import ZArith List Bool Lia Permutation.
From Verif Require Import Base OwnModel OwnSpec OwnProof OwnProof2 OwnProof3 OwnProof4.
Import ListNotations.
Open Scope Z_scope.

(** C64: for all data (any plan), any heap and any failures of allocations other than those of the map, of the hash map, of the entry of a pointer and of
    the iterator. The third hypothesis: tree mode, or no address is pointed to twice, or all data is accepted and there is memory (C64_twice_refuted
    shows why). *)
Theorem C64_maps_partial : forall dag p h, sane h -> mild (h_ok h) -> dag = false \/ NoDup (keys p) \/ (accepted p /\ plenty (h_ok h)) ->
  exists m h', new_map dag p h = Ret (m, h') /\
    (m = 0%nat -> grown h h' []) /\
    (m <> 0%nat -> exists L, accepted p /\ grown h h' L /\ length L = (1 + Nat.b2n dag + weight p)%nat /\
       forall h2, sane h2 -> (forall q, In q L -> h_blk h2 q = h_blk h' q) -> (forall n, h_ok h2 KIter n = true) ->
         exists h3, map_delete h2 m = Ret h3 /\ released h2 h3 L) /\
    (accepted p -> plenty (h_ok h) -> m <> 0%nat).
Proof. exact new_map_ok. Qed.
Print Assumptions C64_maps_partial.

(** [life]: the map (0: none), the blocks in use after its construction and after its deletion.
    Examples: a structure of a number, of a pointer to a structure of two numbers and of a second pointer to the same structure *)
Definition node0 : plan := Parts 8 false [Leaf 4; Leaf 4] false.
Definition data0 : plan := Parts 24 false [Leaf 4; Pointer 8 true 4096 node0; Pointer 8 true 4096 node0] false.
Definition heap0 (ok : kind -> nat -> bool) : heap := Build_heap 1 ok (fun _ => None).
Definition left (h : heap) : nat := length (filter (fun q => match h_blk h q with Some _ => true | None => false end) (seq 0 (h_next h))).
Definition but (k : kind) (i : nat) (k' : kind) (j : nat) : bool :=
  negb (Nat.eqb i j && match k, k' with KVal, KVal | KEntry, KEntry | KPtrEntry, KPtrEntry | KMap, KMap | KHash, KHash | KNode, KNode | KKeys, KKeys | KIter, KIter => true | _, _ => false end).
Lemma heap0_sane : forall ok, sane (heap0 ok).
Proof. intros ok. split; [cbn; lia|]. split; reflexivity. Qed.
Definition life (dag : bool) (p : plan) (ok : kind -> nat -> bool) : res (ptr * nat * nat) :=
  bind (new_map dag p (heap0 ok)) (fun '(m, h) => if Nat.eqb m 0 then Ret (m, left h, left h) else bind (map_delete h m) (fun h' => Ret (m, left h, left h'))).
(* hypotheses met: accepted data, memory *)
Example C64_ex_hyp : accepted data0 /\ plenty (fun _ _ => true) /\ mild (fun _ _ => true).
Proof. split; [repeat constructor|]. split; [intros k n; reflexivity|intros k n _; reflexivity]. Qed.
Example C64_ex_dag : exists m, life true data0 (fun _ _ => true) = Ret (m, 27%nat, 0%nat) /\ m <> 0%nat /\ (1 + 1 + weight data0 = 27)%nat.
Proof. eexists. vm_compute. split; [reflexivity|]. split; [discriminate|reflexivity]. Qed.
Example C64_ex_tree : exists m, life false data0 (fun _ _ => true) = Ret (m, 26%nat, 0%nat) /\ m <> 0%nat.
Proof. eexists. vm_compute. split; [reflexivity|discriminate]. Qed.
(* tree mode: the value of the second number of the second structure cannot be allocated, nothing is left *)
Definition scarce : kind -> nat -> bool := fun k i => match k with KVal => Nat.ltb i 24 | _ => true end.
Example C64_ex_scarce : mild scarce /\ life false data0 scarce = Ret (0%nat, 0%nat, 0%nat) /\ (exists m, life false (Leaf 4) scarce = Ret (m, 3%nat, 0%nat) /\ m <> 0%nat).
Proof. split; [intros k n [<-|[<-|[<-|[<-|[]]]]]; reflexivity|]. split; [vm_compute; reflexivity|]. eexists. vm_compute. split; [reflexivity|discriminate]. Qed.
(* distinct addresses and a part that is refused, in DAG mode *)
Definition data1 : plan := Parts 24 false [Pointer 8 false 1 (Pointer 8 false 2 (Leaf 4)); Refused; Pointer 8 false 3 (Leaf 4)] false.
Example C64_ex_refused : NoDup (keys data1) /\ life true data1 (fun _ _ => true) = Ret (0%nat, 0%nat, 0%nat).
Proof. split; [repeat constructor; cbn; intuition discriminate|vm_compute; reflexivity]. Qed.

(** What is outside the hypotheses. *)
(* without memory for the map the copy of the value is lost *)
Theorem C64_map_refuted : exists ok, (forall k i, k <> KMap -> ok k i = true) /\ life true data0 ok = Ret (0%nat, 1%nat, 1%nat).
Proof. exists (fun k _ => match k with KMap => false | _ => true end). split; [intros k i N; destruct k; congruence|vm_compute; reflexivity]. Qed.
(* nor is it released without memory for the hash map *)
Theorem C64_hash_refuted : exists ok, (forall k i, k <> KHash -> ok k i = true) /\ life true data0 ok = Ret (0%nat, 1%nat, 1%nat).
Proof. exists (fun k _ => match k with KHash => false | _ => true end). split; [intros k i N; destruct k; congruence|vm_compute; reflexivity]. Qed.
(* without memory for the entry of a pointer the process is aborted by an assertion *)
Theorem C64_pointer_refuted : exists ok, (forall k i, k <> KPtrEntry -> ok k i = true) /\ new_map false data0 (heap0 ok) = Abort.
Proof. exists (fun k _ => match k with KPtrEntry => false | _ => true end). split; [intros k i N; destruct k; congruence|reflexivity]. Qed.
(* without memory for the iterator NULL is accessed *)
Theorem C64_iterator_refuted : exists ok, (forall k i, k <> KIter -> ok k i = true) /\ new_map false data0 (heap0 ok) = Ub.
Proof. exists (fun k _ => match k with KIter => false | _ => true end). split; [intros k i N; destruct k; congruence|reflexivity]. Qed.
(* without memory for a node of the iterator a map is made that lacks a member, and the value of the member is lost *)
Theorem C64_node_refuted : exists ok m, (forall k i, k <> KIter -> ok k i = true) /\ life false (Parts 8 false [Leaf 4; Leaf 4] false) ok = Ret (m, 7%nat, 1%nat) /\ m <> 0%nat.
Proof. exists (but KIter 5). eexists. split; [intros k i N; unfold but; destruct k; try congruence; rewrite andb_false_r; reflexivity|]. split; [vm_compute; reflexivity|discriminate]. Qed.
(* in DAG mode, with all the memory: two pointers to one object; the structure around the first is rejected for another member, its entry is released but
   stays in the hash map, the second pointer reads it *)
Theorem C64_twice_refuted : exists p, new_map true p (heap0 (fun _ _ => true)) = Ub /\ life false p (fun _ _ => true) = Ret (0%nat, 0%nat, 0%nat).
Proof. exists (Parts 24 false [Parts 16 false [Pointer 8 false 4096 (Leaf 4); Refused] false; Pointer 8 false 4096 (Leaf 4)] false). split; vm_compute; reflexivity. Qed.

(** Handler contexts (C63). *)
From Coq Require Import ZArith String List Bool Lia.
From Verif Require Import Base EntryModel HandlerModel CtxModel CtxSpec CtxProof2.
Import ListNotations.
Open Scope Z_scope.

(** Whatever a client does with its own strings and with contexts, and whatever allocations fail, no call goes wrong, each context reads as it was asked for until it is
    deleted (a call that found no memory gave NULL), and the blocks in use are exactly those of the strings and contexts that exist. *)
Theorem C63_contexts_partial : forall ok l, Forall fits l -> exists st w, run (start ok) l = Ret st /\ history (exists n, ok n = false) (Build_view [] []) l w /\
  Forall2 (reads (st_heap st)) (st_ctx st) (v_ctx w) /\
  Forall2 (fun p o => read_name (st_heap st) (at_ptr p) = Ret o) (st_str st) (v_str w) /\
  exists L, NoDup L /\ (forall q, h_blk (st_heap st) q <> None <-> In q L) /\ length L = blocks_of w.
Proof. exact contexts. Qed.
Print Assumptions C63_contexts_partial.

(** A client that deleted its contexts and freed its strings leaves no memory behind, not even when some constructors failed half way. *)
Theorem C63_nothing_left : forall ok l st, Forall fits l -> run (start ok) l = Ret st ->
  Forall (fun p => p = 0%nat) (st_str st) -> Forall (fun p => p = 0%nat) (st_ctx st) -> forall q, h_blk (st_heap st) q = None.
Proof. exact nothing_left. Qed.
Print Assumptions C63_nothing_left.

Definition cases0 : list ucase := [Build_ucase 1 (Some "one"%string) 7; Build_ucase 2 None 8].
Definition ops0 : list op := [OStr "sel"; ONewUnion (AOwn 0) cases0; ONewCast (ALit "n") (AOwn 0) [Build_pcase 3 (Some 5%nat)]; OSetStr 0 "other"; OFreeStr 0; ONewCount ANull].
Definition ctx_of (st : state) (i : nat) : ptr := place (st_ctx st) i.
(** memory for everything but the ninth block *)
Example C63_example : Forall fits ops0 /\
  match run (start (fun n => negb (Nat.eqb n 9))) ops0 with
  | Ret st => Some (read_union (st_heap st) (ctx_of st 0), read_ptr_cast (st_heap st) (ctx_of st 1), ctx_of st 2)
  | _ => None
  end = Some (Ret (SelectByField (Some "sel"%string) cases0), Ret (Build_pctx (Some "n"%string) (Some "sel"%string) [Build_pcase 3 (Some 5%nat)]), 0%nat).
Proof. split; [repeat constructor; cbn; lia|]. vm_compute. reflexivity. Qed.
(** the sixth block, a name of the pointer cast, is not there *)
Example C63_left_example : 
  match run (start (fun n => negb (Nat.eqb n 6))) ops0, run (start (fun n => negb (Nat.eqb n 6))) (ops0 ++ [ODelete 0; ODelete 1; ODelete 2]) with
  | Ret st, Ret st' => Some (st_ctx st, st_str st', st_ctx st')
  | _, _ => None
  end = Some ([2; 0; 7]%nat, [0]%nat, [0; 0; 0]%nat).
Proof. vm_compute. reflexivity. Qed.

(** The names of the cases of a union are not copied (memcpy of the array, src/entry_tag.c:553): when such a name is a string the client frees, the context is read
    through a dangling pointer; when the client changes the string, the context changes. *)
Definition dyn_case (p : ptr) : uc := Build_uc 1 (NHeap p) 7.
Definition heap_one : heap := snd (alloc (st_heap (start (fun _ => true))) (BStr "one")).
Theorem C63_case_names_refuted : exists p h1 h2,
  new_union_select heap_one (NLit "sel") [dyn_case 1%nat] 24 = Ret (p, h1) /\
  read_union h1 p = Ret (SelectByField (Some "sel"%string) [Build_ucase 1 (Some "one"%string) 7]) /\
  free h1 1%nat = Ret h2 /\ read_union h2 p = Ub /\
  read_union (write h1 1%nat (BStr "two")) p = Ret (SelectByField (Some "sel"%string) [Build_ucase 1 (Some "two"%string) 7]).
Proof. do 3 eexists. split; [reflexivity|]. split; [reflexivity|]. split; [reflexivity|]. split; reflexivity. Qed.
Print Assumptions C63_case_names_refuted.

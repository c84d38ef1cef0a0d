(** Executable model of the contexts of the built-in handlers: their constructors and destructors, src/entry_tag.c:350-376,
    470-488, 515-572, 657-724, on a heap of blocks.

    Simplifications (whole file):
    - a pointer into the heap is 0 (NULL) or the number of the allocation that made the block; freed numbers are not reused;
    - blocks have typed contents; an access to a block that is not allocated (or has another type) is [Ub], so is freeing it;
    - a C string is the Coq string of its characters; strings of the program text (literals) are no blocks;
    - entries (p_coontainer_entry, p_ptr_entry) are entries of the database. *)
From Coq Require Import ZArith String List Bool.
From Verif Require Import Base EntryModel HandlerModel.
Import ListNotations.
Open Scope Z_scope.

Definition ptr := nat.
(** metac_name_t, a char pointer: NULL, a literal, or a string on the heap *)
Inductive nptr := NNull | NLit (s : string) | NHeap (p : ptr).
(** include/metac/reflect/entry_tag.h:370-374 struct metac_union_member_select_by_case, 24 bytes *)
Record uc := { uc_val : Z; uc_name : nptr; uc_id : Z }.
(** Blocks: strings, arrays of cases, and the contexts: entry_tag.h struct metac_count_by_context, ..._container_of_context,
    376-387 ..._union_member_select_by_context, 422-427 ..._ptr_cast_context. *)
Inductive block :=
| BStr (s : string)
| BUCases (l : list uc)
| BPCases (l : list pcase)
| BCount (name : ptr)
| BCont (offset : Z) (e : option ref)
| BUnion (constant : bool) (name : ptr) (count : Z) (cases : ptr) (id : Z)
| BCast (cname sname : ptr) (count : Z) (cases : ptr).
(** [h_ok n]: the n-th allocation succeeds *)
Record heap := { h_next : nat; h_ok : nat -> bool; h_blk : ptr -> option block }.

Definition upd (f : ptr -> option block) (p : ptr) (b : option block) : ptr -> option block := fun q => if Nat.eqb q p then b else f q.
(** malloc, calloc *)
Definition alloc (h : heap) (b : block) : ptr * heap :=
  if h_ok h (h_next h) then (h_next h, Build_heap (S (h_next h)) (h_ok h) (upd (h_blk h) (h_next h) (Some b)))
  else (0%nat, Build_heap (S (h_next h)) (h_ok h) (h_blk h)).
(** free *)
Definition free (h : heap) (p : ptr) : res heap :=
  match p with
  | O => Ret h
  | _ => match h_blk h p with None => Ub | Some _ => Ret (Build_heap (h_next h) (h_ok h) (upd (h_blk h) p None)) end
  end.
(** assignments to fields of a block *)
Definition write (h : heap) (p : ptr) (b : block) : heap := Build_heap (h_next h) (h_ok h) (upd (h_blk h) p (Some b)).
Local Open Scope res_scope.
(** the characters behind a pointer that is not NULL *)
Definition chars (h : heap) (n : nptr) : res string :=
  match n with
  | NNull => Ub
  | NLit s => Ret s
  | NHeap p => match h_blk h p with Some (BStr s) => Ret s | _ => Ub end
  end.
(** strdup *)
Definition strdup (h : heap) (n : nptr) : res (ptr * heap) := do s <- chars h n; Ret (alloc h (BStr s)).
(** if (p != NULL) free(p) *)
Definition free_name (h : heap) (p : ptr) : res heap := if Nat.eqb p 0 then Ret h else free h p.

(** src/entry_tag.c:350-362 metac_new_count_by_context; 0: NULL *)
Definition new_count_by (h : heap) (name : nptr) : res (ptr * heap) :=
  let '(p, h) := alloc h (BCount 0%nat) in
  if Nat.eqb p 0 then Ret (0%nat, h)
  else match name with
       | NNull => Ret (p, h)
       | _ => do '(q, h) <- strdup h name;
              let h := write h p (BCount q) in
              if Nat.eqb q 0 then do h <- free h p; Ret (0%nat, h) else Ret (p, h)
       end.
(** src/entry_tag.c:364-376 metac_count_by_context_delete *)
Definition count_by_delete (h : heap) (p : ptr) : res heap :=
  if Nat.eqb p 0 then Ret h
  else match h_blk h p with
       | Some (BCount q) => do h <- free_name h q; free h p
       | _ => Ub
       end.

(** src/entry_tag.c:469-481 metac_new_container_of_context *)
Definition new_container_of (h : heap) (offset : Z) (e : option ref) : ptr * heap := alloc h (BCont offset e).
(** src/entry_tag.c:482-488 metac_container_of_context_delete *)
Definition container_of_delete (h : heap) (p : ptr) : res heap :=
  if Nat.eqb p 0 then Ret h else match h_blk h p with Some (BCont _ _) => free h p | _ => Ub end.

(** src/entry_tag.c:515-525 metac_new_union_member_permanent_selection *)
Definition new_union_permanent (h : heap) (id : Z) : ptr * heap := alloc h (BUnion true 0%nat 0 0%nat id).
(** calloc(count, size) with int [count], converted to size_t: NULL when the product does not fit; then memcpy of [bytes] bytes, which
    must fit into what was allocated and into the source [l] of elements of size [esz] *)
Definition array_copy {A} (h : heap) (blk : list A -> block) (l : list A) (count size esz bytes : Z) : res (ptr * heap) :=
  let total := uwrap 64 count * size in
  let '(p, h) := if 2 ^ 64 <=? total then (0%nat, h) else alloc h (blk []) in
  if Nat.eqb p 0 then Ret (0%nat, h)
  else if (total <? bytes) || (Z.of_nat (length l) * esz <? bytes) then Ub
  else Ret (p, write h p (blk (firstn (Z.to_nat (bytes / esz)) l))).
(** src/entry_tag.c:527-556 metac_new_union_member_select_by_context; [l]: the array p_cases points to. calloc is called with the
    size of the context (40), memcpy needs that of a case (24). The context's fields are written when everything is known; on
    failure it has been freed. *)
Definition new_union_select (h : heap) (name : nptr) (l : list uc) (case_sz : Z) : res (ptr * heap) :=
  let '(p, h) := alloc h (BUnion false 0%nat 0 0%nat 0) in
  if Nat.eqb p 0 then Ret (0%nat, h)
  else
    do '(q, h) <- match name with NNull => Ret (0%nat, h) | _ => strdup h name end;
    if match name with NNull => false | _ => Nat.eqb q 0 end then do h <- free h p; Ret (0%nat, h)
    else if case_sz <=? 0 then Ret (p, write h p (BUnion false q 0 0%nat 0))
    else if negb (case_sz mod 24 =? 0) then Abort
    else
      let count := swrap 32 (case_sz / 24) in
      do '(c, h) <- array_copy h BUCases l count 40 24 case_sz;
      if Nat.eqb c 0 then do h <- free_name h q; do h <- free h p; Ret (0%nat, h)
      else Ret (p, write h p (BUnion false q count c 0)).
(** src/entry_tag.c:558-572 metac_union_member_select_by_context_delete *)
Definition union_delete (h : heap) (p : ptr) : res heap :=
  if Nat.eqb p 0 then Ret h
  else match h_blk h p with
       | Some (BUnion _ q _ c _) => do h <- free_name h q; do h <- free_name h c; free h p
       | _ => Ub
       end.

(** src/entry_tag.c:657-706 metac_new_ptr_cast_context *)
Definition new_ptr_cast (h : heap) (cname sname : nptr) (l : list pcase) (case_sz : Z) : res (ptr * heap) :=
  match sname with
  | NNull => Ret (0%nat, h)
  | _ =>
    let '(p, h) := alloc h (BCast 0%nat 0%nat 0 0%nat) in
    if Nat.eqb p 0 then Ret (0%nat, h)
    else
      do '(q, h) <- match cname with NNull => Ret (0%nat, h) | _ => strdup h cname end;
      if match cname with NNull => false | _ => Nat.eqb q 0 end then do h <- free h p; Ret (0%nat, h)
      else
        do '(r, h) <- strdup h sname;
        if Nat.eqb r 0 then do h <- free_name h q; do h <- free h p; Ret (0%nat, h)
        else if case_sz <=? 0 then Ret (p, write h p (BCast q r 0 0%nat))
        else if negb (case_sz mod 16 =? 0) then Abort
        else
          let count := swrap 32 (case_sz / 16) in
          do '(c, h) <- array_copy h BPCases l count 16 16 case_sz;
          if Nat.eqb c 0 then do h <- free_name h r; do h <- free_name h q; do h <- free h p; Ret (0%nat, h)
          else Ret (p, write h p (BCast q r count c))
  end.
(** src/entry_tag.c:708-724 metac_ptr_cast_context_delete *)
Definition ptr_cast_delete (h : heap) (p : ptr) : res heap :=
  if Nat.eqb p 0 then Ret h
  else match h_blk h p with
       | Some (BCast q r _ c) => do h <- free_name h r; do h <- free_name h q; do h <- free_name h c; free h p
       | _ => Ub
       end.

(** What the handlers read through p_context (src/entry_tag.c:378-787): a name, *)
Definition read_name (h : heap) (n : nptr) : res (option string) :=
  match n with NNull => Ret None | _ => do s <- chars h n; Ret (Some s) end.
Definition at_ptr (p : ptr) : nptr := if Nat.eqb p 0 then NNull else NHeap p.
(** the cases of a union, *)
Fixpoint read_ucases (h : heap) (l : list uc) : res (list ucase) :=
  match l with
  | [] => Ret []
  | c :: r => do s <- read_name h (uc_name c); do t <- read_ucases h r; Ret (Build_ucase (uc_val c) s (uc_id c) :: t)
  end.
(** and whole contexts, as the model of the handlers has them (HandlerModel) *)
Definition read_count_by (h : heap) (p : ptr) : res (option string) :=
  match h_blk h p with Some (BCount q) => read_name h (at_ptr q) | _ => Ub end.
Definition read_container_of (h : heap) (p : ptr) : res (Z * option ref) :=
  match h_blk h p with Some (BCont o e) => Ret (o, e) | _ => Ub end.
Definition read_union (h : heap) (p : ptr) : res uctx :=
  match h_blk h p with
  | Some (BUnion true _ _ _ id) => Ret (Constant id)
  | Some (BUnion false q n c _) =>
    do s <- read_name h (at_ptr q);
    if n <=? 0 then Ret (SelectByField s [])
    else match h_blk h c with
         | Some (BUCases l) => if Z.of_nat (length l) <? n then Ub
                               else do l <- read_ucases h (firstn (Z.to_nat n) l); Ret (SelectByField s l)
         | _ => Ub
         end
  | _ => Ub
  end.
Definition read_ptr_cast (h : heap) (p : ptr) : res pctx :=
  match h_blk h p with
  | Some (BCast q r n c) =>
    do s <- read_name h (at_ptr q);
    do t <- read_name h (at_ptr r);
    if n <=? 0 then Ret (Build_pctx s t [])
    else match h_blk h c with
         | Some (BPCases l) => if Z.of_nat (length l) <? n then Ub else Ret (Build_pctx s t (firstn (Z.to_nat n) l))
         | _ => Ub
         end
  | _ => Ub
  end.

(** * A client of the constructors *)
(** Its own strings and its contexts are in numbered places, which hold pointers (0: NULL). *)
Record state := { st_heap : heap; st_str : list ptr; st_ctx : list ptr }.
(** How it names a string: none, a literal, the string in a place. *)
Inductive arg := ANull | ALit (s : string) | AOwn (i : nat).
(** What it does: make, change and free its own strings, make and delete contexts. The names of the cases of a union are literals. *)
Inductive op :=
| OStr (s : string)
| OSetStr (i : nat) (s : string)
| OFreeStr (i : nat)
| ONewCount (a : arg)
| ONewCont (offset : Z) (e : option ref)
| ONewPerm (id : Z)
| ONewUnion (a : arg) (l : list ucase)
| ONewCast (a b : arg) (l : list pcase)
| ODelete (i : nat).
Definition place (l : list ptr) (i : nat) : ptr := nth i l 0%nat.
Fixpoint set_null (l : list ptr) (i : nat) : list ptr :=
  match l, i with [], _ => [] | _ :: r, O => 0%nat :: r | x :: r, S j => x :: set_null r j end.
Definition name_arg (st : state) (a : arg) : nptr :=
  match a with ANull => NNull | ALit s => NLit s | AOwn i => at_ptr (place (st_str st) i) end.
Definition lit_case (c : ucase) : uc := Build_uc (u_val c) (match u_name c with None => NNull | Some s => NLit s end) (u_id c).
(** context_free_handler of the tag: each kind of context has its own. For NULL the kind is not known here: all four are called. *)
Definition delete_ctx (h : heap) (p : ptr) : res heap :=
  if Nat.eqb p 0 then do h <- count_by_delete h p; do h <- container_of_delete h p; do h <- union_delete h p; ptr_cast_delete h p
  else match h_blk h p with
       | Some (BCount _) => count_by_delete h p
       | Some (BCont _ _) => container_of_delete h p
       | Some (BUnion _ _ _ _ _) => union_delete h p
       | Some (BCast _ _ _ _) => ptr_cast_delete h p
       | _ => Ub
       end.
Definition step (st : state) (o : op) : res state :=
  let h := st_heap st in
  let made (x : ptr * heap) := Build_state (snd x) (st_str st) (st_ctx st ++ [fst x]) in
  match o with
  | OStr s => let '(p, h) := alloc h (BStr s) in Ret (Build_state h (st_str st ++ [p]) (st_ctx st))
  | OSetStr i s => let p := place (st_str st) i in
                   if Nat.eqb p 0 then Ret st else Ret (Build_state (write h p (BStr s)) (st_str st) (st_ctx st))
  | OFreeStr i => do h <- free h (place (st_str st) i); Ret (Build_state h (set_null (st_str st) i) (st_ctx st))
  | ONewCount a => do x <- new_count_by h (name_arg st a); Ret (made x)
  | ONewCont offset e => Ret (made (new_container_of h offset e))
  | ONewPerm id => Ret (made (new_union_permanent h id))
  | ONewUnion a l => do x <- new_union_select h (name_arg st a) (map lit_case l) (24 * Z.of_nat (length l)); Ret (made x)
  | ONewCast a b l => do x <- new_ptr_cast h (name_arg st a) (name_arg st b) l (16 * Z.of_nat (length l)); Ret (made x)
  | ODelete i => do h <- delete_ctx h (place (st_ctx st) i); Ret (Build_state h (st_str st) (set_null (st_ctx st) i))
  end.
Fixpoint run (st : state) (l : list op) : res state :=
  match l with [] => Ret st | o :: r => do st <- step st o; run st r end.
Definition start (ok : nat -> bool) : state := Build_state (Build_heap 1 ok (fun _ => None)) [] [].

(** Executable model of parameter storages, src/value_with_args.c:16-209, on a heap of blocks.

    Simplifications (whole file):
    - a pointer is 0 (NULL) or the number of the allocation that made the block; freed numbers are not reused;
    - memory is blocks with typed contents; an access to a block that is not allocated (or of another type) is
      [Ub], so is freeing it;
    - entries of the database are [St]; an entry made at run time is a block, of which the fields the modelled
      functions use are kept: the entry itself;
    - metac_entry_is_unspecified_parameter / metac_entry_is_va_list_parameter (the latter compares the text of
      the declaration) are the argument [va] of the functions that need them: which entries of the database
      are such parameters. Entries made at run time are arrays, never parameters. *)
From Coq Require Import ZArith List Bool.
From Verif Require Import Base EntryModel.
Import ListNotations.
Open Scope Z_scope.

Definition ptr := nat.
Definition null : ptr := 0%nat.
(** p_entry of a parameter: into the database, or a block holding a dynamic entry *)
Inductive entry_ptr := EStatic (r : ref) | EBlock (p : ptr).
(** le_prev: the address of the field pointing to this element: lh_first of a storage or le_next of an element *)
Inductive prev_ptr := PHead (s : ptr) | PNext (p : ptr).
(** src/value_with_args.c:16-22 struct metac_parameter *)
Record param := { p_size : Z; p_entry : entry_ptr; p_addr : ptr; p_next : ptr; p_prev : prev_ptr }.
(** src/value_with_args.c:24-29 struct metac_parameter_storage *)
Record storage := { s_first : ptr; s_size : Z; s_last : ptr }.
Inductive block := BBytes (l : list Z) | BParam (x : param) | BStorage (x : storage) | BEntry (e : entry).
(** [h_ok n]: the n-th allocation succeeds *)
Record heap := { h_next : nat; h_ok : nat -> bool; h_blk : ptr -> option block }.

Definition upd (f : ptr -> option block) (p : ptr) (b : option block) : ptr -> option block :=
  fun q => if Nat.eqb q p then b else f q.
(** calloc: the new block, or 0 *)
Definition alloc (h : heap) (b : block) : ptr * heap :=
  if h_ok h (h_next h) then (h_next h, Build_heap (S (h_next h)) (h_ok h) (upd (h_blk h) (h_next h) (Some b)))
  else (0%nat, Build_heap (S (h_next h)) (h_ok h) (h_blk h)).
(** free *)
Definition free (h : heap) (p : ptr) : res heap :=
  match p with
  | O => Ret h
  | _ => match h_blk h p with None => Ub | Some _ => Ret (Build_heap (h_next h) (h_ok h) (upd (h_blk h) p None)) end
  end.
Definition write (h : heap) (p : ptr) (b : block) : heap := Build_heap (h_next h) (h_ok h) (upd (h_blk h) p (Some b)).
Definition get_param (h : heap) (p : ptr) : res param := match h_blk h p with Some (BParam x) => Ret x | _ => Ub end.
Definition get_storage (h : heap) (p : ptr) : res storage := match h_blk h p with Some (BStorage x) => Ret x | _ => Ub end.
Definition get_bytes (h : heap) (p : ptr) : res (list Z) := match h_blk h p with Some (BBytes x) => Ret x | _ => Ub end.
Definition get_entry (h : heap) (p : ptr) : res entry := match h_blk h p with Some (BEntry x) => Ret x | _ => Ub end.

Local Open Scope res_scope.
(** src/value_with_args.c:31-40 metac_new_parameter_storage *)
Definition new_storage (h : heap) : ptr * heap := alloc h (BStorage (Build_storage null 0 null)).
(** src/entry.c:15-18 metac_entry_is_dynamic *)
Definition is_dynamic (e : entry_ptr) : bool := match e with EStatic _ => false | EBlock _ => true end.
(** src/entry.c:20-29 metac_new_entry of a dynamic entry *)
Definition new_entry (h : heap) (p : ptr) : res (ptr * heap) := do e <- get_entry h p; Ret (alloc h (BEntry e)).
(** src/entry.c:70-76 metac_entry_delete *)
Definition entry_delete (h : heap) (e : entry_ptr) : res heap := match e with EStatic _ => Ret h | EBlock p => free h p end.

(** include/metac/backend/list.h:43-48 LIST_INSERT_HEAD; [x] is the content of the new element [p] *)
Definition insert_head (h : heap) (s p : ptr) : res heap :=
  do st <- get_storage h s;
  do x <- get_param h p;
  let h1 := write h p (BParam (Build_param (p_size x) (p_entry x) (p_addr x) (s_first st) (p_prev x))) in
  do h2 <- (match s_first st with
            | O => Ret h1
            | f => do y <- get_param h1 f;
                   Ret (write h1 f (BParam (Build_param (p_size y) (p_entry y) (p_addr y) (p_next y) (PNext p))))
            end);
  let h3 := write h2 s (BStorage (Build_storage p (s_size st) (s_last st))) in
  do z <- get_param h3 p;
  Ret (write h3 p (BParam (Build_param (p_size z) (p_entry z) (p_addr z) (p_next z) (PHead s)))).
(** include/metac/backend/list.h:28-34 LIST_INSERT_AFTER *)
Definition insert_after (h : heap) (l p : ptr) : res heap :=
  do le <- get_param h l;
  do x <- get_param h p;
  let h1 := write h p (BParam (Build_param (p_size x) (p_entry x) (p_addr x) (p_next le) (p_prev x))) in
  do h2 <- (match p_next le with
            | O => Ret h1
            | f => do y <- get_param h1 f;
                   Ret (write h1 f (BParam (Build_param (p_size y) (p_entry y) (p_addr y) (p_next y) (PNext p))))
            end);
  do le2 <- get_param h2 l;
  let h3 := write h2 l (BParam (Build_param (p_size le2) (p_entry le2) (p_addr le2) p (p_prev le2))) in
  do z <- get_param h3 p;
  Ret (write h3 p (BParam (Build_param (p_size z) (p_entry z) (p_addr z) (p_next z) (PNext l)))).
(** include/metac/backend/list.h:50-55 LIST_REMOVE *)
Definition list_remove (h : heap) (p : ptr) : res heap :=
  do x <- get_param h p;
  do h1 <- (match p_next x with
            | O => Ret h
            | f => do y <- get_param h f;
                   Ret (write h f (BParam (Build_param (p_size y) (p_entry y) (p_addr y) (p_next y) (p_prev x))))
            end);
  match p_prev x with
  | PHead s => do st <- get_storage h1 s; Ret (write h1 s (BStorage (Build_storage (p_next x) (s_size st) (s_last st))))
  | PNext q => do y <- get_param h1 q; Ret (write h1 q (BParam (Build_param (p_size y) (p_entry y) (p_addr y) (p_next x) (p_prev y))))
  end.

(** src/value_with_args.c:42-79 metac_parameter_storage_cleanup and metac_parameter_storage_delete (mutually
    recursive); [fuel] bounds the number of steps *)
Fixpoint cleanup (fuel : nat) (h : heap) (s : ptr) : res heap :=
  match fuel with
  | O => OutOfFuel
  | S k =>
    match s with
    | O => Ret h
    | _ =>
      do st <- get_storage h s;
      match s_first st with
      | O => Ret (write h s (BStorage (Build_storage null 0 null)))
      | p =>
        do x <- get_param h p;
        do h1 <- (if p_size x =? 0 then
                    match p_addr x with O => Ret h | q => do h' <- cleanup k h q; free h' q end
                  else free h (p_addr x));
        do h2 <- entry_delete h1 (p_entry x);
        do h3 <- list_remove h2 p;
        do h4 <- free h3 p;
        cleanup k h4 s
      end
    end
  end.
Definition delete (fuel : nat) (h : heap) (s : ptr) : res heap :=
  match s with O => Ret h | _ => do h1 <- cleanup fuel h s; free h1 s end.

(** src/value_with_args.c:81-84 metac_parameter_storage_size *)
Definition size (h : heap) (s : ptr) : res Z := match s with O => Ret 0 | _ => do st <- get_storage h s; Ret (s_size st) end.

(** src/value_with_args.c:86-120 _parameter_storage_append_by_buffer; [e] is not NULL *)
Definition append (h : heap) (s : ptr) (sz : Z) (e : entry_ptr) (addr : ptr) : res (ptr * heap) :=
  match s with
  | O => Ret (null, h)
  | _ =>
    let '(p, h1) := alloc h (BParam (Build_param 0 (EStatic 0%nat) null null (PHead null))) in
    match p with
    | O => Ret (null, h1)
    | _ =>
      do '(c, h2) <- (match e with EBlock q => new_entry h1 q | EStatic _ => Ret (null, h1) end);
      if is_dynamic e && (Nat.eqb c null) then do h3 <- free h2 p; Ret (null, h3)
      else
        let e' := match e with EBlock _ => EBlock c | EStatic r => EStatic r end in
        let h3 := write h2 p (BParam (Build_param sz e' addr null (PHead null))) in
        do st <- get_storage h3 s;
        do h4 <- (match s_last st with O => insert_head h3 s p | l => insert_after h3 l p end);
        do st2 <- get_storage h4 s;
        Ret (p, write h4 s (BStorage (Build_storage (s_first st2) (s_size st2 + 1) p)))
    end
  end.
(** src/value_with_args.c:122-143 metac_parameter_storage_append_by_buffer; [e]: None is NULL *)
Definition append_by_buffer (h : heap) (s : ptr) (e : option entry_ptr) (sz : Z) : res (Z * heap) :=
  match s, e with
  | O, _ | _, None => Ret (- EINVAL, h)
  | _, Some e =>
    if sz <=? 0 then Ret (- EINVAL, h)
    else
      let '(a, h1) := alloc h (BBytes (repeat 0 (Z.to_nat sz))) in
      match a with
      | O => Ret (- ENOMEM, h1)
      | _ => do '(p, h2) <- append h1 s sz e a;
             match p with
             | O => do h3 <- free h2 a; Ret (- EFAULT, h3)
             | _ => Ret (0, h2)
             end
      end
  end.
(** src/value_with_args.c:145-167 metac_parameter_storage_append_by_parameter_storage; [va r]: entry r is an
    unspecified or va_list parameter (line 148; the assertion is compiled in). Line 153 tests the wrong
    pointer: a failed allocation of the inner storage goes on with NULL. *)
Definition append_by_storage (va : ref -> bool) (fuel : nat) (h : heap) (s : ptr) (e : option entry_ptr) : res (Z * heap) :=
  match e with
  | None => Abort
  | Some (EBlock _) => Abort
  | Some (EStatic r) =>
    if negb (va r) then Abort
    else
      let '(i, h1) := new_storage h in
      do '(p, h2) <- append h1 s 0 (EStatic r) i;
      match p with
      | O => do h3 <- delete fuel h2 i; Ret (- EFAULT, h3)
      | _ => Ret (0, h2)
      end
  end.

(** src/value_with_args.c:169-197 metac_parameter_storage_copy. The loop follows le_next of the source while the
    destination grows. The assertions are compiled in. *)
Fixpoint copy_from (va : ref -> bool) (fuel : nat) (h : heap) (p : ptr) (dst : ptr) : res (Z * heap) :=
  match fuel with
  | O => OutOfFuel
  | S k =>
    match p with
    | O => Ret (0, h)
    | _ =>
      do x <- get_param h p;
      if negb (p_size x =? 0) then
        do '(r, h1) <- append_by_buffer h dst (Some (p_entry x)) (p_size x);
        if negb (r =? 0) then Ret (- EFAULT, h1)
        else
          do dt <- get_storage h1 dst;
          do y <- get_param h1 (s_last dt);
          if negb (Nat.eqb (p_addr y) null) && (p_size y =? p_size x) then
            do b <- get_bytes h1 (p_addr x);
            do b' <- get_bytes h1 (p_addr y);
            if (Z.of_nat (length b) <? p_size x) || (Z.of_nat (length b') <? p_size x) then Ub
            else
              let h2 := write h1 (p_addr y) (BBytes (firstn (Z.to_nat (p_size x)) b ++ skipn (Z.to_nat (p_size x)) b')) in
              do x2 <- get_param h2 p;
              copy_from va k h2 (p_next x2) dst
          else Abort
      else
        do '(r, h1) <- append_by_storage va k h dst (Some (p_entry x));
        if negb (r =? 0) then Ret (- EFAULT, h1)
        else
          do dt <- get_storage h1 dst;
          do y <- get_param h1 (s_last dt);
          if negb (Nat.eqb (p_addr y) null) && (p_size y =? p_size x) then
            do src_inner <- get_storage h1 (p_addr x);
            do '(r2, h2) <- copy_from va k h1 (s_first src_inner) (p_addr y);
            if negb (r2 =? 0) then Ret (- EFAULT, h2)
            else
              do x2 <- get_param h2 p;
              copy_from va k h2 (p_next x2) dst
          else Abort
    end
  end.
Definition copy (va : ref -> bool) (fuel : nat) (h : heap) (src dst : ptr) : res (Z * heap) :=
  do st <- get_storage h src; copy_from va fuel h (s_first st) dst.

(** src/value_with_args.c:199-209 metac_parameter_storage_new_param_value with src/value.c:719-734
    metac_new_value: the entry and the address of the parameter, 0 when NULL is returned (metac_new_value
    asserts nothing but returns NULL for address NULL). The blocks of the value itself are not modelled. *)
Fixpoint param_from (fuel : nat) (h : heap) (p : ptr) (id current : Z) : res (option (entry_ptr * ptr)) :=
  match fuel with
  | O => OutOfFuel
  | S k =>
    match p with
    | O => Ret None
    | _ => do x <- get_param h p;
           if id =? current then Ret (match p_addr x with O => None | a => Some (p_entry x, a) end)
           else param_from k h (p_next x) id (current + 1)
    end
  end.
Definition new_param_value (fuel : nat) (h : heap) (s : ptr) (id : Z) : res (option (entry_ptr * ptr)) :=
  do st <- get_storage h s; param_from fuel h (s_first st) id 0.

(** Programs using the API on any number of storages. A storage is named by its position among the storages made so
    far and a path of parameter numbers to a nested storage. [h_next] is used as the bound of steps. *)
Inductive op :=
| ONew
| OAppend (k : nat) (path : list nat) (e : entry_ptr) (sz : Z)
| OAppendStorage (k : nat) (path : list nat) (r : ref)
| OWrite (k : nat) (path : list nat) (i : nat) (b : list Z)
| OCleanup (k : nat) (path : list nat)
| OCopy (k : nat) (path : list nat) (k' : nat) (path' : list nat)
| ODelete (k : nat).
Record state := { st_heap : heap; st_roots : list ptr }.
(** the storage behind a parameter: metac_value_addr of metac_parameter_storage_new_param_value *)
Fixpoint resolve (h : heap) (s : ptr) (path : list nat) : res ptr :=
  match path with
  | [] => Ret s
  | i :: r => do v <- new_param_value (h_next h) h s (Z.of_nat i);
              match v with Some (_, a) => resolve h a r | None => Ub end
  end.
Definition storage_at (st : state) (k : nat) (path : list nat) : res ptr :=
  match nth_error (st_roots st) k with Some s => resolve (st_heap st) s path | None => Ub end.
Definition run_op (va : ref -> bool) (st : state) (o : op) : res (Z * state) :=
  let h := st_heap st in
  match o with
  | ONew => let '(p, h') := new_storage h in
            match p with O => Ret (- ENOMEM, Build_state h' (st_roots st)) | _ => Ret (0, Build_state h' (st_roots st ++ [p])) end
  | OAppend k path e sz => do s <- storage_at st k path; do '(r, h') <- append_by_buffer h s (Some e) sz; Ret (r, Build_state h' (st_roots st))
  | OAppendStorage k path r => do s <- storage_at st k path; do '(z, h') <- append_by_storage va (h_next h) h s (Some (EStatic r)); Ret (z, Build_state h' (st_roots st))
  | OWrite k path i b =>
    do s <- storage_at st k path;
    do v <- new_param_value (h_next h) h s (Z.of_nat i);
    match v with
    | None => Ub
    | Some (_, a) => do old <- get_bytes h a;
                     if Nat.eqb (length b) (length old) then Ret (0, Build_state (write h a (BBytes b)) (st_roots st)) else Ub
    end
  | OCleanup k path => do s <- storage_at st k path; do h' <- cleanup (h_next h) h s; Ret (0, Build_state h' (st_roots st))
  | OCopy k path k' path' =>
    do s <- storage_at st k path; do d <- storage_at st k' path';
    do '(r, h') <- copy va (h_next h) h s d; Ret (r, Build_state h' (st_roots st))
  | ODelete k =>
    match nth_error (st_roots st) k with
    | None => Ub
    | Some s => do h' <- delete (h_next h) h s; Ret (0, Build_state h' (firstn k (st_roots st) ++ skipn (S k) (st_roots st)))
    end
  end.
(** a program chooses its next operation by the results so far *)
Inductive prog := Done | Then (o : op) (k : Z -> prog).
Fixpoint run (va : ref -> bool) (st : state) (p : prog) : res (list Z * state) :=
  match p with
  | Done => Ret ([], st)
  | Then o k => do '(r, st1) <- run_op va st o; do '(rs, st2) <- run va st1 (k r); Ret (r :: rs, st2)
  end.

(** Executable model of src/iterator.c (metac_recursive_iterator).

    Nodes of type recursive_iterator_entry live in a heap: cell [i] holds a node or nothing
    (never allocated, or freed). Fresh cells are never reused, so every access to a
    freed node is visible as the outcome [UB]. Failed assertions are the outcome
    [Abort]. Pointers handed in by the client ([p_in], [p_out], [p_context]) are
    integers, 0 is NULL.

    Simplifications: the iterator object itself is the root node (cell 0, it inherits
    from the entry) plus [cur]; calls with a NULL iterator are not modelled (they return
    an error at once); allocation failure is an explicit argument of the append. *)
From Coq Require Import ZArith List Bool.
Import ListNotations.
Open Scope Z_scope.

(** include/metac/backend/iterator.h:14-19, special states. *)
Definition ST_start : Z := 0.
Definition ST_error : Z := -1.
Definition ST_done : Z := -2.
Definition ST_failed : Z := -3.
(** include/metac/backend/iterator.h metac_r_iter_state_is_end *)
Definition is_end (s : Z) : bool := (s =? ST_done) || (s =? ST_failed).

(** Where the address of a node is stored: the head of a node's dependency list or the
    [le_next] field of a node (this is what [le_prev] of sys/queue.h points to). *)
Inductive loc := LHead (i : nat) | LNext (i : nat).

(** src/iterator.c:12-22 *)
Record node := Node {
  parent : option nat; state : Z; p_in : Z; p_context : Z; p_out : Z;
  deps : option nat;      (* LIST_FIRST *)
  last_dep : option nat;
  le_next : option nat; le_prev : option loc }.

(** src/iterator.c:72-75 plus the heap. *)
Record iter := Iter { cells : nat -> option node; fresh : nat; cur : nat }.

Inductive outcome (A : Type) := Ok (a : A) | Abort | UB.
Arguments Ok {A} _. Arguments Abort {A}. Arguments UB {A}.

Definition bind {A B} (x : outcome A) (f : A -> outcome B) : outcome B :=
  match x with Ok a => f a | Abort => Abort | UB => UB end.
Notation "'do' x <- m ; k" := (bind m (fun x => k)) (at level 200, x pattern, m at level 100, k at level 200).
Definition assert (b : bool) : outcome unit := if b then Ok tt else Abort.

Definition load (it : iter) (i : nat) : outcome node :=
  match cells it i with Some n => Ok n | None => UB end.
Definition set_cell (it : iter) (i : nat) (c : option node) : iter :=
  Iter (fun j => if Nat.eqb j i then c else cells it j) (fresh it) (cur it).
Definition store (it : iter) (i : nat) (f : node -> node) : outcome iter :=
  do n <- load it i; Ok (set_cell it i (Some (f n))).
Definition set_cur (it : iter) (i : nat) : iter := Iter (cells it) (fresh it) i.

Definition w_state s n := Node (parent n) s (p_in n) (p_context n) (p_out n) (deps n) (last_dep n) (le_next n) (le_prev n).
Definition w_context c n := Node (parent n) (state n) (p_in n) c (p_out n) (deps n) (last_dep n) (le_next n) (le_prev n).
Definition w_out o n := Node (parent n) (state n) (p_in n) (p_context n) o (deps n) (last_dep n) (le_next n) (le_prev n).
Definition w_deps d n := Node (parent n) (state n) (p_in n) (p_context n) (p_out n) d (last_dep n) (le_next n) (le_prev n).
Definition w_last l n := Node (parent n) (state n) (p_in n) (p_context n) (p_out n) (deps n) l (le_next n) (le_prev n).
Definition w_next x n := Node (parent n) (state n) (p_in n) (p_context n) (p_out n) (deps n) (last_dep n) x (le_prev n).
Definition w_prev x n := Node (parent n) (state n) (p_in n) (p_context n) (p_out n) (deps n) (last_dep n) (le_next n) x.

(** src/iterator.c:25-36 and 42-44: calloc and init; allocates the next fresh cell. *)
Definition new_node (par : option nat) (inp : Z) : node := Node par 0 inp 0 0 None None None None.

(** src/iterator.c:77-85 metac_new_recursive_iterator *)
Definition new_iterator (inp : Z) : iter :=
  Iter (fun j => if Nat.eqb j 0 then Some (new_node None inp) else None) 1 0.

(** list.h LIST_INSERT_HEAD(&head_owner->deps, elm, links) *)
Definition list_insert_head (it : iter) (owner elm : nat) : outcome iter :=
  do o <- load it owner;
  do it1 <- store it elm (w_next (deps o));
  do it2 <- match deps o with
            | Some f => store it1 f (w_prev (Some (LNext elm)))
            | None => Ok it1
            end;
  do it3 <- store it2 owner (w_deps (Some elm));
  store it3 elm (w_prev (Some (LHead owner))).

(** list.h LIST_INSERT_AFTER(listelm, elm, links) *)
Definition list_insert_after (it : iter) (listelm elm : nat) : outcome iter :=
  do l <- load it listelm;
  do it1 <- store it elm (w_next (le_next l));
  do it2 <- match le_next l with
            | Some f => store it1 f (w_prev (Some (LNext elm)))
            | None => Ok it1
            end;
  do it3 <- store it2 listelm (w_next (Some elm));
  store it3 elm (w_prev (Some (LNext listelm))).

(** list.h LIST_REMOVE(elm, links) *)
Definition list_remove (it : iter) (elm : nat) : outcome iter :=
  do e <- load it elm;
  do it1 <- match le_next e with
            | Some f => store it f (w_prev (le_prev e))
            | None => Ok it
            end;
  match le_prev e with
  | Some (LHead o) => store it1 o (w_deps (le_next e))
  | Some (LNext o) => store it1 o (w_next (le_next e))
  | None => UB
  end.

(** src/iterator.c:113-122: walk the dependency list to the first unfinished one.
    [None] = ran out of fuel (impossible: proved). *)
Fixpoint first_unfinished (fuel : nat) (it : iter) (d : option nat) : outcome (option (option nat)) :=
  match fuel with
  | O => Ok None
  | S f =>
    match d with
    | None => Ok (Some None)
    | Some i => do n <- load it i;
                if is_end (state n) then first_unfinished f it (le_next n) else Ok (Some (Some i))
    end
  end.

(** Result of metac_recursive_iterator_next: NULL at the end, or the input of the new
    current task. [NoFuel] is the model's own error (never happens: proved). *)
Inductive next_res := NEnd | NTask (p : Z) | NoFuel.

(** src/iterator.c:92-133 metac_recursive_iterator_next *)
Fixpoint next_loop (fuel : nat) (it : iter) : outcome (iter * next_res) :=
  match fuel with
  | O => Ok (it, NoFuel)
  | S f =>
    do n <- load it (cur it);
    if is_end (state n) then
      match parent n with
      | None => Ok (it, NEnd)
      | Some p => next_loop f (set_cur it p)
      end
    else match deps n with
      | None => Ok (it, NTask (p_in n))
      | Some d =>
        do r <- first_unfinished (S (fresh it)) it (Some d);
        match r with
        | None => Ok (it, NoFuel)
        | Some (Some i) => next_loop f (set_cur it i)
        | Some None => Ok (it, NTask (p_in n))
        end
      end
  end.
Definition next (it : iter) : outcome (iter * next_res) := next_loop (2 * fresh it + 2) it.

(** src/iterator.c:135-151 *)
Definition get_context (it : iter) : outcome Z := do n <- load it (cur it); Ok (p_context n).
Definition set_context (it : iter) (c : Z) : outcome iter := store it (cur it) (w_context c).

(** src/iterator.c:153-166 metac_recursive_iterator_level; the walk up, fuel as above. *)
Fixpoint level_loop (fuel : nat) (it : iter) (i : nat) (lvl : Z) : outcome (option Z) :=
  match fuel with
  | O => Ok None
  | S f => do n <- load it i;
           match parent n with
           | None => Ok (Some lvl)
           | Some p => level_loop f it p (lvl + 1)
           end
  end.
Definition level (it : iter) : outcome (option Z) := level_loop (S (fresh it)) it (cur it) 0.

(** src/iterator.c:168-186 metac_recursive_iterator_get_in *)
Fixpoint get_in_loop (fuel : nat) (it : iter) (i : nat) (lvl req : Z) : outcome (option Z) :=
  match fuel with
  | O => Ok None
  | S f => do n <- load it i;
           if lvl =? req then Ok (Some (p_in n))
           else match parent n with
                | None => Ok (Some 0)
                | Some p => get_in_loop f it p (lvl + 1) req
                end
  end.
Definition get_in (it : iter) (req : Z) : outcome (option Z) := get_in_loop (S (fresh it)) it (cur it) 0 req.

(** src/iterator.c:51-70 metac_recursive_iterator_entry_get_out: result, input, fail flag. *)
Definition entry_get_out (it : iter) (i : nat) : outcome (Z * Z * bool) :=
  do n <- load it i;
  do _ <- assert (is_end (state n));
  let fail := state n =? ST_failed in
  do _ <- assert (if fail then p_out n =? 0 else true);
  Ok (p_out n, p_in n, fail).

(** src/iterator.c:188-194 *)
Definition get_out (it : iter) : outcome (Z * Z * bool) := entry_get_out it (cur it).

(** src/iterator.c:196-202 *)
Definition get_state (it : iter) : outcome Z := do n <- load it (cur it); Ok (state n).

(** src/iterator.c:204-212; the boolean tells whether non-NULL is returned. *)
Definition set_state (it : iter) (s : Z) : outcome (iter * bool) :=
  if s =? ST_error then Ok (it, false)
  else do n <- load it (cur it);
       do _ <- assert (negb (is_end (state n)));
       do it' <- store it (cur it) (w_state s);
       Ok (it', true).

(** src/iterator.c:214-216 *)
Definition fail (it : iter) : outcome (iter * bool) := set_state it ST_failed.

(** src/iterator.c:218-226 *)
Definition done (it : iter) (out : Z) : outcome (iter * bool) :=
  do n <- load it (cur it);
  do _ <- assert (negb (is_end (state n)));
  do it' <- store it (cur it) (w_out out);
  set_state it' ST_done.

(** src/iterator.c:228-234 *)
Definition dep_queue_is_empty (it : iter) : outcome bool :=
  do n <- load it (cur it); Ok (match deps n with None => true | Some _ => false end).

(** src/iterator.c:236-248 *)
Fixpoint queue_size_loop (fuel : nat) (it : iter) (d : option nat) (acc : Z) : outcome (option Z) :=
  match fuel with
  | O => Ok None
  | S f => match d with
           | None => Ok (Some acc)
           | Some i => do n <- load it i; queue_size_loop f it (le_next n) (acc + 1)
           end
  end.
Definition dep_queue_size (it : iter) : outcome (option Z) :=
  do n <- load it (cur it); queue_size_loop (S (fresh it)) it (deps n) 0.

(** src/iterator.c:250-272 metac_recursive_iterator_create_and_append_dep; [a] is the outcome of
    calloc; returns the code. *)
Definition append_dep (it : iter) (inp : Z) (a : bool) : outcome (iter * Z) :=
  do n <- load it (cur it);
  do _ <- assert (negb (is_end (state n)));
  if negb a then Ok (it, -12) else
  let i := fresh it in
  let it1 := Iter (fun j => if Nat.eqb j i then Some (new_node (Some (cur it)) inp) else cells it j)
                  (S i) (cur it) in
  do it2 <- match deps n with
            | None => do _ <- assert (match last_dep n with None => true | Some _ => false end);
                      list_insert_head it1 (cur it1) i
            | Some _ => match last_dep n with
                        | None => Abort
                        | Some l => list_insert_after it1 l i
                        end
            end;
  do it3 <- store it2 (cur it2) (w_last (Some i));
  Ok (it3, 0).

(** src/iterator.c:38-40 and 46-49: free a node; its queue must be empty. *)
Definition entry_free (it : iter) (i : nat) : outcome iter :=
  do n <- load it i;
  do _ <- assert (match deps n with None => true | Some _ => false end);
  Ok (set_cell it i None).

(** src/iterator.c:274-291 metac_recursive_iterator_dequeue_and_delete_dep; [None] = queue was
    empty (returns NULL, writes nothing). *)
Definition dequeue (it : iter) : outcome (iter * option (Z * Z * bool)) :=
  do n <- load it (cur it);
  match deps n with
  | None => Ok (it, None)
  | Some i =>
    do e <- load it i;
    do _ <- assert (is_end (state e));
    do it1 <- list_remove it i;
    do r <- entry_get_out it1 i;
    do it2 <- entry_free it1 i;
    Ok (it2, Some r)
  end.

(** src/iterator.c:303-310: i-th element of the list ([None] = NULL). A negative [i] behaves as 0. *)
Fixpoint nth_dep (fuel : nat) (it : iter) (d : nat) (i : Z) : outcome (option (option nat)) :=
  match fuel with
  | O => Ok None
  | S f => if 0 <? i then
             do n <- load it d;
             match le_next n with
             | None => Ok (Some None)
             | Some d' => nth_dep f it d' (i - 1)
             end
           else Ok (Some (Some d))
  end.
(** src/iterator.c:293-313 metac_recursive_iterator_get_dep_out *)
Definition get_dep_out (it : iter) (i : Z) : outcome (option (option (Z * Z * bool))) :=
  do n <- load it (cur it);
  match deps n with
  | None => Ok (Some None)
  | Some d => do r <- nth_dep (S (fresh it)) it d i;
              match r with
              | None => Ok None
              | Some None => Ok (Some None)
              | Some (Some e) => do x <- entry_get_out it e; Ok (Some (Some x))
              end
  end.

(** src/iterator.c:87-90 metac_recursive_iterator_free: the root must have an empty queue. The
    result is the heap after freeing. *)
Definition iterator_free (it : iter) : outcome iter := entry_free it 0.

(** Any client: a sequence of API calls. *)
Inductive call :=
| CNext | CSetState (s : Z) | CFail | CDone (out : Z) | CAppend (inp : Z) (a : bool) | CDequeue
| CSetContext (c : Z) | CGetDepOut (i : Z) | CGetOut | CQueueSize | CLevel | CGetIn (l : Z).
Inductive obs :=
| ONext (r : next_res) | OBool (b : bool) | OCode (z : Z) | ODeq (r : option (Z * Z * bool))
| OUnit | OSize (z : option Z) | ODep (r : option (option (Z * Z * bool))) | OOut (r : Z * Z * bool).

Definition do_call (it : iter) (c : call) : outcome (iter * obs) :=
  match c with
  | CNext => do (it', r) <- next it; Ok (it', ONext r)
  | CSetState s => do (it', r) <- set_state it s; Ok (it', OBool r)
  | CFail => do (it', r) <- fail it; Ok (it', OBool r)
  | CDone o => do (it', r) <- done it o; Ok (it', OBool r)
  | CAppend i a => do (it', r) <- append_dep it i a; Ok (it', OCode r)
  | CDequeue => do (it', r) <- dequeue it; Ok (it', ODeq r)
  | CSetContext c => do it' <- set_context it c; Ok (it', OUnit)
  | CGetDepOut i => do r <- get_dep_out it i; Ok (it, ODep r)
  | CGetOut => do r <- get_out it; Ok (it, OOut r)
  | CQueueSize => do r <- dep_queue_size it; Ok (it, OSize r)
  | CLevel => do r <- level it; Ok (it, OSize r)
  | CGetIn l => do r <- get_in it l; Ok (it, OSize r)
  end.

Fixpoint run_calls (it : iter) (l : list call) : outcome (iter * list obs) :=
  match l with
  | [] => Ok (it, [])
  | c :: r => do (it1, o) <- do_call it c;
              do (it2, os) <- run_calls it1 r;
              Ok (it2, o :: os)
  end.

(** The usual client (as in src/entry_cdecl.c:23-585, src/value_deep.c): at the first visit of a
    task queue its sub-tasks and set state 1; at the second collect all results, then
    done/fail. [kids] and [f] are the client's code. *)
Inductive event := Enter (p : Z) | Leave (p : Z).

Section Driver.
Variable kids : Z -> list Z.
Variable f : Z -> list (Z * Z * bool) -> option Z.

Fixpoint append_all (it : iter) (l : list Z) : outcome iter :=
  match l with
  | [] => Ok it
  | k :: r => do (it1, rc) <- append_dep it k true; append_all it1 r
  end.
Fixpoint collect (fuel : nat) (it : iter) : outcome (iter * list (Z * Z * bool)) :=
  match fuel with
  | O => Ok (it, [])
  | S g => do (it1, r) <- dequeue it;
           match r with
           | None => Ok (it1, [])
           | Some x => do (it2, xs) <- collect g it1; Ok (it2, x :: xs)
           end
  end.
(** One loop body of the client for the current task [p]. *)
Definition handle (it : iter) (p : Z) : outcome (iter * event) :=
  do s <- get_state it;
  if s =? ST_start then
    do it1 <- append_all it (kids p);
    do (it2, _) <- set_state it1 1;
    Ok (it2, Enter p)
  else
    do (it1, rs) <- collect (S (fresh it)) it;
    match f p rs with
    | Some o => do (it2, _) <- done it1 o; Ok (it2, Leave p)
    | None => do (it2, _) <- fail it1; Ok (it2, Leave p)
    end.
(** The client's loop; [None] = the step budget was too small. *)
Fixpoint drive (steps : nat) (it : iter) : outcome (option (iter * list event)) :=
  match steps with
  | O => Ok None
  | S s =>
    do (it1, r) <- next it;
    match r with
    | NTask p => if p =? 0 then Ok (Some (it1, []))   (* the client's loop ends at NULL *)
                 else do (it2, e) <- handle it1 p;
                      do x <- drive s it2;
                      match x with
                      | Some (it3, es) => Ok (Some (it3, e :: es))
                      | None => Ok None
                      end
    | NEnd => Ok (Some (it1, []))
    | NoFuel => Ok None
    end
  end.
End Driver.

(** Executable model of who owns what in a memory map: src/value_deep.c:152-229 (entries, deletion), 324-888 (construction: the traversal, as far as it
    makes and releases values and entries), on a heap of blocks whose allocations may fail.

    Simplifications (whole file):
    - a pointer is 0 (NULL) or the number of the allocation that made the block; freed numbers are not reused; access to a block that is not
      allocated is [Ub], so is freeing it;
    - a value is one block, with the entry it may own (src/value.c:790-797); the hash map is one block, with its table;
    - what the traversal meets is given as a [plan]: DeepModel has the code that decides it; sizes are final sizes (grown by flexible arrays),
      and the assertion on the addresses of members (value_deep.c:525) is left out;
    - the nodes of the iterator (src/iterator.c) are no blocks: the model of the iterator is IteratorModel. Their allocation can fail. *)
From Coq Require Import ZArith List Bool.
From Verif Require Import Base.
Import ListNotations.
Open Scope Z_scope.

Definition ptr := nat.
(** what an allocation is for: a value, the entry (and its array of children) of a pointer or of something else, the map, the hash map, a node of
    the hash map, the keys to be sorted, the iterator or one of its nodes *)
Inductive kind := KVal | KEntry | KPtrEntry | KMap | KHash | KNode | KKeys | KIter.
(** include/metac/backend/value.h:18 struct metac_memory_entry: value, byte size, children_count, pp_children; struct metac_memory_map *)
Inductive block :=
| BVal
| BEntry (val : ptr) (size : Z) (n : nat) (kids : ptr)
| BKids (l : list ptr)
| BMap (top hash : ptr)
| BHash (l : list (Z * ptr))
| BKeys.
Record heap := { h_next : nat; h_ok : kind -> nat -> bool; h_blk : ptr -> option block }.
Definition upd (f : ptr -> option block) (p : ptr) (b : option block) : ptr -> option block := fun q => if Nat.eqb q p then b else f q.
(** calloc, malloc *)
Definition alloc (h : heap) (k : kind) (b : block) : ptr * heap :=
  if h_ok h k (h_next h) then (h_next h, Build_heap (S (h_next h)) (h_ok h) (upd (h_blk h) (h_next h) (Some b)))
  else (0%nat, Build_heap (S (h_next h)) (h_ok h) (h_blk h)).
(** an allocation that is no block here: does it succeed? *)
Definition tick (h : heap) (k : kind) : bool * heap := (h_ok h k (h_next h), Build_heap (S (h_next h)) (h_ok h) (h_blk h)).
Definition free (h : heap) (p : ptr) : res heap :=
  match p with
  | O => Ret h
  | _ => match h_blk h p with None => Ub | Some _ => Ret (Build_heap (h_next h) (h_ok h) (upd (h_blk h) p None)) end
  end.
Definition write (h : heap) (p : ptr) (b : block) : heap := Build_heap (h_next h) (h_ok h) (upd (h_blk h) p (Some b)).
Local Open Scope res_scope.
Definition entry_at (h : heap) (p : ptr) : res (ptr * Z * nat * ptr) :=
  match h_blk h p with Some (BEntry v s n k) => Ret (v, s, n, k) | _ => Ub end.

(** src/value_deep.c:152-171 metac_new_memory_entry *)
Definition new_entry (h : heap) (k : kind) (v : ptr) (size : Z) (n : nat) : res (ptr * heap) :=
  let '(e, h) := alloc h k (BEntry 0%nat 0 0 0%nat) in
  if Nat.eqb e 0 then Ret (0%nat, h)
  else if Nat.eqb n 0 then Ret (e, write h e (BEntry v size 0 0%nat))
  else
    let '(c, h) := alloc h k (BKids (repeat 0%nat n)) in
    if Nat.eqb c 0 then do h <- free h e; Ret (0%nat, h)
    else Ret (e, write h e (BEntry v size n c)).

(** src/value_deep.c:192-196: the children that are there are queued; one whose node cannot be made is lost *)
Fixpoint queue_kids (h : heap) (l : list ptr) : list ptr * heap :=
  match l with
  | [] => ([], h)
  | O :: r => queue_kids h r
  | p :: r => let '(ok, h) := tick h KIter in let '(q, h) := queue_kids h r in (if ok then p :: q else q, h)
  end.
Definition seq_free (f : heap -> ptr -> res heap) : list ptr -> heap -> res heap :=
  fix go l h := match l with [] => Ret h | p :: r => do h <- f h p; go r h end.
(** src/value_deep.c:178-210: the visit of one entry and, through the iterator, of what is below; fuel: the depth *)
Fixpoint delete_rec (fuel : nat) (h : heap) (p : ptr) {struct fuel} : res heap :=
  match fuel with
  | O => OutOfFuel
  | S f =>
    do '(v, s, n, k) <- entry_at h p;
    do h <- (if Nat.eqb v 0 then Ret h else free h v);
    if Nat.eqb n 0 then (if Nat.eqb k 0 then free h p else Abort)
    else
      match h_blk h k with
      | Some (BKids l) =>
        let '(q, h) := queue_kids h (firstn n l) in
        do h <- seq_free (delete_rec f) q h;
        do h <- free h k;
        free h p
      | _ => Ub
      end
  end.
(** src/value_deep.c:173-212 metac_memory_entry_delete; without memory for the iterator metac_recursive_iterator_free accesses NULL *)
Definition entry_delete (h : heap) (p : ptr) : res heap :=
  if Nat.eqb p 0 then Ret h
  else let '(ok, h) := tick h KIter in if ok then delete_rec (h_next h) h p else Ub.
(** src/value_deep.c:221-229 metac_value_memory_map_delete *)
Definition map_delete (h : heap) (m : ptr) : res heap :=
  match h_blk h m with
  | Some (BMap top hash) =>
    do h <- (if Nat.eqb hash 0 then Ret h else free h hash);
    do h <- (if Nat.eqb top 0 then Ret h else entry_delete h top);
    free h m
  | _ => Ub
  end.

(** What the traversal meets at a value:
    - [Refused]: metac_recursive_iterator_fail before anything is made, or after a value was made and deleted (366, 390, 402, 412 and
      585, 460, 466, 578, 585, 617, 626, 675, 679-683, 854);
    - [Leaf]: numbers, enumerations, NULL pointers, loops, unknown pointers kept as values (364-376, 588-609, 629-638): an entry without children;
    - [Parts]: members of a struct, the selected member of a union, elements, parameters (380-503, 760-792); [tmp]: a value made on the
      way and deleted (the array with the length the handler said, 444-490); [cut]: after the values of [l] the next one cannot be made, or the size is
      not known (418-421, 474-477, 482-485, 772-774);
    - [Pointer]: the array it points to, at address [key] (610-693); [tmp]: 657-667. *)
Inductive plan :=
| Refused
| Leaf (size : Z)
| Parts (size : Z) (tmp : bool) (l : list plan) (cut : bool)
| Pointer (size : Z) (tmp : bool) (key : Z) (target : plan).

(** the values of [n] parts are made and queued (416-425, 472-481, 769-777): their pointers, 0 for one whose iterator node could not be made (the
    result of metac_recursive_iterator_create_and_append_dep is ignored); false: a value could not be made *)
Fixpoint make_values (n : nat) (h : heap) : list ptr * bool * heap :=
  match n with
  | O => ([], true, h)
  | S n => let '(v, h) := alloc h KVal BVal in
           if Nat.eqb v 0 then ([], false, h)
           else let '(ok, h) := tick h KIter in
                let '(vs, all, h) := make_values n h in
                ((if ok then v else 0%nat) :: vs, all, h)
  end.
Fixpoint put_nth (l : list ptr) (i : nat) (p : ptr) : option (list ptr) :=
  match l, i with
  | [], _ => None
  | _ :: r, O => Some (p :: r)
  | x :: r, S j => match put_nth r j p with Some r => Some (x :: r) | None => None end
  end.
(** 531-532, 718-719, 812-813: the entry [r] becomes the [i]-th child of [e] *)
Definition hang (h : heap) (e : ptr) (i : nat) (r : ptr) : res heap :=
  do '(_, _, _, k) <- entry_at h e;
  do _ <- entry_at h r;
  match h_blk h k with
  | Some (BKids l) => match put_nth l i r with Some l => Ret (write h k (BKids l)) | None => Ub end
  | _ => Ub
  end.
(** value_deep.c:507-541, 794-821, state 1: take the results of the parts from the queue and hang them in; true and an empty queue: all there *)
Fixpoint collect (h : heap) (e : ptr) (i : nat) (q : list (ptr * ptr)) : res (bool * list (ptr * ptr) * heap) :=
  match q with
  | [] => Ret (true, [], h)
  | (v, r) :: q =>
    if Nat.eqb r 0 then do h <- free h v; Ret (false, q, h)
    else do h <- hang h e i r; collect h e (S i) q
  end.
(** 543-556, 823-836, state 2: the rest of the queue is released *)
Fixpoint drop (h : heap) (q : list (ptr * ptr)) : res heap :=
  match q with
  | [] => Ret h
  | (v, r) :: q => do h <- (if Nat.eqb r 0 then free h v else entry_delete h r); drop h q
  end.
(** 558-565, 838-845, 706-712, 730-734, 741-745: the unfinished entry is released, its value is left to the caller *)
Definition abandon (h : heap) (e : ptr) : res heap :=
  if Nat.eqb e 0 then Ret h
  else do '(_, s, n, k) <- entry_at h e; entry_delete (write h e (BEntry 0%nat s n k)) e.
Fixpoint find (l : list (Z * ptr)) (k : Z) : option ptr :=
  match l with [] => None | (j, e) :: r => if j =? k then Some e else find r k end.
Fixpoint replace (l : list (Z * ptr)) (k : Z) (p : ptr) : list (Z * ptr) :=
  match l with [] => [] | (j, e) :: r => if j =? k then (j, p) :: r else (j, e) :: replace r k p end.
(** 720-750: the entry [c] of what a pointer points to goes into the hash map; false: hashmapPut failed *)
Definition register (h : heap) (hash : ptr) (key : Z) (c : ptr) : res (bool * heap) :=
  if Nat.eqb hash 0 then Ret (true, h)
  else match h_blk h hash with
       | Some (BHash l) =>
         match find l key with
         | Some e => do '(_, s, _, _) <- entry_at h c;
                     do '(_, s', _, _) <- entry_at h e;
                     if s >? s' then Ret (true, write h hash (BHash (replace l key c))) else Ret (true, h)
         | None => let '(ok, h) := tick h KNode in
                   if ok then Ret (true, write h hash (BHash ((key, c) :: l))) else Ret (false, h)
         end
       | _ => Ub
       end.
(** the value made on the way *)
Definition with_tmp (tmp : bool) (h : heap) : option ptr * heap :=
  if tmp then let '(t, h) := alloc h KVal BVal in (if Nat.eqb t 0 then None else Some t, h) else (Some 0%nat, h).
(** queue: parts whose node exists, with their results *)
Fixpoint queued (vs rs : list ptr) : list (ptr * ptr) :=
  match vs, rs with v :: vs, r :: rs => if Nat.eqb v 0 then queued vs rs else (v, r) :: queued vs rs | _, _ => [] end.

(** src/value_deep.c:350-858: the value [v], its entry or 0 if it failed. The parts are visited before the second visit of the whole, also when
    that will only clean up (IteratorModel, metac_recursive_iterator_next). *)
Fixpoint build (hash : ptr) (p : plan) (v : ptr) (h : heap) {struct p} : res (ptr * heap) :=
  match p with
  | Refused => Ret (0%nat, h)
  | Leaf size => new_entry h KEntry v size 0
  | Parts size tmp l cut =>
    let '(t, h) := with_tmp tmp h in
    match t with
    | None => Ret (0%nat, h)
    | Some t =>
      let '(vs, all, h) := make_values (length l) h in
      do h <- free h t;
      do '(e, h) <- (if all && negb cut then new_entry h KEntry v size (length l) else Ret (0%nat, h));
      do '(rs, h) <- (fix go (l : list plan) (vs : list ptr) (h : heap) : res (list ptr * heap) :=
                        match l, vs with
                        | p :: l, v :: vs => do '(r, h) <- (if Nat.eqb v 0 then Ret (0%nat, h) else build hash p v h);
                                             do '(rs, h) <- go l vs h; Ret (r :: rs, h)
                        | _, _ => Ret ([], h)
                        end) l vs h;
      let q := queued vs rs in
      do '(done, q, h) <- (if Nat.eqb e 0 then Ret (false, q, h) else collect h e 0 q);
      if done then Ret (e, h)
      else do h <- drop h q; do h <- abandon h e; Ret (0%nat, h)
    end
  | Pointer size tmp key target =>
    let '(t, h) := with_tmp tmp h in
    match t with
    | None => Ret (0%nat, h)
    | Some t =>
      let '(a, h) := alloc h KVal BVal in
      do h <- free h t;
      if Nat.eqb a 0 then Ret (0%nat, h)
      else
        let '(ok, h) := tick h KIter in
        do '(e, h) <- new_entry h KPtrEntry v size 1;
        (* 687-690: fails with a queue that is not empty: the assertion of metac_cleanup_recursive_iterator_entry (src/iterator.c:38-40) *)
        if Nat.eqb e 0 then (if ok then Abort else Ret (0%nat, h))
        else
          do '(c, h) <- (if ok then build hash target a h else Ret (0%nat, h));
          if Nat.eqb c 0 then
            do h <- (if ok then free h a else Ret h);
            do h <- abandon h e;
            Ret (0%nat, h)
          else
            do h <- hang h e 0 c;
            do '(ok, h) <- register h hash key c;
            if ok then Ret (e, h) else do h <- abandon h e; Ret (0%nat, h)
    end
  end.

(** src/value_deep.c:258-315 _identify_allocatable_entries: the entry of every key of the hash map is read (284-287); false: no memory. The order of
    the keys and the offsets are in DeepModel. *)
Fixpoint all_live (h : heap) (l : list (Z * ptr)) (ks : list Z) : res heap :=
  match ks with
  | [] => Ret h
  | k :: r => match find l k with None => Abort | Some e => do _ <- entry_at h e; all_live h l r end
  end.
Definition identify (h : heap) (hash : ptr) : res (bool * heap) :=
  if Nat.eqb hash 0 then Ret (true, h)
  else match h_blk h hash with
       | Some (BHash []) => Ret (true, h)
       | Some (BHash l) =>
         let '(k, h) := alloc h KKeys BKeys in
         if Nat.eqb k 0 then Ret (false, h) else do h <- all_live h l (map fst l); do h <- free h k; Ret (true, h)
       | _ => Ub
       end.
(** src/value_deep.c:325-888 metac_new_value_memory_map_ex; [dag]: memory_block_mode; 0: NULL *)
Definition new_map (dag : bool) (p : plan) (h : heap) : res (ptr * heap) :=
  let '(v, h) := alloc h KVal BVal in
  if Nat.eqb v 0 then Ret (0%nat, h)
  else
    let '(m, h) := alloc h KMap (BMap 0%nat 0%nat) in
    if Nat.eqb m 0 then Ret (0%nat, h)
    else
      let '(hash, h) := if dag then alloc h KHash (BHash []) else (0%nat, h) in
      if dag && Nat.eqb hash 0 then do h <- free h m; Ret (0%nat, h)
      else
        let '(ok, h) := tick h KIter in
        (* without iterator metac_recursive_iterator_free accesses NULL *)
        if negb ok then Ub
        else
          do '(e, h) <- build hash p v h;
          if Nat.eqb e 0 then
            do h <- free h hash;
            do h <- free h m;
            do h <- free h v;
            Ret (0%nat, h)
          else
            let h := write h m (BMap e hash) in
            do '(ok, h) <- identify h hash;
            if ok then Ret (m, h) else do h <- map_delete h m; Ret (0%nat, h).

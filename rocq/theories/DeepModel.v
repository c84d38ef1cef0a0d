(** Model of src/value_deep.c (memory map of a value, deep free, deep copy, deep comparison) and of
    metac_value_level_introduced_loop of src/value.c.

    Not modelled: va_list parameters, which the code treats partly as pointers (value_deep.c:1077, 1311, value.c:60): the
    model stops with [Abort] there. Internal allocations (memory entries, values, iterator nodes, hash map nodes,
    parameter storages) succeed; calloc_fn, the caller's allocator, may fail. The recursive
    iterator is replaced by recursion: an entry is finished after all its dependencies, which are processed in
    the order in which they were appended (properties C05-C08). The hash maps are lists of their entries
    (C01, C02); hashmapForEach visits them in an arbitrary order [ord]. *)
From Coq Require Import ZArith String List Bool.
From Verif Require Import Base EntryModel ValueModel.
Import ListNotations.
Open Scope Z_scope.
Local Open Scope res_scope.

(** include/metac/reflect/value.h:42-72 the modes *)
Inductive uptr_mode := UPTR_fail | UPTR_ignore | UPTR_as_values | UPTR_as_one_byte_ptr.
Inductive union_mode := UNION_fail | UNION_ignore | UNION_as_mem.
Inductive flxarr_mode := FLXARR_fail | FLXARR_ignore.
Record mode := { mo_tree : bool; mo_uptr : uptr_mode; mo_union : union_mode; mo_flx : flxarr_mode }.
(** include/metac/reflect/entry_tag.h metac_value_event_type: the requests the memory map makes *)
Inductive event := RQVST_pointer_array_count | RQVST_flex_array_count | RQVST_union_member.

(** include/metac/backend/value.h struct metac_memory_entry: an identity, p_val, byte_size, loop_level, children.
    p_parent is the position in the tree; offset_from_allocate_base is kept in a table, see [mmap]. *)
Inductive ment := ME (id : nat) (v : value) (size : Z) (loop : Z) (ch : list ment).
Definition me_id (e : ment) := match e with ME i _ _ _ _ => i end.
Definition me_val (e : ment) := match e with ME _ v _ _ _ => v end.
Definition me_size (e : ment) := match e with ME _ _ s _ _ => s end.
Definition me_loop (e : ment) := match e with ME _ _ _ l _ => l end.
Definition me_ch (e : ment) := match e with ME _ _ _ _ c => c end.
(** the identities of the entries of a tree *)
Fixpoint ids (e : ment) : list nat :=
  match e with ME i _ _ _ ch => i :: flat_map ids ch end.
(** An element of p_addr_ptr_val_to_memory_entry: key, identity and byte_size of the entry it maps to. *)
Record hent := { h_addr : Z; h_id : nat; h_size : Z }.
(** struct metac_memory_map: top entry, hash map (absent in tree mode), and for each identity
    offset_from_allocate_base where it was set (0 otherwise). *)
Record mmap := { mm_top : ment; mm_hash : option (list hent); mm_off : list (nat * Z) }.
Definition off_of (o : list (nat * Z)) (i : nat) : Z :=
  match find (fun p => Nat.eqb (fst p) i) o with Some p => snd p | None => 0 end.

(** The surroundings of a call: fuel of the entry functions, the entries, the content of uninitialised buffers
    (see ValueModel), the static entry unsigned_char of value_deep.c:650-658 and the tag map with its handlers: a
    handler sees the memory and the hierarchy of values (nearest first); its result is the returned int and
    ev.p_return_value; (0, None) when there is no tag. A parameter storage is the sequence of its items (property C35),
    found by its address; which parameters are of type va_list (src/entry.c:638-653, by the text of the declaration) is given;
    [en_buf k] is the address of the k-th buffer or storage made by metac_parameter_storage_copy. *)
Record env := { en_fuel : nat; en_db : db; en_garbage : mem; en_uchar : ref;
                en_handler : mem -> event -> list value -> res (Z * option value);
                en_va : eptr -> bool; en_items : Z -> list value; en_buf : nat -> Z }.
Definition no_handler : mem -> event -> list value -> res (Z * option value) := fun _ _ _ => Ret (0, None).

Section Deep.
Variable E : env.
Let n := en_fuel E.
Let d := en_db E.

(** src/value.c:251-262 metac_value_final_kind: here the info of the final entry *)
Definition final_info (v : value) : res (option info) :=
  do f <- final_if n d (Some (v_entry v)) (fun _ => true);
  Ret (match f with Some e => Some (e_info (deref d e)) | None => None end).
(** tests metac_value_is_pointer, ..._is_enumeration, ..._is_base_type, ..._has_elements *)
Definition value_kind_is (v : value) (want : info -> bool) : res bool :=
  do f <- final_if n d (Some (v_entry v)) want; Ret (match f with Some _ => true | None => false end).

(** src/value.c:44-79 metac_value_level_introduced_loop: the loop over the ancestors; [l] is the loop variable *)
Fixpoint loop_search (m : mem) (p : Z) (anc : list value) (l : Z) : res Z :=
  match anc with
  | [] => Ret (-1)
  | v :: r =>
    do x <- value_pointer n d m v;
    match x with
    | inl _ => loop_search m p r (l + 1)
    | inr q => if p =? q then Ret l else loop_search m p r (l + 1)
    end
  end.
Definition level_introduced_loop (m : mem) (cur : value) (anc : list value) : res Z :=
  match anc with
  | [] => Ret (-1)
  | _ => do x <- value_pointer n d m cur;
         match x with inl _ => Ret (-1) | inr p => loop_search m p anc 1 end
  end.

(** What the start state finds out about a value (value_deep.c:349-695): failure, a finished leaf, a pointer
    closing a loop, an entry with children in the same block, a pointer and the array it points to, a call and its
    arguments. *)
Inductive view :=
| VFail
| VLeaf (size : Z)
| VLoop (size level : Z)
| VNode (size : Z) (ch : list value)
| VPtr (size : Z) (target : value)
| VCall (args : list value).

(** loops over members and elements, value_deep.c:411-419, 471-479; [None]: failure *)
Fixpoint members_from (v : value) (count : nat) (i : Z) : res (option (list value)) :=
  match count with
  | O => Ret (Some [])
  | S k =>
    do x <- new_value_by_member_id n d v i true;
    match x with
    | None => Ret None
    | Some w => do r <- members_from v k (i + 1); Ret (option_map (cons w) r)
    end
  end.
Fixpoint elements_from (v : value) (count : nat) (i : Z) : res (option (list value)) :=
  match count with
  | O => Ret (Some [])
  | S k =>
    do x <- new_value_by_element_id n d v i true;
    match x with
    | None => Ret None
    | Some w => do r <- elements_from v k (i + 1); Ret (option_map (cons w) r)
    end
  end.

Variable M : mode.

(** value_deep.c:382-438 start state of structs and unions *)
Definition look_aggr (m : mem) (k : aggr) (anc : list value) (v : value) : res view :=
  do z <- byte_size n d (Some (v_entry v));
  match z with
  | inr _ => Ret VFail
  | inl sz =>
    do mcount <- member_count n d (Some (v_entry v));
    match k with
    | AUnion =>
      if 0 <? mcount then
        do h <- en_handler E m RQVST_union_member (v :: anc);
        if negb (fst h =? 0) then Ret VFail
        else match snd h with
             | Some w => Ret (VNode sz [w])
             | None => match mo_union M with UNION_fail => Ret VFail | _ => Ret (VNode sz []) end
             end
      else Ret (VNode sz [])
    | _ => do l <- members_from v (Z.to_nat mcount) 0;
           Ret (match l with Some l => VNode sz l | None => VFail end)
    end
  end.

(** value_deep.c:439-504 start state of arrays. The size stays 0 when there are no elements. *)
Definition look_array (m : mem) (anc : list value) (v : value) : res view :=
  do c <- element_count n d (Some (v_entry v));
  do local <- (if c =? -1 then
                 do h <- en_handler E m RQVST_flex_array_count (v :: anc);
                 if negb (fst h =? 0) then Ret None
                 else match snd h with
                      | Some w => Ret (Some w)
                      | None => match mo_flx M with
                                | FLXARR_fail => Ret None
                                | FLXARR_ignore => new_element_count_value n d m v 0 true
                                end
                      end
               else Ret (Some v));
  match local with
  | None => Ret VFail
  | Some w =>
    do c <- element_count n d (Some (v_entry w));
    do l <- elements_from w (Z.to_nat c) 0;
    match l with
    | None => Ret VFail
    | Some [] => Ret (VNode 0 [])
    | Some (x :: r) =>
      do z <- byte_size n d (Some (v_entry w));
      Ret (match z with inl sz => VNode sz (x :: r) | inr _ => VFail end)
    end
  end.

(** value_deep.c:571-695 start state of pointers *)
Definition look_pointer (m : mem) (anc : list value) (v : value) : res view :=
  do z <- byte_size n d (Some (v_entry v));
  match z with
  | inr _ => Ret VFail
  | inl sz =>
    do x <- value_pointer n d m v;
    match x with
    | inl _ => Ret VFail
    | inr p =>
      if p =? 0 then Ret (VLeaf sz)
      else
        do l <- level_introduced_loop m v anc;
        if 0 <? l then Ret (VLoop sz l)
        else
          do h <- en_handler E m RQVST_pointer_array_count (v :: anc);
          if negb (fst h =? 0) then Ret VFail
          else
            do vp <- is_void_pointer n d (Some (v_entry v));
            do dp <- is_declaration_pointer n d (Some (v_entry v));
            match snd h, vp || dp, mo_uptr M with
            | None, true, UPTR_fail => Ret VFail
            | None, true, UPTR_as_values | None, true, UPTR_ignore => Ret (VLeaf sz)
            | _, _, _ =>
              do w <- match snd h, vp || dp with
                      | Some w, _ => Ret (Some w)
                      | None, true => (* as one byte: an array of one unsigned char *)
                          Ret (new_value (Dy (Build_entry None false (IArray (Some (en_uchar E)) 1))) p true)
                      | None, false => new_element_count_value n d m v 1 true
                      end;
              match w with
              | None => Ret VFail
              | Some w =>
                do ha <- value_kind_is w is_array_info;
                Ret (if ha then VPtr sz w else VFail)
              end
            end
    end
  end.

(** value_deep.c:758-787 start state of functions and unspecified parameters. An item without address has no value
    (src/value.c:720-722); the items before it, whose entries would be made and deleted again, are not visited here. *)
Definition look_call (v : value) : view :=
  let l := en_items E (v_addr v) in
  if existsb (fun w => v_addr w =? 0) l then VFail else VCall l.
(** functions, function types, unspecified parameters: what has a parameter load besides va_list parameters,
    src/entry.c:540-546 *)
Definition is_call_info (i : info) : bool :=
  match i with IParam true _ | ISubprogram _ _ | ISubroutine _ _ => true | _ => false end.

(** value_deep.c:349-381, 571, 758, 858-862 the dispatch on the kind. Classes, references and unknown kinds fail.
    (Something else than a parameter whose type is an unspecified parameter would trip the assert of line 763.) *)
Definition look (m : mem) (anc : list value) (v : value) : res view :=
  if en_va E (v_entry v) then Abort
  else
    do f <- final_info v;
    match f with
    | Some (IBase _ _) | Some (IEnum _ _) =>
        do z <- byte_size n d (Some (v_entry v));
        Ret (match z with inl sz => VLeaf sz | inr _ => VFail end)
    | Some (IAggr AStruct _ _) => look_aggr m AStruct anc v
    | Some (IAggr AUnion _ _) => look_aggr m AUnion anc v
    | Some (IArray _ _) => look_array m anc v
    | Some (IPointer _) => look_pointer m anc v
    | Some (IParam true _) | Some (ISubprogram _ _) | Some (ISubroutine _ _) => Ret (look_call v)
    | _ => Ret VFail
    end.

(** State of the construction: next identity, hash map, identities of deleted entries. *)
Record bst := { b_next : nat; b_hash : list hent; b_dead : list nat }.
(** Deleting entries (value_deep.c:532-566, 709-723). *)
Definition kill (s : bst) (l : list nat) : bst := Build_bst (b_next s) (b_hash s) (l ++ b_dead s).
Definition fresh (s : bst) : nat * bst := (b_next s, Build_bst (S (b_next s)) (b_hash s) (b_dead s)).
Fixpoint hfind (l : list hent) (a : Z) : option hent :=
  match l with [] => None | h :: r => if h_addr h =? a then Some h else hfind r a end.
Fixpoint hput (l : list hent) (x : hent) : list hent :=
  match l with [] => [x] | h :: r => if h_addr h =? h_addr x then x :: r else h :: hput r x end.

(** value_deep.c:513-523 the children are attached one by one; byte_size grows when a child (a flexible array at the
    end) reaches beyond it *)
Fixpoint grow (v : value) (size : Z) (l : list ment) : res Z :=
  match l with
  | [] => Ret size
  | c :: r =>
    if v_addr (me_val c) <? v_addr v then Abort
    else
      let e := uwrap 64 (uwrap 64 (v_addr (me_val c) - v_addr v) + me_size c) in
      grow v (if size <? e then e else size) r
  end.
(** value_deep.c:727-755 the entry a pointer points to goes to the hash map, unless one at the same address is as
    big. Reading the size of a deleted entry: [Ub]. *)
Definition register (s : bst) (c : ment) : res bst :=
  if mo_tree M then Ret s
  else
    let x := Build_hent (v_addr (me_val c)) (me_id c) (me_size c) in
    match hfind (b_hash s) (h_addr x) with
    | None => Ret (Build_bst (b_next s) (hput (b_hash s) x) (b_dead s))
    | Some prev =>
      if existsb (Nat.eqb (h_id prev)) (b_dead s) then Ub
      else if h_size prev <? h_size x then Ret (Build_bst (b_next s) (hput (b_hash s) x) (b_dead s))
      else Ret s
    end.

(** finished children: all of them, or failure and those to be deleted *)
Fixpoint all_some {A} (l : list (option A)) : option (list A) :=
  match l with
  | [] => Some []
  | None :: _ => None
  | Some a :: r => option_map (cons a) (all_some r)
  end.
Definition built (l : list (option ment)) : list nat :=
  flat_map (fun o => match o with Some e => ids e | None => [] end) l.

(** value_deep.c:346-864 the traversal. [None]: fail. *)
Fixpoint build (fuel : nat) (m : mem) (anc : list value) (v : value) (s : bst) : res (option ment * bst) :=
  match fuel with
  | O => OutOfFuel
  | S k =>
    do w <- look m anc v;
    match w with
    | VFail => Ret (None, s)
    | VLeaf sz => let '(i, s) := fresh s in Ret (Some (ME i v sz 0 []), s)
    | VLoop sz l => let '(i, s) := fresh s in Ret (Some (ME i v sz l []), s)
    | VNode sz ch =>
      do '(rs, s) <- (fix go (l : list value) (s : bst) : res (list (option ment) * bst) :=
                        match l with
                        | [] => Ret ([], s)
                        | c :: r => do '(x, s) <- build k m (v :: anc) c s;
                                    do '(xs, s) <- go r s;
                                    Ret (x :: xs, s)
                        end) ch s;
      match all_some rs with
      | None => Ret (None, kill s (built rs))
      | Some l => do sz <- grow v sz l;
                  let '(i, s) := fresh s in Ret (Some (ME i v sz 0 l), s)
      end
    | VPtr sz t =>
      do '(x, s) <- build k m (v :: anc) t s;
      match x with
      | None => Ret (None, s)
      | Some c => let '(i, s) := fresh s in
                  do s <- register s c;
                  Ret (Some (ME i v sz 0 [c]), s)
      end
    | VCall ch => (* lines 788-855 *)
      do '(rs, s) <- (fix go (l : list value) (s : bst) : res (list (option ment) * bst) :=
                        match l with
                        | [] => Ret ([], s)
                        | c :: r => do '(x, s) <- build k m (v :: anc) c s;
                                    do '(xs, s) <- go r s;
                                    Ret (x :: xs, s)
                        end) ch s;
      match all_some rs with
      | None => Ret (None, kill s (built rs))
      | Some l => let '(i, s) := fresh s in Ret (Some (ME i v 0 0 l), s)
      end
    end
  end.

(** qsort by address, value_deep.c:249-258, 282 (the keys are distinct: the result does not depend on the algorithm) *)
Fixpoint insert (x : hent) (l : list hent) : list hent :=
  match l with [] => [x] | h :: r => if h_addr x <=? h_addr h then x :: l else h :: insert x r end.
Fixpoint sort (l : list hent) : list hent := match l with [] => [] | h :: r => insert h (sort r) end.
(** value_deep.c:284-312 the sweep line; [main] and [msize] are p_main and p_main_entry->byte_size. The result
    lists the assignments to offset_from_allocate_base. Pointers wrap at 2^64; byte_size is unsigned, so the test
    byte_size <= 0 is byte_size == 0. The warning about partial overlaps only prints. *)
Fixpoint sweep (l : list hent) (main msize : Z) : list (nat * Z) :=
  match l with
  | [] => []
  | h :: r =>
    if h_size h <=? 0 then sweep r main msize
    else if main =? 0 then sweep r (h_addr h) (h_size h)
    else if uwrap 64 (main + msize) <=? h_addr h then sweep r (h_addr h) (h_size h)
    else (h_id h, uwrap 64 (h_addr h - main)) :: sweep r main msize
  end.
(** value_deep.c:260-315 _identify_allocatable_entries *)
Definition identify (l : list hent) : list (nat * Z) := sweep (sort l) 0 0.

(** value_deep.c:325-885 metac_new_value_memory_map_ex *)
Definition new_memory_map (fuel : nat) (m : mem) (v : value) : res (option mmap) :=
  do '(x, s) <- build fuel m [] v (Build_bst O [] []);
  Ret (match x with
       | None => None
       | Some top =>
         if mo_tree M then Some (Build_mmap top None [])
         else Some (Build_mmap top (Some (b_hash s)) (identify (b_hash s)))
       end).
Definition hash_of (mm : mmap) : list hent := match mm_hash mm with Some l => l | None => [] end.

Variable ord : list hent -> list hent.

(** value_deep.c:891-903 _value_free over the hash map: the addresses passed to free_fn *)
Definition strong (mm : mmap) (h : hent) : bool := off_of (mm_off mm) (h_id h) =? 0.
Definition freed (mm : mmap) : list Z := map h_addr (filter (strong mm) (ord (hash_of mm))).
End Deep.

(** value_deep.c:905-930 metac_value_free_ex: the returned flag and the addresses passed to free_fn. The memory map
    is always built in DAG mode. *)
Definition dag (M : mode) : mode := Build_mode false (mo_uptr M) (mo_union M) (mo_flx M).
Definition free_ex (E : env) (M : mode) (ord : list hent -> list hent) (fuel : nat) (m : mem) (v : value) : res (Z * list Z) :=
  do mm <- new_memory_map E (dag M) fuel m v;
  Ret (match mm with None => (0, []) | Some mm => (1, freed ord mm) end).

(** * Comparison *)
Section EqualDeep.
Variable E : env.
Variable M : mode.
Variable feq : ctype -> Z -> Z -> bool.
Let n := en_fuel E.
Let d := en_db E.
Let g := en_garbage E.

(** memcmp(a, b, k) == 0 *)
Fixpoint mem_equal (m : mem) (a b : Z) (k : nat) : bool :=
  match k with O => true | S k => (m a =? m b) && mem_equal m (a + 1) (b + 1) k end.
(** what a finished entry reports: failure, and whether cmp_res was left alone *)
Definition leaf_result (r : Z) : bool * bool := if r <? 0 then (true, true) else (false, negb (r =? 0)).

(** value_deep.c:1305-1366 the tests on a pair of entries, before the children: [inl] finished, [inr] go on *)
Definition equal_here (m : mem) (o1 o2 : list (nat * Z)) (e1 e2 : ment) : res (bool * bool + unit) :=
  do f1 <- final_info E (me_val e1);
  do f2 <- final_info E (me_val e2);
  let kind f := match f with Some i => kind_of i | None => KND_invalid end in
  if negb (me_size e1 =? me_size e2) || negb (Nat.eqb (length (me_ch e1)) (length (me_ch e2)))
     || negb (me_loop e1 =? me_loop e2) || negb (off_of o1 (me_id e1) =? off_of o2 (me_id e2))
     || negb (kind f1 =? kind f2)
  then Ret (inl (false, false))
  else
    match f1, f2 with
    | Some (IPointer _), Some (IPointer _) =>
        match me_ch e1 with
        | [] => match mo_uptr M with
                | UPTR_as_values => do r <- value_equal_pointer n d m (me_val e1) (me_val e2); Ret (inl (leaf_result r))
                | _ => Ret (inl (false, true))
                end
        | _ => Ret (inr tt)
        end
    | Some (IEnum _ _), Some (IEnum _ _) =>
        do r <- value_equal_enumeration n d m (me_val e1) (me_val e2); Ret (inl (leaf_result r))
    | Some (IBase _ _), Some (IBase _ _) =>
        do r <- value_equal_base_type feq n d g m (me_val e1) (me_val e2); Ret (inl (leaf_result r))
    | Some (IAggr AUnion _ _), Some (IAggr AUnion _ _) =>
        match mo_union M, me_ch e1 with
        | UNION_as_mem, [] =>
            if (0 <? me_size e1) && negb (mem_equal m (v_addr (me_val e1)) (v_addr (me_val e2)) (Z.to_nat (me_size e1)))
            then Ret (inl (false, false)) else Ret (inr tt)
        | _, _ => Ret (inr tt)
        end
    | _, _ => Ret (inr tt)
    end.

(** value_deep.c:1294-1402 the traversal: (some entry failed, cmp_res is still 1) *)
Fixpoint equal_tree (m : mem) (o1 o2 : list (nat * Z)) (e1 e2 : ment) : res (bool * bool) :=
  do h <- equal_here m o1 o2 e1 e2;
  match h with
  | inl r => Ret r
  | inr _ =>
    (fix go (l1 l2 : list ment) : res (bool * bool) :=
       match l1, l2 with
       | [], [] => Ret (false, true)
       | c1 :: r1, c2 :: r2 => do '(f, c) <- equal_tree m o1 o2 c1 c2;
                               do '(fs, cs) <- go r1 r2;
                               Ret (f || fs, c && cs)
       | _, _ => Abort
       end) (me_ch e1) (me_ch e2)
  end.

(** value_deep.c:1269-1413 metac_value_equal_ex *)
Definition equal_ex (fuel : nat) (m : mem) (v1 v2 : value) : res Z :=
  do m1 <- new_memory_map E M fuel m v1;
  match m1 with
  | None => Ret (- EFAULT)
  | Some m1 =>
    do m2 <- new_memory_map E M fuel m v2;
    match m2 with
    | None => Ret (- EFAULT)
    | Some m2 =>
      do '(f, c) <- equal_tree m (mm_off m1) (mm_off m2) (mm_top m1) (mm_top m2);
      Ret (if f then - EFAULT else if c then 1 else 0)
    end
  end.
End EqualDeep.

(** * Copy *)
(** What the caller can observe of the allocators: calls of calloc_fn with their result, of free_fn, and of
    the C library's free. *)
Inductive mem_event := EvCalloc (a size : Z) | EvFree (a : Z) | EvLibcFree (a : Z).
(** State of a copy: memory, number of calls of calloc_fn so far, the calls (latest first), the items of the parameter
    storages, the number of buffers and storages made. *)
Record cst := { c_mem : mem; c_calls : nat; c_log : list mem_event; c_items : Z -> list value; c_bufs : nat }.

Section Copy.
Variable E : env.
Variable M : mode.
Variable ord : list hent -> list hent.
(** the address the k-th call of calloc_fn returns for that many bytes; 0: NULL *)
Variable cal : nat -> Z -> Z.
(** value_deep.c:1017-1035 the comparison of the C declarations of the two final types *)
Variable same_decl : option eptr -> option eptr -> res bool.
Let n := en_fuel E.
Let d := en_db E.
Let g := en_garbage E.

Definition zero_fill (m : mem) (a size : Z) : mem := fun x => if (a <=? x) && (x <? a + size) then 0 else m x.
Definition calloc (s : cst) (size : Z) : Z * cst :=
  let a := cal (c_calls s) size in
  (a, Build_cst (if a =? 0 then c_mem s else zero_fill (c_mem s) a size) (S (c_calls s))
                (if a =? 0 then c_log s else EvCalloc a size :: c_log s) (c_items s) (c_bufs s)).
Definition log (s : cst) (e : mem_event) : cst := Build_cst (c_mem s) (c_calls s) (e :: c_log s) (c_items s) (c_bufs s).
Definition with_mem (s : cst) (m : mem) : cst := Build_cst m (c_calls s) (c_log s) (c_items s) (c_bufs s).

(** value_deep.c:940-966 _value_copy_preallocate over the hash map; src_to_dst; [false]: preallocation_failed *)
Fixpoint preallocate (off : list (nat * Z)) (l : list hent) (s : cst) (tab : list (Z * Z)) : bool * cst * list (Z * Z) :=
  match l with
  | [] => (true, s, tab)
  | h :: r =>
    if off_of off (h_id h) =? 0 then
      let '(a, s) := calloc s (h_size h) in
      if a =? 0 then (false, s, tab) else preallocate off r s (tab ++ [(h_addr h, a)])
    else preallocate off r s tab
  end.
Definition dst_of (tab : list (Z * Z)) (src : Z) : Z :=
  match find (fun p => fst p =? src) tab with Some p => snd p | None => 0 end.
(** value_deep.c:968-982 _value_copy_free over src_to_dst *)
Definition free_all (tab : list (Z * Z)) (s : cst) : cst := fold_left (fun s p => log s (EvFree (snd p))) tab s.

(** value_deep.c:1100-1125 where the child of a pointer goes; 0: fail *)
Definition child_block (off : list (nat * Z)) (tab : list (Z * Z)) (c : ment) (s : cst) : Z * cst :=
  if mo_tree M then calloc s (me_size c)
  else
    let src := v_addr (me_val c) in
    let o := off_of off (me_id c) in
    if negb (o =? 0) then
      let a := dst_of tab (uwrap 64 (src - o)) in
      (if a =? 0 then 0 else uwrap 64 (a + o), s)
    else (dst_of tab src, s).

(** value_deep.c:1077-1183 the start state of an entry: [None] fail; otherwise the state and, for a pointer with a
    child, the address of the child's copy *)
Definition copy_here (off : list (nat * Z)) (tab : list (Z * Z)) (anc : list value) (e : ment) (dst : value) (s : cst)
  : res (option (option Z) * cst) :=
  do f <- final_info E (me_val e);
  let ok (r : bool * mem) := Ret (if fst r then Some None else None, with_mem s (snd r)) in
  match f with
  | Some (IPointer _) =>
    match me_ch e with
    | c :: _ =>
      let '(a, s) := child_block off tab c s in
      if a =? 0 then Ret (None, s)
      else
        do x <- value_pointer n d (c_mem s) (me_val e);
        match x with
        | inl _ => Abort
        | inr p =>
          if p =? 0 then Abort
          else
            let field := uwrap 64 (p - v_addr (me_val c)) in
            do r <- value_set_pointer n d (c_mem s) dst (uwrap 64 (a + field));
            Ret (if fst r =? 0 then Some (Some a) else None, with_mem s (snd r))
        end
    | [] =>
      if 0 <? me_loop e then
        match nth_error anc (Z.to_nat (me_loop e - 1)) with
        | None => Ret (None, s)
        | Some p =>
          do is <- value_kind_is E p is_pointer_info;
          if is then do r <- value_copy_pointer n d (c_mem s) p dst; ok r else Abort
        end
      else
        match mo_uptr M with
        | UPTR_ignore => do r <- value_set_pointer n d (c_mem s) dst 0; ok (fst r =? 0, snd r)
        | UPTR_as_values => do r <- value_copy_pointer n d (c_mem s) (me_val e) dst; ok r
        | _ => Ret (Some None, s)
        end
    end
  | Some (IEnum _ _) => do r <- value_copy_enumeration n d (c_mem s) (me_val e) dst; ok r
  | Some (IBase _ _) => do r <- value_copy_base_type n d g (c_mem s) (me_val e) dst; ok r
  | Some (IAggr AUnion _ _) =>
    match me_ch e, mo_union M with
    | [], UNION_as_mem =>
        if 0 <? me_size e
        then Ret (Some None, with_mem s (copy_bytes (c_mem s) (v_addr (me_val e)) (c_mem s) (v_addr dst) (me_size e)))
        else Ret (Some None, s)
    | [], UNION_ignore =>
        if 0 <? me_size e then Ret (Some None, with_mem s (zero_fill (c_mem s) (v_addr dst) (me_size e)))
        else Ret (Some None, s)
    | _, _ => Ret (Some None, s)
    end
  | _ => Ret (Some None, s)
  end.

(** src/value_with_args.c:86-163 a new item of the storage [dst]: a buffer with the content [m], or an empty storage *)
Definition append_item (s : cst) (dst : Z) (e : eptr) (m : mem) : cst :=
  let a := en_buf E (c_bufs s) in
  let put b l f := fun x => if x =? b then l else f x in
  Build_cst m (c_calls s) (c_log s)
            (put dst (c_items s dst ++ [Build_value e a]) (put a [] (c_items s))) (S (c_bufs s)).
(** src/value_with_args.c:165-197 metac_parameter_storage_copy of the storage of [e] to [dst]. The items of a storage are the
    children of its entry in the memory map; the buffer of an item has the size of its type (C54). An item of size 0 that is
    no storage trips the assert of line 151. *)
Fixpoint storage_copy (e : ment) (dst : Z) (s : cst) : res cst :=
  (fix go (l : list ment) (s : cst) : res cst :=
     match l with
     | [] => Ret s
     | c :: r =>
       let w := me_val c in
       let a := en_buf E (c_bufs s) in
       match e_info (deref d (v_entry w)) with
       | IParam true _ =>
         do s <- storage_copy c a (append_item s dst (v_entry w) (c_mem s));
         go r s
       | _ =>
         do z <- byte_size n d (Some (v_entry w));
         match z with
         | inr _ => Abort
         | inl sz =>
           if sz =? 0 then Abort
           else go r (append_item s dst (v_entry w) (copy_bytes (c_mem s) (v_addr w) (zero_fill (c_mem s) a sz) a sz))
         end
       end
     end) (me_ch e) s.

(** value_deep.c:1068-1222 the traversal; [true]: done, [false]: fail. After a failed child of a pointer in tree mode the
    child's block is released with the C library's free (1200-1206). A NULL address of a child's copy trips
    assert(p_dst_val != NULL). *)
Fixpoint copy_tree (off : list (nat * Z)) (tab : list (Z * Z)) (anc : list value) (e : ment) (dst : value) (s : cst)
  : res (bool * cst) :=
  do f <- final_info E (me_val e);
  if match f with Some i => is_call_info i | None => false end then (* lines 1149-1173 *)
    match c_items s (v_addr dst) with
    | _ :: _ => Ret (false, s)
    | [] =>
      do s <- storage_copy e (v_addr dst) s;
      (fix go (l : list ment) (ds : list value) (s : cst) : res (bool * cst) :=
         match l, ds with
         | [], _ => Ret (true, s)
         | c :: r, w :: dr =>
           if v_addr w =? 0 then Abort
           else do '(b, s) <- copy_tree off tab (dst :: anc) c w s;
                do '(bs, s) <- go r dr s;
                Ret (b && bs, s)
         | _ :: _, [] => Abort
         end) (me_ch e) (c_items s (v_addr dst)) s
    end
  else
  do '(h, s) <- copy_here off tab anc e dst s;
  match h with
  | None => Ret (false, s)
  | Some over =>
    let ptr := match f with Some (IPointer _) => true | _ => false end in
    (fix go (l : list ment) (s : cst) : res (bool * cst) :=
       match l with
       | [] => Ret (true, s)
       | c :: r =>
         let a := match over with
                  | Some a => a
                  | None => uwrap 64 (v_addr dst + uwrap 64 (v_addr (me_val c) - v_addr (me_val e)))
                  end in
         if a =? 0 then Abort
         else
           do '(b, s) <- copy_tree off tab (dst :: anc) c (Build_value (v_entry (me_val c)) a) s;
           do '(bs, s) <- go r s;
           Ret (b && bs, if negb b && ptr && mo_tree M then log s (EvLibcFree a) else s)
       end) (me_ch e) s
  end.

(** value_deep.c:984-1267 metac_value_copy_ex with non-NULL arguments; [true]: p_dst_val is returned, [false]: NULL *)
Definition copy_ex (fuel : nat) (src dst : value) (s : cst) : res (bool * cst) :=
  do f1 <- final_if n d (Some (v_entry src)) (fun _ => true);
  do f2 <- final_if n d (Some (v_entry dst)) (fun _ => true);
  match f1, f2 with
  | Some _, Some _ =>
    do same <- same_decl f1 f2;
    if negb same then Ret (false, s)
    else
      do mm <- new_memory_map E M fuel (c_mem s) src;
      match mm with
      | None => Ret (false, s)
      | Some mm =>
        let '(ok, s, tab) := if mo_tree M then (true, s, []) else preallocate (mm_off mm) (ord (hash_of mm)) s [] in
        if negb ok then Ret (false, free_all tab s)
        else
          do '(b, s) <- copy_tree (mm_off mm) tab [] (mm_top mm) dst s;
          Ret (b, if b then s else free_all tab s)
      end
  | _, _ => Ret (false, s)
  end.
End Copy.

(** Specification of parameter storages: the tree a storage represents, independent of the functions of the model. *)
From Coq Require Import ZArith List Bool Permutation.
From Verif Require Import Base EntryModel PStorModel.
Import ListNotations.
Open Scope Z_scope.

(** The entry of a parameter: of the database or a private block. *)
Inductive pentry := PStatic (r : ref) | PDyn (q : ptr) (e : entry).
(** A parameter at [p]: with a buffer of bytes at [a], with a nested storage at [s], or with a nested storage that could
    not be allocated. *)
Inductive node :=
| NBuf (p : ptr) (e : pentry) (a : ptr) (b : list Z)
| NStor (p : ptr) (e : pentry) (s : ptr) (l : list node)
| NNull (p : ptr) (e : pentry).

Definition nptr (n : node) : ptr := match n with NBuf p _ _ _ | NStor p _ _ _ | NNull p _ => p end.
Definition nentry (n : node) : pentry := match n with NBuf _ e _ _ | NStor _ e _ _ | NNull _ e => e end.
Definition naddr (n : node) : ptr := match n with NBuf _ _ a _ => a | NStor _ _ s _ => s | NNull _ _ => null end.
Definition nsize (n : node) : Z := match n with NBuf _ _ _ b => Z.of_nat (length b) | _ => 0 end.
Definition raw_entry (e : pentry) : entry_ptr := match e with PStatic r => EStatic r | PDyn q _ => EBlock q end.
Definition entry_block (e : pentry) : list ptr := match e with PStatic _ => [] | PDyn q _ => [q] end.
Definition entry_holds (h : heap) (e : pentry) : Prop :=
  match e with PStatic _ => True | PDyn q x => q <> null /\ h_blk h q = Some (BEntry x) end.

(** All blocks of a parameter besides its own list element, at every depth. *)
Fixpoint owned (n : node) : list ptr :=
  match n with
  | NBuf _ e a _ => entry_block e ++ [a]
  | NStor _ e s l => entry_block e ++ s :: flat_map (fun x => nptr x :: owned x) l
  | NNull _ e => entry_block e
  end.
Definition blocks_of (n : node) : list ptr := nptr n :: owned n.
Definition all_blocks (l : list node) : list ptr := flat_map blocks_of l.

Definition first_of (l : list node) (d : ptr) : ptr := match l with [] => d | x :: _ => nptr x end.
Definition last_of (l : list node) (d : ptr) : ptr := last (map nptr l) d.
Definition param_of (n : node) (nx : ptr) (pv : prev_ptr) : param := Build_param (nsize n) (raw_entry (nentry n)) (naddr n) nx pv.
Definition header (l : list node) : block := BStorage (Build_storage (first_of l null) (Z.of_nat (length l)) (last_of l null)).

(** The contents of a parameter are in memory; nested lists are linked in both directions. *)
Fixpoint contents (h : heap) (n : node) : Prop :=
  match n with
  | NBuf _ e a b => entry_holds h e /\ a <> null /\ b <> [] /\ h_blk h a = Some (BBytes b)
  | NStor _ e s l => entry_holds h e /\ s <> null /\ h_blk h s = Some (header l) /\
      (fix linked (l : list node) (pv : prev_ptr) : Prop :=
         match l with
         | [] => True
         | x :: r => nptr x <> null /\ h_blk h (nptr x) = Some (BParam (param_of x (first_of r null) pv)) /\ contents h x /\ linked r (PNext (nptr x))
         end) l (PHead s)
  | NNull _ e => entry_holds h e
  end.
Fixpoint chain (h : heap) (l : list node) (pv : prev_ptr) (nx : ptr) : Prop :=
  match l with
  | [] => True
  | x :: r => nptr x <> null /\ h_blk h (nptr x) = Some (BParam (param_of x (first_of r nx) pv)) /\ contents h x /\ chain h r (PNext (nptr x)) nx
  end.
(** [stores h s l]: the storage at [s] consists of the parameters [l], and no two of its blocks coincide. *)
Definition stores (h : heap) (s : ptr) (l : list node) : Prop :=
  s <> null /\ h_blk h s = Some (header l) /\ chain h l (PHead s) null /\ NoDup (s :: all_blocks l).

(** Allocated blocks have been handed out. *)
Definition heap_ok (h : heap) : Prop := (0 < h_next h)%nat /\ h_blk h null = None /\ forall q, (h_next h <= q)%nat -> h_blk h q = None.
(** From [h] to [h'] only the blocks in [old] were touched and only the blocks in [new] were made. *)
Definition touched (h h' : heap) (old new : list ptr) : Prop :=
  h_ok h' = h_ok h /\ (h_next h <= h_next h')%nat /\ (forall q, In q new -> (h_next h <= q < h_next h')%nat) /\
  forall q, ~ In q old -> ~ In q new -> h_blk h' q = h_blk h q.
(** Exactly the blocks in [l] are no longer allocated. *)
Definition freed (h h' : heap) (l : list ptr) : Prop :=
  h_ok h' = h_ok h /\ h_next h' = h_next h /\ (forall q, In q l -> h_blk h' q = None) /\ forall q, ~ In q l -> h_blk h' q = h_blk h q.

(** What a parameter means to a user: addresses removed. *)
Inductive shape := SBuf (e : ref + entry) (b : list Z) | SStor (e : ref + entry) (l : list shape) | SNull (e : ref + entry).
Definition entry_of (e : pentry) : ref + entry := match e with PStatic r => inl r | PDyn _ x => inr x end.
Fixpoint shape_of (n : node) : shape :=
  match n with
  | NBuf _ e _ b => SBuf (entry_of e) b
  | NStor _ e _ l => SStor (entry_of e) (map shape_of l)
  | NNull _ e => SNull (entry_of e)
  end.
(** No allocation failure in the past of the parameter; nested storages belong to parameters that may have one. *)
Fixpoint whole (va : ref -> bool) (n : node) : Prop :=
  match n with
  | NBuf _ _ _ _ => True
  | NStor _ e _ l => (exists r, e = PStatic r /\ va r = true) /\ (fix all (l : list node) : Prop := match l with [] => True | x :: r => whole va x /\ all r end) l
  | NNull _ _ => False
  end.
(** No further allocation fails. *)
Definition no_oom (h : heap) : Prop := forall n, (h_next h <= n)%nat -> h_ok h n = true.

(** What programs should do: a world of sequences of shapes. *)
Fixpoint at_nth {A : Type} (i : nat) (f : A -> A) (l : list A) : list A :=
  match l, i with [], _ => [] | x :: r, O => f x :: r | x :: r, S j => x :: at_nth j f r end.
Fixpoint ssub (path : list nat) (l : list shape) : option (list shape) :=
  match path with
  | [] => Some l
  | i :: r => match nth_error l i with Some (SStor _ li) => ssub r li | _ => None end
  end.
(** the sequence with the one at [path] replaced *)
Fixpoint splug (path : list nat) (new : list shape) (l : list shape) : list shape :=
  match path with
  | [] => new
  | i :: r => at_nth i (fun x => match x with SStor e li => SStor e (splug r new li) | _ => x end) l
  end.
Definition seq_at (w : list (list shape)) (k : nat) (path : list nat) : option (list shape) :=
  match nth_error w k with Some l => ssub path l | None => None end.
Definition put_at (w : list (list shape)) (k : nat) (path : list nat) (new : list shape) : list (list shape) := at_nth k (splug path new) w.
(** the meaning of the entry given by the caller; [ext]: entries made at run time by the caller *)
Definition means (ext : list (ptr * entry)) (e : entry_ptr) (m : ref + entry) : Prop :=
  match e, m with EStatic r, inl r' => r = r' | EBlock q, inr x => In (q, x) ext | _, _ => False end.
Fixpoint swhole (va : ref -> bool) (x : shape) : Prop :=
  match x with
  | SBuf _ _ => True
  | SStor e l => (exists r, e = inl r /\ va r = true) /\ (fix all (l : list shape) : Prop := match l with [] => True | y :: r => swhole va y /\ all r end) l
  | SNull _ => False
  end.
(** One step, its result and the sequences after it. [oom]: allocations may fail. *)
Inductive astep (va : ref -> bool) (ext : list (ptr * entry)) (oom : bool) : op -> list (list shape) -> Z -> list (list shape) -> Prop :=
| a_new : forall w, astep va ext oom ONew w 0 (w ++ [[]])
| a_new_fail : forall w r, oom = true -> r <> 0 -> astep va ext oom ONew w r w
| a_append : forall w k path e m sz l, seq_at w k path = Some l -> means ext e m -> 0 < sz ->
    astep va ext oom (OAppend k path e sz) w 0 (put_at w k path (l ++ [SBuf m (repeat 0 (Z.to_nat sz))]))
| a_append_fail : forall w k path e m sz l r, seq_at w k path = Some l -> means ext e m -> oom = true -> r <> 0 -> astep va ext oom (OAppend k path e sz) w r w
| a_append_inval : forall w k path e sz l, seq_at w k path = Some l -> sz <= 0 -> astep va ext oom (OAppend k path e sz) w (- EINVAL) w
| a_storage : forall w k path r l, seq_at w k path = Some l -> va r = true ->
    astep va ext oom (OAppendStorage k path r) w 0 (put_at w k path (l ++ [SStor (inl r) []]))
| a_storage_fail : forall w k path r l z, seq_at w k path = Some l -> va r = true -> oom = true -> z <> 0 -> astep va ext oom (OAppendStorage k path r) w z w
| a_storage_null : forall w k path r l, seq_at w k path = Some l -> va r = true -> oom = true ->
    astep va ext oom (OAppendStorage k path r) w 0 (put_at w k path (l ++ [SNull (inl r)]))
| a_write : forall w k path i b l m b0, seq_at w k path = Some l -> nth_error l i = Some (SBuf m b0) -> length b = length b0 ->
    astep va ext oom (OWrite k path i b) w 0 (put_at w k path (at_nth i (fun _ => SBuf m b) l))
| a_cleanup : forall w k path l, seq_at w k path = Some l -> astep va ext oom (OCleanup k path) w 0 (put_at w k path [])
| a_copy : forall w k path k' path' ls ld, k <> k' -> seq_at w k path = Some ls -> Forall (swhole va) ls -> seq_at w k' path' = Some ld ->
    astep va ext oom (OCopy k path k' path') w 0 (put_at w k' path' (ld ++ ls))
| a_copy_fail : forall w k path k' path' ls ld part r, k <> k' -> seq_at w k path = Some ls -> Forall (swhole va) ls -> seq_at w k' path' = Some ld ->
    oom = true -> r <> 0 -> astep va ext oom (OCopy k path k' path') w r (put_at w k' path' (ld ++ part))
| a_delete : forall w k, (k < length w)%nat -> astep va ext oom (ODelete k) w 0 (firstn k w ++ skipn (S k) w).
Inductive asteps (va : ref -> bool) (ext : list (ptr * entry)) (oom : bool) : prog -> list (list shape) -> list Z -> list (list shape) -> Prop :=
| as_done : forall w, asteps va ext oom Done w [] w
| as_then : forall o k w r w1 rs w2, astep va ext oom o w r w1 -> asteps va ext oom (k r) w1 rs w2 -> asteps va ext oom (Then o k) w (r :: rs) w2.

(** The heap holds the storages [t], the entries [ext] of the caller, and nothing else. *)
Definition tree_blocks (t : list (ptr * list node)) : list ptr := flat_map (fun x => fst x :: all_blocks (snd x)) t.
Definition world (ext : list (ptr * entry)) (st : state) (t : list (ptr * list node)) : Prop :=
  heap_ok (st_heap st) /\ st_roots st = map fst t /\ (forall s l, In (s, l) t -> stores (st_heap st) s l) /\
  (forall q x, In (q, x) ext -> h_blk (st_heap st) q = Some (BEntry x)) /\
  NoDup (tree_blocks t) /\ (forall q, In q (map fst ext) -> ~ In q (tree_blocks t)) /\
  (forall q, h_blk (st_heap st) q <> None -> In q (tree_blocks t) \/ In q (map fst ext)).
(** the sequences of a world *)
Definition seqs (t : list (ptr * list node)) : list (list shape) := map (fun x => map shape_of (snd x)) t.
(** what a program can see at a path: the entry, the address and the kind of the i-th parameter *)
Fixpoint sub_nodes (path : list nat) (s : ptr) (l : list node) : option (ptr * list node) :=
  match path with
  | [] => Some (s, l)
  | i :: r => match nth_error l i with Some (NStor _ _ t li) => sub_nodes r t li | _ => None end
  end.
(** A program using the API as documented, whatever allocation fails. *)
Fixpoint legal (va : ref -> bool) (ext : list (ptr * entry)) (oom : bool) (p : prog) (w : list (list shape)) : Prop :=
  match p with
  | Done => True
  | Then o k => (exists z w', astep va ext false o w z w') /\ forall z w', astep va ext oom o w z w' -> legal va ext oom (k z) w'
  end.
(** an entry in memory and its meaning *)
Definition entry_src (h : heap) (e : entry_ptr) (m : ref + entry) : Prop :=
  match e, m with EStatic r, inl r' => r = r' | EBlock q, inr x => h_blk h q = Some (BEntry x) | _, _ => False end.
(** deletes the first storage so many times *)
Definition delete_all (n : nat) : prog := Nat.iter n (fun p => Then (ODelete 0) (fun _ => p)) Done.

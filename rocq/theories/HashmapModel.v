(** Executable model of src/hashmap.c.

    Keys and values are [void*], modelled as integers ([0] is NULL).  The client
    supplies [hash] (a C int) and [equals]; both are section variables, so every
    theorem quantifies over them.  Memory allocation outcomes are explicit boolean
    arguments ([true] = malloc/calloc succeeds).

    Simplifications (whole file):
    - the optional HASHMAP_ENABLE_CONCURRNCEY mutex code is not modelled;
    - a chain of [Entry] nodes linked by [next] is a list, an array of chains is a
      list of lists;
    - [size] is an unbounded integer: [size++] cannot wrap because every entry
      occupies at least 32 bytes of a 64-bit address space. *)
From Coq Require Import ZArith List Bool.
Import ListNotations.
Open Scope Z_scope.

(** C conversion of an integer to a 32-bit int (two's complement wrap). *)
Definition to_i32 (x : Z) : Z := (x + 2147483648) mod 4294967296 - 2147483648.
(** C conversion to unsigned int. *)
Definition to_u32 (x : Z) : Z := x mod 4294967296.
(** C conversion to size_t. *)
Definition to_u64 (x : Z) : Z := x mod 18446744073709551616.

Definition ENOMEM : Z := 12.

(** src/hashmap.c:35-40, struct Entry without [next]. *)
Record hentry := HEntry { hk : Z; hh : Z; hv : Z }.

(** src/hashmap.c:41-50, struct Hashmap without the two function pointers. *)
Record hmap := HMap { buckets : list (list hentry); bucketCount : Z; hsize : Z }.

Section Client.
(** The client's hash function (returns int) and equals function. *)
Variable hash : Z -> Z.
Variable equals : Z -> Z -> bool.

(** src/hashmap.c:88-98 hashKey. The signed overflows of the C code are taken as
    32-bit wrap-around, which is what the compiled code does. *)
Definition hashKey (key : Z) : Z :=
  let h := to_i32 (hash key) in
  let h := to_i32 (h + Z.lnot (to_i32 (Z.shiftl h 9))) in
  let h := to_i32 (Z.lxor (to_u32 h) (Z.shiftr (to_u32 h) 14)) in
  let h := to_i32 (h + to_i32 (Z.shiftl h 4)) in
  to_i32 (Z.lxor (to_u32 h) (Z.shiftr (to_u32 h) 10)).

(** src/hashmap.c:102-104 calculateIndex. *)
Definition calculateIndex (bc h : Z) : Z := Z.land (to_u64 h) (bc - 1).

(** calloc of n pointers of 8 bytes: may fail at will, and must fail when the size does
    not fit in PTRDIFF_MAX. *)
Definition calloc_ok (oracle : bool) (n : Z) : bool := oracle && (n * 8 <? 9223372036854775808).

(** src/hashmap.c:63-67: the doubling loop of hashmapCreate. At most 63 doublings are
    possible since the bound is below 2^63; the fuel is never exhausted (proved). *)
Fixpoint create_loop (fuel : nat) (bc minimum : Z) : Z :=
  match fuel with
  | O => bc
  | S f => if bc <=? minimum then create_loop f (to_u64 (Z.shiftl bc 1)) minimum else bc
  end.

(** src/hashmap.c:52-84 hashmapCreate; [a1] is the outcome of malloc, [a2] of calloc. *)
Definition hashmapCreate (initialCapacity : Z) (a1 a2 : bool) : option hmap :=
  if a1 then
    let minimum := to_u64 (initialCapacity * 4) / 3 in
    let bc := create_loop 64 1 minimum in
    if calloc_ok a2 bc
    then Some (HMap (repeat [] (Z.to_nat bc)) bc 0)
    else None
  else None.

(** src/hashmap.c:99-101 *)
Definition hashmapSize (m : hmap) : Z := hsize m.

(** Replace the chain at position [i] of the bucket array by its image. *)
Fixpoint upd {A} (i : nat) (f : A -> A) (l : list A) : list A :=
  match l, i with
  | [], _ => []
  | x :: r, O => f x :: r
  | x :: r, S j => x :: upd j f r
  end.

(** src/hashmap.c:120-126: move one old entry to the front of its new chain. *)
Definition move_entry (nbc : Z) (nb : list (list hentry)) (e : hentry) : list (list hentry) :=
  upd (Z.to_nat (calculateIndex nbc (hh e))) (cons e) nb.

(** src/hashmap.c:105-133 expandIfNecessary; [a] is the outcome of calloc. *)
Definition expandIfNecessary (a : bool) (m : hmap) : hmap :=
  if bucketCount m * 3 / 4 <? hsize m then
    let nbc := Z.shiftl (bucketCount m) 1 in
    if calloc_ok a nbc then
      HMap (fold_left (fun nb chain => fold_left (move_entry nbc) chain nb)
                      (buckets m) (repeat [] (Z.to_nat nbc)))
           nbc (hsize m)
    else m
  else m.

(** src/hashmap.c:179-188 equalKeys. *)
Definition equalKeys (keyA hashA keyB hashB : Z) : bool :=
  if keyA =? keyB then true
  else if negb (hashA =? hashB) then false
  else equals keyA keyB.

(** The search loop shared by Put/Get/ContainsKey/Memoize/Remove (e.g. 194-220):
    first entry of the chain with an equal key. *)
Fixpoint chain_find (c : list hentry) (key h : Z) : option hentry :=
  match c with
  | [] => None
  | e :: r => if equalKeys (hk e) (hh e) key h then Some e else chain_find r key h
  end.

(** src/hashmap.c:208-215: overwrite the value of the first equal entry. *)
Fixpoint chain_replace (c : list hentry) (key h v : Z) : list hentry :=
  match c with
  | [] => []
  | e :: r => if equalKeys (hk e) (hh e) key h then HEntry (hk e) (hh e) v :: r
              else e :: chain_replace r key h v
  end.

(** src/hashmap.c:287-293: unlink the first equal entry. *)
Fixpoint chain_remove (c : list hentry) (key h : Z) : list hentry :=
  match c with
  | [] => []
  | e :: r => if equalKeys (hk e) (hh e) key h then r else e :: chain_remove r key h
  end.

Definition chain_at (m : hmap) (h : Z) : list hentry :=
  nth (Z.to_nat (calculateIndex (bucketCount m) h)) (buckets m) [].

Definition with_chain (m : hmap) (h : Z) (f : list hentry -> list hentry) (ds : Z) : hmap :=
  HMap (upd (Z.to_nat (calculateIndex (bucketCount m) h)) f (buckets m)) (bucketCount m) (hsize m + ds).

(** src/hashmap.c:190-221 hashmapPut. Result: new map, return code, and what is
    written to [*p_res] ([None] = not written). [a1] malloc of the entry, [a2] calloc of
    the growth. *)
Definition hashmapPut (m : hmap) (key v : Z) (a1 a2 : bool) : hmap * Z * option Z :=
  let h := hashKey key in
  match chain_find (chain_at m h) key h with
  | None =>
      if a1 then
        (expandIfNecessary a2 (with_chain m h (fun c => c ++ [HEntry key h v]) 1), 0, Some 0)
      else (m, - ENOMEM, None)
  | Some e => (with_chain m h (fun c => chain_replace c key h v) 0, 0, Some (hv e))
  end.

(** src/hashmap.c:222-233 hashmapGet. *)
Definition hashmapGet (m : hmap) (key : Z) : Z :=
  let h := hashKey key in
  match chain_find (chain_at m h) key h with Some e => hv e | None => 0 end.

(** src/hashmap.c:234-245 hashmapContainsKey. *)
Definition hashmapContainsKey (m : hmap) (key : Z) : bool :=
  let h := hashKey key in
  match chain_find (chain_at m h) key h with Some _ => true | None => false end.

(** src/hashmap.c:246-279 hashmapMemoize. [initialValue] is the callback applied to its
    context; the last component is the list of keys the callback was called with. The
    callback is assumed not to modify this map while it runs. *)
Definition hashmapMemoize (m : hmap) (key : Z) (initialValue : Z -> Z) (a1 a2 : bool)
  : hmap * Z * option Z * list Z :=
  let h := hashKey key in
  match chain_find (chain_at m h) key h with
  | None =>
      if a1 then
        let v := initialValue key in
        (expandIfNecessary a2 (with_chain m h (fun c => c ++ [HEntry key h v]) 1), 0, Some v, [key])
      else (m, - ENOMEM, None, [])
  | Some e => (m, 0, Some (hv e), [])
  end.

(** src/hashmap.c:280-297 hashmapRemove. *)
Definition hashmapRemove (m : hmap) (key : Z) : hmap * Z :=
  let h := hashKey key in
  match chain_find (chain_at m h) key h with
  | Some e => (with_chain m h (fun c => chain_remove c key h) (-1), hv e)
  | None => (m, 0)
  end.

(** src/hashmap.c:298-311 hashmapForEach; the callback has a state of any type and
    returns whether to go on. Inner result: state and "keep going" flag. *)
Fixpoint forEach_chain {S} (cb : S -> Z -> Z -> bool * S) (s : S) (c : list hentry) : bool * S :=
  match c with
  | [] => (true, s)
  | e :: r => match cb s (hk e) (hv e) with
              | (true, s') => forEach_chain cb s' r
              | (false, s') => (false, s')
              end
  end.
Fixpoint forEach_buckets {S} (cb : S -> Z -> Z -> bool * S) (s : S) (b : list (list hentry)) : S :=
  match b with
  | [] => s
  | c :: r => match forEach_chain cb s c with
              | (true, s') => forEach_buckets cb s' r
              | (false, s') => s'
              end
  end.
Definition hashmapForEach {S} (m : hmap) (cb : S -> Z -> Z -> bool * S) (s : S) : S :=
  forEach_buckets cb s (buckets m).

(** src/hashmap.c:312-315 hashmapCurrentCapacity. *)
Definition hashmapCurrentCapacity (m : hmap) : Z := bucketCount m * 3 / 4.

(** src/hashmap.c:316-329 hashmapCountCollisions. *)
Definition hashmapCountCollisions (m : hmap) : Z :=
  fold_left (fun acc c => acc + Z.of_nat (pred (length c))) (buckets m) 0.

(** src/hashmap.c:142-157 hashmapFree: the entries released, in order (the bucket array
    and the header follow once each). *)
Definition hashmapFree_entries (m : hmap) : list hentry := concat (buckets m).

(** The operations of a client and one step of the concrete map. *)
Inductive op :=
| OpPut (k v : Z) (a1 a2 : bool)
| OpGet (k : Z)
| OpContains (k : Z)
| OpMemoize (k : Z) (init : Z -> Z) (a1 a2 : bool)
| OpRemove (k : Z)
| OpSize.

(** What the client observes from an operation. *)
Inductive res :=
| RPut (rc : Z) (p_res : option Z)
| RGet (v : Z)
| RContains (b : bool)
| RMemoize (rc : Z) (p_res : option Z) (called : list Z)
| RRemove (v : Z)
| RSize (n : Z).

Definition step (m : hmap) (o : op) : hmap * res :=
  match o with
  | OpPut k v a1 a2 => match hashmapPut m k v a1 a2 with (m', rc, p) => (m', RPut rc p) end
  | OpGet k => (m, RGet (hashmapGet m k))
  | OpContains k => (m, RContains (hashmapContainsKey m k))
  | OpMemoize k f a1 a2 =>
      match hashmapMemoize m k f a1 a2 with (m', rc, p, l) => (m', RMemoize rc p l) end
  | OpRemove k => match hashmapRemove m k with (m', v) => (m', RRemove v) end
  | OpSize => (m, RSize (hashmapSize m))
  end.

Fixpoint run (m : hmap) (l : list op) : hmap * list res :=
  match l with
  | [] => (m, [])
  | o :: r => let (m1, x) := step m o in let (m2, xs) := run m1 r in (m2, x :: xs)
  end.
End Client.

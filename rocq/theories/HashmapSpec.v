(** Specification of the hash map: a finite map from keys (up to the client's notion of
    equality) to the stored key and the value.  Nothing here depends on the model's
    chains, hashes or bucket arrays; only the types of operations and observations
    are shared. *)
From Coq Require Import ZArith List Bool.
Import ListNotations.
From Verif Require Import HashmapModel.
Open Scope Z_scope.

(** What the client must guarantee. *)
Record client_ok (hash : Z -> Z) (equals : Z -> Z -> bool) : Prop := {
  eq_refl_ok : forall a, equals a a = true;
  eq_sym_ok : forall a b, equals a b = true -> equals b a = true;
  eq_trans_ok : forall a b c, equals a b = true -> equals b c = true -> equals a c = true;
  eq_hash_ok : forall a b, equals a b = true -> hash a = hash b }.

(** Abstract map: for every key the stored key pointer and the value. *)
Definition amap := Z -> option (Z * Z).
Definition aempty : amap := fun _ => None.
Definition aset (equals : Z -> Z -> bool) (m : amap) (k : Z) (b : option (Z * Z)) : amap :=
  fun k' => if equals k k' then b else m k'.

Definition value_or_null (b : option (Z * Z)) : Z := match b with Some (_, v) => v | None => 0 end.

(** [l] lists every binding of [m] exactly once: no two keys of [l] are equal, and
    a key is bound in [m] iff the list has its binding. *)
Definition enumerates (equals : Z -> Z -> bool) (m : amap) (l : list (Z * Z)) : Prop :=
  ForallOrdPairs (fun p q => equals (fst p) (fst q) = false) l /\
  (forall k b, m k = Some b <-> (In b l /\ equals (fst b) k = true)).

(** The abstract meaning of one operation: next map and observation.  [OpPut]/[OpMemoize]
    on an absent key need memory for the new binding; when it is refused the operation
    reports -ENOMEM, writes nothing, calls nothing and changes nothing. The outcome of the growth
    allocation ([a2]) has no influence whatsoever. *)
Inductive astep (equals : Z -> Z -> bool) : amap -> op -> amap -> res -> Prop :=
| A_put_new m k v a2 : m k = None ->
    astep equals m (OpPut k v true a2) (aset equals m k (Some (k, v))) (RPut 0 (Some 0))
| A_put_oom m k v a2 : m k = None ->
    astep equals m (OpPut k v false a2) m (RPut (-12) None)
| A_put_old m k v a1 a2 k0 v0 : m k = Some (k0, v0) ->
    astep equals m (OpPut k v a1 a2) (aset equals m k (Some (k0, v))) (RPut 0 (Some v0))
| A_get m k : astep equals m (OpGet k) m (RGet (value_or_null (m k)))
| A_contains m k : astep equals m (OpContains k) m
    (RContains (match m k with Some _ => true | None => false end))
| A_memo_new m k f a2 : m k = None ->
    astep equals m (OpMemoize k f true a2) (aset equals m k (Some (k, f k))) (RMemoize 0 (Some (f k)) [k])
| A_memo_oom m k f a2 : m k = None ->
    astep equals m (OpMemoize k f false a2) m (RMemoize (-12) None [])
| A_memo_old m k f a1 a2 k0 v0 : m k = Some (k0, v0) ->
    astep equals m (OpMemoize k f a1 a2) m (RMemoize 0 (Some v0) [])
| A_remove m k : astep equals m (OpRemove k) (aset equals m k None) (RRemove (value_or_null (m k)))
| A_size m l : enumerates equals m l ->
    astep equals m OpSize m (RSize (Z.of_nat (length l))).

Inductive arun (equals : Z -> Z -> bool) : amap -> list op -> amap -> list res -> Prop :=
| AR_nil m : arun equals m [] m []
| AR_cons m o m1 x l m2 xs : astep equals m o m1 x -> arun equals m1 l m2 xs ->
    arun equals m (o :: l) m2 (x :: xs).

(** Two abstract maps with the same content. *)
Definition same_map (m m' : amap) : Prop := forall k, m k = m' k.

(** Visiting a list with a callback until it answers false. *)
Fixpoint visit {S} (cb : S -> Z -> Z -> bool * S) (s : S) (l : list (Z * Z)) : S :=
  match l with
  | [] => s
  | (k, v) :: r => let (go, s') := cb s k v in if go then visit cb s' r else s'
  end.

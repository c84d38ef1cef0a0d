(** Property theorems C01-C04 (hash map). *)
From Coq Require Import ZArith List Bool.
Import ListNotations.
From Verif Require Import HashmapModel HashmapSpec HashmapProof.
Open Scope Z_scope.

(** C01: every history of operations behaves like a finite map. *)
Theorem C01_hashmap_is_finite_map : forall hash equals, client_ok hash equals ->
  forall c a1 a2 m ops, hashmapCreate c a1 a2 = Some m ->
  exists a, arun equals aempty ops a (snd (run hash equals m ops)) /\
    forall k, hashmapGet hash equals (fst (run hash equals m ops)) k = value_or_null (a k) /\
              hashmapContainsKey hash equals (fst (run hash equals m ops)) k
                = match a k with Some _ => true | None => false end.
Proof. exact hashmap_refines. Qed.
Print Assumptions C01_hashmap_is_finite_map.

(** C02: size and iteration. *)
Theorem C02_size_and_foreach : forall hash equals, client_ok hash equals ->
  forall c a1 a2 m ops, hashmapCreate c a1 a2 = Some m ->
  let m' := fst (run hash equals m ops) in
  exists a l, arun equals aempty ops a (snd (run hash equals m ops)) /\
    enumerates equals a l /\
    hashmapSize m' = Z.of_nat (length l) /\
    (forall S (cb : S -> Z -> Z -> bool * S) s, hashmapForEach m' cb s = visit cb s l) /\
    map (fun e => (hk e, hv e)) (hashmapFree_entries m') = l.
Proof. exact hashmap_foreach. Qed.
Print Assumptions C02_size_and_foreach.

(** The collision count is the number of entries minus the number of occupied buckets. *)
Theorem C02_collisions : forall hash equals, client_ok hash equals ->
  forall c a1 a2 m ops, hashmapCreate c a1 a2 = Some m ->
  let m' := fst (run hash equals m ops) in
  exists occupied, NoDup occupied /\ (forall i, In i occupied <-> nth i (buckets m') [] <> []) /\
    hashmapCountCollisions m' = hashmapSize m' - Z.of_nat (length occupied).
Proof. exact hashmap_collisions. Qed.
Print Assumptions C02_collisions.

(** C03: failed allocations. A failing put or memoize leaves the very same map and does not call the
    callback; it fails only when the entry allocation fails. *)
Theorem C03_put_oom_atomic : forall hash equals m k v a1 a2 m' rc p,
  hashmapPut hash equals m k v a1 a2 = (m', rc, p) -> rc <> 0 ->
  rc = - ENOMEM /\ a1 = false /\ m' = m.
Proof. exact oom_atomic_put. Qed.
Print Assumptions C03_put_oom_atomic.

Theorem C03_memoize_oom_atomic : forall hash equals m k f a1 a2 m' rc p l,
  hashmapMemoize hash equals m k f a1 a2 = (m', rc, p, l) -> rc <> 0 ->
  rc = - ENOMEM /\ a1 = false /\ m' = m /\ l = [].
Proof. exact oom_atomic_memoize. Qed.
Print Assumptions C03_memoize_oom_atomic.

(** Failures of the growth allocation are invisible: two histories that differ only in them
    give the same observations. *)
Theorem C03_growth_failure_invisible : forall hash equals, client_ok hash equals ->
  forall c a1 a2 m ops1 ops2, hashmapCreate c a1 a2 = Some m ->
  map forget_growth ops1 = map forget_growth ops2 ->
  snd (run hash equals m ops1) = snd (run hash equals m ops2).
Proof. exact growth_invisible. Qed.
Print Assumptions C03_growth_failure_invisible.

(** The header (include/metac/backend/hashmap.h:47-53) promises that [*p_res] is set to NULL when
    memory allocation fails; the code does not write it. *)
Theorem C03_header_promise_refuted :
  exists hash equals m k v, client_ok hash equals /\ hashmapCreate 4 true true = Some m /\
    snd (hashmapPut hash equals m k v false true) <> Some 0 /\
    snd (fst (hashmapPut hash equals m k v false true)) = - ENOMEM.
Proof.
  exists (fun k => k), Z.eqb. eexists. exists 5, 6.
  split; [|split; [vm_compute; reflexivity|vm_compute; split; congruence]].
  constructor; intros; try (apply Z.eqb_refl); rewrite ?Z.eqb_eq in *; congruence.
Qed.
Print Assumptions C03_header_promise_refuted.

(** C04: power of two, load factor, no growth below the expected number of entries. *)
Theorem C04_bucket_count_power_of_two : forall hash equals, client_ok hash equals ->
  forall c a1 a2 m ops, hashmapCreate c a1 a2 = Some m ->
  exists j, 0 <= j /\ bucketCount (fst (run hash equals m ops)) = 2 ^ j.
Proof. exact hashmap_pow2. Qed.
Print Assumptions C04_bucket_count_power_of_two.

Theorem C04_load_factor : forall hash equals, client_ok hash equals ->
  forall c a1 a2 m ops, hashmapCreate c a1 a2 = Some m ->
  0 <= c <= 2 ^ 57 -> Z.of_nat (length ops) <= 2 ^ 57 -> Forall growth_ok ops ->
  hashmapSize (fst (run hash equals m ops)) <= hashmapCurrentCapacity (fst (run hash equals m ops)).
Proof. exact hashmap_load. Qed.
Print Assumptions C04_load_factor.

Theorem C04_expected_entries_fit : forall hash equals, client_ok hash equals ->
  forall c a1 a2 m ops, hashmapCreate c a1 a2 = Some m -> 0 <= c < 2 ^ 62 ->
  (forall p, (p <= length ops)%nat -> hashmapSize (fst (run hash equals m (firstn p ops))) <= c) ->
  bucketCount (fst (run hash equals m ops)) = bucketCount m.
Proof. exact hashmap_no_growth. Qed.
Print Assumptions C04_expected_entries_fit.

(** * Concrete cases: all keys collide, keys are compared modulo 10, the table grows twice. *)
Definition ex_hash (k : Z) : Z := 7.
Definition ex_equals (a b : Z) : bool := Z.eqb (a mod 10) (b mod 10).
Example ex_client_ok : client_ok ex_hash ex_equals.
Proof.
  constructor; unfold ex_equals; intros; try (apply Z.eqb_refl); rewrite ?Z.eqb_eq in *; try reflexivity; congruence.
Qed.
Definition ex_ops : list op :=
  [OpPut 1 100 true true; OpPut 2 200 true true; OpPut 11 101 true true; OpPut 3 300 false true;
   OpPut 4 400 true false; OpGet 21; OpRemove 2; OpContains 2; OpMemoize 5 (fun k => k * 7) true true; OpSize].
Example ex_run : exists m, hashmapCreate 1 true true = Some m /\
  bucketCount m = 2 /\
  bucketCount (fst (run ex_hash ex_equals m ex_ops)) = 4 /\
  Forall (fun _ => True) ex_ops /\
  snd (run ex_hash ex_equals m ex_ops) =
  [RPut 0 (Some 0); RPut 0 (Some 0); RPut 0 (Some 100); RPut (-12) None; RPut 0 (Some 0);
   RGet 101; RRemove 200; RContains false; RMemoize 0 (Some 35) [5]; RSize 3].
Proof. eexists. split; [vm_compute; reflexivity|]. vm_compute. repeat split; repeat constructor. Qed.
Example ex_growth_ok : Forall growth_ok [OpPut 1 100 true true; OpGet 1; OpPut 2 7 false true].
Proof. repeat constructor. Qed.

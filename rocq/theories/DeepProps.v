(** Property theorems about memory maps, deep free, deep comparison and deep copy (C38-C43). *)
From Coq Require Import ZArith String List Bool Permutation Lia.
From Verif Require Import Base BaseProof EntryModel EntrySpec ValueModel ValueSpec DeepModel DeepSpec DeepProof DeepProof2 DeepProof3 DeepProof4 DeepProof5 DeepProof6 DeepProof7 DeepProof8.
Import ListNotations.
Open Scope Z_scope.

(** * Examples: a database with a linked list and an allocation map *)
Definition mi (t : ref) (off : Z) : info := IMember (Build_minfo (Some t) None off None None None).
Definition ent (name : string) (i : info) : entry := Build_entry (Some name) false i.
(** 0 int, 1 struct node { int val; struct node *next; }, 4 struct node *, 5 unsigned char, 6 int *,
    7 struct pair { struct node *a; int *b; }, 10 void *, 11 struct holder { void *any; }, 13 struct empty {}, 14 struct empty *,
    15 struct node **, 16 struct link { struct node *a; struct node **b; }, 19 struct base { struct derived *self; }, 21 struct derived
    { struct base b; int *p; }, 24 struct derived *, 25 struct base *, 26 struct head { struct head *me; }, 28 struct head *, 29 struct mix
    { struct node *a; struct empty *e; } *)
Definition db0 : db := fun r =>
  match r with
  | 0%nat => ent "int"%string (IBase 4 6)
  | 1%nat => ent "node"%string (IAggr AStruct 16 [2%nat; 3%nat])
  | 2%nat => ent "val"%string (mi 0%nat 0)
  | 3%nat => ent "next"%string (mi 4%nat 8)
  | 4%nat => Build_entry None false (IPointer (Some 1%nat))
  | 5%nat => ent "unsigned char"%string (IBase 1 9)
  | 6%nat => Build_entry None false (IPointer (Some 0%nat))
  | 7%nat => ent "pair"%string (IAggr AStruct 16 [8%nat; 9%nat])
  | 8%nat => ent "a"%string (mi 4%nat 0)
  | 9%nat => ent "b"%string (mi 6%nat 8)
  | 10%nat => Build_entry None false (IPointer None)
  | 11%nat => ent "holder"%string (IAggr AStruct 8 [12%nat])
  | 12%nat => ent "any"%string (mi 10%nat 0)
  | 13%nat => ent "empty"%string (IAggr AStruct 0 [])
  | 14%nat => Build_entry None false (IPointer (Some 13%nat))
  | 15%nat => Build_entry None false (IPointer (Some 4%nat))
  | 16%nat => ent "link"%string (IAggr AStruct 16 [17%nat; 18%nat])
  | 17%nat => ent "a"%string (mi 4%nat 0)
  | 18%nat => ent "b"%string (mi 15%nat 8)
  | 19%nat => ent "base"%string (IAggr AStruct 8 [20%nat])
  | 20%nat => ent "self"%string (mi 24%nat 0)
  | 21%nat => ent "derived"%string (IAggr AStruct 16 [22%nat; 23%nat])
  | 22%nat => ent "b"%string (mi 19%nat 0)
  | 23%nat => ent "p"%string (mi 6%nat 8)
  | 24%nat => Build_entry None false (IPointer (Some 21%nat))
  | 25%nat => Build_entry None false (IPointer (Some 19%nat))
  | 26%nat => ent "head"%string (IAggr AStruct 8 [27%nat])
  | 27%nat => ent "me"%string (mi 28%nat 0)
  | 28%nat => Build_entry None false (IPointer (Some 26%nat))
  | 29%nat => ent "mix"%string (IAggr AStruct 16 [30%nat; 31%nat])
  | 30%nat => ent "a"%string (mi 4%nat 0)
  | 31%nat => ent "e"%string (mi 14%nat 8)
  | _ => Build_entry None false (IOther 0)
  end.
Definition E0 : env := Build_env 10 db0 (fun _ => 0) 5%nat no_handler (fun _ => false) (fun _ => []) (fun _ => 0).
Definition M0 : mode := Build_mode false UPTR_fail UNION_fail FLXARR_fail.
(** memory given by 64 bit words at some addresses *)
Fixpoint words (l : list (Z * Z)) : mem :=
  match l with [] => fun _ => 0 | (a, v) :: r => store (words r) a 8 v end.
(** a pointer variable at 500; nodes at 1000 and 2000 in a circle *)
Definition circle : mem := words [(500, 1000); (1000, 5); (1008, 2000); (2000, 7); (2008, 1000)].
Definition at_ (t : ref) (a : Z) : value := Build_value (St t) a.

(** C38. Keys of the map that are pairwise nested or disjoint: a range gets offset 0 exactly when no other contains it;
    otherwise its distance to the start of the outermost range that contains it. *)
Theorem C38_sweep : forall l, ranges l -> laminar (nonempty l) -> forall h, In h l -> 0 < h_size h ->
  (off_of (identify l) (h_id h) = 0 <-> outermost (nonempty l) h) /\
  exists b, outermost (nonempty l) b /\ inside h b /\ off_of (identify l) (h_id h) = h_addr h - h_addr b.
Proof. exact (fun l R L h H S => conj (identify_zero l R L h H S) (identify_ok l R L h H S)). Qed.
Print Assumptions C38_sweep.

(** C38. A range of size 0 always counts as a block of its own, even inside of another range. *)
Theorem C38_empty_range : forall l, NoDup (map h_id l) -> forall h, In h l -> h_size h <= 0 -> off_of (identify l) (h_id h) = 0.
Proof. exact identify_empty. Qed.
Print Assumptions C38_empty_range.

Definition h_ a i s := Build_hent a i s.
Definition ranges0 := [h_ 130 0%nat 4; h_ 100 1%nat 60; h_ 160 2%nat 8; h_ 128 3%nat 8; h_ 164 4%nat 4].
Example C38_example : ranges ranges0 /\ laminar (nonempty ranges0) /\
  map (fun h => off_of (identify ranges0) (h_id h)) ranges0 = [30; 0; 0; 28; 4].
Proof.
  split; [|split; [|reflexivity]].
  - split; [|split].
    + unfold ranges0, h_. cbn. repeat constructor; cbn; intuition discriminate.
    + unfold ranges0, h_. cbn. repeat constructor; cbn; intuition discriminate.
    + intros h H. unfold ranges0, h_ in H. cbn in H. intuition (subst; cbn; lia).
  - intros x y X Y. unfold ranges0, h_, nonempty in X, Y. cbn in X, Y. unfold inside, apart.
    intuition (subst; cbn; lia).
Qed.
(** Partly overlapping ranges: 8 bytes at 110 overlap the end of [100,112); they are given to the block at 100, which does
    not hold all of them. *)
Theorem C38_overlap_refuted : exists l h b, ranges l /\ In h l /\ In b l /\ outermost (nonempty l) h /\ outermost (nonempty l) b /\ h <> b /\
  off_of (identify l) (h_id h) = h_addr h - h_addr b /\ 0 < h_addr h - h_addr b.
Proof.
  exists [h_ 100 0%nat 12; h_ 110 1%nat 8], (h_ 110 1%nat 8), (h_ 100 0%nat 12).
  split; [|split; [cbn; auto|split; [cbn; auto|split; [|split; [|split; [discriminate|split; reflexivity]]]]]].
  - split; [|split].
    + cbn. repeat constructor; cbn; intuition discriminate.
    + cbn. repeat constructor; cbn; intuition discriminate.
    + intros h H. cbn in H. intuition (subst; cbn; lia).
  - split; [cbn; auto|]. intros x X I. unfold inside in I. cbn in X. destruct X as [<-|[<-|[]]]; [cbn in I; lia|reflexivity].
  - split; [cbn; auto|]. intros x X I. unfold inside in I. cbn in X. destruct X as [<-|[<-|[]]]; [reflexivity|cbn in I; lia].
Qed.
Print Assumptions C38_overlap_refuted.

(** C42. Deep comparison, for any handlers and modes. *)
Theorem C42_symmetric : forall E M feq k m v1 v2 r, (forall c x y, feq c x y = feq c y x) ->
  equal_ex E M feq k m v1 v2 = Ret r -> 0 <= r -> equal_ex E M feq k m v2 v1 = Ret r.
Proof. exact (fun E M feq => equal_sym E M feq). Qed.
Print Assumptions C42_symmetric.
Theorem C42_transitive : forall E M feq, (forall c x y z, feq c x y = true -> feq c y z = true -> feq c x z = true) ->
  forall k m v1 v2 v3, equal_ex E M feq k m v1 v2 = Ret 1 -> equal_ex E M feq k m v2 v3 = Ret 1 -> equal_ex E M feq k m v1 v3 = Ret 1.
Proof. exact equal_trans. Qed.
Print Assumptions C42_transitive.
(** A value is equal to itself when its memory map can be built and its scalars can be read (no NaN). *)
Theorem C42_reflexive : forall E M feq k m v mm n0, acyclic (en_db E) n0 -> en_fuel E = (n0 + 3)%nat -> bytes_ok m ->
  new_memory_map E M k m v = Ret (Some mm) -> comparable E M feq m v -> equal_ex E M feq k m v v = Ret 1.
Proof. exact equal_refl_ok. Qed.
Print Assumptions C42_reflexive.
(** It never finds a value different from itself, whatever the scalars. *)
Theorem C42_never_differs_from_itself : forall E M feq k m v r, (forall c x, feq c x x = true) ->
  equal_ex E M feq k m v v = Ret r -> r = 1 \/ r = - EFAULT.
Proof. exact equal_self. Qed.
Print Assumptions C42_never_differs_from_itself.
Definition feq0 : ctype -> Z -> Z -> bool := fun _ => Z.eqb.
(** two circles of two nodes; a chain of the same nodes *)
Definition circles : mem := words [(500, 1000); (1000, 5); (1008, 2000); (2000, 7); (2008, 1000);
  (600, 3000); (3000, 5); (3008, 3500); (3500, 7); (3508, 3000); (700, 4000); (4000, 5); (4008, 4500); (4500, 7)].
Example C42_example : equal_ex E0 M0 feq0 20 circles (at_ 4%nat 500) (at_ 4%nat 500) = Ret 1 /\ equal_ex E0 M0 feq0 20 circles (at_ 4%nat 500) (at_ 4%nat 600) = Ret 1
  /\ equal_ex E0 M0 feq0 20 circles (at_ 4%nat 500) (at_ 4%nat 700) = Ret 0 /\ equal_ex E0 M0 feq0 20 circles (at_ 4%nat 700) (at_ 4%nat 500) = Ret 0.
Proof. vm_compute. repeat split. Qed.

(** C40. The types are finite (no type contains itself by value), the handlers are well-behaved and the storages of captured calls
    are nested finitely often: whatever the data, cyclic or
    shared, building the memory map, freeing, comparing and copying come to an end. The number of steps is bounded for all
    values and memories at once. *)
Theorem C40_map_terminates : forall E M n0, finite_types (en_db E) n0 -> en_fuel E = (n0 + 3)%nat -> tame E -> finite_calls E ->
  exists k0, forall k, (k0 <= k)%nat -> forall m v, bytes_ok m -> new_memory_map E M k m v <> OutOfFuel.
Proof. exact deep_terminates. Qed.
Print Assumptions C40_map_terminates.
Theorem C40_all_terminate : forall E M n0, finite_types (en_db E) n0 -> en_fuel E = (n0 + 3)%nat -> tame E -> finite_calls E ->
  exists k0, forall k, (k0 <= k)%nat ->
    (forall ord m v, bytes_ok m -> free_ex E M ord k m v <> OutOfFuel) /\
    (forall feq m v1 v2, bytes_ok m -> equal_ex E M feq k m v1 v2 <> OutOfFuel) /\
    (forall ord cal sd src dst s, bytes_ok (c_mem s) -> (forall a b, sd a b <> OutOfFuel) -> copy_ex E M ord cal sd k src dst s <> OutOfFuel).
Proof. exact all_terminate. Qed.
Print Assumptions C40_all_terminate.
Definition rank0 (r : ref) : nat :=
  match r with
  | 21%nat => 4 | 22%nat => 3 | 1%nat | 7%nat | 11%nat | 16%nat | 19%nat | 26%nat | 29%nat => 2
  | 2%nat | 3%nat | 8%nat | 9%nat | 12%nat | 17%nat | 18%nat | 20%nat | 23%nat | 27%nat | 30%nat | 31%nat => 1 | _ => 0
  end.
Lemma db0_finite : finite_types db0 7.
Proof.
  exists rank0. split.
  - intro r. do 32 (destruct r as [|r]; [cbn; lia|]). cbn. lia.
  - intros r t [H|[k [z [l [A B]]]]].
    + destruct H as [[q H]|[[c H]|H]]; (do 32 (destruct r as [|r]; [cbn in H; inversion H; subst; cbn; try lia; fail|])); cbn in H; inversion H.
    + do 32 (destruct r as [|r]; [cbn in A; inversion A; subst; cbn in B; decompose [or] B; subst; cbn; try lia; try contradiction; fail|]).
      cbn in A. discriminate.
Qed.
Lemma db0_objects : objects db0.
Proof.
  split.
  - intros r mi0 i M0 [e [F <-]]. assert (X : forall p f, final_type db0 (Some p) f -> forall r, p = St r -> exists r', f = Some (St r') \/ f = None).
    { intros p f [qs R]. remember (Some p) as p0 eqn:Q0. revert p Q0. induction R as [|e0 K|e0 t q qs f' S R IH]; intros p Q0 r0 Q; try discriminate.
      - injection Q0 as ->. subst. exists r0. left. reflexivity.
      - destruct t as [t|]; [|exists O; right; inversion R; reflexivity]. eapply IH; [reflexivity|reflexivity]. }
    destruct (X _ _ F _ eq_refl) as [r' [Q|Q]]; [|discriminate]. injection Q as ->. cbn.
    do 32 (destruct r' as [|r']; [exact (fun x => x)|]). exact (fun x => x).
  - intros r t H. do 32 (destruct r as [|r]; [discriminate H|]). discriminate H.
Qed.
Example C40_example : finite_types (en_db E0) 7 /\ en_fuel E0 = (7 + 3)%nat /\ (tame E0 /\ finite_calls E0) /\
  (exists mm, new_memory_map E0 M0 20 circle (at_ 4%nat 500) = Ret (Some mm)).
Proof.
  split; [exact db0_finite|]. split; [reflexivity|]. split; [|eexists; vm_compute; reflexivity].
  split; [split; [discriminate|]; split; intros; discriminate|]. split; [exact db0_objects|].
  exists 1%nat, (fun _ => O). split; [intro; lia|]. intros a w i [].
Qed.
(** the hypotheses of C42_reflexive: the circular list from a pointer variable *)
Definition kinds0 (w : value) : Prop := In (v_entry w) [St 1; St 2; St 3; St 4; v_entry (array_at 1 1 0)]%nat.
Lemma info0 : forall w, kinds0 w -> has_info db0 w (match v_entry w with
  | St 1 => e_info (db0 1) | St 2 => e_info (db0 0) | St 3 | St 4 => e_info (db0 4) | e => e_info (deref db0 e) end)%nat.
Proof.
  intros [e a] H. unfold kinds0 in H. cbn in H.
  decompose [or] H; try contradiction; subst e; cbn;
    first [ eexists; split; [exists []; apply res_stop; intros t q S; cbn in S; inversion S | reflexivity]
          | eexists; split; [eexists; eapply res_step; [cbn; constructor|]; apply res_stop; intros t q S; cbn in S; inversion S | reflexivity] ].
Qed.
Lemma reached0 : forall m anc w, reaches E0 M0 m (at_ 4%nat 500) anc w -> kinds0 w.
Proof.
  intros m anc w H. induction H as [|anc x sz ch y H IH L I|anc x sz y H IH L|anc x la y H IH L I].
  - cbn. auto.
  - pose proof (info0 _ IH) as J. destruct x as [e a]. unfold kinds0 in IH. cbn in IH.
    inversion L as [| | | | |sz' l z ch' J' F S|sz' l z ch' J'|sz' t c ch' w J' W Q S|t c w J' W Q |]; subst; pose proof (has_info_fun E0 _ _ _ J J') as Q';
      cbn in Q'; decompose [or] IH; try contradiction; subst e; cbn in Q'; try discriminate.
    + injection Q' as <- <-. inversion F as [|? b1 ? t1 R1 F1]; subst. inversion F1 as [|? b2 ? t2 R2 F2]; subst. inversion F2; subst.
      destruct R1 as [mi1 [_ [-> _]]]. destruct R2 as [mi2 [_ [-> _]]]. destruct I as [<-|[<-|[]]]; cbn; auto.
    + injection Q' as <- <-. destruct W as [[_ ->]|[W _]]; [|discriminate]. destruct Q as [t [c [K [Le El]]]].
      pose proof (has_info_fun E0 _ _ _ J K) as Q. cbn in Q. injection Q as <- <-. cbn in Le.
      destruct El as [r [z [Er [Hs El]]]]; [intros ->; discriminate|]. injection Er as <-.
      apply In_nth_error in I. destruct I as [i I]. destruct (El i y I) as [-> _]. cbn. auto.
  - pose proof (info0 _ IH) as J. destruct x as [e a]. unfold kinds0 in IH. cbn in IH.
    inversion L as [| | | |sz' p w T N S| | | | |]; subst. inversion T as [t w P N1 N2|t [P _]|t P N1 N2 N3 N4]; subst; [discriminate| |discriminate].
    pose proof (has_info_fun E0 _ _ _ J P) as Q'. cbn in Q'. decompose [or] IH; try contradiction; subst e; cbn in Q'; try discriminate; injection Q' as <-; cbn; auto 10.
  - inversion L as [| | | | | | | | |i l J C Q]; subst. destruct I.
Qed.
Example C42_reflexive_example : acyclic (en_db E0) 7 /\ en_fuel E0 = (7 + 3)%nat /\ bytes_ok circle /\
  (exists mm, new_memory_map E0 M0 20 circle (at_ 4%nat 500) = Ret (Some mm)) /\ comparable E0 M0 feq0 circle (at_ 4%nat 500).
Proof.
  split; [apply finite_acyclic, db0_finite|]. split; [reflexivity|]. split; [|split; [eexists; vm_compute; reflexivity|]].
  - unfold circle, words. repeat apply store_bytes_ok. intro a. lia.
  - intros anc w R. apply reached0 in R. pose proof (info0 _ R) as J. destruct w as [e a]. unfold kinds0 in R. cbn in R. split.
    + intros z c K. pose proof (has_info_fun E0 _ _ _ J K) as Q. cbn in Q. decompose [or] R; try contradiction; subst e; cbn in Q; try discriminate.
      exists CInt. split; [|split; [|left; cbn; auto 10]].
      * unfold has_ctype. exists "int"%string, [6], 4, true, 6. split; [cbn; auto 20|]. split; [left; reflexivity|]. exists (St 0%nat), 4, 6. split; [eexists; eapply res_step; [cbn; constructor|]; apply res_stop; intros t q S; cbn in S; inversion S|]. cbn. auto.
      * intros mi0 H. cbn in H. injection H as <-. auto.
    + intros z l K. pose proof (has_info_fun E0 _ _ _ J K) as Q. cbn in Q. decompose [or] R; try contradiction; subst e; cbn in Q; discriminate.
Qed.

(** C43, copies that keep sharing (the default): after a failure, at whatever point, every block obtained from calloc_fn has been
    given to free_fn, once, and nothing else has been released; after a success nothing has been released. *)
Theorem C43_released_partial : forall E M cal ord same_decl k src dst s b s', mo_tree M = false ->
  copy_ex E M ord cal same_decl k src dst s = Ret (b, s') ->
  exists evs, calls s s' evs /\
    if b then forall e, In e evs -> exists a z, e = EvCalloc a z else live_from [] evs = Some [].
Proof. exact (fun E M cal ord sd k src dst s b s' D H => copy_allocations E M cal D ord sd k src dst s b s' H). Qed.
Print Assumptions C43_released_partial.
(** a pair of a list of one node and an int; the allocator hands out three blocks *)
Definition pair0 : mem := words [(400, 1000); (408, 2000); (1000, 5); (2000, 7)].
Definition cst0 m := Build_cst m 0 [] (fun _ => []) 0.
Definition any_decl : option eptr -> option eptr -> res bool := fun _ _ => Ret true.
Definition some_blocks (n : nat) : nat -> Z -> Z := fun k _ => if (k <? n)%nat then 5000 + 100 * Z.of_nat k else 0.
Example C43_example : (exists s, copy_ex E0 M0 (fun l => l) (some_blocks 1) any_decl 20 (at_ 7%nat 400) (at_ 7%nat 800) (cst0 pair0) = Ret (false, s)
    /\ c_log s = [EvFree 5000; EvCalloc 5000 16])
  /\ (exists s, copy_ex E0 M0 (fun l => l) (some_blocks 2) any_decl 20 (at_ 7%nat 400) (at_ 7%nat 800) (cst0 pair0) = Ret (true, s)
    /\ c_log s = [EvCalloc 5100 4; EvCalloc 5000 16]).
Proof. split; eexists; (split; [vm_compute; reflexivity|vm_compute; reflexivity]). Qed.
(** Copies as trees (METAC_MMODE_tree): when the second allocation fails the first block is never released. *)
Definition Mtree : mode := Build_mode true UPTR_fail UNION_fail FLXARR_fail.
Theorem C43_tree_leak_refuted : exists E M cal k src dst s s' evs, copy_ex E M (fun l => l) cal any_decl k src dst s = Ret (false, s') /\
  calls s s' evs /\ live_from [] evs = Some [5000].
Proof.
  exists E0, Mtree, (some_blocks 1), 20%nat, (at_ 7%nat 400), (at_ 7%nat 800), (cst0 pair0). eexists. exists [EvCalloc 5000 16].
  split; [vm_compute; reflexivity|]. split; reflexivity.
Qed.
Print Assumptions C43_tree_leak_refuted.
(** Copies as trees: when the target of a pointer cannot be copied its block is released, but with the C library's free instead
    of the caller's function. *)
Theorem C43_tree_wrong_free_refuted : exists E M cal k src dst s s' evs, copy_ex E M (fun l => l) cal any_decl k src dst s = Ret (false, s') /\
  calls s s' evs /\ live_from [] evs = None.
Proof.
  exists E0, Mtree, (some_blocks 1), 20%nat, (at_ 4%nat 400), (at_ 4%nat 800), (cst0 (words [(400, 1000); (1000, 5); (1008, 2000)])). eexists.
  exists [EvCalloc 5000 16; EvLibcFree 5000].
  split; [vm_compute; reflexivity|]. split; reflexivity.
Qed.
Print Assumptions C43_tree_wrong_free_refuted.

(** C39. Every layout: no address is freed twice; on failure nothing is freed; on success only addresses that reachable pointers
    lead to. *)
Theorem C39_once : forall E M ord k m v r l, (forall x, Permutation (ord x) x) -> free_ex E M ord k m v = Ret (r, l) ->
  NoDup l /\ (r = 0 /\ l = [] \/ r = 1 /\ forall a, In a l -> exists w z, pointee E (dag M) m v w z /\ v_addr w = a).
Proof. exact free_once. Qed.
Print Assumptions C39_once.
(** C39. Data in blocks of memory, each held by a pointer to its start, of a type that covers what is pointed to inside: deep free
    frees each block that can be reached, through any number of cycles and shared or inner pointers, exactly once, and nothing else. *)
Theorem C39_exact : forall E M ord k m v l B, (forall x, Permutation (ord x) x) -> free_ex E M ord k m v = Ret (1, l) ->
  local E m -> coherent E (dag M) m v -> blocks_ok B -> held E (dag M) m v B ->
  NoDup l /\ forall a, In a l <-> exists s w z, In (a, s) B /\ pointee E (dag M) m v w z /\ within w z (a, s).
Proof. exact free_exact. Qed.
Print Assumptions C39_exact.
(** a circle of two nodes with a pointer into the second one *)
Definition linked : mem := words [(400, 1000); (408, 2008); (1000, 5); (1008, 2000); (2000, 7); (2008, 1000)].
Definition seen0 : list value := [at_ 16 400; at_ 17 400; at_ 18 408; array_at 1 1 1000; at_ 1 1000; at_ 2 1000; at_ 3 1008; array_at 1 1 2000; at_ 1 2000;
  at_ 2 2000; at_ 3 2008; array_at 4 1 2008; at_ 4 2008]%nat.
Lemma closed0 : closed E0 M0 linked seen0.
Proof.
  unfold closed, seen0.
  repeat (constructor; [eexists; split; [vm_compute; reflexivity|]; split; [discriminate|]; intros y Y; vm_compute in Y; vm_compute; tauto|]). constructor.
Qed.
Lemma pointees0 : forall w z, pointee E0 M0 linked (at_ 16%nat 400) w z ->
  (w, z) = (array_at 1%nat 1 1000, 16) \/ (w, z) = (array_at 1%nat 1 2000, 16) \/ (w, z) = (array_at 4%nat 1 2008, 8).
Proof.
  intros w z P. destruct (closed_pointee E0 M0 eq_refl linked _ _ w z closed0 (or_introl eq_refl) P) as [x [sz [I [L [anc X]]]]].
  assert (Q : w = array_at 1%nat 1 1000 \/ w = array_at 1%nat 1 2000 \/ w = array_at 4%nat 1 2008).
  { clear X P. unfold seen0 in I. cbn [In] in I. repeat (destruct I as [<-|I]; [vm_compute in L; try discriminate; injection L as _ <-; auto|]). destruct I. }
  destruct Q as [-> | [-> | ->]]; (eapply (plain_extent_map E0 M0 eq_refl 20) in X; [|vm_compute; reflexivity]); subst z; auto.
Qed.
Example C39_example : free_ex E0 M0 (fun l => l) 20 linked (at_ 16%nat 400) = Ret (1, [2000; 1000]) /\
  local E0 linked /\ coherent E0 (dag M0) linked (at_ 16%nat 400) /\ blocks_ok [(1000, 16); (2000, 24)] /\ held E0 (dag M0) linked (at_ 16%nat 400) [(1000, 16); (2000, 24)].
Proof.
  split; [vm_compute; reflexivity|]. split; [apply plain_local; reflexivity|]. split; [|split].
  - intros p pre a post x w w' S T T'.
    destruct (closed_sees E0 M0 eq_refl linked _ _ closed0 (or_introl eq_refl) _ _ S) as [Ix Ia].
    assert (Ja : In a seen0) by (apply Ia; apply in_or_app; right; left; reflexivity). clear S Ia.
    apply (plain_target E0 M0 eq_refl _ _ []) in T. apply (plain_target E0 M0 eq_refl _ _ []) in T'.
    assert (K : forall y p w, In y seen0 -> target E0 M0 linked [] y p w -> (p, w) = (1000, array_at 1%nat 1 1000) \/ (p, w) = (2000, array_at 1%nat 1 2000) \/ (p, w) = (2008, array_at 4%nat 1 2008)).
    { clear. intros y p w I T. unfold seen0 in I. cbn [In] in I.
      repeat (destruct I as [<-|I]; [match type of T with target _ _ _ _ ?y _ _ => edestruct (view_target E0 M0 linked y) as [[sz Q] R] end; [vm_compute; reflexivity|discriminate|exact T|]; clear T; vm_compute in Q, R; try discriminate; injection Q as _ <-; subst p; auto|]).
      destruct I. }
    destruct (K _ _ _ Ja T) as [Q|[Q|Q]]; injection Q as -> ->; destruct (K _ _ _ Ix T') as [Q|[Q|Q]]; injection Q; intros; subst; congruence.
  - split; [intros b s [Q|[Q|[]]]; injection Q as <- <-; lia|]. intros b s b' s' [Q|[Q|[]]] [Q'|[Q'|[]]]; injection Q as <- <-; injection Q' as <- <-; auto; right; lia.
  - assert (P1 : exists mm, new_memory_map E0 M0 20 linked (at_ 16%nat 400) = Ret (Some mm) /\ exists c1 c2, In c1 (targets E0 (mm_top mm)) /\ In c2 (targets E0 (mm_top mm)) /\
       me_val c1 = array_at 1%nat 1 1000 /\ me_size c1 = 16 /\ me_val c2 = array_at 1%nat 1 2000 /\ me_size c2 = 16).
    { eexists. split; [vm_compute; reflexivity|]. cbn. do 2 eexists. split; [left; reflexivity|]. split; [right; left; reflexivity|]. auto. }
    destruct P1 as [mm [Mm [c1 [c2 [I1 [I2 [V1 [Z1 [V2 Z2]]]]]]]]]. apply (map_pointee _ _ _ _ _ _ _ Mm) in I1. apply (map_pointee _ _ _ _ _ _ _ Mm) in I2.
    rewrite V1, Z1 in I1. rewrite V2, Z2 in I2. clear Mm V1 Z1 V2 Z2.
    intros w z P. destruct (pointees0 w z P) as [Q|[Q|Q]]; injection Q as -> ->; (split; [lia|]).
    + exists (1000, 16). split; [left; reflexivity|]. split; [unfold within; cbn; lia|]. exists (array_at 1%nat 1 1000), 16. split; [exact I1|]. unfold within; cbn; lia.
    + exists (2000, 24). split; [right; left; reflexivity|]. split; [unfold within; cbn; lia|]. exists (array_at 1%nat 1 2000), 16. split; [exact I2|]. unfold within; cbn; lia.
    + exists (2000, 24). split; [right; left; reflexivity|]. split; [unfold within; cbn; lia|]. exists (array_at 1%nat 1 2000), 16. split; [exact I2|]. unfold within; cbn; lia.
Qed.
(** Objects without bytes: the pointer at 408 leads to an empty struct inside of the node at 1000; its address is freed too. *)
Theorem C39_empty_refuted : exists E M k m v l a w z, free_ex E M (fun l => l) k m v = Ret (1, l) /\ In a l /\
  pointee E M m v w z /\ v_addr w < a < v_addr w + z.
Proof.
  exists E0, M0, 20%nat, (words [(400, 1000); (408, 1004); (1000, 5)]), (at_ 29%nat 400), [1000; 1004], 1004, (array_at 1%nat 1 1000), 16.
  split; [vm_compute; reflexivity|]. split; [right; left; reflexivity|]. split; [|cbn; lia].
  set (m := words _). assert (S : sees E0 M0 m (at_ 29%nat 400) [at_ 29%nat 400] (at_ 30%nat 400)).
  { eapply plain_step; [reflexivity|apply se_here|vm_compute; reflexivity|left; reflexivity]. }
  eapply (plain_pointee E0 M0 eq_refl 20) in S; [|vm_compute; reflexivity|vm_compute; reflexivity]. exact S.
Qed.
Print Assumptions C39_empty_refuted.
(** A cycle through the value itself: the head of the list is part of the value (e.g. a variable), and is freed. *)
Theorem C39_frees_value_refuted : exists E M k m v l, free_ex E M (fun l => l) k m v = Ret (1, l) /\ In (v_addr v) l.
Proof.
  exists E0, M0, 20%nat, (words [(500, 500)]), (at_ 26%nat 500). eexists. split; [vm_compute; reflexivity|]. left. reflexivity.
Qed.
Print Assumptions C39_frees_value_refuted.
(** A loop is recognised by the address alone: the object at 1000 is reached as struct base first; its pointer to the whole object
    (struct derived) counts as a loop, and what the rest of the object points to is not freed. *)
Theorem C39_hidden_refuted : exists E M k m v w z, free_ex E M (fun l => l) k m v = Ret (1, [1000]) /\
  pointee E M m v w z /\ v_addr w = 3000 /\ z = 4.
Proof.
  exists E0, M0, 20%nat, (words [(500, 1000); (1000, 1000); (1008, 3000)]), (at_ 25%nat 500), (array_at 0%nat 1 3000), 4.
  split; [vm_compute; reflexivity|]. split; [|split; reflexivity]. set (m := words _).
  assert (S : sees E0 M0 m (at_ 25%nat 500) [] (at_ 25%nat 500)) by apply se_here.
  eapply (plain_step E0 M0 eq_refl) in S; [|vm_compute; reflexivity|left; reflexivity].
  eapply (plain_step E0 M0 eq_refl) in S; [|vm_compute; reflexivity|left; reflexivity].
  eapply (plain_step E0 M0 eq_refl) in S; [|vm_compute; reflexivity|left; reflexivity].
  eapply (plain_step E0 M0 eq_refl) in S; [|vm_compute; reflexivity|left; reflexivity].
  eapply (plain_step E0 M0 eq_refl) in S; [|vm_compute; reflexivity|left; reflexivity].
  eapply (plain_step E0 M0 eq_refl) in S; [|vm_compute; reflexivity|right; left; reflexivity].
  eapply (plain_pointee E0 M0 eq_refl 20) in S; [|vm_compute; reflexivity|vm_compute; reflexivity]. exact S.
Qed.
Print Assumptions C39_hidden_refuted.

(** Property theorems about comparing and copying captured calls (C58, C59). *)
From Coq Require Import ZArith String List Bool Permutation Lia.
From Coq Require Import ZifyBool.
From Verif Require Import Base BaseProof EntryModel EntrySpec EntryProof ValueModel ValueSpec ValueProof2 DeepModel DeepSpec DeepProof DeepProof2 DeepProof4 DeepProof8 DeepProps
  EqualSpec EqualProof EqualProps CopySpec CopyProof CopyProof2 CopyProof3 CopyProof4 CopyProps CallDeepSpec CallDeepProof CallDeepProof2.
Import ListNotations.
Open Scope Z_scope.

(** functions with two nodes and an int; the variable arguments of h *)
Definition dbf : db := fun r =>
  match r with
  | 40%nat => ent "f"%string (ISubprogram None [41%nat; 42%nat; 43%nat])
  | 41%nat => ent "a"%string (IParam false (Some 4%nat))
  | 42%nat => ent "b"%string (IParam false (Some 4%nat))
  | 43%nat => ent "n"%string (IParam false (Some 0%nat))
  | 44%nat => ent "g"%string (ISubprogram None [45%nat; 46%nat; 47%nat])
  | 45%nat => ent "x"%string (IParam false (Some 4%nat))
  | 46%nat => ent "y"%string (IParam false (Some 4%nat))
  | 47%nat => ent "z"%string (IParam false (Some 0%nat))
  | 48%nat => ent "h"%string (ISubprogram None [49%nat; 50%nat])
  | 49%nat => ent "n"%string (IParam false (Some 0%nat))
  | 50%nat => Build_entry None false (IParam true None)
  | _ => db0 r
  end.
(** calls at 100 and 110: f(p, q, 5) with nodes in a circle; at 120: g with the arguments of the first; at 130 and 150: h(3, 8) *)
Definition items1 : Z -> list value := fun a =>
  if a =? 100 then [at_ 41%nat 200; at_ 42%nat 208; at_ 43%nat 216]
  else if a =? 110 then [at_ 41%nat 224; at_ 42%nat 232; at_ 43%nat 240]
  else if a =? 120 then [at_ 45%nat 200; at_ 46%nat 208; at_ 47%nat 216]
  else if a =? 130 then [at_ 49%nat 248; at_ 50%nat 140]
  else if a =? 140 then [at_ 0%nat 256]
  else if a =? 150 then [at_ 49%nat 264; at_ 50%nat 160]
  else if a =? 160 then [at_ 0%nat 272]
  else [].
Definition E2 : env := Build_env 10 dbf (fun _ => 0) 5%nat no_handler (fun _ => false) items1 (fun k => 7000 + 16 * Z.of_nat k).
Definition mem2 : mem := words [(200, 1000); (208, 2000); (216, 5); (1000, 5); (1008, 2000); (2000, 7); (2008, 1000);
  (224, 3000); (232, 3500); (240, 5); (3000, 5); (3008, 3500); (3500, 7); (3508, 3000); (248, 3); (256, 8); (264, 3); (272, 8)].
Definition st2 : cst := Build_cst mem2 0 [] (fun a => if (a =? 300) || (7000 <=? a) then [] else items1 a) 0.

(** results as far as they are computed *)
Definition flag (r : res (bool * cst)) : option bool := match r with Ret (b, _) => Some b | _ => None end.
Definition after (r : res (bool * cst)) : cst := match r with Ret (_, s) => s | _ => st2 end.
Lemma flag_ret : forall r b, flag r = Some b -> r = Ret (b, after r).
Proof. intros [[b0 s]| | |] b H; try discriminate. injection H as ->. reflexivity. Qed.

(** C58. Captured calls found equal, of steady data: the same number of arguments; the same walk through both, from the arguments on to any
    depth, through pointers, variable arguments, cycles, never meets a difference. *)
Theorem C58_equal_calls : forall E M feq k m c1 c2 args1 args2, bytes_ok m -> local E m -> steady E M m c1 -> steady E M m c2 ->
  captures E c1 args1 -> captures E c2 args2 -> equal_ex E M feq k m c1 c2 = Ret 1 ->
  length args1 = length args2 /\
  (forall i w1 w2, nth_error args1 i = Some w1 -> nth_error args2 i = Some w2 -> both E M m c1 c2 [c1] w1 [c2] w2) /\
  (forall a1 x1 a2 x2, both E M m c1 c2 a1 x1 a2 x2 -> alike E M feq m a1 x1 a2 x2).
Proof. exact equal_calls. Qed.
Print Assumptions C58_equal_calls.
Definition call1 : list value := [at_ 40 100; at_ 41 200; at_ 42 208; at_ 43 216; array_at 1 1 1000; at_ 1 1000; at_ 2 1000; at_ 3 1008; array_at 1 1 2000; at_ 1 2000; at_ 2 2000; at_ 3 2008]%nat.
Definition call2 : list value := [at_ 40 110; at_ 41 224; at_ 42 232; at_ 43 240; array_at 1 1 3000; at_ 1 3000; at_ 2 3000; at_ 3 3008; array_at 1 1 3500; at_ 1 3500; at_ 2 3500; at_ 3 3508]%nat.
Lemma calls_closed : closed E2 M0 mem2 call1 /\ closed E2 M0 mem2 call2.
Proof.
  split; unfold closed, call1, call2; repeat apply Forall_cons; try apply Forall_nil;
    (eexists; split; [vm_compute; reflexivity|]; split; [discriminate|]; intros y Y; cbn in Y; decompose [or] Y; try contradiction; subst y; cbn; auto 20).
Qed.
Lemma calls_steady : steady E2 M0 mem2 (at_ 40%nat 100) /\ steady E2 M0 mem2 (at_ 40%nat 110).
Proof.
  destruct calls_closed as [C1 C2]. split; [eapply plain_steady; [reflexivity|reflexivity|exact C1|left; reflexivity|]|eapply plain_steady; [reflexivity|reflexivity|exact C2|left; reflexivity|]]; intros x y sz sz' w w' Ix Iy Lx Ly Q.
  - assert (K : forall y sz w, In y call1 -> look E2 M0 mem2 [] y = Ret (VPtr sz w) -> w = array_at 1%nat 1 (number_at mem2 (v_addr y) 8)).
    { clear. intros y sz w I L. unfold call1 in I. cbn [In] in I. repeat (destruct I as [<-|I]; [vm_compute in L; try discriminate; injection L as _ <-; reflexivity|]). destruct I. }
    rewrite (K _ _ _ Ix Lx), (K _ _ _ Iy Ly), Q. reflexivity.
  - assert (K : forall y sz w, In y call2 -> look E2 M0 mem2 [] y = Ret (VPtr sz w) -> w = array_at 1%nat 1 (number_at mem2 (v_addr y) 8)).
    { clear. intros y sz w I L. unfold call2 in I. cbn [In] in I. repeat (destruct I as [<-|I]; [vm_compute in L; try discriminate; injection L as _ <-; reflexivity|]). destruct I. }
    rewrite (K _ _ _ Ix Lx), (K _ _ _ Iy Ly), Q. reflexivity.
Qed.
Lemma captures2 : forall r a t l, dbf r = Build_entry (e_name (dbf r)) false (ISubprogram t l) -> captures E2 (at_ r a) (items1 a).
Proof.
  intros r a t l Q. split; [|reflexivity]. exists (ISubprogram t l). split; [|exact I]. exists (St r). split; [|cbn; rewrite Q; reflexivity].
  exists []. apply res_stop. intros t' q X. cbn in X. rewrite Q in X. inversion X.
Qed.
(** two calls of f with circles of two nodes at different addresses; also calls with variable arguments *)
Example C58_example : bytes_ok mem2 /\ local E2 mem2 /\ steady E2 M0 mem2 (at_ 40%nat 100) /\ steady E2 M0 mem2 (at_ 40%nat 110) /\
  captures E2 (at_ 40%nat 100) [at_ 41%nat 200; at_ 42%nat 208; at_ 43%nat 216] /\ captures E2 (at_ 40%nat 110) [at_ 41%nat 224; at_ 42%nat 232; at_ 43%nat 240] /\
  equal_ex E2 M0 feq0 20 mem2 (at_ 40%nat 100) (at_ 40%nat 110) = Ret 1 /\
  equal_ex E2 M0 feq0 20 (store mem2 3500 4 8) (at_ 40%nat 100) (at_ 40%nat 110) = Ret 0 /\
  equal_ex E2 M0 feq0 20 mem2 (at_ 48%nat 130) (at_ 48%nat 150) = Ret 1 /\ equal_ex E2 M0 feq0 20 (store mem2 272 4 9) (at_ 48%nat 130) (at_ 48%nat 150) = Ret 0.
Proof.
  split; [unfold mem2, words; repeat apply store_bytes_ok; intro; cbn; lia|]. split; [apply plain_local; reflexivity|].
  split; [apply calls_steady|]. split; [apply calls_steady|]. split; [eapply (captures2 40%nat 100); reflexivity|]. split; [eapply (captures2 40%nat 110); reflexivity|].
  split; [vm_compute; reflexivity|]. split; [vm_compute; reflexivity|]. split; vm_compute; reflexivity.
Qed.
(** Calls of different functions with the same arguments are found equal. *)
Theorem C58_functions_refuted : exists E M feq k m c1 c2 args1 args2, captures E c1 args1 /\ captures E c2 args2 /\ equal_ex E M feq k m c1 c2 = Ret 1 /\
  e_name (deref (en_db E) (v_entry c1)) = Some "f"%string /\ e_name (deref (en_db E) (v_entry c2)) = Some "g"%string.
Proof.
  exists E2, M0, feq0, 20%nat, mem2, (at_ 40%nat 100), (at_ 44%nat 120), (items1 100), (items1 120).
  split; [eapply (captures2 40%nat 100); reflexivity|]. split; [eapply (captures2 44%nat 120); reflexivity|]. split; [vm_compute; reflexivity|]. split; reflexivity.
Qed.
Print Assumptions C58_functions_refuted.

(** C59. A captured call, none of the arguments `...`, copied into an empty storage: the copy has an argument of the same type for each, in
    a buffer of its own; there is one translation of addresses, one-to-one, that takes the old buffers to the new ones and everything
    that is reached from the arguments to new blocks; numbers are the same, pointers are translated; sharing and cycles between the
    arguments are kept; nothing else is changed. *)
Theorem C59_copy_partial : forall E M ord cal same_decl k src dst s s' evs zs args B,
  mo_tree M = false -> mo_union M <> UNION_ignore -> (forall x, Permutation (ord x) x) ->
  copy_ex E M ord cal same_decl k src dst s = Ret (true, s') -> calls s s' evs ->
  captures E src args -> orderly E M (c_mem s) src -> only_call E M (c_mem s) src -> sizes_are E M (c_mem s) src args zs ->
  let roots := arg_regions E (c_bufs s) args zs in
  blocks_ok B -> held E M (c_mem s) src B -> roomy roots (v_addr dst) B -> fresh_blocks (allocs evs) (taken roots B) ->
  c_items s' (v_addr dst) = new_args E (c_bufs s) args /\
  (forall a, a <> v_addr dst -> (forall r, In r roots -> r_dst r <> a) -> c_items s' a = c_items s a) /\
  exists R, spread E M (c_mem s) (c_mem s') src roots (allocs evs) R.
Proof. exact (fun E M ord cal sd k src dst s s' evs zs args B D U P => call_sound E M ord cal sd D U P k src dst s s' evs zs args B). Qed.
Print Assumptions C59_copy_partial.

Definition scalars2 : list (Z * Z * bool) := [(200, 8, true); (208, 8, true); (216, 4, false); (1000, 4, false); (1008, 8, true); (2000, 4, false); (2008, 8, true)].
Lemma scalar2 : forall anc x z b, In x call1 -> scalar E2 M0 mem2 anc x z b -> In (v_addr x, z, b) scalars2.
Proof.
  intros anc x z b I S. unfold call1 in I. cbn [In] in I.
  repeat (destruct I as [<-|I]; [eapply scalar_shape in S; [|vm_compute; reflexivity]; try contradiction; destruct S as [-> ->]; vm_compute; tauto|]). destruct I.
Qed.
Lemma seen2 : forall anc x, sees E2 M0 mem2 (at_ 40%nat 100) anc x -> In x call1.
Proof. intros anc x S. exact (proj1 (closed_sees E2 M0 eq_refl mem2 (at_ 40%nat 100) call1 (proj1 calls_closed) (or_introl eq_refl) _ _ S)). Qed.
Lemma extent2 : forall anc x z, In x call1 -> extent E2 M0 mem2 anc x z -> 0 < v_addr x /\ v_addr x + z < 3000.
Proof.
  intros anc x z I X. unfold call1 in I. cbn [In] in I.
  repeat (destruct I as [<-|I]; [eapply (plain_extent_map E2 M0 eq_refl 20) in X; [|vm_compute; reflexivity]; vm_compute in X; subst z; vm_compute; auto|]). destruct I.
Qed.
Lemma target2 : forall y p w, In y call1 -> target E2 M0 mem2 [] y p w -> (p, w) = (1000, array_at 1%nat 1 1000) \/ (p, w) = (2000, array_at 1%nat 1 2000).
Proof.
  intros y p w I T. unfold call1 in I. cbn [In] in I.
  repeat (destruct I as [<-|I]; [match type of T with target _ _ _ _ ?y _ _ => edestruct (view_target E2 M0 mem2 y) as [[sz Q] R] end; [vm_compute; reflexivity|discriminate|exact T|]; clear T; vm_compute in Q, R; try discriminate; injection Q as _ <-; subst p; auto|]).
  destruct I.
Qed.
Lemma pointees2 : forall w z, pointee E2 M0 mem2 (at_ 40%nat 100) w z -> (w, z) = (array_at 1%nat 1 1000, 16) \/ (w, z) = (array_at 1%nat 1 2000, 16).
Proof.
  intros w z [anc [x [p [S [T X]]]]]. apply seen2 in S. apply (plain_target E2 M0 eq_refl _ _ []) in T. destruct (target2 _ _ _ S T) as [Q|Q]; injection Q as -> ->;
    (eapply (plain_extent_map E2 M0 eq_refl 20) in X; [|vm_compute; reflexivity]); vm_compute in X; subst z; auto.
Qed.
Lemma orderly2 : orderly E2 M0 mem2 (at_ 40%nat 100).
Proof.
  constructor.
  - unfold mem2, words. repeat apply store_bytes_ok. intro; cbn; lia.
  - apply plain_local; reflexivity.
  - intros p pre a post x w w' S T T'. destruct (closed_sees E2 M0 eq_refl mem2 _ _ (proj1 calls_closed) (or_introl eq_refl) _ _ S) as [Ix Ia].
    assert (Ja : In a call1) by (apply Ia; apply in_or_app; right; left; reflexivity).
    apply (plain_target E2 M0 eq_refl _ _ []) in T. apply (plain_target E2 M0 eq_refl _ _ []) in T'.
    destruct (target2 _ _ _ Ja T) as [Q|Q]; injection Q as -> ->; destruct (target2 _ _ _ Ix T') as [Q|Q]; injection Q; intros; subst; congruence.
  - intros anc x z c S I. apply seen2 in S. assert (Q : x = at_ 43%nat 216 \/ x = at_ 2%nat 1000 \/ x = at_ 2%nat 2000).
    { unfold call1 in S. cbn [In] in S.
      repeat (destruct S as [<-|S]; [try (left; reflexivity); try (right; left; reflexivity); try (right; right; reflexivity); exfalso;
        match type of I with has_info _ ?y _ => assert (J : exists i, final_info E2 y = Ret (Some i) /\ match i with IBase _ _ => False | _ => True end) by (eexists; split; [vm_compute; reflexivity|exact Logic.I]) end;
        destruct J as [i [J1 J2]]; apply final_info_some in J1; pose proof (has_info_fun _ _ _ _ I J1) as <-; contradiction|]). destruct S. }
    assert (J : exists i, final_info E2 x = Ret (Some i) /\ i = IBase 4 6) by (destruct Q as [-> | [-> | ->]]; (eexists; split; [vm_compute; reflexivity|reflexivity])).
    destruct J as [i [J ->]]. apply final_info_some in J. pose proof (has_info_fun _ _ _ _ I J) as K. injection K as -> ->.
    exists CInt, "int"%string, [6], true. split; [|split].
    + exists "int"%string, [6], 4, true, 6. split; [cbn; auto 20|]. split; [left; reflexivity|]. exists (St 0%nat), 4, 6.
      split; [destruct Q as [-> | [-> | ->]]; (eexists; eapply res_step; [cbn; constructor|]; apply res_stop; intros t q X; cbn in X; inversion X)|]. cbn. auto.
    + intros mi0 H. destruct Q as [-> | [-> | ->]]; cbn in H; try discriminate; injection H as <-; auto.
    + cbn; auto 20.
  - intros anc x z S X. apply seen2 in S. pose proof (extent2 _ _ _ S X). lia.
  - intros anc x sz ch y S Lk Iy. apply seen2 in S. apply (plain_node E2 M0 eq_refl _ _ []) in Lk. unfold call1 in S. cbn [In] in S.
    repeat (destruct S as [<-|S]; [first [exfalso; eapply node_no_pointer; [exact Lk|vm_compute; reflexivity]
      |eapply view_node in Lk; [|vm_compute; reflexivity|discriminate]; subst ch; cbn in Iy; repeat (destruct Iy as [<-|Iy]; [vm_compute; discriminate|]); destruct Iy]|]). destruct S.
  - intros anc x z b anc' x' z' b' S Sx S' Sx' [y Y]. apply seen2 in S. apply seen2 in S'. apply (scalar2 _ _ _ _ S) in Sx. apply (scalar2 _ _ _ _ S') in Sx'.
    unfold scalars2 in Sx, Sx'. cbn [In] in Sx, Sx'.
    repeat (destruct Sx as [Sx|Sx]; [injection Sx as Q1 Q2 Q3|]); try contradiction;
      repeat (destruct Sx' as [Sx'|Sx']; [injection Sx' as Q1' Q2' Q3'|]); try contradiction; try (exfalso; lia); subst b b'; split; try reflexivity; intro; try congruence; try discriminate.
  - intros anc x p w z S T X. apply seen2 in S. apply (plain_target E2 M0 eq_refl _ _ []) in T. destruct (target2 _ _ _ S T) as [Q|Q]; injection Q as -> ->;
      (eapply (plain_extent_map E2 M0 eq_refl 20) in X; [|vm_compute; reflexivity]); vm_compute in X; subst z; cbn; lia.
  - intros anc x t p [U|U]; discriminate.
Qed.
Lemma only_call2 : only_call E2 M0 mem2 (at_ 40%nat 100).
Proof.
  intros anc x i S I K. assert (Q : x = at_ 40%nat 100).
  { apply seen2 in S. unfold call1 in S. cbn [In] in S. destruct S as [<-|S]; [reflexivity|].
    repeat (destruct S as [<-|S]; [match type of I with has_info _ ?y _ => assert (J : exists i, final_info E2 y = Ret (Some i) /\ is_call_info i = false) by (eexists; split; [vm_compute; reflexivity|reflexivity]) end;
      destruct J as [j [J1 J2]]; apply final_info_some in J1; pose proof (has_info_fun _ _ _ _ I J1) as <-; destruct i as [ | | | | | | | | | |[|] ?| | | ]; try contradiction; discriminate|]). destruct S. }
  clear I K. subst x. inversion S as [|anc0 x0 sz ch y S0 L I|anc0 x0 p y S0 T|anc0 x0 la y S0 L I]; subst; [reflexivity| | |]; exfalso.
  - apply seen2 in S0. apply (plain_node E2 M0 eq_refl _ _ []) in L. unfold call1 in S0. cbn [In] in S0.
    repeat (destruct S0 as [<-|S0]; [first [eapply node_no_pointer; [exact L|vm_compute; reflexivity]
      |eapply view_node in L; [|vm_compute; reflexivity|discriminate]; subst ch; cbn in I; repeat (destruct I as [I|I]; [discriminate|]); destruct I]|]). destruct S0.
  - apply seen2 in S0. apply (plain_target E2 M0 eq_refl _ _ []) in T. destruct (target2 _ _ _ S0 T) as [Q|Q]; injection Q; intros; discriminate.
  - apply seen2 in S0. apply (call_local _ _ _ _ []) in L. unfold call1 in S0. cbn [In] in S0.
    repeat (destruct S0 as [<-|S0]; [eapply view_call in L; [|vm_compute; reflexivity|discriminate]; subst la; cbn in I; repeat (destruct I as [I|I]; [discriminate|]); destruct I|]). destruct S0.
Qed.
Definition blocks2 : list block := [(1000, 16); (2000, 24)].
Definition copy2 := copy_ex E2 M0 (fun l => l) (some_blocks 9) any_decl 20 (at_ 40%nat 100) (at_ 40%nat 300) st2.
Definition args2 : list value := [at_ 41%nat 200; at_ 42%nat 208; at_ 43%nat 216].
Lemma sizes2 : sizes_are E2 M0 mem2 (at_ 40%nat 100) args2 [8; 8; 4].
Proof.
  assert (G : forall w z, (exists mm, new_memory_map E2 M0 20 mem2 w = Ret (Some mm) /\ me_size (mm_top mm) = z) -> byte_size 10 dbf (Some (v_entry w)) = Ret (inl z) ->
     extent E2 M0 mem2 [at_ 40%nat 100] w z /\ size_of dbf w z).
  { intros w z [mm [X Q]] Bz. split.
    - apply map_built in X. destruct X as [B V _ _ _ _ _ _]. apply built_extent in B. rewrite V, Q in B. eapply plain_extent; [reflexivity|exact B].
    - apply byte_size_spec in Bz. destruct Bz as [z1 [S1 ->]]. exists z1. split; [exact S1|reflexivity]. }
  repeat constructor; apply G; try (vm_compute; reflexivity); (eexists; split; [vm_compute; reflexivity|reflexivity]).
Qed.
(** f(p, q, 5) with the arguments pointing to the two nodes of a circle: so do the arguments of the copy *)
Example C59_copy_example : exists s' evs, copy2 = Ret (true, s') /\ calls st2 s' evs /\ captures E2 (at_ 40%nat 100) args2 /\
  orderly E2 M0 mem2 (at_ 40%nat 100) /\ only_call E2 M0 mem2 (at_ 40%nat 100) /\ sizes_are E2 M0 mem2 (at_ 40%nat 100) args2 [8; 8; 4] /\
  blocks_ok blocks2 /\ held E2 M0 mem2 (at_ 40%nat 100) blocks2 /\ roomy (arg_regions E2 0 args2 [8; 8; 4]) 300 blocks2 /\
  fresh_blocks (allocs evs) (taken (arg_regions E2 0 args2 [8; 8; 4]) blocks2) /\
  c_items s' 300 = [at_ 41%nat 7000; at_ 42%nat 7016; at_ 43%nat 7032] /\
  map (fun a => number_at (c_mem s') a 8) [7000; 7016; 5000; 5008; 5100; 5108] = [5100; 5000; 7; 5100; 5; 5000] /\ number_at (c_mem s') 7032 4 = 5.
Proof.
  exists (after copy2), [EvCalloc 5000 16; EvCalloc 5100 16]. split; [apply flag_ret; vm_compute; reflexivity|]. split; [vm_compute; reflexivity|].
  split; [eapply (captures2 40%nat 100); reflexivity|]. split; [exact orderly2|]. split; [exact only_call2|]. split; [exact sizes2|].
  split; [split; [intros b s [Q|[Q|[]]]; injection Q as <- <-; lia|]; intros b s b' s' [Q|[Q|[]]] [Q'|[Q'|[]]]; injection Q as <- <-; injection Q' as <- <-; auto; right; lia|].
  split.
  { assert (S0 : sees E2 M0 mem2 (at_ 40%nat 100) [] (at_ 40%nat 100)) by apply se_here.
    assert (P1 : pointee E2 M0 mem2 (at_ 40%nat 100) (array_at 1%nat 1 1000) 16).
    { pose proof (plain_step E2 M0 eq_refl _ _ _ _ _ (at_ 41%nat 200) S0 ltac:(vm_compute; reflexivity) ltac:(left; reflexivity)) as S1.
      assert (X : exists mm, new_memory_map E2 M0 20 mem2 (array_at 1%nat 1 1000) = Ret (Some mm) /\ me_size (mm_top mm) = 16) by (eexists; split; [vm_compute; reflexivity|reflexivity]).
      destruct X as [mm [X <-]]. eapply (plain_pointee E2 M0 eq_refl 20); [exact S1|vm_compute; reflexivity|exact X]. }
    assert (P2 : pointee E2 M0 mem2 (at_ 40%nat 100) (array_at 1%nat 1 2000) 16).
    { pose proof (plain_step E2 M0 eq_refl _ _ _ _ _ (at_ 42%nat 208) S0 ltac:(vm_compute; reflexivity) ltac:(right; left; reflexivity)) as S1.
      assert (X : exists mm, new_memory_map E2 M0 20 mem2 (array_at 1%nat 1 2000) = Ret (Some mm) /\ me_size (mm_top mm) = 16) by (eexists; split; [vm_compute; reflexivity|reflexivity]).
      destruct X as [mm [X <-]]. eapply (plain_pointee E2 M0 eq_refl 20); [exact S1|vm_compute; reflexivity|exact X]. }
    intros w z P. destruct (pointees2 w z P) as [Q|Q]; injection Q as -> ->; (split; [lia|]).
    - exists (1000, 16). split; [left; reflexivity|]. split; [unfold within; cbn; lia|]. exists (array_at 1%nat 1 1000), 16. split; [exact P1|]. unfold within; cbn; lia.
    - exists (2000, 24). split; [right; left; reflexivity|]. split; [unfold within; cbn; lia|]. exists (array_at 1%nat 1 2000), 16. split; [exact P2|]. unfold within; cbn; lia. }
  set (rs := arg_regions E2 0 args2 [8; 8; 4]). assert (Rs : rs = [Build_region 200 8 7000; Build_region 208 8 7016; Build_region 216 4 7032]) by reflexivity. clearbody rs. subst rs.
  split.
  { constructor.
    - intros r [<-|[<-|[<-|[]]]]; cbn; lia.
    - intros r r' [<-|[<-|[<-|[]]]] [<-|[<-|[<-|[]]]]; first [left; reflexivity|right; unfold apart; cbn; lia].
    - intros r r' [<-|[<-|[<-|[]]]] [<-|[<-|[<-|[]]]]; first [left; reflexivity|right; unfold apart; cbn; lia].
    - intros r r' [<-|[<-|[<-|[]]]] [<-|[<-|[<-|[]]]]; unfold apart; cbn; lia.
    - intros r b w [<-|[<-|[<-|[]]]] [Q|[Q|[]]]; injection Q as <- <-; unfold apart; cbn; lia.
    - intros r [<-|[<-|[<-|[]]]]; cbn; lia. }
  split.
  { split; [cbn; repeat constructor; cbn; lia|]. split; [split|].
    - intros b s [Q|[Q|[]]]; injection Q as <- <-; lia.
    - intros b s b' s' [Q|[Q|[]]] [Q'|[Q'|[]]]; injection Q as <- <-; injection Q' as <- <-; auto; right; lia.
    - intros a z b s [Q|[Q|[]]] J; injection Q as <- <-; cbn in J; repeat (destruct J as [Q|J]; [injection Q as <- <-; lia|]); destruct J. }
  split; [vm_compute; reflexivity|]. split; vm_compute; reflexivity.
Qed.

(** C39 covers captured calls: freeing what the arguments of f(p, q, 5) point to *)
Example C39_call_example : free_ex E2 M0 (fun l => l) 20 mem2 (at_ 40%nat 100) = Ret (1, [2000; 1000]) /\
  local E2 mem2 /\ coherent E2 (dag M0) mem2 (at_ 40%nat 100) /\ blocks_ok blocks2 /\ held E2 (dag M0) mem2 (at_ 40%nat 100) blocks2.
Proof.
  split; [vm_compute; reflexivity|]. split; [apply plain_local; reflexivity|]. split; [exact (cp_coherent _ _ _ _ orderly2)|].
  destruct C59_copy_example as [s' [evs [_ [_ [_ [_ [_ [_ [OK [Hd _]]]]]]]]]]. split; [exact OK|exact Hd].
Qed.

(** C59. A call captured with variable arguments is never copied, whatever the modes, the data and the destination: the copy of the storage
    fills the storage of `...` too, which is then found not to be empty. *)
Theorem C59_variadic : forall E M ord cal same_decl k src dst s s' b args w,
  (forall i j, en_buf E i = en_buf E j -> i = j) -> (forall i, (c_bufs s <= i)%nat -> en_buf E i <> v_addr dst) ->
  captures E src args -> In w args -> (exists t, e_info (deref (en_db E) (v_entry w)) = IParam true t) -> en_items E (v_addr w) <> [] ->
  copy_ex E M ord cal same_decl k src dst s = Ret (b, s') -> b = false.
Proof. exact (fun E M ord cal sd k src dst s s' b args w I L C W V N H => variadic_fails E I M cal ord sd k src dst s s' b args w C W V N L H). Qed.
Print Assumptions C59_variadic.
Example C59_variadic_example : (forall i j, en_buf E2 i = en_buf E2 j -> i = j) /\ (forall i, (c_bufs st2 <= i)%nat -> en_buf E2 i <> 300) /\
  captures E2 (at_ 48%nat 130) [at_ 49%nat 248; at_ 50%nat 140] /\ items1 140 = [at_ 0%nat 256] /\
  exists s', copy_ex E2 M0 (fun l => l) (some_blocks 9) any_decl 20 (at_ 48%nat 130) (at_ 48%nat 300) st2 = Ret (false, s') /\
    c_items s' 300 = [at_ 49%nat 7000; at_ 50%nat 7016] /\ c_items s' 7016 = [at_ 0%nat 7032].
Proof.
  split; [cbn [en_buf E2]; lia|]. split; [cbn [en_buf E2]; lia|]. split; [eapply (captures2 48%nat 130); reflexivity|]. split; [reflexivity|].
  exists (after (copy_ex E2 M0 (fun l => l) (some_blocks 9) any_decl 20 (at_ 48%nat 130) (at_ 48%nat 300) st2)). split; [apply flag_ret; vm_compute; reflexivity|]. split; vm_compute; reflexivity.
Qed.
(** A failed copy leaves its part in the storage of the destination, so that it cannot be tried again: copying f(NULL, NULL, 5) there,
    which works for the empty storage, fails then. *)
Definition st3 : cst := Build_cst (words [(200, 0); (208, 0); (216, 5); (248, 3); (256, 8)]) 0 [] (c_items st2) 0.
Definition try3 (r : ref) (a : Z) (s : cst) := copy_ex E2 M0 (fun l => l) (some_blocks 9) any_decl 20 (at_ r a) (at_ r 300) s.
Theorem C59_failed_refuted : exists E M cal k src dst s s' src' dst' so sf, copy_ex E M (fun l => l) cal any_decl k src dst s = Ret (false, s') /\
  c_items s (v_addr dst) = [] /\ c_items s' (v_addr dst) <> [] /\ v_addr dst' = v_addr dst /\
  copy_ex E M (fun l => l) cal any_decl k src' dst' s = Ret (true, so) /\ copy_ex E M (fun l => l) cal any_decl k src' dst' s' = Ret (false, sf).
Proof.
  exists E2, M0, (some_blocks 9), 20%nat, (at_ 48%nat 130), (at_ 48%nat 300), st3, (after (try3 48%nat 130 st3)), (at_ 40%nat 100), (at_ 40%nat 300), (after (try3 40%nat 100 st3)), (after (try3 40%nat 100 (after (try3 48%nat 130 st3)))).
  split; [apply flag_ret; vm_compute; reflexivity|]. split; [reflexivity|]. split; [vm_compute; discriminate|]. split; [reflexivity|].
  split; apply flag_ret; vm_compute; reflexivity.
Qed.
Print Assumptions C59_failed_refuted.

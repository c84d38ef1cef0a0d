(** Proofs about the handlers: strings, containers, unions, casts; the handlers as surroundings of the deep functions. *)
From Coq Require Import ZArith String List Bool Lia ZifyBool.
From Verif Require Import Base BaseProof EntryModel EntrySpec EntryProof ValueModel ValueSpec ValueProof ValueProof2.
From Verif Require Import DeepModel DeepSpec HandlerModel HandlerSpec HandlerProof.
Import ListNotations.
Open Scope Z_scope.
Local Open Scope res_scope.

(** strings *)
Lemma strlen_ok : forall k m p sf, string_at m p k -> k < Z.of_nat sf -> strlen sf m p = Ret k.
Proof.
  intros k m p sf (K & Z0 & NZ) L. revert k p K Z0 NZ L. induction sf as [|sf IH]; intros k p K Z0 NZ L; [lia|]. cbn [strlen].
  destruct (Z.eq_dec k 0) as [->|KN].
  - rewrite Z.add_0_r in Z0. rewrite Z0. reflexivity.
  - destruct (Z.eqb_spec (m p) 0) as [E|E]. { exfalso. apply (NZ 0); [lia|]. rewrite Z.add_0_r. auto. }
    rewrite (IH (k - 1) (p + 1)); try lia; [cbn [bind]; f_equal; lia| |].
    + rewrite <- Z0. f_equal. lia. + intros i I. replace (p + 1 + i) with (p + (i + 1)) by lia. apply NZ. lia.
Qed.
Lemma strlen_sound : forall sf m p k, strlen sf m p = Ret k -> string_at m p k.
Proof.
  induction sf as [|sf IH]; intros m p k H; [discriminate|]. cbn [strlen] in H. destruct (Z.eqb_spec (m p) 0) as [E|E].
  - injection H as <-. split; [lia|]. split; [rewrite Z.add_0_r; auto|]. lia.
  - destruct (strlen sf m (p + 1)) as [r| | |] eqn:S; try discriminate. cbn [bind] in H. injection H as <-. destruct (IH _ _ _ S) as (R & Z0 & NZ).
    split; [lia|]. split. { rewrite <- Z0. f_equal. lia. } intros i I. destruct (Z.eq_dec i 0) as [->|IN]; [rewrite Z.add_0_r; auto|].
    replace (p + i) with (p + 1 + (i - 1)) by lia. apply NZ. lia.
Qed.

Section Handlers.
Variables (n nc : nat) (d : db) (g m : mem) (loads : Z -> list value) (stack : Z) (sf : nat).
Hypothesis A : acyclic d n.
Hypothesis BM : bytes_ok m.
Hypothesis BG : bytes_ok g.
Let al := all_succeed.

Lemma pointer_entry_ok : forall v t p, points d m v (Some t) p -> is_pointer (n + 3) d (Some (v_entry v)) = Ret true /\
  pointer_entry (n + 3) d (Some (v_entry v)) = Ret (Some (St t)) /\ value_pointer (n + 3) d m v = Ret (inr p).
Proof.
  intros v t p ((e & F & I) & ->). unfold is_pointer, pointer_entry, value_pointer. rewrite !(final_if_type d n _ e) by auto. rewrite I. cbn [is_pointer_info bind].
  unfold pointer_target. rewrite I, load_number. auto.
Qed.
Lemma final_entry_type : forall p e out, final_type d p (Some e) -> exists q, final_entry (n + 3) d p out = Ret (Some e, q).
Proof.
  intros p e out F. destruct (final_entry_total d n p out A) as ((f & q) & E). destruct (final_entry_inv _ _ _ _ _ _ E) as (qs & R).
  assert (f = Some e) by (eapply final_type_fun; eauto; exists qs; auto). subst. eauto.
Qed.
Theorem string_ok : forall ev v rest t p k, counts ev -> points d m v (Some t) p -> p <> 0 -> char_type d t -> string_at m p k ->
  k < Z.of_nat sf -> k < 2147483647 -> handle_zero_ended_string (n + 3) d sf al m ev (v :: rest) = Ret (0, Some (array_at t (k + 1) p)).
Proof.
  intros ev v rest t p k EV P NZ (e & z & c & F & I & NM) S L L'. destruct (pointer_entry_ok v t p P) as (E1 & E2 & E3).
  assert (handle_zero_ended_string (n + 3) d sf al m ev (v :: rest) = handle_zero_ended_string (n + 3) d sf al m RQVST_pointer_array_count (v :: rest)) as -> by (destruct EV as [-> | ->]; reflexivity).
  unfold handle_zero_ended_string. rewrite E1. cbn [bind negb]. rewrite E2. cbn [bind]. destruct (final_entry_type _ _ no_quals F) as (q & Q). rewrite Q. cbn [bind fst].
  rewrite I, NM. cbn [is_base_info negb orb Base.named]. change (String.eqb "char" "char") with true. cbv iota. cbn [negb]. rewrite E3. cbn [bind].
  destruct (Z.eqb_spec p 0); [contradiction|]. rewrite (strlen_ok k) by auto. cbn [bind]. destruct S as (K & _).
  rewrite swrap32 by lia. change (al_res al) with true. rewrite (counted_value n d A m v (k + 1) (array_at t (k + 1) p)); [reflexivity|]. eapply ct_pointer; eauto.
Qed.
Lemma is_pointer_total : forall v, exists b, is_pointer (n + 3) d (Some (v_entry v)) = Ret b.
Proof. intros v. unfold is_pointer. destruct (final_if_total d n (Some (v_entry v)) is_pointer_info A) as (x & ->). cbn [bind]. eauto. Qed.
Theorem string_total : forall ev h, (forall v rest, h = v :: rest -> safe_string d m sf v) ->
  exists r, handle_zero_ended_string (n + 3) d sf al m ev h = Ret r.
Proof.
  intros ev h SS. destruct h as [|v rest]; [destruct ev; cbn; eauto|]. specialize (SS v rest eq_refl).
  assert (ev = RQVST_union_member \/ counts ev) as [-> |EV] by (destruct ev; unfold counts; auto); [cbn; eauto|].
  assert (handle_zero_ended_string (n + 3) d sf al m ev (v :: rest) = handle_zero_ended_string (n + 3) d sf al m RQVST_pointer_array_count (v :: rest)) as -> by (destruct EV as [-> | ->]; reflexivity).
  unfold handle_zero_ended_string. destruct (is_pointer_total v) as (b & B). rewrite B. cbn [bind]. destruct b; cbn [negb]; [|eauto].
  assert (exists e t, final_type d (Some (v_entry v)) (Some e) /\ e_info (deref d e) = IPointer t) as (e & t & F & I).
  { unfold is_pointer in B. destruct (final_if (n + 3) d (Some (v_entry v)) is_pointer_info) as [[e|]| | |] eqn:X; try discriminate. destruct (final_if_some _ _ _ _ _ X) as (F & I).
    destruct (e_info (deref d e)) eqn:IE; try discriminate. eauto. }
  unfold pointer_entry. rewrite (final_if_type d n _ e) by auto. rewrite I. cbn [is_pointer_info bind]. unfold pointer_target. rewrite I.
  destruct (final_entry_total d n (lift t) no_quals A) as ((f & q) & Q). rewrite Q. cbn [bind fst]. destruct f as [e'|]; [|eauto].
  destruct (negb (is_base_info (e_info (deref d e'))) || negb (Base.named (e_name (deref d e')) "char")) eqn:CH; [eauto|].
  unfold value_pointer. rewrite (final_if_type d n _ e) by auto. rewrite I. cbn [is_pointer_info bind].
  destruct (Z.eqb_spec (load m (v_addr v) 8) 0) as [E|E]; [eauto|].
  destruct t as [t|]; [|unfold final_entry in Q; cbn in Q; discriminate]. apply orb_false_iff in CH. destruct CH as (C1 & C2). apply negb_false_iff in C1, C2.
  destruct (final_entry_inv _ _ _ _ _ _ Q) as (qs & R). destruct (SS t (load m (v_addr v) 8)) as (k & S & L).
  - split; [exists e; auto|]. apply load_number. - auto.
  - destruct (e_info (deref d e')) eqn:IE; try discriminate. exists e', size, enc. split; [exists qs; auto|]. split; auto. apply named_iff. auto.
  - rewrite (strlen_ok k) by auto. cbn [bind]. destruct (element_count_total n d A m v (swrap 32 (k + 1)) (al_res al)) as (x & ->). cbn [bind]. eauto.
Qed.

(** containers *)
Lemma points_stack : forall r t p, final_type d (Some (St r)) (Some (St r)) \/ True -> (exists e, final_type d (Some (St r)) (Some e) /\ e_info (deref d e) = IPointer (Some t)) ->
  0 <= p < 2 ^ 64 -> points d (store m stack 8 p) (Build_value (St r) stack) (Some t) p.
Proof.
  intros r t p _ X P. split; auto. cbn [v_addr]. rewrite <- load_number. rewrite load_store; [|cbn; lia..]. symmetry. apply uwrap_small. change (8 * Z.of_nat 8) with 64. auto.
Qed.
Theorem container_ok : forall v rest t0 p off r t e, points d m v t0 p -> stack <> 0 -> final_type d (Some (St r)) (Some e) -> e_info (deref d e) = IPointer (Some t) ->
  (p - off) mod 2 ^ 64 <> 0 ->
  handle_container_of (n + 3) d stack al (Some (off, Some r)) m RQVST_pointer_array_count (v :: rest) = Ret (0, Some (array_at t 1 ((p - off) mod 2 ^ 64))).
Proof.
  intros v rest t0 p off r t e ((e0 & F0 & I0) & P) SN F I NZ. unfold handle_container_of, value_pointer. rewrite (final_if_type d n _ e0) by auto. rewrite I0. cbn [is_pointer_info bind].
  unfold new_value. destruct (Z.eqb_spec stack 0); [contradiction|]. change (al_cast al) with true; cbv iota. rewrite load_number, <- P.
  change (al_res al) with true. rewrite (counted_value n d A _ _ 1 (array_at t 1 ((p - off) mod 2 ^ 64))); [reflexivity|]. apply ct_pointer; auto.
  apply points_stack; eauto. apply Z.mod_pos_bound. lia.
Qed.
Theorem container_member : forall t z r s p off w x, 0 <= p < 2 ^ 64 -> w = array_at t 1 ((p - off) mod 2 ^ 64) -> element_is w t z 0 x -> member_is d x r s ->
  (exists mi, e_info (d r) = IMember mi /\ m_byte_offset mi = off) -> v_addr s = p.
Proof.
  intros t z r s p off w x P -> (-> & _) (mi & IM & -> & _) (mi' & IM' & <-). assert (mi' = mi) by congruence. subst mi'. cbn [v_addr array_at].
  rewrite Z.mul_0_r, Z.add_0_r, Z.mod_mod by lia. rewrite Zplus_mod_idemp_l. replace (p - m_byte_offset mi + m_byte_offset mi) with p by lia. apply Z.mod_small. auto.
Qed.
Theorem container_total : forall ctx ev h, exists r, handle_container_of (n + 3) d stack al ctx m ev h = Ret r.
Proof.
  intros ctx ev h. unfold handle_container_of. destruct ev; eauto. destruct ctx as [(off & [r|])|]; eauto. destruct h as [|v rest]; eauto.
  unfold value_pointer. destruct (final_if_total d n (Some (v_entry v)) is_pointer_info A) as (x & ->). cbn [bind]. destruct x; eauto.
  unfold new_value. destruct (stack =? 0); eauto. change (al_cast al) with true; cbv iota.
  destruct (element_count_total n d A (store m stack 8 (uwrap 64 (load m (v_addr v) 8 - off))) (Build_value (St r) stack) 1 (al_res al)) as (y & ->). cbn [bind]. eauto.
Qed.

(** members by name *)
Lemma name_to_id : forall v l name i r, aggr_type d v l -> first_named (ref_name d) l name i r -> member_name_to_id (n + 3) d (Some (v_entry v)) name = Ret (Z.of_nat i).
Proof.
  intros v l name i r (e & k & z & F & I) (N & NM & FI). unfold member_name_to_id. rewrite (final_if_type d n _ e) by auto. rewrite I. cbn [is_aggr_info bind]. unfold members_of. rewrite I. f_equal.
  destruct (name_loop_spec d name l 0 ltac:(lia)) as [(pre & x & post & -> & NX & NP & ->)|(NN & _)].
  - f_equal. rewrite Z.add_0_l. f_equal. destruct (Nat.lt_trichotomy (length pre) i) as [L|[L|L]]; auto; exfalso.
    + apply (FI (length pre) x); auto. rewrite nth_error_app2 by lia. rewrite Nat.sub_diag. reflexivity.
    + rewrite nth_error_app1 in N by auto. apply nth_error_In in N. apply (NP r); auto.
  - exfalso. apply (NN r); auto. eapply nth_error_In; eauto.
Qed.
Lemma name_to_id_no : forall v l name, aggr_type d v l -> (forall r, In r l -> ref_name d r <> Some name) -> member_name_to_id (n + 3) d (Some (v_entry v)) name = Ret (- ENOENT).
Proof.
  intros v l name (e & k & z & F & I) NN. unfold member_name_to_id. rewrite (final_if_type d n _ e) by auto. rewrite I. cbn [is_aggr_info bind]. unfold members_of. rewrite I. f_equal.
  destruct (name_loop_spec d name l 0 ltac:(lia)) as [(pre & x & post & -> & NX & NP & ->)|(_ & ->)]; auto. exfalso. apply (NN x); auto. apply in_or_app. right. left. auto.
Qed.
Lemma name_to_id_total : forall v name, exists i, member_name_to_id (n + 3) d (Some (v_entry v)) name = Ret i.
Proof. intros v name. unfold member_name_to_id. destruct (final_if_total d n (Some (v_entry v)) is_aggr_info A) as (x & ->). cbn [bind]. eauto. Qed.
Lemma member_value_total : forall v i a, exists x, new_value_by_member_id (n + 3) d v i a = Ret x.
Proof.
  intros v i a. unfold new_value_by_member_id. destruct (final_if_total d n (Some (v_entry v)) is_aggr_info A) as (x & X). rewrite X. cbn [bind]. destruct x as [e|]; eauto.
  unfold member_count, by_member_id. destruct (final_if_total d n (Some e) is_aggr_info A) as (y & Y). rewrite Y. cbn [bind].
  destruct (_ || _); eauto. destruct y as [e'|]; cbn [bind]; eauto. destruct (nth_id (members_of d e') i) as [p|]; eauto. destruct (e_info (deref d p)); eauto.
Qed.

(** unions *)
Lemma case_loop_ok : forall v l cases x c i, aggr_type d v l -> first_case u_val cases x c -> named_by d l c i -> case_loop (n + 3) d v cases x = Ret (inr (Z.of_nat i)).
Proof.
  intros v l cases x c i AT (pre & post & -> & K & NP) NB. induction pre as [|y pre IH]; cbn [app case_loop].
  - rewrite K, Z.eqb_refl. unfold named_by in NB. destruct (u_name c) as [s|].
    + destruct NB as (r & FN). rewrite (name_to_id v l s i r) by auto. cbn [bind]. destruct (Z.ltb_spec (Z.of_nat i) 0); [lia|]. reflexivity.
    + rewrite NB. reflexivity.
  - destruct (Z.eqb_spec (u_val y) x) as [E|E]. { exfalso. apply (NP y); auto. left. auto. } apply IH. intros y' Y. apply NP. right. auto.
Qed.
Lemma case_loop_none : forall v cases x, (forall c, In c cases -> u_val c <> x) -> case_loop (n + 3) d v cases x = Ret (inl (- ENOENT)).
Proof.
  intros v cases x H. induction cases as [|c cases IH]; auto. cbn [case_loop]. destruct (Z.eqb_spec (u_val c) x) as [E|E]. { exfalso. apply (H c); auto. left. auto. } apply IH. intros y Y. apply H. right. auto.
Qed.
Lemma case_loop_total : forall v cases x, exists r, case_loop (n + 3) d v cases x = Ret r.
Proof.
  intros v cases x. induction cases as [|c cases IH]; cbn [case_loop]; eauto. destruct (u_val c =? x); auto. destruct (u_name c) as [s|]; eauto.
  destruct (name_to_id_total v s) as (i & ->). cbn [bind]. eauto.
Qed.
Lemma aggr_not_function : forall parent l, aggr_type d parent l -> forall l', ~ function_of d loads parent l'.
Proof.
  intros parent l (e & k & z & F & I) l' ((i & (e' & F' & I') & K) & _). assert (Some e = Some e') by (eapply final_type_fun; eauto). assert (e = e') by congruence. subst. rewrite I in K. contradiction.
Qed.
Lemma member_number_found : forall parent l name s y, struct_of d parent l -> sibling d loads parent name s -> stores d m s y -> fits_int y ->
  sibling_loop (n + 3) d g m (member_item (n + 3) d al parent) name (length l) 0 = Ret (inr (Some y)).
Proof.
  intros parent l name s y (AT & MS) SB ST FI. assert (E := sibling_found n nc d g m loads A BM BG parent name s y SB ST FI). unfold sibling_number in E.
  rewrite (is_aggr n d A _ l) in E by auto. cbn [bind] in E. rewrite (count_of n d A _ l) in E by auto. exact E.
Qed.
Theorem union_ok : forall v parent rest name cases s x lp lu i r w, name <> EmptyString -> struct_of d parent lp -> sibling d loads parent name s ->
  stores d m s x -> fits_int x -> aggr_type d v lu -> selected d lu cases x i -> nth_error lu i = Some r -> member_is d v r w ->
  handle_union_member_select (n + 3) d g al (Some (SelectByField (Some name) cases)) m RQVST_union_member (v :: parent :: rest) = Ret (0, Some w).
Proof.
  intros v parent rest name cases s x lp lu i r w NE SP SB ST FI AU SEL NI MI. assert (AP := proj1 SP). unfold handle_union_member_select. rewrite given_some by auto.
  rewrite (is_aggr n d A v lu), (is_aggr n d A parent lp) by auto. cbn [bind negb orb]. rewrite (count_of n d A _ lp) by auto. cbn [bind].
  rewrite (member_number_found parent lp name s x) by auto. cbn [bind].
  assert (E : (match cases with [] => Ret (inr x) | _ => case_loop (n + 3) d v cases x end) = Ret (inr (Z.of_nat i) : Z + Z)).
  { destruct SEL as [(-> & ->)|(c & FC & NB)]; auto. rewrite (case_loop_ok v lu cases x c i) by auto. destruct cases; auto. destruct FC as (pre & post & E & _). destruct pre; discriminate. }
  rewrite E. cbn [bind]. destruct MI as (mi & IM & -> & NZ). cbn [v_addr] in NZ.
  change (al_res al) with true. rewrite (member_complete d n v (Z.of_nat i) lu r mi); auto; try lia. rewrite Nat2Z.id. auto.
Qed.
Theorem union_constant : forall v parent rest i lu r w, aggr_type d v lu -> nth_error lu i = Some r -> member_is d v r w ->
  handle_union_member_select (n + 3) d g al (Some (Constant (Z.of_nat i))) m RQVST_union_member (v :: parent :: rest) = Ret (0, Some w).
Proof.
  intros v parent rest i lu r w AU NI (mi & IM & -> & NZ). cbn [v_addr] in NZ. unfold handle_union_member_select. rewrite (is_aggr n d A v lu) by auto. cbn [bind negb].
  change (al_res al) with true. rewrite (member_complete d n v (Z.of_nat i) lu r mi); auto; try lia. rewrite Nat2Z.id. auto.
Qed.
Theorem union_missing : forall v parent rest name cases lp lu, name <> EmptyString -> struct_of d parent lp -> (forall r, In r lp -> ref_name d r <> Some name) -> aggr_type d v lu ->
  handle_union_member_select (n + 3) d g al (Some (SelectByField (Some name) cases)) m RQVST_union_member (v :: parent :: rest) = Ret (0, None).
Proof.
  intros v parent rest name cases lp lu NE SP NN AU. assert (AP := proj1 SP). unfold handle_union_member_select. rewrite given_some by auto.
  rewrite (is_aggr n d A v lu), (is_aggr n d A parent lp) by auto. cbn [bind negb orb]. rewrite (count_of n d A _ lp) by auto. cbn [bind].
  assert (E := sibling_missing n nc d g m loads A parent name (ns_member _ _ _ _ lp SP NN)). unfold sibling_number in E.
  rewrite (is_aggr n d A _ lp) in E by auto. cbn [bind] in E. rewrite (count_of n d A _ lp) in E by auto. cbn [bind] in E. fold al in E. rewrite E. reflexivity.
Qed.
Theorem union_no_case : forall v parent rest name cases s x lp lu, name <> EmptyString -> struct_of d parent lp -> sibling d loads parent name s ->
  stores d m s x -> fits_int x -> aggr_type d v lu -> cases <> [] -> (forall c, In c cases -> u_val c <> x) ->
  handle_union_member_select (n + 3) d g al (Some (SelectByField (Some name) cases)) m RQVST_union_member (v :: parent :: rest) = Ret (- ENOENT, None).
Proof.
  intros v parent rest name cases s x lp lu NE SP SB ST FI AU CN NC. assert (AP := proj1 SP). unfold handle_union_member_select. rewrite given_some by auto.
  rewrite (is_aggr n d A v lu), (is_aggr n d A parent lp) by auto. cbn [bind negb orb]. rewrite (count_of n d A _ lp) by auto. cbn [bind].
  rewrite (member_number_found parent lp name s x) by auto. cbn [bind]. destruct cases; [contradiction|]. rewrite case_loop_none by auto. reflexivity.
Qed.
Lemma case_loop_missing : forall v l cases x c s, aggr_type d v l -> first_case u_val cases x c -> u_name c = Some s -> (forall r, In r l -> ref_name d r <> Some s) ->
  case_loop (n + 3) d v cases x = Ret (inl (- EFAULT)).
Proof.
  intros v l cases x c s AT (pre & post & -> & K & PR) NM NN. induction pre as [|c0 pre IH]; cbn [app case_loop].
  - rewrite K, Z.eqb_refl, NM. rewrite (name_to_id_no _ l) by auto. reflexivity.
  - destruct (Z.eqb_spec (u_val c0) x) as [Q|Q]; [destruct (PR c0 (or_introl eq_refl) Q)|]. apply IH. intros y Y. apply PR. right. exact Y.
Qed.
Theorem union_case_missing : forall v parent rest name cases s x lp lu c q, name <> EmptyString -> struct_of d parent lp -> sibling d loads parent name s ->
  stores d m s x -> fits_int x -> aggr_type d v lu -> first_case u_val cases x c -> u_name c = Some q -> (forall r, In r lu -> ref_name d r <> Some q) ->
  handle_union_member_select (n + 3) d g al (Some (SelectByField (Some name) cases)) m RQVST_union_member (v :: parent :: rest) = Ret (- EFAULT, None).
Proof.
  intros v parent rest name cases s x lp lu c q NE SP SB ST FI AU FC NM NC. assert (AP := proj1 SP). unfold handle_union_member_select. rewrite given_some by auto.
  rewrite (is_aggr n d A v lu), (is_aggr n d A parent lp) by auto. cbn [bind negb orb]. rewrite (count_of n d A _ lp) by auto. cbn [bind].
  rewrite (member_number_found parent lp name s x) by auto. cbn [bind]. pose proof (case_loop_missing v lu cases x c q AU FC NM NC) as Q.
  destruct cases; [destruct FC as (pre & post & Z & _); destruct pre; discriminate|]. rewrite Q. reflexivity.
Qed.
Theorem union_total : forall ctx ev h, (forall v parent rest, h = v :: parent :: rest -> safe_parent d m loads nc parent) ->
  exists r, handle_union_member_select (n + 3) d g al ctx m ev h = Ret r.
Proof.
  intros ctx ev h SP. unfold handle_union_member_select. destruct ev; eauto. destruct h as [|v [|parent rest]]; eauto. specialize (SP v parent rest eq_refl).
  destruct ctx as [[fld cases|i]|]; eauto.
  - destruct (given fld) as [name|]; eauto. destruct (members_total n d A v) as (bv & -> & _). destruct (members_total n d A parent) as (bp & BP & P). rewrite BP. cbn [bind].
    destruct bv, bp; cbn [negb orb]; eauto. destruct P as (l & AT). rewrite (count_of n d A _ l) by auto. cbn [bind].
    assert (E := sibling_total n nc d g m loads A BM BG parent name SP). unfold sibling_number in E. rewrite BP in E. cbn [bind] in E. rewrite (count_of n d A _ l) in E by auto. cbn [bind] in E.
    destruct E as (r & E). fold al in E. rewrite E. cbn [bind]. destruct r as [e|[x|]]; eauto.
    assert (exists q, (match cases with [] => Ret (inr x) | _ => case_loop (n + 3) d v cases x end) = Ret q) as (q & ->). { destruct cases; eauto. apply case_loop_total. }
    cbn [bind]. destruct q as [e|i]; eauto. destruct (member_value_total v i (al_res al)) as (w & ->). cbn [bind]. eauto.
  - destruct (members_total n d A v) as (bv & -> & _). cbn [bind]. destruct bv; cbn [negb]; eauto. destruct (member_value_total v i (al_res al)) as (w & ->). cbn [bind]. eauto.
Qed.

(** casts *)
Lemma member_number_ok : forall parent l i r s y, aggr_type d parent l -> nth_error l i = Some r -> member_is d parent r s -> stores d m s y -> fits_int y ->
  member_number (n + 3) d g al m parent (Z.of_nat i) = Ret (Some y).
Proof.
  intros parent l i r s y AT NI (mi & IM & -> & NZ) ST FI. cbn [v_addr] in NZ. unfold member_number, member_item.
  change (al_sib al) with (fun _ : Z => true); cbv beta. rewrite (member_complete d n parent (Z.of_nat i) l r mi); auto; try lia; [|rewrite Nat2Z.id; auto]. cbn [bind].
  unfold uwrap. rewrite (stores_num n d g m A BM BG _ y) by auto. reflexivity.
Qed.
Lemma cast_loop_ok : forall v cases x c count r t p e, first_case c_val cases x c -> c_entry c = Some r -> final_type d (Some (St r)) (Some e) -> e_info (deref d e) = IPointer (Some t) ->
  v_addr v <> 0 -> p = number_at m (v_addr v) 8 -> p <> 0 -> cast_loop (n + 3) d al m v cases x count = Ret (0, Some (array_at t count p)).
Proof.
  intros v cases x c count r t p e (pre & post & -> & K & NP) CE F I AN P NZ. induction pre as [|y pre IH]; cbn [app cast_loop].
  - rewrite K, Z.eqb_refl, CE. unfold new_value. destruct (Z.eqb_spec (v_addr v) 0); [contradiction|]. change (al_cast al) with true; cbv iota.
    change (al_res al) with true. rewrite (counted_value n d A m _ count (array_at t count p)); [reflexivity|]. apply ct_pointer; auto. split; auto. exists e. auto.
  - destruct (Z.eqb_spec x (c_val y)) as [E|E]. { exfalso. apply (NP y); auto. left. auto. } apply IH. intros y' Y. apply NP. right. auto.
Qed.
Lemma first_named_in : forall {X} (nm : X -> option string) l name i x, first_named nm l name i x -> nth_error l i = Some x.
Proof. intros X nm l name i x (N & _). auto. Qed.
Theorem cast_ok : forall v parent rest c name lp i rs s x y cs r t p e, has_name (pc_selector c) name -> struct_of d parent lp ->
  first_named (ref_name d) lp name i rs -> member_is d parent rs s -> stores d m s x -> fits_int x -> cast_count d m parent lp (pc_count c) y ->
  first_case c_val (pc_cases c) x cs -> c_entry cs = Some r -> final_type d (Some (St r)) (Some e) -> e_info (deref d e) = IPointer (Some t) ->
  v_addr v <> 0 -> p = number_at m (v_addr v) 8 -> p <> 0 ->
  handle_ptr_cast (n + 3) d g al (Some c) m RQVST_pointer_array_count (v :: parent :: rest) = Ret (0, Some (array_at t y p)).
Proof.
  intros v parent rest c name lp i rs s x y cs r t p e GS (AP & MS) FN MI ST FI CC FC CE F I AN P NZ. unfold handle_ptr_cast. rewrite (proj2 (given_name _ _) GS).
  destruct (pc_cases c) as [|c0 cr] eqn:PC. { destruct FC as (pre & post & E & _). destruct pre; discriminate. } rewrite <- PC in *. 
  rewrite (is_aggr n d A parent lp) by auto. cbn [bind negb]. rewrite (name_to_id parent lp name i rs) by auto. cbn [bind]. destruct (Z.ltb_spec (Z.of_nat i) 0); [lia|].
  rewrite (member_number_ok parent lp i rs s x) by (auto; eapply first_named_in; eauto). cbn [bind].
  assert (E : (match given (pc_count c) with None => Ret (Some 1) | Some cn => do j <- member_name_to_id (n + 3) d (Some (v_entry parent)) cn; member_number (n + 3) d g al m parent j end) = Ret (Some y)).
  { destruct CC as [(NN & ->)|(cn & j & rc & sc & NN & FN' & MI' & ST' & FI')]; [rewrite (proj2 (given_none _) NN); auto|rewrite (proj2 (given_name _ _) NN)]. rewrite (name_to_id parent lp cn j rc) by auto. cbn [bind]. apply (member_number_ok parent lp j rc sc y); auto. eapply first_named_in; eauto. }
  rewrite E. cbn [bind]. eapply cast_loop_ok; eauto.
Qed.
Lemma cast_loop_total : forall v cases x count, exists r, cast_loop (n + 3) d al m v cases x count = Ret r.
Proof.
  intros v cases x count. induction cases as [|c cases IH]; cbn [cast_loop]; eauto. destruct (x =? c_val c); auto. destruct (c_entry c); eauto.
  unfold new_value. destruct (v_addr v =? 0); eauto. change (al_cast al) with true; cbv iota. edestruct (element_count_total n d A m) as (w & ->). cbn [bind]. eauto.
Qed.
Lemma member_number_total : forall parent lp name i, aggr_type d parent lp -> (forall r, In r lp -> exists s, member_is d parent r s /\ inspectable d m s) ->
  member_name_to_id (n + 3) d (Some (v_entry parent)) name = Ret i -> 0 <= i -> exists r, member_number (n + 3) d g al m parent i = Ret r.
Proof.
  intros parent lp name i AP MS N L. assert (exists j r, i = Z.of_nat j /\ nth_error lp j = Some r) as (j & r & -> & NJ).
  { destruct AP as (e & k & z & F & I). unfold member_name_to_id in N. rewrite (final_if_type d n _ e) in N by auto. rewrite I in N. cbn [is_aggr_info bind] in N. unfold members_of in N. rewrite I in N. injection N as N.
    destruct (name_loop_spec d name lp 0 ltac:(lia)) as [(pre & x & post & -> & NX & NP & E)|(_ & E)]; rewrite E in N; [|unfold ENOENT in N; lia].
    exists (length pre), x. split; [lia|]. rewrite nth_error_app2 by lia. rewrite Nat.sub_diag. reflexivity. }
  destruct (MS r (nth_error_In _ _ NJ)) as (s & (mi & IM & -> & NZ) & IS). cbn [v_addr] in NZ. unfold member_number, member_item. change (al_sib al) with (fun _ : Z => true); cbv beta.
  rewrite (member_complete d n parent (Z.of_nat j) lp r mi); auto; try lia; [|rewrite Nat2Z.id; auto]. cbn [bind]. unfold uwrap.
  destruct (inspect_num n d g m A BM BG _ IS) as (x & ->). cbn [bind value_delete]. eauto.
Qed.
(** every cast handler whose count member, if it names one, exists *)
Theorem cast_total : forall ctx ev h, (forall v parent rest, h = v :: parent :: rest -> safe_parent d m loads nc parent) ->
  (forall c v parent rest name l, ctx = Some c -> h = v :: parent :: rest -> has_name (pc_count c) name -> aggr_type d parent l -> exists r, In r l /\ ref_name d r = Some name) ->
  exists r, handle_ptr_cast (n + 3) d g al ctx m ev h = Ret r.
Proof.
  intros ctx ev h SP CO. unfold handle_ptr_cast. destruct ev; eauto. destruct h as [|v [|parent rest]]; eauto. destruct (SP v parent rest eq_refl) as (SM & _ & _).
  destruct ctx as [c|]; eauto. destruct (given (pc_selector c)) as [name|]; eauto. destruct (pc_cases c) as [|c0 cr] eqn:PC; eauto. rewrite <- PC. 
  destruct (members_total n d A parent) as (bp & -> & P). cbn [bind]. destruct bp; cbn [negb]; eauto. destruct P as (l & AT).
  destruct (name_to_id_total parent name) as (i & N). rewrite N. cbn [bind]. destruct (Z.ltb_spec i 0); eauto.
  destruct (member_number_total parent l name i AT (SM l AT) N) as (x & ->); auto. cbn [bind]. destruct x as [x|]; eauto.
  assert (exists q, (match given (pc_count c) with None => Ret (Some 1) | Some cn => do j <- member_name_to_id (n + 3) d (Some (v_entry parent)) cn; member_number (n + 3) d g al m parent j end) = Ret q) as (q & ->).
  { destruct (given (pc_count c)) as [cn|] eqn:G; eauto. apply given_name in G. destruct (name_to_id_total parent cn) as (j & J). rewrite J. cbn [bind]. apply (member_number_total parent l cn j AT (SM l AT) J).
    destruct (CO c v parent rest cn l eq_refl eq_refl G AT) as (r & R & NR). destruct AT as (e & k & z & F & I). unfold member_name_to_id in J. rewrite (final_if_type d n _ e) in J by auto. rewrite I in J. cbn [is_aggr_info bind] in J. unfold members_of in J. rewrite I in J. injection J as <-.
    destruct (name_loop_spec d cn l 0 ltac:(lia)) as [(pre & y & post & -> & NX & NP & ->)|(NN & _)]; [lia|]. exfalso. apply (NN r); auto. }
  cbn [bind]. destruct q as [y|]; eauto. apply cast_loop_total.
Qed.
End Handlers.

(** The handlers as surroundings of the deep functions: they return, and they look at nothing but the value and its parent. *)
From Coq Require Import ZArith String List Bool Lia ZifyBool.
From Verif Require Import Base BaseProof EntryModel EntrySpec EntryProof ValueModel ValueSpec ValueProof ValueProof2.
From Verif Require Import DeepModel DeepSpec DeepProof4 DeepProof6 HandlerModel HandlerSpec HandlerProof HandlerProof2.
Import ListNotations.
Open Scope Z_scope.
Local Open Scope res_scope.

Section Runs.
Variables (n nc : nat) (d : db) (g : mem) (loads : Z -> list value) (stack : Z) (sf : nat) (al : allocs).
Hypothesis A : acyclic d n.
Hypothesis C : forall t, runs (CdeclModel.entry_cdecl nc d (lift t)).
Notation fu := (n + 3)%nat.

Lemma final_if_runs' : forall p w, runs (final_if fu d p w).
Proof. intros p w. apply ret_runs. apply final_if_total. exact A. Qed.
Lemma byte_size_runs' : forall p, runs (byte_size fu d p).
Proof. intros p. apply ret_runs. apply byte_size_total. exact A. Qed.
Lemma final_entry_runs' : forall p q, runs (final_entry fu d p q).
Proof. intros p q. apply ret_runs. apply final_entry_total. exact A. Qed.
Ltac step := first
  [ discriminate
  | apply final_if_runs' | apply byte_size_runs' | apply final_entry_runs' | apply C | assumption
  | match goal with |- runs (bind _ _) => apply bind_runs; [|intros] end
  | match goal with |- runs (match ?x with _ => _ end) => destruct x end ].
Ltac go := repeat step.
Lemma shl_runs : forall a b, runs (shl_int a b).
Proof. intros. unfold shl_int. go. Qed.
Lemma sub_runs : forall a b, runs (sub_int a b).
Proof. intros. unfold sub_int. go. Qed.
Lemma bitfield_runs : forall m mi base w sgn, runs (bitfield_read g m mi base w sgn).
Proof.
  intros. unfold bitfield_read, bf_extract, bitfield_offsets. repeat (first [apply shl_runs | apply sub_runs | step]).
Qed.
Lemma check_runs : forall p name enc w, runs (check_base_type fu d p name enc w).
Proof. intros. unfold check_base_type. go. Qed.
Lemma base_runs : forall m v name enc w, runs (value_base_type fu d g m v name enc w).
Proof. intros. unfold value_base_type. repeat (first [apply check_runs | apply bitfield_runs | step]). Qed.
Lemma is_runs : forall v c, runs (value_is fu d v c).
Proof. intros. unfold value_is, entry_is. repeat (first [apply check_runs | step]). Qed.
Lemma get_runs : forall m v c, runs (value_get fu d g m v c).
Proof. intros. unfold value_get. repeat (first [apply base_runs | step]). Qed.
Lemma num_loop_runs : forall m v l, runs (num_loop fu d g m v l).
Proof. intros m v l. induction l as [|c l IH]; [discriminate|]. cbn [num_loop]. repeat (first [apply is_runs | apply get_runs | apply IH | step]). Qed.
Lemma num_runs : forall m v, runs (value_num fu d g m v).
Proof. intros. unfold value_num, value_enumeration, enum_size. repeat (first [apply num_loop_runs | step]). Qed.
Lemma count_runs : forall m v c a, runs (new_element_count_value fu d m v c a).
Proof. intros m v c a. apply ret_runs, element_count_total, A. Qed.
Lemma member_runs' : forall v i a, runs (new_value_by_member_id fu d v i a).
Proof. intros v i a. apply ret_runs, member_value_total, A. Qed.
Lemma sibling_runs : forall m item name c i, (forall i, runs (item i)) -> runs (sibling_loop fu d g m item name c i).
Proof.
  intros m item name c. induction c as [|c IH]; intros i I; [discriminate|]. cbn [sibling_loop]. unfold value_delete.
  repeat (first [apply I | apply num_runs | apply IH; exact I | step]).
Qed.
Lemma has_members_runs : forall v, runs (has_members fu d v).
Proof. intros. unfold has_members. go. Qed.
Lemma load_runs : forall v, runs (has_parameter_load fu nc d v).
Proof. intros. unfold has_parameter_load, is_va_list. go. Qed.
Lemma item_runs : forall v i, runs (member_item fu d al v i).
Proof. intros. unfold member_item. apply member_runs'. Qed.
Lemma member_count_runs : forall v, runs (member_count_of fu d v).
Proof. intros. unfold member_count_of, member_count. go. Qed.
Lemma count_by_runs : forall ctx m ev h, runs (handle_count_by fu nc d g loads al ctx m ev h).
Proof.
  intros. unfold handle_count_by.
  repeat (first [apply has_members_runs | apply load_runs | apply member_count_runs | apply count_runs | apply sibling_runs; [intros; (apply item_runs || discriminate)] | step]).
Qed.
Lemma strlen_runs : forall k m a, runs (strlen k m a).
Proof. induction k as [|k IH]; intros; cbn; [discriminate|]. repeat (first [apply IH | step]). Qed.
Lemma string_runs : forall m ev h, runs (handle_zero_ended_string fu d sf al m ev h).
Proof. intros. unfold handle_zero_ended_string, is_pointer, pointer_entry, value_pointer. repeat (first [apply strlen_runs | apply count_runs | step]). Qed.
Lemma container_runs : forall ctx m ev h, runs (handle_container_of fu d stack al ctx m ev h).
Proof. intros. unfold handle_container_of, value_pointer. repeat (first [apply count_runs | step]). Qed.
Lemma name_id_runs : forall p name, runs (member_name_to_id fu d p name).
Proof. intros. unfold member_name_to_id. go. Qed.
Lemma case_runs : forall v cases x, runs (case_loop fu d v cases x).
Proof. intros v cases x. induction cases as [|c cases IH]; cbn; [discriminate|]. repeat (first [apply name_id_runs | apply IH | step]). Qed.
Lemma union_runs : forall ctx m ev h, runs (handle_union_member_select fu d g al ctx m ev h).
Proof.
  intros. unfold handle_union_member_select.
  repeat (first [apply has_members_runs | apply member_count_runs | apply member_runs' | apply case_runs | apply sibling_runs; [intros; apply item_runs] | step]).
Qed.
Lemma member_number_runs : forall m v i, runs (member_number fu d g al m v i).
Proof. intros. unfold member_number, value_delete. repeat (first [apply item_runs | apply num_runs | step]). Qed.
Lemma cast_loop_runs : forall m v cases x c, runs (cast_loop fu d al m v cases x c).
Proof. intros m v cases x c. induction cases as [|k cases IH]; cbn; [discriminate|]. repeat (first [apply count_runs | apply IH | step]). Qed.
Lemma cast_runs : forall ctx m ev h, runs (handle_ptr_cast fu d g al ctx m ev h).
Proof.
  intros. unfold handle_ptr_cast.
  repeat (first [apply has_members_runs | apply name_id_runs | apply member_number_runs | apply cast_loop_runs | step]).
Qed.
Lemma handle_runs : forall k m ev h, runs (handle fu nc d g loads stack sf al k m ev h).
Proof. intros k m ev h. destruct k; cbn [handle]; [apply count_by_runs|apply string_runs|apply container_runs|apply union_runs|apply cast_runs]. Qed.
Variable tags : eptr -> option handler.
Lemma tag_runs : forall m ev h, runs (tag_handler fu nc d g loads stack sf al tags m ev h).
Proof. intros m ev h. unfold tag_handler. destruct h as [|v h]; [discriminate|]. destruct (tags (v_entry v)); [apply handle_runs|discriminate]. Qed.
End Runs.

Section Tame.
Variables (n nc : nat) (d : db) (g g' : mem) (uchar : ref) (loads : Z -> list value) (stack : Z) (sf : nat) (al : allocs) (tags : eptr -> option handler) (bufs : nat -> Z).
Definition metac_env : env := Build_env (n + 3) d g' uchar (tag_handler (n + 3) nc d g loads stack sf al tags)
  (fun p => match is_va_list nc d p with Ret b => b | _ => false end) loads bufs.
Lemma info_fun : forall v i i', has_info d v i -> has_info d v i' -> i = i'.
Proof. intros v i i' [e [A B]] [e' [A' B']]. pose proof (final_type_fun _ _ _ _ A A') as Q. injection Q as <-. congruence. Qed.
Lemma bind_ret : forall {X Y} (x : res X) (f : X -> res Y) y, bind x f = Ret y -> exists a, x = Ret a /\ f a = Ret y.
Proof. intros X Y x f y H. destruct x; try discriminate. eauto. Qed.
Lemma count_of_array : forall k m v c a w t c0, new_element_count_value k d m v c a = Ret (Some w) -> has_info d v (IArray t c0) ->
  exists r, t = Some r /\ w = array_at r c (v_addr v).
Proof.
  intros k m v c a w t c0 H I. apply element_count_sound in H. destruct H as [t' p (P & _) _|t' c' I' _].
  - exfalso. destruct P as (e & F & J). destruct I as (e' & F' & J'). assert (Some e = Some e') by (eapply final_type_fun; eauto). assert (e = e') by congruence. subst. congruence.
  - assert (IArray t c0 = IArray (Some t') c') by (eapply info_fun; eauto). eexists. split; [|reflexivity]. congruence.
Qed.
Lemma not_pointer : forall k v t c b, has_info d v (IArray t c) -> is_pointer k d (Some (v_entry v)) = Ret b -> b = false.
Proof.
  intros k v t c b (e & F & I) H. unfold is_pointer in H. apply bind_ret in H. destruct H as (x & X & H). destruct (final_if_inv _ _ _ _ _ X) as (f & F' & ->).
  assert (f = Some e) by (eapply final_type_fun; eauto). subst f. rewrite I in H. cbn in H. congruence.
Qed.
Lemma flex_handler : forall k m v anc w t c, has_info d v (IArray t c) -> handle (n + 3) nc d g loads stack sf al k m RQVST_flex_array_count (v :: anc) = Ret (0, Some w) ->
  exists r c', t = Some r /\ w = array_at r c' (v_addr v).
Proof.
  intros k m v anc w t c I H. destruct k; cbn [handle] in H.
  - unfold handle_count_by in H. destruct anc as [|p anc]; [discriminate|]. destruct (match ctx with None => None | Some s => given s end); [|discriminate].
    apply bind_ret in H. destruct H as (hm & _ & H). apply bind_ret in H. destruct H as (r & _ & H). destruct r as [e|[y|]]; try discriminate.
    apply bind_ret in H. destruct H as (x & X & H). injection H as ->. destruct (count_of_array _ _ _ _ _ _ _ _ X I) as (r & -> & ->). eauto.
  - unfold handle_zero_ended_string in H. apply bind_ret in H. destruct H as (b & B & H). rewrite (not_pointer _ _ _ _ _ I B) in H. discriminate.
  - cbn in H. discriminate.
  - cbn in H. discriminate.
  - cbn in H. discriminate.
Qed.
Lemma union_handler : forall k m v anc w, handle (n + 3) nc d g loads stack sf al k m RQVST_union_member (v :: anc) = Ret (0, Some w) ->
  exists l r, aggr_type d v l /\ In r l /\ member_is d v r w.
Proof.
  intros k m v anc w H.
  assert (G : forall i a, new_value_by_member_id (n + 3) d v i a = Ret (Some w) -> exists l r, aggr_type d v l /\ In r l /\ member_is d v r w).
  { intros i a X. assert (NZ : v_addr w <> 0).
    { unfold new_value_by_member_id in X. apply bind_ret in X. destruct X as (f & _ & X). destruct f as [e|]; [|discriminate]. apply bind_ret in X. destruct X as (c & _ & X).
      destruct (_ || _); [discriminate|]. apply bind_ret in X. destruct X as (q & _ & X). destruct q as [q|]; [|discriminate]. destruct (e_info (deref d q)); try discriminate.
      injection X as X. apply new_value_some in X. destruct X as (_ & NZ & ->). exact NZ. }
    destruct (member_sound _ _ _ _ _ _ X) as (l & r & mi & AT & _ & NR & IM & EW & AW). exists l, r. split; auto. split; [eapply nth_error_In; eauto|].
    exists mi. split; auto. split; auto. destruct w. cbn in *. subst. reflexivity. }
  destruct k; cbn [handle] in H; try (cbn in H; discriminate).
  unfold handle_union_member_select in H. destruct anc as [|p anc]; [discriminate|]. destruct ctx as [[fld cases|i]|]; [| |discriminate].
  - destruct (given fld); [|discriminate]. apply bind_ret in H. destruct H as (hv & _ & H). apply bind_ret in H. destruct H as (hp & _ & H). destruct (negb hv || negb hp); [discriminate|].
    apply bind_ret in H. destruct H as (c & _ & H). apply bind_ret in H. destruct H as (r & _ & H). destruct r as [e|[x|]]; try discriminate.
    apply bind_ret in H. destruct H as (q & _ & H). destruct q as [e|i]; [discriminate|]. apply bind_ret in H. destruct H as (x' & X & H). injection H as ->. eauto.
  - apply bind_ret in H. destruct H as (hv & _ & H). destruct (negb hv); [discriminate|]. apply bind_ret in H. destruct H as (x' & X & H). injection H as ->. eauto.
Qed.
Lemma handlers_tame : acyclic d n -> (forall t, runs (CdeclModel.entry_cdecl nc d (lift t))) -> tame metac_env.
Proof.
  intros A C. split; [intros; apply tag_runs; auto|]. split.
  - intros m v anc w z l I H. cbn [metac_env en_handler en_db] in *. unfold tag_handler in H. destruct (tags (v_entry v)) as [k|]; [|discriminate].
    destruct (union_handler _ _ _ _ _ H) as (l' & r & (e & k' & z' & F & J) & IN & mi & JM & -> & _). assert (IAggr AUnion z l = IAggr k' z' l') by (eapply info_fun; [exact I|exists e; auto]).
    exists r, mi. split; [congruence|]. split; [reflexivity|exact JM].
  - intros m v anc w t c I H. cbn [metac_env en_handler en_db] in *. unfold tag_handler in H. destruct (tags (v_entry v)) as [k|]; [|discriminate].
    destruct (flex_handler _ _ _ _ _ _ _ I H) as (r & c' & -> & ->). exists r, c'. split; reflexivity.
Qed.

(** locality *)
Lemma ptr_no_members : forall m a b, is_ptr d m a -> has_members (n + 3) d a = Ret b -> b = false.
Proof.
  intros m a b (t & p & (e & F & I) & _) H. unfold has_members in H. apply bind_ret in H. destruct H as (x & X & H). destruct (final_if_inv _ _ _ _ _ X) as (f & F' & ->).
  assert (f = Some e) by (eapply final_type_fun; eauto). subst f. rewrite I in H. cbn in H. congruence.
Qed.
Lemma ptr_members : forall m a, acyclic d n -> is_ptr d m a -> has_members (n + 3) d a = Ret false.
Proof. intros m a A P. destruct (members_total n d A a) as (b & B & _). rewrite B. f_equal. eapply ptr_no_members; eauto. Qed.
(** no pointer is a va_list parameter *)
Definition no_va_list : Prop := forall p, is_va_list nc d p = Ret false.
Lemma ptr_load : forall m a, acyclic d n -> no_va_list -> is_ptr d m a -> has_parameter_load (n + 3) nc d a = Ret false.
Proof.
  intros m a A NV (t & p & (e & F & I) & _). unfold has_parameter_load. rewrite (final_if_type d n _ e) by auto. rewrite I. cbn [is_fun_info bind].
  unfold is_unspecified. assert (is_unspecified d (v_entry a) = false). 
  { unfold is_unspecified. destruct (e_info (deref d (v_entry a))) eqn:IA; auto. destruct unspecified; auto. exfalso.
    assert (Some (v_entry a) = Some e). { eapply final_type_fun; [|exact F]. exists []. apply res_stop. rewrite IA. intros t1 q1 S. inversion S. } assert (v_entry a = e) by congruence. subst e. congruence. }
  unfold is_unspecified in H. rewrite H. apply NV.
Qed.
Lemma handlers_local : forall m, acyclic d n -> no_va_list -> local metac_env m.
Proof.
  intros m A NV ev v anc anc' S. cbn [metac_env en_handler en_db] in *. unfold tag_handler. destruct (tags (v_entry v)) as [k|]; [|reflexivity].
  assert (H : forall k, handle (n + 3) nc d g loads stack sf al k m ev (v :: anc) = handle (n + 3) nc d g loads stack sf al k m ev (v :: anc')); [|apply H].
  clear k. intro k. destruct S as [|a b l l' P P'|x l l' S]; [reflexivity| |destruct k; reflexivity].
  assert (M1 := ptr_members m a A P). assert (M2 := ptr_members m b A P'). assert (L1 := ptr_load m a A NV P). assert (L2 := ptr_load m b A NV P').
  destruct k; cbn [handle]; try reflexivity.
  - unfold handle_count_by. rewrite M1, M2. cbn [bind]. rewrite L1, L2. reflexivity.
  - unfold handle_union_member_select. rewrite M1, M2. cbn [bind]. destruct ev; try reflexivity. destruct ctx as [[fld cases|i]|]; try reflexivity. destruct (given fld); [|reflexivity].
    destruct (has_members (n + 3) d v) as [hv| | |]; try reflexivity. cbn [bind]. rewrite orb_true_r. reflexivity.
  - unfold handle_ptr_cast. rewrite M1, M2. reflexivity.
Qed.
End Tame.

Lemma cast_selector_missing : forall n d g m al v parent rest c name lp, acyclic d n -> has_name (pc_selector c) name -> pc_cases c <> [] -> aggr_type d parent lp ->
  (forall r, In r lp -> ref_name d r <> Some name) -> handle_ptr_cast (n + 3) d g al (Some c) m RQVST_pointer_array_count (v :: parent :: rest) = Ret (- EINVAL, None).
Proof.
  intros n d g m al v parent rest c name lp A GS NC AP NN. unfold handle_ptr_cast. rewrite (proj2 (given_name _ _) GS). destruct (pc_cases c); [contradiction|].
  rewrite (is_aggr n d A parent lp) by auto. cbn [bind negb]. rewrite (name_to_id_no n d A _ lp) by auto. reflexivity.
Qed.
Lemma unnamed_refused : forall n nc d g m loads al s v parent rest, no_name s ->
  (forall ev, counts ev -> handle_count_by n nc d g loads al (Some s) m ev (v :: parent :: rest) = Ret (- EINVAL, None)) /\
  (forall cases, handle_union_member_select n d g al (Some (SelectByField s cases)) m RQVST_union_member (v :: parent :: rest) = Ret (- EINVAL, None)) /\
  (forall c, pc_selector c = s -> handle_ptr_cast n d g al (Some c) m RQVST_pointer_array_count (v :: parent :: rest) = Ret (- EINVAL, None)).
Proof.
  intros n nc d g m loads al s v parent rest NN. apply given_none in NN. split; [|split].
  - intros ev [-> | ->]; unfold handle_count_by; rewrite NN; reflexivity.
  - intro cases. unfold handle_union_member_select. rewrite NN. reflexivity.
  - intros c <-. unfold handle_ptr_cast. rewrite NN. reflexivity.
Qed.
Lemma handlers_never_crash : forall n nc d g m loads stack sf k ev h, acyclic d n -> bytes_ok m -> bytes_ok g ->
  (forall v parent rest, h = v :: parent :: rest -> safe_parent d m loads nc parent) ->
  (forall v rest, h = v :: rest -> safe_string d m sf v) ->
  (forall c v parent rest name l, k = HPtrCast (Some c) -> h = v :: parent :: rest -> has_name (pc_count c) name -> aggr_type d parent l ->
     exists r, In r l /\ ref_name d r = Some name) ->
  exists r, handle (n + 3) nc d g loads stack sf all_succeed k m ev h = Ret r.
Proof.
  intros n nc d g m loads stack sf k ev h A BM BG SP SS CC. destruct k; cbn [handle].
  - eapply count_by_total; eauto.
  - eapply string_total; eauto.
  - eapply container_total; eauto.
  - eapply union_total; eauto.
  - eapply cast_total; eauto. intros c v parent rest name l ->. intros. eapply CC; eauto.
Qed.
Lemma container_thm : forall n d m stack, acyclic d n -> bytes_ok m -> forall v rest t0 p off r t e, points d m v t0 p -> stack <> 0 -> final_type d (Some (St r)) (Some e) ->
  e_info (deref d e) = IPointer (Some t) -> (p - off) mod 2 ^ 64 <> 0 ->
  exists w, handle_container_of (n + 3) d stack all_succeed (Some (off, Some r)) m RQVST_pointer_array_count (v :: rest) = Ret (0, Some w) /\
    has_info d w (IArray (Some t) 1) /\
    forall z r' x s, element_is w t z 0 x -> member_is d x r' s -> (exists mi, e_info (d r') = IMember mi /\ m_byte_offset mi = off) -> v_addr s = p.
Proof.
  intros n d m stack A BM v rest t0 p off r t e P SN F I NZ. eexists. split; [eapply container_ok; eauto|]. split.
  - eexists. split; [exists []; apply res_stop; intros t1 q1 SF; inversion SF|reflexivity].
  - intros z r' x s EL ME X. destruct P as (P & ->). eapply container_member; eauto. assert (R := number_range m (v_addr v) 8 BM). cbn in R |- *. lia.
Qed.
Lemma with_handlers : forall n nc d g g' uchar loads stack sf al tags bufs M, finite_types d n -> (forall t, runs (CdeclModel.entry_cdecl nc d (lift t))) ->
  finite_calls (metac_env n nc d g g' uchar loads stack sf al tags bufs) ->
  exists k0, forall k, (k0 <= k)%nat ->
    let E := metac_env n nc d g g' uchar loads stack sf al tags bufs in
    (forall m v, bytes_ok m -> new_memory_map E M k m v <> OutOfFuel) /\
    (forall ord m v, bytes_ok m -> free_ex E M ord k m v <> OutOfFuel) /\
    (forall feq m v1 v2, bytes_ok m -> equal_ex E M feq k m v1 v2 <> OutOfFuel) /\
    (forall ord cal sd src dst s, bytes_ok (c_mem s) -> (forall a b, sd a b <> OutOfFuel) -> copy_ex E M ord cal sd k src dst s <> OutOfFuel).
Proof.
  intros n nc d g g' uchar loads stack sf al tags bufs M F C FC. assert (A : acyclic d n).
  { destruct F as (rk & F1 & F2). exists rk. split; auto. intros r t H. apply F2. left. exact H. }
  assert (T := handlers_tame n nc d g g' uchar loads stack sf al tags bufs A C).
  destruct (deep_terminates (metac_env n nc d g g' uchar loads stack sf al tags bufs) M n F eq_refl T FC) as (k1 & K1). destruct (all_terminate (metac_env n nc d g g' uchar loads stack sf al tags bufs) M n F eq_refl T FC) as (k2 & K2).
  exists (Nat.max k1 k2). intros k L. cbv zeta. split; [intros; apply K1; auto; lia|]. apply K2. lia.
Qed.

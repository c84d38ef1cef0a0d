(** Proofs about the handlers. *)
From Coq Require Import ZArith String List Bool Lia ZifyBool.
From Verif Require Import Base BaseProof EntryModel EntrySpec EntryProof ValueModel ValueSpec ValueProof ValueProof2.
From Verif Require Import DeepModel DeepSpec HandlerModel HandlerSpec.
Import ListNotations.
Open Scope Z_scope.
Local Open Scope res_scope.

(** numbers *)
Lemma table_size : forall c name encs w sg, In (c, (name, encs, w, sg)) c_types -> w = ct_size c /\ (c_integer c -> sg = ct_signed c).
Proof.
  intros c name encs w sg H. unfold c_types in H. cbn [In] in H. split.
  - repeat (destruct H as [H|H]; [injection H; intros; subst; reflexivity|]). contradiction.
  - intros CI. repeat (destruct H as [H|H]; [injection H; intros; subst; try reflexivity|]); try contradiction.
Qed.
Section Num.
Variables (n : nat) (d : db) (g m : mem).
Hypothesis A : acyclic d n.
Hypothesis BM : bytes_ok m.
Hypothesis BG : bytes_ok g.

Lemma stores_num_ex : forall v y, stores d m v y -> exists z, value_num (n + 3) d g m v = Ret (inr z) /\ (fits_int y -> z = y).
Proof.
  intros v y H. destruct H as [c name encs w sg T CI TB P B D|c name encs w sg mi dbo bs x T CI NC TB IM FA R W F B D|z l T Z0 D].
  - destruct (table_size _ _ _ _ _ TB) as (-> & SG). 
    assert (RG := number_range m (v_addr v) (Z.to_nat (ct_size c)) BM). assert (PS := ct_size_pos c). rewrite Z2Nat.id in RG by lia.
    eapply value_num_int; eauto. { apply value_get_plain; auto. }
    intros ->. apply denotes_fun in D; auto. cbn in D. subst y. auto.
  - destruct (table_size _ _ _ _ _ TB) as (-> & SG). specialize (SG CI). subst sg.
    destruct (value_get_bits d n g m v mi c dbo bs A T NC CI BM BG IM FA R W) as (x' & G & F').
    assert (x' = x).
    { destruct F as (RX & FX). destruct F' as (RX' & FX'). apply Z.bits_inj'. intros i I. destruct (Z.lt_ge_cases i (8 * ct_size c)) as [L|L].
      - rewrite FX, FX' by lia. reflexivity.
      - rewrite <- (Z.mod_small x (2 ^ (8 * ct_size c))) by auto. rewrite <- (Z.mod_small x' (2 ^ (8 * ct_size c))) by auto.
        assert (PS := ct_size_pos c). rewrite !Z.mod_pow2_bits_high by lia. reflexivity. }
    subst x'. destruct F as (RX & _). eapply value_num_int; eauto. intros ->. apply denotes_fun in D; auto. cbn in D. subst y. auto.
  - subst y. apply (value_num_enum d n g m v z l); auto. unfold word. cbn [In] in Z0. lia.
Qed.
Lemma stores_num : forall v y, stores d m v y -> fits_int y -> value_num (n + 3) d g m v = Ret (inr y).
Proof. intros v y H F. destruct (stores_num_ex v y H) as (z & E & I). rewrite E, (I F). reflexivity. Qed.
Lemma enumeration_total : forall v, exists x, value_enumeration (n + 3) d m v = Ret x.
Proof.
  intros v. unfold value_enumeration. destruct (final_if_total d n (Some (v_entry v)) is_enum_info A) as (x & X). rewrite X. cbn [bind].
  destruct x as [e|]; [|eauto]. unfold enum_size. destruct (byte_size_total d n (Some e) A) as (y & Y). rewrite Y. cbn [bind]. destruct y as [z|]; [|eauto]. destruct (is_word z); eauto.
Qed.
Lemma inspect_num : forall v, inspectable d m v -> exists x, value_num (n + 3) d g m v = Ret x.
Proof.
  intros v [(y & H)|(N & H)].
  - destruct (stores_num_ex v y H) as (z & E & _). eauto.
  - unfold value_num. rewrite num_loop_miss by (auto; intros c I; apply H, num_types_all; auto). cbn [bind].
    destruct (enumeration_total v) as (x & X). rewrite X. cbn [bind]. eauto.
Qed.
(** arrays *)
Lemma element_count_total : forall m' v c a, exists x, new_element_count_value (n + 3) d m' v c a = Ret x.
Proof.
  intros m' v c a. unfold new_element_count_value.
  destruct (final_if_total d n (Some (v_entry v)) (fun i => is_array_info i || is_pointer_info i) A) as (x & X). rewrite X. cbn [bind].
  destruct x as [e|]; [|eauto]. destruct (_ && _); [eauto|]. unfold new_element_count_entry. rewrite X. cbn [bind].
  destruct (match e_info (deref d e) with IArray t _ => t | IPointer t => t | _ => None end); cbn [bind]; [|eauto]. destruct a; cbn [bind]; eauto.
Qed.
Lemma counted_value : forall m' v c w, counted d m' v c w -> new_element_count_value (n + 3) d m' v c true = Ret (Some w).
Proof.
  intros m' v c w H. destruct H as [t p ((e & F & I) & ->) NZ|t c' (e & F & I) NZ]; unfold new_element_count_value, new_element_count_entry;
  rewrite (final_if_type d n _ e) by auto; rewrite I; cbn [is_array_info is_pointer_info orb andb bind]; rewrite I; cbn [bind is_pointer_info andb];
  rewrite ?load_number; [destruct (Z.eqb_spec (number_at m' (v_addr v) 8) 0); [contradiction|]|]; cbn [bind]; unfold new_value.
  - destruct (Z.eqb_spec (number_at m' (v_addr v) 8) 0); [contradiction|]. reflexivity.
  - destruct (Z.eqb_spec (v_addr v) 0); [contradiction|]. reflexivity.
Qed.
Lemma element_count_sound : forall k m' v c a w, new_element_count_value k d m' v c a = Ret (Some w) -> counted d m' v c w.
Proof.
  intros k m' v c a w H. unfold new_element_count_value in H.
  destruct (final_if k d (Some (v_entry v)) _) as [[e|]| | |] eqn:F; try discriminate; cbn [bind] in H. assert (F' := F). apply final_if_some in F. destruct F as (F & I).
  destruct (_ && _) eqn:N; [discriminate|]. unfold new_element_count_entry in H. rewrite F' in H. cbn [bind] in H.
  destruct (e_info (deref d e)) eqn:IE; try discriminate; cbn [is_pointer_info is_array_info andb] in *; (destruct t as [t|]; cbn [bind] in H; [|discriminate]);
  (destruct a; cbn [bind] in H; [|discriminate]); injection H as H; apply new_value_some in H; destruct H as (_ & NZ & ->); rewrite ?load_number in *.
  - eapply ct_pointer with (t := t); auto. split; auto. exists e. auto.
  - eapply ct_array; auto. exists e. split; eauto.
Qed.

(** siblings *)
Definition at_items (item : Z -> res (option value)) (l : list value) (i : Z) : Prop :=
  forall j s, nth_error l j = Some s -> item (i + Z.of_nat j) = Ret (Some s).
Lemma at_items_tl : forall item s l i, at_items item (s :: l) i -> item i = Ret (Some s) /\ at_items item l (i + 1).
Proof.
  intros item s l i H. split. - rewrite <- (H 0%nat s eq_refl). f_equal. lia. - intros j x J. rewrite <- (H (S j) x J). f_equal. lia.
Qed.
Lemma named_iff : forall o s, Base.named o s = true <-> o = Some s.
Proof. intros o s. unfold Base.named. destruct o as [x|]; [|split; discriminate]. rewrite String.eqb_eq. split; congruence. Qed.
Lemma sib_hit : forall item name l i k s y, at_items item l i -> first_named (val_name d) l name k s -> value_num (n + 3) d g m s = Ret (inr y) ->
  sibling_loop (n + 3) d g m item name (length l) i = Ret (inr (Some y)).
Proof.
  induction l as [|x l IH]; intros i k s y AI (N & NM & FI) V. { destruct k; discriminate. }
  cbn [length sibling_loop]. destruct (at_items_tl _ _ _ _ AI) as (I0 & AI'). rewrite I0. cbn [bind value_name]. fold (val_name d x).
  destruct k as [|k].
  - injection N as ->. rewrite NM. cbn [Base.named]. rewrite String.eqb_refl. rewrite V. reflexivity.
  - destruct (Base.named (val_name d x) name) eqn:NX. { apply named_iff in NX. exfalso. apply (FI 0%nat x); auto. lia. }
    cbn [value_delete bind]. eapply IH; eauto. split; [exact N|]. split; auto. intros j z J Z0. apply (FI (S j) z); auto. lia.
Qed.
Lemma sib_miss : forall item name l i, at_items item l i -> (forall x, In x l -> val_name d x <> Some name) ->
  sibling_loop (n + 3) d g m item name (length l) i = Ret (inr None).
Proof.
  induction l as [|x l IH]; intros i AI FI; auto. cbn [length sibling_loop]. destruct (at_items_tl _ _ _ _ AI) as (I0 & AI'). rewrite I0. cbn [bind value_name]. fold (val_name d x).
  destruct (Base.named (val_name d x) name) eqn:NX. { apply named_iff in NX. exfalso. apply (FI x); auto. left. auto. }
  cbn [value_delete bind]. apply IH; auto. intros y Y. apply FI. right. auto.
Qed.
Lemma sib_total : forall item name l i, at_items item l i -> (forall x, In x l -> inspectable d m x) ->
  exists r, sibling_loop (n + 3) d g m item name (length l) i = Ret r.
Proof.
  induction l as [|x l IH]; intros i AI FI; [cbn; eauto|]. cbn [length sibling_loop]. destruct (at_items_tl _ _ _ _ AI) as (I0 & AI'). rewrite I0. cbn [bind value_name].
  destruct (Base.named _ name).
  - destruct (inspect_num x) as (z & E); [apply FI; left; auto|]. rewrite E. cbn [bind value_delete]. eauto.
  - cbn [value_delete bind]. apply IH; auto. intros y Y. apply FI. right. auto.
Qed.

(** members *)
Lemma forall2_nth : forall {X Y} (R : X -> Y -> Prop) l l' i x, Forall2 R l l' -> nth_error l i = Some x -> exists y, nth_error l' i = Some y /\ R x y.
Proof. intros X Y R l l' i x F. revert i. induction F; intros [|i] HN; try discriminate; cbn in *. - injection HN as <-. eauto. - eauto. Qed.
Lemma forall2_nth' : forall {X Y} (R : X -> Y -> Prop) l l' i y, Forall2 R l l' -> nth_error l' i = Some y -> exists x, nth_error l i = Some x /\ R x y.
Proof. intros X Y R l l' i x F. revert i. induction F; intros [|i] HN; try discriminate; cbn in *. - injection HN as <-. eauto. - eauto. Qed.
Lemma is_aggr : forall v l, aggr_type d v l -> has_members (n + 3) d v = Ret true.
Proof. intros v l (e & k & z & F & I). unfold has_members. rewrite (final_if_type d n _ e) by auto. rewrite I. reflexivity. Qed.
Lemma members_total : forall v, exists b, has_members (n + 3) d v = Ret b /\ (if b then exists l, aggr_type d v l else forall l, ~ aggr_type d v l).
Proof.
  intros v. unfold has_members. destruct (final_if_total d n (Some (v_entry v)) is_aggr_info A) as (x & X). rewrite X. cbn [bind]. eexists. split; [reflexivity|].
  destruct x as [e|].
  - destruct (final_if_some _ _ _ _ _ X) as (F & I). destruct (e_info (deref d e)) eqn:IE; try discriminate. eexists. exists e. eauto.
  - intros l (e & k & z & F & I). rewrite (final_if_type d n _ e) in X by auto. rewrite I in X. discriminate.
Qed.
Lemma count_of : forall v l, aggr_type d v l -> member_count_of (n + 3) d v = Ret (length l).
Proof.
  intros v l (e & k & z & F & I). unfold member_count_of, member_count. rewrite (final_if_type d n _ e) by auto. rewrite I. cbn [is_aggr_info bind].
  unfold members_of. rewrite I. f_equal. lia.
Qed.
Lemma member_values : forall v l, aggr_type d v l -> (forall r, In r l -> exists s, member_is d v r s) ->
  exists ms, Forall2 (member_is d v) l ms /\ length ms = length l.
Proof.
  intros v l _. induction l as [|r l IH]; intros H. { exists []. split; constructor. }
  destruct IH as (ms & F & L). { intros x X. apply H. right. auto. } destruct (H r) as (s & S); [left; auto|]. exists (s :: ms). split; [constructor; auto|]. cbn. lia.
Qed.
Lemma member_items : forall al v l ms, aggr_type d v l -> Forall2 (member_is d v) l ms -> (forall i, al_sib al i = true) ->
  at_items (member_item (n + 3) d al v) ms 0.
Proof.
  intros al v l ms AT F AL j s J. unfold member_item. rewrite AL.
  destruct (forall2_nth' _ _ _ _ _ F J) as (r & NR & mi & IM & -> & NZ).
  cbn [v_addr] in NZ. rewrite (member_complete d n v (0 + Z.of_nat j) l r mi); auto; try lia.
  rewrite <- NR. f_equal. lia.
Qed.
Lemma member_names : forall v l ms, Forall2 (member_is d v) l ms -> map (ref_name d) l = map (val_name d) ms.
Proof.
  intros v l ms F. induction F as [|r s l ms (mi & IM & -> & NZ) F IH]; auto. cbn [map]. rewrite IH. reflexivity.
Qed.
Lemma nth_map : forall {X Y} (f : X -> Y) l i, nth_error (map f l) i = option_map f (nth_error l i).
Proof. intros X Y f l. induction l as [|x l IH]; intros [|i]; cbn; auto. Qed.
Lemma first_named_map : forall {X Y} (f : X -> option string) (h : Y -> option string) l ms name i x,
  map f l = map h ms -> first_named f l name i x -> exists y, first_named h ms name i y.
Proof.
  intros X Y f h l ms name i x E (N & NM & FI). assert (NE := nth_map h ms i). rewrite <- E, nth_map, N in NE. cbn in NE.
  destruct (nth_error ms i) as [y|] eqn:NY; [|discriminate]. cbn in NE. exists y. split; auto. split; [congruence|].
  intros j z J NZ. assert (NJ := nth_map h ms j). rewrite <- E, nth_map, NZ in NJ. destruct (nth_error l j) as [x'|] eqn:NX; [|discriminate]. cbn in NJ. injection NJ as NJ. rewrite <- NJ. eauto.
Qed.
Lemma member_is_fun : forall v r s s', member_is d v r s -> member_is d v r s' -> s = s'.
Proof. intros v r s s' (mi & I & -> & _) (mi' & I' & -> & _). congruence. Qed.
End Num.

(** the handlers *)
Section Handlers.
Variables (n nc : nat) (d : db) (g m : mem) (loads : Z -> list value) (stack : Z) (sf : nat).
Hypothesis A : acyclic d n.
Hypothesis BM : bytes_ok m.
Hypothesis BG : bytes_ok g.
Let al := all_succeed.
Definition counts (ev : event) : Prop := ev = RQVST_pointer_array_count \/ ev = RQVST_flex_array_count.

Lemma function_loads : forall v l, function_of d loads v l -> has_members (n + 3) d v = Ret false /\ has_parameter_load (n + 3) nc d v = Ret true.
Proof.
  intros v l ((i & (e & F & I) & K) & _). unfold has_members, has_parameter_load. rewrite !(final_if_type d n _ e) by auto. rewrite I. destruct i; try contradiction; auto.
Qed.
Lemma load_items : forall v l, loads (v_addr v) = l -> (forall x, In x l -> v_addr x <> 0) ->
  at_items (fun i => Ret (parameter_new_item loads al v i)) l 0.
Proof.
  intros v l L NZ j s J. unfold parameter_new_item. rewrite L. replace (Z.to_nat (0 + Z.of_nat j)) with j by lia. rewrite J. unfold new_value.
  destruct (Z.eqb_spec (v_addr s) 0) as [E|E]. { exfalso. apply (NZ s); auto. eapply nth_error_In; eauto. } destruct s. reflexivity.
Qed.
Lemma given_name : forall s name, given s = Some name <-> has_name s name.
Proof.
  intros [[|c r]|] name; cbn; unfold has_name; split; intro H; try discriminate; try (destruct H as [H1 H2]; congruence).
  split; [exact H|]. intros ->. discriminate.
Qed.
Lemma given_none : forall s, given s = None <-> no_name s.
Proof. intros [[|c r]|]; cbn; unfold no_name; split; intro H; auto; try discriminate; destruct H; discriminate. Qed.
Lemma given_some : forall name, name <> EmptyString -> given (Some name) = Some name.
Proof. intros [|a s] H; [contradiction|reflexivity]. Qed.

Definition sibling_number (parent : value) (name : string) : res (Z + option Z) :=
  do hm <- has_members (n + 3) d parent;
  (if hm then
     do c <- member_count_of (n + 3) d parent; sibling_loop (n + 3) d g m (member_item (n + 3) d al parent) name c 0
   else
     do hp <- has_parameter_load (n + 3) nc d parent;
     if hp then sibling_loop (n + 3) d g m (fun i => Ret (parameter_new_item loads al parent i)) name (length (loads (v_addr parent))) 0
     else Ret (inl (- EFAULT))).
Lemma sibling_found : forall parent name s y, sibling d loads parent name s -> stores d m s y -> fits_int y ->
  sibling_number parent name = Ret (inr (Some y)).
Proof.
  intros parent name s y H ST FI. assert (V := stores_num n d g m A BM BG s y ST FI). unfold sibling_number. destruct H as [l i r (AT & MS) FN MI|l i FO FN].
  - rewrite (is_aggr n d A _ l) by auto. cbn [bind]. rewrite (count_of n d A _ l) by auto. cbn [bind].
    destruct (member_values d parent l AT MS) as (ms & F2 & L). rewrite <- L.
    destruct FN as (N & NM & FI'). destruct (forall2_nth _ _ _ _ _ F2 N) as (s' & N' & MI'). assert (s' = s) by (eapply member_is_fun; eauto). subst s'.
    eapply sib_hit with (k := i); eauto. { eapply member_items; eauto. } split; auto. split.
    + assert (E := nth_map (val_name d) ms i). rewrite <- (member_names d _ _ _ F2), nth_map, N, N' in E. cbn in E. congruence.
    + intros j z J NZ. destruct (forall2_nth' _ _ _ _ _ F2 NZ) as (r' & NR & MR). assert (E := nth_map (val_name d) ms j). rewrite <- (member_names d _ _ _ F2), nth_map, NR, NZ in E. cbn in E. injection E as E. rewrite <- E. eauto.
  - destruct (function_loads _ _ FO) as (E1 & E2). rewrite E1. cbn [bind]. rewrite E2. cbn [bind]. destruct FO as (_ & L & NZ). rewrite L.
    eapply sib_hit; eauto. apply load_items; auto.
Qed.
Lemma sibling_missing : forall parent name, no_sibling d loads parent name -> sibling_number parent name = Ret (inr None).
Proof.
  intros parent name H. unfold sibling_number. destruct H as [l (AT & MS) NS|l FO NS].
  - rewrite (is_aggr n d A _ l) by auto. cbn [bind]. rewrite (count_of n d A _ l) by auto. cbn [bind].
    destruct (member_values d parent l AT MS) as (ms & F2 & L). rewrite <- L. apply sib_miss. { eapply member_items; eauto. }
    intros x X E. apply In_nth_error in X. destruct X as (i & X). destruct (forall2_nth' _ _ _ _ _ F2 X) as (r & NR & MR).
    apply (NS r); [eapply nth_error_In; eauto|]. destruct MR as (mi & _ & -> & _). exact E.
  - destruct (function_loads _ _ FO) as (E1 & E2). rewrite E1. cbn [bind]. rewrite E2. cbn [bind]. destruct FO as (_ & L & NZ). rewrite L.
    apply sib_miss; auto. apply load_items; auto.
Qed.
Lemma load_total : forall v, (forall t, e_info (deref d (v_entry v)) = IParam false t -> exists s, CdeclModel.entry_cdecl nc d (lift t) = Ret s) ->
  exists b, has_parameter_load (n + 3) nc d v = Ret b.
Proof.
  intros v H. unfold has_parameter_load. destruct (final_if_total d n (Some (v_entry v)) is_fun_info A) as (x & X). rewrite X. cbn [bind].
  destruct x; [eauto|]. destruct (is_unspecified d (v_entry v)); [eauto|]. unfold is_va_list. destruct (e_info (deref d (v_entry v))) eqn:I; eauto.
  destruct unspecified; eauto. destruct (H t eq_refl) as (s & S). rewrite S. cbn [bind]. eauto.
Qed.
Lemma sibling_total : forall parent name, safe_parent d m loads nc parent -> exists r, sibling_number parent name = Ret r.
Proof.
  intros parent name (SM & SL & SC). unfold sibling_number. destruct (members_total n d A parent) as (b & B & P). rewrite B. cbn [bind]. destruct b.
  - destruct P as (l & AT). rewrite (count_of n d A _ l) by auto. cbn [bind]. destruct (member_values d parent l AT) as (ms & F2 & L).
    { intros r R. destruct (SM l AT r R) as (s & S & _). eauto. }
    rewrite <- L. eapply sib_total; eauto. { eapply member_items; eauto. }
    intros x X. apply In_nth_error in X. destruct X as (i & X). destruct (forall2_nth' _ _ _ _ _ F2 X) as (r & NR & MR).
    destruct (SM l AT r) as (s & S & I). { eapply nth_error_In; eauto. } rewrite (member_is_fun d _ _ _ _ MR S). auto.
  - destruct (load_total parent SC) as (b & B'). rewrite B'. cbn [bind]. destruct b; [|eauto]. eapply sib_total; eauto.
    + apply load_items; auto. intros x X. apply SL. auto. + intros x X. apply SL. auto.
Qed.

Lemma count_by_eq : forall ctx ev v parent rest, counts ev -> handle_count_by (n + 3) nc d g loads al ctx m ev (v :: parent :: rest) =
  match match ctx with None => None | Some s => given s end with
  | None => Ret (- EINVAL, None)
  | Some name => do r <- sibling_number parent name;
      match r with
      | inl e => Ret (e, None)
      | inr None => Ret (0, None)
      | inr (Some y) => do w <- new_element_count_value (n + 3) d m v y true; Ret (0, w)
      end
  end.
Proof.
  intros ctx ev v parent rest [-> | ->]; unfold handle_count_by; destruct (match ctx with None => None | Some s => given s end); auto;
  unfold sibling_number; destruct (has_members (n + 3) d parent); reflexivity.
Qed.
Theorem count_by_ok : forall ev v parent rest name s y w, counts ev -> name <> EmptyString ->
  sibling d loads parent name s -> stores d m s y -> fits_int y -> counted d m v y w ->
  handle_count_by (n + 3) nc d g loads al (Some (Some name)) m ev (v :: parent :: rest) = Ret (0, Some w).
Proof.
  intros ev v parent rest name s y w EV NE SB ST FI CO. rewrite count_by_eq, given_some, (sibling_found parent name s y) by auto. cbn [bind].
  rewrite (counted_value n d A m v y w) by auto. reflexivity.
Qed.
Theorem count_by_missing : forall ev v parent rest name, counts ev -> name <> EmptyString -> no_sibling d loads parent name ->
  handle_count_by (n + 3) nc d g loads al (Some (Some name)) m ev (v :: parent :: rest) = Ret (0, None).
Proof. intros ev v parent rest name EV NE NS. rewrite count_by_eq, given_some, sibling_missing by auto. reflexivity. Qed.
Theorem count_by_total : forall ctx ev h, (forall v parent rest, h = v :: parent :: rest -> safe_parent d m loads nc parent) ->
  exists r, handle_count_by (n + 3) nc d g loads al ctx m ev h = Ret r.
Proof.
  intros ctx ev h SP. destruct h as [|v [|parent rest]]; [destruct ev; cbn; eauto|destruct ev; cbn; eauto|].
  assert (counts ev \/ ev = RQVST_union_member) as [C| ->] by (destruct ev; unfold counts; auto); [|cbn; eauto].
  rewrite count_by_eq by auto. destruct (match ctx with None => None | Some s => given s end) as [name|]; [|eauto].
  destruct (sibling_total parent name) as (r & R); [eauto|]. rewrite R. cbn [bind]. destruct r as [e|[y|]]; eauto.
  destruct (element_count_total n d A m v y true) as (x & X). rewrite X. cbn [bind]. eauto.
Qed.
End Handlers.

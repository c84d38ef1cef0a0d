(** Deep comparison: reflexive, symmetric, transitive. *)
From Coq Require Import ZArith String List Bool Lia ZifyBool.
From Verif Require Import Base BaseProof EntryModel EntrySpec EntryProof ValueModel ValueSpec ValueProof ValueProof2 DeepModel DeepSpec DeepProof DeepProof2.
Import ListNotations.
Open Scope Z_scope.

(** base type comparison *)
Lemma check_ret : forall n d p name enc w r, check_base_type n d p name enc w = Ret r ->
  forall name' enc' w', exists r', check_base_type n d p name' enc' w' = Ret r'.
Proof.
  intros n d p name enc w r H name' enc' w'. unfold check_base_type in *.
  destruct (final_if n d p is_base_info) as [[e|]| | |]; try discriminate; cbn [bind] in *; [|eexists; reflexivity].
  destruct (e_name (deref d e)); [|discriminate].
  destruct (e_info (deref d e)); try (eexists; reflexivity).
  destruct (String.eqb s name' && ((enc0 =? 0) || (enc0 =? enc')) && ((size =? 0) || (size =? w'))); eexists; reflexivity.
Qed.
Lemma value_is_ret : forall n d v c b c', value_is n d v c = Ret b -> exists b', value_is n d v c' = Ret b'.
Proof.
  intros n d v c b c' H. unfold value_is, entry_is in *. apply bind_ret in H. destruct H as [a [A _]].
  pose proof (check_ret _ _ _ _ _ _ _ A) as T.
  destruct (T (ct_name c') (ct_enc c') (ct_size c')) as [r ->]. destruct (T (ct_name c') 9 (ct_size c')) as [r' R'].
  cbn [bind]. destruct c'; try (eexists; reflexivity). rewrite R'. cbn [bind]. destruct (r =? 0); eexists; reflexivity.
Qed.
Lemma value_is_only : forall n d v c c', value_is n d v c = Ret true -> c' <> c -> value_is n d v c' = Ret false.
Proof.
  intros n d v c c' H N. destruct (value_is_ret _ _ _ _ _ c' H) as [b B]. rewrite B. destruct b; [|reflexivity].
  exfalso. apply N. eapply has_ctype_fun; [eapply value_is_spec; [exact B|reflexivity]|eapply value_is_spec; [exact H|reflexivity]].
Qed.

Section Equality.
Variable E : env.
Variable M : mode.
Variable feq : ctype -> Z -> Z -> bool.
Notation n := (en_fuel E).
Notation d := (en_db E).
Notation g := (en_garbage E).

Lemma eq_base_inv : forall m v1 v2 l r, equal_loop feq n d g m v1 v2 l = Ret r -> 0 <= r ->
  exists c x y, In c l /\ value_is n d v1 c = Ret true /\ value_is n d v2 c = Ret true /\
    value_get n d g m v1 c = Ret (inr x) /\ value_get n d g m v2 c = Ret (inr y) /\ r = if c_equal feq c x y then 1 else 0.
Proof.
  intros m v1 v2 l r. induction l as [|c l IH]; intros H P; cbn in H; [injection H as <-; exfalso; apply P; reflexivity|].
  apply bind_ret in H. destruct H as [b1 [B1 H]]. destruct b1.
  - apply bind_ret in H. destruct H as [b2 [B2 H]]. destruct b2; [|injection H as <-; exfalso; apply P; reflexivity].
    apply bind_ret in H. destruct H as [[x|x] [X H]]; [injection H as <-; exfalso; apply P; reflexivity|].
    apply bind_ret in H. destruct H as [[y|y] [Y H]]; [injection H as <-; exfalso; apply P; reflexivity|].
    exists c, x, y. split; [left; reflexivity|]. repeat split; try assumption. congruence.
  - destruct (IH H P) as [c' [x [y [I R]]]]. exists c', x, y. split; [right; exact I|exact R].
Qed.
Lemma eq_base_make : forall m v1 v2 c x y l, In c l -> value_is n d v1 c = Ret true -> value_is n d v2 c = Ret true ->
  value_get n d g m v1 c = Ret (inr x) -> value_get n d g m v2 c = Ret (inr y) ->
  equal_loop feq n d g m v1 v2 l = Ret (if c_equal feq c x y then 1 else 0).
Proof.
  intros m v1 v2 c x y l I A1 A2 G1 G2. induction l as [|c' l IH]; [destruct I|]. cbn [equal_loop].
  destruct (value_is_ret _ _ _ _ _ c' A1) as [b B]. rewrite B. cbn [bind]. destruct b.
  - assert (Q : c' = c).
    { eapply has_ctype_fun; [eapply value_is_spec; [exact B|reflexivity]|eapply value_is_spec; [exact A1|reflexivity]]. }
    subst c'. rewrite A2. cbn [bind]. rewrite G1. cbn [bind]. rewrite G2. reflexivity.
  - apply IH. destruct I as [->|I]; [congruence|exact I].
Qed.

(** facts about == *)
Hypothesis fsym : forall c x y, feq c x y = feq c y x.
Lemma c_equal_sym : forall c x y, c_equal feq c x y = c_equal feq c y x.
Proof. intros c x y. unfold c_equal. destruct (is_integer c); [apply Z.eqb_sym|apply fsym]. Qed.
Lemma base_sym : forall m v1 v2 r, value_equal_base_type feq n d g m v1 v2 = Ret r -> 0 <= r -> value_equal_base_type feq n d g m v2 v1 = Ret r.
Proof.
  intros m v1 v2 r H P. destruct (eq_base_inv _ _ _ _ _ H P) as [c [x [y [I [A1 [A2 [G1 [G2 ->]]]]]]]].
  unfold value_equal_base_type. rewrite (eq_base_make _ _ _ _ _ _ _ I A2 A1 G2 G1). rewrite c_equal_sym. reflexivity.
Qed.
Lemma enum_eq_inv : forall m v1 v2 r, value_equal_enumeration n d m v1 v2 = Ret r -> 0 <= r ->
  exists x y, value_enumeration n d m v1 = Ret (inr x) /\ value_enumeration n d m v2 = Ret (inr y) /\ r = if x =? y then 1 else 0.
Proof.
  intros m v1 v2 r H P. unfold value_equal_enumeration in H. apply bind_ret in H. destruct H as [x [X H]].
  apply bind_ret in H. destruct H as [y [Y H]]. destruct x as [x|x]; [injection H as <-; exfalso; apply P; reflexivity|].
  destruct y as [y|y]; [injection H as <-; exfalso; apply P; reflexivity|]. exists x, y. repeat split; try assumption. congruence.
Qed.
Lemma enum_eq_make : forall m v1 v2 x y, value_enumeration n d m v1 = Ret (inr x) -> value_enumeration n d m v2 = Ret (inr y) ->
  value_equal_enumeration n d m v1 v2 = Ret (if x =? y then 1 else 0).
Proof. intros m v1 v2 x y X Y. unfold value_equal_enumeration. rewrite X. cbn [bind]. rewrite Y. reflexivity. Qed.
Lemma ptr_eq_inv : forall m v1 v2 r, value_equal_pointer n d m v1 v2 = Ret r -> 0 <= r ->
  exists x y, value_pointer n d m v1 = Ret (inr x) /\ value_pointer n d m v2 = Ret (inr y) /\ r = if x =? y then 1 else 0.
Proof.
  intros m v1 v2 r H P. unfold value_equal_pointer in H. apply bind_ret in H. destruct H as [x [X H]].
  apply bind_ret in H. destruct H as [y [Y H]]. destruct x as [x|x]; [injection H as <-; exfalso; apply P; reflexivity|].
  destruct y as [y|y]; [injection H as <-; exfalso; apply P; reflexivity|]. exists x, y. repeat split; try assumption. congruence.
Qed.
Lemma ptr_eq_make : forall m v1 v2 x y, value_pointer n d m v1 = Ret (inr x) -> value_pointer n d m v2 = Ret (inr y) ->
  value_equal_pointer n d m v1 v2 = Ret (if x =? y then 1 else 0).
Proof. intros m v1 v2 x y X Y. unfold value_equal_pointer. rewrite X. cbn [bind]. rewrite Y. reflexivity. Qed.

Lemma leaf_result_good : forall r c, leaf_result r = (false, c) -> 0 <= r /\ c = negb (r =? 0).
Proof. intros r c H. unfold leaf_result in H. destruct (r <? 0) eqn:Q; [discriminate|]. injection H as <-. split; [lia|reflexivity]. Qed.

Lemma mem_equal_sym : forall m k a b, mem_equal m a b k = mem_equal m b a k.
Proof. intros m k. induction k as [|k IH]; intros a b; [reflexivity|]. cbn. rewrite IH, Z.eqb_sym. reflexivity. Qed.
Lemma mem_equal_trans : forall m k a b c, mem_equal m a b k = true -> mem_equal m b c k = true -> mem_equal m a c k = true.
Proof.
  intros m k. induction k as [|k IH]; intros a b c A B; [reflexivity|]. cbn in *. apply andb_prop in A. apply andb_prop in B.
  destruct A as [A1 A2], B as [B1 B2]. rewrite (IH _ _ _ A2 B2). lia.
Qed.
Lemma mem_equal_refl : forall m k a, mem_equal m a a k = true.
Proof. intros m k. induction k as [|k IH]; intro a; [reflexivity|]. cbn. rewrite IH. lia. Qed.

(** the test on a pair of entries once sizes, numbers of children, loop levels, offsets and kinds agree *)
Definition knd (f : option info) : Z := match f with Some i => kind_of i | None => KND_invalid end.
Definition same_head (o1 o2 : list (nat * Z)) (e1 e2 : ment) (f1 f2 : option info) : Prop :=
  me_size e1 = me_size e2 /\ length (me_ch e1) = length (me_ch e2) /\ me_loop e1 = me_loop e2 /\
  off_of o1 (me_id e1) = off_of o2 (me_id e2) /\ knd f1 = knd f2.
Definition body (m : mem) (e1 e2 : ment) (f1 f2 : option info) : res (bool * bool + unit) :=
  match f1, f2 with
  | Some (IPointer _), Some (IPointer _) =>
      match me_ch e1 with
      | [] => match mo_uptr M with
              | UPTR_as_values => (do r <- value_equal_pointer n d m (me_val e1) (me_val e2); Ret (inl (leaf_result r)))%res
              | _ => Ret (inl (false, true))
              end
      | _ => Ret (inr tt)
      end
  | Some (IEnum _ _), Some (IEnum _ _) =>
      (do r <- value_equal_enumeration n d m (me_val e1) (me_val e2); Ret (inl (leaf_result r)))%res
  | Some (IBase _ _), Some (IBase _ _) =>
      (do r <- value_equal_base_type feq n d g m (me_val e1) (me_val e2); Ret (inl (leaf_result r)))%res
  | Some (IAggr AUnion _ _), Some (IAggr AUnion _ _) =>
      match mo_union M, me_ch e1 with
      | UNION_as_mem, [] =>
          if (0 <? me_size e1) && negb (mem_equal m (v_addr (me_val e1)) (v_addr (me_val e2)) (Z.to_nat (me_size e1)))
          then Ret (inl (false, false)) else Ret (inr tt)
      | _, _ => Ret (inr tt)
      end
  | _, _ => Ret (inr tt)
  end.
Lemma same_head_dec : forall o1 o2 e1 e2 f1 f2,
  (negb (me_size e1 =? me_size e2) || negb (Nat.eqb (length (me_ch e1)) (length (me_ch e2)))
     || negb (me_loop e1 =? me_loop e2) || negb (off_of o1 (me_id e1) =? off_of o2 (me_id e2))
     || negb (knd f1 =? knd f2)) = false <-> same_head o1 o2 e1 e2 f1 f2.
Proof. intros. unfold same_head. rewrite !orb_false_iff, !negb_false_iff, !Z.eqb_eq, Nat.eqb_eq. tauto. Qed.
Lemma here_inv : forall m o1 o2 e1 e2 h, equal_here E M feq m o1 o2 e1 e2 = Ret h -> exists f1 f2,
  final_info E (me_val e1) = Ret f1 /\ final_info E (me_val e2) = Ret f2 /\
  ((~ same_head o1 o2 e1 e2 f1 f2 /\ h = inl (false, false)) \/ (same_head o1 o2 e1 e2 f1 f2 /\ body m e1 e2 f1 f2 = Ret h)).
Proof.
  intros m o1 o2 e1 e2 h H. unfold equal_here in H. apply bind_ret in H. destruct H as [f1 [F1 H]].
  apply bind_ret in H. destruct H as [f2 [F2 H]]. exists f1, f2. split; [exact F1|]. split; [exact F2|].
  fold (knd f1) in H. fold (knd f2) in H.
  match type of H with (if ?b then _ else _) = _ => destruct b eqn:B end.
  - left. split; [|congruence]. intro S. apply same_head_dec in S. congruence.
  - right. split; [apply same_head_dec; exact B|exact H].
Qed.
Lemma here_differ : forall m o1 o2 e1 e2 f1 f2, final_info E (me_val e1) = Ret f1 -> final_info E (me_val e2) = Ret f2 ->
  ~ same_head o1 o2 e1 e2 f1 f2 -> equal_here E M feq m o1 o2 e1 e2 = Ret (inl (false, false)).
Proof.
  intros m o1 o2 e1 e2 f1 f2 F1 F2 S. unfold equal_here. rewrite F1, F2. cbn [bind]. fold (knd f1). fold (knd f2).
  match goal with |- (if ?b then _ else _) = _ => destruct b eqn:B end; [reflexivity|].
  exfalso. apply S. apply same_head_dec. exact B.
Qed.
Lemma here_body : forall m o1 o2 e1 e2 f1 f2, final_info E (me_val e1) = Ret f1 -> final_info E (me_val e2) = Ret f2 ->
  same_head o1 o2 e1 e2 f1 f2 -> equal_here E M feq m o1 o2 e1 e2 = body m e1 e2 f1 f2.
Proof.
  intros m o1 o2 e1 e2 f1 f2 F1 F2 S. unfold equal_here. rewrite F1, F2. cbn [bind]. fold (knd f1). fold (knd f2).
  apply same_head_dec in S. rewrite S. reflexivity.
Qed.

Definition good (h : bool * bool + unit) : Prop := match h with inl (f, _) => f = false | inr _ => True end.
Lemma body_sym : forall m e1 e2 f1 f2 h, me_size e1 = me_size e2 -> length (me_ch e1) = length (me_ch e2) ->
  body m e1 e2 f1 f2 = Ret h -> good h -> body m e2 e1 f2 f1 = Ret h.
Proof.
  intros m e1 e2 f1 f2 h S L H G.
  assert (LN : me_ch e1 = [] <-> me_ch e2 = []).
  { destruct (me_ch e1), (me_ch e2); cbn in L; try discriminate; split; intro; congruence. }
  unfold body in *.
  destruct f1 as [[ | | | | | | | |[]| | | | | ]|]; destruct f2 as [[ | | | | | | | |[]| | | | | ]|]; cbv iota in H |- *;
    try (match type of H with Ret _ = Ret _ => exact H end).
  - apply bind_ret in H. destruct H as [r [R H]]. assert (Hl : leaf_result r = (false, snd (leaf_result r))).
    { injection H as <-. cbn in G. destruct (leaf_result r). cbn in *. subst. reflexivity. }
    apply leaf_result_good in Hl. rewrite (base_sym _ _ _ _ R (proj1 Hl)). exact H.
  - destruct (me_ch e1) as [|a1 l1] eqn:C1.
    + rewrite (proj1 LN eq_refl). destruct (mo_uptr M); cbv iota in H |- *; try (match type of H with Ret _ = Ret _ => exact H end).
      apply bind_ret in H. destruct H as [r [R H]]. assert (Hl : leaf_result r = (false, snd (leaf_result r))).
      { injection H as <-. cbn in G. destruct (leaf_result r). cbn in *. subst. reflexivity. }
      apply leaf_result_good in Hl. destruct (ptr_eq_inv _ _ _ _ R (proj1 Hl)) as [x [y [X [Y Q]]]].
      rewrite (ptr_eq_make _ _ _ _ _ Y X). cbn [bind]. rewrite Z.eqb_sym, <- Q. exact H.
    + destruct (me_ch e2) as [|a2 l2]; [discriminate L|exact H].
  - apply bind_ret in H. destruct H as [r [R H]]. assert (Hl : leaf_result r = (false, snd (leaf_result r))).
    { injection H as <-. cbn in G. destruct (leaf_result r). cbn in *. subst. reflexivity. }
    apply leaf_result_good in Hl. destruct (enum_eq_inv _ _ _ _ R (proj1 Hl)) as [x [y [X [Y Q]]]].
    rewrite (enum_eq_make _ _ _ _ _ Y X). cbn [bind]. rewrite Z.eqb_sym, <- Q. exact H.
  - destruct (mo_union M); try (match type of H with Ret _ = Ret _ => exact H end). destruct (me_ch e1) as [|a1 l1] eqn:C1.
    + rewrite (proj1 LN eq_refl). rewrite <- S, mem_equal_sym. exact H.
    + destruct (me_ch e2) as [|a2 l2]; [discriminate L|exact H].
Qed.
Lemma same_head_sym : forall o1 o2 e1 e2 f1 f2, same_head o1 o2 e1 e2 f1 f2 -> same_head o2 o1 e2 e1 f2 f1.
Proof. unfold same_head. intros. intuition congruence. Qed.
Lemma here_sym : forall m o1 o2 e1 e2 h, equal_here E M feq m o1 o2 e1 e2 = Ret h -> good h -> equal_here E M feq m o2 o1 e2 e1 = Ret h.
Proof.
  intros m o1 o2 e1 e2 h H G. destruct (here_inv _ _ _ _ _ _ H) as [f1 [f2 [F1 [F2 [[S ->]|[S B]]]]]].
  - eapply here_differ; [exact F2|exact F1|]. intro S'. apply S. apply same_head_sym. exact S'.
  - rewrite (here_body _ _ _ _ _ _ _ F2 F1 (same_head_sym _ _ _ _ _ _ S)). destruct S as [S1 [S2 _]].
    eapply body_sym; eassumption.
Qed.

Definition equal_list (m : mem) (o1 o2 : list (nat * Z)) :=
  fix go (l1 l2 : list ment) : res (bool * bool) :=
    match l1, l2 with
    | [], [] => Ret (false, true)
    | c1 :: r1, c2 :: r2 => (do '(f, c) <- equal_tree E M feq m o1 o2 c1 c2;
                            do '(fs, cs) <- go r1 r2;
                            Ret (f || fs, c && cs))%res
    | _, _ => Abort
    end.
Lemma equal_tree_eq : forall m o1 o2 e1 e2, equal_tree E M feq m o1 o2 e1 e2 =
  (do h <- equal_here E M feq m o1 o2 e1 e2;
   match h with inl r => Ret r | inr _ => equal_list m o1 o2 (me_ch e1) (me_ch e2) end)%res.
Proof. intros m o1 o2 [] e2. reflexivity. Qed.

Lemma tree_sym : forall m o1 o2 e1 e2 c, equal_tree E M feq m o1 o2 e1 e2 = Ret (false, c) -> equal_tree E M feq m o2 o1 e2 e1 = Ret (false, c).
Proof.
  intros m o1 o2 e1. induction e1 as [i v s l ch F] using ment_ind2. intros e2 c H. rewrite equal_tree_eq in H |- *.
  apply bind_ret in H. destruct H as [h [H1 H]].
  assert (G : good h). { destruct h as [[f x]|[]]; [injection H as -> ->; reflexivity|exact I]. }
  rewrite (here_sym _ _ _ _ _ _ H1 G). cbn [bind]. destruct h as [r|[]]; [exact H|]. cbn [me_ch] in *.
  clear H1 G. revert c H. generalize (me_ch e2) as l2. induction F as [|a ch P F IH]; intros l2 c H.
  - destruct l2; [exact H|discriminate].
  - destruct l2 as [|b l2]; [discriminate|]. cbn [equal_list] in H |- *.
    apply bind_ret in H. destruct H as [[f x] [A H]]. apply bind_ret in H. destruct H as [[fs xs] [B H]].
    injection H as Hf Hc. destruct f, fs; try discriminate. rewrite (P _ _ A). cbn [bind].
    rewrite (IH _ _ B). cbn [bind]. subst c. reflexivity.
Qed.
End Equality.

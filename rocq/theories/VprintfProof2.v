(** Proofs about the handler metac_handle_printf_format. *)
From Coq Require Import ZArith String List Bool Lia ZifyBool Arith.
From Verif Require Import Base EntryModel EntrySpec EntryProof ValueProof2 CdeclModel HandlerModel PStorModel PStorSpec PStorProof WrapModel WrapSpec WrapProof WrapProof2 VprintfModel VprintfSpec VprintfProof.
From Verif Require PrintfModel PrintfSpec PrintfProof.
Import ListNotations.
Open Scope Z_scope.

Lemma last_stor : forall h s l x p r a, stores h s (l ++ [x; NStor p (PStatic r) a []]) -> stores h a [].
Proof.
  intros h s l x p r a ST. change [x; NStor p (PStatic r) a []] with ([x] ++ [NStor p (PStatic r) a []]) in ST. rewrite app_assoc in ST. eapply nested_stores. exact ST.
Qed.
Section Handler.
Variable demote : list Z -> list Z.
Variable tref : PrintfModel.ctype -> ref.
Variable cstr : Z -> option (list Z).
Variable n : nat.
Variable d : db.
Hypothesis AC : acyclic d n.
Notation prints := (prints tref cstr).
Notation handle := (handle_printf_format demote tref cstr (n + 3) d).

(** the value is read and released: memory is as before *)
Lemma handle_start : forall h f e pl s l p r a args nd, heap_ok h -> stores h s (l ++ [nd; NStor p (PStatic r) a []]) -> naddr nd <> null ->
  final_type d (Some f) (Some e) -> fun_params (e_info (deref d e)) pl -> (S (length l) < length pl)%nat ->
  (exists h1, handle h f s (Z.of_nat (S (length l))) a args = Ret (- EINVAL, h1, args) /\ later h h1 /\ ~ no_oom h /\ heap_ok h1 /\ forall q, h_blk h1 q = h_blk h q) \/
  exists h1 h2 v, heap_ok h1 /\ later h h1 /\ entry_src h1 (snd (fst v)) (entry_of (nentry nd)) /\ (forall q, (q < h_next h)%nat -> h_blk h1 q = h_blk h q) /\
    snd v = naddr nd /\ value_delete h1 v = Ret h2 /\ heap_ok h2 /\ later h h2 /\ (forall q, h_blk h2 q = h_blk h q) /\
    handle h f s (Z.of_nat (S (length l))) a args = bind (pointer_entry (n + 3) d h1 (snd (fst v))) (fun b =>
      if negb b then bind (value_delete h1 v) (fun h2 => Ret (- EINVAL, h2, args))
      else bind (get_bytes h1 (naddr nd)) (fun w => if Nat.ltb (length w) 8 then Ub else bind (value_delete h1 v) (fun h2 =>
        let q := le_number (firstn 8 w) in
        if q =? 0 then Ret (- EINVAL, h2, args) else if Nat.eqb a null then Ret (- EINVAL, h2, args)
        else match cstr q with None => Ub | Some t => bind (store_vprintf demote tref cstr h2 a t args) (fun '(z, h3) => Ret (z, h3, args)) end))).
Proof.
  intros h f e pl s l p r a args nd HO ST NN FT FP LP. unfold handle_printf_format, by_parameter_id. rewrite (final_if_type d n _ e _ AC FT). cbn [bind].
  assert (FL : is_fun_info (e_info (deref d e)) = true /\ params_of d e = pl). { unfold params_of. destruct FP as [(t & ->)|(t & ->)]; auto. } destruct FL as (-> & ->). cbn [bind].
  assert (NI : exists q, nth_id pl (Z.of_nat (S (length l))) = Some q). { destruct (nth_error pl (S (length l))) as [q|] eqn:E. exists (St q). apply nth_id_spec. split. lia. exists q. rewrite Nat2Z.id. auto. apply nth_error_None in E. lia. }
  destruct NI as (q & ->). replace (Z.of_nat (S (length l)) - 1) with (Z.of_nat (length l)) by lia.
  assert (NX : nth_error (l ++ [nd; NStor p (PStatic r) a []]) (length l) = Some nd) by (rewrite nth_error_app2, Nat.sub_diag; auto).
  destruct (value_at_ok h s _ (length l) nd HO ST NX NN) as (v & h1 & -> & HO1 & L1 & FR & [(-> & NO & B1)|(pv & ev & -> & ES & DEL)]); cbn [bind].
  - left. exists h1. auto.
  - right. destruct (DEL h1 HO1) as (h2 & E2 & HO2 & N2 & O2 & D1 & D2); auto. exists h1, h2, (pv, ev, naddr nd). cbn [fst snd]. repeat (split; auto).
    + destruct L1. congruence. + destruct L1. lia.
    + intros z. destruct (Nat.lt_ge_cases z (h_next h)). rewrite D2, FR; auto. transitivity (@None block). destruct (Nat.lt_ge_cases z (h_next h1)). auto. destruct HO2 as (_ & _ & X). apply X. lia. symmetry. destruct HO as (_ & _ & X). auto.
Qed.

Lemma handle_ok : forall h f e pl s l p r a args nd r0 b xs, heap_ok h -> stores h s (l ++ [nd; NStor p (PStatic r) a []]) ->
  final_type d (Some f) (Some e) -> fun_params (e_info (deref d e)) pl -> (S (length l) < length pl)%nat ->
  shape_of nd = SBuf (inl r0) b -> good_format tref cstr d r0 b args xs -> tidy h xs ->
  exists z h' l', handle h f s (Z.of_nat (S (length l))) a args = Ret (z, h', args) /\ goes h h' a [] l' /\ later h h' /\ (z = 0 -> map shape_of l' = xs) /\ (no_oom h -> z = 0).
Proof.
  intros h f e pl s l p r a args nd r0 b xs HO ST FT FP LP SH GF TD. destruct GF as [t u q ps args xs RT IP RQ CS US PR].
  apply shape_buf in SH. destruct SH as (px & ax & ->).
  assert (CX : contents h (NBuf px (PStatic r0) ax (le_bytes 8 q))). { destruct ST as (_ & _ & C & _). eapply chain_contents. exact C. rewrite nth_error_app2, Nat.sub_diag by auto. reflexivity. }
  cbn [contents] in CX. destruct CX as (_ & AN & _ & AB). assert (SA := last_stor _ _ _ _ _ _ _ ST).
  destruct (handle_start h f e pl s l p r a args _ HO ST AN FT FP LP) as [(h1 & E & L1 & NO & HO1 & B1)|(h1 & h2 & v & HO1 & L1 & ES & FR & SV & E2 & HO2 & L2 & B2 & E)]; rewrite E; clear E.
  - exists (- EINVAL), h1, []. split; auto. split. apply evolves_refl; auto. split; auto. split. discriminate. contradiction.
  - destruct v as ((pv, ev), av). cbn [fst snd nentry naddr entry_of] in *. subst av. destruct ev as [r1|]; cbn [entry_src] in ES; [|contradiction]. subst r1.
    unfold pointer_entry. cbn [bind]. rewrite (final_if_type d n _ _ _ AC RT). cbn [bind deref]. rewrite IP. cbn [is_pointer_info negb].
    unfold get_bytes. rewrite (FR ax), AB. 2:{ apply live_old; auto. rewrite AB. discriminate. } cbn [bind]. rewrite le_length. change (8 <? 8)%nat with false. cbv iota. rewrite E2. cbn [bind].
    rewrite firstn_all2 by (rewrite le_length; auto). rewrite le_address by lia. cbv zeta. destruct (Z.eqb_spec q 0); [lia|]. destruct (Nat.eqb_spec a null) as [X|_]. exfalso. apply SA in X. contradiction. rewrite CS.
    assert (SA2 : stores h2 a []). { apply (stores_frame h); auto. }
    destruct (store_ok demote tref cstr h2 a [] ps args xs HO2 SA2 US PR (tidy_later _ _ _ L2 TD) eq_refl) as (z & h3 & l' & -> & L3 & G & Q1 & Q2). cbn [bind].
    exists z, h3, l'. split; auto. split. { eapply (goes_trans h h2 h3 a [] [] l'); auto. apply evolves_refl; auto. } split. eapply later_trans; eauto. split; auto. intros X. apply Q2. eapply later_oom; eauto.
Qed.

Lemma handle_bad : forall h f e pl s l p r a args nd r0 b xs, heap_ok h -> stores h s (l ++ [nd; NStor p (PStatic r) a []]) ->
  final_type d (Some f) (Some e) -> fun_params (e_info (deref d e)) pl -> (S (length l) < length pl)%nat ->
  shape_of nd = SBuf (inl r0) b -> bad_format tref cstr d r0 b args xs -> tidy h xs ->
  exists z h' l', handle h f s (Z.of_nat (S (length l))) a args = Ret (z, h', args) /\ goes h h' a [] l' /\ later h h' /\ z <> 0.
Proof.
  intros h f e pl s l p r a args nd r0 b xs HO ST FT FP LP SH GF TD. assert (SA := last_stor _ _ _ _ _ _ _ ST).
  apply shape_buf in SH. destruct SH as (px & ax & ->).
  assert (CX : contents h (NBuf px (PStatic r0) ax b)). { destruct ST as (_ & _ & C & _). eapply chain_contents. exact C. rewrite nth_error_app2, Nat.sub_diag by auto. reflexivity. }
  cbn [contents] in CX. destruct CX as (_ & AN & _ & AB).
  destruct (handle_start h f e pl s l p r a args _ HO ST AN FT FP LP) as [(h1 & E & L1 & NO & HO1 & B1)|(h1 & h2 & v & HO1 & L1 & ES & FR & SV & E2 & HO2 & L2 & B2 & E)]; rewrite E; clear E.
  - exists (- EINVAL), h1, []. split; auto. split. apply evolves_refl; auto. split; auto. discriminate.
  - destruct v as ((pv, ev), av). cbn [fst snd nentry naddr entry_of] in *. subst av. destruct ev as [r1|]; cbn [entry_src] in ES; [|contradiction]. subst r1.
    assert (G2 : goes h h2 a [] []) by (apply evolves_refl; auto). assert (SA2 : stores h2 a []). { apply (stores_frame h); auto. }
    destruct GF as [b args e0 RT NP|t u args RT IP|t u q ps args xs RT IP RQ CS US PR]; unfold pointer_entry; cbn [bind]; rewrite (final_if_type d n _ _ _ AC RT); cbn [bind deref].
    + assert (X : is_pointer_info (e_info (deref d e0)) = false). { destruct (e_info (deref d e0)); auto. exfalso. eapply NP; eauto. } rewrite X. cbn [negb bind]. rewrite E2. cbn [bind].
      exists (- EINVAL), h2, []. split; auto. split; auto. split; auto. discriminate.
    + rewrite IP. cbn [is_pointer_info negb]. unfold get_bytes. rewrite (FR ax), AB. 2:{ apply live_old; auto. rewrite AB. discriminate. } cbn [bind]. rewrite le_length. change (8 <? 8)%nat with false. cbv iota. rewrite E2. cbn [bind].
      change (le_number (firstn 8 (le_bytes 8 0)) =? 0) with true. cbv zeta iota. exists (- EINVAL), h2, []. split; auto. split; auto. split; auto. discriminate.
    + rewrite IP. cbn [is_pointer_info negb]. unfold get_bytes. rewrite (FR ax), AB. 2:{ apply live_old; auto. rewrite AB. discriminate. } cbn [bind]. rewrite le_length. change (8 <? 8)%nat with false. cbv iota. rewrite E2. cbn [bind].
      rewrite firstn_all2 by (rewrite le_length; auto). rewrite le_address by lia. cbv zeta. destruct (Z.eqb_spec q 0); [lia|]. destruct (Nat.eqb_spec a null) as [X|_]. exfalso. apply SA in X. contradiction. rewrite CS.
      destruct (store_breaks demote tref cstr h2 a ps args xs HO2 SA2 US PR (tidy_later _ _ _ L2 TD)) as (h3 & l' & -> & L3 & G). cbn [bind].
      exists (- EFAULT), h3, l'. split; auto. split. { eapply (goes_trans h h2 h3 a [] [] l'); auto. } split. eapply later_trans; eauto. discriminate.
Qed.
Lemma last_split : forall (l : list node) before x, map shape_of l = before ++ [x] -> exists l0 nd, l = l0 ++ [nd] /\ map shape_of l0 = before /\ shape_of nd = x.
Proof.
  intros l before x H. destruct (exists_last (l := l)) as (l0 & nd & ->). { intros ->. destruct before; discriminate. }
  rewrite map_app in H. cbn [map] in H. apply app_inj_tail in H. destruct H. eauto.
Qed.
Lemma handle_gathers : forall f e pl before r r0 b args xs, final_type d (Some f) (Some e) -> fun_params (e_info (deref d e)) pl -> (S (length before) < length pl)%nat ->
  good_format tref cstr d r0 b args xs -> gathers (stringless xs) f handle (before ++ [SBuf (inl r0) b]) r args xs.
Proof.
  intros f e pl before r r0 b args xs FT FP LP GF h s l p a OO HO ST M. destruct (last_split _ _ _ M) as (l0 & nd & -> & MB & SH). rewrite <- app_assoc in ST. cbn [app] in ST.
  assert (TD : tidy h xs) by (destruct OO; [right|left]; auto). assert (LL : length l0 = length before) by (rewrite <- MB, map_length; auto).
  destruct (handle_ok h f e pl s l0 p r a args nd r0 b xs HO ST FT FP) as (z & h' & l' & E & Q); auto. { lia. }
  rewrite app_length. cbn [length]. rewrite Nat.add_1_r. exists z, h', args, l'. auto.
Qed.
Lemma handle_refuses : forall f e pl before r r0 b args xs, final_type d (Some f) (Some e) -> fun_params (e_info (deref d e)) pl -> (S (length before) < length pl)%nat ->
  bad_format tref cstr d r0 b args xs -> refuses (stringless xs) f handle (before ++ [SBuf (inl r0) b]) r args.
Proof.
  intros f e pl before r r0 b args xs FT FP LP GF h s l p a OO HO ST M. destruct (last_split _ _ _ M) as (l0 & nd & -> & MB & SH). rewrite <- app_assoc in ST. cbn [app] in ST.
  assert (TD : tidy h xs) by (destruct OO; [right|left]; auto). assert (LL : length l0 = length before) by (rewrite <- MB, map_length; auto).
  destruct (handle_bad h f e pl s l0 p r a args nd r0 b xs HO ST FT FP) as (z & h' & l' & E & Q); auto. { lia. }
  rewrite app_length. cbn [length]. rewrite Nat.add_1_r. exists z, h', args, l'. auto.
Qed.

(** a printf-like call *)
Variable nc : nat.
Variable promote : list Z -> list Z.
Variable va_fn : ref -> bool.
Variable tags : option (ref -> option va_handler).
Hypothesis PD : forall b, length b = 4%nat -> demote (promote b) = b.
Notation variadic_args := (variadic_args d nc).
Lemma values_captured : forall oom f l args0 xs0, values d nc promote va_fn l args0 xs0 -> forall before r args1 items args,
  variadic_args r args0 args1 args -> handler tags r handle -> gathers oom f handle (before ++ xs0) r args1 items ->
  captured d nc promote va_fn tags oom f before (l ++ [r]) args (xs0 ++ [SStor (inl r) items]).
Proof.
  intros oom f. induction 1 as [|r1 t l a args b xs OR PS V IH]; intros before r args1 items args2 VA HD G; cbn [app].
  - rewrite app_nil_r in G. destruct VA as [(DT & ->)|(DT & ->)]; cbn [app]. eapply cp_dots; eauto. eapply cp_va_list; eauto. constructor.
  - assert (X : exists args', args2 = a :: args' /\ variadic_args r args args1 args'). { destruct VA as [(DT & ->)|(DT & ->)]; cbn [app]; eexists; split; try reflexivity; [left|right]; auto. }
    destruct X as (args' & -> & VA'). eapply cp_value; eauto. eapply IH; eauto. rewrite <- app_assoc. exact G.
Qed.
Lemma values_stuck : forall oom f l args0 xs0, values d nc promote va_fn l args0 xs0 -> forall before r args1 args,
  variadic_args r args0 args1 args -> handler tags r handle -> refuses oom f handle (before ++ xs0) r args1 ->
  stuck d nc promote va_fn tags oom f before (l ++ [r]) args.
Proof.
  intros oom f. induction 1 as [|r1 t l a args b xs OR PS V IH]; intros before r args1 args2 VA HD G; cbn [app].
  - rewrite app_nil_r in G. apply st_here. destruct VA as [(DT & ->)|(DT & ->)]; cbn [app]. eapply un_dots; eauto. eapply un_va_list; eauto.
  - assert (X : exists args', args2 = a :: args' /\ variadic_args r args args1 args'). { destruct VA as [(DT & ->)|(DT & ->)]; cbn [app]; eexists; split; try reflexivity; [left|right]; auto. }
    destruct X as (args' & -> & VA'). eapply st_value; eauto. eapply IH; eauto. rewrite <- app_assoc. exact G.
Qed.
Lemma values_length : forall l args xs, values d nc promote va_fn l args xs -> length xs = length l.
Proof. induction 1; cbn [length]; auto. Qed.
Lemma printf_call : forall h en v h1 e l r r0 b args0 args1 args xs0 items, tidy h items -> heap_ok h -> new_call_params h en = (Some v, h1) ->
  final_type d (Some en) (Some e) -> fun_params (e_info (deref d e)) (l ++ [r]) -> values d nc promote va_fn l args0 (xs0 ++ [SBuf (inl r0) b]) ->
  variadic_args r args0 args1 args -> handler tags r handle -> good_format tref cstr d r0 b args1 items ->
  exists o h2, parameter_wrap (n + 3) nc d demote va_fn tags h1 (Some v) args = Ret (o, h2) /\ later h h2 /\
   match o with
   | Some v' => v' = v /\ (exists l', stores h2 (vl_addr v) l' /\ map shape_of l' = xs0 ++ [SBuf (inl r0) b; SStor (inl r) items]) /\
                exists h3, call_params_delete h2 o = Ret h3 /\ forall q, h_blk h3 q = h_blk h q
   | None => ~ no_oom h
   end.
Proof.
  intros h en v h1 e l r r0 b args0 args1 args xs0 items TD HO NC FT FP V VA HD GF.
  assert (LL := values_length _ _ _ V). rewrite app_length in LL. cbn [length] in LL.
  replace (xs0 ++ [SBuf (inl r0) b; SStor (inl r) items]) with ((xs0 ++ [SBuf (inl r0) b]) ++ [SStor (inl r) items]) by (rewrite <- app_assoc; reflexivity).
  eapply (call_life demote n nc d promote va_fn tags (stringless items) AC PD h en v h1 e (l ++ [r]) args); eauto. destruct TD; auto.
  eapply values_captured; eauto. cbn [app]. eapply handle_gathers; eauto. rewrite app_length. cbn [length]. lia.
Qed.
Lemma printf_fails : forall h en v h1 e l r r0 b args0 args1 args xs0 items, tidy h items -> heap_ok h -> new_call_params h en = (Some v, h1) ->
  final_type d (Some en) (Some e) -> fun_params (e_info (deref d e)) (l ++ [r]) -> values d nc promote va_fn l args0 (xs0 ++ [SBuf (inl r0) b]) ->
  variadic_args r args0 args1 args -> handler tags r handle -> bad_format tref cstr d r0 b args1 items ->
  exists h2 h3, parameter_wrap (n + 3) nc d demote va_fn tags h1 (Some v) args = Ret (None, h2) /\ delete (h_next h2) h2 (vl_addr v) = Ret h3 /\ forall q, h_blk h3 q = h_blk h q.
Proof.
  intros h en v h1 e l r r0 b args0 args1 args xs0 items TD HO NC FT FP V VA HD GF.
  assert (LL := values_length _ _ _ V). rewrite app_length in LL. cbn [length] in LL.
  eapply (fail_life demote n nc d promote va_fn tags (stringless items) AC PD h en v h1 e (l ++ [r]) args); eauto. destruct TD; auto.
  eapply values_stuck; eauto. cbn [app]. eapply handle_refuses; eauto. rewrite app_length. cbn [length]. lia.
Qed.
End Handler.

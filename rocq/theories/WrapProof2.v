(** Proofs about wrapping a call: the loop over the parameters, failures, the life of a wrapped call. *)
From Coq Require Import ZArith String Ascii List Bool Lia ZifyBool Arith.
From Verif Require Import Base EntryModel EntrySpec EntryProof ValueProof2 CdeclModel HandlerModel CdeclSpec CdeclProof CdeclProof2 CdeclProof3 PStorModel PStorSpec PStorProof WrapModel WrapSpec WrapProof.
Import ListNotations.
Open Scope Z_scope.

Section Loop.
Variable demote : list Z -> list Z.
Variables n nc : nat.
Variable d : db.
Variable promote : list Z -> list Z.
Variable va_fn : ref -> bool.
Variable tags : option (ref -> option va_handler).
Variable oom : Prop.
Hypothesis AC : acyclic d n.
Hypothesis PD : forall b, length b = 4%nat -> demote (promote b) = b.

Lemma ordinary_va : forall r t, ordinary d nc r t -> is_va_list nc d (St r) = Ret false.
Proof.
  intros r t (I & NV & o & E). unfold is_va_list. cbn [deref]. rewrite I. cbn [lift option_map]. rewrite E. cbn [bind]. destruct o as [s|]; auto. f_equal. apply orb_false_iff.
  split; apply String.eqb_neq; intros ->; apply NV; eexists; split; eauto.
Qed.
Lemma va_list_va : forall r, va_list_param d nc r -> is_va_list nc d (St r) = Ret true /\ exists t, e_info (d r) = IParam false t.
Proof.
  intros r (t & I & s & E & V). split; eauto. unfold is_va_list. cbn [deref]. rewrite I. cbn [lift option_map]. rewrite E. cbn [bind]. f_equal. apply orb_true_iff. destruct V as [-> | ->]; [left|right]; reflexivity.
Qed.

Lemma still : forall h h', later h h' -> oom \/ no_oom h -> oom \/ no_oom h'.
Proof. intros h h' L [H|H]; auto. right. eapply later_oom; eauto. Qed.
(** an unspecified or va_list parameter with a handler *)
Lemma variadic_ok : forall f h s l r (isva : bool) args loc rest0 hd (Q : heap -> Z -> list node -> Prop), heap_ok h -> stores h s l -> handler tags r hd ->
  (if isva then args = ArgList loc :: rest0 else args = loc) ->
  (forall h0 s p a, later h h0 -> heap_ok h0 -> stores h0 s (l ++ [NStor p (PStatic r) a []]) ->
     exists z h' rest l', hd h0 f s (Z.of_nat (length l)) a loc = Ret (z, h', rest) /\ goes h0 h' a [] l' /\ later h0 h' /\ Q h0 z l') ->
  exists o, variadic_param tags h f s (Z.of_nat (length l)) r isva args = Ret o /\
    match o with
    | inl h' => later h h' /\ (no_oom h -> exists h2 z l2, later h h2 /\ z <> 0 /\ Q h2 z l2) /\ exists l', goes h h' s l l'
    | inr (h', rest) => later h h' /\ (isva = true -> rest = rest0) /\ exists p a l', goes h h' s l (l ++ [NStor p (PStatic r) a l']) /\ exists h2, Q h2 0 l'
    end.
Proof.
  intros f h s l r isva args loc rest0 hd Q HO ST (tag & TG & HD) AR G. unfold variadic_param. rewrite TG.
  destruct (append_by_storage_spec (fun _ => true) (S (h_next h)) h s l r HO ST eq_refl) as (z & h1 & -> & HO1 & OK1 & N1 & CASES); [lia|]. cbn [bind].
  assert (L1 : later h h1) by (split; auto).
  destruct CASES as [(Z0 & NO & B1)|(-> & x & SX & AP)].
  { destruct (Z.eqb_spec z 0); [contradiction|]. cbn [negb]. exists (inl h1). split; auto. split; auto. split. contradiction. exists l. apply evolves_refl; auto. }
  cbn [Z.eqb negb]. assert (EV := appended_evolves _ _ _ _ _ HO1 AP). assert (ST1 := proj1 AP).
  destruct SX as [SX|(SX & NO)].
  2:{ assert (NA : naddr x = null) by (destruct x; try discriminate; reflexivity).
      unfold param_value. rewrite (value_spec _ _ _ _ _ ST1 (stores_len _ _ _ HO1 ST1)). cbn [bind]. destruct (Z.ltb_spec (Z.of_nat (length l)) 0); [lia|]. rewrite Nat2Z.id, nth_last, NA. cbn [bind null].
      exists (inl h1). split; auto. split; auto. split. contradiction. eauto. }
  apply shape_stor in SX. destruct SX as (p & a & ->). assert (CX := last_contents _ _ _ _ ST1). cbn [contents] in CX. destruct CX as (_ & AN & _ & _).
  destruct (param_value_last h1 s l _ HO1 ST1) as (v & h2 & -> & HO2 & L2 & [(-> & NO & B2)|(pv & -> & PE & PN & PB & B2)]). exact AN.
  { cbn [bind]. exists (inl h2). split; auto. split. eapply later_trans; eauto. split. intros X. exfalso. apply NO. eapply later_oom; eauto. eexists. eapply goes_ext; eauto. }
  cbn [bind naddr]. rewrite HD. assert (ST2 : stores h2 s (l ++ [NStor p (PStatic r) a []])). { apply (stores_frame h1); auto. intros q I. apply B2. intros ->. apply (stores_old _ _ _ _ HO1 ST1) in I. lia. }
  destruct (G h2 s p a (later_trans _ _ _ L1 L2) HO2 ST2) as (z2 & h3 & rest & l' & E & GO & L3 & QZ).
  assert (GO3 : goes h2 h3 s (l ++ [NStor p (PStatic r) a []]) (l ++ [NStor p (PStatic r) a l'])) by (apply nested_evolves; auto).
  assert (PL : h_blk h3 pv <> None).
  { destruct GO as (_ & _ & RG & FR & _). rewrite FR; auto.
    - intros [I|[]]. subst a. assert (X := stores_old h1 s _ pv HO1 ST1). destruct X as (X & _). { right. rewrite all_blocks_app, all_blocks_cons, blocks_stor. apply in_or_app. right. apply in_or_app. left. right. left. auto. } lia.
    - intros I. destruct (RG _ I) as [[]|LE]. destruct L2 as (_ & L2). assert (X := live_old _ _ HO2 PB). lia. }
  assert (AL : bind (if isva then va_arg_list args else Ret (args, args)) (fun '(loc0, args1) => bind (hd h2 f s (Z.of_nat (length l)) a loc0) (fun '(z3, h4, rest1) => bind (free h4 pv) (fun h5 => Ret (if negb (z3 =? 0) then inl h5 else inr (h5, if isva then args1 else rest1)))))
     = bind (free h3 pv) (fun h5 => Ret (if negb (z2 =? 0) then inl h5 else inr (h5, if isva then rest0 else rest)))).
  { destruct isva; subst args; cbn [va_arg_list bind]; rewrite E; reflexivity. }
  change (exists o : heap + heap * list arg, bind (if isva then va_arg_list args else Ret (args, args)) (fun '(loc0, args1) => bind (hd h2 f s (Z.of_nat (length l)) a loc0) (fun '(z3, h4, rest1) => bind (free h4 pv) (fun h5 => Ret (if negb (z3 =? 0) then inl h5 else inr (h5, if isva then args1 else rest1))))) = Ret o /\
    match o with
    | inl h' => later h h' /\ (no_oom h -> exists h2 z l2, later h h2 /\ z <> 0 /\ Q h2 z l2) /\ exists l', goes h h' s l l'
    | inr (h', rest) => later h h' /\ (isva = true -> rest = rest0) /\ exists p a l', goes h h' s l (l ++ [NStor p (PStatic r) a l']) /\ exists h2, Q h2 0 l'
    end). rewrite AL. clear AL.
  destruct (free_ok h3 pv) as (h4 & -> & N4 & O4 & F1 & F2); auto. cbn [bind].
  assert (LT : later h h4). { eapply later_trans; eauto. eapply later_trans; eauto. eapply later_trans; eauto. split; auto. lia. }
  assert (HO3 : heap_ok h3) by apply GO.
  assert (NI : ~ In pv (s :: all_blocks (l ++ [NStor p (PStatic r) a l']))).
  { intros I. rewrite all_blocks_app, all_blocks_cons, blocks_stor in I. assert (Y : In pv (s :: all_blocks (l ++ [NStor p (PStatic r) a []])) \/ In pv (all_blocks l')).
    { rewrite all_blocks_app, all_blocks_cons, blocks_stor. cbn [app entry_block all_blocks flat_map In] in *. rewrite ?app_nil_r in I. rewrite !in_app_iff in *. cbn [In] in *. rewrite ?in_app_iff in *. cbn [In] in *. tauto. }
    destruct Y as [Y|Y]. apply (stores_old _ _ _ _ HO1 ST1) in Y. lia. destruct GO as (_ & _ & RG & _). destruct (RG _ Y) as [[]|LE]. assert (X := live_old _ _ HO2 PB). lia. }
  assert (GT : goes h h4 s l (l ++ [NStor p (PStatic r) a l'])).
  { assert (HO4 : heap_ok h4). { eapply heap_ok_freed. exact HO3. auto. intros q. destruct (Nat.eq_dec q pv) as [->|NE]; auto. }
    assert (G14 : goes h1 h4 s (l ++ [NStor p (PStatic r) a []]) (l ++ [NStor p (PStatic r) a l'])).
    { destruct GO3 as (A3 & B3 & C3 & D3 & E3). split; auto. split. { apply (stores_frame h3); auto. intros q I. apply F2. intros ->. contradiction. } split.
      - intros q I. destruct (C3 q I) as [J|J]; auto. right. destruct L2. lia.
      - split. + intros q I J. destruct (Nat.eq_dec q pv) as [->|NE]. rewrite F1. subst pv. symmetry. apply HO1. lia. rewrite F2, D3, B2; auto.
        + intros q I J. destruct (Nat.eq_dec q pv) as [->|NE]; auto. rewrite F2; auto. }
    exact (goes_trans _ _ _ _ _ _ _ HO ST L1 EV G14). }
  destruct (Z.eqb_spec z2 0) as [Z0|Z0]; cbn [negb].
  - subst z2. eexists. split; [reflexivity|]. cbn. split; auto. split. intros ->; auto. exists p, a, l'. split; auto. exists h2. exact QZ.
  - eexists. split; [reflexivity|]. cbn. split; auto. split; [|eauto]. intros X. exists h2, z2, l'. split; [exact (later_trans _ _ _ L1 L2)|auto].
Qed.

Variable f : eptr.
Notation captured := (captured d nc promote va_fn tags oom f).
Notation loop := (params_loop (n + 3) nc d demote va_fn tags).
Definition reached (h : heap) (s : ptr) (ls : list node) (xs : list shape) (o : bool * heap) : Prop :=
  let '(ok, h') := o in exists ls', goes h h' s ls ls' /\ later h h' /\ (ok = true -> map shape_of ls' = map shape_of ls ++ xs) /\ (no_oom h -> ok = true).
Lemma loop_ok : forall before l args xs, captured before l args xs -> forall h s ls, oom \/ no_oom h -> heap_ok h -> stores h s ls -> map shape_of ls = before ->
  exists o, loop h f s (Z.of_nat (length ls)) l args = Ret o /\ reached h s ls xs o.
Proof.
  induction 1 as [before args|before r t l a args b xs OR PS CP IH|before r l hd loc args items xs VA HD GA CP IH|before r hd args items (t & DT) HD GA]; intros h s ls OO HO ST EB.
  - exists (true, h). split; auto. exists ls. split. apply evolves_refl; auto. split. apply later_refl. rewrite app_nil_r. auto.
  - cbn [params_loop]. destruct (normal_ok demote n d promote va_fn AC PD r t b a args h s ls (proj1 OR) PS HO ST) as (o & E & D).
    rewrite (proj1 OR), (ordinary_va _ _ OR). cbn [bind orb]. rewrite E. cbn [bind]. destruct o as [h'|(h', rest)]; cbn [done] in D.
    + destruct D as (L & NO & l' & G). exists (false, h'). split; auto. exists l'. split; auto. split; auto. split; [discriminate|contradiction].
    + destruct D as (L & -> & p & q & G). destruct (IH h' s (ls ++ [NBuf p (PStatic r) q b]) (still _ _ L OO) (proj1 G) (proj1 (proj2 G))) as (o2 & E2 & R). { rewrite map_app, EB. reflexivity. }
      rewrite app_length in E2. cbn [length] in E2. rewrite Nat2Z.inj_add in E2. change (Z.of_nat 1) with 1 in E2. rewrite E2. exists o2. split; auto. destruct o2 as (ok, h2). destruct R as (ls' & G2 & L2 & M & NO). exists ls'.
      split. eapply goes_trans; eauto. split. eapply later_trans; eauto. split. intros K. rewrite (M K), map_app, <- app_assoc. reflexivity. intros X. apply NO. eapply later_oom; eauto.
  - cbn [params_loop]. destruct (va_list_va r VA) as (IV & t & IR). rewrite IR, IV. cbn [bind orb].
    destruct (variadic_ok f h s ls r true (ArgList loc :: args) loc args hd (fun h z l' => (z = 0 -> map shape_of l' = items) /\ (no_oom h -> z = 0)) HO ST HD eq_refl) as (o & E & D).
    { intros h0 s0 p a L0 H0 S0. destruct (GA h0 s0 ls p a (still _ _ L0 OO) H0 S0 EB) as (z & h' & rest & l' & A1 & A2 & A3 & A4 & A5). exists z, h', rest, l'. repeat (split; auto). }
    rewrite E. cbn [bind]. destruct o as [h'|(h', rest)].
    + destruct D as (L & NO & l' & G). exists (false, h'). split; auto. exists l'. split; auto. split; auto. split; [discriminate|]. intros X.
      destruct (NO X) as (h2 & z & l2 & L2 & Z0 & _ & Z1). exfalso. apply Z0, Z1. eapply later_oom; eauto.
    + destruct D as (L & R & p & q & l' & G & _ & Q & _). rewrite (R eq_refl). destruct (IH h' s (ls ++ [NStor p (PStatic r) q l']) (still _ _ L OO) (proj1 G) (proj1 (proj2 G))) as (o2 & E2 & R2).
      { rewrite map_app, EB. cbn [map shape_of entry_of]. rewrite (Q eq_refl). reflexivity. }
      rewrite app_length in E2. cbn [length] in E2. rewrite Nat2Z.inj_add in E2. change (Z.of_nat 1) with 1 in E2. rewrite E2. exists o2. split; auto. destruct o2 as (ok, h2). destruct R2 as (ls' & G2 & L2 & M & NO). exists ls'.
      split. eapply goes_trans; eauto. split. eapply later_trans; eauto. split. intros K. rewrite (M K), map_app, <- app_assoc. cbn [map shape_of entry_of]. rewrite (Q eq_refl). reflexivity. intros X. apply NO. eapply later_oom; eauto.
  - cbn [params_loop]. rewrite DT. cbn [bind orb].
    destruct (variadic_ok f h s ls r false args args args hd (fun h z l' => (z = 0 -> map shape_of l' = items) /\ (no_oom h -> z = 0)) HO ST HD eq_refl) as (o & E & D).
    { intros h0 s0 p a L0 H0 S0. destruct (GA h0 s0 ls p a (still _ _ L0 OO) H0 S0 EB) as (z & h' & rest & l' & A1 & A2 & A3 & A4 & A5). exists z, h', rest, l'. repeat (split; auto). }
    rewrite E. cbn [bind]. destruct o as [h'|(h', rest)].
    + destruct D as (L & NO & l' & G). exists (false, h'). split; auto. exists l'. split; auto. split; auto. split; [discriminate|]. intros X.
      destruct (NO X) as (h2 & z & l2 & L2 & Z0 & _ & Z1). exfalso. apply Z0, Z1. eapply later_oom; eauto.
    + destruct D as (L & _ & p & q & l' & G & _ & Q & _). exists (true, h'). split; auto. exists (ls ++ [NStor p (PStatic r) q l']). split; auto. split; auto. split; auto. intros _. rewrite map_app. cbn [map shape_of entry_of]. rewrite (Q eq_refl). reflexivity.
Qed.

(** parameters that cannot be captured *)
Lemma base_none : forall t name bsz s i r st, forallb (fun e => match e with (nm, z, _, _) => negb (String.eqb name nm && (bsz =? z)) end) t = true ->
  try_base demote t name bsz s i r st = Ret (inr st).
Proof.
  induction t as [|(((nm, z), c), cv) t IH]; intros name bsz s i r st F; cbn [try_base]; auto. cbn [forallb] in F. apply andb_prop in F. destruct F as (F1 & F2). apply negb_true_iff in F1. rewrite F1, miss_hit. cbn [bind]. auto.
Qed.
Lemma arithmetic_all : forall name z, (forall b a, arithmetic promote name b a -> Z.of_nat (length b) <> z) ->
  forallb (fun e => match e with (nm, sz, _, _) => negb (String.eqb name nm && (z =? sz)) end) base_table = true.
Proof.
  intros name z H. apply forallb_forall. intros (((nm, sz), c), cv) I. apply negb_true_iff. destruct (String.eqb_spec name nm) as [->|]; auto. cbn [andb]. apply Z.eqb_neq. intros ->.
  assert (X : exists b a, arithmetic promote nm b a /\ Z.of_nat (length b) = sz).
  { unfold base_table in I. cbn [In] in I.
    repeat (destruct I as [I|I]; [injection I as <- <- <- <-; try (eexists (le_bytes _ 0), _; split; [constructor; lia|rewrite le_length; reflexivity]);
      try (eexists (repeat 0 _), _; split; [constructor; rewrite repeat_length; reflexivity|reflexivity]); fail |]). contradiction. }
  destruct X as (b & a & A & L). exact (H b a A L).
Qed.
Lemma unusable_ok : forall r args h s ls, unusable d nc promote tags oom f (map shape_of ls) r args -> oom \/ no_oom h -> heap_ok h -> stores h s ls -> forall l,
  exists h', loop h f s (Z.of_nat (length ls)) (r :: l) args = Ret (false, h') /\ later h h' /\ exists l', goes h h' s ls l'.
Proof.
  intros r args h s ls U OO HO ST l. assert (SAME : later h h /\ exists l', goes h h s ls l'). { split. apply later_refl. exists ls. apply evolves_refl; auto. }
  assert (ORD : forall t, ordinary d nc r t -> (exists h', normal_param (n + 3) d demote va_fn h s (Z.of_nat (length ls)) r args = Ret (inl h') /\ later h h' /\ exists l', goes h h' s ls l') ->
    exists h', loop h f s (Z.of_nat (length ls)) (r :: l) args = Ret (false, h') /\ later h h' /\ exists l', goes h h' s ls l').
  { intros t OR (h' & E & X). cbn [params_loop]. rewrite (proj1 OR), (ordinary_va _ _ OR). cbn [bind orb]. rewrite E. cbn [bind]. eauto. }
  assert (VAR : forall isva u t, e_info (d r) = IParam u t -> (if u then isva = false else is_va_list nc d (St r) = Ret isva) -> u || isva = true ->
    (exists h', variadic_param tags h f s (Z.of_nat (length ls)) r isva args = Ret (inl h') /\ later h h' /\ exists l', goes h h' s ls l') ->
    exists h', loop h f s (Z.of_nat (length ls)) (r :: l) args = Ret (false, h') /\ later h h' /\ exists l', goes h h' s ls l').
  { intros isva u t I V K (h' & E & X). cbn [params_loop]. rewrite I. exists h'. split; auto. destruct u. subst isva. cbn [bind orb]. rewrite E. reflexivity. rewrite V. cbn [bind]. rewrite K, E. reflexivity. }
  assert (FI : forall t q w, final_type d (Some (St t)) (Some q) -> final_if (n + 3) d (Some (St t)) w = Ret (if w (e_info (deref d q)) then Some q else None)) by (intros; apply final_if_type; auto).
  destruct U as [r args K|r args K|r t args OR NS|r t q name z enc args OR F IF NF NA ZB|r t q z es args OR F IF N1 N2 N4 N8 ZB|r t q k ms args OR F IF|r t q args OR F IF|r args VD TG|r hd loc args VA HD RF|r hd args (t & DT) HD RF].
  - cbn [params_loop]. exists h. split; auto. destruct (e_info (d r)) eqn:I; auto. exfalso. eapply K; eauto.
  - cbn [params_loop]. exists h. split; auto. rewrite K. unfold is_va_list. cbn [deref]. rewrite K. cbn [lift option_map entry_cdecl bind orb]. unfold normal_param. rewrite K. reflexivity.
  - apply (ORD t OR). exists h. split; auto. unfold normal_param. rewrite (proj1 OR). destruct (byte_size_total d n (Some (St t)) AC) as (x & X). rewrite X. cbn [bind]. apply byte_size_spec in X. destruct x as [v|e]; auto. destruct X as (z & X & _). exfalso. eapply NS; eauto.
  - apply (ORD t OR). exists h. split; auto. unfold normal_param. rewrite (proj1 OR). rewrite (size_ok n d AC t q z F) by (auto; eapply hs_base; exact IF). cbn [bind]. rewrite !(FI t _ _ F). cbn [deref]. rewrite IF. cbn [bind is_base_info is_pointer_info is_enum_info is_aggr_info deref]. rewrite NF.
    rewrite base_none by (apply arithmetic_all; auto). reflexivity.
  - apply (ORD t OR). exists h. split; auto. unfold normal_param. rewrite (proj1 OR). rewrite (size_ok n d AC t q z F) by (auto; eapply hs_enum; exact IF). cbn [bind]. rewrite !(FI t _ _ F). cbn [deref]. rewrite IF. cbn [bind is_base_info is_pointer_info is_enum_info is_aggr_info].
    unfold enum_table. cbn [try_enum]. apply Z.eqb_neq in N1, N2, N4, N8. rewrite N1, N2, N4, N8, !miss_hit. cbn [bind]. rewrite !miss_hit. reflexivity.
  - apply (ORD t OR). exists h. split; auto. unfold normal_param. rewrite (proj1 OR). rewrite (size_ok n d AC t q 0 F) by (try lia; eapply hs_aggr; exact IF). cbn [bind]. rewrite !(FI t _ _ F). cbn [deref]. rewrite IF. cbn [bind is_base_info is_pointer_info is_enum_info is_aggr_info].
    unfold try_struct, slot, append_by_buffer. destruct s as [|s0]; [exfalso; apply (proj1 ST); reflexivity|]. reflexivity.
  - apply (ORD t OR). exists h. split; auto. unfold normal_param. rewrite (proj1 OR). destruct (byte_size_total d n (Some (St t)) AC) as (x & X). rewrite X. cbn [bind]. destruct x as [v|e]; auto.
    rewrite !(FI t _ _ F). destruct (e_info (deref d q)); try contradiction; reflexivity.
  - assert (V : exists h', variadic_param tags h f s (Z.of_nat (length ls)) r true args = Ret (inl h') /\ later h h' /\ exists l', goes h h' s ls l'). { exists h. split; auto. unfold variadic_param. rewrite TG. reflexivity. }
    assert (V2 : exists h', variadic_param tags h f s (Z.of_nat (length ls)) r false args = Ret (inl h') /\ later h h' /\ exists l', goes h h' s ls l'). { exists h. split; auto. unfold variadic_param. rewrite TG. reflexivity. }
    destruct VD as [VA|(t & DT)]. destruct (va_list_va r VA) as (IV & t & IR). eapply (VAR true); eauto. eapply (VAR false); eauto. reflexivity.
  - destruct (va_list_va r VA) as (IV & t & IR). eapply (VAR true); eauto.
    destruct (variadic_ok f h s ls r true (ArgList loc :: args) loc args hd (fun h z l' => z <> 0) HO ST HD eq_refl) as (o & E & D).
    { intros h0 s0 p a L0 H0 S0. destruct (RF h0 s0 ls p a (still _ _ L0 OO) H0 S0 eq_refl) as (z & h' & rest & l' & A1 & A2 & A3 & A4). exists z, h', rest, l'. auto. }
    destruct o as [h'|(h', rest)]. destruct D as (L & _ & D). eauto. destruct D as (_ & _ & p & a & l' & _ & h2 & X). exfalso. apply X. reflexivity.
  - eapply (VAR false); eauto. reflexivity. 
    destruct (variadic_ok f h s ls r false args args args hd (fun h z l' => z <> 0) HO ST HD eq_refl) as (o & E & D).
    { intros h0 s0 p a L0 H0 S0. destruct (RF h0 s0 ls p a (still _ _ L0 OO) H0 S0 eq_refl) as (z & h' & rest & l' & A1 & A2 & A3 & A4). exists z, h', rest, l'. auto. }
    destruct o as [h'|(h', rest)]. destruct D as (L & _ & D). eauto. destruct D as (_ & _ & p & a & l' & _ & h2 & X). exfalso. apply X. reflexivity.
Qed.
Lemma loop_stuck : forall before l args, stuck d nc promote va_fn tags oom f before l args -> forall h s ls, oom \/ no_oom h -> heap_ok h -> stores h s ls -> map shape_of ls = before ->
  exists h', loop h f s (Z.of_nat (length ls)) l args = Ret (false, h') /\ later h h' /\ exists l', goes h h' s ls l'.
Proof.
  induction 1 as [before r l args U|before r t l a args b OR PS CP IH|before r l hd loc args items VA HD GA CP IH]; intros h s ls OO HO ST EB.
  - subst before. eapply unusable_ok; eauto.
  - cbn [params_loop]. destruct (normal_ok demote n d promote va_fn AC PD r t b a args h s ls (proj1 OR) PS HO ST) as (o & E & D).
    rewrite (proj1 OR), (ordinary_va _ _ OR). cbn [bind orb]. rewrite E. cbn [bind]. destruct o as [h'|(h', rest)]; cbn [done] in D.
    + destruct D as (L & NO & l' & G). eauto.
    + destruct D as (L & -> & p & q & G). destruct (IH h' s (ls ++ [NBuf p (PStatic r) q b]) (still _ _ L OO) (proj1 G) (proj1 (proj2 G))) as (h2 & E2 & L2 & l2 & G2). { rewrite map_app, EB. reflexivity. }
      rewrite app_length in E2. cbn [length] in E2. rewrite Nat2Z.inj_add in E2. change (Z.of_nat 1) with 1 in E2. rewrite E2. exists h2. split; auto. split. eapply later_trans; eauto. exists l2. eapply goes_trans; eauto.
  - cbn [params_loop]. destruct (va_list_va r VA) as (IV & t & IR). rewrite IR, IV. cbn [bind orb].
    destruct (variadic_ok f h s ls r true (ArgList loc :: args) loc args hd (fun h z l' => (z = 0 -> map shape_of l' = items) /\ (no_oom h -> z = 0)) HO ST HD eq_refl) as (o & E & D).
    { intros h0 s0 p a L0 H0 S0. destruct (GA h0 s0 ls p a (still _ _ L0 OO) H0 S0 EB) as (z & h' & rest & l' & A1 & A2 & A3 & A4 & A5). exists z, h', rest, l'. repeat (split; auto). }
    rewrite E. cbn [bind]. destruct o as [h'|(h', rest)].
    + destruct D as (L & NO & l' & G). eauto.
    + destruct D as (L & R & p & q & l' & G & _ & Q & _). rewrite (R eq_refl). destruct (IH h' s (ls ++ [NStor p (PStatic r) q l']) (still _ _ L OO) (proj1 G) (proj1 (proj2 G))) as (h2 & E2 & L2 & l2 & G2).
      { rewrite map_app, EB. cbn [map shape_of entry_of]. rewrite (Q eq_refl). reflexivity. }
      rewrite app_length in E2. cbn [length] in E2. rewrite Nat2Z.inj_add in E2. change (Z.of_nat 1) with 1 in E2. rewrite E2. exists h2. split; auto. split. eapply later_trans; eauto. exists l2. eapply goes_trans; eauto.
Qed.
End Loop.

(** releasing the value of a failed call *)
Lemma release : forall h h1 v l, heap_ok h -> owns h v -> goes h h1 (vl_addr v) [] l ->
  exists h2, free h1 (vl_block v) = Ret h2 /\ goes (without h (vl_block v)) h2 (vl_addr v) [] l /\ h_next h2 = h_next h1 /\ h_ok h2 = h_ok h1 /\ h_blk h2 (vl_block v) = None.
Proof.
  intros h h1 v l HO (BN & BL & BA) (A & B & C & D & E). assert (OLD := live_old _ _ HO BL).
  assert (NI : ~ In (vl_block v) (all_blocks l)). { intros I. destruct (C _ I) as [[]|]. lia. }
  destruct (free_ok h1 (vl_block v)) as (h2 & F & N2 & O2 & F1 & F2); auto. { rewrite D; auto. intros [X|[]]; auto. }
  exists h2. split; auto. split; auto. split. { eapply heap_ok_freed. exact A. auto. intros q. destruct (Nat.eq_dec q (vl_block v)) as [->|]; auto. }
  split. { apply (stores_frame h1); auto. intros q I. apply F2. intros ->. destruct I as [I|I]; auto. }
  split. { intros q I. cbn [without h_next]. auto. }
  split. { intros q I J. cbn [without h_blk]. unfold upd. destruct (Nat.eqb_spec q (vl_block v)) as [->|NE]; auto. rewrite F2; auto. }
  intros q [].
Qed.

Section Calls.
Variable demote : list Z -> list Z.
Variables n nc : nat.
Variable d : db.
Variable promote : list Z -> list Z.
Variable va_fn : ref -> bool.
Variable tags : option (ref -> option va_handler).
Variable oom : Prop.
Hypothesis AC : acyclic d n.
Hypothesis PD : forall b, length b = 4%nat -> demote (promote b) = b.
Notation wrap := (parameter_wrap (n + 3) nc d demote va_fn tags).
Notation captured := (captured d nc promote va_fn tags oom).

Lemma fun_list : forall i l, fun_params i l -> is_fun_info i = true /\ match i with ISubprogram _ l => l | ISubroutine _ l => l | _ => [] end = l.
Proof. intros i l [(t & ->)|(t & ->)]; auto. Qed.
Lemma wrap_captures : forall h v e l args xs, oom \/ no_oom h -> heap_ok h -> stores h (vl_addr v) [] -> owns h v ->
  final_type d (Some (vl_entry v)) (Some e) -> fun_params (e_info (deref d e)) l -> captured (vl_entry v) [] l args xs ->
  exists o h', wrap h (Some v) args = Ret (o, h') /\ later h h' /\
   ((o = Some v /\ exists l', goes h h' (vl_addr v) [] l' /\ map shape_of l' = xs) \/
    (o = None /\ ~ no_oom h /\ exists l', goes (without h (vl_block v)) h' (vl_addr v) [] l')).
Proof.
  intros h v e l args xs OO HO ST OW F FP CP. unfold parameter_wrap. rewrite (final_if_type d n _ _ _ AC F). destruct (fun_list _ _ FP) as (FI & FL). rewrite FI. cbn [bind].
  unfold params_of. rewrite FL. destruct (Nat.eqb_spec (vl_addr v) null) as [X|_]. { exfalso. apply (proj1 ST). exact X. }
  destruct (loop_ok demote n nc d promote va_fn tags oom AC PD (vl_entry v) [] l args xs CP h (vl_addr v) [] OO HO ST eq_refl) as ((ok, h1) & E & ls & G & L & M & NO). cbn [length Z.of_nat] in E. rewrite E. cbn [bind].
  destruct ok.
  - exists (Some v), h1. split; auto. split; auto. left. split; auto. exists ls. auto.
  - destruct (release h h1 v ls HO OW G) as (h2 & -> & G2 & N2 & O2 & _). cbn [bind]. exists None, h2. split; auto. split. destruct L. split; [congruence|lia]. right. split; auto. split; [|eauto]. intros X. specialize (NO X). discriminate.
Qed.
Lemma wrap_fails : forall h v e l args, oom \/ no_oom h -> heap_ok h -> stores h (vl_addr v) [] -> owns h v ->
  final_type d (Some (vl_entry v)) (Some e) -> fun_params (e_info (deref d e)) l -> stuck d nc promote va_fn tags oom (vl_entry v) [] l args ->
  exists h' l', wrap h (Some v) args = Ret (None, h') /\ later h h' /\ goes (without h (vl_block v)) h' (vl_addr v) [] l'.
Proof.
  intros h v e l args OO HO ST OW F FP CP. unfold parameter_wrap. rewrite (final_if_type d n _ _ _ AC F). destruct (fun_list _ _ FP) as (FI & FL). rewrite FI. cbn [bind].
  unfold params_of. rewrite FL. destruct (Nat.eqb_spec (vl_addr v) null) as [X|_]. { exfalso. apply (proj1 ST). exact X. }
  destruct (loop_stuck demote n nc d promote va_fn tags oom AC PD (vl_entry v) [] l args CP h (vl_addr v) [] OO HO ST eq_refl) as (h1 & E & L & ls & G). cbn [length Z.of_nat] in E. rewrite E. cbn [bind].
  destruct (release h h1 v ls HO OW G) as (h2 & -> & G2 & N2 & O2 & _). cbn [bind]. exists h2, ls. split; auto. split; auto. destruct L. split; [congruence|lia].
Qed.

(** a value for a call: its storage is empty, its block its own *)
Lemma new_call_ok : forall h e v h1, heap_ok h -> new_call_params h e = (Some v, h1) ->
  heap_ok h1 /\ later h h1 /\ vl_entry v = e /\ stores h1 (vl_addr v) [] /\ owns h1 v /\ (h_next h <= vl_addr v)%nat /\ (h_next h <= vl_block v)%nat /\
  forall q, q <> vl_addr v -> q <> vl_block v -> h_blk h1 q = h_blk h q.
Proof.
  intros h e v h1 HO H. unfold new_call_params, new_storage in H. destruct (alloc h _) as (s, ha) eqn:A1. destruct (alloc_spec _ _ _ _ HO A1) as (HO1 & OK1 & N1 & [(-> & OF & B1)|(SN & SE & BS & B1)]). discriminate.
  unfold new_value_block in H. destruct s as [|s0] eqn:ES; [exfalso; apply SN; reflexivity|]. rewrite <- ES in *. clear ES s0. destruct (alloc ha _) as (p, hb) eqn:A2. destruct (alloc_spec _ _ _ _ HO1 A2) as (HO2 & OK2 & N2 & [(-> & OF & B2)|(PN & PE & BP & B2)]). discriminate.
  destruct p as [|p0] eqn:EP; [exfalso; apply PN; reflexivity|]. rewrite <- EP in *. clear EP p0. injection H as <- <-. cbn [vl_addr vl_block vl_entry].
  split; auto. split. split; [congruence|lia]. split; auto. assert (SP : s <> p) by lia.
  split. { split; auto. split. rewrite B2, BS; auto. split. exact I. constructor; [intros []|constructor]. }
  split. { split; auto. cbn. split. rewrite BP. discriminate. auto. }
  split; [lia|]. split; [lia|]. intros q Q1 Q2. rewrite B2, B1; auto.
Qed.
(** the life of a wrapped call *)
Lemma call_life : forall h en v h1 e l args xs, oom \/ no_oom h -> heap_ok h -> new_call_params h en = (Some v, h1) ->
  final_type d (Some en) (Some e) -> fun_params (e_info (deref d e)) l -> captured en [] l args xs ->
  exists o h2, wrap h1 (Some v) args = Ret (o, h2) /\ later h h2 /\
   match o with
   | Some v' => v' = v /\ (exists l', stores h2 (vl_addr v) l' /\ map shape_of l' = xs) /\ exists h3, call_params_delete h2 o = Ret h3 /\ forall q, h_blk h3 q = h_blk h q
   | None => ~ no_oom h
   end.
Proof.
  intros h en v h1 e l args xs OO HO NC F FP CP. destruct (new_call_ok h en v h1 HO NC) as (HO1 & L1 & EN & ST & OW & SA & SB & FR). subst en.
  destruct (wrap_captures h1 v e l args xs (still oom _ _ L1 OO) HO1 ST OW F FP CP) as (o & h2 & E & L2 & [(-> & l' & G & M)|(-> & NO & _)]).
  - exists (Some v), h2. split; auto. split. eapply later_trans; eauto. split; auto. split. exists l'. split; auto. apply G.
    destruct (release h1 h2 v l' HO1 OW G) as (h3 & FE & (HO3 & ST3 & RG & FR3 & _) & N3 & O3 & B3).
    destruct (delete_stores (h_next h2) h3 (vl_addr v) l' HO3 ST3) as (h4 & D4 & HO4 & _ & _ & D1 & D2). { assert (X := stores_bound _ _ _ HO3 ST3). assert (Y := weights_blocks l'). cbn [length] in X. lia. }
    exists h4. unfold call_params_delete. rewrite FE. cbn [bind]. split; auto. intros q.
    assert (OLD : forall q, (h_next h <= q)%nat -> h_blk h q = None) by (destruct HO as (_ & _ & X); exact X).
    destruct (in_dec Nat.eq_dec q (vl_addr v :: all_blocks l')) as [I|NI].
    + rewrite D1; auto. symmetry. apply OLD. destruct I as [<-|I]; auto. destruct (RG _ I) as [[]|X]. cbn [without h_next] in X. destruct L1. lia.
    + rewrite D2; auto. rewrite FR3. cbn [without h_blk]. unfold upd. destruct (Nat.eqb_spec q (vl_block v)) as [->|NE]. symmetry. apply OLD. auto. apply FR; auto. intros ->. apply NI. left. auto.
      intros [<-|[]]. apply NI. left. auto. intros I. apply NI. right. auto.
  - exists None, h2. split; auto. split. eapply later_trans; eauto. intros X. apply NO. eapply later_oom; eauto.
Qed.
(** a failed call: deleting the storage releases everything *)
Lemma fail_life : forall h en v h1 e l args, oom \/ no_oom h -> heap_ok h -> new_call_params h en = (Some v, h1) ->
  final_type d (Some en) (Some e) -> fun_params (e_info (deref d e)) l -> stuck d nc promote va_fn tags oom en [] l args ->
  exists h2 h3, wrap h1 (Some v) args = Ret (None, h2) /\ delete (h_next h2) h2 (vl_addr v) = Ret h3 /\ forall q, h_blk h3 q = h_blk h q.
Proof.
  intros h en v h1 e l args OO HO NC F FP CP. destruct (new_call_ok h en v h1 HO NC) as (HO1 & L1 & EN & ST & OW & SA & SB & FR). subst en.
  destruct (wrap_fails h1 v e l args (still oom _ _ L1 OO) HO1 ST OW F FP CP) as (h2 & l' & E & L2 & HO3 & ST3 & RG & FR3 & _).
  destruct (delete_stores (h_next h2) h2 (vl_addr v) l' HO3 ST3) as (h4 & D4 & HO4 & _ & _ & D1 & D2). { assert (X := stores_bound _ _ _ HO3 ST3). assert (Y := weights_blocks l'). cbn [length] in X. lia. }
  exists h2, h4. split; auto. split; auto. intros q. assert (OLD : forall q, (h_next h <= q)%nat -> h_blk h q = None) by (destruct HO as (_ & _ & X); exact X).
  destruct (in_dec Nat.eq_dec q (vl_addr v :: all_blocks l')) as [I|NI].
  + rewrite D1; auto. symmetry. apply OLD. destruct I as [<-|I]; auto. destruct (RG _ I) as [[]|X]. cbn [without h_next] in X. destruct L1. lia.
  + rewrite D2; auto. rewrite FR3. cbn [without h_blk]. unfold upd. destruct (Nat.eqb_spec q (vl_block v)) as [->|NE]. symmetry. apply OLD. auto. apply FR; auto. intros ->. apply NI. left. auto.
    intros [<-|[]]. apply NI. left. auto. intros I. apply NI. right. auto.
Qed.
(** the result of a call *)
Lemma result_life : forall h en e t z, heap_ok h -> final_type d (Some en) (Some e) ->
  (exists l, e_info (deref d e) = ISubprogram (Some t) l \/ e_info (deref d e) = ISubroutine (Some t) l) -> has_size d (Some (St t)) z -> 0 < z < 2 ^ 64 ->
  exists o h1, new_call_result (n + 3) d h en = Ret (o, h1) /\ later h h1 /\
   match o with
   | None => ~ no_oom h /\ forall q, h_blk h1 q = h_blk h q
   | Some v => vl_entry v = St t /\ get_bytes h1 (vl_addr v) = Ret (repeat 0 (Z.to_nat z)) /\ exists h2, call_result_delete h1 o = Ret h2 /\ forall q, h_blk h2 q = h_blk h q
   end.
Proof.
  intros h en e t z HO F (l & I) S Z0. unfold new_call_result. rewrite (final_if_type d n _ _ _ AC F).
  assert (FI : is_fun_info (e_info (deref d e)) = true /\ result_type d e = Some t) by (unfold result_type; destruct I as [-> | ->]; auto). destruct FI as (FI & RT). rewrite FI. cbn [bind]. rewrite RT.
  destruct (byte_size_total d n (Some (St t)) AC) as (x & X). rewrite X. cbn [bind]. apply byte_size_spec in X. destruct x as [w|er]. 2:{ exfalso. eapply (proj2 X); eauto. }
  destruct X as (z' & S' & ->). assert (z' = z) by (eapply has_size_fun; eauto). subst z'. assert (UW : uwrap 64 z = z) by (unfold uwrap; apply Z.mod_small; lia). rewrite UW. destruct (Z.leb_spec z 0); [lia|].
  assert (OLD : forall q, (h_next h <= q)%nat -> h_blk h q = None) by (destruct HO as (_ & _ & X); exact X).
  destruct (alloc h _) as (a, h1) eqn:A1. destruct (alloc_spec _ _ _ _ HO A1) as (HO1 & OK1 & N1 & [(-> & OF & B1)|(AN & AE & BA & B1)]).
  { cbn [new_value_block null free bind]. exists None, h1. split; auto. split. split; [auto|lia]. split; auto. intros X. rewrite X in OF; [discriminate|lia]. }
  unfold new_value_block. destruct a as [|a0] eqn:EA; [exfalso; apply AN; reflexivity|]. rewrite <- EA in *. clear EA a0.
  destruct (alloc h1 _) as (p, h2) eqn:A2. destruct (alloc_spec _ _ _ _ HO1 A2) as (HO2 & OK2 & N2 & [(-> & OF & B2)|(PN & PE & BP & B2)]).
  - unfold null at 1. destruct (free_ok h2 a) as (h3 & -> & N3 & O3 & F1 & F2); auto. { rewrite B2, BA. discriminate. } cbn [bind]. exists None, h3. split; auto. split. split; [congruence|lia]. split.
    intros X. rewrite OK1, X in OF; [discriminate|lia]. intros q. destruct (Nat.eq_dec q a) as [->|NE]. rewrite F1. symmetry. apply OLD. lia. rewrite F2, B2, B1; auto.
  - destruct p as [|p0] eqn:EP; [exfalso; apply PN; reflexivity|]. rewrite <- EP in *. clear EP p0. exists (Some (Build_val p (St t) a)), h2. split; auto. split. split; [congruence|lia].
    cbn [vl_entry vl_addr vl_block call_result_delete]. assert (AP : a <> p) by lia. split; auto. split. unfold get_bytes. rewrite B2, BA; auto.
    destruct (free_ok h2 a) as (h3 & -> & N3 & O3 & F1 & F2); auto. { rewrite B2, BA; auto. discriminate. } cbn [bind].
    destruct (free_ok h3 p) as (h4 & -> & N4 & O4 & F3 & F4); auto. { rewrite F2, BP; auto. discriminate. } exists h4. split; auto. intros q.
    destruct (Nat.eq_dec q p) as [->|NP]. rewrite F3. symmetry. apply OLD. lia. rewrite F4; auto. destruct (Nat.eq_dec q a) as [->|NE]. rewrite F1. symmetry. apply OLD. lia. rewrite F2, B2, B1; auto.
Qed.
End Calls.

(** a parameter of any type whose text is not that of a va_list *)
Lemma ordinary_type : forall d r t T, (forall q, CdeclSpec.clean (d q)) -> e_info (d r) = IParam false (Some t) -> CdeclSpec.is_type d (Some (St t)) T ->
  CdeclSpec.regular T -> CdeclSpec.plain T -> T <> CdeclSpec.TName "va_list" -> T <> CdeclSpec.TPtr (CdeclSpec.TAggr false "__va_list_tag") ->
  exists k, forall nc, (k <= nc)%nat -> ordinary d nc r t.
Proof.
  intros d r t T DB IR IT RG PL N1 N2. destruct (CdeclProof2.type_text d DB (St t) T IT (DB t)) as (_ & k & K). exists k. intros nc LE. specialize (K nc LE).
  split; auto. split; eauto. intros (s & E & V).
  assert (X : s = CdeclProof.text T) by congruence. subst s. assert (NP := proj1 (proj1 (types_clean d DB) _ _ IT (DB t))).
  assert (ID : forall n, forallb (fun c => negb (existsb (Ascii.eqb c) ["*"; "["; "]"; "("; ")"; "%"; ","; "."; "{"; "}"; ";"]%char)) (list_ascii_of_string n) = true -> CdeclSpec.chars (fun c => ~ CdeclSpec.punctuation c) n).
  { induction n as [|c n IHn]; cbn [CdeclSpec.chars list_ascii_of_string forallb]; auto. intros H. apply andb_prop in H. destruct H as (H1 & H2). split; auto. intros P. apply negb_true_iff in H1.
    assert (X : existsb (Ascii.eqb c) ["*"; "["; "]"; "("; ")"; "%"; ","; "."; "{"; "}"; ";"]%char = true). { apply existsb_exists. exists c. split. exact P. apply Ascii.eqb_refl. } congruence. }
  destruct V as [V|V].
  - apply N1. apply CdeclProof3.parts_inj; auto.
    + apply CdeclSpec.rg_flat, CdeclSpec.fl_named. constructor.
    + cbn [CdeclSpec.plain]. split. split. discriminate. split. { intros (x & E2). assert (Z := f_equal String.length E2). apply (f_equal (fun s => String.get (String.length s - 1) s)) in E2. rewrite CdeclProof3.sapp_length in E2. cbn in Z.
        revert E2. rewrite CdeclProof3.sapp_length in Z. cbn in Z. assert (String.length x = 6%nat) as Q by lia. do 7 (destruct x as [|? x]; try discriminate Q). cbn. discriminate. } apply ID. reflexivity. cbn. intros [H|[H|[H|[H|[H|[H|[H|[H|[H|[H|[]]]]]]]]]]]; discriminate.
    + apply CdeclProof3.text_inj; auto. cbn. repeat split; discriminate.
  - apply N2. apply CdeclProof3.parts_inj; auto.
    + apply CdeclSpec.rg_flat, CdeclSpec.fl_ptr, CdeclSpec.fl_named. constructor.
    + cbn [CdeclSpec.plain]. split. discriminate. split. { intros (x & E2). assert (Z := f_equal String.length E2). rewrite CdeclProof3.sapp_length in Z. cbn in Z. assert (String.length x = 12%nat) as Q by lia. do 13 (destruct x as [|? x]; try discriminate Q). cbn in E2. discriminate. } apply ID. reflexivity.
    + apply CdeclProof3.text_inj; auto. cbn. repeat split; discriminate.
Qed.

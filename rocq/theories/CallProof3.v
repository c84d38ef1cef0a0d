(** A text is produced only for what the call contains; for well-formed calls there is a result. *)
From Coq Require Import ZArith String Ascii List Bool Lia ZifyBool.
From Verif Require Import Base BaseProof EntryModel EntrySpec EntryProof ValueModel ValueSpec ValueProof ValueProof2 DeepModel DeepSpec DeepProof DeepProof4 DeepProof6 DeepProof2 CdeclModel CdeclProof HandlerModel TextModel TextSpec TextProof TextProof2 TextProof3 TextProof4 TextProof5 TextProof6 CallModel CallSpec CallProof CallProof2.
From Verif Require CdeclSpec CdeclProof2.
Import ListNotations.
Open Scope Z_scope.
Local Open Scope string_scope.

Lemma args_inv : forall E k c es rs out o, length es = length rs -> args_text E k c (combine es rs) out = Ret (Some o) -> exists ts, rs = map Some ts.
Proof.
  intros E k c. induction es as [|e es IH]; intros [|[t|] rs] out o L H; try discriminate; [exists []; reflexivity|]. cbn in L. injection L as L. cbn [combine args_text] in H.
  assert (X : exists out', args_text E k c (combine es rs) out' = Ret (Some o)).
  { destruct c.
    - apply bind_ret in H. destruct H as [[pat|] [_ H]]; [|destruct out; discriminate]. apply bind_ret in H. destruct H as [ty [_ H]]. apply bind_ret in H. destruct H as [x [_ H]]. eexists; exact H.
    - apply bind_ret in H. destruct H as [x [_ H]]. eexists; exact H.
    - apply bind_ret in H. destruct H as [x [_ H]]. eexists; exact H. }
  destruct X as [out' X]. destruct (IH _ _ _ L X) as [ts ->]. exists (t :: ts). reflexivity.
Qed.
Lemma Forall2_len : forall A B (R : A -> B -> Prop) l l', Forall2 R l l' -> length l = length l'.
Proof. intros A B R l l' F. induction F; cbn; congruence. Qed.
Lemma all_addresses : forall l, existsb (fun w => (v_addr w =? 0)%Z) l = false -> Forall (fun w : value => v_addr w <> 0) l.
Proof. induction l as [|w l IH]; intros H; constructor; cbn [existsb] in H; apply orb_false_iff in H; destruct H as [H1 H2]; [lia|auto]. Qed.

Section CallSound.
Variable E : env.
Variables tagged deep : bool.
Variable float_text : ctype -> Z -> string.
Variable loads : Z -> list value.
Variable n0 : nat.
Notation n := (en_fuel E).
Notation d := (en_db E).
Hypothesis A : acyclic d n0.
Hypothesis N : n = (n0 + 3)%nat.
Variable m : mem.
Hypothesis BM : bytes_ok m.
Hypothesis BG : bytes_ok (en_garbage E).
Hypothesis NT : forall r z c, e_info (d r) = IBase z c -> e_name (d r) <> None.
Hypothesis CL : forall r, CdeclSpec.clean (d r).
Hypothesis FT : forall c x, float_text c x <> "".
Notation ctext := (call_text E tagged deep float_text loads).
Notation shows := (shows E tagged deep float_text).

Lemma load_any : forall v o, (exists k0, forall k, (k0 <= k)%nat -> load_kind E k v = Ret o) -> forall k x, load_kind E k v = Ret x -> x = o.
Proof.
  intros v o [k0 K0] k x H. destruct (approx_le _ (fun k => load_kind E k v) (fun k => load_step E k v) k (Nat.max k k0) ltac:(lia)) as [Q|Q]; [congruence|].
  rewrite Q, (K0 (Nat.max k k0)) in H by lia. congruence.
Qed.
Lemma argument_sound : forall anc w k s, argument_ok E tagged deep m anc w -> ctext k m anc w = Ret (Some s) -> exists r, shows m anc w (SValue r) /\ prints r s.
Proof.
  intros anc w k s (SI & PR & NA & NS) H. destruct k as [|k]; [discriminate|]. cbn [call_text] in H. apply bind_ret in H. destruct H as [c [C H]].
  apply (load_any w None (load_simple E n0 A N w SI)) in C. subst c.
  destruct (text_sound E tagged deep float_text n0 A N BG CL FT m BM anc w PR k anc w s (me_here _ _ _ _ _ _) H) as (sh & SH & W & _). destruct sh as [|l|r].
  - exfalso. apply NS. inversion SH. assumption.
  - exfalso. apply NA. inversion SH. assumption.
  - exists r. split; [exact SH|exact W].
Qed.
Lemma type_text_make : forall w T, CdeclSpec.clean (deref d (v_entry w)) -> CdeclSpec.is_type d (Some (v_entry w)) T ->
  exists ty pat x, type_text E w ty /\ CdeclSpec.returns (fun k => entry_cdecl k d (Some (v_entry w))) (Some pat) /\ fmt pat [Some ""] = Ret x /\ trim x = ty.
Proof.
  intros w T C IT. destruct (CdeclProof2.cdecl_placeholder d CL (v_entry w) T IT C) as (s & R & (a & b & -> & PA & PB)).
  exists (trim (a ++ b)), (a ++ "%s" ++ b), (a ++ b). split; [|split; [exact R|split; [rewrite (fmt_hole a b) by assumption; reflexivity|reflexivity]]].
  exists a, b. split; [exact R|]. split; [exact PA|]. split; [exact PB|apply trim_trimmed].
Qed.
Definition typed_form (ty t : string) : string := if starts_with_quote t then t else "(" ++ ty ++ ")" ++ t.
Lemma args_typed : forall w T, CdeclSpec.clean (deref d (v_entry w)) -> CdeclSpec.is_type d (Some (v_entry w)) T -> exists ty, type_text E w ty /\
  exists k0, forall k t q out, (args_text E k KVariadic ((v_entry w, Some t) :: q) out = OutOfFuel /\ (k < k0)%nat) \/
    args_text E k KVariadic ((v_entry w, Some t) :: q) out = args_text E k KVariadic q (add out (typed_form ty t)).
Proof.
  intros w T C IT. destruct (type_text_make w T C IT) as (ty & pat & x & TT & [R1 [k0 R2]] & F & TR). exists ty. split; [exact TT|]. exists k0. intros k t q out. cbn [args_text].
  assert (X : entry_cdecl k d (Some (v_entry w)) = OutOfFuel /\ (k < k0)%nat \/ entry_cdecl k d (Some (v_entry w)) = Ret (Some pat)).
  { destruct (Nat.ltb_spec k k0) as [L|L]; [destruct (R1 k); auto|right; apply R2; exact L]. }
  destruct X as [[-> L]| ->]; [left; split; [reflexivity|exact L]|right]. cbn [bind]. rewrite F. cbn [bind]. rewrite TR. unfold typed_form, add, comma.
  destruct (starts_with_quote t); cbn [fmt Ascii.eqb Bool.eqb bind]; rewrite !sapp_nil; reflexivity.
Qed.
Lemma typed_sound : forall anc l ts, Forall (typed_ok E tagged deep m anc) l -> Forall2 (fun w t => exists k, ctext k m anc w = Ret (Some t)) l ts ->
  forall k out o, args_text E k KVariadic (combine (map v_entry l) (map Some ts)) out = Ret (Some o) ->
  exists rs us, Forall2 (shows_typed E tagged deep float_text m anc) l rs /\ Forall2 (fun r u => arg_readable r -> prints r u) rs us /\ o = fold_left add us out.
Proof.
  intros anc l ts OK F. induction F as [|w t l ts [k1 K1] F IH]; intros k out o H.
  - exists [], []. cbn in H. injection H as <-. repeat split; constructor.
  - inversion OK as [|? ? (AO & C & T & IT) OK']; subst. destruct (args_typed w T C IT) as (ty & TT & k0 & X). cbn [map combine] in H.
    destruct (X k t (combine (map v_entry l) (map Some ts)) out) as [[Q _]|Q]; rewrite Q in H; [discriminate|].
    destruct (IH OK' _ _ _ H) as (rs & us & S & P & ->). destruct (argument_sound anc w k1 t AO K1) as (r & SH & PR). destruct AO as (SI & _).
    assert (D : (exists l', r = RText l') \/ forall l', r <> RText l') by (destruct r; try (right; intros; discriminate); left; eexists; reflexivity).
    destruct D as [[l' ->]|NL].
    + exists (RText l' :: rs), (typed_form ty t :: us). split; [constructor; [eapply ty_string; eassumption|exact S]|]. split; [|reflexivity]. constructor; [|exact P]. intros R.
      unfold typed_form. rewrite (proj2 (quote_text _ _ PR I)) by (eexists; reflexivity). exact PR.
    + exists (RCast ty r :: rs), (typed_form ty t :: us). split; [constructor; [eapply ty_other; eassumption|exact S]|]. split; [|reflexivity]. constructor; [|exact P]. intros [_ R].
      unfold typed_form. destruct (starts_with_quote t) eqn:Q'; [|constructor; exact PR]. exfalso. apply (quote_text _ _ PR (arg_readable_readable _ R)) in Q'. destruct Q' as [l' ->]. exact (NL l' eq_refl).
Qed.
Lemma collected : forall k anc l rs, collect (ctext k m anc) l = Ret rs -> forall ts, rs = map Some ts -> Forall2 (fun w t => exists k, ctext k m anc w = Ret (Some t)) l ts.
Proof.
  intros k anc l rs H. apply collect_ret in H. induction H as [|w r l rs H F IH]; intros ts Q; destruct ts as [|t ts]; try discriminate; constructor; injection Q as -> Q; [exists k; exact H|apply IH; exact Q].
Qed.
Lemma conditional : forall rs us, Forall2 (fun r u => arg_readable r -> prints r u) rs us -> Forall arg_readable rs -> Forall2 prints rs us.
Proof. intros rs us F. induction F; intros R; constructor; inversion R; subst; auto. Qed.
Lemma variadic_shape : forall v, ellipsis E v \/ va_list E v -> forall k x, load_kind E k v = Ret x -> x = Some KVariadic.
Proof.
  intros v H k x L. apply (load_any v (Some KVariadic)) in L; [exact L|]. destruct H as [H|H]; [exists 0%nat; intros; apply (load_ellipsis E n0 A N v); exact H|apply (load_va E n0 A N); exact H].
Qed.
Lemma item_sound : forall anc v k s, item_ok E tagged deep loads m anc v -> ctext k m anc v = Ret (Some s) ->
  exists args ss, shows_arg E tagged deep float_text loads m anc v args /\ ss <> [] /\ s = String.concat ", " ss /\ Forall2 (fun a u => argument_readable a -> aprints a u) args ss.
Proof.
  intros anc v k s [OK|[EV OK]] H.
  - destruct (argument_sound anc v k s OK H) as (r & SH & P). exists [AOne r], [s]. split; [apply sa_value; [apply OK|exact SH]|]. split; [discriminate|]. split; [reflexivity|].
    constructor; [intros _; constructor; exact P|constructor].
  - destruct k as [|k]; [discriminate|]. cbn [call_text] in H. apply bind_ret in H. destruct H as [c [C H]]. apply (variadic_shape v EV) in C. subst c.
    destruct (existsb _ _) eqn:AD; [discriminate|]. apply all_addresses in AD. apply bind_ret in H. destruct H as [rs [CO H]]. apply bind_ret in H. destruct H as [o [O H]]. destruct o as [o|]; [|discriminate].
    assert (LN : length (map v_entry (loads (v_addr v))) = length rs) by (rewrite map_length; apply collect_ret in CO; eapply Forall2_len; exact CO).
    destruct (args_inv _ _ _ _ _ _ _ LN O) as [ts TS]. subst rs. pose proof (collected _ _ _ _ CO ts eq_refl) as CS.
    destruct (typed_sound _ _ _ OK CS _ _ _ O) as (rs & us & S & P & ->). rewrite fold_none in H. unfold call_end in H. apply bind_ret in H. destruct H as [va [VA H]].
    assert (NE : loads (v_addr v) <> []).
    { intros Z0. rewrite Z0 in S. inversion S; subst. inversion P; subst. destruct va; discriminate. }
    assert (NU : us <> []) by (intros ->; inversion P; subst; inversion S; congruence). assert (J : join us = Some (String.concat ", " us)) by (destruct us; [congruence|reflexivity]). rewrite J in H.
    destruct EV as [EL|VL].
    + assert (va = false) by (destruct EL as [t I]; unfold is_va_list in VA; rewrite I in VA; injection VA as <-; reflexivity). subst va. injection H as <-.
      exists (map AOne rs), us. split; [eapply sa_dots; try eassumption; split; [reflexivity|exact AD]|]. split; [exact NU|]. split; [reflexivity|]. clear - P.
      induction P; constructor; auto. intros R. constructor. apply H. exact R.
    + assert (va = true). { destruct (va_is E v VL) as [k0 K0]. destruct (approx_le _ (fun k => is_va_list k d (v_entry v)) (fun k => va_step E k (v_entry v)) k (Nat.max k k0) ltac:(lia)) as [Q|Q]; [congruence|]. rewrite Q, K0 in VA by lia. congruence. }
      subst va. change "VA_LIST(%s)" with ("VA_LIST(" ++ "%s" ++ ")") in H. rewrite fmt_hole in H by (cbn; repeat split; discriminate). injection H as <-.
      exists [AList rs], ["VA_LIST(" ++ String.concat ", " us ++ ")"]. split; [eapply sa_list; try eassumption; split; [reflexivity|exact AD]|]. split; [discriminate|]. split; [reflexivity|].
      constructor; [|constructor]. intros R. constructor; [intros ->; inversion P; congruence|apply conditional; assumption].
Qed.
Lemma items_sound : forall anc l ts, Forall (item_ok E tagged deep loads m anc) l -> Forall2 (fun w t => exists k, ctext k m anc w = Ret (Some t)) l ts ->
  exists args sss, Forall2 (shows_arg E tagged deep float_text loads m anc) l args /\ ts = map (String.concat ", ") sss /\ Forall (fun ss => ss <> []) sss /\
    Forall2 (fun a u => argument_readable a -> aprints a u) (concat args) (concat sss).
Proof.
  intros anc l ts OK F. induction F as [|w t l ts [k K] F IH]; [exists [], []; repeat split; constructor|]. inversion OK as [|? ? O1 O2]; subst.
  destruct (item_sound anc w k t O1 K) as (a & ss & S & NE & -> & P). destruct (IH O2) as (args & sss & S2 & -> & NE2 & P2).
  exists (a :: args), (ss :: sss). split; [constructor; assumption|]. split; [reflexivity|]. split; [constructor; assumption|]. cbn [concat]. apply Forall2_app; assumption.
Qed.
Lemma aconditional : forall rs us, Forall2 (fun r u => argument_readable r -> aprints r u) rs us -> Forall argument_readable rs -> Forall2 aprints rs us.
Proof. intros rs us F. induction F; intros R; constructor; inversion R; subst; auto. Qed.
Theorem call_sound : forall v k s, call_ok E tagged deep loads m v -> ctext k m [] v = Ret (Some s) ->
  exists c, shows_call E tagged deep float_text loads m v c /\ (call_readable c -> says_call s c).
Proof.
  intros v k s [[(t & ps & FI) NP] OK] H. destruct k as [|k]; [discriminate|]. cbn [call_text] in H.
  assert (B : exists b : bool, has_info d v (if b then ISubprogram t ps else ISubroutine t ps)) by (destruct FI; [exists true|exists false]; assumption). clear FI. destruct B as [b I].
  rewrite (load_by_type E n0 A N v _ k I NP) in H.
  assert (H' : (if existsb (fun w => (v_addr w =? 0)%Z) (loads (v_addr v)) then Ret None else
    bind (collect (ctext k m [v]) (loads (v_addr v))) (fun rs => bind (args_text E k (if b then KFunction else KSubroutine) (combine (map v_entry (loads (v_addr v))) rs) None) (fun out =>
      match out with None => Ret None | Some out => call_end E k (if b then KFunction else KSubroutine) v out end))) = Ret (Some s)) by (destruct b; exact H). clear H. rename H' into H.
  destruct (existsb _ _) eqn:AD; [discriminate|]. apply all_addresses in AD. apply bind_ret in H. destruct H as [rs [CO H]]. apply bind_ret in H. destruct H as [o [O H]]. destruct o as [o|]; [|discriminate].
  assert (LN : length (map v_entry (loads (v_addr v))) = length rs) by (rewrite map_length; apply collect_ret in CO; eapply Forall2_len; exact CO).
  destruct (args_inv _ _ _ _ _ _ _ LN O) as [ts TS]. subst rs. pose proof (collected _ _ _ _ CO ts eq_refl) as CS.
  destruct (items_sound _ _ _ OK CS) as (args & sss & S & -> & NE & P). rewrite (args_fun E n0 N) in O by (try (destruct b; discriminate); rewrite LN, !map_length; reflexivity).
  rewrite fold_none, join_parts in O by exact NE. injection O as <-.
  assert (O : opt_text (join (concat sss)) = String.concat ", " (concat sss)) by (destruct (concat sss); reflexivity).
  destruct (e_name (deref d (v_entry v))) as [nm|] eqn:NM; [|destruct b; unfold call_end in H; rewrite NM in H; discriminate].
  exists (Call b nm (concat args)). split.
  { destruct b; [eapply sc_function|eapply sc_pointer]; try eassumption; split; try reflexivity; exact AD. }
  intros [R RN]. apply call_back; [|split; assumption]. cbn [c_args] in R. pose proof (aconditional _ _ P R) as AP.
  destruct b; unfold call_end in H; rewrite NM, O in H; cbn [fmt Ascii.eqb Bool.eqb bind] in H; injection H as <-; [apply cp_direct|apply (cp_pointer nm)]; exact AP.
Qed.

(** a result *)
Variable n1 : nat.
Hypothesis FN : finite_types d n0.
Hypothesis FX : finite_texts d n1.
Hypothesis TM : tame E.
Hypothesis HD : forall m ev l, exists r, en_handler E m ev l = Ret r.
Lemma text_result : forall anc w, depth E m anc 0 -> (forall a x, met_from E tagged deep m anc w a x -> proper E tagged deep m a x /\ calm E m x) ->
  exists o k0, forall k, (k0 <= k)%nat -> text E tagged deep float_text k m anc w = Ret o.
Proof.
  intros anc w DP PR. destruct FN as [rank [R1 R2]]. destruct FX as [rank1 [Q1 Q2]]. set (k0 := (Z.to_nat (2 ^ 64) * (n0 + 2) + n0 + n1 + 2)%nat).
  assert (RN : runs (text E tagged deep float_text k0 m anc w)).
  { eapply (text_runs E tagged deep float_text n0 n1 rank rank1 R1 R2 Q1 Q2 N TM (Z.to_nat (2 ^ 64))); [apply Z2Nat.id; apply Z.pow_nonneg; discriminate|exact BM|exact DP|].
    pose proof (er_le E n0 rank R1 N (v_entry w)). unfold k0. rewrite Nat.sub_0_r. set (q := (Z.to_nat (2 ^ 64) * (n0 + 2))%nat) in *. clearbody q. lia. }
  destruct (text_lands E tagged deep float_text n0 A N BG NT CL FT HD m BM anc w PR k0 anc w (me_here _ _ _ _ _ _)) as [Q|[o Q]]; [contradiction|].
  exists o, k0. clearbody k0. intros k K. destruct (approx_le _ (fun k => text E tagged deep float_text k m anc w) (fun k => text_step E tagged deep float_text m k anc w) k0 k K) as [X|X]; congruence.
Qed.
Lemma argument_result : forall anc w, depth E m anc 0 -> argument_ok E tagged deep m anc w -> calm_from E tagged deep m anc w ->
  exists o k0, forall k, (k0 <= k)%nat -> ctext k m anc w = Ret o.
Proof.
  intros anc w DP (SI & PR & _) CA. destruct (text_result anc w DP) as (o & k0 & K0); [intros a x M; split; [apply PR|apply (CA a)]; exact M|].
  destruct (load_simple E n0 A N w SI) as [k1 K1]. exists o, (S (k0 + k1)). intros [|k] K; [lia|]. cbn [call_text]. rewrite (K1 k) by lia. cbn [bind]. apply K0. lia.
Qed.
Lemma collect_result : forall anc l, (forall w, In w l -> exists o k0, forall k, (k0 <= k)%nat -> ctext k m anc w = Ret o) ->
  exists rs k0, length rs = length l /\ forall k, (k0 <= k)%nat -> collect (ctext k m anc) l = Ret rs.
Proof.
  intros anc l. induction l as [|w l IH]; intros H; [exists [], 0%nat; split; reflexivity|]. destruct (H w (or_introl eq_refl)) as (o & k0 & K0). destruct IH as (rs & k1 & L & K1); [intros x X; apply H; right; exact X|].
  exists (o :: rs), (k0 + k1)%nat. split; [cbn; congruence|]. intros k K. cbn [collect]. rewrite (K0 k), (K1 k) by lia. reflexivity.
Qed.
Lemma typed_result : forall anc l, Forall (typed_ok E tagged deep m anc) l -> forall rs, length rs = length l ->
  exists k0, forall out, exists o, (forall k, (k0 <= k)%nat -> args_text E k KVariadic (combine (map v_entry l) rs) out = Ret o) /\ (forall x, o = Some x -> l <> [] \/ out <> None -> x <> None).
Proof.
  intros anc l OK. induction OK as [|w l (_ & C & T & IT) OK IH]; intros rs L.
  - destruct rs; [|discriminate]. exists 0%nat. intros out. exists (Some out). split; [reflexivity|]. intros x X [Y|Y]; congruence.
  - destruct rs as [|[t|] rs]; [discriminate| |exists 0%nat; intros out; exists None; split; [reflexivity|discriminate]]. cbn in L. injection L as L.
    destruct (args_typed w T C IT) as (ty & _ & k1 & X). destruct (IH rs L) as [k0 K0]. exists (k0 + k1)%nat. intros out. destruct (K0 (add out (typed_form ty t))) as (o & O & OX). exists o. split.
    + intros k K. cbn [map combine]. destruct (X k t (combine (map v_entry l) rs) out) as [[_ Q]|Q]; [lia|]. rewrite Q. apply O. lia.
    + intros x Q _. apply (OX x Q). right. discriminate.
Qed.
Lemma item_result : forall anc v, depth E m anc 0 -> item_ok E tagged deep loads m anc v -> calm_item E tagged deep loads m anc v ->
  exists o k0, forall k, (k0 <= k)%nat -> ctext k m anc v = Ret o.
Proof.
  intros anc v DP [OK|[EV OK]] (C1 & C2 & C3).
  - apply argument_result; [exact DP|exact OK|apply C1; apply OK].
  - specialize (C3 EV). pose proof (depth_step E m anc 0 v DP) as DP'. destruct (collect_result (v :: anc) (loads (v_addr v))) as (rs & k0 & L & K0).
    { rewrite Forall_forall in OK, C3. intros w IW. apply argument_result; [exact DP'|apply OK; exact IW|apply C3; exact IW]. }
    destruct (typed_result _ _ OK rs L) as [k1 K1]. destruct (K1 None) as (o & O & OX).
    assert (LV : exists k2, forall k, (k2 <= k)%nat -> load_kind E k v = Ret (Some KVariadic)).
    { destruct EV as [H|H]; [exists 0%nat; intros; apply (load_ellipsis E n0 A N v); exact H|apply (load_va E n0 A N); exact H]. }
    destruct LV as [k2 K2]. destruct (existsb (fun w => (v_addr w =? 0)%Z) (loads (v_addr v))) eqn:AD.
    { exists None, (S k2). intros [|k] K; [lia|]. cbn [call_text]. rewrite (K2 k) by lia. cbn [bind]. rewrite AD. reflexivity. }
    assert (RE : exists q k3, forall k, (k3 <= k)%nat -> match o with None => Ret None | Some out => call_end E k KVariadic v out end = Ret q).
    { destruct o as [x|]; [|exists None, 0%nat; reflexivity]. destruct EV as [[t I]|VL].
      - exists x, 0%nat. intros k _. unfold call_end, is_va_list. rewrite I. reflexivity.
      - destruct (va_is E v VL) as [k3 K3]. specialize (OX x eq_refl (or_introl (C2 VL))). destruct x as [x|]; [|congruence]. eexists. exists k3. intros k K. unfold call_end. rewrite (K3 k K). cbn [bind].
        change "VA_LIST(%s)" with ("VA_LIST(" ++ "%s" ++ ")"). rewrite fmt_hole by (cbn; repeat split; discriminate). reflexivity. }
    destruct RE as (q & k3 & K3). exists q, (S (k0 + k1 + k2 + k3)). intros [|k] K; [lia|]. cbn [call_text]. rewrite (K2 k) by lia. cbn [bind]. rewrite AD, (K0 k) by lia. cbn [bind]. rewrite (O k) by lia. apply K3. lia.
Qed.
Lemma args_total : forall k c es rs, c <> KVariadic -> length es = length rs -> forall out, exists o, args_text E k c (combine es rs) out = Ret o /\ forall k', args_text E k' c (combine es rs) out = Ret o.
Proof.
  intros k c. induction es as [|e es IH]; intros [|[t|] rs] C L out; try discriminate; [eexists; split; reflexivity| |eexists; split; reflexivity].
  cbn in L. injection L as L. cbn [combine args_text]. destruct c; [congruence| |]; cbn [fmt Ascii.eqb Bool.eqb bind]; apply IH; assumption.
Qed.
Theorem call_result : forall v, call_ok E tagged deep loads m v -> calm_call E tagged deep loads m v -> exists o, CdeclSpec.returns (fun k => ctext k m [] v) o.
Proof.
  intros v [[(t & ps & FI) NP] OK] [[nm NM] CA]. assert (B : exists b : bool, has_info d v (if b then ISubprogram t ps else ISubroutine t ps)) by (destruct FI; [exists true|exists false]; assumption). clear FI. destruct B as [b I].
  assert (DP : depth E m [v] 0) by (exists []; split; [constructor|]; split; [reflexivity|intros p []]).
  destruct (collect_result [v] (loads (v_addr v))) as (rs & k0 & L & K0).
  { rewrite Forall_forall in OK, CA. intros w IW. apply item_result; [exact DP|apply OK; exact IW|apply CA; exact IW]. }
  destruct (args_total 0 (if b then KFunction else KSubroutine) (map v_entry (loads (v_addr v))) rs) with (out := @None string) as (o & _ & O); [destruct b; discriminate|rewrite map_length; congruence|].
  assert (X : exists q, forall k, (S k0 <= k)%nat -> ctext k m [] v = Ret q).
  { assert (RE : exists q, forall k, match o with None => Ret None | Some out => call_end E k (if b then KFunction else KSubroutine) v out end = Ret q).
    { destruct o as [x|]; [|exists None; reflexivity]. unfold call_end. rewrite NM. destruct b; cbn [fmt Ascii.eqb Bool.eqb bind]; eexists; reflexivity. }
    destruct RE as [q RE]. exists (if existsb (fun w => (v_addr w =? 0)%Z) (loads (v_addr v)) then None else q). intros [|k] K; [lia|]. cbn [call_text]. rewrite (load_by_type E n0 A N v _ k I NP).
    destruct b; cbn [bind]; (destruct (existsb _ _); [reflexivity|]); rewrite (K0 k) by lia; cbn [bind]; rewrite O; apply RE. }
  destruct X as [q X]. exists q. eapply call_returns. exact X.
Qed.
End CallSound.

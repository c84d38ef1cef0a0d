(** The text of a call is produced as the specification says. *)
From Coq Require Import ZArith String Ascii List Bool Lia ZifyBool.
From Verif Require Import Base BaseProof EntryModel EntrySpec EntryProof ValueModel ValueSpec ValueProof ValueProof2 DeepModel DeepSpec DeepProof4 CdeclModel CdeclProof HandlerModel TextModel TextSpec TextProof TextProof2 TextProof4 CallModel CallSpec CallProof.
From Verif Require CdeclSpec.
Import ListNotations.
Open Scope Z_scope.
Local Open Scope string_scope.

(** joined texts *)
Definition comma (o : option string) : string := match o with Some _ => ", " | None => "" end.
Definition add (o : option string) (u : string) : option string := Some (opt_text o ++ comma o ++ u).
Definition join (us : list string) : option string := match us with [] => None | _ => Some (String.concat ", " us) end.
Lemma concat_cons : forall x y l, String.concat ", " (x :: y :: l) = x ++ ", " ++ String.concat ", " (y :: l).
Proof. reflexivity. Qed.
Lemma concat_app : forall a b, a <> [] -> b <> [] -> String.concat ", " (a ++ b)%list = String.concat ", " a ++ ", " ++ String.concat ", " b.
Proof.
  induction a as [|x a IH]; intros b NA NB; [congruence|]. destruct a as [|y a].
  - destruct b as [|z b]; [congruence|]. reflexivity.
  - change ((x :: y :: a) ++ b)%list with (x :: y :: (a ++ b))%list. rewrite !concat_cons. change (y :: (a ++ b))%list with ((y :: a) ++ b)%list. rewrite (IH b) by (auto; discriminate). rewrite !sapp_assoc. reflexivity.
Qed.
Lemma add_join : forall us u, us <> [] -> add (join us) u = join (us ++ [u])%list.
Proof.
  intros us u NE. assert (J : join us = Some (String.concat ", " us)) by (destruct us; [congruence|reflexivity]).
  assert (J' : join (us ++ [u])%list = Some (String.concat ", " (us ++ [u])%list)) by (destruct us; reflexivity).
  rewrite J, J'. unfold add. cbn [opt_text comma]. rewrite concat_app by (auto; discriminate). reflexivity.
Qed.
Lemma fold_join : forall us us0, fold_left add us (join us0) = join (us0 ++ us)%list.
Proof.
  induction us as [|u us IH]; intros us0; [rewrite app_nil_r; reflexivity|]. cbn [fold_left]. destruct us0 as [|x us0].
  - change (add (join []) u) with (join [u]). rewrite IH. reflexivity.
  - rewrite add_join by discriminate. rewrite IH. rewrite <- app_assoc. reflexivity.
Qed.
Lemma fold_none : forall us, fold_left add us None = join us.
Proof. intros us. exact (fold_join us []). Qed.
Lemma join_parts : forall sss, Forall (fun ss => ss <> []) sss -> join (map (String.concat ", ") sss) = join (concat sss).
Proof.
  intros sss F. induction F as [|ss sss N F IH]; [reflexivity|]. cbn [map concat]. destruct sss as [|ss2 sss].
  - cbn [map concat]. rewrite app_nil_r. destruct ss; [congruence|reflexivity].
  - inversion F; subst. assert (NE : concat (ss2 :: sss) <> []) by (destruct ss2; [congruence|discriminate]).
    assert (J : forall l, l <> [] -> join l = Some (String.concat ", " l)) by (intros [|]; [congruence|reflexivity]).
    rewrite J in IH by discriminate. rewrite J in IH by exact NE. apply (f_equal opt_text) in IH; unfold opt_text in IH.
    rewrite !J by solve [discriminate | destruct ss; [congruence|discriminate]]. rewrite concat_app by auto. rewrite <- IH. reflexivity.
Qed.
Lemma trimmed_trim : forall s t, CdeclSpec.trimmed s t -> trim s = t.
Proof.
  assert (SP : forall w, CdeclSpec.spaces w -> trim w = "") by (intros w H; induction H as [|w H IH]; [reflexivity|]; cbn; cbn in IH; rewrite IH; reflexivity).
  intros s t [N (w & W & ->)]. induction t as [|c t IH]; [apply SP; exact W|]. cbn [String.append trim].
  assert (N' : ~ CdeclSpec.ends_with_space t) by (intros [x ->]; apply N; exists (String c x); reflexivity). rewrite (IH N'). destruct t; [|reflexivity].
  destruct (Ascii.eqb_spec c " ") as [->|]; [|reflexivity]. exfalso. apply N. exists "". reflexivity.
Qed.

Section Call.
Variable E : env.
Variables tagged deep : bool.
Variable float_text : ctype -> Z -> string.
Variable loads : Z -> list value.
Variable n0 : nat.
Notation n := (en_fuel E).
Notation d := (en_db E).
Hypothesis A : acyclic d n0.
Hypothesis N : n = (n0 + 3)%nat.

(** the dispatch *)
Lemma by_type_total : forall v, exists f, final_info E v = Ret f /\ forall i, f = Some i -> has_info d v i.
Proof.
  intros v. unfold final_info. rewrite N. destruct (final_if_total d n0 (Some (v_entry v)) (fun _ => true) A) as [f F]. rewrite F. cbn [bind].
  eexists. split; [reflexivity|]. intros i H. destruct f as [e|]; [|discriminate]. apply final_if_some in F. injection H as <-. exists e. split; [apply F|reflexivity].
Qed.
Lemma load_simple : forall v, simple E v -> exists k0, forall k, (k0 <= k)%nat -> load_kind E k v = Ret None.
Proof.
  intros v [NF P]. assert (B : bind (final_info E v) (fun f => Ret (match f with Some (ISubprogram _ _) => Some KFunction | Some (ISubroutine _ _) => Some KSubroutine | _ => None end)) = Ret None).
  { destruct (by_type_total v) as (f & -> & H). cbn [bind]. f_equal. destruct f as [i|]; [|reflexivity]. specialize (H i eq_refl).
    destruct i; try reflexivity; exfalso; [apply (proj1 (NF _ _) H)|apply (proj2 (NF _ _) H)]. }
  unfold load_kind. destruct (e_info (deref d (v_entry v))) as [ | | | | | | | | | |u t| | | ] eqn:I; try (exists 0%nat; intros ? _; exact B).
  destruct u; [contradiction|]. destruct P as (o & [_ [k0 K0]] & NV). exists k0. intros k K. unfold has_parameter_load.
  destruct (final_if_total d n0 (Some (v_entry v)) is_fun_info A) as [f F]. rewrite N, F. cbn [bind]. destruct f as [e|].
  { exfalso. apply final_if_some in F. destruct F as [F1 F2]. destruct (e_info (deref d e)) as [ | | | | | | | | | | |t1 l1|t1 l1| ] eqn:Q; try discriminate; [apply (proj1 (NF t1 l1)); exists e|apply (proj2 (NF t1 l1)); exists e]; auto. }
  unfold is_unspecified, is_va_list. rewrite I. rewrite (K0 k K). cbn [bind]. destruct o as [s|]; [|exact B].
  specialize (NV s eq_refl). destruct (String.eqb_spec s "va_list %s") as [->|]; [exfalso; apply NV; left; reflexivity|].
  destruct (String.eqb_spec s "struct __va_list_tag * %s") as [->|]; [exfalso; apply NV; right; reflexivity|]. cbn [orb]. exact B.
Qed.
Lemma load_ellipsis : forall v k, ellipsis E v -> load_kind E k v = Ret (Some KVariadic).
Proof.
  intros v k [t I]. unfold load_kind. rewrite I. unfold has_parameter_load. destruct (final_if_total d n0 (Some (v_entry v)) is_fun_info A) as [f F]. rewrite N, F. cbn [bind].
  destruct f; [reflexivity|]. unfold is_unspecified. rewrite I. reflexivity.
Qed.
Lemma va_is : forall v, va_list E v -> exists k0, forall k, (k0 <= k)%nat -> is_va_list k d (v_entry v) = Ret true.
Proof.
  intros v (t & s & I & V & [_ [k0 K0]]). exists k0. intros k K. unfold is_va_list. rewrite I, (K0 k K). cbn [bind]. f_equal. destruct V as [-> | ->]; reflexivity.
Qed.
Lemma load_va : forall v, va_list E v -> exists k0, forall k, (k0 <= k)%nat -> load_kind E k v = Ret (Some KVariadic).
Proof.
  intros v V. destruct (va_is v V) as [k0 K0]. exists k0. intros k K. destruct V as (t & s & I & _). unfold load_kind. rewrite I. unfold has_parameter_load.
  destruct (final_if_total d n0 (Some (v_entry v)) is_fun_info A) as [f F]. rewrite N, F. cbn [bind]. destruct f; [reflexivity|]. unfold is_unspecified. rewrite I, (K0 k K). reflexivity.
Qed.
Lemma load_by_type : forall v i k, has_info d v i -> ~ parameter E v ->
  load_kind E k v = Ret (match i with ISubprogram _ _ => Some KFunction | ISubroutine _ _ => Some KSubroutine | _ => None end).
Proof.
  intros v i k H NP. unfold load_kind. destruct (by_type_total v) as (f & F & _).
  assert (f = Some i). { unfold final_info in F. destruct H as (e & FT & I). rewrite N, (final_if_type d n0 _ e _ A FT) in F. cbn [bind] in F. injection F as <-. rewrite I. reflexivity. }
  subst f. destruct (e_info (deref d (v_entry v))) eqn:Q; try (rewrite F; reflexivity). exfalso. apply NP. eexists. eexists. exact Q.
Qed.

(** the texts of the items *)
Lemma args_fun : forall k c es ts out, c <> KVariadic -> length es = length ts ->
  args_text E k c (combine es (map Some ts)) out = Ret (Some (fold_left add ts out)).
Proof.
  intros k c es ts out C. revert es out. induction ts as [|t ts IH]; intros [|e es] out L; try discriminate; [reflexivity|]. cbn [map combine args_text].
  destruct c; [congruence| |]; cbn [fmt Ascii.eqb Bool.eqb bind]; rewrite IH by (cbn in L; lia); cbn [fold_left]; unfold add, comma; rewrite !sapp_nil; reflexivity.
Qed.
Variable m : mem.
Hypothesis BM : bytes_ok m.
Hypothesis BG : bytes_ok (en_garbage E).
Hypothesis NT : forall r z c, e_info (d r) = IBase z c -> e_name (d r) <> None.
Notation ctext := (call_text E tagged deep float_text loads).
Notation shows := (shows E tagged deep float_text).

Lemma simple_text : forall anc v r, simple E v -> shows m anc v (SValue r) -> arg_readable r ->
  exists s k0, prints r s /\ forall k, (k0 <= k)%nat -> ctext k m anc v = Ret (Some s).
Proof.
  intros anc v r S H R. destruct (load_simple v S) as [k1 K1]. apply arg_readable_readable in R.
  destruct (proj1 (text_complete E tagged deep float_text n0 A N BG NT m BM) anc v _ H R) as (s & k0 & P & K0).
  exists s, (1 + (k0 + k1))%nat. split; [exact P|]. intros [|k] K; [lia|]. cbn [call_text]. rewrite (K1 k) by lia. cbn [bind]. apply K0. lia.
Qed.
Lemma typed_text : forall anc w r, shows_typed E tagged deep float_text m anc w r -> arg_readable r ->
  exists t u k0, prints r u /\ (forall k, (k0 <= k)%nat -> ctext k m anc w = Ret (Some t)) /\
    forall k q out, (k0 <= k)%nat -> args_text E k KVariadic ((v_entry w, Some t) :: q) out = args_text E k KVariadic q (add out u).
Proof.
  intros anc w r H R. assert (TT : forall ty, type_text E w ty -> exists k0 pat, (forall k, (k0 <= k)%nat -> entry_cdecl k d (Some (v_entry w)) = Ret (Some pat)) /\ exists x, fmt pat [Some ""] = Ret x /\ trim x = ty).
  { intros ty (a & b & [_ [k0 K0]] & PA & PB & T). exists k0, (a ++ "%s" ++ b). split; [exact K0|]. exists (a ++ b). split; [rewrite (fmt_hole a b) by assumption; reflexivity|apply trimmed_trim; exact T]. }
  destruct H as [l ty S SH T|r ty S SH NL T].
  - destruct (simple_text anc w _ S SH R) as (s & k0 & P & K0). destruct (TT ty T) as (k1 & pat & K1 & x & X & TX). exists s, s, (k0 + k1)%nat. split; [exact P|].
    split; [intros k K; apply K0; lia|]. intros k q out K. cbn [args_text]. rewrite (K1 k) by lia. cbn [bind]. rewrite X. cbn [bind].
    rewrite (proj2 (quote_text _ _ P I)) by (eexists; reflexivity). cbn [fmt Ascii.eqb Bool.eqb bind]. unfold add, comma. rewrite !sapp_nil. reflexivity.
  - destruct R as [B R]. destruct (simple_text anc w _ S SH R) as (s & k0 & P & K0). destruct (TT ty T) as (k1 & pat & K1 & x & X & TX).
    exists s, ("(" ++ ty ++ ")" ++ s), (k0 + k1)%nat. split; [constructor; exact P|]. split; [intros k K; apply K0; lia|]. intros k q out K. cbn [args_text]. rewrite (K1 k) by lia. cbn [bind]. rewrite X. cbn [bind].
    destruct (starts_with_quote s) eqn:Q; [exfalso; apply (quote_text _ _ P (arg_readable_readable _ R)) in Q; destruct Q as [l ->]; exact (NL l eq_refl)|].
    cbn [fmt Ascii.eqb Bool.eqb bind]. unfold add, comma. rewrite TX, !sapp_nil. reflexivity.
Qed.
Lemma typed_texts : forall anc l rs, Forall2 (shows_typed E tagged deep float_text m anc) l rs -> Forall arg_readable rs ->
  exists ts us k0, Forall2 prints rs us /\ (forall k, (k0 <= k)%nat -> collect (ctext k m anc) l = Ret (map Some ts)) /\
    forall k out, (k0 <= k)%nat -> args_text E k KVariadic (combine (map v_entry l) (map Some ts)) out = Ret (Some (fold_left add us out)).
Proof.
  intros anc l rs F R. induction F as [|w r l rs H F IH]; [exists [], [], 0%nat; repeat split; constructor|]. inversion R as [|? ? R1 R2]; subst.
  destruct (typed_text anc w r H R1) as (t & u & k0 & P & K0 & X0). destruct (IH R2) as (ts & us & k1 & PS & K1 & X1).
  exists (t :: ts), (u :: us), (k0 + k1)%nat. split; [constructor; assumption|]. split; [intros k K; cbn [collect map]; rewrite (K0 k), (K1 k) by lia; reflexivity|].
  intros k out K. cbn [map combine]. rewrite X0, X1 by lia. reflexivity.
Qed.
Lemma has_address : forall l, Forall (fun w : value => v_addr w <> 0) l -> existsb (fun w => (v_addr w =? 0)%Z) l = false.
Proof. intros l F. induction F as [|w l W F IH]; [reflexivity|]. cbn [existsb]. rewrite IH. lia. Qed.
Lemma map_aprints : forall rs us, Forall2 prints rs us -> Forall2 aprints (map AOne rs) us.
Proof. intros rs us F. induction F; constructor; auto. constructor. assumption. Qed.

Lemma arg_text : forall anc v args, shows_arg E tagged deep float_text loads m anc v args -> Forall argument_readable args ->
  exists ss k0, Forall2 aprints args ss /\ ss <> [] /\ forall k, (k0 <= k)%nat -> ctext k m anc v = Ret (Some (String.concat ", " ss)).
Proof.
  intros anc v args H R. destruct H as [r S SH|l rs EL [LD AD] NE F|l rs VA [LD AD] NE F].
  - inversion R as [|? ? R1 _]; subst. destruct (simple_text anc v r S SH R1) as (s & k0 & P & K0). exists [s], k0. split; [constructor; [constructor; exact P|constructor]|]. split; [discriminate|exact K0].
  - assert (R' : Forall arg_readable rs) by exact (proj1 (Forall_map AOne argument_readable rs) R).
    destruct (typed_texts _ _ _ F R') as (ts & us & k0 & P & K0 & X0). exists us, (S k0). split; [apply map_aprints; exact P|].
    assert (NU : us <> []) by (destruct F; [congruence|]; inversion P; discriminate). split; [exact NU|]. intros [|k] K; [lia|]. cbn [call_text].
    rewrite (load_ellipsis v k EL). cbn [bind]. rewrite LD, (has_address l AD), (K0 k) by lia. cbn [bind]. rewrite (X0 k) by lia. cbn [bind]. rewrite fold_none. destruct EL as [t I]. unfold call_end, is_va_list. rewrite I. cbn [bind].
    destruct us; [congruence|reflexivity].
  - inversion R as [|? ? R1 _]; subst. cbn [argument_readable] in R1. destruct (typed_texts _ _ _ F R1) as (ts & us & k0 & P & K0 & X0). destruct (va_is v VA) as [k1 K1]. destruct (load_va v VA) as [k2 K2].
    exists ["VA_LIST(" ++ String.concat ", " us ++ ")"], (S (k0 + k1 + k2)).
    assert (NR : rs <> []) by (destruct F; [congruence|discriminate]). split; [constructor; [apply ap_list; assumption|constructor]|]. split; [discriminate|]. intros [|k] K; [lia|]. cbn [call_text].
    rewrite (K2 k) by lia. cbn [bind]. rewrite (has_address _ AD), (K0 k) by lia. cbn [bind]. rewrite (X0 k) by lia. cbn [bind]. rewrite fold_none. unfold call_end. rewrite (K1 k) by lia. cbn [bind].
    destruct P; [congruence|]. cbn [join]. change "VA_LIST(%s)" with ("VA_LIST(" ++ "%s" ++ ")"). rewrite fmt_hole by (cbn; repeat split; discriminate). reflexivity.
Qed.
Lemma args_texts : forall anc l args, Forall2 (shows_arg E tagged deep float_text loads m anc) l args -> Forall argument_readable (concat args) ->
  exists sss k0, Forall2 aprints (concat args) (concat sss) /\ Forall (fun ss => ss <> []) sss /\ length sss = length l /\
    forall k, (k0 <= k)%nat -> collect (ctext k m anc) l = Ret (map Some (map (String.concat ", ") sss)).
Proof.
  intros anc l args F. induction F as [|v a l args H F IH]; intros R; [exists [], 0%nat; repeat split; constructor|]. cbn [concat] in R. apply Forall_app in R. destruct R as [R1 R2].
  destruct (arg_text anc v a H R1) as (ss & k0 & P & NE & K0). destruct (IH R2) as (sss & k1 & PS & NS & L & K1). exists (ss :: sss), (k0 + k1)%nat.
  split; [cbn [concat]; apply Forall2_app; assumption|]. split; [constructor; assumption|]. split; [cbn; congruence|]. intros k K. cbn [collect map]. rewrite (K0 k), (K1 k) by lia. reflexivity.
Qed.
Theorem call_complete : forall v c, shows_call E tagged deep float_text loads m v c -> call_readable c ->
  exists s k0, cprints c s /\ forall k, (k0 <= k)%nat -> ctext k m [] v = Ret (Some s).
Proof.
  intros v c H [R RN].
  assert (X : forall t ps nm l args (b : bool), has_info d v (if b then ISubprogram t ps else ISubroutine t ps) -> ~ parameter E v -> name_is E v (Some nm) -> items_of loads v l ->
    Forall2 (shows_arg E tagged deep float_text loads m [v]) l args -> Forall argument_readable (concat args) ->
    exists s k0, cprints (Call b nm (concat args)) s /\ forall k, (k0 <= k)%nat -> ctext k m [] v = Ret (Some s)).
  { clear R RN. intros t ps nm l args b I NP NM [LD AD] F R. destruct (args_texts _ _ _ F R) as (sss & k0 & P & NS & L & K0).
    exists (if b then nm ++ "(" ++ String.concat ", " (concat sss) ++ ")" else "(" ++ nm ++ ")(" ++ String.concat ", " (concat sss) ++ ")"), (S k0). split; [destruct b; constructor; exact P|].
    assert (O : opt_text (join (concat sss)) = String.concat ", " (concat sss)) by (destruct (concat sss); reflexivity).
    intros [|k] K; [lia|]. cbn [call_text]. rewrite (load_by_type v _ k I NP).
    destruct b; cbn [bind]; rewrite LD, (has_address l AD), (K0 k) by lia; cbn [bind]; rewrite args_fun by (try discriminate; rewrite !map_length; congruence); cbn [bind]; rewrite fold_none, join_parts by exact NS;
      unfold call_end; rewrite NM, O; cbn [fmt Ascii.eqb Bool.eqb bind String.append]; reflexivity. }
  destruct H as [t ps nm l args I NP NM IO F|t ps nm l args I NP NM IO F]; [apply (X t ps nm l args true)|apply (X t ps nm l args false)]; assumption.
Qed.
Lemma va_step : forall k p, approx (is_va_list k d p) (is_va_list (S k) d p).
Proof.
  intros k p. unfold is_va_list. destruct (e_info (deref d p)) as [ | | | | | | | | | |[|] t| | | ]; try apply approx_refl. apply approx_bind; [apply entry_cdecl_step|intros; apply approx_refl].
Qed.
Lemma load_step : forall k v, approx (load_kind E k v) (load_kind E (S k) v).
Proof.
  intros k v. unfold load_kind. destruct (e_info (deref d (v_entry v))); try apply approx_refl. apply approx_bind; [|intros; apply approx_refl].
  unfold has_parameter_load. apply approx_bind; [apply approx_refl|]. intros [e|]; [apply approx_refl|]. destruct (is_unspecified d (v_entry v)); [apply approx_refl|apply va_step].
Qed.
Lemma call_text_step : forall k anc v, approx (ctext k m anc v) (ctext (S k) m anc v).
Proof.
  assert (AS : forall c k l out, approx (args_text E k c l out) (args_text E (S k) c l out)).
  { intros c k. induction l as [|[e [t|]] l IH]; intros out; try apply approx_refl. cbn [args_text]. destruct c.
    - apply approx_bind; [apply entry_cdecl_step|]. intros [pat|]; [|apply approx_refl]. apply approx_bind; [apply approx_refl|]. intros ty. apply approx_bind; [apply approx_refl|]. intros x. apply IH.
    - apply approx_bind; [apply approx_refl|]. intros x. apply IH.
    - apply approx_bind; [apply approx_refl|]. intros x. apply IH. }
  induction k as [|k IH]; intros anc v; [left; reflexivity|]. cbn [call_text]. remember (S k) as k' eqn:K. cbn [call_text]. subst k'.
  apply approx_bind; [apply load_step|]. intros [c|]; [|apply text_step]. destruct (existsb _ _); [apply approx_refl|]. apply approx_bind; [apply approx_collect; intros; apply IH|].
  intros rs. apply approx_bind; [apply AS|]. intros [out|]; [|apply approx_refl]. unfold call_end. destruct c; [apply approx_bind; [apply va_step|intros; apply approx_refl]|apply approx_refl|apply approx_refl].
Qed.
Lemma call_returns : forall anc v k0 a, (forall k, (k0 <= k)%nat -> ctext k m anc v = Ret a) -> CdeclSpec.returns (fun k => ctext k m anc v) a.
Proof. intros anc v k0 a H. apply (approx_returns _ _ k0); [intros; apply call_text_step|exact H]. Qed.
End Call.

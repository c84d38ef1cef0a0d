(** Property theorems about the texts of function calls (C57). *)
From Coq Require Import ZArith String Ascii List Bool Lia.
From Verif Require Import Base BaseProof EntryModel EntrySpec EntryProof ValueModel ValueSpec ValueProof2 DeepModel DeepSpec DeepProof4 DeepProof6 DeepProps CdeclModel HandlerModel TextModel TextSpec TextProof2 TextProof4 TextProps CallModel CallSpec CallProof CallProof4.
From Verif Require CdeclSpec.
Import ListNotations.
Open Scope Z_scope.
Local Open Scope string_scope.

(** C57. The captured call [c] has a text, and whoever reads the text as a call of a C function gets the name of the function
    and all the arguments in order, those behind an ellipsis and in a va_list with their types. *)
Theorem C57_reads_back : forall E tagged deep ft loads n0 m v c, readable_db E n0 -> bytes_ok m -> shows_call E tagged deep ft loads m v c -> call_readable c ->
  exists s, says_call s c /\ CdeclSpec.returns (fun k => call_string E tagged deep ft loads k m (Some v)) (Some s).
Proof. exact call_reads_back. Qed.
Print Assumptions C57_reads_back.
(** C57. A text that is returned is the text of what was captured. *)
Theorem C57_sound : forall E tagged deep ft loads n0 m v k s, printable_db E ft n0 -> bytes_ok m -> call_ok E tagged deep loads m v ->
  call_string E tagged deep ft loads k m (Some v) = Ret (Some s) -> exists c, shows_call E tagged deep ft loads m v c /\ (call_readable c -> says_call s c).
Proof. exact call_string_sound. Qed.
Print Assumptions C57_sound.
(** C57. Equal texts, equal calls. *)
Theorem C57_injective : forall E E' tagged tagged' deep deep' ft ft' loads loads' n0 n0' m m' v v' c c' k k' s,
  readable_db E n0 -> readable_db E' n0' -> bytes_ok m -> bytes_ok m' ->
  shows_call E tagged deep ft loads m v c -> call_readable c -> shows_call E' tagged' deep' ft' loads' m' v' c' -> call_readable c' ->
  call_string E tagged deep ft loads k m (Some v) = Ret (Some s) -> call_string E' tagged' deep' ft' loads' k' m' (Some v') = Ret (Some s) -> c = c'.
Proof. exact call_injective. Qed.
Print Assumptions C57_injective.
Theorem C57_says_one : forall s c c', says_call s c -> says_call s c' -> c = c'.
Proof. exact says_call_fun. Qed.
Print Assumptions C57_says_one.
Theorem C57_shows_one : forall E tagged deep ft loads n0 m v c c', readable_db E n0 -> bytes_ok m -> shows_call E tagged deep ft loads m v c -> call_readable c ->
  shows_call E tagged deep ft loads m v c' -> call_readable c' -> c = c'.
Proof. exact shows_call_fun. Qed.
Print Assumptions C57_shows_one.
(** C57. A well-formed call has a result, a text or NULL. *)
Theorem C57_returns : forall E tagged deep ft loads n0 n1 m v, printable_db E ft n0 -> finite_types (en_db E) n0 -> finite_texts (en_db E) n1 -> tame E -> bytes_ok m ->
  call_ok E tagged deep loads m v -> calm_call E tagged deep loads m v -> exists o, CdeclSpec.returns (fun k => call_string E tagged deep ft loads k m (Some v)) o.
Proof. exact call_string_result. Qed.
Print Assumptions C57_returns.
(** C57. No text for a call without arguments for its ellipsis, nor for one with an argument that was not captured. *)
Theorem C57_empty_ellipsis_null : forall E tagged deep ft loads n0 m v w k s, readable_db E n0 -> function_value E v -> In w (loads (v_addr v)) -> ellipsis E w -> loads (v_addr w) = [] ->
  call_string E tagged deep ft loads k m (Some v) <> Ret (Some s).
Proof. exact empty_ellipsis. Qed.
Print Assumptions C57_empty_ellipsis_null.
Theorem C57_lost_argument_null : forall E tagged deep ft loads n0 m v w k s, readable_db E n0 -> function_value E v -> In w (loads (v_addr v)) -> v_addr w = 0 ->
  call_string E tagged deep ft loads k m (Some v) <> Ret (Some s).
Proof. exact no_address. Qed.
Print Assumptions C57_lost_argument_null.
(** C57. Values that are not calls have the texts of C51-C53. *)
Theorem C57_other_values : forall E tagged deep ft loads n0 m v o, readable_db E n0 -> simple E v ->
  CdeclSpec.returns (fun k => value_string_ex E tagged deep ft k m (Some v)) o -> CdeclSpec.returns (fun k => call_string E tagged deep ft loads k m (Some v)) o.
Proof. exact simple_same. Qed.
Print Assumptions C57_other_values.

(** * Examples *)
(** 2 int log(int n, ...); 8 int vlog(int n, va_list ap); 9 a variable hook of a function type int (int) *)
Definition dbc : db := fun r =>
  match r with
  | 0%nat => ent "int" (IBase 4 6)
  | 1%nat => ent "char" (IBase 1 7)
  | 2%nat => ent "log" (ISubprogram (Some 0%nat) [3; 4]%nat)
  | 3%nat => ent "n" (IParam false (Some 0%nat))
  | 4%nat => Build_entry None false (IParam true None)
  | 5%nat => Build_entry None false (IArray (Some 1%nat) 3)
  | 6%nat => ent "va_list" (ITypedef None)
  | 7%nat => ent "ap" (IParam false (Some 6%nat))
  | 8%nat => ent "vlog" (ISubprogram (Some 0%nat) [3; 7]%nat)
  | 9%nat => ent "hook" (IVariable (Some 10%nat))
  | 10%nat => Build_entry None false (ISubroutine (Some 0%nat) [11%nat])
  | 11%nat => Build_entry None false (IParam false (Some 0%nat))
  | _ => Build_entry None false (IOther 0)
  end.
Definition Ec : env := Build_env 10 dbc (fun _ => 0) 1%nat no_handler (fun _ => false) (fun _ => []) (fun _ => 0).
Definition args : mem := words [(1000, 0x0000000700000005); (1008, 0x0000000000006968)].
(** the storages: log(5, 7, "hi"), vlog(5, the list 7, 5), hook(5), log(5) and vlog(5, an empty list) *)
Definition stores (a : Z) : list value :=
  (if a =? 100 then [at_ 3%nat 1000; at_ 4%nat 200] else if a =? 200 then [at_ 0%nat 1004; at_ 5%nat 1008] else
   if a =? 300 then [at_ 3%nat 1000; at_ 7%nat 400] else if a =? 400 then [at_ 0%nat 1004; at_ 0%nat 1000] else
   if a =? 500 then [at_ 11%nat 1000] else if a =? 600 then [at_ 3%nat 1000; at_ 4%nat 700] else if a =? 800 then [at_ 3%nat 1000; at_ 7%nat 700] else [])%Z.
Definition ctext (v : value) := call_string Ec false true no_float stores 12 args (Some v).
Example call_texts : ctext (at_ 2%nat 100) = Ret (Some "log(5, (int)7, ""hi"")") /\ ctext (at_ 8%nat 300) = Ret (Some "vlog(5, VA_LIST((int)7, (int)5))") /\
  ctext (at_ 9%nat 500) = Ret (Some "(hook)(5)").
Proof. vm_compute. auto. Qed.

Lemma dbc_finite : finite_types dbc 7.
Proof.
  exists (fun r => match r with 3 | 5 | 7 | 11 | 9 => 2 | _ => 0 end)%nat. split.
  - intro r. do 12 (destruct r as [|r]; [cbn; lia|]). cbn. lia.
  - intros r t [H|[k [z [l [A B]]]]].
    + destruct H as [[q H]|[[c H]|H]]; (do 12 (destruct r as [|r]; [cbn in H; inversion H; subst; cbn; try lia; fail|])); cbn in H; inversion H.
    + do 12 (destruct r as [|r]; [cbn in A; discriminate|]). cbn in A. discriminate.
Qed.
Lemma dbc_texts : finite_texts dbc 3.
Proof.
  exists (fun r => match r with 2 | 5 | 8 | 10 => 1 | 9 => 2 | _ => 0 end)%nat. split.
  - intro r. do 12 (destruct r as [|r]; [cbn; lia|]). cbn. lia.
  - intros r t H. do 12 (destruct r as [|r]; [inversion H as [t0 Q|t0 c Q|q t0 Q|t0 Q|k z l r0 mi0 t0 QN Q QI QM QT|t0 l Q|t0 l r0 t1 Q QI QM]; try (destruct Q as [Q|Q]); cbn in *; inversion Q; subst; cbn; try lia; try discriminate;
      cbn in QI; decompose [or] QI; subst; try contradiction; cbn in QM; inversion QM; subst; cbn; lia|]).
    inversion H as [t0 Q|t0 c Q|q t0 Q|t0 Q|k z l r0 mi0 t0 QN Q QI QM QT|t0 l Q|t0 l r0 t1 Q QI QM]; try (destruct Q as [Q|Q]); cbn in Q; discriminate.
Qed.
Lemma Ec_printable : printable_db Ec no_float 7.
Proof.
  split; [split; [apply finite_acyclic, dbc_finite|reflexivity|intro a; cbn; lia|]| | |].
  - intros r z c H. do 12 (destruct r as [|r]; [cbn in H; try discriminate; cbn; discriminate|]). cbn in H. discriminate.
  - intro r. do 12 (destruct r as [|r]; [split; [intros nm H; cbn in H; first [discriminate | injection H as <-; repeat constructor; discriminate] | intros s l nm v H; cbn in H; discriminate]|]).
    split; [discriminate|intros s l nm v H; cbn in H; discriminate].
  - discriminate.
  - intros. eexists. reflexivity.
Qed.
Lemma Ec_tame : tame Ec.
Proof. split; [discriminate|]. split; intros; discriminate. Qed.
Lemma args_ok : bytes_ok args.
Proof. unfold args, words. repeat apply store_bytes_ok. intro a. lia. Qed.
Lemma int_info : forall r a, In r [0; 3; 11]%nat -> has_info dbc (at_ r a) (IBase 4 6).
Proof. intros r a H. cbn in H. decompose [or] H; subst; try contradiction; known. Qed.
Lemma int_shows : forall r a x anc, In r [0; 3; 11]%nat -> x = as_signed 32 (number_at args a 4) -> shows Ec false true no_float args anc (at_ r a) (SValue (RNum x)).
Proof.
  intros r a x anc H ->. apply sh_scalar. eapply (sc_integer _ _ _ _ _ _ _ CInt); [|cbn; tauto|discriminate|discriminate|exists "int", [6], 4, true; cbn; auto 8].
  apply ob_plain.
  - exists "int", [6], 4, true, 6. split; [cbn; tauto|]. split; [left; reflexivity|]. exists (St 0%nat), 4, 6. cbn in H. decompose [or] H; subst; try contradiction; (split; [resolve|cbn; auto]).
  - intros mi0 I. cbn in H. decompose [or] H; subst; try contradiction; cbn in I; inversion I.
Qed.
Lemma no_fun : forall v i t l, has_info dbc v i -> (forall t l, i <> ISubprogram t l /\ i <> ISubroutine t l) -> ~ has_info dbc v (ISubprogram t l) /\ ~ has_info dbc v (ISubroutine t l).
Proof. intros v i t l I NI. split; intros H; pose proof (has_info_fun Ec _ _ _ I H); [apply (proj1 (NI t l))|apply (proj2 (NI t l))]; assumption. Qed.
Lemma simple_item : forall r a, In r [0; 3; 5; 11]%nat -> simple Ec (at_ r a).
Proof.
  intros r a H. split.
  - intros t l. cbn in H. decompose [or] H; subst; try contradiction; (eapply no_fun; [known|split; discriminate]).
  - cbn in H. decompose [or] H; subst; try contradiction; try exact I; cbn; (exists (Some "int %s"); split; [apply (cdecl_returns 5 dbc (Some (St 0%nat))); vm_compute; reflexivity|]; intros s [= <-] [X|X]; discriminate).
Qed.
Lemma int_type : forall a, type_text Ec (at_ 0%nat a) "int".
Proof.
  intros a. exists "int ", "". split; [apply (cdecl_returns 5); vm_compute; reflexivity|]. split; [repeat split; discriminate|]. split; [exact I|]. split.
  - intros [x X]. do 3 (destruct x as [|? x]; [discriminate|]; injection X as ? X; subst). destruct x; discriminate.
  - exists " ". split; [constructor; constructor|reflexivity].
Qed.
Lemma stored : forall a l, stores a = l -> Forall (fun w => v_addr w <> 0) l -> forall r, items_of stores (at_ r a) l.
Proof. intros a l H F r. split; assumption. Qed.
Lemma is_va : forall a, va_list Ec (at_ 7%nat a).
Proof. intros a. exists (Some 6%nat), "va_list %s". split; [reflexivity|]. split; [left; reflexivity|]. apply (cdecl_returns 5). vm_compute. reflexivity. Qed.
Lemma not_parameter : forall r a, In r [2; 8; 9]%nat -> ~ parameter Ec (at_ r a).
Proof. intros r a H (u & t & P). cbn in H. decompose [or] H; subst; try contradiction; discriminate. Qed.
Ltac addresses := repeat (constructor; [discriminate|]); constructor.
Ltac int_arg := apply sa_value; [apply simple_item; cbn; tauto|apply int_shows; [cbn; tauto|reflexivity]].
Ltac int_typed := eapply ty_other; [apply simple_item; cbn; tauto|apply int_shows; [cbn; tauto|reflexivity]|discriminate|apply int_type].
Definition log_call : call := Call true "log" [AOne (RNum 5); AOne (RCast "int" (RNum 7)); AOne (RText [104; 105])].
Definition vlog_call : call := Call true "vlog" [AOne (RNum 5); AList [RCast "int" (RNum 7); RCast "int" (RNum 5)]].
Definition hook_call : call := Call false "hook" [AOne (RNum 5)].
Example C57_example : readable_db Ec 7 /\ bytes_ok args /\
  shows_call Ec false true no_float stores args (at_ 2%nat 100) log_call /\ call_readable log_call /\ says_call "log(5, (int)7, ""hi"")" log_call /\
  shows_call Ec false true no_float stores args (at_ 8%nat 300) vlog_call /\ call_readable vlog_call /\ says_call "vlog(5, VA_LIST((int)7, (int)5))" vlog_call /\
  shows_call Ec false true no_float stores args (at_ 9%nat 500) hook_call /\ call_readable hook_call /\ says_call "(hook)(5)" hook_call.
Proof.
  split; [apply Ec_printable|]. split; [exact args_ok|].
  split.
  { eapply (sc_function _ _ _ _ _ _ _ _ _ "log" [at_ 3%nat 1000; at_ 4%nat 200] [[AOne (RNum 5)]; map AOne [RCast "int" (RNum 7); RText [104; 105]]]);
      [known|apply not_parameter; cbn; tauto|reflexivity|apply stored; [reflexivity|addresses]|].
    constructor; [int_arg|]. constructor; [|constructor]. eapply (sa_dots _ _ _ _ _ _ _ _ [at_ 0%nat 1004; at_ 5%nat 1008]); [eexists; reflexivity|apply stored; [reflexivity|addresses]|discriminate|].
    constructor; [int_typed|]. constructor; [|constructor]. apply (ty_string _ _ _ _ _ _ _ _ "char [3]"); [apply simple_item; cbn; tauto| |].
    - eapply (sh_text _ _ _ _ _ _ _ (at_ 5%nat 1008)); [eapply ar_known; [known|discriminate]|].
      exists 3. split; [|split; [discriminate|split; [|split; [reflexivity|split; [reflexivity|]]]]].
      + exists 1%nat, (St 1%nat), 1, 7. split; [known|]. split; [resolve|auto].
      + repeat constructor; cbn; unfold EscapeSpec.presentable; cbn; lia.
      + intros i Hi. cbn in Hi. do 3 (destruct i as [|i]; [vm_compute; reflexivity|]). lia.
    - exists "char ", "[3]". split; [apply (cdecl_returns 5); vm_compute; reflexivity|]. split; [repeat split; discriminate|]. split; [repeat split; discriminate|]. split.
      + intros [x X]. do 7 (destruct x as [|? x]; [discriminate|]; injection X as ? X; subst). destruct x as [|? x]; [discriminate|]. destruct x; discriminate.
      + exists "". split; [constructor|reflexivity]. }
  split; [split; [cbn; repeat (constructor; [cbn; tauto|]); constructor|cbn; repeat split; discriminate]|]. split; [exists 20%nat; vm_compute; reflexivity|].
  split.
  { eapply (sc_function _ _ _ _ _ _ _ _ _ "vlog" [at_ 3%nat 1000; at_ 7%nat 400] [[AOne (RNum 5)]; [AList [RCast "int" (RNum 7); RCast "int" (RNum 5)]]]);
      [known|apply not_parameter; cbn; tauto|reflexivity|apply stored; [reflexivity|addresses]|].
    constructor; [int_arg|]. constructor; [|constructor]. eapply (sa_list _ _ _ _ _ _ _ _ [at_ 0%nat 1004; at_ 0%nat 1000]); [apply is_va|apply stored; [reflexivity|addresses]|discriminate|].
    repeat (constructor; [int_typed|]). constructor. }
  split; [split; [cbn; repeat (constructor; [cbn; repeat constructor; tauto|]); constructor|cbn; repeat split; discriminate]|]. split; [exists 20%nat; vm_compute; reflexivity|].
  split.
  { eapply (sc_pointer _ _ _ _ _ _ _ _ _ "hook" [at_ 11%nat 1000] [[AOne (RNum 5)]]); [known|apply not_parameter; cbn; tauto|reflexivity|apply stored; [reflexivity|addresses]|].
    constructor; [int_arg|constructor]. }
  split; [split; [cbn; repeat (constructor; [cbn; tauto|]); constructor|cbn; tauto]|]. exists 20%nat. vm_compute. reflexivity.
Qed.
(** well-formed calls *)
Lemma int_met : forall r a anc b w, In r [0; 3]%nat -> met_from Ec false true args anc (at_ r a) b w -> b = anc /\ w = at_ r a.
Proof.
  intros r a anc b w H M. assert (J : has_info dbc (at_ r a) (IBase 4 6)) by (apply int_info; cbn in *; tauto).
  induction M as [|anc' x ch y M IH P I|anc' x v' ch y M IH P EL I|anc' x v' M IH F]; [auto| | |]; destruct IH as [-> ->]; exfalso.
  - destruct P as [z l ch I'|z l v' I'|z l I']; pose proof (has_info_fun Ec _ _ _ J I'); discriminate.
  - destruct P as [t c I'|t c v' I'|t c I']; pose proof (has_info_fun Ec _ _ _ J I'); discriminate.
  - destruct F as [t p w0 [I' _]|t p [I' _]]; pose proof (has_info_fun Ec _ _ _ J I'); discriminate.
Qed.
Lemma int_argument : forall r a anc, In r [0; 3]%nat -> argument_ok Ec false true args anc (at_ r a) /\ calm_from Ec false true args anc (at_ r a).
Proof.
  intros r a anc H. assert (J : has_info dbc (at_ r a) (IBase 4 6)) by (apply int_info; cbn in *; tauto).
  assert (NM : forall mi0, e_info (deref dbc (v_entry (at_ r a))) <> IMember mi0) by (intros mi0 X; cbn in H; decompose [or] H; subst; try contradiction; discriminate).
  assert (B : forall e z c, final_type dbc (Some (v_entry (at_ r a))) (Some e) -> e_info (deref dbc e) = IBase z c -> e = St 0%nat).
  { intros e z c F I. assert (X : Some e = Some (St 0%nat)); [|injection X as ->; reflexivity]. cbn in H. decompose [or] H; subst; try contradiction; (eapply final_type_fun; [exact F|resolve]). }
  split.
  - split; [apply simple_item; cbn in *; tauto|]. split; [|split].
    + intros b w M. destruct (int_met _ _ _ _ _ H M) as [-> ->]. split.
      * intros c mi0 _ I. destruct (NM _ I).
      * intros z l I. pose proof (has_info_fun Ec _ _ _ J I). discriminate.
      * intros ch y P. destruct P as [z l ch I'|z l v' I'|z l I']; pose proof (has_info_fun Ec _ _ _ J I'); discriminate.
      * intros a' P. destruct P as [t c I'|t c v' I'|t c I']; pose proof (has_info_fun Ec _ _ _ J I'); discriminate.
      * intros a' F. destruct F as [t p w0 [I' _]|t p [I' _]]; pose proof (has_info_fun Ec _ _ _ J I'); discriminate.
    + intros [_ [mi0 I]]. exact (NM _ I).
    + intros (t & c & I & _). pose proof (has_info_fun Ec _ _ _ J I). discriminate.
  - intros b w M. destruct (int_met _ _ _ _ _ H M) as [-> ->]. split.
    + intros e z c F I. rewrite (B _ _ _ F I). discriminate.
    + intros x X. exfalso. assert (Y : has_ctype dbc (at_ r a) CBool) by (destruct X; assumption). destruct Y as (nm & encs & z0 & sg & enc & IN & IE & (e & z & c & F & BN & Q & _)).
      cbn in IN. decompose [or] IN; try discriminate; [|contradiction]. match goal with H : _ = _ |- _ => injection H as <- <- <- <- end.
      rewrite (B _ _ _ F Q) in BN. discriminate.
    + intros t l. apply (no_fun _ _ t l J). split; discriminate.
    + intros t X. cbn in H. decompose [or] H; subst; try contradiction; discriminate.
Qed.
Lemma int_typed_ok : forall a anc, typed_ok Ec false true args anc (at_ 0%nat a).
Proof. intros a anc. split; [apply int_argument; cbn; tauto|]. split; [apply Ec_printable|]. eexists. eapply CdeclSpec.it_base; reflexivity. Qed.
Example C57_returns_example : printable_db Ec no_float 7 /\ finite_types (en_db Ec) 7 /\ finite_texts (en_db Ec) 3 /\ tame Ec /\ bytes_ok args /\
  call_ok Ec false true stores args (at_ 8%nat 300) /\ calm_call Ec false true stores args (at_ 8%nat 300) /\ ctext (at_ 8%nat 300) = Ret (Some "vlog(5, VA_LIST((int)7, (int)5))").
Proof.
  split; [exact Ec_printable|]. split; [exact dbc_finite|]. split; [exact dbc_texts|]. split; [exact Ec_tame|]. split; [exact args_ok|].
  assert (NV : ~ va_list Ec (at_ 3%nat 1000)).
  { intros (t & s & I & V & [_ [k0 K0]]). cbn in I. injection I as <-. specialize (K0 (5 + k0)%nat ltac:(lia)). cbn in K0. injection K0 as <-. destruct V as [V|V]; discriminate. }
  assert (NE : ~ ellipsis Ec (at_ 3%nat 1000) /\ ~ ellipsis Ec (at_ 7%nat 400)) by (split; intros [t I]; discriminate).
  split; [|split; [|vm_compute; reflexivity]].
  - split; [split; [eexists; eexists; left; known|apply not_parameter; cbn; tauto]|]. constructor; [left; apply int_argument; cbn; tauto|]. constructor; [|constructor].
    right. split; [right; apply is_va|]. cbn. repeat (constructor; [apply int_typed_ok|]). constructor.
  - split; [eexists; reflexivity|]. constructor; [|constructor; [|constructor]].
    + split; [intros _; apply int_argument; cbn; tauto|]. split; [intros V; contradiction|]. intros [X|X]; [destruct (proj1 NE X)|contradiction].
    + split; [|split; [discriminate|]].
      * intros [_ S]. destruct S as (o & [_ [k0 K0]] & NV'). specialize (K0 (5 + k0)%nat ltac:(lia)). cbn in K0. injection K0 as <-. destruct (NV' _ eq_refl). left. reflexivity.
      * intros _. repeat (constructor; [apply int_argument; cbn; tauto|]). constructor.
Qed.
Example C57_empty_example : readable_db Ec 7 /\ function_value Ec (at_ 2%nat 600) /\ In (at_ 4%nat 700) (stores 600) /\ ellipsis Ec (at_ 4%nat 700) /\ stores 700 = [] /\ ctext (at_ 2%nat 600) = Ret None.
Proof.
  split; [apply Ec_printable|]. split; [split; [eexists; eexists; left; known|apply not_parameter; cbn; tauto]|]. split; [right; left; reflexivity|]. split; [eexists; reflexivity|]. split; [reflexivity|]. vm_compute. reflexivity.
Qed.
Example C57_other_example : simple Ec (at_ 0%nat 1000) /\ CdeclSpec.returns (fun k => value_string_ex Ec false true no_float k args (Some (at_ 0%nat 1000))) (Some "5").
Proof.
  split; [apply simple_item; cbn; tauto|]. apply (text_returns _ _ _ _ _ _ _ 1). intros [|k] K; [lia|]. reflexivity.
Qed.
(** Not every well-formed call has a text: calls without variadic arguments have none. *)
Theorem C57_every_call_refuted : exists E loads n0 m v, printable_db E no_float n0 /\ bytes_ok m /\ call_ok E false true loads m v /\ calm_call E false true loads m v /\
  CdeclSpec.returns (fun k => call_string E false true no_float loads k m (Some v)) None.
Proof.
  exists Ec, stores, 7%nat, args, (at_ 2%nat 600). split; [exact Ec_printable|]. split; [exact args_ok|].
  assert (OK : call_ok Ec false true stores args (at_ 2%nat 600)).
  { split; [split; [eexists; eexists; left; known|apply not_parameter; cbn; tauto]|]. constructor; [left; apply int_argument; cbn; tauto|]. constructor; [|constructor].
    right. split; [left; eexists; reflexivity|]. cbn. constructor. }
  assert (CA : calm_call Ec false true stores args (at_ 2%nat 600)).
  { split; [eexists; reflexivity|]. constructor; [|constructor; [|constructor]].
    - split; [intros _; apply int_argument; cbn; tauto|]. split.
      + intros (t & s & I & V & [_ [k0 K0]]). cbn in I. injection I as <-. specialize (K0 (5 + k0)%nat ltac:(lia)). cbn in K0. injection K0 as <-. destruct V as [V|V]; discriminate.
      + intros [[t X]|(t & s & I & V & [_ [k0 K0]])]; [discriminate|]. cbn in I. injection I as <-. specialize (K0 (5 + k0)%nat ltac:(lia)). cbn in K0. injection K0 as <-. destruct V as [V|V]; discriminate.
    - split; [intros [_ []]|]. split; [|intros _; constructor]. intros (t & s & I & _). discriminate. }
  split; [exact OK|]. split; [exact CA|].
  destruct (C57_returns Ec false true no_float stores 7 3 args _ Ec_printable dbc_finite dbc_texts Ec_tame args_ok OK CA) as [[s|] R]; [|exact R].
  exfalso. destruct R as [_ [k K]]. refine (C57_empty_ellipsis_null Ec false true no_float stores 7 args (at_ 2%nat 600) (at_ 4%nat 700) k s _ _ _ _ _ (K k (le_n _))); [apply Ec_printable|apply OK|right; left; reflexivity|eexists; reflexivity|reflexivity].
Qed.
Print Assumptions C57_every_call_refuted.
(** A va_list without arguments: NULL is printed with percent s. *)
Theorem C57_empty_va_list_refuted : exists E loads n0 m v, printable_db E no_float n0 /\ bytes_ok m /\ call_ok E false true loads m v /\
  call_string E false true no_float loads 12 m (Some v) = Ub.
Proof.
  exists Ec, stores, 7%nat, args, (at_ 8%nat 800). split; [exact Ec_printable|]. split; [exact args_ok|]. split; [|vm_compute; reflexivity].
  split; [split; [eexists; eexists; left; known|apply not_parameter; cbn; tauto]|]. constructor; [left; apply int_argument; cbn; tauto|]. constructor; [|constructor].
  right. split; [right; apply is_va|]. cbn. constructor.
Qed.
Print Assumptions C57_empty_va_list_refuted.
(** Behind an ellipsis, a value whose declaration has no text (here a parameter) after another one: the text made so far is
    released twice. *)
Theorem C57_untyped_argument_refuted : exists E loads n0 m v, printable_db E no_float n0 /\ bytes_ok m /\ function_value E v /\
  Forall (fun w => simple E w \/ ellipsis E w /\ Forall (argument_ok E false true m [w; v]) (loads (v_addr w))) (loads (v_addr v)) /\
  call_string E false true no_float loads 12 m (Some v) = Ub.
Proof.
  exists Ec, (fun a => if (a =? 900)%Z then [at_ 4%nat 910] else if (a =? 910)%Z then [at_ 0%nat 1004; at_ 3%nat 1000] else []), 7%nat, args, (at_ 2%nat 900).
  split; [exact Ec_printable|]. split; [exact args_ok|]. split; [split; [eexists; eexists; left; known|apply not_parameter; cbn; tauto]|]. split; [|vm_compute; reflexivity].
  constructor; [|constructor]. right. split; [eexists; reflexivity|]. cbn. constructor; [apply int_argument; cbn; tauto|]. constructor; [apply int_argument; cbn; tauto|constructor].
Qed.
Print Assumptions C57_untyped_argument_refuted.

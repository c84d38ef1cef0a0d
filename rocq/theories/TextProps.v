(** Property theorems about the texts of values (C51-C53, and the text of enumerations for C23). *)
From Coq Require Import ZArith String Ascii List Bool Lia.
From Verif Require Import Base BaseProof EntryModel EntrySpec EntryProof ValueModel ValueSpec ValueProof2 DeepModel DeepSpec DeepProof4 DeepProof6 DeepProps EscapeSpec CdeclModel TextModel TextSpec TextProof TextProof2 TextProof3 TextProof4 TextProof5 TextProof6 TextProof7 TextProof8.
From Verif Require CdeclSpec.
Import ListNotations.
Open Scope Z_scope.
Local Open Scope string_scope.

(** C51. A value that shows [r] (TextSpec), where [r] consists of things that can be written without ambiguity: its text is
    returned, and whoever reads the text as a C initializer, knowing nothing about the value, gets [r]. *)
Theorem C51_reads_back : forall E tagged deep float_text n0 m v r, readable_db E n0 -> bytes_ok m ->
  shows E tagged deep float_text m [] v (SValue r) -> readable r ->
  exists s, says s r /\ CdeclSpec.returns (fun k => value_string_ex E tagged deep float_text k m (Some v)) (Some s).
Proof. exact reads_back. Qed.
Print Assumptions C51_reads_back.
(** C51. A text that is returned is the text of what the value shows. *)
Theorem C51_sound : forall E tagged deep float_text n0 m v k s, printable_db E float_text n0 -> bytes_ok m ->
  (forall anc w, met E tagged deep m v anc w -> proper E tagged deep m anc w) ->
  value_string_ex E tagged deep float_text k m (Some v) = Ret (Some s) ->
  exists sh, shows E tagged deep float_text m [] v sh /\
    match sh with
    | SNothing => s = ""
    | SFields l => readable (braces l) -> says ("{" ++ s ++ "}") (braces l)
    | SValue r => readable r -> says s r
    end.
Proof. exact string_sound. Qed.
Print Assumptions C51_sound.

(** C52. Equal texts, equal contents: whatever the databases, memories and modes. *)
Theorem C52_injective : forall E E' tagged tagged' deep deep' ft ft' n0 n0' m m' v v' r r' k k' s,
  readable_db E n0 -> readable_db E' n0' -> bytes_ok m -> bytes_ok m' ->
  shows E tagged deep ft m [] v (SValue r) -> readable r -> shows E' tagged' deep' ft' m' [] v' (SValue r') -> readable r' ->
  value_string_ex E tagged deep ft k m (Some v) = Ret (Some s) -> value_string_ex E' tagged' deep' ft' k' m' (Some v') = Ret (Some s) -> r = r'.
Proof. exact string_injective. Qed.
Print Assumptions C52_injective.
(** C52. A value shows one thing, a text says one thing. *)
Theorem C52_shows_one : forall E tagged deep ft n0 m v r r', readable_db E n0 -> bytes_ok m ->
  shows E tagged deep ft m [] v (SValue r) -> readable r -> shows E tagged deep ft m [] v (SValue r') -> readable r' -> r = r'.
Proof. exact shows_fun. Qed.
Print Assumptions C52_shows_one.
Theorem C52_says_one : forall s r r', says s r -> says s r' -> r = r'.
Proof. exact says_fun. Qed.
Print Assumptions C52_says_one.

(** C53. One bound on the number of nested steps serves all values and memories; cyclic data included. *)
Theorem C53_terminates : forall E tagged deep float_text n0 n1, finite_types (en_db E) n0 -> en_fuel E = (n0 + 3)%nat ->
  finite_texts (en_db E) n1 -> tame E ->
  exists k0, forall k, (k0 <= k)%nat -> forall m v, bytes_ok m -> value_string_ex E tagged deep float_text k m v <> OutOfFuel.
Proof. exact text_terminates. Qed.
Print Assumptions C53_terminates.
(** C53. On well-formed data there is a result, a text or NULL. *)
Theorem C53_returns : forall E tagged deep ft n0 n1 m v, printable_db E ft n0 -> finite_types (en_db E) n0 -> finite_texts (en_db E) n1 -> tame E -> bytes_ok m ->
  (forall anc w, met E tagged deep m v anc w -> proper E tagged deep m anc w /\ calm E m w) ->
  exists o, CdeclSpec.returns (fun k => value_string_ex E tagged deep ft k m (Some v)) o.
Proof. exact string_returns. Qed.
Print Assumptions C53_returns.
(** C53. In deep mode a pointer that leads to where a pointer on the way to it already leads: NULL. *)
Theorem C53_cycle_null : forall E tagged ft n0 n1 m v anc w t p a t', printable_db E ft n0 -> finite_types (en_db E) n0 -> finite_texts (en_db E) n1 -> tame E -> bytes_ok m ->
  (forall anc w, met E tagged true m v anc w -> proper E tagged true m anc w /\ calm E m w) ->
  met E tagged true m v anc w -> points (en_db E) m w t p -> p <> 0 -> In a anc -> points (en_db E) m a t' p ->
  CdeclSpec.returns (fun k => value_string_ex E tagged true ft k m (Some v)) None.
Proof. exact string_cycle. Qed.
Print Assumptions C53_cycle_null.

(** C23. The text of an enumeration: the first name of its number, or the number in decimal. *)
Theorem C23_text : forall E tagged deep ft n0 m v z l x, readable_db E n0 -> bytes_ok m -> enum_type (en_db E) v z l -> In z [1; 2; 4; 8] ->
  x = as_signed (8 * z) (number_at m (v_addr v) (Z.to_nat z)) ->
  exists s, CdeclSpec.returns (fun k => value_string_ex E tagged deep ft k m (Some v)) (Some s) /\
    (first_name l x (Some s) \/ first_name l x None /\ says s (RNum x)).
Proof. exact enum_string. Qed.
Print Assumptions C23_text.

(** * Examples *)
(** 0 int, 1 char, 2 _Bool, 3 enum color { RED, BLUE = 3 }, 4 char [4], 5 int *, 6 int [2], 7 struct { _Bool on; }, 9 struct box { int n;
    char c; char tag[4]; enum color e; int *p; struct { _Bool on; }; int a[2]; } *)
Definition dbt : db := fun r =>
  match r with
  | 0%nat => ent "int" (IBase 4 6)
  | 1%nat => ent "char" (IBase 1 7)
  | 2%nat => ent "_Bool" (IBase 1 3)
  | 3%nat => ent "color" (IEnum 4 [(Some "RED", 0); (Some "BLUE", 3)])
  | 4%nat => Build_entry None false (IArray (Some 1%nat) 4)
  | 5%nat => Build_entry None false (IPointer (Some 0%nat))
  | 6%nat => Build_entry None false (IArray (Some 0%nat) 2)
  | 7%nat => Build_entry None false (IAggr AStruct 1 [8%nat])
  | 8%nat => ent "on" (mi 2%nat 0)
  | 9%nat => ent "box" (IAggr AStruct 40 [10; 11; 12; 13; 14; 15; 16]%nat)
  | 10%nat => ent "n" (mi 0%nat 0)
  | 11%nat => ent "c" (mi 1%nat 4)
  | 12%nat => ent "tag" (mi 4%nat 5)
  | 13%nat => ent "e" (mi 3%nat 12)
  | 14%nat => ent "p" (mi 5%nat 16)
  | 15%nat => Build_entry None false (mi 7%nat 24)
  | 16%nat => ent "a" (mi 6%nat 32)
  | _ => Build_entry None false (IOther 0)
  end.
Definition Et : env := Build_env 10 dbt (fun _ => 0) 1%nat no_handler (fun _ => false) (fun _ => []) (fun _ => 0).
Definition boxes : mem := words [(1000, 0x0a696841fffffffb); (1008, 0x0000000300000000); (1016, 2000); (1024, 1); (1032, 0x0000000400000003); (2000, 7)].
Definition no_float : ctype -> Z -> string := fun _ _ => "?".
Definition box_says : reading := RFields [("n", RNum (-5)); ("c", RChar 65); ("tag", RText [104; 105; 10]); ("e", RWord "BLUE");
  ("p", RCast "int []" (RList [RNum 7])); ("on", RWord "true"); ("a", RList [RNum 3; RNum 4])].
Example box_text : value_string_ex Et false true no_float 12 boxes (Some (at_ 9%nat 1000)) =
  Ret (Some "{.n = -5, .c = 'A', .tag = ""hi\n"", .e = BLUE, .p = (int []){7,}, .on = true, .a = {3, 4,},}").
Proof. vm_compute. reflexivity. Qed.
Lemma dbt_acyclic : acyclic dbt 7.
Proof.
  exists (fun r => match r with 4 | 6 => 1 | 8 => 2 | 10 | 11 | 12 | 13 | 14 | 15 | 16 => 4 | _ => 0 end)%nat. split.
  - intro r. do 17 (destruct r as [|r]; [cbn; lia|]). cbn. lia.
  - intros r t H. destruct H as [[q H]|[[c H]|H]]; (do 17 (destruct r as [|r]; [cbn in H; inversion H; subst; cbn; try lia; fail|])); cbn in H; inversion H.
Qed.
Lemma Et_readable : readable_db Et 7.
Proof.
  split; [exact dbt_acyclic|reflexivity|intro a; cbn; lia|].
  intros r z c H. do 17 (destruct r as [|r]; [cbn in H; try discriminate; cbn; discriminate|]). cbn in H. discriminate.
Qed.
Lemma boxes_ok : bytes_ok boxes.
Proof. unfold boxes, words. repeat apply store_bytes_ok. intro a. lia. Qed.
Ltac resolve := first [ exists []; apply res_stop; intros ? ? S; cbn in S; inversion S; fail
  | eexists; eapply res_step; [cbn; constructor|]; apply res_stop; intros ? ? S; cbn in S; inversion S; fail ].
Ltac known := eexists; split; [resolve|reflexivity].
Ltac typ n e z s := exists n, [e]%list, z, s, e; split; [cbn; tauto|]; split; [cbn; tauto|]; eexists _, _, _; split; [resolve|]; cbn; auto.
Lemma int_object : forall m r a, In r [0; 10]%nat -> object Et m (at_ r a) CInt (number_at m a 4).
Proof.
  intros m r a H. apply ob_plain.
  - exists "int", [6], 4, true, 6. split; [cbn; tauto|]. split; [left; reflexivity|]. exists (St 0%nat), 4, 6. cbn in H. decompose [or] H; subst; try contradiction; (split; [resolve|cbn; auto]).
  - intros mi0 I. cbn in H. decompose [or] H; subst; try contradiction; cbn in I; inversion I; auto.
Qed.
Lemma int_scalar : forall m r a x anc, In r [0; 10]%nat -> x = as_signed 32 (number_at m a 4) -> scalar Et false true no_float m anc (at_ r a) (RNum x).
Proof.
  intros m r a x anc H ->. eapply (sc_integer _ _ _ _ _ _ _ CInt); [apply int_object; exact H|cbn; tauto|discriminate|discriminate|].
  exists "int", [6], 4, true. cbn. auto 8.
Qed.
Lemma cdecl_returns : forall k d e s, entry_cdecl k d e = Ret s -> CdeclSpec.returns (fun k => entry_cdecl k d e) s.
Proof.
  intros k d e s H. apply (approx_returns _ _ k); [intro j; apply entry_cdecl_step|]. intros j J.
  destruct (approx_le _ (fun k => entry_cdecl k d e) (fun j => entry_cdecl_step d j e) k j J) as [X|X]; congruence.
Qed.
Lemma int_list : forall m anc w c ch l, has_info dbt w (IArray (Some 0%nat) c) -> 0 <= int_of c < 2 ^ 30 -> elements_are dbt w ch ->
  shows_items Et false true no_float m (w :: anc) ch l -> shows Et false true no_float m anc w (SValue (RList l)).
Proof.
  intros m anc w c ch l I C EL SH.
  assert (NC : forall c', ~ char_array Et w c').
  { intros c' [r [e [b [s [I' [F [Q K]]]]]]]. pose proof (has_info_fun Et _ _ _ I I') as X. injection X as <- <-.
    assert (Y : Some e = Some (St 0%nat)); [eapply final_type_fun; [exact F|resolve]|]. injection Y as ->. discriminate. }
  eapply (sh_list _ _ _ _ _ _ _ w); [eapply ar_known; [exact I|lia]| | |exact EL|exact SH].
  - intros l' [c' [H _]]. exact (NC _ H).
  - intros c' H. destruct (NC _ H).
Qed.
Example box_shows : shows Et false true no_float boxes [] (at_ 9%nat 1000) (SValue box_says).
Proof.
  assert (B : box_says = braces [("n", RNum (-5)); ("c", RChar 65); ("tag", RText [104; 105; 10]); ("e", RWord "BLUE");
    ("p", RCast "int []" (RList [RNum 7])); ("on", RWord "true"); ("a", RList [RNum 3; RNum 4])]) by reflexivity.
  rewrite B. eapply (sh_struct _ _ _ _ _ _ _ [at_ 10 1000; at_ 11 1004; at_ 12 1005; at_ 13 1012; at_ 14 1016; at_ 15 1024; at_ 16 1032]%nat).
  - eapply pa_struct; [known|]. repeat (constructor; [eexists; split; [reflexivity|]; split; [reflexivity|discriminate]|]). constructor.
  - apply sf_named; [|reflexivity|]. { apply sh_scalar, int_scalar; [cbn; tauto|reflexivity]. }
    apply sf_named; [|reflexivity|].
    { apply sh_scalar. eapply (sc_char _ _ _ _ _ _ _ 65).
      - change 65 with (number_at boxes 1004 1). apply ob_plain.
        + exists "char", [7; 9], 1, true, 7. split; [cbn; tauto|]. split; [left; reflexivity|]. exists (St 1%nat), 1, 7. split; [resolve|cbn; auto].
        + intros mi0 I. cbn in I. inversion I. auto.
      - exists "char", [7; 9], 1, true. split; [cbn; auto|reflexivity].
      - lia. }
    apply sf_named; [|reflexivity|].
    { eapply (sh_text _ _ _ _ _ _ _ (at_ 12%nat 1005)); [eapply ar_known; [known|discriminate]|].
      exists 4. split; [|split; [discriminate|split; [|split; [reflexivity|split; [reflexivity|]]]]].
      - exists 1%nat, (St 1%nat), 1, 7. split; [known|]. split; [resolve|auto].
      - repeat constructor; cbn; unfold presentable; cbn; lia.
      - intros i Hi. cbn in Hi. do 4 (destruct i as [|i]; [vm_compute; reflexivity|]). lia. }
    apply sf_named; [|reflexivity|].
    { apply sh_scalar. eapply (sc_enumerator _ _ _ _ _ _ _ 4 [(Some "RED", 0); (Some "BLUE", 3)]); [known|cbn; tauto|].
      left. exists [(Some "RED", 0)], []. split; [reflexivity|]. intros y [<-|[]]. vm_compute. discriminate. }
    apply sf_named; [|reflexivity|].
    { eapply (sh_target _ _ _ _ _ _ _ (array_at 0%nat 1 2000)).
      - eapply (fo_one _ _ _ _ _ _ 0%nat 2000); [split; [known|vm_compute; reflexivity]|discriminate|reflexivity| |discriminate].
        intros a t [<-|[]] [[e [F I]] _]. assert (Some e = Some (St 9%nat)) as [= ->]; [eapply final_type_fun; [exact F|resolve]|]. discriminate.
      - eapply (int_list _ _ _ 1 [at_ 0%nat 2000]); [known|cbn; lia| |].
        + exists (Some 0%nat), 1. split; [known|]. split; [reflexivity|]. intros _. exists 0%nat, 4. split; [reflexivity|]. split; [eapply hs_base; reflexivity|].
          intros i y Hy. destruct i as [|i]; [|destruct i; discriminate]. injection Hy as <-. split; [reflexivity|discriminate].
        + apply si_cons; [apply sh_scalar, int_scalar; [cbn; tauto|reflexivity]|apply si_nil].
      - discriminate.
      - known.
      - exists "int ", "[]". split; [apply (cdecl_returns 5); vm_compute; reflexivity|]. split; [|split; [|reflexivity]]; repeat constructor; discriminate. }
    eapply (sf_inner _ _ _ _ _ _ _ _ [("on", RWord "true")]).
    { eapply (sh_anonymous _ _ _ _ _ _ _ [at_ 8%nat 1024]).
      - eapply pa_struct; [known|]. repeat (constructor; [eexists; split; [reflexivity|]; split; [reflexivity|discriminate]|]). constructor.
      - apply sf_named; [|reflexivity|apply sf_nil]. apply sh_scalar. apply sc_true. change 1 with (number_at boxes 1024 1). apply ob_plain.
        + exists "_Bool", [3], 1, false, 3. split; [cbn; tauto|]. split; [left; reflexivity|]. exists (St 2%nat), 1, 3. split; [resolve|cbn; auto].
        + intros mi0 I. cbn in I. inversion I. auto.
      - split; [reflexivity|eexists; reflexivity]. }
    apply sf_named; [|reflexivity|apply sf_nil].
    eapply (int_list _ _ _ 2 [at_ 0%nat 1032; at_ 0%nat 1036]); [known|cbn; lia| |].
    + exists (Some 0%nat), 2. split; [known|]. split; [reflexivity|]. intros _. exists 0%nat, 4. split; [reflexivity|]. split; [eapply hs_base; reflexivity|].
      intros i y Hy. destruct i as [|[|i]]; [| |destruct i; discriminate]; injection Hy as <-; (split; [reflexivity|discriminate]).
    + repeat (apply si_cons; [apply sh_scalar, int_scalar; [cbn; tauto|reflexivity]|]). apply si_nil.
  - intros [H _]. discriminate.
Qed.
Example C51_example : readable_db Et 7 /\ bytes_ok boxes /\ shows Et false true no_float boxes [] (at_ 9%nat 1000) (SValue box_says) /\ readable box_says /\
  says "{.n = -5, .c = 'A', .tag = ""hi\n"", .e = BLUE, .p = (int []){7,}, .on = true, .a = {3, 4,},}" box_says.
Proof.
  split; [exact Et_readable|]. split; [exact boxes_ok|]. split; [exact box_shows|]. split; [|exists 20%nat; vm_compute; reflexivity].
  assert (W : plain_word "BLUE" /\ plain_word "true").
  { split; (split; [repeat constructor; discriminate|]; split; [|split; reflexivity]); eexists; eexists; (split; [reflexivity|]); unfold word_start; cbn; intuition discriminate. }
  assert (P : forall w, In w ["n"; "c"; "tag"; "e"; "p"; "on"; "a"] -> plain_name w).
  { intros w H. cbn in H. decompose [or] H; subst; try contradiction; repeat constructor; discriminate. }
  cbn [readable box_says]. destruct W as [W1 W2]. repeat match goal with |- _ /\ _ => split end; try exact I; try (apply P; cbn; tauto); try assumption; try discriminate. reflexivity.
Qed.
(** the list of DeepProps: a circular one and one that ends *)
Lemma db0_texts : finite_texts db0 3.
Proof.
  exists (fun r => match r with 4 | 6 | 14 | 24 | 25 | 28 => 1 | 15 => 2 | _ => 0 end)%nat. split.
  - intro r. do 32 (destruct r as [|r]; [cbn; lia|]). cbn. lia.
  - intros r t H. do 32 (destruct r as [|r]; [inversion H as [t0 Q|t0 c Q|q t0 Q|t0 Q|k z l r0 mi0 t0 QN Q QI QM QT|t0 l Q|t0 l r0 t1 Q QI QM]; try (destruct Q as [Q|Q]); cbn in *; inversion Q; subst; cbn; try lia; discriminate|]).
    inversion H as [t0 Q|t0 c Q|q t0 Q|t0 Q|k z l r0 mi0 t0 QN Q QI QM QT|t0 l Q|t0 l r0 t1 Q QI QM]; try (destruct Q as [Q|Q]); cbn in Q; discriminate.
Qed.
Lemma E0_printable : printable_db E0 no_float 7.
Proof.
  split; [split; [apply finite_acyclic, db0_finite|reflexivity|intro a; cbn; lia|]| | |].
  - intros r z c H. do 32 (destruct r as [|r]; [cbn in H; try discriminate; cbn; discriminate|]). cbn in H. discriminate.
  - intro r. do 32 (destruct r as [|r]; [split; [intros nm H; cbn in H; first [discriminate | injection H as <-; repeat constructor; discriminate] | intros s l nm v H; cbn in H; discriminate]|]).
    split; [discriminate|intros s l nm v H; cbn in H; discriminate].
  - discriminate.
  - intros. eexists. reflexivity.
Qed.
Lemma parts0 : forall tagged m anc w ch y, kinds0 w -> parts E0 tagged m anc w ch -> In y ch -> v_entry y = St 2%nat \/ v_entry y = St 3%nat.
Proof.
  intros tagged m anc w ch y K H I. pose proof (info0 _ K) as J. destruct w as [e a]. unfold kinds0 in K. cbn in K.
  destruct H as [z l ch J' F|z l w J' _ _ Q|z l J' _]; [|discriminate|destruct I].
  pose proof (has_info_fun E0 _ _ _ J J') as Q. cbn in Q. decompose [or] K; try contradiction; subst e; cbn in Q; try discriminate.
  injection Q as <- <-. inversion F as [|? b1 ? t1 R1 F1]; subst. inversion F1 as [|? b2 ? t2 R2 F2]; subst. inversion F2; subst.
  destruct R1 as [mi1 [_ [-> _]]]. destruct R2 as [mi2 [_ [-> _]]]. destruct I as [<-|[<-|[]]]; cbn; auto.
Qed.
Lemma array0 : forall tagged m anc w a, kinds0 w -> array_of E0 tagged m anc w a -> a = w /\ v_entry w = v_entry (array_at 1%nat 1 0).
Proof.
  intros tagged m anc w a K H. pose proof (info0 _ K) as J. destruct w as [e b]. unfold kinds0 in K. cbn in K.
  assert (X : exists t c, has_info db0 (Build_value e b) (IArray t c)) by (destruct H; eauto). destruct X as (t & c & X).
  pose proof (has_info_fun E0 _ _ _ J X) as Q. cbn in Q. decompose [or] K; try contradiction; subst e; cbn in Q; try discriminate.
  destruct H as [t' c' J' N|t' c' w J' N|t' c' J' N]; [auto| |]; pose proof (has_info_fun E0 _ _ _ J J') as Q'; cbn in Q'; injection Q' as <- <-; discriminate.
Qed.
Lemma elements0 : forall w ch y, v_entry w = v_entry (array_at 1%nat 1 0) -> elements_are db0 w ch -> In y ch -> v_entry y = St 1%nat.
Proof.
  intros [e b] ch y K [t [c [J [L El]]]] I. cbn in K. subst e. assert (Q : e_info (deref db0 (v_entry (array_at 1%nat 1 0))) = IArray t c).
  { apply (has_info_fun E0 (array_at 1%nat 1 b)); [known|exact J]. }
  cbn in Q. injection Q as <- <-. destruct El as [r [z [Er [Hs El]]]]; [intros ->; discriminate|]. injection Er as <-.
  apply In_nth_error in I. destruct I as [i I]. destruct (El i y I) as [-> _]. reflexivity.
Qed.
Lemma followed0 : forall tagged m anc w a, kinds0 w -> followed E0 tagged true m anc w a -> exists p, a = array_at 1%nat 1 p.
Proof.
  intros tagged m anc w a K H. pose proof (info0 _ K) as J. destruct w as [e b]. unfold kinds0 in K. cbn in K.
  destruct H as [t p w P _ _ _ _ Q|t p [P _]]; [discriminate|]. pose proof (has_info_fun E0 _ _ _ J P) as Q. cbn in Q.
  decompose [or] K; try contradiction; subst e; cbn in Q; try discriminate; injection Q as <-; eauto.
Qed.
Lemma met0 : forall tagged m anc w, met E0 tagged true m (at_ 4%nat 500) anc w -> kinds0 w.
Proof.
  intros tagged m anc w H. induction H as [|anc x ch y H IH P I|anc x w ch y H IH A EL I|anc x w H IH F].
  - cbn. auto.
  - destruct (parts0 _ _ _ _ _ _ IH P I) as [Q|Q]; unfold kinds0; rewrite Q; cbn; auto.
  - destruct (array0 _ _ _ _ _ IH A) as [-> Q]. unfold kinds0. rewrite (elements0 _ _ _ Q EL I). cbn. auto.
  - destruct (followed0 _ _ _ _ _ IH F) as [p ->]. cbn. auto 10.
Qed.
Lemma base0 : forall w e z c, kinds0 w -> final_type db0 (Some (v_entry w)) (Some e) -> e_info (deref db0 e) = IBase z c -> e = St 0%nat.
Proof.
  intros w e z c K F I. pose proof (info0 _ K) as J. assert (H : has_info db0 w (IBase z c)) by (exists e; auto). pose proof (has_info_fun E0 _ _ _ J H) as Q.
  destruct w as [f a]. unfold kinds0 in K. cbn in K. decompose [or] K; try contradiction; subst f; cbn in Q; try discriminate.
  assert (X : Some e = Some (St 0%nat)); [eapply final_type_fun; [exact F|resolve]|]. injection X as ->. reflexivity.
Qed.
Lemma proper0 : forall tagged m anc w, kinds0 w -> proper E0 tagged true m anc w /\ calm E0 m w.
Proof.
  intros tagged m anc w K. pose proof (info0 _ K) as J. split; split.
  - intros c mi0 _ I. left. intros mi1 I'. destruct w as [e a]. unfold kinds0 in K. cbn in K, I, I'. decompose [or] K; try contradiction; subst e; cbn in I, I'; try discriminate; injection I' as <-; auto.
  - intros z l H. exfalso. destruct w as [e a]. unfold kinds0 in K. cbn in K. pose proof (has_info_fun E0 _ _ _ J H) as Q. decompose [or] K; try contradiction; subst e; discriminate.
  - intros ch y P I. left. destruct (parts0 _ _ _ _ _ _ K P I) as [Q|Q]; unfold name_is; rewrite Q; eexists; reflexivity.
  - intros a A. destruct (array0 _ _ _ _ _ K A) as [-> Q]. assert (X : has_info db0 w (IArray (Some 1%nat) 1)).
    { destruct w as [e b]. cbn in Q. subst e. known. }
    split; [eauto|]. split.
    + intros c [r [e [b [s [H _]]]]]. pose proof (has_info_fun E0 _ _ _ X H) as Y. injection Y as <- <-. reflexivity.
    + intros ch y EL I. pose proof (elements0 _ _ _ Q EL I) as Y. split; [intros [_ [mi0 Z0]]; rewrite Y in Z0; discriminate|].
      intros (t & c & H & _). destruct y as [e b]. cbn in Y. subst e. destruct H as [f [F I']]. assert (Z0 : Some f = Some (St 1%nat)); [eapply final_type_fun; [exact F|resolve]|]. injection Z0 as ->. discriminate.
  - intros a F. destruct (followed0 _ _ _ _ _ K F) as [p ->]. split; [intros [_ [mi0 Z0]]; discriminate|]. split.
    + intros (t & c & H & C & _). assert (Q : IArray (Some 1%nat) 1 = IArray t c) by (apply (has_info_fun E0 (array_at 1%nat 1 p)); [known|exact H]). injection Q as <- <-. discriminate.
    + exists 1%nat, 1. eexists. split; [known|]. eapply CdeclSpec.it_struct; reflexivity.
  - intros e z c F I. rewrite (base0 _ _ _ _ K F I). discriminate.
  - intros x H. exfalso. assert (X : has_ctype db0 w CBool) by (destruct H; assumption). destruct X as (nm & encs & z0 & sg & enc & IN & IE & (e & z & c & F & B & Q & _)).
    cbn in IN. decompose [or] IN; try discriminate; [|contradiction]. match goal with H : _ = _ |- _ => injection H as <- <- <- <- end.
    rewrite (base0 _ _ _ _ K F Q) in B. discriminate.
  - intros t l. split; intro H; pose proof (has_info_fun E0 _ _ _ J H) as Q; destruct w as [e a]; unfold kinds0 in K; cbn in K; decompose [or] K; try contradiction; subst e; discriminate.
  - intros t H. destruct w as [e a]; unfold kinds0 in K; cbn in K; decompose [or] K; try contradiction; subst e; discriminate.
Qed.
(** nodes at 1000 and 2000, the second points to nothing *)
Definition chain : mem := words [(500, 1000); (1000, 5); (1008, 2000); (2000, 7); (2008, 0)].
Lemma circle_ok : bytes_ok circle /\ bytes_ok chain.
Proof. split; unfold circle, chain, words; repeat apply store_bytes_ok; intro a; lia. Qed.
Example C51_sound_example : printable_db E0 no_float 7 /\ bytes_ok chain /\
  (forall anc w, met E0 true true chain (at_ 4%nat 500) anc w -> proper E0 true true chain anc w) /\
  value_string_ex E0 true true no_float 20 chain (Some (at_ 4%nat 500)) =
    Ret (Some "(struct node []){{.val = 5, .next = (struct node []){{.val = 7, .next = NULL,},},},}").
Proof.
  split; [exact E0_printable|]. split; [exact (proj2 circle_ok)|]. split; [intros anc w H; apply proper0; exact (met0 _ _ _ _ H)|]. vm_compute. reflexivity.
Qed.
Example C53_example : printable_db E0 no_float 7 /\ finite_types (en_db E0) 7 /\ en_fuel E0 = (7 + 3)%nat /\ finite_texts (en_db E0) 3 /\ tame E0 /\ bytes_ok circle /\
  (forall anc w, met E0 true true circle (at_ 4%nat 500) anc w -> proper E0 true true circle anc w /\ calm E0 circle w) /\
  (exists anc w t p a t', met E0 true true circle (at_ 4%nat 500) anc w /\ points db0 circle w t p /\ p <> 0 /\ In a anc /\ points db0 circle a t' p) /\
  value_string_ex E0 true true no_float 20 circle (Some (at_ 4%nat 500)) = Ret None.
Proof.
  split; [exact E0_printable|]. split; [exact db0_finite|]. split; [reflexivity|]. split; [exact db0_texts|]. split; [apply C40_example|]. split; [exact (proj1 circle_ok)|].
  split; [intros anc w H; apply proper0; exact (met0 _ _ _ _ H)|]. split; [|vm_compute; reflexivity].
  assert (EL : forall p, p = 1000 \/ p = 2000 -> elements_are db0 (array_at 1%nat 1 p) [at_ 1%nat p]).
  { intros p H. exists (Some 1%nat), 1. split; [known|]. split; [reflexivity|]. intros _. exists 1%nat, 16. split; [reflexivity|]. split; [eapply hs_aggr; reflexivity|].
    intros i y Hy. destruct i as [|i]; [|destruct i; discriminate]. injection Hy as <-. destruct H as [-> | ->]; (split; [reflexivity|discriminate]). }
  assert (NP : forall a i, has_info db0 a i -> (forall t, i <> IPointer t) -> forall t p, ~ points db0 circle a t p).
  { intros a i I NI t p [P _]. apply (NI t). exact (has_info_fun E0 _ _ _ I P). }
  pose proof (me_here E0 true true circle [] (at_ 4%nat 500)) as M1.
  assert (M2 : met E0 true true circle (at_ 4%nat 500) [at_ 4%nat 500] (array_at 1%nat 1 1000)).
  { eapply me_target; [exact M1|]. eapply fo_one; [split; [known|vm_compute; reflexivity]|discriminate|reflexivity|intros a t []|reflexivity]. }
  assert (M3 : met E0 true true circle (at_ 4%nat 500) [array_at 1%nat 1 1000; at_ 4%nat 500] (at_ 1%nat 1000)).
  { eapply me_element; [exact M2|eapply ar_known; [known|discriminate]|apply EL; auto|left; reflexivity]. }
  assert (M4 : met E0 true true circle (at_ 4%nat 500) [at_ 1%nat 1000; array_at 1%nat 1 1000; at_ 4%nat 500] (at_ 3%nat 1008)).
  { eapply (me_part _ _ _ _ _ _ _ _ [at_ 2%nat 1000; at_ 3%nat 1008]); [exact M3| |right; left; reflexivity].
    eapply pa_struct; [known|]. repeat (constructor; [eexists; split; [reflexivity|]; split; [reflexivity|discriminate]|]). constructor. }
  assert (M5 : met E0 true true circle (at_ 4%nat 500) [at_ 3%nat 1008; at_ 1%nat 1000; array_at 1%nat 1 1000; at_ 4%nat 500] (array_at 1%nat 1 2000)).
  { eapply me_target; [exact M4|]. eapply fo_one; [split; [known|vm_compute; reflexivity]|discriminate|reflexivity| |reflexivity].
    intros a t [<-|[<-|[<-|[]]]].
    - eapply NP; [known|discriminate].
    - eapply NP; [known|discriminate].
    - intros [_ H]. vm_compute in H. discriminate. }
  assert (M6 : met E0 true true circle (at_ 4%nat 500) [array_at 1%nat 1 2000; at_ 3%nat 1008; at_ 1%nat 1000; array_at 1%nat 1 1000; at_ 4%nat 500] (at_ 1%nat 2000)).
  { eapply me_element; [exact M5|eapply ar_known; [known|discriminate]|apply EL; auto|left; reflexivity]. }
  assert (M7 : met E0 true true circle (at_ 4%nat 500) [at_ 1%nat 2000; array_at 1%nat 1 2000; at_ 3%nat 1008; at_ 1%nat 1000; array_at 1%nat 1 1000; at_ 4%nat 500] (at_ 3%nat 2008)).
  { eapply (me_part _ _ _ _ _ _ _ _ [at_ 2%nat 2000; at_ 3%nat 2008]); [exact M6| |right; left; reflexivity].
    eapply pa_struct; [known|]. repeat (constructor; [eexists; split; [reflexivity|]; split; [reflexivity|discriminate]|]). constructor. }
  eexists _, _, (Some 1%nat), 1000, (at_ 4%nat 500), (Some 1%nat). split; [exact M7|]. split; [split; [known|vm_compute; reflexivity]|]. split; [discriminate|]. split; [cbn; auto 10|].
  split; [known|vm_compute; reflexivity].
Qed.
(** enumerations: a name, a number without name *)
Example C23_text_example : enum_type dbt (at_ 3%nat 1012) 4 [(Some "RED", 0); (Some "BLUE", 3)] /\
  value_string_ex Et false true no_float 5 boxes (Some (at_ 3%nat 1012)) = Ret (Some "BLUE") /\
  value_string_ex Et false true no_float 5 boxes (Some (at_ 3%nat 1000)) = Ret (Some "-5").
Proof. split; [known|]. vm_compute. auto. Qed.
(** equal texts of values in different places: an int that is 7, and the first element of an array *)
Example C52_example : value_string_ex Et false true no_float 5 boxes (Some (at_ 0%nat 2000)) = Ret (Some "7") /\
  value_string_ex Et false true no_float 9 (words [(80, 7)]) (Some (at_ 10%nat 80)) = Ret (Some "7") /\
  shows Et false true no_float boxes [] (at_ 0%nat 2000) (SValue (RNum 7)) /\ shows Et false true no_float (words [(80, 7)]) [] (at_ 10%nat 80) (SValue (RNum 7)).
Proof.
  split; [vm_compute; reflexivity|]. split; [vm_compute; reflexivity|]. split; apply sh_scalar, int_scalar; cbn; auto.
Qed.

(** * What is false *)
(** C51: a quote or a backslash in a char is not escaped; nobody reads these texts. *)
Theorem C51_char_quote_refuted : exists E n0 m v x, readable_db E n0 /\ bytes_ok m /\ object E m v CChar x /\
  exists s, CdeclSpec.returns (fun k => value_string_ex E false true no_float k m (Some v)) (Some s) /\ forall r, ~ says s r.
Proof.
  exists Et, 7%nat, (words [(80, 39)]), (at_ 1%nat 80), 39. split; [exact Et_readable|]. split; [unfold words; repeat apply store_bytes_ok; intro a; lia|]. split.
  - change 39 with (number_at (words [(80, 39)]) 80 1). apply ob_plain.
    + exists "char", [7; 9], 1, true, 7. split; [cbn; tauto|]. split; [left; reflexivity|]. exists (St 1%nat), 1, 7. split; [resolve|cbn; auto].
    + intros mi0 I. cbn in I. inversion I.
  - exists "'''". split; [|intros r [k K]; destruct k; discriminate]. eapply (text_returns Et false true no_float _ [] _ 1). intros k K. destruct k as [|k]; [lia|]. vm_compute. reflexivity.
Qed.
Print Assumptions C51_char_quote_refuted.
Theorem C51_char_backslash_refuted : exists E n0 m v x, readable_db E n0 /\ bytes_ok m /\ object E m v CChar x /\
  exists s, CdeclSpec.returns (fun k => value_string_ex E false true no_float k m (Some v)) (Some s) /\ forall r, ~ says s r.
Proof.
  exists Et, 7%nat, (words [(80, 92)]), (at_ 1%nat 80), 92. split; [exact Et_readable|]. split; [unfold words; repeat apply store_bytes_ok; intro a; lia|]. split.
  - change 92 with (number_at (words [(80, 92)]) 80 1). apply ob_plain.
    + exists "char", [7; 9], 1, true, 7. split; [cbn; tauto|]. split; [left; reflexivity|]. exists (St 1%nat), 1, 7. split; [resolve|cbn; auto].
    + intros mi0 I. cbn in I. inversion I.
  - exists "'\'". split; [|intros r [k K]; destruct k; discriminate]. eapply (text_returns Et false true no_float _ [] _ 1). intros k K. destruct k as [|k]; [lia|]. vm_compute. reflexivity.
Qed.
Print Assumptions C51_char_backslash_refuted.
(** C53: a bool object that holds 2 is undefined behaviour. *)
Theorem C53_bool_refuted : exists E n0 m v, readable_db E n0 /\ bytes_ok m /\ has_ctype (en_db E) v CBool /\
  forall k, value_string_ex E false true no_float (S k) m (Some v) = Ub.
Proof.
  exists Et, 7%nat, (words [(80, 2)]), (at_ 2%nat 80). split; [exact Et_readable|]. split; [unfold words; repeat apply store_bytes_ok; intro a; lia|]. split.
  - exists "_Bool", [3], 1, false, 3. split; [cbn; tauto|]. split; [left; reflexivity|]. exists (St 2%nat), 1, 3. split; [resolve|cbn; auto].
  - intro k. vm_compute. reflexivity.
Qed.
Print Assumptions C53_bool_refuted.

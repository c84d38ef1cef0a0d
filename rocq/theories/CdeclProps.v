(** Properties C44, C45 and C50: declaration texts. *)
From Coq Require Import ZArith String Ascii List Bool Lia.
From Verif Require Import Base EntryModel CdeclModel CdeclSpec CdeclProof CdeclProof2 CdeclProof3.
Import ListNotations.
Local Open Scope string_scope.

(** * C44 *)
Theorem C44_one_placeholder : forall d p T, (forall r, clean (d r)) -> is_type d (Some p) T -> clean (deref d p) ->
  exists s, returns (fun k => entry_cdecl k d (Some p)) (Some s) /\ one_hole s.
Proof. exact (fun d p T DB => cdecl_placeholder d DB p T). Qed.
Print Assumptions C44_one_placeholder.

Theorem C44_variable : forall d p n r T, (forall r, clean (d r)) ->
  e_info (deref d p) = IVariable (Some r) -> e_name (deref d p) = Some n -> is_type d (Some (St r)) T ->
  exists a b, no_percent a /\ no_percent b /\
    returns (fun k => entry_cdecl k d (Some (St r))) (Some (a ++ "%s" ++ b)) /\
    returns (fun k => entry_cdecl k d (Some p)) (Some (a ++ n ++ b)).
Proof. exact (fun d p n r T DB => cdecl_variable d DB p n r T). Qed.
Print Assumptions C44_variable.

Theorem C44_others_null : forall d p,
  match e_info (deref d p) with IMember _ | IParam _ _ | IReference _ _ _ | IOther _ | IAggr AClass _ _ => True | _ => False end ->
  returns (fun k => entry_cdecl k d (Some p)) None.
Proof. exact (fun d p => cdecl_null d p). Qed.
Print Assumptions C44_others_null.

(** a database: 0 int, 1 int*, 2 int*[3], 3 int[3], 4 pointer to int[3], 5 char, 6 int(char), 7 pointer to 6,
    8 anonymous struct { int a:5; int *p[3]; int ( *f)(char); } of members 9, 10, 11; 12 variable x of type 8,
    13 parameter of type char, 14 const char, 15 volatile int*, 16 const 15, 17 const int, 18 pointer to 17, 19 volatile 18,
    20 function type returning 7 with parameter 22, 21 function g returning 7 with parameter 22, 22 parameter c of type int,
    23 function h returning int with parameters 22 and 24 (...), 24 unspecified *)
Definition ent n i := Build_entry n false i.
Definition mi t b := Build_minfo (Some t) None 0 None None b.
Definition mem t b := IMember (mi t b).
Definition dbc : db := fun r => nth r
  [ent (Some "int") (IBase 4 6); ent None (IPointer (Some 0%nat)); ent None (IArray (Some 1%nat) 3); ent None (IArray (Some 0%nat) 3);
   ent None (IPointer (Some 3%nat)); ent (Some "char") (IBase 1 7); ent None (ISubroutine (Some 0%nat) [13%nat]); ent None (IPointer (Some 6%nat));
   ent None (IAggr AStruct 40 [9; 10; 11]%nat); ent (Some "a") (mem 0%nat (Some 5%Z)); ent (Some "p") (mem 2%nat None); ent (Some "f") (mem 7%nat None);
   ent (Some "x") (IVariable (Some 8%nat)); ent None (IParam false (Some 5%nat)); ent None (IQual QConst (Some 5%nat));
   ent None (IQual QVolatile (Some 1%nat)); ent None (IQual QConst (Some 15%nat)); ent None (IQual QConst (Some 0%nat)); ent None (IPointer (Some 17%nat));
   ent None (IQual QVolatile (Some 18%nat)); ent None (ISubroutine (Some 7%nat) [22%nat]); ent (Some "g") (ISubprogram (Some 7%nat) [22%nat]);
   ent (Some "c") (IParam false (Some 0%nat)); ent (Some "h") (ISubprogram (Some 0%nat) [22; 24]%nat); ent None (IParam true None)]
  (ent None (IOther 0)).
Lemma dbc_clean : forall r, clean (dbc r).
Proof.
  intros r. do 25 (destruct r as [|r]; [cbn; split; [intros n E; try discriminate; injection E as <-; cbn; repeat split; discriminate|discriminate]|]).
  destruct r; cbn; (split; discriminate).
Qed.
Definition Tint := TName "int".
Definition Tfp := TPtr (TFun Tint [Some (TName "char")]).
Definition Tx := TAnonAggr false [(Tint, Some "a", Some 5%Z); (TArr (Some 3%Z) (TPtr Tint), Some "p", None); (Tfp, Some "f", None)].
Lemma tint : is_type dbc (Some (St 0%nat)) Tint. Proof. eapply it_base; reflexivity. Qed.
Lemma tchar : is_type dbc (Some (St 5%nat)) (TName "char"). Proof. eapply it_base; reflexivity. Qed.
Lemma tpint : is_type dbc (Some (St 1%nat)) (TPtr Tint). Proof. eapply it_ptr; [reflexivity|exact tint]. Qed.
Lemma tfp : is_type dbc (Some (St 7%nat)) Tfp.
Proof.
  eapply it_ptr; [reflexivity|]. eapply (it_fun dbc (St 6%nat) _ _ _ [Some (TName "char", "")]); [reflexivity|exact tint|].
  eapply (ap_cons dbc 13%nat); [reflexivity|exact tchar|constructor].
Qed.
Lemma tx : is_type dbc (Some (St 8%nat)) Tx.
Proof.
  eapply it_anon_struct; [reflexivity|reflexivity|].
  apply (af_cons dbc 9%nat (mi 0%nat (Some 5%Z))); [reflexivity|exact tint|]. apply (af_cons dbc 10%nat (mi 2%nat None)); [reflexivity| |].
  - eapply (it_arr dbc (St 2%nat) _ _ 3%Z); [reflexivity|exact tpint].
  - apply (af_cons dbc 11%nat (mi 7%nat None)); [reflexivity|exact tfp|constructor].
Qed.
Lemma regular_tx : regular Tx.
Proof.
  assert (I : flat Tint) by (do 2 constructor).
  assert (F : regular Tfp) by (apply rg_callable, ca_ptr, ca_fun; [exact I|constructor; [do 3 constructor|constructor]]).
  apply rg_flat, fl_named, nm_anon_aggr. constructor; [now apply rg_flat|]. constructor; [apply rg_arr, rg_flat, fl_ptr, I|].
  constructor; [exact F|constructor].
Qed.

Example C44_example :
  (forall r, clean (dbc r)) /\ is_type dbc (Some (St 8%nat)) Tx /\
  entry_cdecl 10 dbc (Some (St 8%nat)) = Ret (Some "struct {int a:5; int * p[3]; int (* f)(char); } %s") /\
  entry_cdecl 10 dbc (Some (St 12%nat)) = Ret (Some "struct {int a:5; int * p[3]; int (* f)(char); } x").
Proof. split; [exact dbc_clean|]. split; [exact tx|]. vm_compute. auto. Qed.

(** * C50: the text is a C declaration of the name (or place holder) with that type *)
Theorem C50_type : forall d p T, (forall r, clean (d r)) -> is_type d (Some p) T -> clean (deref d p) -> regular T ->
  exists s, returns (fun k => entry_cdecl k d (Some p)) (Some s) /\ declares T "%s" s.
Proof. exact (fun d p T DB => cdecl_regular d DB p T). Qed.
Print Assumptions C50_type.

Theorem C50_variable : forall d p n t T, (forall r, clean (d r)) ->
  e_info (deref d p) = IVariable t -> e_name (deref d p) = Some n -> is_type d (lift t) T -> regular T ->
  exists s, returns (fun k => entry_cdecl k d (Some p)) (Some s) /\ declares T n s.
Proof. exact (fun d p n t T DB => cdecl_variable_declares d DB p n t T). Qed.
Print Assumptions C50_variable.

Theorem C50_function : forall d p n t T l ps, (forall r, clean (d r)) ->
  e_info (deref d p) = ISubprogram t l -> e_name (deref d p) = Some n -> is_type d (lift t) T -> are_params d l ps ->
  flat T -> regular_params (map (option_map fst) ps) ->
  exists s, returns (fun k => entry_cdecl k d (Some p)) (Some s) /\ declares (TFun T (map (option_map fst) ps)) n s.
Proof. exact (fun d p n t T l ps DB => cdecl_function_declares d DB p n t T l ps). Qed.
Print Assumptions C50_function.

Example C50_example :
  is_type dbc (lift (Some 8%nat)) Tx /\ regular Tx /\ declares Tx "x" "struct {int a:5; int * p[3]; int (* f)(char); } x" /\
  are_params dbc [22; 24]%nat [Some (Tint, "c"); None] /\ flat Tint /\ regular_params [Some Tint; None] /\
  entry_cdecl 10 dbc (Some (St 23%nat)) = Ret (Some "int h(int c, ...)").
Proof.
  split; [exact tx|]. split; [exact regular_tx|]. split; [exact (regular_declares Tx "x" regular_tx)|].
  split; [eapply (ap_cons dbc 22%nat); [reflexivity|exact tint|eapply (ap_dots dbc 24%nat); [reflexivity|constructor]]|].
  split; [do 2 constructor|]. split; [constructor; [do 3 constructor|do 2 constructor]|]. reflexivity.
Qed.

(** The full statement is false: the text of a pointer to an array declares an array of pointers, ... *)
Theorem C50_pointer_to_array_refuted : exists d p T s T', (forall r, clean (d r)) /\ is_type d (Some p) T /\
  entry_cdecl 10 d (Some p) = Ret (Some s) /\ T = TPtr (TArr (Some 3%Z) Tint) /\ declares T' "%s" s /\ T' <> T.
Proof.
  exists dbc, (St 4%nat), (TPtr (TArr (Some 3%Z) Tint)), "int * %s[3]", (TArr (Some 3%Z) (TPtr Tint)).
  split; [exact dbc_clean|]. split; [eapply it_ptr; [reflexivity|eapply (it_arr dbc (St 3%nat) _ _ 3%Z); [reflexivity|exact tint]]|].
  split; [reflexivity|]. split; [reflexivity|].
  split; [apply (regular_declares (TArr (Some 3%Z) (TPtr Tint)) "%s"); apply rg_arr, rg_flat, fl_ptr; do 2 constructor|discriminate].
Qed.
Print Assumptions C50_pointer_to_array_refuted.

(** ... that of a const volatile pointer declares a volatile pointer to const, ... *)
Theorem C50_qualified_pointer_refuted : exists d p T s T', (forall r, clean (d r)) /\ is_type d (Some p) T /\
  entry_cdecl 10 d (Some p) = Ret (Some s) /\ T = TQual QConst (TQual QVolatile (TPtr Tint)) /\ declares T' "%s" s /\ T' <> T.
Proof.
  exists dbc, (St 16%nat), (TQual QConst (TQual QVolatile (TPtr Tint))), "const int * volatile %s", (TQual QVolatile (TPtr (TQual QConst Tint))).
  split; [exact dbc_clean|].
  split; [eapply it_qual; [reflexivity|eapply (it_qual dbc (St 15%nat)); [reflexivity|exact tpint]]|].
  split; [reflexivity|]. split; [reflexivity|].
  split; [apply (regular_declares (TQual QVolatile (TPtr (TQual QConst Tint))) "%s"); apply rg_flat, fl_qptr; do 3 constructor|discriminate].
Qed.
Print Assumptions C50_qualified_pointer_refuted.

(** ... and that of a function returning a function pointer declares a pointer. *)
Theorem C50_function_result_refuted : exists d p T s T', (forall r, clean (d r)) /\ is_type d (Some p) T /\
  entry_cdecl 10 d (Some p) = Ret (Some s) /\ T = TFun Tfp [Some Tint] /\ declares T' "%s" s /\ T' <> T.
Proof.
  exists dbc, (St 20%nat), (TFun Tfp [Some Tint]), "int (* (%s))(char)(int)", (TPtr (TFun (TFun Tint [Some Tint]) [Some (TName "char")])).
  split; [exact dbc_clean|].
  split; [eapply (it_fun dbc (St 20%nat) _ _ _ [Some (Tint, "c")]); [reflexivity|exact tfp|eapply (ap_cons dbc 22%nat); [reflexivity|exact tint|constructor]]|].
  split; [reflexivity|]. split; [reflexivity|]. split; [|discriminate].
  assert (TR : forall s, trim (s ++ " ") = s -> declares (TName s) "" (s ++ " ") -> is_param (Some (TName s, "")) s).
  { intros s E D. econstructor; [exact D|]. rewrite <- E at 2. apply trim_trimmed. }
  assert (NM : forall s, declares (TName s) "" (s ++ " ")).
  { intros s. exact (de_text (TName s) DName "" s "" "" (sp_name s) wr_name I). }
  pose (D := DFun (DFun (DParen (DPtr None (DParen DName))) [Some (TName "char", "")]) [Some (Tint, "")]).
  refine (de_text Tint D "%s" "int" "(* (" "))(char)(int)" (sp_name _) _ _).
  - refine (wr_fun _ _ "))(char)" _ "int" _ _); [|apply lp_one, TR; [reflexivity|apply NM]].
    refine (wr_fun _ _ "))" _ "char" _ _); [|apply lp_one, TR; [reflexivity|apply NM]].
    refine (wr_paren _ "* (" ")" _). refine (wr_ptr _ "(" ")" _). exact (wr_paren _ "" "" wr_name).
  - cbn. auto.
Qed.
Print Assumptions C50_function_result_refuted.

(** * C45 *)
Theorem C45_injective_partial : forall d p p' T T' s, (forall r, clean (d r)) ->
  is_type d (Some p) T -> is_type d (Some p') T' -> clean (deref d p) -> clean (deref d p') ->
  regular T -> plain T -> regular T' -> plain T' ->
  returns (fun k => entry_cdecl k d (Some p)) (Some s) -> returns (fun k => entry_cdecl k d (Some p')) (Some s) -> T = T'.
Proof. exact (fun d p p' T T' s DB => cdecl_injective d DB p p' T T' s). Qed.
Print Assumptions C45_injective_partial.

Example C45_example :
  is_type dbc (Some (St 7%nat)) Tfp /\ regular Tfp /\ plain Tfp /\ is_type dbc (Some (St 1%nat)) (TPtr Tint) /\ regular (TPtr Tint) /\ plain (TPtr Tint) /\
  entry_cdecl 10 dbc (Some (St 7%nat)) = Ret (Some "int (* %s)(char)") /\ entry_cdecl 10 dbc (Some (St 1%nat)) = Ret (Some "int * %s").
Proof.
  assert (PN : forall n, n = "int" \/ n = "char" -> plain (TName n)).
  { intros n [-> | ->]; cbn; repeat split; try discriminate; unfold punctuation, keyword; cbn;
      try (intros H; repeat (destruct H as [H|H]; [discriminate|]); exact H);
      intros (x & E); [change "int" with ("in" ++ "t") in E|change "char" with ("cha" ++ "r") in E]; apply last_char in E; destruct E; discriminate. }
  split; [exact tfp|]. split; [apply rg_callable, ca_ptr, ca_fun; [do 2 constructor|constructor; [do 3 constructor|constructor]]|].
  split; [split; [apply (PN "int"); auto|split; [apply (PN "char"); auto|exact I]]|].
  split; [exact tpint|]. split; [apply rg_flat, fl_ptr; do 2 constructor|]. split; [apply (PN "int"); auto|]. split; reflexivity.
Qed.

(** Two types with different meanings and the same text. *)
Theorem C45_refuted : exists d p p' T T' s, (forall r, clean (d r)) /\ is_type d (Some p) T /\ is_type d (Some p') T' /\ T <> T' /\
  entry_cdecl 10 d (Some p) = Ret (Some s) /\ entry_cdecl 10 d (Some p') = Ret (Some s) /\
  byte_size 10 d (Some p) = Ret (inl 8%Z) /\ byte_size 10 d (Some p') = Ret (inl 24%Z).
Proof.
  exists dbc, (St 4%nat), (St 2%nat), (TPtr (TArr (Some 3%Z) Tint)), (TArr (Some 3%Z) (TPtr Tint)), "int * %s[3]".
  split; [exact dbc_clean|]. split; [eapply it_ptr; [reflexivity|eapply (it_arr dbc (St 3%nat) _ _ 3%Z); [reflexivity|exact tint]]|].
  split; [eapply (it_arr dbc (St 2%nat) _ _ 3%Z); [reflexivity|exact tpint]|]. split; [discriminate|]. repeat split; reflexivity.
Qed.
Print Assumptions C45_refuted.

Theorem C45_qualifiers_refuted : exists d p p' T T' s, (forall r, clean (d r)) /\ is_type d (Some p) T /\ is_type d (Some p') T' /\
  T = TQual QConst (TQual QVolatile (TPtr Tint)) /\ T' = TQual QVolatile (TPtr (TQual QConst Tint)) /\
  entry_cdecl 10 d (Some p) = Ret (Some s) /\ entry_cdecl 10 d (Some p') = Ret (Some s).
Proof.
  exists dbc, (St 16%nat), (St 19%nat), (TQual QConst (TQual QVolatile (TPtr Tint))), (TQual QVolatile (TPtr (TQual QConst Tint))), "const int * volatile %s".
  split; [exact dbc_clean|].
  split; [eapply it_qual; [reflexivity|eapply (it_qual dbc (St 15%nat)); [reflexivity|exact tpint]]|].
  split; [eapply it_qual; [reflexivity|eapply (it_ptr dbc (St 18%nat)); [reflexivity|eapply (it_qual dbc (St 17%nat)); [reflexivity|exact tint]]]|].
  repeat split; reflexivity.
Qed.
Print Assumptions C45_qualifiers_refuted.

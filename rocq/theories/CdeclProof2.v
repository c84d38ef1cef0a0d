(** Proofs about declaration texts, part 2: the text declares the type. *)
From Coq Require Import ZArith String Ascii List Bool Lia DecimalString.
From Verif Require Import Base EntryModel CdeclModel CdeclSpec CdeclProof.
Import ListNotations.
Local Open Scope string_scope.

(** the declarator [D'] in place of the name in [D] *)
Fixpoint plug (D D' : dtor) : dtor :=
  match D with
  | DName => D'
  | DParen D => DParen (plug D D')
  | DArr D n => DArr (plug D D') n
  | DFun D ps => DFun (plug D D') ps
  | DPtr q D => DPtr q (plug D D')
  end.
Lemma means_plug : forall D D' T, means (plug D D') T = means D' (means D T).
Proof. induction D; intros; cbn; auto. destruct q; auto. Qed.
Lemma wraps_plug : forall D a b, wraps D a b -> forall D' a' b', wraps D' a' b' -> wraps (plug D D') (a ++ a') (b' ++ b).
Proof.
  induction 1; intros D' a' b' H'; cbn [plug]; norm.
  - exact H'.
  - replace (b' ++ b ++ ")") with ((b' ++ b) ++ ")") by (now norm). apply (wr_paren _ (a ++ a')). auto.
  - rewrite <- (sapp_assoc b' b). apply wr_arr. auto.
  - rewrite <- (sapp_assoc b' b). eapply (wr_fun _ (a ++ a')); eauto.
  - apply (wr_ptr _ (a ++ a')). auto.
  - apply (wr_qptr _ (a ++ a')). auto.
Qed.
(** the name in [D] may be replaced by a pointer declarator *)
Fixpoint open (D : dtor) : Prop :=
  match D with
  | DName => True
  | DParen D | DPtr _ D => open D
  | DArr D _ | DFun D _ => D <> DName /\ open D
  end.
Lemma direct_plug : forall D D', direct D -> D <> DName \/ direct D' -> direct (plug D D').
Proof. intros [] D' H [N|X]; cbn in *; auto. now elim N. Qed.
Lemma wf_plug : forall D D', well_formed D -> well_formed D' -> direct D' \/ open D -> well_formed (plug D D').
Proof.
  induction D; intros D' W W' O; cbn in *; auto.
  - destruct W as [X W]. destruct O as [O|[N O]]; (split; [apply direct_plug; auto|auto]).
  - destruct W as [X W]. destruct O as [O|[N O]]; (split; [apply direct_plug; auto|auto]).
Qed.
Lemma open_plug : forall D D', open D -> open D' -> D' <> DName -> open (plug D D').
Proof.
  induction D; intros D' O O' N; cbn in *; auto; destruct O as [M O]; (split; [|auto]); destruct D; cbn; try discriminate; now elim M.
Qed.

Scheme named_mut := Induction for named Sort Prop
  with flat_mut := Induction for flat Sort Prop
  with callable_mut := Induction for callable Sort Prop
  with regular_mut := Induction for regular Sort Prop
  with regular_fields_mut := Induction for regular_fields Sort Prop
  with regular_params_mut := Induction for regular_params Sort Prop.
Combined Scheme regular_all from named_mut, flat_mut, callable_mut, regular_mut, regular_fields_mut, regular_params_mut.

(** the parts of [T] are those of a declaration with the declarator [D] *)
Definition written (T : ctype) (D : dtor) : Prop :=
  exists T0 sp a b, specifies T0 sp /\ wraps D a b /\ well_formed D /\ means D T0 = T /\ parts T = (sp ++ " " ++ a, b).
Fixpoint stars (D : dtor) : Prop := match D with DName => True | DPtr _ D => stars D | _ => False end.
Lemma stars_open : forall D, stars D -> open D.
Proof. induction D; cbn; tauto. Qed.
Lemma stars_after : forall D, stars D -> forall a b, wraps D a b -> b = "".
Proof. induction D; cbn; intros H a b W; inversion W; subst; try tauto; eauto. Qed.
Lemma stars_plug : forall D D', stars D -> stars D' -> stars (plug D D').
Proof. induction D; cbn; tauto || auto. Qed.

Ltac conj5 := split; [|split; [|split; [|split]]]; auto.
Lemma written_text : forall T D h, written T D -> declares T h (put (parts T) h).
Proof.
  intros T D h (T0 & sp & a & b & S & W & F & M & P). rewrite P. unfold put. cbn [fst snd]. norm. subst T.
  exact (de_text T0 D h sp a b S W F).
Qed.
Lemma written_ptr : forall T D, written T D -> open D -> written (TPtr T) (plug D (DPtr None DName)).
Proof.
  intros T D (T0 & sp & a & b & S & W & F & M & P) O.
  exists T0, sp, (a ++ "* "), b. conj5.
  - apply (wraps_plug _ _ _ W _ "* " ""). apply (wr_ptr _ "" ""). constructor.
  - apply wf_plug; cbn; auto.
  - rewrite means_plug, M. reflexivity.
  - cbn [parts]. rewrite P. cbn [fst snd]. now norm.
Qed.
Lemma written_qptr : forall q T D, written T D -> open D -> written (TQual q (TPtr T)) (plug D (DPtr (Some q) DName)).
Proof.
  intros q T D (T0 & sp & a & b & S & W & F & M & P) O.
  exists T0, sp, (a ++ "* " ++ qual_word q ++ " "), b. conj5.
  - apply (wraps_plug _ _ _ W _ ("* " ++ qual_word q ++ " ") ""). apply (wr_qptr _ "" ""). constructor.
  - apply wf_plug; cbn; auto.
  - rewrite means_plug, M. reflexivity.
  - rewrite parts_qual. cbn [parts]. rewrite P. cbn [fst snd]. now norm.
Qed.
Lemma nameless_fst : forall ps, map (option_map fst) (nameless ps) = ps.
Proof. induction ps as [|[T|] ps IH]; [reflexivity| |]; cbn; f_equal; exact IH. Qed.

Lemma field_cons : forall T n b fs, String.concat "" (field_texts ((T, n, b) :: fs)) =
  trim (put (parts T) (field_name n b)) ++ "; " ++ String.concat "" (field_texts fs).
Proof. intros. cbn [field_texts map]. rewrite concat_cons. destruct fs; norm; reflexivity. Qed.
Lemma enumerates_text : forall l, enumerates l (enum_text l).
Proof.
  induction l as [|[n v] l IH]; [constructor|]. unfold enum_text in *. cbn [map fst snd]. rewrite concat_cons.
  destruct l as [|x l]; [rewrite sapp_nil; constructor|]. cbn [map] in *. norm. apply (en_more l n v x). exact IH.
Qed.

Lemma regular_written :
  (forall T, named T -> exists sp, specifies T sp /\ parts T = (sp ++ " ", "") /\ match T with TPtr _ => False | _ => True end) /\
  (forall T, flat T -> exists D, written T D /\ stars D) /\
  (forall T, callable T -> exists D, written T D /\ open D) /\
  (forall T, regular T -> exists D, written T D) /\
  (forall fs, regular_fields fs -> lists_fields fs (String.concat "" (field_texts fs))) /\
  (forall ps, regular_params ps -> forall qs, map (option_map fst) qs = ps -> lists_params qs (String.concat ", " (param_texts qs))).
Proof.
  apply (regular_all
    (fun T _ => exists sp, specifies T sp /\ parts T = (sp ++ " ", "") /\ match T with TPtr _ => False | _ => True end)
    (fun T _ => exists D, written T D /\ stars D)
    (fun T _ => exists D, written T D /\ open D)
    (fun T _ => exists D, written T D)
    (fun fs _ => lists_fields fs (String.concat "" (field_texts fs)))
    (fun ps _ => forall qs, map (option_map fst) qs = ps -> lists_params qs (String.concat ", " (param_texts qs)))); intros.
  - exists "void". split; [constructor|split; [reflexivity|exact I]].
  - exists n. split; [constructor|split; [reflexivity|exact I]].
  - exists ("enum " ++ n). split; [constructor|split; [|exact I]]. cbn [parts]. now norm.
  - exists ("enum {" ++ enum_text l ++ "}"). split; [constructor; apply enumerates_text|split; [|exact I]]. cbn [parts]. now norm.
  - exists (aggr_word u ++ " " ++ n). split; [constructor|split; [|exact I]]. cbn [parts]. now norm.
  - exists (aggr_word u ++ " {" ++ String.concat "" (field_texts fs) ++ "}"). split; [now constructor|split; [|exact I]]. rewrite parts_aggr. now norm.
  - destruct H as (sp & S & P & NP). exists (qual_word q ++ " " ++ sp). split; [now constructor|split; [|exact I]].
    rewrite parts_qual. rewrite P. destruct T; cbn [fst snd]; try (now elim NP); now norm.
  - destruct H as (sp & S & P & _). exists DName. split; [|exact I]. exists T, sp, "", "". 
    split; [exact S|]. split; [apply wr_name|]. split; [exact I|]. split; [reflexivity|]. rewrite P. now norm.
  - destruct H as (D & W & O). exists (plug D (DPtr None DName)). split; [apply written_ptr; auto using stars_open|apply stars_plug; cbn; auto].
  - destruct H as (D & W & O). exists (plug D (DPtr (Some q) DName)). split; [apply written_qptr; auto using stars_open|apply stars_plug; cbn; auto].
  - destruct H as (D & (T0 & sp & a & b & S & W & F & M & P) & O).
    assert (b = "") by (exact (stars_after D O a b W)). subst b.
    exists (plug D (DFun (DParen DName) (nameless ps))). split.
    + exists T0, sp, (a ++ "("), (")(" ++ String.concat ", " (param_texts (nameless ps)) ++ ")"). conj5.
      * pose proof (wraps_plug _ _ _ W (DFun (DParen DName) (nameless ps)) "(" (")" ++ "(" ++ String.concat ", " (param_texts (nameless ps)) ++ ")")) as X.
        rewrite sapp_nil in X. apply X. apply wr_fun; [apply (wr_paren _ "" ""); constructor|].
        apply H0. apply nameless_fst.
      * apply wf_plug; cbn; auto.
      * rewrite means_plug, M. cbn. now rewrite nameless_fst.
      * rewrite parts_fun, P. cbn [fst snd]. now norm.
    + apply open_plug; [now apply stars_open|cbn; split; [discriminate|exact I]|discriminate].
  - destruct H as (D & W & O). exists (plug D (DPtr None DName)). split; [now apply written_ptr|apply open_plug; cbn; auto; discriminate].
  - destruct H as (D & W & O). exists (plug D (DPtr (Some q) DName)). split; [now apply written_qptr|apply open_plug; cbn; auto; discriminate].
  - destruct H as (D & W & _). eauto.
  - destruct H as (D & W & _). eauto.
  - destruct H as (D & T0 & sp & a & b & S & W & F & M & P).
    exists (plug D (DArr DName n)), T0, sp, a, (arr_text n ++ b). conj5.
    + pose proof (wraps_plug _ _ _ W (DArr DName n) "" (arr_text n)) as X. rewrite sapp_nil in X. apply X.
      apply (wr_arr _ "" ""). constructor.
    + apply wf_plug; cbn; auto.
    + rewrite means_plug, M. reflexivity.
    + cbn [parts]. rewrite P. reflexivity.
  - constructor.
  - rewrite field_cons. destruct H as (D & W). eapply lf_cons; [|apply trim_trimmed|exact H0].
    apply (written_text _ _ (field_name n b) W).
  - destruct qs; [constructor|discriminate].
  - destruct qs as [|[[T h]|] qs]; try discriminate. injection H0 as E. cbn [param_texts map]. rewrite concat_cons.
    specialize (H qs E). destruct qs as [|y qs]; [rewrite sapp_nil; constructor; constructor|].
    cbn [param_texts map] in *. apply lp_more; [constructor|exact H].
  - destruct qs as [|[[T' h]|] qs]; try discriminate. injection H1 as -> E. destruct H as (D & W).
    cbn [param_texts map]. rewrite concat_cons.
    assert (IP : is_param (Some (T, h)) (trim (put (parts T) h))).
    { econstructor; [exact (written_text _ _ h W)|apply trim_trimmed]. }
    specialize (H0 qs E). destruct qs as [|y qs]; [rewrite sapp_nil; now constructor|].
    cbn [param_texts map] in *. apply lp_more; [exact IP|exact H0].
Qed.
Lemma regular_declares : forall T h, regular T -> declares T h (put (parts T) h).
Proof. intros T h R. destruct regular_written as (_ & _ & _ & X & _). destruct (X T R) as (D & W). exact (written_text _ _ h W). Qed.

(** * Entry points *)
Section Entries.
Variable d : db.
Hypothesis DB : forall r, clean (d r).

Lemma type_text : forall p T, is_type d (Some p) T -> clean (deref d p) -> returns (fun k => entry_cdecl k d (Some p)) (Some (text T)).
Proof. intros p T H C. exact (proj1 (types_eval d DB) _ _ H C). Qed.
Lemma type_one_hole : forall p T, is_type d p T -> clean_ptr d p -> one_hole (text T).
Proof.
  intros p T H C. destruct (proj1 (types_clean d DB) _ _ H C) as [A B]. exists (fst (parts T)), (snd (parts T)). auto.
Qed.
Lemma cdecl_placeholder : forall p T, is_type d (Some p) T -> clean (deref d p) ->
  exists s, returns (fun k => entry_cdecl k d (Some p)) (Some s) /\ one_hole s.
Proof. intros p T H C. exists (text T). split; [now apply type_text|now apply (type_one_hole _ _ H)]. Qed.
Lemma cdecl_regular : forall p T, is_type d (Some p) T -> clean (deref d p) -> regular T ->
  exists s, returns (fun k => entry_cdecl k d (Some p)) (Some s) /\ declares T "%s" s.
Proof. intros p T H C R. exists (text T). split; [now apply type_text|now apply regular_declares]. Qed.

Lemma variable_text : forall p n t T, e_info (deref d p) = IVariable t -> e_name (deref d p) = Some n -> is_type d (lift t) T ->
  returns (fun k => entry_cdecl k d (Some p)) (Some (put (parts T) n)).
Proof.
  intros p n t T I N H. cbn [entry_cdecl]. apply (evals_S _ (fun k => cdecl k d p)); [reflexivity|].
  eapply evals_ext; [intros k; cbn [cdecl]; rewrite I, N; rewrite (sub_lift d k t); reflexivity|].
  eapply evals_bind; [exact (proj1 (types_eval d DB) _ _ H (clean_lift d DB t))|].
  destruct (proj1 (types_clean d DB) _ _ H (clean_lift d DB t)) as [A B].
  cbv beta iota. unfold text, put. rewrite fmt_hole by assumption. cbn [bind]. apply evals_ret.
Qed.
Lemma cdecl_variable : forall p n r T, e_info (deref d p) = IVariable (Some r) -> e_name (deref d p) = Some n -> is_type d (Some (St r)) T ->
  exists a b, no_percent a /\ no_percent b /\
    returns (fun k => entry_cdecl k d (Some (St r))) (Some (a ++ "%s" ++ b)) /\
    returns (fun k => entry_cdecl k d (Some p)) (Some (a ++ n ++ b)).
Proof.
  intros p n r T I N H. destruct (proj1 (types_clean d DB) _ _ H (DB r)) as [A B].
  exists (fst (parts T)), (snd (parts T)). split; [exact A|]. split; [exact B|]. split; [exact (type_text _ _ H (DB r))|].
  exact (variable_text p n (Some r) T I N H).
Qed.
Lemma cdecl_variable_declares : forall p n t T, e_info (deref d p) = IVariable t -> e_name (deref d p) = Some n -> is_type d (lift t) T ->
  regular T -> exists s, returns (fun k => entry_cdecl k d (Some p)) (Some s) /\ declares T n s.
Proof. intros p n t T I N H R. exists (put (parts T) n). split; [exact (variable_text p n t T I N H)|now apply regular_declares]. Qed.

Lemma collect_filter : forall l ps, are_params d l ps ->
  filter (fun r => match e_info (d r) with IParam _ _ => true | _ => false end) l = l.
Proof. intros l ps H. induction H; cbn; [reflexivity| |]; rewrite H; now rewrite IHare_params. Qed.
Lemma function_text : forall p n t T l ps, e_info (deref d p) = ISubprogram t l -> e_name (deref d p) = Some n ->
  is_type d (lift t) T -> are_params d l ps ->
  returns (fun k => entry_cdecl k d (Some p)) (Some (fst (parts T) ++ n ++ snd (parts T) ++ "(" ++ String.concat ", " (param_texts ps) ++ ")")).
Proof.
  intros p n t T l ps I N H PS. cbn [entry_cdecl]. apply (evals_S _ (fun k => cdecl k d p)); [reflexivity|].
  eapply evals_ext; [intros k; cbn [cdecl]; rewrite I, N; rewrite (sub_lift d k t); rewrite (collect_filter l ps PS); reflexivity|].
  eapply evals_bind; [exact (proj1 (types_eval d DB) _ _ H (clean_lift d DB t))|].
  eapply evals_bind; [exact (proj1 (proj2 (proj2 (types_eval d DB)) _ _ PS))|].
  destruct (proj1 (types_clean d DB) _ _ H (clean_lift d DB t)) as [A B]. cbv beta iota.
  rewrite (params_text _ (params_clean d DB _ _ PS)). cbn [bind].
  assert (F : fmt "%s(%s)" [Some (text T); Some "%s"] = Ret (text T ++ "(%s)")) by (cbn; reflexivity).
  rewrite F. cbn [bind]. unfold text, put. rewrite fmt_call by assumption. cbn [bind].
  destruct ps; apply evals_ret.
Qed.
Lemma cdecl_function_declares : forall p n t T l ps, e_info (deref d p) = ISubprogram t l -> e_name (deref d p) = Some n ->
  is_type d (lift t) T -> are_params d l ps -> flat T -> regular_params (map (option_map fst) ps) ->
  exists s, returns (fun k => entry_cdecl k d (Some p)) (Some s) /\ declares (TFun T (map (option_map fst) ps)) n s.
Proof.
  intros p n t T l ps I N H PS F RP. eexists. split; [exact (function_text p n t T l ps I N H PS)|].
  destruct regular_written as (_ & X & _ & _ & _ & Y).
  destruct (X T F) as (D & (T0 & sp & a & b & S & W & WF & M & P) & O).
  assert (b = "") by (exact (stars_after D O a b W)). subst b.
  rewrite P. cbn [fst snd]. rewrite <- M.
  pose proof (Y _ RP ps eq_refl) as L.
  pose proof (wraps_plug _ _ _ W (DFun DName ps) "" _ (wr_fun _ "" "" _ _ wr_name L)) as W'.
  rewrite !sapp_nil in W'.
  pose proof (de_text T0 (plug D (DFun DName ps)) n sp _ _ S W') as Z. rewrite means_plug in Z. cbn [means] in Z.
  norm. norm. cbn [append] in Z. apply Z. apply wf_plug; cbn; auto.
Qed.
Lemma cdecl_null : forall p, match e_info (deref d p) with IMember _ | IParam _ _ | IReference _ _ _ | IOther _ | IAggr AClass _ _ => True | _ => False end ->
  returns (fun k => entry_cdecl k d (Some p)) None.
Proof.
  intros p H. cbn [entry_cdecl]. apply (evals_S _ (fun k => cdecl k d p)); [reflexivity|].
  eapply evals_ext; [intros k; cbn [cdecl]; reflexivity|].
  destruct (e_info (deref d p)) as [| | | | | | | |[]| | | | |]; try (now elim H); apply evals_ret.
Qed.
End Entries.

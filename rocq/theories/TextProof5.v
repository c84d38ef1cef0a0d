(** Making the text of a value comes to an end. *)
From Coq Require Import ZArith String Ascii List Bool HexString Lia ZifyBool.
From Verif Require Import Base BaseProof EntryModel EntrySpec EntryProof ValueModel ValueSpec ValueProof ValueProof2 DeepModel DeepSpec DeepProof DeepProof2 DeepProof3 DeepProof4 DeepProof5 DeepProof6 DeepProof8 MoveProof CdeclModel TextModel TextSpec TextProof TextProof2 TextProof3 TextProof4.
From Verif Require EscapeModel CdeclSpec.
Import ListNotations.
Open Scope Z_scope.
Local Open Scope string_scope.

Lemma fmt_runs : forall f a, runs (fmt f a).
Proof.
  assert (X : forall n f, (String.length f <= n)%nat -> forall a, runs (fmt f a)).
  { induction n as [|n IH]; intros [|c f] L a; try (cbn in L; lia); try discriminate. cbn [String.length] in L. cbn [fmt]. destruct (Ascii.eqb c "%").
    - destruct f as [|c2 f]; [discriminate|]. cbn [String.length] in L. destruct (Ascii.eqb c2 "s").
      + destruct a as [|[a|] r]; try discriminate. apply bind_runs; [apply IH; lia|discriminate].
      + destruct (Ascii.eqb c2 "%"); [|discriminate]. apply bind_runs; [apply IH; lia|discriminate].
    - apply bind_runs; [apply IH; lia|discriminate]. }
  intros f a. eapply X. apply le_n.
Qed.
Lemma collect_runs : forall A B (f : A -> res B) l, (forall a, In a l -> runs (f a)) -> runs (collect f l).
Proof.
  intros A B f l H. induction l as [|a l IH]; [discriminate|]. cbn [collect]. apply bind_runs; [apply H; left; reflexivity|]. intros b _.
  apply bind_runs; [apply IH; intros x X; apply H; right; exact X|]. discriminate.
Qed.
Lemma enumerators_runs : forall l o, runs (enumerators l o).
Proof. induction l as [|[n v] l IH]; intro o; [discriminate|]. cbn [enumerators]. apply bind_runs; [apply fmt_runs|]. intros; apply IH. Qed.
Lemma fields_runs : forall l o, runs (fields l o).
Proof.
  induction l as [|[[mi nm] [t|]] l IH]; intro o; try discriminate. cbn [fields]. apply bind_runs.
  - destruct nm; [|discriminate]. destruct (m_bit_size mi); (apply bind_runs; [apply fmt_runs|discriminate]).
  - intros; repeat (apply bind_runs; [apply fmt_runs|intros]). apply IH.
Qed.
Lemma params_runs : forall l o, runs (params l o).
Proof.
  induction l as [|[p|] l IH]; intro o; try discriminate. cbn [params]. apply bind_runs.
  - destruct p as [[a b]|]; [|discriminate]. apply bind_runs; [apply fmt_runs|discriminate].
  - intros; repeat (apply bind_runs; [apply fmt_runs|intros]). apply IH.
Qed.
Section Decl.
Variable d : db.
Variable n : nat.
Variable rank : ref -> nat.
Hypothesis R1 : forall r, (rank r < n)%nat.
Hypothesis R2 : forall r t, spelled d (d r) t -> (rank t < rank r)%nat.
Definition dr (p : eptr) : nat := match p with St r => rank r | Dy _ => n end.
Lemma cdecl_runs : forall k p, (dr p < k)%nat -> runs (cdecl k d p).
Proof.
  induction k as [|k IH]; intros p L; [lia|]. cbn [cdecl].
  assert (S : forall t, spelled d (deref d p) t -> runs (cdecl k d (St t))).
  { intros t X. apply IH. cbn [dr]. destruct p as [r|e]; cbn [dr deref] in *; [specialize (R2 _ _ X); lia|specialize (R1 t); lia]. }
  assert (F : forall f a, runs (bind (fmt f a) (fun s => Ret (Some s)))) by (intros; apply bind_runs; [apply fmt_runs|discriminate]).
  assert (P : forall named (t0 : option ref) l, e_info (deref d p) = ISubprogram t0 l \/ e_info (deref d p) = ISubroutine t0 l -> forall r, In r l -> runs
     match e_info (d r) with
      | IParam true _ => Ret (Some None)
      | IParam false None => Ret None
      | IParam false (Some t) =>
          bind (cdecl k d (St t)) (fun s =>
          Ret (match s with
               | None => None
               | Some pat => Some (Some (pat, if named : bool then match e_name (d r) with Some n => n | None => "" end else ""))
               end))
      | _ => Abort
      end).
  { intros named t0 l I r IR. destruct (e_info (d r)) as [ | | | | | | | | | |u t| | | ] eqn:J; try discriminate. destruct u; [discriminate|]. destruct t as [t|]; [|discriminate].
    apply bind_runs; [|discriminate]. apply S. eapply sl_param; eassumption. }
  destruct (e_info (deref d p)) as [t|q t|z c|t|rn rt ct|z l|t c|mi|k' z l|t|u t|t l|t l|x] eqn:I; try discriminate; try apply F.
  - apply bind_runs; [destruct t as [t|]; [apply S; eapply sl_qual; eassumption|discriminate]|]. intros [s|] _; [|discriminate]. destruct t as [t|]; [|apply F]. destruct (e_info (d t)); apply F.
  - apply bind_runs; [destruct t as [t|]; [apply S; eapply sl_pointer; eassumption|discriminate]|]. intros [s|] _; [|discriminate]. apply F.
  - destruct (e_name (deref d p)); [apply F|]. apply bind_runs; [apply enumerators_runs|]. intros; apply F.
  - apply bind_runs; [destruct t as [t|]; [apply S; eapply sl_array; eassumption|discriminate]|]. intros [s|] _; [|discriminate]. apply bind_runs; [destruct (0 <=? c)%Z; [apply fmt_runs|discriminate]|]. intros; apply F.
  - assert (X : forall kw, runs match e_name (deref d p) with
        | Some n => bind (fmt "%s %s %%s" [Some kw; Some n]) (fun s => Ret (Some s))
        | None =>
          bind (collect (fun r => match e_info (d r) with
                                     | IMember m => bind (match m_type m with None => Ret (Some "void %s") | Some r => cdecl k d (St r) end) (fun s => Ret (m, e_name (d r), s))
                                     | _ => Ub
                                     end) l) (fun fs =>
          bind (fields fs None) (fun x =>
          match x with
          | None => Ret None
          | Some v => bind (fmt "%s {%s} %%s" [Some kw; Some (match v with Some y => y | None => "" end)]) (fun s => Ret (Some s))
          end))
        end).
    { intro kw. destruct (e_name (deref d p)) eqn:NM; [apply F|]. apply bind_runs.
      - apply collect_runs. intros r IR. destruct (e_info (d r)) as [ | | | | | | |mi| | | | | | ] eqn:J; try discriminate. apply bind_runs; [|discriminate].
        destruct (m_type mi) as [t|] eqn:MT; [|discriminate]. apply S. eapply sl_member; eassumption.
      - intros fs _. apply bind_runs; [apply fields_runs|]. intros [x|] _; [|discriminate]. apply F. }
    destruct k'; try discriminate; apply X.
  - apply bind_runs; [destruct t as [t|]; [apply S; eapply sl_variable; eassumption|discriminate]|]. intros [s|] _; [|discriminate]. apply F.
  - apply bind_runs; [destruct t as [t|]; [apply S; eapply sl_result; left; eassumption|discriminate]|]. intros s _. apply bind_runs.
    + apply collect_runs. intros r IR. apply filter_In in IR. destruct IR as [IR _]. eapply (P true); [left; reflexivity|exact IR].
    + intros ps _. destruct s as [s|]; [|discriminate]. apply bind_runs; [apply params_runs|]. intros [x|] _; [|discriminate]. apply bind_runs; [apply fmt_runs|]. intros; apply F.
  - apply bind_runs; [destruct t as [t|]; [apply S; eapply sl_result; right; eassumption|discriminate]|]. intros s _. apply bind_runs.
    + apply collect_runs. intros r IR. eapply (P false); [right; reflexivity|exact IR].
    + intros ps _. destruct s as [s|]; [|discriminate]. apply bind_runs; [apply params_runs|]. intros [x|] _; [|discriminate]. apply bind_runs; [apply fmt_runs|]. intros; apply F.
Qed.
Lemma entry_cdecl_runs : forall k p, (n < k)%nat -> runs (entry_cdecl k d p).
Proof. intros k [p|] L; [|discriminate]. cbn [entry_cdecl]. apply cdecl_runs. destruct p as [r|e]; cbn [dr]; [specialize (R1 r); lia|exact L]. Qed.
End Decl.

Section TextRuns.
Variable E : env.
Variables tagged deep : bool.
Variable float_text : ctype -> Z -> string.
Variable n0 : nat.
Notation n := (en_fuel E).
Notation d := (en_db E).
Hypothesis A : acyclic d n0.
Hypothesis N : n = (n0 + 3)%nat.
Ltac step := first
  [ discriminate
  | apply (final_if_runs E n0 A N) | apply (byte_size_runs E n0 A N) | apply (final_entry_runs E n0 A N) | assumption
  | apply (is_runs E n0 A N) | apply (get_runs E n0 A N) | apply (enum_runs E n0 A N) | apply (pointer_runs E n0 A N) | apply (kind_is_runs E n0 A N)
  | apply (final_info_runs E n0 A N) | apply (members_runs E n0 A N) | apply (elements_runs E n0 A N) | apply (count_value_runs E n0 A N) | apply (loop_runs E n0 A N)
  | match goal with |- runs (bind _ _) => apply bind_runs; [|intros] end
  | match goal with |- runs (match ?x with _ => _ end) => destruct x end ].
Ltac go := repeat step.
Lemma number_text_runs : forall c x, runs (number_text float_text c x).
Proof. intros c x. unfold number_text. go. Qed.
Lemma base_text_runs : forall m v, runs (base_text E float_text m v).
Proof.
  intros m v. unfold base_text. generalize all_types as l. induction l as [|c l IH]; [discriminate|]. cbn [base_text_loop]. go. apply number_text_runs.
Qed.
Lemma enum_text_runs : forall m v, runs (enum_text E m v).
Proof. intros. unfold enum_text, value_enumeration_to_name, enumeration_to_name. go. Qed.
Lemma pointer_text_runs : forall m v, runs (pointer_text E m v).
Proof. intros. unfold pointer_text. go. Qed.
Lemma printable_runs : forall m v, runs (printable_text E m v).
Proof. intros. unfold printable_text, element_entry, element_count. go. Qed.
Lemma done_runs : forall x, runs x -> runs (done x).
Proof. intros. unfold done. go. Qed.
Hypothesis HR : forall m ev l, runs (en_handler E m ev l).
Lemma ask_runs : forall tg m ev l, runs (ask E tg m ev l).
Proof. intros. unfold ask. destruct tg; [apply HR|discriminate]. Qed.
Lemma tlook_runs : forall m anc v, runs (tlook E tagged deep float_text m anc v).
Proof.
  intros m anc v.
  assert (L1 : forall k, runs (tlook_aggr E tagged m k anc v)) by (intro k; unfold tlook_aggr, member_count; go; apply ask_runs).
  assert (L2 : runs (tlook_array E tagged m anc v)) by (unfold tlook_array, element_count; go; try apply printable_runs; apply ask_runs).
  assert (L3 : runs (tlook_pointer E tagged deep m anc v)).
  { unfold tlook_pointer, is_void_pointer, level_introduced_loop. go; try apply done_runs; try apply pointer_text_runs; try apply ask_runs; go. }
  assert (LL : runs (bind (final_info E v) (fun f => match f with
    | Some (IBase _ _) => done (base_text E float_text m v)
    | Some (IEnum _ _) => done (enum_text E m v)
    | Some (IAggr AStruct _ _) => tlook_aggr E tagged m AStruct anc v
    | Some (IAggr AUnion _ _) => tlook_aggr E tagged m AUnion anc v
    | Some (IArray _ _) => tlook_array E tagged m anc v
    | Some (IPointer _) => tlook_pointer E tagged deep m anc v
    | Some (ISubprogram _ _) | Some (ISubroutine _ _) => Abort
    | _ => Ret TFail
    end))).
  { apply bind_runs; [apply (final_info_runs E n0 A N)|]. intros f _. destruct f as [[ | | | | | | | |[]| | | | | ]|]; try discriminate; try assumption; try apply L1;
      apply done_runs; first [apply base_text_runs|apply enum_text_runs]. }
  unfold tlook. destruct (e_info (deref d (v_entry v))) as [ | | | | | | | | | |u t| | | ]; try exact LL. destruct u; [discriminate|exact LL].
Qed.
End TextRuns.

Section TextRank.
Variable E : env.
Variables tagged deep : bool.
Variable float_text : ctype -> Z -> string.
Variable n0 n1 : nat.
Variable rank rank1 : ref -> nat.
Notation n := (en_fuel E).
Notation d := (en_db E).
Hypothesis Rb : forall r, (rank r < n0)%nat.
Hypothesis Rn : forall r t, nested (e_info (d r)) t -> (rank t < rank r)%nat.
Hypothesis Q1 : forall r, (rank1 r < n1)%nat.
Hypothesis Q2 : forall r t, spelled d (d r) t -> (rank1 t < rank1 r)%nat.
Hypothesis N : n = (n0 + 3)%nat.
Hypothesis T : tame E.
Notation er := (er n0 rank).
Let A : acyclic d n0 := rank_acyclic E n0 rank Rb Rn.

Lemma info_nested : forall v i t, has_info d v i -> nested i t -> (rank t < er (v_entry v))%nat.
Proof.
  intros v i t [e [F Q]] X. pose proof (er_final E n0 rank Rb Rn N (v_entry v) e F). rewrite <- Q in X. apply (er_nested E n0 rank Rb Rn) in X. lia.
Qed.
Lemma parts_rank : forall m anc v ch y, parts E tagged m anc v ch -> In y ch -> (er (v_entry y) < er (v_entry v))%nat.
Proof.
  intros m anc v ch y P I. destruct T as [_ [TU _]]. inversion P as [z l ch' H F|z l w H NE TG HD|z l H HD]; subst.
  - assert (X : exists r, In r l /\ member_is d v r y).
    { clear - F I. induction F as [|r w l ch X F IH]; [destruct I|]. destruct I as [<-|I]; [exists r; split; [left; reflexivity|exact X]|].
      destruct (IH I) as [r' [R1 R2]]. exists r'. split; [right; exact R1|exact R2]. }
    destruct X as [r [R1 [mi [R2 [-> _]]]]]. eapply info_nested; [exact H|]. right. exists AStruct, z, l. split; [reflexivity|exact R1].
  - destruct I as [<-|[]]. destruct (TU _ _ _ _ _ _ H HD) as [r [mi [R1 [-> _]]]]. eapply info_nested; [exact H|]. right. exists AUnion, z, l. split; [reflexivity|exact R1].
  - destruct I.
Qed.
Lemma dynamic_info : forall w t0 c0 i, v_entry w = Dy (Build_entry None false (IArray (Some t0) c0)) -> has_info d w i -> i = IArray (Some t0) c0.
Proof.
  intros w t0 c0 i Q [e [F1 F2]]. rewrite Q in F1.
  assert (Some e = Some (Dy (Build_entry None false (IArray (Some t0) c0)))).
  { eapply final_type_fun; [exact F1|]. exists []. apply res_stop. intros t1 q1 SF. inversion SF. }
  assert (e = Dy (Build_entry None false (IArray (Some t0) c0))) by congruence. subst e. cbn in F2. congruence.
Qed.
Lemma items_rank : forall m anc v a ch y, array_of E tagged m anc v a -> elements_are d a ch -> In y ch -> (er (v_entry y) < er (v_entry v))%nat.
Proof.
  intros m anc v a ch y AO (t' & c' & I' & _ & EL) I. destruct EL as (r & z & -> & _ & EL); [intro Q; subst; destruct I|].
  apply In_nth_error in I. destruct I as [i I]. destruct (EL _ _ I) as [-> _]. cbn [v_entry].
  change (er (St r)) with (rank r). destruct T as [_ [_ TF]].
  assert (X : exists t c, has_info d v (IArray t c) /\ t = Some r).
  { inversion AO as [t c H C|t c w H C TG HD|t c H C TG VA]; subst.
    - exists (Some r), c'. split; [exact I'|reflexivity].
    - destruct (TF _ _ _ _ _ _ H HD) as (t0 & c1 & -> & W). pose proof (dynamic_info _ _ _ _ W I') as Q. injection Q as -> _. exists (Some t0), c. split; [exact H|reflexivity].
    - pose proof (dynamic_info (array_at t 0 (v_addr v)) t 0 _ eq_refl I') as Q. injection Q as -> _. exists (Some t), c. split; [exact H|reflexivity]. }
  destruct X as (t & c & H & ->). eapply info_nested; [exact H|]. left. right. left. exists c. reflexivity.
Qed.
(** what the dispatch finds *)
Definition next (m : mem) (anc : list value) (v : value) (w : tview) : Prop :=
  match w with
  | TFields ch => parts E tagged m anc v ch
  | TItems ch => exists a, array_of E tagged m anc v a /\ elements_are d a ch
  | TPtr a => followed E tagged deep m anc v a
  | _ => True
  end.
Lemma elements_next : forall a c ch, elements_from E a (Z.to_nat c) 0 = Ret (Some ch) -> element_count n d (Some (v_entry a)) = Ret c -> ch = [] \/ elements_are d a ch.
Proof.
  intros a c ch CH EC. destruct (elements_sound E a _ 0%nat ch CH) as [L X]. destruct ch as [|y ch]; [left; reflexivity|]. right.
  destruct (X ltac:(discriminate)) as (t' & k & r & z & I' & -> & HS & EL). rewrite (count_make E n0 A N a _ _ I') in EC. injection EC as <-.
  exists (Some r), k. split; [exact I'|]. split; [exact L|]. intros _. exists r, z. split; [reflexivity|]. split; [exact HS|]. exact EL.
Qed.
Lemma array_next : forall m anc v t c w ch y, has_info d v (IArray t c) -> tlook_array E tagged m anc v = Ret w -> w = TItems ch -> In y ch ->
  exists a, array_of E tagged m anc v a /\ elements_are d a ch.
Proof.
  intros m anc v t c w ch y I H -> IY. unfold tlook_array in H. rewrite (count_make E n0 A N v _ _ I) in H. cbn [bind] in H. apply bind_ret in H. destruct H as [lo [LO H]].
  assert (G : forall a, array_of E tagged m anc v a -> bind (printable_text E m a) (fun p =>
    match p with
    | Some s => Ret (TDone (String quote (s ++ String quote "")))
    | None => bind (element_count n d (Some (v_entry a))) (fun c => bind (elements_from E a (Z.to_nat c) 0) (fun l => Ret (match l with Some l => TItems l | None => TFail end)))
    end) = Ret (TItems ch) -> exists a, array_of E tagged m anc v a /\ elements_are d a ch).
  { intros a AO X. apply bind_ret in X. destruct X as [[s|] [_ X]]; [discriminate|]. apply bind_ret in X. destruct X as [c0 [EC X]]. apply bind_ret in X. destruct X as [[l|] [EF X]]; [|discriminate].
    injection X as ->. exists a. split; [exact AO|]. destruct (elements_next _ _ _ EF EC) as [->|EA]; [destruct IY|exact EA]. }
  destruct (Z.eqb_spec (int_of c) (-1)) as [C|C].
  - destruct tagged eqn:TG.
    + apply bind_ret in LO. destruct LO as [[hs hw] [AK LO]]. cbn [fst snd] in LO. destruct (Z.eqb_spec hs 0) as [->|]; [|injection LO as <-; discriminate]. cbn [negb] in LO.
      unfold ask in AK. destruct hw as [hw|]; injection LO as <-; [|discriminate].
      eapply G; [|exact H]. eapply ar_handled; eauto.
    + apply bind_ret in LO. destruct LO as [nw [NW LO]]. destruct nw as [nw|]; injection LO as <-; [|discriminate].
      assert (X : exists r, t = Some r /\ v_addr v <> 0 /\ nw = array_at r 0 (v_addr v)).
      { pose proof I as [e [F J]]. unfold new_element_count_value, new_element_count_entry in NW. rewrite N in NW. rewrite !(final_if_type d n0 _ e) in NW by assumption. rewrite J in NW. cbn [is_array_info is_pointer_info orb bind andb] in NW.
        rewrite ?J in NW. cbn [is_array_info is_pointer_info orb bind andb] in NW. rewrite ?J in NW. cbn [is_array_info is_pointer_info orb bind andb] in NW. destruct t as [r|]; [|discriminate]. cbn [bind] in NW. unfold new_value in NW. destruct (Z.eqb_spec (v_addr v) 0); [discriminate|].
        injection NW as <-. exists r. split; [reflexivity|]. split; [assumption|reflexivity]. }
      destruct X as (r & -> & VA & ->). eapply G; [|exact H]. eapply ar_empty; eauto.
  - injection LO as <-. eapply G; [|exact H]. eapply ar_known; eauto.
Qed.
Lemma pointer_next : forall m anc v t a, has_info d v (IPointer t) -> tlook_pointer E tagged deep m anc v = Ret (TPtr a) ->
  exists p, points d m v t p /\ p <> 0 /\ no_loop d m anc p.
Proof.
  intros m anc v t a I H.
  assert (P : points d m v t (number_at m (v_addr v) 8)) by (split; [exact I|reflexivity]).
  remember (number_at m (v_addr v) 8) as p eqn:PE. clear PE.
  assert (DN : forall w, done (pointer_text E m v) = Ret w -> w <> TPtr a).
  { intros w D Q. apply done_other in D. destruct D as [[s ->]| ->]; discriminate. }
  unfold tlook_pointer in H. destruct deep eqn:DP; cbn [negb] in H; [|exfalso; eapply DN; [exact H|reflexivity]].
  rewrite (pointer_make E n0 A N m v t p P) in H. cbn [bind] in H. destruct (Z.eqb_spec p 0) as [P0|NZ]; [exfalso; eapply DN; [exact H|reflexivity]|].
  apply bind_ret in H. destruct H as [lv [LV H]]. destruct (0 <? lv)%Z eqn:L0; [discriminate|].
  exists p. split; [exact P|]. split; [exact NZ|]. destruct (level_sound _ _ _ _ _ _ _ LV P) as [[_ X]|[X _]]; [exact X|lia].
Qed.
Lemma tlook_next : forall m anc v w, tlook E tagged deep float_text m anc v = Ret w ->
  match w with
  | TFields ch => forall y, In y ch -> (er (v_entry y) < er (v_entry v))%nat
  | TItems ch => forall y, In y ch -> (er (v_entry y) < er (v_entry v))%nat
  | TPtr a => exists t p, points d m v t p /\ p <> 0 /\ no_loop d m anc p
  | _ => True
  end.
Proof.
  intros m anc v w H. unfold tlook in H.
  assert (H' : bind (final_info E v) (fun f => match f with
    | Some (IBase _ _) => done (base_text E float_text m v)
    | Some (IEnum _ _) => done (enum_text E m v)
    | Some (IAggr AStruct _ _) => tlook_aggr E tagged m AStruct anc v
    | Some (IAggr AUnion _ _) => tlook_aggr E tagged m AUnion anc v
    | Some (IArray _ _) => tlook_array E tagged m anc v
    | Some (IPointer _) => tlook_pointer E tagged deep m anc v
    | Some (ISubprogram _ _) | Some (ISubroutine _ _) => Abort
    | _ => Ret TFail
    end) = Ret w) by (destruct (e_info (deref d (v_entry v))) as [ | | | | | | | | | |u t| | | ]; try exact H; destruct u; [discriminate|exact H]).
  clear H. rename H' into H. apply bind_ret in H. destruct H as [f [F H]]. destruct f as [i|]; [|injection H as <-; exact Logic.I].
  apply final_info_some in F. 
  assert (DN : forall x, done x = Ret w -> match w with TFields _ | TItems _ | TPtr _ => False | _ => True end).
  { intros x D. apply done_other in D. destruct D as [[s ->]| ->]; exact Logic.I. }
  assert (AG : forall k z l, has_info d v (IAggr k z l) -> k = AStruct \/ k = AUnion -> tlook_aggr E tagged m k anc v = Ret w -> 
     match w with TFields ch => parts E tagged m anc v ch | TDone _ | TFail => True | _ => False end).
  { intros k z l I K X. pose proof (aggr_sound E tagged deep float_text n0 A N m anc v k z l w I K X) as Y. unfold tlook_aggr in X. apply bind_ret in X. destruct X as [mc [_ X]].
    destruct K as [-> | ->].
    - apply bind_ret in X. destruct X as [[ch|] [_ X]]; injection X as <-; exact Y.
    - destruct (0 <? mc)%Z; [|injection X as <-; exact Y]. apply bind_ret in X. destruct X as [h [_ X]]. destruct (negb (fst h =? 0)%Z); injection X as <-; exact Y. }
  destruct i as [ | |z c| | |z l|t c| |[]  z l| | |t l|t l| ]; try (injection H as <-; exact Logic.I); try discriminate.
  - apply DN in H. destruct w; tauto.
  - destruct w; try exact Logic.I.
    + exfalso. unfold tlook_pointer in H. repeat first [discriminate H | match type of H with done _ = _ => apply DN in H; exact H | bind _ _ = _ => apply bind_ret in H; destruct H as [? [_ H]] | (match ?x with _ => _ end) = _ => destruct x | Ret (match ?x with _ => _ end) = _ => destruct x end].
    + exfalso. unfold tlook_pointer in H. repeat first [discriminate H | match type of H with done _ = _ => apply DN in H; exact H | bind _ _ = _ => apply bind_ret in H; destruct H as [? [_ H]] | (match ?x with _ => _ end) = _ => destruct x | Ret (match ?x with _ => _ end) = _ => destruct x end].
    + destruct (pointer_next _ _ _ _ _ F H) as [p X]. eexists. exists p. exact X.
  - apply DN in H. destruct w; tauto.
  - destruct w; try exact Logic.I.
    + exfalso. unfold tlook_array in H. apply bind_ret in H. destruct H as [c0 [_ H]]. apply bind_ret in H. destruct H as [lo [LO H]]. destruct lo as [x|a].
      * injection H as ->. repeat first [discriminate LO | match type of LO with bind _ _ = _ => apply bind_ret in LO; destruct LO as [? [_ LO]] | (match ?x with _ => _ end) = _ => destruct x | Ret (match ?x with _ => _ end) = _ => destruct x end].
      * apply bind_ret in H. destruct H as [[s|] [_ H]]; [discriminate|]. apply bind_ret in H. destruct H as [? [_ H]]. apply bind_ret in H. destruct H as [[l|] [_ H]]; discriminate.
    + intros y IY. destruct (array_next _ _ _ _ _ _ _ _ F H eq_refl IY) as (a & AO & EA). eapply items_rank; eassumption.
    + exfalso. unfold tlook_array in H. apply bind_ret in H. destruct H as [c0 [_ H]]. apply bind_ret in H. destruct H as [lo [LO H]]. destruct lo as [x|a].
      * injection H as ->. repeat first [discriminate LO | match type of LO with bind _ _ = _ => apply bind_ret in LO; destruct LO as [? [_ LO]] | (match ?x with _ => _ end) = _ => destruct x | Ret (match ?x with _ => _ end) = _ => destruct x end].
      * apply bind_ret in H. destruct H as [[s|] [_ H]]; [discriminate|]. apply bind_ret in H. destruct H as [? [_ H]]. apply bind_ret in H. destruct H as [[l|] [_ H]]; discriminate.
  - specialize (AG _ _ _ F (or_introl eq_refl) H). destruct w; try tauto. intros y IY. eapply parts_rank; eassumption.
  - specialize (AG _ _ _ F (or_intror eq_refl) H). destruct w; try tauto. intros y IY. eapply parts_rank; eassumption.
Qed.

Lemma fields_text_runs : forall l o, runs (fields_text l o).
Proof.
  induction l as [|[nm [t|]] l IH]; intro o; try discriminate. cbn [fields_text]. destruct (String.eqb t ""); [apply IH|]. apply bind_runs; [destruct nm; apply fmt_runs|]. intros; apply IH.
Qed.
Lemma items_text_runs : forall l o, runs (items_text l o).
Proof. induction l as [|[t|] l IH]; intro o; try discriminate. cbn [items_text]. apply bind_runs; [apply fmt_runs|]. intros; apply IH. Qed.
Lemma pointer_end_runs : forall k m arr out, (n1 < k)%nat -> runs (pointer_end E k m arr out).
Proof.
  intros k m arr out K. unfold pointer_end. destruct out as [a|]; [|discriminate]. apply bind_runs; [apply (count_value_runs E n0 A N)|]. intros [fl|] _; [|discriminate].
  apply bind_runs; [apply (entry_cdecl_runs d n1 rank1 Q1 Q2); exact K|]. intros [pat|] _; [|discriminate]. apply bind_runs; [apply fmt_runs|]. intros ty _.
  apply bind_runs; [destruct (starts_with_quote a); apply fmt_runs|]. discriminate.
Qed.
Variable big : nat.
Hypothesis Hbig : Z.of_nat big = 2 ^ 64.
Lemma text_runs : forall m, bytes_ok m -> forall k anc v j, depth E m anc j -> ((big - j) * (n0 + 2) + er (v_entry v) + n1 + 2 <= k)%nat ->
  runs (text E tagged deep float_text k m anc v).
Proof.
  intros m B k. induction k as [|k IH]; intros anc v j D K; [set (q := ((big - j) * (n0 + 2))%nat) in K; clearbody q; lia|]. cbn [text].
  apply bind_runs; [apply (tlook_runs E tagged deep float_text n0 A N); apply T|]. intros w W. apply tlook_next in W.
  destruct w as [|s|ch|ch|arr]; try discriminate.
  - apply bind_runs.
    + apply collect_runs. intros y IY. eapply IH; [apply depth_step; exact D|]. specialize (W y IY). lia.
    + intros rs _. apply bind_runs; [apply fields_text_runs|]. intros [o|] _; [|discriminate]. destruct (anonymous E v); [discriminate|]. apply bind_runs; [apply fmt_runs|discriminate].
  - apply bind_runs.
    + apply collect_runs. intros y IY. eapply IH; [apply depth_step; exact D|]. specialize (W y IY). lia.
    + intros rs _. apply bind_runs; [apply items_text_runs|]. intros [o|] _; [|discriminate]. apply bind_runs; [apply fmt_runs|discriminate].
  - destruct W as (t & p & P1 & P2 & P3). pose proof (depth_ptr E n0 N _ _ _ _ _ _ B D P1 P2 P3) as D'. pose proof (depth_big E n0 N _ Hbig _ _ _ D') as DB.
    assert (X : ((big - j) * (n0 + 2) = (big - S j) * (n0 + 2) + (n0 + 2))%nat).
    { replace (big - j)%nat with (S (big - S j))%nat by lia. rewrite Nat.mul_succ_l. reflexivity. }
    apply bind_runs.
    + eapply IH; [exact D'|]. pose proof (er_le E n0 rank Rb N (v_entry arr)). set (q := ((big - S j) * (n0 + 2))%nat) in *. clearbody q. lia.
    + intros a _. apply pointer_end_runs. set (q := ((big - S j) * (n0 + 2))%nat) in *. clearbody q. lia.
Qed.
End TextRank.

Theorem text_terminates : forall E tagged deep float_text n0 n1, finite_types (en_db E) n0 -> en_fuel E = (n0 + 3)%nat -> finite_texts (en_db E) n1 -> tame E ->
  exists k0, forall k, (k0 <= k)%nat -> forall m v, bytes_ok m -> value_string_ex E tagged deep float_text k m v <> OutOfFuel.
Proof.
  intros E tagged deep float_text n0 n1 [rank [R1 R2]] N [rank1 [Q1 Q2]] T. exists (Z.to_nat (2 ^ 64) * (n0 + 2) + n0 + n1 + 2)%nat. intros k K m [v|] B; [|discriminate]. cbn [value_string_ex].
  eapply (text_runs E tagged deep float_text n0 n1 rank rank1 R1 R2 Q1 Q2 N T (Z.to_nat (2 ^ 64))); [apply Z2Nat.id; apply Z.pow_nonneg; discriminate|exact B| |].
  - exists []. split; [constructor|]. split; [reflexivity|]. intros p [].
  - pose proof (er_le E n0 rank R1 N (v_entry v)). rewrite Nat.sub_0_r. set (q := (Z.to_nat (2 ^ 64) * (n0 + 2))%nat) in *. clearbody q. lia.
Qed.

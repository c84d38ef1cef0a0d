(** A text is produced only for what the value shows. *)
From Coq Require Import ZArith String Ascii List Bool HexString Lia ZifyBool.
From Verif Require Import Base BaseProof EntryModel EntrySpec EntryProof ValueModel ValueSpec ValueProof ValueProof2 DeepModel DeepSpec DeepProof DeepProof2 DeepProof3 DeepProof4 DeepProof5 DeepProof8 MoveProof TagMapProof EscapeSpec EscapeProof CdeclModel CdeclProof TextModel TextSpec TextProof TextProof2.
From Verif Require EscapeModel CdeclSpec CdeclProof2.
Import ListNotations.
Open Scope Z_scope.
Local Open Scope string_scope.

Lemma done_ret : forall x s, done x = Ret (TDone s) -> x = Ret (Some s).
Proof. intros x s H. unfold done in H. apply bind_ret in H. destruct H as [[t|] [X H]]; [|discriminate]. injection H as ->. exact X. Qed.
Lemma done_other : forall x w, done x = Ret w -> (exists s, w = TDone s) \/ w = TFail.
Proof. intros x w H. unfold done in H. apply bind_ret in H. destruct H as [[t|] [X H]]; injection H as <-; [left; eexists; reflexivity|right; reflexivity]. Qed.

Section Sound.
Variable E : env.
Variables tagged deep : bool.
Variable float_text : ctype -> Z -> string.
Variable n0 : nat.
Notation n := (en_fuel E).
Notation d := (en_db E).
Notation g := (en_garbage E).
Hypothesis A : acyclic d n0.
Hypothesis N : n = (n0 + 3)%nat.
Hypothesis BG : bytes_ok g.
Hypothesis NT : forall r z c, e_info (d r) = IBase z c -> e_name (d r) <> None.
Hypothesis CL : forall r, CdeclSpec.clean (d r).
Hypothesis FT : forall c x, float_text c x <> "".
Variable m : mem.
Hypothesis BM : bytes_ok m.

Lemma base_loop_inv : forall v l s, base_text_loop E float_text m v l = Ret (Some s) ->
  exists c x, has_ctype d v c /\ value_get n d g m v c = Ret (inr x) /\ number_text float_text c x = Ret s.
Proof.
  intros v. induction l as [|c l IH]; intros s H; [discriminate|]. cbn [base_text_loop] in H. apply bind_ret in H. destruct H as [b [B H]].
  destruct b; [|apply IH; exact H]. apply value_is_spec in B. apply bind_ret in H. destruct H as [x [X H]]. destruct x as [x|x]; [discriminate|].
  apply bind_ret in H. destruct H as [t [T H]]. injection H as ->. exists c, x. split; [apply B; reflexivity|]. split; assumption.
Qed.
Lemma object_make : forall anc v c x, proper E tagged deep m anc v -> has_ctype d v c -> value_get n d g m v c = Ret (inr x) -> object E m v c x.
Proof.
  intros anc v c x P H G. assert (D : plain d v \/ exists mi dbo bs, e_info (deref d (v_entry v)) = IMember mi /\ c <> CChar /\ c_integer c /\ field_at mi dbo bs /\ 1 <= bs <= 30 /\ ValueSpec.within dbo bs (ct_size c)).
  { destruct (e_info (deref d (v_entry v))) as [ | | | | | | |mi| | | | | | ] eqn:I; try (left; intros mi J; rewrite I in J; discriminate).
    destruct (pr_field _ _ _ _ _ _ P c mi H I) as [X|(dbo & bs & X)]; [left; exact X|]. right. exists mi, dbo, bs. split; [reflexivity|]. exact X. }
  destruct D as [PL|(mi & dbo & bs & I & NC & CI & FA & BS & W)].
  - rewrite (proj2 (value_get_sound _ _ _ _ _ _ _ G) PL). constructor; assumption.
  - rewrite N in G. destruct (value_get_bits d n0 g m v mi c dbo bs A H NC CI BM BG I FA BS W) as (x' & X & F). rewrite X in G. injection G as <-.
    econstructor; eassumption.
Qed.
Lemma denotes_number : forall v c x, object E m v c x -> denotes c x (ct_number c x).
Proof. intros v c x O. apply denotes_fun; [|reflexivity]. apply (object_range E n0 N m BM v). exact O. Qed.
Lemma base_sound : forall anc v s, proper E tagged deep m anc v -> base_text E float_text m v = Ret (Some s) ->
  exists r, scalar E tagged deep float_text m anc v r /\ prints r s /\ s <> "".
Proof.
  intros anc v s P H. destruct (base_loop_inv _ _ _ H) as (c & x & HC & G & T). pose proof (object_make anc v c x P HC G) as O. pose proof (denotes_number _ _ _ O) as D.
  assert (DN : forall z, dec z <> "") by (intros z; destruct (dec_digits z) as (c0 & r & -> & _); discriminate).
  assert (CC : c = CChar \/ c = CBool \/ c <> CChar /\ c <> CBool) by (destruct c; auto; right; right; split; discriminate).
  destruct CC as [->|[->|[NC NB]]].
  - unfold number_text, EscapeModel.isprint in T. destruct ((32 <=? ct_number CChar x)%Z && (ct_number CChar x <=? 126)%Z)%bool eqn:Q; injection T as <-.
    + exists (RChar (ct_number CChar x)). split; [eapply sc_char; [exact O|exact D|lia]|]. split; [constructor; lia|discriminate].
    + exists (RNum (ct_number CChar x)). split; [eapply sc_byte; [exact O|exact D|lia]|]. split; [constructor|apply DN].
  - unfold number_text in T. destruct (Z.eqb_spec x 1) as [->|N1]; [|destruct (Z.eqb_spec x 0) as [->|N2]; [|discriminate]]; injection T as <-.
    + exists (RWord "true"). split; [apply sc_true; exact O|]. split; [constructor|discriminate].
    + exists (RWord "false"). split; [apply sc_false; exact O|]. split; [constructor|discriminate].
  - assert (T' : s = if is_integer c then dec (ct_number c x) else float_text c x) by (destruct c; cbn in T; try congruence; injection T as <-; reflexivity).
    destruct (is_integer c) eqn:IC; subst s.
    + exists (RNum (ct_number c x)). split; [eapply sc_integer; [exact O| |exact NC|exact NB|exact D]|split; [constructor|apply DN]]. destruct c; try discriminate; unfold c_integer; cbn; tauto.
    + exists (RWord (float_text c x)). split; [eapply sc_float; [exact O|]|split; [constructor|apply FT]]. intros CI. apply c_integer_dec in CI. congruence.
Qed.
Lemma enum_sound : forall anc v z l s, proper E tagged deep m anc v -> enum_type d v z l -> enum_text E m v = Ret (Some s) ->
  exists r, scalar E tagged deep float_text m anc v r /\ prints r s /\ s <> "".
Proof.
  intros anc v z l s P ET H. destruct (pr_enum _ _ _ _ _ _ P z l ET) as [W NN]. unfold enum_text in H. apply bind_ret in H. destruct H as [b [_ H]]. destruct b; [|discriminate].
  rewrite N in H. rewrite (enum_read d n0 m v z l) in H by (auto; unfold word; cbn in W; lia). cbn [bind] in H.
  destruct (enum_name d n0 v z l (as_signed (8 * z) (number_at m (v_addr v) (Z.to_nat z))) A ET) as (nm & X & FN). rewrite X in H. cbn [bind] in H. injection H as <-.
  destruct nm as [nm|].
  - exists (RWord nm). split; [eapply sc_enumerator; eassumption|]. split; [constructor|]. intros ->. destruct FN as [(pre & post & -> & _)|[Q _]]; [|discriminate].
    eapply NN. apply in_or_app. right. left. reflexivity.
  - eexists. split; [eapply sc_enum; try eassumption; reflexivity|]. split; [constructor|]. match goal with |- dec ?z <> _ => destruct (dec_digits z) as (c0 & r & -> & _) end. discriminate.
Qed.
Lemma handler_ask : forall ev l w, ask E tagged m ev l = Ret (0, w) -> (tagged = true -> en_handler E m ev l = Ret (0, w)) /\ (tagged = false -> w = None).
Proof. intros ev l w H. unfold ask in H. destruct tagged; [split; [auto|discriminate]|]. injection H as <-. split; [discriminate|reflexivity]. Qed.
Lemma hex_text : forall p, 0 <= p -> HexString.of_N (Z.to_N p) = HexString.of_Z p.
Proof. intros p H. destruct p; try lia; reflexivity. Qed.
Lemma hex_nonempty : forall p, 0 <= p -> HexString.of_Z p <> "".
Proof. intros p H. destruct (addr_word p H) as (_ & (c & r & -> & _) & _). discriminate. Qed.
(** what the dispatch finds *)
Definition found (anc : list value) (v : value) (w : tview) : Prop :=
  match w with
  | TFail => True
  | TDone s => (exists r, scalar E tagged deep float_text m anc v r /\ prints r s /\ s <> "") \/ skipped E tagged m anc v /\ s = "" \/
               exists w l, array_of E tagged m anc v w /\ text_in E m w l /\ prints (RText l) s
  | TFields ch => parts E tagged m anc v ch
  | TItems ch => exists w, array_of E tagged m anc v w /\ (forall l, ~ text_in E m w l) /\ (forall c, char_array E w c -> int_of c < 2 ^ 30) /\ elements_are d w ch
  | TPtr w => followed E tagged deep m anc v w
  end.
Lemma pointer_sound : forall anc v t w, has_info d v (IPointer t) -> tlook_pointer E tagged deep m anc v = Ret w -> found anc v w.
Proof.
  intros anc v t w I H.
  assert (P : points d m v t (number_at m (v_addr v) 8)) by (split; [exact I|reflexivity]).
  remember (number_at m (v_addr v) 8) as p eqn:PE. clear PE.
  assert (PP : 0 <= p) by (destruct P as [_ ->]; apply number_range; exact BM).
  unfold tlook_pointer in H. destruct deep eqn:DP; cbn [negb] in H.
  - rewrite (pointer_make E n0 A N m v t p P) in H. cbn [bind] in H. destruct (Z.eqb_spec p 0) as [P0|NZ].
    + rewrite P0 in P. rewrite (null_value E n0 A N m v t P) in H. injection H as <-. left. exists (RWord "NULL"). split; [eapply sc_null; exact P|]. split; [constructor|discriminate].
    + apply bind_ret in H. destruct H as [lv [LV H]]. destruct (0 <? lv)%Z eqn:L0; [injection H as <-; exact Logic.I|].
      assert (NL : no_loop d m anc p) by (destruct (level_sound _ _ _ _ _ _ _ LV P) as [[_ X]|[X _]]; [exact X|lia]).
      apply bind_ret in H. destruct H as [[hs hw] [AK H]]. cbn [fst snd] in H. destruct (Z.eqb_spec hs 0) as [->|]; [|injection H as <-; exact Logic.I]. cbn [negb] in H. apply handler_ask in AK. destruct AK as [AK1 AK2].
      destruct hw as [hw|].
      * destruct (Z.eqb_spec (v_addr hw) p) as [AD|]; [|injection H as <-; exact Logic.I]. cbn [negb] in H. apply bind_ret in H. destruct H as [vp [VP H]]. 
        assert (TG : tagged = true) by (destruct tagged; [reflexivity|specialize (AK2 eq_refl); discriminate]).
        assert (H' : bind (value_kind_is E hw is_array_info) (fun ha => Ret (if ha then TPtr hw else TFail)) = Ret w) by exact H. apply bind_ret in H'. destruct H' as [ha [HA H']].
        destruct ha; injection H' as <-; [|exact Logic.I]. eapply fo_handled; eauto.
      * rewrite (void_make E n0 A N v t I) in H. cbn [bind] in H. destruct t as [t|].
        -- rewrite (one_make E n0 A N m v t p P NZ) in H. cbn [bind] in H. rewrite (kind_make E n0 A N _ _ _ (array_at_info E t 1 p)) in H. injection H as <-.
           eapply fo_one; eauto.
        -- destruct (pointer_value E n0 A N m BM v None p P NZ) as [PT _]. rewrite PT in H. injection H as <-. left. exists (RAddr p). split; [eapply sc_void; eauto|]. split; [constructor|apply hex_nonempty; exact PP].
  - destruct (Z.eqb_spec p 0) as [P0|NZ].
    + rewrite P0 in P. rewrite (null_value E n0 A N m v t P) in H. injection H as <-. left. exists (RWord "NULL"). split; [eapply sc_null; exact P|]. split; [constructor|discriminate].
    + destruct (pointer_value E n0 A N m BM v t p P NZ) as [PT _]. rewrite PT in H. injection H as <-. left. exists (RAddr p). split; [eapply sc_shallow; eauto|]. split; [constructor|apply hex_nonempty; exact PP].
Qed.
Lemma aggr_sound : forall anc v k z l w, has_info d v (IAggr k z l) -> k = AStruct \/ k = AUnion -> tlook_aggr E tagged m k anc v = Ret w -> found anc v w.
Proof.
  intros anc v k z l w I K H. unfold tlook_aggr in H. rewrite (member_count_make E n0 A N v _ _ _ I) in H. cbn [bind] in H. destruct K as [-> | ->].
  - apply bind_ret in H. destruct H as [ch [CH H]]. rewrite Nat2Z.id in CH. destruct ch as [ch|]; injection H as <-; [|exact Logic.I].
    eapply pa_struct; [exact I|]. pose proof I as [e [F J]]. exact (members_sound E v l e AStruct z (length l) 0 ch F J eq_refl CH).
  - destruct l as [|r l]; [injection H as <-; eapply pa_unknown; [exact I|]; intros X; congruence|].
    replace (0 <? Z.of_nat (length (r :: l)))%Z with true in H by reflexivity. apply bind_ret in H. destruct H as [[hs hw] [AK H]]. cbn [fst snd] in H.
    destruct (Z.eqb_spec hs 0) as [->|]; [|injection H as <-; exact Logic.I]. cbn [negb] in H. apply handler_ask in AK. destruct AK as [AK1 AK2]. injection H as <-.
    destruct hw as [hw|].
    + assert (TG : tagged = true) by (destruct tagged; [reflexivity|specialize (AK2 eq_refl); discriminate]). eapply pa_chosen; eauto. discriminate.
    + eapply pa_unknown; eauto.
Qed.
Lemma items_sound : forall anc v a w, proper E tagged deep m anc v -> array_of E tagged m anc v a ->
  bind (printable_text E m a) (fun p =>
    match p with
    | Some s => Ret (TDone (String quote (s ++ String quote "")))
    | None => bind (element_count n d (Some (v_entry a))) (fun c => bind (elements_from E a (Z.to_nat c) 0) (fun l => Ret (match l with Some l => TItems l | None => TFail end)))
    end) = Ret w -> found anc v w.
Proof.
  intros anc v a w P AO H. destruct (pr_array _ _ _ _ _ _ P a AO) as ((t & c & I) & SM & _). apply bind_ret in H. destruct H as [o [PT H]]. destruct o as [s|].
  - injection H as <-. right. right.
    assert (X : exists l, text_in E m a l /\ exists b, s = text_of b /\ unescape b = Some l /\ Forall (fun c => 32 <= c <= 126) b).
    { assert (CA : char_array E a c).
      { unfold printable_text in PT. rewrite (kind_make E n0 A N a _ _ I) in PT. cbn [bind negb] in PT.
        pose proof I as I'. destruct I' as [ea [FA IA]]. unfold element_entry in PT. rewrite N in PT. rewrite (final_if_type d n0 _ ea) in PT by auto. rewrite IA in PT. cbn [is_array_info bind] in PT. unfold EntryModel.array_of in PT. rewrite IA in PT. cbn [fst] in PT.
        apply bind_ret in PT. destruct PT as [[f q] [FE PT]]. cbn [fst] in PT. apply final_entry_inv in FE. destruct f as [e|]; [|discriminate].
        destruct t as [r|]; [|destruct FE as [qs FE]; inversion FE]. destruct (e_info (deref d e)) as [ | |b z| | | | | | | | | | | ] eqn:IB; try discriminate.
        destruct (e_name (deref d e)) as [nm|] eqn:NM; [|discriminate]. destruct (String.eqb_spec nm "char") as [->|]; [|discriminate].
        exists r, e, b, z. split; [exact I|]. split; [exact FE|]. split; assumption. }
      destruct (char_look E n0 A N m a c CA (SM c CA)) as (o & O & PT'). rewrite PT' in PT. destruct o as [out|]; [|discriminate]. cbn [option_map] in PT. injection PT as <-.
      pose proof (SM c CA) as L.
      destruct (printable_spec (array_content m a (int_of c)) true true) as (o' & O' & P1 & P2); [rewrite content_length; lia|]. rewrite O in O'. injection O' as <-.
      destruct (P2 out eq_refl) as (l & b & Q & -> & U & F). exists l. split.
      - destruct (proj1 P1 ltac:(discriminate)) as (_ & _ & l' & Q' & NE & PR). rewrite Q in Q'. apply app_inj_tail in Q'. destruct Q' as [<- _].
        pose proof (f_equal (@length Z) Q) as QL. rewrite content_length, app_length in QL. cbn [length] in QL.
        exists c. split; [exact CA|]. split; [exact NE|]. split; [exact PR|]. split; [lia|]. split; [exact L|]. intros i LI.
        rewrite <- (content_nth E n0 N m BM a (int_of c)) by lia. rewrite Q. destruct (Nat.eq_dec i (length l)) as [->|NE'].
        + rewrite app_nth2, Nat.sub_diag by lia. rewrite (nth_overflow l) by lia. reflexivity.
        + rewrite app_nth1 by lia. reflexivity.
      - exists b. rewrite removelast_last. split; [reflexivity|]. split; assumption. }
    destruct X as (l & TI & b & -> & U & F). exists a, l. split; [exact AO|]. split; [exact TI|]. constructor; assumption.
  - rewrite (count_make E n0 A N a _ _ I) in H. cbn [bind] in H. apply bind_ret in H. destruct H as [ch [CH H]]. destruct ch as [ch|]; injection H as <-; [|exact Logic.I].
    exists a. split; [exact AO|]. split.
    { intros l TI. destruct (string_look E n0 A N m BM a l TI) as (b & X & _). congruence. }
    split; [exact SM|]. destruct (elements_sound E a _ 0%nat ch CH) as [L X]. exists t, c. split; [exact I|]. split; [exact L|]. intros NE. destruct (X NE) as (t' & k & r & z & I' & -> & HS & EL).
    pose proof (has_info_fun _ _ _ _ I I') as Q. injection Q as -> ->. exists r, z. split; [reflexivity|]. split; [exact HS|]. exact EL.
Qed.
Lemma array_sound : forall anc v t c w, proper E tagged deep m anc v -> has_info d v (IArray t c) -> tlook_array E tagged m anc v = Ret w -> found anc v w.
Proof.
  intros anc v t c w P I H. unfold tlook_array in H. rewrite (count_make E n0 A N v _ _ I) in H. cbn [bind] in H. apply bind_ret in H. destruct H as [lo [LO H]].
  destruct (Z.eqb_spec (int_of c) (-1)) as [C|C].
  - destruct tagged eqn:TG.
    + apply bind_ret in LO. destruct LO as [[hs hw] [AK LO]]. cbn [fst snd] in LO. destruct (Z.eqb_spec hs 0) as [->|]; [|injection LO as <-; injection H as <-; exact Logic.I]. cbn [negb] in LO.
      unfold ask in AK. destruct hw as [hw|]; injection LO as <-.
      * rewrite <- TG in *. eapply items_sound; [exact P| |exact H]. eapply ar_handled; eauto.
      * injection H as <-. right. left. split; [|reflexivity]. exists t, c. auto.
    + apply bind_ret in LO. destruct LO as [nw [NW LO]]. destruct nw as [nw|]; injection LO as <-; [|injection H as <-; exact Logic.I].
      assert (X : exists r, t = Some r /\ v_addr v <> 0 /\ nw = array_at r 0 (v_addr v)).
      { pose proof I as [e [F J]]. unfold new_element_count_value, new_element_count_entry in NW. rewrite N in NW. rewrite !(final_if_type d n0 _ e) in NW by assumption. rewrite J in NW. cbn [is_array_info is_pointer_info orb bind andb] in NW.
        rewrite ?J in NW. cbn [is_array_info is_pointer_info orb bind andb] in NW. rewrite ?J in NW. cbn [is_array_info is_pointer_info orb bind andb] in NW. destruct t as [r|]; [|discriminate]. cbn [bind] in NW. unfold new_value in NW. destruct (Z.eqb_spec (v_addr v) 0); [discriminate|].
        injection NW as <-. exists r. split; [reflexivity|]. split; [assumption|reflexivity]. }
      destruct X as (r & -> & VA & ->). rewrite <- TG in *. eapply items_sound; [exact P| |exact H]. eapply ar_empty; eauto.
  - injection LO as <-. eapply items_sound; [exact P| |exact H]. eapply ar_known; eauto.
Qed.
Lemma look_sound' : forall anc v w, proper E tagged deep m anc v -> tlook E tagged deep float_text m anc v = Ret w -> found anc v w.
Proof.
  intros anc v w P H. unfold tlook in H.
  assert (H' : bind (final_info E v) (fun f => match f with
    | Some (IBase _ _) => done (base_text E float_text m v)
    | Some (IEnum _ _) => done (enum_text E m v)
    | Some (IAggr AStruct _ _) => tlook_aggr E tagged m AStruct anc v
    | Some (IAggr AUnion _ _) => tlook_aggr E tagged m AUnion anc v
    | Some (IArray _ _) => tlook_array E tagged m anc v
    | Some (IPointer _) => tlook_pointer E tagged deep m anc v
    | Some (ISubprogram _ _) | Some (ISubroutine _ _) => Abort
    | _ => Ret TFail
    end) = Ret w).
  { destruct (e_info (deref d (v_entry v))) as [ | | | | | | | | | |u t| | | ]; try exact H. destruct u; [discriminate|exact H]. }
  clear H. rename H' into H. apply bind_ret in H. destruct H as [f [F H]]. destruct f as [f|]; [|injection H as <-; exact Logic.I]. apply final_info_some in F.
  destruct f as [ | |z c|t| |z l|t c| |k z l| | | | | ]; try (injection H as <-; exact Logic.I); try discriminate.
  - destruct (done_other _ _ H) as [[s ->] | ->]; [|exact Logic.I]. apply done_ret in H. left. apply base_sound; assumption.
  - eapply pointer_sound; eassumption.
  - destruct (done_other _ _ H) as [[s ->] | ->]; [|exact Logic.I]. apply done_ret in H. left. eapply enum_sound; eassumption.
  - eapply array_sound; eassumption.
  - destruct k; [| |injection H as <-; exact Logic.I]; (eapply aggr_sound; [exact F| |exact H]); auto.
Qed.
Lemma collect_ret : forall X Y (f : X -> res Y) l rs, collect f l = Ret rs -> Forall2 (fun x y => f x = Ret y) l rs.
Proof.
  intros X Y f. induction l as [|x l IH]; intros rs H; cbn [collect] in H; [injection H as <-; constructor|].
  apply bind_ret in H. destruct H as [y [HY H]]. apply bind_ret in H. destruct H as [ys [HS H]]. injection H as <-. constructor; [exact HY|]. apply IH. exact HS.
Qed.
(** the text [s] of a value that shows [sh] *)
Definition written (sh : shown) (s : string) : Prop := sprints sh s /\ (forall r, sh = SValue r -> s <> "").
Lemma items_text_inv : forall ts o0 o, items_text ts o0 = Ret (Some o) -> exists ss, ts = map Some ss.
Proof.
  induction ts as [|[t|] ts IH]; intros o0 o H; cbn [items_text] in H; [exists []; reflexivity| |discriminate].
  apply bind_ret in H. destruct H as [x [_ H]]. destruct (IH _ _ H) as [ss ->]. exists (t :: ss). reflexivity.
Qed.
Lemma fields_text_inv : forall ts ns o0 o, length ns = length ts -> fields_text (combine ns ts) o0 = Ret (Some o) -> exists ss, ts = map Some ss.
Proof.
  induction ts as [|t ts IH]; intros ns o0 o L H; [exists []; reflexivity|]. destruct ns as [|nm ns]; [discriminate|]. cbn [combine fields_text] in H. destruct t as [t|]; [|discriminate].
  injection L as L. destruct (String.eqb t "").
  - destruct (IH _ _ _ L H) as [ss ->]. exists (t :: ss). reflexivity.
  - apply bind_ret in H. destruct H as [x [_ H]]. destruct (IH _ _ _ L H) as [ss ->]. exists (t :: ss). reflexivity.
Qed.
Notation shows := (shows E tagged deep float_text m).
Lemma object_info : forall v c x, object E m v c x -> exists z k, has_info d v (IBase z k).
Proof. intros v c x O. inversion O; eapply ctype_info; eassumption. Qed.
Lemma scalar_info : forall anc v r, scalar E tagged deep float_text m anc v r -> exists i, has_info d v i /\ match i with IBase _ _ | IEnum _ _ | IPointer _ => True | _ => False end.
Proof.
  intros anc v r S. inversion S; try (match goal with O : object E m v _ _ |- _ => destruct (object_info _ _ _ O) as (z' & k' & I'); exists (IBase z' k'); split; [exact I'|exact Logic.I] end);
    try (match goal with O : enum_type d v ?z ?l |- _ => exists (IEnum z l); split; [exact O|exact Logic.I] end);
    match goal with O : points d m v ?t _ |- _ => exists (IPointer t); split; [exact (points_info _ _ _ _ _ O)|exact Logic.I] end.
Qed.
Lemma array_of_info : forall anc v w, array_of E tagged m anc v w -> exists t c, has_info d v (IArray t c).
Proof. intros anc v w H. inversion H; eexists; eexists; eassumption. Qed.
Lemma parts_info : forall anc v ch, parts E tagged m anc v ch -> exists k z l, has_info d v (IAggr k z l).
Proof. intros anc v ch H. inversion H; eexists; eexists; eexists; eassumption. Qed.
Lemma followed_info : forall anc v w, followed E tagged deep m anc v w -> exists t, has_info d v (IPointer t).
Proof. intros anc v w H. inversion H; eexists; eapply points_info; eassumption. Qed.
Ltac clash I := match goal with J : has_info d ?v _ |- _ => pose proof (has_info_fun E _ _ _ I J); discriminate end.
Lemma aggr_shown : forall anc v r k z l, shows anc v (SValue r) -> has_info d v (IAggr k z l) -> ~ anonymous_member E v.
Proof.
  intros anc v r k z l S I. inversion S as [anc' v' r' SC|anc' v' SK|anc' v' w l' AO TI|anc' v' w ch l' AO|anc' v' ch l' P SF NA|anc' v' ch l' P SF AM|anc' v' w t c ty l' FO|anc' v' w t c ty r' FO]; subst.
  - destruct (scalar_info _ _ _ SC) as (i & J & K). pose proof (has_info_fun E _ _ _ I J) as Q. subst i. destruct K.
  - destruct (array_of_info _ _ _ AO) as (t & c & J). clash J.
  - destruct (array_of_info _ _ _ AO) as (t & c & J). clash J.
  - exact NA.
  - destruct (followed_info _ _ _ FO) as (t' & J). clash J.
  - destruct (followed_info _ _ _ FO) as (t' & J). clash J.
Qed.
Lemma array_shown : forall anc v r t c, shows anc v (SValue r) -> has_info d v (IArray t c) -> (exists l, r = RText l) \/ exists l, r = RList l.
Proof.
  intros anc v r t c S I. inversion S as [anc' v' r' SC|anc' v' SK|anc' v' w l' AO TI|anc' v' w ch l' AO|anc' v' ch l' P SF NA|anc' v' ch l' P SF AM|anc' v' w t' c' ty l' FO|anc' v' w t' c' ty r' FO]; subst.
  - destruct (scalar_info _ _ _ SC) as (i & J & K). pose proof (has_info_fun E _ _ _ I J) as Q. subst i. destruct K.
  - left. eexists; reflexivity.
  - right. eexists; reflexivity.
  - destruct (parts_info _ _ _ P) as (k & z & l & J). clash J.
  - destruct (followed_info _ _ _ FO) as (t2 & J). clash J.
  - destruct (followed_info _ _ _ FO) as (t2 & J). clash J.
Qed.
Lemma fields_sound : forall anc ch ss, Forall2 (fun y s => exists sh, shows anc y sh /\ written sh s) ch ss ->
  Forall (fun y => (exists nm, name_is E y (Some nm)) /\ ~ anonymous_member E y \/ anonymous_member E y /\ exists k z l, has_info d y (IAggr k z l)) ch ->
  exists l, shows_fields E tagged deep float_text m anc ch l /\
    forall l0 o, fprint l0 o -> exists o', fields_text (combine (map (value_name E) ch) (map Some ss)) o = Ret (Some o') /\ fprint (l0 ++ l) o'.
Proof.
  intros anc ch ss F. induction F as [|y s ch ss (sh & SH & [W1 W2]) F IH]; intros AL.
  - exists []. split; [constructor|]. intros l0 o FP. exists o. rewrite app_nil_r. split; [reflexivity|exact FP].
  - inversion AL as [|? ? AY AL']; subst. destruct (IH AL') as (l & SF & FX). destruct sh as [|l'|r].
    + exists l. split; [apply sf_skipped; assumption|]. cbn in W1. subst s. exact FX.
    + exists (l' ++ l)%list. split; [apply sf_inner; assumption|]. intros l0 o FP. cbn [map combine fields_text]. cbn [sprints] in W1.
      rewrite (shown_fields_anonymous _ _ _ _ _ _ _ _ SH). destruct (String.eqb_spec s "") as [->|NE].
      * apply (prints_fields_nil l') in W1. assert (l' = []) by (apply W1; reflexivity). subst l'. apply FX. exact FP.
      * cbn [fmt Ascii.eqb Bool.eqb bind]. destruct (FX (l0 ++ l')%list (Some (opt_text o ++ sep o ++ s))) as (o' & T & FP').
        { apply fprint_more; [exact FP|exact W1|]. intros ->. apply NE. apply (prints_fields_nil [] s W1). reflexivity. }
        exists o'. split; [rewrite sapp_nil; exact T|]. rewrite <- app_assoc in FP'. exact FP'.
    + destruct AY as [[[nm NM] _]|[AM (k & z & l' & I)]].
      * exists ((nm, r) :: l). split; [apply sf_named; assumption|]. intros l0 o FP. cbn [map combine fields_text]. cbn [sprints] in W1.
        destruct (String.eqb_spec s "") as [Q|_]; [exfalso; exact (W2 r eq_refl Q)|]. unfold value_name at 1. unfold name_is in NM. rewrite NM. cbn [fmt Ascii.eqb Bool.eqb bind].
        destruct (FX (l0 ++ [(nm, r)])%list (Some (opt_text o ++ sep o ++ ("." ++ nm ++ " = " ++ s ++ ",")))) as (o' & T & FP').
        { apply fprint_more; [exact FP|constructor; exact W1|discriminate]. }
        exists o'. split; [exact T|]. rewrite <- app_assoc in FP'. exact FP'.
      * exfalso. exact (aggr_shown _ _ _ _ _ _ SH I AM).
Qed.
Lemma literal_make : forall t T, CdeclSpec.is_type d (Some (St t)) T -> exists a b, CdeclSpec.no_percent a /\ CdeclSpec.no_percent b /\
  CdeclSpec.returns (fun k => entry_cdecl k d (Some (Dy (Build_entry None false (IArray (Some t) (-1)))))) (Some (a ++ "%s" ++ b)) /\ literal_type E t (a ++ b).
Proof.
  intros t T IT.
  destruct (CdeclProof2.cdecl_placeholder d CL (Dy (Build_entry None false (IArray (Some t) (-1)))) _ (CdeclSpec.it_arr d (Dy (Build_entry None false (IArray (Some t) (-1)))) (Some t) T (-1) eq_refl IT)) as (s & R & (a & b & -> & PA & PB)).
  { split; [intros nm X; discriminate|intros; discriminate]. }
  exists a, b. split; [exact PA|]. split; [exact PB|]. split; [exact R|]. exists a, b. auto.
Qed.
Theorem text_sound : forall a0 v0, (forall anc w, met_from E tagged deep m a0 v0 anc w -> proper E tagged deep m anc w) ->
  forall k anc v s, met_from E tagged deep m a0 v0 anc v -> text E tagged deep float_text k m anc v = Ret (Some s) -> exists sh, shows anc v sh /\ written sh s.
Proof.
  intros a0 v0 PR. induction k as [|k IH]; intros anc v s MV H; [discriminate|]. cbn [text] in H. apply bind_ret in H. destruct H as [w [L H]].
  pose proof (PR _ _ MV) as P. pose proof (look_sound' _ _ _ P L) as F. destruct w as [|t|ch|ch|w]; cbn [found] in F.
  - discriminate.
  - injection H as ->. destruct F as [(r & SC & PS & NE)|[[SK ->]|(w & l & AO & TI & PS)]].
    + exists (SValue r). split; [constructor; exact SC|]. split; [exact PS|intros _ _; exact NE].
    + exists SNothing. split; [apply sh_skipped; exact SK|]. split; [reflexivity|discriminate].
    + exists (SValue (RText l)). split; [eapply sh_text; eassumption|]. split; [exact PS|]. intros _ _. inversion PS. discriminate.
  - apply bind_ret in H. destruct H as [rs [RS H]]. apply bind_ret in H. destruct H as [o [O H]]. destruct o as [o|]; [|discriminate].
    apply collect_ret in RS. assert (LN : length ch = length rs) by (clear - RS; induction RS; cbn; congruence).
    destruct (fields_text_inv rs (map (value_name E) ch) None o) as [ss ->]; [rewrite map_length; exact LN|exact O|].
    destruct (fields_sound (v :: anc) ch ss) as (l & SF & FX).
    { clear O LN. assert (IN : forall y, In y ch -> met_from E tagged deep m a0 v0 (v :: anc) y) by (intros y Y; eapply me_part; eassumption). clear L F H.
      remember (map Some ss) as ts eqn:TS. revert ss TS. induction RS as [|y t ch ts HY RS IHS]; intros ss TS; destruct ss as [|s' ss]; try discriminate; [constructor|].
      cbn [map] in TS. injection TS as -> TS. constructor; [|apply IHS; [intros z Z0; apply IN; right; exact Z0|exact TS]]. apply IH; [apply IN; left; reflexivity|exact HY]. }
    { apply Forall_forall. intros y Y. destruct (pr_parts _ _ _ _ _ _ P ch y F Y) as [[nm NM]|AM]; [left|right; exact AM]. split; [exists nm; exact NM|].
      intros [NN _]. unfold name_is in *. congruence. }
    destruct (FX [] None (or_introl (conj eq_refl eq_refl))) as (o' & T & FP). cbn [app] in FP. rewrite T in O. injection O as <-.
    destruct (anonymous E v) eqn:AN.
    + injection H as <-. apply anonymous_iff in AN. exists (SFields l). split; [eapply sh_anonymous; eassumption|]. split; [apply fprint_text; exact FP|discriminate].
    + apply bind_ret in H. destruct H as [x [X H]]. injection H as <-. cbn [fmt Ascii.eqb Bool.eqb bind] in X. injection X as <-. exists (SValue (braces l)).
      split; [eapply sh_struct; try eassumption; intros AM; apply anonymous_iff in AM; congruence|]. split; [exact (braces_text l o' FP)|discriminate].
  - destruct F as (w & AO & NTI & SM & EA). apply bind_ret in H. destruct H as [rs [RS H]]. apply bind_ret in H. destruct H as [o [O H]]. destruct o as [o|]; [|discriminate].
    apply collect_ret in RS. destruct (items_text_inv _ _ _ O) as [ss ->].
    assert (X : exists l, shows_items E tagged deep float_text m (v :: anc) ch l /\ Forall2 prints l ss).
    { clear O. destruct (pr_array _ _ _ _ _ _ P w AO) as (_ & _ & NS).
      assert (IN : forall y, In y ch -> met_from E tagged deep m a0 v0 (v :: anc) y /\ ~ anonymous_member E y /\ ~ skipped E tagged m (v :: anc) y) by (intros y Y; split; [eapply me_element; eassumption|eapply NS; eassumption]). clear L H EA NS.
      remember (map Some ss) as ts eqn:TS. revert ss TS. induction RS as [|y t ch ts HY RS IHS]; intros ss TS; destruct ss as [|s' ss]; try discriminate; [exists []; split; constructor|].
      cbn [map] in TS. injection TS as -> TS. destruct (IHS ltac:(intros z Z0; apply IN; right; exact Z0) ss TS) as (l & SI & F2).
      destruct (IN y (or_introl eq_refl)) as (MY & NAY & NSY). destruct (IH _ _ _ MY HY) as (sh & SH & W & _). destruct sh as [|l'|r].
      - exfalso. apply NSY. inversion SH. assumption.
      - exfalso. apply NAY. inversion SH. assumption.
      - exists (r :: l). split; constructor; assumption. }
    destruct X as (l & SI & F2). destruct (items_text_ok l ss F2 [] None (or_introl (conj eq_refl eq_refl))) as (o' & IT & IP). cbn [app] in IP. rewrite IT in O. injection O as <-.
    apply bind_ret in H. destruct H as [x [X H]]. injection H as <-. cbn [fmt Ascii.eqb Bool.eqb bind] in X. injection X as <-. exists (SValue (RList l)).
    split; [eapply sh_list; eassumption|]. split; [exact (list_text l o' IP)|discriminate].
  - apply bind_ret in H. destruct H as [a [HA H]]. destruct a as [a|]; [|discriminate].
    destruct (pr_target _ _ _ _ _ _ P w F) as (NAW & NSW & t & c & T & I & IT).
    destruct (IH _ _ _ (me_target _ _ _ _ _ _ _ _ _ MV F) HA) as (sh & SH & W & NEW). destruct (follow_look E tagged deep float_text n0 A N m anc v w t c F I) as [_ NZ].
    destruct (literal_make t T IT) as (pa & pb & PA & PB & [R _] & LT).
    unfold pointer_end in H. rewrite (flex_make E n0 A N m w t c I NZ) in H. cbn [bind array_at v_entry] in H.
    destruct (R k) as [Q|Q]; rewrite Q in H; [discriminate|]. cbn [bind] in H. rewrite (fmt_hole pa pb "" [] PA PB) in H. cbn [bind] in H.
    destruct sh as [|l'|r].
    + exfalso. apply NSW. inversion SH. assumption.
    + exfalso. apply NAW. inversion SH. assumption.
    + destruct (array_shown _ _ _ _ _ SH I) as [[l ->]|[l ->]].
      * assert (Q' : starts_with_quote a = true) by (cbn [sprints] in W; inversion W; reflexivity). rewrite Q' in H. cbn [fmt Ascii.eqb Bool.eqb bind] in H. injection H as <-. rewrite sapp_nil.
        exists (SValue (RText l)). split; [eapply sh_string; eassumption|]. split; [exact W|exact NEW].
      * assert (Q' : starts_with_quote a = false) by (cbn [sprints] in W; inversion W; reflexivity). rewrite Q' in H. cbn [fmt Ascii.eqb Bool.eqb bind] in H. injection H as <-. rewrite sapp_nil.
        exists (SValue (RCast (pa ++ pb) (RList l))). split; [eapply sh_target; try eassumption; discriminate|]. split; [|discriminate]. cbn [sprints] in W |- *. exact (pr_cast (pa ++ pb) (RList l) a W).
Qed.
End Sound.

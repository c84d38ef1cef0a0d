(** The text of a value is produced as the specification says. *)
From Coq Require Import ZArith String Ascii List Bool HexString Lia ZifyBool.
From Verif Require Import Base BaseProof EntryModel EntrySpec EntryProof ValueModel ValueSpec ValueProof ValueProof2 DeepModel DeepSpec DeepProof DeepProof2 DeepProof3 DeepProof4 DeepProof5 DeepProof8 MoveProof TagMapProof EscapeSpec EscapeProof CdeclModel CdeclProof TextModel TextSpec TextProof.
From Verif Require EscapeModel CdeclSpec.
Import ListNotations.
Open Scope Z_scope.
Local Open Scope string_scope.

Scheme shows_mut := Induction for shows Sort Prop
  with shows_items_mut := Induction for shows_items Sort Prop
  with shows_fields_mut := Induction for shows_fields Sort Prop.
Combined Scheme shows_all from shows_mut, shows_items_mut, shows_fields_mut.

(** texts of lists *)
Definition iprint (l : list reading) (o : option string) : Prop :=
  l = [] /\ o = None \/ exists s, o = Some s /\ l <> [] /\ prints_items l s.
Definition fprint (l : list (string * reading)) (o : option string) : Prop :=
  l = [] /\ o = None \/ exists s, o = Some s /\ l <> [] /\ prints_fields l s.
Lemma items_join : forall a l s t, prints_items a s -> a <> [] -> prints_items l t -> l <> [] -> prints_items (a ++ l) (s ++ " " ++ t).
Proof.
  induction a as [|r a IH]; intros l s t P NE P2 NE2; [congruence|]. inversion P as [|r' s' PR|r' r2 l' s' t' PR PI]; subst.
  - destruct l as [|r2 l]; [congruence|]. rewrite sapp_assoc'. cbn [app]. change ("," ++ (" " ++ t)) with (", " ++ t). constructor; assumption.
  - rewrite !sapp_assoc'. cbn [app]. change (", " ++ t' ++ " " ++ t) with (", " ++ (t' ++ " " ++ t)). constructor; [assumption|]. apply (IH l t' t); auto. discriminate.
Qed.
Lemma fields_join : forall a l s t, prints_fields a s -> a <> [] -> prints_fields l t -> l <> [] -> prints_fields (a ++ l) (s ++ " " ++ t).
Proof.
  induction a as [|r a IH]; intros l s t P NE P2 NE2; [congruence|]. inversion P as [|n r' s' PR|n r' r2 l' s' t' PR PI]; subst.
  - destruct l as [|r2 l]; [congruence|]. rewrite !sapp_assoc'. cbn [app]. change ("," ++ (" " ++ t)) with (", " ++ t). constructor; assumption.
  - rewrite !sapp_assoc'. cbn [app]. change (", " ++ t' ++ " " ++ t) with (", " ++ (t' ++ " " ++ t)). constructor; [assumption|]. apply (IH l t' t); auto. discriminate.
Qed.
Lemma items_text_ok : forall l ss, Forall2 prints l ss -> forall l0 o, iprint l0 o ->
  exists o', items_text (map Some ss) o = Ret (Some o') /\ iprint (l0 ++ l) o'.
Proof.
  intros l ss F. induction F as [|r s l ss P F IH]; intros l0 o O; cbn [map items_text].
  - exists o. rewrite app_nil_r. split; [reflexivity|exact O].
  - cbn [fmt Ascii.eqb Bool.eqb bind]. 
    destruct (IH (l0 ++ [r])%list (Some (opt_text o ++ sep o ++ s ++ ","))) as (o' & R & Q).
    { right. eexists. split; [reflexivity|]. split; [destruct l0; discriminate|]. destruct O as [[-> ->]|(t & -> & NE & PI)].
      - cbn. constructor. exact P.
      - cbn [opt_text sep]. apply items_join; auto; [constructor; exact P|discriminate]. }
    exists o'. split; [exact R|]. rewrite <- app_assoc in Q. exact Q.
Qed.
Lemma list_text : forall l o, iprint l o -> prints (RList l) ("{" ++ opt_text o ++ "}").
Proof. intros l o [[-> ->]|(s & -> & _ & P)]; constructor; [constructor|exact P]. Qed.
Lemma braces_text : forall l o, fprint l o -> prints (braces l) ("{" ++ opt_text o ++ "}").
Proof.
  intros l o [[-> ->]|(s & -> & NE & P)]; cbn [braces opt_text]; [exact (pr_list [] "" pi_nil)|].
  destruct l; [congruence|]. constructor; assumption.
Qed.
Lemma fields_readable_app : forall a b, fields_readable (a ++ b) <-> fields_readable a /\ fields_readable b.
Proof.
  unfold fields_readable. induction a as [|[n r] a IH]; intros b; cbn [app]; [cbn; tauto|]. cbn [readable] in *. rewrite IH. tauto.
Qed.
Lemma braces_readable : forall l, readable (braces l) -> fields_readable l.
Proof. intros [|x l] H; [exact I|exact H]. Qed.
Lemma nonempty_text : forall r s, prints r s -> readable r -> String.eqb s "" = false.
Proof. intros r s P R. destruct (proj1 read_back r s P R) as [(c & q & -> & _) _]. reflexivity. Qed.
Lemma quote_text : forall r s, prints r s -> readable r -> starts_with_quote s = true <-> exists l, r = RText l.
Proof.
  intros r s P R. assert (W : forall w, (exists c q, w = String c q /\ word_start c) -> starts_with_quote w = false).
  { intros w (c & q & -> & X). cbn. destruct (Ascii.eqb_spec c quote) as [->|]; [|reflexivity]. exfalso. apply X. unfold quote. cbn. auto. }
  inversion P; subst.
  - rewrite W by apply dec_word. split; [discriminate|intros [l L]; discriminate].
  - rewrite W by apply R. split; [discriminate|intros [l L]; discriminate].
  - rewrite W by (apply addr_word; exact R). split; [discriminate|intros [l L]; discriminate].
  - split; [discriminate|intros [l L]; discriminate].
  - split; [eexists; reflexivity|reflexivity].
  - split; [discriminate|intros [l' L]; discriminate].
  - split; [discriminate|intros [l' L]; discriminate].
  - split; [discriminate|intros [l' L]; discriminate].
Qed.

Lemma is_field_fun : forall m base dbo bs sg w x y, 0 <= w -> is_field m base dbo bs sg w x -> is_field m base dbo bs sg w y -> x = y.
Proof.
  intros m base dbo bs sg w x y W [R1 H1] [R2 H2]. apply Z.bits_inj'. intros i I. destruct (Z.ltb_spec i (8 * w)) as [L|L].
  - rewrite H1, H2 by lia. reflexivity.
  - assert (P : 2 ^ (8 * w) <= 2 ^ i) by (apply Z.pow_le_mono_r; lia).
    assert (Q : forall z, 0 <= z < 2 ^ (8 * w) -> Z.testbit z i = false) by (intros z Z0; rewrite Z.testbit_false by lia; rewrite Z.div_small by lia; reflexivity).
    rewrite !Q by assumption. reflexivity.
Qed.

Section Text.
Variable E : env.
Variables tagged deep : bool.
Variable float_text : ctype -> Z -> string.
Variable n0 : nat.
Notation n := (en_fuel E).
Notation d := (en_db E).
Notation g := (en_garbage E).
Hypothesis A : acyclic d n0.
Hypothesis N : n = (n0 + 3)%nat.
Hypothesis BG : bytes_ok g.
Hypothesis NT : forall r z c, e_info (d r) = IBase z c -> e_name (d r) <> None.
Variable m : mem.
Hypothesis BM : bytes_ok m.

Lemma not_dots : forall v i, has_info d v i -> ~ is_dots i -> forall (X Y : res tview),
  match e_info (deref d (v_entry v)) with IParam true _ => X | _ => Y end = Y.
Proof.
  intros v i [e [F I]] ND X Y. destruct (e_info (deref d (v_entry v))) as [ | | | | | | | | | |u t| | | ] eqn:Q; try reflexivity. destruct u; [|reflexivity]. exfalso.
  assert (K : final_type d (Some (v_entry v)) (Some (v_entry v))) by (exists []; apply res_stop; rewrite Q; intros t' q' S; inversion S).
  assert (Some e = Some (v_entry v)) by (eapply final_type_fun; eauto). apply ND. exists t. congruence.
Qed.

(** scalars *)
Lemma object_range : forall v c x, object E m v c x -> 0 <= x < 2 ^ (8 * ct_size c).
Proof.
  intros v c x O. inversion O as [H P|mi dbo bs y H NC CI I FA BS W F]; subst.
  - pose proof (number_range m (v_addr v) (Z.to_nat (ct_size c)) BM) as R. pose proof (ct_size_pos c) as S. rewrite Z2Nat.id in R by lia. exact R.
  - apply F.
Qed.
Lemma object_get : forall v c x, object E m v c x -> has_ctype d v c /\ value_get n d g m v c = Ret (inr x).
Proof.
  intros v c x O. inversion O as [H P|mi dbo bs y H NC CI I FA BS W F]; subst; (split; [exact H|]); rewrite N.
  - apply value_get_plain; auto.
  - destruct (value_get_bits d n0 g m v mi c dbo bs A H NC CI BM BG I FA BS W) as (x' & X & F'). rewrite X.
    rewrite (is_field_fun _ _ _ _ _ _ x' x) with (3 := F); [reflexivity| |exact F']. pose proof (ct_size_pos c). lia.
Qed.
Lemma base_loop_hit : forall v c x l, has_ctype d v c -> value_get n d g m v c = Ret (inr x) -> In c l ->
  base_text_loop E float_text m v l = bind (number_text float_text c x) (fun s => Ret (Some s)).
Proof.
  intros v c x l H G I. induction l as [|c' l IH]; [destruct I|]. cbn [base_text_loop].
  destruct (ctype_dec d n0 v c' A (ctype_named _ _ _ H)) as [H'|H'].
  - assert (c' = c) by (eapply has_ctype_fun; eauto). subst c'. rewrite N in *. rewrite (value_is_true d n0) by auto. cbn [bind]. rewrite G. reflexivity.
  - rewrite N in *. rewrite (value_is_false d n0) by (auto; eapply ctype_named; eauto). cbn [bind]. destruct I as [->|I]; [contradiction|]. apply IH. exact I.
Qed.
Lemma ctype_info : forall v c, has_ctype d v c -> exists z k, has_info d v (IBase z k).
Proof. intros v c H. destruct (has_ctype_name _ _ _ H) as (e & F & _ & z & k & I). exists z, k, e. auto. Qed.
Lemma base_look : forall anc v c x s, object E m v c x -> number_text float_text c x = Ret s -> tlook E tagged deep float_text m anc v = Ret (TDone s).
Proof.
  intros anc v c x s O T. destruct (object_get _ _ _ O) as [H G]. destruct (ctype_info _ _ H) as (z & k & I). unfold tlook.
  rewrite (not_dots _ _ I) by (intros [t D]; discriminate). rewrite (info_ret E n0 A N v _ I). cbn [bind]. unfold base_text.
  rewrite (base_loop_hit v c x _ H G (all_types_all c)), T. reflexivity.
Qed.
Lemma pointer_value : forall v t p, points d m v t p -> p <> 0 -> pointer_text E m v = Ret (Some (HexString.of_Z p)) /\ 0 < p.
Proof.
  intros v t p P NZ. assert (0 <= p) by (destruct P as [_ ->]; apply number_range; exact BM).
  split; [|lia]. unfold pointer_text. pose proof (points_info _ _ _ _ _ P) as I. destruct I as [e [F I]].
  unfold value_kind_is. rewrite N. rewrite (final_if_type d n0 _ e) by auto. rewrite I. cbn [is_pointer_info bind]. rewrite <- N. rewrite (pointer_make E n0 A N m v t p P). cbn [bind].
  destruct (Z.eqb_spec p 0); [lia|]. f_equal. f_equal. destruct p; try lia. reflexivity.
Qed.
Lemma null_value : forall v t, points d m v t 0 -> pointer_text E m v = Ret (Some "NULL").
Proof.
  intros v t P. unfold pointer_text. pose proof (points_info _ _ _ _ _ P) as I. destruct I as [e [F I]].
  unfold value_kind_is. rewrite N. rewrite (final_if_type d n0 _ e) by auto. rewrite I. cbn [is_pointer_info bind]. rewrite <- N. rewrite (pointer_make E n0 A N m v t 0 P). reflexivity.
Qed.
Lemma pointer_look : forall anc v t p, points d m v t p -> tlook E tagged deep float_text m anc v = tlook_pointer E tagged deep m anc v.
Proof.
  intros anc v t p P. pose proof (points_info _ _ _ _ _ P) as I. unfold tlook. rewrite (not_dots _ _ I) by (intros [t' D]; discriminate).
  rewrite (info_ret E n0 A N v _ I). reflexivity.
Qed.
Lemma void_make : forall v t, has_info d v (IPointer t) -> is_void_pointer n d (Some (v_entry v)) = Ret (match t with None => true | Some _ => false end).
Proof.
  intros v t [e [F I]]. unfold is_void_pointer. rewrite N, (final_if_type d n0 _ e) by assumption. rewrite I. cbn [is_pointer_info bind]. unfold pointer_target. rewrite I. destruct t; reflexivity.
Qed.
Lemma ask_make : forall ev l w, (tagged = true -> en_handler E m ev l = Ret (0, w)) -> (tagged = false -> w = None) -> ask E tagged m ev l = Ret (0, w).
Proof. intros ev l w H1 H2. unfold ask. destruct tagged; [apply H1; reflexivity|rewrite H2; reflexivity]. Qed.
Lemma scalar_look : forall anc v r, scalar E tagged deep float_text m anc v r ->
  exists s, prints r s /\ tlook E tagged deep float_text m anc v = Ret (TDone s).
Proof.
  intros anc v r S.
  assert (DN : forall c x y, object E m v c x -> denotes c x y -> y = ct_number c x) by (intros c x y O D; apply denotes_fun in D; [exact D|eapply object_range; exact O]).
  inversion S as [x y O D R|x y O D R|c x y O CI NC NB D|O|O|c x O NI|z l nm ET W FN|z l y ET W Y FN|t P|t p P NZ ND|p P NZ DP NL HD]; subst r.
  - exists (String "'" (String (chr y) "'")). split; [constructor; lia|]. eapply base_look; [exact O|]. rewrite (DN _ _ _ O D) in *. unfold number_text, EscapeModel.isprint.
    replace ((32 <=? _)%Z && _)%bool with true by lia. reflexivity.
  - exists (dec y). split; [constructor|]. eapply base_look; [exact O|]. rewrite (DN _ _ _ O D) in *. unfold number_text, EscapeModel.isprint.
    replace ((32 <=? _)%Z && _)%bool with false by lia. reflexivity.
  - exists (dec y). split; [constructor|]. eapply base_look; [exact O|]. rewrite (DN _ _ _ O D). unfold number_text. rewrite (c_integer_dec c CI). destruct c; try reflexivity; congruence.
  - exists "true". split; [constructor|]. eapply base_look; [exact O|]. reflexivity.
  - exists "false". split; [constructor|]. eapply base_look; [exact O|]. reflexivity.
  - exists (float_text c x). split; [constructor|]. eapply base_look; [exact O|]. unfold number_text.
    destruct c; try reflexivity; exfalso; apply NI; unfold c_integer; cbn; tauto.
  - exists nm. split; [constructor|]. assert (I : has_info d v (IEnum z l)) by exact ET. unfold tlook. rewrite (not_dots _ _ I) by (intros [t D]; discriminate). rewrite (info_ret E n0 A N v _ I). cbn [bind].
    unfold enum_text. destruct I as [e [F I]]. unfold value_kind_is. rewrite N. rewrite (final_if_type d n0 _ e) by auto. rewrite I. cbn [is_enum_info bind].
    rewrite (enum_read d n0 m v z l) by (auto; unfold word; cbn in W; lia). cbn [bind].
    destruct (enum_name d n0 v z l (as_signed (8 * z) (number_at m (v_addr v) (Z.to_nat z))) A ET) as (nm' & -> & FN'). cbn [bind].
    rewrite (first_name_fun _ _ _ _ FN' FN). reflexivity.
  - subst y. eexists. split; [constructor|]. assert (I : has_info d v (IEnum z l)) by exact ET. unfold tlook. rewrite (not_dots _ _ I) by (intros [t D]; discriminate). rewrite (info_ret E n0 A N v _ I). cbn [bind].
    unfold enum_text. destruct I as [e [F I]]. unfold value_kind_is. rewrite N. rewrite (final_if_type d n0 _ e) by auto. rewrite I. cbn [is_enum_info bind].
    rewrite (enum_read d n0 m v z l) by (auto; unfold word; cbn in W; lia). cbn [bind].
    destruct (enum_name d n0 v z l (as_signed (8 * z) (number_at m (v_addr v) (Z.to_nat z))) A ET) as (nm' & -> & FN'). cbn [bind].
    rewrite (first_name_fun _ _ _ _ FN' FN). reflexivity.
  - exists "NULL". split; [constructor|]. rewrite (pointer_look _ _ _ _ P). unfold tlook_pointer. rewrite (null_value _ _ P), (pointer_make E n0 A N m v t 0 P). destruct deep; reflexivity.
  - destruct (pointer_value _ _ _ P NZ) as [T PP]. exists (HexString.of_Z p). split; [constructor|]. rewrite (pointer_look _ _ _ _ P). unfold tlook_pointer. rewrite T, ND. reflexivity.
  - destruct (pointer_value _ _ _ P NZ) as [T PP]. exists (HexString.of_Z p). split; [constructor|]. rewrite (pointer_look _ _ _ _ P). unfold tlook_pointer. rewrite T, DP.
    rewrite (pointer_make E n0 A N m v None p P). cbn [bind negb]. destruct (Z.eqb_spec p 0); [lia|].
    destruct (level_none E n0 A N m v anc None p P NL) as (r & R1 & R2). rewrite R1. cbn [bind]. rewrite R2.
    rewrite (ask_make _ _ None HD (fun _ => eq_refl)). cbn [bind fst snd Z.eqb negb]. rewrite (void_make _ _ (points_info _ _ _ _ _ P)). reflexivity.
Qed.

(** strings *)
Lemma content_nth : forall w c i, (i < Z.to_nat c)%nat -> nth i (array_content m w c) 0 = as_signed 8 (m (v_addr w + Z.of_nat i)).
Proof.
  intros w c i L. unfold array_content. rewrite nth_indep with (d' := swrap 8 (m (v_addr w + Z.of_nat 0))) by (rewrite map_length, seq_length; exact L).
  rewrite (map_nth (fun i => swrap 8 (m (v_addr w + Z.of_nat i)))). rewrite seq_nth by exact L. cbn [Nat.add]. apply swrap_signed; [lia|]. apply BM.
Qed.
Lemma content_length : forall w c, length (array_content m w c) = Z.to_nat c.
Proof. intros. unfold array_content. rewrite map_length, seq_length. reflexivity. Qed.
Lemma text_content : forall w l c, (forall i, (i <= length l)%nat -> as_signed 8 (m (v_addr w + Z.of_nat i)) = nth i l 0) -> c = Z.of_nat (length l) + 1 ->
  array_content m w c = (l ++ [0])%list.
Proof.
  intros w l c H ->. apply nth_ext with (d := 0) (d' := 0).
  - rewrite content_length, app_length. cbn. lia.
  - intros i L. rewrite content_length in L. rewrite content_nth by exact L. rewrite H by lia.
    destruct (Nat.eq_dec i (length l)) as [->|NE]; [|rewrite app_nth1 by lia; reflexivity].
    rewrite nth_overflow by lia. rewrite app_nth2, Nat.sub_diag by lia. reflexivity.
Qed.
Lemma char_look : forall w c, char_array E w c -> int_of c < 2 ^ 30 -> exists o, EscapeModel.dprintable_string true (array_content m w (int_of c)) true = EscapeModel.Ret o /\
  printable_text E m w = Ret (option_map (fun out => text_of (removelast out)) o).
Proof.
  intros w c (r & e & b & s & I & F & IB & NM) L.
  destruct (printable_spec (array_content m w (int_of c)) true true) as (o & O & _); [rewrite content_length; lia|].
  exists o. split; [exact O|]. unfold printable_text. rewrite (kind_make E n0 A N w _ _ I). cbn [bind negb].
  rewrite (count_make E n0 A N w _ _ I). destruct I as [ea [FA IA]]. unfold element_entry. rewrite N. rewrite (final_if_type d n0 _ ea) by auto. rewrite IA. cbn [is_array_info bind]. unfold EntryModel.array_of. rewrite IA. cbn [fst].
  destruct (final_entry_total d n0 (Some (St r)) no_quals A) as ((f & q) & FE). change (lift (Some r)) with (Some (St r)). rewrite FE. cbn [bind fst].
  apply final_entry_inv in FE. assert (f = Some e) by (eapply final_type_fun; eauto). subst f. rewrite IB, NM. cbn [String.eqb Ascii.eqb Bool.eqb].
  cbn [bind]. rewrite O. destruct o; reflexivity.
Qed.
Lemma string_look : forall w l, text_in E m w l -> exists b, printable_text E m w = Ret (Some (text_of b)) /\ unescape b = Some l /\ Forall (fun c => 32 <= c <= 126) b.
Proof.
  intros w l (c & CA & NE & PR & C & L & H). destruct (char_look w c CA L) as (o & O & P).
  rewrite (text_content w l (int_of c) H C) in O.
  destruct (printable_spec (l ++ [0]) true true) as (o' & O' & P1 & P2); [rewrite app_length; cbn; lia|]. rewrite O in O'. injection O' as <-.
  destruct o as [out|].
  - destruct (P2 out eq_refl) as (s & b & Q & -> & U & F). apply app_inj_tail in Q. destruct Q as [<- _]. exists b. rewrite P. cbn [option_map]. rewrite removelast_last. auto.
  - exfalso. apply (proj2 P1); [|reflexivity]. split; [reflexivity|]. split; [reflexivity|]. exists l. auto.
Qed.
Lemma no_string_look : forall w t c, has_info d w (IArray t c) -> (forall l, ~ text_in E m w l) -> (forall c, char_array E w c -> int_of c < 2 ^ 30) -> printable_text E m w = Ret None.
Proof.
  intros w t c I NT' SM.
  assert (CD : char_array E w c \/ ~ char_array E w c /\ printable_text E m w = Ret None).
  { unfold printable_text. rewrite (kind_make E n0 A N w _ _ I). cbn [bind negb].
    pose proof I as I'. destruct I' as [ea [FA IA]]. unfold element_entry. rewrite N. rewrite (final_if_type d n0 _ ea) by auto. rewrite IA. cbn [is_array_info bind]. unfold EntryModel.array_of. rewrite IA. cbn [fst].
    destruct (final_entry_total d n0 (lift t) no_quals A) as ((f & q) & FE). rewrite FE. cbn [bind fst]. apply final_entry_inv in FE.
    assert (NC : (forall r e b s, t = Some r -> f = Some e -> e_info (deref d e) = IBase b s -> e_name (deref d e) = Some "char" -> False) -> ~ char_array E w c).
    { intros X (r & e & b & s & I2 & F2 & IB & NM). pose proof (has_info_fun _ _ _ _ I I2) as Q. injection Q as ->. apply (X r e b s); auto. eapply final_type_fun; eauto. }
    destruct f as [e|]; [|right; split; [apply NC; discriminate|reflexivity]].
    destruct t as [r|]; [|destruct FE as [qs FE]; inversion FE].
    assert (SE : exists re, e = St re) by (destruct FE as [qs FE]; eapply resolves_static; [exact FE| |reflexivity]; intros e' X; injection X as <-; eexists; reflexivity).
    destruct SE as [re ->]. cbn [deref] in *.
    destruct (e_info (d re)) as [ | |b s| | | | | | | | | | | ] eqn:IB; try (right; split; [apply NC; intros r' e' b' s' _ Q; injection Q as <-; cbn [deref]; congruence|reflexivity]).
    destruct (e_name (d re)) as [nm|] eqn:NM; [|exfalso; exact (NT _ _ _ IB NM)].
    destruct (String.eqb_spec nm "char") as [->|NE].
    - left. exists r, (St re), b, s. auto.
    - right. split; [|reflexivity]. apply NC. intros r' e' b' s' _ Q. injection Q as <-. cbn [deref]. congruence. }
  destruct CD as [CA|[_ X]]; [|exact X]. pose proof (SM _ CA) as L. destruct (char_look w c CA L) as (o & O & P). rewrite P. destruct o as [out|]; [|reflexivity]. exfalso.
  destruct (printable_spec (array_content m w (int_of c)) true true) as (o' & O' & P1 & P2); [rewrite content_length; lia|]. rewrite O in O'. injection O' as <-.
  destruct (proj1 P1 ltac:(discriminate)) as (_ & _ & s & Q & NE & PR). apply (NT' s).
  pose proof (f_equal (@length Z) Q) as QL. rewrite content_length, app_length in QL. cbn [length] in QL.
  exists c. split; [exact CA|]. split; [exact NE|]. split; [exact PR|]. split; [lia|]. split; [exact L|]. intros i LI.
  rewrite <- content_nth with (c := int_of c) by lia. rewrite Q. destruct (Nat.eq_dec i (length s)) as [->|NE'].
  - rewrite app_nth2, Nat.sub_diag by lia. rewrite (nth_overflow s) by lia. reflexivity.
  - rewrite app_nth1 by lia. reflexivity.
Qed.
Lemma array_look : forall anc v w, array_of E tagged m anc v w -> tlook E tagged deep float_text m anc v = bind (printable_text E m w) (fun p =>
    match p with
    | Some s => Ret (TDone (String quote (s ++ String quote "")))
    | None => bind (element_count n d (Some (v_entry w))) (fun c => bind (elements_from E w (Z.to_nat c) 0) (fun l => Ret (match l with Some l => TItems l | None => TFail end)))
    end).
Proof.
  intros anc v w AO. unfold tlook.
  assert (X : forall t c, has_info d v (IArray t c) -> tlook E tagged deep float_text m anc v = tlook_array E tagged m anc v /\ element_count n d (Some (v_entry v)) = Ret (int_of c)).
  { intros t c I. unfold tlook. rewrite (not_dots _ _ I) by (intros [t' D]; discriminate). rewrite (info_ret E n0 A N v _ I). split; [reflexivity|]. apply (count_make E n0 A N v _ _ I). }
  inversion AO as [t c I C|t c w' I C T H|t c I C T VA]; subst w; destruct (X _ _ I) as [X1 X2]; unfold tlook in X1; rewrite X1; unfold tlook_array; rewrite X2; cbn [bind].
  - replace (int_of c =? -1)%Z with false by lia. cbn [bind]. rewrite X2. reflexivity.
  - replace (int_of c =? -1)%Z with true by lia. rewrite T. cbn [bind]. unfold ask. rewrite H. reflexivity.
  - replace (int_of c =? -1)%Z with true by lia. rewrite T. cbn [bind]. rewrite (none_make E n0 A N m v t c I VA). reflexivity.
Qed.
Lemma skipped_look : forall anc v, skipped E tagged m anc v -> tlook E tagged deep float_text m anc v = Ret (TDone "").
Proof.
  intros anc v (t & c & I & C & T & H). unfold tlook. rewrite (not_dots _ _ I) by (intros [t' D]; discriminate). rewrite (info_ret E n0 A N v _ I). cbn [bind].
  unfold tlook_array. rewrite (count_make E n0 A N v _ _ I). cbn [bind]. replace (int_of c =? -1)%Z with true by lia. rewrite T. unfold ask. rewrite H. reflexivity.
Qed.
Lemma parts_look : forall anc v ch, parts E tagged m anc v ch -> tlook E tagged deep float_text m anc v = Ret (TFields ch).
Proof.
  intros anc v ch P. unfold tlook.
  inversion P as [z l ch' I F|z l w I NE T H|z l I H]; subst ch; (rewrite (not_dots _ _ I) by (intros [t' D]; discriminate)); rewrite (info_ret E n0 A N v _ I); cbn [bind]; unfold tlook_aggr; rewrite (member_count_make E n0 A N v _ _ _ I); cbn [bind].
  - rewrite Nat2Z.id, (members_make E n0 A N _ _ _ _ _ I F). reflexivity.
  - replace (0 <? Z.of_nat (length l))%Z with true by (destruct l; [congruence|reflexivity]). unfold ask. rewrite T, H. reflexivity.
  - destruct l as [|r l]; [reflexivity|]. replace (0 <? Z.of_nat (length (r :: l)))%Z with true by reflexivity.
    rewrite (ask_make _ _ None (H ltac:(discriminate)) (fun _ => eq_refl)). reflexivity.
Qed.
Lemma follow_look : forall anc v w t c, followed E tagged deep m anc v w -> has_info d w (IArray (Some t) c) -> tlook E tagged deep float_text m anc v = Ret (TPtr w) /\ v_addr w <> 0.
Proof.
  intros anc v w t c F I. inversion F as [t' p w' P NZ DP NL T H AD|t' p P NZ DP NL H]; subst w; rewrite (pointer_look _ _ _ _ P); unfold tlook_pointer; rewrite DP; cbn [negb];
    rewrite (pointer_make E n0 A N m v _ p P); cbn [bind]; (replace (p =? 0)%Z with false by lia); destruct (level_none E n0 A N m v anc _ p P NL) as (r & R1 & R2); rewrite R1; cbn [bind]; rewrite R2.
  - unfold ask. rewrite T, H. cbn [bind fst snd Z.eqb negb]. replace (v_addr w' =? p)%Z with true by lia. cbn [negb]. rewrite (void_make _ _ (points_info _ _ _ _ _ P)). cbn [bind]. rewrite (kind_make E n0 A N w' _ _ I). split; [destruct t'; reflexivity|lia].
  - rewrite (ask_make _ _ None H (fun _ => eq_refl)). cbn [bind fst snd Z.eqb negb]. rewrite (void_make _ _ (points_info _ _ _ _ _ P)). cbn [bind].
    rewrite (one_make E n0 A N m v t' p P NZ). cbn [bind]. rewrite (kind_make E n0 A N _ _ _ I). split; [reflexivity|exact NZ].
Qed.
Lemma flex_make : forall w t c, has_info d w (IArray (Some t) c) -> v_addr w <> 0 -> new_element_count_value n d m w (-1) true = Ret (Some (array_at t (-1) (v_addr w))).
Proof.
  intros w t c [e [F I]] NZ. unfold new_element_count_value, new_element_count_entry. rewrite N, !(final_if_type d n0 _ e) by assumption. rewrite I. cbn [is_array_info is_pointer_info orb bind andb].
  rewrite ?I. cbn [is_array_info is_pointer_info orb bind andb]. rewrite ?I. cbn [is_array_info is_pointer_info orb bind andb]. unfold new_value. replace (v_addr w =? 0)%Z with false by lia. reflexivity.
Qed.
Lemma pointer_end_ok : forall w t c ty s, has_info d w (IArray (Some t) c) -> v_addr w <> 0 -> literal_type E t ty -> exists k0, forall k, (k0 <= k)%nat ->
  pointer_end E k m w (Some s) = Ret (Some (if starts_with_quote s then s else "(" ++ ty ++ ")" ++ s)).
Proof.
  intros w t c ty s I NZ (a & b & [_ [k0 K0]] & PA & PB & ->). exists k0. intros k K. unfold pointer_end. rewrite (flex_make w t c I NZ). cbn [bind array_at v_entry].
  rewrite (K0 k K). cbn [bind]. rewrite (fmt_hole a b "" [] PA PB). cbn [bind]. destruct (starts_with_quote s).
  - cbn [fmt Ascii.eqb Bool.eqb bind]. rewrite sapp_nil. reflexivity.
  - cbn [fmt Ascii.eqb Bool.eqb bind]. rewrite sapp_nil. reflexivity.
Qed.

(** the whole text *)
Definition sprints (sh : shown) (s : string) : Prop :=
  match sh with SNothing => s = "" | SFields l => prints_fields l s | SValue r => prints r s end.
Definition sreadable (sh : shown) : Prop := match sh with SNothing => True | SFields l => fields_readable l | SValue r => readable r end.
Lemma anonymous_iff : forall v, anonymous E v = true <-> anonymous_member E v.
Proof.
  intros v. unfold anonymous, anonymous_member, name_is, value_name. split.
  - destruct (e_info (deref d (v_entry v))) eqn:I; try discriminate. destruct (e_name (deref d (v_entry v))); [discriminate|]. intros _. split; [reflexivity|eexists; reflexivity].
  - intros [-> [mi ->]]. reflexivity.
Qed.
Lemma fprint_text : forall l o, fprint l o -> prints_fields l (opt_text o).
Proof. intros l o [[-> ->]|(s & -> & _ & P)]; [constructor|exact P]. Qed.
Lemma fprint_more : forall l0 o l s, fprint l0 o -> prints_fields l s -> l <> [] -> fprint (l0 ++ l) (Some (opt_text o ++ sep o ++ s)).
Proof.
  intros l0 o l s F P NE. right. eexists. split; [reflexivity|]. split; [destruct l0; [exact NE|discriminate]|].
  destruct F as [[-> ->]|(t & -> & NE0 & P0)]; [exact P|]. apply fields_join; assumption.
Qed.
Lemma shown_fields_anonymous : forall anc v l, shows E tagged deep float_text m anc v (SFields l) -> value_name E v = None.
Proof. intros anc v l S. inversion S. match goal with H : anonymous_member E v |- _ => exact (proj1 H) end. Qed.
Lemma prints_fields_nil : forall l s, prints_fields l s -> l = [] <-> s = "".
Proof. intros l s P. inversion P; subst; split; intro; try discriminate; reflexivity. Qed.
Theorem text_complete :
  (forall anc v sh, shows E tagged deep float_text m anc v sh -> sreadable sh ->
     exists s k0, sprints sh s /\ forall k, (k0 <= k)%nat -> text E tagged deep float_text k m anc v = Ret (Some s)) /\
  (forall anc ch l, shows_items E tagged deep float_text m anc ch l -> all_readable l ->
     exists ss k0, Forall2 prints l ss /\ forall k, (k0 <= k)%nat -> collect (text E tagged deep float_text k m anc) ch = Ret (map Some ss)) /\
  (forall anc ch l, shows_fields E tagged deep float_text m anc ch l -> fields_readable l ->
     exists ss k0, (forall k, (k0 <= k)%nat -> collect (text E tagged deep float_text k m anc) ch = Ret (map Some ss)) /\
       forall l0 o, fprint l0 o -> exists o', fields_text (combine (map (value_name E) ch) (map Some ss)) o = Ret (Some o') /\ fprint (l0 ++ l) o').
Proof.
  apply shows_all.
  - intros anc v r S R. destruct (scalar_look anc v r S) as (s & P & L). exists s, 1%nat. split; [exact P|]. intros [|k] K; [lia|]. cbn [text]. rewrite L. reflexivity.
  - intros anc v S _. exists "", 1%nat. split; [reflexivity|]. intros [|k] K; [lia|]. cbn [text]. rewrite (skipped_look anc v S). reflexivity.
  - intros anc v w l AO TI _. destruct (string_look w l TI) as (b & PT & U & F). exists (String quote (text_of b ++ String quote "")), 1%nat.
    split; [constructor; assumption|]. intros [|k] K; [lia|]. cbn [text]. rewrite (array_look anc v w AO), PT. reflexivity.
  - intros anc v w ch l AO NTI SM EA SI IH R. destruct (IH R) as (ss & k0 & F & K0).
    destruct (items_text_ok l ss F [] None (or_introl (conj eq_refl eq_refl))) as (o' & IT & P). cbn [app] in P.
    exists ("{" ++ opt_text o' ++ "}"), (S k0). split; [apply list_text; exact P|]. intros [|k] K; [lia|]. cbn [text].
    pose proof EA as [t [c [I _]]]. rewrite (array_look anc v w AO), (no_string_look w t c I NTI SM). cbn [bind]. rewrite (count_make E n0 A N w t c I). cbn [bind].
    rewrite (elements_make E n0 A N w t c ch I EA). cbn [bind]. rewrite (K0 k) by lia. cbn [bind]. rewrite IT. reflexivity.
  - intros anc v ch l P SF IH NA R. cbn [sreadable] in R. apply braces_readable in R. destruct (IH R) as (ss & k0 & K0 & FT).
    destruct (FT [] None (or_introl (conj eq_refl eq_refl))) as (o' & T & FP). cbn [app] in FP.
    exists ("{" ++ opt_text o' ++ "}"), (S k0). split; [apply braces_text; exact FP|]. intros [|k] K; [lia|]. cbn [text].
    rewrite (parts_look anc v ch P). cbn [bind]. rewrite (K0 k) by lia. cbn [bind]. rewrite T. cbn [bind].
    destruct (anonymous E v) eqn:AN; [apply anonymous_iff in AN; contradiction|]. reflexivity.
  - intros anc v ch l P SF IH AM R. destruct (IH R) as (ss & k0 & K0 & FT).
    destruct (FT [] None (or_introl (conj eq_refl eq_refl))) as (o' & T & FP). cbn [app] in FP.
    exists (opt_text o'), (S k0). split; [apply fprint_text; exact FP|]. intros [|k] K; [lia|]. cbn [text].
    rewrite (parts_look anc v ch P). cbn [bind]. rewrite (K0 k) by lia. cbn [bind]. rewrite T. cbn [bind].
    apply anonymous_iff in AM. rewrite AM. reflexivity.
  - intros anc v w t c ty l FO S IH I LT R. destruct (IH R) as (s & k0 & P & K0). destruct (follow_look anc v w t c FO I) as [L NZ].
    destruct (pointer_end_ok w t c ty s I NZ LT) as [k1 K1]. exists s, (1 + (k0 + k1))%nat. split; [exact P|]. intros [|k] K; [lia|]. cbn [text].
    rewrite L. cbn [bind]. rewrite (K0 k) by lia. cbn [bind]. rewrite (K1 k) by lia. cbn [sprints] in P. rewrite (proj2 (quote_text _ _ P R)) by (eexists; reflexivity). reflexivity.
  - intros anc v w t c ty r FO S IH NT' I LT R. destruct (IH (proj2 R)) as (s & k0 & P & K0). destruct (follow_look anc v w t c FO I) as [L NZ].
    destruct (pointer_end_ok w t c ty s I NZ LT) as [k1 K1]. exists ("(" ++ ty ++ ")" ++ s), (1 + (k0 + k1))%nat. split; [constructor; exact P|]. intros [|k] K; [lia|]. cbn [text].
    rewrite L. cbn [bind]. rewrite (K0 k) by lia. cbn [bind]. rewrite (K1 k) by lia. cbn [sprints] in P.
    destruct (starts_with_quote s) eqn:Q; [|reflexivity]. apply (quote_text _ _ P (proj2 R)) in Q. destruct Q as [l ->]. exfalso. exact (NT' l eq_refl).
  - intros anc _. exists [], 0%nat. split; [constructor|]. reflexivity.
  - intros anc w ch r l S IH SI IHl [R1 R2]. destruct (IH R1) as (s & k0 & P & K0). destruct (IHl R2) as (ss & k1 & F & K1).
    exists (s :: ss), (k0 + k1)%nat. split; [constructor; assumption|]. intros k K. cbn [collect map]. rewrite (K0 k), (K1 k) by lia. reflexivity.
  - intros anc _. exists [], 0%nat. split; [reflexivity|]. intros l0 o F. exists o. rewrite app_nil_r. split; [reflexivity|exact F].
  - intros anc w ch nm r l S IH NM SF IHl (R0 & R1 & R2). destruct (IH R1) as (s & k0 & P & K0). destruct (IHl R2) as (ss & k1 & K1 & FT).
    exists (s :: ss), (k0 + k1)%nat. split; [intros k K; cbn [collect map]; rewrite (K0 k), (K1 k) by lia; reflexivity|]. intros l0 o F. cbn [map combine fields_text].
    cbn [sprints] in P. rewrite (nonempty_text r s P R1). unfold value_name at 1. unfold name_is in NM. rewrite NM. cbn [fmt Ascii.eqb Bool.eqb bind].
    destruct (FT (l0 ++ [(nm, r)])%list (Some (opt_text o ++ sep o ++ ("." ++ nm ++ " = " ++ s ++ ",")))) as (o' & T & FP).
    { apply fprint_more; [exact F|constructor; exact P|discriminate]. }
    exists o'. split; [exact T|]. rewrite <- app_assoc in FP. exact FP.
  - intros anc w ch l' l S IH SF IHl R. apply fields_readable_app in R. destruct R as [R1 R2]. destruct (IH R1) as (s & k0 & P & K0). destruct (IHl R2) as (ss & k1 & K1 & FT).
    exists (s :: ss), (k0 + k1)%nat. split; [intros k K; cbn [collect map]; rewrite (K0 k), (K1 k) by lia; reflexivity|]. intros l0 o F. cbn [map combine fields_text].
    cbn [sprints] in P. rewrite (shown_fields_anonymous _ _ _ S). destruct (String.eqb_spec s "") as [->|NE].
    + apply (prints_fields_nil l') in P. assert (l' = []) by (apply P; reflexivity). subst l'. apply FT. exact F.
    + cbn [fmt Ascii.eqb Bool.eqb bind]. destruct (FT (l0 ++ l')%list (Some (opt_text o ++ sep o ++ s))) as (o' & T & FP).
      { apply fprint_more; [exact F|exact P|]. intros ->. apply NE. apply (prints_fields_nil [] s P). reflexivity. }
      exists o'. split; [rewrite sapp_nil; exact T|]. rewrite <- app_assoc in FP. exact FP.
  - intros anc w ch l S IH SF IHl R. destruct (IH I) as (s & k0 & P & K0). destruct (IHl R) as (ss & k1 & K1 & FT). cbn in P. subst s.
    exists ("" :: ss), (k0 + k1)%nat. split; [intros k K; cbn [collect map]; rewrite (K0 k), (K1 k) by lia; reflexivity|]. intros l0 o F. cbn [map combine fields_text String.eqb]. apply FT. exact F.
Qed.
End Text.

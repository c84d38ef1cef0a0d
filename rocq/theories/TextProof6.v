(** Making the text of well-formed data is free of crashes. *)
From Coq Require Import ZArith String Ascii List Bool HexString Lia ZifyBool.
From Verif Require Import Base BaseProof EntryModel EntrySpec EntryProof ValueModel ValueSpec ValueProof ValueProof2 DeepModel DeepSpec DeepProof DeepProof2 DeepProof3 DeepProof4 DeepProof5 DeepProof8 MoveProof TagMapProof EscapeSpec EscapeProof CdeclModel CdeclProof TextModel TextSpec TextProof TextProof2 TextProof3 TextProof4.
From Verif Require EscapeModel CdeclSpec.
Import ListNotations.
Open Scope Z_scope.
Local Open Scope string_scope.

Definition lands {A} (x : res A) : Prop := x = OutOfFuel \/ exists a, x = Ret a.
Lemma bind_lands : forall A B (x : res A) (f : A -> res B), lands x -> (forall a, x = Ret a -> lands (f a)) -> lands (bind x f).
Proof. intros A B x f [-> |[a ->]] H; [left; reflexivity|]. cbn. apply H. reflexivity. Qed.
Lemma ret_lands : forall A (a : A), lands (Ret a).
Proof. intros. right. eexists. reflexivity. Qed.
Lemma collect_lands : forall A B (f : A -> res B) l, (forall a, In a l -> lands (f a)) -> lands (collect f l).
Proof.
  intros A B f l H. induction l as [|a l IH]; [apply ret_lands|]. cbn [collect]. apply bind_lands; [apply H; left; reflexivity|]. intros b _.
  apply bind_lands; [apply IH; intros x X; apply H; right; exact X|]. intros; apply ret_lands.
Qed.
Lemma fields_text_lands : forall l o, lands (fields_text l o).
Proof.
  induction l as [|[nm [t|]] l IH]; intro o; try apply ret_lands. cbn [fields_text]. destruct (String.eqb t ""); [apply IH|].
  destruct nm; cbn [fmt Ascii.eqb Bool.eqb bind]; apply IH.
Qed.
Lemma items_text_lands : forall l o, lands (items_text l o).
Proof. induction l as [|[t|] l IH]; intro o; try apply ret_lands. cbn [items_text fmt Ascii.eqb Bool.eqb bind]. apply IH. Qed.

Section Lands.
Variable E : env.
Variables tagged deep : bool.
Variable float_text : ctype -> Z -> string.
Variable n0 : nat.
Notation n := (en_fuel E).
Notation d := (en_db E).
Notation g := (en_garbage E).
Hypothesis A : acyclic d n0.
Hypothesis N : n = (n0 + 3)%nat.
Hypothesis BG : bytes_ok g.
Hypothesis NT : forall r z c, e_info (d r) = IBase z c -> e_name (d r) <> None.
Hypothesis CL : forall r, CdeclSpec.clean (d r).
Hypothesis FT : forall c x, float_text c x <> "".
Hypothesis HD : forall m ev l, exists r, en_handler E m ev l = Ret r.
Variable m : mem.
Hypothesis BM : bytes_ok m.

Lemma final_if_lands : forall p w, lands (final_if n d p w).
Proof. intros p w. right. rewrite N. apply final_if_total. exact A. Qed.
Lemma byte_size_lands : forall p, lands (byte_size n d p).
Proof. intros p. right. rewrite N. apply byte_size_total. exact A. Qed.
Lemma final_entry_lands : forall p q, lands (final_entry n d p q).
Proof. intros p q. right. rewrite N. apply final_entry_total. exact A. Qed.
Ltac step := first
  [ apply ret_lands
  | apply final_if_lands | apply byte_size_lands | apply final_entry_lands | assumption
  | match goal with |- lands (bind _ _) => apply bind_lands; [|intros] end
  | match goal with |- lands (match ?x with _ => _ end) => destruct x end ].
Ltac go := repeat step.
Lemma final_info_lands : forall v, lands (final_info E v).
Proof. intro v. unfold final_info. go. Qed.
Lemma kind_is_lands : forall v w, lands (value_kind_is E v w).
Proof. intros. unfold value_kind_is. go. Qed.
Lemma pointer_lands : forall v, lands (value_pointer n d m v).
Proof. intros. unfold value_pointer. go. Qed.
Lemma loop_lands : forall p anc l, lands (loop_search E m p anc l).
Proof.
  intros p anc. induction anc as [|a anc IH]; intro l; [apply ret_lands|]. cbn. apply bind_lands; [apply pointer_lands|].
  intros [x|q] _; [apply IH|]. destruct (p =? q)%Z; [apply ret_lands|apply IH].
Qed.
Lemma member_lands : forall v i a, lands (new_value_by_member_id n d v i a).
Proof. intros. unfold new_value_by_member_id, member_count, by_member_id. go. Qed.
Lemma element_lands : forall v i a, lands (new_value_by_element_id n d v i a).
Proof. intros. unfold new_value_by_element_id, element_count, element_entry. go. Qed.
Lemma members_lands : forall v c i, lands (members_from E v c i).
Proof. intros v c. induction c as [|c IH]; intro i; [apply ret_lands|]. cbn. apply bind_lands; [apply member_lands|]. intros [w|] _; [|apply ret_lands]. apply bind_lands; [apply IH|]. intros; apply ret_lands. Qed.
Lemma elements_lands : forall v c i, lands (elements_from E v c i).
Proof. intros v c. induction c as [|c IH]; intro i; [apply ret_lands|]. cbn. apply bind_lands; [apply element_lands|]. intros [w|] _; [|apply ret_lands]. apply bind_lands; [apply IH|]. intros; apply ret_lands. Qed.
Lemma count_value_lands : forall v c a, lands (new_element_count_value n d m v c a).
Proof. intros. unfold new_element_count_value, new_element_count_entry. go. Qed.
Lemma ask_lands : forall tg ev l, lands (ask E tg m ev l).
Proof. intros. unfold ask. destruct tg; [right; apply HD|apply ret_lands]. Qed.
Lemma enum_text_lands : forall v, lands (enum_text E m v).
Proof. intros. unfold enum_text, value_enumeration_to_name, enumeration_to_name, value_enumeration, enum_size. go; try apply kind_is_lands. Qed.
Lemma pointer_text_lands : forall v, lands (pointer_text E m v).
Proof. intros. unfold pointer_text. go; [apply kind_is_lands|apply pointer_lands]. Qed.
Lemma done_lands : forall x, lands x -> lands (done x).
Proof. intros. unfold done. go. Qed.

Lemma object_exists : forall anc v c, proper E tagged deep m anc v -> has_ctype d v c -> exists x, object E m v c x.
Proof.
  intros anc v c P H.
  assert (PL : plain d v -> exists x, object E m v c x) by (intro PL; eexists; apply ob_plain; assumption).
  destruct (e_info (deref d (v_entry v))) as [ | | | | | | |mi| | | | | | ] eqn:I; try (apply PL; intros mi J; rewrite I in J; discriminate).
  destruct (pr_field _ _ _ _ _ _ P c mi H I) as [X|(dbo & bs & NC & CI & FA & BS & W)]; [apply PL; exact X|].
  destruct (value_get_bits d n0 g m v mi c dbo bs A H NC CI BM BG I FA BS W) as (x & X & F). exists x. eapply ob_field; eassumption.
Qed.
Lemma base_text_lands : forall anc v, proper E tagged deep m anc v -> calm E m v -> lands (base_text E float_text m v).
Proof.
  intros anc v P C. unfold base_text. generalize all_types as l. induction l as [|c l IH]; [apply ret_lands|]. cbn [base_text_loop].
  destruct (value_is_total d n0 v c A (ca_named _ _ _ C)) as (b & B). rewrite <- N in B. rewrite B. cbn [bind]. destruct b; [|exact IH].
  apply value_is_spec in B. destruct (object_exists anc v c P (proj1 B eq_refl)) as [x O]. pose proof (proj2 (object_get E n0 A N BG m BM _ _ _ O)) as G. rewrite G. cbn [bind].
  apply bind_lands; [|intros; apply ret_lands]. unfold number_text.
  assert (CB : c = CBool -> x = 0 \/ x = 1) by (intros ->; exact (ca_bool _ _ _ C x O)).
  destruct c; try apply ret_lands.
  - destruct (EscapeModel.isprint _); apply ret_lands.
  - destruct (CB eq_refl) as [-> | ->]; apply ret_lands.
Qed.
Lemma printable_lands : forall anc v a, proper E tagged deep m anc v -> array_of E tagged m anc v a -> lands (printable_text E m a).
Proof.
  intros anc v a P AO. destruct (pr_array _ _ _ _ _ _ P a AO) as ((t & c & I) & SM & _).
  assert (CD : char_array E a c \/ lands (printable_text E m a)).
  { unfold printable_text. rewrite (kind_make E n0 A N a _ _ I). cbn [bind negb].
    pose proof I as I'. destruct I' as [ea [FA IA]]. unfold element_entry. rewrite N. rewrite (final_if_type d n0 _ ea) by auto. rewrite IA. cbn [is_array_info bind]. unfold EntryModel.array_of. rewrite IA. cbn [fst].
    destruct (final_entry_total d n0 (lift t) no_quals A) as ((f & q) & FE). rewrite FE. cbn [bind fst]. apply final_entry_inv in FE.
    destruct f as [e|]; [|right; apply ret_lands]. destruct t as [r|]; [|destruct FE as [qs FE]; inversion FE].
    destruct (e_info (deref d e)) as [ | |b z| | | | | | | | | | | ] eqn:IB; try (right; apply ret_lands).
    destruct (e_name (deref d e)) as [nm|] eqn:NM.
    - destruct (String.eqb_spec nm "char") as [->|]; [|right; apply ret_lands]. left. exists r, e, b, z. split; [exact I|]. split; [exact FE|]. split; assumption.
    - exfalso. assert (SE : exists re, e = St re) by (destruct FE as [qs FE]; eapply resolves_static; [exact FE| |reflexivity]; intros e' X; injection X as <-; eexists; reflexivity).
      destruct SE as [r' ->]. exact (NT r' b z IB NM). }
  destruct CD as [CA|L]; [|exact L]. destruct (char_look E n0 A N m a c CA (SM c CA)) as (o & O & ->). apply ret_lands.
Qed.
Lemma tlook_lands : forall anc v, proper E tagged deep m anc v -> calm E m v -> lands (tlook E tagged deep float_text m anc v).
Proof.
  intros anc v P C.
  assert (L1 : forall k, lands (tlook_aggr E tagged m k anc v)) by (intro k; unfold tlook_aggr, member_count; go; try apply ask_lands; try apply members_lands).
  assert (L2 : forall t c, has_info d v (IArray t c) -> lands (tlook_array E tagged m anc v)).
  { intros t c I. unfold tlook_array. rewrite (count_make E n0 A N v _ _ I). cbn [bind].
    assert (G : forall a, array_of E tagged m anc v a -> lands (bind (printable_text E m a) (fun p =>
      match p with
      | Some s => Ret (TDone (String quote (s ++ String quote "")))
      | None => bind (element_count n d (Some (v_entry a))) (fun c => bind (elements_from E a (Z.to_nat c) 0) (fun l => Ret (match l with Some l => TItems l | None => TFail end)))
      end))).
    { intros a AO. apply bind_lands; [eapply printable_lands; eassumption|]. intros [s|] _; [apply ret_lands|]. unfold element_count. go. apply elements_lands. }
    destruct (Z.eqb_spec (int_of c) (-1)) as [CM|CM].
    - destruct tagged eqn:TG.
      + destruct (HD m RQVST_flex_array_count (v :: anc)) as [[hs hw] HH]. unfold ask. rewrite HH. cbn [bind fst snd]. destruct (Z.eqb_spec hs 0) as [->|]; cbn [negb bind]; [|apply ret_lands].
        destruct hw as [hw|]; cbn [bind]; [|apply ret_lands]. apply G. eapply ar_handled; eauto.
      + assert (X : lands (new_element_count_value n d m v 0 true)) by apply count_value_lands.
        destruct X as [X|[nw X]]; rewrite X; [left; reflexivity|]. cbn [bind]. destruct nw as [nw|]; cbn [bind]; [|apply ret_lands].
        assert (Y : exists r, t = Some r /\ v_addr v <> 0 /\ nw = array_at r 0 (v_addr v)).
        { pose proof I as [e [F J]]. unfold new_element_count_value, new_element_count_entry in X. rewrite N in X. rewrite !(final_if_type d n0 _ e) in X by assumption. rewrite J in X. cbn [is_array_info is_pointer_info orb bind andb] in X.
          rewrite ?J in X. cbn [is_array_info is_pointer_info orb bind andb] in X. rewrite ?J in X. cbn [is_array_info is_pointer_info orb bind andb] in X. destruct t as [r|]; [|discriminate]. cbn [bind] in X. unfold new_value in X. destruct (Z.eqb_spec (v_addr v) 0); [discriminate|].
          injection X as <-. exists r. split; [reflexivity|]. split; [assumption|reflexivity]. }
        destruct Y as (r & -> & VA & ->). apply G. eapply ar_empty; eauto.
    - cbn [bind]. apply G. eapply ar_known; eauto. }
  assert (L3 : lands (tlook_pointer E tagged deep m anc v)).
  { unfold tlook_pointer, is_void_pointer, level_introduced_loop. go; try apply done_lands; try apply pointer_text_lands; try apply pointer_lands; try apply loop_lands; try apply ask_lands; try apply count_value_lands; try apply kind_is_lands; go; try apply kind_is_lands. }
  unfold tlook.
  assert (LL : lands (bind (final_info E v) (fun f => match f with
    | Some (IBase _ _) => done (base_text E float_text m v)
    | Some (IEnum _ _) => done (enum_text E m v)
    | Some (IAggr AStruct _ _) => tlook_aggr E tagged m AStruct anc v
    | Some (IAggr AUnion _ _) => tlook_aggr E tagged m AUnion anc v
    | Some (IArray _ _) => tlook_array E tagged m anc v
    | Some (IPointer _) => tlook_pointer E tagged deep m anc v
    | Some (ISubprogram _ _) | Some (ISubroutine _ _) => Abort
    | _ => Ret TFail
    end))).
  { apply bind_lands; [apply final_info_lands|]. intros f F. destruct f as [i|]; [|apply ret_lands]. apply final_info_some in F.
    destruct i as [ | |z c| | |z l|t c| |[]  z l| | |t l|t l| ]; try apply ret_lands; try apply L1; try assumption.
    - apply done_lands. eapply base_text_lands; eassumption.
    - apply done_lands. apply enum_text_lands.
    - eapply L2; exact F.
    - exfalso. exact (proj1 (ca_function _ _ _ C t l) F).
    - exfalso. exact (proj2 (ca_function _ _ _ C t l) F). }
  destruct (e_info (deref d (v_entry v))) as [ | | | | | | | | | |u t| | | ] eqn:J; try exact LL. destruct u; [|exact LL]. exfalso. exact (ca_unspecified _ _ _ C t J).
Qed.
Theorem text_lands : forall a0 v0, (forall anc w, met_from E tagged deep m a0 v0 anc w -> proper E tagged deep m anc w /\ calm E m w) ->
  forall k anc v, met_from E tagged deep m a0 v0 anc v -> lands (text E tagged deep float_text k m anc v).
Proof.
  intros a0 v0 PR. induction k as [|k IH]; intros anc v MV; [left; reflexivity|]. cbn [text]. destruct (PR _ _ MV) as [P C].
  apply bind_lands; [apply tlook_lands; assumption|]. intros w L. pose proof (look_sound' E tagged deep float_text n0 A N BG FT m BM _ _ _ P L) as F. destruct w as [|t|ch|ch|w]; cbn [found] in F; try apply ret_lands.
  - apply bind_lands; [apply collect_lands; intros y Y; apply IH; eapply me_part; eassumption|]. intros rs _.
    apply bind_lands; [apply fields_text_lands|]. intros [o|] _; [|apply ret_lands]. destruct (anonymous E v); [apply ret_lands|]. cbn [fmt Ascii.eqb Bool.eqb bind]. apply ret_lands.
  - destruct F as (w & AO & _ & _ & EA). apply bind_lands; [apply collect_lands; intros y Y; apply IH; eapply me_element; eassumption|]. intros rs _.
    apply bind_lands; [apply items_text_lands|]. intros [o|] _; [|apply ret_lands]. cbn [fmt Ascii.eqb Bool.eqb bind]. apply ret_lands.
  - apply bind_lands; [apply IH; eapply me_target; eassumption|]. intros [a|] HA; [|apply ret_lands].
    destruct (pr_target _ _ _ _ _ _ P w F) as (NAW & NSW & t & c & T & I & IT).
    destruct (follow_look E tagged deep float_text n0 A N m anc v w t c F I) as [_ NZ].
    destruct (literal_make E CL t T IT) as (pa & pb & PA & PB & [R _] & LT).
    unfold pointer_end. rewrite (flex_make E n0 A N m w t c I NZ). cbn [bind array_at v_entry].
    destruct (R k) as [Q|Q]; rewrite Q; [left; reflexivity|]. cbn [bind]. rewrite (fmt_hole pa pb "" [] PA PB). cbn [bind].
    destruct (starts_with_quote a); cbn [fmt Ascii.eqb Bool.eqb bind]; apply ret_lands.
Qed.
End Lands.

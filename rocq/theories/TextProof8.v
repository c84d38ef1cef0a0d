(** The theorems about texts in terms of metac_value_string_ex. *)
From Coq Require Import ZArith String Ascii List Bool Lia.
From Verif Require Import Base BaseProof EntryModel EntrySpec EntryProof ValueModel ValueSpec ValueProof2 DeepModel DeepSpec DeepProof4 DeepProof6 MoveProof EscapeSpec CdeclModel CdeclProof TextModel TextSpec TextProof TextProof2 TextProof3 TextProof4 TextProof5 TextProof6 TextProof7.
From Verif Require CdeclSpec CdeclProof3.
Import ListNotations.
Open Scope Z_scope.
Local Open Scope string_scope.

Lemma reads_back : forall E tagged deep float_text n0 m v r, readable_db E n0 -> bytes_ok m ->
  shows E tagged deep float_text m [] v (SValue r) -> readable r ->
  exists s, says s r /\ CdeclSpec.returns (fun k => value_string_ex E tagged deep float_text k m (Some v)) (Some s).
Proof.
  intros E tagged deep float_text n0 m v r [A N G B] M S R.
  destruct (proj1 (text_complete E tagged deep float_text n0 A N G B m M) _ _ _ S R) as (s & k0 & P & K).
  exists s. split; [exact (prints_says r s P R)|]. exact (text_returns E tagged deep float_text m [] v k0 (Some s) K).
Qed.
Lemma string_sound : forall E tagged deep float_text n0 m v k s, printable_db E float_text n0 -> bytes_ok m ->
  (forall anc w, met E tagged deep m v anc w -> proper E tagged deep m anc w) ->
  value_string_ex E tagged deep float_text k m (Some v) = Ret (Some s) ->
  exists sh, shows E tagged deep float_text m [] v sh /\
    match sh with
    | SNothing => s = ""
    | SFields l => readable (braces l) -> says ("{" ++ s ++ "}") (braces l)
    | SValue r => readable r -> says s r
    end.
Proof.
  intros E tagged deep float_text n0 m v k s [[A N G B] CL FT HD] M PR H.
  destruct (text_sound E tagged deep float_text n0 A N G CL FT m M [] v PR k [] v s (me_here _ _ _ _ _ _) H) as (sh & S & W & _).
  exists sh. split; [exact S|]. destruct sh as [|l|r]; cbn [sprints] in W; [exact W| |apply prints_says; exact W].
  intro R. apply prints_says; [|exact R]. destruct l as [|f l].
  - inversion W. cbn [braces]. apply (pr_list [] ""). constructor.
  - cbn [braces]. apply (pr_fields (f :: l) s); [discriminate|exact W].
Qed.
Lemma string_injective : forall E E' tagged tagged' deep deep' ft ft' n0 n0' m m' v v' r r' k k' s,
  readable_db E n0 -> readable_db E' n0' -> bytes_ok m -> bytes_ok m' ->
  shows E tagged deep ft m [] v (SValue r) -> readable r -> shows E' tagged' deep' ft' m' [] v' (SValue r') -> readable r' ->
  value_string_ex E tagged deep ft k m (Some v) = Ret (Some s) -> value_string_ex E' tagged' deep' ft' k' m' (Some v') = Ret (Some s) -> r = r'.
Proof.
  intros E E' tagged tagged' deep deep' ft ft' n0 n0' m m' v v' r r' k k' s D D' M M' S R S' R' H H'.
  destruct (reads_back _ _ _ _ _ _ _ _ D M S R) as (t & T & [X _]). destruct (reads_back _ _ _ _ _ _ _ _ D' M' S' R') as (t' & T' & [X' _]).
  specialize (X k). specialize (X' k'). cbv beta in X, X'. rewrite H in X. rewrite H' in X'. destruct X as [X|X]; [discriminate|]. destruct X' as [X'|X']; [discriminate|].
  injection X as <-. injection X' as <-. exact (says_fun _ _ _ T T').
Qed.
Lemma shows_fun : forall E tagged deep ft n0 m v r r', readable_db E n0 -> bytes_ok m ->
  shows E tagged deep ft m [] v (SValue r) -> readable r -> shows E tagged deep ft m [] v (SValue r') -> readable r' -> r = r'.
Proof.
  intros E tagged deep ft n0 m v r r' D M S R S' R'.
  destruct (reads_back _ _ _ _ _ _ _ _ D M S R) as (t & T & X). destruct (reads_back _ _ _ _ _ _ _ _ D M S' R') as (t' & T' & X').
  pose proof (CdeclProof3.returns_fun _ _ _ _ X X') as Q. injection Q as <-. exact (says_fun _ _ _ T T').
Qed.
Lemma string_returns : forall E tagged deep ft n0 n1 m v, printable_db E ft n0 -> finite_types (en_db E) n0 -> finite_texts (en_db E) n1 -> tame E -> bytes_ok m ->
  (forall anc w, met E tagged deep m v anc w -> proper E tagged deep m anc w /\ calm E m w) ->
  exists o, CdeclSpec.returns (fun k => value_string_ex E tagged deep ft k m (Some v)) o.
Proof.
  intros E tagged deep ft n0 n1 m v [[A N G B] CL FT HD] FN FX T M PR.
  destruct (text_terminates E tagged deep ft n0 n1 FN N FX T) as (k0 & K).
  assert (L : forall k, lands (value_string_ex E tagged deep ft k m (Some v))).
  { intro k. exact (text_lands E tagged deep ft n0 A N G B CL FT HD m M [] v PR k [] v (me_here _ _ _ _ _ _)). }
  destruct (L k0) as [Q|[o Q]]; [exfalso; exact (K k0 (le_n _) m (Some v) M Q)|]. exists o. eapply (approx_returns _ _ k0).
  - intro k. apply text_step.
  - intros k KK. destruct (approx_le _ (fun k => text E tagged deep ft k m [] v) (fun k => text_step E tagged deep ft m k [] v) k0 k KK) as [X|X]; cbn [value_string_ex] in *; [congruence|].
    rewrite <- X. exact Q.
Qed.
Lemma string_cycle : forall E tagged ft n0 n1 m v anc w t p a t', printable_db E ft n0 -> finite_types (en_db E) n0 -> finite_texts (en_db E) n1 -> tame E -> bytes_ok m ->
  (forall anc w, met E tagged true m v anc w -> proper E tagged true m anc w /\ calm E m w) ->
  met E tagged true m v anc w -> points (en_db E) m w t p -> p <> 0 -> In a anc -> points (en_db E) m a t' p ->
  CdeclSpec.returns (fun k => value_string_ex E tagged true ft k m (Some v)) None.
Proof.
  intros E tagged ft n0 n1 m v anc w t p a t' D FN FX T M PR MW PT NZ IA PA.
  destruct (string_returns E tagged true ft n0 n1 m v D FN FX T M PR) as [[s|] R]; [|exact R]. exfalso. destruct R as [_ [k K]]. specialize (K k (le_n _)). cbv beta in K.
  destruct (string_sound E tagged true ft n0 m v k s D M (fun anc w X => proj1 (PR anc w X)) K) as (sh & S & _).
  destruct D as [[A N G B] _ _ _].
  exact (shown_no_loop E tagged true ft n0 A N m v sh S eq_refl anc w t p MW PT NZ a t' IA PA).
Qed.
(** the text of a scalar, of an enumeration *)
Lemma scalar_string : forall E tagged deep ft n0 m v r, readable_db E n0 -> bytes_ok m -> scalar E tagged deep ft m [] v r ->
  exists s, prints r s /\ CdeclSpec.returns (fun k => value_string_ex E tagged deep ft k m (Some v)) (Some s).
Proof.
  intros E tagged deep ft n0 m v r [A N G B] M S. destruct (scalar_look E tagged deep ft n0 A N G m M [] v r S) as (s & P & L).
  exists s. split; [exact P|]. eapply (text_returns E tagged deep ft m [] v 1). intros k K. destruct k as [|k]; [lia|]. cbn [text]. rewrite L. reflexivity.
Qed.
Lemma enum_string : forall E tagged deep ft n0 m v z l x, readable_db E n0 -> bytes_ok m -> enum_type (en_db E) v z l -> In z [1; 2; 4; 8] ->
  x = as_signed (8 * z) (number_at m (v_addr v) (Z.to_nat z)) ->
  exists s, CdeclSpec.returns (fun k => value_string_ex E tagged deep ft k m (Some v)) (Some s) /\
    (first_name l x (Some s) \/ first_name l x None /\ says s (RNum x)).
Proof.
  intros E tagged deep ft n0 m v z l x D M ET W ->. pose proof (rd_acyclic _ _ D) as A.
  destruct (enum_name (en_db E) n0 v z l (as_signed (8 * z) (number_at m (v_addr v) (Z.to_nat z))) A ET) as ([nm|] & _ & FN).
  - destruct (scalar_string E tagged deep ft n0 m v (RWord nm) D M) as (s & P & R); [eapply sc_enumerator; eassumption|]. inversion P; subst. exists s. auto.
  - destruct (scalar_string E tagged deep ft n0 m v (RNum (as_signed (8 * z) (number_at m (v_addr v) (Z.to_nat z)))) D M) as (s & P & R); [eapply sc_enum; try eassumption; reflexivity|].
    exists s. split; [exact R|]. right. split; [exact FN|]. apply prints_says; [exact P|exact I].
Qed.

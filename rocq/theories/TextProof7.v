(** Data with a cycle of pointers has no text. *)
From Coq Require Import ZArith String Ascii List Bool HexString Lia ZifyBool.
From Verif Require Import Base BaseProof EntryModel EntrySpec EntryProof ValueModel ValueSpec ValueProof ValueProof2 DeepModel DeepSpec DeepProof DeepProof2 DeepProof3 DeepProof4 DeepProof5 DeepProof8 MoveProof TagMapProof EscapeSpec CdeclModel CdeclProof TextModel TextSpec TextProof TextProof2 TextProof3.
From Verif Require EscapeModel CdeclSpec.
Import ListNotations.
Open Scope Z_scope.
Local Open Scope string_scope.

Section Cycle.
Variable E : env.
Variables tagged deep : bool.
Variable float_text : ctype -> Z -> string.
Variable n0 : nat.
Notation n := (en_fuel E).
Notation d := (en_db E).
Hypothesis A : acyclic d n0.
Hypothesis N : n = (n0 + 3)%nat.
Variable m : mem.
Notation shows := (shows E tagged deep float_text m).

Lemma parts_fun : forall anc v ch ch', parts E tagged m anc v ch -> parts E tagged m anc v ch' -> ch = ch'.
Proof.
  intros anc v ch ch' P P'. pose proof (parts_look E tagged deep float_text n0 A N m _ _ _ P) as L. rewrite (parts_look E tagged deep float_text n0 A N m _ _ _ P') in L. congruence.
Qed.
Lemma array_fun : forall anc v w w', array_of E tagged m anc v w -> array_of E tagged m anc v w' -> w = w'.
Proof.
  intros anc v w w' H H'. destruct H as [t c I C|t c w0 I C TG HD|t c I C TG VA]; destruct H' as [t' c' I' C'|t' c' w0' I' C' TG' HD'|t' c' I' C' TG' VA'];
    pose proof (has_info_fun E _ _ _ I I') as Q; injection Q as Q1 Q2; congruence.
Qed.
Lemma elements_fun : forall w ch ch', elements_are d w ch -> elements_are d w ch' -> ch = ch'.
Proof.
  intros w ch ch' H H'. pose proof H as (t & c & I & _). pose proof (elements_make E n0 A N _ _ _ _ I H) as L. rewrite (elements_make E n0 A N _ _ _ _ I H') in L. congruence.
Qed.
Lemma followed_fun : forall anc v w w', followed E tagged deep m anc v w -> followed E tagged deep m anc v w' -> w = w'.
Proof.
  intros anc v w w' H H'. inversion H as [t p w0 P NZ DP NL TG HD AD|t p P NZ DP NL HD]; inversion H' as [t' p' w0' P' NZ' DP' NL' TG' HD' AD'|t' p' P' NZ' DP' NL' HD'];
    destruct (points_fun E _ _ _ _ _ _ P P') as [Q1 Q2].
  - congruence.
  - specialize (HD' TG). congruence.
  - specialize (HD TG'). congruence.
  - congruence.
Qed.
Lemma items_in : forall anc ch l, shows_items E tagged deep float_text m anc ch l -> forall y, In y ch -> exists sh, shows anc y sh.
Proof. induction 1 as [anc|anc w ch r l S SI IH]; intros y [].  - subst. eexists. exact S. - apply IH. assumption. Qed.
Lemma fields_in : forall anc ch l, shows_fields E tagged deep float_text m anc ch l -> forall y, In y ch -> exists sh, shows anc y sh.
Proof. induction 1 as [anc|anc w ch nm r l S NM SF IH|anc w ch l' l S SF IH|anc w ch l S SF IH]; intros y []; try (subst; eexists; exact S); apply IH; assumption. Qed.

Ltac clash I := match goal with J : has_info d _ _ |- _ => pose proof (has_info_fun E _ _ _ I J); discriminate end.
Definition leaf (w : value) : Prop := exists z c, has_info d w (IBase z c).
Lemma met_shown : forall v sh, shows [] v sh -> forall anc w, met E tagged deep m v anc w -> (exists sh, shows anc w sh) \/ leaf w.
Proof.
  intros v sh S anc w MW. induction MW as [|anc x ch y MX IH P IY|anc x a ch y MX IH AO EA IY|anc x a MX IH FO].
  - left. exists sh. exact S.
  - destruct (parts_info E tagged m _ _ _ P) as (k & z & l & I). destruct IH as [[sh' S']|(z' & c' & I')]; [|pose proof (has_info_fun E _ _ _ I I'); discriminate].
    left. inversion S' as [anc' v' r' SC|anc' v' SK|anc' v' w l' AO TI|anc' v' w ch' l' AO|anc' v' ch' l' P' SF NA|anc' v' ch' l' P' SF AM|anc' v' w t c ty l' FO|anc' v' w t c ty r' FO]; subst.
    + destruct (scalar_info E tagged deep float_text m _ _ _ SC) as (i & J & K). pose proof (has_info_fun E _ _ _ I J) as Q. subst i. destruct K.
    + destruct SK as (t & c & J & _). clash J.
    + destruct (array_of_info E tagged m _ _ _ AO) as (t & c & J). clash J.
    + destruct (array_of_info E tagged m _ _ _ AO) as (t & c & J). clash J.
    + rewrite (parts_fun _ _ _ _ P P') in IY. eapply fields_in; eassumption.
    + rewrite (parts_fun _ _ _ _ P P') in IY. eapply fields_in; eassumption.
    + destruct (followed_info E tagged deep m _ _ _ FO) as (t' & J). clash J.
    + destruct (followed_info E tagged deep m _ _ _ FO) as (t' & J). clash J.
  - destruct (array_of_info E tagged m _ _ _ AO) as (t & c & I). destruct IH as [[sh' S']|(z' & c' & I')]; [|pose proof (has_info_fun E _ _ _ I I'); discriminate].
    inversion S' as [anc' v' r' SC|anc' v' SK|anc' v' w l' AO' TI|anc' v' w ch' l' AO' NTI SM EA' SI|anc' v' ch' l' P' SF NA|anc' v' ch' l' P' SF AM|anc' v' w t' c' ty l' FO|anc' v' w t' c' ty r' FO]; subst.
    + destruct (scalar_info E tagged deep float_text m _ _ _ SC) as (i & J & K). pose proof (has_info_fun E _ _ _ I J) as Q. subst i. destruct K.
    + destruct SK as (t' & c' & I' & C & TG & HD). exfalso. pose proof (has_info_fun E _ _ _ I I') as Q. injection Q as Q1 Q2.
      clear - I' C TG HD AO. destruct AO as [t2 c2 I2 C2|t2 c2 w0 I2 C2 TG2 HD2|t2 c2 I2 C2 TG2 VA]; pose proof (has_info_fun E _ _ _ I' I2) as Q; injection Q as Q3 Q4; congruence.
    + right. rewrite (array_fun _ _ _ _ AO AO') in EA. destruct TI as (c0 & (r & e & b & s & IA & F & IB & _) & _). destruct EA as (t1 & c1 & IA' & _ & EL).
      pose proof (has_info_fun E _ _ _ IA IA') as Q. injection Q as <- _. destruct EL as (r' & z & Q & _ & EL); [intro X; subst; destruct IY|]. injection Q as <-.
      apply In_nth_error in IY. destruct IY as [i IY]. destruct (EL _ _ IY) as [-> _]. exists b, s. exists e. split; [exact F|exact IB].
    + left. rewrite (array_fun _ _ _ _ AO AO') in EA. rewrite (elements_fun _ _ _ EA EA') in IY. eapply items_in; eassumption.
    + destruct (parts_info E tagged m _ _ _ P') as (k & z & l & J). clash J.
    + destruct (parts_info E tagged m _ _ _ P') as (k & z & l & J). clash J.
    + destruct (followed_info E tagged deep m _ _ _ FO) as (t2 & J). clash J.
    + destruct (followed_info E tagged deep m _ _ _ FO) as (t2 & J). clash J.
  - destruct (followed_info E tagged deep m _ _ _ FO) as (t & I). destruct IH as [[sh' S']|(z' & c' & I')]; [|pose proof (has_info_fun E _ _ _ I I'); discriminate].
    left. inversion S' as [anc' v' r' SC|anc' v' SK|anc' v' w l' AO TI|anc' v' w ch' l' AO|anc' v' ch' l' P' SF NA|anc' v' ch' l' P' SF AM|anc' v' w t' c ty l' FO' S2|anc' v' w t' c ty r' FO' S2]; subst.
    + exfalso. inversion FO as [t0 p w0 P NZ DP NL TG HD AD|t0 p P NZ DP NL HD]; inversion SC as [ | | | | | | | |t1 P1|t1 p1 P1 NZ1 DP1|p1 P1 NZ1 DP1 NL1 HD1];
        try (match goal with O : object E m _ _ _ |- _ => destruct (object_info E m _ _ _ O) as (? & ? & ?) end; clash I);
        try (match goal with O : enum_type _ _ _ _ |- _ => pose proof (has_info_fun E _ _ _ I O); discriminate end);
        try (destruct (points_fun E _ _ _ _ _ _ P P1); congruence).
      specialize (HD1 TG). congruence.
    + destruct SK as (t' & c & J & _). clash J.
    + destruct (array_of_info E tagged m _ _ _ AO) as (t' & c & J). clash J.
    + destruct (array_of_info E tagged m _ _ _ AO) as (t' & c & J). clash J.
    + destruct (parts_info E tagged m _ _ _ P') as (k & z & l & J). clash J.
    + destruct (parts_info E tagged m _ _ _ P') as (k & z & l & J). clash J.
    + rewrite (followed_fun _ _ _ _ FO FO'). eexists. exact S2.
    + rewrite (followed_fun _ _ _ _ FO FO'). eexists. exact S2.
Qed.
Theorem shown_no_loop : forall v sh, shows [] v sh -> deep = true ->
  forall anc w t p, met E tagged deep m v anc w -> points d m w t p -> p <> 0 -> no_loop d m anc p.
Proof.
  intros v sh S DP anc w t p MW PT NZ. pose proof (points_info _ _ _ _ _ PT) as I. destruct (met_shown v sh S anc w MW) as [[sh' S']|(z & c & I')]; [|pose proof (has_info_fun E _ _ _ I I'); discriminate].
  assert (FL : forall a, followed E tagged deep m anc w a -> no_loop d m anc p).
  { intros a F. inversion F as [t0 p0 w0 P NZ0 DP0 NL TG HD AD|t0 p0 P NZ0 DP0 NL HD]; destruct (points_fun E _ _ _ _ _ _ PT P) as [_ ->]; exact NL. }
  inversion S' as [anc' v' r' SC|anc' v' SK|anc' v' w' l' AO TI|anc' v' w' ch' l' AO|anc' v' ch' l' P' SF NA|anc' v' ch' l' P' SF AM|anc' v' w' t' c ty l' FO' S2|anc' v' w' t' c ty r' FO' S2]; subst anc' v'.
  - inversion SC as [ | | | | | | | |t1 P1|t1 p1 P1 NZ1 DP1|p1 P1 NZ1 DP1 NL1 HD1];
      try (match goal with O : object E m _ _ _ |- _ => destruct (object_info E m _ _ _ O) as (? & ? & ?) end; clash I);
      try (match goal with O : enum_type _ _ _ _ |- _ => pose proof (has_info_fun E _ _ _ I O); discriminate end);
      destruct (points_fun E _ _ _ _ _ _ PT P1) as [_ Q]; try congruence. rewrite Q. exact NL1.
  - destruct SK as (t' & c & J & _). clash J.
  - destruct (array_of_info E tagged m _ _ _ AO) as (t' & c & J). clash J.
  - destruct (array_of_info E tagged m _ _ _ AO) as (t' & c & J). clash J.
  - destruct (parts_info E tagged m _ _ _ P') as (k & z & l & J). clash J.
  - destruct (parts_info E tagged m _ _ _ P') as (k & z & l & J). clash J.
  - eapply FL; exact FO'.
  - eapply FL; exact FO'.
Qed.
End Cycle.

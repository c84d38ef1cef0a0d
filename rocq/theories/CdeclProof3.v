(** Proofs about declaration texts, part 3: different regular types have different texts. *)
From Coq Require Import ZArith String Ascii List Bool Lia DecimalString DecimalPos DecimalZ.
From Verif Require Import Base EntryModel CdeclModel CdeclSpec CdeclProof CdeclProof2.
Import ListNotations.
Local Open Scope string_scope.

(** * Strings *)
Lemma sapp_inj_l : forall a b c : string, a ++ b = a ++ c -> b = c.
Proof. induction a; cbn; intros b c H; [exact H|]. injection H as H. auto. Qed.
Lemma sapp_length : forall a b, String.length (a ++ b) = (String.length a + String.length b)%nat.
Proof. induction a; cbn; intros; [reflexivity|now rewrite IHa]. Qed.
Lemma sapp_inj_r : forall a b c : string, a ++ c = b ++ c -> a = b.
Proof.
  induction a as [|x a IH]; intros b c H.
  - destruct b; [reflexivity|]. apply (f_equal String.length) in H. rewrite !sapp_length in H. cbn in H. lia.
  - destruct b as [|y b].
    + apply (f_equal String.length) in H. rewrite !sapp_length in H. cbn in H. lia.
    + injection H as -> H. f_equal. eauto.
Qed.
Lemma chars_app : forall P a b, chars P (a ++ b) <-> chars P a /\ chars P b.
Proof. induction a; cbn; intros; [tauto|]. rewrite IHa. tauto. Qed.
Lemma chars_impl : forall (P Q : ascii -> Prop) s, (forall c, P c -> Q c) -> chars P s -> chars Q s.
Proof. induction s; cbn; intros; [exact I|]. intuition. Qed.
(** a separator that does not occur before (after) it is found in one way only *)
Lemma split_first : forall c a b x y, chars (fun k => k <> c) a -> chars (fun k => k <> c) b ->
  a ++ String c x = b ++ String c y -> a = b /\ x = y.
Proof.
  induction a as [|k a IH]; intros b x y A B E; destruct b as [|k' b]; cbn in *.
  - injection E as E. auto.
  - injection E as E _. destruct B. congruence.
  - injection E as E _. destruct A. congruence.
  - injection E as -> E. destruct (IH b x y) as [-> ->]; tauto.
Qed.
Lemma split_last : forall c a b x y, chars (fun k => k <> c) x -> chars (fun k => k <> c) y ->
  a ++ String c x = b ++ String c y -> a = b /\ x = y.
Proof.
  induction a as [|k a IH]; intros b x y A B E; destruct b as [|k' b]; cbn in *.
  - injection E as E. auto.
  - injection E as -> E. subst x. apply chars_app in A. cbn in A. tauto.
  - injection E as -> E. subst y. apply chars_app in B. cbn in B. tauto.
  - injection E as -> E. destruct (IH b x y) as [-> ->]; auto.
Qed.
Lemma last_char : forall a b c k, a ++ String c "" = b ++ String k "" -> a = b /\ c = k.
Proof.
  induction a as [|x a IH]; intros [|y b] c k E; cbn in E.
  - injection E as ->. auto.
  - injection E as _ E. destruct b; discriminate.
  - injection E as _ E. destruct a; discriminate.
  - injection E as -> E. destruct (IH _ _ _ E) as [-> ->]. auto.
Qed.

Lemma dec_inj : forall x y, dec x = dec y -> x = y.
Proof.
  assert (D : forall z, NilZero.int_of_string (dec z) = Some (Z.to_int z)).
  { intros z. unfold dec. apply NilZero.isi; destruct z; cbn; try discriminate; intros E; injection E as E; exact (DecimalPos.Unsigned.to_uint_nonnil _ E). }
  intros x y E. apply (f_equal NilZero.int_of_string) in E. rewrite !D in E. injection E as E. now apply DecimalZ.to_int_inj.
Qed.
Lemma dec_chars : forall z, chars (fun k => ~ punctuation k) (dec z).
Proof.
  assert (U : forall u, chars (fun k => ~ punctuation k) (NilEmpty.string_of_uint u)).
  { induction u; cbn; auto; (split; [|exact IHu]); unfold punctuation; cbn; intros H;
      repeat (destruct H as [H|H]; [discriminate|]); exact H. }
  assert (N : forall k, (k = "0" \/ k = "-")%char -> ~ punctuation k).
  { intros k [-> | ->] H; unfold punctuation in H; cbn in H; repeat (destruct H as [H|H]; [discriminate|]); exact H. }
  intros z. unfold dec, NilZero.string_of_int.
  assert (V : forall u, chars (fun k => ~ punctuation k) (NilZero.string_of_uint u)).
  { intros u. unfold NilZero.string_of_uint. destruct u; try apply U. cbn. split; [apply N; auto|exact I]. }
  destruct (Z.to_int z); [apply V|]. split; [apply N; auto|apply V].
Qed.
Lemma dec_nonempty : forall z, dec z <> "".
Proof.
  intros z H. unfold dec, NilZero.string_of_int in H. destruct (Z.to_int z); [|discriminate].
  unfold NilZero.string_of_uint in H. destruct d; discriminate.
Qed.
Lemma arr_inj : forall n m x y, arr_text n ++ x = arr_text m ++ y -> n = m /\ x = y.
Proof.
  intros n m x y E. unfold arr_text in E. rewrite !sapp_assoc in E. cbn [append] in E. injection E as E.
  assert (C : forall o, chars (fun k => k <> "]"%char) (match o with Some z => dec z | None => "" end)).
  { intros [z|]; [|exact I]. apply (chars_impl _ _ _) with (2 := dec_chars z). intros c P ->. apply P. unfold punctuation. cbn. tauto. }
  apply (split_first "]" _ _ _ _ (C n) (C m)) in E. destruct E as [E ->]. split; [|reflexivity].
  destruct n as [z|], m as [z'|]; auto.
  - f_equal. now apply dec_inj.
  - now apply dec_nonempty in E.
  - symmetry in E. now apply dec_nonempty in E.
Qed.

(** * Characters of the parts *)
Definition quiet (s : string) : Prop := chars (fun k => ~ punctuation k) s.
Ltac quiet_word := unfold quiet; cbn; repeat split; unfold punctuation; cbn; intros HQ;
  repeat (destruct HQ as [HQ|HQ]; [discriminate|]); exact HQ.
Lemma quiet_qual : forall q, quiet (qual_word q).
Proof. destruct q; quiet_word. Qed.
Lemma quiet_aggr : forall u, quiet (aggr_word u).
Proof. destruct u; quiet_word. Qed.
Lemma quiet_app : forall a b, quiet (a ++ b) <-> quiet a /\ quiet b.
Proof. intros. apply chars_app. Qed.
Lemma quiet_space : quiet " ". Proof. quiet_word. Qed.
Lemma quiet_not : forall c s, punctuation c -> quiet s -> chars (fun k => k <> c) s.
Proof. intros c s P. apply chars_impl. intros k H ->. auto. Qed.

(** the parts of named types: quiet text ending with exactly one space *)
Lemma named_parts : forall T, named T -> plain T -> exists sp, parts T = (sp ++ " ", "") /\ quiet sp /\ sp <> "" /\ ~ ends_with_space sp /\
  match T with TPtr _ => False | _ => True end.
Proof.
  assert (NE : forall w n, proper_name n -> ~ ends_with_space (w ++ " " ++ n)).
  { intros w n (N & E & _) (x & X). apply E. destruct n as [|c n]; [now elim N|].
    assert (L : exists y k, String c n = y ++ String k "").
    { clear. revert c. induction n as [|c' n IH]; intros c; [exists "", c; reflexivity|].
      destruct (IH c') as (y & k & E). exists (String c y), k. cbn. now rewrite <- E. }
    destruct L as (y & k & L). rewrite L in X. rewrite <- !sapp_assoc in X. apply last_char in X. destruct X as [_ ->].
    exists y. exact L. }
  induction T as [|n|n|l|u n|u fs|q T IH|T _|o T _|T _ ps]; cbn [plain]; intros N P; try (inversion N; fail); try contradiction.
  - exists "void". split; [reflexivity|]. split; [quiet_word|]. split; [discriminate|]. split; [|exact I].
    intros (x & E). change "void" with ("voi" ++ "d") in E. apply last_char in E. destruct E. discriminate.
  - destruct P as ((A & B & C) & _). exists n. split; [reflexivity|]. auto.
  - exists ("enum" ++ " " ++ n). split; [reflexivity|].
    split; [rewrite !quiet_app; split; [quiet_word|split; [apply quiet_space|apply P]]|].
    split; [discriminate|]. split; [apply NE; exact P|exact I].
  - exists (aggr_word u ++ " " ++ n). split; [cbn [parts]; now norm|].
    split; [rewrite !quiet_app; split; [apply quiet_aggr|split; [apply quiet_space|apply P]]|].
    split; [destruct u; discriminate|]. split; [apply NE; exact P|exact I].
  - assert (NT : named T) by (inversion N; assumption).
    destruct (IH NT P) as (sp & E & Q & N1 & N2 & NP). exists (qual_word q ++ " " ++ sp).
    split; [rewrite parts_qual, E; destruct T; cbn [fst snd]; try (now elim NP); now norm|].
    split; [rewrite !quiet_app; split; [apply quiet_qual|split; [apply quiet_space|exact Q]]|].
    split; [destruct q; discriminate|]. split; [|exact I].
    apply NE. split; [exact N1|split; [exact N2|exact Q]].
Qed.

(** * The shape of the parts of a regular type *)
Lemma ends_app : forall a b, b <> "" -> ends_with_space (a ++ b) -> ends_with_space b.
Proof.
  induction a as [|c a IH]; intros b N (x & E); [exists x; exact E|]. cbn in E. destruct x as [|k x]; cbn in E.
  - injection E as _ E. destruct a, b; try discriminate. now elim N.
  - injection E as -> E. apply IH; [exact N|]. exists x. exact E.
Qed.
Lemma ends_char : forall a c, c <> " "%char -> ~ ends_with_space (a ++ String c "").
Proof. intros a c N (x & E). change " " with (String " " "") in E. apply last_char in E. destruct E. auto. Qed.
Definition opener (k : ascii) : Prop := k <> "["%char /\ k <> ")"%char.
Definition tail_shape (s : string) : Prop := exists c y, s = String c y /\ (c = "[" \/ c = ")")%char /\ ~ ends_with_space s.
Record shape (p : string * string) : Prop := {
  sh_open : chars opener (fst p);
  sh_first : exists c r, fst p = String c r /\ c <> "."%char;
  sh_end : (snd p = "" /\ exists x, fst p = x ++ " " /\ x <> "" /\ ~ ends_with_space x) \/ tail_shape (snd p) }.
Lemma quiet_opener : forall s, quiet s -> chars opener s.
Proof.
  intros s. apply chars_impl. intros c H. split; intros ->; apply H; unfold punctuation; cbn; tauto.
Qed.
Lemma shape_named : forall T, named T -> plain T -> shape (parts T).
Proof.
  intros T N P. destruct (named_parts T N P) as (sp & E & Q & N1 & N2 & _). rewrite E. constructor; cbn [fst snd].
  - apply quiet_opener. rewrite quiet_app. split; [exact Q|apply quiet_space].
  - destruct sp as [|c r]; [now elim N1|]. exists c, (r ++ " "). split; [reflexivity|]. destruct Q as [Q _]. intros ->. apply Q.
    unfold punctuation. cbn. tauto.
  - left. eauto.
Qed.
Lemma opener_word : forall q, chars opener (qual_word q).
Proof. intros q. apply quiet_opener, quiet_qual. Qed.
Lemma shape_ptr : forall a b, shape (a, b) -> shape (a ++ "* ", b).
Proof.
  intros a b [O (c & r & F & C) E]. cbn [fst snd] in *. constructor; cbn [fst snd].
  - rewrite chars_app. split; [exact O|]. cbn. repeat split; discriminate.
  - exists c, (r ++ "* "). rewrite F. auto.
  - destruct E as [(-> & x & X & _ & N)|E]; [left; split; [reflexivity|]|right; exact E].
    exists (a ++ "*"). split; [now rewrite sapp_assoc|]. split; [destruct a; discriminate|]. apply ends_char. discriminate.
Qed.
Lemma word_end : forall q, exists x c, qual_word q = x ++ String c "" /\ c <> " "%char.
Proof.
  destruct q; [exists "cons", "t"%char|exists "volatil", "e"%char|exists "restric", "t"%char|exists "mutabl", "e"%char
              |exists "share", "d"%char|exists "packe", "d"%char]; (split; [reflexivity|discriminate]).
Qed.
Lemma shape_qptr : forall q a b, shape (a, b) -> shape ((a ++ "* ") ++ qual_word q ++ " ", b).
Proof.
  intros q a b H. destruct (shape_ptr a b H) as [O (c & r & F & C) E]. cbn [fst snd] in *. constructor; cbn [fst snd].
  - rewrite !chars_app. rewrite chars_app in O. split; [exact O|]. split; [apply opener_word|]. cbn. repeat split; discriminate.
  - exists c, (r ++ qual_word q ++ " "). rewrite F. auto.
  - destruct E as [(-> & x & X & _ & N)|E]; [left; split; [reflexivity|]|right; exact E].
    exists ((a ++ "* ") ++ qual_word q). split; [now norm|]. split; [destruct a; discriminate|]. destruct (word_end q) as (w & k & -> & K).
    rewrite <- sapp_assoc. now apply ends_char.
Qed.
Lemma shape_arr : forall n a b, shape (a, b) -> shape (a, arr_text n ++ b).
Proof.
  intros n a b [O F E]. cbn [fst snd] in *. constructor; cbn [fst snd]; auto. right. unfold tail_shape, arr_text.
  set (z := match n with Some z => dec z | None => "" end).
  exists "["%char, ((z ++ "]") ++ b). split; [now norm|]. split; [auto|]. intros H.
  destruct E as [(-> & _)|(c & y & -> & _ & N)].
  - rewrite sapp_nil in H. rewrite <- sapp_assoc in H. revert H. apply ends_char. discriminate.
  - apply N. apply ends_app in H; [exact H|discriminate].
Qed.
Lemma shape_fun : forall a b t, shape (a, b) -> shape (a ++ "(", ")" ++ b ++ "(" ++ t ++ ")").
Proof.
  intros a b t [O (c & r & F & C) E]. cbn [fst snd] in *. constructor; cbn [fst snd].
  - rewrite chars_app. split; [exact O|]. cbn. repeat split; discriminate.
  - exists c, (r ++ "("). rewrite F. auto.
  - right. exists ")"%char, (b ++ "(" ++ t ++ ")"). split; [reflexivity|]. split; [auto|].
    rewrite <- !sapp_assoc. apply ends_char. discriminate.
Qed.
Lemma shape_flat : forall T, flat T -> plain T -> shape (parts T).
Proof.
  induction 1 as [T N|T F IH|q T F IH]; cbn [plain]; intros P.
  - now apply shape_named.
  - cbn [parts]. apply shape_ptr. rewrite <- surjective_pairing. auto.
  - rewrite parts_qual. cbn [parts fst snd]. apply shape_qptr. rewrite <- surjective_pairing. auto.
Qed.
Lemma shape_callable : forall T, callable T -> plain T -> shape (parts T).
Proof.
  induction 1 as [T ps F R|T F IH|q T F IH]; cbn [plain]; intros P.
  - rewrite parts_fun. apply shape_fun. rewrite <- surjective_pairing. apply shape_flat; tauto.
  - cbn [parts]. apply shape_ptr. rewrite <- surjective_pairing. auto.
  - rewrite parts_qual. cbn [parts fst snd]. apply shape_qptr. rewrite <- surjective_pairing. auto.
Qed.
Lemma shape_regular : forall T, regular T -> plain T -> shape (parts T).
Proof.
  induction 1 as [T F|T F|n T R IH]; cbn [plain]; intros P.
  - now apply shape_flat.
  - now apply shape_callable.
  - cbn [parts]. apply shape_arr. rewrite <- surjective_pairing. auto.
Qed.

(** the parts are found again in the text of a nameless parameter *)
Lemma trim_id : forall s, ~ ends_with_space s -> trim s = s.
Proof.
  intros s N. destruct (trim_app s) as (w & W & E). destruct W as [|w W]; [now rewrite sapp_nil in E|].
  elim N. clear N. rewrite E. clear E.
  assert (X : exists y, " " ++ w = y ++ " ").
  { induction W as [|w W (y & Y)]; [exists ""; reflexivity|]. exists (" " ++ y). now rewrite Y, sapp_assoc. }
  destruct X as (y & ->). exists (trim s ++ y). now rewrite sapp_assoc.
Qed.
Lemma trim_space : forall x, ~ ends_with_space x -> trim (x ++ " ") = x.
Proof.
  intros x N. rewrite <- (trim_id x N) at 2. clear N. induction x as [|c x IH]; [reflexivity|].
  cbn [append trim]. now rewrite IH.
Qed.
Lemma cut_unique : forall a a' b b', chars opener a -> chars opener a' ->
  (b = "" \/ tail_shape b) -> (b' = "" \/ tail_shape b') -> a ++ b = a' ++ b' -> a = a' /\ b = b'.
Proof.
  assert (X : forall a b c r, chars opener (String c a) -> (b = "" \/ tail_shape b) -> b <> String c r).
  { intros a b c r [O _] [-> | (k & y & -> & K & _)] E; [discriminate|]. injection E as -> _. destruct O. intuition. }
  induction a as [|c a IH]; intros a' b b' O O' S S' E; destruct a' as [|c' a']; cbn in E.
  - auto.
  - now apply (X a' b c' (a' ++ b')) in E.
  - symmetry in E. now apply (X a b' c (a ++ b)) in E.
  - injection E as -> E. destruct O, O'. destruct (IH a' b b') as [-> ->]; auto.
Qed.
Lemma trim_put : forall p, shape p ->
  (snd p = "" /\ exists x, fst p = x ++ " " /\ x <> "" /\ trim (put p "") = x) \/ (tail_shape (snd p) /\ trim (put p "") = fst p ++ snd p).
Proof.
  intros [a b] [O F E]. cbn [fst snd] in *. unfold put. cbn [fst snd append].
  destruct E as [(-> & x & -> & X & N)|T]; [left; split; [reflexivity|]; exists x; split; [reflexivity|]; split; [exact X|]; rewrite sapp_nil; now apply trim_space|].
  right. split; [exact T|]. apply trim_id. destruct T as (c & y & -> & _ & N). intros H. apply N. apply ends_app in H; [exact H|discriminate].
Qed.
Lemma put_inj : forall p q, shape p -> shape q -> trim (put p "") = trim (put q "") -> p = q.
Proof.
  intros [a b] [a' b'] S S' E.
  pose proof (sh_open _ S) as O. pose proof (sh_open _ S') as O'.
  destruct (trim_put _ S) as [(B & x & X & _ & T)|(B & T)], (trim_put _ S') as [(B' & x' & X' & _ & T')|(B' & T')]; rewrite T, T' in E; cbn [fst snd] in *.
  - congruence.
  - exfalso. subst a. rewrite chars_app in O. destruct O as [O _].
    rewrite <- (sapp_nil x) in E. destruct (cut_unique x a' "" b' O O' (or_introl eq_refl) (or_intror B') E) as [_ <-].
    destruct B' as (c & y & D & _). discriminate.
  - exfalso. subst a'. rewrite chars_app in O'. destruct O' as [O' _].
    rewrite <- (sapp_nil x') in E. destruct (cut_unique a x' b "" O O' (or_intror B) (or_introl eq_refl) E) as [_ ->].
    destruct B as (c & y & D & _). discriminate.
  - destruct (cut_unique a a' b b' O O' (or_intror B) (or_intror B') E) as [-> ->]. reflexivity.
Qed.

(** * Commas and parentheses *)
Fixpoint scan (k : nat) (s : string) : option nat :=
  match s with
  | EmptyString => Some k
  | String c r =>
    if Ascii.eqb c "(" then scan (S k) r
    else if Ascii.eqb c ")" then match k with O => None | S j => scan j r end
    else if Ascii.eqb c "," then match k with O => None | S _ => scan k r end
    else scan k r
  end.
Lemma scan_app : forall a k b, scan k (a ++ b) = match scan k a with Some j => scan j b | None => None end.
Proof.
  induction a as [|c a IH]; intros k b; [reflexivity|]. cbn [append scan].
  destruct (Ascii.eqb c "("); [apply IH|]. destruct (Ascii.eqb c ")"); [destruct k; [reflexivity|apply IH]|].
  destruct (Ascii.eqb c ","); [destruct k; [reflexivity|apply IH]|apply IH].
Qed.
Definition flatc (k : ascii) : Prop := k <> "("%char /\ k <> ")"%char /\ k <> ","%char.
Lemma scan_flat : forall s k, chars flatc s -> scan k s = Some k.
Proof.
  induction s as [|c s IH]; intros k H; [reflexivity|]. destruct H as [(A & B & C) H]. cbn [scan].
  destruct (Ascii.eqb_spec c "("); [now elim A|]. destruct (Ascii.eqb_spec c ")"); [now elim B|].
  destruct (Ascii.eqb_spec c ","); [now elim C|]. auto.
Qed.
Lemma quiet_flatc : forall s, quiet s -> chars flatc s.
Proof. intros s. apply chars_impl. intros c H. repeat split; intros ->; apply H; unfold punctuation; cbn; tauto. Qed.
Definition balanced (s : string) : Prop := forall k, scan k s = Some k.
Definition balances (p : string * string) : Prop := exists o, forall k, scan k (fst p) = Some (o + k)%nat /\ scan (o + k) (snd p) = Some k.
Lemma balanced_put : forall p, balances p -> balanced (put p "").
Proof. intros p (o & H) k. unfold put. cbn [append]. rewrite scan_app. destruct (H k) as [-> H2]. exact H2. Qed.
Lemma spaces_flat : forall w, spaces w -> chars flatc w.
Proof. induction 1; cbn; [exact I|]. split; [repeat split; discriminate|assumption]. Qed.
Lemma balanced_trim : forall s, balanced s -> balanced (trim s).
Proof.
  intros s H k. destruct (trim_app s) as (w & W & E). specialize (H k). rewrite E in H at 1. rewrite scan_app in H.
  destruct (scan k (trim s)) as [j|]; [|discriminate]. rewrite (scan_flat w j (spaces_flat w W)) in H. exact H.
Qed.
Lemma comma_unique : forall t t' k r r', scan k t = Some O -> scan k t' = Some O ->
  (r = "" \/ exists x, r = String "," x) -> (r' = "" \/ exists x, r' = String "," x) -> t ++ r = t' ++ r' -> t = t' /\ r = r'.
Proof.
  assert (X : forall c t r x, scan O (String c t) = Some O -> (r = "" \/ exists x, r = String "," x) -> r <> String c x).
  { intros c t r x H [-> | (y & ->)] E; [discriminate|]. injection E as <- _. cbn in H. discriminate. }
  induction t as [|c t IH]; intros t' k r r' S S' R R' E; destruct t' as [|c' t']; cbn [append] in E.
  - auto.
  - cbn in S. injection S as ->. now apply (X c' t' r (t' ++ r')) in E.
  - cbn in S'. injection S' as ->. symmetry in E. now apply (X c t r' (t ++ r)) in E.
  - injection E as -> E. cbn [scan] in S, S'. destruct (Ascii.eqb c' "(");
      [destruct (IH t' _ r r' S S' R R' E) as [-> ->]; auto|].
    destruct (Ascii.eqb c' ")"); [destruct k; [discriminate|]; destruct (IH t' _ r r' S S' R R' E) as [-> ->]; auto|].
    destruct (Ascii.eqb c' ","); [destruct k; [discriminate|]; destruct (IH t' _ r r' S S' R R' E) as [-> ->]; auto|].
    destruct (IH t' _ r r' S S' R R' E) as [-> ->]; auto.
Qed.
Lemma concat_inj : forall l l', Forall (fun t => balanced t /\ t <> "") l -> Forall (fun t => balanced t /\ t <> "") l' ->
  String.concat ", " l = String.concat ", " l' -> l = l'.
Proof.
  induction l as [|t l IH]; intros l' F F' E; destruct l' as [|t' l']; [reflexivity| | |].
  - exfalso. rewrite concat_cons in E. inversion F' as [|? ? [_ N]]; subst. destruct t'; [now elim N|discriminate].
  - exfalso. rewrite concat_cons in E. inversion F as [|? ? [_ N]]; subst. destruct t; [now elim N|discriminate].
  - inversion F as [|? ? [B N] F1]; subst. inversion F' as [|? ? [B' N'] F1']; subst. rewrite !concat_cons in E.
    assert (R : forall l : list string, (match l with [] => "" | _ => ", " ++ String.concat ", " l end) = "" \/
                exists x, (match l with [] => "" | _ => ", " ++ String.concat ", " l end) = String "," x).
    { intros [|? ?]; [auto|right; eexists; reflexivity]. }
    destruct (comma_unique t t' O _ _ (B O) (B' O) (R l) (R l') E) as [-> E2].
    f_equal. destruct l as [|u l], l' as [|u' l']; try discriminate; [reflexivity|].
    apply IH; auto. cbn [append] in E2. injection E2 as E2. exact E2.
Qed.

(** * Balance of the parts *)
Definition all_plain (ps : list (option ctype)) : Prop :=
  (fix all l := match l with [] => True | None :: r => all r | Some T :: r => plain T /\ all r end) ps.
Lemma balances_ptr : forall a b w, balances (a, b) -> chars flatc w -> balances (a ++ w, b).
Proof.
  intros a b w (o & H) W. exists o. intros k. cbn [fst snd] in *. rewrite scan_app. destruct (H k) as [-> H2].
  now rewrite (scan_flat _ _ W).
Qed.
Lemma star_flat : chars flatc "* ". Proof. cbn. repeat split; discriminate. Qed.
Lemma qstar_flat : forall q, chars flatc ("* " ++ qual_word q ++ " ").
Proof.
  intros q. rewrite !chars_app. split; [exact star_flat|]. split; [apply quiet_flatc, quiet_qual|]. cbn. repeat split; discriminate.
Qed.
Lemma arr_flat : forall n, chars flatc (arr_text n).
Proof.
  intros n. unfold arr_text. rewrite !chars_app. split; [cbn; repeat split; discriminate|].
  split; [|cbn; repeat split; discriminate]. destruct n; [apply quiet_flatc, dec_chars|exact I].
Qed.
Lemma texts_balanced : forall l, Forall (fun t => balanced t /\ t <> "") l -> forall k, scan (S k) (String.concat ", " l) = Some (S k).
Proof.
  intros l F. induction F as [|t l [B _] F IH]; intros k; [reflexivity|].
  rewrite concat_cons, scan_app, (B (S k)). destruct l; [reflexivity|]. cbn. apply IH.
Qed.
Lemma text_first : forall p, shape p -> exists c r, trim (put p "") = String c r /\ c <> "."%char.
Proof.
  intros p S. destruct (sh_first _ S) as (c & r & F & C).
  destruct (trim_put _ S) as [(B & x & X & N & ->)|(B & ->)].
  - destruct x as [|c' x]; [now elim N|]. rewrite F in X. injection X as -> _. eauto.
  - rewrite F. exists c, (r ++ snd p). auto.
Qed.

Lemma balances_all :
  (forall T, named T -> plain T -> balances (parts T)) /\
  (forall T, flat T -> plain T -> balances (parts T)) /\
  (forall T, callable T -> plain T -> balances (parts T)) /\
  (forall T, regular T -> plain T -> balances (parts T)) /\
  (forall fs, regular_fields fs -> True) /\
  (forall ps, regular_params ps -> all_plain ps -> Forall (fun t => balanced t /\ t <> "") (param_texts (nameless ps))).
Proof.
  assert (NM : forall T, named T -> plain T -> balances (parts T)).
  { intros T N P. destruct (named_parts T N P) as (sp & E & Q & _). rewrite E. exists O. intros k. cbn [fst snd plus]. split; [|reflexivity].
    apply scan_flat, quiet_flatc. rewrite quiet_app. split; [exact Q|apply quiet_space]. }
  apply (regular_all
    (fun T _ => plain T -> balances (parts T)) (fun T _ => plain T -> balances (parts T)) (fun T _ => plain T -> balances (parts T))
    (fun T _ => plain T -> balances (parts T)) (fun _ _ => True)
    (fun ps _ => all_plain ps -> Forall (fun t => balanced t /\ t <> "") (param_texts (nameless ps)))); intros; auto; try (apply NM; [constructor; assumption|assumption]).
  - cbn [parts]. apply balances_ptr; [rewrite <- surjective_pairing; auto|exact star_flat].
  - rewrite parts_qual. cbn [parts fst snd]. rewrite sapp_assoc. apply balances_ptr; [rewrite <- surjective_pairing; auto|apply qstar_flat].
  - destruct H1 as [P1 P2]. destruct (H P1) as (o & B). specialize (H0 P2). rewrite parts_fun. exists (S o). intros k. cbn [fst snd plus].
    rewrite scan_app. destruct (B k) as [-> B2]. split; [reflexivity|].
    change (scan (S (o + k)) (")" ++ ?x)) with (scan (o + k) x).
    rewrite scan_app, B2. cbn [append]. change (scan k (String "(" ?x)) with (scan (S k) x).
    rewrite scan_app, (texts_balanced _ H0). reflexivity.
  - cbn [parts]. apply balances_ptr; [rewrite <- surjective_pairing; auto|exact star_flat].
  - rewrite parts_qual. cbn [parts fst snd]. rewrite sapp_assoc. apply balances_ptr; [rewrite <- surjective_pairing; auto|apply qstar_flat].
  - destruct (H H0) as (o & B). cbn [parts]. exists o. intros k. cbn [fst snd]. destruct (B k) as [B1 B2]. split; [exact B1|].
    now rewrite scan_app, (scan_flat _ _ (arr_flat n)).
  - constructor.
  - cbn [nameless map option_map param_texts]. constructor; [split; [intros k; reflexivity|discriminate]|exact (H H0)].
  - destruct H1 as [P1 P2]. cbn [nameless map option_map param_texts]. constructor; [|exact (H0 P2)].
    split; [apply balanced_trim, balanced_put, H, P1|].
    destruct (text_first _ (shape_regular T r P1)) as (c & x & -> & _). discriminate.
Qed.

(** * Different types, different parts *)
Lemma first_word_app : forall w x, chars (fun k => k <> " "%char) w -> first_word (w ++ String " " x) = w.
Proof.
  induction w as [|c w IH]; intros x H; [reflexivity|]. destruct H as [C H]. cbn. destruct (Ascii.eqb_spec c " "); [now elim C|].
  now rewrite IH.
Qed.
Lemma first_word_space : forall n, first_word (n ++ " ") = first_word n.
Proof. induction n as [|c n IH]; [reflexivity|]. cbn. destruct (Ascii.eqb c " "); [reflexivity|now rewrite IH]. Qed.
Definition head (T : ctype) : string :=
  match T with TVoid => "void" | TName n => first_word n | TEnum _ => "enum" | TAggr u _ => aggr_word u | TQual q _ => qual_word q | _ => "" end.
Lemma head_word : forall T, named T -> plain T -> first_word (fst (parts T)) = head T.
Proof.
  intros T N P. destruct T as [|n|n|l|u n|u fs|q T|T|o T|T ps]; try (inversion N; fail); try contradiction; try reflexivity.
  - cbn [parts fst]. apply first_word_space.
  - destruct u; reflexivity.
  - assert (NT : named T) by (inversion N; assumption). destruct (named_parts T NT P) as (sp & E & _ & _ & _ & NP).
    rewrite parts_qual. destruct T; try (now elim NP); destruct q; reflexivity.
Qed.
Lemma named_inj : forall T, named T -> plain T -> forall T', named T' -> plain T' -> fst (parts T) = fst (parts T') -> T = T'.
Proof.
  assert (KQ : forall q, keyword (qual_word q)) by (intros []; unfold keyword; cbn; tauto).
  assert (KA : forall u, keyword (aggr_word u)) by (intros []; unfold keyword; cbn; tauto).
  assert (QP : forall q T, named T -> plain T -> fst (parts (TQual q T)) = qual_word q ++ " " ++ fst (parts T)).
  { intros q T N P. destruct (named_parts T N P) as (sp & E & _ & _ & _ & NP). rewrite parts_qual. destruct T; try (now elim NP); reflexivity. }
  induction T as [|n|n|l|u n|u fs|q T IH|T _|o T _|T _ ps]; intros N P T' N' P' E; try (inversion N; fail); try contradiction;
    pose proof (head_word _ N P) as H; pose proof (head_word _ N' P') as H'; rewrite E in H; rewrite H in H'; clear H;
    destruct T' as [|n'|n'|l'|u' n'|u' fs'|q' T'|T'|o' T'|T' ps']; try (inversion N'; fail); try contradiction;
    try reflexivity; cbn [head] in H';
    try (destruct u; discriminate H'); try (destruct u'; discriminate H'); try (destruct q; discriminate H'); try (destruct q'; discriminate H'); try discriminate H'.
  - exfalso. destruct P' as [_ K]. apply K. rewrite <- H'. unfold keyword. cbn. tauto.
  - exfalso. destruct P as [_ K]. apply K. rewrite H'. unfold keyword. cbn. tauto.
  - cbn [parts fst] in E. apply sapp_inj_r in E. now subst.
  - exfalso. destruct P as [_ K]. apply K. rewrite H'. unfold keyword. cbn. tauto.
  - exfalso. destruct P as [_ K]. apply K. rewrite H'. apply KA.
  - exfalso. destruct P as [_ K]. apply K. rewrite H'. apply KQ.
  - exfalso. destruct P' as [_ K]. apply K. rewrite <- H'. unfold keyword. cbn. tauto.
  - cbn [parts fst] in E. apply sapp_inj_l in E. apply sapp_inj_r in E. now subst.
  - exfalso. destruct P' as [_ K]. apply K. rewrite <- H'. apply KA.
  - assert (u = u') by (destruct u, u'; try reflexivity; discriminate). subst u'.
    cbn [parts fst] in E. do 2 apply sapp_inj_l in E. apply sapp_inj_r in E. now subst.
  - destruct u, q'; discriminate.
  - exfalso. destruct P' as [_ K]. apply K. rewrite <- H'. apply KQ.
  - destruct q, u'; discriminate.
  - assert (q = q') by (destruct q, q'; try reflexivity; discriminate). subst q'.
    assert (NT : named T) by (inversion N; assumption). assert (NT' : named T') by (inversion N'; assumption).
    rewrite !QP in E by assumption. do 2 apply sapp_inj_l in E. f_equal. now apply IH.
Qed.

(** text without stars *)
Lemma named_no_star : forall T, named T -> plain T -> chars (fun k => k <> "*"%char) (fst (parts T)).
Proof.
  intros T N P. destruct (named_parts T N P) as (sp & -> & Q & _). cbn [fst].
  apply quiet_not; [unfold punctuation; cbn; tauto|]. rewrite quiet_app. split; [exact Q|apply quiet_space].
Qed.
Lemma word_no_star : forall q, chars (fun k => k <> "*"%char) (" " ++ qual_word q ++ " ").
Proof. intros q. apply quiet_not; [unfold punctuation; cbn; tauto|]. rewrite !quiet_app. auto using quiet_space, quiet_qual. Qed.
Lemma star_absent : forall s a x, chars (fun k => k <> "*"%char) s -> s <> a ++ String "*" x.
Proof. intros s a x H E. subst s. apply chars_app in H. cbn in H. tauto. Qed.
(** what a pointer type adds *)
Inductive starred : ctype -> ctype -> string -> Prop :=
| st_ptr : forall T, starred (TPtr T) T " "
| st_qptr : forall q T, starred (TQual q (TPtr T)) T (" " ++ qual_word q ++ " ").
Lemma starred_parts : forall U T w, starred U T w -> parts U = (fst (parts T) ++ String "*" w, snd (parts T)) /\ chars (fun k => k <> "*"%char) w /\ (plain U -> plain T).
Proof.
  intros U T w [|q]; [|rewrite parts_qual]; cbn [parts fst snd]; rewrite ?sapp_assoc; (split; [reflexivity|]).
  - split; [cbn; repeat split; discriminate|auto].
  - split; [apply word_no_star|auto].
Qed.
Lemma starred_eq : forall U T w U' w', starred U T w -> starred U' T w' -> w = w' -> U = U'.
Proof. intros U T w U' w' [|q] H; inversion H; subst; intros E; try reflexivity; try (destruct q; discriminate); destruct q, q0; try discriminate; reflexivity. Qed.
Lemma starred_both : forall U T w U' T' w', starred U T w -> starred U' T' w' -> parts U = parts U' -> parts T = parts T' /\ w = w'.
Proof.
  intros U T w U' T' w' S S' E. destruct (starred_parts _ _ _ S) as (E1 & C1 & _), (starred_parts _ _ _ S') as (E2 & C2 & _).
  rewrite E1, E2 in E. assert (A : fst (parts T) ++ String "*" w = fst (parts T') ++ String "*" w') by congruence.
  assert (B : snd (parts T) = snd (parts T')) by congruence.
  apply (split_last "*" _ _ _ _ C1 C2) in A. destruct A as [A ->]. split; [|reflexivity].
  rewrite (surjective_pairing (parts T)), (surjective_pairing (parts T')). congruence.
Qed.
Lemma flat_after : forall T, flat T -> plain T -> snd (parts T) = "".
Proof.
  induction 1 as [T N|T F IH|q T F IH]; cbn [plain]; intros P.
  - destruct (named_parts T N P) as (sp & -> & _). reflexivity.
  - cbn [parts snd]. auto.
  - rewrite parts_qual. cbn [parts snd fst]. auto.
Qed.
Lemma flat_cases : forall T, flat T -> named T \/ exists T' w, starred T T' w /\ flat T'.
Proof. intros T [U N|U F|q U F]; [auto| |]; right; eauto using st_ptr, st_qptr. Qed.
Lemma callable_cases : forall T, callable T -> (exists U ps, T = TFun U ps /\ flat U /\ regular_params ps) \/ exists T' w, starred T T' w /\ callable T'.
Proof. intros T [U ps F R|U F|q U F]; [left; eauto| |]; right; eauto using st_ptr, st_qptr. Qed.
Lemma flat_star : forall T w U U', flat T -> (forall V, flat V -> plain V -> parts T = parts V -> T = V) ->
  plain T -> starred U T w -> flat U' -> plain U' -> parts U = parts U' -> U = U'.
Proof.
  intros T w U U' F IH P S F' P' E. destruct (flat_cases _ F') as [N|(V & v & S' & FV)].
  - exfalso. destruct (starred_parts _ _ _ S) as (E1 & _). rewrite E1 in E.
    pose proof (named_no_star _ N P') as NS. rewrite <- E in NS. cbn [fst] in NS. revert NS. intros NS. exact (star_absent _ _ _ NS eq_refl).
  - destruct (starred_both _ _ _ _ _ _ S S' E) as [EP ->].
    pose proof (proj2 (proj2 (starred_parts _ _ _ S')) P') as PV.
    pose proof (IH V FV PV EP). subst V. exact (starred_eq _ _ _ _ _ S S' eq_refl).
Qed.
Lemma flat_inj : forall T, flat T -> plain T -> forall T', flat T' -> plain T' -> parts T = parts T' -> T = T'.
Proof.
  induction 1 as [T N|T F IH|q T F IH]; intros P T' F' P' E.
  - destruct (flat_cases _ F') as [N'|(V & v & S' & FV)].
    + apply named_inj; auto. now rewrite E.
    + exfalso. destruct (starred_parts _ _ _ S') as (E1 & _). pose proof (named_no_star _ N P) as NS.
      rewrite E, E1 in NS. exact (star_absent _ _ _ NS eq_refl).
  - exact (flat_star T " " (TPtr T) T' F (IH P) P (st_ptr T) F' P' E).
  - exact (flat_star T _ (TQual q (TPtr T)) T' F (IH P) P (st_qptr q T) F' P' E).
Qed.
Lemma callable_after : forall T, callable T -> plain T -> exists x, snd (parts T) = String ")" x.
Proof.
  induction 1 as [T ps F R|T F IH|q T F IH]; cbn [plain]; intros P.
  - rewrite parts_fun. cbn [snd append]. eauto.
  - cbn [parts snd]. auto.
  - rewrite parts_qual. cbn [parts snd fst]. auto.
Qed.
Lemma starred_end : forall U T w, starred U T w -> exists x, fst (parts U) = x ++ " ".
Proof.
  intros U T w [|q].
  - exists (fst (parts T0) ++ "*"). cbn [parts fst]. now norm.
  - exists ((fst (parts T0) ++ "* ") ++ qual_word q). rewrite parts_qual. cbn [parts fst]. now norm.
Qed.
Lemma fun_end : forall T ps U T' w, starred U T' w -> parts (TFun T ps) = parts U -> False.
Proof.
  intros T ps U T' w S E. destruct (starred_end _ _ _ S) as (x & X). rewrite <- E, parts_fun in X. cbn [fst] in X.
  change " " with (String " " "") in X. apply last_char in X. destruct X. discriminate.
Qed.

Lemma regular_inj :
  (forall T, named T -> True) /\ (forall T, flat T -> True) /\
  (forall T, callable T -> plain T -> forall T', callable T' -> plain T' -> parts T = parts T' -> T = T') /\
  (forall T, regular T -> plain T -> forall T', regular T' -> plain T' -> parts T = parts T' -> T = T') /\
  (forall fs, regular_fields fs -> True) /\
  (forall ps, regular_params ps -> all_plain ps -> forall qs, regular_params qs -> all_plain qs ->
     param_texts (nameless ps) = param_texts (nameless qs) -> ps = qs).
Proof.
  assert (STAR : forall T U w, starred U T w -> callable T -> (plain T -> forall T', callable T' -> plain T' -> parts T = parts T' -> T = T') ->
                 plain U -> forall U', callable U' -> plain U' -> parts U = parts U' -> U = U').
  { intros T U w S C IH P U' C' P' E. destruct (callable_cases _ C') as [(V & ps & -> & _)|(V & v & S' & CV)].
    - exfalso. symmetry in E. exact (fun_end _ _ _ _ _ S E).
    - destruct (starred_both _ _ _ _ _ _ S S' E) as [EP ->].
      pose proof (proj2 (proj2 (starred_parts _ _ _ S')) P') as PV. pose proof (proj2 (proj2 (starred_parts _ _ _ S)) P) as PT.
      pose proof (IH PT V CV PV EP). subst V. exact (starred_eq _ _ _ _ _ S S' eq_refl). }
  apply (regular_all (fun _ _ => True) (fun _ _ => True)
    (fun T _ => plain T -> forall T', callable T' -> plain T' -> parts T = parts T' -> T = T')
    (fun T _ => plain T -> forall T', regular T' -> plain T' -> parts T = parts T' -> T = T')
    (fun _ _ => True)
    (fun ps _ => all_plain ps -> forall qs, regular_params qs -> all_plain qs ->
       param_texts (nameless ps) = param_texts (nameless qs) -> ps = qs)); try (intros; exact I).
  - intros T ps F _ R IH [P PP] T' C' P' E. destruct (callable_cases _ C') as [(V & qs & -> & FV & RV)|(V & v & S' & CV)].
    + destruct P' as [PV PQ]. rewrite !parts_fun in E.
      rewrite (flat_after T F P), (flat_after V FV PV) in E.
      pose proof (f_equal fst E) as E1. pose proof (f_equal snd E) as E2. cbn [fst snd] in E1, E2.
      apply sapp_inj_r in E1. do 3 apply sapp_inj_l in E2. apply sapp_inj_r in E2.
      assert (EP : parts T = parts V).
      { rewrite (surjective_pairing (parts T)), (surjective_pairing (parts V)), (flat_after T F P), (flat_after V FV PV). congruence. }
      f_equal; [exact (flat_inj T F P V FV PV EP)|].
      apply IH; auto. destruct balances_all as (_ & _ & _ & _ & _ & B). apply concat_inj; auto.
    + exfalso. exact (fun_end _ _ _ _ _ S' E).
  - intros T C IH. exact (STAR T (TPtr T) " " (st_ptr T) C IH).
  - intros q T C IH. exact (STAR T (TQual q (TPtr T)) _ (st_qptr q T) C IH).
  - intros T F _ P T' R' P' E. destruct R' as [V FV|V CV|n V RV].
    + now apply flat_inj.
    + exfalso. destruct (callable_after V CV P') as (x & X). rewrite <- E, (flat_after T F P) in X. discriminate.
    + exfalso. apply (f_equal snd) in E. rewrite (flat_after T F P) in E. discriminate.
  - intros T C IH P T' R' P' E. destruct R' as [V FV|V CV|n V RV].
    + exfalso. destruct (callable_after T C P) as (x & X). rewrite E, (flat_after V FV P') in X. discriminate.
    + now apply IH.
    + exfalso. destruct (callable_after T C P) as (x & X). rewrite E in X. cbn [parts snd] in X. discriminate.
  - intros n T R IH P T' R' P' E. destruct R' as [V FV|V CV|m V RV].
    + exfalso. apply (f_equal snd) in E. rewrite (flat_after V FV P') in E. discriminate.
    + exfalso. destruct (callable_after V CV P') as (x & X). rewrite <- E in X. discriminate.
    + pose proof (f_equal fst E) as E1. pose proof (f_equal snd E) as E2. cbn [parts fst snd] in E1, E2. apply arr_inj in E2. destruct E2 as [-> E2]. f_equal.
      apply IH; auto. rewrite (surjective_pairing (parts T)), (surjective_pairing (parts V)). congruence.
  - intros P qs R Q E. destruct qs as [|[]]; [reflexivity|discriminate|discriminate].
  - intros ps R IH P qs RQ Q E. destruct qs as [|[U|] qs]; [discriminate| |].
    + exfalso. cbn [nameless map option_map param_texts] in E. injection E as E _. inversion RQ; subst. destruct Q as [Q _].
      destruct (text_first _ (shape_regular U H1 Q)) as (c & x & X & C). rewrite X in E. injection E as E _. congruence.
    + f_equal. cbn [nameless map option_map param_texts] in E. injection E as E. inversion RQ; subst. now apply IH.
  - intros T ps R IH RP IHP [P PP] qs RQ Q E. destruct qs as [|[U|] qs]; [discriminate| |].
    + cbn [nameless map option_map param_texts] in E. injection E as E1 E2. inversion RQ; subst. destruct Q as [Q QQ].
      apply put_inj in E1; [|now apply shape_regular|now apply shape_regular].
      f_equal; [f_equal; now apply IH|now apply IHP].
    + exfalso. cbn [nameless map option_map param_texts] in E. injection E as E _.
      destruct (text_first _ (shape_regular T R P)) as (c & x & X & C). rewrite X in E. injection E as E _. congruence.
Qed.
Lemma parts_inj : forall T T', regular T -> plain T -> regular T' -> plain T' -> parts T = parts T' -> T = T'.
Proof. intros T T' R P R' P' E. destruct regular_inj as (_ & _ & _ & X & _). now apply X. Qed.

(** * Texts *)
Section Texts.
Variable d : db.
Hypothesis DB : forall r, clean (d r).
Lemma returns_fun : forall A (f : nat -> res A) a b, returns f a -> returns f b -> a = b.
Proof.
  intros A f a b [_ (n & N)] [_ (m & M)]. specialize (N (n + m)%nat ltac:(lia)). specialize (M (n + m)%nat ltac:(lia)). congruence.
Qed.
Lemma no_percent_chars : forall s, no_percent s -> chars (fun k => k <> "%"%char) s.
Proof. induction s; cbn; tauto. Qed.
Lemma text_inj : forall T T', no_percent (fst (parts T)) -> no_percent (fst (parts T')) -> text T = text T' -> parts T = parts T'.
Proof.
  intros T T' N N' E. unfold text, put in E. cbn [append] in E.
  apply (split_first "%" _ _ _ _ (no_percent_chars _ N) (no_percent_chars _ N')) in E. destruct E as [E1 E2]. injection E2 as E2.
  rewrite (surjective_pairing (parts T)), (surjective_pairing (parts T')). congruence.
Qed.
Lemma cdecl_injective : forall p p' T T' s, is_type d (Some p) T -> is_type d (Some p') T' -> clean (deref d p) -> clean (deref d p') ->
  regular T -> plain T -> regular T' -> plain T' ->
  returns (fun k => entry_cdecl k d (Some p)) (Some s) -> returns (fun k => entry_cdecl k d (Some p')) (Some s) -> T = T'.
Proof.
  intros p p' T T' s H H' C C' R P R' P' S S'.
  pose proof (returns_fun _ _ _ _ S (type_text d DB p T H C)) as E. pose proof (returns_fun _ _ _ _ S' (type_text d DB p' T' H' C')) as E'.
  injection E as E. injection E' as E'. apply parts_inj; auto. apply text_inj; [| |congruence].
  - exact (proj1 (proj1 (types_clean d DB) _ _ H C)).
  - exact (proj1 (proj1 (types_clean d DB) _ _ H' C')).
Qed.
End Texts.

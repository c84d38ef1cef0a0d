(** Merging of types (C67): equal signatures and types that are the same. *)
From Coq Require Import ZArith String Ascii List Bool Lia.
From Verif Require Import Base MetadbModel MetadbSpec MetadbProof MetadbProof2.
Import ListNotations.
Open Scope string_scope.

Definition force (x : out string) : string := match x with Ok s => s | _ => "" end.
Definition name_text (o : object) : string := match o_name o with Some n => n | None => "" end.

(** * Signatures of one object *)
Section One.
Variable G : nat -> option object.
Lemma sigof_form : forall link c o x, object_ok G o -> signature_of link c o = Ok x ->
  (exists n, o_name o = Some n /\ c = false /\ x = head (o_body o) ++ n) \/
  ((o_name o = None \/ c = true) /\ (forall j, In j (visited o) -> link j = Ok (force (link j))) /\ x = head (o_body o) ++ name_text o ++ text (fun j => force (link j)) o /\
   needs_name (o_body o) && match o_name o with None => true | _ => false end = false /\ o_decl o && negb (no_decl_check (o_body o)) = false).
Proof.
  intros link c o x O E. unfold signature_of, name_text in *.
  assert (R : forall y, rest link o = Ok y -> (forall j, In j (visited o) -> link j = Ok (force (link j))) /\ y = text (fun j => force (link j)) o).
  { intros y Y. assert (V : forall j, In j (visited o) -> link j = Ok (force (link j))).
    { intros j I. destruct (rest_inv link o y Y j I) as [s S]. rewrite S. reflexivity. }
    split; [assumption|]. rewrite (rest_ok link (fun j => force (link j)) o (ok_hier _ _ O) V) in Y. injection Y as <-. reflexivity. }
  destruct (o_name o) as [n|] eqn:N.
  - destruct c; cbn [negb] in E.
    + right. destruct (o_decl o && negb (no_decl_check (o_body o))) eqn:D; [discriminate|]. destruct (rest link o) as [y| | |]; cbn [obind] in E; try discriminate. injection E as <-. destruct (R y eq_refl) as [V ->]. rewrite andb_false_r. auto.
    + left. injection E as <-. eauto.
  - right. destruct (needs_name (o_body o)) eqn:Nn; [discriminate|]. destruct (o_decl o && negb (no_decl_check (o_body o))) eqn:D; [discriminate|]. destruct (rest link o) as [y| | |]; cbn [obind] in E; try discriminate. injection E as <-. destruct (R y eq_refl) as [V ->]. cbn [append]. auto.
Qed.
Lemma sigof_make : forall link c o (f : nat -> string), object_ok G o -> (o_name o = None \/ c = true) -> (c = true -> o_decl o = false) -> (forall j, In j (visited o) -> link j = Ok (f j)) ->
  signature_of link c o = Ok (head (o_body o) ++ name_text o ++ text f o).
Proof.
  intros link c o f O N D V. unfold signature_of, name_text. rewrite (rest_ok link f o (ok_hier _ _ O) V). cbn [obind]. destruct (o_name o) as [n|] eqn:En.
  - destruct N as [N|N]; [discriminate|]. subst c. rewrite (D eq_refl). reflexivity.
  - assert (Nn : needs_name (o_body o) = false) by (destruct (needs_name (o_body o)) eqn:X; [destruct (ok_needs _ _ O X En)|reflexivity]).
    assert (Dd : o_decl o = false) by (destruct (o_decl o) eqn:X; [destruct (ok_decl _ _ O X En)|reflexivity]). rewrite Nn, Dd. cbn [andb]. reflexivity.
Qed.
Lemma sigof_name : forall link o n, o_name o = Some n -> signature_of link false o = Ok (head (o_body o) ++ n).
Proof. intros link o n N. unfold signature_of. rewrite N. reflexivity. Qed.
Lemma sigof_mono : forall l1 l2 c o x, object_ok G o -> (forall j s, In j (visited o) -> l1 j = Ok s -> l2 j = Ok s) -> signature_of l1 c o = Ok x -> signature_of l2 c o = Ok x.
Proof.
  intros l1 l2 c o x O M E. destruct (sigof_form l1 c o x O E) as [[n [N [-> ->]]]|[N [V [-> [Nn D]]]]]; [apply sigof_name; assumption|].
  destruct N as [N | ->].
  - rewrite (sigof_make l2 c o (fun j => force (l1 j)) O); [reflexivity|left; assumption| |intros j I; apply M; [assumption|apply V; assumption]].
    intros _. destruct (o_decl o) eqn:X; [destruct (ok_decl _ _ O X N)|reflexivity].
  - unfold signature_of, name_text in *. rewrite (rest_ok l2 (fun j => force (l1 j)) o (ok_hier _ _ O)) by (intros j I; apply M; [assumption|apply V; assumption]). cbn [obind negb]. rewrite D. destruct (o_name o); [reflexivity|]. rewrite andb_true_r in Nn. rewrite Nn. reflexivity.
Qed.

(** ** The texts *)
Lemma head_word : forall b, exists w, head b = w ++ "," /\ no "," w = true.
Proof.
  intros b. destruct b as [e|l|q t|t|t| |r t|ps t|t s l c v|g fs hs]; [exists "BaseType"|exists "EnumerationType"|exists ("QualType:" ++ qual_text q)|exists "Typedef"|exists "PointerType"|exists "UnspecifiedType"|exists (ref_text r)|exists "SubroutineType"|exists "ArrayType"|exists ("Tag:" ++ tag_text g)]; (split; [try destruct q; try destruct r; try destruct g; reflexivity|try destruct q; try destruct r; try destruct g; reflexivity]).
Qed.
Lemma head_inj : forall a b x y, head a ++ x = head b ++ y -> same_kind a b /\ x = y.
Proof.
  intros a b x y E. destruct (head_word a) as [w [Wa Na]], (head_word b) as [v [Vb Nb]]. rewrite Wa, Vb, !sapp_assoc in E. cbn [append] in E. destruct (split_at "," w v x y Na Nb E) as [-> ->]. split; [|reflexivity].
  assert (H : head a = head b) by congruence. clear - H. destruct a as [e|l|q t|t|t| |r t|ps t|t s l c v|g fs hs], b as [e'|l'|q' t'|t'|t'| |r' t'|ps' t'|t' s' l' c' v'|g' fs' hs']; try (exfalso; cbn in H; try destruct q; try destruct q'; try destruct r; try destruct r'; try destruct g; try destruct g'; discriminate H).
  - constructor.
  - constructor.
  - assert (Q : q = q') by (destruct q, q'; (reflexivity || discriminate H)). subst. constructor.
  - constructor.
  - constructor.
  - constructor.
  - assert (Q : r = r') by (destruct r, r'; (reflexivity || discriminate H)). subst. constructor.
  - constructor.
  - constructor.
  - assert (Q : g = g') by (destruct g, g'; (reflexivity || discriminate H)). subst. constructor.
Qed.
Lemma kind_head : forall a b, same_kind a b -> head a = head b.
Proof. intros a b K. destruct K; reflexivity. Qed.
Lemma head_even : forall b, even (head b).
Proof. intros b. apply even_plain; destruct b as [e|l|q t|t|t| |r t|ps t|t s l c v|g fs hs]; try reflexivity; try destruct q; try destruct r; try destruct g; reflexivity. Qed.
Lemma lit_even : forall s, no "(" s = true -> no ")" s = true -> even s.
Proof. exact even_plain. Qed.
Lemma num_even : forall T x, no "(" T = true -> no ")" T = true -> even (num T x).
Proof. intros T x A B. unfold num, opt. destruct x; [|apply even_plain; reflexivity]. apply even_app; [apply even_plain; assumption|]. apply even_app; [apply plain_even, dec_plain|apply even_plain; reflexivity]. Qed.
Lemma wrap_even : forall pre s, (forall n, depth n pre = Some (S n)) -> even s -> even (pre ++ s ++ "),").
Proof. intros pre s P S n. rewrite depth_app, P, depth_app, S. reflexivity. Qed.
Lemma text_even : forall f o, object_ok G o -> goods f (visited o) -> even (text f o).
Proof.
  intros f o O V. pose proof (ok_body _ _ O) as T. unfold text, visited, tidy_body in *.
  assert (L : forall pre t, (forall n, depth n pre = Some (S n)) -> goods f (olist t) -> even (lt f pre t)).
  { intros pre [j|] P Gd; cbn; [apply wrap_even; [assumption|apply Gd; left; reflexivity]|apply even_plain; reflexivity]. }
  destruct (o_body o) as [e|l|q t|t|t| |r t|ps t|t s l c v|g fs hs]; try (apply L; [reflexivity|assumption]).
  - apply even_app; [apply even_plain; reflexivity|]. apply even_app; [apply even_plain; apply tidy_no; (reflexivity || assumption)|]. apply even_app; [apply even_plain; reflexivity|]. apply num_even; reflexivity.
  - apply even_app; [apply num_even; reflexivity|]. apply even_app; [apply num_even; reflexivity|]. apply (wrap_even "Enumberators:("); [reflexivity|]. induction T as [|[k v] l K T IH]; cbn [et fold_right]; [apply even_plain; reflexivity|].
    change (fold_right _ "" l) with (et l). rewrite <- (sapp_assoc ":"), <- (sapp_assoc k), <- (sapp_assoc (k ++ _)), <- (sapp_assoc "("). apply even_app; [|assumption]. apply wrap_even; [reflexivity|]. apply even_app; [apply plain_even, tidy_plain; assumption|]. apply even_app; [apply even_plain; reflexivity|apply plain_even, dec_plain].
  - apply even_plain; reflexivity.
  - apply goods_app in V. destruct V as [V1 V2]. apply even_app; [|apply L; [reflexivity|assumption]]. assert (P : even (pt f ps)).
    { clear - V1. induction ps as [|p ps IH]; cbn [pt]; [apply even_plain; reflexivity|]. cbn [flat_map] in V1. apply goods_app in V1. destruct V1 as [V1 V2]. rewrite <- (sapp_assoc (px f p)), <- (sapp_assoc "("). apply even_app; [|apply IH; assumption]. apply wrap_even; [reflexivity|apply px_even; assumption]. }
    destruct ps; [apply even_plain; reflexivity|]. apply (wrap_even "Takes:("); [reflexivity|assumption].
  - apply even_app; [apply num_even; reflexivity|]. apply even_app; [apply num_even; reflexivity|]. apply even_app; [apply even_plain; reflexivity|]. apply even_app; [apply plain_even, dec_plain|]. apply even_app; [apply even_plain; reflexivity|].
    apply even_app; [apply even_plain; reflexivity|]. apply even_app; [apply plain_even, dec_plain|]. apply even_app; [apply even_plain; reflexivity|]. apply L; [reflexivity|assumption].
  - apply goods_app in V. destruct V as [V1 V2]. apply even_app; [apply num_even; reflexivity|]. apply even_app; [apply num_even; reflexivity|].
    assert (F : even (ft f fs)).
    { clear - V1 T L. induction T as [|d fs D T IH]; cbn [ft]; [apply even_plain; reflexivity|]. cbn [flat_map] in V1. apply goods_app in V1. destruct V1 as [V1 V2]. rewrite <- (sapp_assoc (fx f d)), <- (sapp_assoc "("). apply even_app; [|apply IH; assumption]. apply wrap_even; [reflexivity|]. unfold fx.
      apply even_app; [|apply even_app; [apply L; [reflexivity|assumption]|apply even_app; [apply num_even; reflexivity|apply even_app; [apply num_even; reflexivity|apply even_app; [|apply num_even; reflexivity]]]]].
      - unfold opt. destruct (f_name d) as [n|] eqn:N; [|apply even_plain; reflexivity]. apply even_app; [apply even_plain; reflexivity|]. apply even_app; [apply plain_even, tidy_plain, D; reflexivity|apply even_plain; reflexivity].
      - unfold place. destruct (f_bit d); (apply even_app; [apply even_plain; reflexivity|]; apply even_app; [apply plain_even, dec_plain|apply even_plain; reflexivity]). }
    assert (H : fs <> [] -> even (ht f hs)).
    { intros N. assert (V : goods f (flat_map olist hs)) by (destruct fs; [destruct N; reflexivity|assumption]). clear - V. induction hs as [|[j|] hs IH]; cbn [ht]; [apply even_plain; reflexivity| |apply IH; assumption]. cbn [flat_map] in V. apply goods_app in V. destruct V as [V1 V2]. rewrite <- (sapp_assoc (f j)), <- (sapp_assoc "("). apply even_app; [|apply IH; assumption]. apply wrap_even; [reflexivity|apply V1; left; reflexivity]. }
    destruct fs as [|d fs]; [apply even_plain; reflexivity|]. apply even_app; [apply (wrap_even "Fields:("); [reflexivity|assumption]|]. apply (wrap_even "Other:("); [reflexivity|]. apply H. discriminate.
Qed.
(** the text after the name is empty or has a colon *)
Lemma text_colon : forall f o, text f o = "" \/ no ":" (text f o) = false.
Proof.
  intros f o. assert (A : forall T r, no ":" T = false -> no ":" (T ++ r) = false) by (intros T r H; rewrite no_app, H; reflexivity).
  assert (A2 : forall T r, no ":" r = false -> no ":" (T ++ r) = false) by (intros T r H; rewrite no_app, H; apply andb_false_r).
  assert (N : forall T x, no ":" T = false -> num T x = "" \/ no ":" (num T x) = false).
  { intros T x H. unfold num, opt. destruct x; [right; apply A; assumption|left; reflexivity]. }
  assert (L : forall T x, no ":" T = false -> lt f T x = "" \/ no ":" (lt f T x) = false).
  { intros T x H. unfold lt. destruct x; [right; apply A; assumption|left; reflexivity]. }
  unfold text. destruct (o_body o) as [e|l|q t|t|t| |r t|ps t|t s l c v|g fs hs]; try (apply L; reflexivity).
  - right. apply A. reflexivity.
  - right. apply A2, A2, A. reflexivity.
  - left. reflexivity.
  - destruct ps; [cbn [append]; apply L; reflexivity|]. right. apply A, A. reflexivity.
  - right. apply A2, A2, A. reflexivity.
  - destruct (N "ByteSize:" (o_size o) eq_refl) as [-> | H]; [|right; apply A; assumption]. cbn [append]. destruct (N "Alignment:" (o_align o) eq_refl) as [-> | H]; [|right; apply A; assumption]. cbn [append]. destruct fs; [left; reflexivity|]. right. apply A. reflexivity.
Qed.
(** the texts of the links are shorter *)
Lemma text_longer : forall f o j, (forall g fs hs, o_body o = Struct g fs hs -> ~ In None hs) -> In j (visited o) -> (String.length (f j) < String.length (text f o))%nat.
Proof.
  intros f o j Nh I.
  assert (L : forall pre t, In j (olist t) -> (String.length (f j) < String.length (lt f pre t))%nat).
  { intros pre [k|] J; [|destruct J]. destruct J as [->|[]]. cbn [lt]. rewrite !slen_app. cbn. lia. }
  unfold text, visited in *. destruct (o_body o) as [e|l|q t|t|t| |r t|ps t|t s l c v|g fs hs]; try (destruct I; fail); try (apply L; assumption).
  - apply in_app_or in I. rewrite slen_app. destruct I as [I|I]; [|pose proof (L "Returns:(" t I); lia].
    assert (P : (String.length (f j) < String.length (pt f ps))%nat).
    { clear - I. induction ps as [|p ps IH]; [destruct I|]. cbn [flat_map] in I. cbn [pt]. rewrite !slen_app. apply in_app_or in I. destruct I as [I|I]; [|specialize (IH I); cbn; lia].
      unfold px, pvisit in *. destruct (a_unspec p) as [[]|]; [destruct I| |]; (destruct (a_type p) as [k|]; [destruct I as [->|[]]; cbn; lia|destruct I]). }
    destruct ps as [|p ps]; [destruct I|]. rewrite !slen_app. lia.
  - pose proof (L "From:(" t I). rewrite !slen_app. lia.
  - apply in_app_or in I. destruct I as [I|I].
    + assert (P : (String.length (f j) < String.length (ft f fs))%nat).
      { clear - I L. induction fs as [|d fs IH]; [destruct I|]. cbn [flat_map] in I. cbn [ft]. unfold fx. rewrite !slen_app. apply in_app_or in I. destruct I as [I|I]; [pose proof (L "Type:(" _ I)|specialize (IH I)]; cbn; lia. }
      destruct fs as [|d fs]; [destruct I|]. rewrite !slen_app. lia.
    + destruct fs as [|d fs]; [destruct I|]. assert (P : (String.length (f j) < String.length (ht f hs))%nat).
      { clear - I. induction hs as [|[k|] hs IH]; [destruct I| |apply IH; assumption]. cbn [ht]. rewrite !slen_app. cbn [flat_map olist app] in I. destruct I as [->|I]; [|specialize (IH I)]; cbn; lia. }
      rewrite !slen_app. lia.
Qed.

(** ** Alike objects *)
Lemma linked_mono : forall (R R' : nat -> nat -> Prop) t u, (forall i j, In i (olist t) -> In j (olist u) -> R i j -> R' i j) -> linked R t u -> linked R' t u.
Proof. intros R R' t u M H. destruct H; constructor. apply M; [left; reflexivity|left; reflexivity|assumption]. Qed.
Lemma alike_mono : forall (R R' : nat -> nat -> Prop) a b, (forall i j, In i (visited a) -> In j (visited b) -> R i j -> R' i j) -> alike R a b -> alike R' a b.
Proof.
  intros R R' a b M H. destruct H as [e A B E|l A B E1 E2|q t u A B K|t u A B K|t u A B K|A B|r t u A B K|ps t qs u A B Ps K|t u s l c v A B K|g fs hs gs ks A B E1 E2 F H]; unfold visited in M; rewrite A, B in M.
  - exact (al_base _ a b e A B E).
  - exact (al_enum _ a b l A B E1 E2).
  - exact (al_qual _ a b q t u A B (linked_mono _ _ _ _ M K)).
  - exact (al_typedef _ a b t u A B (linked_mono _ _ _ _ M K)).
  - exact (al_pointer _ a b t u A B (linked_mono _ _ _ _ M K)).
  - exact (al_unspec _ a b A B).
  - exact (al_ref _ a b r t u A B (linked_mono _ _ _ _ M K)).
  - refine (al_sub _ a b ps t qs u A B _ (linked_mono _ _ _ _ _ K)); [|intros i j I J; apply M; apply in_or_app; auto].
    assert (M' : forall i j, In i (flat_map pvisit ps) -> In j (flat_map pvisit qs) -> R i j -> R' i j) by (intros i j I J; apply M; apply in_or_app; auto). clear - M' Ps.
    induction Ps as [|p q ps qs P Ps IH]; constructor.
    + destruct P as [P1 P2|P1 P2 P3]; [apply pa_dots; assumption|]. apply pa_type; [assumption|assumption|]. revert P3. apply linked_mono. intros i j I J. apply M'; cbn [flat_map]; apply in_or_app; left; unfold pvisit; [destruct (a_unspec p) as [[]|]; [destruct P1; reflexivity|assumption|assumption]|destruct (a_unspec q) as [[]|]; [destruct P2; reflexivity|assumption|assumption]].
    + apply IH. intros i j I J. apply M'; cbn [flat_map]; apply in_or_app; auto.
  - exact (al_array _ a b t u s l c v A B (linked_mono _ _ _ _ M K)).
  - refine (al_struct _ a b g fs hs gs ks A B E1 E2 _ _).
    + assert (M' : forall i j, In i (flat_map (fun d => olist (f_type d)) fs) -> In j (flat_map (fun d => olist (f_type d)) gs) -> R i j -> R' i j) by (intros i j I J; apply M; apply in_or_app; auto). clear - M' F.
      induction F as [|d e fs gs P Ps IH]; constructor.
      * destruct P as [P1 P2 P3 P4 P5 P6 P7]. constructor; try assumption. revert P2. apply linked_mono. intros i j I J. apply M'; cbn [flat_map]; apply in_or_app; auto.
      * apply IH. intros i j I J. apply M'; cbn [flat_map]; apply in_or_app; auto.
    + intros N. specialize (H N). assert (N' : gs <> []) by (intros ->; inversion F; subst; apply N; reflexivity).
      assert (M' : forall i j, In i (flat_map olist hs) -> In j (flat_map olist ks) -> R i j -> R' i j).
      { intros i j I J. apply M; apply in_or_app; right; [destruct fs; [destruct N; reflexivity|assumption]|destruct gs; [destruct N'; reflexivity|assumption]]. }
      clear - M' H. induction H as [|t u hs ks K H IH]; constructor.
      * revert K. apply linked_mono. intros i j I J. apply M'; cbn [flat_map]; apply in_or_app; auto.
      * apply IH. intros i j I J. apply M'; cbn [flat_map]; apply in_or_app; auto.
Qed.
Lemma alike_kind : forall R a b, alike R a b -> same_kind (o_body a) (o_body b).
Proof. intros R a b H. destruct H as [e A B E|l A B E1 E2|q t u A B K|t u A B K|t u A B K|A B|r t u A B K|ps t qs u A B Ps K|t u s l c v A B K|g fs hs gs ks A B E1 E2 F H]; rewrite A, B; constructor. Qed.
(** each link of the second is related to one of the first *)
Lemma alike_back : forall R a b j, alike R a b -> In j (visited b) -> exists i, In i (visited a) /\ R i j.
Proof.
  intros R a b j H I. assert (L : forall t u, linked R t u -> In j (olist u) -> exists i, In i (olist t) /\ R i j).
  { intros t u K J. destruct K as [|i k K]; [destruct J|]. destruct J as [->|[]]. exists i. split; [left; reflexivity|assumption]. }
  destruct H as [e A B E|l A B E1 E2|q t u A B K|t u A B K|t u A B K|A B|r t u A B K|ps t qs u A B Ps K|t u s l c v A B K|g fs hs gs ks A B E1 E2 F H]; unfold visited in *; rewrite A; rewrite B in I; try (destruct I; fail); try (exact (L _ _ K I)).
  - apply in_app_or in I. destruct I as [I|I].
    + assert (X : exists i, In i (flat_map pvisit ps) /\ R i j); [|destruct X as [i [X Y]]; exists i; split; [apply in_or_app; auto|assumption]].
      clear - Ps I L. induction Ps as [|p q ps qs P Ps IH]; [destruct I|]. cbn [flat_map] in *. apply in_app_or in I. destruct I as [I|I].
      * destruct P as [P1 P2|P1 P2 P3]; unfold pvisit in I; [rewrite P2 in I; destruct I|]. assert (J : In j (olist (a_type q))) by (destruct (a_unspec q) as [[]|]; [destruct P2; reflexivity|assumption|assumption]).
        destruct (L _ _ P3 J) as [i [X Y]]. exists i. split; [apply in_or_app; left; unfold pvisit; destruct (a_unspec p) as [[]|]; [destruct P1; reflexivity|assumption|assumption]|assumption].
      * destruct (IH I) as [i [X Y]]. exists i. split; [apply in_or_app; auto|assumption].
    + destruct (L _ _ K I) as [i [X Y]]. exists i. split; [apply in_or_app; auto|assumption].
  - apply in_app_or in I. destruct I as [I|I].
    + assert (X : exists i, In i (flat_map (fun d => olist (f_type d)) fs) /\ R i j); [|destruct X as [i [X Y]]; exists i; split; [apply in_or_app; auto|assumption]].
      clear - F I L. induction F as [|d e fs gs P Ps IH]; [destruct I|]. cbn [flat_map] in *. apply in_app_or in I. destruct I as [I|I].
      * destruct P as [P1 P2 P3 P4 P5 P6 P7]. destruct (L _ _ P2 I) as [i [X Y]]. exists i. split; [apply in_or_app; auto|assumption].
      * destruct (IH I) as [i [X Y]]. exists i. split; [apply in_or_app; auto|assumption].
    + destruct gs as [|e gs]; [destruct I|]. destruct fs as [|d fs]; [inversion F|]. assert (N : d :: fs <> []) by discriminate. specialize (H N).
      assert (X : exists i, In i (flat_map olist hs) /\ R i j); [|destruct X as [i [X Y]]; exists i; split; [apply in_or_app; auto|assumption]].
      clear - H I L. induction H as [|t u hs ks K H IH]; [destruct I|]. cbn [flat_map] in *. apply in_app_or in I. destruct I as [I|I]; [destruct (L _ _ K I) as [i [X Y]]|destruct (IH I) as [i [X Y]]]; (exists i; split; [apply in_or_app; auto|assumption]).
Qed.
Lemma linked_text : forall (R : nat -> nat -> Prop) f g pre t u, (forall i j, In i (olist t) -> R i j -> f i = g j) -> linked R t u -> lt f pre t = lt g pre u.
Proof. intros R f g pre t u E K. destruct K as [|i j K]; [reflexivity|]. cbn [lt]. rewrite (E i j (or_introl eq_refl) K). reflexivity. Qed.
Lemma alike_text : forall (R : nat -> nat -> Prop) f g a b, (forall i j, In i (visited a) -> R i j -> f i = g j) -> alike R a b -> text f a = text g b.
Proof.
  intros R f g a b E H. destruct H as [e A B E1|l A B E1 E2|q t u A B K|t u A B K|t u A B K|A B|r t u A B K|ps t qs u A B Ps K|t u s l c v A B K|d fs hs gs ks A B E1 E2 F H]; unfold text, visited in *; rewrite A in *; rewrite B; try reflexivity; try (exact (linked_text _ _ _ _ _ _ E K)).
  - rewrite E1. reflexivity.
  - rewrite E1, E2. reflexivity.
  - assert (P : pt f ps = pt g qs).
    { assert (E' : forall i j, In i (flat_map pvisit ps) -> R i j -> f i = g j) by (intros i j I; apply E; apply in_or_app; auto). clear - Ps E'. induction Ps as [|p q ps qs P Ps IH]; [reflexivity|]. cbn [pt flat_map] in *. rewrite IH by (intros i j I; apply E'; apply in_or_app; auto). f_equal. f_equal.
      destruct P as [P1 P2|P1 P2 P3]; unfold px; [rewrite P1, P2; reflexivity|]. assert (X : match a_type p with Some j => f j | None => "" end = match a_type q with Some j => g j | None => "" end).
      { assert (V : forall i, In i (olist (a_type p)) -> In i (pvisit p)) by (intros i I; unfold pvisit; destruct (a_unspec p) as [[]|]; [destruct P1; reflexivity|assumption|assumption]). destruct P3 as [|i j K]; [reflexivity|]. apply E'; [apply in_or_app; left; apply V; left; reflexivity|assumption]. }
      destruct (a_unspec p) as [[]|]; [destruct P1; reflexivity| |]; (destruct (a_unspec q) as [[]|]; [destruct P2; reflexivity|exact X|exact X]). }
    assert (L : lt f "Returns:(" t = lt g "Returns:(" u) by (apply (linked_text R); [intros i j I; apply E; apply in_or_app; auto|assumption]). rewrite P, L. inversion Ps; reflexivity.
  - rewrite (linked_text R f g "From:(" t u E K). reflexivity.
  - assert (P : ft f fs = ft g gs).
    { assert (E' : forall i j, In i (flat_map (fun x => olist (f_type x)) fs) -> R i j -> f i = g j) by (intros i j I; apply E; apply in_or_app; auto). clear - F E'. induction F as [|p q ps qs P Ps IH]; [reflexivity|]. cbn [ft flat_map] in *. rewrite IH by (intros i j I; apply E'; apply in_or_app; auto). f_equal. f_equal.
      destruct P as [P1 P2 P3 P4 P5 P6 P7]. unfold fx, place. rewrite P1, P3, P4, P6, <- P5. rewrite (linked_text R f g "Type:(" (f_type p) (f_type q)); [|intros i j I; apply E'; apply in_or_app; auto|assumption]. destruct (f_bit p); [reflexivity|]. rewrite (P7 eq_refl). reflexivity. }
    rewrite E1, E2, P. destruct fs as [|x fs]; [inversion F; reflexivity|]. inversion F as [|? y ? gs' ? ?]; subst. assert (N : x :: fs <> []) by discriminate. specialize (H N).
    assert (Q : ht f hs = ht g ks).
    { assert (E' : forall i j, In i (flat_map olist hs) -> R i j -> f i = g j) by (intros i j I; apply E; apply in_or_app; right; assumption). clear - H E'. induction H as [|t u hs ks K H IH]; [reflexivity|]. cbn [flat_map] in E'. destruct K as [|i j K]; cbn [ht]; rewrite IH by (intros k l I; apply E'; apply in_or_app; auto); [reflexivity|]. rewrite (E' i j); [reflexivity|left; reflexivity|assumption]. }
    rewrite Q. reflexivity.
Qed.
End One.

(** The texts can be read back. *)
From Coq Require Import ZArith String Ascii List Bool DecimalString DecimalZ DecimalPos HexString Lia ZifyBool.
From Verif Require Import Base EntryModel ValueModel DeepModel CdeclModel CdeclSpec CdeclProof CdeclProof3 EscapeSpec TextModel TextSpec.
Import ListNotations.
Open Scope Z_scope.
Local Open Scope string_scope.

(** how a reading is written *)
Inductive prints : reading -> string -> Prop :=
| pr_num z : prints (RNum z) (dec z)
| pr_word w : prints (RWord w) w
| pr_addr p : prints (RAddr p) (HexString.of_Z p)
| pr_char c : 32 <= c <= 126 -> prints (RChar c) (String "'" (String (chr c) "'"))
| pr_text l b : unescape b = Some l -> Forall (fun c => 32 <= c <= 126) b ->
    prints (RText l) (String quote (text_of b ++ String quote ""))
| pr_list l s : prints_items l s -> prints (RList l) ("{" ++ s ++ "}")
| pr_fields l s : l <> [] -> prints_fields l s -> prints (RFields l) ("{" ++ s ++ "}")
| pr_cast ty r s : prints r s -> prints (RCast ty r) ("(" ++ ty ++ ")" ++ s)
with prints_items : list reading -> string -> Prop :=
| pi_nil : prints_items [] ""
| pi_one r s : prints r s -> prints_items [r] (s ++ ",")
| pi_more r r2 l s t : prints r s -> prints_items (r2 :: l) t -> prints_items (r :: r2 :: l) (s ++ ", " ++ t)
with prints_fields : list (string * reading) -> string -> Prop :=
| pf_nil : prints_fields [] ""
| pf_one n r s : prints r s -> prints_fields [(n, r)] ("." ++ n ++ " = " ++ s ++ ",")
| pf_more n r f l s t : prints r s -> prints_fields (f :: l) t -> prints_fields ((n, r) :: f :: l) ("." ++ n ++ " = " ++ s ++ ", " ++ t).
Scheme prints_mut := Induction for prints Sort Prop
  with prints_items_mut := Induction for prints_items Sort Prop
  with prints_fields_mut := Induction for prints_fields Sort Prop.
Combined Scheme prints_all from prints_mut, prints_items_mut, prints_fields_mut.

Definition ending (s : string) : Prop := match s with EmptyString => True | String c _ => c = ","%char \/ c = "}"%char end.
Lemma word_of_app : forall w rest, chars word_char w -> ending rest -> word_of (w ++ rest) = (w, rest).
Proof.
  induction w as [|c w IH]; intros rest C N; cbn.
  - destruct rest as [|c r]; [reflexivity|]. cbn in *. destruct N as [-> | ->]; reflexivity.
  - destruct C as [[C1 C2] C3]. apply Ascii.eqb_neq in C1, C2. rewrite C1, C2. cbn. rewrite IH by assumption. reflexivity.
Qed.
Lemma name_of_app : forall n rest, plain_name n -> name_of (n ++ " " ++ rest) = Some (n, rest).
Proof.
  unfold plain_name. induction n as [|c n IH]; intros rest C; cbn; [reflexivity|]. destruct C as [C1 C2]. apply Ascii.eqb_neq in C1. rewrite C1.
  change (" " ++ rest) with (String " " rest) in IH. cbn in IH. rewrite IH by assumption. reflexivity.
Qed.
Lemma type_of_app : forall ty k rest, balanced k ty -> type_of k (ty ++ ")" ++ rest) = Some (ty, rest).
Proof.
  induction ty as [|c ty IH]; intros k rest B; cbn [balanced String.append] in *.
  - subst k. reflexivity.
  - cbn [type_of]. destruct (Ascii.eqb c ")").
    + destruct k as [|k]; [contradiction|]. cbn [String.append] in IH |- *. rewrite (IH k rest B). reflexivity.
    + cbn [String.append] in IH |- *. rewrite (IH _ rest B). reflexivity.
Qed.
Lemma code_chr : forall c, 0 <= c < 256 -> code (chr c) = c.
Proof. intros c H. unfold code, chr. rewrite N_ascii_embedding by (apply N2Z.inj_lt; rewrite Z2N.id by lia; cbn; lia). apply Z2N.id. lia. Qed.
Lemma plain_unescape : forall c b, 32 <= c <= 126 -> c <> 34 -> c <> 92 -> unescape (c :: b) = option_map (cons c) (unescape b).
Proof.
  intros c b H N1 N2. cbn [unescape]. replace (c <? 32)%Z with false by lia. replace (126 <? c)%Z with false by lia.
  destruct c as [|p|p]; try lia. do 7 (destruct p as [p|p|]; try lia; try reflexivity).
Qed.
Lemma literal_app : forall b l rest, unescape b = Some l -> Forall (fun c => 32 <= c <= 126) b ->
  literal_of (text_of b ++ String quote rest) = Some (l, rest).
Proof.
  intros b. remember (length b) as k eqn:K. assert (K' : (length b <= k)%nat) by lia. clear K. revert b K'.
  induction k as [|k IH]; intros b K l rest U F.
  - destruct b; [|cbn in K; lia]. cbn in U. injection U as <-. reflexivity.
  - destruct b as [|c b]; [cbn in U; injection U as <-; reflexivity|]. cbn [length] in K. inversion F as [|? ? F1 F2]; subst.
    unfold text_of in *. cbn [map string_of_list_ascii String.append literal_of]. rewrite code_chr by lia.
    destruct (Z.eqb_spec c 34) as [->|N34]; [discriminate|].
    destruct (Z.eqb_spec c 92) as [->|N92].
    + cbn in U. destruct b as [|e b]; [discriminate|]. cbn [length] in K. inversion F2 as [|? ? G1 G2]; subst.
      cbn [map string_of_list_ascii String.append]. rewrite code_chr by lia. destruct (unescape1 e) as [x|]; [|discriminate].
      destruct (unescape b) as [q|] eqn:UB; [|discriminate]. injection U as <-. rewrite (IH b) with (l := q) by (auto; lia). reflexivity.
    + rewrite plain_unescape in U by lia.
      destruct (unescape b) as [q|] eqn:UB; [|discriminate]. injection U as <-. rewrite (IH b) with (l := q) by (auto; lia). reflexivity.
Qed.

(** numbers *)
Definition digit (c : ascii) : Prop := In c ["0"; "1"; "2"; "3"; "4"; "5"; "6"; "7"; "8"; "9"]%char.
Lemma uint_digits : forall u, chars digit (NilEmpty.string_of_uint u).
Proof. induction u; cbn [NilEmpty.string_of_uint chars]; auto; (split; [|exact IHu]); unfold digit; cbn; tauto. Qed.
Lemma dec_digits : forall z, exists c r, dec z = String c r /\ (digit c \/ c = "-"%char) /\ chars digit r.
Proof.
  assert (V : forall u, chars digit (NilZero.string_of_uint u) /\ NilZero.string_of_uint u <> "").
  { intros u. unfold NilZero.string_of_uint. destruct u; try (split; [apply uint_digits|discriminate]). split; [cbn; unfold digit; cbn; tauto|discriminate]. }
  intros z. unfold dec, NilZero.string_of_int. destruct (Z.to_int z) as [u|u].
  - destruct (V u) as [V1 V2]. destruct (NilZero.string_of_uint u) as [|c r]; [contradiction|]. exists c, r. split; [reflexivity|]. split; [left|]; apply V1.
  - exists "-"%char, (NilZero.string_of_uint u). split; [reflexivity|]. split; [right; reflexivity|apply V].
Qed.
Lemma digit_word : forall c, digit c \/ c = "-"%char -> word_char c /\ word_start c.
Proof.
  intros c [H| ->].
  - unfold digit in H. cbn in H. repeat (destruct H as [<-|H]; [split; [split; discriminate|unfold word_start; cbn; intros X; repeat (destruct X as [X|X]; [discriminate|]); exact X]|]). destruct H.
  - split; [split; discriminate|unfold word_start; cbn; intros X; repeat (destruct X as [X|X]; [discriminate|]); exact X].
Qed.
Lemma dec_word : forall z, chars word_char (dec z) /\ exists c r, dec z = String c r /\ word_start c.
Proof.
  intros z. destruct (dec_digits z) as (c & r & -> & C & R). split; [|exists c, r; split; [reflexivity|apply digit_word; exact C]].
  split; [apply digit_word; exact C|]. revert R. apply chars_impl. intros k K. apply digit_word. left. exact K.
Qed.
Lemma dec_classify : forall z, classify (dec z) = RNum z.
Proof.
  intros z. unfold classify. assert (D : NilZero.int_of_string (dec z) = Some (Z.to_int z)).
  { unfold dec. apply NilZero.isi; destruct z; cbn; try discriminate; intros E; injection E as E; exact (DecimalPos.Unsigned.to_uint_nonnil _ E). }
  rewrite D. rewrite DecimalZ.of_to. reflexivity.
Qed.
(** addresses *)
Lemma raw_chars : forall p rest, chars word_char rest -> chars word_char (HexString.Raw.of_pos p rest).
Proof.
  fix F 1. intros p rest R.
  assert (X : forall c, In c ["0"; "1"; "2"; "3"; "4"; "5"; "6"; "7"; "8"; "9"; "a"; "b"; "c"; "d"; "e"; "f"]%char -> chars word_char (String c rest)).
  { intros c H. cbn. split; [|exact R]. cbn in H. repeat (destruct H as [<-|H]; [split; discriminate|]). destruct H. }
  do 4 (try destruct p as [p|p|]); cbn [HexString.Raw.of_pos]; try (apply X; cbn; tauto); apply F; apply X; cbn; tauto.
Qed.
Lemma addr_word : forall p, 0 <= p -> chars word_char (HexString.of_Z p) /\ (exists c r, HexString.of_Z p = String c r /\ word_start c) /\ classify (HexString.of_Z p) = RAddr p.
Proof.
  intros p H. destruct p as [|p|p]; [|clear H|lia].
  - split; [cbn; repeat split; discriminate|]. split; [exists "0"%char, "x0"; split; [reflexivity|apply digit_word; left; unfold digit; cbn; tauto]|reflexivity].
  - unfold HexString.of_Z, HexString.of_pos. split; [|split].
    + cbn [chars]. split; [split; discriminate|]. split; [split; discriminate|]. apply raw_chars. exact I.
    + eexists; eexists. split; [reflexivity|apply digit_word; left; unfold digit; cbn; tauto].
    + unfold classify.
      assert (X : NilZero.int_of_string (String "0" (String "x" (HexString.Raw.of_pos p ""))) = None) by (cbn; destruct (NilEmpty.uint_of_string _); reflexivity).
      rewrite X. cbn [prefix]. destruct (ascii_dec "0" "0"); [|congruence]. destruct (ascii_dec "x" "x"); [|congruence].
      replace (prefix "" _) with true by (destruct (HexString.Raw.of_pos p ""); reflexivity).
      f_equal. exact (HexString.to_Z_of_Z (Zpos p)).
Qed.

(** reading what is written *)
Definition starts (s : string) : Prop := exists c q, s = String c q /\ c <> "."%char /\ c <> "}"%char.
Definition all_readable (l : list reading) : Prop := readable (RList l).
Definition fields_readable (l : list (string * reading)) : Prop := readable (RFields l).
Lemma word_read : forall w r rest, chars word_char w -> (exists c q, w = String c q /\ word_start c) -> classify w = r -> ending rest ->
  exists k0, forall k, (k0 <= k)%nat -> read k (w ++ rest) = Some (r, rest).
Proof.
  intros w r rest C (c & q & -> & W) CL N. exists 1%nat. intros [|k] K; [lia|].
  pose proof (word_of_app (String c q) rest C N) as X. cbn [String.append] in X |- *. cbn [read].
  unfold word_start in W. cbn in W.
  destruct (Ascii.eqb_spec c "{"); [exfalso; apply W; auto|]. destruct (Ascii.eqb_spec c """"); [exfalso; apply W; auto|].
  destruct (Ascii.eqb_spec c "'"); [exfalso; apply W; auto|]. destruct (Ascii.eqb_spec c "("); [exfalso; apply W; auto 6|].
  rewrite X. cbn [String.eqb]. rewrite CL. reflexivity.
Qed.
Lemma word_starts : forall w, chars word_char w -> (exists c q, w = String c q /\ word_start c) -> starts w.
Proof.
  intros w C (c & q & -> & W). exists c, q. split; [reflexivity|]. unfold word_start in W. cbn in W. destruct C as [[C1 C2] _].
  split; [|exact C2]. intros ->. apply W. auto 6.
Qed.
Lemma sapp_cons : forall c (a b : string), String c a ++ b = String c (a ++ b).
Proof. reflexivity. Qed.
Lemma sapp_assoc' : forall a b c : string, (a ++ b) ++ c = a ++ (b ++ c).
Proof. induction a; intros; cbn; [reflexivity|]. rewrite IHa. reflexivity. Qed.
Lemma chr_neq : forall c k, 32 <= c <= 126 -> code k <> c -> Ascii.eqb (chr c) k = false.
Proof. intros c k H N. apply Ascii.eqb_neq. intros X. apply N. rewrite <- X. apply code_chr. lia. Qed.
Theorem read_back :
  (forall r s, prints r s -> readable r -> starts s /\ forall rest, ending rest -> exists k0, forall k, (k0 <= k)%nat -> read k (s ++ rest) = Some (r, rest)) /\
  (forall l s, prints_items l s -> all_readable l ->
     l = [] /\ s = "" \/ starts s /\ forall rest, exists k0, forall k, (k0 <= k)%nat -> read_items k (s ++ "}" ++ rest) = Some (l, rest)) /\
  (forall l s, prints_fields l s -> fields_readable l ->
     l = [] /\ s = "" \/ (exists q, s = String "." q) /\ forall rest, exists k0, forall k, (k0 <= k)%nat -> read_fields k (s ++ "}" ++ rest) = Some (l, rest)).
Proof.
  apply prints_all.
  - intros z _. destruct (dec_word z) as [C W]. split; [apply word_starts; auto|]. intros rest N. apply word_read; auto. apply dec_classify.
  - intros w (C & W & I & P). split; [apply word_starts; auto|]. intros rest N. apply word_read; auto. unfold classify. rewrite I, P. reflexivity.
  - intros p H. cbn in H. destruct (addr_word p H) as (C & W & CL). split; [apply word_starts; auto|]. intros rest N. apply word_read; auto.
  - intros c H [N1 N2]. split; [eexists; eexists; split; [reflexivity|]; split; discriminate|]. intros rest _. exists 1%nat. intros [|k] K; [lia|].
    cbn [String.append read]. cbn [Ascii.eqb Bool.eqb andb]. 
    rewrite (chr_neq c "'") by (auto; cbn; lia). rewrite (chr_neq c "\") by (auto; cbn; lia). cbn [negb]. rewrite code_chr by lia. reflexivity.
  - intros l b U F _. split; [eexists; eexists; split; [reflexivity|]; split; discriminate|]. intros rest _. exists 1%nat. intros [|k] K; [lia|].
    rewrite sapp_cons, sapp_assoc', sapp_cons. cbn [read]. change (Ascii.eqb quote "{") with false. change (Ascii.eqb quote """") with true. cbn [String.append].
    rewrite (literal_app b l rest U F). reflexivity.
  - intros l s _ IH R. split; [eexists; eexists; split; [reflexivity|]; split; discriminate|]. intros rest _.
    destruct (IH R) as [[-> ->]|[(c & q & -> & N1 & N2) IH2]].
    + exists 1%nat. intros [|k] K; [lia|]. reflexivity.
    + destruct (IH2 rest) as [k0 K0]. exists (S k0). intros [|k] K; [lia|]. specialize (K0 k ltac:(lia)).
      rewrite sapp_assoc', sapp_assoc'. cbn [String.append] in K0 |- *. cbn [read]. cbn [Ascii.eqb Bool.eqb andb].
      apply Ascii.eqb_neq in N1, N2. rewrite N1, N2, K0. reflexivity.
  - intros l s NE _ IH R. split; [eexists; eexists; split; [reflexivity|]; split; discriminate|]. intros rest _.
    destruct (IH R) as [[-> ->]|[(q & ->) IH2]]; [congruence|].
    destruct (IH2 rest) as [k0 K0]. exists (S k0). intros [|k] K; [lia|]. specialize (K0 k ltac:(lia)).
    rewrite sapp_assoc', sapp_assoc'. cbn [String.append] in K0 |- *. cbn [read]. cbn [Ascii.eqb Bool.eqb andb]. rewrite K0. reflexivity.
  - intros ty r s _ IH [B R]. split; [eexists; eexists; split; [reflexivity|]; split; discriminate|]. intros rest N.
    destruct (IH R) as [_ IH2]. destruct (IH2 rest N) as [k0 K0]. exists (S k0). intros [|k] K; [lia|]. specialize (K0 k ltac:(lia)).
    rewrite sapp_assoc', sapp_assoc', sapp_assoc'. pose proof (type_of_app ty 0 (s ++ rest) B) as T. cbn [String.append] in T |- *. cbn [read]. cbn [Ascii.eqb Bool.eqb andb].
    rewrite T, K0. reflexivity.
  - intros _. left. split; reflexivity.
  - intros r s _ IH R. right. destruct (IH (proj1 R)) as [(c & q & -> & N1 & N2) IH2]. split; [exists c, (q ++ ","); auto|]. intros rest.
    destruct (IH2 (",}" ++ rest)) as [k0 K0]; [cbn; auto|]. exists (S k0). intros [|k] K; [lia|]. specialize (K0 k ltac:(lia)).
    rewrite sapp_assoc'. cbn [read_items]. cbn [String.append] in K0 |- *. rewrite K0. reflexivity.
  - intros r r2 l s t _ IH _ IHt [R1 R2]. right. destruct (IH R1) as [(c & q & -> & N1 & N2) IH2].
    split; [eexists; eexists; split; [reflexivity|]; split; assumption|]. intros rest.
    destruct (IHt R2) as [[X _]|[_ IH3]]; [discriminate|]. destruct (IH3 rest) as [k1 K1].
    destruct (IH2 (", " ++ (t ++ "}" ++ rest))) as [k0 K0]; [cbn; auto|]. exists (S (k0 + k1)). intros [|k] K; [lia|]. specialize (K0 k ltac:(lia)). specialize (K1 k ltac:(lia)).
    rewrite !sapp_assoc'. cbn [read_items]. cbn [String.append] in K0, K1 |- *. rewrite K0. cbn [Ascii.eqb Bool.eqb andb]. rewrite K1. reflexivity.
  - intros _. left. split; reflexivity.
  - intros nm r s _ IH (PN & R & _). right. destruct (IH R) as [_ IH2]. split; [eexists; reflexivity|]. intros rest.
    destruct (IH2 (",}" ++ rest)) as [k0 K0]; [cbn; auto|]. exists (S k0). intros [|k] K; [lia|]. specialize (K0 k ltac:(lia)).
    rewrite !sapp_assoc'. pose proof (name_of_app nm ("= " ++ s ++ ",}" ++ rest) PN) as T. cbn [String.append] in T, K0 |- *. cbn [read_fields]. cbn [Ascii.eqb Bool.eqb andb].
    rewrite T. cbn [Ascii.eqb Bool.eqb andb]. rewrite K0. reflexivity.
  - intros nm r f l s t _ IH _ IHt (PN & R1 & R2). right. destruct (IH R1) as [_ IH2]. split; [eexists; reflexivity|]. intros rest.
    destruct (IHt R2) as [[X _]|[_ IH3]]; [discriminate|]. destruct (IH3 rest) as [k1 K1].
    destruct (IH2 (", " ++ (t ++ "}" ++ rest))) as [k0 K0]; [cbn; auto|]. exists (S (k0 + k1)). intros [|k] K; [lia|]. specialize (K0 k ltac:(lia)). specialize (K1 k ltac:(lia)).
    rewrite !sapp_assoc'. pose proof (name_of_app nm ("= " ++ s ++ ", " ++ (t ++ "}" ++ rest)) PN) as T. cbn [String.append] in T, K0, K1 |- *. cbn [read_fields]. cbn [Ascii.eqb Bool.eqb andb].
    rewrite T. cbn [Ascii.eqb Bool.eqb andb]. rewrite K0. cbn [Ascii.eqb Bool.eqb andb]. rewrite K1. reflexivity.
Qed.
Lemma prints_says : forall r s, prints r s -> readable r -> says s r.
Proof.
  intros r s P R. destruct (proj1 read_back r s P R) as [_ X]. destruct (X "" I) as [k0 K0]. exists k0.
  specialize (K0 k0 (le_n _)). rewrite <- K0. f_equal. clear. induction s as [|c s IH]; cbn; [reflexivity|]. rewrite <- IH. reflexivity.
Qed.
(** more fuel does not change what is read *)
Lemma read_more : forall k, (forall s x, read k s = Some x -> read (S k) s = Some x) /\
  (forall s x, read_items k s = Some x -> read_items (S k) s = Some x) /\ (forall s x, read_fields k s = Some x -> read_fields (S k) s = Some x).
Proof.
  induction k as [|k (I1 & I2 & I3)]; [repeat split; discriminate|]. repeat split; intros s x H.
  - cbn [read] in H. remember (S k) as k'. cbn [read]. subst k'. destruct s as [|c r]; [discriminate|].
    destruct (Ascii.eqb c "{").
    + destruct r as [|c2 r2]; [discriminate|]. destruct (Ascii.eqb c2 "}"); [exact H|]. destruct (Ascii.eqb c2 ".").
      * destruct (read_fields k _) as [p|] eqn:Q; [|discriminate]. rewrite (I3 _ _ Q). exact H.
      * destruct (read_items k _) as [p|] eqn:Q; [|discriminate]. rewrite (I2 _ _ Q). exact H.
    + destruct (Ascii.eqb c """"); [exact H|]. destruct (Ascii.eqb c "'"); [exact H|]. destruct (Ascii.eqb c "("); [|exact H].
      destruct (type_of 0 r) as [[ty r2]|]; [|discriminate]. destruct (read k r2) as [p|] eqn:Q; [|discriminate]. rewrite (I1 _ _ Q). exact H.
  - cbn [read_items] in H. remember (S k) as k'. cbn [read_items]. subst k'. destruct (read k s) as [[y q]|] eqn:Q; [|discriminate]. rewrite (I1 _ _ Q).
    destruct q as [|c r]; [discriminate|]. destruct (Ascii.eqb c ","); [|discriminate]. destruct r as [|c2 r2]; [discriminate|].
    destruct (Ascii.eqb c2 "}"); [exact H|]. destruct (Ascii.eqb c2 " "); [|discriminate]. destruct (read_items k r2) as [p|] eqn:Q2; [|discriminate]. rewrite (I2 _ _ Q2). exact H.
  - cbn [read_fields] in H. remember (S k) as k'. cbn [read_fields]. subst k'. destruct s as [|c r]; [discriminate|]. destruct (Ascii.eqb c "."); [|discriminate].
    destruct (name_of r) as [[nm q]|]; [|discriminate]. destruct q as [|c1 [|c2 r1]]; try discriminate. destruct (Ascii.eqb c1 "=" && Ascii.eqb c2 " "); [|discriminate].
    destruct (read k r1) as [[y q]|] eqn:Q; [|discriminate]. rewrite (I1 _ _ Q).
    destruct q as [|c3 r3]; [discriminate|]. destruct (Ascii.eqb c3 ","); [|discriminate]. destruct r3 as [|c4 r4]; [discriminate|].
    destruct (Ascii.eqb c4 "}"); [exact H|]. destruct (Ascii.eqb c4 " "); [|discriminate]. destruct (read_fields k r4) as [p|] eqn:Q2; [|discriminate]. rewrite (I3 _ _ Q2). exact H.
Qed.
Lemma read_le : forall k k' s x, (k <= k')%nat -> read k s = Some x -> read k' s = Some x.
Proof. intros k k' s x L H. induction L; [exact H|]. apply (proj1 (read_more m)). exact IHL. Qed.
Lemma says_fun : forall s r r', says s r -> says s r' -> r = r'.
Proof.
  intros s r r' [k H] [k' H']. apply (read_le k (Nat.max k k')) in H; [|lia]. apply (read_le k' (Nat.max k k')) in H'; [|lia]. congruence.
Qed.

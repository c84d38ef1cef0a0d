(** The texts of calls can be read back. *)
From Coq Require Import ZArith String Ascii List Bool DecimalString HexString Lia ZifyBool.
From Verif Require Import Base EntryModel ValueModel DeepModel CdeclModel CdeclSpec CdeclProof CdeclProof3 EscapeSpec TextModel TextSpec TextProof CallSpec.
Import ListNotations.
Open Scope Z_scope.
Local Open Scope string_scope.

(** how arguments and calls are written *)
Inductive aprints : argument -> string -> Prop :=
| ap_one r s : prints r s -> aprints (AOne r) s
| ap_list l ss : l <> [] -> Forall2 prints l ss -> aprints (AList l) ("VA_LIST(" ++ String.concat ", " ss ++ ")").
Inductive cprints : call -> string -> Prop :=
| cp_direct nm l ss : Forall2 aprints l ss -> cprints (Call true nm l) (nm ++ "(" ++ String.concat ", " ss ++ ")")
| cp_pointer nm l ss : Forall2 aprints l ss -> cprints (Call false nm l) ("(" ++ nm ++ ")(" ++ String.concat ", " ss ++ ")").

Definition aending (s : string) : Prop := match s with EmptyString => True | String c _ => c = ","%char \/ c = ")"%char end.
Lemma arg_word_app : forall w rest, chars arg_char w -> aending rest -> arg_word (w ++ rest) = (w, rest).
Proof.
  induction w as [|c w IH]; intros rest C N; cbn.
  - destruct rest as [|c r]; [reflexivity|]. cbn in *. destruct N as [-> | ->]; reflexivity.
  - destruct C as [(C1 & C2 & _) C3]. apply Ascii.eqb_neq in C1, C2. rewrite C1, C2. cbn. rewrite IH by assumption. reflexivity.
Qed.
Lemma arg_readable_readable : forall r, arg_readable r -> readable r.
Proof. induction r; cbn; tauto. Qed.

(** numbers and addresses are words *)
Lemma digit_arg : forall c, digit c \/ c = "-"%char -> arg_char c.
Proof.
  intros c [H| ->]; [|repeat split; discriminate]. unfold digit in H. cbn in H.
  repeat (destruct H as [<-|H]; [repeat split; discriminate|]). destruct H.
Qed.
Lemma dec_arg : forall z, chars arg_char (dec z).
Proof.
  intros z. destruct (dec_digits z) as (c & r & -> & C & R). split; [apply digit_arg; exact C|]. revert R. apply chars_impl. intros k K. apply digit_arg. left. exact K.
Qed.
Lemma raw_arg : forall p rest, chars arg_char rest -> chars arg_char (HexString.Raw.of_pos p rest).
Proof.
  fix F 1. intros p rest R.
  assert (X : forall c, In c ["0"; "1"; "2"; "3"; "4"; "5"; "6"; "7"; "8"; "9"; "a"; "b"; "c"; "d"; "e"; "f"]%char -> chars arg_char (String c rest)).
  { intros c H. cbn. split; [|exact R]. cbn in H. repeat (destruct H as [<-|H]; [repeat split; discriminate|]). destruct H. }
  do 4 (try destruct p as [p|p|]); cbn [HexString.Raw.of_pos]; try (apply X; cbn; tauto); apply F; apply X; cbn; tauto.
Qed.
Lemma addr_arg : forall p, 0 <= p -> chars arg_char (HexString.of_Z p).
Proof.
  intros [|p|p] H; [|clear H|lia]; [cbn; repeat split; discriminate|]. unfold HexString.of_Z, HexString.of_pos. cbn [chars].
  split; [repeat split; discriminate|]. split; [repeat split; discriminate|]. apply raw_arg. exact I.
Qed.
(** A word in an argument list. *)
Definition arg_token (w : string) : Prop := chars arg_char w /\ exists c q, w = String c q /\ word_start c.
Lemma token_read : forall w r rest, arg_token w -> classify w = r -> aending rest ->
  exists k0, forall k, (k0 <= k)%nat -> read_one k (w ++ rest) = Some (r, rest).
Proof.
  intros w r rest (C & c & q & -> & W) CL N. exists 1%nat. intros [|k] K; [lia|].
  pose proof (arg_word_app (String c q) rest C N) as X. cbn [String.append] in X |- *. cbn [read_one]. unfold word_start in W. cbn in W.
  destruct (Ascii.eqb_spec c "{"); [exfalso; apply W; auto|]. destruct (Ascii.eqb_spec c """"); [exfalso; apply W; auto|].
  destruct (Ascii.eqb_spec c "'"); [exfalso; apply W; auto|]. destruct (Ascii.eqb_spec c "("); [exfalso; apply W; auto 6|].
  cbn [orb]. rewrite X. cbn [String.eqb]. rewrite CL. reflexivity.
Qed.
Definition opener (c : ascii) : Prop := c = "{"%char \/ c = """"%char \/ c = "'"%char \/ c = "("%char.
Definition arg_starts (s : string) : Prop := arg_token s \/ exists c q, s = String c q /\ opener c.

Lemma read_one_back : forall r s, prints r s -> arg_readable r -> arg_starts s /\
  forall rest, aending rest -> exists k0, forall k, (k0 <= k)%nat -> read_one k (s ++ rest) = Some (r, rest).
Proof.
  assert (ST : forall c q r rest, c = "{"%char \/ c = """"%char \/ c = "'"%char -> (exists k0, forall k, (k0 <= k)%nat -> read k (String c q ++ rest) = Some (r, rest)) ->
    exists k0, forall k, (k0 <= k)%nat -> read_one k (String c q ++ rest) = Some (r, rest)).
  { intros c q r rest C [k0 K0]. exists (S k0). intros [|k] K; [lia|]. specialize (K0 k ltac:(lia)). cbn [String.append] in K0 |- *. cbn [read_one].
    destruct C as [->|[->| ->]]; cbn [Ascii.eqb Bool.eqb andb orb]; exact K0. }
  intros r s P. induction P as [z|w|p|c H|l b U F|l s P|l s NE P|ty r s P IH| | | | | | ] using prints_mut
    with (P0 := fun _ _ _ => True) (P1 := fun _ _ _ => True); auto; intros R; cbn [arg_readable] in R.
  - destruct (dec_word z) as [C W]. assert (T : arg_token (dec z)) by (split; [apply dec_arg|exact W]). split; [left; exact T|]. intros rest N. apply token_read; auto. apply dec_classify.
  - destruct R as (C & (_ & W & NI & NP)). assert (T : arg_token w) by (split; assumption). split; [left; exact T|]. intros rest N. apply token_read; auto. unfold classify. rewrite NI, NP. reflexivity.
  - destruct (addr_word p R) as (_ & W & CL). assert (T : arg_token (HexString.of_Z p)) by (split; [apply addr_arg; exact R|exact W]). split; [left; exact T|]. intros rest N. apply token_read; auto.
  - split; [right; eexists; eexists; split; [reflexivity|unfold opener; auto]|]. intros rest _. apply ST; [auto|]. destruct R as [N1 N2]. exists 1%nat. intros [|k] K; [lia|].
    cbn [String.append read]. cbn [Ascii.eqb Bool.eqb andb].
    rewrite (chr_neq c "'") by (auto; cbn; lia). rewrite (chr_neq c "\") by (auto; cbn; lia). cbn [negb]. rewrite code_chr by lia. reflexivity.
  - split; [right; eexists; eexists; split; [reflexivity|unfold opener; auto]|]. intros rest _. apply ST; [auto|]. exists 1%nat. intros [|k] K; [lia|].
    rewrite sapp_cons, sapp_assoc', sapp_cons. cbn [read]. change (Ascii.eqb quote "{") with false. change (Ascii.eqb quote """") with true. cbn [String.append].
    rewrite (literal_app b l rest U F). reflexivity.
  - split; [right; eexists; eexists; split; [reflexivity|unfold opener; auto]|]. intros rest _. change ("{" ++ s ++ "}") with (String "{" (s ++ "}")). apply ST; [auto|].
    destruct (proj1 (proj2 read_back) l s P R) as [[-> ->]|[(c & q & -> & N1 & N2) IH2]].
    + exists 1%nat. intros [|k] K; [lia|]. reflexivity.
    + destruct (IH2 rest) as [k0 K0]. exists (S k0). intros [|k] K; [lia|]. specialize (K0 k ltac:(lia)).
      rewrite sapp_cons, sapp_assoc'. cbn [String.append] in K0 |- *. cbn [read]. cbn [Ascii.eqb Bool.eqb andb].
      apply Ascii.eqb_neq in N1, N2. rewrite N1, N2, K0. reflexivity.
  - split; [right; eexists; eexists; split; [reflexivity|unfold opener; auto]|]. intros rest _. change ("{" ++ s ++ "}") with (String "{" (s ++ "}")). apply ST; [auto|].
    destruct (proj2 (proj2 read_back) l s P R) as [[-> ->]|[(q & ->) IH2]]; [congruence|].
    destruct (IH2 rest) as [k0 K0]. exists (S k0). intros [|k] K; [lia|]. specialize (K0 k ltac:(lia)).
    rewrite sapp_cons, sapp_assoc'. cbn [String.append] in K0 |- *. cbn [read]. cbn [Ascii.eqb Bool.eqb andb]. rewrite K0. reflexivity.
  - split; [right; eexists; eexists; split; [reflexivity|unfold opener; auto]|]. intros rest N. destruct R as [B R].
    destruct (IH R) as [_ IH2]. destruct (IH2 rest N) as [k0 K0]. exists (S k0). intros [|k] K; [lia|]. specialize (K0 k ltac:(lia)).
    rewrite sapp_assoc', sapp_assoc', sapp_assoc'. pose proof (type_of_app ty 0 (s ++ rest) B) as T. cbn [String.append] in T |- *. cbn [read_one]. cbn [Ascii.eqb Bool.eqb andb orb].
    rewrite T, K0. reflexivity.
Qed.
(** sequences *)
Lemma seq_back : forall A (one : nat -> string -> option (A * string)) xs ss,
  Forall2 (fun x s => forall rest, aending rest -> exists k0, forall k, (k0 <= k)%nat -> one k (s ++ rest) = Some (x, rest)) xs ss -> xs <> [] ->
  forall rest, exists k0, forall k j, (k0 <= k)%nat -> (k0 <= j)%nat -> read_seq (one j) k (String.concat ", " ss ++ ")" ++ rest) = Some (xs, rest).
Proof.
  intros A one xs ss F. induction F as [|x s xs ss X F IH]; intros NE rest; [congruence|]. destruct F as [|x2 s2 xs ss X2 F].
  - destruct (X (")" ++ rest)) as [k0 K0]; [cbn; auto|]. exists (S k0). intros [|k] j K J; [lia|]. cbn [String.concat read_seq]. rewrite (K0 j) by lia. reflexivity.
  - destruct (IH ltac:(discriminate) rest) as [k1 K1]. destruct (X (", " ++ (String.concat ", " (s2 :: ss) ++ ")" ++ rest))) as [k0 K0]; [cbn; auto|].
    exists (S (k0 + k1)). intros [|k] j K J; [lia|]. change (String.concat ", " (s :: s2 :: ss)) with (s ++ ", " ++ String.concat ", " (s2 :: ss)).
    rewrite !sapp_assoc'. cbn [read_seq]. rewrite (K0 j) by lia. cbn [String.append]. cbn [Ascii.eqb Bool.eqb andb].
    specialize (K1 k j ltac:(lia) ltac:(lia)). cbn [String.append] in K1. rewrite K1. reflexivity.
Qed.
Lemma prefix_word : forall p s rest, chars (fun c => c <> ","%char /\ c <> ")"%char) p -> aending rest -> prefix p (s ++ rest) = true -> prefix p s = true.
Proof.
  induction p as [|c p IH]; intros s rest C N H; [destruct s; reflexivity|]. destruct C as [[C1 C2] C3]. destruct s as [|c' s].
  - destruct rest as [|c' rest]; [discriminate|]. cbn in H, N. destruct (ascii_dec c c') as [->|]; [|discriminate]. destruct N; contradiction.
  - cbn [String.append prefix] in *. destruct (ascii_dec c c'); [|discriminate]. apply (IH s rest); assumption.
Qed.
Lemma prefix_chars : forall P p s, chars P s -> prefix p s = true -> chars P p.
Proof.
  intros P. induction p as [|c p IH]; intros s C H; [exact I|]. destruct s as [|c' s]; [discriminate|]. cbn in H. destruct (ascii_dec c c') as [->|]; [|discriminate].
  destruct C as [C1 C2]. split; [exact C1|]. apply (IH s); assumption.
Qed.
Lemma not_va_list : forall s rest, arg_starts s -> aending rest -> prefix "VA_LIST(" (s ++ rest) = false.
Proof.
  intros s rest [[C _]|(c & q & -> & O)] N.
  - destruct (prefix "VA_LIST(" (s ++ rest)) eqn:P; [|reflexivity]. exfalso.
    apply prefix_word in P; [|cbn; repeat split; discriminate|exact N]. apply (prefix_chars _ _ _ C) in P. cbn in P. destruct P as (_ & _ & _ & _ & _ & _ & _ & (_ & _ & X) & _). apply X. reflexivity.
  - destruct O as [->|[->|[->| ->]]]; reflexivity.
Qed.
Lemma substring_whole : forall s, substring 0 (String.length s) s = s.
Proof. induction s as [|c s IH]; cbn; [reflexivity|]. rewrite IH. reflexivity. Qed.
Lemma read_arg_back : forall a s, aprints a s -> argument_readable a -> (exists c q, s = String c q /\ c <> ")"%char) /\
  forall rest, aending rest -> exists k0, forall k, (k0 <= k)%nat -> read_arg k (s ++ rest) = Some (a, rest).
Proof.
  intros a s P R. destruct P as [r s P|l ss NE F].
  - destruct (read_one_back r s P R) as [ST X]. split.
    { destruct ST as [(C & c & q & -> & _)|(c & q & -> & O)]; exists c, q; (split; [reflexivity|]); [apply C|]. destruct O as [->|[->|[->| ->]]]; discriminate. }
    intros rest N. destruct (X rest N) as [k0 K0]. exists k0. intros k K. unfold read_arg. rewrite (not_va_list s rest ST N). rewrite (K0 k K). reflexivity.
  - split; [eexists; eexists; split; [reflexivity|discriminate]|]. intros rest N. cbn [argument_readable] in R.
    destruct (seq_back _ read_one l ss) with (rest := rest) as [k0 K0]; [|exact NE|].
    { clear NE. induction F as [|r s l ss P F IH]; constructor; inversion R; subst; [apply read_one_back; assumption|apply IH; assumption]. }
    exists k0. intros k K. unfold read_arg. rewrite !sapp_assoc'. change ("VA_LIST(" ++ ?x) with ("VA_LIST(" ++ x).
    replace (prefix "VA_LIST(" ("VA_LIST(" ++ String.concat ", " ss ++ ")" ++ rest)) with true by (cbn; destruct (String.concat ", " ss); reflexivity).
    replace (substring 8 _ _) with (String.concat ", " ss ++ ")" ++ rest); [rewrite (K0 k k) by lia; reflexivity|].
    cbn [String.append String.length substring]. rewrite Nat.sub_succ. cbn [Nat.sub]. symmetry. rewrite Nat.sub_0_r. apply substring_whole.
Qed.
Lemma read_args_back : forall l ss, Forall2 aprints l ss -> Forall argument_readable l ->
  exists k0, forall k, (k0 <= k)%nat -> read_args k (String.concat ", " ss ++ ")") = Some l.
Proof.
  intros l ss F R. destruct F as [|a s l ss P F]; [exists 0%nat; reflexivity|].
  assert (G : Forall2 (fun x s => forall rest, aending rest -> exists k0, forall k, (k0 <= k)%nat -> read_arg k (s ++ rest) = Some (x, rest)) (a :: l) (s :: ss)).
  { clear - P F R. assert (F' : Forall2 aprints (a :: l) (s :: ss)) by (constructor; assumption). clear P F. induction F'; constructor; inversion R; subst; [apply read_arg_back; assumption|auto]. }
  destruct (seq_back _ read_arg _ _ G ltac:(discriminate) "") as [k0 K0]. exists k0. intros k K. unfold read_args.
  inversion R; subst. destruct (proj1 (read_arg_back a s P ltac:(assumption))) as (c & q & -> & NC).
  assert (Q : String.eqb (String.concat ", " (String c q :: ss) ++ ")") ")" = false).
  { apply String.eqb_neq. intros X. apply NC. destruct ss; cbn in X; injection X as -> _; reflexivity. }
  rewrite Q. specialize (K0 k k K K). rewrite sapp_nil in K0. rewrite K0. reflexivity.
Qed.
Lemma fun_name_app : forall nm rest, chars (fun x => x <> "("%char) nm -> fun_name (nm ++ "(" ++ rest) = Some (nm, rest).
Proof.
  induction nm as [|c nm IH]; intros rest C; [reflexivity|]. destruct C as [C1 C2]. cbn [String.append fun_name] in *. apply Ascii.eqb_neq in C1. rewrite C1, IH by assumption. reflexivity.
Qed.
Theorem call_back : forall c s, cprints c s -> call_readable c -> says_call s c.
Proof.
  intros c s P [R N]. destruct P as [nm l ss F|nm l ss F]; cbn [c_args c_direct c_name] in *; destruct (read_args_back l ss F R) as [k0 K0]; exists k0.
  - destruct N as [N NE]. destruct nm as [|x nm]; [congruence|]. pose proof (fun_name_app (String x nm) (String.concat ", " ss ++ ")") N) as FN. destruct N as [N _]. apply Ascii.eqb_neq in N.
    cbn [String.append] in FN |- *. unfold read_call. rewrite N, FN, (K0 k0) by lia. reflexivity.
  - pose proof (type_of_app nm 0 ("(" ++ String.concat ", " ss ++ ")") N) as T. change (")(" ++ ?x) with (")" ++ "(" ++ x).
    cbn [String.append] in T |- *. unfold read_call. cbn [Ascii.eqb Bool.eqb andb]. rewrite T. cbn [Ascii.eqb Bool.eqb andb]. rewrite (K0 k0) by lia. reflexivity.
Qed.

(** a text says one thing *)
Lemma read_one_more : forall k s x, read_one k s = Some x -> read_one (S k) s = Some x.
Proof.
  induction k as [|k IH]; intros s x H; [discriminate|]. cbn [read_one] in H. remember (S k) as k' eqn:Q. cbn [read_one]. subst k'. destruct s as [|c r]; [discriminate|].
  destruct (Ascii.eqb c "{" || Ascii.eqb c """" || Ascii.eqb c "'"); [apply (proj1 (read_more k)); exact H|]. destruct (Ascii.eqb c "("); [|exact H].
  destruct (type_of 0 r) as [[ty r2]|]; [|discriminate]. destruct (read_one k r2) as [p|] eqn:P; [|discriminate]. rewrite (IH _ _ P). exact H.
Qed.
Lemma read_seq_more : forall A (one one' : string -> option (A * string)), (forall s x, one s = Some x -> one' s = Some x) ->
  forall k s x, read_seq one k s = Some x -> read_seq one' (S k) s = Some x.
Proof.
  intros A one one' M. induction k as [|k IH]; intros s x H; [discriminate|]. cbn [read_seq] in H. remember (S k) as k' eqn:Q. cbn [read_seq]. subst k'.
  destruct (one s) as [[y q]|] eqn:O; [|discriminate]. rewrite (M _ _ O). destruct q as [|c r]; [discriminate|]. destruct (Ascii.eqb c ")"); [exact H|].
  destruct (Ascii.eqb c ","); [|discriminate]. destruct r as [|c2 r2]; [discriminate|]. destruct (Ascii.eqb c2 " "); [|discriminate].
  destruct (read_seq one k r2) as [p|] eqn:P; [|discriminate]. rewrite (IH _ _ P). exact H.
Qed.
Lemma read_arg_more : forall k s x, read_arg k s = Some x -> read_arg (S k) s = Some x.
Proof.
  intros k s x H. unfold read_arg in *. destruct (prefix "VA_LIST(" s).
  - destruct (read_seq (read_one k) k _) as [p|] eqn:P; [|discriminate]. rewrite (read_seq_more _ _ _ (read_one_more k) _ _ _ P). exact H.
  - destruct (read_one k s) as [p|] eqn:P; [|discriminate]. rewrite (read_one_more _ _ _ P). exact H.
Qed.
Lemma read_call_more : forall k s x, read_call k s = Some x -> read_call (S k) s = Some x.
Proof.
  assert (RA : forall k s x, read_args k s = Some x -> read_args (S k) s = Some x).
  { intros k s x H. unfold read_args in *. destruct (String.eqb s ")"); [exact H|]. destruct (read_seq (read_arg k) k s) as [p|] eqn:P; [|discriminate]. rewrite (read_seq_more _ _ _ (read_arg_more k) _ _ _ P). exact H. }
  intros k s x H. unfold read_call in *. destruct s as [|c r]; [discriminate|]. destruct (Ascii.eqb c "(").
  - destruct (type_of 0 r) as [[nm [|c2 r2]]|]; try discriminate. destruct (Ascii.eqb c2 "("); [|discriminate]. destruct (read_args k r2) as [p|] eqn:P; [|discriminate]. rewrite (RA _ _ _ P). exact H.
  - destruct (fun_name (String c r)) as [[nm r2]|]; [|discriminate]. destruct (read_args k r2) as [p|] eqn:P; [|discriminate]. rewrite (RA _ _ _ P). exact H.
Qed.
Lemma says_call_fun : forall s c c', says_call s c -> says_call s c' -> c = c'.
Proof.
  assert (L : forall k k' s x, (k <= k')%nat -> read_call k s = Some x -> read_call k' s = Some x).
  { intros k k' s x L H. induction L; [exact H|]. apply read_call_more. exact IHL. }
  intros s c c' [k H] [k' H']. apply (L k (Nat.max k k')) in H; [|lia]. apply (L k' (Nat.max k k')) in H'; [|lia]. congruence.
Qed.

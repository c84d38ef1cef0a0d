(** Proofs about declaration texts, part 1: the text of a type as what comes before and after the place holder. *)
From Coq Require Import ZArith String Ascii List Bool Lia DecimalString.
From Verif Require Import Base EntryModel CdeclModel CdeclSpec.
Import ListNotations.
Local Open Scope res_scope.
Local Open Scope string_scope.

(** * Strings *)
Lemma sapp_assoc : forall a b c : string, (a ++ b) ++ c = a ++ (b ++ c).
Proof. induction a; cbn; intros; [reflexivity|now rewrite IHa]. Qed.
Lemma sapp_nil : forall a, a ++ "" = a.
Proof. induction a; cbn; [reflexivity|now rewrite IHa]. Qed.
Lemma no_percent_app : forall a b, no_percent (a ++ b) <-> no_percent a /\ no_percent b.
Proof. induction a; cbn; intros; [tauto|]. rewrite IHa. tauto. Qed.
Lemma no_percent_concat : forall sep l, no_percent sep -> Forall no_percent l -> no_percent (String.concat sep l).
Proof.
  intros sep l S F. induction F as [|x l X F IH]; cbn; [exact I|].
  destruct l; [exact X|]. rewrite !no_percent_app. auto.
Qed.
Lemma trim_app : forall s, exists w, spaces w /\ s = trim s ++ w.
Proof.
  induction s as [|c s (w & W & E)]; [exists ""; split; [constructor|reflexivity]|].
  cbn. destruct (trim s) eqn:T.
  - destruct (Ascii.eqb_spec c " ") as [->|N].
    + exists (" " ++ w). cbn in E. subst s. split; [now constructor|reflexivity].
    + exists w. split; [exact W|]. cbn in *. now rewrite E.
  - exists w. split; [exact W|]. rewrite E at 1. reflexivity.
Qed.
Lemma trim_end : forall s x, trim s <> x ++ " ".
Proof.
  assert (N : forall c t x, t <> "" -> (forall y, t <> y ++ " ") -> String c t <> x ++ " ").
  { intros c t x T H E. destruct x as [|c' x]; cbn in E; injection E as -> E'; [now apply T|now apply (H x)]. }
  induction s as [|c s IH]; intros x; [destruct x; discriminate|].
  cbn. destruct (trim s) eqn:T.
  - destruct (Ascii.eqb_spec c " ") as [->|C]; [destruct x; discriminate|].
    intros E. destruct x as [|c' x]; cbn in E; [injection E as E1; now apply C|injection E as E1 E2; destruct x; discriminate].
  - apply N; [discriminate|exact IH].
Qed.
Lemma trim_trimmed : forall s, trimmed s (trim s).
Proof. intros s. split; [intros (x & E); exact (trim_end s x E)|exact (trim_app s)]. Qed.
Lemma no_percent_trim : forall s, no_percent s -> no_percent (trim s).
Proof. intros s H. destruct (trim_app s) as (w & _ & E). rewrite E in H. apply no_percent_app in H. tauto. Qed.

Lemma fmt_lit : forall s f args, no_percent s -> fmt (s ++ f) args = do x <- fmt f args; Ret (s ++ x).
Proof.
  induction s as [|c s IH]; intros f args H; cbn [append].
  - cbn. destruct (fmt f args); reflexivity.
  - destruct H as [C H]. cbn [fmt]. destruct (Ascii.eqb_spec c "%") as [E|_]; [now elim C|].
    rewrite (IH f args H). cbn. destruct (fmt f args); reflexivity.
Qed.
Lemma fmt_text : forall s args, no_percent s -> fmt s args = Ret s.
Proof. intros s args H. rewrite <- (sapp_nil s) at 1. rewrite (fmt_lit s "" args H). cbn. now rewrite sapp_nil. Qed.
Lemma fmt_hole : forall a b x r, no_percent a -> no_percent b -> fmt (a ++ "%s" ++ b) (Some x :: r) = Ret (a ++ x ++ b).
Proof. intros a b x r A B. rewrite (fmt_lit a _ _ A). cbn. now rewrite (fmt_text b r B). Qed.
Lemma fmt_call : forall a b x y, no_percent a -> no_percent b ->
  fmt ((a ++ "%s" ++ b) ++ "(%s)") [Some x; Some y] = Ret (a ++ x ++ b ++ "(" ++ y ++ ")").
Proof.
  intros a b x y A B. rewrite !sapp_assoc. rewrite (fmt_lit a _ _ A). cbn [append fmt Ascii.eqb Bool.eqb bind].
  rewrite (fmt_lit b _ _ B). cbn. reflexivity.
Qed.
Lemma no_percent_uint : forall u, no_percent (NilEmpty.string_of_uint u).
Proof. induction u; cbn; try (split; [discriminate|exact IHu]); exact I. Qed.
Lemma no_percent_dec : forall z, no_percent (dec z).
Proof.
  intros z. unfold dec, NilZero.string_of_int.
  assert (U : forall u, no_percent (NilZero.string_of_uint u)).
  { intros u. unfold NilZero.string_of_uint. destruct u; try apply no_percent_uint; cbn; (split; [discriminate|exact I]). }
  destruct (Z.to_int z); [apply U|]. cbn. split; [discriminate|apply U].
Qed.

Ltac norm := repeat (progress (rewrite ?sapp_nil, ?sapp_assoc; cbn [append])).

(** * What comes before and after the place holder *)
Definition field_name (n : option string) (b : option Z) : string :=
  match n with None => "" | Some x => match b with None => x | Some k => x ++ ":" ++ dec k end end.
Definition enum_text (l : list (string * Z)) : string := String.concat " " (map (fun p => fst p ++ " = " ++ dec (snd p) ++ ",") l).
Definition arr_text (n : option Z) : string := "[" ++ match n with Some z => dec z | None => "" end ++ "]".
Definition put (p : string * string) (h : string) : string := fst p ++ h ++ snd p.
Fixpoint parts (T : ctype) : string * string :=
  match T with
  | TVoid => ("void ", "")
  | TName n => (n ++ " ", "")
  | TEnum n => ("enum " ++ n ++ " ", "")
  | TAnonEnum l => ("enum {" ++ enum_text l ++ "} ", "")
  | TAggr u n => (aggr_word u ++ " " ++ n ++ " ", "")
  | TAnonAggr u fs =>
      (aggr_word u ++ " {" ++
       String.concat "" ((fix go l := match l with [] => [] | (T, n, b) :: r => (trim (put (parts T) (field_name n b)) ++ "; ") :: go r end) fs)
       ++ "} ", "")
  | TQual q (TPtr _ as T) => (fst (parts T) ++ qual_word q ++ " ", snd (parts T))
  | TQual q T => (qual_word q ++ " " ++ fst (parts T), snd (parts T))
  | TPtr T => (fst (parts T) ++ "* ", snd (parts T))
  | TArr n T => (fst (parts T), arr_text n ++ snd (parts T))
  | TFun T ps =>
      (fst (parts T) ++ "(",
       ")" ++ snd (parts T) ++ "(" ++
       String.concat ", " ((fix go l := match l with [] => [] | None :: r => "..." :: go r
                                                 | Some T :: r => trim (put (parts T) "") :: go r end) ps) ++ ")")
  end.
Definition field_texts (fs : list (ctype * option string * option Z)) : list string :=
  map (fun f => let '(T, n, b) := f in trim (put (parts T) (field_name n b)) ++ "; ") fs.
Definition param_texts (ps : list (option (ctype * string))) : list string :=
  map (fun p => match p with None => "..." | Some (T, h) => trim (put (parts T) h) end) ps.
Definition nameless (ps : list (option ctype)) : list (option (ctype * string)) := map (option_map (fun T => (T, ""))) ps.
Lemma parts_aggr : forall u fs, parts (TAnonAggr u fs) = (aggr_word u ++ " {" ++ String.concat "" (field_texts fs) ++ "} ", "").
Proof.
  intros u fs. cbn [parts]. f_equal. f_equal. f_equal. f_equal. f_equal.
  induction fs as [|[[T n] b] fs IH]; [reflexivity|]. cbn [field_texts map]. f_equal. exact IH.
Qed.
Lemma parts_fun : forall T ps, parts (TFun T ps) =
  (fst (parts T) ++ "(", ")" ++ snd (parts T) ++ "(" ++ String.concat ", " (param_texts (nameless ps)) ++ ")").
Proof.
  intros T ps. cbn [parts]. do 2 f_equal. f_equal. f_equal. f_equal. f_equal.
  induction ps as [|[p|] ps IH]; [reflexivity| |]; cbn [nameless map option_map param_texts]; f_equal; exact IH.
Qed.
Lemma parts_qual : forall q T, parts (TQual q T) =
  if match T with TPtr _ => true | _ => false end then (fst (parts T) ++ qual_word q ++ " ", snd (parts T))
  else (qual_word q ++ " " ++ fst (parts T), snd (parts T)).
Proof. intros q T. destruct T; reflexivity. Qed.

Definition text (T : ctype) : string := put (parts T) "%s".

Scheme is_type_mut := Induction for is_type Sort Prop
  with are_fields_mut := Induction for are_fields Sort Prop
  with are_params_mut := Induction for are_params Sort Prop.
Combined Scheme types_ind from is_type_mut, are_fields_mut, are_params_mut.

Lemma no_percent_word : forall q, no_percent (qual_word q).
Proof. destruct q; cbn; repeat split; discriminate. Qed.
Lemma no_percent_aggr : forall u, no_percent (aggr_word u).
Proof. destruct u; cbn; repeat split; discriminate. Qed.
Lemma percent_concat0 : forall l, Forall no_percent l -> no_percent (String.concat "" l).
Proof. intros. apply no_percent_concat; [exact I|assumption]. Qed.

Section Clean.
Variable d : db.
Hypothesis DB : forall r, clean (d r).
Definition clean_ptr (p : option eptr) : Prop := match p with None => True | Some e => clean (deref d e) end.
Lemma clean_lift : forall t, clean_ptr (lift t).
Proof. intros [r|]; cbn; [apply DB|exact I]. Qed.

Definition clean_parts (T : ctype) : Prop := no_percent (fst (parts T)) /\ no_percent (snd (parts T)).
Ltac np := rewrite ?no_percent_app; cbn [no_percent]; repeat split; auto using no_percent_word, no_percent_aggr, no_percent_dec; try discriminate.
Lemma no_percent_field : forall n b, (forall x, n = Some x -> no_percent x) -> no_percent (field_name n b).
Proof. intros [x|] b H; [|exact I]. specialize (H x eq_refl). destruct b; cbn; [np|exact H]. Qed.
Lemma types_clean :
  (forall p T, is_type d p T -> clean_ptr p -> clean_parts T) /\
  (forall l fs, are_fields d l fs -> Forall no_percent (field_texts fs)) /\
  (forall l ps, are_params d l ps -> Forall no_percent (param_texts ps) /\ Forall no_percent (param_texts (nameless (map (option_map fst) ps)))).
Proof.
  apply (types_ind d
    (fun p T _ => clean_ptr p -> clean_parts T)
    (fun l fs _ => Forall no_percent (field_texts fs))
    (fun l ps _ => Forall no_percent (param_texts ps) /\ Forall no_percent (param_texts (nameless (map (option_map fst) ps)))));
    intros; unfold clean_parts.
  - cbn. np.
  - destruct H as [H _]. specialize (H _ e). cbn. np.
  - destruct H as [H _]. specialize (H _ e). cbn. np.
  - destruct H as [H _]. specialize (H _ e). cbn [parts fst snd]. np.
  - destruct H as [_ H]. cbn [parts fst snd]. np. unfold enum_text. apply no_percent_concat; [np|].
    apply Forall_forall. intros x X. apply in_map_iff in X. destruct X as ([n v] & <- & X).
    assert (N : no_percent n).
    { apply (H _ _ n v e0). subst l. apply in_map_iff. exists (n, v). auto. }
    cbn [fst snd]. np.
  - destruct H as [H _]. specialize (H _ e). cbn [parts fst snd]. np.
  - destruct H as [H _]. specialize (H _ e). cbn [parts fst snd]. np.
  - rewrite parts_aggr. cbn [fst snd]. np. now apply percent_concat0.
  - rewrite parts_aggr. cbn [fst snd]. np. now apply percent_concat0.
  - destruct (H (clean_lift t)) as [A B]. rewrite parts_qual.
    destruct (match T with TPtr _ => true | _ => false end); cbn [fst snd]; np.
  - destruct (H (clean_lift t)) as [A B]. cbn [parts fst snd]. np.
  - destruct (H (clean_lift t)) as [A B]. cbn [parts fst snd]. np. unfold arr_text. destruct (n <? 0)%Z; np.
  - destruct (H (clean_lift t)) as [A B]. destruct H0 as [_ C]. rewrite parts_fun. cbn [fst snd]. np.
    apply no_percent_concat; [np|exact C].
  - constructor.
  - constructor; [|exact H0]. destruct (H (clean_lift _)) as [A B]. np. apply no_percent_trim. unfold put. np.
    apply no_percent_field. intros x X. exact (proj1 (DB r) _ X).
  - split; constructor.
  - destruct H. split; (constructor; [np|assumption]).
  - destruct (H (DB t)) as [A B]. destruct H0. split; (constructor; [apply no_percent_trim; unfold put; np|assumption]).
    destruct (e_name (d r)) eqn:N; [exact (proj1 (DB r) _ N)|exact I].
Qed.

(** * Evaluation at every fuel *)
Lemma evals_ret : forall A (a : A), returns (fun _ => Ret a) a.
Proof. split; [auto|exists O; auto]. Qed.
Lemma evals_bind : forall A B (f : nat -> res A) a (h : nat -> A -> res B) b,
  returns f a -> returns (fun k => h k a) b -> returns (fun k => do x <- f k; h k x) b.
Proof.
  intros A B f a h b [F (n & N)] [H (n' & N')]. split.
  - intros k. destruct (F k) as [-> | ->]; cbn; auto.
  - exists (Nat.max n n'). intros k K. rewrite N by lia. cbn. apply N'. lia.
Qed.
Lemma evals_ext : forall A (f h : nat -> res A) a, (forall k, h k = f k) -> returns f a -> returns h a.
Proof. intros A f h a X [F (n & N)]. split; [|exists n]; intros; rewrite X; auto. Qed.
Lemma evals_S : forall A (f : nat -> res A) a, f O = OutOfFuel -> returns (fun k => f (S k)) a -> returns f a.
Proof.
  intros A f a Z [F (n & N)]. split; [intros [|k]; auto|]. exists (S n). intros [|k] K; [lia|]. apply N. lia.
Qed.

Definition sub (k : nat) (t : option eptr) : res (option string) :=
  match t with None => Ret (Some "void %s") | Some e => cdecl k d e end.
Lemma sub_lift : forall k t, match t with None => Ret (Some "void %s") | Some r => cdecl k d (St r) end = sub k (lift t).
Proof. intros k [r|]; reflexivity. Qed.

Lemma concat_cons : forall sep x l, String.concat sep (x :: l) = x ++ match l with [] => "" | _ => sep ++ String.concat sep l end.
Proof. intros sep x [|y l]; cbn; [now rewrite sapp_nil|reflexivity]. Qed.
Lemma enumerators_text : forall l acc,
  enumerators (map (fun x => (Some (fst x), snd x)) l) acc =
  Ret (match l with [] => acc | _ => Some (match acc with None => "" | Some s => s ++ " " end ++ enum_text l) end).
Proof.
  induction l as [|[n v] l IH]; intros acc; [reflexivity|].
  cbn [map enumerators fst snd]. cbn [fmt Ascii.eqb Bool.eqb bind append].
  rewrite IH. f_equal. unfold enum_text. cbn [map fst snd]. rewrite concat_cons.
  set (c := String.concat " " (map _ l)).
  destruct acc as [s|]; destruct l as [|[n2 v2] l]; cbn [map fst snd append]; f_equal;
    norm; reflexivity.
Qed.

(** the patterns computed for the fields or parameters of the list *)
Definition field_pats (l : list ref) (fs : list (ctype * option string * option Z)) : list (minfo * option string * option string) :=
  map (fun p => (match e_info (d (fst p)) with IMember m => m | _ => Build_minfo None None 0 None None None end,
                 snd (fst (snd p)), Some (text (fst (fst (snd p)))))) (combine l fs).
Lemma fields_text : forall l fs, are_fields d l fs -> forall acc,
  fields (field_pats l fs) acc =
  Ret (Some (match fs with [] => acc | _ => Some (match acc with None => "" | Some s => s end ++ String.concat "" (field_texts fs)) end)).
Proof.
  intros l fs H. induction H as [|r m T l fs I HT HF IH]; intros acc; [reflexivity|].
  destruct (proj1 types_clean _ _ HT (clean_lift _)) as [A B].
  assert (N : match e_name (d r) with
              | None => Ret None
              | Some x => match m_bit_size m with
                          | Some b => do y <- fmt "%s:%s" [Some x; Some (dec b)]; Ret (Some y)
                          | None => do y <- fmt "%s" [Some x]; Ret (Some y)
                          end
              end = Ret (match e_name (d r) with None => None | Some x => Some (field_name (Some x) (m_bit_size m)) end)).
  { destruct (e_name (d r)) as [x|]; [|reflexivity]. destruct (m_bit_size m) as [b|]; cbn; rewrite sapp_nil; reflexivity. }
  cbn [field_pats combine map fst snd]. unfold field_pats in *. rewrite I. cbn [fields]. rewrite N. cbn [bind].
  replace (match match e_name (d r) with None => None | Some x => Some (field_name (Some x) (m_bit_size m)) end with
           | Some y => y | None => "" end) with (field_name (e_name (d r)) (m_bit_size m)) by (destruct (e_name (d r)); reflexivity).
  unfold text, put at 1. rewrite (fmt_hole _ _ _ _ A B). cbn [bind].
  change (fst (parts T) ++ field_name (e_name (d r)) (m_bit_size m) ++ snd (parts T)) with (put (parts T) (field_name (e_name (d r)) (m_bit_size m))).
  cbn [fmt Ascii.eqb Bool.eqb bind append]. rewrite IH. f_equal. f_equal.
  cbn [field_texts map]. rewrite concat_cons.
  destruct acc, fs; cbn [field_texts map append]; norm; reflexivity.
Qed.
Definition param_pats (ps : list (option (ctype * string))) : list (option (option (string * string))) :=
  map (fun p => Some (option_map (fun x => (text (fst x), snd x)) p)) ps.
Lemma params_text : forall ps, Forall (fun p => match p with None => True | Some (T, _) => clean_parts T end) ps -> forall acc,
  params (param_pats ps) acc =
  Ret (Some (match ps with [] => acc | _ => Some (match acc with None => "" | Some s => s ++ ", " end ++ String.concat ", " (param_texts ps)) end)).
Proof.
  intros ps H. induction H as [|p ps P F IH]; intros acc; [reflexivity|].
  cbn [param_pats map params]. unfold param_pats in IH.
  set (t := match p with None => "..." | Some (T, h) => trim (put (parts T) h) end).
  assert (X : (match option_map (fun x => (text (fst x), snd x)) p with
               | Some (pat, name) => do f <- fmt pat [Some name]; Ret (trim f)
               | None => Ret "..."
               end) = Ret t).
  { destruct p as [[T h]|]; [|reflexivity]. destruct P as [A B]. cbn [option_map fst snd].
    unfold text, put at 1. rewrite (fmt_hole _ _ _ _ A B). reflexivity. }
  rewrite X. cbn [bind]. cbn [fmt Ascii.eqb Bool.eqb bind append]. rewrite IH. f_equal. f_equal.
  cbn [param_texts map]. rewrite concat_cons. fold t.
  destruct acc, ps; cbn [param_texts map append]; norm; reflexivity.
Qed.

Lemma params_clean : forall l ps, are_params d l ps ->
  Forall (fun p => match p with None => True | Some (T, _) => clean_parts T end) ps.
Proof.
  intros l ps H. induction H; constructor; auto. exact (proj1 types_clean _ _ H0 (DB t)).
Qed.
Lemma nameless_clean : forall ps, Forall (fun p : option (ctype * string) => match p with None => True | Some (T, _) => clean_parts T end) ps ->
  Forall (fun p : option (ctype * string) => match p with None => True | Some (T, _) => clean_parts T end) (nameless (map (option_map fst) ps)).
Proof. intros ps H. induction H as [|p ps P F IH]; constructor; auto. destruct p as [[T h]|]; exact P. Qed.

Definition param_of (named : bool) (k : nat) (r : ref) : res (option (option (string * string))) :=
  match e_info (d r) with
  | IParam true _ => Ret (Some None)
  | IParam false None => Ret None
  | IParam false (Some t) =>
      do s <- cdecl k d (St t);
      Ret (match s with
           | None => None
           | Some pat => Some (Some (pat, if named then match e_name (d r) with Some n => n | None => "" end else ""))
           end)
  | _ => Abort
  end.
Definition field_of (k : nat) (r : ref) : res (minfo * option string * option string) :=
  match e_info (d r) with
  | IMember m => do s <- match m_type m with None => Ret (Some "void %s") | Some r => cdecl k d (St r) end; Ret (m, e_name (d r), s)
  | _ => Ub
  end.

Lemma types_eval :
  (forall p T, is_type d p T -> clean_ptr p -> returns (fun k => sub k p) (Some (text T))) /\
  (forall l fs, are_fields d l fs -> returns (fun k => collect (field_of k) l) (field_pats l fs)) /\
  (forall l ps, are_params d l ps ->
     returns (fun k => collect (param_of true k) l) (param_pats ps) /\
     returns (fun k => collect (param_of false k) l) (param_pats (nameless (map (option_map fst) ps)))).
Proof.
  assert (IT : forall p T, is_type d (lift p) T -> clean_parts T).
  { intros p T H. exact (proj1 types_clean _ _ H (clean_lift p)). }
  assert (BODY : forall p (a : option string), returns (fun k => cdecl (S k) d p) a -> returns (fun k => sub k (Some p)) a).
  { intros p a H. cbn [sub]. apply (evals_S _ (fun k => cdecl k d p)); [reflexivity|exact H]. }
  apply (types_ind d
    (fun p T _ => clean_ptr p -> returns (fun k => sub k p) (Some (text T)))
    (fun l fs _ => returns (fun k => collect (field_of k) l) (field_pats l fs))
    (fun l ps _ => returns (fun k => collect (param_of true k) l) (param_pats ps) /\
                   returns (fun k => collect (param_of false k) l) (param_pats (nameless (map (option_map fst) ps)))));
    intros; unfold clean_parts.
  - cbn. apply evals_ret.
  - apply BODY. eapply evals_ext; [intros k; cbn [cdecl]; rewrite e, e0; reflexivity|].
    cbn. unfold text, put. cbn. norm; apply evals_ret.
  - apply BODY. eapply evals_ext; [intros k; cbn [cdecl]; rewrite e, e0; reflexivity|].
    cbn. unfold text, put. cbn. norm; apply evals_ret.
  - apply BODY. eapply evals_ext; [intros k; cbn [cdecl]; rewrite e, e0; reflexivity|].
    cbn. unfold text, put. cbn. norm; apply evals_ret.
  - apply BODY. subst l. eapply evals_ext; [intros k; cbn [cdecl]; rewrite e, e0; reflexivity|].
    rewrite enumerators_text. cbn. unfold text, put. destruct l'; cbn [parts fst snd append]; norm; apply evals_ret.
  - apply BODY. eapply evals_ext; [intros k; cbn [cdecl]; rewrite e, e0; reflexivity|].
    cbn. unfold text, put. cbn. norm; apply evals_ret.
  - apply BODY. eapply evals_ext; [intros k; cbn [cdecl]; rewrite e, e0; reflexivity|].
    cbn. unfold text, put. cbn. norm; apply evals_ret.
  - apply BODY. eapply evals_ext; [intros k; cbn [cdecl]; rewrite e, e0; reflexivity|].
    eapply evals_bind; [exact H|]. rewrite (fields_text _ _ a). cbn [bind]. unfold text, put. rewrite parts_aggr.
    destruct fs; cbn; norm; apply evals_ret.
  - apply BODY. eapply evals_ext; [intros k; cbn [cdecl]; rewrite e, e0; reflexivity|].
    eapply evals_bind; [exact H|]. rewrite (fields_text _ _ a). cbn [bind]. unfold text, put. rewrite parts_aggr.
    destruct fs; cbn; norm; apply evals_ret.
  - destruct (IT _ _ i) as [A B]. apply BODY.
    eapply evals_ext; [intros k; cbn [cdecl]; rewrite e; rewrite (sub_lift k t); reflexivity|].
    eapply evals_bind; [exact (H (clean_lift t))|]. cbv beta iota.
    change (text (TQual q T)) with (put (parts (TQual q T)) "%s"). rewrite parts_qual. unfold put.
    assert (Q : qual_str q = qual_word q ++ " %s") by (destruct q; reflexivity).
    assert (N : no_percent (qual_word q ++ " ")) by (apply no_percent_app; split; [apply no_percent_word|cbn; repeat split; discriminate]).
    assert (S : fmt (qual_str q) [Some (text T)] = Ret (qual_word q ++ " " ++ text T)).
    { rewrite Q. replace (qual_word q ++ " %s") with ((qual_word q ++ " ") ++ "%s" ++ "") by (rewrite sapp_assoc; reflexivity).
      rewrite fmt_hole; [|exact N|exact I]. now rewrite sapp_nil, sapp_assoc. }
    assert (P : match T with TPtr _ => True | _ => False end -> fmt (text T) [Some (qual_str q)] = Ret (fst (parts T) ++ (qual_word q ++ " ") ++ "%s" ++ snd (parts T))).
    { intros _. unfold text, put. rewrite fmt_hole by assumption. rewrite Q. now rewrite !sapp_assoc. }
    inversion i as [E1 E2|p0 ? ? ? X E1 E2|p0 ? ? ? ? X E1 E2|p0 ? ? ? ? X E1 E2|p0 ? ? ? ? X Y E1 E2|p0 ? ? ? ? X E1 E2|p0 ? ? ? ? X E1 E2|p0 ? ? ? ? X Y E1 E2|p0 ? ? ? ? X Y E1 E2|p0 ? ? ? X Y E1 E2|p0 ? ? X Y E1 E2|p0 ? ? ? X Y E1 E2|p0 ? ? ? ? X Y Y2 E1 E2];
      destruct t as [r|]; try discriminate E1; try (injection E1 as ->; cbn [deref] in X; rewrite X); subst T;
      cbv beta iota; rewrite ?S, ?(P I); cbn [bind fst snd]; unfold text, put; norm; apply evals_ret.
  - destruct (IT _ _ i) as [A B]. apply BODY.
    eapply evals_ext; [intros k; cbn [cdecl]; rewrite e; rewrite (sub_lift k t); reflexivity|].
    eapply evals_bind; [exact (H (clean_lift t))|]. cbv beta iota. unfold text, put. rewrite fmt_hole by assumption.
    cbn [bind parts fst snd]. norm; apply evals_ret.
  - destruct (IT _ _ i) as [A B]. apply BODY.
    eapply evals_ext; [intros k; cbn [cdecl]; rewrite e; rewrite (sub_lift k t); reflexivity|].
    eapply evals_bind; [exact (H (clean_lift t))|]. cbv beta iota.
    rewrite <- (Z.ltb_antisym n 0) || idtac.
    assert (X : (if (0 <=? n)%Z then fmt "%%s[%s]" [Some (dec n)] else Ret "%s[]") = Ret ("%s" ++ arr_text (if (n <? 0)%Z then None else Some n))).
    { destruct (Z.leb_spec 0 n), (Z.ltb_spec n 0); try lia; cbn; reflexivity. }
    rewrite X. cbn [bind]. unfold text, put. rewrite fmt_hole by assumption. cbn [bind parts fst snd].
    norm; apply evals_ret.
  - destruct (IT _ _ i) as [A B]. apply BODY.
    eapply evals_ext; [intros k; cbn [cdecl]; rewrite e; rewrite (sub_lift k t); reflexivity|].
    eapply evals_bind; [exact (H (clean_lift t))|].
    eapply evals_bind; [exact (proj2 H0)|]. cbv beta iota.
    rewrite (params_text _ (nameless_clean _ (params_clean _ _ a))). cbn [bind].
    assert (F : fmt "%s(%s)" [Some (text T); Some "%s"] = Ret (text T ++ "(%s)")) by (cbn; reflexivity).
    rewrite F. cbn [bind]. unfold text, put. rewrite fmt_call by assumption. cbn [bind]. rewrite parts_fun. cbn [fst snd].
    destruct ps; cbn [map nameless append]; norm; apply evals_ret.
  - cbn. apply evals_ret.
  - cbn [collect]. eapply evals_bind.
    + unfold field_of at 1. rewrite e. eapply evals_ext; [intros k; rewrite (sub_lift k (m_type m)); reflexivity|].
      eapply evals_bind; [exact (H (clean_lift _))|apply evals_ret].
    + eapply evals_bind; [exact H0|]. unfold field_pats. cbn [combine map fst snd]. rewrite e. apply evals_ret.
  - cbn. split; apply evals_ret.
  - cbn [collect]. destruct H as [X Y]. split; (eapply evals_bind; [unfold param_of at 1; rewrite e; apply evals_ret|]);
      (eapply evals_bind; [eassumption|apply evals_ret]).
  - cbn [collect]. destruct H0 as [X Y]. specialize (H (DB t)).
    split; (eapply evals_bind;
            [unfold param_of at 1; rewrite e; eapply evals_bind; [exact H|apply evals_ret]|
             eapply evals_bind; [eassumption|apply evals_ret]]).
Qed.
End Clean.

From Coq Require Import ZArith String Ascii List Bool Lia Sorted Permutation.
From Verif Require Import Base EntryModel EntrySpec EntryProof TplModel TplSpec TplProof TplProof2.
From Verif Require MetadbModel MetadbProof MetadbProof6.
Import ListNotations.
Open Scope string_scope.
Open Scope list_scope.
Open Scope Z_scope.

(** ** Keys of the requests *)
Lemma every_app : forall f a b, every f (a ++ b) = (every f a && every f b)%bool.
Proof. induction a; cbn; intros; auto. rewrite IHa, andb_assoc. reflexivity. Qed.
Lemma every_no : forall f c s, f c = false -> every f s = true -> MetadbProof.no c s = true.
Proof.
  intros f c s F. induction s as [|d s IH]; intros H; [reflexivity|]. cbn in H. apply andb_true_iff in H. destruct H as [A B].
  rewrite MetadbProof.no_cons. rewrite IH by auto. destruct (Ascii.eqb_spec c d) as [->|N]; [congruence|]. try (destruct (Ascii.eqb_spec d c); [congruence|]). reflexivity.
Qed.
Lemma key_inj : forall p q a b, ident a -> ident b -> loc_and_name p a = loc_and_name q b -> p = q /\ a = b.
Proof.
  intros [f l] [g k] a b A B E. unfold loc_and_name in E. cbn [fst snd] in E.
  assert (N : forall s, ident s -> MetadbProof.no " "%char s = true) by (intros s; apply every_no; reflexivity).
  rewrite <- !sapp_assoc in E. rewrite (sapp_assoc _ " " a), (sapp_assoc _ " " b) in E.
  change (" " ++ a)%string with (String " " a) in E. change (" " ++ b)%string with (String " " b) in E.
  apply MetadbProof6.last_split in E; auto. destruct E as [E ->]. rewrite !sapp_assoc in E.
  change (":" ++ MetadbModel.dec l)%string with (String ":" (MetadbModel.dec l)) in E. change (":" ++ MetadbModel.dec k)%string with (String ":" (MetadbModel.dec k)) in E.
  apply MetadbProof6.last_split in E; try (apply MetadbProof.dec_no; reflexivity). destruct E as [-> E]. apply MetadbProof.dec_inj in E. subst. auto.
Qed.
Definition key (r : request) : string := loc_and_name (place (rq_item r)) (rq_name r).

(** ** All requests *)
Definition tidy_scope (h : list item) : Prop :=
  NoDup (map i_id (filter object h)) /\
  forall i, In i h -> clean_path (at_file i) /\ forall n, object i = true -> i_name i = Some n -> ident n.
Definition good (r : request) : Prop :=
  clean_path (fst (place (rq_item r))) /\ (exists n, i_name (rq_item r) = Some n /\ ident n) /\ tidy_scope (rq_siblings r).
Definition loc_of (r : request) : string := match i_name (rq_item r) with Some n => to_json n | None => "null" end.
Definition contrib (f l n : string) (r : request) : list string :=
  if (String.eqb f (fst (place (rq_item r))) && String.eqb l (loc_of r))%bool
  then map fst (filter (fun '(_, x) => String.eqb n x) (siblings (place (rq_item r)) (rq_siblings r))) else [].
Lemma siblings_ident : forall p h id n, tidy_scope h -> In (id, n) (siblings p h) -> exists s, n = to_json s /\ ident s.
Proof.
  intros p h id n [D T] I. unfold siblings in I. eapply Permutation_in in I; [|apply siblings_perm; cbn; exact D].
  cbn in I. apply in_map_iff in I. destruct I as [i [E I]]. apply filter_In in I. destruct I as [I S]. unfold entry_of in E. injection E as _ E.
  unfold sib in S. apply andb_true_iff in S. destruct S as [S N]. apply andb_true_iff in S. destruct S as [O _]. destruct (i_name i) as [s|] eqn:X; [|discriminate].
  exists s. split; auto. eapply T; eauto.
Qed.
Lemma add_requests : forall rs seen edb, wf1 edb -> ordered seen -> (forall r, In r rs -> good r) ->
  match fold_left add_request rs (Some (seen, edb)) with
  | None => ~ (NoDup (map key rs) /\ forall r, In r rs -> has seen (key r) = false)
  | Some (_, edb') => NoDup (map key rs) /\ (forall r, In r rs -> has seen (key r) = false) /\ wf1 edb' /\
                      forall f l n, get3 edb' f l n = get3 edb f l n ++ flat_map (contrib f l n) rs
  end.
Proof.
  assert (F : forall rs, fold_left add_request rs None = None) by (induction rs; auto).
  induction rs as [|r rs IH]; intros seen edb W O G; cbn [fold_left].
  - cbn. split; [constructor|]. split; [intros r []|]. split; auto. intros. rewrite app_nil_r. reflexivity.
  - unfold add_request at 2. fold (key r). destruct (has seen (key r)) eqn:H.
    + rewrite F. intros [_ K]. rewrite (K r (or_introl eq_refl)) in H. discriminate.
    + destruct (G r (or_introl eq_refl)) as (C & (n & N & J) & T).
      assert (X := add_entries (fst (place (rq_item r))) n (siblings (place (rq_item r)) (rq_siblings r)) edb W C J (fun id s I => siblings_ident _ _ id s T I)).
      rewrite N. cbn zeta in X. destruct X as [W' X]. specialize (IH (set seen (key r) (rq_name r)) _ W' (set_ordered _ _ _ _ O) (fun x I => G x (or_intror I))).
      assert (HS : forall x, has (set seen (key r) (rq_name r)) (key x) = (String.eqb (key x) (key r) || has seen (key x))%bool).
      { intros x. unfold has. rewrite get_set by auto. destruct (String.eqb (key x) (key r)); reflexivity. }
      destruct (fold_left add_request rs _) as [[s' edb']|].
      * destruct IH as (ND & NS & W2 & GG). cbn [map]. rewrite NoDup_cons_iff. split; [split; auto|split; [|split; auto]].
        -- intros I. apply in_map_iff in I. destruct I as [x [E I]]. specialize (NS x I). rewrite HS, E, String.eqb_refl in NS. discriminate.
        -- intros x [<-|I]; auto. specialize (NS x I). rewrite HS in NS. apply orb_false_iff in NS. apply NS.
        -- intros. rewrite GG, X, <- app_assoc. f_equal. cbn [flat_map]. f_equal. unfold contrib, loc_of. rewrite N. reflexivity.
      * intros [ND NS]. apply IH. cbn [map] in ND. apply NoDup_cons_iff in ND. destruct ND as [NI ND]. split; auto. intros x I.
        rewrite HS, (NS x (or_intror I)), orb_false_r. destruct (String.eqb_spec (key x) (key r)) as [E|]; auto. exfalso. apply NI. rewrite <- E. apply in_map, I.
Qed.

(** ** The printed database *)
Lemma compiled_sorted : forall obj edb, wf1 edb -> sorted_db (compiled obj edb).
Proof.
  intros obj edb [O W]. split.
  - apply ordered_sorted. unfold compiled. apply (ordered_map _ _ escape_path (fun _ dfile => map (fun '(loc, dloc) => (literal loc, map (fun '(name, l) => (literal name, map obj l)) dloc)) dfile)); auto.
    intros k v j w K J. rewrite !escape_clean by (eapply W; eauto). auto.
  - intros f locs I. unfold compiled in I. apply in_map_iff in I. destruct I as [[file dfile] [E I]]. injection E as <- <-. destruct (W _ _ I) as [[O2 W2] _]. split.
    + apply ordered_sorted. apply (ordered_map _ _ literal (fun _ dloc => map (fun '(name, l) => (literal name, map obj l)) dloc)); auto.
      intros k v j w K J. destruct (W2 _ _ K) as [_ [a [-> A]]]. destruct (W2 _ _ J) as [_ [b [-> B]]]. rewrite !literal_json. apply json_order; auto.
    + intros l names L. apply in_map_iff in L. destruct L as [[loc dloc] [E L]]. injection E as <- <-. destruct (W2 _ _ L) as [[O3 W3] _].
      apply ordered_sorted. apply (ordered_map _ _ literal (fun _ l => map obj l)); auto.
      intros k v j w K J. destruct (W3 _ _ K) as [_ [a [-> A]]]. destruct (W3 _ _ J) as [_ [b [-> B]]]. rewrite !literal_json. apply json_order; auto.
Qed.
Lemma compiled_stored : forall obj edb f l n x, wf1 edb ->
  (stored (compiled obj edb) f l n x <-> x <> [] /\ x = map obj (get3 edb f (to_json l) (to_json n))).
Proof.
  intros obj edb f l n x [O W]. split.
  - intros (locs & names & A & B & C). unfold compiled in A. apply in_map_iff in A. destruct A as [[file dfile] [E A]]. injection E as <- <-.
    destruct (W _ _ A) as [[O2 W2] CP]. rewrite (escape_clean _ CP). apply in_map_iff in B. destruct B as [[loc dloc] [E B]]. injection E as <- <-.
    destruct (W2 _ _ B) as [[O3 W3] [a [-> IA]]]. apply in_map_iff in C. destruct C as [[name ids] [E C]]. injection E as <- <-.
    destruct (W3 _ _ C) as [NE [b [-> IB]]]. rewrite !literal_json. apply get_in in A; auto. apply get_in in B; auto. apply get_in in C; auto.
    assert (G3 : get3 edb file (to_json a) (to_json b) = ids).
    { unfold get3. change (@get (dict (dict (list string))) edb file = Some dfile) in A. change (@get (dict (list string)) dfile (to_json a) = Some dloc) in B.
      rewrite A. cbv iota beta. rewrite B. cbv iota beta. rewrite C. reflexivity. }
    rewrite G3. split; auto. intros E. apply map_eq_nil in E. exact (NE E).
  - intros [NE ->]. unfold get3 in *. destruct (get edb f) as [a|] eqn:A; [|exfalso; apply NE; reflexivity]. destruct (get a (to_json l)) as [b|] eqn:B; [|exfalso; apply NE; reflexivity].
    destruct (get b (to_json n)) as [c|] eqn:C; [|exfalso; apply NE; reflexivity]. apply get_in in A; auto. destruct (W _ _ A) as [[O2 W2] CP]. apply get_in in B; auto.
    destruct (W2 _ _ B) as [[O3 W3] _]. apply get_in in C; auto.
    exists (map (fun '(loc, dloc) => (literal loc, map (fun '(name, l) => (literal name, map obj l)) dloc)) a), (map (fun '(name, l) => (literal name, map obj l)) b). repeat split.
    + rewrite <- (escape_clean f CP). unfold compiled. apply (in_map (fun '(file, dfile) => (escape_path file, map (fun '(loc, dloc) => (literal loc, map (fun '(name, l) => (literal name, map obj l)) dloc)) dfile)) _ _ A).
    + rewrite <- (literal_json l) at 1. apply (in_map (fun '(loc, dloc) => (literal loc, map (fun '(name, l) => (literal name, map obj l)) dloc)) _ _ B).
    + rewrite <- (literal_json n) at 1. apply (in_map (fun '(name, l) => (literal name, map obj l)) _ _ C).
Qed.
Lemma lookup_get3 : forall obj edb f l n, wf1 edb ->
  entry_from_entry_db (compiled obj edb) f l n = Ret (option_map obj (the_one (get3 edb f (to_json l) (to_json n)))).
Proof.
  intros obj edb f l n W. destruct (entry_db_spec (compiled obj edb) f l n (compiled_sorted obj edb W)) as [r [E R]]. rewrite E. f_equal.
  setoid_rewrite (compiled_stored obj edb f l n) in R; auto. destruct (get3 edb f (to_json l) (to_json n)) as [|x [|y t]]; cbn [the_one option_map map] in *.
  - destruct r as [x|]; auto. destruct (proj1 (R x) eq_refl) as [_ H]. discriminate.
  - apply R. split; [discriminate|reflexivity].
  - destruct r as [z|]; auto. destruct (proj1 (R z) eq_refl) as [_ H]. discriminate.
Qed.

(** ** What a request contributes *)
Lemma json_eqb : forall a b, String.eqb (to_json a) (to_json b) = String.eqb a b.
Proof. intros. destruct (String.eqb_spec a b) as [->|N]; [apply String.eqb_refl|]. destruct (String.eqb_spec (to_json a) (to_json b)) as [E|]; auto. apply to_json_inj in E. congruence. Qed.
Lemma beside_sib : forall q name h,
  map fst (filter (fun '(_, x) => String.eqb (to_json name) x) (map entry_of (filter (sib (place q)) h))) = map i_id (filter (beside q name) h).
Proof.
  intros q name h. induction h as [|i h IH]; auto. cbn [filter].
  assert (B : beside q name i = (sib (place q) i && named name i)%bool).
  { unfold beside, sib, named, same_place, place, at_file, at_line. cbn [fst snd]. destruct (object i); auto. cbn [andb]. destruct (i_name i) as [n|]; [|rewrite andb_false_r; reflexivity].
    rewrite andb_true_r. rewrite (eqb_sym (match i_file i with Some f => f | None => "" end)). rewrite (Z.eqb_sym (match i_line i with Some f => f | None => -1 end)).
    rewrite <- andb_assoc, andb_comm. reflexivity. }
  rewrite B. destruct (sib (place q) i) eqn:S; cbn [andb]; auto. cbn [map filter]. unfold entry_of at 1. unfold named at 1.
  assert (exists n, i_name i = Some n) as [n N].
  { unfold sib in S. destruct (i_name i) as [n|]; [eauto|rewrite andb_false_r in S; discriminate]. }
  rewrite N, json_eqb, (eqb_sym name n). destruct (String.eqb n name); cbn [map]; rewrite IH; reflexivity.
Qed.
Lemma filter_perm : forall A (p : A -> bool) l k, Permutation l k -> Permutation (filter p l) (filter p k).
Proof.
  intros A p l k P. induction P; cbn; auto.
  - destruct (p x); auto.
  - destruct (p x), (p y); auto. apply perm_swap.
  - etransitivity; eauto.
Qed.
Lemma contrib_perm : forall f l n r, good r ->
  Permutation (contrib f (to_json l) (to_json n) r)
              (if (String.eqb (at_file (rq_item r)) f && named l (rq_item r))%bool then map i_id (filter (beside (rq_item r) n) (rq_siblings r)) else []).
Proof.
  intros f l n r (C & (x & N & J) & T). unfold contrib, loc_of, named. rewrite N, json_eqb, (eqb_sym l x). change (fst (place (rq_item r))) with (at_file (rq_item r)). rewrite (eqb_sym f).
  destruct (_ && _)%bool; auto. rewrite <- beside_sib. apply Permutation_map, filter_perm. apply (siblings_perm _ _ []). cbn. apply T.
Qed.
Lemma start_entry : forall m, m <> "" -> start_of m "entry" = ("metac__" ++ m ++ "_entry_")%string.
Proof.
  intros m M. unfold start_of, request_prefix. destruct (String.eqb_spec m ""); [congruence|]. rewrite !sapp_assoc. reflexivity.
Qed.
Lemma marker_starts : forall m i, m <> "" -> marker m i = starts (start_of m "entry") i.
Proof. intros m i M. unfold marker, starts. rewrite start_entry by auto. reflexivity. Qed.
Lemma flat_map_ext' : forall A B (f g : A -> list B) l, (forall x, In x l -> f x = g x) -> flat_map f l = flat_map g l.
Proof. induction l as [|x l IH]; cbn; intros H; auto. rewrite H, IH; auto. Qed.
Lemma filter_ext' : forall A (f g : A -> bool) l, (forall x, f x = g x) -> filter f l = filter g l.
Proof. intros. apply filter_ext. auto. Qed.
Lemma markers_starts : forall cus m, m <> "" -> markers cus m = flat_map (starters (start_of m "entry")) (scopes cus).
Proof. intros cus m M. unfold markers, starters. apply flat_map_ext. intros h. f_equal. apply filter_ext. intros i. apply marker_starts, M. Qed.
Lemma map_as_flat_map : forall A B C (f : A -> B) (g : B -> list C) l, flat_map g (map f l) = flat_map (fun x => g (f x)) l.
Proof. induction l; cbn; congruence. Qed.
Lemma entry_db_correct : forall cus m obj, tidy cus -> m <> "" -> announced cus m ->
  match entry_db_of m cus with
  | None => ~ markers_apart cus m
  | Some edb => markers_apart cus m /\ forall file loc name,
      entry_from_entry_db (compiled obj edb) file loc name = Ret (option_map obj (the_one (declared cus m file loc name)))
  end.
Proof.
  intros cus m obj T M K. unfold entry_db_of. rewrite module_requests by auto. set (rs := of_type "entry" (requests_of m cus)).
  assert (P : Permutation (map pr rs) (markers cus m)) by (rewrite markers_starts by auto; apply requests_of_type; reflexivity).
  assert (IM : forall r, In r rs -> In (rq_siblings r) (scopes cus) /\ In (rq_item r) (rq_siblings r)).
  { intros r R. assert (Q : In (pr r) (markers cus m)) by (eapply Permutation_in; [exact P|apply in_map, R]). rewrite markers_starts in Q by auto. apply starters_in in Q. tauto. }
  assert (NM : forall r, In r rs -> i_kind (rq_item r) = KVariable /\ i_name (rq_item r) = Some (start_of m "entry" ++ rq_name r)%string).
  { intros r R. unfold rs in R. apply filter_In in R. destruct R as [R E]. apply String.eqb_eq in E. apply requests_of_in in R. destruct R as (_ & A & _ & B). rewrite E in B. auto. }
  assert (G : forall r, In r rs -> good r /\ ident (start_of m "entry" ++ rq_name r)).
  { intros r R. destruct (IM r R) as [A B]. destruct (NM r R) as [C D]. destruct (T _ A) as [N X]. destruct (X _ B) as [Y Z0].
    assert (I : ident (start_of m "entry" ++ rq_name r)) by (apply (Z0 _) in D; auto; unfold object; rewrite C; reflexivity).
    split; auto. split; [exact Y|]. split; [eauto|]. apply T, A. }
  pose proof (add_requests rs [] [] (conj (SSorted_nil _) (fun f x (H : In (f, x) []) => match H with end)) (SSorted_nil _) (fun r R => proj1 (G r R))) as A.
  assert (KEYS : NoDup (map key rs) <-> markers_apart cus m).
  { unfold markers_apart. rewrite (NoDup_map_iff _ _ _ key (fun r => (at_file (rq_item r), at_line (rq_item r), i_name (rq_item r))) rs).
    - replace (map (fun r => (at_file (rq_item r), at_line (rq_item r), i_name (rq_item r))) rs) with (map (fun '(_, q) => (at_file q, at_line q, i_name q)) (map pr rs)) by (rewrite map_map; reflexivity).
      split; apply Permutation_NoDup; apply Permutation_map; [|symmetry]; exact P.
    - intros x y X Y. destruct (G x X) as [_ IX]. destruct (G y Y) as [_ IY]. destruct (NM x X) as [_ NX]. destruct (NM y Y) as [_ NY]. unfold key. split.
      + intros E. unfold ident in IX, IY. rewrite every_app in IX, IY. apply andb_true_iff in IX, IY. apply key_inj in E; [|apply IX|apply IY]. destruct E as [E1 E2]. unfold place in E1. injection E1 as E3 E4. unfold at_file, at_line. rewrite E3, E4, NX, NY, E2. reflexivity.
      + intros E. injection E as E1 E2 E3. unfold place. unfold at_file, at_line in *. rewrite E1, E2. rewrite NX, NY in E3. injection E3 as E3.
        f_equal. assert (Q := proj2 (trim_spec (start_of m "entry") _ (rq_name x)) eq_refl). rewrite E3 in Q. pose proof (proj2 (trim_spec (start_of m "entry") _ (rq_name y)) eq_refl). congruence. }
  destruct (fold_left add_request rs _) as [[seen edb]|].
  - destruct A as (ND & _ & W & GG). split; [apply KEYS, ND|]. intros file loc name. rewrite lookup_get3 by auto. do 2 f_equal. rewrite GG. cbn [app]. change (get3 [] file (to_json loc) (to_json name)) with (@nil string). cbn [app].
    apply the_one_perm. unfold declared. transitivity (flat_map (fun '(h, q) => if (String.eqb (at_file q) file && named loc q)%bool then map i_id (filter (beside q name) h) else []) (map pr rs)).
    + rewrite map_as_flat_map. apply flat_map_perm. intros r R. apply contrib_perm. apply G, R.
    + apply Permutation_flat_map. exact P.
  - intros H. apply A. split; [apply KEYS, H|]. reflexivity.
Qed.

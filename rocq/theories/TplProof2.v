From Coq Require Import ZArith String Ascii List Bool Lia Sorted Permutation.
From Verif Require Import Base EntryModel EntrySpec EntryProof TplModel TplSpec TplProof.
From Verif Require MetadbModel MetadbProof MetadbProof6.
Import ListNotations.
Open Scope string_scope.
Open Scope list_scope.
Open Scope Z_scope.

(** ** Induction over trees *)
Lemma item_ind' : forall P : item -> Prop,
  (forall k id f l n sub, Forall P sub -> P (Item k id f l n sub)) -> forall i, P i.
Proof.
  intros P H. fix IH 1. intros [k id f l n sub]. apply H. induction sub; constructor; auto.
Qed.

(** ** Lists *)
Lemma flat_map_app_perm : forall A B (f g : A -> list B) l, Permutation (flat_map (fun x => f x ++ g x) l) (flat_map f l ++ flat_map g l).
Proof.
  induction l as [|x l IH]; cbn; auto. rewrite IH. rewrite <- !app_assoc. apply Permutation_app_head. rewrite !app_assoc. apply Permutation_app_tail. apply Permutation_app_comm.
Qed.
Lemma flat_map_perm : forall A B (f g : A -> list B) l, (forall x, In x l -> Permutation (f x) (g x)) -> Permutation (flat_map f l) (flat_map g l).
Proof. induction l as [|x l IH]; cbn; intros H; auto. apply Permutation_app; auto. Qed.
Lemma flat_map_flat_map : forall A B C (f : A -> list B) (g : B -> list C) l, flat_map g (flat_map f l) = flat_map (fun x => flat_map g (f x)) l.
Proof. induction l; cbn; auto. rewrite flat_map_app. congruence. Qed.
Lemma filter_flat_map : forall A B (f : A -> list B) p l, filter p (flat_map f l) = flat_map (fun x => filter p (f x)) l.
Proof. induction l; cbn; auto. rewrite filter_app. congruence. Qed.
Lemma map_flat_map : forall A B C (f : A -> list B) (g : B -> C) l, map g (flat_map f l) = flat_map (fun x => map g (f x)) l.
Proof. induction l; cbn; auto. rewrite map_app. congruence. Qed.
Lemma NoDup_map_iff : forall A B C (f : A -> B) (g : A -> C) l,
  (forall x y, In x l -> In y l -> (f x = f y <-> g x = g y)) -> (NoDup (map f l) <-> NoDup (map g l)).
Proof.
  induction l as [|x l IH]; cbn; intros H; [split; constructor|]. rewrite !NoDup_cons_iff, !in_map_iff, IH by auto. split; intros [N D]; split; auto; intros [y [E I]]; apply N; exists y; split; auto; apply H; auto.
Qed.
Lemma the_one_perm : forall A (l k : list A), Permutation l k -> the_one l = the_one k.
Proof.
  intros A l k P. pose proof (Permutation_length P) as L. destruct l as [|x [|y l]]; destruct k as [|a [|b k]]; try discriminate L; auto.
  apply Permutation_length_1 in P. subst. reflexivity.
Qed.

(** ** Prefixes *)
Lemma trim_spec : forall p s r, trim_prefix p s = Some r <-> s = (p ++ r)%string.
Proof.
  induction p as [|c p IH]; intros s r; cbn; [split; congruence|]. destruct s as [|d s]; [split; discriminate|].
  destruct (Ascii.eqb_spec c d) as [->|N]; [rewrite IH; split; congruence|]. split; [discriminate|congruence].
Qed.
Lemma prefix_spec : forall p s, String.prefix p s = true <-> exists r, s = (p ++ r)%string.
Proof.
  induction p as [|c p IH]; intros s.
  - split; intros _; [exists s; reflexivity|]. destruct s; reflexivity.
  - destruct s as [|d s].
    + split; [discriminate|]. intros [r E]. discriminate E.
    + cbn. destruct (ascii_dec c d) as [->|N].
      * rewrite IH. split; intros [r E]; exists r; congruence.
      * split; [discriminate|]. intros [r E]. congruence.
Qed.
Lemma split_first_spec : forall t s r, MetadbProof.no "_"%char t = true -> (split_first s = Some (t, r) <-> s = (t ++ "_" ++ r)%string).
Proof.
  intros t s. revert t. induction s as [|c s IH]; intros t r N; cbn.
  - split; [discriminate|]. destruct t; discriminate.
  - destruct (Ascii.eqb_spec c "_") as [->|D].
    + split; [intros [= <- <-]; reflexivity|]. intros E. destruct t as [|d t]; cbn in E; [congruence|]. injection E as <- E. exfalso.
      rewrite MetadbProof.no_cons in N. rewrite Ascii.eqb_refl in N. discriminate.
    + destruct t as [|d t].
      * split; [|intros [= E]; congruence]. destruct (split_first s) as [[a b]|]; discriminate.
      * rewrite MetadbProof.no_cons in N. apply andb_true_iff in N. destruct N as [_ N].
        specialize (IH t r N). cbn [String.append]. destruct (split_first s) as [[a b]|].
        -- split; [intros [= -> -> ->]; f_equal; apply IH; reflexivity|]. intros [= -> E]. apply IH in E. injection E as -> ->. reflexivity.
        -- split; [discriminate|]. intros [= -> E]. apply IH in E. discriminate.
Qed.
Lemma split_first_no : forall s t r, split_first s = Some (t, r) -> MetadbProof.no "_"%char t = true.
Proof.
  induction s as [|c s IH]; cbn; [discriminate|]. intros t r. destruct (Ascii.eqb c "_") eqn:D.
  - intros [= <- _]. reflexivity.
  - destruct (split_first s) as [[a b]|] eqn:E; [|discriminate]. intros [= <- <-]. rewrite MetadbProof.no_cons. rewrite (IH _ _ eq_refl).
    rewrite Ascii.eqb_sym in D. rewrite Ascii.eqb_sym. rewrite D. reflexivity.
Qed.
Lemma sapp_assoc : forall a b c : string, ((a ++ b) ++ c)%string = (a ++ (b ++ c))%string.
Proof. induction a; cbn; congruence. Qed.

(** ** Requests of one type *)
Definition starts (p : string) (i : item) : bool :=
  match i_kind i, i_name i with KVariable, Some n => String.prefix p n | _, _ => false end.
Definition pr (r : request) : list item * item := (rq_siblings r, rq_item r).
Definition start_of (m t : string) : string := (request_prefix m ++ t ++ "_")%string.
Definition starters (p : string) (h : list item) : list (list item * item) := map (pair h) (filter (starts p) h).
Lemma request_of_type : forall t m cu h i, MetadbProof.no "_"%char t = true ->
  map pr (of_type t (request_of m cu h i)) = if starts (start_of m t) i then [(h, i)] else [].
Proof.
  intros t m cu h i T. unfold request_of, starts. destruct (i_kind i); auto. destruct (i_name i) as [n|]; auto.
  destruct (trim_prefix (request_prefix m) n) as [s|] eqn:E.
  - apply trim_spec in E. subst n. destruct (split_first s) as [[a b]|] eqn:F.
    + unfold of_type. cbn [filter rq_type]. destruct (String.eqb_spec a t) as [->|D].
      * apply split_first_spec in F; auto. subst s. replace (String.prefix _ _) with true; [reflexivity|]. symmetry. apply prefix_spec. exists b. unfold start_of. rewrite !sapp_assoc. reflexivity.
      * replace (String.prefix _ _) with false; [reflexivity|]. symmetry. apply not_true_iff_false. intros P. apply prefix_spec in P. destruct P as [r P].
        unfold start_of in P. rewrite !sapp_assoc in P. apply trim_spec in P. assert (Q : trim_prefix (request_prefix m) (request_prefix m ++ s) = Some s) by (apply trim_spec; reflexivity).
        rewrite Q in P. injection P as P. change ("_" ++ r)%string with (String "_" r) in P.
        assert (split_first s = Some (t, r)) by (apply split_first_spec; auto). congruence.
    + replace (String.prefix _ _) with false; [reflexivity|]. symmetry. apply not_true_iff_false. intros P. apply prefix_spec in P. destruct P as [r P].
      unfold start_of in P. rewrite !sapp_assoc in P. apply trim_spec in P. assert (Q : trim_prefix (request_prefix m) (request_prefix m ++ s) = Some s) by (apply trim_spec; reflexivity).
      rewrite Q in P. injection P as P. assert (split_first s = Some (t, r)) by (apply split_first_spec; auto). congruence.
  - replace (String.prefix _ _) with false; [reflexivity|]. symmetry. apply not_true_iff_false. intros P. apply prefix_spec in P. destruct P as [r P].
    unfold start_of in P. rewrite !sapp_assoc in P. apply trim_spec in P. congruence.
Qed.
Lemma own_starters : forall p (h l : list item), flat_map (fun i => if starts p i then [(h, i)] else []) l = map (pair h) (filter (starts p) l).
Proof. induction l as [|i l IH]; cbn; auto. rewrite IH. destruct (starts p i); reflexivity. Qed.
Lemma requests_below_type : forall t m cu, MetadbProof.no "_"%char t = true -> forall i h,
  Permutation (map pr (of_type t (requests_below m cu h i)))
              ((if starts (start_of m t) i then [(h, i)] else []) ++ flat_map (starters (start_of m t)) (inner_scopes i)).
Proof.
  intros t m cu T i. induction i as [k id f l n sub IH] using item_ind'. intros h. unfold of_type in *. cbn [requests_below inner_scopes].
  rewrite filter_app, map_app. fold (of_type t (request_of m cu h (Item k id f l n sub))). rewrite request_of_type by auto.
  apply Permutation_app_head. replace (is_scope k) with (opens k) by (destruct k; reflexivity). destruct (opens k); [|reflexivity].
  cbn [flat_map]. rewrite filter_flat_map, map_flat_map. unfold starters at 1. rewrite <- own_starters, flat_map_flat_map.
  rewrite <- flat_map_app_perm. apply flat_map_perm. intros x X. rewrite Forall_forall in IH. apply (IH x X sub).
Qed.
Lemma requests_of_type : forall t m cus, MetadbProof.no "_"%char t = true ->
  Permutation (map pr (of_type t (requests_of m cus))) (flat_map (starters (start_of m t)) (scopes cus)).
Proof.
  intros t m cus T. unfold requests_of, of_type, scopes. rewrite filter_flat_map, map_flat_map, flat_map_flat_map. apply flat_map_perm.
  intros [cu h] _. cbn [flat_map]. rewrite filter_flat_map, map_flat_map. unfold starters at 1. rewrite <- own_starters, flat_map_flat_map.
  rewrite <- flat_map_app_perm. apply flat_map_perm. intros x X. apply requests_below_type; auto.
Qed.
(** What a request says. *)
Lemma request_of_in : forall m cu h i r, In r (request_of m cu h i) ->
  rq_module r = m /\ rq_cu r = cu /\ rq_item r = i /\ rq_siblings r = h /\ i_kind i = KVariable /\ i_name i = Some (start_of m (rq_type r) ++ rq_name r)%string /\ MetadbProof.no "_"%char (rq_type r) = true.
Proof.
  intros m cu h i r H. unfold request_of in H. destruct (i_kind i); try destruct H. destruct (i_name i) as [n|]; [|destruct H].
  destruct (trim_prefix (request_prefix m) n) as [s|] eqn:E; [|destruct H]. destruct (split_first s) as [[t x]|] eqn:F; [|destruct H].
  destruct H as [<-|[]]. cbn. pose proof (split_first_no _ _ _ F) as N. apply split_first_spec in F; auto. apply trim_spec in E. subst s n. unfold start_of. rewrite !sapp_assoc. repeat split; auto.
Qed.
Lemma requests_below_in : forall m cu i h r, In r (requests_below m cu h i) -> rq_module r = m /\ rq_cu r = cu /\ i_kind (rq_item r) = KVariable /\
  i_name (rq_item r) = Some (start_of m (rq_type r) ++ rq_name r)%string.
Proof.
  intros m cu i. induction i as [k id f l n sub IH] using item_ind'. intros h r H. cbn [requests_below] in H. apply in_app_or in H. destruct H as [H|H].
  - apply request_of_in in H. destruct H as (A & B & C & D & E & F & _). rewrite C. auto.
  - destruct (is_scope k); [|destruct H]. apply in_flat_map in H. destruct H as [x [X R]]. rewrite Forall_forall in IH. apply (IH x X sub r R).
Qed.
Lemma requests_of_in : forall m cus r, In r (requests_of m cus) -> rq_module r = m /\ i_kind (rq_item r) = KVariable /\ (exists h, In (rq_cu r, h) cus) /\
  i_name (rq_item r) = Some (start_of m (rq_type r) ++ rq_name r)%string.
Proof.
  intros m cus r H. unfold requests_of in H. apply in_flat_map in H. destruct H as [[cu h] [C H]]. apply in_flat_map in H. destruct H as [i [I H]].
  apply requests_below_in in H. destruct H as (A & B & D & E). subst cu. eauto 6.
Qed.
Lemma starters_in : forall p cus h i, In (h, i) (flat_map (starters p) (scopes cus)) <-> In h (scopes cus) /\ In i h /\ starts p i = true.
Proof.
  intros. rewrite in_flat_map. unfold starters. split.
  - intros [x [X H]]. apply in_map_iff in H. destruct H as [y [[= -> ->] H]]. apply filter_In in H. tauto.
  - intros (A & B & C). exists h. split; auto. apply in_map. apply filter_In. auto.
Qed.

(** ** Modules *)
Lemma set_fold_ordered : forall A (f : A -> string) l d, ordered d -> ordered (fold_left (fun d r => set d (f r) tt) l d).
Proof. intros A f l. induction l as [|x l IH]; intros d O; cbn; auto. apply IH, set_ordered, O. Qed.
Lemma set_fold_get : forall A (f : A -> string) l d k, ordered d ->
  (get (fold_left (fun d r => set d (f r) tt) l d) k = Some tt <-> get d k = Some tt \/ exists x, In x l /\ f x = k).
Proof.
  intros A f l. induction l as [|x l IH]; intros d k O; cbn; [split; auto; intros [H|[x [[] _]]]; auto|].
  rewrite IH by (apply set_ordered; auto). rewrite get_set by auto. destruct (String.eqb_spec k (f x)) as [->|N].
  - split; [intros _; right; exists x; auto|auto].
  - split; [intros [H|[y [I E]]]; eauto|]. intros [H|[y [[->|I] E]]]; eauto. congruence.
Qed.
Lemma modules_ordered : forall cus, ordered (modules cus).
Proof. intros cus. unfold modules. apply set_fold_ordered. repeat constructor. Qed.
Lemma modules_spec : forall cus m, get (modules cus) m = Some tt <-> announced cus m.
Proof.
  intros cus m. unfold modules. rewrite set_fold_get by repeat constructor. fold (of_type "module" (requests_of "" cus)).
  assert (P := requests_of_type "module" "" cus eq_refl). unfold announced. cbn [get set].
  assert (K : (if String.eqb m "dflt" then Some tt else None) = Some tt <-> m = "dflt") by (destruct (String.eqb_spec m "dflt"); split; congruence).
  rewrite K. clear K. split; (intros [H|H]; [left; exact H|right]).
  - destruct H as [r [R E]]. assert (Q : In (pr r) (flat_map (starters (start_of "" "module")) (scopes cus))) by (eapply Permutation_in; [exact P|apply in_map, R]).
    unfold pr in Q. apply starters_in in Q. destruct Q as (A & B & C). exists (rq_siblings r), (rq_item r). apply filter_In in R. destruct R as [R T]. apply String.eqb_eq in T.
    apply requests_of_in in R. destruct R as (_ & D & _ & N). rewrite T in N. subst m. repeat split; auto.
  - destruct H as (h & i & A & B & C & D).
    assert (Q : In (h, i) (map pr (of_type "module" (requests_of "" cus)))).
    { eapply Permutation_in; [symmetry; exact P|]. apply starters_in. repeat split; auto. unfold starts. rewrite C, D. apply prefix_spec. exists m. reflexivity. }
    apply in_map_iff in Q. destruct Q as [r [E R]]. exists r. split; auto. apply filter_In in R. destruct R as [R T]. apply String.eqb_eq in T. apply requests_of_in in R. destruct R as (_ & _ & _ & N).
    unfold pr in E. injection E as _ E. rewrite E, D, T in N. injection N as N. auto.
Qed.
Lemma filter_all : forall A (p : A -> bool) l, (forall x, In x l -> p x = true) -> filter p l = l.
Proof. induction l as [|x l IH]; cbn; intros H; auto. rewrite (H x) by auto. f_equal. auto. Qed.
Lemma filter_none : forall A (p : A -> bool) l, (forall x, In x l -> p x = false) -> filter p l = [].
Proof. induction l as [|x l IH]; cbn; intros H; auto. rewrite (H x) by auto. auto. Qed.
Lemma of_module : forall A (d : dict A) R m, ordered d -> (forall k r, In r (R k) -> rq_module r = k) ->
  filter (fun r => String.eqb (rq_module r) m) (flat_map (fun '(k, _) => R k) d) = match get d m with Some _ => R m | None => [] end.
Proof.
  intros A d R m O H. induction O as [|[k v] d O IH F]; cbn; auto. rewrite filter_app, IH. destruct (String.eqb_spec m k) as [->|N].
  - rewrite (get_lt _ d k F), app_nil_r. apply filter_all. intros r I. rewrite (H _ _ I). apply String.eqb_refl.
  - rewrite filter_none; auto. intros r I. rewrite (H _ _ I). destruct (String.eqb_spec k m); congruence.
Qed.
Lemma filter_comm : forall A (p q : A -> bool) l, filter p (filter q l) = filter q (filter p l).
Proof. induction l as [|x l IH]; cbn; auto. destruct (q x) eqn:Q, (p x) eqn:P; cbn; rewrite ?P, ?Q, IH; auto. Qed.
Lemma module_requests : forall cus m t, announced cus m ->
  filter (fun r => String.eqb (rq_module r) m) (of_type t (build_requests cus)) = of_type t (requests_of m cus).
Proof.
  intros cus m t K. unfold of_type. rewrite filter_comm. unfold build_requests. rewrite of_module.
  - apply modules_spec in K. rewrite K. reflexivity.
  - apply modules_ordered.
  - intros k r R. apply requests_of_in in R. tauto.
Qed.

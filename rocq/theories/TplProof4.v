From Coq Require Import ZArith String Ascii List Bool Lia Sorted Permutation.
From Verif Require Import Base EntryModel TplModel TplSpec TplProof TplProof2 TplProof3.
From Verif Require MetadbModel MetadbProof MetadbProof6.
Import ListNotations.
Open Scope string_scope.
Open Scope list_scope.
Open Scope Z_scope.

Lemma answers_in_spec : forall name h n id, In (n, id) (answers_in name h) <->
  n = name /\ exists i, In i h /\ object i = true /\ i_name i = Some name /\ i_id i = id.
Proof.
  intros name h n id. unfold answers_in. rewrite in_flat_map. split.
  - intros [i [I H]]. assert (O : object i = true) by (unfold object; destruct (i_kind i); auto; destruct H).
    assert (H' : In (n, id) (match i_name i with Some n => if String.eqb (to_json name) (to_json n) then [(n, i_id i)] else [] | None => [] end)) by (destruct (i_kind i); auto; destruct H).
    destruct (i_name i) as [x|] eqn:N; [|destruct H']. rewrite json_eqb in H'. destruct (String.eqb_spec name x) as [->|]; [|destruct H'].
    destruct H' as [[= <- <-]|[]]. split; auto. exists i. auto.
  - intros [-> (i & I & O & N & E)]. exists i. split; auto. rewrite N, json_eqb, String.eqb_refl, E. unfold object in O. destruct (i_kind i); try discriminate; left; reflexivity.
Qed.
Lemma first_answers_sound : forall name cus n id, In (n, id) (first_answers name cus) -> n = name /\ exists cu, global cus cu name id.
Proof.
  induction cus as [|[cu h] cus IH]; cbn; intros n id H; [destruct H|]. destruct (answers_in name h) as [|x l] eqn:A.
  - destruct (IH _ _ H) as [-> (c & t & i & I & R)]. split; auto. exists c, t, i. split; [right; exact I|exact R].
  - rewrite <- A in H. apply answers_in_spec in H. destruct H as [-> (i & R)]. split; auto. exists cu, h, i. split; [left; reflexivity|exact R].
Qed.
Lemma first_answers_complete : forall name cus cu id, global cus cu name id -> first_answers name cus <> [].
Proof.
  induction cus as [|[c h] cus IH]; cbn; intros cu id (t & i & I & R); [destruct I|]. destruct (answers_in name h) as [|x l] eqn:A; [|discriminate].
  destruct I as [[= -> ->]|I]; [|apply (IH cu id); exists t, i; auto].
  exfalso. assert (X : In (name, id) (answers_in name t)) by (apply answers_in_spec; split; auto; exists i; exact R). rewrite A in X. destruct X.
Qed.
Lemma find_unit : forall (cus : list unit_) cu h, NoDup (map fst cus) -> In (cu, h) cus -> find (fun '(id, _) => String.eqb id cu) cus = Some (cu, h).
Proof.
  induction cus as [|[c t] cus IH]; cbn; intros cu h N I; [destruct I|]. apply NoDup_cons_iff in N. destruct N as [N D]. destruct (String.eqb_spec c cu) as [->|X].
  - destruct I as [[= ->]|I]; auto. exfalso. apply N. apply (in_map fst) in I. exact I.
  - destruct I as [[= -> ->]|I]; [congruence|auto].
Qed.
Lemma in_build : forall cus t r, In r (of_type t (build_requests cus)) <-> rq_type r = t /\ announced cus (rq_module r) /\ In r (requests_of (rq_module r) cus).
Proof.
  intros cus t r. unfold of_type, build_requests. rewrite filter_In, in_flat_map, String.eqb_eq. split.
  - intros [[[m u] [I R]] T]. split; auto. pose proof (requests_of_in _ _ _ R) as (M & _). rewrite M. split; auto. apply modules_spec. destruct u. apply get_in; auto. apply modules_ordered.
  - intros (T & A & R). split; auto. exists (rq_module r, tt). split; auto. apply modules_spec, get_in in A; auto. apply modules_ordered.
Qed.
Lemma requests_of_unit : forall m cus r, In r (requests_of m cus) <-> exists h, In (rq_cu r, h) cus /\ In r (requests_of m [(rq_cu r, h)]).
Proof.
  intros m cus r. unfold requests_of at 1. rewrite in_flat_map. split.
  - intros [[cu h] [I R]]. assert (X : rq_cu r = cu). { apply in_flat_map in R. destruct R as [i [_ R]]. apply requests_below_in in R. tauto. }
    subst cu. exists h. split; auto. unfold requests_of. cbn. rewrite app_nil_r. exact R.
  - intros [h [I R]]. exists (rq_cu r, h). split; auto. unfold requests_of in R. cbn in R. rewrite app_nil_r in R. exact R.
Qed.
Lemma start_gsym : forall m, m <> "" -> start_of m "gsym" = ("metac__" ++ m ++ "_gsym_")%string.
Proof. intros m M. unfold start_of, request_prefix. destruct (String.eqb_spec m ""); [congruence|]. rewrite !sapp_assoc. reflexivity. Qed.
Lemma gsym_requests : forall cus m cu name, m <> "" -> announced cus m ->
  (links cus m cu name <-> exists r, In r (of_type "gsym" (build_requests cus)) /\ rq_module r = m /\ rq_cu r = cu /\ rq_name r = name).
Proof.
  intros cus m cu name M A. split.
  - intros (top & h & i & C & H & I & K & N).
    assert (P := requests_of_type "gsym" m [(cu, top)] eq_refl).
    assert (Q : In (h, i) (map pr (of_type "gsym" (requests_of m [(cu, top)])))).
    { eapply Permutation_in; [symmetry; exact P|]. apply starters_in. repeat split; auto. unfold starts. rewrite K, N. apply prefix_spec. exists name. rewrite start_gsym by auto. rewrite !sapp_assoc. reflexivity. }
    apply in_map_iff in Q. destruct Q as [r [E R]]. apply filter_In in R. destruct R as [R T]. apply String.eqb_eq in T.
    pose proof (requests_of_in _ _ _ R) as (RM & RK & (x & RC) & RN). assert (CU : rq_cu r = cu) by (destruct RC as [RC|[]]; injection RC as <- _; reflexivity).
    exists r. repeat split; auto.
    + apply in_build. rewrite RM. repeat split; auto. apply requests_of_unit. exists top. rewrite CU. auto.
    + unfold pr in E. injection E as _ E. rewrite E, N, T, start_gsym in RN by auto. injection RN as RN. rewrite !sapp_assoc in RN.
      symmetry in RN. assert (forall p a b : string, (p ++ a)%string = (p ++ b)%string -> a = b) as INJ by (induction p; cbn; intros; [auto|apply IHp; congruence]).
      apply INJ in RN. apply (INJ "_gsym_") in RN. exact RN.
  - intros (r & R & RM & RC & RN). apply in_build in R. destruct R as (T & _ & R). rewrite RM in R. apply requests_of_unit in R. destruct R as [h [C R]]. rewrite RC in *.
    assert (P := requests_of_type "gsym" m [(cu, h)] eq_refl).
    assert (Q : In (pr r) (flat_map (starters (start_of m "gsym")) (scopes [(cu, h)]))).
    { eapply Permutation_in; [exact P|]. apply in_map. apply filter_In. rewrite T. auto. }
    apply starters_in in Q. destruct Q as (X & Y & _). apply requests_of_in in R. destruct R as (_ & K & _ & N). exists h, (rq_siblings r), (rq_item r). repeat split; auto.
    rewrite N, T, RN, start_gsym by auto. rewrite !sapp_assoc. reflexivity.
Qed.

(** Every definition printed belongs to a link and shows a global object of that name. *)
Lemma responses_sound : forall cus name id, ~ announced cus "" -> In (name, id) (glob_responses cus) ->
  exists m cu cu', announced cus m /\ links cus m cu name /\ global cus cu' name id.
Proof.
  intros cus name id E H. unfold glob_responses in H. apply in_flat_map in H. destruct H as [r [R H]]. pose proof R as R0. apply in_build in R. destruct R as (T & A & R).
  assert (M : rq_module r <> "") by (intros X; rewrite X in A; auto).
  assert (L : links cus (rq_module r) (rq_cu r) (rq_name r)) by (apply gsym_requests; eauto).
  unfold answers in H. destruct (find (fun '(id, _) => String.eqb id (rq_cu r)) cus) as [[c h]|] eqn:F; [|destruct H]. apply find_some in F. destruct F as [F _].
  destruct (answers_in (rq_name r) h) as [|x l] eqn:B.
  - apply first_answers_sound in H. destruct H as [-> [cu G]]. exists (rq_module r), (rq_cu r), cu. auto.
  - rewrite <- B in H. apply answers_in_spec in H. destruct H as [-> (i & I)]. exists (rq_module r), (rq_cu r), c. repeat split; auto. exists h, i. auto.
Qed.
(** Every link to an object that exists is answered, with the objects of its own unit when there are any. *)
Lemma responses_complete : forall cus m cu name, NoDup (map fst cus) -> m <> "" -> announced cus m -> links cus m cu name ->
  (forall id, global cus cu name id -> In (name, id) (glob_responses cus)) /\
  (forall cu' id, global cus cu' name id -> exists id', In (name, id') (glob_responses cus)).
Proof.
  intros cus m cu name D M A L. apply gsym_requests in L; auto. destruct L as (r & R & RM & RC & RN).
  pose proof R as R0. apply in_build in R. destruct R as (_ & _ & R). apply requests_of_in in R. destruct R as (_ & _ & [h C] & _). rewrite RC in C.
  assert (F := find_unit cus cu h D C).
  assert (S1 : forall x, In x (answers cus r) -> In x (glob_responses cus)) by (intros x X; unfold glob_responses; apply in_flat_map; exists r; auto).
  assert (S2 : forall id, global cus cu name id -> In (name, id) (answers_in name h)).
  { intros id (h' & i & I & O). assert (E := find_unit cus cu h' D I). rewrite F in E. injection E as ->. apply answers_in_spec. split; auto. exists i. exact O. }
  assert (E : answers cus r = match answers_in name h with [] => first_answers name cus | l => l end) by (unfold answers; rewrite RC, F, RN; reflexivity).
  split.
  - intros id G. apply S1. rewrite E. apply S2 in G. destruct (answers_in name h); [destruct G|exact G].
  - intros cu' id G. rewrite E in S1. destruct (answers_in name h) as [|[n x] l] eqn:B.
    + pose proof (first_answers_complete _ _ _ _ G) as NE. destruct (first_answers name cus) as [|[n x] l] eqn:B2; [congruence|].
      assert (N : n = name) by (apply (first_answers_sound name cus n x); rewrite B2; left; reflexivity). subst n. exists x. apply S1. left. reflexivity.
    + assert (N : n = name) by (apply (answers_in_spec name h n x); rewrite B; left; reflexivity). subst n. exists x. apply S1. left. reflexivity.
Qed.
(** One definition per symbol, when the program links each symbol once and each unit has one object of a name. *)
Lemma answers_one : forall (cus : list unit_) name h, In h (map snd cus) -> (forall cu h, In (cu, h) cus -> NoDup (map i_name (filter object h))) -> (length (answers_in name h) <= 1)%nat.
Proof.
  intros cus name h I U. apply in_map_iff in I. destruct I as [[cu h'] [<- I]]. specialize (U _ _ I). cbn [snd]. clear I. induction h' as [|i h' IH]; [cbn; lia|].
  cbn [filter] in U. unfold answers_in in *. cbn [flat_map]. rewrite app_length. destruct (object i) eqn:O.
  - cbn [map] in U. apply NoDup_cons_iff in U. destruct U as [N U]. specialize (IH U).
    destruct (i_name i) as [n|] eqn:NM.
    + rewrite json_eqb. destruct (String.eqb_spec name n) as [->|X].
      * assert (answers_in n h' = []) as Z0. { destruct (answers_in n h') as [|[a b] l] eqn:B; auto. exfalso. assert (Q : In (a, b) (answers_in n h')) by (rewrite B; left; reflexivity).
          apply answers_in_spec in Q. destruct Q as [-> (j & J & OJ & NJ & _)]. apply N. rewrite <- NJ. apply in_map. apply filter_In. auto. }
        unfold answers_in in Z0. rewrite Z0. destruct (i_kind i); cbn; lia.
      * destruct (i_kind i); cbn; exact IH.
    + destruct (i_kind i); cbn; exact IH.
  - unfold object in O. destruct (i_kind i); try discriminate; cbn; auto.
Qed.
Lemma first_one : forall name (cus : list unit_), (forall cu h, In (cu, h) cus -> NoDup (map i_name (filter object h))) -> (length (first_answers name cus) <= 1)%nat.
Proof.
  intros name cus U. induction cus as [|[cu h] cus IH]; [cbn; lia|]. cbn [first_answers]. pose proof (answers_one ((cu, h) :: cus) name h (or_introl eq_refl) U) as L.
  destruct (answers_in name h); auto. apply IH. intros; eapply U; right; eauto.
Qed.
Lemma modules_dflt : forall cus, (forall m, announced cus m -> m = "dflt") -> modules cus = [("dflt", tt)].
Proof.
  intros cus H. pose proof (modules_ordered cus) as O. assert (I : In ("dflt", tt) (modules cus)) by (apply get_in; auto; apply modules_spec; left; reflexivity).
  assert (A : forall k u, In (k, u) (modules cus) -> k = "dflt") by (intros k [] K; apply H, modules_spec, get_in; auto).
  destruct (modules cus) as [|[k u] [|[k2 u2] l]]; [destruct I| |].
  - destruct u. rewrite (A k tt (or_introl eq_refl)). reflexivity.
  - exfalso. rewrite (A k u (or_introl eq_refl)) in O. rewrite (A k2 u2 (or_intror (or_introl eq_refl))) in O. inversion O as [|? ? _ F]; subst. inversion F as [|? ? C _]; subst. discriminate C.
Qed.
Lemma link_names_starts : forall cus, link_names cus "dflt" = map (fun '(_, i) => i_name i) (flat_map (starters (start_of "dflt" "gsym")) (scopes cus)).
Proof.
  intros cus. unfold link_names. rewrite map_flat_map. apply flat_map_ext. intros h. unfold starters. rewrite map_map. reflexivity.
Qed.
Lemma responses_once : forall cus, (forall m, announced cus m -> m = "dflt") -> NoDup (link_names cus "dflt") ->
  (forall cu h, In (cu, h) cus -> NoDup (map i_name (filter object h))) -> NoDup (map fst (glob_responses cus)).
Proof.
  intros cus H L U. unfold glob_responses, build_requests. rewrite modules_dflt by auto. cbn [flat_map]. rewrite app_nil_r.
  set (rs := of_type "gsym" (requests_of "dflt" cus)).
  assert (N : NoDup (map rq_name rs)).
  { rewrite (NoDup_map_iff _ _ _ rq_name (fun r => i_name (rq_item r)) rs).
    - rewrite link_names_starts in L. assert (P := requests_of_type "gsym" "dflt" cus eq_refl). fold rs in P.
      assert (X : map (fun r => i_name (rq_item r)) rs = map (fun '(_, i) => i_name i) (map pr rs)) by (rewrite map_map; reflexivity).
      rewrite X. eapply Permutation_NoDup; [|exact L]. apply Permutation_map. symmetry. exact P.
    - intros x y X Y. apply filter_In in X. apply filter_In in Y. destruct X as [X TX], Y as [Y TY]. apply String.eqb_eq in TX, TY.
      apply requests_of_in in X. apply requests_of_in in Y. destruct X as (_ & _ & _ & X), Y as (_ & _ & _ & Y). rewrite X, Y, TX, TY. split; [congruence|].
      intros [= E]. exact E. }
  assert (A : forall r, map fst (answers cus r) = [] \/ map fst (answers cus r) = [rq_name r]).
  { intros r. unfold answers. destruct (find (fun '(id, _) => String.eqb id (rq_cu r)) cus) as [[c h]|] eqn:F; [|auto]. apply find_some in F. destruct F as [F _].
    assert (SH : forall l : list (string * string), (length l <= 1)%nat -> (forall n x, In (n, x) l -> n = rq_name r) -> map fst l = [] \/ map fst l = [rq_name r]).
    { intros [|[n x] [|? ?]] LE Q; cbn in *; auto; [right; f_equal; apply (Q n x); auto|lia]. }
    pose proof (answers_one cus (rq_name r) h (in_map snd _ _ F) U) as L1. destruct (answers_in (rq_name r) h) as [|p l] eqn:B.
    - apply SH; [apply first_one; auto|]. intros n x I. apply first_answers_sound in I. tauto.
    - apply SH; auto. intros n x I. rewrite <- B in I. apply answers_in_spec in I. tauto. }
  clearbody rs. induction rs as [|r rs IH]; cbn in *; [constructor|]. apply NoDup_cons_iff in N. destruct N as [NI N]. specialize (IH N).
  rewrite map_app. destruct (A r) as [->| ->]; cbn; auto. apply NoDup_cons_iff. split; auto. intros I. apply NI. rewrite map_flat_map in I. apply in_flat_map in I. destruct I as [x [X I]].
  destruct (A x) as [E|E]; rewrite E in I; [destruct I|]. destruct I as [<-|[]]. apply in_map, X.
Qed.

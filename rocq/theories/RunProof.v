From Coq Require Import ZArith String Ascii List Bool Lia.
From Verif Require Import RunModel RunSpec.
Import ListNotations.
Open Scope string_scope.

Lemma has_char_in : forall c s, has_char c s = true <-> In c (list_ascii_of_string s).
Proof.
  intros c. induction s as [|d s IH]; cbn; [split; [discriminate|intros []]|]. rewrite orb_true_iff, IH, Ascii.eqb_eq. split; intros [H|H]; auto.
Qed.
Lemma legal_spec : forall n, name_is_legal n = false <-> n = "" \/ one_component n.
Proof.
  intros n. unfold name_is_legal, one_component.
  destruct (has_char "/" n) eqn:A; [|destruct (has_char "\" n) eqn:B].
  - cbn. split; [discriminate|]. intros [->|[_ [_ [_ [H _]]]]]; [discriminate A|]. destruct H. apply has_char_in, A.
  - cbn. split; [discriminate|]. intros [->|[_ [_ [_ [_ H]]]]]; [discriminate B|]. destruct H. apply has_char_in, B.
  - cbn [orb]. destruct (String.eqb_spec n ".."); [cbn; split; [discriminate|intros [->|H]; [discriminate|tauto]]|].
    destruct (String.eqb_spec n "."); [cbn; split; [discriminate|intros [->|H]; [discriminate|tauto]]|]. cbn. split; auto. intros _.
    destruct (String.eqb_spec n ""); [auto|right]. repeat split; auto; rewrite <- has_char_in; congruence.
Qed.

Section S.
Variable header : string -> option string.
Variable kinds : string -> option nat.
Variable creates : nat -> string -> string -> bool.
Notation infos name := (flat_map (fun path =>
         let module_path := path ++ "/" ++ name in
         match header (module_path ++ "/" ++ spec_filename) with
         | None => []
         | Some k => match kinds k with None => [] | Some _ => [(module_path, k)] end
         end)).
Definition usable (name file : string) (x : string * nat) : Prop :=
  holds header kinds name (fst x) (snd x) /\ creates (snd x) (place (fst x) name) file = true.
Lemma first_infos : forall name file paths i,
  first_instance kinds creates (infos name paths) file = Done i <->
  exists path f, i = (f, place path name, file) /\ first_with (fun p => exists g, holds header kinds name p g /\ creates g (place p name) file = true) paths path /\
                 holds header kinds name path f /\ creates f (place path name) file = true.
Proof.
  intros name file. induction paths as [|p paths IH]; intros i; cbn [flat_map].
  - cbn. split; [discriminate|]. intros [path [f [_ [[l1 [l2 [E _]]] _]]]]. destruct l1; discriminate.
  - assert (SKIP : (forall g, ~ (holds header kinds name p g /\ creates g (place p name) file = true)) ->
      (first_instance kinds creates (infos name paths) file = Done i <->
       exists path f, i = (f, place path name, file) /\ first_with (fun p => exists g, holds header kinds name p g /\ creates g (place p name) file = true) (p :: paths) path /\
                 holds header kinds name path f /\ creates f (place path name) file = true)).
    { intros NO. rewrite IH. split.
      - intros [path [f [E [[l1 [l2 [E1 [P1 Q1]]]] H]]]]. exists path, f. split; [exact E|]. split; [|exact H]. exists (p :: l1), l2. split; [rewrite E1; reflexivity|]. split; [exact P1|].
        intros y [<-|Y]; [intros [g G]; apply (NO g G)|apply Q1, Y].
      - intros [path [f [E [[l1 [l2 [E1 [P1 Q1]]]] H]]]]. exists path, f. split; [exact E|]. split; [|exact H]. destruct l1 as [|y l1].
        + cbn in E1. injection E1 as <- <-. destruct (NO f H).
        + cbn in E1. injection E1 as <- ->. exists l1, l2. split; [reflexivity|]. split; [exact P1|]. intros z Z1. apply Q1. right. exact Z1. }
    cbv zeta. change (p ++ "/" ++ name) with (place p name). change ("/" ++ spec_filename) with "/module.yaml".
    destruct (header (place p name ++ "/module.yaml")) as [k|] eqn:H.
    + destruct (kinds k) as [f|] eqn:K.
      * cbn [app first_instance]. unfold new_by_full_info. rewrite K. destruct (creates f (place p name) file) eqn:C.
        -- assert (HF : holds header kinds name p f) by (exists k; auto).
           split.
           ++ intros [= <-]. exists p, f. split; [reflexivity|]. split; [|auto]. exists [], paths. split; [reflexivity|]. split; [exists f; auto|]. intros y [].
           ++ intros [path [g [E [[l1 [l2 [E1 [P1 Q1]]]] [G1 G2]]]]]. destruct l1 as [|y l1].
              ** cbn in E1. injection E1 as <- _. destruct G1 as [k' [G1 G3]]. rewrite H in G1. injection G1 as <-. rewrite K in G3. injection G3 as <-. congruence.
              ** cbn in E1. injection E1 as <- _. destruct (Q1 p (or_introl eq_refl)). exists f. auto.
        -- apply SKIP. intros g [[k' [G1 G2]] G3]. rewrite H in G1. injection G1 as <-. rewrite K in G2. injection G2 as <-. congruence.
      * cbn [app]. apply SKIP. intros g [[k' [G1 G2]] G3]. rewrite H in G1. injection G1 as <-. congruence.
    + cbn [app]. apply SKIP. intros g [[k' [G1 G2]] G3]. congruence.
Qed.
Lemma found_first : forall paths name file i, one_component name ->
  let file' := if String.eqb file "" then "module.yaml" else file in
  (new_instance header kinds creates paths name file = Done i <->
  exists path f, i = (f, place path name, file') /\
    first_with (fun p => exists g, holds header kinds name p g /\ creates g (place p name) file' = true) paths path /\
    holds header kinds name path f /\ creates f (place path name) file' = true).
Proof.
  intros paths name file i L. cbv zeta. unfold new_instance, info_by_name. destruct (String.eqb_spec name "") as [->|N]; [destruct L; congruence|].
  rewrite (proj2 (legal_spec name)) by auto. rewrite <- first_infos. cbv zeta. unfold spec_filename.
  match goal with |- context [flat_map ?f paths] => destruct (flat_map f paths) as [|x r] end; [cbn; reflexivity|reflexivity].
Qed.
Lemma refused : forall paths name file, name <> "" -> ~ one_component name ->
  new_instance header kinds creates paths name file = Fail /\ info_by_name header kinds paths name = Fail.
Proof.
  intros paths name file N C. unfold new_instance, info_by_name. destruct (String.eqb_spec name ""); [congruence|].
  destruct (name_is_legal name) eqn:L; [auto|]. apply legal_spec in L. tauto.
Qed.

Variable spec_of : string -> option spec.
Variable dir_of : string -> templates.
Variable enter : string -> string -> option string.
Variable execute : string -> outcome string.
(** All known kinds have one factory, as in the command. *)
Lemma load_one : forall me own, (forall k f, kinds k = Some f -> f = me) -> forall paths name e from errs,
  load_include kinds dir_of me own (infos name paths) e = (from, errs) ->
  match from with
  | Some d => (errs < e + length (infos name paths))%nat /\ exists path, d = place path name /\
      first_with (fun p => (exists f, holds header kinds name p f) /\ handle_includes dir_of own (place p name) = true) paths path
  | None => errs = (e + length (infos name paths))%nat
  end.
Proof.
  intros me own ONE. induction paths as [|p paths IH]; intros name e from errs H; cbn [flat_map] in *.
  - cbn in H. injection H as <- <-. cbn. lia.
  - cbv zeta in *. change (p ++ "/" ++ name) with (place p name) in *. change ("/" ++ spec_filename) with "/module.yaml" in *.
    assert (EXT : forall d path, ~ ((exists f, holds header kinds name p f) /\ handle_includes dir_of own (place p name) = true) ->
       d = place path name /\ first_with (fun p => (exists f, holds header kinds name p f) /\ handle_includes dir_of own (place p name) = true) paths path ->
       d = place path name /\ first_with (fun p => (exists f, holds header kinds name p f) /\ handle_includes dir_of own (place p name) = true) (p :: paths) path).
    { intros d path NO [D [l1 [l2 [E1 [P1 Q1]]]]]. split; [exact D|]. exists (p :: l1), l2. split; [rewrite E1; reflexivity|]. split; [exact P1|]. intros y [<-|Y]; auto. }
    destruct (header (place p name ++ "/module.yaml")) as [k|] eqn:HD.
    + destruct (kinds k) as [f|] eqn:K.
      * cbn [app load_include length] in *. rewrite K in H. pose proof (ONE _ _ K) as ->. rewrite Nat.eqb_refl in H. destruct (handle_includes dir_of own (place p name)) eqn:HI.
        -- injection H as <- <-. split; [lia|]. exists p. split; [reflexivity|]. exists [], paths. split; [reflexivity|]. split; [|intros y []]. split; [|exact HI]. exists me, k. auto.
        -- specialize (IH _ _ _ _ H). destruct from as [d|].
           ++ destruct IH as [L [path IH]]. split; [lia|]. exists path. apply EXT; [|exact IH]. intros [_ X]. congruence.
           ++ lia.
      * cbn [app] in *. specialize (IH _ _ _ _ H). destruct from as [d|]; [|exact IH]. destruct IH as [L [path IH]]. split; [exact L|]. exists path. apply EXT; [|exact IH].
        intros [[f [k' [G1 G2]]] _]. rewrite HD in G1. injection G1 as <-. congruence.
    + cbn [app] in *. specialize (IH _ _ _ _ H). destruct from as [d|]; [|exact IH]. destruct IH as [L [path IH]]. split; [exact L|]. exists path. apply EXT; [|exact IH].
      intros [[f [k' [G1 G2]]] _]. congruence.
Qed.
Definition comes_from (own : string) (paths : list string) (name : string) (from : option string) : Prop :=
  exists path, from = Some (place path name) /\
    first_with (fun p => (exists f, holds header kinds name p f) /\ handle_includes dir_of own (place p name) = true) paths path.
Lemma include_all_ok : forall me own paths, (forall k f, kinds k = Some f -> f = me) -> forall names l,
  include_all header kinds dir_of me own paths names = Done l -> Forall2 (comes_from own paths) names l.
Proof.
  intros me own paths ONE. induction names as [|n names IH]; intros l H; cbn in H; [injection H as <-; constructor|].
  unfold include_module, info_by_name in H. destruct (name_is_legal n) eqn:L; [discriminate|].
  match type of H with context [load_include ?a ?b ?c ?d ?e 0] => destruct (load_include a b c d e 0) as [from errs] eqn:E end.
  pose proof (load_one me own ONE _ _ _ _ _ E) as P.
  match type of H with context [Nat.eqb errs ?n] => destruct (Nat.eqb_spec errs n) as [Q|Q]; [discriminate|] end.
  destruct (include_all header kinds dir_of me own paths names) as [l'|]; [|discriminate]. injection H as <-.
  constructor; [|apply IH; reflexivity]. destruct from as [d|]; [|destruct (Q P)]. destruct P as [_ [path [-> P]]]. exists path. auto.
Qed.
Lemma run_ok : forall i paths merged cwd wd out cwd' from,
  run header kinds spec_of dir_of enter execute i paths merged cwd wd = (Done out, cwd', from) ->
  exists s, spec_of (snd (fst i) ++ "/" ++ snd i) = Some s /\ s_template s = true /\ merged = true /\
    handle_includes dir_of (snd (fst i)) (snd (fst i)) = true /\ include_all header kinds dir_of (fst (fst i)) (snd (fst i)) paths (s_include s) = Done from /\
    let here := if String.eqb wd "" then cwd else chdir enter cwd wd in
    execute here = Done out /\ cwd' = chdir enter here (if String.eqb wd "" then "" else cwd).
Proof.
  intros [[me own] file] paths merged cwd wd out cwd' from H. unfold run in H. cbn [fst snd].
  destruct (spec_of (own ++ "/" ++ file)) as [s|] eqn:S; [|discriminate]. destruct (s_template s) eqn:T; [|discriminate]. destruct merged; [|discriminate].
  destruct (handle_includes dir_of own own) eqn:HI; [|discriminate].
  destruct (include_all header kinds dir_of me own paths (s_include s)) as [l|] eqn:I; [|discriminate].
  destruct (execute (if String.eqb wd "" then cwd else chdir enter cwd wd)) as [o|] eqn:X; [|discriminate].
  injection H as -> <- ->. exists s. repeat split; auto.
Qed.
End S.
Lemma handles : forall dir_of own p, handle_includes dir_of own p = true <-> dir_of (p ++ "/templates") = Loads \/ dir_of (p ++ "/templates") = Absent /\ p = own.
Proof.
  intros dir_of own p. unfold handle_includes. destruct (dir_of (p ++ "/templates")).
  - destruct (String.eqb_spec p own); split; intros; auto; try discriminate. destruct H as [H|[_ H]]; [discriminate|contradiction].
  - split; auto.
  - split; [discriminate|]. intros [H|[H _]]; discriminate.
Qed.
Lemma first_with_iff : forall A (P Q : A -> Prop) l x, (forall y, P y <-> Q y) -> first_with P l x -> first_with Q l x.
Proof. intros A P Q l x E [l1 [l2 [A1 [B1 C1]]]]. exists l1, l2. split; [exact A1|]. split; [apply E, B1|]. intros y Y X. apply (C1 y Y), E, X. Qed.
Lemma Forall2_imp : forall A B (P Q : A -> B -> Prop) l m, (forall a b, P a b -> Q a b) -> Forall2 P l m -> Forall2 Q l m.
Proof. induction 2; constructor; auto. Qed.
Lemma run_includes : forall header kinds spec_of dir_of enter execute me own file paths merged cwd wd out cwd' from,
  (forall k f, kinds k = Some f -> f = me) ->
  run header kinds spec_of dir_of enter execute (me, own, file) paths merged cwd wd = (Done out, cwd', from) ->
  exists s, spec_of (own ++ "/" ++ file) = Some s /\ s_template s = true /\ merged = true /\ dir_of (own ++ "/templates") <> Broken /\
    Forall2 (fun name d => exists path, d = Some (place path name) /\
       first_with (fun p => (exists f, holds header kinds name p f) /\ (dir_of (place p name ++ "/templates") = Loads \/ dir_of (place p name ++ "/templates") = Absent /\ place p name = own)) paths path)
      (s_include s) from.
Proof.
  intros header kinds spec_of dir_of enter execute me own file paths merged cwd wd out cwd' from ONE H. apply run_ok in H. cbn [fst snd] in H.
  destruct H as [s [A [B [C [D [E _]]]]]]. exists s. repeat (split; [assumption|]).
  split; [apply handles in D; destruct D as [D|[D _]]; rewrite D; discriminate|]. apply include_all_ok in E; auto.
  eapply Forall2_imp; [|exact E]. intros name d [path [F G]]. exists path. split; [exact F|]. eapply first_with_iff; [|exact G]. intros y. cbn. rewrite handles. reflexivity.
Qed.
Lemma run_directory : forall header kinds spec_of dir_of enter execute i paths merged cwd wd out cwd' from d,
  run header kinds spec_of dir_of enter execute i paths merged cwd wd = (Done out, cwd', from) ->
  wd <> "" -> enter cwd wd = Some d -> enter d cwd = Some cwd -> execute d = Done out /\ cwd' = cwd.
Proof.
  intros header kinds spec_of dir_of enter execute i paths merged cwd wd out cwd' from d H N E1 E2. apply run_ok in H. destruct H as [s [_ [_ [_ [_ [_ [X Y]]]]]]].
  destruct (String.eqb_spec wd ""); [congruence|]. unfold chdir in *. rewrite E1 in *. rewrite E2 in Y. auto.
Qed.
(** ** The module is run by the path of its file *)
Lemma split_none : forall b, ~ In "/"%char (list_ascii_of_string b) -> split_path b = None.
Proof.
  induction b as [|c b IH]; cbn; auto. intros H. rewrite IH by tauto. destruct (Ascii.eqb_spec c "/"); [subst; tauto|reflexivity].
Qed.
Lemma split_last : forall d b, ~ In "/"%char (list_ascii_of_string b) -> split_path (d ++ "/" ++ b) = Some (d, b).
Proof.
  induction d as [|c d IH]; intros b N.
  - cbn. rewrite split_none; auto.
  - change (String c d ++ "/" ++ b) with (String c (d ++ "/" ++ b)). cbn [split_path]. rewrite IH; auto.
Qed.
Lemma by_file : forall header kinds creates paths d b k f, ~ In "/"%char (list_ascii_of_string b) -> d <> "" ->
  header (d ++ "/" ++ b) = Some k -> kinds k = Some f -> creates f d b = true ->
  new_instance header kinds creates paths "" (d ++ "/" ++ b) = Done (f, d, b).
Proof.
  intros header kinds creates paths d b k f N D H K C. unfold new_instance. cbn [String.eqb]. rewrite H. unfold dir_base. rewrite split_last by auto.
  destruct (String.eqb_spec d ""); [contradiction|]. unfold new_by_full_info. rewrite K, C. reflexivity.
Qed.
(** ** A run gets as far as the template *)
Lemma load_finds : forall header kinds dir_of me own, (forall k f, kinds k = Some f -> f = me) -> forall name paths e,
  (exists p, In p paths /\ (exists f, holds header kinds name p f) /\ handle_includes dir_of own (place p name) = true) ->
  exists d errs, load_include kinds dir_of me own (flat_map (fun path =>
         let module_path := path ++ "/" ++ name in
         match header (module_path ++ "/" ++ spec_filename) with
         | None => []
         | Some k => match kinds k with None => [] | Some _ => [(module_path, k)] end
         end) paths) e = (Some d, errs).
Proof.
  intros header kinds dir_of me own ONE name. induction paths as [|p paths IH]; intros e [q [Q [[f [k [H K]]] I]]]; [destruct Q|].
  cbn [flat_map]. cbv zeta. change (p ++ "/" ++ name) with (place p name). change ("/" ++ spec_filename) with "/module.yaml".
  destruct Q as [<-|Q].
  - rewrite H, K. cbn [app load_include]. rewrite K, (ONE _ _ K), Nat.eqb_refl, I. eauto.
  - assert (R : forall e, exists d errs, load_include kinds dir_of me own (flat_map (fun path =>
         let module_path := path ++ "/" ++ name in
         match header (module_path ++ "/" ++ spec_filename) with
         | None => []
         | Some k => match kinds k with None => [] | Some _ => [(module_path, k)] end
         end) paths) e = (Some d, errs)).
    { intros e'. apply IH. exists q. split; [exact Q|]. split; [|exact I]. exists f, k. auto. }
    destruct (header (place p name ++ "/module.yaml")) as [k'|]; [|apply R].
    destruct (kinds k') as [f'|] eqn:K'; [|apply R]. cbn [app load_include]. rewrite K', (ONE _ _ K'), Nat.eqb_refl.
    destruct (handle_includes dir_of own (place p name)); [eauto|apply R].
Qed.
Lemma runs_far : forall header kinds spec_of dir_of enter execute me own file paths cwd wd s,
  (forall k f, kinds k = Some f -> f = me) ->
  spec_of (own ++ "/" ++ file) = Some s -> s_template s = true -> dir_of (own ++ "/templates") <> Broken ->
  (forall name, In name (s_include s) -> one_component name /\
     exists p f, In p paths /\ holds header kinds name p f /\ dir_of (place p name ++ "/templates") = Loads) ->
  fst (fst (run header kinds spec_of dir_of enter execute (me, own, file) paths true cwd wd)) = execute (if String.eqb wd "" then cwd else chdir enter cwd wd).
Proof.
  intros header kinds spec_of dir_of enter execute me own file paths cwd wd s ONE S T O I. unfold run. rewrite S, T.
  replace (handle_includes dir_of own own) with true by (unfold handle_includes; rewrite String.eqb_refl; destruct (dir_of (own ++ "/templates")); congruence).
  assert (J : exists l, include_all header kinds dir_of me own paths (s_include s) = Done l).
  { clear S T O. induction (s_include s) as [|n r IH]; [cbn; eauto|]. cbn [include_all]. unfold include_module, info_by_name.
    destruct (I n (or_introl eq_refl)) as [L [p [f [P [H D]]]]]. rewrite (proj2 (legal_spec n)) by auto.
    destruct (load_finds header kinds dir_of me own ONE n paths 0) as [d [errs E]].
    { exists p. split; [exact P|]. split; [eauto|]. apply handles. auto. }
    pose proof (load_one header kinds dir_of me own ONE _ _ _ _ _ E) as Q.
    match goal with |- context [load_include ?t1 ?t2 ?t3 ?t4 ?t5 0] => replace (load_include t1 t2 t3 t4 t5 0) with (Some d, errs) by (symmetry; exact E) end.
    cbn beta iota in Q. destruct Q as [Q _].
    match goal with |- context [Nat.eqb errs ?n] => destruct (Nat.eqb_spec errs n) as [X|X]; [exfalso; clear - Q X; cbn [plus] in Q; rewrite X in Q; exact (Nat.lt_irrefl _ Q)|] end.
    destruct IH as [l ->]; [intros; apply I; right; auto|]. eauto. }
  destruct J as [l ->]. destruct (execute _); reflexivity.
Qed.

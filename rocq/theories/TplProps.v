(** Theorems about the answers to the requests of a program, and concrete programs. *)
From Coq Require Import ZArith String Ascii List Bool Lia.
From Verif Require Import Base EntryModel TplModel TplSpec TplProof TplProof2 TplProof3 TplProof4.
Import ListNotations.
Open Scope string_scope.
Open Scope Z_scope.

(** C71. For paths with forward slashes the generator either reports two markers of one name on one line, or prints a
    database in which the run-time search finds, for any file, marker and name, the one object so declared beside
    the marker, and nothing when there is none or several. *)
Theorem C71_lookup_partial : forall cus m obj, tidy cus -> m <> "" -> announced cus m ->
  match entry_db_of m cus with
  | None => ~ markers_apart cus m
  | Some edb => markers_apart cus m /\ forall file loc name,
      entry_from_entry_db (compiled obj edb) file loc name = Ret (option_map obj (the_one (declared cus m file loc name)))
  end.
Proof. exact entry_db_correct. Qed.
Print Assumptions C71_lookup_partial.

(** C72. Every definition printed for a link shows a global object of the linked name. *)
Theorem C72_sound : forall cus name id, ~ announced cus "" -> In (name, id) (glob_responses cus) ->
  exists m cu cu', announced cus m /\ links cus m cu name /\ global cus cu' name id.
Proof. exact responses_sound. Qed.
Print Assumptions C72_sound.
(** Every link to an object that exists in some unit is answered, with its own unit's objects when it has any. *)
Theorem C72_complete : forall cus m cu name, NoDup (map fst cus) -> m <> "" -> announced cus m -> links cus m cu name ->
  (forall id, global cus cu name id -> In (name, id) (glob_responses cus)) /\
  (forall cu' id, global cus cu' name id -> exists id', In (name, id') (glob_responses cus)).
Proof. exact responses_complete. Qed.
Print Assumptions C72_complete.
(** One definition per symbol when the program links each symbol by one variable and no unit has two global objects of one name. *)
Theorem C72_once_partial : forall cus, (forall m, announced cus m -> m = "dflt") -> NoDup (link_names cus "dflt") ->
  (forall cu h, In (cu, h) cus -> NoDup (map i_name (filter object h))) -> NoDup (map fst (glob_responses cus)).
Proof. exact responses_once. Qed.
Print Assumptions C72_once_partial.

(** ** A program: two files; a.c has a function with a block in which two markers stand, and a link to "total" *)
Definition var id file line name := Item KVariable id (Some file) (Some line) (Some name) [].
Definition block_a := [ var "v1" "/p/a.c" 7 "metac__dflt_entry_here_0"; var "v2" "/p/a.c" 7 "metac_dflt_entry_here"; var "v3" "/p/a.c" 7 "x";
                        var "v4" "/p/a.c" 7 "y"; var "v5" "/p/a.c" 8 "x"; var "v6" "/p/a.c" 9 "metac__dflt_entry_here_1"; var "v7" "/p/a.c" 9 "z" ].
Definition top_a := [ Item KOther "t1" None None (Some "int") [];
                      Item KSubprogram "f1" (Some "/p/a.c") (Some 5) (Some "main") [ Item KLexBlock "b1" None None None block_a ];
                      var "g1" "/p/a.c" 20 "metac__dflt_gsym_total" ].
Definition top_b := [ var "g2" "/p/b.c" 3 "total"; var "g3" "/p/b.c" 4 "metac__dflt_entry_w_0"; Item KSubprogram "f2" (Some "/p/b.c") (Some 4) (Some "helper") [] ].
Definition program : list unit_ := [("cu1", top_a); ("cu2", top_b)].
(** C names to objects *)
Definition objects (s : string) : ref :=
  match index 0 s "f1f2g1g2g3v1v2v3v4v5v6v7" with Some n => n | None => O end.

Example ex_tidy : tidy program.
Proof.
  intros h H. vm_compute in H.
  destruct H as [<-|[<-|[<-|[<-|[<-|[]]]]]];
  (split; [vm_compute; repeat (constructor; [cbn; intuition discriminate|]); constructor
          |intros i I; vm_compute in I; repeat (destruct I as [<-|I]; [split; [reflexivity|intros n O [= <-]; reflexivity]|]); try destruct I as [<-|I]; try (split; [reflexivity|intros n O [= <-]; reflexivity]); destruct I]).
Qed.
Example ex_apart : markers_apart program "dflt".
Proof. unfold markers_apart. vm_compute. repeat (constructor; [cbn; intuition discriminate|]). constructor. Qed.
Example ex_declared : declared program "dflt" "/p/a.c" "metac__dflt_entry_here_0" "x" = ["v3"] /\ declared program "dflt" "/p/a.c" "metac__dflt_entry_here_1" "x" = [] /\
  declared program "dflt" "/p/b.c" "metac__dflt_entry_w_0" "helper" = ["f2"].
Proof. vm_compute. auto. Qed.
Example ex_lookup : match entry_db_of "dflt" program with
  | Some edb => map (fun '(f, l, n) => entry_from_entry_db (compiled objects edb) f l n)
      [("/p/a.c", "metac__dflt_entry_here_0", "x"); ("/p/a.c", "metac__dflt_entry_here_1", "z"); ("/p/a.c", "metac__dflt_entry_here_1", "x");
       ("/p/b.c", "metac__dflt_entry_w_0", "helper"); ("/p/c.c", "metac__dflt_entry_w_0", "helper")]
  | None => [] end = [Ret (Some 14); Ret (Some 22); Ret None; Ret (Some 2); Ret None]%nat.
Proof. vm_compute. reflexivity. Qed.
(** Two objects of one name beside a marker (of a header used by two units, say): no answer. Two markers of one name on one line: the generator stops. *)
Example ex_ambiguous : let cus := [("cu1", [var "a" "h" 1 "metac__dflt_entry_k_0"; var "b" "h" 1 "x"; var "c" "h" 1 "x"])] in
  match entry_db_of "dflt" cus with Some edb => entry_from_entry_db (compiled objects edb) "h" "metac__dflt_entry_k_0" "x" | None => Ub end = Ret None.
Proof. vm_compute. reflexivity. Qed.
Example ex_repeated : let cus := [("cu1", [var "a" "h" 1 "metac__dflt_entry_k_0"]); ("cu2", [var "b" "h" 1 "metac__dflt_entry_k_0"])] in
  entry_db_of "dflt" cus = None /\ ~ markers_apart cus "dflt".
Proof. cbn zeta. split; [vm_compute; reflexivity|]. unfold markers_apart. vm_compute. intros H. inversion H as [|? ? N]; subst. apply N. left. reflexivity. Qed.
(** A second module, announced by its variable. *)
Example ex_module : let cus := [("cu1", [var "a" "h" 1 "metac__module_net"; var "b" "h" 2 "metac__net_entry_k_0"; var "c" "h" 2 "x"])] in
  announced cus "net" /\ declared cus "net" "h" "metac__net_entry_k_0" "x" = ["c"] /\
  (exists edb, entry_db_of "net" cus = Some edb /\ entry_from_entry_db (compiled (fun _ => 5%nat) edb) "h" "metac__net_entry_k_0" "x" = Ret (Some 5%nat)).
Proof.
  cbn zeta. split; [right; eexists; eexists; split; [left; reflexivity|]; split; [left; reflexivity|]; split; reflexivity|].
  split; [vm_compute; reflexivity|]. eexists. split; vm_compute; reflexivity.
Qed.

(** With backslashes in paths the file keys are sorted before they are rewritten: the printed order is not the order searched,
    and an object that is the only one so declared is not found. *)
Definition windows : list unit_ := [("cu1", [var "a1" "dA.c" 1 "metac__dflt_entry_k_0"; var "a2" "dA.c" 1 "x"]);
                                    ("cu2", [var "b1" "d\x.c" 1 "metac__dflt_entry_n_0"; var "b2" "d\x.c" 1 "y"])].
Theorem C71_backslash_refuted : exists cus, announced cus "dflt" /\ markers_apart cus "dflt" /\ exists edb, entry_db_of "dflt" cus = Some edb /\
  exists file loc name x, declared cus "dflt" file loc name = [x] /\ forall obj, entry_from_entry_db (compiled obj edb) (escape_path file) loc name = Ret None.
Proof.
  exists windows. split; [left; reflexivity|]. split; [unfold markers_apart; vm_compute; repeat (constructor; [cbn; intuition discriminate|]); constructor|].
  eexists. split; [vm_compute; reflexivity|]. exists "dA.c", "metac__dflt_entry_k_0", "x", "a2". split; [vm_compute; reflexivity|]. intros obj. vm_compute. reflexivity.
Qed.
Print Assumptions C71_backslash_refuted.

Example ex_link : links program "dflt" "cu1" "total" /\ global program "cu2" "total" "g2" /\ glob_responses program = [("total", "g2")].
Proof.
  split; [|split; [|vm_compute; reflexivity]].
  - exists top_a, top_a, (var "g1" "/p/a.c" 20 "metac__dflt_gsym_total"). repeat split; cbn; auto.
  - exists top_b, (var "g2" "/p/b.c" 3 "total"). repeat split; cbn; auto.
Qed.
Lemma program_dflt : forall m, announced program m -> m = "dflt".
Proof.
  intros m H. apply modules_spec in H. revert H. assert (E : modules program = [("dflt", tt)]) by (vm_compute; reflexivity). rewrite E. cbn [get].
  destruct (String.eqb_spec m "dflt"); [auto|discriminate].
Qed.
Example ex_once : ~ announced program "" /\ NoDup (map fst program) /\ NoDup (link_names program "dflt") /\ forall cu h, In (cu, h) program -> NoDup (map i_name (filter object h)).
Proof.
  split; [intros H; apply program_dflt in H; discriminate|]. split; [vm_compute; repeat (constructor; [cbn; intuition discriminate|]); constructor|]. split; [vm_compute; repeat (constructor; [cbn; intuition discriminate|]); constructor|].
  intros cu h [[= <- <-]|[[= <- <-]|[]]]; vm_compute; repeat (constructor; [cbn; intuition discriminate|]); constructor.
Qed.
(** The link of one unit declared extern and used in another is in the debugging data of both: the answer is defined twice, which C rejects. *)
Theorem C72_twice_refuted : exists cus, (forall m, announced cus m -> m = "dflt") /\ NoDup (map fst cus) /\
  (forall cu h, In (cu, h) cus -> NoDup (map i_name (filter object h))) /\ ~ NoDup (map fst (glob_responses cus)).
Proof.
  exists [("cu1", [var "g1" "a.c" 1 "total"; var "l1" "a.c" 2 "metac__dflt_gsym_total"]); ("cu2", [var "l2" "a.h" 1 "metac__dflt_gsym_total"])].
  split.
  - intros m H. apply modules_spec in H. revert H. match goal with |- get ?d m = _ -> _ => assert (E : d = [("dflt", tt)]) by (vm_compute; reflexivity); rewrite E end. cbn [get].
    destruct (String.eqb_spec m "dflt"); [auto|discriminate].
  - split; [vm_compute; repeat (constructor; [cbn; intuition discriminate|]); constructor|]. split.
    + intros cu h [[= <- <-]|[[= <- <-]|[]]]; vm_compute; repeat (constructor; [cbn; intuition discriminate|]); constructor.
    + vm_compute. intros H. inversion H as [|? ? N]; subst. apply N. left. reflexivity.
Qed.
Print Assumptions C72_twice_refuted.

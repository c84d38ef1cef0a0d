(** Theorems about the database of names and the tests that main runs, and concrete programs. *)
From Coq Require Import ZArith String Ascii List Bool.
From Verif Require Import Base EntryModel TplModel TplSpec NamesModel NamesSpec NamesProof TplProps.
Import ListNotations.
Open Scope string_scope.
Open Scope Z_scope.

(** C78. For each kind of objects the printed list holds each name once, with the entries of exactly the objects called so, in
    order and counted; objects without name stand under the empty name. *)
Theorem C78_names : forall obj l, (forall id n, In (id, Some n) l -> plain_name n) ->
  let p := printed_names obj l in
  n_count p = Z.of_nat (length (n_items p)) /\ NoDup (map fst (n_items p)) /\
  (forall n c es, In (n, (c, es)) (n_items p) <-> called n l <> [] /\ es = map obj (called n l) /\ c = Z.of_nat (length es)).
Proof. exact (fun obj l _ => names_listed obj l). Qed.
Print Assumptions C78_names.
(** The database cannot be reached: where the structure is, METAC_DB_LINK_PTR() is NULL. *)
Theorem C78_link_refuted : forall gm cus sym m a, db_defined gm cus = Some (Some (db_symbol gm)) -> sym (db_symbol gm) = Some a -> a <> 0 ->
  db_image m a -> db_link_ptr sym m gm = Some 0 /\ db_link_ptr sym m gm <> Some a.
Proof.
  intros gm cus sym m a _ S N I. rewrite (link_null sym m gm a S I). split; [reflexivity|]. congruence.
Qed.
Print Assumptions C78_link_refuted.
(** A program whose modules both ask for the database does not link: one symbol is defined, whatever the module the generated file is for. *)
Theorem C78_modules_refuted : exists cus, announced cus "dflt" /\ announced cus "other" /\
  (forall m, m = "dflt" \/ m = "other" -> exists r, In r (build_requests cus) /\ rq_module r = m /\ rq_type r = "db") /\
  forall gm, exists m, (m = "dflt" \/ m = "other") /\ db_defined gm cus <> Some (Some (db_symbol m)).
Proof.
  exists [("cu1", [var "v1" "a.c" 1 "metac__dflt_db_dflt"]); ("cu2", [var "v2" "b.c" 1 "metac__module_other"; var "v3" "b.c" 2 "metac__other_db_dflt"])].
  split; [left; reflexivity|]. split.
  { right. exists [var "v2" "b.c" 1 "metac__module_other"; var "v3" "b.c" 2 "metac__other_db_dflt"], (var "v2" "b.c" 1 "metac__module_other"). cbn. tauto. }
  split.
  - intros m [->| ->].
    + exists (Build_request "db" "dflt" "dflt" "cu1" (var "v1" "a.c" 1 "metac__dflt_db_dflt") [var "v1" "a.c" 1 "metac__dflt_db_dflt"]). vm_compute. tauto.
    + exists (Build_request "db" "dflt" "other" "cu2" (var "v3" "b.c" 2 "metac__other_db_dflt") [var "v2" "b.c" 1 "metac__module_other"; var "v3" "b.c" 2 "metac__other_db_dflt"]). vm_compute. tauto.
  - intros gm. destruct (String.eqb_spec gm "dflt") as [->|N].
    + exists "other". split; [auto|]. vm_compute. discriminate.
    + exists "dflt". split; [auto|]. change (Some (Some (db_symbol gm)) <> Some (Some (db_symbol "dflt"))). intros E. apply N, db_symbol_inj. congruence.
Qed.
Print Assumptions C78_modules_refuted.

(** ** The functions of two units, one name used in both, one function without name *)
Definition things : list thing := [("f_a_1", Some "start"); ("f_b_2", Some "stop"); ("f_c_3", None); ("f_d_4", Some "start")].
Example ex_plain : forall id n, In (id, Some n) things -> plain_name n.
Proof. intros id n I. cbn in I. repeat (destruct I as [I|I]; [first [discriminate I | injection I as <- <-; reflexivity]|]). destruct I. Qed.
Definition ids4 (s : string) : ref := if String.eqb s "f_a_1" then 1%nat else if String.eqb s "f_b_2" then 2%nat else if String.eqb s "f_c_3" then 3%nat else 4%nat.
Example ex_names : printed_names ids4 things = {| n_count := 3; n_items := [("", (1, [3%nat])); ("start", (2, [1%nat; 4%nat])); ("stop", (1, [2%nat]))] |}.
Proof. vm_compute. reflexivity. Qed.
Example ex_link : db_defined "dflt" [("cu1", [var "v1" "a.c" 1 "metac__dflt_db_dflt"])] = Some (Some (db_symbol "dflt")) /\
  db_image (fun _ => 0) 4096.
Proof. vm_compute. auto. Qed.

(** C79. The generated main runs exactly the tests announced by METAC_START_TEST at file scope: the values of those variables, each as often as it is
    declared, unit after unit in the order of the file. *)
Theorem C79_tests : forall T (value : string -> T) cus, main_tests value cus = map value (test_variables cus).
Proof. exact tests_run. Qed.
Print Assumptions C79_tests.
(** So in a program that defines each of them once (as linking requires) no test is run twice or left out. *)
Theorem C79_once : forall T (value : string -> T) cus, NoDup (test_variables cus) -> (forall a b, value a = value b -> a = b) ->
  NoDup (main_tests value cus) /\ forall n, In (value n) (main_tests value cus) <-> In n (test_variables cus).
Proof. exact tests_once. Qed.
Print Assumptions C79_once.

(** Two test files; names that only look alike *)
Definition test_files : list unit_ :=
  [("cu1", [var "v1" "t1.c" 3 "metac__test_open_file"; var "v2" "t1.c" 9 "open_ttest"; var "v3" "t1.c" 12 "metac__test_read"]);
   ("cu2", [var "v4" "t2.c" 3 "metac__tests_other"; var "v5" "t2.c" 4 "metac__test"; var "v6" "t2.c" 5 "metac__dflt_gsym_test"; var "v7" "t2.c" 6 "metac__test_close"])].
Example ex_tests : test_variables test_files = ["metac__test_open_file"; "metac__test_read"; "metac__test_close"] /\
  NoDup (test_variables test_files) /\ main_tests (fun s => s) test_files = ["metac__test_open_file"; "metac__test_read"; "metac__test_close"].
Proof. split; [vm_compute; reflexivity|]. split; [vm_compute; repeat (constructor; [cbn; intuition discriminate|]); constructor|vm_compute; reflexivity]. Qed.

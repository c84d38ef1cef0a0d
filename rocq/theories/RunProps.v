(** Theorems about finding and running a module, and concrete trees of modules. *)
From Coq Require Import ZArith String Ascii List Bool.
From Verif Require Import RunModel RunSpec RunProof.
Import ListNotations.
Open Scope string_scope.

(** C80. A module is taken from the first search path that holds it with a kind the command knows (and whose factory accepts it); when
    there is none the command fails. *)
Theorem C80_first : forall header kinds creates paths name file i, one_component name ->
  let file' := if String.eqb file "" then "module.yaml" else file in
  (new_instance header kinds creates paths name file = Done i <->
  exists path f, i = (f, place path name, file') /\
    first_with (fun p => exists g, holds header kinds name p g /\ creates g (place p name) file' = true) paths path /\
    holds header kinds name path f /\ creates f (place path name) file' = true).
Proof. exact found_first. Qed.
Print Assumptions C80_first.
(** Names that lead out of the search paths are refused, for the module and for what it includes. *)
Theorem C80_refused : forall header kinds creates paths name file, name <> "" -> ~ one_component name ->
  new_instance header kinds creates paths name file = Fail /\ info_by_name header kinds paths name = Fail.
Proof. exact refused. Qed.
Print Assumptions C80_refused.
(** Without a name the module is the directory of the given specification file. *)
Theorem C80_by_file : forall header kinds creates paths d b k f, ~ In "/"%char (list_ascii_of_string b) -> d <> "" ->
  header (d ++ "/" ++ b) = Some k -> kinds k = Some f -> creates f d b = true ->
  new_instance header kinds creates paths "" (d ++ "/" ++ b) = Done (f, d, b).
Proof. exact by_file. Qed.
Print Assumptions C80_by_file.
(** An included module with an empty name is not refused: the search path itself is taken for a module. *)
Theorem C80_empty_refuted : exists header kinds path, info_by_name header kinds [path] "" = Done [(path ++ "/", "goTemplate")].
Proof. exists (fun _ => Some "goTemplate"), (fun _ => Some 0), "/m". reflexivity. Qed.
Print Assumptions C80_empty_refuted.

(** ** Two search paths. The module "gen" is in both; only the second has the file "fast.yaml"; "odd" has that file alone *)
Definition files (p : string) : option string :=
  if String.eqb p "/a/gen/module.yaml" then Some "goTemplate"
  else if String.eqb p "/b/gen/module.yaml" then Some "goTemplate"
  else if String.eqb p "/b/gen/fast.yaml" then Some "goTemplate"
  else if String.eqb p "/b/odd/fast.yaml" then Some "goTemplate"
  else if String.eqb p "/a/lib/module.yaml" then Some "starlark"
  else if String.eqb p "/b/lib/module.yaml" then Some "goTemplate"
  else if String.eqb p "/a/star/module.yaml" then Some "starlark" else None.
Definition one_kind (k : string) : option nat := if String.eqb k "goTemplate" then Some 0 else None.
Definition two_kinds (k : string) : option nat := if String.eqb k "goTemplate" then Some 0 else if String.eqb k "starlark" then Some 1 else None.
Definition all_made (_ : nat) (_ _ : string) := true.
Example ex_component : one_component "gen" /\ one_component "metac-reflect-gen" /\ ~ one_component "../x" /\ ~ one_component "..".
Proof. unfold one_component. cbn. repeat split; intuition discriminate. Qed.
Example ex_by_file : new_instance files one_kind all_made [] "" "/b/odd/fast.yaml" = Done (0, "/b/odd", "fast.yaml").
Proof. reflexivity. Qed.
Example ex_first : new_instance files one_kind all_made ["/a"; "/b"] "lib" "" = Done (0, "/b/lib", "module.yaml") /\
  new_instance files one_kind all_made ["/a"; "/b"] "gen" "" = Done (0, "/a/gen", "module.yaml") /\
  new_instance files one_kind all_made ["/a"] "lib" "" = Fail /\ new_instance files one_kind all_made ["/a"; "/b"] "../b/lib" "" = Fail.
Proof. vm_compute. auto. Qed.
(** Looking for a given specification file (module.go:155) does not look at that file: the search stops at a module without it, though a later
    path has it, and passes over a module that has only it. *)
Theorem C80_file_refuted : exists header kinds paths name file path,
  one_component name /\ In path paths /\ header (place path name ++ "/" ++ file) = Some "goTemplate" /\ kinds "goTemplate" = Some 0 /\
  (exists p, new_instance header kinds all_made paths name file = Done (0, p, file) /\ header (p ++ "/" ++ file) = None) /\
  exists name', one_component name' /\ header (place path name' ++ "/" ++ file) = Some "goTemplate" /\ new_instance header kinds all_made paths name' file = Fail.
Proof.
  exists files, one_kind, ["/a"; "/b"], "gen", "fast.yaml", "/b". split; [unfold one_component; cbn; repeat split; intuition discriminate|].
  split; [cbn; auto|]. split; [reflexivity|]. split; [reflexivity|]. split; [exists "/a/gen"; split; reflexivity|].
  exists "odd". split; [unfold one_component; cbn; repeat split; intuition discriminate|]. split; reflexivity.
Qed.
Print Assumptions C80_file_refuted.

(** C81. When a run succeeds, the module has a template, the settings merged, its own templates (if any) were loaded, and each module it includes was loaded from the first
    search path that holds it and whose templates load (all known kinds having one factory, as in the command). *)
Theorem C81_includes_partial : forall header kinds spec_of dir_of enter execute me own file paths merged cwd wd out cwd' from,
  (forall k f, kinds k = Some f -> f = me) ->
  run header kinds spec_of dir_of enter execute (me, own, file) paths merged cwd wd = (Done out, cwd', from) ->
  exists s, spec_of (own ++ "/" ++ file) = Some s /\ s_template s = true /\ merged = true /\ dir_of (own ++ "/templates") <> Broken /\
    Forall2 (fun name d => exists path, d = Some (place path name) /\
       first_with (fun p => (exists f, holds header kinds name p f) /\ (dir_of (place p name ++ "/templates") = Loads \/ dir_of (place p name ++ "/templates") = Absent /\ place p name = own)) paths path)
      (s_include s) from.
Proof. exact run_includes. Qed.
Print Assumptions C81_includes_partial.
(** And a module with a template, whose templates load and whose included modules are found somewhere with templates that load, is run to the end. *)
Theorem C81_runs : forall header kinds spec_of dir_of enter execute me own file paths cwd wd s,
  (forall k f, kinds k = Some f -> f = me) ->
  spec_of (own ++ "/" ++ file) = Some s -> s_template s = true -> dir_of (own ++ "/templates") <> Broken ->
  (forall name, In name (s_include s) -> one_component name /\
     exists p f, In p paths /\ holds header kinds name p f /\ dir_of (place p name ++ "/templates") = Loads) ->
  fst (fst (run header kinds spec_of dir_of enter execute (me, own, file) paths true cwd wd)) = execute (if String.eqb wd "" then cwd else chdir enter cwd wd).
Proof. exact runs_far. Qed.
Print Assumptions C81_runs.
(** With two kinds a module that exists only with the other kind is left out silently. *)
Theorem C81_includes_refuted : exists header kinds dir_of name, include_module header kinds dir_of 0 "/b/gen" ["/a"; "/b"] name = Done None /\
  holds header kinds name "/a" 1.
Proof. exists files, two_kinds, (fun _ => Loads), "star". split; [reflexivity|]. exists "starlark". split; reflexivity. Qed.
Print Assumptions C81_includes_refuted.
(** The template runs in the directory asked for when it can be entered, and afterwards the working directory is what it was. *)
Theorem C81_directory_partial : forall header kinds spec_of dir_of enter execute i paths merged cwd wd out cwd' from d,
  run header kinds spec_of dir_of enter execute i paths merged cwd wd = (Done out, cwd', from) ->
  wd <> "" -> enter cwd wd = Some d -> enter d cwd = Some cwd -> execute d = Done out /\ cwd' = cwd.
Proof. exact run_directory. Qed.
Print Assumptions C81_directory_partial.
(** Two cases that fail it: a template that fails leaves the process in the other directory, and when that directory cannot be entered the
    template runs in the old one all the same. *)
Theorem C81_directory_refuted : exists header kinds spec_of dir_of enter execute i paths cwd wd wd' out,
  run header kinds spec_of dir_of enter execute i paths true cwd wd = (Fail, wd, []) /\ wd <> cwd /\
  enter cwd wd' = None /\ execute cwd = Done out /\ run header kinds spec_of dir_of enter execute i paths true cwd wd' = (Done out, cwd, []).
Proof.
  exists files, one_kind, (fun _ => Some {| s_include := []; s_template := true |}), (fun _ => Loads),
    (fun _ d => if String.eqb d "/gone" then None else if String.eqb d "" then None else Some d), (fun d => if String.eqb d "/home" then Done "text" else Fail), (0, "/b/gen", "module.yaml"), ["/b"], "/home", "/work", "/gone", "text".
  vm_compute. repeat split; auto; discriminate.
Qed.
Print Assumptions C81_directory_refuted.

(** A run with an included module, in another directory *)
Definition specs (p : string) : option spec := if String.eqb p "/a/gen/module.yaml" then Some {| s_include := ["lib"]; s_template := true |} else None.
Definition dirs (p : string) : templates := if String.eqb p "/b/lib/templates" then Loads else Absent.
Definition cd (_ d : string) : option string := if String.eqb d "" then None else Some d.
Example ex_run : run files one_kind specs dirs cd (fun d => Done ("made in " ++ d)) (0, "/a/gen", "module.yaml") ["/a"; "/b"] true "/home" "/work" =
  (Done "made in /work", "/home", [Some "/b/lib"]) /\ cd "/home" "/work" = Some "/work" /\ cd "/work" "/home" = Some "/home" /\ forall k f, one_kind k = Some f -> f = 0.
Proof. repeat split; try (vm_compute; reflexivity). intros k f H. unfold one_kind in H. destruct (String.eqb k "goTemplate"); congruence. Qed.

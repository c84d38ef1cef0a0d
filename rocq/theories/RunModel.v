(** Executable model of how the command finds and runs a module: pkg/module/module.go, pkg/module/gotemplate/gotemplate.go and
    cmd/run/run.go.

    Simplified: files are seen through what is read of them (the kind a specification names, its contents, whether the
    templates of a directory load); running the template is a function of the working directory and the merged settings; paths have
    forward slashes, so FromSlash and ToSlash change nothing; log messages are left out. *)
From Coq Require Import ZArith String Ascii List Bool.
Import ListNotations.
Open Scope string_scope.

(** The result of a Go function that may fail. *)
Inductive outcome (A : Type) := Done (a : A) | Fail.
Arguments Done {A} _. Arguments Fail {A}.

(** module.go:85-96 nameIsLegal (true when the name is NOT legal) *)
Fixpoint has_char (c : ascii) (s : string) : bool :=
  match s with EmptyString => false | String d r => Ascii.eqb c d || has_char c r end.
Definition name_is_legal (name : string) : bool :=
  if has_char "/" name || has_char "\" name then true
  else if String.eqb name ".." || String.eqb name "." then true
  else false.

(** What is read: of the file at a path the kind its header names (module.go:98-108; None: not readable or not parsed) *)
Section Runner.
Variable header : string -> option string.
(** Kinds known to the runner, each with its factory *)
Variable kinds : string -> option nat.
(** newInstanceByFullInfo calls NewInstance of the factory: whether it makes an instance of this path and file *)
Variable creates : nat -> string -> string -> bool.

Definition spec_filename : string := "module.yaml".
(** module.go:110-140 InfoByName: path and kind of every place where the module is found *)
Definition info_by_name (paths : list string) (name : string) : outcome (list (string * string)) :=
  if name_is_legal name then Fail
  else Done (flat_map (fun path =>
         let module_path := path ++ "/" ++ name in
         match header (module_path ++ "/" ++ spec_filename) with
         | None => []
         | Some k => match kinds k with None => [] | Some _ => [(module_path, k)] end
         end) paths).
(** module.go:142-148; an instance is given by its factory, path and specification file *)
Definition instance := (nat * string * string)%type.
Definition new_by_full_info (k path spec : string) : outcome instance :=
  match kinds k with
  | None => Fail
  | Some f => if creates f path spec then Done (f, path, spec) else Fail
  end.
(** module.go:184-191 *)
Fixpoint first_instance (infos : list (string * string)) (spec : string) : outcome instance :=
  match infos with
  | [] => Fail
  | (p, k) :: r => match new_by_full_info k p spec with Done i => Done i | Fail => first_instance r spec end
  end.
(** filepath.Dir and filepath.Base of a path with a file name at its end (lines 164-165) *)
Fixpoint split_path (s : string) : option (string * string) :=
  match s with
  | EmptyString => None
  | String c r => match split_path r with
                  | Some (d, b) => Some (String c d, b)
                  | None => if Ascii.eqb c "/" then Some (EmptyString, r) else None
                  end
  end.
Definition dir_base (s : string) : string * string :=
  match split_path s with None => (".", s) | Some (d, b) => ((if String.eqb d "" then "/" else d), b) end.
(** module.go:151-194 NewInstance *)
Definition new_instance (paths : list string) (name spec : string) : outcome instance :=
  if String.eqb name "" then
    match header spec with
    | None => Fail
    | Some k => let '(d, b) := dir_base spec in new_by_full_info k d b
    end
  else if name_is_legal name then Fail
  else
    let spec := if String.eqb spec "" then spec_filename else spec in
    match info_by_name paths name with
    | Fail => Fail
    | Done [] => Fail
    | Done infos => first_instance infos spec
    end.

(** ** gotemplate.go *)
(** lines 21-25 what the specification of a module holds: the modules it includes, whether it has a template that parses (lines 101-103, 130-133) *)
Record spec := { s_include : list string; s_template : bool }.
Variable spec_of : string -> option spec.
(** the "templates" directory below a path: absent, or all its files load, or one of them does not *)
Inductive templates := Absent | Loads | Broken.
Variable dir_of : string -> templates.
(** lines 70-93 handleIncludes; [own]: the path of the module itself *)
Definition handle_includes (own path : string) : bool :=
  match dir_of (path ++ "/templates") with
  | Absent => if String.eqb path own then true else false
  | Loads => true
  | Broken => false
  end.
(** lines 149-160: the places of one included module: where it was loaded from, and how many places failed before *)
Fixpoint load_include (me : nat) (own : string) (infos : list (string * string)) (errs : nat) : option string * nat :=
  match infos with
  | [] => (None, errs)
  | (p, k) :: r =>
    match kinds k with
    | Some f => if Nat.eqb f me then (if handle_includes own p then (Some p, errs) else load_include me own r (S errs))
                else load_include me own r errs
    | None => load_include me own r errs
    end
  end.
(** lines 143-165 one included module: the directory it was loaded from, if any *)
Definition include_module (me : nat) (own : string) (paths : list string) (name : string) : outcome (option string) :=
  match info_by_name paths name with
  | Fail => Fail
  | Done infos => let '(from, errs) := load_include me own infos 0 in
                  if Nat.eqb errs (length infos) then Fail else Done from
  end.
Fixpoint include_all (me : nat) (own : string) (paths : list string) (names : list string) : outcome (list (option string)) :=
  match names with
  | [] => Done []
  | n :: r => match include_module me own paths n with
              | Fail => Fail
              | Done f => match include_all me own paths r with Fail => Fail | Done l => Done (f :: l) end
              end
  end.
(** The working directory: os.Chdir to a directory that does not exist fails and leaves it; relative names are resolved by [enter] *)
Variable enter : string -> string -> option string.
Definition chdir (cwd to : string) : string := match enter cwd to with Some d => d | None => cwd end.
(** tmpl.Execute: output, or an error, given the working directory it runs in *)
Variable execute : string -> outcome string.
(** lines 95-185 Run of an instance, without the settings (MergeAll, area Override, [merged] says whether it succeeds) and with includes
    enabled (lines 44-50); second component: the working directory afterwards; third: where the included modules came from *)
Definition run (i : instance) (paths : list string) (merged : bool) (cwd work_dir : string) : outcome string * string * list (option string) :=
  let '(me, own, file) := i in
  match spec_of (own ++ "/" ++ file) with
  | None => (Fail, cwd, [])
  | Some s =>
    if s_template s then
      if merged then
        if handle_includes own own then
          match include_all me own paths (s_include s) with
          | Fail => (Fail, cwd, [])
          | Done from =>
            let prior := if String.eqb work_dir "" then "" else cwd in
            let here := if String.eqb work_dir "" then cwd else chdir cwd work_dir in
            match execute here with
            | Fail => (Fail, here, from)
            | Done out => (Done out, chdir here prior, from)
            end
          end
        else (Fail, cwd, [])
      else (Fail, cwd, [])
    else (Fail, cwd, [])
  end.
End Runner.

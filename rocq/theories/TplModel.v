(** Executable model of the templates by which the generator answers the requests found in the program:
    modules/metac-reflect-gen/templates/_build_requests.tpl, _entry_db.tpl, _escape_path.tpl and
    _glob_responses.tpl. Their input is the tree of scopes of the type database (pkg/metadb/metadb.go:97-277);
    their output is C source, modelled by the initialised objects it defines.

    Simplified: an item of a hierarchy carries the object it links to (name, scope) and its place with the
    file name already looked up in DeclFiles of the compile unit; the parent of a variable is the scope whose
    hierarchy lists it; a scope is listed once; "path" and "local" of a request, which no template reads, are left out. *)
From Coq Require Import ZArith String Ascii List Bool.
From Verif Require Import EntryModel.
From Verif Require MetadbModel.
Import ListNotations.
Open Scope string_scope.
Open Scope Z_scope.

(** pkg/metadb/metadb.go GetKind of the objects a hierarchy may list *)
Inductive kind := KVariable | KSubprogram | KNamespace | KLexBlock | KStructType | KClassType | KUnionType | KOther.
(** pkg/metadb/metadb.go:97-101 HierarchyItem, with the linked object: kind, id, file, line, name, own hierarchy *)
Inductive item := Item (k : kind) (id : string) (file : option string) (line : option Z) (name : option string) (sub : list item).
Definition i_kind '(Item k _ _ _ _ _) := k.
Definition i_id '(Item _ id _ _ _ _) := id.
Definition i_file '(Item _ _ f _ _ _) := f.
Definition i_line '(Item _ _ _ l _ _) := l.
Definition i_name '(Item _ _ _ _ n _) := n.
Definition i_sub '(Item _ _ _ _ _ s) := s.
(** The compile units in the order in which "range" visits them (by id). *)
Definition unit_ := (string * list item)%type.

(** ** Dictionaries of the templates: sprig's dict, get, set and hasKey, and "range", which visits a map in the
    order of its keys (bytes compared as in strcmp); kept as a list in that order *)
Definition dict (A : Type) := list (string * A).
Fixpoint get {A} (d : dict A) (k : string) : option A :=
  match d with [] => None | (j, v) :: r => if String.eqb k j then Some v else get r k end.
Definition has {A} (d : dict A) (k : string) : bool := match get d k with Some _ => true | None => false end.
Fixpoint set {A} (d : dict A) (k : string) (v : A) : dict A :=
  match d with
  | [] => [(k, v)]
  | (j, w) :: r => match strcmp k j with Lt => (k, v) :: d | Eq => (k, v) :: r | Gt => (j, w) :: set r k v end
  end.

(** toJson of a string without characters that JSON escapes: the string in double quotes *)
Definition quote : string := String """"%char EmptyString.
Definition to_json (s : string) : string := (quote ++ s ++ quote)%string.
(** The value of the C string literal printed from such a text: the characters between the quotes *)
Definition literal (s : string) : string := String.substring 1 (String.length s - 2) s.
(** _escape_path.tpl:1-3 regexReplaceAll: every backslash becomes a slash; then printed between double quotes *)
Fixpoint escape_path (s : string) : string :=
  match s with EmptyString => EmptyString | String c r => String (if Ascii.eqb c "\"%char then "/"%char else c) (escape_path r) end.

(** ** _build_requests.tpl *)
(** sprig's hasPrefix and trimPrefix *)
Fixpoint trim_prefix (p s : string) : option string :=
  match p, s with
  | EmptyString, _ => Some s
  | String c p', String d s' => if Ascii.eqb c d then trim_prefix p' s' else None
  | String _ _, EmptyString => None
  end.
(** regexSplit "_" s 2: the parts before and after the first underscore, if there is one *)
Fixpoint split_first (s : string) : option (string * string) :=
  match s with
  | EmptyString => None
  | String c r => if Ascii.eqb c "_"%char then Some (EmptyString, r)
                  else match split_first r with Some (a, b) => Some (String c a, b) | None => None end
  end.
(** the dictionary $reference (lines 40-46); rq_siblings is the hierarchy of the parent of the variable *)
Record request := { rq_type : string; rq_name : string; rq_module : string; rq_cu : string; rq_item : item; rq_siblings : list item }.
(** lines 27-30 the prefix of the names of the requests of a module *)
Definition request_prefix (m : string) : string := if String.eqb m "" then "metac__" else ("metac__" ++ m ++ "_")%string.
(** lines 32-55 one item that is a variable *)
Definition request_of (m cu : string) (h : list item) (i : item) : list request :=
  match i_kind i with
  | KVariable =>
    match i_name i with
    | None => []
    | Some n =>
      match trim_prefix (request_prefix m) n with
      | None => []
      | Some s => match split_first s with
                  | None => []
                  | Some (t, r) => [Build_request t r m cu i h]
                  end
      end
    end
  | _ => []
  end.
(** line 56 the kinds that have a hierarchy of their own *)
Definition is_scope (k : kind) : bool :=
  match k with KSubprogram | KNamespace | KLexBlock | KStructType | KClassType | KUnionType => true | _ => false end.
(** lines 19-85 build_requests_hierarchy; the requests are listed in the order in which they are appended *)
Fixpoint requests_below (m cu : string) (h : list item) (i : item) : list request :=
  match i with
  | Item k _ _ _ _ sub => (request_of m cu h i ++ (if is_scope k then flat_map (requests_below m cu sub) sub else []))%list
  end.
Definition requests_of (m : string) (cus : list unit_) : list request :=
  flat_map (fun '(cu, h) => flat_map (requests_below m cu h) h) cus.
(** lines 87-96 module_name: the known modules *)
Definition modules (cus : list unit_) : dict unit :=
  fold_left (fun d r => set d (rq_name r) tt)
            (filter (fun r => String.eqb (rq_type r) "module") (requests_of "" cus)) (set [] "dflt" tt).
(** lines 3-17 build_requests: the requests of all modules (resDict keeps them by type) *)
Definition build_requests (cus : list unit_) : list request :=
  flat_map (fun '(m, _) => requests_of m cus) (modules cus).
Definition of_type (t : string) (l : list request) : list request := filter (fun r => String.eqb (rq_type r) t) l.

(** ** _entry_db.tpl *)
(** lines 14-22, 156-163 and 175-182: the place of an item, with the values used when the data are absent *)
Definition place (i : item) : string * Z :=
  (match i_file i with Some f => f | None => ""%string end, match i_line i with Some l => l | None => -1 end).
Definition same_place (a b : string * Z) : bool := String.eqb (fst a) (fst b) && (snd a =? snd b).
(** lines 104-144 the parent's hierarchy, 146-191 add_all_siblings *)
Definition add_sibling (p : string * Z) (vars : dict string) (i : item) : dict string :=
  match i_kind i with
  | KVariable | KSubprogram =>
    if same_place p (place i) then
      match i_name i with
      | Some n => if has vars (i_id i) then vars else set vars (i_id i) (to_json n)
      | None => vars
      end
    else vars
  | _ => vars
  end.
Definition siblings (p : string * Z) (h : list item) : dict string := fold_left (add_sibling p) h [].
(** lines 41-55: one declaration goes into the database *)
Definition database := dict (dict (dict (list string))).
Definition add_entry (file sloc : string) (edb : database) '(id, name) : database :=
  match get edb file with
  | Some edbf =>
    match get edbf sloc with
    | Some edbfl =>
      match get edbfl name with
      | None => set edb file (set edbf sloc (set edbfl name [id]))
      | Some l => set edb file (set edbf sloc (set edbfl name (l ++ [id])%list))
      end
    | None => set edb file (set edbf sloc [(name, [id])])
    end
  | None => set edb file [(sloc, [(name, [id])])]
  end.
(** lines 12-58: one request; None: the template fails. [seen] is reqLocAndNameDict *)
Definition loc_and_name (p : string * Z) (n : string) : string := (fst p ++ ":" ++ MetadbModel.dec (snd p) ++ " " ++ n)%string.
Definition add_request (st : option (dict string * database)) (r : request) : option (dict string * database) :=
  match st with
  | None => None
  | Some (seen, edb) =>
    let p := place (rq_item r) in
    let key := loc_and_name p (rq_name r) in
    if has seen key then None
    else
      let sloc := match i_name (rq_item r) with Some n => to_json n | None => "null"%string end in
      Some (set seen key (rq_name r), fold_left (add_entry (fst p) sloc) (siblings p (rq_siblings r)) edb)
  end.
(** lines 2-59 the whole database of a module *)
Definition entry_db_of (m : string) (cus : list unit_) : option database :=
  match fold_left add_request (filter (fun r => String.eqb (rq_module r) m) (of_type "entry" (build_requests cus))) (Some ([], [])) with
  | Some (_, edb) => Some edb
  | None => None
  end.
(** lines 60-94 the printed initialiser, read by the C compiler; [obj] gives the object a C name denotes. When the
    database is empty nothing is printed; searching it is modelled as searching no files *)
Definition compiled (obj : string -> ref) (edb : database) : entry_db :=
  map (fun '(file, dfile) =>
    (escape_path file, map (fun '(loc, dloc) =>
       (literal loc, map (fun '(name, l) => (literal name, map obj l)) dloc)) dfile)) edb.

(** ** _glob_responses.tpl *)
(** lines 25-53 glob_responses_hierarchy: the definitions printed for one hierarchy: the name given to the macro and the object.
    What is included for a namespace is dropped there. *)
Definition answers_in (name : string) (h : list item) : list (string * string) :=
  flat_map (fun i => match i_kind i with
                     | KVariable | KSubprogram =>
                       match i_name i with Some n => if String.eqb (to_json name) (to_json n) then [(n, i_id i)] else [] | None => [] end
                     | _ => []
                     end) h.
(** lines 12-19 when the unit of the request has none, all units are tried in order *)
Fixpoint first_answers (name : string) (cus : list unit_) : list (string * string) :=
  match cus with
  | [] => []
  | (_, h) :: r => match answers_in name h with [] => first_answers name r | l => l end
  end.
Definition answers (cus : list unit_) (r : request) : list (string * string) :=
  match find (fun '(id, _) => String.eqb id (rq_cu r)) cus with
  | None => []
  | Some (_, h) => match answers_in (rq_name r) h with [] => first_answers (rq_name r) cus | l => l end
  end.
(** lines 2-23: all definitions, each "struct metac_entry *METAC_GSYM_NAME(name) = &id;" *)
Definition glob_responses (cus : list unit_) : list (string * string) := flat_map (answers cus) (of_type "gsym" (build_requests cus)).

(** Executable model of two lists the generator prints: the database of names
    (modules/metac-reflect-gen/templates/_db_v0.tpl with include/metac/reflect/db.h) and the tests that the
    generated main function runs (modules/metac-test-gen/templates with include/metac/test.h).

    Simplified: names hold no character that JSON or C escape; macros of a program do not rename what the printed macros get. *)
From Coq Require Import ZArith String Ascii List Bool.
From Verif Require Import Base EntryModel TplModel.
Import ListNotations.
Open Scope string_scope.
Open Scope Z_scope.

(** ** _db_v0.tpl *)
(** What one kind of objects ("range" over the map: in the order of ids) gives: id and Name, absent when nil
    (an empty Name of a compile unit is treated in the same way, line 38). *)
Definition thing := (string * option string)%type.
(** lines 37-40 *)
Definition key_of (n : option string) : string := match n with Some s => to_json s | None => to_json "" end.
(** lines 41-45 *)
Definition add_name (d : dict (list string)) (t : thing) : dict (list string) :=
  let k := key_of (snd t) in
  match get d k with
  | Some l => set d k (l ++ [fst t])%list
  | None => set d k [fst t]
  end.
(** lines 35-46 *)
Definition name_to_entries (l : list thing) : dict (list string) := fold_left add_name l [].
(** reflect/db.h:11-19 struct name_to_entries: the count and the items, each with name, count and entries *)
Record names := { n_count : Z; n_items : list (string * (Z * list ref)) }.
(** lines 34, 47-63 the printed initialiser; a kind without objects is left out, so its part is zero.
    [obj] gives the object a C name denotes. *)
Definition printed_names (obj : string -> ref) (l : list thing) : names :=
  if (Z.of_nat (length l) =? 0) then {| n_count := 0; n_items := [] |}
  else let d := name_to_entries l in
       {| n_count := Z.of_nat (length d);
          n_items := map (fun '(k, ids) => (literal k, (Z.of_nat (length ids), map obj ids))) d |}.

(** The symbol METAC_DB_NAME() stands for in a file compiled for module [m]: reflect/db.h:43, reqresp.h:58-59 *)
Definition db_symbol (m : string) : string := ("metac_" ++ m ++ "_db_dflt")%string.
(** lines 5-14: what is printed on account of the requests of the program, in a generated file that is compiled for module [gm].
    None: the template fails; Some None: nothing is printed; Some (Some s): the structure is defined under symbol s *)
Definition db_defined (gm : string) (cus : list unit_) : option (option string) :=
  match of_type "db" (build_requests cus) with
  | [] => Some None
  | r :: l => if forallb (fun q => String.eqb (rq_name r) (rq_name q)) (r :: l) then Some (Some (db_symbol gm)) else None
  end.
(** reflect/db.h:33-38 the first bytes of the object defined at [a] (line 14: struct metac_db, not a pointer): version, an int
    that is 0 (line 15), then the padding before the union, which compilers fill with zero bytes *)
Definition db_image (m : mem) (a : Z) : Prop := load m a 4 = 0 /\ load m (a + 4) 4 = 0.
(** reflect/db.h:48-63 METAC_DB_LINK() and METAC_DB_LINK_PTR() in a file compiled for module [pm]: the declaration says that the symbol is
    a pointer, so eight bytes at its address are read. [sym]: addresses of the symbols of the linked program; None: the program does not link *)
Definition db_link_ptr (sym : string -> option Z) (m : mem) (pm : string) : option Z :=
  match sym (db_symbol pm) with
  | None => None
  | Some pp => Some (if pp =? 0 then 0 else load m pp 8)
  end.

(** ** metac-test-gen *)
(** _build_requests.tpl:7-25 one item of the hierarchy of a compile unit *)
Definition test_of (i : item) : list string :=
  match i_kind i, i_name i with
  | KVariable, Some n =>
    match trim_prefix "metac__" n with
    | None => []
    | Some s => match split_first s with
                | None => []
                | Some (t, r) => if String.eqb t "test" then [r] else []
                end
    end
  | _, _ => []
  end.
(** lines 5-6, 15-21: the only key is "test", its list is appended to *)
Definition tests (cus : list unit_) : list string := flat_map (fun '(_, h) => flat_map test_of h) cus.
(** _.tpl:23-27 the tests main adds, in order: the values of the variables METAC_REQUEST(test, name) (reqresp.h:50-51) *)
Definition main_tests {T} (value : string -> T) (cus : list unit_) : list T :=
  map (fun r => value ("metac__" ++ "test" ++ "_" ++ r)%string) (tests cus).

(** Executable model of the tag maps in src/entry_tag.c:31-274.

    Simplifications (whole file):
    - the Hashmap of a category is the association list of its bindings; that the hash map behaves like one
      is C01/C02 (the hash function addr_ptr_key_hash_tags is a function of the key);
    - keys are entry pointers: equal for static entries iff they are the same entry; an entry made at run
      time ([Dy]) has its own fresh address and is in no map;
    - an external map is represented by its content at the time of the call;
    - allocation outcomes are arguments; heap blocks of tags are counted, contexts passed to a free handler
      are listed in order. *)
From Coq Require Import ZArith String List Bool.
From Verif Require Import Base EntryModel.
Import ListNotations.
Open Scope Z_scope.

(** include/metac/reflect/entry_tag.h metac_entry_tag_t: the text, the handler (a code address), the context
    pointer (0 is NULL) and whether context_free_handler is set *)
Record tag := { t_string : option string; t_handler : Z; t_context : Z; t_free : bool }.
(** src/entry_tag.c:38-46 struct metac_tag_map: categories with a mask and either an external or an own map *)
Inductive tmap := TMap (cats : list cat) (default : option tag)
with cat := Ext (mask : Z) (m : tmap) | Own (mask : Z) (binds : list (eptr * tag)).

(** include/metac/reflect/entry_tag.h:140-151 categories and masks *)
Definition TEC_variable := 0. Definition TEC_func_parameter := 1. Definition TEC_member := 2. Definition TEC_final := 3.
Definition mask_of (x : Z) : Z := Z.shiftl 1 x.
(** src/entry_tag.c:161-172 the mask of the kind of the entry *)
Definition kind_mask (d : db) (p : option eptr) : Z :=
  let k := entry_kind d p in
  if k =? KND_member then mask_of TEC_member
  else if k =? KND_variable then mask_of TEC_variable
  else if k =? KND_func_parameter then mask_of TEC_func_parameter else 0.

(** src/entry_tag.c:34-36 addr_ptr_key_equals_tags *)
Definition same_entry (a b : eptr) : bool := match a, b with St x, St y => Nat.eqb x y | _, _ => false end.
(** hashmapGet on the bindings *)
Fixpoint get (l : list (eptr * tag)) (e : eptr) : option tag :=
  match l with [] => None | (k, t) :: r => if same_entry k e then Some t else get r e end.

Local Open Scope res_scope.
(** src/entry_tag.c:188-203 lookup in an own category *)
Definition own_lookup (fuel : nat) (d : db) (mask : Z) (l : list (eptr * tag)) (e : eptr) : res (option tag) :=
  match get l e with
  | Some t => Ret (Some t)
  | None =>
    if Z.land mask (mask_of TEC_final) =? 0 then Ret None
    else do f <- final_entry fuel d (Some e) no_quals;
         Ret (match fst f with None => None | Some g => get l g end)
  end.
(** src/entry_tag.c:149-207 metac_tag_map_tag; [ndebug]: compiled with NDEBUG, i.e. assert(0) of line 185 does
    nothing *)
Fixpoint tag_map_tag (ndebug : bool) (fuel : nat) (d : db) (m : tmap) (e : eptr) : res (option tag) :=
  match m with
  | TMap cats default =>
    (fix loop (l : list cat) : res (option tag) :=
       match l with
       | [] => Ret default
       | Ext mask x :: r =>
           if Z.land mask (kind_mask d (Some e)) =? 0 then loop r
           else do t <- tag_map_tag ndebug fuel d x e;
                match t with
                | Some t => Ret (Some t)
                | None => if ndebug then loop r else Abort
                end
       | Own mask binds :: r =>
           if Z.land mask (kind_mask d (Some e)) =? 0 then loop r
           else do t <- own_lookup fuel d mask binds e;
                match t with Some t => Ret (Some t) | None => loop r end
       end) cats
  end.

(** blocks of a tag: itself and its text, src/entry_tag.c:48-62 _entry_new_tag *)
Definition blocks (t : tag) : Z := 1 + match t_string t with Some _ => 1 | None => 0 end.
(** what 64-77 _entry_tag_delete passes to the context's free handler *)
Definition released (t : tag) : list Z := if negb (t_context t =? 0) && t_free t then [t_context t] else [].

(** outcomes of the allocations of one call: calloc of the tag, strdup, malloc inside hashmapPut *)
Record allocs := { a_tag : bool; a_str : bool; a_put : bool }.
(** what a call does besides its result: change of the number of live blocks, contexts released *)
Record effect := { f_blocks : Z; f_released : list Z }.
Definition nothing := Build_effect 0 [].

(** hashmapPut on the bindings: overwrite in place or append *)
Fixpoint put (l : list (eptr * tag)) (e : eptr) (t : tag) : list (eptr * tag) :=
  match l with [] => [(e, t)] | (k, u) :: r => if same_entry k e then (k, t) :: r else (k, u) :: put r e t end.
(** src/entry_tag.c:209-238 _tag_map_set_tag *)
Definition set_tag_in (l : list (eptr * tag)) (override : bool) (e : eptr) (t : tag) (a : allocs)
  : res (Z * list (eptr * tag) * effect) :=
  if negb override && match get l e with Some _ => true | None => false end then Ret (- EALREADY, l, nothing)
  else if negb (a_tag a) then Ret (- ENOMEM, l, nothing)
  else if match t_string t with Some _ => negb (a_str a) | None => false end then Ret (- ENOMEM, l, nothing)
  else match get l e with
       | None => if a_put a then Ret (0, put l e t, Build_effect (blocks t) [])
                 else Ret (- EFAULT, l, Build_effect (blocks t - 1) [])  (* line 228 frees the tag, not its text *)
       | Some old => if override then Ret (0, put l e t, Build_effect (blocks t - blocks old) (released old)) else Abort
       end.

(** category by index *)
Fixpoint upd_cat (l : list cat) (i : nat) (c : cat) : list cat :=
  match l, i with [], _ => [] | _ :: r, O => c :: r | x :: r, S j => x :: upd_cat r j c end.
Definition TEO_entry := 1. Definition TEO_final_entry := 2.
(** src/entry_tag.c:240-274 metac_tag_map_set_tag; [p_entry], [p_tag] may be NULL *)
Definition set_tag (fuel : nat) (d : db) (m : tmap) (category : Z) (override : bool) (p_entry : option eptr) (op : Z)
  (p_tag : option tag) (a : allocs) : res (Z * tmap * effect) :=
  match m with
  | TMap cats default =>
    match p_entry, p_tag with
    | Some e, Some t =>
      if (category <? 0) || (Z.of_nat (length cats) <=? category) then Ret (- EINVAL, m, nothing)
      else match nth_error cats (Z.to_nat category) with
           | Some (Own mask binds) =>
             let store e := do r <- set_tag_in binds override e t a;
                            let '(s, l, f) := r in
                            Ret (s, TMap (upd_cat cats (Z.to_nat category) (Own mask l)) default, f) in
             if op =? TEO_entry then store e
             else if op =? TEO_final_entry then
               do g <- final_entry fuel d (Some e) no_quals;
               match fst g with None => Ret (- EFAULT, m, nothing) | Some e' => store e' end
             else Ret (0, m, nothing)
           | _ => Ret (- EINVAL, m, nothing)
           end
    | _, _ => Ret (- EINVAL, m, nothing)
    end
  end.

(** src/entry_tag.c:101-138 metac_new_tag_map_ex: [cs] gives mask and external map of each category; all
    allocations succeed iff [a] (otherwise NULL and everything is released again) *)
Definition new_tag_map_ex (cs : list (Z * option tmap)) (default : option tag) (a : bool) : option (tmap * effect) :=
  match cs with
  | [] => None
  | _ => if a then
           Some (TMap (map (fun c => match snd c with Some x => Ext (fst c) x | None => Own (fst c) [] end) cs) default,
                 Build_effect (match default with Some t => blocks t | None => 0 end) [])
         else None
  end.
(** src/entry_tag.c:140-147 metac_new_tag_map *)
Definition new_tag_map (default : option tag) (a : bool) :=
  new_tag_map_ex [(Z.lor (Z.lor (mask_of TEC_variable) (mask_of TEC_func_parameter)) (mask_of TEC_member), None)] default a.
(** src/entry_tag.c:79-99 metac_tag_map_delete: blocks of tags and contexts released; external maps stay *)
Definition delete_binds (l : list (eptr * tag)) : effect :=
  Build_effect (- fold_right Z.add 0 (map (fun b => blocks (snd b)) l)) (flat_map (fun b => released (snd b)) l).
Definition join (f g : effect) : effect := Build_effect (f_blocks f + f_blocks g) (f_released f ++ f_released g).
Definition delete_cat (c : cat) : effect := match c with Ext _ _ => nothing | Own _ l => delete_binds l end.
Definition delete_map (m : tmap) : effect :=
  match m with
  | TMap cats default =>
      join (fold_right (fun c f => join (delete_cat c) f) nothing cats)
           (match default with Some t => Build_effect (- blocks t) (released t) | None => nothing end)
  end.

(** a client: calls of metac_tag_map_set_tag with the given arguments, one after the other *)
Record call := { k_category : Z; k_override : bool; k_entry : option eptr; k_op : Z; k_tag : option tag; k_allocs : allocs }.
Fixpoint run_calls (fuel : nat) (d : db) (m : tmap) (l : list call) : res (list Z * tmap * effect) :=
  match l with
  | [] => Ret ([], m, nothing)
  | c :: r =>
      do x <- set_tag fuel d m (k_category c) (k_override c) (k_entry c) (k_op c) (k_tag c) (k_allocs c);
      let '(s, m1, f) := x in
      do y <- run_calls fuel d m1 r;
      let '(ss, m2, g) := y in Ret (s :: ss, m2, join f g)
  end.

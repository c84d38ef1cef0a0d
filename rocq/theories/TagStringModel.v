(** Executable model of metac_entry_tag_string_lookup (src/entry_tag.c:276-349).

    Strings are lists of characters (numbers) without the terminating NUL. The three NULL checks at
    the top and the failure of the allocation inside _strndup are not modelled. *)
From Coq Require Import ZArith List Bool.
Import ListNotations.
Open Scope Z_scope.

Inductive res := Found (v : list Z) | Null | OOB.

(** The bytes [begin .. begin+len) of the tag string as read by memcmp (331) and _strndup (335);
    [None] when they are not all inside the string. *)
Definition sub (t : list Z) (begin len : Z) : option (list Z) :=
  if (0 <=? begin) && (0 <=? len) && (begin + len <=? Z.of_nat (length t))
  then Some (firstn (Z.to_nat len) (skipn (Z.to_nat begin) t)) else None.

Fixpoint same (a b : list Z) : bool :=
  match a, b with
  | [], [] => true
  | x :: a, y :: b => (x =? y) && same a b
  | _, _ => false
  end.

(** src/entry_tag.c:283-287 the variables of the loop; indices start as -1 (never read then: proved). *)
Record st := St { state : Z; kb : Z; kl : Z; vb : Z }.
Definition st0 : st := St 0 (-1) 0 (-1).

(** src/entry_tag.c:289-347: [rest] are the characters from position [i] on. *)
Fixpoint loop (t key rest : list Z) (i : Z) (s : st) : res :=
  match rest with
  | [] => Null
  | c :: r =>
    let go s' := loop t key r (i + 1) s' in
    if state s =? -1 then (if negb (c =? 32) then go s else go (St 0 (kb s) (kl s) (vb s)))
    else if state s =? 0 then (if c =? 32 then go s else go (St 1 i (kl s) (vb s)))
    else if state s =? 1 then
      (if c =? 32 then go (St 0 (kb s) (kl s) (vb s))
       else if c =? 58 then go (St 2 (kb s) (i - kb s) (vb s))
       else go s)
    else if state s =? 2 then
      (if negb (c =? 34) then go (St (-1) (kb s) (kl s) (vb s)) else go (St 3 (kb s) (kl s) i))
    else if state s =? 3 then
      (if c =? 92 then go (St 4 (kb s) (kl s) (vb s))
       else if c =? 34 then
         (if Z.of_nat (length key) =? kl s then
            match sub t (kb s) (kl s) with
            | None => OOB
            | Some k => if same k key then
                          match sub t (vb s + 1) (i - vb s - 1) with None => OOB | Some v => Found v end
                        else go (St 0 (kb s) (kl s) (vb s))
            end
          else go (St 0 (kb s) (kl s) (vb s)))
       else go s)
    else (* 4 *) go (St 3 (kb s) (kl s) (vb s))
  end.

(** src/entry_tag.c:276-349 *)
Definition lookup (t key : list Z) : res := loop t key t 0 st0.

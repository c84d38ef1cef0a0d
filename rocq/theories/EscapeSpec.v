(** Reading a C string literal back: the escape sequences of the C standard (without octal, hex and universal names). *)
From Coq Require Import ZArith List.
Import ListNotations.
Open Scope Z_scope.

Definition unescape1 (c : Z) : option Z :=
  match c with
  | 110 => Some 10 | 116 => Some 9 | 114 => Some 13 | 98 => Some 8 | 102 => Some 12 | 118 => Some 11 | 97 => Some 7
  | 92 => Some 92 | 39 => Some 39 | 34 => Some 34 | 63 => Some 63 | _ => None
  end.
(** The text between the quotes of a literal; [None] when it is not a valid literal body: an
    unescaped quote or a bad escape or a character that is not printable. *)
Fixpoint unescape (s : list Z) : option (list Z) :=
  match s with
  | [] => Some []
  | 92 :: r => match r with
               | [] => None
               | e :: r' => match unescape1 e, unescape r' with Some c, Some l => Some (c :: l) | _, _ => None end
               end
  | 34 :: _ => None
  | c :: r => if Z.ltb c 32 then None else if Z.ltb 126 c then None else option_map (cons c) (unescape r)
  end.
(** Characters a literal can show: printable ones and those with a one letter escape. *)
Definition presentable (c : Z) : Prop := 32 <= c <= 126 \/ 7 <= c <= 13.

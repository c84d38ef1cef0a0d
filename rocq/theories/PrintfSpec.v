(** Specification side of printf formats: formats as lists of pieces, after C11 7.21.6.1. *)
From Coq Require Import ZArith List Bool.
Import ListNotations.
From Verif Require Import PrintfModel.
Open Scope Z_scope.

(** A conversion specification: flag characters, width digits (no leading zero, possibly none),
    optional precision digits, length modifier, conversion letter. *)
Record directive := Dir { dflags : list Z; dwidth : list Z; dprec : option (list Z); dlen : arg_len; dconv : Z }.

Definition len_text (a : arg_len) : list Z :=
  match a with psal_no => [] | psal_h => [104] | psal_hh => [104; 104] | psal_l => [108]
             | psal_ll => [108; 108] | psal_L => [76] end.
Definition text (d : directive) : list Z :=
  37 :: dflags d ++ dwidth d ++ match dprec d with None => [] | Some p => 46 :: p end ++ len_text (dlen d) ++ [dconv d].

Definition is_flag (c : Z) : Prop := c = 43 \/ c = 45 \/ c = 35 \/ c = 48 \/ c = 32.
Definition is_digit (c : Z) : Prop := 48 <= c <= 57.
(** Conversion letters: any letter but the length modifiers. *)
Definition is_conv (c : Z) : Prop := (65 <= c <= 90 \/ 97 <= c <= 122) /\ c <> 104 /\ c <> 108 /\ c <> 76.

(** The number a string of decimal digits denotes. *)
Definition decimal (ds : list Z) : Z := fold_left (fun a c => 10 * a + (c - 48)) ds 0.

Record well_formed (d : directive) : Prop := {
  wf_flags : Forall is_flag (dflags d);
  wf_width : Forall is_digit (dwidth d) /\ hd_error (dwidth d) <> Some 48 /\ decimal (dwidth d) <= 2147483647;
  wf_prec : forall p, dprec d = Some p -> Forall is_digit p /\ decimal p <= 2147483647;
  wf_conv : is_conv (dconv d) }.

(** What a parser should report. *)
Definition has (c : Z) (l : list Z) : bool := existsb (Z.eqb c) l.
Definition meaning (d : directive) : specifier :=
  Spec (Flags (has 43 (dflags d)) (has 45 (dflags d)) (has 35 (dflags d)) (has 48 (dflags d)) (has 32 (dflags d)))
       (decimal (dwidth d)) (match dprec d with None => -1 | Some p => decimal p end) (dlen d) (dconv d).

(** Formats. *)
Inductive piece := Lit (l : list Z) | PP | Conv (d : directive).
Definition piece_text (p : piece) : list Z :=
  match p with Lit l => l | PP => [37; 37] | Conv d => text d end.
Definition format_text (ps : list piece) : list Z := flat_map piece_text ps.
Definition wf_piece (p : piece) : Prop :=
  match p with Lit l => Forall (fun c => c <> 37) l | PP => True | Conv d => well_formed d end.
Definition conversions (ps : list piece) : list directive :=
  flat_map (fun p => match p with Conv d => [d] | _ => [] end) ps.

(** Every conversion is followed by some literal text or the end of the format. *)
Fixpoint separated (ps : list piece) : Prop :=
  match ps with
  | [] => True
  | Conv _ :: r => (r = [] \/ exists c l r', r = Lit (c :: l) :: r') /\ separated r
  | _ :: r => separated r
  end.

(** The C type a conversion demands (7.21.6.1 paragraphs 7 and 8), for all conversions but the wide
    character ones and %s. *)
Definition table : list (list Z * list (arg_len * ctype)) :=
  [ ([100; 105], [(psal_hh, TChar); (psal_h, TShort); (psal_no, TInt); (psal_l, TLong); (psal_ll, TLLong)]);
    ([111; 117; 120; 88], [(psal_hh, TUChar); (psal_h, TUShort); (psal_no, TUInt); (psal_l, TULong); (psal_ll, TULLong)]);
    ([99], [(psal_no, TChar)]);
    ([101; 102; 103; 69; 70; 71; 97; 65], [(psal_no, TDouble); (psal_l, TDouble); (psal_L, TLDouble)]);
    ([112], [(psal_no, TVoidP)]);
    ([110], [(psal_hh, TCharP); (psal_h, TShortP); (psal_no, TIntP); (psal_l, TLongP); (psal_ll, TLLongP)]) ].
Definition demanded (d : directive) (ty : ctype) : Prop :=
  exists row, In row table /\ In (dconv d) (fst row) /\ In (dlen d, ty) (snd row).

(** [stores d a p]: argument [a] is right for [d] and [p] is the parameter holding it, converted to the
    type the conversion demands, in a buffer that is large enough. *)
Inductive stores : directive -> arg -> param -> Prop :=
| StS32 d z v ty bits : demanded d ty -> In (ty, bits) [(TChar, 8); (TShort, 16); (TInt, 32)] ->
    (v - z) mod 2 ^ bits = 0 -> - 2 ^ (bits - 1) <= v < 2 ^ (bits - 1) -> stores d (A32 z) (Param ty (bits / 8) (CNum v))
| StU32 d z v ty bits : demanded d ty -> In (ty, bits) [(TUChar, 8); (TUShort, 16); (TUInt, 32)] ->
    (v - z) mod 2 ^ bits = 0 -> 0 <= v < 2 ^ bits -> stores d (A32 z) (Param ty (bits / 8) (CNum v))
| StS64 d z v ty : demanded d ty -> In ty [TLong; TLLong] ->
    (v - z) mod 2 ^ 64 = 0 -> - 2 ^ 63 <= v < 2 ^ 63 -> stores d (A64 z) (Param ty 8 (CNum v))
| StU64 d z v ty : demanded d ty -> In ty [TULong; TULLong] ->
    (v - z) mod 2 ^ 64 = 0 -> 0 <= v < 2 ^ 64 -> stores d (A64 z) (Param ty 8 (CNum v))
| StDbl d x : demanded d TDouble -> stores d (ADbl x) (Param TDouble 8 (CNum x))
| StLDbl d x : demanded d TLDouble -> stores d (ALDbl x) (Param TLDouble 16 (CNum x))
| StPtr d p ty : demanded d ty -> In ty [TVoidP; TCharP; TShortP; TIntP; TLongP; TLLongP] ->
    stores d (APtr p) (Param ty 8 (CPtr p))
| StNull d : dconv d = 115 -> dlen d = psal_no -> stores d (AStr None) (Param TCharP 8 (CPtr 0))
| StStr d b size : dconv d = 115 -> dlen d = psal_no -> Z.of_nat (length b) + 1 <= size ->
    stores d (AStr (Some b)) (Param (TCharArr (Z.of_nat (length b) + 1)) size (CBytes (b ++ [0]))).

(** The argument has the class the conversion takes from the argument list. *)
Definition fits (d : directive) (a : arg) : Prop := exists p, stores d a p.

(** Executable model of how the arguments of a wrapped call reach the library: the calling convention of x86-64 (System V psABI, 3.2.3 Parameter Passing,
    3.5.7 Variable Argument Lists), the calls of va_arg in src/value_with_args.c:325-438 and the functions the generator prints for structures
    (modules/metac-reflect-gen/templates/_struct_type.tpl:9-19).

    Simplifications (whole file):
    - a type is its size, alignment (up to 16) and the scalars in it after flattening structures, unions and arrays; vector types are left out;
    - bytes of padding are 0; an eightbyte without scalar counts as one of class SSE;
    - the area of the arguments on the stack starts at a multiple of 16 and is a list of bytes; registers are lists of eight bytes. *)
From Coq Require Import ZArith List Bool Arith.
Import ListNotations.

(** scalars: integers, pointers, _Bool and enumerations; float and double; long double *)
Inductive prim := Integer | Sse | X87.
Record leaf := { l_off : nat; l_size : nat; l_prim : prim }.
Record layout := { y_size : nat; y_align : nat; y_leaves : list leaf }.

(** the registers of a class *)
Inductive reg := Gp | Fp.
Definition is_integer (l : leaf) : bool := match l_prim l with Integer => true | _ => false end.
Definition is_x87 (l : leaf) : bool := match l_prim l with X87 => true | _ => false end.
(** the alignment of a scalar is its size (long double: 16) *)
Definition unaligned (l : leaf) : bool := negb (Nat.eqb (l_off l mod (match l_prim l with X87 => 16 | _ => l_size l end)) 0).
(** the scalar has bytes in eightbyte k *)
Definition touches (k : nat) (l : leaf) : bool := (l_off l <? 8 * k + 8) && (8 * k <? l_off l + l_size l).
Definition eightbyte (t : layout) (k : nat) : reg := if existsb (fun l => touches k l && is_integer l) (y_leaves t) then Gp else Fp.
Definition eightbytes (n : nat) : nat := (n + 7) / 8.
(** psABI 3.2.3 Classification; None: class MEMORY (an argument of class X87 or COMPLEX_X87 is passed in memory as well) *)
Definition classify (t : layout) : option (list reg) :=
  if (16 <? y_size t) || existsb unaligned (y_leaves t) || existsb is_x87 (y_leaves t) then None
  else Some (map (eightbyte t) (seq 0 (eightbytes (y_size t)))).

Definition reg_eqb (a b : reg) : bool := match a, b with Gp, Gp | Fp, Fp => true | _, _ => false end.
Definition count (c : reg) (cs : list reg) : nat := length (filter (reg_eqb c) cs).
(** six registers for class INTEGER, eight for class SSE; the argument is in registers only if all of it fits: psABI 3.2.3 Passing *)
Definition fit (cs : list reg) (gp fp : nat) : bool := (gp + count Gp cs <=? 6) && (fp + count Fp cs <=? 8).
Definition round_up (n a : nat) : nat := n + (a - n mod a) mod a.
(** alignment of an argument on the stack *)
Definition stack_align (t : layout) : nat := if 8 <? y_align t then 16 else 8.

(** The arguments of a call in registers and on the stack *)
Record frame := { f_gp : list (list Z); f_fp : list (list Z); f_stack : list Z }.
Definition push (c : reg) (w : list Z) (f : frame) : frame :=
  match c with
  | Gp => {| f_gp := f_gp f ++ [w]; f_fp := f_fp f; f_stack := f_stack f |}
  | Fp => {| f_gp := f_gp f; f_fp := f_fp f ++ [w]; f_stack := f_stack f |}
  end.
Definition fill (n : nat) (b : list Z) : list Z := b ++ repeat 0%Z (n - length b).
Fixpoint put_regs (cs : list reg) (b : list Z) (f : frame) : frame :=
  match cs with [] => f | c :: r => put_regs r (skipn 8 b) (push c (fill 8 (firstn 8 b)) f) end.
Definition put_stack (t : layout) (b : list Z) (f : frame) : frame :=
  let start := round_up (length (f_stack f)) (stack_align t) in
  {| f_gp := f_gp f; f_fp := f_fp f; f_stack := fill (round_up (start + length b) 8) (fill start (f_stack f) ++ b) |}.
(** the caller passes one more argument: psABI 3.2.3 Passing *)
Definition pass (f : frame) (t : layout) (b : list Z) : frame :=
  match classify t with
  | Some cs => if fit cs (length (f_gp f)) (length (f_fp f)) then put_regs cs b f else put_stack t b f
  | None => put_stack t b f
  end.

(** va_list: gp_offset / 8, (fp_offset - 48) / 16, overflow_arg_area *)
Record cursor := { c_gp : nat; c_fp : nat; c_off : nat }.
Fixpoint take_regs (cs : list reg) (gp fp : nat) (f : frame) : option (list Z) :=
  match cs with
  | [] => Some []
  | Gp :: r => match nth_error (f_gp f) gp with None => None | Some w => option_map (app w) (take_regs r (S gp) fp f) end
  | Fp :: r => match nth_error (f_fp f) fp with None => None | Some w => option_map (app w) (take_regs r gp (S fp) f) end
  end.
Definition take_stack (t : layout) (f : frame) (v : cursor) : option (list Z * cursor) :=
  let start := round_up (c_off v) (stack_align t) in
  let b := firstn (y_size t) (skipn start (f_stack f)) in
  if Nat.eqb (length b) (y_size t) then Some (b, {| c_gp := c_gp v; c_fp := c_fp v; c_off := round_up (start + y_size t) 8 |}) else None.
(** va_arg(v, t): psABI 3.5.7; None: what is read was not passed *)
Definition va_arg (t : layout) (f : frame) (v : cursor) : option (list Z * cursor) :=
  match classify t with
  | Some cs => if fit cs (c_gp v) (c_fp v)
               then match take_regs cs (c_gp v) (c_fp v) f with
                    | Some b => Some (firstn (y_size t) b, {| c_gp := c_gp v + count Gp cs; c_fp := c_fp v + count Fp cs; c_off := c_off v |})
                    | None => None
                    end
               else take_stack t f v
  | None => take_stack t f v
  end.

(** An argument: whether its type is a structure or union, its type and its bytes *)
Record arg := { g_struct : bool; g_type : layout; g_bytes : list Z }.
(** modules/metac-reflect-gen/templates/_struct_type.tpl:11: struct _dummy_X { char _data_[ N ]; } *)
Definition stand_in (t : layout) : layout :=
  {| y_size := y_size t; y_align := 1; y_leaves := map (fun i => {| l_off := i; l_size := 1; l_prim := Integer |}) (seq 0 (y_size t)) |}.
(** the type the library reads: src/value_with_args.c:340, 380, 401 the promoted type itself; 432 with src/entry.c:336-341 and _struct_type.tpl:12-19 the stand-in *)
Definition read_type (a : arg) : layout := if g_struct a then stand_in (g_type a) else g_type a.

(** the caller: the arguments in order *)
Definition passed (f : frame) (args : list arg) : frame := fold_left (fun f a => pass f (g_type a) (g_bytes a)) args f.
(** src/value_with_args.c:235-446: the library reads the arguments in order *)
Fixpoint captured (f : frame) (v : cursor) (args : list arg) : option (list (list Z)) :=
  match args with
  | [] => Some []
  | a :: r => match va_arg (read_type a) f v with
              | None => None
              | Some (b, v') => option_map (cons b) (captured f v' r)
              end
  end.
(** va_start behind the named arguments of [f] *)
Definition va_start (f : frame) : cursor := {| c_gp := length (f_gp f); c_fp := length (f_fp f); c_off := length (f_stack f) |}.
(** metac_value_parameter_wrap(p_val, p_tag_map, args...): src/value_with_args.c:489-495; [f]: the named arguments *)
Definition capture (f : frame) (args : list arg) : option (list (list Z)) := captured (passed f args) (va_start f) args.

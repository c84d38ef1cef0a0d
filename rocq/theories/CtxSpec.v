(** Specification of handler contexts (C63): what a client of the constructors may rely on, without the heap. *)
From Coq Require Import ZArith String List Bool.
From Verif Require Import Base EntryModel HandlerModel CtxModel.
Import ListNotations.
Open Scope Z_scope.

(** what a context says *)
Inductive actx := CCount (o : option string) | CCont (offset : Z) (e : option ref) | CUnion (u : uctx) | CCast (c : pctx).
(** the client's view: its strings and its contexts by place *)
Record view := { v_str : list (option string); v_ctx : list (option actx) }.
Definition arg_says (w : view) (a : arg) : option string :=
  match a with ANull => None | ALit s => Some s | AOwn i => nth i (v_str w) None end.
(** the context a call asks for; a pointer cast needs a selector *)
Definition asks (w : view) (o : op) : option (option actx) :=
  match o with
  | ONewCount a => Some (Some (CCount (arg_says w a)))
  | ONewCont offset e => Some (Some (CCont offset e))
  | ONewPerm id => Some (Some (CUnion (Constant id)))
  | ONewUnion a l => Some (Some (CUnion (SelectByField (arg_says w a) l)))
  | ONewCast a b l => Some (match arg_says w b with
                            | None => None
                            | Some s => Some (CCast (Build_pctx (arg_says w a) (Some s) l))
                            end)
  | _ => None
  end.
(** the i-th place becomes [x] *)
Definition replaced {A} (l : list A) (i : nat) (x : A) (l' : list A) : Prop :=
  length l' = length l /\ forall j d, (j < length l)%nat -> nth j l' d = if Nat.eqb j i then x else nth j l d.
(** One step. A call gives the context it asks for, or NULL; NULL without need only when memory is short. No other place changes. *)
Inductive may (short : Prop) : view -> op -> view -> Prop :=
| ma_str w s : may short w (OStr s) (Build_view (v_str w ++ [Some s]) (v_ctx w))
| ma_no_str w s : short -> may short w (OStr s) (Build_view (v_str w ++ [None]) (v_ctx w))
| ma_set w i s t l : nth i (v_str w) None = Some t -> replaced (v_str w) i (Some s) l -> may short w (OSetStr i s) (Build_view l (v_ctx w))
| ma_no_set w i s : nth i (v_str w) None = None -> may short w (OSetStr i s) w
| ma_free w i l : replaced (v_str w) i None l -> may short w (OFreeStr i) (Build_view l (v_ctx w))
| ma_new w o c : asks w o = Some (Some c) -> may short w o (Build_view (v_str w) (v_ctx w ++ [Some c]))
| ma_refused w o : asks w o = Some None -> may short w o (Build_view (v_str w) (v_ctx w ++ [None]))
| ma_short w o c : asks w o = Some (Some c) -> short -> may short w o (Build_view (v_str w) (v_ctx w ++ [None]))
| ma_delete w i l : replaced (v_ctx w) i None l -> may short w (ODelete i) (Build_view (v_str w) l).
Inductive history (short : Prop) : view -> list op -> view -> Prop :=
| hi_nil w : history short w [] w
| hi_step w o w1 l w2 : may short w o w1 -> history short w1 l w2 -> history short w (o :: l) w2.

(** what the handler sees in the context at [p] *)
Definition reads (h : heap) (p : ptr) (c : option actx) : Prop :=
  match c with
  | None => p = 0%nat
  | Some (CCount o) => read_count_by h p = Ret o
  | Some (CCont offset e) => read_container_of h p = Ret (offset, e)
  | Some (CUnion u) => read_union h p = Ret u
  | Some (CCast c) => read_ptr_cast h p = Ret c
  end.
(** the number of blocks a context consists of: itself, its names, its array of cases *)
Definition one {A} (o : option A) : nat := match o with Some _ => 1 | None => 0 end.
Definition some_cases {A} (l : list A) : nat := match l with [] => 0 | _ => 1 end.
Definition parts (c : actx) : nat :=
  match c with
  | CCount o => 1 + one o
  | CCont _ _ | CUnion (Constant _) => 1
  | CUnion (SelectByField o l) => 1 + one o + some_cases l
  | CCast c => 1 + one (pc_count c) + one (pc_selector c) + some_cases (pc_cases c)
  end.
Definition blocks_of (w : view) : nat :=
  list_sum (map one (v_str w)) + list_sum (map (fun c => match c with Some c => parts c | None => 0%nat end) (v_ctx w)).
(** the arrays of cases have less than 2^31 elements (cases_count is an int) *)
Definition fits (o : op) : Prop :=
  match o with ONewUnion _ l => Z.of_nat (length l) < 2 ^ 31 | ONewCast _ _ l => Z.of_nat (length l) < 2 ^ 31 | _ => True end.

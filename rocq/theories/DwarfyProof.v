(** Proofs about the reading of debugging data. *)
From Coq Require Import ZArith String Ascii List Bool Lia Decimal DecimalString DecimalZ.
From Verif Require Import Base DwarfyModel DwarfySpec.
Import ListNotations.

(** * The tree *)
Section TreeInd.
Variable P : tree -> Prop.
Variable leaf : forall o s, P (Tree o s None).
Variable inner : forall o s l, Forall P l -> P (Tree o s (Some l)).
Fixpoint tree_ind2 (t : tree) : P t :=
  match t with
  | Tree o s None => leaf o s
  | Tree o s (Some l) => inner o s l ((fix go l := match l return Forall P l with [] => Forall_nil _ | x :: r => Forall_cons _ (tree_ind2 x) (go r) end) l)
  end.
End TreeInd.
Lemma read_app : forall l m st, read_items st (l ++ m) = match read_items st l with Some st' => read_items st' m | None => None end.
Proof. intros l. induction l as [|i l IH]; intros m st; cbn; [reflexivity|]. destruct (read_item st i); [apply IH|reflexivity]. Qed.
Lemma put_same : forall e o n, put_node e o n o = Some n.
Proof. intros. unfold put_node. rewrite Nat.eqb_refl. reflexivity. Qed.
Lemma put_other : forall e o n x, x <> o -> put_node e o n x = e x.
Proof. intros e o n x Ne. unfold put_node. destruct (Nat.eqb_spec x o); [contradiction|reflexivity]. Qed.
Definition quiet (stack : list (nat * nat)) (l : list nat) : Prop := forall q s, In (q, s) stack -> s <> 0%nat -> ~ In s l.
Lemma quiet_cut : forall stack o, quiet stack [o] -> below_sibling o stack = None.
Proof.
  intros stack o. induction stack as [|[q s] r IH]; intros Q; cbn; [reflexivity|]. destruct (Nat.eqb_spec s 0) as [->|Ne]; cbn.
  - apply IH. intros q' s' I. apply (Q q' s'). right. assumption.
  - destruct (Nat.eqb_spec s o) as [->|No]; [destruct (Q q o (or_introl eq_refl) Ne); left; reflexivity|]. apply IH. intros q' s' I. apply (Q q' s'). right. assumption.
Qed.
Lemma says_mono : forall e e' t p, (forall x, In x (offsets t) -> e x = e' x) -> says e p t -> says e' p t.
Proof.
  intros e e' t. induction t as [o s|o s l IH] using tree_ind2; intros p E S1; inversion S1 as [t' N K]; subst; constructor; cbn in *.
  - rewrite <- E; [assumption|auto].
  - intros k [].
  - rewrite <- E; [assumption|auto].
  - intros k I. rewrite Forall_forall in IH. apply (IH k I); [|apply K; assumption]. intros x X. apply E. right. apply in_flat_map. eauto.
Qed.
Definition reads (l : list tree) (p s : nat) (stk : list (nat * nat)) : Prop := forall e n, quiet ((p, s) :: stk) (flat_map offsets l) -> NoDup (p :: flat_map offsets l) -> (forall t, In t l -> fair t) -> e p = Some n ->
  exists e', read_items {| r_stack := (p, s) :: stk; r_entries := e |} (flat_map written l) = Some {| r_stack := (p, s) :: stk; r_entries := e' |} /\
    e' p = Some {| n_parent := n_parent n; n_children := n_children n ++ map t_offset l |} /\ (forall t, In t l -> says e' p t) /\ (forall x, x <> p -> ~ In x (flat_map offsets l) -> e' x = e x).
Lemma offset_in : forall t, In (t_offset t) (offsets t).
Proof. intros [o s [l|]]; cbn; auto. Qed.
Lemma NoDup_app_l : forall A (l m : list A), NoDup (l ++ m) -> NoDup l.
Proof. intros A l m. induction l as [|x l IH]; cbn; intros N; [constructor|]. inversion N; subst. constructor; [intros X; apply H1; apply in_or_app; auto|auto]. Qed.
Lemma NoDup_app_r : forall A (l m : list A), NoDup (l ++ m) -> NoDup m.
Proof. intros A l m. induction l as [|x l IH]; cbn; intros N; [assumption|]. inversion N; auto. Qed.
Lemma NoDup_app_d : forall A (l m : list A) x, NoDup (l ++ m) -> In x l -> ~ In x m.
Proof. intros A l m x. induction l as [|y l IH]; cbn; intros N I; [destruct I|]. inversion N; subst. destruct I as [->|I]; [intros X; apply H1; apply in_or_app; auto|auto]. Qed.
(** lists of trees from single ones *)
Lemma reads_list : forall l, Forall (fun t => forall p s stk, reads [t] p s stk) l -> forall p s stk, reads l p s stk.
Proof.
  intros l F. induction F as [|t l T F IH]; intros p s stk e n Q N Fr E.
  - exists e. cbn. rewrite app_nil_r. split; [reflexivity|]. split; [destruct n; assumption|]. split; [intros t []|auto].
  - cbn [flat_map] in *. assert (Q1 : quiet ((p, s) :: stk) (flat_map offsets [t])) by (intros q s' I Ne X; apply (Q q s' I Ne); cbn in X; rewrite app_nil_r in X; apply in_or_app; auto).
    assert (Q2 : quiet ((p, s) :: stk) (flat_map offsets l)) by (intros q s' I Ne X; apply (Q q s' I Ne); apply in_or_app; auto).
    inversion N as [|? ? Np Nl]; subst.
    assert (N1 : NoDup (p :: flat_map offsets [t])) by (cbn; rewrite app_nil_r; constructor; [intros X; apply Np; apply in_or_app; auto|exact (NoDup_app_l _ _ _ Nl)]).
    assert (N2 : NoDup (p :: flat_map offsets l)) by (constructor; [intros X; apply Np; apply in_or_app; auto|exact (NoDup_app_r _ _ _ Nl)]).
    destruct (T p s stk e n Q1 N1) as [e1 [R1 [P1 [S1 O1]]]]; [intros t' [<-|[]]; apply Fr; left; reflexivity|assumption|].
    destruct (IH p s stk e1 {| n_parent := n_parent n; n_children := n_children n ++ map t_offset [t] |} Q2 N2) as [e2 [R2 [P2 [S2 O2]]]]; [intros t' I; apply Fr; right; assumption|exact P1|].
    exists e2. rewrite read_app. cbn [flat_map] in R1. rewrite app_nil_r in R1. rewrite R1. split; [exact R2|]. split; [rewrite P2; cbn; rewrite <- app_assoc; reflexivity|]. split.
    + intros t' [<-|I]; [|auto]. apply (says_mono e1); [|apply S1; left; reflexivity]. intros x X. symmetry. apply O2; [intros ->; apply Np; apply in_or_app; auto|]. exact (NoDup_app_d _ _ _ _ Nl X).
    + intros x Xp X. rewrite O2; [apply O1; [assumption|]; cbn; rewrite app_nil_r; intros Y; apply X; apply in_or_app; auto|assumption|intros Y; apply X; apply in_or_app; auto].
Qed.
Lemma reads_one : forall t p s stk, reads [t] p s stk.
Proof.
  intros t. induction t as [o sb|o sb l IH] using tree_ind2; intros p s stk e n Q N Fr E; cbn [flat_map written offsets] in *; rewrite app_nil_r in *.
  - inversion N as [|? ? Np _]; subst. assert (Po : p <> o) by (intros ->; apply Np; left; reflexivity). cbn [read_items read_item r_stack r_entries]. rewrite quiet_cut by assumption. cbn iota beta. rewrite put_other by assumption. rewrite E. eexists. split; [reflexivity|]. cbn. rewrite put_same. split; [reflexivity|]. split.
    + intros t [<-|[]]. constructor; [|intros k []]. cbn. rewrite put_other by congruence. apply put_same.
    + intros x Xp X. rewrite put_other by assumption. apply put_other. intros ->. apply X. left. reflexivity.
  - inversion N as [|? ? Np No]; subst. inversion No as [|? ? Nl Nd]; subst. assert (Po : p <> o) by (intros ->; apply Np; left; reflexivity).
    assert (Ft : fair (Tree o sb (Some l))) by (apply Fr; left; reflexivity). inversion Ft as [|? ? ? Sb Fl]; subst.
    change (read_items ?st (Die o false true sb :: ?r)) with (match read_item st (Die o false true sb) with Some st' => read_items st' r | None => None end). cbn [read_item r_stack r_entries].
    rewrite quiet_cut by (intros q s' I Ne X; apply (Q q s' I Ne); destruct X as [->|[]]; left; reflexivity). cbn iota beta. rewrite put_other by assumption. rewrite E.
    set (e1 := put_node (put_node e o {| n_parent := Some p; n_children := [] |}) p {| n_parent := n_parent n; n_children := n_children n ++ [o] |}).
    destruct (reads_list l) with (p := o) (s := match sb with Some s0 => s0 | None => 0%nat end) (stk := (p, s) :: stk) (e := e1) (n := {| n_parent := Some p; n_children := [] |}) as [e2 [R2 [P2 [S2 O2]]]].
    + exact IH.
    + intros q s' [I|I] Ne X; [injection I as <- <-; destruct sb as [x|]; [exact (Sb x eq_refl X)|destruct Ne; reflexivity]|]. apply (Q q s' I Ne). right. assumption.
    + constructor; assumption.
    + exact Fl.
    + unfold e1. rewrite put_other by congruence. apply put_same.
    + rewrite read_app, R2. cbn. exists e2. split; [reflexivity|]. split; [rewrite O2; [unfold e1; apply put_same|assumption|intros X; apply Np; right; assumption]|]. split.
      * intros t [<-|[]]. constructor; cbn; [exact P2|exact S2].
      * intros x Xp X. rewrite O2; [unfold e1; rewrite put_other by assumption; apply put_other; intros ->; apply X; left; reflexivity|intros ->; apply X; left; reflexivity|intros Y; apply X; right; rewrite ?app_nil_r; exact Y].
Qed.
(** null entries after the children of a unit *)
Lemma nulls : forall n st, exists stk, read_items st (repeat Null n) = Some {| r_stack := stk; r_entries := r_entries st |}.
Proof.
  intros n. induction n as [|n IH]; intros [stk e]; [exists stk; reflexivity|]. cbn [repeat read_items read_item r_stack r_entries].
  destruct stk as [|x [|y stk]].
  - destruct (IH {| r_stack := []; r_entries := e |}) as [k K]. exists k. exact K.
  - destruct (IH {| r_stack := [x]; r_entries := e |}) as [k K]. exists k. exact K.
  - destruct (IH {| r_stack := y :: stk; r_entries := e |}) as [k K]. exists k. exact K.
Qed.
Definition unit_tree (c : cunit) : tree := Tree (c_offset c) (c_sibling c) (Some (c_kids c)).
Lemma units_read : forall us e stk l, e 0%nat = Some {| n_parent := None; n_children := l |} ->
  NoDup (0%nat :: flat_map unit_offsets us) -> (forall c, In c us -> unit_fair c) ->
  exists stk' e', read_items {| r_stack := stk; r_entries := e |} (flat_map unit_written us) = Some {| r_stack := stk'; r_entries := e' |} /\
    e' 0%nat = Some {| n_parent := None; n_children := l ++ map c_offset us |} /\ (forall c, In c us -> says e' 0 (unit_tree c)) /\ (forall x, x <> 0%nat -> ~ In x (flat_map unit_offsets us) -> e' x = e x).
Proof.
  intros us. induction us as [|c us IH]; intros e stk l E0 N Fr.
  - exists stk, e. cbn. rewrite app_nil_r. split; [reflexivity|]. split; [assumption|]. split; [intros c []|auto].
  - cbn [flat_map] in *. apply NoDup_cons_iff in N. destruct N as [N0 Nd]. destruct (Fr c (or_introl eq_refl)) as [Fs Fk]. set (o := c_offset c) in *. set (ks := c_kids c) in *.
    assert (Uc : unit_offsets c = o :: flat_map offsets ks) by reflexivity. assert (No : 0%nat <> o) by (intros X; apply N0; apply in_or_app; left; rewrite Uc, X; left; reflexivity).
    pose proof (NoDup_app_l _ _ _ Nd) as Nc. rewrite Uc in Nc. inversion Nc as [|? ? Nok Nk]; subst.
    rewrite read_app. unfold unit_written at 1. fold o ks.
    change (read_items ?st (Die o true true (c_sibling c) :: ?r)) with (match read_item st (Die o true true (c_sibling c)) with Some st' => read_items st' r | None => None end). cbn [read_item r_stack r_entries]. rewrite put_other by assumption. rewrite E0.
    set (e1 := put_node (put_node e o {| n_parent := Some 0%nat; n_children := [] |}) 0%nat {| n_parent := n_parent {| n_parent := None; n_children := l |}; n_children := n_children {| n_parent := None; n_children := l |} ++ [o] |}).
    destruct (reads_list ks) with (p := o) (s := match c_sibling c with Some s0 => s0 | None => 0%nat end) (stk := [(0, 0)]%nat) (e := e1) (n := {| n_parent := Some 0%nat; n_children := [] |}) as [e2 [R2 [P2 [S2 O2]]]].
    + apply Forall_forall. intros t _. apply reads_one.
    + intros q s' [I|[I|[]]] Ne X; [injection I as <- <-; destruct (c_sibling c) as [x|]; [exact (Fs x eq_refl X)|destruct Ne; reflexivity]|injection I as <- <-; destruct Ne; reflexivity].
    + constructor; assumption.
    + exact Fk.
    + unfold e1. rewrite put_other by congruence. apply put_same.
    + rewrite read_app, R2. destruct (nulls (c_nulls c) {| r_stack := (o, match c_sibling c with Some s0 => s0 | None => 0%nat end) :: [(0, 0)]%nat; r_entries := e2 |}) as [stk' K]. rewrite K. cbn [r_entries].
      assert (E2 : e2 0%nat = Some {| n_parent := None; n_children := l ++ [o] |}) by (rewrite O2; [unfold e1; apply put_same|assumption|intros X; apply N0; apply in_or_app; left; rewrite Uc; right; assumption]).
      destruct (IH e2 stk' (l ++ [o])%list E2) as [stk2 [e3 [R3 [P3 [S3 O3]]]]].
      * constructor; [intros X; apply N0; apply in_or_app; auto|exact (NoDup_app_r _ _ _ Nd)].
      * intros c' I. apply Fr. right. assumption.
      * exists stk2, e3. split; [exact R3|]. split; [rewrite P3; cbn; rewrite <- app_assoc; reflexivity|]. split.
        -- intros c' [<-|I]; [|auto]. apply (says_mono e2).
           ++ intros x X. symmetry. apply O3; [intros ->; apply N0; apply in_or_app; left; exact X|]. exact (NoDup_app_d _ _ _ _ Nd X).
           ++ constructor; cbn; [exact P2|exact S2].
        -- intros x X0 X. rewrite O3; [rewrite O2; [unfold e1; rewrite put_other by assumption; apply put_other; intros ->; apply X; apply in_or_app; left; rewrite Uc; left; reflexivity|intros ->; apply X; apply in_or_app; left; rewrite Uc; left; reflexivity|intros Y; apply X; apply in_or_app; left; rewrite Uc; right; assumption]|assumption|intros Y; apply X; apply in_or_app; auto].
Qed.
Theorem new_data_ok : forall us, NoDup (0%nat :: flat_map unit_offsets us) -> (forall c, In c us -> unit_fair c) ->
  exists e, new_data (flat_map unit_written us) = Some e /\ e 0%nat = Some {| n_parent := None; n_children := map c_offset us |} /\
    (forall c, In c us -> says e 0 (Tree (c_offset c) (c_sibling c) (Some (c_kids c)))) /\ (forall x, x <> 0%nat -> ~ In x (flat_map unit_offsets us) -> e x = None).
Proof.
  intros us N Fr. destruct (units_read us (r_entries reading0) (r_stack reading0) [] eq_refl N Fr) as [stk [e [R [P [S1 O]]]]]. exists e. unfold new_data.
  change reading0 with {| r_stack := r_stack reading0; r_entries := r_entries reading0 |}. rewrite R. split; [reflexivity|]. split; [exact P|]. split; [exact S1|]. intros x X0 X. rewrite O by assumption. cbn. apply put_other. assumption.
Qed.

(** * Conversions *)
Lemma show_int : forall z, NilZero.int_of_string (show z) = Some (Z.to_int z).
Proof.
  intros z. unfold show. apply NilZero.isi.
  - intros E. pose proof (DecimalZ.of_to z) as X. rewrite E in X. cbn in X. subst z. discriminate.
  - intros E. pose proof (DecimalZ.of_to z) as X. rewrite E in X. cbn in X. subst z. discriminate.
Qed.
Lemma atoi_show : forall z, in64 z -> atoi (show z) = Some z.
Proof. intros z [A B]. unfold atoi. rewrite show_int, DecimalZ.of_to. apply Z.leb_le in A. apply Z.ltb_lt in B. rewrite A, B. reflexivity. Qed.
Lemma atoi_offset : forall z, offset_ok z -> option_map u32 (atoi (show z)) = Some z.
Proof. intros z [A B]. rewrite atoi_show by (unfold in64; lia). cbn. unfold u32. rewrite Z.mod_small by lia. reflexivity. Qed.
Lemma class_inj : forall c d, class_name c = class_name d -> c = d.
Proof. intros c d. destruct c, d; cbn; intros E; try reflexivity; discriminate. Qed.
Section Fix.
Variable wild : Z -> Z.
Lemma fix_typed : forall c v, typed c v -> fix_val wild (class_name c) v = v.
Proof. intros c v T. destruct T; reflexivity. Qed.
Lemma field_round : forall f, typed_attribute f -> field_from wild (field_to f) = Some f.
Proof.
  intros [a v cn] [c [E T]]. cbn in E, T. subst cn. unfold field_to, field_from. cbn [a_attr a_val a_class key String.eqb Ascii.eqb Bool.eqb].
  destruct T; cbn [class_name]; try reflexivity.
  change (("ClassReference" =? "ClassReference")%string) with true. cbn iota. unfold offset_from. rewrite atoi_offset by assumption. reflexivity.
Qed.
Lemma all_some_map : forall A B (f : B -> option A) (g : A -> B) l, Forall (fun x => f (g x) = Some x) l -> all_some f (map g l) = Some l.
Proof. intros A B f g l F. induction F as [|x l E F IH]; cbn; [reflexivity|]. rewrite E, IH. reflexivity. Qed.
Lemma fix_fields : forall l, Forall typed_attribute l -> map (fix_attribute wild) l = l.
Proof. intros l F. induction F as [|[a v cn] l [c [E T]] F IH]; cbn; [reflexivity|]. rewrite IH. cbn in E, T. subst cn. unfold fix_attribute. cbn. rewrite (fix_typed c v T). reflexivity. Qed.
Lemma entry_round : forall e, typed_entry e -> entry_from wild (entry_to e) = Some e.
Proof.
  intros [p t fs cs ds] [Tp Tf Tc Td]. cbn in *. unfold entry_to, entry_from. cbn [e_parent e_tag e_fields e_children e_files].
  assert (Fs : all_some (field_from wild) (map field_to fs) = Some fs) by (apply all_some_map; apply Forall_forall; intros f I; rewrite Forall_forall in Tf; apply field_round; auto).
  assert (Cs : all_some offset_from (map (fun o => UVal (VString (show o))) cs) = Some cs) by (apply all_some_map; apply Forall_forall; intros o I; rewrite Forall_forall in Tc; unfold offset_from; apply atoi_offset; auto).
  assert (Ds : forall l, all_some (fun v => match v with UVal (VString s) => Some s | _ => None end) (map (fun s => UVal (VString s)) l) = Some l) by (intros l; apply all_some_map; apply Forall_forall; reflexivity).
  assert (Ff := fix_fields fs Tf). assert (Ps : forall z, offset_ok z -> offset_from (UVal (VString (show z))) = Some z) by (intros z; apply atoi_offset).
  destruct p as [p|]; (destruct fs as [|f fs]; [|set (fs' := f :: fs) in *]); (destruct cs as [|c cs]; [|set (cs' := c :: cs) in *]); (destruct ds as [[|d ds]|]; [destruct Td; reflexivity|set (ds' := d :: ds) in *|]);
    try specialize (Ds ds'); cbn -[show atoi all_some fix_attribute field_from field_to offset_from u32] in *; try (rewrite Ps by (apply Tp; reflexivity)); cbn [option_map]; rewrite ?Fs, ?Cs, ?Ds; cbn [option_map]; try (rewrite fix_fields by assumption); reflexivity.
Qed.
Theorem data_round : forall l, Forall (fun '(o, e) => offset_ok o /\ typed_entry e) l -> data_from wild (data_to l) = Some l.
Proof.
  intros l F. unfold data_to, data_from. cbn [key String.eqb Ascii.eqb Bool.eqb]. apply all_some_map. apply Forall_forall. intros [o e] I. rewrite Forall_forall in F. destruct (F _ I) as [O T]. rewrite atoi_show by (destruct O; unfold in64; lia). rewrite entry_round by assumption. unfold u32. rewrite Z.mod_small by (destruct O; lia). reflexivity.
Qed.
(** ** JSON, YAML *)
Lemma f64_small : forall z, (Z.abs z <= 2 ^ 53)%Z -> f64 z = z.
Proof.
  intros z H. unfold f64. destruct (Z.eq_dec (Z.abs z) (2 ^ 53)) as [E|Ne].
  - rewrite E. change (Z.log2 (2 ^ 53) - 52)%Z with 1%Z. cbn [Z.leb Z.compare]. change (1 <=? 0)%Z with false. cbn iota. change ((2 ^ 53) mod 2 ^ 1)%Z with 0%Z. change (2 ^ (1 - 1))%Z with 1%Z. change (1 <? 0)%Z with false. change (0 =? 1)%Z with false. cbn [orb andb]. change (2 ^ 53 / 2 ^ 1 * 2 ^ 1)%Z with (2 ^ 53)%Z. rewrite <- E. rewrite Z.mul_comm. apply Z.abs_sgn.
  - assert (L : (Z.log2 (Z.abs z) < 53)%Z). { destruct (Z.eq_dec (Z.abs z) 0) as [->|N0]; [cbn; lia|]. apply Z.log2_lt_pow2; lia. }
    assert (X : (Z.log2 (Z.abs z) - 52 <=? 0)%Z = true) by (apply Z.leb_le; lia). rewrite X. reflexivity.
Qed.
Lemma float_u64_in : forall z, (0 <= z < 2 ^ 64)%Z -> float_u64 wild z = z.
Proof. intros z [A B]. unfold float_u64. apply Z.leb_le in A. apply Z.ltb_lt in B. rewrite A, B. reflexivity. Qed.
Lemma float_u32_in : forall z, (0 <= z < 2 ^ 32)%Z -> float_u32 wild z = z.
Proof. intros z [A B]. unfold float_u32. apply Z.leb_le in A. apply Z.ltb_lt in B. rewrite A, B. reflexivity. Qed.
Lemma float_i64_in : forall z, in64 z -> float_i64 wild z = z.
Proof. intros z [A B]. unfold float_i64. apply Z.leb_le in A. apply Z.ltb_lt in B. rewrite A, B. reflexivity. Qed.
Lemma ints_json : forall l, Forall (fun z => 0 <= z < 256)%Z l -> list_ints wild (map (fun z => VFloat (f64 z)) l) = l.
Proof. intros l F. unfold list_ints. induction F as [|z l H F IH]; cbn; [reflexivity|]. rewrite IH, f64_small by lia. rewrite float_i64_in by (unfold in64; lia). reflexivity. Qed.
Lemma ints_yaml : forall l, Forall (fun z => 0 <= z < 256)%Z l -> list_ints wild (map yaml_number l) = l.
Proof. intros l F. unfold list_ints. induction F as [|z l H F IH]; cbn [map flat_map]; [reflexivity|]. rewrite IH. unfold yaml_number. assert (X : (z <? 2 ^ 63)%Z = true) by (apply Z.ltb_lt; lia). rewrite X. reflexivity. Qed.
Theorem json_ok : forall f, typed_attribute f -> small (a_val f) -> through wild json f = f.
Proof.
  intros [a v cn] [c [E T]] Sm. cbn in E, T, Sm. subst cn. unfold through, fix_attribute. cbn [a_attr a_val a_class]. f_equal.
  destruct T; cbn [json small] in *; try (rewrite f64_small by assumption); try reflexivity.
  - cbn. rewrite float_u64_in by assumption. reflexivity.
  - cbn. rewrite float_u64_in by assumption. reflexivity.
  - destruct l as [|z l]; [destruct Sm; reflexivity|]. cbn [fix_val]. change (fix_val wild (class_name ClassBlock) (VList ?x)) with (VInts (list_ints wild x)). rewrite ints_json by assumption. reflexivity.
  - destruct l as [|z l]; [destruct Sm; reflexivity|]. change (fix_val wild (class_name ClassExprLoc) (VList ?x)) with (VInts (list_ints wild x)). rewrite ints_json by assumption. reflexivity.
  - cbn. rewrite float_i64_in by assumption. reflexivity.
  - cbn. rewrite float_i64_in by assumption. reflexivity.
  - cbn. rewrite float_i64_in by assumption. reflexivity.
  - cbn. rewrite float_i64_in by assumption. reflexivity.
  - cbn. rewrite float_i64_in by assumption. reflexivity.
  - rewrite f64_small by lia. cbn. rewrite float_u32_in by assumption. reflexivity.
  - cbn. rewrite float_i64_in by assumption. reflexivity.
Qed.
Lemma yaml_i64 : forall c z, in64 z -> (forall x, fix_val wild (class_name c) (VInt x) = VInt64 x) -> fix_val wild (class_name c) (yaml_number z) = VInt64 z.
Proof. intros c z [_ B] H. unfold yaml_number. apply Z.ltb_lt in B. rewrite B. apply H. Qed.
Lemma yaml_u64 : forall c z, (0 <= z < 2 ^ 64)%Z -> (forall x, fix_val wild (class_name c) (VInt x) = VUint64 (u64 x)) -> (forall x, fix_val wild (class_name c) (VUint64 x) = VUint64 x) -> fix_val wild (class_name c) (yaml_number z) = VUint64 z.
Proof. intros c z B H K. unfold yaml_number. destruct (z <? 2 ^ 63)%Z; [rewrite H; unfold u64; rewrite Z.mod_small by assumption; reflexivity|apply K]. Qed.
Theorem yaml_ok : forall f, typed_attribute f -> through wild yaml f = f.
Proof.
  intros [a v cn] [c [E T]]. cbn in E, T. subst cn. unfold through, fix_attribute. cbn [a_attr a_val a_class]. f_equal.
  destruct T; cbn [yaml]; try reflexivity; try (apply yaml_i64; [assumption|reflexivity]); try (apply yaml_u64; [assumption|reflexivity|reflexivity]).
  - change (fix_val wild (class_name ClassBlock) (VList ?x)) with (VInts (list_ints wild x)). rewrite ints_yaml by assumption. reflexivity.
  - change (fix_val wild (class_name ClassExprLoc) (VList ?x)) with (VInts (list_ints wild x)). rewrite ints_yaml by assumption. reflexivity.
  - unfold yaml_number. assert (X : (z <? 2 ^ 63)%Z = true) by (apply Z.ltb_lt; lia). rewrite X. cbn. unfold u32. rewrite Z.mod_small by assumption. reflexivity.
Qed.
End Fix.
Lemma new_field_ok : forall wild a c v, raw c v -> typed_attribute (new_field wild a v c) /\ a_attr (new_field wild a v c) = a.
Proof.
  intros wild a c v R. split; [|reflexivity]. exists c. split; [reflexivity|]. unfold new_field, fix_attribute. cbn [a_val a_class]. destruct R as [l H|l H|z H|c v T A B C].
  - apply ty_block. assumption.
  - apply ty_expr. assumption.
  - apply ty_ref. assumption.
  - rewrite (fix_typed wild c v T). assumption.
Qed.

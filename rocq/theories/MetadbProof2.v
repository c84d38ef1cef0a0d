(** Merging of types (C67): a signature says what a type is made of. *)
From Coq Require Import ZArith String Ascii List Bool Lia.
From Verif Require Import Base MetadbModel MetadbSpec MetadbProof.
Import ListNotations.
Open Scope string_scope.

(** * The text after the name, as a function of the texts of the links *)
Section Pure.
Variable f : nat -> string.
Definition lt (pre : string) (t : option nat) : string := match t with None => "" | Some j => pre ++ f j ++ ")," end.
Definition px (p : param) : string := match a_unspec p with Some true => "UnspecifiedParam" | _ => match a_type p with Some j => f j | None => "" end end.
Fixpoint pt (ps : list param) : string := match ps with [] => "" | p :: r => "(" ++ px p ++ ")," ++ pt r end.
Definition num (T : string) (x : option Z) : string := opt x (fun v => T ++ dec v ++ ",").
Definition place (d : field) : string := match f_bit d with Some v => "BitOffset:" ++ dec v ++ "," | None => "ByteOffset:" ++ dec (f_byte d) ++ "," end.
Definition fx (d : field) : string :=
  opt (f_name d) (fun n => "Name:" ++ n ++ ",") ++ lt "Type:(" (f_type d) ++ num "Alignment:" (f_align d) ++ num "BitSize:" (f_bits d) ++ place d ++ num "DataBitOffset:" (f_databit d).
Fixpoint ft (fs : list field) : string := match fs with [] => "" | d :: r => "(" ++ fx d ++ ")," ++ ft r end.
Fixpoint ht (hs : list (option nat)) : string := match hs with [] => "" | None :: r => ht r | Some j :: r => "(" ++ f j ++ ")," ++ ht r end.
Definition et (l : list (string * Z)) : string := fold_right (fun '(k, v) s => "(" ++ k ++ ":" ++ dec v ++ ")," ++ s) "" l.
Definition text (o : object) : string :=
  match o_body o with
  | BaseType enc => "Encoding:" ++ enc ++ "," ++ num "ByteSize:" (o_size o)
  | Enumeration l => num "ByteSize:" (o_size o) ++ num "Alignment:" (o_align o) ++ "Enumberators:(" ++ et l ++ "),"
  | Qual _ t | Typedef t | Pointer t | Reference _ t => lt "From:(" t
  | Unspecified => ""
  | Subroutine ps t => (match ps with [] => "" | _ => "Takes:(" ++ pt ps ++ ")," end) ++ lt "Returns:(" t
  | Array t s l c v => num "StrideBitSize:" s ++ num "LowerBound:" l ++ "Count:" ++ dec c ++ "," ++ "Level:" ++ dec v ++ "," ++ lt "From:(" t
  | Struct _ fs hs =>
    num "ByteSize:" (o_size o) ++ num "Alignment:" (o_align o)
    ++ (match fs with [] => "" | _ => "Fields:(" ++ ft fs ++ ")," end) ++ (match fs with [] => "" | _ => "Other:(" ++ ht hs ++ ")," end)
  end.
End Pure.
Definition olist (t : option nat) : list nat := match t with Some j => [j] | None => [] end.
Definition pvisit (p : param) : list nat := match a_unspec p with Some true => [] | _ => olist (a_type p) end.
Definition visited (o : object) : list nat :=
  match o_body o with
  | BaseType _ | Enumeration _ | Unspecified => []
  | Qual _ t | Typedef t | Pointer t | Reference _ t | Array t _ _ _ _ => olist t
  | Subroutine ps t => flat_map pvisit ps ++ olist t
  | Struct _ fs hs => flat_map (fun d => olist (f_type d)) fs ++ match fs with [] => [] | _ => flat_map olist hs end
  end.
Lemma visited_links : forall o j, In j (visited o) -> In (Some j) (links o).
Proof.
  intros o j. assert (O : forall t, In j (olist t) -> In (Some j) [t]) by (intros [k|] I; [destruct I as [->|[]]; left; reflexivity|destruct I]).
  assert (O2 : forall t, In j (olist t) -> t = Some j) by (intros [k|] I; [destruct I as [->|[]]; reflexivity|destruct I]).
  unfold visited, links. destruct (o_body o) as [e|l|q t|t|t| |r t|ps t|t s l c v|g fs hs]; cbn [In]; try tauto; try apply O.
  - rewrite !in_app_iff. intros [I|I]; [left|right; apply O; assumption]. apply in_flat_map in I. destruct I as [p [I J]]. apply in_map_iff. exists p. split; [|assumption]. apply O2. unfold pvisit in J. destruct (a_unspec p) as [[]|]; [destruct J|assumption|assumption].
  - rewrite !in_app_iff. intros [I|I].
    + left. apply in_flat_map in I. destruct I as [p [I J]]. apply in_map_iff. exists p. split; [|assumption]. apply O2. assumption.
    + right. assert (I' : In j (flat_map olist hs)) by (destruct fs; [destruct I|assumption]). apply in_flat_map in I'. destruct I' as [t [K J]]. apply O2 in J. subst. assumption.
Qed.

(** ** The model computes this text *)
Section Rest.
Variables (link : nat -> out string) (f : nat -> string).
Lemma link_part_ok : forall pre t, (forall j, In j (olist t) -> link j = Ok (f j)) -> link_part link pre t = Ok (lt f pre t).
Proof. intros pre [j|] H; cbn; [rewrite (H j (or_introl eq_refl))|]; reflexivity. Qed.
Lemma params_part_ok : forall ps, (forall j, In j (flat_map pvisit ps) -> link j = Ok (f j)) -> params_part link ps = Ok (pt f ps).
Proof.
  intros ps. induction ps as [|p ps IH]; intros H; cbn [params_part pt]; [reflexivity|]. cbn [flat_map] in H. rewrite IH by (intros j I; apply H; apply in_or_app; auto).
  assert (E : match a_unspec p with Some true => Ok "UnspecifiedParam" | _ => match a_type p with Some j => link j | None => Ok "" end end = Ok (px f p)).
  { unfold px. unfold pvisit in H. destruct (a_unspec p) as [[]|]; [reflexivity| |]; (destruct (a_type p) as [j|]; [apply H; left; reflexivity|reflexivity]). }
  rewrite E. reflexivity.
Qed.
Lemma fields_part_ok : forall fs, (forall j, In j (flat_map (fun d => olist (f_type d)) fs) -> link j = Ok (f j)) -> fields_part link fs = Ok (ft f fs).
Proof.
  intros fs. induction fs as [|d fs IH]; intros H; cbn [fields_part ft]; [reflexivity|]. cbn [flat_map] in H. rewrite IH by (intros j I; apply H; apply in_or_app; auto).
  rewrite link_part_ok by (intros j I; apply H; apply in_or_app; auto). cbn [obind]. unfold fx, num, place. rewrite !sapp_assoc. reflexivity.
Qed.
Lemma hier_part_ok : forall hs, ~ In None hs -> (forall j, In j (flat_map olist hs) -> link j = Ok (f j)) -> hier_part link hs = Ok (ht f hs).
Proof.
  intros hs. induction hs as [|[j|] hs IH]; intros N H; cbn [hier_part ht]; [reflexivity| |destruct N; left; reflexivity].
  cbn [flat_map olist] in H. rewrite IH; [|intros I; apply N; right; assumption|intros k I; apply H; right; assumption]. rewrite (H j (or_introl eq_refl)). reflexivity.
Qed.
Lemma rest_ok : forall o, (forall g fs hs, o_body o = Struct g fs hs -> ~ In None hs) -> (forall j, In j (visited o) -> link j = Ok (f j)) -> rest link o = Ok (text f o).
Proof.
  intros o N H. unfold rest, text, visited in *. destruct (o_body o) as [e|l|q t|t|t| |r t|ps t|t s l c v|g fs hs]; try reflexivity; try (apply link_part_ok; assumption).
  - rewrite params_part_ok by (intros j I; apply H; apply in_or_app; auto). rewrite link_part_ok by (intros j I; apply H; apply in_or_app; auto). reflexivity.
  - rewrite link_part_ok by assumption. reflexivity.
  - rewrite fields_part_ok by (intros j I; apply H; apply in_or_app; auto). cbn [obind]. destruct fs as [|d fs]; [reflexivity|]. rewrite hier_part_ok; [reflexivity|exact (N g (d :: fs) hs eq_refl)|]. intros j I. apply H. apply in_or_app. right. assumption.
Qed.
End Rest.
Lemma rest_inv : forall link o x, rest link o = Ok x -> forall j, In j (visited o) -> exists s, link j = Ok s.
Proof.
  intros link o x E j I.
  assert (L : forall pre t y, link_part link pre t = Ok y -> In j (olist t) -> exists s, link j = Ok s).
  { intros pre [k|] y X J; [|destruct J]. destruct J as [->|[]]. cbn in X. destruct (link j); [eauto|discriminate..]. }
  assert (P : forall ps y, params_part link ps = Ok y -> In j (flat_map pvisit ps) -> exists s, link j = Ok s).
  { intros ps. induction ps as [|p ps IH]; intros y X J; [destruct J|]. cbn [params_part] in X. cbn [flat_map] in J. apply in_app_or in J.
    destruct (match a_unspec p with Some true => Ok "UnspecifiedParam" | _ => match a_type p with Some k => link k | None => Ok "" end end) as [z| | |] eqn:Z; cbn [obind] in X; try discriminate.
    destruct (params_part link ps) as [w| | |] eqn:W; cbn [obind] in X; try discriminate. destruct J as [J|J]; [|exact (IH _ eq_refl J)].
    unfold pvisit in J. destruct (a_unspec p) as [[]|]; [destruct J| |]; (destruct (a_type p) as [k|]; [destruct J as [->|[]]; eauto|destruct J]). }
  assert (F : forall fs y, fields_part link fs = Ok y -> In j (flat_map (fun d => olist (f_type d)) fs) -> exists s, link j = Ok s).
  { intros fs. induction fs as [|d fs IH]; intros y X J; [destruct J|]. cbn [fields_part] in X. cbn [flat_map] in J. apply in_app_or in J.
    destruct (link_part link "Type:(" (f_type d)) as [z| | |] eqn:Z; cbn [obind] in X; try discriminate. destruct (fields_part link fs) as [w| | |] eqn:W; cbn [obind] in X; try discriminate.
    destruct J as [J|J]; [exact (L _ _ _ Z J)|exact (IH _ eq_refl J)]. }
  assert (H : forall hs y, hier_part link hs = Ok y -> In j (flat_map olist hs) -> exists s, link j = Ok s).
  { intros hs. induction hs as [|[k|] hs IH]; intros y X J; [destruct J| |discriminate]. cbn [hier_part] in X. destruct (link k) as [z| | |] eqn:Z; cbn [obind] in X; try discriminate.
    destruct (hier_part link hs) as [w| | |] eqn:W; cbn [obind] in X; try discriminate. destruct J as [->|J]; [eauto|exact (IH _ eq_refl J)]. }
  unfold rest, visited in *. destruct (o_body o) as [e|l|q t|t|t| |r t|ps t|t s l c v|g fs hs]; try (destruct I; fail); try (exact (L _ _ _ E I)).
  - destruct (params_part link ps) as [z| | |] eqn:Z; cbn [obind] in E; try discriminate. destruct (link_part link "Returns:(" t) as [w| | |] eqn:W; cbn [obind] in E; try discriminate.
    apply in_app_or in I. destruct I as [I|I]; [exact (P _ _ Z I)|exact (L _ _ _ W I)].
  - destruct (link_part link "From:(" t) as [w| | |] eqn:W; cbn [obind] in E; try discriminate. exact (L _ _ _ W I).
  - destruct (fields_part link fs) as [z| | |] eqn:Z; cbn [obind] in E; try discriminate. apply in_app_or in I. destruct I as [I|I]; [exact (F _ _ Z I)|].
    destruct fs as [|d fs]; [destruct I|]. destruct (hier_part link hs) as [w| | |] eqn:W; cbn [obind] in E; try discriminate. exact (H _ _ W I).
Qed.

(** * The parts of the text are found again *)
Definition good (s : string) : Prop := even s /\ no "," s = false.
Definition nopre (p r : string) : Prop := forall z, r <> p ++ z.
Ltac np := let z := fresh "z" in let E := fresh "E" in intros z E; unfold num, lt, place, opt in E; repeat match type of E with context [match ?x with _ => _ end] => destruct x end; cbn in E; discriminate E.
Lemma num_inj : forall T x y r s, nopre T r -> nopre T s -> num T x ++ r = num T y ++ s -> x = y /\ r = s.
Proof.
  intros T x y r s R S E. unfold num, opt in E. destruct x as [x|], y as [y|].
  - rewrite !sapp_assoc in E. apply sapp_head in E. destruct (plain_comma _ _ _ _ (dec_plain x) (dec_plain y) E) as [D ->]. apply dec_inj in D. subst. auto.
  - rewrite !sapp_assoc in E. cbn [append] in E. symmetry in E. destruct (S _ E).
  - rewrite !sapp_assoc in E. cbn [append] in E. destruct (R _ E).
  - auto.
Qed.
Lemma name_inj : forall x y r s, tidy_opt x -> tidy_opt y -> nopre "Name:" r -> nopre "Name:" s ->
  opt x (fun n => "Name:" ++ n ++ ",") ++ r = opt y (fun n => "Name:" ++ n ++ ",") ++ s -> x = y /\ r = s.
Proof.
  intros x y r s X Y R S E. unfold opt in E. destruct x as [x|], y as [y|].
  - rewrite !sapp_assoc in E. apply sapp_head in E. destruct (plain_comma _ _ _ _ (tidy_plain _ (X x eq_refl)) (tidy_plain _ (Y y eq_refl)) E) as [-> ->]. auto.
  - rewrite !sapp_assoc in E. symmetry in E. destruct (S _ E).
  - rewrite !sapp_assoc in E. destruct (R _ E).
  - auto.
Qed.
Section Inj.
Variable f : nat -> string.
Definition eqf (i j : nat) : Prop := f i = f j.
Definition goods (l : list nat) : Prop := forall j, In j l -> good (f j).
Lemma goods_app : forall a b, goods (a ++ b) -> goods a /\ goods b.
Proof. intros a b G. split; intros j I; apply G; apply in_or_app; auto. Qed.
Lemma lt_inj : forall pre t u r s, goods (olist t) -> goods (olist u) -> nopre pre r -> nopre pre s -> lt f pre t ++ r = lt f pre u ++ s -> linked eqf t u /\ r = s.
Proof.
  intros pre t u r s T U R S E. unfold lt in E. destruct t as [i|], u as [j|].
  - rewrite !sapp_assoc in E. apply sapp_head in E. cbn [append] in E. destruct (split_even _ _ _ _ (proj1 (T i (or_introl eq_refl))) (proj1 (U j (or_introl eq_refl))) E) as [F G]. injection G as ->. split; [constructor; assumption|reflexivity].
  - rewrite !sapp_assoc in E. symmetry in E. destruct (S _ E).
  - rewrite !sapp_assoc in E. destruct (R _ E).
  - split; [constructor|assumption].
Qed.
Lemma px_even : forall p, goods (pvisit p) -> even (px f p).
Proof. intros p G. unfold px, pvisit in *. destruct (a_unspec p) as [[]|]; [apply even_plain; reflexivity| |]; (destruct (a_type p) as [j|]; [apply G; left; reflexivity|apply even_plain; reflexivity]). Qed.
Lemma pt_inj : forall ps qs r s, goods (flat_map pvisit ps) -> goods (flat_map pvisit qs) -> pt f ps ++ String ")" r = pt f qs ++ String ")" s -> Forall2 (param_alike eqf) ps qs /\ r = s.
Proof.
  intros ps. induction ps as [|p ps IH]; intros [|q qs] r s P Q E; cbn [pt] in E.
  - injection E as ->. auto.
  - discriminate.
  - discriminate.
  - cbn [flat_map] in P, Q. apply goods_app in P, Q. destruct P as [P1 P2], Q as [Q1 Q2]. rewrite !sapp_assoc in E. apply sapp_head in E. cbn [append] in E.
    destruct (split_even _ _ _ _ (px_even p P1) (px_even q Q1) E) as [X Y]. injection Y as Y. destruct (IH qs r s P2 Q2 Y) as [F ->]. split; [|reflexivity]. constructor; [|assumption].
    unfold px, pvisit in *. assert (D : forall j, goods (olist (Some j)) -> f j <> "" /\ f j <> "UnspecifiedParam").
    { intros j G. destruct (G j (or_introl eq_refl)) as [_ N]. split; intros Z; rewrite Z in N; discriminate. }
    destruct (a_unspec p) as [[]|] eqn:Ep, (a_unspec q) as [[]|] eqn:Eq.
    all: try (apply pa_dots; assumption).
    all: try (exfalso; destruct (a_type q) as [j|]; [destruct (D j Q1); congruence|discriminate]).
    all: try (exfalso; destruct (a_type p) as [j|]; [destruct (D j P1); congruence|discriminate]).
    all: apply pa_type; [congruence|congruence|].
    all: destruct (a_type p) as [i|], (a_type q) as [j|]; [constructor; assumption|destruct (D i P1); congruence|destruct (D j Q1); congruence|constructor].
Qed.
Lemma ht_inj : forall hs ks r s, ~ In None hs -> ~ In None ks -> goods (flat_map olist hs) -> goods (flat_map olist ks) -> ht f hs ++ String ")" r = ht f ks ++ String ")" s -> Forall2 (linked eqf) hs ks /\ r = s.
Proof.
  intros hs. induction hs as [|[i|] hs IH]; intros [|[j|] ks] r s Nh Nk H K E; cbn [ht] in E; try (exfalso; apply Nh; left; reflexivity); try (exfalso; apply Nk; left; reflexivity).
  - injection E as ->. auto.
  - discriminate.
  - discriminate.
  - cbn [flat_map] in H, K. apply goods_app in H, K. destruct H as [H1 H2], K as [K1 K2]. rewrite !sapp_assoc in E. apply sapp_head in E. cbn [append] in E.
    destruct (split_even _ _ _ _ (proj1 (H1 i (or_introl eq_refl))) (proj1 (K1 j (or_introl eq_refl))) E) as [X Y]. injection Y as Y.
    assert (Nh' : ~ In None hs) by (intros I; apply Nh; right; assumption). assert (Nk' : ~ In None ks) by (intros I; apply Nk; right; assumption).
    destruct (IH ks r s Nh' Nk' H2 K2 Y) as [F ->]. split; [|reflexivity]. constructor; [constructor; assumption|assumption].
Qed.
Lemma place_inj : forall d e r s, place d ++ r = place e ++ s -> f_bit d = f_bit e /\ (f_bit d = None -> f_byte d = f_byte e) /\ r = s.
Proof.
  intros d e r s E. unfold place in E. destruct (f_bit d) as [x|], (f_bit e) as [y|]; rewrite !sapp_assoc in E; try discriminate; apply sapp_head in E; destruct (plain_comma _ _ _ _ (dec_plain _) (dec_plain _) E) as [D ->]; apply dec_inj in D.
  - subst. split; [reflexivity|]. split; [discriminate|reflexivity].
  - auto.
Qed.
Lemma fx_inj : forall d e r s, tidy_opt (f_name d) -> tidy_opt (f_name e) -> goods (olist (f_type d)) -> goods (olist (f_type e)) ->
  fx f d ++ String ")" r = fx f e ++ String ")" s -> field_alike eqf d e /\ r = s.
Proof.
  intros d e r s Td Te Gd Ge E. unfold fx in E. rewrite !sapp_assoc in E. apply name_inj in E; [|assumption|assumption|np|np]. destruct E as [E1 E].
  apply lt_inj in E; [|assumption|assumption|np|np]. destruct E as [E2 E]. apply num_inj in E; [|np|np]. destruct E as [E3 E]. apply num_inj in E; [|np|np]. destruct E as [E4 E].
  apply place_inj in E. destruct E as [E5 [E6 E]]. apply num_inj in E; [|np|np]. destruct E as [E7 E]. injection E as ->. split; [constructor; assumption|reflexivity].
Qed.
Lemma ft_inj : forall fs gs r s, Forall (fun d => tidy_opt (f_name d)) fs -> Forall (fun d => tidy_opt (f_name d)) gs ->
  goods (flat_map (fun d => olist (f_type d)) fs) -> goods (flat_map (fun d => olist (f_type d)) gs) -> ft f fs ++ String ")" r = ft f gs ++ String ")" s -> Forall2 (field_alike eqf) fs gs /\ r = s.
Proof.
  intros fs. induction fs as [|d fs IH]; intros [|e gs] r s Tf Tg F G E; cbn [ft] in E.
  - injection E as ->. auto.
  - discriminate.
  - discriminate.
  - inversion Tf; subst. inversion Tg; subst. cbn [flat_map] in F, G. apply goods_app in F, G. destruct F as [F1 F2], G as [G1 G2]. rewrite !sapp_assoc in E. apply sapp_head in E. cbn [append] in E.
    apply fx_inj in E; [|assumption..]. destruct E as [X Y]. injection Y as Y. apply IH in Y; [|assumption..]. destruct Y as [Z ->]. auto.
Qed.
Lemma et_inj : forall l m r s, Forall (fun '(k, _) => tidy k) l -> Forall (fun '(k, _) => tidy k) m -> et l ++ String ")" r = et m ++ String ")" s -> l = m /\ r = s.
Proof.
  intros l. induction l as [|[k v] l IH]; intros [|[k' v'] m] r s L M E; cbn [et fold_right] in E; repeat match type of E with context [fold_right ?g "" ?x] => change (fold_right g "" x) with (et x) in E end.
  - injection E as ->. auto.
  - discriminate.
  - discriminate.
  - inversion L as [|? ? L1 L2]; subst. inversion M as [|? ? M1 M2]; subst. rewrite !sapp_assoc in E. apply sapp_head in E. cbn [append] in E.
    destruct (split_at ":" _ _ _ _ (tidy_plain _ L1 ":"%char eq_refl) (tidy_plain _ M1 ":"%char eq_refl) E) as [-> E']. rewrite ?sapp_assoc in E'. cbn [append] in E'.
    destruct (split_at ")" _ _ _ _ (dec_plain v ")"%char eq_refl) (dec_plain v' ")"%char eq_refl) E') as [D F]. apply dec_inj in D. subst. injection F as F. destruct (IH _ _ _ L2 M2 F) as [-> ->]. auto.
Qed.

Lemma text_inj : forall G a b, object_ok G a -> object_ok G b -> same_kind (o_body a) (o_body b) -> goods (visited a) -> goods (visited b) -> text f a = text f b -> alike eqf a b.
Proof.
  intros G a b A B K Ga Gb E. pose proof (ok_body _ _ A) as Ta. pose proof (ok_body _ _ B) as Tb. pose proof (ok_hier _ _ A) as Ha. pose proof (ok_hier _ _ B) as Hb. clear A B. unfold text, visited, tidy_body in *.
  remember (o_body a) as ba eqn:Ea. remember (o_body b) as bb eqn:Eb. symmetry in Ea, Eb. destruct K.
  - rewrite ?sapp_assoc in E. apply sapp_head in E. assert (Pa : plain e) by (intros c C; apply tidy_no; assumption). assert (Pb : plain e') by (intros c C; apply tidy_no; assumption).
    apply plain_comma in E; [|assumption|assumption]. destruct E as [<- E]. rewrite <- (sapp_nil (num _ (o_size a))), <- (sapp_nil (num _ (o_size b))) in E. apply num_inj in E; [|np|np]. destruct E as [E _]. exact (al_base _ a b e Ea Eb E).
  - apply num_inj in E; [|np|np]. destruct E as [E1 E]. apply num_inj in E; [|np|np]. destruct E as [E2 E]. apply sapp_head in E. cbn [append] in E. apply et_inj in E; [|assumption|assumption]. destruct E as [<- _]. exact (al_enum _ a b l Ea Eb E1 E2).
  - rewrite <- (sapp_nil (lt _ _ t)), <- (sapp_nil (lt _ _ t')) in E. apply lt_inj in E; [|assumption|assumption|np|np]. exact (al_qual _ a b q t t' Ea Eb (proj1 E)).
  - rewrite <- (sapp_nil (lt _ _ t)), <- (sapp_nil (lt _ _ t')) in E. apply lt_inj in E; [|assumption|assumption|np|np]. exact (al_typedef _ a b t t' Ea Eb (proj1 E)).
  - rewrite <- (sapp_nil (lt _ _ t)), <- (sapp_nil (lt _ _ t')) in E. apply lt_inj in E; [|assumption|assumption|np|np]. exact (al_pointer _ a b t t' Ea Eb (proj1 E)).
  - exact (al_unspec _ a b Ea Eb).
  - rewrite <- (sapp_nil (lt _ _ t)), <- (sapp_nil (lt _ _ t')) in E. apply lt_inj in E; [|assumption|assumption|np|np]. exact (al_ref _ a b r t t' Ea Eb (proj1 E)).
  - apply goods_app in Ga, Gb. destruct Ga as [Ga1 Ga2], Gb as [Gb1 Gb2]. assert (X : Forall2 (param_alike eqf) ps ps' /\ lt f "Returns:(" t = lt f "Returns:(" t').
    { destruct ps as [|p ps], ps' as [|p' ps'].
      - auto.
      - exfalso. rewrite ?sapp_assoc in E. destruct t; discriminate.
      - exfalso. rewrite ?sapp_assoc in E. destruct t'; discriminate.
      - rewrite !sapp_assoc in E. apply sapp_head in E. cbn [append] in E. apply pt_inj in E; [|assumption|assumption]. destruct E as [X Y]. injection Y as Y. auto. }
    destruct X as [X Y]. rewrite <- (sapp_nil (lt _ _ t)), <- (sapp_nil (lt _ _ t')) in Y. apply lt_inj in Y; [|assumption|assumption|np|np]. exact (al_sub _ a b ps t ps' t' Ea Eb X (proj1 Y)).
  - apply num_inj in E; [|np|np]. destruct E as [<- E]. apply num_inj in E; [|np|np]. destruct E as [<- E]. apply sapp_head in E. apply plain_comma in E; [|apply dec_plain|apply dec_plain]. destruct E as [D E]. apply dec_inj in D. subst c'.
    apply sapp_head in E. apply plain_comma in E; [|apply dec_plain|apply dec_plain]. destruct E as [D E]. apply dec_inj in D. subst v'.
    rewrite <- (sapp_nil (lt _ _ t)), <- (sapp_nil (lt _ _ t')) in E. apply lt_inj in E; [|assumption|assumption|np|np]. exact (al_array _ a b t t' s l c v Ea Eb (proj1 E)).
  - apply goods_app in Ga, Gb. destruct Ga as [Ga1 Ga2], Gb as [Gb1 Gb2]. apply num_inj in E; [|np|np]. destruct E as [E1 E]. apply num_inj in E; [|np|np]. destruct E as [E2 E].
    destruct fs as [|d fs], fs' as [|d' fs']; try discriminate.
    + apply (al_struct _ a b g [] hs [] hs' Ea Eb E1 E2); [constructor|intros []; reflexivity].
    + rewrite !sapp_assoc in E. apply sapp_head in E. cbn [append] in E. apply ft_inj in E; [|assumption..]. destruct E as [X Y]. injection Y as Y. rewrite <- (sapp_nil (ht f hs ++ _)), <- (sapp_nil (ht f hs' ++ _)), !sapp_assoc in Y. cbn [append] in Y.
      apply ht_inj in Y; [|exact (Ha _ _ _ eq_refl)|exact (Hb _ _ _ eq_refl)|assumption|assumption]. exact (al_struct _ a b g _ hs _ hs' Ea Eb E1 E2 X (fun _ => proj1 Y)).
Qed.
End Inj.

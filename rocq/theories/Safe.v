(** The parsers always end, and never reach an [unreachable!] or fail an [assert!]. *)
From Verif Require Export Sound2.

(** The panics that the source claims to be impossible. *)
Definition impossible (p : panic) : bool :=
  match p with PUnreachable | PAssertTupleWhere => true | _ => false end.
Definition safe {A} (m : outcome A) : Prop :=
  match m with Ret _ => True | Panic p => impossible p = false | OutOfFuel => False end.

Lemma safe_bind {A B} (m : outcome A) (k : A -> outcome B) :
  safe m -> (forall x, m = Ret x -> safe (k x)) -> safe (bind m k).
Proof. destruct m; simpl; auto. Qed.

(** Case on every test of the goal. *)
Ltac cases :=
  repeat (cbn [safe impossible bind]; try exact I; try reflexivity;
    match goal with
    | |- safe (if ?b then _ else _) => destruct b eqn:?
    | |- safe (match ?x with _ => _ end) => destruct x eqn:?
    | |- safe (let (_, _) := ?x in _) => destruct x eqn:?
    end).

Lemma parse_any_ident_safe s ts : safe (parse_any_ident s ts).
Proof. unfold parse_any_ident. cases. Qed.
Lemma parse_ident_safe s c ts : safe (parse_ident s c ts).
Proof. unfold parse_ident. cases. Qed.
Lemma parse_punct_safe c s ts : safe (parse_punct c s ts).
Proof. unfold parse_punct. cases. Qed.

(** ** Token runs and attributes *)
Lemma until_safe P must ts : safe (consume_stuff_until P must ts).
Proof.
  unfold consume_stuff_until. destruct (stuff_loop P 0 false ts) as [[o m] r] eqn:E.
  apply stuff_loop_sound in E; [|lia]. destruct E as (_ & d & dash & _ & _ & H3 & ->).
  destruct must; simpl; [|exact I]. destruct r as [|t r]; simpl; [reflexivity|].
  rewrite negb_involutive. destruct (closes dash t) eqn:Ec; [|exact I].
  unfold closes in Ec. bsplit. destruct t; try discriminate. simpl in H. rewrite H. reflexivity.
Qed.

Lemma attribute_path_safe ts : safe (attribute_path ts).
Proof.
  induction ts as [|t r IH]; simpl; auto. destruct t; simpl; auto.
  - apply safe_bind; auto. intros [? ?] _. exact I.
  - destruct (p_is "=" p); [exact I|]. destruct (p_is ":" p); [|reflexivity].
    apply safe_bind; auto. intros [? ?] _. exact I.
Qed.
Lemma parse_attribute_safe h b g : safe (parse_attribute h b g).
Proof.
  unfold parse_attribute. apply safe_bind; [apply attribute_path_safe|]. intros [path rest] H.
  apply attribute_path_sound in H. destruct H as (_ & _ & H). apply safe_bind; [|intros; exact I].
  destruct rest as [|[]]; simpl in *; auto; try contradiction. rewrite H. exact I.
Qed.
Arguments consume_attributes_with_inner expect_inner !ts.
Lemma attributes_safe inner : forall n ts, List.length ts <= n -> safe (consume_attributes_with_inner inner ts).
Proof.
  induction n as [|n IH]; intros ts Hn.
  - destruct ts; [exact I|simpl in Hn; lia].
  - destruct ts as [|[g|i|p|li] r]; try exact I. cbn [consume_attributes_with_inner].
    assert (Hr : forall h b g r', List.length r' <= n ->
       safe (do a <- parse_attribute h b g;; do (l, rest) <- consume_attributes_with_inner inner r';; Ret (a :: l, rest))).
    { intros h b g r' Hl. apply safe_bind; [apply parse_attribute_safe|]. intros. apply safe_bind; auto.
      intros [? ?] _. exact I. }
    simpl in Hn. cases; apply Hr; simpl in *; lia.
Qed.
Global Arguments consume_attributes_with_inner : simpl never.
Lemma outer_attributes_safe ts : safe (consume_outer_attributes ts).
Proof. eapply attributes_safe. eauto. Qed.
Lemma inner_attributes_safe ts : safe (consume_inner_attributes ts).
Proof. eapply attributes_safe. eauto. Qed.

(** ** Loops *)
Lemma consume_punct_length c ts : List.length (snd (consume_punct c ts)) <= List.length ts.
Proof. unfold consume_punct. destruct ts as [|[g|i|p|l] r]; simpl; auto. destruct (p_is c p); simpl; lia. Qed.

Lemma punct_loop_safe {A} stop (elem : parser A) :
  (forall ts, safe (stop ts)) -> (forall ts, safe (elem ts)) ->
  (forall ts x rest, stop ts = Ret false -> elem ts = Ret (x, rest) -> List.length rest < List.length ts) ->
  forall fuel acc ts, List.length ts < fuel -> safe (punct_loop stop elem fuel acc ts).
Proof.
  intros H1 H2 H3. induction fuel as [|fuel IH]; intros acc ts Hf; [lia|]. cbn [punct_loop].
  apply safe_bind; auto. intros [] Hs; [exact I|]. apply safe_bind; auto. intros [x r] Hx.
  apply H3 in Hx; auto. pose proof (consume_punct_length "," r) as Hl. unfold consume_comma.
  destruct (consume_punct "," r) as [c r2]. apply IH. simpl in Hl. lia.
Qed.

(** A list [c ++ rest] with [c] not empty. *)
Lemma length_lt {A} (c rest : list A) : c <> [] -> List.length rest < List.length (c ++ rest).
Proof. destruct c; [congruence|]. intros _. rewrite app_length. simpl. lia. Qed.

(** ** Types *)
Lemma consume_bound_safe P ts : safe (consume_bound P ts).
Proof.
  unfold consume_bound. cases. apply safe_bind; [apply until_safe|]. intros [? ?] _. exact I.
Qed.
Lemma generic_param_safe ts : safe (parse_generic_param ts).
Proof.
  unfold parse_generic_param. apply safe_bind; [cases|]. intros [? ?] _.
  apply safe_bind; [apply parse_any_ident_safe|]. intros [? ?] _.
  apply safe_bind; [apply consume_bound_safe|]. intros [? ?] _. exact I.
Qed.
Lemma generics_safe ts : safe (consume_generic_params ts).
Proof.
  unfold consume_generic_params. destruct (consume_punct "<" ts) as [[l|] t1]; [|exact I].
  apply safe_bind.
  - apply punct_loop_safe; [intros; unfold stop_generic_params; cases|apply generic_param_safe| |unfold loop_fuel; lia].
    intros ts' x rest Hs H. apply generic_param_sound in H; auto. destruct H as (c & -> & -> & _).
    apply length_lt. unfold print_generic_param. intro H. apply app_eq_nil in H. destruct H; discriminate.
  - intros [ps t2] H.
    apply (punct_loop_new _ _ (fun x c => c = print_generic_param x) no_gap wf_generic_param) in H;
      [|apply generic_param_sound].
    destruct H as (_ & _ & _ & _ & H). destruct t2 as [|[]]; try discriminate. exact I.
Qed.
Lemma where_safe ts : safe (consume_where_clause ts).
Proof.
  unfold consume_where_clause. destruct (consume_ident "where" ts) as [[k|] t1]; [|exact I].
  apply safe_bind; [|intros [? ?] _; exact I].
  apply punct_loop_safe; [intros; unfold stop_where; cases| | |unfold loop_fuel; lia].
  - intro. unfold parse_where_predicate. apply safe_bind; [apply until_safe|]. intros [lhs t2] _. cases.
    apply safe_bind; [apply until_safe|]. intros [? ?] _. exact I.
  - intros ts' x rest Hs H. apply where_predicate_sound in H; auto. destruct H as (c & -> & -> & _).
    apply length_lt. unfold print_where_predicate, print_bound. intro H. apply app_eq_nil in H. destruct H; discriminate.
Qed.

Lemma stop_at_end_safe ts : safe (stop_at_end ts).
Proof. destruct ts; exact I. Qed.
Lemma field_type_safe ts : safe (consume_field_type ts).
Proof.
  unfold consume_field_type. apply safe_bind; [apply until_safe|]. intros [[|] ?] _; cases.
Qed.
Lemma tuple_fields_safe g : safe (parse_tuple_fields g).
Proof.
  unfold parse_tuple_fields. apply safe_bind; [|intros [? ?] _; exact I].
  apply punct_loop_safe; [apply stop_at_end_safe| | |unfold loop_fuel; lia].
  - intro ts. unfold parse_tuple_field. apply safe_bind; [apply outer_attributes_safe|]. intros [? t1] _.
    destruct (consume_vis_marker t1). apply safe_bind; [apply field_type_safe|]. intros [? ?] _. exact I.
  - intros ts x rest Hs H. unfold parse_tuple_field in H. inv_bind H. destruct x0 as [attrs t1].
    destruct (consume_vis_marker t1) as [v t2] eqn:Ev. inv_bind H. destruct x0 as [ty t3]. bsplit.
    destruct (attrs_vis_sound _ _ _ _ _ Hx Ev) as (ca & -> & _).
    unfold consume_field_type in Hx0. inv_bind Hx0. destruct x as [ty' t4].
    apply until_sound in Hx1. destruct Hx1 as [-> _].
    destruct ty'; [destruct (consume_comma t4) as [[]]; discriminate|]. bsplit.
    rewrite !app_assoc. apply length_lt. intro H. apply app_eq_nil in H. destruct H; discriminate.
Qed.
Lemma named_fields_safe g : safe (parse_named_fields g).
Proof.
  unfold parse_named_fields. apply safe_bind; [|intros [? ?] _; exact I].
  apply punct_loop_safe; [apply stop_at_end_safe| | |unfold loop_fuel; lia].
  - intro ts. unfold parse_named_field. apply safe_bind; [apply outer_attributes_safe|]. intros [? t1] _.
    destruct (consume_vis_marker t1). apply safe_bind; [apply parse_any_ident_safe|]. intros [? ?] _.
    apply safe_bind; [apply parse_punct_safe|]. intros [? ?] _.
    apply safe_bind; [apply field_type_safe|]. intros [? ?] _. exact I.
  - intros ts x rest Hs H. apply named_field_sound in H; auto. destruct H as (c & -> & (ca & _ & ->) & _).
    rewrite !app_assoc. apply length_lt. intro H. apply app_eq_nil in H. destruct H; discriminate.
Qed.
Lemma variant_fields_safe ts : safe (parse_variant_fields ts).
Proof.
  unfold parse_variant_fields. cases; apply safe_bind; auto using tuple_fields_safe, named_fields_safe; intros; exact I.
Qed.
Lemma discriminant_safe ts : safe (consume_enum_discriminant ts).
Proof. unfold consume_enum_discriminant. cases. Qed.
Lemma discriminant_length ts r rest :
  consume_enum_discriminant ts = Ret (r, rest) -> List.length rest <= List.length ts.
Proof.
  unfold consume_enum_discriminant. pose proof (consume_punct_length "=" ts) as Hl.
  destruct (consume_punct "=" ts) as [[e|] t1]; simpl in Hl; intro H.
  - destruct t1 as [|v [|t t1]]; try discriminate; simpl in *.
    + bsplit. simpl. lia.
    + destruct (is_punct "," t); bsplit; simpl; lia.
  - bsplit. lia.
Qed.
Lemma variants_loop_safe : forall fuel acc ts,
  List.length ts < fuel -> safe (enum_variants_loop fuel acc ts).
Proof.
  induction fuel as [|fuel IH]; intros acc ts Hf; [lia|]. cbn [enum_variants_loop].
  destruct ts as [|t0 r0]; [exact I|]. remember (t0 :: r0) as ts eqn:Ets.
  apply safe_bind; [apply outer_attributes_safe|]. intros [attrs t1] H1.
  destruct (consume_vis_marker t1) as [v t2] eqn:Ev.
  destruct (attrs_vis_sound _ _ _ _ _ H1 Ev) as (ca & Hts & _).
  apply safe_bind; [apply parse_any_ident_safe|]. intros [name t3] H2.
  apply parse_any_ident_sound in H2. subst t2.
  apply safe_bind; [apply variant_fields_safe|]. intros [f t4] H3.
  apply variant_fields_sound in H3. destruct H3 as (cf & -> & _).
  apply safe_bind; [apply discriminant_safe|]. intros [d t5] H4. apply discriminant_length in H4.
  pose proof (consume_punct_length "," t5) as Hl. unfold consume_comma.
  destruct (consume_punct "," t5) as [c t6]. simpl in Hl. destruct d; [|exact I].
  apply IH. rewrite Hts in Hf. rewrite !app_length in Hf. simpl in Hf. rewrite app_length in Hf. lia.
Qed.
Lemma variants_safe ts : safe (parse_enum_variants ts).
Proof. apply variants_loop_safe. unfold loop_fuel. lia. Qed.

(** ** Functions and simple items *)
Lemma lifetime_safe b ts : safe (consume_lifetime b ts).
Proof. unfold consume_lifetime. cases. Qed.
Lemma fn_param_safe ts : safe (parse_fn_param ts).
Proof.
  unfold parse_fn_param. apply safe_bind; [apply outer_attributes_safe|]. intros [? t1] _.
  destruct (consume_punct "&" t1) as [? t2]. apply safe_bind; [apply lifetime_safe|]. intros [? t3] _.
  destruct (consume_ident "mut" t3) as [? t4]. destruct (consume_ident "self" t4) as [[|] ?]; [exact I|].
  apply safe_bind; [apply parse_any_ident_safe|]. intros [? ?] _.
  apply safe_bind; [apply parse_punct_safe|]. intros [? ?] _.
  apply safe_bind; [apply field_type_safe|]. intros [? ?] _. exact I.
Qed.
Lemma fn_params_safe ts : safe (parse_fn_params ts).
Proof.
  unfold parse_fn_params. apply safe_bind; [|intros [? ?] _; exact I].
  apply punct_loop_safe; [apply stop_at_end_safe|apply fn_param_safe| |unfold loop_fuel; lia].
  intros ts' x rest Hs H. apply fn_param_sound in H; auto. destruct H as (c & -> & Hc & _).
  apply length_lt. destruct x; simpl in Hc.
  - destruct Hc as (ca & _ & ->). rewrite !app_assoc. intro H. apply app_eq_nil in H. destruct H; discriminate.
  - destruct Hc as (ca & amp & lt & _ & _ & _ & ->). rewrite !app_assoc. intro H. apply app_eq_nil in H. destruct H; discriminate.
Qed.
Lemma fn_return_safe ts : safe (consume_fn_return ts).
Proof. unfold consume_fn_return. cases. apply safe_bind; [apply until_safe|]. intros [? ?] _. exact I. Qed.
Lemma classify_safe q ts : safe (classify_fn q ts).
Proof.
  unfold classify_fn. cases.
  match goal with H : has_only_const_xor_unsafe q = true |- _ => unfold has_only_const_xor_unsafe in H end.
  bsplit. rewrite Heqb3, Heqb4 in H. discriminate.
Qed.
Lemma consume_fn_safe attrs vis ts : safe (consume_fn attrs vis ts).
Proof.
  unfold consume_fn. destruct (consume_fn_qualifiers ts) as [q t1].
  apply safe_bind; [apply classify_safe|]. intros [[kw|] t2] _; [|exact I].
  apply safe_bind; [apply parse_any_ident_safe|]. intros [? ?] _.
  apply safe_bind; [apply generics_safe|]. intros [? t3] _.
  apply safe_bind. { unfold parse_fn_parens. cases. apply safe_bind; [apply fn_params_safe|]. intros; exact I. }
  intros [? ?] _. apply safe_bind; [apply fn_return_safe|]. intros [? ?] _.
  apply safe_bind; [apply where_safe|]. intros [? ?] _.
  apply safe_bind; [unfold parse_fn_body; cases|]. intros [? ?] _. exact I.
Qed.
Lemma macro_safe attrs ts : safe (consume_macro attrs ts).
Proof.
  unfold consume_macro. apply safe_bind; [|intros [[|] ?] _; exact I].
  unfold consume_macro_inner.
  destruct (consume_any_ident ts) as [[|] t1]; [|exact I]. destruct (consume_punct "!" t1) as [[|] t2]; [|exact I].
  destruct (consume_any_ident t2) as [? t3]. cases.
  apply safe_bind; [apply parse_punct_safe|]. intros [? ?] _. exact I.
Qed.
Lemma constant_safe attrs vis ts : safe (parse_const_or_static attrs vis ts).
Proof.
  unfold parse_const_or_static. apply safe_bind; [cases|]. intros [[? ?] ?] _.
  apply safe_bind; [cases|]. intros ? _. apply safe_bind; [apply parse_any_ident_safe|]. intros [? ?] _.
  apply safe_bind; [apply parse_punct_safe|]. intros [? ?] _.
  apply safe_bind; [apply until_safe|]. intros [? t1] _. destruct (consume_punct "=" t1).
  apply safe_bind; [apply until_safe|]. intros [? ?] _.
  apply safe_bind; [apply parse_punct_safe|]. intros [? ?] _. exact I.
Qed.
Lemma type_alias_safe attrs vis ts : safe (consume_ty_definition attrs vis ts).
Proof.
  unfold consume_ty_definition. apply safe_bind; [apply parse_ident_safe|]. intros [? ?] _.
  apply safe_bind; [apply parse_any_ident_safe|]. intros [? ?] _.
  apply safe_bind; [apply consume_bound_safe|]. intros [? t1] _. destruct (consume_punct "=" t1) as [eq t2].
  apply safe_bind.
  { destruct eq; [|exact I]. apply safe_bind; [apply until_safe|]. intros [? ?] _. exact I. }
  intros [? ?] _. apply safe_bind; [apply parse_punct_safe|]. intros [? ?] _. exact I.
Qed.
Lemma use_safe attrs vis ts : safe (parse_use_declaration attrs vis ts).
Proof.
  unfold parse_use_declaration. apply safe_bind; [apply parse_ident_safe|]. intros [? ?] _.
  apply safe_bind; [apply until_safe|]. intros [? ?] _.
  apply safe_bind; [apply parse_punct_safe|]. intros [? ?] _. exact I.
Qed.
Lemma extern_crate_safe attrs vis ts : safe (parse_extern_crate attrs vis ts).
Proof.
  unfold parse_extern_crate. apply safe_bind; [|intros [[|] ?] _; [exact I|reflexivity]].
  unfold consume_extern_crate. cases.
  apply safe_bind; [apply parse_any_ident_safe|]. intros [? t1] _. destruct (consume_ident "as" t1) as [a t2].
  apply safe_bind.
  { destruct a; [|exact I]. apply safe_bind; [apply parse_any_ident_safe|]. intros [? ?] _. exact I. }
  intros [? ?] _. apply safe_bind; [apply parse_punct_safe|]. intros [? ?] _. exact I.
Qed.
Lemma struct_safe attrs vis kw ts : safe (parse_struct attrs vis kw ts).
Proof.
  unfold parse_struct. apply safe_bind; [apply parse_any_ident_safe|]. intros [? ?] _.
  apply safe_bind; [apply generics_safe|]. intros [? ?] _.
  apply safe_bind; [apply where_safe|]. intros [wh t3] Hw. apply where_sound in Hw. destruct Hw as (_ & _ & Hw & _).
  apply safe_bind.
  { cases; apply safe_bind; auto using tuple_fields_safe, named_fields_safe; intros; exact I. }
  intros [fs t4] Hf. apply safe_bind.
  { destruct fs; try exact I. destruct wh; [|apply where_safe]. exfalso.
    specialize (Hw eq_refl). unfold where_follow in Hw.
    destruct t3 as [|[g|ii|p|ll] r]; try discriminate.
    - destruct (delim_eqb (g_delim g) Parenthesis) eqn:E.
      + simpl in Hw. destruct g as [d s sp]. simpl in *. known. discriminate.
      + destruct (delim_eqb (g_delim g) Brace); [|discriminate]. inv_bind Hf. discriminate.
    - destruct (p_is ";" p); discriminate. }
  intros [? t5] _. destruct (consume_punct ";" t5). exact I.
Qed.
Lemma enum_safe attrs vis kw ts : safe (parse_enum attrs vis kw ts).
Proof.
  unfold parse_enum. apply safe_bind; [apply parse_any_ident_safe|]. intros [? ?] _.
  apply safe_bind; [apply generics_safe|]. intros [? ?] _.
  apply safe_bind; [apply where_safe|]. intros [? ?] _. cases.
  apply safe_bind; [apply variants_safe|]. intros [|] _; exact I.
Qed.
Lemma union_safe attrs vis kw ts : safe (parse_union attrs vis kw ts).
Proof.
  unfold parse_union. apply safe_bind; [apply parse_any_ident_safe|]. intros [? ?] _.
  apply safe_bind; [apply generics_safe|]. intros [? ?] _.
  apply safe_bind; [apply where_safe|]. intros [? ?] _. cases.
  apply safe_bind; [apply named_fields_safe|]. intros; exact I.
Qed.

(** ** Nested items *)
Lemma many_loop_safe {A} (elem : parser A) n :
  (forall ts, toks_depth ts < n -> safe (elem ts)) ->
  (forall ts x rest, elem ts = Ret (x, rest) -> exists c, ts = c ++ rest /\ c <> []) ->
  forall fuel ts, toks_depth ts < n -> List.length ts < fuel -> safe (many_loop elem fuel ts).
Proof.
  intros H1 H2. induction fuel as [|fuel IH]; intros ts Hd Hf; [lia|]. cbn [many_loop].
  destruct ts as [|t r]; [exact I|]. apply safe_bind; auto. intros [x rest] Hx.
  apply H2 in Hx. destruct Hx as (c & Hc & Hne). rewrite Hc in Hd, Hf. apply safe_bind; [|intros; exact I].
  apply IH.
  - rewrite toks_depth_app in Hd. lia.
  - pose proof (length_lt c rest Hne). lia.
Qed.

(** A token list split with a group in the middle bounds the depth of the group's stream. *)
Lemma depth_inside a g b : toks_depth (g_stream g) < toks_depth (a ++ TGroup g :: b).
Proof.
  destruct g as [d s sp]. rewrite toks_depth_app. cbn [toks_depth g_stream]. rewrite tok_depth_group. lia.
Qed.

Section Safe.
Variable R : parser (result item error).
Variable E : list attribute -> option vis_marker -> parser item.
Variable n : nat.
Hypothesis HR : forall ts i rest, R ts = Ret (Ok i, rest) ->
  exists c, ts = c ++ rest /\ spells_item i c /\ shape_item i = true /\ follow_ok i rest = true.
Hypothesis HE : forall attrs vis ts i rest, E attrs vis ts = Ret (i, rest) ->
  wf_outer attrs = true -> wf_opt wf_vis vis = true -> either_ok attrs vis ts i rest.
Hypothesis SR : forall ts, toks_depth ts < n -> safe (R ts).
Hypothesis SE : forall attrs vis ts, toks_depth ts < n -> safe (E attrs vis ts).

Lemma impl_member_ne m c : spells_impl_member m c -> c <> [].
Proof.
  destruct m; simpl.
  - intros H. eapply (item_ne (IFunction f)). exact H.
  - intros H. eapply (item_ne (IConstant c0)). exact H.
  - intros H. eapply (item_ne (ITypeAlias t)). exact H.
  - intros (ca & _ & ->) H. apply app_eq_nil in H. destruct H as [_ H]. discriminate.
Qed.

Lemma impl_body_safe g allow : toks_depth (g_stream g) < n -> safe (parse_impl_body E g allow).
Proof.
  intro Hd. unfold parse_impl_body. apply safe_bind; [apply inner_attributes_safe|]. intros [inner t1] H1.
  apply inner_attributes_sound in H1. destruct H1 as (ci & Hs & _).
  apply safe_bind; [|intros; exact I].
  apply (many_loop_safe _ n).
  - intros ts Ht. unfold parse_impl_member. apply safe_bind; [apply outer_attributes_safe|]. intros [attrs t2] H2.
    destruct (consume_vis_marker t2) as [v t3] eqn:Ev.
    destruct (attrs_vis_sound _ _ _ _ _ H2 Ev) as (ca & -> & _).
    rewrite !toks_depth_app in Ht. apply safe_bind; [apply SE; lia|]. intros [i t4] _.
    apply safe_bind; [|intros; exact I]. unfold impl_member_of_item. cases.
  - intros ts x rest Hm. apply impl_member_sound in Hm; auto. destruct Hm as (c & -> & Hc & _).
    exists c. split; auto. eapply impl_member_ne; eauto.
  - rewrite Hs in Hd. rewrite toks_depth_app in Hd. lia.
  - unfold loop_fuel. lia.
Qed.
Lemma body_group_safe site bad pre ts :
  impossible bad = false -> toks_depth (pre ++ ts) <= n -> safe (parse_body_group E site bad ts).
Proof.
  intros Hb Hd. unfold parse_body_group. destruct ts as [|[g|i|p|l] r]; simpl; auto.
  destruct (delim_eqb (g_delim g) Brace); simpl; auto.
  apply safe_bind; [|intros; exact I]. apply impl_body_safe.
  pose proof (depth_inside pre g r). lia.
Qed.

Lemma impl_safe attrs ts : toks_depth ts <= n -> safe (parse_impl E attrs ts).
Proof.
  intro Hd. unfold parse_impl. destruct (consume_ident "unsafe" ts) as [u t0] eqn:Eu.
  apply consume_ident_sound in Eu. destruct Eu as (-> & _).
  apply safe_bind; [apply parse_ident_safe|]. intros [kw t1] H. apply parse_ident_sound in H. destruct H as [-> _].
  apply safe_bind; [apply generics_safe|]. intros [gen t2] H. apply generics_sound in H. destruct H as (-> & _).
  apply safe_bind; [apply until_safe|]. intros [ty1 t3] H. apply until_sound in H. destruct H as [-> _].
  destruct (consume_ident "for" t3) as [f t4] eqn:Ef. apply consume_ident_sound in Ef. destruct Ef as (-> & _).
  rewrite !toks_depth_app in Hd. simpl in Hd. rewrite !toks_depth_app in Hd.
  assert (Hgo : forall (h : (option ident * option type_expr * type_expr)) t5, toks_depth t5 <= n -> safe (
    let '((tk_for, trait_ty, self_ty), ts0) := (h, t5) in
    do (wh, ts1) <- consume_where_clause ts0 ;;
    do ((braces, inner, items), ts2) <- parse_body_group E AtImplBody PImplToken ts1 ;;
    Ret (mkImpl attrs u kw gen trait_ty tk_for self_ty wh braces inner items, ts2))).
  { intros [[a b] c] t5 H5. apply safe_bind; [apply where_safe|]. intros [wh t6] H.
    apply where_sound in H. destruct H as (-> & _). apply safe_bind.
    - eapply (body_group_safe _ _ (print_opt print_where wh)); auto.
    - intros [[[? ?] ?] ?] _. exact I. }
  destruct f as [f|].
  - apply safe_bind.
    + apply safe_bind; [apply until_safe|]. intros [? ?] _. exact I.
    + intros [h t5] H. apply (Hgo h). inv_bind H. destruct x as [ty2 t6]. bsplit.
      apply until_sound in Hx. destruct Hx as [-> _]. rewrite toks_depth_app in Hd. lia.
  - cbn [bind]. apply (Hgo (None, None, mkTypeExpr ty1)). lia.
Qed.

Lemma trait_safe attrs vis ts : toks_depth ts <= n -> safe (parse_trait E attrs vis ts).
Proof.
  intro Hd. unfold parse_trait. destruct (consume_ident "unsafe" ts) as [u t0] eqn:Eu.
  apply consume_ident_sound in Eu. destruct Eu as (-> & _).
  apply safe_bind; [apply parse_ident_safe|]. intros [kw t1] H. apply parse_ident_sound in H. destruct H as [-> _].
  apply safe_bind; [apply parse_any_ident_safe|]. intros [name t2] H. apply parse_any_ident_sound in H. subst t1.
  apply safe_bind; [apply generics_safe|]. intros [gen t3] H. apply generics_sound in H. destruct H as (-> & _).
  rewrite !toks_depth_app in Hd. simpl in Hd. rewrite !toks_depth_app in Hd.
  apply safe_bind; [apply consume_bound_safe|]. intros [bound t4] H.
  assert (Ht : exists pre, t3 = pre ++ t4).
  { destruct t4; [exists t3; rewrite app_nil_r; auto|]. apply bound_sound in H. destruct H as (-> & _). eauto. }
  destruct Ht as [pre ->]. rewrite toks_depth_app in Hd.
  apply safe_bind; [apply where_safe|]. intros [wh t6] H6. apply where_sound in H6. destruct H6 as (-> & _).
  apply safe_bind.
  - eapply (body_group_safe _ _ (print_opt print_where wh)); auto. lia.
  - intros [[[? ?] ?] ?] _. exact I.
Qed.

Lemma extern_block_safe attrs vis ts : toks_depth ts <= n -> safe (parse_extern_block E attrs vis ts).
Proof.
  intro Hd. unfold parse_extern_block. apply safe_bind; [|intros [[|] ?] _; [exact I|reflexivity]].
  unfold consume_extern_block. destruct (consume_ident "unsafe" ts) as [u t0] eqn:Eu.
  apply consume_ident_sound in Eu. destruct Eu as (-> & _).
  destruct (consume_ident "extern" t0) as [k t1] eqn:Ek. apply consume_ident_sound in Ek. destruct Ek as (-> & _).
  destruct k as [k|]; [|exact I].
  destruct (consume_literal t1) as [abi t2] eqn:Ea. apply consume_literal_sound in Ea. subst t1.
  destruct t2 as [|[g|i|p|l] r]; try exact I. destruct (delim_eqb (g_delim g) Brace); [|exact I].
  apply safe_bind; [|intros [[? ?] ?] _; exact I]. apply impl_body_safe.
  rewrite !toks_depth_app in Hd. pose proof (depth_inside [] g r). simpl app in H. lia.
Qed.

Lemma mod_safe attrs vis ts : toks_depth ts <= n -> safe (parse_mod R attrs vis ts).
Proof.
  intro Hd. unfold parse_mod. destruct (consume_ident "unsafe" ts) as [u t0] eqn:Eu.
  apply consume_ident_sound in Eu. destruct Eu as (-> & _).
  apply safe_bind; [apply parse_ident_safe|]. intros [kw t1] H. apply parse_ident_sound in H. destruct H as [-> _].
  apply safe_bind; [apply parse_any_ident_safe|]. intros [name t2] H. apply parse_any_ident_sound in H. subst t1.
  destruct t2 as [|[g|i|p|l] r]; try reflexivity.
  - destruct (delim_eqb (g_delim g) Brace); [|reflexivity].
    apply safe_bind; [apply inner_attributes_safe|]. intros [inner t1] H1.
    apply inner_attributes_sound in H1. destruct H1 as (ci & Hs & _).
    assert (Hg : toks_depth (g_stream g) < n).
    { rewrite toks_depth_app in Hd. cbn [toks_depth] in Hd.
      change (TIdent kw :: TIdent name :: TGroup g :: r) with ([TIdent kw; TIdent name] ++ TGroup g :: r) in Hd.
      pose proof (depth_inside [] g r) as H. cbn [app toks_depth] in H. lia. }
    apply safe_bind; [|intros; exact I]. apply (many_loop_safe _ n).
    + intros ts Ht. unfold parse_mod_member. apply safe_bind; auto. intros [[|] ?] _; simpl; auto.
    + intros ts x rest Hm. unfold parse_mod_member in Hm. inv_bind Hm. destruct x0 as [[i|e] r']; [|discriminate].
      bsplit. apply HR in Hx. destruct Hx as (c & -> & C1 & _). exists c. split; auto. eapply item_ne; eauto.
    + rewrite Hs in Hg. rewrite toks_depth_app in Hg. lia.
    + unfold loop_fuel. lia.
  - destruct (p_is ";" p); simpl; auto.
Qed.

Lemma consume_fn_rollback attrs vis ts nf t1 : consume_fn attrs vis ts = Ret (Err nf, t1) -> t1 = ts.
Proof.
  intro Hx. unfold consume_fn in Hx. destruct (consume_fn_qualifiers ts). inv_bind Hx. destruct x as [[k|nf'] t2].
  - repeat (inv_bind Hx; match type of Hx with context [let (_, _) := ?y in _] => destruct y end). discriminate.
  - bsplit. auto.
Qed.

Lemma either_safe attrs vis ts : toks_depth ts <= n -> safe (consume_either R E attrs vis ts).
Proof.
  intro Hd. unfold consume_either. destruct ts as [|[g|k|p|l] r]; try reflexivity.
  destruct (id_is "type" k).
  { apply safe_bind; [apply type_alias_safe|]. intros [[|] ?] _; [exact I|reflexivity]. }
  destruct (fn_like_keyword k).
  { apply safe_bind; [apply consume_fn_safe|]. intros [[f|nf] t1] H; [exact I|].
    apply consume_fn_rollback in H. subst t1.
    destruct nf; (apply safe_bind; [|intros [? ?] _; exact I]);
      auto using constant_safe, trait_safe, impl_safe, mod_safe, extern_crate_safe, extern_block_safe. }
  destruct vis; [reflexivity|]. apply safe_bind; [apply macro_safe|]. intros [[|] ?] _; [exact I|reflexivity].
Qed.

Lemma wrap_safe {A} (c : A -> item) m : safe m -> safe (wrap c m).
Proof. intro H. unfold wrap. apply safe_bind; auto. intros [? ?] _. exact I. Qed.

Lemma item_body_safe ts : toks_depth ts <= n -> safe (consume_item_body R E ts).
Proof.
  intro Hd. unfold consume_item_body. apply safe_bind; [apply outer_attributes_safe|]. intros [attrs t1] H1.
  destruct (consume_vis_marker t1) as [v t2] eqn:Ev.
  destruct (attrs_vis_sound _ _ _ _ _ H1 Ev) as (ca & -> & _). rewrite !toks_depth_app in Hd.
  assert (Hm : safe (parse_item_macro attrs t2)).
  { unfold parse_item_macro. apply safe_bind; [apply macro_safe|]. intros [[|] ?] _; [exact I|reflexivity]. }
  assert (Hd2 : toks_depth t2 <= n) by lia. clear Hd.
  destruct t2 as [|[g|k|p|l] r]; try (apply wrap_safe; exact Hm); [reflexivity|].
  repeat match goal with |- safe (if ?b then _ else _) => destruct b end; try apply wrap_safe;
    auto using struct_safe, union_safe, mod_safe, trait_safe, impl_safe, constant_safe, use_safe, either_safe.
  apply safe_bind; [apply enum_safe|]. intros [[|] ?] _; exact I.
Qed.
End Safe.

Lemma nest_safe n :
  (forall ts, toks_depth ts < n -> safe (fst (nest n) ts))
  /\ (forall attrs vis ts, toks_depth ts < n -> safe (snd (nest n) attrs vis ts)).
Proof.
  induction n as [|n [IH1 IH2]]; [split; intros; lia|].
  pose proof (nest_sound n) as [S1 S2]. cbn [nest].
  destruct (nest n) as [R E]. simpl in *.
  split; intros.
  - apply (item_body_safe R E n); auto. lia.
  - apply (either_safe R E n); auto. lia.
Qed.

Theorem consume_item_safe ts : safe (consume_item ts).
Proof. apply nest_safe. lia. Qed.
Theorem parse_item_safe ts : safe (parse_item ts).
Proof.
  unfold parse_item. apply safe_bind; [apply consume_item_safe|]. intros [d [|]] _; [exact I|reflexivity].
Qed.

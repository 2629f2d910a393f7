(** C90: exactly which panics [parse_item] can reach.

    Every constructor of [panic] stands for one panic site of the source.  The table
    [reached] gives, for each site that can be reached, a text that does; no other site is
    ever reached, whatever the tokens. *)
From Verif Require Import Samples Safe Edit PathProof.
Local Open Scope string_scope.
Local Open Scope list_scope.

Definition reached : list (panic * string) := [
  (PTrailingTokens, "struct A; struct"); (PStructNoBody, "struct S"); (PStructToken, "struct S struct");
  (PEnumToken, "enum E()"); (PUnionToken, "union U()"); (PNoDeclaration, "+"); (PEndOfStream, "");
  (PUnwrapNone AtEnum, "enum E"); (PUnwrapNone AtUnion, "union U"); (PUnwrapNone AtFnParams, "fn f");
  (PUnwrapNone AtFnBody, "fn f()"); (PUnwrapNone AtTraitBody, "trait T: A"); (PUnwrapNone AtModBody, "mod m");
  (PUnwrapNone AtBound, "struct S<T"); (PUnwrapNone AtEnumValue, "enum E { A = }");
  (PExpectedIdent "item" true, "struct"); (PExpectedIdent "item" false, "struct 3");
  (PExpectedIdent "generic param name" true, "struct S<'"); (PExpectedIdent "generic param name" false, "struct S<'3");
  (PExpectedIdent "field name" true, "struct S { pub }"); (PExpectedIdent "field name" false, "struct S { 3 }");
  (PExpectedIdent "enum variant name" true, "enum E { pub }"); (PExpectedIdent "enum variant name" false, "enum E { 3 }");
  (PExpectedIdent "fn param name" true, "fn f(mut)"); (PExpectedIdent "fn param name" false, "fn f(3)");
  (PExpectedIdent "const/static" true, "static"); (PExpectedIdent "const/static" false, "static 3");
  (PExpectedIdent "associated type" true, "type"); (PExpectedIdent "associated type" false, "type 3");
  (PExpectedIdent "extern crate" true, "extern crate"); (PExpectedIdent "extern crate" false, "extern crate 3");
  (PExpectedIdent "extern crate: alias" true, "extern crate a as"); (PExpectedIdent "extern crate: alias" false, "extern crate a as 3");
  (PExpectedIdent "trait name" true, "trait"); (PExpectedIdent "trait name" false, "trait 3");
  (PExpectedPunct ":" "fn params" true, "fn f(a)"); (PExpectedPunct ":" "fn params" false, "fn f(a u8)");
  (PExpectedPunct ":" "const/static" true, "const A"); (PExpectedPunct ":" "const/static" false, "const A = 3;");
  (PExpectedPunct ":" "named fields" true, "struct S { a }"); (PExpectedPunct ":" "named fields" false, "struct S { a, b }");
  (PExpectedPunct ";" "macro invocation semicolon" true, "m!()"); (PExpectedPunct ";" "macro invocation semicolon" false, "m!(),");
  (PExpectedPunct ";" "associated type" true, "type A: B"); (PExpectedPunct ";" "associated type" false, "type A: B>");
  (PExpectedPunct ";" "extern crate" true, "extern crate a"); (PExpectedPunct ";" "extern crate" false, "extern crate a::b;");
  (PInnerAttrBang, "mod m { # }"); (PInnerAttrBracket, "mod m { #! }"); (POuterAttrBracket, "# struct");
  (PAttrPath, "#[a 3] struct"); (PUnbalancedAngle, "use a>b;"); (PTypeEnd, "use a"); (PBoundToken, "struct S<T +");
  (PGenericParamsEnd, "struct S<"); (PGenericParamsToken, "struct S<3"); (PLifetimeToken, "fn f(' 3)");
  (PLifetimeEnd, "fn f(')"); (PWhereEnd, "struct S where"); (PWhereToken, "struct S where T > U");
  (PWhereColonEnd, "struct S where T"); (PTypeComma, "struct S { a: , }"); (PTypeMissing, "struct S { a: }");
  (PVariantToken, "enum E { A + }"); (PFnReturn, "fn f() -"); (PUnsafeIdent, "unsafe foo"); (PFnIdent, "async foo");
  (PFnKeyword, "async"); (PFnParams, "fn f{}"); (PFnBody, "fn f()+"); (PMacroEnd, "m!"); (PMacroBody, "m![]");
  (PConstOrStatic, "unsafe static X: T;"); (PConstMut, "const mut"); (PVisOnMacro, "impl A { pub m!() }");
  (PUnsupportedItem, "impl A { foo bar }"); (PUnsupportedElement, "impl A { 3 }");
  (PUnsupportedMember, "impl A { static A: B; }"); (PImplToken, "impl A where ;"); (PTraitToken, "trait A where ;");
  (PModToken, "mod m +"); (PDeclInMod, "mod m { enum E { A = 1 + 2 } }"); (PExternCrate, "unsafe extern crate a;");
  (PExternBlock, "async extern {}") ].

Definition panic_eq_dec (p q : panic) : {p = q} + {p <> q}.
Proof. repeat decide equality. Defined.

(** The same set as a test. *)
Definition alive (p : panic) : bool :=
  match p with
  | PUnreachable | PAssertTupleWhere | PExpectedKeyword _ _ _ | PLifetimeArg | PPredicateToken | PPredicateEnd
  | PInsertIndex | PBadPrefix | PIdentNew | POverflow => false
  | PUnwrapNone (AtTypeAlias | AtImplBody | AtGenericArg | AtErrorSpan | AtErrorDisplay) => false
  | PExpectedIdent c _ =>
      existsb (String.eqb c) ["item"; "generic param name"; "field name"; "enum variant name"; "fn param name";
        "const/static"; "associated type"; "extern crate"; "extern crate: alias"; "trait name"]
  | PExpectedPunct x c _ =>
      (Ascii.eqb x ":" && existsb (String.eqb c) ["fn params"; "const/static"; "named fields"])
      || (Ascii.eqb x ";" && existsb (String.eqb c) ["macro invocation semicolon"; "associated type"; "extern crate"])
  | _ => true
  end.
Lemma alive_reached p : alive p = true -> In p (map fst reached).
Proof.
  intro H. destruct p; cbn [alive] in H; try discriminate; try (cbn; tauto).
  - destruct at_; try discriminate; cbn; tauto.
  - apply existsb_exists in H. destruct H as (x & Hx & He). apply String.eqb_eq in He. subst.
    destruct at_end; cbn in Hx; repeat (destruct Hx as [<-|Hx]; [cbn; tauto|]); destruct Hx.
  - apply orb_prop in H. destruct H as [H|H]; apply andb_prop in H; destruct H as [H1 H2];
      apply Ascii.eqb_eq in H1; apply existsb_exists in H2; destruct H2 as (x & Hx & He); apply String.eqb_eq in He; subst;
      destruct at_end; cbn in Hx; repeat (destruct Hx as [<-|Hx]; [cbn; tauto|]); destruct Hx.
Qed.

Definition quiet {A} (m : outcome A) : Prop := match m with Panic p => alive p = true | _ => True end.
Lemma quiet_bind {A B} (m : outcome A) (k : A -> outcome B) :
  quiet m -> (forall x, m = Ret x -> quiet (k x)) -> quiet (bind m k).
Proof. destruct m; simpl; auto. Qed.
Lemma quiet_any_ident c ts : (forall b, alive (PExpectedIdent c b) = true) -> quiet (parse_any_ident c ts).
Proof. intro H. unfold parse_any_ident. destruct ts as [|[]]; try exact I; exact (H _). Qed.
Lemma quiet_punct x c ts : (forall b, alive (PExpectedPunct x c b) = true) -> quiet (parse_punct x c ts).
Proof. intro H. unfold parse_punct. destruct ts as [|[| |p|] ]; try exact (H _). destruct (p_is x p); [exact I|exact (H _)]. Qed.

Create HintDb quiet.
(** Go through a parser. *)
Ltac calm1 :=
  match goal with
  | |- quiet (Ret _) => exact I
  | |- quiet OutOfFuel => exact I
  | |- quiet (Panic _) => reflexivity
  | |- quiet (bind _ _) => apply quiet_bind; [|let x := fresh "x" in let Hx := fresh "Hx" in intros x Hx; repeat match goal with y : _ * _ |- _ => destruct y end]
  | |- quiet (parse_any_ident _ _) => apply quiet_any_ident; intro; reflexivity
  | |- quiet (consume_item_name _) => apply quiet_any_ident; intro; reflexivity
  | |- quiet (parse_punct _ _ _) => apply quiet_punct; intro; reflexivity
  | |- quiet (if ?b then _ else _) => destruct b eqn:?
  | |- quiet (match ?x with _ => _ end) => destruct x eqn:?
  | |- _ => solve [eauto with quiet]
  end.
Ltac calm := repeat (cbv zeta; calm1).

(** ** Token runs and attributes *)
Lemma until_quiet P must ts : quiet (consume_stuff_until P must ts).
Proof.
  pose proof (until_safe P must ts) as S. unfold consume_stuff_until in *.
  destruct (stuff_loop P 0 false ts) as [[o m] r]. destruct (must && negb m); [|exact I].
  destruct r as [|[g|i|p|l] r]; try reflexivity; try discriminate S. destruct (p_is ">" p); [reflexivity|discriminate S].
Qed.
Lemma attribute_path_quiet ts : quiet (attribute_path ts).
Proof.
  induction ts as [|t r IH]; simpl; auto. destruct t; simpl; auto; calm; auto.
Qed.
Lemma parse_attribute_quiet h b g : quiet (parse_attribute h b g).
Proof.
  unfold parse_attribute. apply quiet_bind; [apply attribute_path_quiet|]. intros [path rest] H.
  apply attribute_path_sound in H. destruct H as (_ & _ & H). apply quiet_bind; [|intros; exact I].
  destruct rest as [|[]]; simpl in *; auto; try contradiction. rewrite H. exact I.
Qed.
Global Hint Resolve until_quiet attribute_path_quiet parse_attribute_quiet : quiet.
Lemma attributes_quiet inner : forall n ts, List.length ts <= n -> quiet (consume_attributes_with_inner inner ts).
Proof.
  induction n as [|n IH]; intros ts Hn.
  - destruct ts; [exact I|simpl in Hn; lia].
  - destruct ts as [|[g|i|p|li] r]; try exact I. Local Arguments consume_attributes_with_inner expect_inner !ts.
    cbn [consume_attributes_with_inner].
    assert (Hr : forall h b g r', List.length r' <= n ->
       quiet (do a <- parse_attribute h b g;; do (l, rest) <- consume_attributes_with_inner inner r';; Ret (a :: l, rest))).
    { intros h b g r' Hl. calm; auto. }
    simpl in Hn. repeat (match goal with
      | |- quiet (if ?b then _ else _) => destruct b eqn:?
      | |- quiet (match ?x with _ => _ end) => destruct x eqn:?
      end; try exact I; try reflexivity); apply Hr; simpl in *; lia.
Qed.
Lemma outer_attributes_quiet ts : quiet (consume_outer_attributes ts).
Proof. eapply attributes_quiet. eauto. Qed.
Lemma inner_attributes_quiet ts : quiet (consume_inner_attributes ts).
Proof. eapply attributes_quiet. eauto. Qed.
Global Hint Resolve outer_attributes_quiet inner_attributes_quiet : quiet.

(** ** Loops *)
Lemma punct_loop_quiet {A} stop (elem : parser A) :
  (forall ts, quiet (stop ts)) -> (forall ts, quiet (elem ts)) ->
  forall fuel acc ts, quiet (punct_loop stop elem fuel acc ts).
Proof.
  intros H1 H2. induction fuel as [|fuel IH]; intros acc ts; [exact I|]. cbn [punct_loop]. calm; auto.
Qed.
Lemma many_loop_quiet {A} (elem : parser A) :
  (forall ts, quiet (elem ts)) -> forall fuel ts, quiet (many_loop elem fuel ts).
Proof. intro H. induction fuel as [|fuel IH]; intros ts; [exact I|]. cbn [many_loop]. calm; auto. Qed.

(** ** Types *)
Lemma bound_quiet P ts : quiet (consume_bound P ts).
Proof. unfold consume_bound. calm. Qed.
Global Hint Resolve bound_quiet : quiet.
Lemma generics_quiet ts : quiet (consume_generic_params ts).
Proof.
  unfold consume_generic_params. destruct (consume_punct "<" ts) as [[l|] t1]; [|exact I].
  apply quiet_bind.
  - apply punct_loop_quiet; intro; [unfold stop_generic_params|unfold parse_generic_param]; calm.
  - intros [ps t2] H.
    apply (punct_loop_new _ _ (fun x c => c = print_generic_param x) no_gap wf_generic_param) in H;
      [|apply generic_param_sound].
    destruct H as (_ & _ & _ & _ & H). destruct t2 as [|[]]; try discriminate. exact I.
Qed.
Lemma where_quiet ts : quiet (consume_where_clause ts).
Proof.
  unfold consume_where_clause. destruct (consume_ident "where" ts) as [[k|] t1]; [|exact I].
  apply quiet_bind; [|intros [? ?] _; exact I].
  apply punct_loop_quiet; intro; [unfold stop_where|unfold parse_where_predicate]; calm.
Qed.
Lemma field_type_quiet ts : quiet (consume_field_type ts).
Proof. unfold consume_field_type. calm. Qed.
Lemma stop_at_end_quiet ts : quiet (stop_at_end ts).
Proof. destruct ts; exact I. Qed.
Global Hint Resolve generics_quiet where_quiet field_type_quiet stop_at_end_quiet : quiet.
Lemma tuple_fields_quiet g : quiet (parse_tuple_fields g).
Proof.
  unfold parse_tuple_fields. apply quiet_bind; [|intros [? ?] _; exact I].
  apply punct_loop_quiet; auto with quiet. intro. unfold parse_tuple_field. calm.
Qed.
Lemma named_fields_quiet g : quiet (parse_named_fields g).
Proof.
  unfold parse_named_fields. apply quiet_bind; [|intros [? ?] _; exact I].
  apply punct_loop_quiet; auto with quiet. intro. unfold parse_named_field. calm.
Qed.
Global Hint Resolve tuple_fields_quiet named_fields_quiet : quiet.
Lemma variants_quiet ts : quiet (parse_enum_variants ts).
Proof.
  unfold parse_enum_variants. generalize (loop_fuel ts) (@pu_new enum_variant). intro fuel. revert ts.
  induction fuel as [|fuel IH]; intros ts acc; [exact I|]. cbn [enum_variants_loop].
  destruct ts as [|t r]; [exact I|]. calm; auto.
  - unfold parse_variant_fields. calm.
  - unfold consume_enum_discriminant. calm.
Qed.
Global Hint Resolve variants_quiet : quiet.

(** ** Functions and simple items *)
Lemma lifetime_quiet ts : quiet (consume_lifetime false ts).
Proof. unfold consume_lifetime. calm. Qed.
Global Hint Resolve lifetime_quiet : quiet.
Lemma fn_params_quiet ts : quiet (parse_fn_params ts).
Proof.
  unfold parse_fn_params. apply quiet_bind; [|intros [? ?] _; exact I].
  apply punct_loop_quiet; auto with quiet. intro. unfold parse_fn_param. calm.
Qed.
Lemma classify_quiet q ts : quiet (classify_fn q ts).
Proof.
  pose proof (classify_safe q ts) as S. destruct (classify_fn q ts) as [?|p|] eqn:E; try exact I.
  destruct p; try reflexivity; try discriminate S; exfalso; unfold classify_fn in E;
    repeat (match type of E with context [match ?x with _ => _ end] => destruct x end; try discriminate).
Qed.
Global Hint Resolve fn_params_quiet classify_quiet : quiet.
Lemma consume_fn_quiet attrs vis ts : quiet (consume_fn attrs vis ts).
Proof.
  unfold consume_fn. calm.
  - unfold parse_fn_parens. calm.
  - unfold consume_fn_return. calm.
  - unfold parse_fn_body. calm.
Qed.
Lemma macro_quiet attrs ts : quiet (consume_macro attrs ts).
Proof. unfold consume_macro, consume_macro_inner. calm. Qed.

(** After a scan that had to find its end, the end is there. *)
Lemma until_must P ts o r : consume_stuff_until P true ts = Ret (o, r) -> exists t r', r = t :: r' /\ P t = true.
Proof.
  intro H. apply until_sound_term in H. destruct H as (_ & _ & H). destruct r as [|t r]; [discriminate|].
  exists t, r. split; auto. apply H. reflexivity.
Qed.
Lemma semi_found c ts o r : consume_stuff_until end_semi true ts = Ret (o, r) -> quiet (parse_punct ";" c r).
Proof.
  intro H. apply until_must in H. destruct H as (t & r' & -> & H). destruct t; try discriminate. simpl in *.
  rewrite H. exact I.
Qed.
Lemma constant_quiet attrs vis ts : quiet (parse_const_or_static attrs vis ts).
Proof. unfold parse_const_or_static. calm. eauto using semi_found. Qed.
Lemma type_alias_quiet attrs vis i ts : id_is "type" i = true -> quiet (consume_ty_definition attrs vis (TIdent i :: ts)).
Proof. intro H. unfold consume_ty_definition. cbn [parse_ident]. rewrite H. cbn [bind]. calm. Qed.
Lemma use_quiet attrs vis i ts : id_is "use" i = true -> quiet (parse_use_declaration attrs vis (TIdent i :: ts)).
Proof. intro H. unfold parse_use_declaration. cbn [parse_ident]. rewrite H. cbn [bind]. calm. eauto using semi_found. Qed.
Lemma extern_crate_quiet attrs vis ts : quiet (parse_extern_crate attrs vis ts).
Proof. unfold parse_extern_crate, consume_extern_crate. calm. Qed.
Lemma struct_quiet attrs vis kw ts : quiet (parse_struct attrs vis kw ts).
Proof.
  unfold parse_struct. apply quiet_bind; [calm|]. intros [? ?] _. apply quiet_bind; [calm|]. intros [? ?] _.
  apply quiet_bind; [calm|]. intros [wh t3] Hw. apply where_sound in Hw. destruct Hw as (_ & _ & Hw & _).
  apply quiet_bind; [calm|].
  intros [fs t4] Hf. apply quiet_bind; [|intros [? t5] _; destruct (consume_punct ";" t5); exact I].
  destruct fs; try exact I. destruct wh; [|intros; calm]. exfalso.
  specialize (Hw eq_refl). unfold where_follow in Hw.
  destruct t3 as [|[g|ii|p|ll] r]; try discriminate.
  - destruct (delim_eqb (g_delim g) Parenthesis) eqn:E.
    + simpl in Hw. destruct g as [d s sp]. simpl in *. known. discriminate.
    + destruct (delim_eqb (g_delim g) Brace); [|discriminate]. inv_bind Hf. discriminate.
  - destruct (p_is ";" p); discriminate.
Qed.
Lemma enum_quiet attrs vis kw ts : quiet (parse_enum attrs vis kw ts).
Proof. unfold parse_enum. calm. Qed.
Lemma union_quiet attrs vis kw ts : quiet (parse_union attrs vis kw ts).
Proof. unfold parse_union. calm. Qed.
Global Hint Resolve consume_fn_quiet macro_quiet constant_quiet type_alias_quiet use_quiet extern_crate_quiet
  struct_quiet enum_quiet union_quiet : quiet.

(** ** Nested items *)
(** The keyword behind an optional [unsafe]. *)
Definition leads (k : string) (ts : list tok) : Prop :=
  exists i r, snd (consume_ident "unsafe" ts) = TIdent i :: r /\ id_is k i = true.

Section Quiet.
Variable R : parser (result item error).
Variable E : list attribute -> option vis_marker -> parser item.
Hypothesis QR : forall ts, quiet (R ts).
Hypothesis QE : forall attrs vis ts, quiet (E attrs vis ts).

Lemma impl_body_quiet g allow : quiet (parse_impl_body E g allow).
Proof.
  unfold parse_impl_body. apply quiet_bind; [calm|]. intros [? ?] _. apply quiet_bind; [|intros; calm].
  apply many_loop_quiet. intro. unfold parse_impl_member. calm; auto. unfold impl_member_of_item. calm.
Qed.
Lemma body_group_quiet site bad ts :
  (ts = [] -> alive (PUnwrapNone site) = true) -> alive bad = true -> quiet (parse_body_group E site bad ts).
Proof.
  intros H1 H2. unfold parse_body_group. destruct ts as [|[g|i|p|l] r]; simpl; auto.
  destruct (delim_eqb (g_delim g) Brace); simpl; auto. apply quiet_bind; [apply impl_body_quiet|intros; calm].
Qed.
Lemma keyword_quiet k c ts : leads k ts -> quiet (parse_ident k c (snd (consume_ident "unsafe" ts))).
Proof. intros (i & r & -> & H). simpl. rewrite H. exact I. Qed.

Lemma trait_quiet attrs vis ts : leads "trait" ts -> quiet (parse_trait E attrs vis ts).
Proof.
  intro L. unfold parse_trait. pose proof (keyword_quiet _ "trait declaration" _ L) as K.
  destruct (consume_ident "unsafe" ts) as [u t0]. cbn [snd] in K. calm.
  apply body_group_quiet; auto.
Qed.
Lemma impl_quiet attrs ts : leads "impl" ts -> quiet (parse_impl E attrs ts).
Proof.
  intro L. unfold parse_impl. pose proof (keyword_quiet _ "impl block" _ L) as K.
  destruct (consume_ident "unsafe" ts) as [u t0]. cbn [snd] in K.
  apply quiet_bind; [exact K|]. intros [kw t1] _. apply quiet_bind; [calm|]. intros [gen t2] _.
  apply quiet_bind; [calm|]. intros [ty1 t3] H1. apply until_must in H1. destruct H1 as (t & r & -> & H1).
  apply quiet_bind; [calm|]. intros [[[f tr] self] t5] H2.
  assert (H5 : t5 <> []).
  { destruct (consume_ident "for" (t :: r)) as [o t4] eqn:Ef. destruct o as [o|].
    - inv_bind H2. destruct x as [ty2 t6]. bsplit. apply until_must in Hx. destruct Hx as (? & ? & -> & _). discriminate.
    - apply consume_ident_sound in Ef. destruct Ef as (Ef & _). bsplit. simpl in Ef. subst. discriminate. }
  apply quiet_bind; [calm|]. intros [wh t6] H6. apply where_sound in H6. destruct H6 as (H6 & _ & H7 & _).
  apply quiet_bind; [|intros; calm]. apply body_group_quiet; auto. intros ->. exfalso.
  destruct wh as [wh|]; [discriminate (H7 eq_refl)|]. simpl in H6. auto.
Qed.
Lemma mod_quiet attrs vis ts : leads "mod" ts -> quiet (parse_mod R attrs vis ts).
Proof.
  intro L. unfold parse_mod. pose proof (keyword_quiet _ "module declaration" _ L) as K.
  destruct (consume_ident "unsafe" ts) as [u t0]. cbn [snd] in K. calm.
  apply many_loop_quiet. intro. unfold parse_mod_member. calm.
Qed.
Lemma extern_block_quiet attrs vis ts : quiet (parse_extern_block E attrs vis ts).
Proof. unfold parse_extern_block, consume_extern_block. calm. apply impl_body_quiet. Qed.

(** What [consume_fn] says about a trait, impl block or module is true. *)
Lemma fn_leads attrs vis ts nf r : consume_fn attrs vis ts = Ret (Err nf, r) ->
  r = ts /\ match nf with NFTrait => leads "trait" ts | NFImpl => leads "impl" ts | NFMod => leads "mod" ts | _ => True end.
Proof.
  unfold consume_fn. destruct (consume_fn_qualifiers ts) as [q t1] eqn:Eq. intro H. inv_bind H. destruct x as [[kw|e] t2].
  { exfalso. repeat (inv_bind H; repeat match goal with y : _ * _ |- _ => destruct y end). discriminate. }
  injection H as He Hr. subst e r. split; auto.
  assert (G : forall k, (exists i r, t1 = TIdent i :: r /\ id_is k i = true) -> has_only_const_xor_unsafe q = true ->
    is_some (fq_const q) = false -> leads k ts).
  { intros k (i & r' & -> & Hk) Hq Hc. unfold leads, has_only_const_xor_unsafe in *. bsplit.
    unfold consume_fn_qualifiers in Eq.
    destruct (consume_ident "default" ts) as [d ta] eqn:E1. destruct (consume_ident "const" ta) as [co tb] eqn:E2.
    destruct (consume_ident "async" tb) as [a tc] eqn:E3. destruct (consume_ident "unsafe" tc) as [u td] eqn:E4.
    destruct (consume_ident "extern" td) as [e te] eqn:E5.
    assert (Ed : d = None /\ co = None /\ a = None /\ e = None /\ te = TIdent i :: r').
    { destruct e as [e|].
      - destruct (consume_literal te) as [abi tf]. injection Eq as <- <-. cbn in *. discriminate.
      - injection Eq as <- <-. cbn in *. destruct d, co, a; try discriminate. auto. }
    destruct Ed as (-> & -> & -> & -> & ->).
    apply consume_ident_sound in E1. destruct E1 as (-> & _). apply consume_ident_sound in E2. destruct E2 as (-> & _).
    apply consume_ident_sound in E3. destruct E3 as (-> & _). apply consume_ident_sound in E5. destruct E5 as (-> & _).
    cbn [print_opt app] in *. rewrite E4. cbn [snd]. eauto. }
  unfold classify_fn in Hx.
  destruct t1 as [|[g|i|p|l] t1]; try discriminate; cbv zeta in Hx;
    repeat (match type of Hx with (if ?b then _ else _) = _ => destruct b eqn:? end; try discriminate);
    injection Hx as <- <-; auto; eapply G; eauto.
Qed.

Lemma either_quiet attrs vis ts : quiet (consume_either R E attrs vis ts).
Proof.
  unfold consume_either. destruct ts as [|[g|i|p|l] r]; try reflexivity.
  destruct (id_is "type" i) eqn:Et.
  - apply quiet_bind; [calm|]. intros [[t|] t2] H; [exact I|]. exfalso. unfold consume_ty_definition in H.
    repeat (inv_bind H; repeat match goal with y : _ * _ |- _ => destruct y end).
    destruct (consume_punct "=" _) in H. repeat (inv_bind H; repeat match goal with y : _ * _ |- _ => destruct y end).
    discriminate.
  - destruct (fn_like_keyword i).
    + apply quiet_bind; [calm|]. intros [[f|nf] t2] H; [exact I|]. apply fn_leads in H. destruct H as [-> H].
      destruct nf; calm; auto using trait_quiet, impl_quiet, mod_quiet, extern_block_quiet.
    + calm.
Qed.
Lemma item_body_quiet ts : quiet (consume_item_body R E ts).
Proof.
  assert (W : forall A (c : A -> item) m, quiet m -> quiet (wrap c m)) by (intros; unfold wrap; calm; auto).
  assert (L : forall k i r, id_is k i = true -> id_is "unsafe" i = false -> leads k (TIdent i :: r)).
  { intros k i r Hk Hu. unfold leads. cbn [consume_ident]. rewrite Hu. cbn [snd]. eauto. }
  assert (N : forall k i, id_is k i = true -> k <> "unsafe" -> id_is "unsafe" i = false).
  { intros k i Hk Hn. unfold id_is in *. apply String.eqb_eq in Hk. apply String.eqb_neq. congruence. }
  unfold consume_item_body. apply quiet_bind; [calm|]. intros [attrs t1] _.
  destruct (consume_vis_marker t1) as [v t2]. destruct t2 as [|[g|kw|p|l] r]; try reflexivity.
  repeat match goal with |- quiet (if ?b then _ else _) => destruct b eqn:? end.
  all: try apply W; auto using either_quiet with quiet.
  all: try (unfold parse_item_macro; calm).
  - apply mod_quiet. apply L; auto. eapply N; eauto. discriminate.
  - apply trait_quiet. apply L; auto. eapply N; eauto. discriminate.
  - apply impl_quiet. apply L; auto. eapply N; eauto. discriminate.
Qed.
End Quiet.

Lemma nest_quiet n : (forall ts, quiet (fst (nest n) ts)) /\ (forall attrs vis ts, quiet (snd (nest n) attrs vis ts)).
Proof.
  induction n as [|n [IH1 IH2]]; cbn [nest]; [split; intros; exact I|].
  destruct (nest n) as [R E]. cbn [fst snd] in *. split; intros; auto using item_body_quiet, either_quiet.
Qed.
Lemma parse_item_quiet ts : quiet (parse_item ts).
Proof. unfold parse_item. apply quiet_bind; [apply nest_quiet|]. intros [d [|]] _; [exact I|reflexivity]. Qed.

(** ** C90 *)
Theorem C90_reachable (p : panic) : (exists ts, parse_item ts = Panic p) <-> In p (map fst reached).
Proof.
  split.
  - intros [ts H]. apply alive_reached. pose proof (parse_item_quiet ts) as Q. rewrite H in Q. exact Q.
  - intro H. apply in_map_iff in H. destruct H as ([q s] & <- & H). exists (lex s).
    assert (G : forallb (fun '(q, s) => match parse_item (lex s) with
      | Panic q' => if panic_eq_dec q q' then true else false | _ => false end) reached = true)
      by (vm_compute; reflexivity).
    rewrite forallb_forall in G. specialize (G _ H). cbn in G. cbn [fst].
    destruct (parse_item (lex s)) as [?|q'|]; try discriminate. destruct (panic_eq_dec q q'); [congruence|discriminate].
Qed.

(** The same for the two other parsers, [TypeExpr::as_path] and [WhereClausePredicate::parse]. *)
Definition path_reached : list (panic * string) := [
  (PLifetimeArg, "A<'a b>"); (PLifetimeToken, "A<' 3>"); (PLifetimeEnd, "A<B, '>");
  (PExpectedPunct ">" "end of generic argument list" true, "A<B"); (PExpectedPunct ">" "end of generic argument list" false, "A<, B") ].
Definition predicate_reached : list (panic * string) := [ (PPredicateToken, "A > B"); (PPredicateEnd, "A") ].

Definition heard {A} (l : list panic) (m : outcome A) : Prop := match m with Panic p => In p l | _ => True end.
Lemma heard_bind {A B} l (m : outcome A) (k : A -> outcome B) :
  heard l m -> (forall x, m = Ret x -> heard l (k x)) -> heard l (bind m k).
Proof. destruct m; simpl; auto. Qed.
Lemma generic_arg_heard t ts : heard (map fst path_reached) (parse_generic_arg (t :: ts)).
Proof.
  unfold parse_generic_arg, consume_lifetime, consume_punct. destruct t as [g|i|p|l].
  - exact I.
  - cbn. destruct ts as [|[| |q|] ?]; try exact I. destruct (p_is "=" q); exact I.
  - destruct (p_is "'" p); [|exact I]. destruct ts as [|[| | |] [|]]; cbn; tauto.
  - exact I.
Qed.
Lemma path_heard t : heard (map fst path_reached) (as_path t).
Proof.
  assert (A : forall fuel acc ts, heard (map fst path_reached) (generic_args_loop fuel acc ts)).
  { induction fuel as [|fuel IH]; intros acc ts; [exact I|]. cbn [generic_args_loop].
    apply heard_bind; [|].
    - unfold consume_stuff_until. destruct (stuff_loop (is_punct ",") 0 false ts) as [[? ?] ?]. exact I.
    - intros [arg t1] _. destruct (consume_comma t1) as [c t2]. destruct arg as [|x arg]; [exact I|].
      apply heard_bind; [apply generic_arg_heard|]. auto. }
  assert (G : forall ts, heard (map fst path_reached) (consume_generic_args ts)).
  { intro ts. unfold consume_generic_args. destruct (consume_colon2 ts) as [tf t1].
    destruct (consume_punct "<" t1) as [[l|] t2]; [|exact I]. apply heard_bind; [apply A|]. intros [a t3] _.
    apply heard_bind; [|intros [? ?] _; exact I]. unfold parse_punct. destruct t3 as [|[| |p|]]; try (cbn; tauto).
    destruct (p_is ">" p); cbn; tauto. }
  assert (L : forall fuel c acc ts, heard (map fst path_reached) (path_loop fuel c acc ts)).
  { induction fuel as [|fuel IH]; intros c acc ts; [exact I|]. cbn [path_loop].
    destruct ts as [|[|id| |] ts]; try exact I. apply heard_bind; [apply G|]. intros [args t1] _.
    destruct t1 as [|y t1]; [exact I|]. destruct (consume_colon2 (y :: t1)) as [[s|] t2]; [apply IH|exact I]. }
  unfold as_path, consume_path. destruct (unwrap_invisible_group t) as [ts|].
  - destruct (consume_colon2 ts). apply L.
  - destruct (consume_colon2 (te_tokens t)). apply L.
Qed.
Theorem C90_path (p : panic) : (exists t, as_path t = Panic p) <-> In p (map fst path_reached).
Proof.
  split.
  - intros [t H]. pose proof (path_heard t) as Q. rewrite H in Q. exact Q.
  - intro H. apply in_map_iff in H. destruct H as ([q s] & <- & H). exists (mkTypeExpr (lex s)).
    cbn in H. repeat (destruct H as [H|H]; [injection H as <- <-; vm_compute; reflexivity|]). contradiction.
Qed.
Theorem C90_predicate (p : panic) : (exists ts, where_predicate_parse ts = Panic p) <-> In p (map fst predicate_reached).
Proof.
  split.
  - intros [ts H]. unfold where_predicate_parse, consume_stuff_until in H.
    destruct (stuff_loop (is_punct ":") 0 false ts) as [[o m] r]. cbn [andb bind] in H.
    destruct r as [|[| |c|] r]; try (injection H as <-; cbn; tauto). destruct (p_is ":" c); [discriminate|].
    injection H as <-. cbn; tauto.
  - intro H. apply in_map_iff in H. destruct H as ([q s] & <- & H). exists (lex s).
    cbn in H. repeat (destruct H as [H|H]; [injection H as <- <-; vm_compute; reflexivity|]). contradiction.
Qed.

(** The sites of the parsers that nothing reaches: three [unreachable!], one [assert!], three
    [unwrap], every keyword check, and two checks for a semicolon. *)
Theorem C90_dead (p : panic) (b : bool) (ts : list tok) (t : type_expr) :
  In p [PUnreachable; PAssertTupleWhere; PUnwrapNone AtTypeAlias; PUnwrapNone AtImplBody; PUnwrapNone AtGenericArg;
        PExpectedKeyword "type" "associated type" b; PExpectedKeyword "use" "use declaration" b;
        PExpectedKeyword "impl" "impl block" b; PExpectedKeyword "trait" "trait declaration" b;
        PExpectedKeyword "mod" "module declaration" b; PExpectedPunct ";" "const/static" b;
        PExpectedPunct ";" "use declaration" b] ->
  parse_item ts <> Panic p /\ as_path t <> Panic p /\ where_predicate_parse ts <> Panic p.
Proof.
  intro H. repeat split; intro E.
  - pose proof (parse_item_quiet ts) as Q. rewrite E in Q. cbn [quiet] in Q. cbn in H.
    repeat (destruct H as [<-|H]; [discriminate Q|]). contradiction.
  - pose proof (path_heard t) as Q. rewrite E in Q. cbn [heard] in Q. cbn in H.
    repeat (destruct H as [<-|H]; [cbn in Q; intuition discriminate|]). contradiction.
  - assert (Q : In p (map fst predicate_reached)) by (apply C90_predicate; eauto). cbn in H.
    repeat (destruct H as [<-|H]; [cbn in Q; intuition discriminate|]). contradiction.
Qed.
(** The three tables together with the dead sites are all the panic sites of the parsers (84 texts). *)
Example C90_example : List.length reached = 84
  /\ panic_of (parse_item (lex "const A: B")) = Some PTypeEnd /\ panic_of (parse_item (lex "impl A")) = Some PTypeEnd
  /\ panic_of (parse_item (lex "impl A where T: B")) = Some PTypeEnd.
Proof. vm_compute. auto. Qed.

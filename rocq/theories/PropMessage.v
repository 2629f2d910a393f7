(** C104: every panic message has the fixed form of its site, and tells the site. *)
From Verif Require Import Imp PropErase Blind Debug Samples Safe PropPanics PropDebug DebugText PropShown PropText Blame PropBlame.
Local Open Scope string_scope.
Local Open Scope list_scope.

(** ** The form of the message of each site, read off the [panic!], [expect], [assert!] and [unwrap] calls of /repo/src *)
Definition says (s : string) (why : list piece) : Prop := why = [Txt s].
(** The token shown by the message is one that the site does not take. *)
Definition refuses (takes : tok -> bool) (s : string) (why : list piece) : Prop := exists t, takes t = false /\ why = [Txt s; Dbg t].
Definition any_group (t : tok) : bool := match t with TGroup _ => true | _ => false end.
Definition takes_group (d : delimiter) (t : tok) : bool := match t with TGroup g => delim_eqb (g_delim g) d | _ => false end.
Definition takes_char (c : ascii) (t : tok) : bool := match t with TPunct p => p_is c p | _ => false end.
Definition takes_name (t : tok) : bool := match t with TIdent _ => true | _ => false end.
Definition takes_word (s : string) (t : tok) : bool := match t with TIdent i => id_is s i | _ => false end.
(** The same for [{:?}] of an optional token; [at_end] tells that there was none. *)
Definition missed (takes : tok -> bool) (t : option tok) : Prop := match t with Some t => takes t = false | None => True end.
(** The words that start a declaration, src/parse.rs:91-222, and a member, src/parse_impl.rs:130-136. *)
Definition starts_declaration (i : ident) : bool := existsb (fun k => id_is k i)
  ["struct"; "enum"; "union"; "mod"; "trait"; "impl"; "static"; "use"; "default"; "const"; "async"; "unsafe"; "extern"; "fn"; "type"].
Definition starts_member (i : ident) : bool := existsb (fun k => id_is k i)
  ["type"; "default"; "const"; "static"; "async"; "unsafe"; "extern"; "fn"].
Definition form (p : panic) (why : list piece) : Prop :=
  match p with
  | PTrailingTokens => exists t r, why = [Txt "unexpected trailing tokens after declaration: "; Dsp (t :: r)]
  | PStructNoBody => says "cannot parse struct: missing body or semicolon" why
  | PStructToken => refuses (fun t => takes_char ";" t || takes_group Parenthesis t || takes_group Brace t) "cannot parse struct: unexpected token " why
  | PAssertTupleWhere => says "assertion failed: where_clause.is_none()" why
  | PEnumToken => refuses (takes_group Brace) "cannot parse enum: unexpected token " why
  | PUnionToken => refuses (takes_group Brace) "cannot parse union: unexpected token " why
  | PNoDeclaration => refuses (fun t => match t with TIdent i => starts_declaration i | _ => false end) "cannot parse declaration: expected keyword struct/enum/union/type/trait/impl/mod/default/const/async/unsafe/extern/fn/static or macro, found token " why
  | PEndOfStream => says "cannot parse type: expected keyword struct/enum/union/type/trait/impl/mod/default/const/async/unsafe/extern/fn/static or macro, found end-of-stream" why
  | PUnwrapNone _ => says "called `Option::unwrap()` on a `None` value" why
  | PExpectedIdent c at_end => exists t, (is_some t = negb at_end /\ missed takes_name t)
      /\ why = [Txt "cannot parse "; Txt c; Txt ": expected identifier, got "; DbgOpt t]
  | PExpectedKeyword k c at_end => exists t, (is_some t = negb at_end /\ missed (takes_word k) t)
      /\ why = [Txt "cannot parse "; Txt c; Txt ": expected `"; Txt k; Txt "` ident, got "; DbgOpt t]
  | PExpectedPunct x c at_end => exists t, (is_some t = negb at_end /\ missed (takes_char x) t)
      /\ why = [Txt "cannot parse "; Txt c; Txt ": expected `"; Txt (String x ""); Txt "` punct, got "; DbgOpt t]
  | PInnerAttrBang => says "cannot parse inner attribute: expected '!' after '#' token" why
  | PInnerAttrBracket => says "cannot parse inner attribute: expected '[' after '#!' tokens" why
  | POuterAttrBracket => says "cannot parse outer attribute: expected '[' after '#' token" why
  | PAttrPath => refuses (fun t => any_group t || takes_char "=" t || takes_char ":" t || takes_name t) "cannot parse attribute: expected one of `(`, `::`, `=`, `[`, `]`, or `{`, found " why
  | PUnbalancedAngle => says "unbalanced angle brackets in type expression" why
  | PTypeEnd => says "unexpected end of token stream in type expression" why
  | PBoundToken => refuses (takes_char ":") "cannot parse generic bound: unexpected token " why
  | PGenericParamsEnd => says "cannot parse generic params: expected token after '<'" why
  | PGenericParamsToken => refuses (fun t => takes_char ">" t || takes_char "'" t || takes_name t) "cannot parse generic params: unexpected token " why
  | PLifetimeArg => says "cannot parse lifetime generic argument" why
  | PLifetimeToken => refuses takes_name "expected identifier after ' lifetime symbol, got " why
  | PLifetimeEnd => says "expected identifier after ' lifetime symbol, but ran out of tokens" why
  | PWhereEnd => says "cannot parse where clause: expected tokens" why
  | PWhereToken => refuses (takes_char ":") "cannot parse where clause: expected ':', found token " why
  | PWhereColonEnd => says "cannot parse where clause: expected colon, found end of stream" why
  | PTypeComma => says "cannot parse type: unexpected token ','" why
  | PTypeMissing => says "cannot parse type: expected tokens, found end-of-stream" why
  | PVariantToken => refuses (fun t => takes_char "," t || takes_char "=" t || takes_group Parenthesis t || takes_group Brace t) "cannot parse enum variant: unexpected token " why
  | PFnReturn => says "cannot parse fn return: expected '>' after '-' token" why
  | PUnsafeIdent => exists i, existsb (fun k => id_is k i) ["fn"; "static"; "trait"; "impl"; "mod"] = false /\ why = [Txt "expected one of 'fn|trait|impl|mod' after 'unsafe', got "; DbgIdent i]
  | PFnIdent => exists i, existsb (fun k => id_is k i) ["fn"; "static"] = false /\ why = [Txt "expected 'fn' keyword, got ident '"; Dsp [TIdent i]; Txt "'"]
  | PFnKeyword => says "expected 'fn' keyword" why
  | PFnParams => says "cannot parse function; missing parameter list" why
  | PFnBody => says "cannot parse function; missing body or `;`" why
  | PMacroEnd => says "unexpected end of macro" why
  | PMacroBody => says "cannot parse macro; missing `{}` or `()` group" why
  | PConstOrStatic => says "cannot parse const/static" why
  | PConstMut => says "`const mut` is not a valid declaration" why
  | PVisOnMacro => exists v, why = [Txt "unsupported visibility marker `"; Dsp (print_vis v); Txt "`"]
  | PUnsupportedItem => exists i, starts_member i = false /\ why = [Txt "unsupported "; Txt "impl"; Txt " item `"; Dsp [TIdent i]; Txt "`"]
  | PUnsupportedElement => exists t, missed takes_name t /\ why = [Txt "unsupported "; Txt "impl"; Txt " element: "; DbgOpt t]
  | PUnsupportedMember => exists t, why = [Txt "unsupported impl item `"; DbgOpt t; Txt "`"]
  | PImplToken => refuses (takes_group Brace) "cannot parse impl: unexpected token " why
  | PTraitToken => refuses (takes_group Brace) "cannot parse trait: unexpected token " why
  | PModToken => refuses (fun t => takes_char ";" t || takes_group Brace t) "cannot parse mod: expected `{ }` or `;`, but got token " why
  | PDeclInMod => why = [Txt "declaration in mod: ";
      Txt "Complex values for enum variants are not supported unless they are between parentheses."]
  | PExternCrate => says "cannot parse extern crate" why
  | PExternBlock => says "cannot parse extern block" why
  | _ => True
  end.

(** ** All parsers keep to it *)
Definition told {A} (Q : A -> Prop) (m : T A) : Prop := forall ts,
  match fst (m ts) with Got (x, _) => Q x | Died p why => form p why | Stuck => True end.
Definition told_at {A} (Q : A -> Prop) (m : T A) (ts : list tok) : Prop :=
  match fst (m ts) with Got (x, _) => Q x | Died p why => form p why | Stuck => True end.

Lemma told_ret {A} (Q : A -> Prop) x : Q x -> told Q (ret x).
Proof. intros H ts. exact H. Qed.
Lemma told_fail {A} (Q : A -> Prop) p why : form p why -> told Q (fail p why).
Proof. intros H ts. exact H. Qed.
Lemma told_bind_at {A B} (Q : A -> Prop) (Q' : B -> Prop) (m : T A) (k : A -> T B) ts :
  told_at Q m ts -> (forall x r, fst (m ts) = Got (x, r) -> Q x -> told_at Q' (k x) r) -> told_at Q' (andthen m k) ts.
Proof.
  unfold told_at. intros H Hk. rewrite fst_andthen. destruct (fst (m ts)) as [[x r]|p why|] eqn:G; auto. apply Hk; auto.
Qed.
Lemma told_bind {A B} (Q : A -> Prop) (Q' : B -> Prop) (m : T A) (k : A -> T B) :
  told Q m -> (forall x, Q x -> told Q' (k x)) -> told Q' (andthen m k).
Proof. intros H Hk ts. apply (told_bind_at Q); [apply H|]. intros x r _ Hx. apply Hk, Hx. Qed.
Lemma told_weak {A} (Q Q' : A -> Prop) (m : T A) : told Q m -> (forall x, Q x -> Q' x) -> told Q' m.
Proof. intros H HQ ts. specialize (H ts). destruct (fst (m ts)) as [[x r]| |]; auto. Qed.
Lemma told_yes {A} (Q : A -> Prop) (m : T A) : told Q m -> told yes m.
Proof. intro H. apply (told_weak _ _ _ H). intros. exact I. Qed.
Lemma told_any {A} (m : T A) : (forall ts, exists x, fst (m ts) = Got x) -> told yes m.
Proof. intros H ts. destruct (H ts) as [[x r] ->]. exact I. Qed.
Lemma told_peek : told yes peek. Proof. intro ts. exact I. Qed.
Lemma told_next : told yes next. Proof. intro ts. exact I. Qed.
Lemma told_save : told yes save. Proof. intro ts. exact I. Qed.
Lemma told_restore s : told yes (restore s). Proof. intro ts. exact I. Qed.
Lemma told_collect : told yes collect. Proof. intro ts. exact I. Qed.
Lemma told_on {A} (Q : A -> Prop) s (m : T A) : told Q m -> told Q (on s m).
Proof. intros H ts. specialize (H s). unfold on. destruct (m s) as [[[x r]|p why|] c]; exact H. Qed.
Lemma told_within {A} (Q : A -> Prop) s (m : T A) : told Q m -> told Q (within s m).
Proof. intros H. unfold within. apply (told_bind yes); [intro ts; exact I|intros; apply told_on, H]. Qed.
Lemma told_loop {S R} (Q : R -> Prop) (body : S -> T (S + R)) s :
  (forall s, told (fun r => match r with inl _ => True | inr x => Q x end) (body s)) -> told Q (loop body s).
Proof.
  intros H ts. unfold loop. generalize (loop_fuel ts). intro n. revert s ts.
  induction n as [|n IH]; intros s ts; [exact Logic.I|]. cbn [rounds].
  apply (told_bind_at (fun r => match r with inl _ => True | inr x => Q x end)); [apply H|].
  intros [s'|x] r _ Hx; [apply IH|exact Hx].
Qed.

Ltac formed := cbn [form]; unfold says, refuses;
  first [exact Logic.I | reflexivity | eexists; reflexivity | eexists; split; reflexivity | do 2 eexists; reflexivity | assumption
        | match goal with |- exists _, (is_some _ = _ /\ _) /\ _ => eexists; split; [split; [|]|reflexivity]; [reflexivity|cbn [missed takes_name takes_word takes_char]; auto] end
        | eexists; split; [|reflexivity]; cbn [existsb takes_char takes_group takes_name takes_word any_group orb missed]; unfold starts_declaration, starts_member, either_keyword, fn_like_keyword in *; cbn [existsb] in *; rewrite ?orb_false_r, ?orb_false_iff in *; intuition congruence ].
Create HintDb told.
Ltac t1 :=
  match goal with
  | |- told _ (andthen (andthen _ _) _) => eapply (told_bind yes); [|intros ? _]
  | |- told _ (andthen peek _) => eapply told_bind; [apply told_peek|intros ? _]
  | |- told _ (andthen next _) => eapply told_bind; [apply told_next|intros ? _]
  | |- told _ (andthen save _) => eapply told_bind; [apply told_save|intros ? _]
  | |- told _ (andthen collect _) => eapply told_bind; [apply told_collect|intros ? _]
  | |- told _ (andthen (restore _) _) => eapply told_bind; [apply told_restore|intros ? _]
  | |- told _ (andthen (ret _) _) => eapply (told_bind yes); [apply told_ret; exact Logic.I|intros ? _]
  | |- told _ (andthen (fail _ _) _) => eapply (told_bind yes); [|intros ? _]
  | |- told _ (ret _) => apply told_ret; solve [exact Logic.I | reflexivity | auto]
  | |- told _ (fail _ _) => apply told_fail; solve [formed]
  | |- told _ (within _ _) => apply told_within
  | |- told _ (on _ _) => apply told_on
  | |- told _ (andthen (on _ _) _) => eapply (told_bind yes); [|intros ? _]
  | |- told _ (loop _ _) => apply told_loop; intros ?
  | |- told _ (andthen (within _ _) _) => eapply told_bind; [apply told_within; solve [eauto with told]|intros ? ?]
  | |- told _ (andthen (match ?x with _ => _ end) _) => eapply (told_bind yes); [|intros ? _]
  | |- told _ (match ?x with _ => _ end) => destruct x eqn:?
  | |- told _ (andthen _ _) => eapply told_bind; [solve [eauto with told]|intros ? ?]
  | |- told _ (andthen _ _) => eapply (told_bind yes); [|intros ? _]
  | |- told _ _ => solve [eauto with told | eapply told_yes; eauto with told]
  end.
Ltac tell := repeat (cbv zeta; t1).

Lemma t_parse_any_ident c : told yes (i_parse_any_ident c).
Proof. unfold i_parse_any_ident. apply (told_bind yes); [apply told_next|]. intros [[| | |]|] _; tell. Qed.
Lemma t_parse_ident x c : told yes (i_parse_ident x c).
Proof. unfold i_parse_ident. apply (told_bind yes); [apply told_next|]. intros [[| | |]|] _; tell. Qed.
Lemma t_consume_any_ident : told yes i_consume_any_ident.
Proof. unfold i_consume_any_ident. tell. Qed.
Lemma t_consume_ident x : told yes (i_consume_ident x).
Proof. unfold i_consume_ident. tell. Qed.
Lemma t_parse_punct x c : told yes (i_parse_punct x c).
Proof. unfold i_parse_punct. apply (told_bind yes); [apply told_next|]. intros [[| | |]|] _; tell. Qed.
Lemma t_consume_punct x : told yes (i_consume_punct x).
Proof. unfold i_consume_punct. tell. Qed.
Lemma t_consume_comma : told yes i_consume_comma.
Proof. apply t_consume_punct. Qed.
Lemma t_item_name : told yes i_item_name.
Proof. apply t_parse_any_ident. Qed.
#[local] Hint Resolve told_collect told_peek told_next told_save t_parse_any_ident t_parse_ident t_consume_any_ident t_consume_ident t_parse_punct t_consume_punct t_consume_comma t_item_name : told.
Lemma t_attribute_path : told yes i_attribute_path.
Proof. unfold i_attribute_path. tell. Qed.
Lemma t_attribute_value : told yes i_attribute_value.
Proof. unfold i_attribute_value. tell. Qed.
#[local] Hint Resolve t_attribute_path t_attribute_value : told.
Lemma t_attribute h b g : told yes (i_attribute h b g).
Proof. unfold i_attribute. tell. Qed.
#[local] Hint Resolve t_attribute : told.
Lemma t_attributes inner : told yes (i_attributes inner).
Proof. unfold i_attributes. tell. Qed.
Lemma t_vis_marker : told yes i_vis_marker.
Proof. unfold i_vis_marker. tell. Qed.
Lemma t_stuff_until pred must : told yes (i_stuff_until pred must).
Proof. unfold i_stuff_until. tell. Qed.
Lemma t_colon2 : told yes i_colon2.
Proof. unfold i_colon2. tell. Qed.
#[local] Hint Resolve t_attributes t_vis_marker t_stuff_until t_colon2 : told.
Lemma t_bound e : told yes (i_bound e).
Proof. unfold i_bound. tell. Qed.
#[local] Hint Resolve t_bound : told.
Lemma t_generic_params : told yes i_generic_params.
Proof. unfold i_generic_params. tell. Qed.
Lemma t_lifetime b : told yes (i_lifetime b).
Proof. unfold i_lifetime. tell. Qed.
#[local] Hint Resolve t_generic_params t_lifetime : told.
Lemma t_generic_arg : told yes i_generic_arg.
Proof. unfold i_generic_arg. tell. Qed.
#[local] Hint Resolve t_generic_arg : told.
Lemma t_generic_args : told yes i_generic_args.
Proof. unfold i_generic_args. tell. Qed.
Lemma t_where_clause : told yes i_where_clause.
Proof. unfold i_where_clause. tell. Qed.
Lemma t_field_type : told yes i_field_type.
Proof. unfold i_field_type. tell. Qed.
(** The only error value. *)
Definition only {A} (r : result A error) : Prop :=
  match r with Ok _ => True | Err e => error_text e = "Complex values for enum variants are not supported unless they are between parentheses." end.
Lemma t_enum_discriminant : told only i_enum_discriminant.
Proof. unfold i_enum_discriminant. tell. Qed.
#[local] Hint Resolve t_generic_args t_where_clause t_field_type t_enum_discriminant : told.
Lemma t_tuple_fields g : told yes (i_tuple_fields g).
Proof. unfold i_tuple_fields. tell. Qed.
Lemma t_named_fields g : told yes (i_named_fields g).
Proof. unfold i_named_fields. tell. Qed.
#[local] Hint Resolve t_tuple_fields t_named_fields : told.
Lemma t_enum_variants : told only i_enum_variants.
Proof. unfold i_enum_variants. tell. Qed.
Lemma t_fn_qualifiers : told yes i_fn_qualifiers.
Proof. unfold i_fn_qualifiers. tell. Qed.
Lemma t_fn_params : told yes i_fn_params.
Proof. unfold i_fn_params. tell. Qed.
Lemma t_fn_return : told yes i_fn_return.
Proof. unfold i_fn_return. tell. Qed.
#[local] Hint Resolve t_enum_variants t_fn_qualifiers t_fn_params t_fn_return : told.
Lemma t_fn_head : told yes i_fn_head.
Proof. unfold i_fn_head. tell. Qed.
#[local] Hint Resolve t_fn_head : told.
Lemma t_fn a v : told yes (i_fn a v).
Proof. unfold i_fn. tell. Qed.
Lemma t_macro_inner a : told yes (i_macro_inner a).
Proof. unfold i_macro_inner. tell. Qed.
#[local] Hint Resolve t_fn t_macro_inner : told.
Lemma t_macro a : told yes (i_macro a).
Proof. unfold i_macro. tell. Qed.
Lemma t_const a v : told yes (i_const_or_static a v).
Proof. unfold i_const_or_static. tell. Qed.
Lemma t_ty a v : told yes (i_ty_definition a v).
Proof. unfold i_ty_definition. tell. Qed.
Lemma t_use a v : told yes (i_use a v).
Proof. unfold i_use. tell. Qed.
Lemma t_consume_extern_crate a v : told yes (i_consume_extern_crate a v).
Proof. unfold i_consume_extern_crate. tell. Qed.
#[local] Hint Resolve t_consume_extern_crate : told.
Lemma t_extern_crate a v : told yes (i_extern_crate a v).
Proof. unfold i_extern_crate. tell. Qed.
#[local] Hint Resolve t_macro t_const t_ty t_use t_extern_crate : told.

Section Rec.
Variable R : T (result item error).
Variable E : list attribute -> option vis_marker -> T item.
Hypothesis HR : told only R.
Hypothesis HE : forall a v, told yes (E a v).
Hint Resolve HR HE : told.
Lemma t_impl_body g st : told yes (i_impl_body E g st).
Proof. unfold i_impl_body. tell. Qed.
Hint Resolve t_impl_body : told.
Lemma t_body_group site bad s : (forall t, takes_group Brace t = false -> form bad [Txt s; Dbg t]) -> told yes (i_body_group E site bad s).
Proof. intros H. unfold i_body_group. tell; apply told_fail, H; cbn [takes_group]; auto. Qed.
Hint Extern 1 (told _ (i_body_group _ _ _ _)) => apply t_body_group; intros; eexists; split; [eassumption|reflexivity] : told.
Lemma t_impl a : told yes (i_impl E a).
Proof. unfold i_impl. tell. Qed.
Lemma t_trait a v : told yes (i_trait E a v).
Proof. unfold i_trait. tell. Qed.
Lemma t_consume_extern_block a v : told yes (i_consume_extern_block E a v).
Proof. unfold i_consume_extern_block. tell. Qed.
Hint Resolve t_consume_extern_block : told.
Lemma t_extern_block a v : told yes (i_extern_block E a v).
Proof. unfold i_extern_block. tell. Qed.
Lemma t_mod a v : told yes (i_mod R a v).
Proof. unfold i_mod. tell. cbn [only] in *. apply told_fail. cbn [form]. congruence. Qed.
Hint Resolve t_impl t_trait t_extern_block t_mod : told.
Lemma t_either a v : told yes (i_either R E "impl" a v).
Proof.
  intros ts. unfold i_either. eapply (told_bind_at yes); [exact I|]. intros x r Hx _. injection Hx as <- <-.
  destruct ts as [|[g|i|p|l] ts]; cbn [hd_error].
  1, 2, 4, 5: eexists; split; [|reflexivity]; reflexivity.
  match goal with |- told_at ?Q ?m ?ts => enough (G : told Q m) by exact (G ts) end. tell.
Qed.
(** The other context is never shown: before its keywords, [i_either] does not look at the context. *)
Lemma t_either_kw c a v kw ts : either_keyword kw = true -> told_at yes (i_either R E c a v) (TIdent kw :: ts).
Proof.
  intro H. pose proof (t_either a v (TIdent kw :: ts)) as G. unfold told_at, i_either in *. rewrite fst_andthen in *. cbn [fst peek hd_error] in *.
  destruct (id_is "type" kw) eqn:Et; [exact G|].
  assert (F : fn_like_keyword kw = true).
  { unfold either_keyword in H. unfold fn_like_keyword. rewrite Et, orb_false_r in H. destruct (id_is "default" kw), (id_is "const" kw), (id_is "static" kw); cbn in *; auto. }
  rewrite F in *. exact G.
Qed.
Lemma t_struct a v k : told yes (i_struct a v k).
Proof. unfold i_struct. tell. Qed.
Lemma t_enum a v k : told only (i_enum a v k).
Proof. unfold i_enum. tell. Qed.
Lemma t_union a v k : told yes (i_union a v k).
Proof. unfold i_union. tell. Qed.
Hint Resolve t_struct t_enum t_union : told.
Lemma t_item_body : told only (i_item_body R E).
Proof.
  unfold i_item_body. eapply told_bind; [apply t_attributes|intros a _]. eapply told_bind; [apply t_vis_marker|intros v _].
  intros ts. eapply (told_bind_at yes); [exact I|]. intros x r Hx _. injection Hx as <- <-. cbv zeta. destruct ts as [|[g|kw|p|l] ts]; cbn [hd_error].
  1, 2, 4, 5: match goal with |- told_at ?Q ?m ?ts => enough (G : told Q m) by exact (G ts) end; tell.
  destruct (either_keyword kw) eqn:K; [|match goal with |- told_at ?Q ?m ?ts => enough (G : told Q m) by exact (G ts) end; tell].
  repeat match goal with |- told_at _ (if ?b then _ else _) _ => destruct b end;
  try (match goal with |- told_at ?Q ?m ?ts => enough (G : told Q m) by exact (G ts) end; solve [tell]).
  apply (told_bind_at yes); [apply t_either_kw, K|]. intros. exact I.
Qed.
End Rec.
Lemma t_nest n : told only (fst (i_nest n)) /\ forall a v, told yes (snd (i_nest n) a v).
Proof.
  induction n as [|n [H1 H2]]; [split; intros; intros ts; exact I|]. cbn [i_nest]. destruct (i_nest n) as [R E]. cbn [fst snd] in *.
  split; [apply t_item_body|intros; apply t_either]; auto.
Qed.
Lemma t_consume_item : told only i_consume_item.
Proof. intros ts. apply t_nest. Qed.
Lemma t_parse_item : told yes i_parse_item.
Proof.
  unfold i_parse_item. apply (told_bind only); [apply t_consume_item|]. intros d _ ts.
  rewrite fst_andthen. cbn [fst peek]. destruct ts as [|t r]; cbn [hd_error]; [exact I|]. rewrite fst_andthen. cbn. do 2 eexists. reflexivity.
Qed.
Lemma t_path : told yes i_path.
Proof. unfold i_path. tell. Qed.

(** ** The theorems *)
Theorem C104_form (ts : list tok) (p : panic) (why : list piece) : fst (i_parse_item ts) = Died p why -> form p why.
Proof. intro H. pose proof (t_parse_item ts) as G. rewrite H in G. exact G. Qed.
Theorem C104_form_item (ts : list tok) (p : panic) (why : list piece) : fst (i_consume_item ts) = Died p why -> form p why.
Proof. intro H. pose proof (t_consume_item ts) as G. rewrite H in G. exact G. Qed.
Theorem C104_form_path (ts : list tok) (p : panic) (why : list piece) : fst (i_path ts) = Died p why -> form p why.
Proof. intro H. pose proof (t_path ts) as G. rewrite H in G. exact G. Qed.

(** The whole text of a message ([inl]), or how it begins ([inr]). *)
Definition opening (p : panic) : string + string :=
  match p with
  | PStructNoBody => inl "cannot parse struct: missing body or semicolon"
  | PAssertTupleWhere => inl "assertion failed: where_clause.is_none()"
  | PEndOfStream => inl "cannot parse type: expected keyword struct/enum/union/type/trait/impl/mod/default/const/async/unsafe/extern/fn/static or macro, found end-of-stream"
  | PUnwrapNone _ => inl "called `Option::unwrap()` on a `None` value"
  | PInnerAttrBang => inl "cannot parse inner attribute: expected '!' after '#' token"
  | PInnerAttrBracket => inl "cannot parse inner attribute: expected '[' after '#!' tokens"
  | POuterAttrBracket => inl "cannot parse outer attribute: expected '[' after '#' token"
  | PUnbalancedAngle => inl "unbalanced angle brackets in type expression"
  | PTypeEnd => inl "unexpected end of token stream in type expression"
  | PGenericParamsEnd => inl "cannot parse generic params: expected token after '<'"
  | PLifetimeArg => inl "cannot parse lifetime generic argument"
  | PLifetimeEnd => inl "expected identifier after ' lifetime symbol, but ran out of tokens"
  | PWhereEnd => inl "cannot parse where clause: expected tokens"
  | PWhereColonEnd => inl "cannot parse where clause: expected colon, found end of stream"
  | PTypeComma => inl "cannot parse type: unexpected token ','"
  | PTypeMissing => inl "cannot parse type: expected tokens, found end-of-stream"
  | PFnReturn => inl "cannot parse fn return: expected '>' after '-' token"
  | PFnKeyword => inl "expected 'fn' keyword"
  | PFnParams => inl "cannot parse function; missing parameter list"
  | PFnBody => inl "cannot parse function; missing body or `;`"
  | PMacroEnd => inl "unexpected end of macro"
  | PMacroBody => inl "cannot parse macro; missing `{}` or `()` group"
  | PConstOrStatic => inl "cannot parse const/static"
  | PConstMut => inl "`const mut` is not a valid declaration"
  | PExternCrate => inl "cannot parse extern crate"
  | PExternBlock => inl "cannot parse extern block"
  | PStructToken => inr "cannot parse struct: unexpected token "
  | PEnumToken => inr "cannot parse enum: unexpected token "
  | PUnionToken => inr "cannot parse union: unexpected token "
  | PNoDeclaration => inr "cannot parse declaration: expected keyword struct/enum/union/type/trait/impl/mod/default/const/async/unsafe/extern/fn/static or macro, found token "
  | PAttrPath => inr "cannot parse attribute: expected one of `(`, `::`, `=`, `[`, `]`, or `{`, found "
  | PBoundToken => inr "cannot parse generic bound: unexpected token "
  | PGenericParamsToken => inr "cannot parse generic params: unexpected token "
  | PLifetimeToken => inr "expected identifier after ' lifetime symbol, got "
  | PWhereToken => inr "cannot parse where clause: expected ':', found token "
  | PVariantToken => inr "cannot parse enum variant: unexpected token "
  | PImplToken => inr "cannot parse impl: unexpected token "
  | PTraitToken => inr "cannot parse trait: unexpected token "
  | PModToken => inr "cannot parse mod: expected `{ }` or `;`, but got token "
  | PTrailingTokens => inr "unexpected trailing tokens after declaration: "
  | PExpectedIdent c true => inl ("cannot parse " ++ c ++ ": expected identifier, got None")%string
  | PExpectedIdent c false => inr ("cannot parse " ++ c ++ ": expected identifier, got Some(")%string
  | PExpectedPunct x c true => inl ("cannot parse " ++ c ++ ": expected `" ++ String x "` punct, got None")%string
  | PExpectedPunct x c false => inr ("cannot parse " ++ c ++ ": expected `" ++ String x "` punct, got Some(")%string
  | PUnsafeIdent => inr "expected one of 'fn|trait|impl|mod' after 'unsafe', got "
  | PFnIdent => inr "expected 'fn' keyword, got ident '"
  | PVisOnMacro => inr "unsupported visibility marker `"
  | PUnsupportedItem | PUnsupportedMember => inr "unsupported impl item `"
  | PUnsupportedElement => inr "unsupported impl element: "
  | PDeclInMod => inl "declaration in mod: Complex values for enum variants are not supported unless they are between parentheses."
  | _ => inr ""
  end.
Definition opens (o : string + string) (m : string) : Prop := match o with inl s => m = s | inr s => exists r, m = (s ++ r)%string end.
Lemma sapp_nil (s : string) : (s ++ "")%string = s.
Proof. induction s; cbn; congruence. Qed.
Lemma sapp_assoc (a b c : string) : ((a ++ b) ++ c = a ++ (b ++ c))%string.
Proof. induction a; cbn; congruence. Qed.
Lemma text_some t : exists r, text (debug_opt debug_tok (Some t)) = ("Some(" ++ r)%string.
Proof.
  unfold text. destruct (dbg_ok_spec (debug_tok t)) as [_ F]. unfold formats in F. rewrite tok_ok in F. destruct F as [s F].
  cbn [debug_opt plain map all_ret]. rewrite F. cbn. eauto.
Qed.
Lemma opens_form p why : alive p = true -> form p why -> opens (opening p) (show_message why).
Proof.
  intros A F. destruct p; cbn [alive] in A; try discriminate A; cbn [form] in F; unfold says, refuses in F; cbn [opening opens].
  all: try (rewrite F; cbn [show_message show_piece]; rewrite ?sapp_nil; reflexivity).
  all: try solve [destruct F as (t & _ & ->); cbn [show_message show_piece]; eexists; reflexivity].
  all: try (destruct F as [t ->]; cbn [show_message show_piece]; eexists; reflexivity).
  - destruct F as (t & r & ->). cbn [show_message show_piece]. eexists. reflexivity.
  - destruct F as (t & [Ht _] & ->). destruct at_end, t as [t|]; try discriminate Ht; cbn [show_message show_piece opens]; rewrite sapp_nil; [reflexivity|].
    destruct (text_some t) as [r ->]. exists r. rewrite !sapp_assoc. reflexivity.
  - destruct F as (t & [Ht _] & ->). destruct at_end, t as [t|]; try discriminate Ht; cbn [show_message show_piece opens]; rewrite sapp_nil; [reflexivity|].
    destruct (text_some t) as [r ->]. exists r. rewrite !sapp_assoc. reflexivity.
Qed.

(** Sites that may share a message. *)
Definition family (p : panic) : panic :=
  match p with PUnwrapNone _ => PUnwrapNone AtEnum | PUnsupportedMember => PUnsupportedItem | _ => p end.
(** Two openings of one text: equal, or one begins the other. *)
Definition clash (o o' : string + string) : bool :=
  match o, o' with
  | inl s, inl s' => String.eqb s s'
  | inl s, inr s' => prefix s' s
  | inr s, inl s' => prefix s s'
  | inr s, inr s' => prefix s s' || prefix s' s
  end.
Lemma prefix_app a r : prefix a (a ++ r)%string = true.
Proof. induction a as [|c a IH]; [destruct r; reflexivity|]. cbn. destruct (ascii_dec c c); [exact IH|congruence]. Qed.
Lemma prefix_both a b r s : (a ++ r = b ++ s)%string -> prefix a b || prefix b a = true.
Proof.
  revert b. induction a as [|c a IH]; intros [|d b]; cbn; auto. intro H. injection H as <- H. destruct (ascii_dec c c); [auto|congruence].
Qed.
Lemma clash_text o o' m : opens o m -> opens o' m -> clash o o' = true.
Proof.
  destruct o as [s|s], o' as [s'|s']; cbn; intros H H'.
  - subst. apply String.eqb_refl.
  - destruct H' as [r ->]. subst. apply prefix_app.
  - destruct H as [r ->]. subst. apply prefix_app.
  - destruct H as [r ->], H' as [r' H']. eapply prefix_both; eauto.
Qed.
Lemma no_clash : forallb (fun p => forallb (fun q =>
    negb (clash (opening p) (opening q)) || if panic_eq_dec (family p) (family q) then true else false) (map fst reached)) (map fst reached) = true.
Proof. vm_compute. reflexivity. Qed.
Lemma died_reached ts p why : fst (i_parse_item ts) = Died p why -> alive p = true /\ In p (map fst reached).
Proof.
  intro H. pose proof (C97_parse_item ts) as X. unfold run in X. rewrite H in X. cbn [plainly] in X.
  assert (P : parse_item ts = Panic p) by (destruct (parse_item ts); cbn in X; congruence).
  pose proof (parse_item_quiet ts) as Q. rewrite P in Q. split; [exact Q|]. apply alive_reached, Q.
Qed.
Theorem C104_tells (a b : list tok) (p q : panic) (why why' : list piece) :
  fst (i_parse_item a) = Died p why -> fst (i_parse_item b) = Died q why' -> show_message why = show_message why' ->
  p = q
  \/ (exists s t, p = PUnwrapNone s /\ q = PUnwrapNone t)
  \/ (p = PUnsupportedItem /\ q = PUnsupportedMember) \/ (p = PUnsupportedMember /\ q = PUnsupportedItem).
Proof.
  intros Ha Hb E. destruct (died_reached _ _ _ Ha) as [Aa Ra], (died_reached _ _ _ Hb) as [Ab Rb].
  pose proof (opens_form _ _ Aa (C104_form _ _ _ Ha)) as Oa. pose proof (opens_form _ _ Ab (C104_form _ _ _ Hb)) as Ob. rewrite <- E in Ob.
  pose proof (clash_text _ _ _ Oa Ob) as C. pose proof no_clash as N. rewrite forallb_forall in N. specialize (N p Ra). rewrite forallb_forall in N. specialize (N q Rb).
  rewrite C in N. cbn [negb orb] in N. destruct (panic_eq_dec (family p) (family q)) as [F|F]; [|discriminate N]. clear - F.
  destruct p; cbn [family] in F; destruct q; cbn [family] in F; try discriminate F; eauto 6.
Qed.

(** ** The token in the message *)
Lemma spelled_part x t : part x t -> spelled_tok t = true -> spelled_tok x = true.
Proof.
  induction 1 as [|g y Hy Hp IH]; auto. intro H. apply IH. destruct g as [d s z]. cbn [spelled_tok legal_tok andb g_stream] in *. eapply sp_in; eauto.
Qed.
Lemma spelled_shown ts p why : fst (i_parse_item ts) = Died p why -> sp ts = true -> forall x, In x (shown why) -> spelled_tok x = true.
Proof. intros H S x Hx. destruct (C100_origin _ _ _ H x Hx) as (t & Ht & Hp). eapply spelled_part; [exact Hp|]. eapply sp_in; eauto. Qed.
Lemma text_tok t u : spelled_tok t = true -> spelled_tok u = true -> text (debug_tok t) = text (debug_tok u) -> bt t = bt u.
Proof.
  intros St Su. unfold text.
  destruct (dbg_ok_spec (debug_tok t)) as [_ F], (dbg_ok_spec (debug_tok u)) as [_ G]. unfold formats in F, G. rewrite tok_ok in F, G.
  destruct F as [s F], G as [r G]. rewrite F, G. intros <-. apply tok_shown.
  apply (tight _ _ false); [apply tok_legible, St|apply tok_legible, Su|]. apply (same_plain _ _ s); auto; apply (legible_readable _ false), tok_legible; auto.
Qed.
Lemma slen_app (a b : string) : String.length (a ++ b) = String.length a + String.length b.
Proof. induction a; cbn; lia. Qed.
Lemma sapp_inv_r (a b c : string) : (a ++ c = b ++ c)%string -> a = b.
Proof.
  intro H. assert (L : String.length a = String.length b).
  { pose proof (f_equal String.length H) as E. rewrite !slen_app in E. lia. }
  revert b H L. induction a as [|x a IH]; intros [|y b] H L; cbn in *; try discriminate; auto. injection H as -> H. f_equal. apply IH; auto.
Qed.
Lemma some_text t : text (debug_opt debug_tok (Some t)) = ("Some(" ++ text (debug_tok t) ++ ")")%string.
Proof.
  unfold text. destruct (dbg_ok_spec (debug_tok t)) as [_ F]. unfold formats in F. rewrite tok_ok in F. destruct F as [s F].
  cbn [debug_opt plain map all_ret]. rewrite F. reflexivity.
Qed.
Lemma text_opt o o' : (forall x, In x (shown_piece (DbgOpt o)) -> spelled_tok x = true) -> (forall x, In x (shown_piece (DbgOpt o')) -> spelled_tok x = true) ->
  text (debug_opt debug_tok o) = text (debug_opt debug_tok o') -> bts (shown_piece (DbgOpt o)) = bts (shown_piece (DbgOpt o')).
Proof.
  intros S S' H. destruct o as [t|], o' as [u|]; rewrite ?some_text in H; try discriminate H; auto.
  apply sapp_inj, sapp_inv_r in H. cbn [shown_piece] in *. unfold s_toks. cbn [map]. f_equal. apply text_tok; cbn in *; auto.
Qed.
Lemma same_name i j : id_str i = id_str j -> bts [TIdent i] = bts [TIdent j].
Proof. destruct i, j. cbn. intros ->. reflexivity. Qed.
Lemma show_name i : show_tokens [TIdent i] = id_str i.
Proof. cbn. apply sapp_nil. Qed.
Theorem C104_token (a b : list tok) (p : panic) (why why' : list piece) :
  fst (i_parse_item a) = Died p why -> fst (i_parse_item b) = Died p why' -> sp a = true -> sp b = true ->
  p <> PTrailingTokens -> p <> PVisOnMacro -> show_message why = show_message why' ->
  bts (shown why) = bts (shown why').
Proof.
  intros Ha Hb Sa Sb N1 N2 E. destruct (died_reached _ _ _ Ha) as [A _].
  pose proof (C104_form _ _ _ Ha) as Fa. pose proof (C104_form _ _ _ Hb) as Fb.
  pose proof (spelled_shown _ _ _ Ha Sa) as Xa. pose proof (spelled_shown _ _ _ Hb Sb) as Xb. clear Ha Hb Sa Sb.
  destruct p; cbn [alive] in A; try discriminate A; cbn [form] in Fa, Fb; unfold says, refuses in Fa, Fb; try contradiction.
  all: try (subst; reflexivity).
  all: unfold shown in *.
  all: try solve [destruct Fa as [t ->], Fb as [u ->]; cbn [show_message show_piece flat_map shown_piece app] in *; apply sapp_inj in E; rewrite ?sapp_nil in E; cbn [s_toks map]; f_equal; apply text_tok; cbn in *; auto].
  all: try solve [destruct Fa as (t & _ & ->), Fb as (u & _ & ->); cbn [show_message show_piece flat_map shown_piece app] in *; apply sapp_inj in E; rewrite ?sapp_nil in E; cbn [s_toks map]; f_equal; apply text_tok; cbn in *; auto].
  all: try solve [destruct Fa as (t & _ & ->), Fb as (u & _ & ->); cbn [show_message show_piece flat_map] in *; rewrite ?app_nil_r in *;
    repeat apply sapp_inj in E; rewrite ?sapp_nil in E; cbn [shown_piece app] in Xa, Xb |- *; apply text_opt; cbn in *; assumption].
  all: first [destruct Fa as [t ->], Fb as [u ->] | destruct Fa as (t & _ & ->), Fb as (u & _ & ->)]; cbn [show_message show_piece flat_map] in *; rewrite ?app_nil_r in *;
    repeat apply sapp_inj in E; try apply sapp_inv_r in E; cbn [shown_piece app] in Xa, Xb |- *; rewrite ?show_name in E.
  - apply same_name. cbn in E. injection E as E. apply sapp_inv_r in E. exact E.
  - apply same_name, E.
  - apply same_name, E.
  - apply text_opt; assumption.
Qed.
(** The two sites whose messages may be confused are so in one case only. *)
Theorem C104_confusion (a b : list tok) (why why' : list piece) :
  fst (i_parse_item a) = Died PUnsupportedItem why -> fst (i_parse_item b) = Died PUnsupportedMember why' -> sp a = true ->
  show_message why = show_message why' -> show_message why = "unsupported impl item `None`".
Proof.
  intros Ha Hb Sa E. pose proof (spelled_shown _ _ _ Ha Sa) as Xa. destruct (C104_form _ _ _ Ha) as (i & _ & ->). destruct (C104_form _ _ _ Hb) as [t ->].
  cbn [show_message show_piece] in *. change ("unsupported " ++ "impl" ++ " item `" ++ show_tokens [TIdent i] ++ "`" ++ "")%string with ("unsupported impl item `" ++ show_tokens [TIdent i] ++ "`")%string in *.
  change ("unsupported impl item `" ++ text (debug_opt debug_tok t) ++ "`" ++ "")%string with ("unsupported impl item `" ++ text (debug_opt debug_tok t) ++ "`")%string in E.
  rewrite E. apply sapp_inj, sapp_inv_r in E. rewrite show_name in E. destruct t as [t|]; [|reflexivity]. exfalso.
  assert (N : name_text (id_str i) = true) by (apply ident_name, Xa; cbn; auto). rewrite E in N. destruct (text_some t) as [r R]. rewrite R in N. discriminate N.
Qed.
Theorem C104_site_refuted : ~ (forall a b p q why why', fst (i_parse_item a) = Died p why -> fst (i_parse_item b) = Died q why' ->
  show_message why = show_message why' -> p = q).
Proof.
  intro H. specialize (H (lex "impl A { None }") (lex "impl A { static A: B; }") _ _ _ _ eq_refl eq_refl eq_refl). discriminate H.
Qed.
(** The text of a [{}] does not determine the tokens: groups without delimiters are not shown. *)
Example C104_display : let a := lex "struct A; b" in let b := lex "struct A;" ++ [TGroup (mkGroup NoDelim (lex "b") call_site)] in
  sp a = true /\ sp b = true /\ message_of (fst (i_parse_item a)) = Some "unexpected trailing tokens after declaration: b"
  /\ message_of (fst (i_parse_item b)) = message_of (fst (i_parse_item a)).
Proof. repeat split; reflexivity. Qed.
Example C104_ex1 : exists why, fst (i_parse_item (lex "mod m { struct S struct }")) = Died PStructToken why
  /\ form PStructToken why /\ show_message why = "cannot parse struct: unexpected token Ident { sym: struct }".
Proof. eexists. split; [reflexivity|]. split; [eexists; split; [|reflexivity]; reflexivity|reflexivity]. Qed.
Example C104_ex5 : exists why, fst (i_parse_item (lex "impl A { 3 foo }")) = Died PUnsupportedElement why
  /\ form PUnsupportedElement why /\ show_message why = "unsupported impl element: Some(Literal { lit: 3 })".
Proof. eexists. split; [reflexivity|]. split; [eexists; split; [|reflexivity]; reflexivity|reflexivity]. Qed.
Example C104_ex2 : dies "impl A { None }" = Some "unsupported impl item `None`" /\ dies "impl A { static A: B; }" = Some "unsupported impl item `None`"
  /\ dies "impl A { static A: B; None }" = Some "unsupported impl item `Some(Ident { sym: None })`" /\ sp (lex "impl A { None }") = true.
Proof. repeat split; reflexivity. Qed.
Example C104_ex3 : exists p q why why', fst (i_parse_item (lex "struct 3")) = Died p why /\ fst (i_parse_item (lex "mod m { enum 3 }")) = Died q why'
  /\ show_message why = show_message why' /\ p = q /\ bts (shown why) = bts (shown why') /\ shown why <> shown why'.
Proof. do 4 eexists. repeat (split; [reflexivity|]). discriminate. Qed.
Example C104_ex4 : exists why, fst (i_path (lex "a<'3>")) = Died PLifetimeToken why /\ show_message why = "expected identifier after ' lifetime symbol, got Literal { lit: 3 }".
Proof. eexists. split; reflexivity. Qed.

(** Literals and bracketed or invisible groups start nothing: where a body, a name or a member is due, the message shows that token and no later one. *)
Definition starts_nothing (t : tok) : bool :=
  match t with TLit _ => true | TGroup g => delim_eqb (g_delim g) Bracket || delim_eqb (g_delim g) NoDelim | _ => false end.
Definition dies_with (ts : list tok) (p : panic) (why : list piece) : Prop := fst (i_parse_item ts) = Died p why.
Ltac dying := unfold dies_with, i_parse_item; rewrite fst_andthen; unfold i_consume_item;
  match goal with |- context [toks_depth ?l] => generalize (toks_depth l) end; intros n; cbn [i_nest]; destruct (i_nest n) as [R E]; reflexivity.
Ltac dying_inside := unfold dies_with, i_parse_item; rewrite fst_andthen; unfold i_consume_item;
  match goal with |- context [toks_depth ?l] => assert (D : toks_depth l <> 0) by (rewrite toks_depth_app; cbn [toks_depth]; cbn; lia); generalize dependent (toks_depth l) end;
  intros [|n] D; [congruence|]; cbn [i_nest]; destruct (i_nest n) as [R E]; reflexivity.
Theorem C104_exact (t : tok) (rest : list tok) : starts_nothing t = true ->
  dies_with (lex "struct A" ++ t :: rest) PStructToken [Txt "cannot parse struct: unexpected token "; Dbg t]
  /\ dies_with (lex "enum A" ++ t :: rest) PEnumToken [Txt "cannot parse enum: unexpected token "; Dbg t]
  /\ dies_with (lex "union A" ++ t :: rest) PUnionToken [Txt "cannot parse union: unexpected token "; Dbg t]
  /\ dies_with (lex "mod A" ++ t :: rest) PModToken [Txt "cannot parse mod: expected `{ }` or `;`, but got token "; Dbg t]
  /\ dies_with (lex "struct" ++ t :: rest) (PExpectedIdent "item" false) [Txt "cannot parse "; Txt "item"; Txt ": expected identifier, got "; DbgOpt (Some t)].
Proof.
  intro H.
  destruct t as [[[| | |] s sp0]|i|p|l]; cbn in H; try discriminate H; clear H; repeat split; dying.
Qed.
Theorem C104_exact_member (t : tok) (rest : list tok) (s : span) : starts_nothing t = true ->
  forall head, In head ["impl A"; "impl<T> A<T> for B<T> where T: C"; "unsafe impl A for B"; "trait A"; "pub unsafe trait A: B where C: D"; "extern"; "pub unsafe extern ""C"""] ->
  forall before, In before [""; "fn f() {}"; "const C: u8 = 3; type T = u8;"; "m! {}"; "#![a] #[b] fn f(self);"; "#[a = 3]"; "#[a] pub(b)"] ->
  dies_with (lex head ++ [TGroup (mkGroup Brace (lex before ++ t :: rest) s)]) PUnsupportedElement [Txt "unsupported "; Txt "impl"; Txt " element: "; DbgOpt (Some t)].
Proof.
  intros H head Hh before Hb.
  destruct t as [[[| | |] g sp0]|i|p|l]; cbn in H; try discriminate H; clear H;
  repeat (destruct Hh as [<-|Hh]; [repeat (destruct Hb as [<-|Hb]; [dying_inside|]); destruct Hb|]); destruct Hh.
Qed.
Example C104_exact_example : starts_nothing (TLit (mkLit "4" call_site)) = true
  /\ dies "impl A { fn f() {} 4 foo }" = Some "unsupported impl element: Some(Literal { lit: 4 })" /\ dies "struct A 4 foo" = Some "cannot parse struct: unexpected token Literal { lit: 4 }".
Proof. repeat split; reflexivity. Qed.

(** C105: literals with a sign.

    A [proc_macro2::Literal] may be negative ([Literal::i8_suffixed(-1)], text [-1i8]).  A
    [TokenStream] never holds one: appending it ([TokenStream::from_iter] and [extend], used by every
    [tokens.append(..)] of src/types.rs:1074-1688) stores the punct [-] and the literal without its
    sign.  So the tokens of an item built by hand may change when it is printed. *)
From Verif Require Import Lossy LossyProof Debug Blind PrintSpells Complete3 Sound2 Unfold Samples PropRoundTrip PropErr PropMore PropShape.
Local Open Scope string_scope.
Local Open Scope list_scope.

(** ** The model *)
(** What a stream holds after the token has been appended ([push_token_from_proc_macro] and
    [push_negative_literal] of proc_macro2).  The stream of a group is one already, and so it is free of
    negative literals; descending into groups covers the groups the printers make ([quote_with]). *)
Fixpoint sg_tok (t : tok) : list tok :=
  match t with
  | TGroup (mkGroup d s sp) => [TGroup (mkGroup d (flat_map sg_tok s) sp)]
  | TLit (mkLit (String "-" r) sp) => [TPunct (mkPunct "-" Alone sp); TLit (mkLit r sp)]
  | t => [t]
  end.
Definition sg (ts : list tok) : list tok := flat_map sg_tok ts.
(** No literal is negative. *)
Fixpoint unsigned (t : tok) : bool :=
  match t with
  | TGroup (mkGroup _ s _) => forallb unsigned s
  | TLit l => negb (String.prefix "-" (l_repr l))
  | _ => true
  end.

(** The same on every part of a syntax tree. *)
Definition sg_group (g : group) : group := mkGroup (g_delim g) (sg (g_stream g)) (g_span g).
Definition sg1 (t : tok) : tok := match t with TGroup g => TGroup (sg_group g) | t => t end.
Definition sg_avalue (v : attribute_value) : attribute_value :=
  match v with
  | AVGroup g ts => AVGroup g (sg ts)
  | AVEquals e ts => AVEquals e (sg ts)
  | AVEmpty => AVEmpty
  end.
Definition sg_attr (a : attribute) : attribute := mkAttribute (at_hash a) (at_bang a) (at_brackets a) (sg (at_path a)) (sg_avalue (at_value a)).
Definition sg_attrs : list attribute -> list attribute := map sg_attr.
Definition sg_vis (v : vis_marker) : vis_marker := mkVis (sg1 (vis_token1 v)) (option_map sg1 (vis_token2 v)).
Definition sg_ovis : option vis_marker -> option vis_marker := option_map sg_vis.
Definition sg_type (t : type_expr) : type_expr := mkTypeExpr (sg (te_tokens t)).
Definition sg_value (v : value_expr) : value_expr := mkValueExpr (sg (ve_tokens v)).
Definition sg_bound (b : generic_bound) : generic_bound := mkBound (gb_colon b) (sg (gb_tokens b)).
Definition sg_pu {A} (g : A -> A) (p : punctuated A) : punctuated A :=
  mkPunctuated (map (fun x => (g (fst x), snd x)) (pu_inner p)) (pu_skip_last p).
Definition sg_gparam (p : generic_param) : generic_param := mkGenericParam (option_map sg1 (gp_prefix p)) (gp_name p) (option_map sg_bound (gp_bound p)).
Definition sg_generics (g : generic_param_list) : generic_param_list := mkGenericParamList (gpl_l g) (sg_pu sg_gparam (gpl_params g)) (gpl_r g).
Definition sg_pred (w : where_predicate) : where_predicate := mkWherePredicate (sg (wp_left w)) (sg_bound (wp_bound w)).
Definition sg_where (w : where_clause) : where_clause := mkWhereClause (wc_where w) (sg_pu sg_pred (wc_items w)).
Definition sg_tfield (f : tuple_field) : tuple_field := mkTupleField (sg_attrs (tf_attributes f)) (sg_ovis (tf_vis f)) (sg_type (tf_ty f)).
Definition sg_nfield (f : named_field) : named_field := mkNamedField (sg_attrs (nf_attributes f)) (sg_ovis (nf_vis f)) (nf_name f) (nf_colon f) (sg_type (nf_ty f)).
Definition sg_fields (f : fields) : fields :=
  match f with
  | FUnit => FUnit
  | FTuple f => FTuple (mkTupleFields (sg_pu sg_tfield (tfs_fields f)) (tfs_parens f))
  | FNamed f => FNamed (mkNamedFields (sg_pu sg_nfield (nfs_fields f)) (nfs_braces f))
  end.
Definition sg_variant (v : enum_variant) : enum_variant :=
  mkVariant (sg_attrs (ev_attributes v)) (sg_ovis (ev_vis v)) (ev_name v) (sg_fields (ev_fields v))
    (option_map (fun x => mkVariantValue (vv_equal x) (sg1 (vv_value x))) (ev_value v)).
Definition sg_param (p : fn_param) : fn_param :=
  match p with
  | FPReceiver r => FPReceiver (mkReceiver (sg_attrs (fr_attributes r)) (fr_ref r) (fr_lifetime r) (fr_mut r) (fr_self r))
  | FPTyped t => FPTyped (mkTyped (sg_attrs (ft_attributes t)) (ft_mut t) (ft_name t) (ft_colon t) (sg_type (ft_ty t)))
  end.
Definition sg_function (f : function) : function :=
  mkFunction (sg_attrs (fn_attributes f)) (sg_ovis (fn_vis f)) (fn_qualifiers_ f) (fn_kw f) (fn_name f) (option_map sg_generics (fn_generics f)) (fn_parens f)
    (sg_pu sg_param (fn_params f)) (option_map sg_where (fn_where f)) (fn_arrow f) (option_map sg_type (fn_ret f)) (fn_semicolon f) (option_map sg_group (fn_body f)).
Definition sg_constant (k : constant) : constant :=
  mkConstant (sg_attrs (co_attributes k)) (sg_ovis (co_vis k)) (co_kw k) (co_mut k) (co_name k) (co_colon k) (sg_type (co_ty k)) (co_equals k) (option_map sg_value (co_init k)) (co_semicolon k).
Definition sg_alias (t : type_alias) : type_alias :=
  mkTypeAlias (sg_attrs (ta_attributes t)) (sg_ovis (ta_vis t)) (ta_type t) (ta_name t) (option_map sg_bound (ta_bound t)) (ta_equals t) (option_map sg_type (ta_init t)) (ta_semicolon t).
Definition sg_macro (m : macro) : macro :=
  mkMacro (sg_attrs (ma_attributes m)) (ma_name m) (ma_bang m) (ma_declared m) (ma_group m) (sg (ma_inner m)) (ma_semicolon m).
Definition sg_impl_member (m : impl_member) : impl_member :=
  match m with IMFunction f => IMFunction (sg_function f) | IMConstant k => IMConstant (sg_constant k) | IMType t => IMType (sg_alias t) | IMMacro m => IMMacro (sg_macro m) end.
Definition sg_trait_member (m : trait_member) : trait_member :=
  match m with TMFunction f => TMFunction (sg_function f) | TMConstant k => TMConstant (sg_constant k) | TMType t => TMType (sg_alias t) | TMMacro m => TMMacro (sg_macro m) end.
(** In every list of tokens of an item.  A slot that holds one token keeps its literal. *)
Fixpoint sg_item (i : item) : item :=
  match i with
  | IStruct (mkStruct a v k n g w f s) => IStruct (mkStruct (sg_attrs a) (sg_ovis v) k n (option_map sg_generics g) (option_map sg_where w) (sg_fields f) s)
  | IEnum (mkEnum a v k n g w b vs) => IEnum (mkEnum (sg_attrs a) (sg_ovis v) k n (option_map sg_generics g) (option_map sg_where w) b (sg_pu sg_variant vs))
  | IUnion (mkUnion a v k n g w (mkNamedFields f b)) =>
      IUnion (mkUnion (sg_attrs a) (sg_ovis v) k n (option_map sg_generics g) (option_map sg_where w) (mkNamedFields (sg_pu sg_nfield f) b))
  | IFunction f => IFunction (sg_function f)
  | IConstant k => IConstant (sg_constant k)
  | ITypeAlias t => ITypeAlias (sg_alias t)
  | IUse (mkUse a v k t s) => IUse (mkUse (sg_attrs a) (sg_ovis v) k (sg_type t) s)
  | IModule (mkModule a v u k n s b ia ms) => IModule (mkModule (sg_attrs a) (sg_ovis v) u k n s b (sg_attrs ia) (map sg_item ms))
  | ITrait (mkTrait a v u k n g b w br ia ms) =>
      ITrait (mkTrait (sg_attrs a) (sg_ovis v) u k n (option_map sg_generics g) (option_map sg_bound b) (option_map sg_where w) br (sg_attrs ia) (map sg_trait_member ms))
  | IImpl (mkImpl a u k g t f s w br ia ms) =>
      IImpl (mkImpl (sg_attrs a) u k (option_map sg_generics g) (option_map sg_type t) f (sg_type s) (option_map sg_where w) br (sg_attrs ia) (map sg_impl_member ms))
  | IExternBlock (mkExternBlock a v u e ab br ia ms) => IExternBlock (mkExternBlock (sg_attrs a) (sg_ovis v) u e ab br (sg_attrs ia) (map sg_impl_member ms))
  | IMacro m => IMacro (sg_macro m)
  | IExternCrate (mkExternCrate a v e c n k al un s) => IExternCrate (mkExternCrate (sg_attrs a) (sg_ovis v) e c n k al un s)
  end.

(** The slots of an item that hold one token: the two tokens of a visibility, the prefix of a generic
    parameter, the value of a variant, and the ABI. *)
Definition vis_slots (o : option vis_marker) : list tok :=
  match o with Some v => vis_token1 v :: match vis_token2 v with Some t => [t] | None => [] end | None => [] end.
Definition pu_slots {A} (f : A -> list tok) (p : punctuated A) : list tok := flat_map (fun x => f (fst x)) (pu_inner p).
Definition generics_slots (o : option generic_param_list) : list tok :=
  match o with Some g => pu_slots (fun p => match gp_prefix p with Some t => [t] | None => [] end) (gpl_params g) | None => [] end.
Definition fields_slots (f : fields) : list tok :=
  match f with
  | FUnit => []
  | FTuple f => pu_slots (fun x => vis_slots (tf_vis x)) (tfs_fields f)
  | FNamed f => pu_slots (fun x => vis_slots (nf_vis x)) (nfs_fields f)
  end.
Definition variant_slots (v : enum_variant) : list tok :=
  vis_slots (ev_vis v) ++ fields_slots (ev_fields v) ++ match ev_value v with Some x => [vv_value x] | None => [] end.
Definition abi_slots (o : option literal) : list tok := match o with Some l => [TLit l] | None => [] end.
Definition function_slots (f : function) : list tok := vis_slots (fn_vis f) ++ abi_slots (fq_abi (fn_qualifiers_ f)) ++ generics_slots (fn_generics f).
Definition impl_member_slots (m : impl_member) : list tok :=
  match m with
  | IMFunction f => function_slots f
  | IMConstant k => vis_slots (co_vis k)
  | IMType t => vis_slots (ta_vis t)
  | IMMacro _ => []
  end.
Definition trait_member_slots (m : trait_member) : list tok := impl_member_slots (impl_of_trait_member m).
Fixpoint item_slots (i : item) : list tok :=
  match i with
  | IStruct s => vis_slots (st_vis s) ++ generics_slots (st_generics s) ++ fields_slots (st_fields s)
  | IEnum e => vis_slots (en_vis e) ++ generics_slots (en_generics e) ++ pu_slots variant_slots (en_variants e)
  | IUnion u => vis_slots (un_vis u) ++ generics_slots (un_generics u) ++ fields_slots (FNamed (un_fields u))
  | IModule m => vis_slots (mo_vis m) ++ flat_map item_slots (mo_members m)
  | ITrait t => vis_slots (tr_vis t) ++ generics_slots (tr_generics t) ++ flat_map trait_member_slots (tr_items t)
  | IImpl i => generics_slots (im_generics i) ++ flat_map impl_member_slots (im_items i)
  | ITypeAlias t => vis_slots (ta_vis t)
  | IFunction f => function_slots f
  | IConstant k => vis_slots (co_vis k)
  | IUse u => vis_slots (us_vis u)
  | IMacro _ => []
  | IExternBlock b => vis_slots (eb_vis b) ++ abi_slots (eb_abi b) ++ flat_map impl_member_slots (eb_items b)
  | IExternCrate c => vis_slots (ec_vis c)
  end.
(** A token that is no negative literal. *)
Definition plus (t : tok) : bool := match t with TLit l => negb (String.prefix "-" (l_repr l)) | _ => true end.

(** ** Proof: every test on tokens gives the same answer *)
Definition deaf (P : tok -> bool) : Prop :=
  (forall l, P (TLit l) = false) /\ (forall s sp, P (TPunct (mkPunct "-" s sp)) = false)
  /\ (forall d s s' sp, P (TGroup (mkGroup d s sp)) = P (TGroup (mkGroup d s' sp))).
Lemma deaf_is_punct c : c <> "-"%char -> deaf (is_punct c).
Proof. intro H. split; [reflexivity|]. split; [|reflexivity]. intros s sp. cbn [is_punct]. unfold p_is. cbn [p_char]. apply Ascii.eqb_neq. auto. Qed.
Lemma deaf_is_ident k : deaf (is_ident k). Proof. split; [|split]; reflexivity. Qed.
Lemma deaf_is_group d : deaf (is_group d). Proof. split; [|split]; reflexivity. Qed.
Lemma deaf_or P Q : deaf P -> deaf Q -> deaf (fun t => P t || Q t).
Proof.
  intros (A1 & A2 & A3) (B1 & B2 & B3). split; [|split]; intros.
  - rewrite A1, B1. reflexivity.
  - rewrite A2, B2. reflexivity.
  - rewrite (A3 d s s'), (B3 d s s'). reflexivity.
Qed.
Lemma deaf_comma : deaf end_comma. Proof. apply (deaf_is_punct ","). discriminate. Qed.
Lemma deaf_semicolon : deaf end_semicolon. Proof. apply (deaf_is_punct ";"). discriminate. Qed.
#[local] Hint Resolve deaf_is_ident deaf_is_group deaf_or deaf_comma deaf_semicolon : deaf.
#[local] Hint Extern 2 (deaf (is_punct _)) => apply deaf_is_punct; discriminate : deaf.
(** A token is kept, or is a group with other contents, or a negative literal. *)
Lemma sg_cases t : sg_tok t = [t] \/ (exists d s sp, t = TGroup (mkGroup d s sp) /\ sg_tok t = [TGroup (mkGroup d (sg s) sp)])
  \/ (exists r sp, t = TLit (mkLit (String "-" r) sp) /\ sg_tok t = [TPunct (mkPunct "-" Alone sp); TLit (mkLit r sp)]).
Proof.
  destruct t as [[d s sp]|i|p|[r sp]]; auto.
  - right. left. exists d, s, sp. auto.
  - destruct r as [|c r]; auto. destruct (Ascii.eqb c "-") eqn:E.
    + apply Ascii.eqb_eq in E. subst c. right. right. eauto.
    + left. destruct c as [[] [] [] [] [] [] [] []]; try reflexivity. discriminate.
Qed.
Lemma head_sg P ts : deaf P -> head_is P (sg ts) = head_is P ts.
Proof.
  intros (A1 & A2 & A3). destruct ts as [|t ts]; [reflexivity|]. unfold sg. cbn [flat_map].
  destruct (sg_cases t) as [->|[(d & s & sp & -> & ->)|(r & sp & -> & ->)]]; cbn [app head_is]; auto. rewrite A1. auto.
Qed.
Lemma nonempty_sg ts : nonempty (sg ts) = nonempty ts.
Proof. destruct ts as [|t ts]; [reflexivity|]. unfold sg. cbn [flat_map]. destruct (sg_cases t) as [->|[(d & s & sp & -> & ->)|(r & sp & -> & ->)]]; reflexivity. Qed.
Lemma scan_sg P : deaf P -> forall ts d b, scan P d b (sg ts) = scan P d b ts.
Proof.
  intros (A1 & A2 & A3) ts. induction ts as [|t ts IH]; intros d b; [reflexivity|]. unfold sg. cbn [flat_map]. fold (sg ts).
  destruct (sg_cases t) as [->|[(dl & s & sp & -> & ->)|(r & sp & -> & ->)]]; cbn [app scan].
  - rewrite IH. reflexivity.
  - unfold stops. rewrite (A3 dl (sg s) s). cbn -[is_punct]. rewrite IH. reflexivity.
  - unfold stops. cbn -[Z.eqb]. rewrite !A1, IH, !andb_false_r. reflexivity.
Qed.
Lemma closed_sg P ts : deaf P -> run_closed P (sg ts) = run_closed P ts. Proof. intro H. unfold run_closed. rewrite scan_sg; auto. Qed.
Lemma any_sg P ts : deaf P -> run_any P (sg ts) = run_any P ts. Proof. intro H. unfold run_any. rewrite scan_sg; auto. Qed.
Lemma path_sg ts : forallb path_token (sg ts) = forallb path_token ts.
Proof.
  induction ts as [|t ts IH]; [reflexivity|]. unfold sg. cbn [flat_map]. fold (sg ts).
  destruct (sg_cases t) as [->|[(dl & s & sp & -> & ->)|(r & sp & -> & ->)]]; cbn; rewrite ?IH; reflexivity.
Qed.
Lemma attr_sg b a : wf_attribute b (sg_attr a) = wf_attribute b a.
Proof. unfold wf_attribute. cbn [sg_attr at_hash at_bang at_brackets at_path at_value]. rewrite path_sg. destruct (at_value a); reflexivity. Qed.
Lemma outer_sg l : wf_outer (sg_attrs l) = wf_outer l.
Proof. unfold wf_outer, sg_attrs. induction l as [|a l IH]; cbn [map forallb]; rewrite ?attr_sg, ?IH; reflexivity. Qed.
Lemma inner_sg l : wf_inner_attrs (sg_attrs l) = wf_inner_attrs l.
Proof. unfold wf_inner_attrs, sg_attrs. induction l as [|a l IH]; cbn [map forallb]; rewrite ?attr_sg, ?IH; reflexivity. Qed.
Lemma vis_sg o : wf_opt wf_vis (sg_ovis o) = wf_opt wf_vis o.
Proof. destruct o as [[[[]| | |] [[[]| | |]|]]|]; reflexivity. Qed.
Lemma some_sg {A} (f : A -> A) o : some (option_map f o) = some o.
Proof. destruct o; reflexivity. Qed.
Lemma opt_sg {A} (f : A -> bool) (g : A -> A) x : (forall y, f (g y) = f y) -> wf_opt f (option_map g x) = wf_opt f x.
Proof. intro H. destruct x; cbn; auto. Qed.
Lemma pu_sg {A} (wf : bool -> A -> bool) (g : A -> A) p : (forall b x, wf b (g x) = wf b x) -> wf_punctuated wf (sg_pu g p) = wf_punctuated wf p.
Proof.
  intro H. unfold wf_punctuated, sg_pu. cbn [pu_inner pu_skip_last]. induction (pu_inner p) as [|[x c] l IH]; [reflexivity|].
  destruct l as [|y l]; cbn in *; rewrite H; [reflexivity|]. rewrite <- IH. reflexivity.
Qed.
Lemma field_ty_sg b t : wf_field_ty b (sg_type t) = wf_field_ty b t.
Proof. unfold wf_field_ty, sg_type. cbn [te_tokens]. rewrite nonempty_sg, closed_sg, any_sg; auto; auto with deaf. Qed.
Lemma bound_sg P b : deaf P -> wf_bound P (sg_bound b) = wf_bound P b.
Proof. intro H. unfold wf_bound. cbn. rewrite closed_sg; auto. Qed.
Lemma gparam_sg b p : wf_generic_param b (sg_gparam p) = wf_generic_param b p.
Proof. unfold wf_generic_param. cbn [sg_gparam gp_prefix gp_name gp_bound]. rewrite (opt_sg (wf_bound end_param)) by (intro; apply bound_sg; unfold end_param; auto with deaf). destruct (gp_prefix p) as [[[]| | |]|]; reflexivity. Qed.
Lemma generics_sg g : wf_generics (sg_generics g) = wf_generics g.
Proof. unfold wf_generics. cbn [sg_generics gpl_l gpl_r gpl_params]. rewrite pu_sg; auto using gparam_sg. Qed.
Lemma pred_sg b w : wf_where_predicate b (sg_pred w) = wf_where_predicate b w.
Proof.
  unfold wf_where_predicate. cbn [sg_pred wp_left wp_bound]. rewrite closed_sg, !head_sg, bound_sg; auto with deaf.
  unfold end_where_item. auto with deaf.
Qed.
Lemma where_sg w : wf_where (sg_where w) = wf_where w.
Proof. unfold wf_where. cbn [sg_where wc_where wc_items]. rewrite pu_sg; auto using pred_sg. Qed.
Lemma ovis_sg v ts : prefix_ok (sg_ovis v) ts = prefix_ok v ts.
Proof. destruct v as [[[[]| | |] [[[]| | |]|]]|]; reflexivity. Qed.
Lemma prefix_sg v ts : prefix_ok v (sg ts) = prefix_ok v ts.
Proof. unfold prefix_ok. destruct v as [[[] []]|]; rewrite ?head_sg; auto with deaf. Qed.
Lemma tfield_sg b f : wf_tuple_field b (sg_tfield f) = wf_tuple_field b f.
Proof. unfold wf_tuple_field. cbn [sg_tfield tf_attributes tf_vis tf_ty]. rewrite ?outer_sg, ?inner_sg, ?vis_sg, ?ovis_sg. cbn [sg_type te_tokens]. rewrite prefix_sg. fold (sg_type (tf_ty f)). rewrite field_ty_sg. reflexivity. Qed.
Lemma nfield_sg b f : wf_named_field b (sg_nfield f) = wf_named_field b f.
Proof. unfold wf_named_field. cbn [sg_nfield nf_attributes nf_vis nf_name nf_colon nf_ty]. rewrite ?outer_sg, ?inner_sg, ?vis_sg, ?ovis_sg. rewrite field_ty_sg. reflexivity. Qed.
Lemma fields_sg f : wf_fields (sg_fields f) = wf_fields f.
Proof.
  destruct f; cbn [sg_fields wf_fields]; [reflexivity| |]; unfold wf_tuple_fields, wf_named_fields; cbn [tfs_fields tfs_parens nfs_fields nfs_braces];
    rewrite pu_sg; auto using tfield_sg, nfield_sg.
Qed.
Lemma variant_sg b v : wf_variant b (sg_variant v) = wf_variant b v.
Proof. unfold wf_variant. cbn [sg_variant ev_attributes ev_vis ev_name ev_fields ev_value]. rewrite ?outer_sg, ?inner_sg, ?vis_sg, ?ovis_sg. rewrite fields_sg. destruct (ev_value v); reflexivity. Qed.
Lemma param_sg b p : wf_fn_param b (sg_param p) = wf_fn_param b p.
Proof. destruct p; cbn [sg_param wf_fn_param fr_attributes fr_ref fr_lifetime fr_mut fr_self]; [rewrite outer_sg; reflexivity|]. cbn [sg_param wf_fn_param ft_attributes ft_mut ft_name ft_colon ft_ty]. rewrite ?outer_sg, ?inner_sg, ?vis_sg, ?ovis_sg. rewrite field_ty_sg. reflexivity. Qed.
Lemma function_sg f : wf_function (sg_function f) = wf_function f.
Proof.
  unfold wf_function. cbn [sg_function fn_attributes fn_vis fn_qualifiers_ fn_kw fn_name fn_generics fn_parens fn_params fn_where fn_arrow fn_ret fn_semicolon fn_body]. rewrite ?outer_sg, ?inner_sg, ?vis_sg, ?ovis_sg.
  rewrite (opt_sg wf_generics), (opt_sg wf_where), pu_sg by auto using generics_sg, where_sg, param_sg.
  assert (Fb : match option_map sg_group (fn_body f), fn_semicolon f with Some g, None => delim_eqb (g_delim g) Brace | None, Some p => p_is ";" p | _, _ => false end
    = match fn_body f, fn_semicolon f with Some g, None => delim_eqb (g_delim g) Brace | None, Some p => p_is ";" p | _, _ => false end)
    by (destruct (fn_body f) as [[]|]; reflexivity). rewrite Fb.
  destruct (fn_arrow f) as [[]|], (fn_ret f); cbn [option_map]; auto. cbn [sg_type te_tokens]. rewrite closed_sg; auto. unfold end_return. auto with deaf.
Qed.
Lemma constant_sg k : shape_constant (sg_constant k) = shape_constant k.
Proof.
  unfold shape_constant. cbn [sg_constant co_attributes co_vis co_kw co_mut co_name co_colon co_ty co_equals co_init co_semicolon sg_type te_tokens]. rewrite ?outer_sg, ?inner_sg, ?vis_sg, ?ovis_sg.
  rewrite closed_sg by (unfold end_const_ty; auto with deaf). destruct (co_equals k), (co_init k); cbn [option_map]; auto.
  cbn [sg_value ve_tokens]. rewrite nonempty_sg, closed_sg; auto. auto with deaf.
Qed.
Lemma alias_sg t : wf_type_alias (sg_alias t) = wf_type_alias t.
Proof.
  unfold wf_type_alias. cbn [sg_alias ta_attributes ta_vis ta_type ta_name ta_bound ta_equals ta_init ta_semicolon]. rewrite ?outer_sg, ?inner_sg, ?vis_sg, ?ovis_sg.
  rewrite (opt_sg (wf_bound end_const_ty)) by (intro; apply bound_sg; unfold end_const_ty; auto with deaf).
  destruct (ta_equals t), (ta_init t); cbn [option_map]; auto. cbn [sg_type te_tokens]. rewrite closed_sg; auto. auto with deaf.
Qed.
Lemma macro_sg ks m : shape_macro ks (sg_macro m) = shape_macro ks m.
Proof. unfold shape_macro. cbn [sg_macro ma_attributes ma_name ma_bang ma_declared ma_group ma_inner ma_semicolon]. rewrite outer_sg. reflexivity. Qed.
Lemma impl_member_sg b m : shape_impl_member b (sg_impl_member m) = shape_impl_member b m.
Proof. destruct m; cbn [sg_impl_member shape_impl_member]; rewrite ?function_sg, ?constant_sg, ?alias_sg, ?macro_sg; reflexivity. Qed.
Lemma trait_member_sg m : shape_trait_member (sg_trait_member m) = shape_trait_member m.
Proof. destruct m; unfold shape_trait_member; cbn [sg_trait_member impl_of_trait_member shape_impl_member]; rewrite ?function_sg, ?constant_sg, ?alias_sg, ?macro_sg; reflexivity. Qed.

Lemma sg_shape i : shape_item (sg_item i) = shape_item i.
Proof.
  induction i as [m IH|i No] using item_nested_ind.
  - destruct m as [a v u k n s b ia ms]. cbn [mo_members] in IH. cbn [sg_item shape_item]. unfold shape_module.
    cbn [mo_attributes mo_vis mo_unsafe mo_mod mo_name mo_semicolon mo_braces mo_inner_attributes mo_members]. rewrite ?outer_sg, ?inner_sg, ?vis_sg, ?ovis_sg.
    assert (F : forallb shape_item (map sg_item ms) = forallb shape_item ms) by (induction IH as [|x l Hx _ IHl]; cbn; [auto|rewrite Hx, IHl; auto]).
    rewrite F. destruct ms, ia; reflexivity.
  - destruct i as [[xa xv xk xn xg xw xf xs]|[xa xv xk xn xg xw xb xvs]|[xa xv xk xn xg xw [xf xb]]|m|[xa xv xu xk xn xg xbd xw xbr xia xms]|[xa xu xk xg xt xf xs xw xbr xia xms]|t|f|k|[xa xv xk xt xs]|m|[xa xv xu xe xab xbr xia xms]|c];
      cbn [sg_item shape_item].
    + unfold shape_struct. cbn [st_attributes st_vis st_struct st_name st_generics st_where st_fields st_semicolon]. rewrite ?outer_sg, ?inner_sg, ?vis_sg, ?ovis_sg.
      rewrite (opt_sg wf_generics), (opt_sg wf_where), fields_sg by auto using generics_sg, where_sg. destruct xf; reflexivity.
    + unfold wf_enum. cbn [en_attributes en_vis en_enum en_name en_generics en_where en_braces en_variants]. rewrite ?outer_sg, ?inner_sg, ?vis_sg, ?ovis_sg.
      rewrite (opt_sg wf_generics), (opt_sg wf_where), pu_sg by auto using generics_sg, where_sg, variant_sg. reflexivity.
    + unfold wf_union, wf_named_fields. cbn [un_attributes un_vis un_union un_name un_generics un_where un_fields nfs_fields nfs_braces]. rewrite ?outer_sg, ?inner_sg, ?vis_sg, ?ovis_sg.
      rewrite (opt_sg wf_generics), (opt_sg wf_where), pu_sg by auto using generics_sg, where_sg, nfield_sg. reflexivity.
    + exfalso. eapply No. reflexivity.
    + unfold shape_trait. cbn [tr_attributes tr_vis tr_unsafe tr_trait tr_name tr_generics tr_bound tr_where tr_braces tr_inner_attributes tr_items]. rewrite ?outer_sg, ?inner_sg, ?vis_sg, ?ovis_sg.
      rewrite (opt_sg wf_generics), (opt_sg wf_where), (opt_sg (wf_bound end_supertraits)), (forallb_map_same _ shape_trait_member _ _ trait_member_sg);
        auto using generics_sg, where_sg. intro. apply bound_sg. unfold end_supertraits. auto with deaf.
    + unfold shape_impl. cbn [im_attributes im_unsafe im_impl im_generics im_trait im_for im_self im_where im_braces im_inner_attributes im_items]. rewrite ?outer_sg, ?inner_sg, ?vis_sg, ?ovis_sg.
      rewrite (opt_sg wf_generics), (opt_sg wf_where), (forallb_map_same _ (shape_impl_member false) _ _ (impl_member_sg false)) by auto using generics_sg, where_sg.
      assert (S : some (option_map sg_generics xg) = some xg) by (destruct xg; reflexivity). rewrite S.
      assert (B1 : deaf end_impl_header) by (unfold end_impl_header; auto with deaf).
      assert (B2 : deaf end_impl_self) by (unfold end_impl_self; auto with deaf).
      destruct xt, xf; cbn [option_map sg_type te_tokens]; rewrite ?closed_sg, ?head_sg by auto with deaf; reflexivity.
    + apply alias_sg.
    + apply function_sg.
    + apply constant_sg.
    + unfold wf_use. cbn [us_attributes us_vis us_use us_tree us_semicolon sg_type te_tokens]. rewrite ?outer_sg, ?inner_sg, ?vis_sg, ?ovis_sg. rewrite closed_sg; auto. auto with deaf.
    + apply macro_sg.
    + unfold shape_extern_block. cbn [eb_attributes eb_vis eb_unsafe eb_extern eb_abi eb_braces eb_inner_attributes eb_items]. rewrite ?outer_sg, ?inner_sg, ?vis_sg, ?ovis_sg.
      rewrite (forallb_map_same _ (shape_impl_member true) _ _ (impl_member_sg true)). reflexivity.
    + destruct c as [ca cv ce cc cn ck cl cu cs]. cbn [sg_item shape_item]. unfold wf_extern_crate. cbn [ec_attributes ec_vis ec_extern ec_crate ec_name ec_as ec_alias ec_underscore ec_semicolon]. rewrite ?outer_sg, ?vis_sg. reflexivity.
Qed.
Definition same_head (a b : list tok) : Prop := exists t x y, a = t :: x /\ b = t :: y.
Lemma head_cons t a b : same_head (t :: a) (t :: b). Proof. unfold same_head. eauto. Qed.
Lemma head_attrs l a b : same_head a b -> same_head (print_attributes (sg_attrs l) ++ a) (print_attributes l ++ b).
Proof. intro H. destruct l as [|x l]; [exact H|]. apply head_cons. Qed.
Lemma head_vis o a b : same_head a b -> wf_opt wf_vis o = true -> same_head (print_opt print_vis (sg_ovis o) ++ a) (print_opt print_vis o ++ b).
Proof. intros H W. destruct o as [[[|i| |] o]|]; try discriminate; [|exact H]. apply head_cons. Qed.
Lemma head_opt {A} (f : A -> tok) o a b : same_head a b -> same_head (print_opt (fun x => [f x]) o ++ a) (print_opt (fun x => [f x]) o ++ b).
Proof. intro H. destruct o; [apply head_cons|exact H]. Qed.
Lemma same_head_is p a b r s : same_head a b -> head_is p (a ++ r) = head_is p (b ++ s).
Proof. intros (t & x & y & -> & ->). reflexivity. Qed.
Lemma sg_start i : shape_item i = true -> same_head (print_item (sg_item i)) (print_item i).
Proof.
  destruct i as [[]|[]|[? ? ? ? ? ? []]|[]|[]|[]|[]|[]|[]|[]|[]|[]|[]]; cbn [sg_item print_item shape_item];
    unfold shape_struct, wf_enum, wf_union, shape_module, shape_trait, shape_impl, wf_type_alias, wf_function, shape_constant, wf_use, shape_macro, shape_extern_block, wf_extern_crate,
      sg_function, sg_constant, sg_alias, sg_macro,
      print_struct, print_enum, print_union, print_module, print_trait, print_impl, print_type_alias, print_function, print_constant, print_use, print_macro,
      print_extern_block, print_extern_crate, print_qualifiers; cbn -[print_attributes sg_attrs print_vis sg_ovis print_opt wf_opt]; intro H; bsplit; rewrite <- ?app_assoc;
    repeat (apply head_cons || apply head_attrs || (apply head_vis; [|assumption]) || (apply (head_opt TIdent)) || (apply (head_opt TLit))).
Qed.
Lemma sg_follow i r s : (forall p, head_is p r = head_is p s) -> follow_ok (sg_item i) r = follow_ok i s.
Proof.
  intro H. destruct i as [[a v k n g w f se]|[]|[? ? ? ? ? ? []]|[]|[]|[]| |f| |[]|m|[]|[]]; try reflexivity. cbn [sg_item follow_ok]. unfold struct_follow.
  cbn [st_fields st_semicolon st_where]. rewrite !H. destruct f, se, w; reflexivity.
Qed.
Lemma sg_members l : forallb shape_item l = true -> members_follow (map sg_item l) = members_follow l.
Proof.
  induction l as [|i l IH]; [reflexivity|]. cbn [map members_follow forallb]. intro H. bsplit. rewrite IH by auto. f_equal. apply sg_follow. intro p.
  destruct l as [|j l]; [reflexivity|]. cbn [map flat_map forallb] in *. bsplit. apply same_head_is, sg_start. auto.
Qed.
Lemma shape_members m : shape_item (IModule m) = true -> forallb shape_item (mo_members m) = true.
Proof.
  cbn [shape_item]. unfold shape_module. intro H. bsplit. destruct (mo_semicolon m), (mo_braces m); try discriminate; bsplit; auto.
  destruct (mo_members m); [reflexivity|discriminate].
Qed.
Lemma sg_stable i : shape_item i = true -> stable_item (sg_item i) = stable_item i.
Proof.
  induction i as [m IH|i No] using item_nested_ind; intro W.
  - apply shape_members in W. destruct m as [a v u k n s b ia ms]. cbn [mo_members] in *. cbn [sg_item stable_item mo_members]. rewrite sg_members by auto. f_equal.
    induction IH as [|x l Hx _ IHl]; cbn [forallb map] in *; [auto|]. bsplit. rewrite Hx, IHl; auto.
  - destruct i as [[a v k n g w f se]|[]|[? ? ? ? ? ? []]|m|[]|[]| |f| |[]|m|[]|[]]; try reflexivity.
    + destruct f; reflexivity.
    + exfalso. eapply No. reflexivity.
    + apply forallb_map_same. intros []; reflexivity.
    + apply forallb_map_same. intros []; reflexivity.
    + apply forallb_map_same. intros []; reflexivity.
Qed.

(** ** Proof: splitting the printed tokens is printing the split item *)
Local Notation F := (forallb plus).
Lemma sg_app a b : sg (a ++ b) = sg a ++ sg b. Proof. unfold sg. induction a as [|t a IH]; cbn [flat_map app]; rewrite ?IH, <- ?app_assoc; reflexivity. Qed.
Lemma sg_one t : plus t = true -> sg_tok t = [sg1 t].
Proof.
  destruct t as [[d s sp]|i|p|[r sp]]; try reflexivity. intro H. destruct (sg_cases (TLit (mkLit r sp))) as [->|[(d & s & z & E & _)|(q & z & E & _)]]; [reflexivity|discriminate|].
  injection E as -> ->. cbn in H. destruct q; discriminate.
Qed.
Lemma sg_cons t a : plus t = true -> sg (t :: a) = sg1 t :: sg a.
Proof. intro H. unfold sg. cbn [flat_map]. rewrite sg_one by auto. reflexivity. Qed.
Lemma sg_ident i a : sg (TIdent i :: a) = TIdent i :: sg a. Proof. reflexivity. Qed.
Lemma sg_punct p a : sg (TPunct p :: a) = TPunct p :: sg a. Proof. reflexivity. Qed.
Lemma sg_quote g a : sg (quote_with g a) = quote_with g (sg a). Proof. reflexivity. Qed.
Lemma sg_opt {A} (pr : A -> list tok) g o : (forall x, o = Some x -> print_opt pr (Some (g x)) = sg (pr x)) -> sg (print_opt pr o) = print_opt pr (option_map g o).
Proof. intro H. destruct o; [|reflexivity]. cbn. rewrite <- H; auto. Qed.
Lemma sg_kept {A} (pr : A -> list tok) o : (forall x, sg (pr x) = pr x) -> sg (print_opt pr o) = print_opt pr o.
Proof. intro H. destruct o; cbn; auto. Qed.
Lemma sg_print_pu {A} (pr : A -> list tok) (g : A -> A) (sl : A -> list tok) p : (forall x, F (sl x) = true -> sg (pr x) = pr (g x)) -> F (pu_slots sl p) = true ->
  sg (print_punctuated pr p) = print_punctuated pr (sg_pu g p).
Proof.
  intro H. destruct p as [l k]. unfold print_punctuated, sg_pu, pu_slots. cbn [pu_inner pu_skip_last]. induction l as [|[x c] l IH]; [reflexivity|].
  cbn [flat_map fst]. rewrite forallb_app. intro S. bsplit. cbn [map fst snd]. destruct l as [|y l].
  - cbn [map print_inner]. destruct k; rewrite sg_app, H by auto; reflexivity.
  - change (print_inner pr k ((x, c) :: y :: l)) with (pr x ++ TPunct c :: print_inner pr k (y :: l)).
    cbn [map] in *. change (print_inner pr k ((g x, c) :: (g (fst y), snd y) :: map (fun x => (g (fst x), snd x)) l))
      with (pr (g x) ++ TPunct c :: print_inner pr k ((g (fst y), snd y) :: map (fun x => (g (fst x), snd x)) l)).
    rewrite sg_app, sg_punct, IH, H by auto. reflexivity.
Qed.
Lemma sg_flat {A} (pr : A -> list tok) (g : A -> A) (sl : A -> list tok) l : Forall (fun x => F (sl x) = true -> sg (pr x) = pr (g x)) l -> F (flat_map sl l) = true ->
  sg (flat_map pr l) = flat_map pr (map g l).
Proof.
  intro H. induction H as [|x l Hx _ IH]; [reflexivity|]. cbn [flat_map map]. rewrite forallb_app. intro S. bsplit. rewrite sg_app, Hx, IH by auto. reflexivity.
Qed.
Lemma sg_print_attrs l : sg (print_attributes l) = print_attributes (sg_attrs l).
Proof.
  unfold print_attributes, sg_attrs. induction l as [|a l IH]; [reflexivity|]. cbn [flat_map map]. rewrite sg_app, IH. f_equal. unfold print_attribute.
  rewrite sg_punct, sg_app, sg_kept by reflexivity. f_equal. cbn [sg_attr at_hash at_bang at_brackets at_path at_value]. rewrite sg_quote, sg_app. do 3 f_equal.
  destruct (at_value a); reflexivity.
Qed.
Lemma sg_print_vis o : F (vis_slots o) = true -> sg (print_opt print_vis o) = print_opt print_vis (sg_ovis o).
Proof.
  destruct o as [[t [u|]]|]; [| |reflexivity]; cbn [vis_slots vis_token1 vis_token2 forallb]; intro H; bsplit; cbn [print_opt print_vis sg_ovis option_map sg_vis vis_token1 vis_token2 print_tok];
    unfold print_vis, print_tok; cbn [vis_token1 vis_token2 print_opt]; rewrite !sg_cons by auto; reflexivity.
Qed.
Lemma sg_print_type o : sg (print_opt print_type o) = print_opt print_type (option_map sg_type o). Proof. destruct o; reflexivity. Qed.
Lemma sg_print_value o : sg (print_opt print_value o) = print_opt print_value (option_map sg_value o). Proof. destruct o; reflexivity. Qed.
Lemma sg_print_bound o : sg (print_opt print_bound o) = print_opt print_bound (option_map sg_bound o). Proof. destruct o; reflexivity. Qed.
Lemma sg_print_group o : sg (print_opt print_group o) = print_opt print_group (option_map sg_group o). Proof. destruct o as [[]|]; reflexivity. Qed.
Lemma sg_print_ident o : sg (print_opt print_ident o) = print_opt print_ident o. Proof. destruct o; reflexivity. Qed.
Lemma sg_print_punct o : sg (print_opt print_punct o) = print_opt print_punct o. Proof. destruct o; reflexivity. Qed.
Lemma sg_print_punct2 o : sg (print_opt print_punct2 o) = print_opt print_punct2 o. Proof. destruct o; reflexivity. Qed.
Lemma sg_print_lifetime o : sg (print_opt print_lifetime o) = print_opt print_lifetime o. Proof. destruct o; reflexivity. Qed.
Lemma sg_print_lit o : F (abi_slots o) = true -> sg (print_opt print_lit o) = print_opt print_lit o.
Proof. destruct o as [l|]; [|reflexivity]. cbn [abi_slots forallb]. intro H. bsplit. cbn [print_opt]. unfold print_lit. rewrite sg_cons by auto. reflexivity. Qed.
Ltac go := rewrite ?sg_app, ?sg_ident, ?sg_punct, ?sg_app, ?sg_quote, ?sg_print_attrs, ?sg_print_type, ?sg_print_value, ?sg_print_bound, ?sg_print_group, ?sg_print_ident,
  ?sg_print_punct, ?sg_print_punct2, ?sg_print_lifetime.
Ltac gos := repeat (progress (go; rewrite ?sg_print_vis, ?sg_print_lit by auto)).
Lemma sg_print_gparam x : F (match gp_prefix x with Some t => [t] | None => [] end) = true -> sg (print_generic_param x) = print_generic_param (sg_gparam x).
Proof.
  unfold print_generic_param. cbn [sg_gparam gp_prefix gp_name gp_bound]. destruct (gp_prefix x) as [t|]; cbn [forallb]; intro H; bsplit; gos; [|reflexivity].
  cbn [print_opt option_map]. unfold print_tok. rewrite sg_cons by auto. reflexivity.
Qed.
Lemma sg_print_generics o : F (generics_slots o) = true -> sg (print_opt print_generic_params o) = print_opt print_generic_params (option_map sg_generics o).
Proof.
  destruct o as [g|]; [|reflexivity]. cbn [generics_slots print_opt option_map]. intro H. unfold print_generic_params. cbn [sg_generics gpl_l gpl_params gpl_r]. go.
  rewrite (sg_print_pu _ sg_gparam _ _ sg_print_gparam) by auto. reflexivity.
Qed.
Lemma sg_print_pred x : sg (print_where_predicate x) = print_where_predicate (sg_pred x).
Proof. unfold print_where_predicate. rewrite sg_app. reflexivity. Qed.
Lemma sg_print_where o : sg (print_opt print_where o) = print_opt print_where (option_map sg_where o).
Proof.
  destruct o as [g|]; [|reflexivity]. cbn [print_opt option_map]. unfold print_where. cbn [sg_where wc_where wc_items]. rewrite sg_ident. f_equal.
  apply (sg_print_pu _ _ (fun _ => [])); [intros; apply sg_print_pred|]. unfold pu_slots. induction (pu_inner (wc_items g)); auto.
Qed.
Lemma sg_print_tfield x : F (vis_slots (tf_vis x)) = true -> sg (print_tuple_field x) = print_tuple_field (sg_tfield x).
Proof. intro H. unfold print_tuple_field. gos. reflexivity. Qed.
Lemma sg_print_nfield x : F (vis_slots (nf_vis x)) = true -> sg (print_named_field x) = print_named_field (sg_nfield x).
Proof. intro H. unfold print_named_field. gos. reflexivity. Qed.
Lemma sg_print_fields x : F (fields_slots x) = true -> sg (print_fields x) = print_fields (sg_fields x).
Proof.
  destruct x as [|f|f]; [reflexivity| |]; cbn [fields_slots sg_fields print_fields]; intro H; unfold print_tuple_fields, print_named_fields; cbn [tfs_parens tfs_fields nfs_braces nfs_fields]; rewrite sg_quote; f_equal.
  - apply (sg_print_pu _ _ _ _ sg_print_tfield), H.
  - apply (sg_print_pu _ _ _ _ sg_print_nfield), H.
Qed.
Ltac slots := rewrite ?forallb_app; intro; bsplit.
Lemma sg_print_variant x : F (variant_slots x) = true -> sg (print_variant x) = print_variant (sg_variant x).
Proof.
  unfold variant_slots, print_variant. slots. cbn [sg_variant ev_attributes ev_vis ev_name ev_fields ev_value]. gos. rewrite sg_print_fields by auto. do 4 f_equal.
  destruct (ev_value x) as [[e v]|]; [|reflexivity]. cbn [forallb vv_value] in *. bsplit. cbn [option_map print_opt print_variant_value vv_equal vv_value].
  unfold print_variant_value. cbn [vv_equal vv_value]. rewrite sg_punct, sg_cons by auto. reflexivity.
Qed.
Lemma sg_print_quals x : F (abi_slots (fq_abi x)) = true -> sg (print_qualifiers x) = print_qualifiers x.
Proof. intro H. unfold print_qualifiers. gos. reflexivity. Qed.
Lemma sg_print_param x : sg (print_fn_param x) = print_fn_param (sg_param x).
Proof. destruct x; cbn [sg_param]; unfold print_fn_param, print_receiver, print_typed; gos; reflexivity. Qed.
Lemma sg_print_function x : F (function_slots x) = true -> sg (print_function x) = print_function (sg_function x).
Proof.
  unfold function_slots, print_function. slots. cbn [sg_function fn_attributes fn_vis fn_qualifiers_ fn_kw fn_name fn_generics fn_parens fn_params fn_where fn_arrow fn_ret fn_semicolon fn_body].
  gos. rewrite sg_print_quals, sg_print_generics, sg_print_where, (sg_print_pu _ sg_param (fun _ => [])) by (auto; try (intros; apply sg_print_param); unfold pu_slots; induction (pu_inner (fn_params x)); auto).
  reflexivity.
Qed.
Lemma sg_print_constant x : F (vis_slots (co_vis x)) = true -> sg (print_constant x) = print_constant (sg_constant x).
Proof. intro H. unfold print_constant. gos. reflexivity. Qed.
Lemma sg_print_alias x : F (vis_slots (ta_vis x)) = true -> sg (print_type_alias x) = print_type_alias (sg_alias x).
Proof. intro H. unfold print_type_alias. gos. reflexivity. Qed.
Lemma sg_print_macro x : sg (print_macro x) = print_macro (sg_macro x).
Proof. unfold print_macro. gos. reflexivity. Qed.
Lemma sg_print_imember x : F (impl_member_slots x) = true -> sg (print_impl_member x) = print_impl_member (sg_impl_member x).
Proof. destruct x; cbn [impl_member_slots sg_impl_member]; unfold print_impl_member; intro H; auto using sg_print_function, sg_print_constant, sg_print_alias, sg_print_macro. Qed.
Lemma sg_print_tmember x : F (trait_member_slots x) = true -> sg (print_trait_member x) = print_trait_member (sg_trait_member x).
Proof. destruct x; cbn [trait_member_slots impl_of_trait_member impl_member_slots sg_trait_member]; unfold print_trait_member; intro H; auto using sg_print_function, sg_print_constant, sg_print_alias, sg_print_macro. Qed.
Lemma sg_print_imembers l : F (flat_map impl_member_slots l) = true -> sg (flat_map print_impl_member l) = flat_map print_impl_member (map sg_impl_member l).
Proof. apply sg_flat. apply Forall_forall. intros. apply sg_print_imember; auto. Qed.
Lemma sg_print_tmembers l : F (flat_map trait_member_slots l) = true -> sg (flat_map print_trait_member l) = flat_map print_trait_member (map sg_trait_member l).
Proof. apply sg_flat. apply Forall_forall. intros. apply sg_print_tmember; auto. Qed.

(** ** C105 *)
(** If no slot for one token holds a negative literal, then printing an item is printing the item whose
    lists of tokens have been split. *)
Theorem C105_print (i : item) : F (item_slots i) = true -> sg (print_item i) = print_item (sg_item i).
Proof.
  induction i as [m IH|i No] using item_nested_ind.
  - destruct m as [a v u k n s b ia ms]. cbn [mo_members] in IH. cbn [item_slots mo_vis mo_members sg_item print_item]. unfold print_module.
    cbn [mo_attributes mo_vis mo_unsafe mo_mod mo_name mo_semicolon mo_braces mo_inner_attributes mo_members]. slots. gos. do 5 f_equal.
    destruct s; [reflexivity|]. destruct b; [|reflexivity]. rewrite sg_quote, sg_app, sg_print_attrs, (sg_flat _ _ _ _ IH) by auto. reflexivity.
  - destruct i as [[xa xv xk xn xg xw xf xs]|[xa xv xk xn xg xw xb xvs]|[xa xv xk xn xg xw [xf xb]]|m|[xa xv xu xk xn xg xbd xw xbr xia xms]|[xa xu xk xg xt xf xs xw xbr xia xms]|t|f|k|[xa xv xk xt xs]|m|[xa xv xu xe xab xbr xia xms]|[ca cv ce cc cn ck cl cu cs]];
      cbn [sg_item print_item item_slots].
    + unfold print_struct. cbn [st_attributes st_vis st_struct st_name st_generics st_where st_fields st_semicolon]. slots. gos. rewrite sg_print_generics by auto.
      do 5 f_equal. destruct xf; gos; rewrite sg_print_where, sg_print_fields by auto; reflexivity.
    + unfold print_enum. cbn [en_attributes en_vis en_enum en_name en_generics en_where en_braces en_variants]. slots. gos.
      rewrite sg_print_generics, sg_print_where, (sg_print_pu _ sg_variant _ _ sg_print_variant) by auto. reflexivity.
    + unfold print_union. cbn [un_attributes un_vis un_union un_name un_generics un_where un_fields]. slots. gos. rewrite sg_print_generics, sg_print_where by auto.
      do 6 f_equal. apply (sg_print_fields (FNamed (mkNamedFields xf xb))). auto.
    + exfalso. eapply No. reflexivity.
    + unfold print_trait. cbn [tr_attributes tr_vis tr_unsafe tr_trait tr_name tr_generics tr_bound tr_where tr_braces tr_inner_attributes tr_items]. slots. gos.
      rewrite sg_print_generics, sg_print_where, sg_print_tmembers by auto. reflexivity.
    + unfold print_impl. cbn [im_attributes im_unsafe im_impl im_generics im_trait im_for im_self im_where im_braces im_inner_attributes im_items]. slots. gos.
      rewrite sg_print_generics, sg_print_where, sg_print_imembers by auto. reflexivity.
    + apply sg_print_alias.
    + apply sg_print_function.
    + apply sg_print_constant.
    + intro H. unfold print_use. cbn [us_attributes us_vis us_use us_tree us_semicolon] in *. gos. reflexivity.
    + intros _. apply sg_print_macro.
    + unfold print_extern_block. cbn [eb_attributes eb_vis eb_unsafe eb_extern eb_abi eb_braces eb_inner_attributes eb_items]. slots. gos.
      rewrite sg_print_imembers by auto. reflexivity.
    + intro H. unfold print_extern_crate. cbn [ec_attributes ec_vis ec_extern ec_crate ec_name ec_as ec_alias ec_underscore ec_semicolon] in *. gos. reflexivity.
Qed.
(** Only discriminants and ABIs matter: the other slots never hold a literal. *)
Definition abi_of (f : function) : list tok := abi_slots (fq_abi (fn_qualifiers_ f)).
Definition impl_member_values (m : impl_member) : list tok := match m with IMFunction f => abi_of f | _ => [] end.
Definition variant_values (v : enum_variant) : list tok := match ev_value v with Some x => [vv_value x] | None => [] end.
Fixpoint item_values (i : item) : list tok :=
  match i with
  | IEnum e => pu_slots variant_values (en_variants e)
  | IModule m => flat_map item_values (mo_members m)
  | ITrait t => flat_map (fun m => impl_member_values (impl_of_trait_member m)) (tr_items t)
  | IImpl i => flat_map impl_member_values (im_items i)
  | IFunction f => abi_of f
  | IExternBlock b => abi_slots (eb_abi b) ++ flat_map impl_member_values (eb_items b)
  | _ => []
  end.
Lemma vis_plus o : wf_opt wf_vis o = true -> F (vis_slots o) = true.
Proof. destruct o as [[[] [[]|]]|]; try discriminate; auto. Qed.
Lemma pu_plus {A} (wf : bool -> A -> bool) (f : A -> list tok) p : (forall b x, wf b x = true -> F (f x) = true) -> wf_punctuated wf p = true -> F (pu_slots f p) = true.
Proof.
  intro H. unfold wf_punctuated, pu_slots. induction (pu_inner p) as [|[x c] l IH]; [reflexivity|]. destruct l as [|y l].
  - cbn. rewrite app_nil_r. intro W. bsplit. eauto.
  - change (wf_inner wf (pu_skip_last p) ((x, c) :: y :: l)) with (wf true x && p_is "," c && wf_inner wf (pu_skip_last p) (y :: l)).
    intro W. bsplit. cbn [flat_map fst]. rewrite forallb_app. apply andb_true_intro. split; [eauto|]. apply IH. auto.
Qed.
Lemma generics_plus o : wf_opt wf_generics o = true -> F (generics_slots o) = true.
Proof.
  destruct o as [g|]; [|reflexivity]. cbn [wf_opt generics_slots]. unfold wf_generics. intro W. bsplit. eapply (pu_plus wf_generic_param); [|eassumption].
  intros b x. unfold wf_generic_param. destruct (gp_prefix x) as [[]|]; cbn [andb]; try discriminate; auto.
Qed.
Lemma fields_plus x : wf_fields x = true -> F (fields_slots x) = true.
Proof.
  destruct x; cbn [wf_fields fields_slots]; auto; unfold wf_tuple_fields, wf_named_fields; intro W; bsplit; (eapply pu_plus; [|eassumption]); intros b y;
    unfold wf_tuple_field, wf_named_field; intro; bsplit; apply vis_plus; auto.
Qed.
Lemma flat_plus {A} (p : A -> bool) (f g : A -> list tok) l : (forall x, p x = true -> F (g x) = F (f x)) -> forallb p l = true -> F (flat_map g l) = F (flat_map f l).
Proof. intro H. induction l as [|x l IH]; [reflexivity|]. cbn [forallb flat_map]. intro W. bsplit. rewrite !forallb_app, IH, H; auto. Qed.
Lemma function_plus f : wf_function f = true -> F (function_slots f) = F (abi_of f).
Proof. unfold wf_function, function_slots, abi_of. intro W. bsplit. rewrite !forallb_app, vis_plus, generics_plus, andb_true_r by auto. reflexivity. Qed.
Lemma member_plus b m : shape_impl_member b m = true -> F (impl_member_slots m) = F (impl_member_values m).
Proof.
  destruct m; cbn [shape_impl_member impl_member_slots impl_member_values]; auto using function_plus.
  - unfold shape_constant. intro W. apply andb_prop in W. destruct W as [W _]. bsplit. apply vis_plus; auto.
  - unfold wf_type_alias. intro W. bsplit. apply vis_plus; auto.
Qed.
Lemma pu_both {A} (wf : bool -> A -> bool) (f g : A -> list tok) p : (forall b x, wf b x = true -> F (g x) = F (f x)) -> wf_punctuated wf p = true -> F (pu_slots g p) = F (pu_slots f p).
Proof.
  intro H. unfold wf_punctuated, pu_slots. induction (pu_inner p) as [|[x c] l IH]; [reflexivity|]. destruct l as [|y l].
  - cbn. rewrite !app_nil_r. intro W. bsplit. eauto.
  - change (wf_inner wf (pu_skip_last p) ((x, c) :: y :: l)) with (wf true x && p_is "," c && wf_inner wf (pu_skip_last p) (y :: l)).
    intro W. bsplit. specialize (IH ltac:(auto)). cbn [flat_map fst] in *. rewrite !forallb_app in *. erewrite H by eauto. rewrite IH. reflexivity.
Qed.
Lemma variant_plus b v : wf_variant b v = true -> F (variant_slots v) = F (variant_values v).
Proof. unfold wf_variant, variant_slots, variant_values. intro W. bsplit. rewrite !forallb_app, vis_plus, fields_plus by auto. reflexivity. Qed.
Lemma slots_values i : shape_item i = true -> F (item_slots i) = F (item_values i).
Proof.
  induction i as [m IH|i No] using item_nested_ind; intro W.
  - pose proof (shape_members m W) as S. cbn [shape_item item_slots item_values] in *. unfold shape_module in W. bsplit. rewrite forallb_app, vis_plus by auto. cbn [andb].
    match goal with H : match _ with Some _ => _ | None => _ end = true |- _ => clear H end. induction IH as [|x l Hx _ IHl]; [reflexivity|]. cbn [forallb flat_map] in *. bsplit. rewrite !forallb_app, Hx, IHl; auto.
  - destruct i; try (exfalso; eapply No; reflexivity); cbn [shape_item item_slots item_values forallb] in *;
      unfold shape_struct, wf_enum, wf_union, shape_trait, shape_impl, wf_type_alias, shape_constant, wf_use, shape_extern_block, wf_extern_crate in *; try (apply function_plus; exact W); auto; bsplit;
      rewrite ?forallb_app; rewrite ?vis_plus, ?generics_plus by auto; cbn [andb]; auto.
    + apply fields_plus; auto.
    + apply (pu_both wf_variant); auto. apply variant_plus.
    + apply (fields_plus (FNamed (un_fields u))); auto.
    + eapply flat_plus; [|eassumption]. intros x. apply (member_plus false).
    + eapply flat_plus; [|eassumption]. intros x. apply (member_plus false).
    + f_equal. eapply flat_plus; [|eassumption]. intros x. apply (member_plus true).
Qed.
(** Such an item is read back as the item with split lists of tokens. *)
Theorem C105_parse (i : item) : parse_item (print_item i) = Ret (Ok i) -> F (item_values i) = true ->
  sg (print_item i) = print_item (sg_item i) /\ parse_item (sg (print_item i)) = Ret (Ok (sg_item i)).
Proof.
  rewrite C01_print_parse_iff. intros [W Fo] S. unfold wf_item in *. bsplit. rewrite C105_print by (rewrite slots_values; auto). split; [reflexivity|]. apply C01_print_parse_iff.
  unfold wf_item in *. rewrite sg_shape, sg_stable, (sg_follow i [] []) by auto. rwb. auto.
Qed.

(** ** Streams without negative literals *)
Lemma sg_tok_unsigned : forall t, unsigned t = true <-> sg_tok t = [t].
Proof.
  fix IH 1. intros [[d s sp]|i|p|[r sp]]; [|cbn; tauto|cbn; tauto|].
  - cbn [unsigned sg_tok]. assert (L : forallb unsigned s = true <-> flat_map sg_tok s = s).
    { induction s as [|x s IHs]; [cbn; tauto|]. cbn [forallb flat_map]. rewrite andb_true_iff, IHs, IH. split.
      - intros [-> ->]. reflexivity.
      - intro E. destruct (sg_cases x) as [H|[(d' & s' & sp' & -> & H)|(r & sp' & -> & H)]]; rewrite H in *; cbn [app] in E; injection E; intros; subst; auto; try congruence.
        split; [|assumption]. f_equal. f_equal. f_equal. assumption. }
    rewrite L. split; [intros ->; reflexivity|]. intro E. injection E. auto.
  - cbn [unsigned l_repr]. destruct (sg_cases (TLit (mkLit r sp))) as [H|[(d & s & z & E & _)|(q & z & E & H)]]; [| discriminate|].
    + rewrite H. split; auto. intros _. apply negb_true_iff. destruct r as [|c r]; [reflexivity|]. cbn [String.prefix]. destruct (ascii_dec "-" c); [|reflexivity].
      subst c. cbn in H. discriminate.
    + injection E as -> ->. rewrite H. split; [|discriminate]. cbn. destruct q; discriminate.
Qed.
(** A stream is left alone exactly if it holds no negative literal. *)
Theorem C105_fixed (ts : list tok) : sg ts = ts <-> forallb unsigned ts = true.
Proof.
  symmetry. destruct (sg_tok_unsigned (TGroup (mkGroup Brace ts 0%N))) as [A B]. split; intro H.
  - specialize (A H). cbn [sg_tok] in A. injection A. auto.
  - apply B. cbn [sg_tok]. fold (sg ts). rewrite H. reflexivity.
Qed.
Lemma lossy_unsigned a b : lossy a b -> forallb unsigned a = true -> forallb unsigned b = true.
Proof.
  induction 1; repeat (progress (cbn [forallb unsigned app]; rewrite ?forallb_app)); intro U; bsplit; rwb; auto; rewrite IHlossy1, IHlossy2; auto.
Qed.
(** A parsed item is printed without any split: the negative literals of a program are two tokens to
    begin with. *)
Theorem C105_parsed (ts rest : list tok) (i : item) : consume_item ts = Ret (Ok i, rest) -> forallb unsigned ts = true -> sg (print_item i) = print_item i.
Proof.
  intros H U. apply C105_fixed. destruct (C04_reprint_lossy _ _ _ H) as (src & -> & L). rewrite forallb_app in U. bsplit. eapply lossy_unsigned; eauto.
Qed.

(** ** Discriminants *)
Lemma wf_app l1 v c l2 k : wf_inner wf_variant k (l1 ++ (v, c) :: l2) = true ->
  wf_inner wf_variant true (l1 ++ [(v, punct_new "," Alone)]) = true.
Proof.
  induction l1 as [|[x d] l1 IH]; intro H.
  - destruct l2; cbn in *; bsplit; cbn; rewrite andb_true_r; auto.
  - destruct l1 as [|y l1].
    + cbn [app] in *. change (wf_variant true x && p_is "," d && wf_inner wf_variant k ((v, c) :: l2) = true) in H.
      change (wf_variant true x && p_is "," d && wf_inner wf_variant true [(v, punct_new "," Alone)] = true). bsplit. rwb. apply IH. auto.
    + cbn [app] in *. change (wf_variant true x && p_is "," d && wf_inner wf_variant k (y :: l1 ++ (v, c) :: l2) = true) in H.
      change (wf_variant true x && p_is "," d && wf_inner wf_variant true (y :: l1 ++ [(v, punct_new "," Alone)]) = true). bsplit. rwb. apply IH. auto.
Qed.
Lemma print_app {A} (pr : A -> list tok) k l1 x c l2 : exists r,
  print_inner pr k (l1 ++ (x, c) :: l2) = print_inner pr true (l1 ++ [(x, punct_new "," Alone)]) ++ r.
Proof.
  induction l1 as [|[y d] l1 [r IH]].
  - destruct l2 as [|z l2]; cbn [app print_inner]; [|rewrite app_nil_r]; eauto. rewrite app_nil_r. eauto.
  - exists r. destruct l1 as [|z l1].
    + cbn [app] in *. change (pr y ++ TPunct d :: print_inner pr k ((x, c) :: l2) = (pr y ++ TPunct d :: print_inner pr true [(x, punct_new "," Alone)]) ++ r).
      rewrite IH, <- app_assoc. reflexivity.
    + cbn [app] in *. change (pr y ++ TPunct d :: print_inner pr k (z :: l1 ++ (x, c) :: l2) = (pr y ++ TPunct d :: print_inner pr true (z :: l1 ++ [(x, punct_new "," Alone)])) ++ r).
      rewrite IH, <- app_assoc. reflexivity.
Qed.
Lemma last_app l v c : last_value (l ++ [(v, c)]) = ev_value v.
Proof. induction l as [|[x d] l IH]; [reflexivity|]. destruct l; exact IH. Qed.
Lemma print_last {A} (pr : A -> list tok) l c : exists P, forall x, print_inner pr true (l ++ [(x, c)]) = P ++ pr x.
Proof.
  induction l as [|[y d] l [P IH]].
  - exists []. intro x. cbn. apply app_nil_r.
  - exists (pr y ++ TPunct d :: P). intro x. rewrite <- app_assoc. cbn [app]. rewrite <- IH. destruct l; reflexivity.
Qed.
Lemma sg_item_enum e : sg_item (IEnum e) = IEnum (mkEnum (sg_attrs (en_attributes e)) (sg_ovis (en_vis e)) (en_enum e) (en_name e)
  (option_map sg_generics (en_generics e)) (option_map sg_where (en_where e)) (en_braces e) (sg_pu sg_variant (en_variants e))).
Proof. destruct e. reflexivity. Qed.
(** The first variant with a negative literal as its value makes the printed enum unreadable: [= -1] is two tokens after [=]. *)
Theorem C105_discriminant (e : enum_) (l1 l2 : list (enum_variant * punct)) (v : enum_variant) (c q : punct) (r : string) (sp : N) :
  parse_item (print_item (IEnum e)) = Ret (Ok (IEnum e)) ->
  pu_inner (en_variants e) = l1 ++ (v, c) :: l2 -> F (flat_map (fun x => variant_values (fst x)) l1) = true ->
  ev_value v = Some (mkVariantValue q (TLit (mkLit (String "-" r) sp))) ->
  parse_item (sg (print_item (IEnum e)))
  = Ret (Err (mkError [mkErrorMessage sp sp "Complex values for enum variants are not supported unless they are between parentheses."])).
Proof.
  intros H El S Ev. apply C01_print_parse_iff in H. destruct H as [W _]. unfold wf_item in W. bsplit. cbn [shape_item] in H.
  set (v' := mkVariant (ev_attributes v) (ev_vis v) (ev_name v) (ev_fields v) (Some (mkVariantValue q (TPunct (mkPunct "-" Alone sp))))).
  set (vs := mkPunctuated (l1 ++ [(v', punct_new "," Alone)]) true).
  set (e' := mkEnum (en_attributes e) (en_vis e) (en_enum e) (en_name e) (en_generics e) (en_where e) (en_braces e) vs).
  unfold wf_enum, wf_punctuated in H. rewrite El in H. bsplit.
  match goal with X : wf_inner _ _ _ = true |- _ => pose proof (wf_app _ _ _ _ _ X) as X2 end.
  assert (W' : wf_punctuated wf_variant vs = true).
  { unfold wf_punctuated, vs. cbn [pu_inner pu_skip_last]. clear - X2 Ev. revert X2. induction l1 as [|[y d] l1 IH].
    - cbn. unfold wf_variant. cbn [ev_attributes ev_vis ev_name ev_fields ev_value v']. rewrite Ev. auto.
    - intro X. destruct l1 as [|z l1].
      + cbn [app] in *. change (wf_variant true y && p_is "," d && wf_inner wf_variant true [(v, punct_new "," Alone)] = true) in X.
        change (wf_variant true y && p_is "," d && wf_inner wf_variant true [(v', punct_new "," Alone)] = true). bsplit. rwb. auto.
      + cbn [app] in *. change (wf_variant true y && p_is "," d && wf_inner wf_variant true (z :: l1 ++ [(v, punct_new "," Alone)]) = true) in X.
        change (wf_variant true y && p_is "," d && wf_inner wf_variant true (z :: l1 ++ [(v', punct_new "," Alone)]) = true). bsplit. rwb. auto. }
  assert (We : shape_item (IEnum e') = true).
  { cbn [shape_item]. unfold wf_enum. cbn [e' en_attributes en_vis en_enum en_name en_generics en_where en_braces en_variants]. rwb. reflexivity. }
  assert (Sv : F (item_slots (IEnum e')) = true).
  { rewrite slots_values by auto. cbn [item_values e' en_variants]. unfold pu_slots, vs. cbn [pu_inner]. rewrite flat_map_app, forallb_app, S. reflexivity. }
  pose proof (C105_print _ Sv) as P'.
  assert (Wf : wf_item (sg_item (IEnum e')) = true).
  { unfold wf_item. rewrite sg_shape, sg_stable by auto. rewrite We. reflexivity. }
  assert (B : exists after, sg (print_punctuated print_variant (en_variants e)) = sg (print_punctuated print_variant vs) ++ TLit (mkLit r sp) :: after).
  { unfold print_punctuated, vs. cbn [pu_inner pu_skip_last]. rewrite El.
    destruct (print_app print_variant (pu_skip_last (en_variants e)) l1 v c l2) as [r1 ->]. destruct (print_last print_variant l1 (punct_new "," Alone)) as [P HP].
    rewrite !HP. exists (sg r1). rewrite !sg_app, <- !app_assoc. f_equal. unfold print_variant. cbn [ev_attributes ev_vis ev_name ev_fields ev_value v']. rewrite Ev.
    rewrite !sg_app, !sg_ident, !sg_app. rewrite <- !app_assoc. cbn [app]. rewrite <- !app_assoc. reflexivity. }
  destruct B as [after B].
  assert (P : sg (print_item (IEnum e)) = (print_attributes (sg_attrs (en_attributes e)) ++ print_opt print_vis (sg_ovis (en_vis e)) ++ TIdent (en_enum e) :: TIdent (en_name e)
     :: print_opt print_generic_params (option_map sg_generics (en_generics e)) ++ print_opt print_where (option_map sg_where (en_where e)))
     ++ quote_with (en_braces e) (sg (print_punctuated print_variant vs) ++ TLit (mkLit r sp) :: after)).
  { cbn [print_item]. unfold print_enum. rewrite <- B. gos. rewrite sg_print_vis, sg_print_generics, sg_print_where by auto using vis_plus, generics_plus. app_norm. reflexivity. }
  rewrite P. unfold parse_item.
  assert (C : consume_item ((print_attributes (sg_attrs (en_attributes e)) ++ print_opt print_vis (sg_ovis (en_vis e)) ++ TIdent (en_enum e) :: TIdent (en_name e)
     :: print_opt print_generic_params (option_map sg_generics (en_generics e)) ++ print_opt print_where (option_map sg_where (en_where e)))
     ++ quote_with (en_braces e) (sg (print_punctuated print_variant vs) ++ TLit (mkLit r sp) :: after))
    = Ret (Err (complex_error (mkVariantValue q (TPunct (mkPunct "-" Alone sp)))), [])).
  { apply C11_err_iff. rewrite sg_item_enum in *.
    pose proof (C01_print_consume _ [] Wf eq_refl) as X. rewrite app_nil_r in X.
    unfold quote_with. assert (D : gs_delim (en_braces e) = Brace) by (destruct (gs_delim (en_braces e)); auto; discriminate). rewrite D.
    do 7 eexists. split; [reflexivity|]. split; [|split; [|split; [|split]]].
    - rewrite <- X. f_equal. cbn [print_item]. unfold print_enum. cbn [e' en_attributes en_vis en_enum en_name en_generics en_where en_braces en_variants].
      rewrite (sg_print_pu _ sg_variant _ _ sg_print_variant); [|cbn [item_slots e' en_variants] in Sv; rewrite !forallb_app in Sv; bsplit; auto].
      unfold quote_with. rewrite D. app_norm. reflexivity.
    - cbn [e' en_variants vs sg_pu pu_inner]. rewrite map_app. cbn [map fst snd]. rewrite last_app. reflexivity.
    - reflexivity.
    - reflexivity.
    - reflexivity. }
  rewrite C. reflexivity.
Qed.
(** What a stream holds is left alone afterwards, if the text of no literal starts with two signs. *)
Fixpoint one_sign (t : tok) : bool :=
  match t with
  | TGroup (mkGroup _ s _) => forallb one_sign s
  | TLit l => negb (String.prefix "--" (l_repr l))
  | _ => true
  end.
Lemma sg_tok_once : forall t, one_sign t = true -> forallb unsigned (sg_tok t) = true.
Proof.
  fix IH 1. intros [[d s sp]|i|p|[r sp]]; [|reflexivity|reflexivity|].
  - cbn [one_sign sg_tok forallb unsigned]. rewrite andb_true_r. induction s as [|x s IHs]; [reflexivity|]. cbn [forallb flat_map]. intro H. apply andb_prop in H. destruct H as [H1 H2].
    rewrite forallb_app, (IH x H1). apply IHs, H2.
  - intro H. destruct (sg_cases (TLit (mkLit r sp))) as [E|[(d & s & z & E & _)|(q & z & E & E2)]]; [| discriminate|].
    + rewrite E. cbn [forallb]. rewrite andb_true_r. apply sg_tok_unsigned. exact E.
    + injection E as -> ->. rewrite E2. cbn [forallb unsigned l_repr]. rewrite andb_true_r. apply negb_true_iff. cbn [one_sign l_repr] in H.
      destruct q as [|x q]; [reflexivity|]. cbn [String.prefix] in *. destruct (ascii_dec "-" "-"); [|congruence]. destruct (ascii_dec "-" x); [|reflexivity]. destruct q; discriminate.
Qed.
Theorem C105_stored (ts : list tok) : forallb one_sign ts = true -> forallb unsigned (sg ts) = true /\ sg (sg ts) = sg ts.
Proof.
  intro H. rewrite C105_fixed. assert (U : forallb unsigned (sg ts) = true); [|auto]. unfold sg. induction ts as [|t ts IH]; [reflexivity|]. cbn [forallb flat_map] in *. bsplit.
  rewrite forallb_app, sg_tok_once, IH by auto. reflexivity.
Qed.

(** Items built by hand: the same item with a sign at every literal of the program text. *)
Definition with_signs (i : item) : item := s_item (mkSubst (fun s => s) id_str p_spacing (fun l => String "-" (l_repr l))) i.
Example C105_ex1 :
  let i := with_signs (item_of "pub const X: Foo<1, [u8; 2]> = bar(3) - 4;") in
  parse_item (print_item i) = Ret (Ok i) /\ F (item_values i) = true
  /\ forallb unsigned (print_item i) = false /\ forallb one_sign (print_item i) = true
  /\ show_tokens (sg (print_item i)) = "pub const X : Foo < - 1 , [u8 ; - 2] > = bar (- 3) - - 4 ;"
  /\ parse_item (sg (print_item i)) = Ret (Ok (sg_item i)) /\ sg_item i <> i.
Proof. vm_compute. repeat split; congruence. Qed.
(** A discriminant or an ABI with a sign does not survive, although the tokens given to [append] would. *)
Theorem C105_lost : exists i er,
  parse_item (print_item i) = Ret (Ok i) /\ parse_item (sg (print_item i)) = Ret (Err er).
Proof. exists (with_signs (item_of "enum E { A, B = 1 }")). eexists. split; [vm_compute; reflexivity|]. vm_compute. reflexivity. Qed.
Example C105_ex2 :
  let i := with_signs (item_of "#[repr(i8)] enum E { A, B(#[x = 3] T) = (2), C = 1, D = 7 }") in
  exists e l1 v c l2 q r sp, i = IEnum e /\ parse_item (print_item (IEnum e)) = Ret (Ok (IEnum e))
  /\ pu_inner (en_variants e) = l1 ++ (v, c) :: l2 /\ F (flat_map (fun x => variant_values (fst x)) l1) = true
  /\ ev_value v = Some (mkVariantValue q (TLit (mkLit (String "-" r) sp))) /\ List.length l1 = 2 /\ List.length l2 = 1.
Proof.
  intro i. destruct i as [|e| | | | | | | | | | |] eqn:Ei; try discriminate. exists e. subst i. injection Ei as <-.
  match goal with |- context [pu_inner (en_variants ?x)] => let l := eval vm_compute in (pu_inner (en_variants x)) in
    match l with [?a; ?b; (?v, ?c); ?d] => exists [a; b], v, c, [d] end end.
  do 3 eexists. split; [reflexivity|]. split; [vm_compute; reflexivity|]. split; [vm_compute; reflexivity|]. split; [reflexivity|]. split; [reflexivity|]. auto.
Qed.
Example C105_ex3 : parse_item (sg (print_item (with_signs (item_of "extern ""C"" { fn f(); }")))) = Panic PFnKeyword.
Proof. vm_compute. reflexivity. Qed.
(** A program text has no negative literal. *)
Example C105_ex4 :
  let ts := lex "enum E { A = (-1) } struct S;" in
  exists i r, consume_item ts = Ret (Ok i, r) /\ forallb unsigned ts = true /\ sg (print_item i) = print_item i /\ r <> [].
Proof. do 2 eexists. split; [vm_compute; reflexivity|]. split; [vm_compute; reflexivity|]. split; [vm_compute; reflexivity|discriminate]. Qed.

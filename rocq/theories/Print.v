(** [ToTokens] impls: src/types.rs:1077-1668.

    [x.to_tokens(tokens)] appends to [tokens]; here each impl is the function that
    returns the appended list.  [Option<T>: ToTokens] (crate quote) prints nothing for
    [None]; [Ident], [Punct], [Literal], [Group] and [TokenTree] append themselves. *)
From Verif Require Export Punctuated.

(** [quote]'s [impl ToTokens for Option<T>] (used at src/types.rs:1112 and others). *)
Definition print_opt {A} (pr : A -> list tok) (o : option A) : list tok :=
  match o with Some x => pr x | None => [] end.
Definition print_ident (i : ident) : list tok := [TIdent i].
Definition print_punct (p : punct) : list tok := [TPunct p].
Definition print_lit (l : literal) : list tok := [TLit l].
Definition print_tok (t : tok) : list tok := [t].
Definition print_group (g : group) : list tok := [TGroup g].
(** A pair of puncts, printed one after the other (src/types.rs:1335-1338, 1474-1477). *)
Definition print_punct2 (p : punct * punct) : list tok := [TPunct (fst p); TPunct (snd p)].

(** [GroupSpan::quote_with], src/types.rs:1078-1084. *)
Definition quote_with (gs : group_span) (inner : list tok) : list tok :=
  [TGroup (mkGroup (gs_delim gs) inner (gs_span gs))].

(** [ToTokens for AttributeValue], src/types.rs:1436-1455. *)
Definition print_attribute_value (v : attribute_value) : list tok :=
  match v with
  | AVGroup gs value => quote_with gs value
  | AVEquals eq value => TPunct eq :: value
  | AVEmpty => []
  end.

(** [ToTokens for Attribute], src/types.rs:1419-1434. *)
Definition print_attribute (a : attribute) : list tok :=
  TPunct (at_hash a) :: print_opt print_punct (at_bang a)
  ++ quote_with (at_brackets a) (at_path a ++ print_attribute_value (at_value a)).

(** [for attribute in &self.attributes { attribute.to_tokens(tokens) }], src/types.rs:1109-1111. *)
Definition print_attributes (l : list attribute) : list tok := flat_map print_attribute l.

(** [ToTokens for VisMarker], src/types.rs:1457-1462. *)
Definition print_vis (v : vis_marker) : list tok :=
  vis_token1 v :: print_opt print_tok (vis_token2 v).

(** [ToTokens for TypeExpr] and [ValueExpr], src/types.rs:1582-1596. *)
Definition print_type (t : type_expr) : list tok := te_tokens t.
Definition print_value (v : value_expr) : list tok := ve_tokens v.

(** [ToTokens for GenericBound], src/types.rs:1500-1507. *)
Definition print_bound (b : generic_bound) : list tok := TPunct (gb_colon b) :: gb_tokens b.

(** [ToTokens for GenericParam], src/types.rs:1492-1498. *)
Definition print_generic_param (p : generic_param) : list tok :=
  print_opt print_tok (gp_prefix p) ++ TIdent (gp_name p) :: print_opt print_bound (gp_bound p).

(** [ToTokens for GenericParamList], src/types.rs:1484-1490. *)
Definition print_generic_params (g : generic_param_list) : list tok :=
  TPunct (gpl_l g) :: print_punctuated print_generic_param (gpl_params g) ++ [TPunct (gpl_r g)].

(** [ToTokens for Lifetime], src/types.rs:1559-1564. *)
Definition print_lifetime (l : lifetime) : list tok := [TPunct (lt_apostrophe l); TIdent (lt_name l)].

(** [ToTokens for GenericArg], src/types.rs:1521-1541. *)
Definition print_generic_arg (a : generic_arg) : list tok :=
  match a with
  | GALifetime l => print_lifetime l
  | GABinding id eq ty => TIdent id :: TPunct eq :: print_type ty
  | GATypeOrConst e => print_type e
  end.

(** [ToTokens for GenericArgList], src/types.rs:1509-1519. *)
Definition print_generic_args (g : generic_arg_list) : list tok :=
  print_opt print_punct2 (gal_turbofish g) ++ TPunct (gal_l g)
  :: print_punctuated print_generic_arg (gal_args g) ++ [TPunct (gal_r g)].

(** [ToTokens for PathSegment] and [Path], src/types.rs:1464-1482. *)
Definition print_path_segment (s : path_segment) : list tok :=
  print_opt print_punct2 (ps_colons s) ++ TIdent (ps_ident s) :: print_opt print_generic_args (ps_args s).
Definition print_path (p : path) : list tok := flat_map print_path_segment (pa_segments p).

(** [ToTokens for WhereClausePredicate] and [WhereClause], src/types.rs:1566-1580. *)
Definition print_where_predicate (w : where_predicate) : list tok :=
  wp_left w ++ print_bound (wp_bound w).
Definition print_where (w : where_clause) : list tok :=
  TIdent (wc_where w) :: print_punctuated print_where_predicate (wc_items w).

(** [ToTokens for TupleField], src/types.rs:1397-1405. *)
Definition print_tuple_field (f : tuple_field) : list tok :=
  print_attributes (tf_attributes f) ++ print_opt print_vis (tf_vis f) ++ print_type (tf_ty f).

(** [ToTokens for NamedField], src/types.rs:1407-1417. *)
Definition print_named_field (f : named_field) : list tok :=
  print_attributes (nf_attributes f) ++ print_opt print_vis (nf_vis f)
  ++ TIdent (nf_name f) :: TPunct (nf_colon f) :: print_type (nf_ty f).

(** [ToTokens for TupleFields], [NamedFields], [Fields], src/types.rs:1128-1152. *)
Definition print_tuple_fields (f : tuple_fields) : list tok :=
  quote_with (tfs_parens f) (print_punctuated print_tuple_field (tfs_fields f)).
Definition print_named_fields (f : named_fields) : list tok :=
  quote_with (nfs_braces f) (print_punctuated print_named_field (nfs_fields f)).
Definition print_fields (f : fields) : list tok :=
  match f with
  | FUnit => []
  | FTuple f => print_tuple_fields f
  | FNamed f => print_named_fields f
  end.

(** [ToTokens for Struct], src/types.rs:1107-1126. *)
Definition print_struct (s : struct_) : list tok :=
  print_attributes (st_attributes s) ++ print_opt print_vis (st_vis s)
  ++ TIdent (st_struct s) :: TIdent (st_name s)
  :: print_opt print_generic_params (st_generics s)
  ++ match st_fields s with
     | FNamed _ => print_opt print_where (st_where s) ++ print_fields (st_fields s)
     | _ => print_fields (st_fields s) ++ print_opt print_where (st_where s)
            ++ print_opt print_punct (st_semicolon s)
     end.

(** [ToTokens for EnumVariantValue], src/types.rs:1610-1615. *)
Definition print_variant_value (v : variant_value) : list tok := [TPunct (vv_equal v); vv_value v].

(** [ToTokens for EnumVariant], src/types.rs:1170-1180. *)
Definition print_variant (v : enum_variant) : list tok :=
  print_attributes (ev_attributes v) ++ print_opt print_vis (ev_vis v)
  ++ TIdent (ev_name v) :: print_fields (ev_fields v) ++ print_opt print_variant_value (ev_value v).

(** [ToTokens for Enum], src/types.rs:1154-1168. *)
Definition print_enum (e : enum_) : list tok :=
  print_attributes (en_attributes e) ++ print_opt print_vis (en_vis e)
  ++ TIdent (en_enum e) :: TIdent (en_name e)
  :: print_opt print_generic_params (en_generics e) ++ print_opt print_where (en_where e)
  ++ quote_with (en_braces e) (print_punctuated print_variant (en_variants e)).

(** [ToTokens for Union], src/types.rs:1214-1226. *)
Definition print_union (u : union_) : list tok :=
  print_attributes (un_attributes u) ++ print_opt print_vis (un_vis u)
  ++ TIdent (un_union u) :: TIdent (un_name u)
  :: print_opt print_generic_params (un_generics u) ++ print_opt print_where (un_where u)
  ++ print_named_fields (un_fields u).

(** [ToTokens for Constant], src/types.rs:1182-1197. *)
Definition print_constant (c : constant) : list tok :=
  print_attributes (co_attributes c) ++ print_opt print_vis (co_vis c)
  ++ TIdent (co_kw c) :: print_opt print_ident (co_mut c) ++ TIdent (co_name c)
  :: TPunct (co_colon c) :: print_type (co_ty c)
  ++ print_opt print_punct (co_equals c) ++ print_opt print_value (co_init c)
  ++ [TPunct (co_semicolon c)].

(** [ToTokens for TypeAlias], src/types.rs:1199-1212. *)
Definition print_type_alias (t : type_alias) : list tok :=
  print_attributes (ta_attributes t) ++ print_opt print_vis (ta_vis t)
  ++ TIdent (ta_type t) :: TIdent (ta_name t)
  :: print_opt print_bound (ta_bound t) ++ print_opt print_punct (ta_equals t)
  ++ print_opt print_type (ta_init t) ++ [TPunct (ta_semicolon t)].

(** [ToTokens for FnQualifiers], src/types.rs:1353-1362. *)
Definition print_qualifiers (q : fn_qualifiers) : list tok :=
  print_opt print_ident (fq_default q) ++ print_opt print_ident (fq_const q)
  ++ print_opt print_ident (fq_async q) ++ print_opt print_ident (fq_unsafe q)
  ++ print_opt print_ident (fq_extern q) ++ print_opt print_lit (fq_abi q).

(** [ToTokens for FnReceiverParam], [FnTypedParam], [FnParam], src/types.rs:1364-1395. *)
Definition print_receiver (r : fn_receiver) : list tok :=
  print_attributes (fr_attributes r) ++ print_opt print_punct (fr_ref r)
  ++ print_opt print_lifetime (fr_lifetime r) ++ print_opt print_ident (fr_mut r)
  ++ [TIdent (fr_self r)].
Definition print_typed (t : fn_typed) : list tok :=
  print_attributes (ft_attributes t) ++ print_opt print_ident (ft_mut t)
  ++ TIdent (ft_name t) :: TPunct (ft_colon t) :: print_type (ft_ty t).
Definition print_fn_param (p : fn_param) : list tok :=
  match p with FPReceiver r => print_receiver r | FPTyped t => print_typed t end.

(** [ToTokens for Function], src/types.rs:1323-1351. *)
Definition print_function (f : function) : list tok :=
  print_attributes (fn_attributes f) ++ print_opt print_vis (fn_vis f)
  ++ print_qualifiers (fn_qualifiers_ f) ++ TIdent (fn_kw f) :: TIdent (fn_name f)
  :: print_opt print_generic_params (fn_generics f)
  ++ quote_with (fn_parens f) (print_punctuated print_fn_param (fn_params f))
  ++ print_opt print_punct2 (fn_arrow f) ++ print_opt print_type (fn_ret f)
  ++ print_opt print_where (fn_where f)
  ++ print_opt print_group (fn_body f) ++ print_opt print_punct (fn_semicolon f).

(** [ToTokens for Macro], src/types.rs:1617-1630. *)
Definition print_macro (m : macro) : list tok :=
  print_attributes (ma_attributes m) ++ TIdent (ma_name m) :: TPunct (ma_bang m)
  :: print_opt print_ident (ma_declared m) ++ quote_with (ma_group m) (ma_inner m)
  ++ print_opt print_punct (ma_semicolon m).

(** [ToTokens for ImplMember] and [TraitMember], src/types.rs:1301-1321. *)
Definition print_impl_member (m : impl_member) : list tok :=
  match m with
  | IMFunction f => print_function f
  | IMConstant c => print_constant c
  | IMType t => print_type_alias t
  | IMMacro m => print_macro m
  end.
Definition print_trait_member (m : trait_member) : list tok :=
  match m with
  | TMFunction f => print_function f
  | TMConstant c => print_constant c
  | TMType t => print_type_alias t
  | TMMacro m => print_macro m
  end.

(** [ToTokens for Trait], src/types.rs:1253-1275. *)
Definition print_trait (t : trait_) : list tok :=
  print_attributes (tr_attributes t) ++ print_opt print_vis (tr_vis t)
  ++ print_opt print_ident (tr_unsafe t) ++ TIdent (tr_trait t) :: TIdent (tr_name t)
  :: print_opt print_generic_params (tr_generics t) ++ print_opt print_bound (tr_bound t)
  ++ print_opt print_where (tr_where t)
  ++ quote_with (tr_braces t)
       (print_attributes (tr_inner_attributes t) ++ flat_map print_trait_member (tr_items t)).

(** [ToTokens for Impl], src/types.rs:1277-1299. *)
Definition print_impl (i : impl_) : list tok :=
  print_attributes (im_attributes i)
  ++ print_opt print_ident (im_unsafe i) ++ TIdent (im_impl i)
  :: print_opt print_generic_params (im_generics i) ++ print_opt print_type (im_trait i)
  ++ print_opt print_ident (im_for i) ++ print_type (im_self i)
  ++ print_opt print_where (im_where i)
  ++ quote_with (im_braces i)
       (print_attributes (im_inner_attributes i) ++ flat_map print_impl_member (im_items i)).

(** [ToTokens for UseDeclaration], src/types.rs:1598-1608. *)
Definition print_use (u : use_decl) : list tok :=
  print_attributes (us_attributes u) ++ print_opt print_vis (us_vis u)
  ++ TIdent (us_use u) :: print_type (us_tree u) ++ [TPunct (us_semicolon u)].

(** [ToTokens for ExternBlock], src/types.rs:1632-1650. *)
Definition print_extern_block (b : extern_block) : list tok :=
  print_attributes (eb_attributes b) ++ print_opt print_vis (eb_vis b)
  ++ print_opt print_ident (eb_unsafe b) ++ TIdent (eb_extern b)
  :: print_opt print_lit (eb_abi b)
  ++ quote_with (eb_braces b)
       (print_attributes (eb_inner_attributes b) ++ flat_map print_impl_member (eb_items b)).

(** [ToTokens for ExternCrate], src/types.rs:1652-1666. *)
Definition print_extern_crate (c : extern_crate) : list tok :=
  print_attributes (ec_attributes c) ++ print_opt print_vis (ec_vis c)
  ++ TIdent (ec_extern c) :: TIdent (ec_crate c) :: TIdent (ec_name c)
  :: print_opt print_ident (ec_as c) ++ print_opt print_ident (ec_alias c)
  ++ print_opt print_ident (ec_underscore c) ++ [TPunct (ec_semicolon c)].

(** [ToTokens for Module], src/types.rs:1228-1251, over a printer for the members. *)
Definition print_module {I} (print_member : I -> list tok) (m : module_ I) : list tok :=
  print_attributes (mo_attributes m) ++ print_opt print_vis (mo_vis m)
  ++ print_opt print_ident (mo_unsafe m) ++ TIdent (mo_mod m) :: TIdent (mo_name m)
  :: match mo_semicolon m with
     | Some semi => [TPunct semi]
     | None =>
         match mo_braces m with
         | Some braces =>
             quote_with braces
               (print_attributes (mo_inner_attributes m) ++ flat_map print_member (mo_members m))
         | None => []
         end
     end.

(** [ToTokens for Item], src/types.rs:1087-1105. *)
Fixpoint print_item (i : item) : list tok :=
  match i with
  | IStruct s => print_struct s
  | IEnum e => print_enum e
  | IUnion u => print_union u
  | IModule m => print_module print_item m
  | ITrait t => print_trait t
  | IImpl i => print_impl i
  | ITypeAlias t => print_type_alias t
  | IFunction f => print_function f
  | IConstant c => print_constant c
  | IUse u => print_use u
  | IMacro m => print_macro m
  | IExternBlock b => print_extern_block b
  | IExternCrate c => print_extern_crate c
  end.

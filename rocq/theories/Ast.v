(** Syntax trees: src/types.rs:31-863 and src/punctuated.rs:8-13.
    Field names follow the Rust fields with a per-type prefix. *)
From Verif Require Export Tokens.

(** [Punctuated<T>], src/punctuated.rs:8-13. *)
Record punctuated (A : Type) := mkPunctuated {
  pu_inner : list (A * punct);
  pu_skip_last : bool
}.
Arguments mkPunctuated {A} _ _.
Arguments pu_inner {A} _.
Arguments pu_skip_last {A} _.

(** [GroupSpan], src/types.rs:859-862. *)
Record group_span := mkGroupSpan { gs_delim : delimiter; gs_span : span }.

(** [GroupSpan::new], src/types_edition.rs:865-870. *)
Definition group_span_new (g : group) : group_span :=
  {| gs_delim := g_delim g; gs_span := g_span g |}.

(** [AttributeValue], src/types.rs:514-521. *)
Inductive attribute_value :=
| AVGroup (gs : group_span) (value : list tok)
| AVEquals (tk_equals : punct) (value : list tok)
| AVEmpty.

(** [Attribute], src/types.rs:497-508. *)
Record attribute := mkAttribute {
  at_hash : punct;
  at_bang : option punct;
  at_brackets : group_span;
  at_path : list tok;
  at_value : attribute_value
}.

(** [VisMarker], src/types.rs:525-530. *)
Record vis_marker := mkVis { vis_token1 : tok; vis_token2 : option tok }.

(** [TypeExpr] and [ValueExpr], src/types.rs:667-682. *)
Record type_expr := mkTypeExpr { te_tokens : list tok }.
Record value_expr := mkValueExpr { ve_tokens : list tok }.

(** [GenericBound], src/types.rs:567-570. *)
Record generic_bound := mkBound { gb_colon : punct; gb_tokens : list tok }.

(** [GenericParam], src/types.rs:556-561. *)
Record generic_param := mkGenericParam {
  gp_prefix : option tok;
  gp_name : ident;
  gp_bound : option generic_bound
}.

(** [GenericParamList], src/types.rs:540-544. *)
Record generic_param_list := mkGenericParamList {
  gpl_l : punct;
  gpl_params : punctuated generic_param;
  gpl_r : punct
}.

(** [Lifetime], src/types.rs:631-634. *)
Record lifetime := mkLifetime { lt_apostrophe : punct; lt_name : ident }.

(** [GenericArg], src/types.rs:600-615. *)
Inductive generic_arg :=
| GALifetime (l : lifetime)
| GABinding (id : ident) (tk_equals : punct) (ty : type_expr)
| GATypeOrConst (expr : type_expr).

(** [GenericArgList], src/types.rs:574-583. *)
Record generic_arg_list := mkGenericArgList {
  gal_turbofish : option (punct * punct);
  gal_l : punct;
  gal_args : punctuated generic_arg;
  gal_r : punct
}.

(** [PathSegment] and [Path], src/types.rs:688-702. *)
Record path_segment := mkPathSegment {
  ps_colons : option (punct * punct);
  ps_ident : ident;
  ps_args : option generic_arg_list
}.
Record path := mkPath { pa_segments : list path_segment }.

(** [WhereClausePredicate] and [WhereClause], src/types.rs:638-654. *)
Record where_predicate := mkWherePredicate {
  wp_left : list tok;
  wp_bound : generic_bound
}.
Record where_clause := mkWhereClause {
  wc_where : ident;
  wc_items : punctuated where_predicate
}.

(** [TupleField] and [NamedField], src/types.rs:458-481. *)
Record tuple_field := mkTupleField {
  tf_attributes : list attribute;
  tf_vis : option vis_marker;
  tf_ty : type_expr
}.
Record named_field := mkNamedField {
  nf_attributes : list attribute;
  nf_vis : option vis_marker;
  nf_name : ident;
  nf_colon : punct;
  nf_ty : type_expr
}.

(** [TupleFields], [NamedFields] and [Fields], src/types.rs:99-117. *)
Record tuple_fields := mkTupleFields {
  tfs_fields : punctuated tuple_field;
  tfs_parens : group_span
}.
Record named_fields := mkNamedFields {
  nfs_fields : punctuated named_field;
  nfs_braces : group_span
}.
Inductive fields :=
| FUnit
| FTuple (f : tuple_fields)
| FNamed (f : named_fields).

(** [Struct], src/types.rs:86-95. *)
Record struct_ := mkStruct {
  st_attributes : list attribute;
  st_vis : option vis_marker;
  st_struct : ident;
  st_name : ident;
  st_generics : option generic_param_list;
  st_where : option where_clause;
  st_fields : fields;
  st_semicolon : option punct
}.

(** [EnumVariantValue], src/types.rs:737-740. *)
Record variant_value := mkVariantValue { vv_equal : punct; vv_value : tok }.

(** [EnumVariant], src/types.rs:147-155. *)
Record enum_variant := mkVariant {
  ev_attributes : list attribute;
  ev_vis : option vis_marker;
  ev_name : ident;
  ev_fields : fields;
  ev_value : option variant_value
}.

(** [Enum], src/types.rs:131-140. *)
Record enum_ := mkEnum {
  en_attributes : list attribute;
  en_vis : option vis_marker;
  en_enum : ident;
  en_name : ident;
  en_generics : option generic_param_list;
  en_where : option where_clause;
  en_braces : group_span;
  en_variants : punctuated enum_variant
}.

(** [Union], src/types.rs:203-211. *)
Record union_ := mkUnion {
  un_attributes : list attribute;
  un_vis : option vis_marker;
  un_union : ident;
  un_name : ident;
  un_generics : option generic_param_list;
  un_where : option where_clause;
  un_fields : named_fields
}.

(** [Constant], src/types.rs:314-329. *)
Record constant := mkConstant {
  co_attributes : list attribute;
  co_vis : option vis_marker;
  co_kw : ident;
  co_mut : option ident;
  co_name : ident;
  co_colon : punct;
  co_ty : type_expr;
  co_equals : option punct;
  co_init : option value_expr;
  co_semicolon : punct
}.

(** [TypeAlias], src/types.rs:349-358. *)
Record type_alias := mkTypeAlias {
  ta_attributes : list attribute;
  ta_vis : option vis_marker;
  ta_type : ident;
  ta_name : ident;
  ta_bound : option generic_bound;
  ta_equals : option punct;
  ta_init : option type_expr;
  ta_semicolon : punct
}.

(** [FnQualifiers], src/types.rs:394-401. *)
Record fn_qualifiers := mkFnQualifiers {
  fq_default : option ident;
  fq_const : option ident;
  fq_async : option ident;
  fq_unsafe : option ident;
  fq_extern : option ident;
  fq_abi : option literal
}.

(** [FnReceiverParam], [FnTypedParam], [FnParam], src/types.rs:414-452. *)
Record fn_receiver := mkReceiver {
  fr_attributes : list attribute;
  fr_ref : option punct;
  fr_lifetime : option lifetime;
  fr_mut : option ident;
  fr_self : ident
}.
Record fn_typed := mkTyped {
  ft_attributes : list attribute;
  ft_mut : option ident;
  ft_name : ident;
  ft_colon : punct;
  ft_ty : type_expr
}.
Inductive fn_param :=
| FPReceiver (r : fn_receiver)
| FPTyped (t : fn_typed).

(** [Function], src/types.rs:373-387. *)
Record function := mkFunction {
  fn_attributes : list attribute;
  fn_vis : option vis_marker;
  fn_qualifiers_ : fn_qualifiers;
  fn_kw : ident;
  fn_name : ident;
  fn_generics : option generic_param_list;
  fn_parens : group_span;
  fn_params : punctuated fn_param;
  fn_where : option where_clause;
  fn_arrow : option (punct * punct);
  fn_ret : option type_expr;
  fn_semicolon : option punct;
  fn_body : option group
}.

(** [Macro], src/types.rs:764-783. *)
Record macro := mkMacro {
  ma_attributes : list attribute;
  ma_name : ident;
  ma_bang : punct;
  ma_declared : option ident;
  ma_group : group_span;
  ma_inner : list tok;
  ma_semicolon : option punct
}.

(** [ImplMember] (src/types.rs:291-296); [TraitMember] (src/types.rs:245-250) has the
    same four constructors and is kept as a separate type, as in the source. *)
Inductive impl_member :=
| IMFunction (f : function)
| IMConstant (c : constant)
| IMType (t : type_alias)
| IMMacro (m : macro).
Inductive trait_member :=
| TMFunction (f : function)
| TMConstant (c : constant)
| TMType (t : type_alias)
| TMMacro (m : macro).

(** [Trait], src/types.rs:226-238. *)
Record trait_ := mkTrait {
  tr_attributes : list attribute;
  tr_vis : option vis_marker;
  tr_unsafe : option ident;
  tr_trait : ident;
  tr_name : ident;
  tr_generics : option generic_param_list;
  tr_bound : option generic_bound;
  tr_where : option where_clause;
  tr_braces : group_span;
  tr_inner_attributes : list attribute;
  tr_items : list trait_member
}.

(** [Impl], src/types.rs:272-284. *)
Record impl_ := mkImpl {
  im_attributes : list attribute;
  im_unsafe : option ident;
  im_impl : ident;
  im_generics : option generic_param_list;
  im_trait : option type_expr;
  im_for : option ident;
  im_self : type_expr;
  im_where : option where_clause;
  im_braces : group_span;
  im_inner_attributes : list attribute;
  im_items : list impl_member
}.

(** [UseDeclaration], src/types.rs:714-723. *)
Record use_decl := mkUse {
  us_attributes : list attribute;
  us_vis : option vis_marker;
  us_use : ident;
  us_tree : type_expr;
  us_semicolon : punct
}.

(** [ExternBlock], src/types.rs:799-819. *)
Record extern_block := mkExternBlock {
  eb_attributes : list attribute;
  eb_vis : option vis_marker;
  eb_unsafe : option ident;
  eb_extern : ident;
  eb_abi : option literal;
  eb_braces : group_span;
  eb_inner_attributes : list attribute;
  eb_items : list impl_member
}.

(** [ExternCrate], src/types.rs:833-852. *)
Record extern_crate := mkExternCrate {
  ec_attributes : list attribute;
  ec_vis : option vis_marker;
  ec_extern : ident;
  ec_crate : ident;
  ec_name : ident;
  ec_as : option ident;
  ec_alias : option ident;
  ec_underscore : option ident;
  ec_semicolon : punct
}.

(** [Module], src/types.rs:169-190.  The member type is a parameter so that [item]
    below can be defined by nested recursion; the Rust type is [module_ item]. *)
Record module_ (I : Type) := mkModule {
  mo_attributes : list attribute;
  mo_vis : option vis_marker;
  mo_unsafe : option ident;
  mo_mod : ident;
  mo_name : ident;
  mo_semicolon : option punct;
  mo_braces : option group_span;
  mo_inner_attributes : list attribute;
  mo_members : list I
}.
Arguments mkModule {I} _ _ _ _ _ _ _ _ _.
Arguments mo_attributes {I} _.
Arguments mo_vis {I} _.
Arguments mo_unsafe {I} _.
Arguments mo_mod {I} _.
Arguments mo_name {I} _.
Arguments mo_semicolon {I} _.
Arguments mo_braces {I} _.
Arguments mo_inner_attributes {I} _.
Arguments mo_members {I} _.

(** [Item], src/types.rs:31-70. *)
Inductive item :=
| IStruct (s : struct_)
| IEnum (e : enum_)
| IUnion (u : union_)
| IModule (m : module_ item)
| ITrait (t : trait_)
| IImpl (i : impl_)
| ITypeAlias (t : type_alias)
| IFunction (f : function)
| IConstant (c : constant)
| IUse (u : use_decl)
| IMacro (m : macro)
| IExternBlock (b : extern_block)
| IExternCrate (c : extern_crate).

(** [ErrorMessage] and [Error], src/error.rs:53-63. *)
Record error_message := mkErrorMessage {
  em_start : span;
  em_end : span;
  em_text : string
}.
Record error := mkError { er_messages : list error_message }.

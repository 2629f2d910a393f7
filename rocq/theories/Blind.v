(** Token substitutions that the parser cannot see: new spans, spacing, literal texts and
    identifier names, keywords excepted.  Used by PropBlind.v (C62). *)
From Verif Require Import Debug.
Local Open Scope string_scope.
Local Open Scope list_scope.

(** Every name the code compares an identifier with. *)
Definition keywords : list string :=
  ["as"; "async"; "const"; "crate"; "default"; "enum"; "extern"; "fn"; "for"; "impl"; "mod"; "mut"; "pub"; "self";
   "static"; "struct"; "trait"; "type"; "union"; "unsafe"; "use"; "where"].

(** A substitution.  Names, spacing and texts may depend on the whole token, span included. *)
Record subst := mkSubst {
  new_span : span -> span;
  new_name : ident -> string;
  new_spacing : punct -> spacing;
  new_text : literal -> string
}.
(** Keywords stay, nothing else becomes one, and the comma that the parser makes up where
    one is missing is not changed. *)
Definition admissible (f : subst) : Prop :=
  (forall i k, In k keywords -> new_name f i = k <-> id_str i = k)
  /\ new_span f call_site = call_site
  /\ new_spacing f (mkPunct "," Alone call_site) = Alone.

Section Apply.
Variable f : subst.
(** The substitution on tokens ... *)
Definition s_ident (i : ident) : ident := mkIdent (new_name f i) (new_span f (id_span i)).
Definition s_punct (p : punct) : punct := mkPunct (p_char p) (new_spacing f p) (new_span f (p_span p)).
Definition s_lit (l : literal) : literal := mkLit (new_text f l) (new_span f (l_span l)).
Fixpoint s_tok (t : tok) : tok :=
  match t with
  | TGroup (mkGroup d s sp) => TGroup (mkGroup d (map s_tok s) (new_span f sp))
  | TIdent i => TIdent (s_ident i)
  | TPunct p => TPunct (s_punct p)
  | TLit l => TLit (s_lit l)
  end.
Definition s_toks (ts : list tok) : list tok := map s_tok ts.
Definition s_group (g : group) : group := mkGroup (g_delim g) (s_toks (g_stream g)) (new_span f (g_span g)).
(** ... and on every part of a syntax tree, leaf by leaf. *)
Definition s_pu {A} (s : A -> A) (p : punctuated A) : punctuated A :=
  mkPunctuated (map (fun x => (s (fst x), s_punct (snd x))) (pu_inner p)) (pu_skip_last p).
Definition s_punct2 (p : punct * punct) : punct * punct := (s_punct (fst p), s_punct (snd p)).
Definition s_gs (g : group_span) : group_span := mkGroupSpan (gs_delim g) (new_span f (gs_span g)).
Definition s_value (v : attribute_value) : attribute_value :=
  match v with
  | AVGroup g ts => AVGroup (s_gs g) (s_toks ts)
  | AVEquals e ts => AVEquals (s_punct e) (s_toks ts)
  | AVEmpty => AVEmpty
  end.
Definition s_attr (a : attribute) : attribute :=
  mkAttribute (s_punct (at_hash a)) (option_map s_punct (at_bang a)) (s_gs (at_brackets a)) (s_toks (at_path a)) (s_value (at_value a)).
Definition s_attrs : list attribute -> list attribute := map s_attr.
Definition s_vis (v : vis_marker) : vis_marker := mkVis (s_tok (vis_token1 v)) (option_map s_tok (vis_token2 v)).
Definition s_ovis : option vis_marker -> option vis_marker := option_map s_vis.
Definition s_type (t : type_expr) : type_expr := mkTypeExpr (s_toks (te_tokens t)).
Definition s_vexpr (t : value_expr) : value_expr := mkValueExpr (s_toks (ve_tokens t)).
Definition s_bound (b : generic_bound) : generic_bound := mkBound (s_punct (gb_colon b)) (s_toks (gb_tokens b)).
Definition s_gparam (p : generic_param) : generic_param :=
  mkGenericParam (option_map s_tok (gp_prefix p)) (s_ident (gp_name p)) (option_map s_bound (gp_bound p)).
Definition s_gparams (l : generic_param_list) : generic_param_list :=
  mkGenericParamList (s_punct (gpl_l l)) (s_pu s_gparam (gpl_params l)) (s_punct (gpl_r l)).
Definition s_ogparams := option_map s_gparams.
Definition s_lifetime (l : lifetime) : lifetime := mkLifetime (s_punct (lt_apostrophe l)) (s_ident (lt_name l)).
Definition s_pred (w : where_predicate) : where_predicate := mkWherePredicate (s_toks (wp_left w)) (s_bound (wp_bound w)).
Definition s_where (w : where_clause) : where_clause := mkWhereClause (s_ident (wc_where w)) (s_pu s_pred (wc_items w)).
Definition s_owhere := option_map s_where.
Definition s_tfield (t : tuple_field) : tuple_field :=
  mkTupleField (s_attrs (tf_attributes t)) (s_ovis (tf_vis t)) (s_type (tf_ty t)).
Definition s_nfield (n : named_field) : named_field :=
  mkNamedField (s_attrs (nf_attributes n)) (s_ovis (nf_vis n)) (s_ident (nf_name n)) (s_punct (nf_colon n)) (s_type (nf_ty n)).
Definition s_tfields (t : tuple_fields) : tuple_fields := mkTupleFields (s_pu s_tfield (tfs_fields t)) (s_gs (tfs_parens t)).
Definition s_nfields (t : named_fields) : named_fields := mkNamedFields (s_pu s_nfield (nfs_fields t)) (s_gs (nfs_braces t)).
Definition s_fields (x : fields) : fields :=
  match x with FUnit => FUnit | FTuple t => FTuple (s_tfields t) | FNamed n => FNamed (s_nfields n) end.
Definition s_struct (x : struct_) : struct_ :=
  mkStruct (s_attrs (st_attributes x)) (s_ovis (st_vis x)) (s_ident (st_struct x)) (s_ident (st_name x))
    (s_ogparams (st_generics x)) (s_owhere (st_where x)) (s_fields (st_fields x)) (option_map s_punct (st_semicolon x)).
Definition s_vvalue (v : variant_value) : variant_value := mkVariantValue (s_punct (vv_equal v)) (s_tok (vv_value v)).
Definition s_variant (v : enum_variant) : enum_variant :=
  mkVariant (s_attrs (ev_attributes v)) (s_ovis (ev_vis v)) (s_ident (ev_name v)) (s_fields (ev_fields v)) (option_map s_vvalue (ev_value v)).
Definition s_enum (x : enum_) : enum_ :=
  mkEnum (s_attrs (en_attributes x)) (s_ovis (en_vis x)) (s_ident (en_enum x)) (s_ident (en_name x))
    (s_ogparams (en_generics x)) (s_owhere (en_where x)) (s_gs (en_braces x)) (s_pu s_variant (en_variants x)).
Definition s_union (x : union_) : union_ :=
  mkUnion (s_attrs (un_attributes x)) (s_ovis (un_vis x)) (s_ident (un_union x)) (s_ident (un_name x))
    (s_ogparams (un_generics x)) (s_owhere (un_where x)) (s_nfields (un_fields x)).
Definition s_constant (c : constant) : constant :=
  mkConstant (s_attrs (co_attributes c)) (s_ovis (co_vis c)) (s_ident (co_kw c)) (option_map s_ident (co_mut c)) (s_ident (co_name c))
    (s_punct (co_colon c)) (s_type (co_ty c)) (option_map s_punct (co_equals c)) (option_map s_vexpr (co_init c)) (s_punct (co_semicolon c)).
Definition s_alias (t : type_alias) : type_alias :=
  mkTypeAlias (s_attrs (ta_attributes t)) (s_ovis (ta_vis t)) (s_ident (ta_type t)) (s_ident (ta_name t)) (option_map s_bound (ta_bound t))
    (option_map s_punct (ta_equals t)) (option_map s_type (ta_init t)) (s_punct (ta_semicolon t)).
Definition s_quals (q : fn_qualifiers) : fn_qualifiers :=
  mkFnQualifiers (option_map s_ident (fq_default q)) (option_map s_ident (fq_const q)) (option_map s_ident (fq_async q))
    (option_map s_ident (fq_unsafe q)) (option_map s_ident (fq_extern q)) (option_map s_lit (fq_abi q)).
Definition s_param (p : fn_param) : fn_param :=
  match p with
  | FPReceiver r => FPReceiver (mkReceiver (s_attrs (fr_attributes r)) (option_map s_punct (fr_ref r)) (option_map s_lifetime (fr_lifetime r))
                                  (option_map s_ident (fr_mut r)) (s_ident (fr_self r)))
  | FPTyped t => FPTyped (mkTyped (s_attrs (ft_attributes t)) (option_map s_ident (ft_mut t)) (s_ident (ft_name t)) (s_punct (ft_colon t)) (s_type (ft_ty t)))
  end.
Definition s_function (x : function) : function :=
  mkFunction (s_attrs (fn_attributes x)) (s_ovis (fn_vis x)) (s_quals (fn_qualifiers_ x)) (s_ident (fn_kw x)) (s_ident (fn_name x))
    (s_ogparams (fn_generics x)) (s_gs (fn_parens x)) (s_pu s_param (fn_params x)) (s_owhere (fn_where x))
    (option_map s_punct2 (fn_arrow x)) (option_map s_type (fn_ret x)) (option_map s_punct (fn_semicolon x)) (option_map s_group (fn_body x)).
Definition s_macro (m : macro) : macro :=
  mkMacro (s_attrs (ma_attributes m)) (s_ident (ma_name m)) (s_punct (ma_bang m)) (option_map s_ident (ma_declared m)) (s_gs (ma_group m))
    (s_toks (ma_inner m)) (option_map s_punct (ma_semicolon m)).
Definition s_imember (m : impl_member) : impl_member :=
  match m with
  | IMFunction x => IMFunction (s_function x)
  | IMConstant c => IMConstant (s_constant c)
  | IMType t => IMType (s_alias t)
  | IMMacro m => IMMacro (s_macro m)
  end.
Definition s_tmember (m : trait_member) : trait_member :=
  match m with
  | TMFunction x => TMFunction (s_function x)
  | TMConstant c => TMConstant (s_constant c)
  | TMType t => TMType (s_alias t)
  | TMMacro m => TMMacro (s_macro m)
  end.
Definition s_trait (t : trait_) : trait_ :=
  mkTrait (s_attrs (tr_attributes t)) (s_ovis (tr_vis t)) (option_map s_ident (tr_unsafe t)) (s_ident (tr_trait t)) (s_ident (tr_name t))
    (s_ogparams (tr_generics t)) (option_map s_bound (tr_bound t)) (s_owhere (tr_where t)) (s_gs (tr_braces t))
    (s_attrs (tr_inner_attributes t)) (map s_tmember (tr_items t)).
Definition s_impl (i : impl_) : impl_ :=
  mkImpl (s_attrs (im_attributes i)) (option_map s_ident (im_unsafe i)) (s_ident (im_impl i)) (s_ogparams (im_generics i))
    (option_map s_type (im_trait i)) (option_map s_ident (im_for i)) (s_type (im_self i)) (s_owhere (im_where i)) (s_gs (im_braces i))
    (s_attrs (im_inner_attributes i)) (map s_imember (im_items i)).
Definition s_use (u : use_decl) : use_decl :=
  mkUse (s_attrs (us_attributes u)) (s_ovis (us_vis u)) (s_ident (us_use u)) (s_type (us_tree u)) (s_punct (us_semicolon u)).
Definition s_eblock (b : extern_block) : extern_block :=
  mkExternBlock (s_attrs (eb_attributes b)) (s_ovis (eb_vis b)) (option_map s_ident (eb_unsafe b)) (s_ident (eb_extern b)) (option_map s_lit (eb_abi b))
    (s_gs (eb_braces b)) (s_attrs (eb_inner_attributes b)) (map s_imember (eb_items b)).
Definition s_ecrate (c : extern_crate) : extern_crate :=
  mkExternCrate (s_attrs (ec_attributes c)) (s_ovis (ec_vis c)) (s_ident (ec_extern c)) (s_ident (ec_crate c)) (s_ident (ec_name c))
    (option_map s_ident (ec_as c)) (option_map s_ident (ec_alias c)) (option_map s_ident (ec_underscore c)) (s_punct (ec_semicolon c)).
Fixpoint s_item (i : item) : item :=
  match i with
  | IStruct s => IStruct (s_struct s)
  | IEnum e => IEnum (s_enum e)
  | IUnion u => IUnion (s_union u)
  | IModule (mkModule a v u k n s b ia ms) =>
      IModule (mkModule (s_attrs a) (s_ovis v) (option_map s_ident u) (s_ident k) (s_ident n) (option_map s_punct s)
                 (option_map s_gs b) (s_attrs ia) (map s_item ms))
  | ITrait t => ITrait (s_trait t)
  | IImpl i => IImpl (s_impl i)
  | ITypeAlias t => ITypeAlias (s_alias t)
  | IFunction x => IFunction (s_function x)
  | IConstant c => IConstant (s_constant c)
  | IUse u => IUse (s_use u)
  | IMacro m => IMacro (s_macro m)
  | IExternBlock b => IExternBlock (s_eblock b)
  | IExternCrate c => IExternCrate (s_ecrate c)
  end.
Definition s_error (e : error) : error :=
  mkError (map (fun m => mkErrorMessage (new_span f (em_start m)) (new_span f (em_end m)) (em_text m)) (er_messages e)).
Definition s_result {A} (s : A -> A) (r : result A error) : result A error :=
  match r with Ok x => Ok (s x) | Err e => Err (s_error e) end.
(** On what a run returns: the value changes, a panic stays the same panic. *)
Definition s_ret {A B} (s : A -> B) (o : outcome A) : outcome B :=
  match o with Ret x => Ret (s x) | Panic p => Panic p | OutOfFuel => OutOfFuel end.
Definition s_both {A B} (s : A -> B) (x : A * list tok) : B * list tok := (s (fst x), s_toks (snd x)).
End Apply.

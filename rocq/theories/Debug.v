(** [Debug] and [Display] output: src/types.rs:864-1073, src/punctuated.rs:87-95,
    src/error.rs:164-190, and the derived impls of src/types.rs:30-863.

    The formatting machinery of the standard library ([DebugStruct], [DebugTuple],
    [DebugList], [PadAdapter]) and the [Debug]/[Display] impls of proc_macro2's token types
    are external; they are modelled here from their documented behaviour, and
    RepoTests.v compares the resulting text with every snapshot file of the repository.
    Text is a byte string, so the escapes of [str::escape_debug] are only modelled for ASCII
    (quotes, backslash, tab, newline, carriage return). *)
From Verif Require Export Edit.
Local Open Scope string_scope.
Local Open Scope list_scope.

(** What is passed to the [std::fmt] builders. *)
Inductive dbg :=
| DText (s : string)                            (* f.write_str(s) *)
| DStruct (name : string) (fields : list (string * dbg))   (* f.debug_struct(name).field(..).finish() *)
| DTuple (name : string) (fields : list dbg)    (* f.debug_tuple(name).field(..).finish() *)
| DList (entries : list dbg)                    (* f.debug_list().entries(..).finish() *)
| DPrefix (s : string) (d : dbg)                (* f.write_str(s)?; d.fmt(f) *)
| DPanic.                                       (* unreachable!() *)

Definition newline : ascii := ascii_of_nat 10.
Definition nl : string := String newline "".

(** [core::fmt::builders::PadAdapter]: four spaces at the start of every line. *)
Fixpoint pad (on_newline : bool) (s : string) : string :=
  match s with
  | EmptyString => EmptyString
  | String c r =>
      let rest := String c (pad (Ascii.eqb c newline) r) in
      if on_newline then ("    " ++ rest)%string else rest
  end.

(** The strings of all elements, unless one panics. *)
Fixpoint all_ret (l : list (outcome string)) : outcome (list string) :=
  match l with
  | [] => Ret []
  | o :: r => do s <- o ;; do l <- all_ret r ;; Ret (s :: l)
  end.

(** The alternate form, [{:#?}]. *)
Fixpoint pretty (d : dbg) : outcome string :=
  let entries (open close : string) (l : list (outcome string)) : outcome string :=
    do l <- all_ret l ;;
    Ret (open ++ nl ++ concat "" (map (fun s => pad true (s ++ "," ++ nl)) l) ++ close)%string in
  match d with
  | DText s => Ret s
  | DStruct name [] => Ret name
  | DStruct name fs =>
      entries (name ++ " {")%string "}"
        (map (fun f => do s <- pretty (snd f) ;; Ret (fst f ++ ": " ++ s)%string) fs)
  | DTuple name [] => Ret name
  | DTuple name fs => entries (name ++ "(")%string ")" (map pretty fs)
  | DList [] => Ret "[]"
  | DList l => entries "[" "]" (map pretty l)
  | DPrefix s d => do t <- pretty d ;; Ret (s ++ t)%string
  | DPanic => Panic PUnreachable
  end.

(** The plain form, [{:?}]. *)
Fixpoint plain (d : dbg) : outcome string :=
  match d with
  | DText s => Ret s
  | DStruct name [] => Ret name
  | DStruct name fs =>
      do l <- all_ret (map (fun f => do s <- plain (snd f) ;; Ret (fst f ++ ": " ++ s)%string) fs) ;;
      Ret (name ++ " { " ++ concat ", " l ++ " }")%string
  | DTuple name [] => Ret name
  | DTuple name fs => do l <- all_ret (map plain fs) ;; Ret (name ++ "(" ++ concat ", " l ++ ")")%string
  | DList l => do l <- all_ret (map plain l) ;; Ret ("[" ++ concat ", " l ++ "]")%string
  | DPrefix s d => do t <- plain d ;; Ret (s ++ t)%string
  | DPanic => Panic PUnreachable
  end.

(** [char::escape_debug] and [str::escape_debug] on ASCII; [quote] is the quote to escape. *)
Definition quote_char : ascii := ascii_of_nat 39.
Definition quote_str : ascii := ascii_of_nat 34.
Definition backslash : ascii := ascii_of_nat 92.
Definition escape_char (quote c : ascii) : string :=
  if Ascii.eqb c quote || Ascii.eqb c backslash then String backslash (String c "")
  else if Ascii.eqb c newline then String backslash "n"
  else if Ascii.eqb c (ascii_of_nat 13) then String backslash "r"
  else if Ascii.eqb c (ascii_of_nat 9) then String backslash "t"
  else String c "".
Fixpoint escape (s : string) : string :=
  match s with
  | EmptyString => EmptyString
  | String c r => (escape_char quote_str c ++ escape r)%string
  end.
(** [impl Debug for String] and [impl Debug for char]. *)
Definition debug_string (s : string) : dbg := DText (String quote_str (escape s ++ String quote_str "")).
Definition debug_char (c : ascii) : dbg := DText (String quote_char (escape_char quote_char c ++ String quote_char "")).

(** [impl Debug for Option<T>] and [Vec<T>]. *)
Definition debug_opt {A} (d : A -> dbg) (o : option A) : dbg :=
  match o with Some x => DTuple "Some" [d x] | None => DText "None" end.
Definition debug_vec {A} (d : A -> dbg) (l : list A) : dbg := DList (map d l).

(** proc_macro2 (fallback): [Debug] for [Ident], [Punct], [Literal], [Delimiter], [Group],
    [TokenStream] and [TokenTree]; spans are not shown. *)
Definition debug_ident (i : ident) : dbg := DTuple "Ident" [DText (id_str i)].
Definition debug_punct (p : punct) : dbg :=
  DStruct "Punct" [("char", debug_char (p_char p));
                   ("spacing", DText (match p_spacing p with Alone => "Alone" | Joint => "Joint" end))].
Definition debug_literal (l : literal) : dbg := DStruct "Literal" [("lit", DText (l_repr l))].
Definition delimiter_name (d : delimiter) : string :=
  match d with Parenthesis => "Parenthesis" | Brace => "Brace" | Bracket => "Bracket" | NoDelim => "None" end.
Fixpoint debug_tok (t : tok) : dbg :=
  match t with
  | TGroup (mkGroup d s _) =>
      DStruct "Group" [("delimiter", DText (delimiter_name d)); ("stream", DPrefix "TokenStream " (DList (map debug_tok s)))]
  | TIdent i => DStruct "Ident" [("sym", DText (id_str i))]
  | TPunct p => debug_punct p
  | TLit l => debug_literal l
  end.
Definition debug_group (g : group) : dbg := debug_tok (TGroup g).

(** proc_macro2 (fallback): [Display] for [TokenTree] and [TokenStream].  Tokens are
    separated by a space unless the first one is a [Joint] punct. *)
Definition joint_punct (t : tok) : bool :=
  match t with TPunct p => match p_spacing p with Joint => true | Alone => false end | _ => false end.
Fixpoint show_list (sep : bool) (l : list (string * bool)) : string :=
  match l with
  | [] => ""
  | (s, joint) :: r => ((if sep then " " else "") ++ s ++ show_list (negb joint) r)%string
  end.
Fixpoint show_tok (t : tok) : string :=
  match t with
  | TGroup (mkGroup d s _) =>
      let inner := show_list false (map (fun x => (show_tok x, joint_punct x)) s) in
      match d with
      | Parenthesis => ("(" ++ inner ++ ")")%string
      | Brace => ("{ " ++ inner ++ (match s with [] => "" | _ => " " end) ++ "}")%string
      | Bracket => ("[" ++ inner ++ "]")%string
      | NoDelim => inner
      end
  | TIdent i => id_str i
  | TPunct p => String (p_char p) ""
  | TLit l => l_repr l
  end.
Definition show_tokens (ts : list tok) : string := show_list false (map (fun x => (show_tok x, joint_punct x)) ts).

(** ** venial's own impls *)

(** [TokenRef], src/types.rs:879-888. *)
Definition debug_ref (t : tok) : dbg :=
  match t with
  | TGroup _ => debug_tok t
  | TIdent _ => DText (show_tok t)
  | TPunct _ => DText (String quote_str (show_tok t ++ String quote_str ""))
  | TLit _ => DText (show_tok t)
  end.
(** [format_debug_tokens], src/types.rs:868-877. *)
Definition debug_tokens (ts : list tok) : dbg := DList (map debug_ref ts).

(** [Debug for Punctuated], src/punctuated.rs:87-95. *)
Definition debug_punctuated {A} (d : A -> dbg) (p : punctuated A) : dbg := DList (map (fun x => d (fst x)) (pu_inner p)).

(** [Debug for GroupSpan], src/types.rs:1064-1073. *)
Definition debug_group_span (g : group_span) : dbg :=
  DText (match gs_delim g with Parenthesis => "()" | Brace => "{}" | Bracket => "[]" | NoDelim => "Ø" end).

(** [Debug for AttributeValue], src/types.rs:949-969. *)
Definition debug_attribute_value (v : attribute_value) : dbg :=
  match v with
  | AVGroup gs value => DTuple "Group" [debug_tokens value; debug_group_span gs]
  | AVEquals eq value => DTuple "Equals" [debug_tokens value; debug_punct eq]
  | AVEmpty => DText "Empty"
  end.
(** [Debug for Attribute], src/types.rs:930-947. *)
Definition debug_attribute (a : attribute) : dbg :=
  DStruct "Attribute"
    (("tk_hash", debug_punct (at_hash a))
     :: (match at_bang a with Some b => [("tk_bang", debug_punct b)] | None => [] end)
     ++ [("tk_brackets", debug_group_span (at_brackets a)); ("path", debug_tokens (at_path a));
         ("value", debug_attribute_value (at_value a))]).
(** [Debug for VisMarker], src/types.rs:971-985. *)
Definition debug_vis (v : vis_marker) : dbg :=
  match vis_token2 v with
  | None => DText (show_tok (vis_token1 v))
  | Some (TGroup g) => DTuple (show_tok (vis_token1 v)) (map debug_ref (g_stream g))
  | Some _ => DPanic
  end.
(** [Debug for TypeExpr], [ValueExpr], [GenericBound], src/types.rs:1052-1062 and 1019-1023. *)
Definition debug_type (t : type_expr) : dbg := debug_tokens (te_tokens t).
Definition debug_value (v : value_expr) : dbg := debug_tokens (ve_tokens v).
Definition debug_bound (b : generic_bound) : dbg := debug_tokens (gb_tokens b).
(** [Debug for GenericParam] and [GenericParamList], src/types.rs:1001-1017. *)
Definition debug_generic_param (p : generic_param) : dbg :=
  DStruct "GenericParam"
    ((match gp_prefix p with Some t => [("tk_prefix", debug_string (show_tok t))] | None => [] end)
     ++ [("name", debug_string (id_str (gp_name p))); ("bound", debug_opt debug_bound (gp_bound p))]).
Definition debug_generic_params (l : generic_param_list) : dbg := debug_punctuated debug_generic_param (gpl_params l).
(** [Lifetime], derived, src/types.rs:630-634. *)
Definition debug_lifetime (l : lifetime) : dbg :=
  DStruct "Lifetime" [("tk_apostrophe", debug_punct (lt_apostrophe l)); ("name", debug_ident (lt_name l))].
(** [GenericArg], derived, src/types.rs:599-615. *)
Definition debug_generic_arg (a : generic_arg) : dbg :=
  match a with
  | GALifetime l => DStruct "Lifetime" [("lifetime", debug_lifetime l)]
  | GABinding i eq ty => DStruct "Binding" [("ident", debug_ident i); ("tk_equals", debug_punct eq); ("ty", debug_type ty)]
  | GATypeOrConst e => DStruct "TypeOrConst" [("expr", debug_type e)]
  end.
(** [Debug for GenericArgList], src/types.rs:1025-1034. *)
Definition debug_generic_args (l : generic_arg_list) : dbg :=
  DStruct "GenericArgList"
    ((match gal_turbofish l with Some _ => [("tk_turbofish_colons", debug_string "::")] | None => [] end)
     ++ [("args", debug_punctuated debug_generic_arg (gal_args l))]).
(** [Debug for PathSegment], src/types.rs:987-999; [Path], derived, src/types.rs:687-691. *)
Definition debug_segment (s : path_segment) : dbg :=
  DStruct "PathSegment"
    ((match ps_colons s with Some _ => [("tk_separator_colons", debug_string "::")] | None => [] end)
     ++ [("ident", debug_ident (ps_ident s))]
     ++ (match ps_args s with Some a => [("generic_args", debug_generic_args a)] | None => [] end)).
Definition debug_path (p : path) : dbg := DStruct "Path" [("segments", debug_vec debug_segment (pa_segments p))].
(** [Debug for WhereClausePredicate] and [WhereClause], src/types.rs:1036-1050. *)
Definition debug_predicate (p : where_predicate) : dbg := debug_tokens (print_where_predicate p).
Definition debug_where (w : where_clause) : dbg := debug_punctuated debug_predicate (wc_items w).
(** [TupleField], [NamedField], derived, src/types.rs:457-481; [Debug for TupleFields],
    [NamedFields], src/types.rs:890-900; [Fields], derived, src/types.rs:98-103. *)
Definition debug_tuple_field (f : tuple_field) : dbg :=
  DStruct "TupleField" [("attributes", debug_vec debug_attribute (tf_attributes f)); ("vis_marker", debug_opt debug_vis (tf_vis f));
                        ("ty", debug_type (tf_ty f))].
Definition debug_named_field (f : named_field) : dbg :=
  DStruct "NamedField" [("attributes", debug_vec debug_attribute (nf_attributes f)); ("vis_marker", debug_opt debug_vis (nf_vis f));
                        ("name", debug_ident (nf_name f)); ("tk_colon", debug_punct (nf_colon f)); ("ty", debug_type (nf_ty f))].
Definition debug_tuple_fields (f : tuple_fields) : dbg := debug_punctuated debug_tuple_field (tfs_fields f).
Definition debug_named_fields (f : named_fields) : dbg := debug_punctuated debug_named_field (nfs_fields f).
Definition debug_fields (f : fields) : dbg :=
  match f with
  | FUnit => DText "Unit"
  | FTuple f => DTuple "Tuple" [debug_tuple_fields f]
  | FNamed f => DTuple "Named" [debug_named_fields f]
  end.
(** [Struct], derived, src/types.rs:85-95. *)
Definition debug_struct (s : struct_) : dbg :=
  DStruct "Struct" [("attributes", debug_vec debug_attribute (st_attributes s)); ("vis_marker", debug_opt debug_vis (st_vis s));
    ("tk_struct", debug_ident (st_struct s)); ("name", debug_ident (st_name s));
    ("generic_params", debug_opt debug_generic_params (st_generics s)); ("where_clause", debug_opt debug_where (st_where s));
    ("fields", debug_fields (st_fields s)); ("tk_semicolon", debug_opt debug_punct (st_semicolon s))].
(** [EnumVariantValue], [EnumVariant], derived, src/types.rs:146-155 and 736-740. *)
Definition debug_variant_value (v : variant_value) : dbg :=
  DStruct "EnumVariantValue" [("tk_equal", debug_punct (vv_equal v)); ("value", debug_tok (vv_value v))].
Definition debug_variant (v : enum_variant) : dbg :=
  DStruct "EnumVariant" [("attributes", debug_vec debug_attribute (ev_attributes v)); ("vis_marker", debug_opt debug_vis (ev_vis v));
    ("name", debug_ident (ev_name v)); ("fields", debug_fields (ev_fields v)); ("value", debug_opt debug_variant_value (ev_value v))].
(** [Debug for Enum] and [Union], src/types.rs:902-928 (the field is called [where_clauses]
    there, and the braces are not shown). *)
Definition debug_enum (e : enum_) : dbg :=
  DStruct "Enum" [("attributes", debug_vec debug_attribute (en_attributes e)); ("vis_marker", debug_opt debug_vis (en_vis e));
    ("tk_enum", debug_ident (en_enum e)); ("name", debug_ident (en_name e));
    ("generic_params", debug_opt debug_generic_params (en_generics e)); ("where_clauses", debug_opt debug_where (en_where e));
    ("variants", debug_punctuated debug_variant (en_variants e))].
Definition debug_union (u : union_) : dbg :=
  DStruct "Union" [("attributes", debug_vec debug_attribute (un_attributes u)); ("vis_marker", debug_opt debug_vis (un_vis u));
    ("tk_union", debug_ident (un_union u)); ("name", debug_ident (un_name u));
    ("generic_params", debug_opt debug_generic_params (un_generics u)); ("where_clauses", debug_opt debug_where (un_where u));
    ("fields", debug_named_fields (un_fields u))].
(** [Constant], derived, src/types.rs:313-329. *)
Definition debug_constant (c : constant) : dbg :=
  DStruct "Constant" [("attributes", debug_vec debug_attribute (co_attributes c)); ("vis_marker", debug_opt debug_vis (co_vis c));
    ("tk_const_or_static", debug_ident (co_kw c)); ("tk_mut", debug_opt debug_ident (co_mut c)); ("name", debug_ident (co_name c));
    ("tk_colon", debug_punct (co_colon c)); ("ty", debug_type (co_ty c)); ("tk_equals", debug_opt debug_punct (co_equals c));
    ("initializer", debug_opt debug_value (co_init c)); ("tk_semicolon", debug_punct (co_semicolon c))].
(** [TypeAlias], derived, src/types.rs:348-358. *)
Definition debug_type_alias (t : type_alias) : dbg :=
  DStruct "TypeAlias" [("attributes", debug_vec debug_attribute (ta_attributes t)); ("vis_marker", debug_opt debug_vis (ta_vis t));
    ("tk_type", debug_ident (ta_type t)); ("name", debug_ident (ta_name t)); ("bound", debug_opt debug_bound (ta_bound t));
    ("tk_equals", debug_opt debug_punct (ta_equals t)); ("initializer_ty", debug_opt debug_type (ta_init t));
    ("tk_semicolon", debug_punct (ta_semicolon t))].
(** [FnQualifiers], [FnReceiverParam], [FnTypedParam], [FnParam], derived, src/types.rs:393-452. *)
Definition debug_qualifiers (q : fn_qualifiers) : dbg :=
  DStruct "FnQualifiers" [("tk_default", debug_opt debug_ident (fq_default q)); ("tk_const", debug_opt debug_ident (fq_const q));
    ("tk_async", debug_opt debug_ident (fq_async q)); ("tk_unsafe", debug_opt debug_ident (fq_unsafe q));
    ("tk_extern", debug_opt debug_ident (fq_extern q)); ("extern_abi", debug_opt debug_literal (fq_abi q))].
Definition debug_param (p : fn_param) : dbg :=
  match p with
  | FPReceiver r => DTuple "Receiver"
      [DStruct "FnReceiverParam" [("attributes", debug_vec debug_attribute (fr_attributes r)); ("tk_ref", debug_opt debug_punct (fr_ref r));
        ("lifetime", debug_opt debug_lifetime (fr_lifetime r)); ("tk_mut", debug_opt debug_ident (fr_mut r)); ("tk_self", debug_ident (fr_self r))]]
  | FPTyped t => DTuple "Typed"
      [DStruct "FnTypedParam" [("attributes", debug_vec debug_attribute (ft_attributes t)); ("tk_mut", debug_opt debug_ident (ft_mut t));
        ("name", debug_ident (ft_name t)); ("tk_colon", debug_punct (ft_colon t)); ("ty", debug_type (ft_ty t))]]
  end.
(** [Function], derived, src/types.rs:372-387. *)
Definition debug_punct2 (p : punct * punct) : dbg := DList [debug_punct (fst p); debug_punct (snd p)].
Definition debug_function (f : function) : dbg :=
  DStruct "Function" [("attributes", debug_vec debug_attribute (fn_attributes f)); ("vis_marker", debug_opt debug_vis (fn_vis f));
    ("qualifiers", debug_qualifiers (fn_qualifiers_ f)); ("tk_fn_keyword", debug_ident (fn_kw f)); ("name", debug_ident (fn_name f));
    ("generic_params", debug_opt debug_generic_params (fn_generics f)); ("tk_params_parens", debug_group_span (fn_parens f));
    ("params", debug_punctuated debug_param (fn_params f)); ("where_clause", debug_opt debug_where (fn_where f));
    ("tk_return_arrow", debug_opt debug_punct2 (fn_arrow f)); ("return_ty", debug_opt debug_type (fn_ret f));
    ("tk_semicolon", debug_opt debug_punct (fn_semicolon f)); ("body", debug_opt debug_group (fn_body f))].
(** [Macro], derived, src/types.rs:763-783; [Vec<TokenTree>] shows whole tokens. *)
Definition debug_macro (m : macro) : dbg :=
  DStruct "Macro" [("attributes", debug_vec debug_attribute (ma_attributes m)); ("name", debug_ident (ma_name m));
    ("tk_bang", debug_punct (ma_bang m)); ("tk_declared_name", debug_opt debug_ident (ma_declared m));
    ("tk_braces_or_parens", debug_group_span (ma_group m)); ("inner_tokens", debug_vec debug_tok (ma_inner m));
    ("tk_semicolon", debug_opt debug_punct (ma_semicolon m))].
(** [ImplMember], [TraitMember], derived, src/types.rs:243-250 and 289-296. *)
Definition debug_impl_member (m : impl_member) : dbg :=
  match m with
  | IMFunction f => DTuple "AssocFunction" [debug_function f]
  | IMConstant c => DTuple "AssocConstant" [debug_constant c]
  | IMType t => DTuple "AssocType" [debug_type_alias t]
  | IMMacro m => DTuple "Macro" [debug_macro m]
  end.
Definition debug_trait_member (m : trait_member) : dbg :=
  match m with
  | TMFunction f => DTuple "AssocFunction" [debug_function f]
  | TMConstant c => DTuple "AssocConstant" [debug_constant c]
  | TMType t => DTuple "AssocType" [debug_type_alias t]
  | TMMacro m => DTuple "Macro" [debug_macro m]
  end.
(** [Trait], [Impl], [UseDeclaration], [ExternBlock], [ExternCrate], derived,
    src/types.rs:225-238, 271-284, 713-723, 798-819, 832-852. *)
Definition debug_trait (t : trait_) : dbg :=
  DStruct "Trait" [("attributes", debug_vec debug_attribute (tr_attributes t)); ("vis_marker", debug_opt debug_vis (tr_vis t));
    ("tk_unsafe", debug_opt debug_ident (tr_unsafe t)); ("tk_trait", debug_ident (tr_trait t)); ("name", debug_ident (tr_name t));
    ("generic_params", debug_opt debug_generic_params (tr_generics t)); ("bound", debug_opt debug_bound (tr_bound t));
    ("where_clause", debug_opt debug_where (tr_where t)); ("tk_braces", debug_group_span (tr_braces t));
    ("inner_attributes", debug_vec debug_attribute (tr_inner_attributes t)); ("body_items", debug_vec debug_trait_member (tr_items t))].
Definition debug_impl (i : impl_) : dbg :=
  DStruct "Impl" [("attributes", debug_vec debug_attribute (im_attributes i)); ("tk_unsafe", debug_opt debug_ident (im_unsafe i));
    ("tk_impl", debug_ident (im_impl i)); ("impl_generic_params", debug_opt debug_generic_params (im_generics i));
    ("trait_ty", debug_opt debug_type (im_trait i)); ("tk_for", debug_opt debug_ident (im_for i)); ("self_ty", debug_type (im_self i));
    ("where_clause", debug_opt debug_where (im_where i)); ("tk_braces", debug_group_span (im_braces i));
    ("inner_attributes", debug_vec debug_attribute (im_inner_attributes i)); ("body_items", debug_vec debug_impl_member (im_items i))].
Definition debug_use (u : use_decl) : dbg :=
  DStruct "UseDeclaration" [("attributes", debug_vec debug_attribute (us_attributes u)); ("vis_marker", debug_opt debug_vis (us_vis u));
    ("tk_use", debug_ident (us_use u)); ("import_tree", debug_type (us_tree u)); ("tk_semicolon", debug_punct (us_semicolon u))].
Definition debug_extern_block (b : extern_block) : dbg :=
  DStruct "ExternBlock" [("attributes", debug_vec debug_attribute (eb_attributes b)); ("vis_marker", debug_opt debug_vis (eb_vis b));
    ("tk_unsafe", debug_opt debug_ident (eb_unsafe b)); ("tk_extern", debug_ident (eb_extern b)); ("extern_abi", debug_opt debug_literal (eb_abi b));
    ("tk_braces", debug_group_span (eb_braces b)); ("inner_attributes", debug_vec debug_attribute (eb_inner_attributes b));
    ("body_items", debug_vec debug_impl_member (eb_items b))].
Definition debug_extern_crate (c : extern_crate) : dbg :=
  DStruct "ExternCrate" [("attributes", debug_vec debug_attribute (ec_attributes c)); ("vis_marker", debug_opt debug_vis (ec_vis c));
    ("tk_extern", debug_ident (ec_extern c)); ("tk_crate", debug_ident (ec_crate c)); ("name", debug_ident (ec_name c));
    ("tk_as", debug_opt debug_ident (ec_as c)); ("alias", debug_opt debug_ident (ec_alias c));
    ("tk_underscore", debug_opt debug_ident (ec_underscore c)); ("tk_semicolon", debug_punct (ec_semicolon c))].
(** [Module] and [Item], derived, src/types.rs:30-70 and 168-190. *)
Fixpoint debug_item (i : item) : dbg :=
  match i with
  | IStruct s => DTuple "Struct" [debug_struct s]
  | IEnum e => DTuple "Enum" [debug_enum e]
  | IUnion u => DTuple "Union" [debug_union u]
  | IModule (mkModule at_ vis un kw name semi braces inner members) => DTuple "Module"
      [DStruct "Module" [("attributes", debug_vec debug_attribute at_); ("vis_marker", debug_opt debug_vis vis);
        ("tk_unsafe", debug_opt debug_ident un); ("tk_mod", debug_ident kw); ("name", debug_ident name);
        ("tk_semicolon", debug_opt debug_punct semi); ("tk_braces", debug_opt debug_group_span braces);
        ("inner_attributes", debug_vec debug_attribute inner); ("members", DList (map debug_item members))]]
  | ITrait t => DTuple "Trait" [debug_trait t]
  | IImpl i => DTuple "Impl" [debug_impl i]
  | ITypeAlias t => DTuple "TypeAlias" [debug_type_alias t]
  | IFunction f => DTuple "Function" [debug_function f]
  | IConstant c => DTuple "Constant" [debug_constant c]
  | IUse u => DTuple "UseDeclaration" [debug_use u]
  | IMacro m => DTuple "Macro" [debug_macro m]
  | IExternBlock b => DTuple "ExternBlock" [debug_extern_block b]
  | IExternCrate c => DTuple "ExternCrate" [debug_extern_crate c]
  end.

(** [Debug for Error] and [ErrorMessage], src/error.rs:164-184; [Result], derived. *)
Definition debug_message (m : error_message) : dbg := debug_string (em_text m).
Definition debug_error (e : error) : dbg :=
  DTuple "Error"
    [match er_messages e with
     | [m] => debug_message m
     | l => debug_vec debug_message l
     end].
Definition debug_result {A} (d : A -> dbg) (r : result A error) : dbg :=
  match r with Ok x => DTuple "Ok" [d x] | Err e => DTuple "Err" [debug_error e] end.

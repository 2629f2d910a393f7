(** src/types_edition.rs (accessors and builders), src/types.rs:1543-1557, 1670-1687, src/error.rs,
    and the span computation of quote used by [span()]. *)
From Verif Require Export ParsePath ParseItem.
From Coq Require Import DecimalString.

(** ** Item accessors *)

(** [Item::attributes], src/types_edition.rs:16-32. *)
Definition item_attributes (i : item) : list attribute :=
  match i with
  | IStruct s => st_attributes s
  | IEnum e => en_attributes e
  | IUnion u => un_attributes u
  | IModule m => mo_attributes m
  | ITrait t => tr_attributes t
  | IImpl i => im_attributes i
  | ITypeAlias t => ta_attributes t
  | IFunction f => fn_attributes f
  | IConstant c => co_attributes c
  | IUse u => us_attributes u
  | IMacro m => ma_attributes m
  | IExternBlock b => eb_attributes b
  | IExternCrate c => ec_attributes c
  end.

(** Writing through [Item::attributes_mut], src/types_edition.rs:37-53. *)
Definition item_set_attributes (i : item) (a : list attribute) : item :=
  match i with
  | IStruct (mkStruct _ b c d e f g h) => IStruct (mkStruct a b c d e f g h)
  | IEnum (mkEnum _ b c d e f g h) => IEnum (mkEnum a b c d e f g h)
  | IUnion (mkUnion _ b c d e f g) => IUnion (mkUnion a b c d e f g)
  | IModule (mkModule _ b c d e f g h k) => IModule (mkModule a b c d e f g h k)
  | ITrait (mkTrait _ b c d e f g h k l m) => ITrait (mkTrait a b c d e f g h k l m)
  | IImpl (mkImpl _ b c d e f g h k l m) => IImpl (mkImpl a b c d e f g h k l m)
  | ITypeAlias (mkTypeAlias _ b c d e f g h) => ITypeAlias (mkTypeAlias a b c d e f g h)
  | IFunction (mkFunction _ b c d e f g h k l m n o) => IFunction (mkFunction a b c d e f g h k l m n o)
  | IConstant (mkConstant _ b c d e f g h k l) => IConstant (mkConstant a b c d e f g h k l)
  | IUse (mkUse _ b c d e) => IUse (mkUse a b c d e)
  | IMacro (mkMacro _ b c d e f g) => IMacro (mkMacro a b c d e f g)
  | IExternBlock (mkExternBlock _ b c d e f g h) => IExternBlock (mkExternBlock a b c d e f g h)
  | IExternCrate (mkExternCrate _ b c d e f g h k) => IExternCrate (mkExternCrate a b c d e f g h k)
  end.

(** [Item::generic_params], src/types_edition.rs:63-79. *)
Definition item_generic_params (i : item) : option generic_param_list :=
  match i with
  | IStruct s => st_generics s
  | IEnum e => en_generics e
  | IUnion u => un_generics u
  | IModule _ => None
  | ITrait t => tr_generics t
  | IImpl i => im_generics i
  | ITypeAlias _ => None
  | IFunction f => fn_generics f
  | IConstant _ => None
  | IUse _ => None
  | IMacro _ => None
  | IExternBlock _ => None
  | IExternCrate _ => None
  end.

(** Writing [v] through [Item::generic_params_mut] (src/types_edition.rs:89-105) when it
    returns [Some]; [None] otherwise. *)
Definition item_set_generic_params (i : item) (v : generic_param_list) : option item :=
  match i with
  | IStruct (mkStruct a b c d (Some _) f g h) => Some (IStruct (mkStruct a b c d (Some v) f g h))
  | IEnum (mkEnum a b c d (Some _) f g h) => Some (IEnum (mkEnum a b c d (Some v) f g h))
  | IUnion (mkUnion a b c d (Some _) f g) => Some (IUnion (mkUnion a b c d (Some v) f g))
  | ITrait (mkTrait a b c d e (Some _) g h k l m) => Some (ITrait (mkTrait a b c d e (Some v) g h k l m))
  | IImpl (mkImpl a b c (Some _) e f g h k l m) => Some (IImpl (mkImpl a b c (Some v) e f g h k l m))
  | IFunction (mkFunction a b c d e (Some _) g h k l m n o) =>
      Some (IFunction (mkFunction a b c d e (Some v) g h k l m n o))
  | _ => None
  end.

(** [Item::name], src/types_edition.rs:120-136. *)
Definition item_name (i : item) : option ident :=
  match i with
  | IStruct s => Some (st_name s)
  | IEnum e => Some (en_name e)
  | IUnion u => Some (un_name u)
  | IModule m => Some (mo_name m)
  | ITrait t => Some (tr_name t)
  | IImpl _ => None
  | ITypeAlias t => Some (ta_name t)
  | IFunction f => Some (fn_name f)
  | IConstant c => Some (co_name c)
  | IUse _ => None
  | IMacro m => Some (ma_name m)
  | IExternBlock _ => None
  | IExternCrate c => Some (ec_name c)
  end.

(** [Item::as_struct] .. [Item::as_extern_crate], src/types_edition.rs:139-240. *)
Definition as_struct (i : item) := match i with IStruct x => Some x | _ => None end.
Definition as_enum (i : item) := match i with IEnum x => Some x | _ => None end.
Definition as_union (i : item) := match i with IUnion x => Some x | _ => None end.
Definition as_module (i : item) := match i with IModule x => Some x | _ => None end.
Definition as_trait (i : item) := match i with ITrait x => Some x | _ => None end.
Definition as_impl (i : item) := match i with IImpl x => Some x | _ => None end.
Definition as_type_alias (i : item) := match i with ITypeAlias x => Some x | _ => None end.
Definition as_function (i : item) := match i with IFunction x => Some x | _ => None end.
Definition as_constant (i : item) := match i with IConstant x => Some x | _ => None end.
Definition as_use_declaration (i : item) := match i with IUse x => Some x | _ => None end.
Definition as_macro (i : item) := match i with IMacro x => Some x | _ => None end.
Definition as_extern_block (i : item) := match i with IExternBlock x => Some x | _ => None end.
Definition as_extern_crate (i : item) := match i with IExternCrate x => Some x | _ => None end.

(** ** Struct, Enum, variants, attributes, constants *)

(** [usize::to_string] / [Literal::usize_unsuffixed] (std, proc_macro2): decimal digits. *)
Definition string_of_usize (n : nat) : string := NilEmpty.string_of_uint (Nat.to_uint n).

(** [Struct::field_names], src/types_edition.rs:298-311. *)
Definition field_names (s : struct_) : list string :=
  match st_fields s with
  | FUnit => []
  | FTuple f => map string_of_usize (seq 0 (pu_len (tfs_fields f)))
  | FNamed f => map (fun field => id_str (nf_name field)) (pu_items (nfs_fields f))
  end.

(** [Struct::field_tokens], src/types_edition.rs:317-330. *)
Definition field_tokens (s : struct_) : list tok :=
  match st_fields s with
  | FUnit => []
  | FTuple f => map (fun i => TLit (mkLit (string_of_usize i) call_site)) (seq 0 (pu_len (tfs_fields f)))
  | FNamed f => map (fun field => TIdent (nf_name field)) (pu_items (nfs_fields f))
  end.

(** [Struct::field_types], src/types_edition.rs:333-343. *)
Definition field_types (s : struct_) : list type_expr :=
  match st_fields s with
  | FUnit => []
  | FTuple f => map tf_ty (pu_items (tfs_fields f))
  | FNamed f => map nf_ty (pu_items (nfs_fields f))
  end.

(** [EnumVariant::is_empty_variant], src/types_edition.rs:527-529. *)
Definition is_empty_variant (v : enum_variant) : bool :=
  match ev_fields v with FUnit => true | _ => false end.

(** [EnumVariant::get_single_type], src/types_edition.rs:533-540. *)
Definition get_single_type (v : enum_variant) : option tuple_field :=
  match ev_fields v with
  | FTuple f =>
      match pu_inner (tfs_fields f) with
      | [x] => Some (fst x)
      | _ => None
      end
  | FUnit => None
  | FNamed _ => None
  end.

(** [Enum::is_c_enum], src/types_edition.rs:358-365. *)
Fixpoint all_empty_variants (l : list enum_variant) : bool :=
  match l with
  | [] => true
  | v :: r => if negb (is_empty_variant v) then false else all_empty_variants r
  end.
Definition is_c_enum (e : enum_) : bool := all_empty_variants (pu_items (en_variants e)).

(** [Constant::is_static], src/types.rs:333-335. *)
Definition is_static (c : constant) : bool := id_is "static" (co_kw c).

(** [Attribute::get_single_path_segment], src/types_edition.rs:490-504. *)
Definition idents_of (ts : list tok) : list ident :=
  flat_map (fun t => match t with TIdent i => [i] | _ => [] end) ts.
Definition get_single_path_segment (a : attribute) : option ident :=
  match idents_of (at_path a) with
  | [i] => Some i
  | _ => None
  end.

(** [AttributeValue::get_value_tokens] and [Attribute::get_value_tokens],
    src/types_edition.rs:508-522. *)
Definition value_tokens (v : attribute_value) : list tok :=
  match v with
  | AVGroup _ ts => ts
  | AVEquals _ ts => ts
  | AVEmpty => []
  end.
Definition get_value_tokens (a : attribute) : list tok := value_tokens (at_value a).

(** ** Generic parameters *)

(** [Ident::new(s, Span::call_site())] for a legal name; the check of the name is in Machine.v. *)
Definition ident_new (s : string) : ident := mkIdent s call_site.

(** [GenericParam::is_lifetime], [is_ty], [is_const], src/types_edition.rs:668-686. *)
Definition gp_is_lifetime (p : generic_param) : bool :=
  match gp_prefix p with Some (TPunct q) => p_is "'" q | _ => false end.
Definition gp_is_ty (p : generic_param) : bool := is_none (gp_prefix p).
Definition gp_is_const (p : generic_param) : bool :=
  match gp_prefix p with Some (TIdent i) => id_is "const" i | _ => false end.

(** [GenericParam::lifetime] .. [const_param], src/types_edition.rs:582-665. *)
Definition gp_lifetime (name : string) : generic_param :=
  mkGenericParam (Some (TPunct (punct_new "'" Joint))) (ident_new name) None.
Definition gp_bounded_lifetime (name : string) (bound : list tok) : generic_param :=
  mkGenericParam (Some (TPunct (punct_new "'" Alone))) (ident_new name)
    (Some (mkBound (punct_new ":" Alone) bound)).
Definition gp_ty (name : string) : generic_param := mkGenericParam None (ident_new name) None.
Definition gp_bounded_ty (name : string) (bound : list tok) : generic_param :=
  mkGenericParam None (ident_new name) (Some (mkBound (punct_new ":" Alone) bound)).
Definition gp_const_param (name : string) (ty : list tok) : generic_param :=
  mkGenericParam (Some (TIdent (ident_new "const"))) (ident_new name)
    (Some (mkBound (punct_new ":" Alone) ty)).

(** [Default for GenericParamList], src/types.rs:1670-1678. *)
Definition generic_params_default : generic_param_list :=
  mkGenericParamList (punct_new "<" Alone) pu_new (punct_new ">" Alone).

(** [Default for WhereClause], src/types.rs:1680-1688. *)
Definition where_default : where_clause := mkWhereClause (ident_new "where") pu_new.

(** [GenericParamList::with_param], src/types_edition.rs:559-566. *)
Definition gpl_with_param (l : generic_param_list) (p : generic_param) : outcome generic_param_list :=
  if gp_is_lifetime p then
    do ps <- pu_insert (gpl_params l) 0 p None ;;
    Ret (mkGenericParamList (gpl_l l) ps (gpl_r l))
  else
    Ret (mkGenericParamList (gpl_l l) (pu_push (gpl_params l) p None) (gpl_r l)).

(** [WhereClause::with_predicate] and [from_predicate], src/types_edition.rs:746-754. *)
Definition wc_with_predicate (w : where_clause) (p : where_predicate) : where_clause :=
  mkWhereClause (wc_where w) (pu_push (wc_items w) p None).
Definition wc_from_predicate (p : where_predicate) : where_clause := wc_with_predicate where_default p.

(** [WhereClausePredicate::parse], src/types_edition.rs:763-795. *)
Definition where_predicate_parse (ts : list tok) : outcome where_predicate :=
  do (lhs, ts) <- consume_stuff_until (is_punct ":") false ts ;;
  match ts with
  | TPunct colon :: ts =>
      if p_is ":" colon then Ret (mkWherePredicate lhs (mkBound colon ts)) else Panic PPredicateToken
  | _ :: _ => Panic PPredicateToken
  | [] => Panic PPredicateEnd
  end.

(** The macro [implement_common_methods!] (src/types_edition.rs:368-485), once over the
    generic parameters and the where clause of the declaration. *)

(** [with_param] on the field [generic_params], src/types_edition.rs:374-379. *)
Definition generics_with_param (g : option generic_param_list) (p : generic_param)
  : outcome (option generic_param_list) :=
  let l := match g with Some l => l | None => generic_params_default end in
  do l <- gpl_with_param l p ;; Ret (Some l).

(** [with_where_predicate] on the field [where_clause], src/types_edition.rs:384-391. *)
Definition where_with_predicate (w : option where_clause) (p : where_predicate) : option where_clause :=
  match w with
  | Some w => Some (wc_with_predicate w p)
  | None => Some (wc_from_predicate p)
  end.

(** The parameters as a slice, src/types_edition.rs:395-399. *)
Definition generics_params (g : option generic_param_list) : list generic_param :=
  match g with Some l => map fst (pu_inner (gpl_params l)) | None => [] end.
(** [get_lifetime_params], [get_type_params], [get_const_params], src/types_edition.rs:394-433. *)
Definition lifetime_params (g : option generic_param_list) := filter gp_is_lifetime (generics_params g).
Definition type_params (g : option generic_param_list) := filter gp_is_ty (generics_params g).
Definition const_params (g : option generic_param_list) := filter gp_is_const (generics_params g).

(** [create_derive_where_clause], src/types_edition.rs:462-478. *)
Definition derive_where (g : option generic_param_list) (w : option where_clause)
  (derived_trait : list tok) : where_clause :=
  fold_left
    (fun wc (p : generic_param) =>
       wc_with_predicate wc
         (mkWherePredicate [TIdent (gp_name p)] (mkBound (punct_new ":" Alone) derived_trait)))
    (type_params g)
    (match w with Some w => w | None => where_default end).

(** The three instances, src/types_edition.rs:483-485. *)
Definition struct_with_param (s : struct_) (p : generic_param) : outcome struct_ :=
  do g <- generics_with_param (st_generics s) p ;;
  Ret (mkStruct (st_attributes s) (st_vis s) (st_struct s) (st_name s) g (st_where s) (st_fields s) (st_semicolon s)).
Definition enum_with_param (e : enum_) (p : generic_param) : outcome enum_ :=
  do g <- generics_with_param (en_generics e) p ;;
  Ret (mkEnum (en_attributes e) (en_vis e) (en_enum e) (en_name e) g (en_where e) (en_braces e) (en_variants e)).
Definition union_with_param (u : union_) (p : generic_param) : outcome union_ :=
  do g <- generics_with_param (un_generics u) p ;;
  Ret (mkUnion (un_attributes u) (un_vis u) (un_union u) (un_name u) g (un_where u) (un_fields u)).
Definition struct_with_where (s : struct_) (p : where_predicate) : struct_ :=
  mkStruct (st_attributes s) (st_vis s) (st_struct s) (st_name s) (st_generics s)
    (where_with_predicate (st_where s) p) (st_fields s) (st_semicolon s).
Definition enum_with_where (e : enum_) (p : where_predicate) : enum_ :=
  mkEnum (en_attributes e) (en_vis e) (en_enum e) (en_name e) (en_generics e)
    (where_with_predicate (en_where e) p) (en_braces e) (en_variants e).
Definition union_with_where (u : union_) (p : where_predicate) : union_ :=
  mkUnion (un_attributes u) (un_vis u) (un_union u) (un_name u) (un_generics u)
    (where_with_predicate (un_where u) p) (un_fields u).
Definition struct_derive_where (s : struct_) := derive_where (st_generics s) (st_where s).
Definition enum_derive_where (e : enum_) := derive_where (en_generics e) (en_where e).
Definition union_derive_where (u : union_) := derive_where (un_generics u) (un_where u).

(** [ToTokens for InlineGenericArgs], src/types.rs:1543-1557;
    [as_inline_args] (src/types_edition.rs:569-571) only wraps a reference. *)
Definition print_inline_args (l : generic_param_list) : list tok :=
  TPunct (punct_new "<" Alone)
  :: flat_map
       (fun x : generic_param * punct =>
          (if gp_is_lifetime (fst x) then print_opt print_tok (gp_prefix (fst x)) else [])
          ++ [TIdent (gp_name (fst x)); TPunct (punct_new "," Alone)])
       (pu_inner (gpl_params l))
  ++ [TPunct (punct_new ">" Alone)].

(** One argument of [InlineGenericArgs::to_owned_args], src/types_edition.rs:709-732. *)
Definition owned_arg (p : generic_param) : outcome generic_arg :=
  match gp_prefix p with
  | Some (TPunct q) =>
      if p_is "'" q then Ret (GALifetime (mkLifetime q (gp_name p))) else Panic PBadPrefix
  | Some (TIdent i) =>
      if id_is "const" i then Ret (GATypeOrConst (mkTypeExpr [TIdent (gp_name p)])) else Panic PBadPrefix
  | Some _ => Panic PBadPrefix
  | None => Ret (GATypeOrConst (mkTypeExpr [TIdent (gp_name p)]))
  end.
Fixpoint owned_args (l : list (generic_param * punct)) : outcome (list (generic_arg * punct)) :=
  match l with
  | [] => Ret []
  | (p, c) :: r => do a <- owned_arg p ;; do r <- owned_args r ;; Ret ((a, c) :: r)
  end.
(** [InlineGenericArgs::to_owned_args], src/types_edition.rs:694-741. *)
Definition to_owned_args (l : generic_param_list) : outcome generic_arg_list :=
  do inner <- owned_args (pu_inner (gpl_params l)) ;;
  Ret (mkGenericArgList None (gpl_l l) (mkPunctuated inner (pu_skip_last (gpl_params l))) (gpl_r l)).

(** ** Spans and errors.  [join] is [Span::join] (proc_macro2) and [lit_string] the text
    that [Literal::string] produces; both are arbitrary. *)
Section External.
Variable join : span -> span -> option span.
Variable lit_string : string -> string.

Definition unwrap_or {A} (o : option A) (d : A) : A := match o with Some x => x | None => d end.

(** [Iterator::last] after the first element. *)
Definition last_span (ts : list tok) : option span :=
  fold_left (fun _ t => Some (tok_span t)) ts None.

(** quote 1.0.35, [spanned::join_spans], behind [__span()] at src/types_edition.rs:828, 859. *)
Definition join_spans (ts : list tok) : span :=
  match ts with
  | [] => call_site
  | t :: r =>
      let first := tok_span t in
      match last_span r with
      | Some last => unwrap_or (join first last) first
      | None => first
      end
  end.

(** [span()] of the printable types, src/types_edition.rs:823-861. *)
Definition span_of {A} (pr : A -> list tok) (x : A) : span := join_spans (pr x).

(** [Error::new], src/error.rs:69-77. *)
Definition error_new (message : string) : error :=
  mkError [mkErrorMessage call_site call_site message].

(** [Error::new_at_tokens], src/error.rs:94-105. *)
Definition error_new_at_tokens (ts : list tok) (message : string) : error :=
  let start := match ts with [] => call_site | t :: _ => tok_span t end in
  let fin := unwrap_or (last_span (tl ts)) start in
  mkError [mkErrorMessage start fin message].

(** [Error::span], src/error.rs:112-116; indexing [messages[0]] panics when empty. *)
Definition error_span (e : error) : outcome span :=
  match er_messages e with
  | [] => Panic (PUnwrapNone AtErrorSpan)
  | m :: _ => Ret (unwrap_or (join (em_start m) (em_end m)) (em_start m))
  end.

(** [ErrorMessage::to_compile_error], src/error.rs:136-157. *)
Definition message_to_compile_error (m : error_message) : list tok :=
  [ TIdent (mkIdent "compile_error" (em_start m));
    TPunct (mkPunct "!" Alone (em_start m));
    TGroup (mkGroup Brace [TLit (mkLit (lit_string (em_text m)) (em_end m))] (em_end m)) ].

(** [Error::to_compile_error], src/error.rs:121-126. *)
Definition to_compile_error (e : error) : list tok :=
  flat_map message_to_compile_error (er_messages e).

(** [Error::combine], src/error.rs:130-132. *)
Definition error_combine (a b : error) : error := mkError (er_messages a ++ er_messages b).

(** [Display for Error], src/error.rs:186-190. *)
Definition error_display (e : error) : outcome string :=
  match er_messages e with
  | [] => Panic (PUnwrapNone AtErrorDisplay)
  | m :: _ => Ret (em_text m)
  end.
End External.

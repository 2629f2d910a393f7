(** Specification: the fragment of RustSyntax.v without the restrictions that are there for
    the sake of the crate.  Only what differs is defined anew:
    - bounds of generic parameters may have an arrow (C24);
    - the left side of a where predicate may have path separators (C23);
    - the header of an impl may have a higher-ranked [for] (C75);
    - a tuple field may have a type that starts with [crate] or, after [pub], a tuple (C19, C20);
    - a value may be any tokens, with comparison and shift operators (C25, C85);
    - [static mut] (C21), [self: T] (C22) and macro calls with square brackets (C69). *)
From Verif Require Export RustSyntax.
Local Open Scope string_scope.
Local Open Scope list_scope.

Definition any_generic_param (p : generic_param) : Prop :=
  match gp_prefix p with
  | None => declared_name (gp_name p) /\ if_some (rust_bound_of anywhere) (gp_bound p)
  | Some (TPunct q) => mark "'" q /\ lifetime_name (gp_name p) /\ if_some (rust_bound_of anywhere) (gp_bound p)
  | Some (TIdent k) => word "const" k /\ declared_name (gp_name p) /\ exists b, gp_bound p = Some b /\ mark ":" (gb_colon b) /\ rust_type anywhere (gb_tokens b)
  | Some _ => False
  end.
Definition any_generics (g : generic_param_list) : Prop :=
  mark "<" (gpl_l g) /\ rust_list any_generic_param (gpl_params g) /\ mark ">" (gpl_r g).
Definition any_left (ts : list tok) : Prop :=
  lifetime_toks ts \/ exists fl t, (fl = [] \/ for_lifetimes fl) /\ rust_type anywhere t /\ ts = fl ++ t.
Definition any_predicate (w : where_predicate) : Prop := any_left (wp_left w) /\ rust_bound_of anywhere (wp_bound w).
Definition any_where (w : where_clause) : Prop := word "where" (wc_where w) /\ rust_list any_predicate (wc_items w).
Definition any_tuple_field (f : tuple_field) : Prop :=
  rust_outer (tf_attributes f) /\ if_some rust_vis (tf_vis f) /\ rust_type anywhere (te_tokens (tf_ty f)).
Definition any_fields (f : fields) : Prop :=
  match f with
  | FTuple f => gs_delim (tfs_parens f) = Parenthesis /\ rust_list any_tuple_field (tfs_fields f)
  | _ => rust_fields f
  end.
Definition any_struct (s : struct_) : Prop :=
  rust_outer (st_attributes s) /\ if_some rust_vis (st_vis s) /\ word "struct" (st_struct s) /\ if_some any_generics (st_generics s)
  /\ if_some any_where (st_where s) /\ any_fields (st_fields s)
  /\ match st_fields s with
     | FNamed _ => st_semicolon s = None
     | _ => exists p, st_semicolon s = Some p /\ mark ";" p
     end.
Definition any_variant (v : enum_variant) : Prop :=
  rust_outer (ev_attributes v) /\ if_some rust_vis (ev_vis v) /\ declared_name (ev_name v) /\ any_fields (ev_fields v)
  /\ if_some (fun x => mark "=" (vv_equal x)) (ev_value v).
Definition any_enum (e : enum_) : Prop :=
  rust_outer (en_attributes e) /\ if_some rust_vis (en_vis e) /\ word "enum" (en_enum e) /\ if_some any_generics (en_generics e)
  /\ if_some any_where (en_where e) /\ gs_delim (en_braces e) = Brace /\ rust_list any_variant (en_variants e).
Definition any_union (u : union_) : Prop :=
  rust_outer (un_attributes u) /\ if_some rust_vis (un_vis u) /\ word "union" (un_union u) /\ if_some any_generics (un_generics u)
  /\ if_some any_where (un_where u) /\ rust_fields (FNamed (un_fields u)).
Definition any_param (p : fn_param) : Prop :=
  match p with
  | FPReceiver _ => rust_param p
  | FPTyped t =>
      rust_outer (ft_attributes t) /\ if_some (word "mut") (ft_mut t) /\ (declared_name (ft_name t) \/ word "self" (ft_name t)) /\ mark ":" (ft_colon t)
      /\ rust_type anywhere (te_tokens (ft_ty t))
  end.
Definition any_function (f : function) : Prop :=
  rust_outer (fn_attributes f) /\ if_some rust_vis (fn_vis f) /\ rust_qualifiers (fn_qualifiers_ f) /\ word "fn" (fn_kw f)
  /\ if_some any_generics (fn_generics f) /\ gs_delim (fn_parens f) = Parenthesis /\ rust_list any_param (fn_params f)
  /\ match fn_arrow f, fn_ret f with
     | Some (d, r), Some t => mark "-" d /\ mark ">" r /\ rust_type anywhere (te_tokens t)
     | None, None => True
     | _, _ => False
     end
  /\ if_some any_where (fn_where f)
  /\ match fn_body f, fn_semicolon f with
     | Some g, None => g_delim g = Brace
     | None, Some p => mark ";" p
     | _, _ => False
     end.
(** Any tokens. *)
Definition any_value (ts : list tok) : Prop := ts <> [].
Definition any_constant (static_allowed : bool) (k : constant) : Prop :=
  rust_outer (co_attributes k) /\ if_some rust_vis (co_vis k)
  /\ ((word "const" (co_kw k) /\ co_mut k = None) \/ (static_allowed = true /\ word "static" (co_kw k) /\ if_some (word "mut") (co_mut k)))
  /\ declared_name (co_name k) /\ mark ":" (co_colon k) /\ rust_type anywhere (te_tokens (co_ty k))
  /\ match co_equals k, co_init k with
     | Some e, Some v => mark "=" e /\ any_value (ve_tokens v)
     | None, None => True
     | _, _ => False
     end
  /\ mark ";" (co_semicolon k).
Definition any_macro (m : macro) : Prop :=
  rust_outer (ma_attributes m) /\ declared_name (ma_name m) /\ ~ In (id_str (ma_name m)) ["union"; "default"] /\ mark "!" (ma_bang m)
  /\ match ma_semicolon m with
     | Some p => mark ";" p /\ (gs_delim (ma_group m) = Parenthesis \/ gs_delim (ma_group m) = Bracket)
     | None => gs_delim (ma_group m) = Brace
     end.
Definition any_member (static_allowed : bool) (m : impl_member) : Prop :=
  match m with
  | IMFunction f => any_function f
  | IMConstant k => any_constant static_allowed k
  | IMType t => rust_alias t
  | IMMacro m => any_macro m
  end.
Definition any_trait_member (m : trait_member) : Prop :=
  match m with
  | TMFunction f => any_function f
  | TMConstant k => any_constant false k
  | TMType t => rust_alias t
  | TMMacro m => any_macro m
  end.
Definition any_trait (t : trait_) : Prop :=
  rust_outer (tr_attributes t) /\ if_some rust_vis (tr_vis t) /\ if_some (word "unsafe") (tr_unsafe t) /\ word "trait" (tr_trait t)
  /\ if_some any_generics (tr_generics t) /\ if_some (rust_bound_of anywhere) (tr_bound t) /\ if_some any_where (tr_where t)
  /\ gs_delim (tr_braces t) = Brace /\ Forall (rust_attribute true) (tr_inner_attributes t) /\ Forall any_trait_member (tr_items t).
Definition any_impl (i : impl_) : Prop :=
  rust_outer (im_attributes i) /\ if_some (word "unsafe") (im_unsafe i) /\ word "impl" (im_impl i) /\ if_some any_generics (im_generics i)
  /\ match im_trait i, im_for i with
     | Some t, Some f =>
         word "for" f /\ rust_type anywhere (te_tokens (im_self i))
         /\ (exists n ts, (n = [] \/ exists p, mark "!" p /\ n = [TPunct p]) /\ rust_type anywhere ts /\ te_tokens t = n ++ ts)
         /\ (im_generics i = None -> ~ starts (fun t => exists p, t = TPunct p /\ mark "<" p) (te_tokens t))
     | None, None =>
         rust_type anywhere (te_tokens (im_self i))
         /\ (im_generics i = None -> ~ starts (fun t => exists p, t = TPunct p /\ mark "<" p) (te_tokens (im_self i)))
     | _, _ => False
     end
  /\ if_some any_where (im_where i) /\ gs_delim (im_braces i) = Brace /\ Forall (rust_attribute true) (im_inner_attributes i)
  /\ Forall (any_member false) (im_items i).
Definition any_extern_block (b : extern_block) : Prop :=
  rust_outer (eb_attributes b) /\ if_some rust_vis (eb_vis b) /\ if_some (word "unsafe") (eb_unsafe b) /\ word "extern" (eb_extern b)
  /\ gs_delim (eb_braces b) = Brace /\ Forall (rust_attribute true) (eb_inner_attributes b) /\ Forall (any_member true) (eb_items b).
Fixpoint any_item (i : item) : Prop :=
  match i with
  | IStruct s => any_struct s
  | IEnum e => any_enum e
  | IUnion u => any_union u
  | IModule m =>
      rust_outer (mo_attributes m) /\ if_some rust_vis (mo_vis m) /\ if_some (word "unsafe") (mo_unsafe m) /\ word "mod" (mo_mod m)
      /\ match mo_semicolon m, mo_braces m with
         | Some p, None => mark ";" p /\ mo_inner_attributes m = [] /\ mo_members m = []
         | None, Some b => gs_delim b = Brace /\ Forall (rust_attribute true) (mo_inner_attributes m)
         | _, _ => False
         end
      /\ (fix each (l : list item) : Prop := match l with [] => True | x :: r => any_item x /\ each r end) (mo_members m)
  | ITrait t => any_trait t
  | IImpl i => any_impl i
  | ITypeAlias t => rust_alias t
  | IFunction f => any_function f
  | IConstant k => any_constant true k
  | IUse u => rust_use u
  | IMacro m => any_macro m
  | IExternBlock b => any_extern_block b
  | IExternCrate c => rust_extern_crate c
  end.

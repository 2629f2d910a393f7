(** Specification: the token sequences that denote a syntax tree.

    [spells_item i c] says that [c] is one of the ways to write the tree [i].  It is the
    printed form of [i] up to the following slack, which is everything that the parser
    accepts without recording it in the tree or that the printer does not write back:
    - tokens after the first group inside an attribute;
    - ['&'] and a lifetime in front of a typed fn parameter;
    - a missing comma after [self] or after an enum variant that has fields and no value;
    - a visibility in front of an impl or of a macro;
    - the [;] after a braced struct (recorded, but not printed);
    - [mut] in [static mut: T] (printed twice).
    Together with [shape_item] this is the grammar of the parser. *)
From Verif Require Export Grammar.

Definition spells_attribute (a : attribute) (c : list tok) : Prop :=
  exists extra,
    c = TPunct (at_hash a) :: print_opt print_punct (at_bang a)
        ++ quote_with (at_brackets a) (at_path a ++ print_attribute_value (at_value a) ++ extra)
    /\ match at_value a with AVGroup _ _ => True | _ => extra = [] end.

(** Concatenation of spellings. *)
Definition spells_list {A} (sp : A -> list tok -> Prop) : list A -> list tok -> Prop :=
  fix go (l : list A) (c : list tok) : Prop :=
    match l with
    | [] => c = []
    | x :: r => exists c1 c2, c = c1 ++ c2 /\ sp x c1 /\ go r c2
    end.
Definition spells_attributes : list attribute -> list tok -> Prop := spells_list spells_attribute.

(** Comma-separated elements; the comma may be missing after an element satisfying [gap],
    and then the tree records the default one. *)
Definition spells_inner {A} (sp : A -> list tok -> Prop) (gap : A -> bool) (skip_last : bool)
  : list (A * punct) -> list tok -> Prop :=
  fix go (l : list (A * punct)) (c : list tok) : Prop :=
    match l with
    | [] => c = []
    | (x, p) :: r =>
        exists c1 c2, sp x c1 /\ go r c2
        /\ match r with
           | [] => c = c1 ++ (if skip_last then [] else [TPunct p])
           | _ :: _ => c = c1 ++ TPunct p :: c2
                       \/ (gap x = true /\ default_comma p = true /\ c = c1 ++ c2)
           end
    end.
Definition spells_punctuated {A} (sp : A -> list tok -> Prop) (gap : A -> bool) (p : punctuated A)
  : list tok -> Prop :=
  spells_inner sp gap (pu_skip_last p) (pu_inner p).
Definition no_gap {A} (x : A) : bool := false.

(** A group with the given delimiter and span around a spelling. *)
Definition spells_group (gs : group_span) (inner : list tok -> Prop) (c : list tok) : Prop :=
  exists s, inner s /\ c = quote_with gs s.

(** ** Fields and type declarations *)
Definition spells_tuple_field (f : tuple_field) (c : list tok) : Prop :=
  exists ca, spells_attributes (tf_attributes f) ca
  /\ c = ca ++ print_opt print_vis (tf_vis f) ++ te_tokens (tf_ty f).
Definition spells_named_field (f : named_field) (c : list tok) : Prop :=
  exists ca, spells_attributes (nf_attributes f) ca
  /\ c = ca ++ print_opt print_vis (nf_vis f)
         ++ TIdent (nf_name f) :: TPunct (nf_colon f) :: te_tokens (nf_ty f).
Definition spells_tuple_fields (f : tuple_fields) : list tok -> Prop :=
  spells_group (tfs_parens f) (spells_punctuated spells_tuple_field no_gap (tfs_fields f)).
Definition spells_named_fields (f : named_fields) : list tok -> Prop :=
  spells_group (nfs_braces f) (spells_punctuated spells_named_field no_gap (nfs_fields f)).
Definition spells_fields (f : fields) (c : list tok) : Prop :=
  match f with
  | FUnit => c = []
  | FTuple f => spells_tuple_fields f c
  | FNamed f => spells_named_fields f c
  end.

Definition spells_struct (s : struct_) (c : list tok) : Prop :=
  exists ca cf, spells_attributes (st_attributes s) ca /\ spells_fields (st_fields s) cf
  /\ c = ca ++ print_opt print_vis (st_vis s) ++ TIdent (st_struct s) :: TIdent (st_name s)
         :: print_opt print_generic_params (st_generics s)
         ++ match st_fields s with
            | FNamed _ => print_opt print_where (st_where s) ++ cf ++ print_opt print_punct (st_semicolon s)
            | _ => cf ++ print_opt print_where (st_where s) ++ print_opt print_punct (st_semicolon s)
            end.

Definition spells_variant (v : enum_variant) (c : list tok) : Prop :=
  exists ca cf, spells_attributes (ev_attributes v) ca /\ spells_fields (ev_fields v) cf
  /\ c = ca ++ print_opt print_vis (ev_vis v) ++ TIdent (ev_name v) :: cf
         ++ print_opt print_variant_value (ev_value v).
(** A variant that ends with its fields. *)
Definition gap_variant (v : enum_variant) : bool :=
  match ev_fields v, ev_value v with
  | FUnit, _ => false
  | _, Some _ => false
  | _, None => true
  end.
Definition spells_enum (e : enum_) (c : list tok) : Prop :=
  exists ca cv, spells_attributes (en_attributes e) ca
  /\ spells_group (en_braces e) (spells_punctuated spells_variant gap_variant (en_variants e)) cv
  /\ c = ca ++ print_opt print_vis (en_vis e) ++ TIdent (en_enum e) :: TIdent (en_name e)
         :: print_opt print_generic_params (en_generics e) ++ print_opt print_where (en_where e) ++ cv.
Definition spells_union (u : union_) (c : list tok) : Prop :=
  exists ca cf, spells_attributes (un_attributes u) ca /\ spells_named_fields (un_fields u) cf
  /\ c = ca ++ print_opt print_vis (un_vis u) ++ TIdent (un_union u) :: TIdent (un_name u)
         :: print_opt print_generic_params (un_generics u) ++ print_opt print_where (un_where u) ++ cf.

(** ** Functions, macros, constants, aliases, uses, extern crates *)
Definition spells_fn_param (p : fn_param) (c : list tok) : Prop :=
  match p with
  | FPReceiver r =>
      exists ca, spells_attributes (fr_attributes r) ca
      /\ c = ca ++ print_opt print_punct (fr_ref r) ++ print_opt print_lifetime (fr_lifetime r)
             ++ print_opt print_ident (fr_mut r) ++ [TIdent (fr_self r)]
  | FPTyped t =>
      exists ca amp lt, spells_attributes (ft_attributes t) ca
      /\ wf_opt (p_is "&") amp = true /\ wf_opt wf_lifetime lt = true
      /\ c = ca ++ print_opt print_punct amp ++ print_opt print_lifetime lt
             ++ print_opt print_ident (ft_mut t)
             ++ TIdent (ft_name t) :: TPunct (ft_colon t) :: te_tokens (ft_ty t)
  end.
Definition gap_param (p : fn_param) : bool :=
  match p with FPReceiver _ => true | FPTyped _ => false end.
Definition spells_function (f : function) (c : list tok) : Prop :=
  exists ca cp, spells_attributes (fn_attributes f) ca
  /\ spells_group (fn_parens f) (spells_punctuated spells_fn_param gap_param (fn_params f)) cp
  /\ c = ca ++ print_opt print_vis (fn_vis f) ++ print_qualifiers (fn_qualifiers_ f)
         ++ TIdent (fn_kw f) :: TIdent (fn_name f) :: print_opt print_generic_params (fn_generics f)
         ++ cp ++ print_opt print_punct2 (fn_arrow f) ++ print_opt print_type (fn_ret f)
         ++ print_opt print_where (fn_where f)
         ++ print_opt print_group (fn_body f) ++ print_opt print_punct (fn_semicolon f).

Definition macro_tokens (m : macro) : list tok :=
  TIdent (ma_name m) :: TPunct (ma_bang m) :: print_opt print_ident (ma_declared m)
  ++ quote_with (ma_group m) (ma_inner m) ++ print_opt print_punct (ma_semicolon m).
(** [vis] is the visibility that is read and dropped. *)
Definition spells_macro (vis : option vis_marker) (m : macro) (c : list tok) : Prop :=
  exists ca, spells_attributes (ma_attributes m) ca
  /\ c = ca ++ print_opt print_vis vis ++ macro_tokens m.

Definition spells_constant (k : constant) (c : list tok) : Prop :=
  exists ca, spells_attributes (co_attributes k) ca
  /\ c = ca ++ print_opt print_vis (co_vis k) ++ TIdent (co_kw k) :: TIdent (co_name k)
         :: TPunct (co_colon k) :: te_tokens (co_ty k)
         ++ print_opt print_punct (co_equals k) ++ print_opt print_value (co_init k)
         ++ [TPunct (co_semicolon k)].
Definition spells_type_alias (t : type_alias) (c : list tok) : Prop :=
  exists ca, spells_attributes (ta_attributes t) ca
  /\ c = ca ++ print_opt print_vis (ta_vis t) ++ TIdent (ta_type t) :: TIdent (ta_name t)
         :: print_opt print_bound (ta_bound t) ++ print_opt print_punct (ta_equals t)
         ++ print_opt print_type (ta_init t) ++ [TPunct (ta_semicolon t)].
Definition spells_use (u : use_decl) (c : list tok) : Prop :=
  exists ca, spells_attributes (us_attributes u) ca
  /\ c = ca ++ print_opt print_vis (us_vis u) ++ TIdent (us_use u) :: te_tokens (us_tree u)
         ++ [TPunct (us_semicolon u)].
Definition spells_extern_crate (k : extern_crate) (c : list tok) : Prop :=
  exists ca, spells_attributes (ec_attributes k) ca
  /\ c = ca ++ print_opt print_vis (ec_vis k) ++ TIdent (ec_extern k) :: TIdent (ec_crate k)
         :: TIdent (ec_name k) :: print_opt print_ident (ec_as k) ++ print_opt print_ident (ec_alias k)
         ++ [TPunct (ec_semicolon k)].

(** ** Bodies *)
Definition spells_impl_member (m : impl_member) (c : list tok) : Prop :=
  match m with
  | IMFunction f => spells_function f c
  | IMConstant k => spells_constant k c
  | IMType t => spells_type_alias t c
  | IMMacro m => spells_macro None m c
  end.
Definition spells_trait_member (m : trait_member) (c : list tok) : Prop :=
  spells_impl_member (impl_of_trait_member m) c.
(** Inner attributes, then members. *)
Definition spells_body {A} (sp : A -> list tok -> Prop) (attrs : list attribute) (items : list A)
  (s : list tok) : Prop :=
  exists ci cm, spells_attributes attrs ci /\ spells_list sp items cm /\ s = ci ++ cm.

Definition spells_trait (t : trait_) (c : list tok) : Prop :=
  exists ca cb, spells_attributes (tr_attributes t) ca
  /\ spells_group (tr_braces t) (spells_body spells_trait_member (tr_inner_attributes t) (tr_items t)) cb
  /\ c = ca ++ print_opt print_vis (tr_vis t) ++ print_opt print_ident (tr_unsafe t)
         ++ TIdent (tr_trait t) :: TIdent (tr_name t) :: print_opt print_generic_params (tr_generics t)
         ++ print_opt print_bound (tr_bound t) ++ print_opt print_where (tr_where t) ++ cb.
Definition spells_impl (i : impl_) (c : list tok) : Prop :=
  exists ca vis cb, spells_attributes (im_attributes i) ca /\ wf_opt wf_vis vis = true
  /\ spells_group (im_braces i) (spells_body spells_impl_member (im_inner_attributes i) (im_items i)) cb
  /\ c = ca ++ print_opt print_vis vis ++ print_opt print_ident (im_unsafe i)
         ++ TIdent (im_impl i) :: print_opt print_generic_params (im_generics i)
         ++ print_opt print_type (im_trait i) ++ print_opt print_ident (im_for i)
         ++ te_tokens (im_self i) ++ print_opt print_where (im_where i) ++ cb.
Definition spells_extern_block (b : extern_block) (c : list tok) : Prop :=
  exists ca cb, spells_attributes (eb_attributes b) ca
  /\ spells_group (eb_braces b) (spells_body spells_impl_member (eb_inner_attributes b) (eb_items b)) cb
  /\ c = ca ++ print_opt print_vis (eb_vis b) ++ print_opt print_ident (eb_unsafe b)
         ++ TIdent (eb_extern b) :: print_opt print_lit (eb_abi b) ++ cb.

(** ** Modules and items *)
(** Members of a module: each is followed by tokens that do not continue it. *)
Definition spells_members {I} (sp : I -> list tok -> Prop) (follow : I -> list tok -> bool)
  : list I -> list tok -> Prop :=
  fix go (l : list I) (c : list tok) : Prop :=
    match l with
    | [] => c = []
    | x :: r => exists c1 c2, c = c1 ++ c2 /\ sp x c1 /\ follow x c2 = true /\ go r c2
    end.
Definition spells_module {I} (sp : I -> list tok -> Prop) (follow : I -> list tok -> bool)
  (m : module_ I) (c : list tok) : Prop :=
  exists ca cb, spells_attributes (mo_attributes m) ca
  /\ (match mo_semicolon m, mo_braces m with
      | Some p, _ => cb = [TPunct p]
      | None, Some gs =>
          spells_group gs (fun s => exists ci cm, spells_attributes (mo_inner_attributes m) ci
                                    /\ spells_members sp follow (mo_members m) cm /\ s = ci ++ cm) cb
      | None, None => cb = []
      end)
  /\ c = ca ++ print_opt print_vis (mo_vis m) ++ print_opt print_ident (mo_unsafe m)
         ++ TIdent (mo_mod m) :: TIdent (mo_name m) :: cb.

Fixpoint spells_item (i : item) (c : list tok) : Prop :=
  match i with
  | IStruct s => spells_struct s c
  | IEnum e => spells_enum e c
  | IUnion u => spells_union u c
  | IModule m => spells_module spells_item follow_ok m c
  | ITrait t => spells_trait t c
  | IImpl i => spells_impl i c
  | ITypeAlias t => spells_type_alias t c
  | IFunction f => spells_function f c
  | IConstant k => spells_constant k c
  | IUse u => spells_use u c
  | IMacro m =>
      exists vis, wf_opt wf_vis vis = true /\ prefix_ok vis [TIdent (ma_name m)] = true
                  /\ spells_macro vis m c
  | IExternBlock b => spells_extern_block b c
  | IExternCrate k => spells_extern_crate k c
  end.

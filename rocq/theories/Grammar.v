(** Specification: which syntax trees are well-formed, stated on the trees alone.
    Nothing here is taken from the parser; only token tests ([p_is], [id_is]), the tree
    types and (for what may follow what) the printers are used.

    [wf_item] describes the trees the parser produces and that survive a reprint.
    [shape_item] drops the four conditions in which a parsed tree may fail to survive. *)
From Verif Require Export Print.

(** ** Opaque token runs (types, bounds, initialisers, use trees)

    A run is read with the angle-bracket depth [d] and whether the previous token is
    ['-'].  ['<'] opens; ['>'] not preceded by ['-'] closes; any other token but ['-']
    that satisfies the terminator test [P] ends the run at depth 0; a closing ['>'] at
    depth 0 ends it too. *)
Definition opens (t : tok) : bool := is_punct "<" t.
Definition closes (dash : bool) (t : tok) : bool := is_punct ">" t && negb dash.
Definition stops (P : tok -> bool) (d : Z) (dash : bool) (t : tok) : bool :=
  Z.eqb d 0 && negb (opens t) && (closes dash t || (negb (is_punct "-" t) && P t)).
Definition next_depth (d : Z) (dash : bool) (t : tok) : Z :=
  if opens t then (d + 1)%Z else if closes dash t then (d - 1)%Z else d.
(** [scan P d dash ts] is the state after [ts], or [None] if the run ends inside [ts]. *)
Fixpoint scan (P : tok -> bool) (d : Z) (dash : bool) (ts : list tok) : option (Z * bool) :=
  match ts with
  | [] => Some (d, dash)
  | t :: r => if stops P d dash t then None else scan P (next_depth d dash t) (is_punct "-" t) r
  end.
(** [ts] contains no end of run; and, for [run_closed], all brackets are closed. *)
Definition run_any (P : tok -> bool) (ts : list tok) : bool :=
  match scan P 0 false ts with Some _ => true | None => false end.
Definition run_closed (P : tok -> bool) (ts : list tok) : bool :=
  match scan P 0 false ts with Some (d, _) => Z.eqb d 0 | None => false end.

(** ** Token-list helpers *)
Definition head_is (f : tok -> bool) (ts : list tok) : bool :=
  match ts with t :: _ => f t | [] => false end.
Definition nonempty {A} (l : list A) : bool := match l with [] => false | _ => true end.
Definition wf_opt {A} (f : A -> bool) (o : option A) : bool :=
  match o with Some x => f x | None => true end.
Definition some {A} (o : option A) : bool := match o with Some _ => true | None => false end.
Definition default_comma (p : punct) : bool :=
  Ascii.eqb (p_char p) "," && (match p_spacing p with Alone => true | Joint => false end)
  && N.eqb (p_span p) call_site.
Definition id_in (l : list string) (i : ident) : bool := existsb (fun s => id_is s i) l.

(** ** Comma-separated lists: [wf comma x] must hold of every element, where [comma] tells
    whether a comma is printed after it.  When the last comma is not printed it is the
    default one; the empty list has [skip_last = false]. *)
Fixpoint wf_inner {A} (wf : bool -> A -> bool) (skip_last : bool) (l : list (A * punct)) : bool :=
  match l with
  | [] => negb skip_last
  | [(x, c)] => wf (negb skip_last) x && (if skip_last then default_comma c else p_is "," c)
  | (x, c) :: r => wf true x && p_is "," c && wf_inner wf skip_last r
  end.
Definition wf_punctuated {A} (wf : bool -> A -> bool) (p : punctuated A) : bool :=
  wf_inner wf (pu_skip_last p) (pu_inner p).

(** ** Attributes and visibility *)
Definition path_token (t : tok) : bool :=
  match t with TIdent _ => true | TPunct p => p_is ":" p | _ => false end.
Definition wf_attribute (inner : bool) (a : attribute) : bool :=
  p_is "#" (at_hash a)
  && (match at_bang a with Some b => inner && p_is "!" b | None => negb inner end)
  && delim_eqb (gs_delim (at_brackets a)) Bracket
  && forallb path_token (at_path a)
  && (match at_value a with AVEquals p _ => p_is "=" p | _ => true end).
Definition wf_outer : list attribute -> bool := forallb (wf_attribute false).
Definition wf_inner_attrs : list attribute -> bool := forallb (wf_attribute true).

Definition wf_vis (v : vis_marker) : bool :=
  match v with
  | mkVis (TIdent i) None => id_is "pub" i || id_is "crate" i
  | mkVis (TIdent i) (Some (TGroup g)) => id_is "pub" i && delim_eqb (g_delim g) Parenthesis
  | _ => false
  end.
(** What may follow an attribute list and an optional visibility without being read as
    part of them. *)
Definition prefix_ok (v : option vis_marker) (rest : list tok) : bool :=
  match v with
  | None => negb (head_is (is_punct "#") rest) && negb (head_is (is_ident "pub") rest)
            && negb (head_is (is_ident "crate") rest)
  | Some (mkVis (TIdent i) None) => negb (id_is "pub" i && head_is (is_group Parenthesis) rest)
  | Some _ => true
  end.

(** ** Types, bounds, generics, where clauses *)
Definition end_comma (t : tok) : bool := is_punct "," t.
(** A field or parameter type: not empty, no comma outside angle brackets. *)
Definition wf_field_ty (comma : bool) (t : type_expr) : bool :=
  nonempty (te_tokens t)
  && (if comma then run_closed end_comma (te_tokens t) else run_any end_comma (te_tokens t)).

Definition wf_bound (P : tok -> bool) (b : generic_bound) : bool :=
  p_is ":" (gb_colon b) && run_closed P (gb_tokens b).

Definition end_param (t : tok) : bool := is_punct "," t || is_punct ">" t.
Definition wf_generic_param (comma : bool) (p : generic_param) : bool :=
  (match gp_prefix p with
   | None => negb (id_is "const" (gp_name p))
   | Some (TPunct q) => p_is "'" q
   | Some (TIdent i) => id_is "const" i
   | Some _ => false
   end)
  && wf_opt (wf_bound end_param) (gp_bound p).
Definition wf_generics (g : generic_param_list) : bool :=
  p_is "<" (gpl_l g) && wf_punctuated wf_generic_param (gpl_params g) && p_is ">" (gpl_r g).

Definition end_where_item (t : tok) : bool := is_punct "," t || is_group Brace t || is_punct ";" t.
Definition wf_where_predicate (comma : bool) (w : where_predicate) : bool :=
  run_closed (is_punct ":") (wp_left w)
  && negb (head_is (is_group Brace) (wp_left w)) && negb (head_is (is_punct ";") (wp_left w))
  && wf_bound end_where_item (wp_bound w).
Definition wf_where (w : where_clause) : bool :=
  id_is "where" (wc_where w) && wf_punctuated wf_where_predicate (wc_items w).
(** A where clause extends up to a brace group or a [;]. *)
Definition where_follow (rest : list tok) : bool :=
  head_is (is_group Brace) rest || head_is (is_punct ";") rest.

(** ** Fields, structs, enums, unions *)
Definition wf_tuple_field (comma : bool) (f : tuple_field) : bool :=
  wf_outer (tf_attributes f) && wf_opt wf_vis (tf_vis f)
  && prefix_ok (tf_vis f) (te_tokens (tf_ty f)) && wf_field_ty comma (tf_ty f).
Definition wf_named_field (comma : bool) (f : named_field) : bool :=
  wf_outer (nf_attributes f) && wf_opt wf_vis (nf_vis f)
  && prefix_ok (nf_vis f) [TIdent (nf_name f)]
  && p_is ":" (nf_colon f) && wf_field_ty comma (nf_ty f).
Definition wf_tuple_fields (f : tuple_fields) : bool :=
  delim_eqb (gs_delim (tfs_parens f)) Parenthesis && wf_punctuated wf_tuple_field (tfs_fields f).
Definition wf_named_fields (f : named_fields) : bool :=
  delim_eqb (gs_delim (nfs_braces f)) Brace && wf_punctuated wf_named_field (nfs_fields f).
Definition wf_fields (f : fields) : bool :=
  match f with
  | FUnit => true
  | FTuple f => wf_tuple_fields f
  | FNamed f => wf_named_fields f
  end.

Definition shape_struct (s : struct_) : bool :=
  wf_outer (st_attributes s) && wf_opt wf_vis (st_vis s)
  && id_is "struct" (st_struct s)
  && wf_opt wf_generics (st_generics s) && wf_opt wf_where (st_where s)
  && wf_fields (st_fields s)
  && wf_opt (p_is ";") (st_semicolon s)
  && (match st_fields s with FUnit => some (st_semicolon s) | _ => true end).
(** What may follow a struct: a tuple struct without [;] must not be followed by a token
    that continues it; a braced struct whose [;] was not read must not be followed by one. *)
Definition struct_follow (s : struct_) (rest : list tok) : bool :=
  match st_fields s with
  | FUnit => true
  | FTuple _ =>
      match st_semicolon s, st_where s with
      | Some _, _ => true
      | None, Some _ => head_is (is_group Brace) rest
      | None, None => negb (head_is (is_ident "where") rest) && negb (head_is (is_punct ";") rest)
      end
  | FNamed _ => some (st_semicolon s) || negb (head_is (is_punct ";") rest)
  end.
(** First exception: a braced struct followed by [;] (not printed). *)
Definition stable_struct (s : struct_) : bool :=
  match st_fields s with FNamed _ => negb (some (st_semicolon s)) | _ => true end.

(** A discriminant is [=] and one token; a variant is a name and optional fields. *)
Definition wf_variant (comma : bool) (v : enum_variant) : bool :=
  wf_outer (ev_attributes v) && wf_opt wf_vis (ev_vis v)
  && prefix_ok (ev_vis v) [TIdent (ev_name v)]
  && wf_fields (ev_fields v)
  && wf_opt (fun x => p_is "=" (vv_equal x)) (ev_value v).
Definition wf_enum (e : enum_) : bool :=
  wf_outer (en_attributes e) && wf_opt wf_vis (en_vis e)
  && id_is "enum" (en_enum e)
  && wf_opt wf_generics (en_generics e) && wf_opt wf_where (en_where e)
  && delim_eqb (gs_delim (en_braces e)) Brace && wf_punctuated wf_variant (en_variants e).
Definition wf_union (u : union_) : bool :=
  wf_outer (un_attributes u) && wf_opt wf_vis (un_vis u)
  && id_is "union" (un_union u)
  && wf_opt wf_generics (un_generics u) && wf_opt wf_where (un_where u)
  && wf_named_fields (un_fields u).

(** ** Functions, macros, constants, aliases, uses *)
Definition wf_qualifiers (q : fn_qualifiers) : bool :=
  wf_opt (id_is "default") (fq_default q) && wf_opt (id_is "const") (fq_const q)
  && wf_opt (id_is "async") (fq_async q) && wf_opt (id_is "unsafe") (fq_unsafe q)
  && wf_opt (id_is "extern") (fq_extern q)
  && (some (fq_extern q) || negb (some (fq_abi q))).
Definition wf_lifetime (l : lifetime) : bool := p_is "'" (lt_apostrophe l).
Definition wf_fn_param (comma : bool) (p : fn_param) : bool :=
  match p with
  | FPReceiver r =>
      wf_outer (fr_attributes r) && wf_opt (p_is "&") (fr_ref r)
      && wf_opt wf_lifetime (fr_lifetime r) && wf_opt (id_is "mut") (fr_mut r)
      && id_is "self" (fr_self r)
  | FPTyped t =>
      wf_outer (ft_attributes t) && wf_opt (id_is "mut") (ft_mut t)
      && negb (id_is "self" (ft_name t)) && (some (ft_mut t) || negb (id_is "mut" (ft_name t)))
      && p_is ":" (ft_colon t) && wf_field_ty comma (ft_ty t)
  end.
Definition end_return (t : tok) : bool := is_group Brace t || is_ident "where" t || is_punct ";" t.
Definition wf_function (f : function) : bool :=
  wf_outer (fn_attributes f) && wf_opt wf_vis (fn_vis f)
  && wf_qualifiers (fn_qualifiers_ f) && id_is "fn" (fn_kw f)
  && wf_opt wf_generics (fn_generics f)
  && delim_eqb (gs_delim (fn_parens f)) Parenthesis && wf_punctuated wf_fn_param (fn_params f)
  && (match fn_arrow f, fn_ret f with
      | Some (dash, tip), Some ty =>
          p_is "-" dash && p_is ">" tip && run_closed end_return (te_tokens ty)
      | None, None => true
      | _, _ => false
      end)
  && wf_opt wf_where (fn_where f)
  && (match fn_body f, fn_semicolon f with
      | Some g, None => delim_eqb (g_delim g) Brace
      | None, Some p => p_is ";" p
      | _, _ => false
      end).

(** Names that start another kind of item, and so cannot name a macro. *)
Definition item_keywords : list string :=
  ["struct"; "enum"; "union"; "mod"; "trait"; "impl"; "static"; "use"; "default"; "const";
   "async"; "unsafe"; "extern"; "fn"; "type"]%string.
Definition member_keywords : list string :=
  ["default"; "const"; "static"; "async"; "unsafe"; "extern"; "fn"; "type"]%string.
Definition vis_keywords : list string := ["pub"; "crate"]%string.
Definition shape_macro (keywords : list string) (m : macro) : bool :=
  wf_outer (ma_attributes m) && negb (id_in keywords (ma_name m))
  && p_is "!" (ma_bang m)
  && (match ma_semicolon m with
      | Some p => p_is ";" p && delim_eqb (gs_delim (ma_group m)) Parenthesis
      | None => delim_eqb (gs_delim (ma_group m)) Brace
      end).
(** Second exception: a macro named [pub] or [crate] (only after a dropped visibility). *)
Definition stable_macro (m : macro) : bool := negb (id_in vis_keywords (ma_name m)).

Definition end_const_ty (t : tok) : bool := is_punct "=" t || is_punct ";" t.
Definition end_semicolon (t : tok) : bool := is_punct ";" t.
Definition shape_constant (c : constant) : bool :=
  wf_outer (co_attributes c) && wf_opt wf_vis (co_vis c)
  && ((id_is "const" (co_kw c) && negb (some (co_mut c))
       && negb (id_in ["async"; "unsafe"; "extern"; "fn"; "mut"]%string (co_name c)))
      || (id_is "static" (co_kw c)
          && (match co_mut c with
              | Some m => id_is "mut" m && id_is "mut" (co_name c)
                          && N.eqb (id_span m) (id_span (co_name c))
              | None => negb (id_is "mut" (co_name c))
              end)))
  && p_is ":" (co_colon c) && run_closed end_const_ty (te_tokens (co_ty c))
  && (match co_equals c, co_init c with
      | Some p, Some v => p_is "=" p && nonempty (ve_tokens v) && run_closed end_semicolon (ve_tokens v)
      | Some p, None => p_is "=" p
      | None, None => true
      | None, Some _ => false
      end)
  && p_is ";" (co_semicolon c).
(** Third exception: [static mut: T], whose [mut] is both [tk_mut] and the name. *)
Definition stable_constant (c : constant) : bool := negb (some (co_mut c)).

Definition wf_type_alias (t : type_alias) : bool :=
  wf_outer (ta_attributes t) && wf_opt wf_vis (ta_vis t)
  && id_is "type" (ta_type t)
  && wf_opt (wf_bound end_const_ty) (ta_bound t)
  && (match ta_equals t, ta_init t with
      | Some p, Some ty => p_is "=" p && run_closed end_semicolon (te_tokens ty)
      | None, None => true
      | _, _ => false
      end)
  && p_is ";" (ta_semicolon t).

Definition wf_use (u : use_decl) : bool :=
  wf_outer (us_attributes u) && wf_opt wf_vis (us_vis u)
  && id_is "use" (us_use u) && run_closed end_semicolon (te_tokens (us_tree u))
  && p_is ";" (us_semicolon u).

(** ** Bodies *)
Definition shape_impl_member (allow_static : bool) (m : impl_member) : bool :=
  match m with
  | IMFunction f => wf_function f
  | IMConstant c => shape_constant c && (allow_static || id_is "const" (co_kw c))
  | IMType t => wf_type_alias t
  | IMMacro m => shape_macro member_keywords m && stable_macro m
  end.
Definition stable_impl_member (m : impl_member) : bool :=
  match m with IMConstant c => stable_constant c | _ => true end.
Definition impl_of_trait_member (m : trait_member) : impl_member :=
  match m with
  | TMFunction f => IMFunction f
  | TMConstant c => IMConstant c
  | TMType t => IMType t
  | TMMacro m => IMMacro m
  end.
Definition shape_trait_member (m : trait_member) : bool :=
  shape_impl_member false (impl_of_trait_member m).
Definition stable_trait_member (m : trait_member) : bool :=
  stable_impl_member (impl_of_trait_member m).

Definition end_supertraits (t : tok) : bool := is_ident "where" t || is_group Brace t.
Definition shape_trait (t : trait_) : bool :=
  wf_outer (tr_attributes t) && wf_opt wf_vis (tr_vis t)
  && wf_opt (id_is "unsafe") (tr_unsafe t) && id_is "trait" (tr_trait t)
  && wf_opt wf_generics (tr_generics t) && wf_opt (wf_bound end_supertraits) (tr_bound t)
  && wf_opt wf_where (tr_where t) && delim_eqb (gs_delim (tr_braces t)) Brace
  && wf_inner_attrs (tr_inner_attributes t) && forallb shape_trait_member (tr_items t).

Definition end_impl_header (t : tok) : bool := is_group Brace t || is_ident "for" t || is_ident "where" t.
Definition end_impl_self (t : tok) : bool := is_group Brace t || is_ident "where" t.
Definition shape_impl (i : impl_) : bool :=
  wf_outer (im_attributes i)
  && wf_opt (id_is "unsafe") (im_unsafe i) && id_is "impl" (im_impl i)
  && wf_opt wf_generics (im_generics i)
  && (match im_trait i, im_for i with
      | Some ty, Some f =>
          run_closed end_impl_header (te_tokens ty) && id_is "for" f
          && run_closed end_impl_self (te_tokens (im_self i))
          && (some (im_generics i) || negb (head_is (is_punct "<") (te_tokens ty)))
      | None, None =>
          run_closed end_impl_header (te_tokens (im_self i))
          && (some (im_generics i) || negb (head_is (is_punct "<") (te_tokens (im_self i))))
      | _, _ => false
      end)
  && wf_opt wf_where (im_where i) && delim_eqb (gs_delim (im_braces i)) Brace
  && wf_inner_attrs (im_inner_attributes i) && forallb (shape_impl_member false) (im_items i).

Definition shape_extern_block (b : extern_block) : bool :=
  wf_outer (eb_attributes b) && wf_opt wf_vis (eb_vis b)
  && wf_opt (id_is "unsafe") (eb_unsafe b) && id_is "extern" (eb_extern b)
  && delim_eqb (gs_delim (eb_braces b)) Brace
  && wf_inner_attrs (eb_inner_attributes b) && forallb (shape_impl_member true) (eb_items b).

Definition wf_extern_crate (c : extern_crate) : bool :=
  wf_outer (ec_attributes c) && wf_opt wf_vis (ec_vis c)
  && id_is "extern" (ec_extern c) && id_is "crate" (ec_crate c)
  && (match ec_as c, ec_alias c with
      | Some k, Some _ => id_is "as" k
      | None, None => true
      | _, _ => false
      end)
  && negb (some (ec_underscore c)) && p_is ";" (ec_semicolon c).

(** ** Modules and items *)
Definition shape_module {I} (shape : I -> bool) (m : module_ I) : bool :=
  wf_outer (mo_attributes m) && wf_opt wf_vis (mo_vis m)
  && wf_opt (id_is "unsafe") (mo_unsafe m) && id_is "mod" (mo_mod m)
  && (match mo_semicolon m, mo_braces m with
      | Some p, None =>
          p_is ";" p && negb (nonempty (mo_inner_attributes m)) && negb (nonempty (mo_members m))
      | None, Some b =>
          delim_eqb (gs_delim b) Brace && wf_inner_attrs (mo_inner_attributes m)
          && forallb shape (mo_members m)
      | _, _ => false
      end).

Fixpoint shape_item (i : item) : bool :=
  match i with
  | IStruct s => shape_struct s
  | IEnum e => wf_enum e
  | IUnion u => wf_union u
  | IModule m => shape_module shape_item m
  | ITrait t => shape_trait t
  | IImpl i => shape_impl i
  | ITypeAlias t => wf_type_alias t
  | IFunction f => wf_function f
  | IConstant c => shape_constant c
  | IUse u => wf_use u
  | IMacro m => shape_macro item_keywords m
  | IExternBlock b => shape_extern_block b
  | IExternCrate c => wf_extern_crate c
  end.

(** What may follow an item in a stream. *)
Definition follow_ok (i : item) (rest : list tok) : bool :=
  match i with IStruct s => struct_follow s rest | _ => true end.

(** Fourth exception: in a module, an item whose printed form continues the previous
    struct (only possible for a macro named [where] after a dropped visibility). *)
Fixpoint members_follow (l : list item) : bool :=
  match l with
  | [] => true
  | i :: r => follow_ok i (flat_map print_item r) && members_follow r
  end.

Fixpoint stable_item (i : item) : bool :=
  match i with
  | IStruct s => stable_struct s
  | IConstant c => stable_constant c
  | IMacro m => stable_macro m
  | ITrait t => forallb stable_trait_member (tr_items t)
  | IImpl i => forallb stable_impl_member (im_items i)
  | IExternBlock b => forallb stable_impl_member (eb_items b)
  | IModule m => forallb stable_item (mo_members m) && members_follow (mo_members m)
  | _ => true
  end.

Definition wf_item (i : item) : bool := shape_item i && stable_item i.

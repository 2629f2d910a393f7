(** Specification: a fragment of the grammar of Rust (The Rust Reference, chapters Types,
    Paths, Trait and lifetime bounds, Generic parameters, Items), written on token lists and
    independent of the crate.

    Three things that Rust allows at any place are tracked by flags, because the crate does
    not accept them everywhere: an arrow [->], the keyword [for] (higher-ranked) and a path
    separator [::].  The flags only concern tokens outside of angle brackets and groups;
    what is between ['<'] and ['>'] is unrestricted ([anywhere]). *)
From Verif Require Export Print ScanSpec.
Local Open Scope string_scope.
Local Open Scope list_scope.

Record flags := mkFlags { fl_arrow : bool; fl_for : bool; fl_colons : bool }.
Definition anywhere : flags := mkFlags true true true.

(** Strict keywords that cannot be a path segment or a name. *)
Definition reserved : list string :=
  ["as"; "break"; "const"; "continue"; "else"; "enum"; "extern"; "false"; "fn"; "for"; "if"; "impl"; "in";
   "let"; "loop"; "match"; "mod"; "move"; "mut"; "pub"; "ref"; "return"; "static"; "struct"; "trait";
   "true"; "type"; "unsafe"; "use"; "where"; "while"; "async"; "await"; "dyn"].
(** A path segment name; [crate], [self], [Self] and [super] are among them, and [_] is
    counted as one. *)
Definition segment_name (i : ident) : Prop := ~ In (id_str i) reserved.
Definition word (k : string) (i : ident) : Prop := id_str i = k.
Definition mark (c : ascii) (p : punct) : Prop := p_char p = c.

Definition lifetime_name (i : ident) : Prop := id_str i = "static" \/ ~ In (id_str i) reserved.
Definition lifetime_toks (ts : list tok) : Prop :=
  exists q i, mark "'" q /\ lifetime_name i /\ ts = [TPunct q; TIdent i].
Definition optional (X : list tok -> Prop) (ts : list tok) : Prop := ts = [] \/ X ts.
Definition keyword_in (l : list string) (ts : list tok) : Prop := exists i, In (id_str i) l /\ ts = [TIdent i].
(** [::] *)
Definition separator (ts : list tok) : Prop := exists p q, mark ":" p /\ mark ":" q /\ ts = [TPunct p; TPunct q].
(** [for<'a, 'b>] *)
Inductive lifetime_list : list tok -> Prop :=
| ll_nil : lifetime_list []
| ll_one a : lifetime_toks a -> lifetime_list a
| ll_cons a c r : lifetime_toks a -> mark "," c -> lifetime_list r -> lifetime_list (a ++ TPunct c :: r).
Definition for_lifetimes (ts : list tok) : Prop :=
  exists k l a r, word "for" k /\ mark "<" l /\ lifetime_list a /\ mark ">" r
  /\ ts = TIdent k :: TPunct l :: a ++ [TPunct r].
(** [unsafe], [extern], [extern "C"] in front of [fn]. *)
Definition fn_type_head (ts : list tok) : Prop :=
  exists u e abi k, optional (keyword_in ["unsafe"]) u /\ optional (keyword_in ["extern"]) e
  /\ (abi = [] \/ exists l, abi = [TLit l]) /\ word "fn" k /\ ts = u ++ e ++ abi ++ [TIdent k].

Inductive rust_type : flags -> list tok -> Prop :=
(** A path such as [a::b<C>::d]. *)
| ty_path F ts : rust_path F ts -> rust_type F ts
(** [::a::b] *)
| ty_global F s ts : fl_colons F = true -> separator s -> rust_path F ts -> rust_type F (s ++ ts)
(** [<T>::a], [<T as Trait>::a] *)
| ty_qualified F l q r s ts : fl_colons F = true -> mark "<" l -> rust_self q -> mark ">" r -> separator s ->
    rust_path F ts -> rust_type F (TPunct l :: q ++ TPunct r :: s ++ ts)
(** [&'a mut T] *)
| ty_reference F a l m ts : mark "&" a -> optional lifetime_toks l -> optional (keyword_in ["mut"]) m ->
    rust_type F ts -> rust_type F (TPunct a :: l ++ m ++ ts)
(** [*const T], [*mut T] *)
| ty_pointer F a k ts : mark "*" a -> keyword_in ["const"; "mut"] k -> rust_type F ts -> rust_type F (TPunct a :: k ++ ts)
(** Tuples, parenthesised types, arrays, slices, and types pasted by a macro variable. *)
| ty_group F g : g_delim g <> Brace -> rust_type F [TGroup g]
(** [!] *)
| ty_never F p : mark "!" p -> rust_type F [TPunct p]
(** [for<'a> unsafe extern "C" fn(A) -> B] *)
| ty_fn F fl hd g ret : (fl = [] \/ (fl_for F = true /\ for_lifetimes fl)) -> fn_type_head hd -> g_delim g = Parenthesis ->
    rust_return F ret -> rust_type F (fl ++ hd ++ TGroup g :: ret)
(** [dyn A + B], [impl A + B] *)
| ty_object F k ts : keyword_in ["dyn"; "impl"] k -> rust_bounds F ts -> rust_type F (k ++ ts)
(** [m!(..)], [m![..]] *)
| ty_macro F ts b g : rust_path F ts -> mark "!" b -> g_delim g <> Brace -> rust_type F (ts ++ [TPunct b; TGroup g])
(** Nothing, or [-> T]. *)
with rust_return : flags -> list tok -> Prop :=
| ret_none F : rust_return F []
| ret_some F d r ts : fl_arrow F = true -> mark "-" d -> mark ">" r -> rust_type F ts -> rust_return F (TPunct d :: TPunct r :: ts)
(** What is between [<] and [>] in [<T as Trait>]. *)
with rust_self : list tok -> Prop :=
| self_type ts : rust_type anywhere ts -> rust_self ts
| self_as ts k us : rust_type anywhere ts -> word "as" k -> rust_type anywhere us -> rust_self (ts ++ TIdent k :: us)
with rust_path : flags -> list tok -> Prop :=
| path_one F s : rust_segment F s -> rust_path F s
| path_more F s c r : fl_colons F = true -> rust_segment F s -> separator c -> rust_path F r -> rust_path F (s ++ c ++ r)
with rust_segment : flags -> list tok -> Prop :=
| seg_name F i : segment_name i -> rust_segment F [TIdent i]
(** [Vec<T>], [Vec::<T>] *)
| seg_args F i c l a r : segment_name i -> (c = [] \/ (fl_colons F = true /\ separator c)) -> mark "<" l -> rust_args a -> mark ">" r ->
    rust_segment F (TIdent i :: c ++ TPunct l :: a ++ [TPunct r])
(** [Fn(A) -> B] *)
| seg_fn F i g ret : segment_name i -> g_delim g = Parenthesis -> rust_return F ret -> rust_segment F (TIdent i :: TGroup g :: ret)
with rust_args : list tok -> Prop :=
| args_nil : rust_args []
| args_one a : rust_arg a -> rust_args a
| args_cons a c r : rust_arg a -> mark "," c -> rust_args r -> rust_args (a ++ TPunct c :: r)
with rust_arg : list tok -> Prop :=
| arg_lifetime ts : lifetime_toks ts -> rust_arg ts
| arg_type ts : rust_type anywhere ts -> rust_arg ts
| arg_literal l : rust_arg [TLit l]
| arg_negative p l : mark "-" p -> rust_arg [TPunct p; TLit l]
| arg_block g : g_delim g = Brace -> rust_arg [TGroup g]
(** [Item = T], [Item<'a> = T] *)
| arg_binding s e ts : rust_segment anywhere s -> mark "=" e -> rust_type anywhere ts -> rust_arg (s ++ TPunct e :: ts)
(** [Item: A + B] *)
| arg_bound s c ts : rust_segment anywhere s -> mark ":" c -> rust_bounds anywhere ts -> rust_arg (s ++ TPunct c :: ts)
with rust_bounds : flags -> list tok -> Prop :=
| bounds_nil F : rust_bounds F []
| bounds_one F b : rust_bound F b -> rust_bounds F b
| bounds_cons F b p r : rust_bound F b -> mark "+" p -> rust_bounds F r -> rust_bounds F (b ++ TPunct p :: r)
with rust_bound : flags -> list tok -> Prop :=
| bound_lifetime F ts : lifetime_toks ts -> rust_bound F ts
| bound_trait F fl s ts : (fl = [] \/ (fl_for F = true /\ for_lifetimes fl)) -> (s = [] \/ (fl_colons F = true /\ separator s)) -> rust_path F ts ->
    rust_bound F (fl ++ s ++ ts)
| bound_maybe F q ts : mark "?" q -> rust_path F ts -> rust_bound F (TPunct q :: ts)
| bound_paren F g : g_delim g = Parenthesis -> rust_bound F [TGroup g].

Scheme rust_type_ind' := Minimality for rust_type Sort Prop
  with rust_return_ind' := Minimality for rust_return Sort Prop
  with rust_self_ind' := Minimality for rust_self Sort Prop
  with rust_path_ind' := Minimality for rust_path Sort Prop
  with rust_segment_ind' := Minimality for rust_segment Sort Prop
  with rust_args_ind' := Minimality for rust_args Sort Prop
  with rust_arg_ind' := Minimality for rust_arg Sort Prop
  with rust_bounds_ind' := Minimality for rust_bounds Sort Prop
  with rust_bound_ind' := Minimality for rust_bound Sort Prop.
Combined Scheme rust_syntax_ind from rust_type_ind', rust_return_ind', rust_self_ind', rust_path_ind', rust_segment_ind',
  rust_args_ind', rust_arg_ind', rust_bounds_ind', rust_bound_ind'.

(** ** Items *)
Definition no_arrow : flags := mkFlags false true true.
Definition no_for : flags := mkFlags true false true.
Definition no_colons : flags := mkFlags true true false.
(** A name that a declaration may introduce. *)
Definition declared_name (i : ident) : Prop := ~ In (id_str i) (reserved ++ ["crate"; "self"; "Self"; "super"]).
Definition if_some {A} (X : A -> Prop) (o : option A) : Prop := match o with Some x => X x | None => True end.
(** Separated by commas, with or without a trailing one (an absent one is stored as the default comma). *)
Fixpoint separated {A} (skip_last : bool) (l : list (A * punct)) : Prop :=
  match l with
  | [] => skip_last = false
  | [(_, c)] => if skip_last then c = mkPunct "," Alone call_site else mark "," c
  | (_, c) :: r => mark "," c /\ separated skip_last r
  end.
Definition rust_list {A} (X : A -> Prop) (p : punctuated A) : Prop :=
  separated (pu_skip_last p) (pu_inner p) /\ Forall (fun x => X (fst x)) (pu_inner p).

Definition rust_attribute (inner : bool) (a : attribute) : Prop :=
  mark "#" (at_hash a) /\ (match at_bang a with Some b => inner = true /\ mark "!" b | None => inner = false end)
  /\ gs_delim (at_brackets a) = Bracket
  /\ Forall (fun t => match t with TIdent _ => True | TPunct p => mark ":" p | _ => False end) (at_path a)
  /\ match at_value a with AVEquals e _ => mark "=" e | _ => True end.
Definition rust_outer : list attribute -> Prop := Forall (rust_attribute false).
(** [pub], [crate], [pub(..)] *)
Definition rust_vis (v : vis_marker) : Prop :=
  exists i, vis_token1 v = TIdent i
  /\ match vis_token2 v with
     | None => id_str i = "pub" \/ id_str i = "crate"
     | Some (TGroup g) => id_str i = "pub" /\ g_delim g = Parenthesis
     | Some _ => False
     end.

Definition rust_bound_of (F : flags) (b : generic_bound) : Prop := mark ":" (gb_colon b) /\ rust_bounds F (gb_tokens b).
Definition rust_generic_param (p : generic_param) : Prop :=
  match gp_prefix p with
  | None => declared_name (gp_name p) /\ if_some (rust_bound_of no_arrow) (gp_bound p)
  | Some (TPunct q) => mark "'" q /\ lifetime_name (gp_name p) /\ if_some (rust_bound_of no_arrow) (gp_bound p)
  | Some (TIdent k) => word "const" k /\ declared_name (gp_name p) /\ exists b, gp_bound p = Some b /\ mark ":" (gb_colon b) /\ rust_type no_arrow (gb_tokens b)
  | Some _ => False
  end.
Definition rust_generics (g : generic_param_list) : Prop :=
  mark "<" (gpl_l g) /\ rust_list rust_generic_param (gpl_params g) /\ mark ">" (gpl_r g).
Definition rust_left (ts : list tok) : Prop :=
  lifetime_toks ts \/ exists fl t, (fl = [] \/ for_lifetimes fl) /\ rust_type no_colons t /\ ts = fl ++ t.
Definition rust_predicate (w : where_predicate) : Prop := rust_left (wp_left w) /\ rust_bound_of anywhere (wp_bound w).
Definition rust_where (w : where_clause) : Prop := word "where" (wc_where w) /\ rust_list rust_predicate (wc_items w).

Definition starts (t : tok -> Prop) (ts : list tok) : Prop := match ts with x :: _ => t x | [] => False end.
(** Without visibility the type of a tuple field must not start with [crate]; after a plain
    [pub] it must not be a tuple (properties C19 and C20). *)
Definition rust_tuple_field (f : tuple_field) : Prop :=
  rust_outer (tf_attributes f) /\ if_some rust_vis (tf_vis f) /\ rust_type anywhere (te_tokens (tf_ty f))
  /\ match tf_vis f with
     | None => ~ starts (fun t => exists i, t = TIdent i /\ id_str i = "crate") (te_tokens (tf_ty f))
     | Some v => vis_token2 v = None -> (exists i, vis_token1 v = TIdent i /\ id_str i = "pub") ->
                 ~ starts (fun t => exists g, t = TGroup g /\ g_delim g = Parenthesis) (te_tokens (tf_ty f))
     end.
Definition rust_named_field (f : named_field) : Prop :=
  rust_outer (nf_attributes f) /\ if_some rust_vis (nf_vis f) /\ declared_name (nf_name f) /\ mark ":" (nf_colon f)
  /\ rust_type anywhere (te_tokens (nf_ty f)).
Definition rust_fields (f : fields) : Prop :=
  match f with
  | FUnit => True
  | FTuple f => gs_delim (tfs_parens f) = Parenthesis /\ rust_list rust_tuple_field (tfs_fields f)
  | FNamed f => gs_delim (nfs_braces f) = Brace /\ rust_list rust_named_field (nfs_fields f)
  end.
Definition rust_struct (s : struct_) : Prop :=
  rust_outer (st_attributes s) /\ if_some rust_vis (st_vis s) /\ word "struct" (st_struct s) /\ if_some rust_generics (st_generics s)
  /\ if_some rust_where (st_where s) /\ rust_fields (st_fields s)
  /\ match st_fields s with
     | FNamed _ => st_semicolon s = None
     | _ => exists p, st_semicolon s = Some p /\ mark ";" p
     end.
Definition rust_variant (v : enum_variant) : Prop :=
  rust_outer (ev_attributes v) /\ if_some rust_vis (ev_vis v) /\ declared_name (ev_name v) /\ rust_fields (ev_fields v)
  /\ if_some (fun x => mark "=" (vv_equal x)) (ev_value v).
Definition rust_enum (e : enum_) : Prop :=
  rust_outer (en_attributes e) /\ if_some rust_vis (en_vis e) /\ word "enum" (en_enum e) /\ if_some rust_generics (en_generics e)
  /\ if_some rust_where (en_where e) /\ gs_delim (en_braces e) = Brace /\ rust_list rust_variant (en_variants e).
Definition rust_union (u : union_) : Prop :=
  rust_outer (un_attributes u) /\ if_some rust_vis (un_vis u) /\ word "union" (un_union u) /\ if_some rust_generics (un_generics u)
  /\ if_some rust_where (un_where u) /\ rust_fields (FNamed (un_fields u)).

Definition rust_param (p : fn_param) : Prop :=
  match p with
  | FPReceiver r =>
      rust_outer (fr_attributes r) /\ if_some (mark "&") (fr_ref r) /\ if_some (fun l => mark "'" (lt_apostrophe l)) (fr_lifetime r)
      /\ if_some (word "mut") (fr_mut r) /\ word "self" (fr_self r)
  | FPTyped t =>
      rust_outer (ft_attributes t) /\ if_some (word "mut") (ft_mut t) /\ declared_name (ft_name t) /\ mark ":" (ft_colon t)
      /\ rust_type anywhere (te_tokens (ft_ty t))
  end.
Definition rust_qualifiers (q : fn_qualifiers) : Prop :=
  if_some (word "default") (fq_default q) /\ if_some (word "const") (fq_const q) /\ if_some (word "async") (fq_async q)
  /\ if_some (word "unsafe") (fq_unsafe q) /\ if_some (word "extern") (fq_extern q) /\ (fq_extern q = None -> fq_abi q = None).
Definition rust_function (f : function) : Prop :=
  rust_outer (fn_attributes f) /\ if_some rust_vis (fn_vis f) /\ rust_qualifiers (fn_qualifiers_ f) /\ word "fn" (fn_kw f)
  /\ if_some rust_generics (fn_generics f) /\ gs_delim (fn_parens f) = Parenthesis /\ rust_list rust_param (fn_params f)
  /\ match fn_arrow f, fn_ret f with
     | Some (d, r), Some t => mark "-" d /\ mark ">" r /\ rust_type anywhere (te_tokens t)
     | None, None => True
     | _, _ => False
     end
  /\ if_some rust_where (fn_where f)
  /\ match fn_body f, fn_semicolon f with
     | Some g, None => g_delim g = Brace
     | None, Some p => mark ";" p
     | _, _ => False
     end.
(** Expressions whose angle brackets match: every ['<'] has its ['>'], and every ['>'] its ['<']
    or a ['-'] directly before it.  [;] only occurs between brackets ([inside]). *)
Inductive matched : bool -> list tok -> Prop :=
| ma_nil b : matched b []
| ma_tok b t r : is_punct "<" t = false -> is_punct ">" t = false -> (is_punct ";" t = true -> b = true) ->
    matched b r -> matched b (t :: r)
| ma_arrow b d g r : mark "-" d -> mark ">" g -> matched b r -> matched b (TPunct d :: TPunct g :: r)
| ma_angle b l inner g r : mark "<" l -> matched true inner -> after_dash inner = false -> mark ">" g ->
    matched b r -> matched b (TPunct l :: inner ++ TPunct g :: r).
(** Values: at least one token, with matching angle brackets ([f::<A>(..)], but not [a < b] or [1 << 3], property C85). *)
Definition rust_value (ts : list tok) : Prop := ts <> [] /\ matched false ts.
Definition rust_constant (static_allowed : bool) (k : constant) : Prop :=
  rust_outer (co_attributes k) /\ if_some rust_vis (co_vis k) /\ (word "const" (co_kw k) \/ (static_allowed = true /\ word "static" (co_kw k)))
  /\ co_mut k = None /\ declared_name (co_name k) /\ mark ":" (co_colon k) /\ rust_type anywhere (te_tokens (co_ty k))
  /\ match co_equals k, co_init k with
     | Some e, Some v => mark "=" e /\ rust_value (ve_tokens v)
     | None, None => True
     | _, _ => False
     end
  /\ mark ";" (co_semicolon k).
Definition rust_alias (t : type_alias) : Prop :=
  rust_outer (ta_attributes t) /\ if_some rust_vis (ta_vis t) /\ word "type" (ta_type t) /\ if_some (rust_bound_of anywhere) (ta_bound t)
  /\ match ta_equals t, ta_init t with
     | Some e, Some ty => mark "=" e /\ rust_type anywhere (te_tokens ty)
     | None, None => True
     | _, _ => False
     end
  /\ mark ";" (ta_semicolon t).
(** Macro calls with a single name; [m!(..);] or [m! {..}]. *)
Definition rust_macro (m : macro) : Prop :=
  rust_outer (ma_attributes m) /\ declared_name (ma_name m) /\ ~ In (id_str (ma_name m)) ["union"; "default"] /\ mark "!" (ma_bang m)
  /\ match ma_semicolon m with
     | Some p => mark ";" p /\ gs_delim (ma_group m) = Parenthesis
     | None => gs_delim (ma_group m) = Brace
     end.
(** [a::b], [a::{..}], [a::*], [a as b] *)
Definition rust_use (u : use_decl) : Prop :=
  rust_outer (us_attributes u) /\ if_some rust_vis (us_vis u) /\ word "use" (us_use u)
  /\ Forall (fun t => match t with TIdent _ => True | TPunct p => mark ":" p \/ mark "*" p | TGroup g => g_delim g = Brace | TLit _ => False end)
       (te_tokens (us_tree u))
  /\ mark ";" (us_semicolon u).
Definition rust_extern_crate (c : extern_crate) : Prop :=
  rust_outer (ec_attributes c) /\ if_some rust_vis (ec_vis c) /\ word "extern" (ec_extern c) /\ word "crate" (ec_crate c)
  /\ match ec_as c, ec_alias c with Some k, Some _ => word "as" k | None, None => True | _, _ => False end
  /\ ec_underscore c = None /\ mark ";" (ec_semicolon c).

Definition rust_member (static_allowed : bool) (m : impl_member) : Prop :=
  match m with
  | IMFunction f => rust_function f
  | IMConstant k => rust_constant static_allowed k
  | IMType t => rust_alias t
  | IMMacro m => rust_macro m
  end.
Definition rust_trait_member (m : trait_member) : Prop :=
  match m with
  | TMFunction f => rust_function f
  | TMConstant k => rust_constant false k
  | TMType t => rust_alias t
  | TMMacro m => rust_macro m
  end.
Definition rust_trait (t : trait_) : Prop :=
  rust_outer (tr_attributes t) /\ if_some rust_vis (tr_vis t) /\ if_some (word "unsafe") (tr_unsafe t) /\ word "trait" (tr_trait t)
  /\ if_some rust_generics (tr_generics t) /\ if_some (rust_bound_of anywhere) (tr_bound t) /\ if_some rust_where (tr_where t)
  /\ gs_delim (tr_braces t) = Brace /\ Forall (rust_attribute true) (tr_inner_attributes t) /\ Forall rust_trait_member (tr_items t).
(** In front of the [for] of a trait impl, and in an inherent impl, no other [for]
    (property C75); without generics the header must not start with ['<'] (it would start
    the generics, as in Rust). *)
Definition rust_impl (i : impl_) : Prop :=
  rust_outer (im_attributes i) /\ if_some (word "unsafe") (im_unsafe i) /\ word "impl" (im_impl i) /\ if_some rust_generics (im_generics i)
  /\ match im_trait i, im_for i with
     | Some t, Some f =>
         word "for" f /\ rust_type anywhere (te_tokens (im_self i))
         /\ (exists n ts, (n = [] \/ exists p, mark "!" p /\ n = [TPunct p]) /\ rust_type no_for ts /\ te_tokens t = n ++ ts)
         /\ (im_generics i = None -> ~ starts (fun t => exists p, t = TPunct p /\ mark "<" p) (te_tokens t))
     | None, None =>
         rust_type no_for (te_tokens (im_self i))
         /\ (im_generics i = None -> ~ starts (fun t => exists p, t = TPunct p /\ mark "<" p) (te_tokens (im_self i)))
     | _, _ => False
     end
  /\ if_some rust_where (im_where i) /\ gs_delim (im_braces i) = Brace /\ Forall (rust_attribute true) (im_inner_attributes i)
  /\ Forall (rust_member false) (im_items i).
Definition rust_extern_block (b : extern_block) : Prop :=
  rust_outer (eb_attributes b) /\ if_some rust_vis (eb_vis b) /\ if_some (word "unsafe") (eb_unsafe b) /\ word "extern" (eb_extern b)
  /\ gs_delim (eb_braces b) = Brace /\ Forall (rust_attribute true) (eb_inner_attributes b) /\ Forall (rust_member true) (eb_items b).
Fixpoint rust_item (i : item) : Prop :=
  match i with
  | IStruct s => rust_struct s
  | IEnum e => rust_enum e
  | IUnion u => rust_union u
  | IModule m =>
      rust_outer (mo_attributes m) /\ if_some rust_vis (mo_vis m) /\ if_some (word "unsafe") (mo_unsafe m) /\ word "mod" (mo_mod m)
      /\ match mo_semicolon m, mo_braces m with
         | Some p, None => mark ";" p /\ mo_inner_attributes m = [] /\ mo_members m = []
         | None, Some b => gs_delim b = Brace /\ Forall (rust_attribute true) (mo_inner_attributes m)
         | _, _ => False
         end
      /\ (fix each (l : list item) : Prop := match l with [] => True | x :: r => rust_item x /\ each r end) (mo_members m)
  | ITrait t => rust_trait t
  | IImpl i => rust_impl i
  | ITypeAlias t => rust_alias t
  | IFunction f => rust_function f
  | IConstant k => rust_constant true k
  | IUse u => rust_use u
  | IMacro m => rust_macro m
  | IExternBlock b => rust_extern_block b
  | IExternCrate c => rust_extern_crate c
  end.

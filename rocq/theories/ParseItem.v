(** src/parse_impl.rs, src/parse_mod.rs, src/parse_extern.rs and src/parse.rs. *)
From Verif Require Export ParseFn.

(** The closures at src/parse_impl.rs:43, 88-91 and 51, 99. *)
Definition end_eq_or_semi (t : tok) : bool := is_punct "=" t || is_punct ";" t.
Definition end_semi (t : tok) : bool := is_punct ";" t.

(** [parse_const_or_static], src/parse_impl.rs:19-76.  [tk_mut] is peeked, not consumed. *)
Definition parse_const_or_static (attributes : list attribute) (vis : option vis_marker)
  : parser constant := fun ts =>
  do ((kw, is_const), ts) <-
    match ts with
    | TIdent i :: r =>
        if id_is "const" i then Ret ((i, true), r)
        else if id_is "static" i then Ret ((i, false), r)
        else Panic PConstOrStatic
    | _ => Panic PConstOrStatic
    end ;;
  do tk_mut <-
    match ts with
    | TIdent i :: _ =>
        if id_is "mut" i then (if is_const : bool then Panic PConstMut else Ret (Some i)) else Ret None
    | _ => Ret None
    end ;;
  do (name, ts) <- parse_any_ident "const/static" ts ;;
  do (colon, ts) <- parse_punct ":" "const/static" ts ;;
  do (ty, ts) <- consume_stuff_until end_eq_or_semi true ts ;;
  let (equals, ts) := consume_punct "=" ts in
  do (value, ts) <- consume_stuff_until end_semi true ts ;;
  let init := match value with [] => None | _ :: _ => Some (mkValueExpr value) end in
  do (semi, ts) <- parse_punct ";" "const/static" ts ;;
  Ret (mkConstant attributes vis kw tk_mut name colon (mkTypeExpr ty) equals init semi, ts).

(** [consume_ty_definition], src/parse_impl.rs:78-119 (it never returns [None]). *)
Definition consume_ty_definition (attributes : list attribute) (vis : option vis_marker)
  : parser (option type_alias) := fun ts =>
  do (kw, ts) <- parse_ident "type" "associated type" ts ;;
  do (name, ts) <- parse_any_ident "associated type" ts ;;
  do (bound, ts) <- consume_bound end_eq_or_semi ts ;;
  let (equals, ts) := consume_punct "=" ts in
  do (init, ts) <-
    match equals with
    | Some _ =>
        do (ty, ts) <- consume_stuff_until end_semi true ts ;; Ret (Some (mkTypeExpr ty), ts)
    | None => Ret (None, ts)
    end ;;
  do (semi, ts) <- parse_punct ";" "associated type" ts ;;
  Ret (Some (mkTypeAlias attributes vis kw name bound equals init semi), ts).

(** [parse_use_declaration], src/parse_mod.rs:68-95. *)
Definition parse_use_declaration (attributes : list attribute) (vis : option vis_marker)
  : parser use_decl := fun ts =>
  do (kw, ts) <- parse_ident "use" "use declaration" ts ;;
  do (tree, ts) <- consume_stuff_until end_semi true ts ;;
  do (semi, ts) <- parse_punct ";" "use declaration" ts ;;
  Ret (mkUse attributes vis kw (mkTypeExpr tree) semi, ts).

(** [consume_extern_crate], src/parse_extern.rs:14-52.  [alias] is always [Some] at line 29,
    so the branch at line 30 is not represented. *)
Definition consume_extern_crate (attributes : list attribute) (vis : option vis_marker)
  : parser (option extern_crate) := fun ts =>
  match consume_ident "extern" ts with
  | (None, ts) => Ret (None, ts)
  | (Some kw, ts) =>
      match consume_ident "crate" ts with
      | (None, ts) => Ret (None, ts)
      | (Some kw2, ts) =>
          do (name, ts) <- parse_any_ident "extern crate" ts ;;
          let (tk_as, ts) := consume_ident "as" ts in
          do (alias, ts) <-
            match tk_as with
            | Some _ => do (a, ts) <- parse_any_ident "extern crate: alias" ts ;; Ret (Some a, ts)
            | None => Ret (None, ts)
            end ;;
          do (semi, ts) <- parse_punct ";" "extern crate" ts ;;
          Ret (Some (mkExternCrate attributes vis kw kw2 name tk_as alias None semi), ts)
      end
  end.

(** [parse_extern_crate], src/parse_extern.rs:6-12. *)
Definition parse_extern_crate (attributes : list attribute) (vis : option vis_marker)
  : parser extern_crate := fun ts =>
  do (c, ts) <- consume_extern_crate attributes vis ts ;;
  match c with Some c => Ret (c, ts) | None => Panic PExternCrate end.

(** Shared shape of the loops of [parse_impl_body] (src/parse_impl.rs:196-224) and
    [parse_mod] (src/parse_mod.rs:40-47): read elements until the end of the group. *)
Fixpoint many_loop {A} (elem : parser A) (fuel : nat) (ts : list tok) : outcome (list A) :=
  match fuel with
  | O => OutOfFuel
  | S fuel =>
      match ts with
      | [] => Ret []
      | _ :: _ =>
          do (x, ts) <- elem ts ;;
          do l <- many_loop elem fuel ts ;;
          Ret (x :: l)
      end
  end.

(** The closures at src/parse_impl.rs:236-240, 247-251 and 305-309. *)
Definition end_impl_ty (t : tok) : bool := is_group Brace t || is_ident "for" t || is_ident "where" t.
Definition end_impl_self_ty (t : tok) : bool := is_group Brace t || is_ident "where" t.
Definition end_trait_bound (t : tok) : bool := is_ident "where" t || is_group Brace t.

(** [match item { Item::Function.. }], src/parse_impl.rs:203-221. *)
Definition impl_member_of_item (allow_static : bool) (i : item) : outcome impl_member :=
  match i with
  | IFunction f => Ret (IMFunction f)
  | IConstant c =>
      if id_is "const" (co_kw c) then Ret (IMConstant c)
      else if allow_static then Ret (IMConstant c)
      else Panic PUnsupportedMember
  | ITypeAlias t => Ret (IMType t)
  | IMacro m => Ret (IMMacro m)
  | _ => Panic PUnsupportedMember
  end.

(** [ImplMember] to [TraitMember], src/parse_impl.rs:320-328. *)
Definition trait_member_of_impl (m : impl_member) : trait_member :=
  match m with
  | IMFunction f => TMFunction f
  | IMConstant c => TMConstant c
  | IMType t => TMType t
  | IMMacro m => TMMacro m
  end.

(** The parsers below call each other recursively through the contents of groups only.
    [rec_item] is [consume_item] and [rec_either] is
    [consume_either_fn_type_const_static_impl], to be used on a group's stream.  The
    knot is tied by [nest] below. *)
Section Nested.
Variable rec_item : parser (result item error).
Variable rec_either : list attribute -> option vis_marker -> parser item.

(** One element of an impl body, src/parse_impl.rs:201-221. *)
Definition parse_impl_member (allow_static : bool) : parser impl_member := fun ts =>
  do (attributes, ts) <- consume_outer_attributes ts ;;
  let (vis, ts) := consume_vis_marker ts in
  do (i, ts) <- rec_either attributes vis ts ;;
  do m <- impl_member_of_item allow_static i ;;
  Ret (m, ts).

(** [parse_impl_body], src/parse_impl.rs:188-227. *)
Definition parse_impl_body (g : group) (allow_static : bool)
  : outcome (group_span * list attribute * list impl_member) :=
  do (inner, ts) <- consume_inner_attributes (g_stream g) ;;
  do items <- many_loop (parse_impl_member allow_static) (loop_fuel ts) ts ;;
  Ret (group_span_new g, inner, items).

(** A brace group read by [parse_impl_body], or a panic:
    src/parse_impl.rs:274-279 and 313-318. *)
Definition parse_body_group (site : unwrap_site) (bad : panic) : parser (group_span * list attribute * list impl_member) :=
  fun ts =>
  match ts with
  | [] => Panic (PUnwrapNone site)
  | TGroup g :: r =>
      if delim_eqb (g_delim g) Brace then do b <- parse_impl_body g false ;; Ret (b, r)
      else Panic bad
  | _ => Panic bad
  end.

(** [parse_impl], src/parse_impl.rs:229-294. *)
Definition parse_impl (attributes : list attribute) : parser impl_ := fun ts =>
  let (tk_unsafe, ts) := consume_ident "unsafe" ts in
  do (kw, ts) <- parse_ident "impl" "impl block" ts ;;
  do (generics, ts) <- consume_generic_params ts ;;
  do (ty1, ts) <- consume_stuff_until end_impl_ty true ts ;;
  do ((tk_for, trait_ty, self_ty), ts) <-
    match consume_ident "for" ts with
    | (Some tk_for, ts) =>
        do (ty2, ts) <- consume_stuff_until end_impl_self_ty true ts ;;
        Ret ((Some tk_for, Some (mkTypeExpr ty1), mkTypeExpr ty2), ts)
    | (None, ts) => Ret ((None, None, mkTypeExpr ty1), ts)
    end ;;
  do (wh, ts) <- consume_where_clause ts ;;
  do ((braces, inner, items), ts) <- parse_body_group AtImplBody PImplToken ts ;;
  Ret (mkImpl attributes tk_unsafe kw generics trait_ty tk_for self_ty wh braces inner items, ts).

(** [parse_trait], src/parse_impl.rs:296-343. *)
Definition parse_trait (attributes : list attribute) (vis : option vis_marker) : parser trait_ := fun ts =>
  let (tk_unsafe, ts) := consume_ident "unsafe" ts in
  do (kw, ts) <- parse_ident "trait" "trait declaration" ts ;;
  do (name, ts) <- parse_any_ident "trait name" ts ;;
  do (generics, ts) <- consume_generic_params ts ;;
  do (bound, ts) <- consume_bound end_trait_bound ts ;;
  do (wh, ts) <- consume_where_clause ts ;;
  do ((braces, inner, items), ts) <- parse_body_group AtTraitBody PTraitToken ts ;;
  Ret (mkTrait attributes vis tk_unsafe kw name generics bound wh braces inner
         (map trait_member_of_impl items), ts).

(** [consume_extern_block], src/parse_extern.rs:62-99. *)
Definition consume_extern_block (attributes : list attribute) (vis : option vis_marker)
  : parser (option extern_block) := fun ts =>
  let (tk_unsafe, ts) := consume_ident "unsafe" ts in
  match consume_ident "extern" ts with
  | (None, ts) => Ret (None, ts)
  | (Some kw, ts) =>
      let (abi, ts) := consume_literal ts in
      match ts with
      | TGroup g :: ts =>
          if delim_eqb (g_delim g) Brace then
            do (braces, inner, items) <- parse_impl_body g true ;;
            Ret (Some (mkExternBlock attributes vis tk_unsafe kw abi braces inner items), ts)
          else Ret (None, ts)
      | _ => Ret (None, tl ts)
      end
  end.

(** [parse_extern_block], src/parse_extern.rs:54-60. *)
Definition parse_extern_block (attributes : list attribute) (vis : option vis_marker)
  : parser extern_block := fun ts =>
  do (b, ts) <- consume_extern_block attributes vis ts ;;
  match b with Some b => Ret (b, ts) | None => Panic PExternBlock end.

(** One module member, src/parse_mod.rs:44-45. *)
Definition parse_mod_member : parser item := fun ts =>
  do (r, ts) <- rec_item ts ;;
  match r with Ok i => Ret (i, ts) | Err _ => Panic PDeclInMod end.

(** [parse_mod], src/parse_mod.rs:12-66. *)
Definition parse_mod (attributes : list attribute) (vis : option vis_marker)
  : parser (module_ item) := fun ts =>
  let (tk_unsafe, ts) := consume_ident "unsafe" ts in
  do (kw, ts) <- parse_ident "mod" "module declaration" ts ;;
  do (name, ts) <- consume_item_name ts ;;
  match ts with
  | [] => Panic (PUnwrapNone AtModBody)
  | TGroup g :: r =>
      if delim_eqb (g_delim g) Brace then
        do (inner, ts) <- consume_inner_attributes (g_stream g) ;;
        do members <- many_loop parse_mod_member (loop_fuel ts) ts ;;
        Ret (mkModule attributes vis tk_unsafe kw name None (Some (group_span_new g)) inner members, r)
      else Panic PModToken
  | TPunct p :: r =>
      if p_is ";" p
      then Ret (mkModule attributes vis tk_unsafe kw name (Some p) None [] [], r)
      else Panic PModToken
  | _ => Panic PModToken
  end.

(** The keywords of src/parse_impl.rs:137. *)
Definition fn_like_keyword (i : ident) : bool :=
  id_is "default" i || id_is "const" i || id_is "static" i || id_is "async" i
  || id_is "unsafe" i || id_is "extern" i || id_is "fn" i.

(** [consume_either_fn_type_const_static_impl], src/parse_impl.rs:122-186. *)
Definition consume_either (attributes : list attribute) (vis : option vis_marker)
  : parser item := fun ts =>
  match ts with
  | TIdent i :: _ =>
      if id_is "type" i then
        do (t, ts) <- consume_ty_definition attributes vis ts ;;
        match t with Some t => Ret (ITypeAlias t, ts) | None => Panic (PUnwrapNone AtTypeAlias) end
      else if fn_like_keyword i then
        do (f, ts) <- consume_fn attributes vis ts ;;
        match f with
        | Ok f => Ret (IFunction f, ts)
        | Err NFConst => do (c, ts) <- parse_const_or_static attributes vis ts ;; Ret (IConstant c, ts)
        | Err NFStatic => do (c, ts) <- parse_const_or_static attributes vis ts ;; Ret (IConstant c, ts)
        | Err NFTrait => do (t, ts) <- parse_trait attributes vis ts ;; Ret (ITrait t, ts)
        | Err NFImpl => do (i, ts) <- parse_impl attributes ts ;; Ret (IImpl i, ts)
        | Err NFMod => do (m, ts) <- parse_mod attributes vis ts ;; Ret (IModule m, ts)
        | Err NFExternBlock => do (b, ts) <- parse_extern_block attributes vis ts ;; Ret (IExternBlock b, ts)
        | Err NFExternCrate => do (c, ts) <- parse_extern_crate attributes vis ts ;; Ret (IExternCrate c, ts)
        end
      else
        match vis with
        | Some _ => Panic PVisOnMacro
        | None =>
            do (m, ts) <- consume_macro attributes ts ;;
            match m with Some m => Ret (IMacro m, ts) | None => Panic PUnsupportedItem end
        end
  | _ => Panic PUnsupportedElement
  end.

(** The [struct] branch of [consume_item], src/parse.rs:91-136. *)
Definition parse_struct (attributes : list attribute) (vis : option vis_marker) (kw : ident)
  : parser struct_ := fun ts =>
  do (name, ts) <- consume_item_name ts ;;
  do (generics, ts) <- consume_generic_params ts ;;
  do (wh, ts) <- consume_where_clause ts ;;
  do (fs, ts) <-
    match ts with
    | [] => Panic PStructNoBody
    | TPunct p :: _ => if p_is ";" p then Ret (FUnit, ts) else Panic PStructToken
    | TGroup g :: r =>
        if delim_eqb (g_delim g) Parenthesis then do f <- parse_tuple_fields g ;; Ret (FTuple f, r)
        else if delim_eqb (g_delim g) Brace then do f <- parse_named_fields g ;; Ret (FNamed f, r)
        else Panic PStructToken
    | _ => Panic PStructToken
    end ;;
  do (wh, ts) <-
    match fs with
    | FTuple _ =>
        match wh with
        | Some _ => Panic PAssertTupleWhere
        | None => consume_where_clause ts
        end
    | _ => Ret (wh, ts)
    end ;;
  let (semi, ts) := consume_punct ";" ts in
  Ret (mkStruct attributes vis kw name generics wh fs semi, ts).

(** The [enum] branch of [consume_item], src/parse.rs:137-162.  The whole header has
    been consumed when [enum_variants?] returns the error. *)
Definition parse_enum (attributes : list attribute) (vis : option vis_marker) (kw : ident)
  : parser (result enum_ error) := fun ts =>
  do (name, ts) <- consume_item_name ts ;;
  do (generics, ts) <- consume_generic_params ts ;;
  do (wh, ts) <- consume_where_clause ts ;;
  match ts with
  | [] => Panic (PUnwrapNone AtEnum)
  | TGroup g :: r =>
      if delim_eqb (g_delim g) Brace then
        do variants <- parse_enum_variants (g_stream g) ;;
        match variants with
        | Ok variants => Ret (Ok (mkEnum attributes vis kw name generics wh (group_span_new g) variants), r)
        | Err e => Ret (Err e, r)
        end
      else Panic PEnumToken
  | _ => Panic PEnumToken
  end.

(** The [union] branch of [consume_item], src/parse.rs:163-187. *)
Definition parse_union (attributes : list attribute) (vis : option vis_marker) (kw : ident)
  : parser union_ := fun ts =>
  do (name, ts) <- consume_item_name ts ;;
  do (generics, ts) <- consume_generic_params ts ;;
  do (wh, ts) <- consume_where_clause ts ;;
  match ts with
  | [] => Panic (PUnwrapNone AtUnion)
  | TGroup g :: r =>
      if delim_eqb (g_delim g) Brace then
        do f <- parse_named_fields g ;; Ret (mkUnion attributes vis kw name generics wh f, r)
      else Panic PUnionToken
  | _ => Panic PUnionToken
  end.

(** The keywords of src/parse.rs:213. *)
Definition either_keyword (i : ident) : bool :=
  id_is "default" i || id_is "const" i || id_is "async" i || id_is "unsafe" i
  || id_is "extern" i || id_is "fn" i || id_is "type" i.

(** The last-but-one branch of [consume_item], src/parse.rs:224-233. *)
Definition parse_item_macro (attributes : list attribute) : parser item := fun ts =>
  do (m, ts) <- consume_macro attributes ts ;;
  match m with Some m => Ret (IMacro m, ts) | None => Panic PNoDeclaration end.

(** [Item::X(decl)] followed by [Ok(declaration)], src/parse.rs:238. *)
Definition wrap {A} (c : A -> item) (m : outcome (A * list tok)) : outcome (result item error * list tok) :=
  do (x, ts) <- m ;; Ret (Ok (c x), ts).

(** The body of [consume_item], src/parse.rs:86-239. *)
Definition consume_item_body : parser (result item error) := fun ts =>
  do (attributes, ts) <- consume_outer_attributes ts ;;
  let (vis, ts) := consume_vis_marker ts in
  match ts with
  | [] => Panic PEndOfStream
  | TIdent kw :: r =>
      if id_is "struct" kw then wrap IStruct (parse_struct attributes vis kw r)
      else if id_is "enum" kw then
        do (e, ts) <- parse_enum attributes vis kw r ;;
        match e with Ok e => Ret (Ok (IEnum e), ts) | Err er => Ret (Err er, ts) end
      else if id_is "union" kw then wrap IUnion (parse_union attributes vis kw r)
      else if id_is "mod" kw then wrap IModule (parse_mod attributes vis ts)
      else if id_is "trait" kw then wrap ITrait (parse_trait attributes vis ts)
      else if id_is "impl" kw then wrap IImpl (parse_impl attributes ts)
      else if id_is "static" kw then wrap IConstant (parse_const_or_static attributes vis ts)
      else if id_is "use" kw then wrap IUse (parse_use_declaration attributes vis ts)
      else if either_keyword kw then wrap (fun i => i) (consume_either attributes vis ts)
      else wrap (fun i => i) (parse_item_macro attributes ts)
  | _ => wrap (fun i => i) (parse_item_macro attributes ts)
  end.
End Nested.

(** The recursion of [consume_item] (src/parse.rs:86) and
    [consume_either_fn_type_const_static_impl] (src/parse_impl.rs:122) through nested
    groups.  The argument bounds the group nesting depth. *)
Fixpoint nest (n : nat)
  : parser (result item error) * (list attribute -> option vis_marker -> parser item) :=
  match n with
  | O => (fun _ => OutOfFuel, fun _ _ _ => OutOfFuel)
  | S n =>
      let (rec_item, rec_either) := nest n in
      (consume_item_body rec_item rec_either, consume_either rec_item rec_either)
  end.

(** [consume_item], src/parse.rs:86-239. *)
Definition consume_item : parser (result item error) := fun ts =>
  fst (nest (S (toks_depth ts))) ts.

(** [parse_item], src/parse.rs:59-71. *)
Definition parse_item (ts : list tok) : outcome (result item error) :=
  do (declaration, rest) <- consume_item ts ;;
  match rest with
  | [] => Ret declaration
  | _ :: _ => Panic PTrailingTokens
  end.

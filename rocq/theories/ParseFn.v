(** src/parse_fn.rs. *)
From Verif Require Export ParseType.

(** [NotFunction], src/parse_fn.rs:23-31. *)
Inductive not_function :=
| NFConst | NFStatic | NFTrait | NFImpl | NFMod | NFExternCrate | NFExternBlock.

Definition is_some {A} (o : option A) : bool := match o with Some _ => true | None => false end.
Definition is_none {A} (o : option A) : bool := negb (is_some o).

(** [FnQualifiers::has_only_const_xor_unsafe], src/types_edition.rs:546-552. *)
Definition has_only_const_xor_unsafe (q : fn_qualifiers) : bool :=
  xorb (is_some (fq_const q)) (is_some (fq_unsafe q))
  && is_none (fq_default q) && is_none (fq_async q) && is_none (fq_extern q) && is_none (fq_abi q).

(** [Some(TokenTree::Literal(lit))] peeked and consumed: src/parse_fn.rs:46-54 and
    src/parse_extern.rs:70-77. *)
Definition consume_literal (ts : list tok) : option literal * list tok :=
  match ts with TLit l :: r => (Some l, r) | _ => (None, ts) end.

(** [consume_fn_qualifiers], src/parse_fn.rs:33-70. *)
Definition consume_fn_qualifiers (ts : list tok) : fn_qualifiers * list tok :=
  let (tk_default, ts) := consume_ident "default" ts in
  let (tk_const, ts) := consume_ident "const" ts in
  let (tk_async, ts) := consume_ident "async" ts in
  let (tk_unsafe, ts) := consume_ident "unsafe" ts in
  match consume_ident "extern" ts with
  | (Some tk_extern, ts) =>
      let (abi, ts) := consume_literal ts in
      (mkFnQualifiers tk_default tk_const tk_async tk_unsafe (Some tk_extern) abi, ts)
  | (None, ts) =>
      (mkFnQualifiers tk_default tk_const tk_async tk_unsafe None None, ts)
  end.

(** One fn parameter, src/parse_fn.rs:80-108. *)
Definition parse_fn_param : parser fn_param := fun ts =>
  do (attributes, ts) <- consume_outer_attributes ts ;;
  let (tk_ref, ts) := consume_punct "&" ts in
  do (lt, ts) <- consume_lifetime false ts ;;
  let (tk_mut, ts) := consume_ident "mut" ts in
  match consume_ident "self" ts with
  | (Some tk_self, ts) => Ret (FPReceiver (mkReceiver attributes tk_ref lt tk_mut tk_self), ts)
  | (None, ts) =>
      do (name, ts) <- parse_any_ident "fn param name" ts ;;
      do (colon, ts) <- parse_punct ":" "fn params" ts ;;
      do (ty, ts) <- consume_field_type ts ;;
      Ret (FPTyped (mkTyped attributes tk_mut name colon (mkTypeExpr ty)), ts)
  end.

(** [parse_fn_params], src/parse_fn.rs:72-116. *)
Definition parse_fn_params (ts : list tok) : outcome (punctuated fn_param) :=
  do (ps, _) <- punct_loop stop_at_end parse_fn_param (loop_fuel ts) pu_new ts ;;
  Ret ps.

(** The closure at src/parse_fn.rs:131-136. *)
Definition end_fn_return (t : tok) : bool :=
  is_group Brace t || is_ident "where" t || is_punct ";" t.

(** [consume_fn_return], src/parse_fn.rs:118-141. *)
Definition consume_fn_return : parser (option ((punct * punct) * type_expr)) := fun ts =>
  match consume_punct "-" ts with
  | (None, _) => Ret (None, ts)
  | (Some dash, TPunct tip :: ts) =>
      if p_is ">" tip then
        do (ty, ts) <- consume_stuff_until end_fn_return true ts ;;
        Ret (Some ((dash, tip), mkTypeExpr ty), ts)
      else Panic PFnReturn
  | (Some _, _) => Panic PFnReturn
  end.

(** The [fn] keyword, or what else the item is: src/parse_fn.rs:157-214. *)
Definition classify_fn (q : fn_qualifiers) : parser (result ident not_function) := fun ts =>
  match ts with
  | TIdent i :: r =>
      if id_is "fn" i then Ret (Ok i, r)
      else if is_some (fq_extern q) && id_is "crate" i then Ret (Err NFExternCrate, r)
      else if id_is "static" i then Ret (Err NFStatic, r)
      else if has_only_const_xor_unsafe q then
        if is_some (fq_const q) then Ret (Err NFConst, r)
        else if is_some (fq_unsafe q) then
          if id_is "trait" i then Ret (Err NFTrait, r)
          else if id_is "impl" i then Ret (Err NFImpl, r)
          else if id_is "mod" i then Ret (Err NFMod, r)
          else Panic PUnsafeIdent
        else Panic PUnreachable
      else Panic PFnIdent
  | TLit _ :: r => if is_some (fq_extern q) then Ret (Err NFExternBlock, r) else Panic PFnKeyword
  | TGroup g :: r =>
      if is_some (fq_extern q) && delim_eqb (g_delim g) Brace
      then Ret (Err NFExternBlock, r) else Panic PFnKeyword
  | _ => Panic PFnKeyword
  end.

(** The parameter list, src/parse_fn.rs:219-224. *)
Definition parse_fn_parens : parser (punctuated fn_param * group_span) := fun ts =>
  match ts with
  | [] => Panic (PUnwrapNone AtFnParams)
  | TGroup g :: r =>
      if delim_eqb (g_delim g) Parenthesis then
        do ps <- parse_fn_params (g_stream g) ;; Ret ((ps, group_span_new g), r)
      else Panic PFnParams
  | _ => Panic PFnParams
  end.

(** The body or semicolon, src/parse_fn.rs:234-240. *)
Definition parse_fn_body : parser (option group * option punct) := fun ts =>
  match ts with
  | [] => Panic (PUnwrapNone AtFnBody)
  | TGroup g :: r => if delim_eqb (g_delim g) Brace then Ret ((Some g, None), r) else Panic PFnBody
  | TPunct p :: r => if p_is ";" p then Ret ((None, Some p), r) else Panic PFnBody
  | _ => Panic PFnBody
  end.

(** [consume_fn], src/parse_fn.rs:148-257.  On [Err] the iterator is rolled back. *)
Definition consume_fn (attributes : list attribute) (vis : option vis_marker)
  : parser (result function not_function) := fun before_start =>
  let (qualifiers, ts) := consume_fn_qualifiers before_start in
  do (kw, ts) <- classify_fn qualifiers ts ;;
  match kw with
  | Err nf => Ret (Err nf, before_start)
  | Ok kw =>
      do (name, ts) <- consume_item_name ts ;;
      do (generics, ts) <- consume_generic_params ts ;;
      do (params, ts) <- parse_fn_parens ts ;;
      do (ret, ts) <- consume_fn_return ts ;;
      do (wh, ts) <- consume_where_clause ts ;;
      do (body, ts) <- parse_fn_body ts ;;
      Ret (Ok (mkFunction attributes vis qualifiers kw name generics (snd params) (fst params) wh
                 (option_map fst ret) (option_map snd ret) (snd body) (fst body)), ts)
  end.

(** [consume_macro_inner], src/parse_fn.rs:273-301. *)
Definition consume_macro_inner (attributes : list attribute) : parser (option macro) := fun ts =>
  match consume_any_ident ts with
  | (None, ts) => Ret (None, ts)
  | (Some name, ts) =>
      match consume_punct "!" ts with
      | (None, ts) => Ret (None, ts)
      | (Some bang, ts) =>
          let (declared, ts) := consume_any_ident ts in
          match ts with
          | [] => Panic PMacroEnd
          | TGroup g :: ts =>
              if delim_eqb (g_delim g) Parenthesis then
                do (semi, ts) <- parse_punct ";" "macro invocation semicolon" ts ;;
                Ret (Some (mkMacro attributes name bang declared (group_span_new g) (g_stream g) (Some semi)), ts)
              else if delim_eqb (g_delim g) Brace then
                Ret (Some (mkMacro attributes name bang declared (group_span_new g) (g_stream g) None), ts)
              else Panic PMacroBody
          | _ => Panic PMacroBody
          end
      end
  end.

(** [consume_macro], src/parse_fn.rs:259-271: rolls back on [None]. *)
Definition consume_macro (attributes : list attribute) : parser (option macro) := fun before_start =>
  do (m, ts) <- consume_macro_inner attributes before_start ;;
  match m with
  | Some m => Ret (Some m, ts)
  | None => Ret (None, before_start)
  end.

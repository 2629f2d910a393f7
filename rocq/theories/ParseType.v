(** src/parse_type.rs. *)
From Verif Require Export ParseUtils.

(** Shared shape of the loops that read an element, then an optional comma, and push both:
    src/parse_type.rs:50-83 (generic params), 219-272 (where clause), 330-350 (tuple
    fields), 362-386 (named fields) and src/parse_fn.rs:76-113 (fn params).
    [stop] is the test at the head of the loop.  [fuel] bounds the number of
    iterations; every iteration consumes a token, see theorem C09. *)
Fixpoint punct_loop {A} (stop : list tok -> outcome bool) (elem : parser A) (fuel : nat)
  (acc : punctuated A) (ts : list tok) : outcome (punctuated A * list tok) :=
  match fuel with
  | O => OutOfFuel
  | S fuel =>
      do b <- stop ts ;;
      if b : bool then Ret (acc, ts)
      else
        do (x, ts1) <- elem ts ;;
        let (comma, ts2) := consume_comma ts1 in
        punct_loop stop elem fuel (pu_push acc x comma) ts2
  end.

(** [if tokens.peek().is_none() { break; }] (e.g. src/parse_type.rs:331-333). *)
Definition stop_at_end (ts : list tok) : outcome bool :=
  match ts with [] => Ret true | _ => Ret false end.

(** Fuel for a loop over [ts]. *)
Definition loop_fuel (ts : list tok) : nat := S (List.length ts).

(** [consume_item_name], src/parse_type.rs:16-18. *)
Definition consume_item_name : parser ident := parse_any_ident "item".

(** [consume_bound], src/parse_type.rs:20-42. *)
Definition consume_bound (end_predicate : tok -> bool) : parser (option generic_bound) := fun ts =>
  match ts with
  | [] => Panic (PUnwrapNone AtBound)
  | t :: r =>
      let other := if end_predicate t then Ret (None, ts) else Panic PBoundToken in
      match t with
      | TPunct colon =>
          if p_is ":" colon then
            do (bound, rest) <- consume_stuff_until end_predicate false r ;;
            Ret (Some (mkBound colon bound), rest)
          else other
      | _ => other
      end
  end.

(** The closure at src/parse_type.rs:71. *)
Definition end_generic_param (t : tok) : bool := is_punct "," t || is_punct ">" t.

(** Head of the loop of [consume_generic_params], src/parse_type.rs:51-58. *)
Definition stop_generic_params (ts : list tok) : outcome bool :=
  match ts with
  | [] => Panic PGenericParamsEnd
  | t :: _ => Ret (is_punct ">" t)
  end.

(** One generic parameter, src/parse_type.rs:54-72. *)
Definition parse_generic_param : parser generic_param := fun ts =>
  do (prefix, ts) <-
    match ts with
    | [] => Panic PGenericParamsEnd
    | t :: r =>
        match t with
        | TPunct p => if p_is "'" p then Ret (Some t, r) else Panic PGenericParamsToken
        | TIdent i => if id_is "const" i then Ret (Some t, r) else Ret (None, ts)
        | _ => Panic PGenericParamsToken
        end
    end ;;
  do (name, ts) <- parse_any_ident "generic param name" ts ;;
  do (bound, ts) <- consume_bound end_generic_param ts ;;
  Ret (mkGenericParam prefix name bound, ts).

(** [consume_generic_params], src/parse_type.rs:44-93. *)
Definition consume_generic_params : parser (option generic_param_list) := fun ts =>
  match consume_punct "<" ts with
  | (None, ts) => Ret (None, ts)
  | (Some l, ts) =>
      do (params, ts) <- punct_loop stop_generic_params parse_generic_param (loop_fuel ts) pu_new ts ;;
      match ts with
      | TPunct r :: ts => Ret (Some (mkGenericParamList l params r), ts)
      | _ => Panic PUnreachable (* the loop only ends in front of '>' *)
      end
  end.

(** [consume_lifetime], src/parse_type.rs:129-168. *)
Definition consume_lifetime (expect_end : bool) : parser (option lifetime) := fun ts =>
  match consume_punct "'" ts with
  | (None, _) => Ret (None, ts)
  | (Some apostrophe, TIdent name :: r) =>
      match expect_end, r with
      | true, _ :: _ => Panic PLifetimeArg
      | _, _ => Ret (Some (mkLifetime apostrophe name), r)
      end
  | (Some _, _ :: _) => Panic PLifetimeToken
  | (Some _, []) => Panic PLifetimeEnd
  end.

(** [parse_generic_arg], src/parse_type.rs:95-127. *)
Definition parse_generic_arg (ts : list tok) : outcome generic_arg :=
  do (lt, ts) <- consume_lifetime true ts ;;
  match lt with
  | Some lt => Ret (GALifetime lt)
  | None =>
      match ts with
      | [] => Panic (PUnwrapNone AtGenericArg)
      | TIdent id :: TPunct p :: r =>
          if p_is "=" p then Ret (GABinding id p (mkTypeExpr r))
          else Ret (GATypeOrConst (mkTypeExpr ts))
      | _ => Ret (GATypeOrConst (mkTypeExpr ts))
      end
  end.

(** The loop of [consume_generic_args], src/parse_type.rs:187-203. *)
Fixpoint generic_args_loop (fuel : nat) (acc : punctuated generic_arg) (ts : list tok)
  : outcome (punctuated generic_arg * list tok) :=
  match fuel with
  | O => OutOfFuel
  | S fuel =>
      do (arg, ts) <- consume_stuff_until (is_punct ",") false ts ;;
      let (comma, ts) := consume_comma ts in
      match arg with
      | [] => Ret (acc, ts)
      | _ :: _ =>
          do a <- parse_generic_arg arg ;;
          generic_args_loop fuel (pu_push acc a comma) ts
      end
  end.

(** [consume_generic_args], src/parse_type.rs:170-213. *)
Definition consume_generic_args : parser (option generic_arg_list) := fun before_start =>
  let (turbofish, ts) := consume_colon2 before_start in
  match consume_punct "<" ts with
  | (None, _) => Ret (None, before_start)
  | (Some l, ts) =>
      do (args, ts) <- generic_args_loop (loop_fuel ts) pu_new ts ;;
      do (r, ts) <- parse_punct ">" "end of generic argument list" ts ;;
      Ret (Some (mkGenericArgList turbofish l args r), ts)
  end.

(** Head of the loop of [consume_where_clause], src/parse_type.rs:220-228. *)
Definition stop_where (ts : list tok) : outcome bool :=
  match ts with
  | [] => Panic PWhereEnd
  | t :: _ => Ret (is_group Brace t || is_punct ";" t)
  end.

(** The closure at src/parse_type.rs:251-256. *)
Definition end_where_bound (t : tok) : bool :=
  is_punct "," t || is_group Brace t || is_punct ";" t.

(** One where predicate, src/parse_type.rs:230-258. *)
Definition parse_where_predicate : parser where_predicate := fun ts =>
  do (lhs, ts) <- consume_stuff_until (is_punct ":") false ts ;;
  match ts with
  | TPunct colon :: ts =>
      if p_is ":" colon then
        do (bound, ts) <- consume_stuff_until end_where_bound true ts ;;
        Ret (mkWherePredicate lhs (mkBound colon bound), ts)
      else Panic PWhereToken
  | _ :: _ => Panic PWhereToken
  | [] => Panic PWhereColonEnd
  end.

(** [consume_where_clause], src/parse_type.rs:215-278. *)
Definition consume_where_clause : parser (option where_clause) := fun ts =>
  match consume_ident "where" ts with
  | (None, _) => Ret (None, ts)
  | (Some kw, ts) =>
      do (items, ts) <- punct_loop stop_where parse_where_predicate (loop_fuel ts) pu_new ts ;;
      Ret (Some (mkWhereClause kw items), ts)
  end.

(** [consume_field_type], src/parse_type.rs:280-297. *)
Definition consume_field_type : parser (list tok) := fun ts =>
  do (ty, ts) <- consume_stuff_until (is_punct ",") false ts ;;
  match ty with
  | [] =>
      match consume_comma ts with
      | (Some _, _) => Panic PTypeComma
      | (None, _) => Panic PTypeMissing
      end
  | _ :: _ => Ret (ty, ts)
  end.

(** [Error::new_at_span], src/error.rs:80-88. *)
Definition error_new_at_span (s : span) (message : string) : error :=
  mkError [mkErrorMessage s s message].

(** The message at src/parse_type.rs:316. *)
Definition complex_value_message : string :=
  "Complex values for enum variants are not supported unless they are between parentheses.".

(** [consume_enum_discriminant], src/parse_type.rs:299-324. *)
Definition consume_enum_discriminant : parser (result (option variant_value) error) := fun ts =>
  match consume_punct "=" ts with
  | (None, ts) => Ret (Ok None, ts)
  | (Some eq, []) => Panic (PUnwrapNone AtEnumValue)
  | (Some eq, value :: ts) =>
      let ok := Ret (Ok (Some (mkVariantValue eq value)), ts) in
      match ts with
      | [] => ok
      | t :: _ =>
          if is_punct "," t then ok
          else Ret (Err (error_new_at_span (tok_span value) complex_value_message), ts)
      end
  end.

(** One tuple field, src/parse_type.rs:335-338. *)
Definition parse_tuple_field : parser tuple_field := fun ts =>
  do (attributes, ts) <- consume_outer_attributes ts ;;
  let (vis, ts) := consume_vis_marker ts in
  do (ty, ts) <- consume_field_type ts ;;
  Ret (mkTupleField attributes vis (mkTypeExpr ty), ts).

(** [parse_tuple_fields], src/parse_type.rs:326-356. *)
Definition parse_tuple_fields (g : group) : outcome tuple_fields :=
  do (fs, _) <- punct_loop stop_at_end parse_tuple_field (loop_fuel (g_stream g)) pu_new (g_stream g) ;;
  Ret (mkTupleFields fs (group_span_new g)).

(** One named field, src/parse_type.rs:367-373. *)
Definition parse_named_field : parser named_field := fun ts =>
  do (attributes, ts) <- consume_outer_attributes ts ;;
  let (vis, ts) := consume_vis_marker ts in
  do (name, ts) <- parse_any_ident "field name" ts ;;
  do (colon, ts) <- parse_punct ":" "named fields" ts ;;
  do (ty, ts) <- consume_field_type ts ;;
  Ret (mkNamedField attributes vis name colon (mkTypeExpr ty), ts).

(** [parse_named_fields], src/parse_type.rs:358-392. *)
Definition parse_named_fields (g : group) : outcome named_fields :=
  do (fs, _) <- punct_loop stop_at_end parse_named_field (loop_fuel (g_stream g)) pu_new (g_stream g) ;;
  Ret (mkNamedFields fs (group_span_new g)).

(** The contents of an enum variant, src/parse_type.rs:408-425. *)
Definition parse_variant_fields : parser fields := fun ts =>
  match ts with
  | [] => Ret (FUnit, ts)
  | TPunct p :: _ => if p_is "," p || p_is "=" p then Ret (FUnit, ts) else Panic PVariantToken
  | TGroup g :: r =>
      if delim_eqb (g_delim g) Parenthesis then
        do f <- parse_tuple_fields g ;; Ret (FTuple f, r)
      else if delim_eqb (g_delim g) Brace then
        do f <- parse_named_fields g ;; Ret (FNamed f, r)
      else Panic PVariantToken
  | _ => Panic PVariantToken
  end.

(** The loop of [parse_enum_variants], src/parse_type.rs:398-441.  The comma is consumed
    before the [?] on the discriminant (lines 429, 437). *)
Fixpoint enum_variants_loop (fuel : nat) (acc : punctuated enum_variant) (ts : list tok)
  : outcome (result (punctuated enum_variant) error) :=
  match fuel with
  | O => OutOfFuel
  | S fuel =>
      match ts with
      | [] => Ret (Ok acc)
      | _ :: _ =>
          do (attributes, ts) <- consume_outer_attributes ts ;;
          let (vis, ts) := consume_vis_marker ts in
          do (name, ts) <- parse_any_ident "enum variant name" ts ;;
          do (contents, ts) <- parse_variant_fields ts ;;
          do (discriminant, ts) <- consume_enum_discriminant ts ;;
          let (comma, ts) := consume_comma ts in
          match discriminant with
          | Err e => Ret (Err e)
          | Ok value =>
              enum_variants_loop fuel
                (pu_push acc (mkVariant attributes vis name contents value) comma) ts
          end
      end
  end.

(** [parse_enum_variants], src/parse_type.rs:394-444. *)
Definition parse_enum_variants (ts : list tok) : outcome (result (punctuated enum_variant) error) :=
  enum_variants_loop (loop_fuel ts) pu_new ts.

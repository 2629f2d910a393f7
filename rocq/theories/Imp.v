(** The parsers once more, statement by statement: the token iterator is a mutable state
    with [peek], [next] and [clone], and every operation on it is counted.

    This is a second transcription of src/parse_utils.rs, parse_type.rs, parse_fn.rs,
    parse_impl.rs, parse_extern.rs, parse_mod.rs and parse.rs, made from the source and
    not from ParseUtils.v .. ParseItem.v; PropErase.v proves that both agree. *)
From Verif Require Export Print ParseItem ParsePath.

(** ** Computations on the iterator

    [T A]: from the tokens left to the result, the tokens left then, and the cost: the
    number of calls of [peek], [next], [clone] and [into_iter], and the number of tokens
    copied by the last two (a clone of the iterator copies all tokens left). *)
Definition cost : Type := (nat * nat)%type.
(** The message of a panic: fixed text, [{:?}] of a token, of an optional one or of an identifier, [{}] of tokens. *)
Inductive piece := Txt (s : string) | Dbg (t : tok) | DbgOpt (o : option tok) | DbgIdent (i : ident) | Dsp (ts : list tok).
(** The end of a computation: as [outcome], with the message. *)
Inductive ending (A : Type) := Got (x : A) | Died (p : panic) (message : list piece) | Stuck.
Arguments Got {A}. Arguments Died {A}. Arguments Stuck {A}.
Definition T (A : Type) : Type := list tok -> ending (A * list tok) * cost.
Definition ret {A} (x : A) : T A := fun ts => (Got (x, ts), (0, 0)).
Definition fail {A} (p : panic) (message : list piece) : T A := fun _ => (Died p message, (0, 0)).
Definition andthen {A B} (m : T A) (k : A -> T B) : T B := fun ts =>
  let '(o, (c1, d1)) := m ts in
  match o with
  | Got (x, ts1) => let '(o2, (c2, d2)) := k x ts1 in (o2, (c1 + c2, d1 + d2))
  | Died p msg => (Died p msg, (c1, d1))
  | Stuck => (Stuck, (c1, d1))
  end.
Notation "x <~ m ;; k" := (andthen m (fun x => k)) (at level 61, m at next level, right associativity).
Notation "m ;;> k" := (andthen m (fun _ => k)) (at level 61, right associativity).

Definition peek : T (option tok) := fun ts => (Got (hd_error ts, ts), (1, 0)).
Definition next : T (option tok) := fun ts => (Got (hd_error ts, tl ts), (1, 0)).
(** [tokens.clone()] and [*tokens = saved]. *)
Definition save : T (list tok) := fun ts => (Got (ts, ts), (1, List.length ts)).
Definition restore (saved : list tok) : T unit := fun _ => (Got (tt, saved), (0, 0)).
(** [tokens.collect()]: [next] until the end. *)
Definition collect : T (list tok) := fun ts => (Got (ts, []), (S (List.length ts), 0)).
(** Run on another iterator, e.g. [vec.into_iter().peekable()]. *)
Definition on {A} (tokens : list tok) (m : T A) : T A := fun ts =>
  let '(o, c) := m tokens in
  match o with
  | Got (x, _) => (Got (x, ts), c)
  | Died p msg => (Died p msg, c)
  | Stuck => (Stuck, c)
  end.
(** [group.stream().into_iter()]: one operation, which copies the tokens of the group, since
    they are shared with the group. *)
Definition copied (stream : list tok) : T unit := fun ts => (Got (tt, ts), (1, List.length stream)).
Definition within {A} (stream : list tok) (m : T A) : T A := copied stream ;;> on stream m.
(** [loop { .. }]: the body yields the next state or breaks with a result.  The number of
    rounds is bounded by the tokens left when the loop starts. *)
Fixpoint rounds {S R} (n : nat) (body : S -> T (S + R)) (s : S) : T R :=
  match n with
  | O => fun _ => (Stuck, (0, 0))
  | S n => r <~ body s ;; match r with inl s' => rounds n body s' | inr x => ret x end
  end.
Definition loop {S R} (body : S -> T (S + R)) (s : S) : T R := fun ts => rounds (loop_fuel ts) body s ts.

(** Messages of the standard library. *)
Definition unwrap_none : list piece := [Txt "called `Option::unwrap()` on a `None` value"].
Definition unreachable_code : list piece := [Txt "internal error: entered unreachable code"].
(** ** Messages used more than once *)
(** src/parse_utils.rs:111. *)
Definition no_bang : list piece := [Txt "cannot parse inner attribute: expected '!' after '#' token"].
(** src/parse_fn.rs:123. *)
Definition no_fn_return : list piece := [Txt "cannot parse fn return: expected '>' after '-' token"].
(** src/parse_fn.rs:212. *)
Definition no_fn_keyword : list piece := [Txt "expected 'fn' keyword"].
(** src/parse_fn.rs:223. *)
Definition no_fn_params : list piece := [Txt "cannot parse function; missing parameter list"].
(** src/parse_fn.rs:239. *)
Definition no_fn_body : list piece := [Txt "cannot parse function; missing body or `;`"].
(** src/parse_fn.rs:281. *)
Definition no_macro_body : list piece := [Txt "cannot parse macro; missing `{}` or `()` group"].
(** src/parse_impl.rs:27. *)
Definition no_const : list piece := [Txt "cannot parse const/static"].

(** ** src/parse_utils.rs *)
(** Lines 13-22. *)
Definition i_parse_any_ident (context : string) : T ident :=
  t <~ next ;;
  match t with
  | Some (TIdent i) => ret i
  | _ => fail (PExpectedIdent context (negb (is_some t))) [Txt "cannot parse "; Txt context; Txt ": expected identifier, got "; DbgOpt t]
  end.
(** Lines 24-33. *)
Definition i_parse_ident (expected context : string) : T ident :=
  t <~ next ;;
  let bad := fail (PExpectedKeyword expected context (negb (is_some t)))
    [Txt "cannot parse "; Txt context; Txt ": expected `"; Txt expected; Txt "` ident, got "; DbgOpt t] in
  match t with
  | Some (TIdent i) => if id_is expected i then ret i else bad
  | _ => bad
  end.
(** Lines 35-44. *)
Definition i_consume_any_ident : T (option ident) :=
  t <~ peek ;; match t with Some (TIdent i) => next ;;> ret (Some i) | _ => ret None end.
(** Lines 46-55. *)
Definition i_consume_ident (expected : string) : T (option ident) :=
  t <~ peek ;;
  match t with
  | Some (TIdent i) => if id_is expected i then next ;;> ret (Some i) else ret None
  | _ => ret None
  end.
(** Lines 57-66. *)
Definition i_parse_punct (expected : ascii) (context : string) : T punct :=
  t <~ next ;;
  let bad := fail (PExpectedPunct expected context (negb (is_some t)))
    [Txt "cannot parse "; Txt context; Txt ": expected `"; Txt (String expected ""); Txt "` punct, got "; DbgOpt t] in
  match t with
  | Some (TPunct p) => if p_is expected p then ret p else bad
  | _ => bad
  end.
(** Lines 68-77. *)
Definition i_consume_punct (expected : ascii) : T (option punct) :=
  t <~ peek ;;
  match t with
  | Some (TPunct p) => if p_is expected p then next ;;> ret (Some p) else ret None
  | _ => ret None
  end.
(** Lines 275-277. *)
Definition i_consume_comma : T (option punct) := i_consume_punct ",".

(** Line 140. *)
Definition attr_path_text : string := "cannot parse attribute: expected one of `(`, `::`, `=`, `[`, `]`, or `{`, found ".
(** Lines 131-143, on the attribute's own iterator. *)
Definition i_attribute_path : T (list tok) :=
  loop (fun path =>
    t <~ peek ;;
    match t with
    | None => ret (inr path)
    | Some (TGroup _) => ret (inr path)
    | Some (TPunct p) =>
        if p_is "=" p then ret (inr path)
        else if p_is ":" p then u <~ next ;; match u with Some u => ret (inl (path ++ [u])) | None => fail PUnreachable unwrap_none end
        else fail PAttrPath [Txt attr_path_text; Dbg (TPunct p)]
    | Some (TIdent _) => u <~ next ;; match u with Some u => ret (inl (path ++ [u])) | None => fail PUnreachable unwrap_none end
    | Some (TLit l) => fail PAttrPath [Txt attr_path_text; Dbg (TLit l)]
    end) [].
(** Lines 145-159. *)
Definition i_attribute_value : T attribute_value :=
  t <~ peek ;;
  match t with
  | None => ret AVEmpty
  | Some (TGroup g) => v <~ within (g_stream g) collect ;; ret (AVGroup (group_span_new g) v)
  | Some (TPunct p) => if p_is "=" p then next ;;> v <~ collect ;; ret (AVEquals p v) else fail PUnreachable unreachable_code
  | _ => fail PUnreachable unreachable_code
  end.
(** Lines 128-168: from the tokens of the brackets to the attribute. *)
Definition i_attribute (hash : punct) (bang : option punct) (g : group) : T attribute :=
  pv <~ within (g_stream g) (p <~ i_attribute_path ;; v <~ i_attribute_value ;; ret (p, v)) ;;
  ret (mkAttribute hash bang (group_span_new g) (fst pv) (snd pv)).
(** Lines 85-171. *)
Definition i_attributes (expect_inner : bool) : T (list attribute) :=
  loop (fun attributes =>
    t <~ peek ;;
    match t with
    | Some (TPunct hash) =>
        if p_is "#" hash then
          bang <~
            (if expect_inner then
               before <~ save ;; next ;;>
               u <~ peek ;;
               match u with
               | Some (TPunct bang) => if p_is "!" bang then next ;;> ret (Some (Some bang)) else fail PInnerAttrBang no_bang
               | Some (TGroup g) => if delim_eqb (g_delim g) Bracket then restore before ;;> ret None else fail PInnerAttrBang no_bang
               | _ => fail PInnerAttrBang no_bang
               end
             else next ;;> ret (Some None)) ;;
          match bang with
          | None => ret (inr attributes)
          | Some tk_bang =>
              let bad :=
                match tk_bang with
                | Some _ => fail PInnerAttrBracket [Txt "cannot parse inner attribute: expected '[' after '#!' tokens"]
                | None => fail POuterAttrBracket [Txt "cannot parse outer attribute: expected '[' after '#' token"]
                end in
              u <~ next ;;
              match u with
              | Some (TGroup g) =>
                  if delim_eqb (g_delim g) Bracket then a <~ i_attribute hash tk_bang g ;; ret (inl (attributes ++ [a]))
                  else bad
              | _ => bad
              end
          end
        else ret (inr attributes)
    | _ => ret (inr attributes)
    end) [].

(** Lines 187-212. *)
Definition i_vis_marker : T (option vis_marker) :=
  t <~ peek ;;
  match t with
  | Some (TIdent i) =>
      if id_is "pub" i then
        u <~ next ;;
        match u with
        | None => fail PUnreachable [Txt "cannot parse declaration: expected token after 'pub'"]
        | Some pub =>
            v <~ peek ;;
            match v with
            | Some (TGroup g) =>
                if delim_eqb (g_delim g) Parenthesis
                then w <~ next ;; match w with Some w => ret (Some (mkVis pub (Some w))) | None => fail PUnreachable unwrap_none end
                else ret (Some (mkVis pub None))
            | _ => ret (Some (mkVis pub None))
            end
        end
      else if id_is "crate" i then
        u <~ next ;; match u with Some u => ret (Some (mkVis u None)) | None => fail PUnreachable unwrap_none end
      else ret None
  | _ => ret None
  end.

(** Lines 218-273: the state is [output_tokens], [bracket_count] and [prev_token_is_dash]. *)
Definition i_stuff_until (predicate : tok -> bool) (must_find : bool) : T (list tok) :=
  r <~ loop (fun '(out, count, dash) =>
      t <~ peek ;;
      let go (count : Z) (dash : bool) :=
        if Z.ltb count 0 then ret (inr (out, false))
        else u <~ next ;; match u with Some u => ret (inl (out ++ [u], count, dash)) | None => fail PUnreachable unwrap_none end in
      match t with
      | None => ret (inr (out, false))
      | Some t =>
          if is_punct "<" t then go (count + 1)%Z false
          else if is_punct ">" t && negb dash then go (count - 1)%Z false
          else if is_punct "-" t then go count true
          else if predicate t && Z.eqb count 0 then ret (inr (out, true))
          else go count false
      end) ([], 0%Z, false) ;;
  let (out, met) := r : list tok * bool in
  if must_find && negb met then
    t <~ next ;;
    match t with
    | Some (TPunct p) =>
        if p_is ">" p then fail PUnbalancedAngle [Txt "unbalanced angle brackets in type expression"]
        else fail PUnreachable unreachable_code
    | None => fail PTypeEnd [Txt "unexpected end of token stream in type expression"]
    | _ => fail PUnreachable unreachable_code
    end
  else ret out.

(** Lines 282-298. *)
Definition i_colon2 : T (option (punct * punct)) :=
  before <~ save ;;
  t <~ next ;;
  r <~ (match t with
        | Some (TPunct a) =>
            if p_is ":" a && is_joint (p_spacing a) then
              u <~ next ;;
              match u with
              | Some (TPunct b) => if p_is ":" b && negb (is_joint (p_spacing b)) then ret (Some (a, b)) else ret None
              | _ => ret None
              end
            else ret None
        | _ => ret None
        end) ;;
  match r with Some x => ret (Some x) | None => restore before ;;> ret None end.

(** ** src/parse_type.rs *)
(** Lines 16-18. *)
Definition i_item_name : T ident := i_parse_any_ident "item".
(** Lines 20-42. *)
Definition i_bound (end_predicate : tok -> bool) : T (option generic_bound) :=
  t <~ peek ;;
  match t with
  | None => fail (PUnwrapNone AtBound) unwrap_none
  | Some t =>
      let other := if end_predicate t then ret None else fail PBoundToken [Txt "cannot parse generic bound: unexpected token "; Dbg t] in
      match t with
      | TPunct colon =>
          if p_is ":" colon then next ;;> b <~ i_stuff_until end_predicate false ;; ret (Some (mkBound colon b))
          else other
      | _ => other
      end
  end.
(** Lines 44-93. *)
Definition i_generic_params : T (option generic_param_list) :=
  l <~ i_consume_punct "<" ;;
  match l with
  | None => ret None
  | Some l =>
      r <~ loop (fun params =>
          t <~ peek ;;
          let param prefix :=
            name <~ i_parse_any_ident "generic param name" ;;
            bound <~ i_bound end_generic_param ;;
            comma <~ i_consume_comma ;;
            ret (inl (pu_push params (mkGenericParam prefix name bound) comma)) in
          let bad t := fail PGenericParamsToken [Txt "cannot parse generic params: unexpected token "; Dbg t] in
          match t with
          | None => fail PGenericParamsEnd [Txt "cannot parse generic params: expected token after '<'"]
          | Some (TPunct p) =>
              if p_is ">" p then ret (inr (params, p))
              else if p_is "'" p then next ;;> param (Some (TPunct p))
              else bad (TPunct p)
          | Some (TIdent i) => if id_is "const" i then next ;;> param (Some (TIdent i)) else param None
          | Some t => bad t
          end) pu_new ;;
      next ;;>
      ret (Some (mkGenericParamList l (fst r) (snd r)))
  end.
(** Lines 129-168. *)
Definition i_lifetime (expect_end : bool) : T (option lifetime) :=
  t <~ peek ;;
  match t with
  | Some (TPunct p) =>
      if p_is "'" p then
        next ;;>
        u <~ next ;;
        match u with
        | Some (TIdent name) =>
            if expect_end then
              v <~ next ;; match v with None => ret (Some (mkLifetime p name)) | Some _ => fail PLifetimeArg [Txt "cannot parse lifetime generic argument"] end
            else ret (Some (mkLifetime p name))
        | Some other => fail PLifetimeToken [Txt "expected identifier after ' lifetime symbol, got "; Dbg other]
        | None => fail PLifetimeEnd [Txt "expected identifier after ' lifetime symbol, but ran out of tokens"]
        end
      else ret None
  | _ => ret None
  end.
(** Lines 95-127, on the iterator over [tokens]. *)
Definition i_generic_arg : T generic_arg :=
  lt <~ i_lifetime true ;;
  match lt with
  | Some lt => ret (GALifetime lt)
  | None =>
      before <~ save ;;
      t <~ next ;;
      r <~ (match t with
            | None => fail (PUnwrapNone AtGenericArg) unwrap_none
            | Some (TIdent id) =>
                u <~ next ;;
                match u with
                | Some (TPunct p) => if p_is "=" p then rest <~ collect ;; ret (Some (GABinding id p (mkTypeExpr rest))) else ret None
                | _ => ret None
                end
            | Some _ => ret None
            end) ;;
      match r with
      | Some a => ret a
      | None => restore before ;;> rest <~ collect ;; ret (GATypeOrConst (mkTypeExpr rest))
      end
  end.
(** Lines 170-213. *)
Definition i_generic_args : T (option generic_arg_list) :=
  before <~ save ;;
  turbofish <~ i_colon2 ;;
  t <~ peek ;;
  let none := restore before ;;> ret None in
  match t with
  | Some (TPunct l) =>
      if p_is "<" l then
        next ;;>
        args <~ loop (fun args =>
            arg <~ i_stuff_until (is_punct ",") false ;;
            comma <~ i_consume_comma ;;
            match arg with
            | [] => ret (inr args)
            | _ :: _ => a <~ on arg i_generic_arg ;; ret (inl (pu_push args a comma))
            end) pu_new ;;
        r <~ i_parse_punct ">" "end of generic argument list" ;;
        ret (Some (mkGenericArgList turbofish l args r))
      else none
  | _ => none
  end.
(** Lines 215-278. *)
Definition i_where_clause : T (option where_clause) :=
  kw <~ i_consume_ident "where" ;;
  match kw with
  | None => ret None
  | Some kw =>
      items <~ loop (fun items =>
          t <~ peek ;;
          match t with
          | None => fail PWhereEnd [Txt "cannot parse where clause: expected tokens"]
          | Some t =>
              if is_group Brace t then ret (inr items)
              else if is_punct ";" t then ret (inr items)
              else
                left <~ i_stuff_until (is_punct ":") false ;;
                c <~ next ;;
                match c with
                | Some (TPunct colon) =>
                    if p_is ":" colon then
                      bound <~ i_stuff_until end_where_bound true ;;
                      comma <~ i_consume_comma ;;
                      ret (inl (pu_push items (mkWherePredicate left (mkBound colon bound)) comma))
                    else fail PWhereToken [Txt "cannot parse where clause: expected ':', found token "; Dbg (TPunct colon)]
                | Some t => fail PWhereToken [Txt "cannot parse where clause: expected ':', found token "; Dbg t]
                | None => fail PWhereColonEnd [Txt "cannot parse where clause: expected colon, found end of stream"]
                end
          end) pu_new ;;
      ret (Some (mkWhereClause kw items))
  end.
(** Lines 280-297. *)
Definition i_field_type : T (list tok) :=
  ty <~ i_stuff_until (is_punct ",") false ;;
  match ty with
  | [] => c <~ i_consume_comma ;; 
      match c with
      | Some _ => fail PTypeComma [Txt "cannot parse type: unexpected token ','"]
      | None => fail PTypeMissing [Txt "cannot parse type: expected tokens, found end-of-stream"]
      end
  | _ :: _ => ret ty
  end.
(** Lines 299-324. *)
Definition i_enum_discriminant : T (result (option variant_value) error) :=
  eq <~ i_consume_punct "=" ;;
  match eq with
  | None => ret (Ok None)
  | Some eq =>
      v <~ next ;;
      match v with
      | None => fail (PUnwrapNone AtEnumValue) unwrap_none
      | Some v =>
          t <~ peek ;;
          match t with
          | None => ret (Ok (Some (mkVariantValue eq v)))
          | Some t =>
              if is_punct "," t then ret (Ok (Some (mkVariantValue eq v)))
              else ret (Err (error_new_at_span (tok_span v) complex_value_message))
          end
      end
  end.
(** Lines 326-356. *)
Definition i_tuple_fields (g : group) : T tuple_fields :=
  fields <~ within (g_stream g) (loop (fun fields =>
      t <~ peek ;;
      match t with
      | None => ret (inr fields)
      | Some _ =>
          attributes <~ i_attributes false ;;
          vis <~ i_vis_marker ;;
          ty <~ i_field_type ;;
          comma <~ i_consume_comma ;;
          ret (inl (pu_push fields (mkTupleField attributes vis (mkTypeExpr ty)) comma))
      end) pu_new) ;;
  ret (mkTupleFields fields (group_span_new g)).
(** Lines 358-392. *)
Definition i_named_fields (g : group) : T named_fields :=
  fields <~ within (g_stream g) (loop (fun fields =>
      t <~ peek ;;
      match t with
      | None => ret (inr fields)
      | Some _ =>
          attributes <~ i_attributes false ;;
          vis <~ i_vis_marker ;;
          name <~ i_parse_any_ident "field name" ;;
          colon <~ i_parse_punct ":" "named fields" ;;
          ty <~ i_field_type ;;
          comma <~ i_consume_comma ;;
          ret (inl (pu_push fields (mkNamedField attributes vis name colon (mkTypeExpr ty)) comma))
      end) pu_new) ;;
  ret (mkNamedFields fields (group_span_new g)).
(** Lines 394-444, on the tokens of the enum's braces. *)
Definition i_enum_variants : T (result (punctuated enum_variant) error) :=
  loop (fun variants =>
    t <~ peek ;;
    match t with
    | None => ret (inr (Ok variants))
    | Some _ =>
        attributes <~ i_attributes false ;;
        vis <~ i_vis_marker ;;
        name <~ i_parse_any_ident "enum variant name" ;;
        u <~ peek ;;
        let bad t := fail PVariantToken [Txt "cannot parse enum variant: unexpected token "; Dbg t] in
        contents <~
          (match u with
           | None => ret FUnit
           | Some (TPunct p) => if p_is "," p then ret FUnit else if p_is "=" p then ret FUnit else bad (TPunct p)
           | Some (TGroup g) =>
               if delim_eqb (g_delim g) Parenthesis then next ;;> f <~ i_tuple_fields g ;; ret (FTuple f)
               else if delim_eqb (g_delim g) Brace then next ;;> f <~ i_named_fields g ;; ret (FNamed f)
               else bad (TGroup g)
           | Some t => bad t
           end) ;;
        value <~ i_enum_discriminant ;;
        comma <~ i_consume_comma ;;
        match value with
        | Err e => ret (inr (Err e))
        | Ok value => ret (inl (pu_push variants (mkVariant attributes vis name contents value) comma))
        end
    end) pu_new.

(** ** src/parse_fn.rs *)
(** Lines 33-70. *)
Definition i_fn_qualifiers : T fn_qualifiers :=
  d <~ i_consume_ident "default" ;;
  c <~ i_consume_ident "const" ;;
  a <~ i_consume_ident "async" ;;
  u <~ i_consume_ident "unsafe" ;;
  t <~ peek ;;
  match t with
  | Some (TIdent e) =>
      if id_is "extern" e then
        next ;;>
        l <~ peek ;;
        match l with
        | Some (TLit l) => next ;;> ret (mkFnQualifiers d c a u (Some e) (Some l))
        | _ => ret (mkFnQualifiers d c a u (Some e) None)
        end
      else ret (mkFnQualifiers d c a u None None)
  | _ => ret (mkFnQualifiers d c a u None None)
  end.
(** Lines 72-116, on the tokens of the parentheses. *)
Definition i_fn_params : T (punctuated fn_param) :=
  loop (fun fields =>
    t <~ peek ;;
    match t with
    | None => ret (inr fields)
    | Some _ =>
        attributes <~ i_attributes false ;;
        tk_ref <~ i_consume_punct "&" ;;
        lt <~ i_lifetime false ;;
        tk_mut <~ i_consume_ident "mut" ;;
        tk_self <~ i_consume_ident "self" ;;
        param <~
          (match tk_self with
           | Some tk_self => ret (FPReceiver (mkReceiver attributes tk_ref lt tk_mut tk_self))
           | None =>
               name <~ i_parse_any_ident "fn param name" ;;
               colon <~ i_parse_punct ":" "fn params" ;;
               ty <~ i_field_type ;;
               ret (FPTyped (mkTyped attributes tk_mut name colon (mkTypeExpr ty)))
           end) ;;
        comma <~ i_consume_comma ;;
        ret (inl (pu_push fields param comma))
    end) pu_new.
(** Lines 118-141. *)
Definition i_fn_return : T (option ((punct * punct) * type_expr)) :=
  dash <~ i_consume_punct "-" ;;
  match dash with
  | None => ret None
  | Some dash =>
      t <~ next ;;
      match t with
      | Some (TPunct tip) =>
          if p_is ">" tip then ty <~ i_stuff_until end_fn_return true ;; ret (Some ((dash, tip), mkTypeExpr ty))
          else fail PFnReturn no_fn_return
      | _ => fail PFnReturn no_fn_return
      end
  end.
(** Lines 153-214: the qualifiers and the [fn] keyword, or what else the item is, after a
    rollback. *)
Definition i_fn_head : T (fn_qualifiers * result ident not_function) :=
  before <~ save ;;
  q <~ i_fn_qualifiers ;;
  t <~ next ;;
  let no nf := restore before ;;> ret (Err nf) in
  kw <~
    (match t with
     | Some (TIdent i) =>
         if id_is "fn" i then ret (Ok i)
         else if is_some (fq_extern q) && id_is "crate" i then no NFExternCrate
         else if id_is "static" i then no NFStatic
         else if has_only_const_xor_unsafe q then
           if is_some (fq_const q) then no NFConst
           else if is_some (fq_unsafe q) then
             if id_is "trait" i then no NFTrait
             else if id_is "impl" i then no NFImpl
             else if id_is "mod" i then no NFMod
             else fail PUnsafeIdent [Txt "expected one of 'fn|trait|impl|mod' after 'unsafe', got "; DbgIdent i]
           else fail PUnreachable unreachable_code
         else fail PFnIdent [Txt "expected 'fn' keyword, got ident '"; Dsp [TIdent i]; Txt "'"]
     | Some (TLit _) => if is_some (fq_extern q) then no NFExternBlock else fail PFnKeyword no_fn_keyword
     | Some (TGroup g) => if is_some (fq_extern q) && delim_eqb (g_delim g) Brace then no NFExternBlock else fail PFnKeyword no_fn_keyword
     | _ => fail PFnKeyword no_fn_keyword
     end) ;;
  ret (q, kw).
(** Lines 148-257. *)
Definition i_fn (attributes : list attribute) (vis : option vis_marker) : T (result function not_function) :=
  h <~ i_fn_head ;;
  let (q, kw) := h : fn_qualifiers * result ident not_function in
  match kw with
  | Err nf => ret (Err nf)
  | Ok kw =>
      name <~ i_item_name ;;
      generics <~ i_generic_params ;;
      u <~ next ;;
      params <~
        (match u with
         | None => fail (PUnwrapNone AtFnParams) unwrap_none
         | Some (TGroup g) =>
             if delim_eqb (g_delim g) Parenthesis then ps <~ within (g_stream g) i_fn_params ;; ret (ps, group_span_new g)
             else fail PFnParams no_fn_params
         | Some _ => fail PFnParams no_fn_params
         end) ;;
      r <~ i_fn_return ;;
      wh <~ i_where_clause ;;
      v <~ next ;;
      body <~
        (match v with
         | None => fail (PUnwrapNone AtFnBody) unwrap_none
         | Some (TGroup g) => if delim_eqb (g_delim g) Brace then ret (Some g, None) else fail PFnBody no_fn_body
         | Some (TPunct p) => if p_is ";" p then ret (None, Some p) else fail PFnBody no_fn_body
         | Some _ => fail PFnBody no_fn_body
         end) ;;
      ret (Ok (mkFunction attributes vis q kw name generics (snd params) (fst params) wh
                 (option_map fst r) (option_map snd r) (snd body) (fst body)))
  end.
(** Lines 273-301. *)
Definition i_macro_inner (attributes : list attribute) : T (option macro) :=
  name <~ i_consume_any_ident ;;
  match name with
  | None => ret None
  | Some name =>
      bang <~ i_consume_punct "!" ;;
      match bang with
      | None => ret None
      | Some bang =>
          declared <~ i_consume_any_ident ;;
          t <~ next ;;
          match t with
          | None => fail PMacroEnd [Txt "unexpected end of macro"]
          | Some (TGroup g) =>
              if delim_eqb (g_delim g) Parenthesis then
                inner <~ within (g_stream g) collect ;;
                semi <~ i_parse_punct ";" "macro invocation semicolon" ;;
                ret (Some (mkMacro attributes name bang declared (group_span_new g) inner (Some semi)))
              else if delim_eqb (g_delim g) Brace then
                inner <~ within (g_stream g) collect ;;
                ret (Some (mkMacro attributes name bang declared (group_span_new g) inner None))
              else fail PMacroBody no_macro_body
          | _ => fail PMacroBody no_macro_body
          end
      end
  end.
(** Lines 259-271. *)
Definition i_macro (attributes : list attribute) : T (option macro) :=
  before <~ save ;;
  m <~ i_macro_inner attributes ;;
  match m with Some m => ret (Some m) | None => restore before ;;> ret None end.

(** ** src/parse_impl.rs, first part *)
(** Lines 19-76. *)
Definition i_const_or_static (attributes : list attribute) (vis : option vis_marker) : T constant :=
  t <~ next ;;
  k <~
    (match t with
     | Some (TIdent i) => if id_is "const" i then ret (i, true) else if id_is "static" i then ret (i, false) else fail PConstOrStatic no_const
     | _ => fail PConstOrStatic no_const
     end) ;;
  let (kw, is_const) := k : ident * bool in
  u <~ peek ;;
  tk_mut <~
    (match u with
     | Some (TIdent i) => if id_is "mut" i then (if is_const then fail PConstMut [Txt "`const mut` is not a valid declaration"] else ret (Some i)) else ret None
     | _ => ret None
     end) ;;
  name <~ i_parse_any_ident "const/static" ;;
  colon <~ i_parse_punct ":" "const/static" ;;
  ty <~ i_stuff_until end_eq_or_semi true ;;
  equals <~ i_consume_punct "=" ;;
  value <~ i_stuff_until end_semi true ;;
  let init := match value with [] => None | _ :: _ => Some (mkValueExpr value) end in
  semi <~ i_parse_punct ";" "const/static" ;;
  ret (mkConstant attributes vis kw tk_mut name colon (mkTypeExpr ty) equals init semi).
(** Lines 78-119. *)
Definition i_ty_definition (attributes : list attribute) (vis : option vis_marker) : T (option type_alias) :=
  kw <~ i_parse_ident "type" "associated type" ;;
  name <~ i_parse_any_ident "associated type" ;;
  bound <~ i_bound end_eq_or_semi ;;
  equals <~ i_consume_punct "=" ;;
  init <~ (match equals with Some _ => ty <~ i_stuff_until end_semi true ;; ret (Some (mkTypeExpr ty)) | None => ret None end) ;;
  semi <~ i_parse_punct ";" "associated type" ;;
  ret (Some (mkTypeAlias attributes vis kw name bound equals init semi)).

(** ** src/parse_mod.rs:68-95 and src/parse_extern.rs:6-52 *)
Definition i_use (attributes : list attribute) (vis : option vis_marker) : T use_decl :=
  kw <~ i_parse_ident "use" "use declaration" ;;
  tree <~ i_stuff_until end_semi true ;;
  semi <~ i_parse_punct ";" "use declaration" ;;
  ret (mkUse attributes vis kw (mkTypeExpr tree) semi).
Definition i_consume_extern_crate (attributes : list attribute) (vis : option vis_marker) : T (option extern_crate) :=
  kw <~ i_consume_ident "extern" ;;
  match kw with
  | None => ret None
  | Some kw =>
      kw2 <~ i_consume_ident "crate" ;;
      match kw2 with
      | None => ret None
      | Some kw2 =>
          name <~ i_parse_any_ident "extern crate" ;;
          tk_as <~ i_consume_ident "as" ;;
          alias <~ (match tk_as with Some _ => a <~ i_parse_any_ident "extern crate: alias" ;; ret (Some a) | None => ret None end) ;;
          semi <~ i_parse_punct ";" "extern crate" ;;
          ret (Some (mkExternCrate attributes vis kw kw2 name tk_as alias None semi))
      end
  end.
Definition i_extern_crate (attributes : list attribute) (vis : option vis_marker) : T extern_crate :=
  c <~ i_consume_extern_crate attributes vis ;; match c with Some c => ret c | None => fail PExternCrate [Txt "cannot parse extern crate"] end.

(** ** The mutually recursive parsers *)
Section Nested.
Variable rec_item : T (result item error).
Variable rec_either : list attribute -> option vis_marker -> T item.

(** src/parse_impl.rs:188-227. *)
Definition i_impl_body (g : group) (allow_static : bool) : T (group_span * list attribute * list impl_member) :=
  r <~ within (g_stream g)
    (inner <~ i_attributes true ;;
     items <~ loop (fun items =>
         t <~ peek ;;
         match t with
         | None => ret (inr items)
         | Some _ =>
             attributes <~ i_attributes false ;;
             vis <~ i_vis_marker ;;
             i <~ rec_either attributes vis ;;
             let bad := t <~ peek ;; fail PUnsupportedMember [Txt "unsupported impl item `"; DbgOpt t; Txt "`"] in
             m <~
               (match i with
                | IFunction f => ret (IMFunction f)
                | IConstant c =>
                    if id_is "const" (co_kw c) then ret (IMConstant c)
                    else if allow_static then ret (IMConstant c)
                    else bad
                | ITypeAlias t => ret (IMType t)
                | IMacro m => ret (IMMacro m)
                | _ => bad
                end) ;;
             ret (inl (items ++ [m]))
         end) [] ;;
     ret (inner, items)) ;;
  ret (group_span_new g, fst r, snd r).
(** src/parse_impl.rs:274-279 and 313-318. *)
Definition i_body_group (site : unwrap_site) (bad : panic) (text : string) : T (group_span * list attribute * list impl_member) :=
  t <~ next ;;
  match t with
  | None => fail (PUnwrapNone site) unwrap_none
  | Some (TGroup g) => if delim_eqb (g_delim g) Brace then i_impl_body g false else fail bad [Txt text; Dbg (TGroup g)]
  | Some t => fail bad [Txt text; Dbg t]
  end.
(** src/parse_impl.rs:229-294. *)
Definition i_impl (attributes : list attribute) : T impl_ :=
  tk_unsafe <~ i_consume_ident "unsafe" ;;
  kw <~ i_parse_ident "impl" "impl block" ;;
  generics <~ i_generic_params ;;
  ty1 <~ i_stuff_until end_impl_ty true ;;
  tk_for <~ i_consume_ident "for" ;;
  tys <~
    (match tk_for with
     | Some tk_for => ty2 <~ i_stuff_until end_impl_self_ty true ;; ret (Some tk_for, Some (mkTypeExpr ty1), mkTypeExpr ty2)
     | None => ret (None, None, mkTypeExpr ty1)
     end) ;;
  let '(tk_for, trait_ty, self_ty) := tys : option ident * option type_expr * type_expr in
  wh <~ i_where_clause ;;
  b <~ i_body_group AtImplBody PImplToken "cannot parse impl: unexpected token " ;;
  let '(braces, inner, items) := b : group_span * list attribute * list impl_member in
  ret (mkImpl attributes tk_unsafe kw generics trait_ty tk_for self_ty wh braces inner items).
(** src/parse_impl.rs:296-343. *)
Definition i_trait (attributes : list attribute) (vis : option vis_marker) : T trait_ :=
  tk_unsafe <~ i_consume_ident "unsafe" ;;
  kw <~ i_parse_ident "trait" "trait declaration" ;;
  name <~ i_parse_any_ident "trait name" ;;
  generics <~ i_generic_params ;;
  bound <~ i_bound end_trait_bound ;;
  wh <~ i_where_clause ;;
  b <~ i_body_group AtTraitBody PTraitToken "cannot parse trait: unexpected token " ;;
  let '(braces, inner, items) := b : group_span * list attribute * list impl_member in
  ret (mkTrait attributes vis tk_unsafe kw name generics bound wh braces inner (map trait_member_of_impl items)).
(** src/parse_extern.rs:54-99. *)
Definition i_consume_extern_block (attributes : list attribute) (vis : option vis_marker) : T (option extern_block) :=
  tk_unsafe <~ i_consume_ident "unsafe" ;;
  kw <~ i_consume_ident "extern" ;;
  match kw with
  | None => ret None
  | Some kw =>
      l <~ peek ;;
      abi <~ (match l with Some (TLit l) => next ;;> ret (Some l) | _ => ret None end) ;;
      t <~ next ;;
      match t with
      | Some (TGroup g) =>
          if delim_eqb (g_delim g) Brace then
            b <~ i_impl_body g true ;;
            let '(braces, inner, items) := b : group_span * list attribute * list impl_member in
            ret (Some (mkExternBlock attributes vis tk_unsafe kw abi braces inner items))
          else ret None
      | _ => ret None
      end
  end.
Definition i_extern_block (attributes : list attribute) (vis : option vis_marker) : T extern_block :=
  b <~ i_consume_extern_block attributes vis ;; match b with Some b => ret b | None => fail PExternBlock [Txt "cannot parse extern block"] end.
(** [Display] of an error, src/error.rs:186-190: the first message. *)
Definition error_text (e : error) : string := match er_messages e with m :: _ => em_text m | [] => "" end.
(** src/parse_mod.rs:12-66. *)
Definition i_mod (attributes : list attribute) (vis : option vis_marker) : T (module_ item) :=
  tk_unsafe <~ i_consume_ident "unsafe" ;;
  kw <~ i_parse_ident "mod" "module declaration" ;;
  name <~ i_item_name ;;
  t <~ next ;;
  let bad t := fail PModToken [Txt "cannot parse mod: expected `{ }` or `;`, but got token "; Dbg t] in
  match t with
  | None => fail (PUnwrapNone AtModBody) unwrap_none
  | Some (TGroup g) =>
      if delim_eqb (g_delim g) Brace then
        r <~ within (g_stream g)
          (inner <~ i_attributes true ;;
           members <~ loop (fun members =>
               t <~ peek ;;
               match t with
               | None => ret (inr members)
               | Some _ =>
                   i <~ rec_item ;;
                   match i with Ok i => ret (inl (members ++ [i])) | Err e => fail PDeclInMod [Txt "declaration in mod: "; Txt (error_text e)] end
               end) [] ;;
           ret (inner, members)) ;;
        ret (mkModule attributes vis tk_unsafe kw name None (Some (group_span_new g)) (fst r) (snd r))
      else bad (TGroup g)
  | Some (TPunct p) =>
      if p_is ";" p then ret (mkModule attributes vis tk_unsafe kw name (Some p) None [] []) else bad (TPunct p)
  | Some t => bad t
  end.
(** src/parse_impl.rs:122-186. *)
Definition i_either (context : string) (attributes : list attribute) (vis : option vis_marker) : T item :=
  t <~ peek ;;
  match t with
  | Some (TIdent i) =>
      if id_is "type" i then
        a <~ i_ty_definition attributes vis ;;
        match a with Some a => ret (ITypeAlias a) | None => fail (PUnwrapNone AtTypeAlias) unwrap_none end
      else if fn_like_keyword i then
        f <~ i_fn attributes vis ;;
        match f with
        | Ok f => ret (IFunction f)
        | Err NFConst => c <~ i_const_or_static attributes vis ;; ret (IConstant c)
        | Err NFStatic => c <~ i_const_or_static attributes vis ;; ret (IConstant c)
        | Err NFTrait => c <~ i_trait attributes vis ;; ret (ITrait c)
        | Err NFImpl => c <~ i_impl attributes ;; ret (IImpl c)
        | Err NFMod => c <~ i_mod attributes vis ;; ret (IModule c)
        | Err NFExternBlock => c <~ i_extern_block attributes vis ;; ret (IExternBlock c)
        | Err NFExternCrate => c <~ i_extern_crate attributes vis ;; ret (IExternCrate c)
        end
      else
        match vis with
        | Some v => fail PVisOnMacro [Txt "unsupported visibility marker `"; Dsp (print_vis v); Txt "`"]
        | None => m <~ i_macro attributes ;; match m with Some m => ret (IMacro m) | None => fail PUnsupportedItem [Txt "unsupported "; Txt context; Txt " item `"; Dsp [TIdent i]; Txt "`"] end
        end
  | _ => t <~ peek ;; fail PUnsupportedElement [Txt "unsupported "; Txt context; Txt " element: "; DbgOpt t]
  end.
(** src/parse.rs:91-136. *)
Definition i_struct (attributes : list attribute) (vis : option vis_marker) (kw : ident) : T struct_ :=
  name <~ i_item_name ;;
  generics <~ i_generic_params ;;
  wh <~ i_where_clause ;;
  t <~ peek ;;
  let bad t := fail PStructToken [Txt "cannot parse struct: unexpected token "; Dbg t] in
  fs <~
    (match t with
     | None => fail PStructNoBody [Txt "cannot parse struct: missing body or semicolon"]
     | Some (TPunct p) => if p_is ";" p then ret FUnit else bad (TPunct p)
     | Some (TGroup g) =>
         if delim_eqb (g_delim g) Parenthesis then next ;;> f <~ i_tuple_fields g ;; ret (FTuple f)
         else if delim_eqb (g_delim g) Brace then next ;;> f <~ i_named_fields g ;; ret (FNamed f)
         else bad (TGroup g)
     | Some t => bad t
     end) ;;
  wh <~
    (match fs with
     | FTuple _ => match wh with Some _ => fail PAssertTupleWhere [Txt "assertion failed: where_clause.is_none()"] | None => i_where_clause end
     | _ => ret wh
     end) ;;
  semi <~ i_consume_punct ";" ;;
  ret (mkStruct attributes vis kw name generics wh fs semi).
(** src/parse.rs:137-162. *)
Definition i_enum (attributes : list attribute) (vis : option vis_marker) (kw : ident) : T (result enum_ error) :=
  name <~ i_item_name ;;
  generics <~ i_generic_params ;;
  wh <~ i_where_clause ;;
  t <~ next ;;
  match t with
  | None => fail (PUnwrapNone AtEnum) unwrap_none
  | Some (TGroup g) =>
      if delim_eqb (g_delim g) Brace then
        vs <~ within (g_stream g) i_enum_variants ;;
        match vs with
        | Ok vs => ret (Ok (mkEnum attributes vis kw name generics wh (group_span_new g) vs))
        | Err e => ret (Err e)
        end
      else fail PEnumToken [Txt "cannot parse enum: unexpected token "; Dbg (TGroup g)]
  | Some t => fail PEnumToken [Txt "cannot parse enum: unexpected token "; Dbg t]
  end.
(** src/parse.rs:163-187. *)
Definition i_union (attributes : list attribute) (vis : option vis_marker) (kw : ident) : T union_ :=
  name <~ i_item_name ;;
  generics <~ i_generic_params ;;
  wh <~ i_where_clause ;;
  t <~ next ;;
  match t with
  | None => fail (PUnwrapNone AtUnion) unwrap_none
  | Some (TGroup g) =>
      if delim_eqb (g_delim g) Brace then f <~ i_named_fields g ;; ret (mkUnion attributes vis kw name generics wh f)
      else fail PUnionToken [Txt "cannot parse union: unexpected token "; Dbg (TGroup g)]
  | Some t => fail PUnionToken [Txt "cannot parse union: unexpected token "; Dbg t]
  end.
(** src/parse.rs:86-239. *)
Definition i_item_body : T (result item error) :=
  attributes <~ i_attributes false ;;
  vis <~ i_vis_marker ;;
  t <~ peek ;;
  let other t :=
    m <~ i_macro attributes ;;
    match m with
    | Some m => ret (Ok (IMacro m))
    | None =>
        fail PNoDeclaration
          [Txt "cannot parse declaration: expected keyword struct/enum/union/type/trait/impl/mod/default/const/async/unsafe/extern/fn/static or macro, found token "; Dbg t]
    end in
  match t with
  | None =>
      fail PEndOfStream
        [Txt "cannot parse type: expected keyword struct/enum/union/type/trait/impl/mod/default/const/async/unsafe/extern/fn/static or macro, found end-of-stream"]
  | Some (TIdent kw) =>
      if id_is "struct" kw then next ;;> x <~ i_struct attributes vis kw ;; ret (Ok (IStruct x))
      else if id_is "enum" kw then
        next ;;> x <~ i_enum attributes vis kw ;; match x with Ok e => ret (Ok (IEnum e)) | Err e => ret (Err e) end
      else if id_is "union" kw then next ;;> x <~ i_union attributes vis kw ;; ret (Ok (IUnion x))
      else if id_is "mod" kw then x <~ i_mod attributes vis ;; ret (Ok (IModule x))
      else if id_is "trait" kw then x <~ i_trait attributes vis ;; ret (Ok (ITrait x))
      else if id_is "impl" kw then x <~ i_impl attributes ;; ret (Ok (IImpl x))
      else if id_is "static" kw then x <~ i_const_or_static attributes vis ;; ret (Ok (IConstant x))
      else if id_is "use" kw then x <~ i_use attributes vis ;; ret (Ok (IUse x))
      else if either_keyword kw then x <~ i_either "fn/type/const/static/extern/extern crate" attributes vis ;; ret (Ok x)
      else other (TIdent kw)
  | Some t => other t
  end.
End Nested.

(** The recursion, as in [nest] of ParseItem.v. *)
Fixpoint i_nest (n : nat) : T (result item error) * (list attribute -> option vis_marker -> T item) :=
  match n with
  | O => (fun _ => (Stuck, (0, 0)), fun _ _ _ => (Stuck, (0, 0)))
  | S n => let (rec_item, rec_either) := i_nest n in (i_item_body rec_item rec_either, i_either rec_item rec_either "impl")
  end.
Definition i_consume_item : T (result item error) := fun ts => fst (i_nest (S (toks_depth ts))) ts.
(** src/parse.rs:59-71. *)
Definition i_parse_item : T (result item error) :=
  d <~ i_consume_item ;; t <~ peek ;; 
  match t with
  | Some _ => rest <~ collect ;; fail PTrailingTokens [Txt "unexpected trailing tokens after declaration: "; Dsp rest]
  | None => ret d
  end.

(** ** [consume_path], src/parse_utils.rs:301-335 *)
Definition i_path : T (option path) :=
  colons <~ i_colon2 ;;
  loop (fun '(colons, segments) =>
    t <~ next ;;
    match t with
    | Some (TIdent id) =>
        args <~ i_generic_args ;;
        let segments := segments ++ [mkPathSegment colons id args] in
        u <~ peek ;;
        match u with
        | None => ret (inr (Some (mkPath segments)))
        | Some _ =>
            sep <~ i_colon2 ;;
            match sep with Some sep => ret (inl (Some sep, segments)) | None => ret (inr None) end
        end
    | _ => ret (inr None)
    end) (colons, []).

(** src/parse_utils.rs (all but [consume_path], which is in ParsePath.v).

    The token iterator is the list of remaining tokens.  A function taking
    [&mut TokenIter] returns what is left; saving and restoring a clone of the
    iterator is reusing the old list. *)
From Verif Require Export Print.

(** [parse_any_ident], src/parse_utils.rs:13-22. *)
Definition parse_any_ident (context : string) : parser ident := fun ts =>
  match ts with
  | TIdent i :: r => Ret (i, r)
  | [] => Panic (PExpectedIdent context true)
  | _ => Panic (PExpectedIdent context false)
  end.

(** [parse_ident], src/parse_utils.rs:24-33. *)
Definition parse_ident (expected context : string) : parser ident := fun ts =>
  match ts with
  | TIdent i :: r => if id_is expected i then Ret (i, r) else Panic (PExpectedKeyword expected context false)
  | [] => Panic (PExpectedKeyword expected context true)
  | _ => Panic (PExpectedKeyword expected context false)
  end.

(** [consume_any_ident], src/parse_utils.rs:35-44. *)
Definition consume_any_ident (ts : list tok) : option ident * list tok :=
  match ts with
  | TIdent i :: r => (Some i, r)
  | _ => (None, ts)
  end.

(** [consume_ident], src/parse_utils.rs:46-55. *)
Definition consume_ident (expected : string) (ts : list tok) : option ident * list tok :=
  match ts with
  | TIdent i :: r => if id_is expected i then (Some i, r) else (None, ts)
  | _ => (None, ts)
  end.

(** [parse_punct], src/parse_utils.rs:57-66. *)
Definition parse_punct (expected : ascii) (context : string) : parser punct := fun ts =>
  match ts with
  | TPunct p :: r => if p_is expected p then Ret (p, r) else Panic (PExpectedPunct expected context false)
  | [] => Panic (PExpectedPunct expected context true)
  | _ => Panic (PExpectedPunct expected context false)
  end.

(** [consume_punct], src/parse_utils.rs:68-77. *)
Definition consume_punct (expected : ascii) (ts : list tok) : option punct * list tok :=
  match ts with
  | TPunct p :: r => if p_is expected p then (Some p, r) else (None, ts)
  | _ => (None, ts)
  end.

(** [consume_comma], src/parse_utils.rs:275-277. *)
Definition consume_comma : list tok -> option punct * list tok := consume_punct ",".

(** The loop reading an attribute's path, src/parse_utils.rs:132-143. *)
Fixpoint attribute_path (ts : list tok) : outcome (list tok * list tok) :=
  match ts with
  | [] => Ret ([], ts)
  | t :: r =>
      let take := do (path, rest) <- attribute_path r ;; Ret (t :: path, rest) in
      match t with
      | TGroup _ => Ret ([], ts)
      | TIdent _ => take
      | TPunct p =>
          if p_is "=" p then Ret ([], ts)
          else if p_is ":" p then take
          else Panic PAttrPath
      | TLit _ => Panic PAttrPath
      end
  end.

(** The value of an attribute, src/parse_utils.rs:145-159. *)
Definition attribute_value_of (ts : list tok) : outcome attribute_value :=
  match ts with
  | [] => Ret AVEmpty
  | TGroup g :: _ => Ret (AVGroup (group_span_new g) (g_stream g))
  | TPunct p :: r => if p_is "=" p then Ret (AVEquals p r) else Panic PUnreachable
  | _ => Panic PUnreachable
  end.

(** One attribute from its bracket group, src/parse_utils.rs:129-167. *)
Definition parse_attribute (hash : punct) (bang : option punct) (g : group) : outcome attribute :=
  do (path, rest) <- attribute_path (g_stream g) ;;
  do value <- attribute_value_of rest ;;
  Ret (mkAttribute hash bang (group_span_new g) path value).

(** [consume_attributes_with_inner], src/parse_utils.rs:85-171. *)
Fixpoint consume_attributes_with_inner (expect_inner : bool) (ts : list tok)
  : outcome (list attribute * list tok) :=
  match ts with
  | TPunct hash :: r =>
      if p_is "#" hash then
        if expect_inner then
          match r with
          | TPunct bang :: r1 =>
              if p_is "!" bang then
                match r1 with
                | TGroup g :: r2 =>
                    if delim_eqb (g_delim g) Bracket then
                      do a <- parse_attribute hash (Some bang) g ;;
                      do (l, rest) <- consume_attributes_with_inner expect_inner r2 ;;
                      Ret (a :: l, rest)
                    else Panic PInnerAttrBracket
                | _ => Panic PInnerAttrBracket
                end
              else Panic PInnerAttrBang
          | TGroup g :: _ =>
              if delim_eqb (g_delim g) Bracket then Ret ([], ts) else Panic PInnerAttrBang
          | _ => Panic PInnerAttrBang
          end
        else
          match r with
          | TGroup g :: r2 =>
              if delim_eqb (g_delim g) Bracket then
                do a <- parse_attribute hash None g ;;
                do (l, rest) <- consume_attributes_with_inner expect_inner r2 ;;
                Ret (a :: l, rest)
              else Panic POuterAttrBracket
          | _ => Panic POuterAttrBracket
          end
      else Ret ([], ts)
  | _ => Ret ([], ts)
  end.

(** [consume_outer_attributes] and [consume_inner_attributes], src/parse_utils.rs:176-185. *)
Definition consume_outer_attributes : parser (list attribute) := consume_attributes_with_inner false.
Definition consume_inner_attributes : parser (list attribute) := consume_attributes_with_inner true.

(** [consume_vis_marker], src/parse_utils.rs:187-212. *)
Definition consume_vis_marker (ts : list tok) : option vis_marker * list tok :=
  match ts with
  | TIdent i :: r =>
      if id_is "pub" i then
        match r with
        | TGroup g :: r2 =>
            if delim_eqb (g_delim g) Parenthesis
            then (Some (mkVis (TIdent i) (Some (TGroup g))), r2)
            else (Some (mkVis (TIdent i) None), r)
        | _ => (Some (mkVis (TIdent i) None), r)
        end
      else if id_is "crate" i then (Some (mkVis (TIdent i) None), r)
      else (None, ts)
  | _ => (None, ts)
  end.

(** The loop of [consume_stuff_until], src/parse_utils.rs:223-258: returns the output
    tokens, [predicate_met] and the remaining tokens.  [bracket_count] is an
    unbounded integer; Machine.v has the same loop with the [i32] of the source. *)
Fixpoint stuff_loop (predicate : tok -> bool) (bracket_count : Z) (prev_token_is_dash : bool)
  (ts : list tok) : list tok * bool * list tok :=
  match ts with
  | [] => ([], false, ts)
  | t :: r =>
      let push (bc : Z) (dash : bool) :=
        if Z.ltb bc 0 then ([], false, ts)
        else let '(out, met, rest) := stuff_loop predicate bc dash r in (t :: out, met, rest) in
      if is_punct "<" t then push (bracket_count + 1)%Z false
      else if is_punct ">" t && negb prev_token_is_dash then push (bracket_count - 1)%Z false
      else if is_punct "-" t then push bracket_count true
      else if predicate t && Z.eqb bracket_count 0 then ([], true, ts)
      else push bracket_count false
  end.

(** [consume_stuff_until], src/parse_utils.rs:218-273. *)
Definition consume_stuff_until (predicate : tok -> bool) (must_find_predicate : bool)
  : parser (list tok) := fun ts =>
  let '(out, met, rest) := stuff_loop predicate 0 false ts in
  if must_find_predicate && negb met then
    match rest with
    | TPunct p :: _ => if p_is ">" p then Panic PUnbalancedAngle else Panic PUnreachable
    | [] => Panic PTypeEnd
    | _ => Panic PUnreachable
    end
  else Ret (out, rest).

(** [first.spacing() == Spacing::Joint] etc., src/parse_utils.rs:287-289. *)
Definition is_joint (s : spacing) : bool := match s with Joint => true | Alone => false end.

(** [consume_colon2], src/parse_utils.rs:282-298. *)
Definition consume_colon2 (ts : list tok) : option (punct * punct) * list tok :=
  match ts with
  | TPunct a :: TPunct b :: r =>
      if p_is ":" a && is_joint (p_spacing a) && p_is ":" b && negb (is_joint (p_spacing b))
      then (Some (a, b), r) else (None, ts)
  | _ => (None, ts)
  end.

(** Tokens, spans, and the outcome of running venial code.

    Models the parts of [proc_macro2] (fallback backend) that venial uses:
    [TokenTree], [Group], [Ident], [Punct], [Literal], [Spacing], [Delimiter],
    [Span] and [TokenStream] / [Peekable<token_stream::IntoIter>].  These types are
    external to /repo; they are imported at src/types.rs:3,
    src/parse_utils.rs:3 and src/parse_utils.rs:6 ([TokenIter]). *)
From Coq Require Export List String Ascii ZArith NArith Lia Bool.
Export ListNotations.
Global Open Scope list_scope.

(** [proc_macro2::Span], opaque (used at src/error.rs:60-61, src/types.rs:861). *)
Definition span := N.
(** [Span::call_site()] (used at src/error.rs:72, src/types_edition.rs:583). *)
Definition call_site : span := 0%N.

(** [proc_macro2::Spacing] (used at src/parse_utils.rs:287). *)
Inductive spacing := Alone | Joint.

(** [proc_macro2::Delimiter] (used e.g. at src/parse.rs:107). *)
Inductive delimiter := Parenthesis | Brace | Bracket | NoDelim.

(** [proc_macro2::Ident]; the string keeps a raw [r#] prefix, so that comparing
    with a keyword ([ident == "struct"], src/parse.rs:91) is string equality. *)
Record ident := mkIdent { id_str : string; id_span : span }.

(** [proc_macro2::Punct]; [Punct::as_char] is [p_char] (src/parse_utils.rs:60). *)
Record punct := mkPunct { p_char : ascii; p_spacing : spacing; p_span : span }.

(** [proc_macro2::Literal] (used at src/parse_fn.rs:46). *)
Record literal := mkLit { l_repr : string; l_span : span }.

(** [proc_macro2::TokenTree] and [Group]: delimiter, stream, span. *)
Inductive tok :=
| TGroup (g : group)
| TIdent (i : ident)
| TPunct (p : punct)
| TLit (l : literal)
with group := mkGroup (g_delim : delimiter) (g_stream : list tok) (g_span : span).

(** [Group::delimiter], [Group::stream], [Group::span] (src/types_edition.rs:865). *)
Definition g_delim (g : group) : delimiter := let 'mkGroup d _ _ := g in d.
Definition g_stream (g : group) : list tok := let 'mkGroup _ s _ := g in s.
Definition g_span (g : group) : span := let 'mkGroup _ _ s := g in s.

(** [TokenTree::span] (used at src/error.rs:96, src/parse_type.rs:313). *)
Definition tok_span (t : tok) : span :=
  match t with
  | TGroup g => g_span g
  | TIdent i => id_span i
  | TPunct p => p_span p
  | TLit l => l_span l
  end.

(** [Delimiter: PartialEq], as in [group.delimiter() == Delimiter::Brace]. *)
Definition delim_eqb (a b : delimiter) : bool :=
  match a, b with
  | Parenthesis, Parenthesis | Brace, Brace | Bracket, Bracket | NoDelim, NoDelim => true
  | _, _ => false
  end.

(** [ident == "..."] (e.g. src/parse_utils.rs:27). *)
Definition id_is (s : string) (i : ident) : bool := String.eqb (id_str i) s.

(** [punct.as_char() == '...'] (e.g. src/parse_utils.rs:60). *)
Definition p_is (c : ascii) (p : punct) : bool := Ascii.eqb (p_char p) c.

(** Pattern [TokenTree::Punct(punct) if punct.as_char() == c]. *)
Definition is_punct (c : ascii) (t : tok) : bool :=
  match t with TPunct p => p_is c p | _ => false end.

(** Pattern [TokenTree::Ident(ident) if ident == s]. *)
Definition is_ident (s : string) (t : tok) : bool :=
  match t with TIdent i => id_is s i | _ => false end.

(** Pattern [TokenTree::Group(group) if group.delimiter() == d]. *)
Definition is_group (d : delimiter) (t : tok) : bool :=
  match t with TGroup g => delim_eqb (g_delim g) d | _ => false end.

(** Nesting depth of groups in a token / token list; only used to give the
    recursive parsers enough fuel (see Outcome below), not part of venial. *)
Fixpoint tok_depth (t : tok) : nat :=
  match t with
  | TGroup (mkGroup _ s _) =>
      S ((fix go (l : list tok) : nat :=
            match l with [] => 0 | x :: r => Nat.max (tok_depth x) (go r) end) s)
  | _ => 0
  end.
Fixpoint toks_depth (l : list tok) : nat :=
  match l with [] => 0 | x :: r => Nat.max (tok_depth x) (toks_depth r) end.

(** The calls of [unwrap] that can meet a [None], as far as their types go. *)
Inductive unwrap_site :=
| AtEnum                          (* src/parse.rs:145 *)
| AtUnion                         (* src/parse.rs:171 *)
| AtFnParams                      (* src/parse_fn.rs:219 *)
| AtFnBody                        (* src/parse_fn.rs:234 *)
| AtTypeAlias                     (* src/parse_impl.rs:133 *)
| AtImplBody                      (* src/parse_impl.rs:274 *)
| AtTraitBody                     (* src/parse_impl.rs:313 *)
| AtModBody                       (* src/parse_mod.rs:21 *)
| AtBound                         (* src/parse_type.rs:24 *)
| AtGenericArg                    (* src/parse_type.rs:107 *)
| AtEnumValue                     (* src/parse_type.rs:308 *)
| AtErrorSpan                     (* src/error.rs:113, an index out of bounds *)
| AtErrorDisplay.                 (* src/error.rs:188, an index out of bounds *)

(** One constructor per panic site. *)
Inductive panic :=
| PTrailingTokens                 (* src/parse.rs:64 *)
| PStructNoBody                   (* src/parse.rs:101 *)
| PStructToken                    (* src/parse.rs:116 *)
| PAssertTupleWhere               (* src/parse.rs:120 *)
| PEnumToken                      (* src/parse.rs:149 *)
| PUnionToken                     (* src/parse.rs:175 *)
| PNoDeclaration                  (* src/parse.rs:228 *)
| PEndOfStream                    (* src/parse.rs:235 *)
| PUnwrapNone (at_ : unwrap_site)  (* [unwrap] of a [None] *)
(** In these three, [at_end] tells whether the message shows [None] or a token. *)
| PExpectedIdent (context : string) (at_end : bool)    (* src/parse_utils.rs:17 *)
| PExpectedKeyword (expected : string) (context : string) (at_end : bool) (* src/parse_utils.rs:28 *)
| PExpectedPunct (expected : ascii) (context : string) (at_end : bool)    (* src/parse_utils.rs:61 *)
| PInnerAttrBang                  (* src/parse_utils.rs:111 *)
| PInnerAttrBracket               (* src/parse_utils.rs:122 *)
| POuterAttrBracket               (* src/parse_utils.rs:124 *)
| PAttrPath                       (* src/parse_utils.rs:140 *)
| PUnreachable                    (* src/parse_utils.rs:158,268, src/parse_fn.rs:186 *)
| PUnbalancedAngle                (* src/parse_utils.rs:263 *)
| PTypeEnd                        (* src/parse_utils.rs:266 *)
| PBoundToken                     (* src/parse_type.rs:39 *)
| PGenericParamsEnd               (* src/parse_type.rs:53 *)
| PGenericParamsToken             (* src/parse_type.rs:63 *)
| PLifetimeArg                    (* src/parse_type.rs:147 *)
| PLifetimeToken                  (* src/parse_type.rs:159 *)
| PLifetimeEnd                    (* src/parse_type.rs:165 *)
| PWhereEnd                       (* src/parse_type.rs:222 *)
| PWhereToken                     (* src/parse_type.rs:241 *)
| PWhereColonEnd                  (* src/parse_type.rs:246 *)
| PPredicateToken                 (* src/types_edition.rs:777 *)
| PPredicateEnd                   (* src/types_edition.rs:782 *)
| PTypeComma                      (* src/parse_type.rs:291 *)
| PTypeMissing                    (* src/parse_type.rs:293 *)
| PVariantToken                   (* src/parse_type.rs:424 *)
| PFnReturn                       (* src/parse_fn.rs:123 *)
| PUnsafeIdent                    (* src/parse_fn.rs:183 *)
| PFnIdent                        (* src/parse_fn.rs:193 *)
| PFnKeyword                      (* src/parse_fn.rs:212 *)
| PFnParams                       (* src/parse_fn.rs:223 *)
| PFnBody                         (* src/parse_fn.rs:239 *)
| PMacroEnd                       (* src/parse_fn.rs:278 *)
| PMacroBody                      (* src/parse_fn.rs:281 *)
| PConstOrStatic                  (* src/parse_impl.rs:27 *)
| PConstMut                       (* src/parse_impl.rs:32 *)
| PVisOnMacro                     (* src/parse_impl.rs:172 *)
| PUnsupportedItem                (* src/parse_impl.rs:179 *)
| PUnsupportedElement             (* src/parse_impl.rs:184 *)
| PUnsupportedMember              (* src/parse_impl.rs:220 *)
| PImplToken                      (* src/parse_impl.rs:278 *)
| PTraitToken                     (* src/parse_impl.rs:317 *)
| PModToken                       (* src/parse_mod.rs:24 *)
| PDeclInMod                      (* src/parse_mod.rs:45 *)
| PExternCrate                    (* src/parse_extern.rs:11 *)
| PExternBlock                    (* src/parse_extern.rs:59 *)
| PInsertIndex                    (* src/punctuated.rs:42 *)
| PBadPrefix                      (* src/types_edition.rs:726 *)
| PIdentNew                       (* proc_macro2::Ident::new; see Machine.v *)
| POverflow.                      (* src/parse_utils.rs:233,237; see Machine.v *)

(** Result of running a piece of venial: a value, a panic, or exhausted fuel
    (never happens, see theorem C09). *)
Inductive outcome (A : Type) :=
| Ret (a : A)
| Panic (p : panic)
| OutOfFuel.
Arguments Ret {A} a.
Arguments Panic {A} p.
Arguments OutOfFuel {A}.

Definition bind {A B} (m : outcome A) (k : A -> outcome B) : outcome B :=
  match m with
  | Ret a => k a
  | Panic p => Panic p
  | OutOfFuel => OutOfFuel
  end.

Notation "'do' p <- m ;; k" := (bind m (fun p => k))
  (at level 200, p pattern, m at level 100, k at level 200, right associativity).

(** Rust's [Result]. *)
Inductive result (A E : Type) :=
| Ok (a : A)
| Err (e : E).
Arguments Ok {A E} a.
Arguments Err {A E} e.

(** A parser takes the remaining tokens and returns a value and what is left. *)
Definition parser (A : Type) := list tok -> outcome (A * list tok).

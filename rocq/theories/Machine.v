(** Two checks that the main model leaves out: the range of the angle bracket counter and
    the check of names in [Ident::new]. *)
From Verif Require Export Edit.
Local Open Scope string_scope.
Local Open Scope list_scope.

(** ** [i32] *)
(** The type of [bracket_count] (src/parse_utils.rs:224) is inferred: [i32]. *)
Definition i32_min : Z := (- 2 ^ 31)%Z.
Definition i32_max : Z := (2 ^ 31 - 1)%Z.
Definition i32_wrap (z : Z) : Z := ((z + 2 ^ 31) mod 2 ^ 32 - 2 ^ 31)%Z.
(** [+=] and [-=]: a panic with overflow checks (debug builds), wrapping without. *)
Definition i32_of (checks : bool) (z : Z) : outcome Z :=
  if Z.leb i32_min z && Z.leb z i32_max then Ret z
  else if checks then Panic POverflow else Ret (i32_wrap z).

(** The loop of [consume_stuff_until], src/parse_utils.rs:223-258, as in [stuff_loop]. *)
Fixpoint stuff_loop_i32 (checks : bool) (predicate : tok -> bool) (bracket_count : Z)
  (prev_token_is_dash : bool) (ts : list tok) : outcome (list tok * bool * list tok) :=
  match ts with
  | [] => Ret ([], false, ts)
  | t :: r =>
      let push (bc : Z) (dash : bool) :=
        if Z.ltb bc 0 then Ret ([], false, ts)
        else do (out, met, rest) <- stuff_loop_i32 checks predicate bc dash r ;; Ret (t :: out, met, rest) in
      if is_punct "<" t then do bc <- i32_of checks (bracket_count + 1)%Z ;; push bc false
      else if is_punct ">" t && negb prev_token_is_dash then
        do bc <- i32_of checks (bracket_count - 1)%Z ;; push bc false
      else if is_punct "-" t then push bracket_count true
      else if predicate t && Z.eqb bracket_count 0 then Ret ([], true, ts)
      else push bracket_count false
  end.

(** [consume_stuff_until], src/parse_utils.rs:218-273. *)
Definition consume_stuff_until_i32 (checks : bool) (predicate : tok -> bool) (must_find_predicate : bool)
  : parser (list tok) := fun ts =>
  do (out, met, rest) <- stuff_loop_i32 checks predicate 0 false ts ;;
  if must_find_predicate && negb met then
    match rest with
    | TPunct p :: _ => if p_is ">" p then Panic PUnbalancedAngle else Panic PUnreachable
    | [] => Panic PTypeEnd
    | _ => Panic PUnreachable
    end
  else Ret (out, rest).

(** ** [Ident::new] *)
(** [proc_macro2::Ident::new] panics unless its argument is [_] or a letter followed by
    letters, digits and [_].  Simplification: letters are ASCII letters only; Rust also
    allows the XID characters of Unicode. *)
Definition name_start (c : ascii) : bool :=
  let n := nat_of_ascii c in
  ((65 <=? n) && (n <=? 90) || (97 <=? n) && (n <=? 122) || (n =? 95))%nat.
Definition name_continue (c : ascii) : bool :=
  let n := nat_of_ascii c in name_start c || ((48 <=? n) && (n <=? 57))%nat.
Fixpoint all_chars (f : ascii -> bool) (s : string) : bool :=
  match s with EmptyString => true | String c r => f c && all_chars f r end.
Definition valid_name (s : string) : bool :=
  match s with EmptyString => false | String c r => name_start c && all_chars name_continue r end.
Definition ident_checked (s : string) : outcome ident :=
  if valid_name s then Ret (ident_new s) else Panic PIdentNew.

(** [GenericParam::lifetime], src/types_edition.rs:582-589. *)
Definition new_lifetime (name : string) : outcome generic_param :=
  do i <- ident_checked name ;;
  Ret (mkGenericParam (Some (TPunct (punct_new "'" Joint))) i None).
(** [GenericParam::bounded_lifetime], src/types_edition.rs:599-609. *)
Definition new_bounded_lifetime (name : string) (bound : list tok) : outcome generic_param :=
  do i <- ident_checked name ;;
  Ret (mkGenericParam (Some (TPunct (punct_new "'" Alone))) i (Some (mkBound (punct_new ":" Alone) bound))).
(** [GenericParam::ty], src/types_edition.rs:618-625. *)
Definition new_ty (name : string) : outcome generic_param :=
  do i <- ident_checked name ;; Ret (mkGenericParam None i None).
(** [GenericParam::bounded_ty], src/types_edition.rs:635-645. *)
Definition new_bounded_ty (name : string) (bound : list tok) : outcome generic_param :=
  do i <- ident_checked name ;;
  Ret (mkGenericParam None i (Some (mkBound (punct_new ":" Alone) bound))).
(** [GenericParam::const_param], src/types_edition.rs:655-665. *)
Definition new_const_param (name : string) (ty : list tok) : outcome generic_param :=
  do i <- ident_checked name ;;
  do kw <- ident_checked "const" ;;
  Ret (mkGenericParam (Some (TIdent kw)) i (Some (mkBound (punct_new ":" Alone) ty))).

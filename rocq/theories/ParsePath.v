(** [consume_path] (src/parse_utils.rs:301-335) and [TypeExpr::as_path]. *)
From Verif Require Export ParseType.

(** The loop of [consume_path], src/parse_utils.rs:307-332: [colons] is
    [tk_separator_colons].  Every iteration consumes a token. *)
Fixpoint path_loop (fuel : nat) (colons : option (punct * punct)) (acc : list path_segment)
  (ts : list tok) : outcome (option path) :=
  match fuel with
  | O => OutOfFuel
  | S fuel =>
      match ts with
      | TIdent id :: ts =>
          do (args, ts) <- consume_generic_args ts ;;
          let acc := acc ++ [mkPathSegment colons id args] in
          match ts with
          | [] => Ret (Some (mkPath acc))
          | _ :: _ =>
              match consume_colon2 ts with
              | (Some sep, ts) => path_loop fuel (Some sep) acc ts
              | (None, _) => Ret None
              end
          end
      | _ => Ret None
      end
  end.

(** [consume_path], src/parse_utils.rs:301-335. *)
Definition consume_path (ts : list tok) : outcome (option path) :=
  let (colons, ts) := consume_colon2 ts in
  path_loop (loop_fuel ts) colons [] ts.

(** [TypeExpr::unwrap_invisible_group], src/types_edition.rs:813-820. *)
Definition unwrap_invisible_group (t : type_expr) : option (list tok) :=
  match te_tokens t with
  | [TGroup g] => if delim_eqb (g_delim g) NoDelim then Some (g_stream g) else None
  | _ => None
  end.

(** [TypeExpr::as_path], src/types_edition.rs:802-810; [tokens_from_slice]
    (src/parse_utils.rs:8-11) is the identity on token lists. *)
Definition as_path (t : type_expr) : outcome (option path) :=
  match unwrap_invisible_group t with
  | Some ts => consume_path ts
  | None => consume_path (te_tokens t)
  end.

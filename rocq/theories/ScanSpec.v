(** Specification of token runs by positions, without a scanning state: a token is
    described by the tokens before it. *)
From Verif Require Export Tokens.

Definition after_dash (before : list tok) : bool :=
  match rev before with t :: _ => is_punct "-" t | [] => false end.
(** [t], coming after [before], closes an angle bracket. *)
Definition closing (before : list tok) (t : tok) : bool := is_punct ">" t && negb (after_dash before).

(** Number of ['<'] minus number of closing ['>']. *)
Definition openers (ts : list tok) : nat := List.length (filter (is_punct "<") ts).
Definition closers (ts : list tok) : nat :=
  List.length (filter (fun i => closing (firstn i ts) (nth i ts (TLit (mkLit EmptyString 0%N))))
                 (seq 0 (List.length ts))).
(** Outside of all angle brackets. *)
Definition top_level (before : list tok) : Prop := openers before = closers before.

(** [t] ends the run [before]: a closing bracket that was not opened in the run, or a
    terminator outside of all brackets. *)
Definition ends_run (P : tok -> bool) (before : list tok) (t : tok) : Prop :=
  top_level before
  /\ (closing before t = true
      \/ P t = true /\ is_punct "<" t = false /\ is_punct "-" t = false).

(** [out] is the run at the head of [out ++ rest]. *)
Definition is_run (P : tok -> bool) (out rest : list tok) : Prop :=
  (forall a t b, out = a ++ t :: b -> ~ ends_run P a t)
  /\ match rest with [] => True | t :: _ => ends_run P out t end.

(** Types with nested angle brackets, to any depth; [commas] says if a comma may occur
    outside of the brackets. *)
Inductive nested : bool -> list tok -> Prop :=
| nested_nil b : nested b []
| nested_plain b t r :
    is_punct "<" t = false -> is_punct ">" t = false -> is_punct "-" t = false ->
    (is_punct "," t = true -> b = true) -> nested b r -> nested b (t :: r)
| nested_arrow b d g r : p_is "-" d = true -> p_is ">" g = true -> nested b r ->
    nested b (TPunct d :: TPunct g :: r)
| nested_angle b l inner g r : p_is "<" l = true -> nested true inner -> p_is ">" g = true ->
    nested b r -> nested b (TPunct l :: inner ++ TPunct g :: r).

(** A small lexer, used only to write the token streams of examples and witnesses as
    source text.  It models nothing in venial and no theorem mentions it in its
    hypotheses.  Spacing follows [quote!]: the characters of a multi-character operator
    are [Joint] except the last, an apostrophe is [Joint].  The span of a token is its
    offset in the text, plus one (so that it differs from [call_site]). *)
From Verif Require Export Tokens.
Local Open Scope N_scope.

Definition between (lo hi : N) (c : ascii) : bool := (lo <=? N_of_ascii c) && (N_of_ascii c <=? hi).
Definition is_digit := between 48 57.
Definition is_id_start (c : ascii) : bool := between 65 90 c || between 97 122 c || Ascii.eqb c "_".
Definition is_id_char (c : ascii) : bool := is_id_start c || is_digit c.
Definition is_space (c : ascii) : bool := N_of_ascii c <=? 32.
Definition is_close (c : ascii) : bool := Ascii.eqb c ")" || Ascii.eqb c "}" || Ascii.eqb c "]".
Definition open_delim (c : ascii) : option delimiter :=
  if Ascii.eqb c "(" then Some Parenthesis
  else if Ascii.eqb c "{" then Some Brace
  else if Ascii.eqb c "[" then Some Bracket
  else None.

Fixpoint take_while (f : ascii -> bool) (s : string) : string * string :=
  match s with
  | EmptyString => (EmptyString, EmptyString)
  | String c r => if f c then let (a, b) := take_while f r in (String c a, b) else (EmptyString, s)
  end.

Definition multi_char_ops : list (ascii * ascii) :=
  [(":", ":"); ("-", ">"); ("=", ">"); ("=", "="); (">", "="); ("<", "="); ("!", "=");
   ("&", "&"); ("|", "|"); (".", "."); (">", ">"); ("<", "<"); ("+", "=")]%char.
Definition spacing_of (c : ascii) (r : string) : spacing :=
  if Ascii.eqb c "'" then Joint
  else match r with
       | String d _ =>
           if existsb (fun p => Ascii.eqb c (fst p) && Ascii.eqb d (snd p)) multi_char_ops
           then Joint else Alone
       | _ => Alone
       end.
Definition slen (s : string) : N := N.of_nat (String.length s).
Definition dquote : ascii := ascii_of_N 34.

Fixpoint lex_go (fuel : nat) (pos : N) (s : string) : list tok * N * string :=
  match fuel with
  | O => ([], pos, EmptyString)
  | S f =>
      match s with
      | EmptyString => ([], pos, EmptyString)
      | String c r =>
          let emit (t : tok) (p : N) (r : string) :=
            let '(ts, p, r) := lex_go f p r in (t :: ts, p, r) in
          if is_space c then lex_go f (pos + 1) r
          else if is_close c then ([], pos + 1, r)
          else
            match open_delim c with
            | Some d =>
                let '(inner, p, r) := lex_go f (pos + 1) r in
                emit (TGroup (mkGroup d inner pos)) p r
            | None =>
                if is_id_start c then
                  let (w, r) := take_while is_id_char s in
                  emit (TIdent (mkIdent w pos)) (pos + slen w) r
                else if is_digit c then
                  let (w, r) := take_while is_id_char s in
                  emit (TLit (mkLit w pos)) (pos + slen w) r
                else if Ascii.eqb c dquote then
                  let (w, r) := take_while (fun x => negb (Ascii.eqb x dquote)) r in
                  emit (TLit (mkLit (String dquote (append w (String dquote EmptyString))) pos))
                       (pos + slen w + 2) (match r with String _ r => r | _ => r end)
                else
                  match c, r with
                  | "'"%char, String x (String "'"%char r) =>
                      emit (TLit (mkLit (String c (String x (String c EmptyString))) pos)) (pos + 3) r
                  | _, _ => emit (TPunct (mkPunct c (spacing_of c r) pos)) (pos + 1) r
                  end
            end
      end
  end.
Definition lex (s : string) : list tok :=
  let '(ts, _, _) := lex_go (S (String.length s)) 1 s in ts.

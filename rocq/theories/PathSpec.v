(** Specification: well-formed paths and the token sequences that denote them. *)
From Verif Require Export Grammar.

(** [::] is accepted only as a joint colon followed by a colon that is not joint. *)
Definition wf_colon2 (p : punct * punct) : bool :=
  p_is ":" (fst p) && (match p_spacing (fst p) with Joint => true | Alone => false end)
  && p_is ":" (snd p) && (match p_spacing (snd p) with Joint => false | Alone => true end).

(** The tokens of a generic argument: brackets are closed, no comma outside of them; the
    last argument does not end with ['-'] if it is directly followed by ['>']. *)
Definition arg_run (comma : bool) (ts : list tok) : bool :=
  match scan end_comma 0 false ts with
  | Some (d, dash) => Z.eqb d 0 && (comma || negb dash)
  | None => false
  end.
(** Tokens that are neither a lifetime nor a binding. *)
Definition plain_arg (ts : list tok) : bool :=
  match ts with
  | [] => false
  | TIdent _ :: TPunct p :: _ => negb (p_is "=" p)
  | t :: _ => negb (is_punct "'" t)
  end.
Definition wf_generic_arg (comma : bool) (a : generic_arg) : bool :=
  arg_run comma (print_generic_arg a)
  && match a with
     | GALifetime l => wf_lifetime l
     | GABinding _ eq _ => p_is "=" eq
     | GATypeOrConst e => plain_arg (te_tokens e)
     end.
Definition wf_generic_args (g : generic_arg_list) : bool :=
  wf_opt wf_colon2 (gal_turbofish g) && p_is "<" (gal_l g)
  && wf_punctuated wf_generic_arg (gal_args g) && p_is ">" (gal_r g).

Definition wf_segment (first : bool) (s : path_segment) : bool :=
  (match ps_colons s with Some c => wf_colon2 c | None => first end)
  && wf_opt wf_generic_args (ps_args s).
Definition wf_path (p : path) : bool :=
  match pa_segments p with
  | [] => false
  | s :: r => wf_segment true s && forallb (wf_segment false) r
  end.

(** Spelling: the printed form, with possibly one more comma before the ['>'] of an argument
    list that is empty or already ends with a comma. *)
Definition spells_generic_args (g : generic_arg_list) (c : list tok) : Prop :=
  exists surplus,
    c = print_opt print_punct2 (gal_turbofish g) ++ TPunct (gal_l g)
        :: print_punctuated print_generic_arg (gal_args g)
        ++ print_opt print_punct surplus ++ [TPunct (gal_r g)]
    /\ wf_opt (fun p => p_is "," p && negb (pu_skip_last (gal_args g))) surplus = true.
Definition spells_segment (s : path_segment) (c : list tok) : Prop :=
  exists ca, (match ps_args s with Some g => spells_generic_args g ca | None => ca = [] end)
  /\ c = print_opt print_punct2 (ps_colons s) ++ TIdent (ps_ident s) :: ca.
Fixpoint spells_segments (l : list path_segment) (c : list tok) : Prop :=
  match l with
  | [] => c = []
  | s :: r => exists c1 c2, c = c1 ++ c2 /\ spells_segment s c1 /\ spells_segments r c2
  end.
Definition spells_path (p : path) (c : list tok) : Prop := spells_segments (pa_segments p) c.

(** Completeness of the parsers of functions, macros, constants, aliases and uses. *)
From Verif Require Export Complete.

(** ** Fn parameters *)
Lemma lifetime_complete o rest :
  wf_opt wf_lifetime o = true -> head_is (is_punct "'") rest = false ->
  consume_lifetime false (print_opt print_lifetime o ++ rest) = Ret (o, rest).
Proof.
  unfold consume_lifetime. destruct o as [[a n]|]; simpl; intros H Hr.
  - unfold wf_lifetime in H. simpl in H. known. reflexivity.
  - rewrite consume_punct_no; auto.
Qed.

Lemma lifetime_no b rest :
  head_is (is_punct "'") rest = false -> consume_lifetime b rest = Ret (None, rest).
Proof. intro H. unfold consume_lifetime. rewrite consume_punct_no; auto. Qed.

Definition param_rest (comma : bool) (rest : list tok) : Prop :=
  if comma then exists c r, rest = TPunct c :: r /\ p_is "," c = true else rest = [].

Lemma field_type_ok comma l rest :
  wf_field_ty comma (mkTypeExpr l) = true -> param_rest comma rest ->
  consume_field_type (l ++ rest) = Ret (l, rest).
Proof.
  destruct comma; simpl; intros H Hr.
  - destruct Hr as (c & r & -> & Hc). apply field_type_comma; auto.
  - subst. rewrite app_nil_r. apply field_type_last; auto.
Qed.

Lemma fn_param_complete comma p c rest :
  wf_fn_param comma p = true -> spells_fn_param p c ->
  match p with FPReceiver _ => True | FPTyped _ => param_rest comma rest end ->
  parse_fn_param (c ++ rest) = Ret (p, rest).
Proof.
  intros H Hs Hr. destruct p as [[attrs ref lt mu se]|[attrs mu name colon [l]]];
    unfold parse_fn_param; simpl in H; bsplit.
  - destruct Hs as (ca & Hca & ->). cbn [fr_attributes fr_ref fr_lifetime fr_mut fr_self] in *. app_norm.
    rewrite (outer_attributes_complete attrs); auto.
    2:{ destruct ref, lt as [[]|], mu; simpl in *; unfold wf_lifetime in *; simpl in *; known; reflexivity. }
    cbn [bind]. rewrite consume_punct_opt; auto.
    2:{ intros ->. destruct lt as [[]|], mu; simpl in *; unfold wf_lifetime in *; simpl in *; known; reflexivity. }
    rewrite lifetime_complete; auto.
    2:{ destruct mu; simpl in *; known; reflexivity. }
    cbn [bind]. rewrite consume_ident_opt; auto.
    2:{ known; reflexivity. }
    simpl app. rewrite consume_ident_yes; auto.
  - destruct Hs as (ca & amp & lt & Hca & Hamp & Hlt & ->).
    cbn [ft_attributes ft_mut ft_name ft_colon ft_ty print_type te_tokens] in *. app_norm.
    rewrite (outer_attributes_complete attrs); auto.
    2:{ destruct amp, lt as [[]|], mu; simpl in *; unfold wf_lifetime in *; simpl in *; known; reflexivity. }
    cbn [bind]. rewrite consume_punct_opt; auto.
    2:{ intros ->. destruct lt as [[]|], mu; simpl in *; unfold wf_lifetime in *; simpl in *; known; reflexivity. }
    rewrite lifetime_complete; auto.
    2:{ destruct mu; simpl in *; known; reflexivity. }
    cbn [bind]. rewrite consume_ident_opt; auto.
    2:{ intros ->. simpl in *; bsplit; auto. }
    rewrite consume_ident_no by auto. simpl. rwb. simpl.
    erewrite field_type_ok by eauto. reflexivity.
Qed.

Lemma fn_param_ne p c : spells_fn_param p c -> c <> [].
Proof.
  destruct p; simpl; intros Hs E; bsplit; subst;
    repeat (apply app_eq_nil in E; destruct E as [_ E]); discriminate.
Qed.

Lemma fn_param_head b p c rest :
  wf_fn_param b p = true -> spells_fn_param p c -> consume_comma (c ++ rest) = (None, c ++ rest).
Proof.
  intros Hw Hs. unfold consume_comma. apply consume_punct_no.
  destruct p as [[attrs ref lt mu se]|[attrs mu name colon [l]]]; simpl in Hw; bsplit.
  - destruct Hs as (ca & Hca & ->). cbn [fr_attributes fr_ref fr_lifetime fr_mut fr_self] in *. app_norm.
    eapply attributes_head; eauto. { intros. simpl. known. reflexivity. }
    destruct ref, lt as [[]|], mu; simpl in *; unfold wf_lifetime in *; simpl in *; known; reflexivity.
  - destruct Hs as (ca & amp & lt & Hca & Hamp & Hlt & ->).
    cbn [ft_attributes ft_mut ft_name ft_colon ft_ty print_type te_tokens] in *. app_norm.
    eapply attributes_head; eauto. { intros. simpl. known. reflexivity. }
    destruct amp, lt as [[]|], mu; simpl in *; unfold wf_lifetime in *; simpl in *; known; reflexivity.
Qed.

Lemma fn_params_complete p c :
  wf_punctuated wf_fn_param p = true -> spells_punctuated spells_fn_param gap_param p c ->
  parse_fn_params c = Ret p.
Proof.
  intros H Hs. unfold parse_fn_params. rewrite <- (app_nil_r c).
  rewrite (punct_loop_ok stop_at_end parse_fn_param spells_fn_param gap_param wf_fn_param
    (fun rest => consume_comma rest = (None, rest)) [] p c); auto.
  - intros. eapply fn_param_head; eauto.
  - intros. eapply fn_param_ne; eauto.
  - intros x cx q rest Hx Hcx Hq. split.
    + apply stop_at_end_app. eapply fn_param_ne; eauto.
    + eapply fn_param_complete; eauto. destruct x; simpl; eauto.
  - intros x cx rest Hx Hcx Hg Hst. split; [|split; auto].
    + apply stop_at_end_app. eapply fn_param_ne; eauto.
    + eapply fn_param_complete; eauto. destruct x; simpl; auto. discriminate.
  - intros x cx Hx Hcx. split.
    + apply stop_at_end_app. eapply fn_param_ne; eauto.
    + eapply fn_param_complete; eauto. destruct x; simpl; auto.
Qed.

(** ** Qualifiers *)
Lemma qualifiers_complete q rest :
  wf_qualifiers q = true ->
  match rest with TIdent i :: _ => id_in ["default"; "const"; "async"; "unsafe"; "extern"]%string i = false
                | TLit _ :: _ => fq_extern q = None | _ => True end ->
  consume_fn_qualifiers (print_qualifiers q ++ rest) = (q, rest).
Proof.
  destruct q as [d c a u e b]. unfold wf_qualifiers. simpl. intros H Hr. bsplit.
  assert (Hh : forall s, In s ["default"; "const"; "async"; "unsafe"; "extern"]%string ->
                head_is (is_ident s) rest = false).
  { intros s Hs. destruct rest as [|[g|i|p|l] rest]; simpl in *; auto.
    unfold id_in in Hr. simpl in Hr. bsplit. intuition (subst; auto). }
  unfold print_qualifiers, consume_fn_qualifiers.
  cbn [fq_default fq_const fq_async fq_unsafe fq_extern fq_abi]. app_norm.
  rewrite consume_ident_opt; auto.
  2:{ intros ->. destruct c, a, u, e, b; simpl in *; known; try reflexivity; try discriminate; apply Hh; simpl; auto. }
  rewrite consume_ident_opt; auto.
  2:{ intros ->. destruct a, u, e, b; simpl in *; known; try reflexivity; try discriminate; apply Hh; simpl; auto. }
  rewrite consume_ident_opt; auto.
  2:{ intros ->. destruct u, e, b; simpl in *; known; try reflexivity; try discriminate; apply Hh; simpl; auto. }
  rewrite consume_ident_opt; auto.
  2:{ intros ->. destruct e, b; simpl in *; known; try reflexivity; try discriminate; apply Hh; simpl; auto. }
  destruct e as [e|].
  - simpl in *. rwb. destruct b as [b|]; simpl; auto.
    destruct rest as [|[g|i|p|l] rest]; auto. discriminate.
  - destruct b; [discriminate|]. simpl. rewrite consume_ident_no; auto. apply Hh; simpl; auto 10.
Qed.

(** ** Functions *)
Definition function_tail (f : function) (cp : list tok) : list tok :=
  print_qualifiers (fn_qualifiers_ f) ++ TIdent (fn_kw f) :: TIdent (fn_name f)
  :: print_opt print_generic_params (fn_generics f)
  ++ cp ++ print_opt print_punct2 (fn_arrow f) ++ print_opt print_type (fn_ret f)
  ++ print_opt print_where (fn_where f)
  ++ print_opt print_group (fn_body f) ++ print_opt print_punct (fn_semicolon f).

Definition fn_end (o : option group) (s : option punct) : bool :=
  match o, s with
  | Some g, None => delim_eqb (g_delim g) Brace
  | None, Some p => p_is ";" p
  | _, _ => false
  end.

Lemma fn_end_follow b s rest :
  fn_end b s = true ->
  where_follow (print_opt print_group b ++ print_opt print_punct s ++ rest) = true
  /\ head_is (is_ident "where") (print_opt print_group b ++ print_opt print_punct s ++ rest) = false
  /\ head_is (is_punct "-") (print_opt print_group b ++ print_opt print_punct s ++ rest) = false
  /\ head_is (term end_return) (print_opt print_group b ++ print_opt print_punct s ++ rest) = true
  /\ parse_fn_body (print_opt print_group b ++ print_opt print_punct s ++ rest) = Ret ((b, s), rest).
Proof.
  destruct b as [[d g sp]|], s as [p|]; simpl; try discriminate; intro H; known; repeat split; reflexivity.
Qed.

Definition spells_params (f : function) : list tok -> Prop :=
  spells_group (fn_parens f) (spells_punctuated spells_fn_param gap_param (fn_params f)).

Lemma function_complete f cp rest :
  wf_function f = true -> spells_params f cp ->
  consume_fn (fn_attributes f) (fn_vis f) (function_tail f cp ++ rest) = Ret (Ok f, rest).
Proof.
  destruct f as [attrs vis q kw name gen [pd psp] params wh arrow ret semi body].
  unfold wf_function, function_tail, spells_params.
  cbn [fn_attributes fn_vis fn_qualifiers_ fn_kw fn_name fn_generics fn_parens fn_params fn_where
       fn_arrow fn_ret fn_semicolon fn_body gs_delim gs_span].
  fold (fn_end body semi). intros H (s & Hs & ->). bsplit.
  app_norm. unfold consume_fn.
  rewrite qualifiers_complete; auto. 2:{ known. reflexivity. }
  unfold classify_fn at 1. rewrite H6. cbn [bind consume_item_name parse_any_ident].
  rewrite generics_complete by auto.
  cbn [bind quote_with gs_delim gs_span app]. known.
  unfold parse_fn_parens. cbn [g_delim delim_eqb g_stream]. rewrite (fn_params_complete params); auto.
  cbn [bind].
  destruct (fn_end_follow body semi rest H0) as (F1 & F2 & F3 & F4 & F5).
  assert (Hw : consume_where_clause (print_opt print_where wh ++ print_opt print_group body ++ print_opt print_punct semi ++ rest) = Ret (wh, print_opt print_group body ++ print_opt print_punct semi ++ rest)).
  { apply where_complete; auto. destruct wh; auto. }
  destruct arrow as [[dash tip]|], ret as [[ty]|]; try discriminate.
  - bsplit. known. cbn [print_opt print_punct2 fst snd app print_type te_tokens consume_fn_return consume_punct p_is p_char Ascii.eqb Bool.eqb].
    rewrite (until_term end_fn_return true ty); auto.
    2:{ destruct wh as [[k p]|]; auto. simpl in H1. unfold wf_where in H1. simpl in H1. bsplit. known. reflexivity. }
    cbn [bind]. rewrite Hw. cbn [bind]. rewrite F5. reflexivity.
  - cbn [print_opt app]. unfold consume_fn_return. rewrite consume_punct_no.
    2:{ destruct wh as [[k p]|]; auto. }
    cbn [bind]. rewrite Hw. cbn [bind]. rewrite F5. reflexivity.
Qed.

(** The first token of a function (after attributes and visibility). *)
Lemma function_head f cp rest :
  wf_function f = true ->
  exists i r, function_tail f cp ++ rest = TIdent i :: r
    /\ id_in ["default"; "const"; "async"; "unsafe"; "extern"; "fn"]%string i = true.
Proof.
  unfold wf_function, function_tail, wf_qualifiers, print_qualifiers. intro H. bsplit.
  destruct (fn_qualifiers_ f) as [d c a u e b]. simpl in *.
  destruct d, c, a, u, e, b; simpl in *; try discriminate; known; simpl;
    eexists _, _; (split; [reflexivity|]); try reflexivity.
  match goal with H : id_is "fn" (fn_kw f) = true |- _ => rename H into Hf end.
  unfold id_in. simpl. rewrite Hf. repeat rewrite orb_true_r. reflexivity.
Qed.

(** ** Macros *)
Lemma macro_complete kws m rest :
  shape_macro kws m = true ->
  consume_macro (ma_attributes m) (macro_tokens m ++ rest) = Ret (Some m, rest).
Proof.
  destruct m as [attrs name bang decl [d sp] inner semi]. unfold shape_macro, macro_tokens.
  cbn [ma_attributes ma_name ma_bang ma_declared ma_group ma_inner ma_semicolon gs_delim gs_span].
  intro H. bsplit. unfold consume_macro, consume_macro_inner. simpl app. known.
  destruct decl, semi; bsplit; known; reflexivity.
Qed.

(** ** Constants *)
Definition constant_tail (c : constant) : list tok :=
  TIdent (co_kw c) :: TIdent (co_name c)
  :: TPunct (co_colon c) :: te_tokens (co_ty c)
  ++ print_opt print_punct (co_equals c) ++ print_opt print_value (co_init c)
  ++ [TPunct (co_semicolon c)].

Lemma ident_eq i j : id_str i = id_str j -> id_span i = id_span j -> i = j.
Proof. destruct i, j; simpl; intros; subst; reflexivity. Qed.

Lemma constant_complete c rest :
  shape_constant c = true ->
  parse_const_or_static (co_attributes c) (co_vis c) (constant_tail c ++ rest) = Ret (c, rest).
Proof.
  destruct c as [attrs vis kw mu name colon [ty] eq init semi].
  unfold shape_constant, constant_tail.
  cbn [co_attributes co_vis co_kw co_mut co_name co_colon co_ty co_equals co_init co_semicolon te_tokens print_type].
  intros H. bsplit. cbn [app].
  assert (Hn : exists c, match TIdent kw :: TIdent name :: TPunct colon :: (ty ++ print_opt print_punct eq ++ print_opt print_value init ++ [TPunct semi]) ++ rest with
    | TIdent i :: r =>
        if id_is "const" i then Ret ((i, true), r)
        else if id_is "static" i then Ret ((i, false), r)
        else Panic PConstOrStatic
    | _ => Panic PConstOrStatic
    end = Ret ((kw, c), TIdent name :: TPunct colon :: (ty ++ print_opt print_punct eq ++ print_opt print_value init ++ [TPunct semi]) ++ rest)
    /\ (if id_is "mut" name then (if c : bool then Panic PConstMut else Ret (Some name)) else Ret None) = Ret mu).
  { bcase; bsplit.
    - exists true. known. split; auto. unfold id_in in *. simpl in *. bsplit. rwb.
      destruct mu; [discriminate|reflexivity].
    - exists false. known. split; auto. destruct mu as [m|]; bsplit; rwb; auto.
      f_equal. f_equal.
      match goal with H : N.eqb _ _ = true |- _ => apply N.eqb_eq in H; rename H into Hsp end.
      known. simpl in Hsp. subst. reflexivity. }
  destruct Hn as (c & Hk & Hm). unfold parse_const_or_static. rewrite Hk. clear Hk.
  cbn [bind]. rewrite Hm. cbn [bind parse_any_ident parse_punct].
  match goal with H : p_is ":" colon = true |- _ => rewrite H end. cbn [bind]. app_norm.
  rewrite (until_term end_eq_or_semi true ty); auto.
  2:{ destruct eq as [p|], init as [[v]|]; bsplit; known; try discriminate; reflexivity. }
  cbn [bind].
  rewrite consume_punct_opt.
  2:{ destruct eq, init; bsplit; auto. }
  2:{ intros ->. destruct init; [discriminate|]. known. reflexivity. }
  assert (Hv : run_closed end_semicolon (match init with Some v => ve_tokens v | None => [] end) = true).
  { destruct eq, init; bsplit; auto; discriminate. }
  replace (print_opt print_value init) with (match init with Some v => ve_tokens v | None => [] end)
    by (destruct init; reflexivity).
  rewrite (until_term end_semi true _ ([TPunct semi] ++ rest)); auto.
  2:{ known. reflexivity. }
  cbn [bind app parse_punct]. rewrite H0. cbn [bind].
  destruct init as [[[|v0 v]]|]; auto. destruct eq; bsplit; simpl in *; discriminate.
Qed.

(** What [consume_fn] says on a constant. *)
Lemma constant_not_fn c rest :
  shape_constant c = true ->
  exists nf, consume_fn (co_attributes c) (co_vis c) (constant_tail c ++ rest)
             = Ret (Err nf, constant_tail c ++ rest) /\ (nf = NFConst \/ nf = NFStatic).
Proof.
  destruct c as [attrs vis kw mu name colon [ty] eq init semi].
  unfold shape_constant, constant_tail.
  cbn [co_attributes co_vis co_kw co_mut co_name co_colon co_ty co_equals co_init co_semicolon te_tokens print_type].
  intros H. bsplit. cbn [app].
  unfold consume_fn. bcase; bsplit; known.
  - unfold id_in in *. simpl in *. bsplit. cbn. repeat (rwb; cbn).
    destruct (id_is "static" name); cbn; eauto.
  - cbn. eauto.
Qed.

(** ** Type aliases *)
Definition type_alias_tail (t : type_alias) : list tok :=
  TIdent (ta_type t) :: TIdent (ta_name t)
  :: print_opt print_bound (ta_bound t) ++ print_opt print_punct (ta_equals t)
  ++ print_opt print_type (ta_init t) ++ [TPunct (ta_semicolon t)].

Lemma type_alias_complete t rest :
  wf_type_alias t = true ->
  consume_ty_definition (ta_attributes t) (ta_vis t) (type_alias_tail t ++ rest) = Ret (Some t, rest).
Proof.
  destruct t as [attrs vis kw name bound eq init semi].
  unfold wf_type_alias, type_alias_tail.
  cbn [ta_attributes ta_vis ta_type ta_name ta_bound ta_equals ta_init ta_semicolon]. intro H. bsplit.
  unfold consume_ty_definition. cbn [app parse_ident]. rewrite H3. cbn [bind parse_any_ident]. app_norm.
  assert (Hr : head_is end_eq_or_semi (print_opt print_punct eq ++ print_opt print_type init ++ TPunct semi :: rest) = true
     /\ head_is (term end_eq_or_semi) (print_opt print_punct eq ++ print_opt print_type init ++ TPunct semi :: rest) = true
     /\ head_is (is_punct ":") (print_opt print_punct eq ++ print_opt print_type init ++ TPunct semi :: rest) = false).
  { destruct eq as [p|], init as [[v]|]; bsplit; try discriminate; known; repeat split; reflexivity. }
  destruct Hr as (R1 & R2 & R3).
  assert (Hb : consume_bound end_eq_or_semi (print_opt print_bound bound ++ print_opt print_punct eq ++ print_opt print_type init ++ TPunct semi :: rest)
    = Ret (bound, print_opt print_punct eq ++ print_opt print_type init ++ TPunct semi :: rest)).
  { destruct bound as [b|].
    - apply bound_some_complete; auto.
    - cbn [print_opt app]. unfold consume_bound.
      destruct (print_opt print_punct eq ++ print_opt print_type init ++ TPunct semi :: rest) as [|t l];
        [discriminate|].
      simpl in R1, R3. rewrite R1. destruct t; auto. simpl in R3. rewrite R3. reflexivity. }
  rewrite Hb. cbn [bind]. rewrite consume_punct_opt.
  2:{ destruct eq, init; bsplit; auto; discriminate. }
  2:{ intros ->. destruct init; [discriminate|]. known. reflexivity. }
  destruct eq as [p|], init as [[v]|]; try discriminate; cbn [print_opt print_type te_tokens app].
  - bsplit. rewrite (until_term end_semi true v (TPunct semi :: rest)); auto.
    2:{ known. reflexivity. }
    cbn [bind parse_punct]. rewrite H0. reflexivity.
  - cbn [bind parse_punct]. rewrite H0. reflexivity.
Qed.

(** ** Uses and extern crates *)
Definition use_tail (u : use_decl) : list tok :=
  TIdent (us_use u) :: te_tokens (us_tree u) ++ [TPunct (us_semicolon u)].
Lemma use_complete u rest :
  wf_use u = true ->
  parse_use_declaration (us_attributes u) (us_vis u) (use_tail u ++ rest) = Ret (u, rest).
Proof.
  destruct u as [attrs vis kw [tree] semi]. unfold wf_use, use_tail.
  cbn [us_attributes us_vis us_use us_tree us_semicolon te_tokens print_type]. intro H. bsplit.
  unfold parse_use_declaration. cbn [app parse_ident]. rewrite H2. cbn [bind]. app_norm.
  rewrite (until_term end_semi true tree (TPunct semi :: rest)); auto.
  2:{ known. reflexivity. }
  cbn [bind app parse_punct]. rewrite H0. reflexivity.
Qed.

Definition extern_crate_tail (c : extern_crate) : list tok :=
  TIdent (ec_extern c) :: TIdent (ec_crate c) :: TIdent (ec_name c)
  :: print_opt print_ident (ec_as c) ++ print_opt print_ident (ec_alias c)
  ++ [TPunct (ec_semicolon c)].
Lemma extern_crate_complete c rest :
  wf_extern_crate c = true ->
  parse_extern_crate (ec_attributes c) (ec_vis c) (extern_crate_tail c ++ rest) = Ret (c, rest)
  /\ consume_fn (ec_attributes c) (ec_vis c) (extern_crate_tail c ++ rest)
     = Ret (Err NFExternCrate, extern_crate_tail c ++ rest).
Proof.
  destruct c as [attrs vis kw kw2 name a alias und semi]. unfold wf_extern_crate, extern_crate_tail.
  cbn [ec_attributes ec_vis ec_extern ec_crate ec_name ec_as ec_alias ec_underscore ec_semicolon].
  intro H. bsplit. destruct und; [discriminate|].
  destruct a as [a|], alias as [al|]; try discriminate; known; split; reflexivity.
Qed.

(** Soundness of the item parsers and the exact characterisation of [consume_item]. *)
From Verif Require Export Sound.

(** ** Functions *)
Lemma lifetime_sound ts o rest :
  consume_lifetime false ts = Ret (o, rest) ->
  ts = print_opt print_lifetime o ++ rest /\ wf_opt wf_lifetime o = true.
Proof.
  unfold consume_lifetime. intro H. destruct (consume_punct "'" ts) as [q ts1] eqn:E.
  destruct q as [q|].
  - apply consume_punct_sound in E. destruct E as (-> & E1 & _).
    destruct ts1 as [|[g|i|p|l] r]; try discriminate. bsplit. simpl. auto.
  - bsplit. auto.
Qed.

Lemma fn_param_gt t r y : is_punct ">" t = true -> parse_fn_param (t :: r) = Ret y -> False.
Proof.
  destruct t as [g|i|p|l]; try discriminate. simpl is_punct. intros Hp H. unfold parse_fn_param in H.
  rewrite (attributes_other ">") in H by (auto; discriminate). known. discriminate.
Qed.

Lemma fn_param_sound ts x rest :
  stop_at_end ts = Ret false -> parse_fn_param ts = Ret (x, rest) ->
  exists c, ts = c ++ rest /\ spells_fn_param x c
  /\ (head_is (is_punct ",") rest = true -> wf_fn_param true x = true)
  /\ (stop_at_end rest = Ret true -> wf_fn_param false x = true)
  /\ (head_is (is_punct ",") rest = false -> stop_at_end rest = Ret false ->
      (exists y r, parse_fn_param rest = Ret (y, r)) -> wf_fn_param true x = true /\ gap_param x = true).
Proof.
  intros _ H. unfold parse_fn_param in H. inv_bind H. destruct x0 as [attrs ts1].
  destruct (consume_punct "&" ts1) as [amp ts2] eqn:Ea. inv_bind H. destruct x0 as [lt ts3].
  destruct (consume_ident "mut" ts3) as [mu ts4] eqn:Em.
  destruct (consume_ident "self" ts4) as [se ts5] eqn:Es.
  apply outer_attributes_sound in Hx. destruct Hx as (ca & -> & A1 & A2 & _).
  apply consume_punct_sound in Ea. destruct Ea as (-> & B1 & _).
  apply lifetime_sound in Hx0. destruct Hx0 as (-> & C1).
  apply consume_ident_sound in Em. destruct Em as (-> & D1 & D2).
  apply consume_ident_sound in Es. destruct Es as (-> & F1 & F2).
  destruct se as [se|].
  - bsplit. simpl in F1.
    exists (ca ++ print_opt print_punct amp ++ print_opt print_lifetime lt ++ print_opt print_ident mu ++ [TIdent se]).
    app_norm. split; auto. split; [exists ca; auto|]. simpl. rewrite A2, B1, C1, D1, F1. auto.
  - inv_bind H. destruct x0 as [name ts6]. inv_bind H. destruct x0 as [colon ts7].
    inv_bind H. destruct x0 as [ty ts8]. bsplit.
    apply parse_any_ident_sound in Hx. subst ts5. apply parse_punct_sound in Hx0. destruct Hx0 as [-> Hc].
    apply field_type_sound in Hx1. destruct Hx1 as (-> & T1 & T2 & T3).
    exists (ca ++ print_opt print_punct amp ++ print_opt print_lifetime lt ++ print_opt print_ident mu
            ++ TIdent name :: TPunct colon :: ty).
    simpl print_opt at 4. app_norm. split; auto. split; [exists ca, amp, lt; auto|].
    assert (Hwf : forall b, wf_field_ty b (mkTypeExpr ty) = true ->
              wf_fn_param b (FPTyped (mkTyped attrs mu name colon (mkTypeExpr ty))) = true).
    { intros b Hb. simpl. rewrite A2, D1, Hc, Hb. specialize (F2 eq_refl). simpl in F2. rewrite F2.
      destruct mu; auto. specialize (D2 eq_refl). simpl in D2. rewrite D2. auto. }
    repeat split.
    + intro. apply Hwf, T2. intros ->. discriminate.
    + intro Hs. apply stop_at_end_true in Hs. auto.
    + intros. apply Hwf, T2. intros ->. discriminate.
    + intros. exfalso. destruct T3 as [->|[T3|T3]]; [discriminate|congruence|].
      destruct rest; [discriminate|]. bsplit. eapply fn_param_gt; eauto.
Qed.

Lemma fn_parens_sound ts ps gs rest :
  parse_fn_parens ts = Ret ((ps, gs), rest) ->
  exists cp, ts = cp ++ rest /\ spells_group gs (spells_punctuated spells_fn_param gap_param ps) cp
    /\ wf_punctuated wf_fn_param ps = true /\ delim_eqb (gs_delim gs) Parenthesis = true.
Proof.
  unfold parse_fn_parens. intro H. destruct ts as [|[g|i|p|l] r]; try discriminate.
  destruct (delim_eqb (g_delim g) Parenthesis) eqn:Ed; [|discriminate].
  inv_bind H. bsplit. unfold parse_fn_params in Hx. inv_bind Hx. destruct x as [ps' r]. bsplit.
  apply (punct_loop_new _ _ spells_fn_param gap_param wf_fn_param) in Hx0; [|apply fn_param_sound].
  destruct Hx0 as (c & Hc & S1 & S2 & S3). apply stop_at_end_true in S3. subst r.
  rewrite app_nil_r in Hc. subst c. exists [TGroup g]. repeat split; auto.
  exists (g_stream g). split; auto. unfold quote_with, group_span_new. simpl. rewrite group_eta. reflexivity.
Qed.

Lemma consume_literal_sound ts o rest : consume_literal ts = (o, rest) -> ts = print_opt print_lit o ++ rest.
Proof. destruct ts as [|[g|i|p|l] r]; simpl; intro; bsplit; reflexivity. Qed.

Lemma qualifiers_sound ts q rest :
  consume_fn_qualifiers ts = (q, rest) -> ts = print_qualifiers q ++ rest /\ wf_qualifiers q = true.
Proof.
  unfold consume_fn_qualifiers. intro H.
  destruct (consume_ident "default" ts) as [a t1] eqn:E1.
  destruct (consume_ident "const" t1) as [b t2] eqn:E2.
  destruct (consume_ident "async" t2) as [c t3] eqn:E3.
  destruct (consume_ident "unsafe" t3) as [d t4] eqn:E4.
  destruct (consume_ident "extern" t4) as [e t5] eqn:E5.
  apply consume_ident_sound in E1. destruct E1 as (-> & W1 & _).
  apply consume_ident_sound in E2. destruct E2 as (-> & W2 & _).
  apply consume_ident_sound in E3. destruct E3 as (-> & W3 & _).
  apply consume_ident_sound in E4. destruct E4 as (-> & W4 & _).
  apply consume_ident_sound in E5. destruct E5 as (-> & W5 & _).
  unfold wf_qualifiers, print_qualifiers. destruct e as [e|].
  - destruct (consume_literal t5) as [abi t6] eqn:E6. apply consume_literal_sound in E6. subst t5.
    bsplit. simpl in *. rewrite W1, W2, W3, W4, W5. app_norm. simpl. auto.
  - bsplit. simpl in *. rewrite W1, W2, W3, W4. app_norm. auto.
Qed.

Lemma fn_return_sound ts o rest :
  consume_fn_return ts = Ret (o, rest) ->
  ts = print_opt print_punct2 (option_map fst o) ++ print_opt print_type (option_map snd o) ++ rest
  /\ (match option_map fst o, option_map snd o with
      | Some (dash, tip), Some ty =>
          p_is "-" dash && p_is ">" tip && run_closed end_return (te_tokens ty)
      | None, None => true
      | _, _ => false
      end) = true.
Proof.
  unfold consume_fn_return. intro H. destruct (consume_punct "-" ts) as [d t1] eqn:E. destruct d as [d|].
  - apply consume_punct_sound in E. destruct E as (-> & E1 & _).
    destruct t1 as [|[g|i|p|l] r]; try discriminate. destruct (p_is ">" p) eqn:Ep; [|discriminate].
    inv_bind H. destruct x as [ty t2]. bsplit. apply until_sound_term in Hx. destruct Hx as (-> & _ & Hr).
    destruct rest as [|t rest]; [discriminate|]. destruct Hr as [Hr _].
    simpl in *. rewrite E1, Ep. unfold print_type. simpl. auto.
  - bsplit. auto.
Qed.

Lemma function_sound attrs vis ts f rest :
  consume_fn attrs vis ts = Ret (Ok f, rest) ->
  fn_attributes f = attrs /\ fn_vis f = vis /\
  exists cp, ts = function_tail f cp ++ rest /\ spells_params f cp
    /\ (wf_outer attrs = true -> wf_opt wf_vis vis = true -> wf_function f = true).
Proof.
  unfold consume_fn. intro H. destruct (consume_fn_qualifiers ts) as [q t1] eqn:Eq.
  inv_bind H. destruct x as [kw t2]. destruct kw as [kw|nf]; [|discriminate].
  assert (Hk : t1 = TIdent kw :: t2 /\ id_is "fn" kw = true).
  { unfold classify_fn in Hx. destruct t1 as [|[g|i|p|l] r]; try discriminate;
      repeat (match type of Hx with context [if ?b then _ else _] => destruct b eqn:? end; try discriminate).
    bsplit. auto. }
  destruct Hk as [-> Hk]. clear Hx.
  inv_bind H. destruct x as [name t3]. apply parse_any_ident_sound in Hx. subst t2.
  inv_bind H. destruct x as [gen t4]. apply generics_sound in Hx. destruct Hx as (-> & G1 & _).
  inv_bind H. destruct x as [[ps gs] t5]. apply fn_parens_sound in Hx. destruct Hx as (cp & -> & P1 & P2 & P3).
  inv_bind H. destruct x as [ret t6]. apply fn_return_sound in Hx. destruct Hx as (-> & R1).
  inv_bind H. destruct x as [wh t7]. apply where_sound in Hx. destruct Hx as (-> & W1 & _).
  inv_bind H. destruct x as [[body semi] t8]. bsplit.
  apply qualifiers_sound in Eq. destruct Eq as [-> Q1].
  simpl. repeat split; auto. exists cp. simpl in *.
  assert (Hb : t7 = print_opt print_group body ++ print_opt print_punct semi ++ rest /\ fn_end body semi = true).
  { unfold parse_fn_body in Hx. destruct t7 as [|[g|i|p|l] r]; try discriminate;
      match type of Hx with context [if ?b then _ else _] => destruct b eqn:Eb end; try discriminate;
      bsplit; simpl; auto. }
  destruct Hb as [-> Hb]. unfold function_tail, spells_params. simpl. app_norm. repeat split; auto.
  intros Ha Hv. unfold wf_function. simpl. fold (fn_end body semi). rewrite Ha, Hv, Q1, Hk, G1, P2, P3, R1, W1, Hb.
  reflexivity.
Qed.

(** ** Macros, constants, aliases, uses, extern crates *)
Lemma macro_sound attrs ts m rest :
  consume_macro attrs ts = Ret (Some m, rest) ->
  ma_attributes m = attrs /\ ts = macro_tokens m ++ rest
  /\ (forall kws, wf_outer attrs = true -> id_in kws (ma_name m) = false -> shape_macro kws m = true).
Proof.
  unfold consume_macro, consume_macro_inner. intro H. inv_bind H. destruct x as [o t1].
  destruct o as [m'|]; [|discriminate]. bsplit.
  destruct ts as [|[g|name|p|l] r]; try discriminate. simpl in Hx.
  destruct (consume_punct "!" r) as [b t2] eqn:Eb. apply consume_punct_sound in Eb. destruct Eb as (-> & B1 & _).
  destruct b as [b|]; [|discriminate]. simpl in B1.
  assert (Hd : exists d t3, consume_any_ident t2 = (d, t3) /\ t2 = print_opt print_ident d ++ t3).
  { destruct t2 as [|[g|i|p|l] r]; simpl; eauto. }
  destruct Hd as (d & t3 & Ed & ->). rewrite Ed in Hx.
  destruct t3 as [|[g|i|p|l] r]; try discriminate.
  destruct (delim_eqb (g_delim g) Parenthesis) eqn:E1.
  - inv_bind Hx. destruct x as [s t4]. bsplit. apply parse_punct_sound in Hx0. destruct Hx0 as [-> Hs].
    simpl. repeat split; auto.
    + unfold macro_tokens. simpl. app_norm. unfold quote_with, group_span_new. simpl. rewrite group_eta. reflexivity.
    + intros kws Ha Hk. unfold shape_macro. simpl in *. rewrite Ha, Hk, B1, Hs, E1. reflexivity.
  - destruct (delim_eqb (g_delim g) Brace) eqn:E2; [|discriminate]. bsplit.
    simpl. repeat split; auto.
    + unfold macro_tokens. simpl. app_norm. unfold quote_with, group_span_new. simpl. rewrite group_eta. reflexivity.
    + intros kws Ha Hk. unfold shape_macro. simpl in *. rewrite Ha, Hk, B1, E2. reflexivity.
Qed.

Lemma constant_sound attrs vis ts c rest :
  parse_const_or_static attrs vis ts = Ret (c, rest) ->
  (head_is (is_ident "const") ts = true -> exists nf, consume_fn attrs vis ts = Ret (Err nf, ts)) ->
  co_attributes c = attrs /\ co_vis c = vis /\ ts = constant_tail c ++ rest
  /\ (wf_outer attrs = true -> wf_opt wf_vis vis = true -> shape_constant c = true).
Proof.
  unfold parse_const_or_static. intros H Hfn. inv_bind H. destruct x as [[kw isc] t1].
  inv_bind H. rename x into mu. inv_bind H. destruct x as [name t2].
  apply parse_any_ident_sound in Hx1. subst t1.
  inv_bind H. destruct x as [colon t3]. apply parse_punct_sound in Hx1. destruct Hx1 as [-> Hc].
  inv_bind H. destruct x as [ty t4]. apply until_sound_term in Hx1. destruct Hx1 as (-> & _ & Hty).
  destruct (consume_punct "=" t4) as [eq t5] eqn:Ee. apply consume_punct_sound in Ee. destruct Ee as (-> & E1 & E2).
  inv_bind H. destruct x as [value t6]. apply until_sound_term in Hx1. destruct Hx1 as (-> & _ & Hv).
  inv_bind H. destruct x as [semi t7]. apply parse_punct_sound in Hx1. destruct Hx1 as [-> Hs]. bsplit.
  assert (Hty' : run_closed end_const_ty ty = true).
  { destruct eq; [destruct Hty as [Hty _]; exact Hty|]. simpl in Hty. destruct value; destruct Hty as [Hty _]; exact Hty. }
  assert (Hnil : eq = None -> value = []).
  { intros ->. destruct value as [|v0 value]; auto. exfalso. simpl in Hty, E2.
    destruct Hty as (_ & _ & Hp). specialize (Hp eq_refl). unfold end_eq_or_semi in Hp. bcase.
    - rewrite E2 in H; auto; discriminate.
    - unfold run_closed in *. simpl in H0. unfold stops in H0.
      destruct v0 as [g|i|p|l]; try discriminate. simpl in H. known. simpl in H0. discriminate. }
  simpl. split; auto. split; auto.
  assert (Hkw : ts = TIdent kw :: TIdent name :: TPunct colon
                 :: ty ++ print_opt print_punct eq ++ value ++ TPunct semi :: rest
              /\ id_is (if isc then "const" else "static")%string kw = true).
  { destruct ts as [|[g|i|p|l] r]; try discriminate.
    destruct (id_is "const" i) eqn:K1; [bsplit; auto|].
    destruct (id_is "static" i) eqn:K2; [bsplit; auto|discriminate]. }
  destruct Hkw as [-> Hkw]. clear Hx. split.
  - unfold constant_tail. simpl. destruct value; simpl; app_norm; reflexivity.
  - intros Ha Hvi. unfold shape_constant. simpl. rewrite Ha, Hvi, Hc, Hty', Hs.
    rewrite andb_true_r.
    assert (Hi : (match eq, match value with [] => None | _ :: _ => Some (mkValueExpr value) end with
       | Some p, Some v => p_is "=" p && nonempty (ve_tokens v) && run_closed end_semicolon (ve_tokens v)
       | Some p, None => p_is "=" p
       | None, None => true
       | None, Some _ => false end) = true).
    { destruct eq as [e|]; [|rewrite (Hnil eq_refl); reflexivity]. simpl in E1. destruct value; auto.
      simpl. rewrite E1. assumption. }
    rewrite Hi, !andb_true_r. cbn [andb].
    destruct isc; rewrite Hkw.
    + destruct (id_is "mut" name) eqn:Em; [discriminate|]. bsplit. simpl.
      destruct Hfn as [nf Hfn]. { simpl. rewrite Hkw. reflexivity. }
      apply orb_true_iff. left.
      apply negb_true_iff.
      destruct (id_is "async" name) eqn:N1.
      { exfalso. known. discriminate. }
      destruct (id_is "unsafe" name) eqn:N2.
      { exfalso. known. discriminate. }
      destruct (id_is "extern" name) eqn:N3.
      { exfalso. known. discriminate. }
      destruct (id_is "fn" name) eqn:N4; auto.
      exfalso. known. discriminate.
    + apply orb_true_iff. right. destruct (id_is "mut" name) eqn:Em.
      * bsplit. rewrite Em, N.eqb_refl. reflexivity.
      * bsplit. reflexivity.
Qed.

Lemma type_alias_sound attrs vis ts o rest :
  consume_ty_definition attrs vis ts = Ret (o, rest) ->
  exists t, o = Some t /\ ta_attributes t = attrs /\ ta_vis t = vis /\ ts = type_alias_tail t ++ rest
  /\ (wf_outer attrs = true -> wf_opt wf_vis vis = true -> wf_type_alias t = true).
Proof.
  unfold consume_ty_definition. intros H. inv_bind H. destruct x as [kw t1].
  apply parse_ident_sound in Hx. destruct Hx as [-> Hk].
  inv_bind H. destruct x as [name t2]. apply parse_any_ident_sound in Hx. subst t1.
  inv_bind H. destruct x as [bound t3]. destruct (consume_punct "=" t3) as [eq t4] eqn:Ee.
  apply consume_punct_sound in Ee. destruct Ee as (-> & E1 & E2).
  inv_bind H. destruct x as [init t5]. inv_bind H. destruct x as [semi t6].
  apply parse_punct_sound in Hx1. destruct Hx1 as [-> Hs]. bsplit.
  assert (Hi : t4 = print_opt print_type init ++ TPunct semi :: rest /\
    (match eq, init with
      | Some p, Some ty => p_is "=" p && run_closed end_semicolon (te_tokens ty)
      | None, None => true
      | _, _ => false
      end) = true).
  { destruct eq.
    - inv_bind Hx0. destruct x as [ty r]. bsplit. apply until_sound_term in Hx1. destruct Hx1 as (-> & _ & H1 & _).
      simpl in *. rewrite E1. auto.
    - bsplit. auto. }
  destruct Hi as [-> Hi].
  assert (Hb : t2 = print_opt print_bound bound ++ print_opt print_punct eq ++ print_opt print_type init ++ TPunct semi :: rest
    /\ wf_opt (wf_bound end_eq_or_semi) bound = true).
  { destruct (print_opt print_punct eq ++ print_opt print_type init ++ TPunct semi :: rest) as [|t0 r0] eqn:Er.
    - apply app_eq_nil in Er. destruct Er as [_ Er]. apply app_eq_nil in Er. destruct Er; discriminate.
    - apply bound_sound in Hx. tauto. }
  destruct Hb as [-> Hb].
  eexists. split; [reflexivity|]. simpl. repeat split; auto.
  - unfold type_alias_tail. simpl. app_norm. reflexivity.
  - intros Ha Hv. unfold wf_type_alias. simpl. rewrite Ha, Hv, Hk, Hs, Hi.
    change (wf_opt (wf_bound end_const_ty) bound) with (wf_opt (wf_bound end_eq_or_semi) bound). rewrite Hb. reflexivity.
Qed.

Lemma use_sound attrs vis ts u rest :
  parse_use_declaration attrs vis ts = Ret (u, rest) ->
  us_attributes u = attrs /\ us_vis u = vis /\ ts = use_tail u ++ rest
  /\ (wf_outer attrs = true -> wf_opt wf_vis vis = true -> wf_use u = true).
Proof.
  unfold parse_use_declaration. intros H. inv_bind H. destruct x as [kw t1].
  apply parse_ident_sound in Hx. destruct Hx as [-> Hk].
  inv_bind H. destruct x as [tree t2]. apply until_sound_term in Hx. destruct Hx as (-> & _ & Ht).
  inv_bind H. destruct x as [semi t3]. apply parse_punct_sound in Hx. destruct Hx as [-> Hs]. bsplit.
  simpl. unfold use_tail. simpl. app_norm. repeat split; auto.
  intros Ha Hv. unfold wf_use. simpl. rewrite Ha, Hv, Hk, Hs.
  match goal with X : run_closed _ tree = true |- _ =>
    change (run_closed end_semicolon tree) with (run_closed end_semi tree); rewrite X end. reflexivity.
Qed.

Lemma extern_crate_sound attrs vis ts k rest :
  parse_extern_crate attrs vis ts = Ret (k, rest) ->
  ec_attributes k = attrs /\ ec_vis k = vis /\ ts = extern_crate_tail k ++ rest
  /\ (wf_outer attrs = true -> wf_opt wf_vis vis = true -> wf_extern_crate k = true).
Proof.
  unfold parse_extern_crate, consume_extern_crate. intros H. inv_bind H. destruct x as [o t0].
  destruct o as [k'|]; [|discriminate]. bsplit.
  destruct (consume_ident "extern" ts) as [a t1] eqn:E1. destruct a as [a|]; [|discriminate].
  apply consume_ident_sound in E1. destruct E1 as (-> & E1 & _).
  destruct (consume_ident "crate" t1) as [b t2] eqn:E2. destruct b as [b|]; [|discriminate].
  apply consume_ident_sound in E2. destruct E2 as (-> & E2 & _).
  inv_bind Hx. destruct x as [name t3]. apply parse_any_ident_sound in Hx0. subst t2.
  destruct (consume_ident "as" t3) as [c t4] eqn:E3. apply consume_ident_sound in E3. destruct E3 as (-> & E3 & _).
  inv_bind Hx. destruct x as [al t5]. inv_bind Hx. destruct x as [semi t6].
  apply parse_punct_sound in Hx1. destruct Hx1 as [-> Hs]. bsplit. simpl in E1, E2.
  destruct c as [c|].
  - inv_bind Hx0. destruct x as [al' r]. bsplit. apply parse_any_ident_sound in Hx. subst t4.
    simpl in E3. unfold extern_crate_tail, wf_extern_crate. simpl. repeat split; auto.
    intros Ha Hv. rewrite Ha, Hv, E1, E2, E3, Hs. reflexivity.
  - bsplit. unfold extern_crate_tail, wf_extern_crate. simpl. repeat split; auto.
    intros Ha Hv. rewrite Ha, Hv, E1, E2, Hs. reflexivity.
Qed.

(** ** Type declarations *)
Lemma struct_sound attrs vis kw ts s rest :
  parse_struct attrs vis kw ts = Ret (s, rest) ->
  st_attributes s = attrs /\ st_vis s = vis /\ st_struct s = kw /\
  exists cf, ts = struct_tail s cf ++ rest /\ spells_fields (st_fields s) cf
  /\ struct_follow s rest = true
  /\ (wf_outer attrs = true -> wf_opt wf_vis vis = true -> id_is "struct" kw = true -> shape_struct s = true).
Proof.
  unfold parse_struct. intro H. inv_bind H. destruct x as [name t1].
  apply parse_any_ident_sound in Hx. subst ts.
  inv_bind H. destruct x as [gen t2]. apply generics_sound in Hx. destruct Hx as (-> & G1 & _).
  inv_bind H. destruct x as [wh t3]. apply where_sound in Hx. destruct Hx as (-> & W1 & W2 & W3).
  inv_bind H. destruct x as [fs t4]. inv_bind H. destruct x as [wh2 t5].
  destruct (consume_punct ";" t5) as [semi t6] eqn:Es. apply consume_punct_sound in Es. destruct Es as (-> & S1 & S2).
  bsplit. simpl. repeat split; auto. unfold struct_tail, struct_follow, shape_struct. simpl.
  destruct t3 as [|[g|i|p|l] r]; try discriminate.
  - destruct (delim_eqb (g_delim g) Parenthesis) eqn:Ed.
    + inv_bind Hx. bsplit. apply tuple_fields_sound in Hx1; auto. destruct Hx1 as [F1 F2].
      destruct wh; [discriminate|]. apply where_sound in Hx0. destruct Hx0 as (-> & V1 & V2 & V3).
      exists [TGroup g]. simpl. app_norm. repeat split; auto.
      * destruct semi as [semi|]; auto. simpl in *. destruct wh2; simpl in *.
        -- specialize (V2 eq_refl). unfold where_follow in V2. rewrite S2 in V2; auto. rewrite orb_false_r in V2. auto.
        -- rewrite V3, S2; auto.
      * intros Ha Hv Hk. rewrite Ha, Hv, Hk, G1, V1, F2, S1. reflexivity.
    + destruct (delim_eqb (g_delim g) Brace) eqn:Ed2; [|discriminate].
      inv_bind Hx. bsplit. apply named_fields_sound in Hx1; auto. destruct Hx1 as [F1 F2].
      bsplit. exists [TGroup g]. simpl. app_norm. repeat split; auto.
      * destruct semi; auto. simpl. rewrite S2; auto.
      * intros Ha Hv Hk. rewrite Ha, Hv, Hk, G1, W1, F2, S1. reflexivity.
  - destruct (p_is ";" p) eqn:Ep; [|discriminate]. bsplit.
    exists []. simpl. destruct semi as [semi|].
    + simpl in *. injection H as -> ->. app_norm. repeat split; auto.
      intros Ha Hv Hk. rewrite Ha, Hv, Hk, G1, W1, S1. reflexivity.
    + simpl in *. subst rest. simpl in S2. rewrite S2 in Ep; auto. discriminate.
Qed.

Lemma enum_sound attrs vis kw ts e rest :
  parse_enum attrs vis kw ts = Ret (Ok e, rest) ->
  en_attributes e = attrs /\ en_vis e = vis /\ en_enum e = kw /\
  exists cv, ts = enum_tail e cv ++ rest
  /\ spells_group (en_braces e) (spells_punctuated spells_variant gap_variant (en_variants e)) cv
  /\ (wf_outer attrs = true -> wf_opt wf_vis vis = true -> id_is "enum" kw = true -> wf_enum e = true).
Proof.
  unfold parse_enum. intro H. inv_bind H. destruct x as [name t1].
  apply parse_any_ident_sound in Hx. subst ts.
  inv_bind H. destruct x as [gen t2]. apply generics_sound in Hx. destruct Hx as (-> & G1 & _).
  inv_bind H. destruct x as [wh t3]. apply where_sound in Hx. destruct Hx as (-> & W1 & _).
  destruct t3 as [|[g|i|p|l] r]; try discriminate.
  destruct (delim_eqb (g_delim g) Brace) eqn:Ed; [|discriminate].
  inv_bind H. destruct x as [vs|er]; [|discriminate]. bsplit. simpl.
  apply variants_sound in Hx. destruct Hx as [V1 V2]. repeat split; auto.
  exists [TGroup g]. unfold enum_tail, wf_enum. simpl. app_norm. repeat split; auto.
  - exists (g_stream g). split; auto. unfold quote_with, group_span_new. simpl. rewrite group_eta. reflexivity.
  - intros Ha Hv Hk. rewrite Ha, Hv, Hk, G1, W1, Ed, V2. reflexivity.
Qed.

Lemma union_sound attrs vis kw ts u rest :
  parse_union attrs vis kw ts = Ret (u, rest) ->
  un_attributes u = attrs /\ un_vis u = vis /\ un_union u = kw /\
  exists cf, ts = union_tail u cf ++ rest /\ spells_named_fields (un_fields u) cf
  /\ (wf_outer attrs = true -> wf_opt wf_vis vis = true -> id_is "union" kw = true -> wf_union u = true).
Proof.
  unfold parse_union. intro H. inv_bind H. destruct x as [name t1].
  apply parse_any_ident_sound in Hx. subst ts.
  inv_bind H. destruct x as [gen t2]. apply generics_sound in Hx. destruct Hx as (-> & G1 & _).
  inv_bind H. destruct x as [wh t3]. apply where_sound in Hx. destruct Hx as (-> & W1 & _).
  destruct t3 as [|[g|i|p|l] r]; try discriminate.
  destruct (delim_eqb (g_delim g) Brace) eqn:Ed; [|discriminate].
  inv_bind H. bsplit. apply named_fields_sound in Hx; auto. destruct Hx as [F1 F2].
  simpl. repeat split; auto. exists [TGroup g]. unfold union_tail, wf_union. simpl. app_norm. repeat split; auto.
  intros Ha Hv Hk. rewrite Ha, Hv, Hk, G1, W1, F2. reflexivity.
Qed.

(** ** Bodies *)
Lemma many_loop_sound {A} (elem : parser A) (sp : A -> list tok -> Prop) fol good :
  (forall ts x rest, elem ts = Ret (x, rest) ->
     exists c, ts = c ++ rest /\ sp x c /\ fol x rest = true /\ good x = true) ->
  forall fuel ts l, many_loop elem fuel ts = Ret l ->
  spells_members sp fol l ts /\ forallb good l = true.
Proof.
  intro He. induction fuel as [|fuel IH]; intros ts l H; [discriminate|]. cbn [many_loop] in H.
  destruct ts as [|t r].
  - bsplit. simpl. auto.
  - inv_bind H. destruct x as [x t1]. inv_bind H. bsplit.
    apply He in Hx. destruct Hx as (c & -> & H1 & H2 & H3). apply IH in Hx0. destruct Hx0 as [I1 I2].
    simpl. rewrite H3, I2. split; auto. exists c, t1. auto.
Qed.
Lemma spells_members_list {A} (sp : A -> list tok -> Prop) fol l : forall c,
  spells_members sp fol l c -> spells_list sp l c.
Proof. induction l as [|x l IH]; simpl; auto. intros c (c1 & c2 & -> & H1 & H2 & H3). eauto 10. Qed.

(** What [consume_either] returns on the tokens after attributes and visibility. *)
Definition either_ok (attrs : list attribute) (vis : option vis_marker) (ts : list tok) (i : item) (rest : list tok) : Prop :=
  match i with
  | IMacro m => vis = None /\ ma_attributes m = attrs /\ ts = macro_tokens m ++ rest
                /\ shape_macro member_keywords m = true
  | _ => forall ca, spells_attributes attrs ca ->
         exists c, ca ++ print_opt print_vis vis ++ ts = c ++ rest /\ spells_item i c /\ shape_item i = true
                   /\ follow_ok i rest = true
  end.

Section Sound.
Variable R : parser (result item error).
Variable E : list attribute -> option vis_marker -> parser item.
Hypothesis HR : forall ts i rest, R ts = Ret (Ok i, rest) ->
  exists c, ts = c ++ rest /\ spells_item i c /\ shape_item i = true /\ follow_ok i rest = true.
Hypothesis HE : forall attrs vis ts i rest, E attrs vis ts = Ret (i, rest) ->
  wf_outer attrs = true -> wf_opt wf_vis vis = true -> either_ok attrs vis ts i rest.

Lemma impl_member_sound allow ts m rest :
  parse_impl_member E allow ts = Ret (m, rest) ->
  exists c, ts = c ++ rest /\ spells_impl_member m c /\ true = true /\ shape_impl_member allow m = true.
Proof.
  unfold parse_impl_member. intro H. inv_bind H. destruct x as [attrs t1].
  destruct (consume_vis_marker t1) as [vis t2] eqn:Ev. inv_bind H. destruct x as [i t3].
  inv_bind H. bsplit.
  destruct (attrs_vis_sound _ _ _ _ _ Hx Ev) as (ca & -> & A1 & A2 & A3 & A4).
  apply HE in Hx0; auto. destruct i; try discriminate; simpl in Hx1.
  - bsplit. destruct (Hx0 ca A1) as (c & -> & C1 & C2 & _). exists c. auto.
  - bsplit. destruct (Hx0 ca A1) as (c & -> & C1 & C2 & _). exists c. auto.
  - destruct (Hx0 ca A1) as (c0 & -> & C1 & C2 & _). exists c0. simpl in *.
    destruct (id_is "const" (co_kw c)) eqn:Ec; [|destruct allow; [|discriminate]]; bsplit; simpl;
      rewrite C2, ?Ec, ?orb_true_r; auto.
  - destruct Hx0 as (-> & M1 & -> & M2). bsplit. exists (ca ++ macro_tokens m0).
    split; [cbn [print_opt]; rewrite <- app_assoc; reflexivity|]. split; [exists ca; auto|].
    cbn [shape_impl_member]. rewrite M2. split; auto.
    unfold stable_macro, id_in, vis_keywords. simpl in *. bsplit. rewrite H, H0. reflexivity.
Qed.

Lemma impl_body_sound g allow gs inner items :
  delim_eqb (g_delim g) Brace = true ->
  parse_impl_body E g allow = Ret (gs, inner, items) ->
  spells_group gs (spells_body spells_impl_member inner items) [TGroup g]
  /\ delim_eqb (gs_delim gs) Brace = true /\ wf_inner_attrs inner = true
  /\ forallb (shape_impl_member allow) items = true.
Proof.
  intros Hd H. unfold parse_impl_body in H. inv_bind H. destruct x as [inn t1]. inv_bind H. bsplit.
  apply inner_attributes_sound in Hx. destruct Hx as (ci & Hs & I1 & I2).
  apply (many_loop_sound _ spells_impl_member (fun _ _ => true) (shape_impl_member allow)) in Hx0.
  2:{ intros ts x rest Hm. apply impl_member_sound in Hm. exact Hm. }
  destruct Hx0 as [L1 L2]. repeat split; auto.
  exists (g_stream g). split.
  - exists ci, t1. repeat split; auto. eapply spells_members_list; eauto.
  - unfold quote_with, group_span_new. simpl. rewrite group_eta. reflexivity.
Qed.

Lemma body_group_sound site bad ts gs inner items rest :
  parse_body_group E site bad ts = Ret ((gs, inner, items), rest) ->
  exists cb, ts = cb ++ rest /\ cb <> []
  /\ spells_group gs (spells_body spells_impl_member inner items) cb
  /\ delim_eqb (gs_delim gs) Brace = true /\ wf_inner_attrs inner = true
  /\ forallb (shape_impl_member false) items = true.
Proof.
  unfold parse_body_group. intro H. destruct ts as [|[g|i|p|l] r]; try discriminate.
  destruct (delim_eqb (g_delim g) Brace) eqn:Ed; [|discriminate]. inv_bind H. bsplit.
  apply impl_body_sound in Hx; auto. exists [TGroup g]. split; auto. split; [discriminate|]. auto.
Qed.

Lemma impl_sound attrs ts i rest :
  parse_impl E attrs ts = Ret (i, rest) ->
  im_attributes i = attrs /\
  exists cb, ts = impl_tail i cb ++ rest
  /\ spells_group (im_braces i) (spells_body spells_impl_member (im_inner_attributes i) (im_items i)) cb
  /\ (wf_outer attrs = true -> shape_impl i = true).
Proof.
  unfold parse_impl. intro H. destruct (consume_ident "unsafe" ts) as [u t0] eqn:Eu.
  apply consume_ident_sound in Eu. destruct Eu as (-> & U1 & _).
  inv_bind H. destruct x as [kw t1]. apply parse_ident_sound in Hx. destruct Hx as [-> Hk].
  inv_bind H. destruct x as [gen t2]. apply generics_sound in Hx. destruct Hx as (-> & G1 & G2).
  inv_bind H. destruct x as [ty1 t3]. apply until_sound_term in Hx. destruct Hx as (-> & _ & T1).
  inv_bind H. destruct x as [[[fo tr] self] t4].
  inv_bind H. destruct x as [wh t5]. apply where_sound in Hx0. destruct Hx0 as (-> & W1 & _).
  inv_bind H. destruct x as [[[gs inner] items] t6]. bsplit.
  apply body_group_sound in Hx0. destruct Hx0 as (cb & -> & B0 & B1 & B2 & B3 & B4).
  assert (Hg : some gen || negb (head_is (is_punct "<") ty1) = true).
  { destruct gen; auto. simpl. specialize (G2 eq_refl). destruct ty1; auto. simpl in *. rewrite G2. reflexivity. }
  assert (T2 : run_closed end_impl_header ty1 = true).
  { destruct t3; [discriminate|]. destruct T1 as [T1 _]. exact T1. }
  simpl. split; auto. exists cb. unfold impl_tail, shape_impl. simpl.
  destruct (consume_ident "for" t3) as [f t7] eqn:Ef. apply consume_ident_sound in Ef. destruct Ef as (-> & F1 & F2).
  destruct f as [f|].
  - inv_bind Hx. destruct x as [ty2 t8]. bsplit.
    apply until_sound_term in Hx0. destruct Hx0 as (-> & _ & T3).
    simpl. unfold print_type. simpl. app_norm. repeat split; auto. intro Ha.
    assert (T4 : run_closed end_impl_self ty2 = true).
    { destruct (print_opt print_where wh ++ cb ++ rest); [discriminate|]. destruct T3 as [T3 _]. exact T3. }
    simpl in F1. rewrite Ha, U1, Hk, G1, T2, F1, T4, Hg, W1, B2, B3, B4. reflexivity.
  - bsplit. simpl. app_norm. repeat split; auto. intro Ha.
    rewrite Ha, U1, Hk, G1, T2, Hg, W1, B2, B3, B4. reflexivity.
Qed.

Lemma impl_of_trait_of_impl m : impl_of_trait_member (trait_member_of_impl m) = m.
Proof. destruct m; reflexivity. Qed.
Lemma spells_trait_items l : forall c,
  spells_list spells_impl_member l c -> spells_list spells_trait_member (map trait_member_of_impl l) c.
Proof.
  induction l as [|x l IH]; simpl; auto. intros c (c1 & c2 & -> & H1 & H2). exists c1, c2.
  repeat split; auto. unfold spells_trait_member. rewrite impl_of_trait_of_impl. auto.
Qed.
Lemma shape_trait_items l :
  forallb (shape_impl_member false) l = true -> forallb shape_trait_member (map trait_member_of_impl l) = true.
Proof.
  induction l; simpl; auto. intro H. bsplit. unfold shape_trait_member at 1. rewrite impl_of_trait_of_impl, H, IHl; auto.
Qed.

Lemma trait_sound attrs vis ts t rest :
  parse_trait E attrs vis ts = Ret (t, rest) ->
  tr_attributes t = attrs /\ tr_vis t = vis /\
  exists cb, ts = trait_tail t cb ++ rest
  /\ spells_group (tr_braces t) (spells_body spells_trait_member (tr_inner_attributes t) (tr_items t)) cb
  /\ (wf_outer attrs = true -> wf_opt wf_vis vis = true -> shape_trait t = true).
Proof.
  unfold parse_trait. intro H. destruct (consume_ident "unsafe" ts) as [u t0] eqn:Eu.
  apply consume_ident_sound in Eu. destruct Eu as (-> & U1 & _).
  inv_bind H. destruct x as [kw t1]. apply parse_ident_sound in Hx. destruct Hx as [-> Hk].
  inv_bind H. destruct x as [name t2]. apply parse_any_ident_sound in Hx. subst t1.
  inv_bind H. destruct x as [gen t3]. apply generics_sound in Hx. destruct Hx as (-> & G1 & G2).
  inv_bind H. destruct x as [bound t4].
  inv_bind H. destruct x as [wh t5]. apply where_sound in Hx0. destruct Hx0 as (-> & W1 & _).
  inv_bind H. destruct x as [[[gs inner] items] t6]. bsplit.
  apply body_group_sound in Hx0. destruct Hx0 as (cb & -> & B0 & B1 & B2 & B3 & B4).
  assert (Hb : t3 = print_opt print_bound bound ++ print_opt print_where wh ++ cb ++ rest
    /\ wf_opt (wf_bound end_trait_bound) bound = true).
  { destruct (print_opt print_where wh ++ cb ++ rest) as [|x0 r0] eqn:Er.
    - apply app_eq_nil in Er. destruct Er as [_ Er]. apply app_eq_nil in Er. destruct Er; contradiction.
    - apply bound_sound in Hx. tauto. }
  destruct Hb as [-> Hb]. simpl. repeat split; auto. exists cb. unfold trait_tail, shape_trait. simpl. app_norm.
  repeat split; auto.
  - destruct B1 as (s & (ci & cm & C1 & C2 & ->) & ->). exists (ci ++ cm). split; auto.
    exists ci, cm. repeat split; auto. apply spells_trait_items. auto.
  - intros Ha Hv. change (wf_opt (wf_bound end_supertraits) bound) with (wf_opt (wf_bound end_trait_bound) bound).
    rewrite Ha, Hv, U1, Hk, G1, Hb, W1, B2, B3, shape_trait_items by auto. reflexivity.
Qed.

Lemma extern_block_sound attrs vis ts b rest :
  parse_extern_block E attrs vis ts = Ret (b, rest) ->
  eb_attributes b = attrs /\ eb_vis b = vis /\
  exists cb, ts = extern_block_tail b cb ++ rest
  /\ spells_group (eb_braces b) (spells_body spells_impl_member (eb_inner_attributes b) (eb_items b)) cb
  /\ (wf_outer attrs = true -> wf_opt wf_vis vis = true -> shape_extern_block b = true).
Proof.
  unfold parse_extern_block, consume_extern_block. intro H. inv_bind H. destruct x as [o t0].
  destruct o as [b'|]; [|discriminate]. bsplit.
  destruct (consume_ident "unsafe" ts) as [u t1] eqn:Eu.
  apply consume_ident_sound in Eu. destruct Eu as (-> & U1 & _).
  destruct (consume_ident "extern" t1) as [k t2] eqn:Ek.
  apply consume_ident_sound in Ek. destruct Ek as (-> & K1 & _). destruct k as [k|]; [|discriminate].
  destruct (consume_literal t2) as [abi t3] eqn:Ea. apply consume_literal_sound in Ea. subst t2.
  destruct t3 as [|[g|i|p|l] r]; try discriminate.
  destruct (delim_eqb (g_delim g) Brace) eqn:Ed; [|discriminate].
  inv_bind Hx. destruct x as [[gs inner] items]. bsplit.
  apply impl_body_sound in Hx0; auto. destruct Hx0 as (B1 & B2 & B3 & B4).
  simpl in *. repeat split; auto. exists [TGroup g]. unfold extern_block_tail, shape_extern_block. simpl. app_norm.
  repeat split; auto. intros Ha Hv. rewrite Ha, Hv, U1, K1, B2, B3, B4. reflexivity.
Qed.

Lemma module_sound attrs vis ts m rest :
  parse_mod R attrs vis ts = Ret (m, rest) ->
  mo_attributes m = attrs /\ mo_vis m = vis /\
  exists cb, ts = module_tail m cb ++ rest
  /\ (match mo_semicolon m, mo_braces m with
      | Some p, _ => cb = [TPunct p]
      | None, Some gs =>
          spells_group gs (fun s => exists ci cm, spells_attributes (mo_inner_attributes m) ci
                                    /\ spells_members spells_item follow_ok (mo_members m) cm /\ s = ci ++ cm) cb
      | None, None => cb = []
      end)
  /\ (wf_outer attrs = true -> wf_opt wf_vis vis = true -> shape_module shape_item m = true).
Proof.
  unfold parse_mod. intro H. destruct (consume_ident "unsafe" ts) as [u t0] eqn:Eu.
  apply consume_ident_sound in Eu. destruct Eu as (-> & U1 & _).
  inv_bind H. destruct x as [kw t1]. apply parse_ident_sound in Hx. destruct Hx as [-> Hk].
  inv_bind H. destruct x as [name t2]. apply parse_any_ident_sound in Hx. subst t1.
  destruct t2 as [|[g|i|p|l] r]; try discriminate.
  - destruct (delim_eqb (g_delim g) Brace) eqn:Ed; [|discriminate].
    inv_bind H. destruct x as [inner t3]. inv_bind H. bsplit.
    apply inner_attributes_sound in Hx. destruct Hx as (ci & Hs & I1 & I2).
    apply (many_loop_sound _ spells_item follow_ok shape_item) in Hx0.
    2:{ intros ts y r Hm. unfold parse_mod_member in Hm. inv_bind Hm. destruct x0 as [[i|e] r'].
        - bsplit. apply HR in Hx. destruct Hx as (c & -> & C1 & C2 & C3). exists c. auto.
        - discriminate. }
    destruct Hx0 as [L1 L2]. simpl. repeat split; auto. exists [TGroup g].
    unfold module_tail, shape_module. simpl. app_norm. repeat split; auto.
    + exists (g_stream g). split.
      * exists ci, t3. auto.
      * unfold quote_with, group_span_new. simpl. rewrite group_eta. reflexivity.
    + intros Ha Hv. rewrite Ha, Hv, U1, Hk, Ed, I2, L2. reflexivity.
  - destruct (p_is ";" p) eqn:Ep; [|discriminate]. bsplit.
    simpl. repeat split; auto. exists [TPunct p]. unfold module_tail, shape_module. simpl. app_norm.
    repeat split; auto. intros Ha Hv. rewrite Ha, Hv, U1, Hk, Ep. reflexivity.
Qed.

(** ** Items *)
Lemma fn_like_sound attrs vis ts i rest :
  wf_outer attrs = true -> wf_opt wf_vis vis = true ->
  (do (f, ts) <- consume_fn attrs vis ts ;;
   match f with
   | Ok f => Ret (IFunction f, ts)
   | Err NFConst => do (c, ts) <- parse_const_or_static attrs vis ts ;; Ret (IConstant c, ts)
   | Err NFStatic => do (c, ts) <- parse_const_or_static attrs vis ts ;; Ret (IConstant c, ts)
   | Err NFTrait => do (t, ts) <- parse_trait E attrs vis ts ;; Ret (ITrait t, ts)
   | Err NFImpl => do (i, ts) <- parse_impl E attrs ts ;; Ret (IImpl i, ts)
   | Err NFMod => do (m, ts) <- parse_mod R attrs vis ts ;; Ret (IModule m, ts)
   | Err NFExternBlock => do (b, ts) <- parse_extern_block E attrs vis ts ;; Ret (IExternBlock b, ts)
   | Err NFExternCrate => do (c, ts) <- parse_extern_crate attrs vis ts ;; Ret (IExternCrate c, ts)
   end) = Ret (i, rest) ->
  match i with IMacro _ => False | _ => True end /\
  forall ca, spells_attributes attrs ca ->
         exists c, ca ++ print_opt print_vis vis ++ ts = c ++ rest /\ spells_item i c /\ shape_item i = true
                   /\ follow_ok i rest = true.
Proof.
  intros Ha Hv H. inv_bind H. destruct x as [f t1]. destruct f as [f|nf].
  - bsplit. apply function_sound in Hx. destruct Hx as (F1 & F2 & cp & -> & F3 & F4). split; auto.
    intros ca Hca. exists (ca ++ print_opt print_vis vis ++ function_tail f cp). app_norm. split; auto.
    split; [|simpl; auto]. exists ca, cp. rewrite F1, F2. auto.
  - assert (t1 = ts).
    { unfold consume_fn in Hx. destruct (consume_fn_qualifiers ts). inv_bind Hx. destruct x as [[k|nf'] t2].
      - repeat (inv_bind Hx; match type of Hx with context [let (_, _) := ?y in _] => destruct y end). discriminate.
      - bsplit. auto. }
    subst t1.
    assert (Hc : forall c t2, parse_const_or_static attrs vis ts = Ret (c, t2) ->
      forall ca, spells_attributes attrs ca ->
         exists k, ca ++ print_opt print_vis vis ++ ts = k ++ t2 /\ spells_item (IConstant c) k /\ shape_constant c = true).
    { intros c t2 Hp ca Hca. apply constant_sound in Hp; [|eauto]. destruct Hp as (C1 & C2 & -> & C3).
      exists (ca ++ print_opt print_vis vis ++ constant_tail c). app_norm. split; auto. split; auto.
      exists ca. rewrite C1, C2. auto. }
    destruct nf; inv_bind H; destruct x as [x t2]; bsplit; (split; [exact I|]); intros ca Hca.
    + destruct (Hc _ _ Hx0 ca Hca) as (k & K1 & K2 & K3). exists k. auto.
    + destruct (Hc _ _ Hx0 ca Hca) as (k & K1 & K2 & K3). exists k. auto.
    + apply trait_sound in Hx0. destruct Hx0 as (T1 & T2 & cb & -> & T3 & T4).
      exists (ca ++ print_opt print_vis vis ++ trait_tail x cb). app_norm. split; auto.
      split; [|simpl; auto]. exists ca, cb. rewrite T1, T2. auto.
    + apply impl_sound in Hx0. destruct Hx0 as (T1 & cb & -> & T3 & T4).
      exists (ca ++ print_opt print_vis vis ++ impl_tail x cb). app_norm. split; auto.
      split; [|simpl; auto]. exists ca, vis, cb. rewrite T1. auto.
    + apply module_sound in Hx0. destruct Hx0 as (T1 & T2 & cb & -> & T3 & T4).
      exists (ca ++ print_opt print_vis vis ++ module_tail x cb). app_norm. split; auto.
      split; [|simpl; auto]. exists ca, cb. rewrite T1, T2. auto.
    + apply extern_crate_sound in Hx0. destruct Hx0 as (T1 & T2 & -> & T3).
      exists (ca ++ print_opt print_vis vis ++ extern_crate_tail x). app_norm. split; auto.
      split; [|simpl; auto]. exists ca. rewrite T1, T2. auto.
    + apply extern_block_sound in Hx0. destruct Hx0 as (T1 & T2 & cb & -> & T3 & T4).
      exists (ca ++ print_opt print_vis vis ++ extern_block_tail x cb). app_norm. split; auto.
      split; [|simpl; auto]. exists ca, cb. rewrite T1, T2. auto.
Qed.

Lemma either_sound attrs vis ts i rest :
  wf_outer attrs = true -> wf_opt wf_vis vis = true ->
  consume_either R E attrs vis ts = Ret (i, rest) -> either_ok attrs vis ts i rest
  /\ (match i with IMacro _ => True | _ => False end -> head_is (fun t => match t with TIdent k => either_keyword k | _ => false end) ts = false).
Proof.
  intros Ha Hv H. unfold consume_either in H.
  destruct ts as [|[g|k|p|l] r]; try discriminate.
  destruct (id_is "type" k) eqn:Et.
  - inv_bind H. destruct x as [o t1]. apply type_alias_sound in Hx.
    destruct Hx as (t & -> & T1 & T2 & -> & T3). bsplit. split; [|contradiction].
    intros ca Hca. exists (ca ++ print_opt print_vis (ta_vis t) ++ type_alias_tail t).
    app_norm. split; auto. split; [|simpl; auto]. exists ca. auto.
  - destruct (fn_like_keyword k) eqn:Ek.
    + apply fn_like_sound in H; auto. destruct H as [H1 H2]. split.
      * unfold either_ok. destruct i; auto. contradiction.
      * intro Hm. destruct i; contradiction.
    + destruct vis; [discriminate|]. inv_bind H. destruct x as [m t1]. destruct m as [m|]; [|discriminate]. bsplit.
      apply macro_sound in Hx. destruct Hx as (M1 & M2 & M3). split.
      * simpl. repeat split; auto. apply M3; auto. unfold macro_tokens in M2. injection M2 as <- M2.
        unfold fn_like_keyword in Ek. unfold id_in, member_keywords. simpl. bsplit. rwb. reflexivity.
      * intros _. simpl. unfold fn_like_keyword in Ek. unfold either_keyword. bsplit. rwb. reflexivity.
Qed.

Lemma item_body_sound ts i rest :
  consume_item_body R E ts = Ret (Ok i, rest) ->
  exists c, ts = c ++ rest /\ spells_item i c /\ shape_item i = true /\ follow_ok i rest = true.
Proof.
  unfold consume_item_body. intro H. inv_bind H. destruct x as [attrs t1].
  destruct (consume_vis_marker t1) as [vis t2] eqn:Ev.
  destruct (attrs_vis_sound _ _ _ _ _ Hx Ev) as (ca & -> & A1 & A2 & A3 & A4). clear Hx Ev t1.
  assert (Hm : forall k r, t2 = TIdent k :: r -> id_in item_keywords k = false ->
     wrap (fun i => i) (parse_item_macro attrs t2) = Ret (Ok i, rest) ->
     exists c, ca ++ print_opt print_vis vis ++ t2 = c ++ rest /\ spells_item i c /\ shape_item i = true /\ follow_ok i rest = true).
  { intros k r -> Hk Hw. unfold wrap, parse_item_macro in Hw. inv_bind Hw. destruct x as [j t3]. bsplit.
    inv_bind Hx. destruct x as [m t4]. destruct m as [m|]; [|discriminate]. bsplit.
    apply macro_sound in Hx0. destruct Hx0 as (M1 & M2 & M3).
    exists (ca ++ print_opt print_vis vis ++ macro_tokens m). app_norm. rewrite M2. split; auto.
    unfold macro_tokens in M2. injection M2 as -> M2. split; [|split; auto].
    - exists vis. split; auto. split; [destruct vis as [[[]]|]; auto|]. exists ca. rewrite M1. auto.
    - simpl. auto. }
  destruct t2 as [|[g|k|p|l] r]; try discriminate.
  destruct (id_is "struct" k) eqn:K1.
  { unfold wrap in H. inv_bind H. destruct x as [s t3]. bsplit.
    apply struct_sound in Hx. destruct Hx as (S1 & S2 & S3 & cf & -> & S4 & S5 & S6).
    exists (ca ++ print_opt print_vis vis ++ TIdent k :: struct_tail s cf). app_norm. split; auto.
    split; [|simpl; auto]. exists ca, cf. rewrite S1, S2, S3. auto. }
  destruct (id_is "enum" k) eqn:K2.
  { inv_bind H. destruct x as [[e|er] t3]; [|discriminate]. bsplit.
    apply enum_sound in Hx. destruct Hx as (S1 & S2 & S3 & cf & -> & S4 & S5).
    exists (ca ++ print_opt print_vis vis ++ TIdent k :: enum_tail e cf). app_norm. split; auto.
    split; [|simpl; auto]. exists ca, cf. rewrite S1, S2, S3. auto. }
  destruct (id_is "union" k) eqn:K3.
  { unfold wrap in H. inv_bind H. destruct x as [s t3]. bsplit.
    apply union_sound in Hx. destruct Hx as (S1 & S2 & S3 & cf & -> & S4 & S5).
    exists (ca ++ print_opt print_vis vis ++ TIdent k :: union_tail s cf). app_norm. split; auto.
    split; [|simpl; auto]. exists ca, cf. rewrite S1, S2, S3. auto. }
  destruct (id_is "mod" k) eqn:K4.
  { unfold wrap in H. inv_bind H. destruct x as [s t3]. bsplit.
    apply module_sound in Hx. destruct Hx as (S1 & S2 & cb & -> & S4 & S5).
    exists (ca ++ print_opt print_vis vis ++ module_tail s cb). app_norm. split; auto.
    split; [|simpl; auto]. exists ca, cb. rewrite S1, S2. auto. }
  destruct (id_is "trait" k) eqn:K5.
  { unfold wrap in H. inv_bind H. destruct x as [s t3]. bsplit.
    apply trait_sound in Hx. destruct Hx as (S1 & S2 & cb & -> & S4 & S5).
    exists (ca ++ print_opt print_vis vis ++ trait_tail s cb). app_norm. split; auto.
    split; [|simpl; auto]. exists ca, cb. rewrite S1, S2. auto. }
  destruct (id_is "impl" k) eqn:K6.
  { unfold wrap in H. inv_bind H. destruct x as [s t3]. bsplit.
    apply impl_sound in Hx. destruct Hx as (S1 & cb & -> & S4 & S5).
    exists (ca ++ print_opt print_vis vis ++ impl_tail s cb). app_norm. split; auto.
    split; [|simpl; auto]. exists ca, vis, cb. rewrite S1. auto. }
  destruct (id_is "static" k) eqn:K7.
  { unfold wrap in H. inv_bind H. destruct x as [s t3]. bsplit.
    apply constant_sound in Hx.
    2:{ simpl. intro Hc. known. discriminate. }
    destruct Hx as (S1 & S2 & -> & S3).
    exists (ca ++ print_opt print_vis vis ++ constant_tail s). app_norm. split; auto.
    split; [|simpl; auto]. exists ca. rewrite S1, S2. auto. }
  destruct (id_is "use" k) eqn:K8.
  { unfold wrap in H. inv_bind H. destruct x as [s t3]. bsplit.
    apply use_sound in Hx. destruct Hx as (S1 & S2 & -> & S3).
    exists (ca ++ print_opt print_vis vis ++ use_tail s). app_norm. split; auto.
    split; [|simpl; auto]. exists ca. rewrite S1, S2. auto. }
  destruct (either_keyword k) eqn:K9.
  { unfold wrap in H. inv_bind H. destruct x as [j t3]. bsplit.
    apply either_sound in Hx; auto. destruct Hx as [Hx1 Hx2].
    destruct i; try (apply Hx1; assumption). specialize (Hx2 I). simpl in Hx2. congruence. }
  apply (Hm k r); auto. unfold id_in, item_keywords, either_keyword in *. simpl. bsplit. rwb. reflexivity.
Qed.
End Sound.

Lemma nest_sound n :
  (forall ts i rest, fst (nest n) ts = Ret (Ok i, rest) ->
     exists c, ts = c ++ rest /\ spells_item i c /\ shape_item i = true /\ follow_ok i rest = true)
  /\ (forall attrs vis ts i rest, snd (nest n) attrs vis ts = Ret (i, rest) ->
        wf_outer attrs = true -> wf_opt wf_vis vis = true -> either_ok attrs vis ts i rest).
Proof.
  induction n as [|n [IH1 IH2]]; cbn [nest].
  - split; intros; discriminate.
  - destruct (nest n) as [R E]. simpl in *. split.
    + intros ts i rest H. eapply item_body_sound; eauto.
    + intros. eapply either_sound; eauto.
Qed.

(** What [consume_item] accepts is a spelling of the well-formed item that it returns. *)
Theorem consume_item_sound ts i rest :
  consume_item ts = Ret (Ok i, rest) ->
  exists c, ts = c ++ rest /\ spells_item i c /\ shape_item i = true /\ follow_ok i rest = true.
Proof. intro H. eapply (proj1 (nest_sound _)). exact H. Qed.

(** The parser implements the grammar: exactly the spellings of well-formed items, followed
    by tokens that do not continue the item, are read. *)
Theorem consume_item_iff ts i rest :
  consume_item ts = Ret (Ok i, rest) <->
  exists c, ts = c ++ rest /\ spells_item i c /\ shape_item i = true /\ follow_ok i rest = true.
Proof.
  split; [apply consume_item_sound|]. intros (c & -> & H1 & H2 & H3). apply consume_item_complete; auto.
Qed.

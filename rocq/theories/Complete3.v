(** Completeness of the item parsers: a well-formed item reads back from its printing. *)
From Verif Require Export Complete2.

Lemma spells_list_members {A} (sp : A -> list tok -> Prop) l : forall c,
  spells_list sp l c -> spells_members sp (fun _ _ => true) l c.
Proof.
  induction l as [|x l IH]; simpl; auto. intros c (c1 & c2 & -> & H1 & H2). eauto 10.
Qed.

Lemma many_loop_complete {A} (elem : parser A) sp fol l : forall c fuel,
  spells_members sp fol l c ->
  (forall x c r, In x l -> sp x c -> fol x r = true -> c <> [] /\ elem (c ++ r) = Ret (x, r)) ->
  List.length l < fuel -> many_loop elem fuel c = Ret l.
Proof.
  induction l as [|x l IH]; intros c fuel Hs H Hf; (destruct fuel; [simpl in Hf; lia|]).
  - simpl in Hs. subst. reflexivity.
  - destruct Hs as (c1 & c2 & -> & H1 & Hfo & H2).
    destruct (H x c1 c2 (or_introl eq_refl) H1 Hfo) as [Hne He]. cbn [many_loop].
    destruct (c1 ++ c2) as [|t ts] eqn:E.
    { apply app_eq_nil in E. destruct E. contradiction. }
    rewrite He. cbn [bind]. rewrite (IH c2); auto.
    + intros y c r Hl. apply H. simpl; auto.
    + simpl in Hf. lia.
Qed.

Lemma spells_members_length {A} (sp : A -> list tok -> Prop) fol l : forall c,
  spells_members sp fol l c -> (forall x c, In x l -> sp x c -> c <> []) ->
  List.length l <= List.length c.
Proof.
  induction l as [|x l IH]; intros c Hs H; simpl; [lia|].
  destruct Hs as (c1 & c2 & -> & H1 & Hfo & H2).
  assert (c1 <> []) by (apply (H x); simpl; auto). destruct c1; [congruence|].
  rewrite app_length. simpl. specialize (IH c2 H2 ltac:(intros; eapply H; simpl; eauto)). lia.
Qed.

Lemma many_loop_ok {A} (elem : parser A) sp fol l c :
  spells_members sp fol l c -> (forall x c, In x l -> sp x c -> c <> []) ->
  (forall x c r, In x l -> sp x c -> fol x r = true -> elem (c ++ r) = Ret (x, r)) ->
  many_loop elem (loop_fuel c) c = Ret l.
Proof.
  intros Hs Hne H. eapply many_loop_complete; eauto.
  unfold loop_fuel. pose proof (spells_members_length sp fol l c Hs Hne). lia.
Qed.

(** Outer attributes are not taken for inner ones. *)
Lemma outer_inner_follow attrs ca rest :
  wf_outer attrs = true -> spells_attributes attrs ca -> inner_follow rest = true ->
  inner_follow (ca ++ rest) = true.
Proof.
  destruct attrs as [|a l]; intros H Hs Hr.
  - simpl in Hs. subst. auto.
  - destruct Hs as (c1 & c2 & -> & (e & -> & _) & _). simpl in H. bsplit.
    unfold wf_attribute in H. bsplit. destruct (at_bang a) as [b|]; bsplit.
    simpl. known. unfold delim_eqb in *. destruct (at_brackets a) as [d sp]; simpl in *.
    destruct d; try discriminate. rewrite orb_true_r. reflexivity.
Qed.
Lemma vis_inner_follow vis rest :
  wf_opt wf_vis vis = true -> inner_follow rest = true ->
  inner_follow (print_opt print_vis vis ++ rest) = true.
Proof. destruct vis as [[[] t2]|]; simpl; auto; discriminate. Qed.

(** ** Dispatch *)
Lemma item_head R E attrs ca vis i r :
  wf_outer attrs = true -> spells_attributes attrs ca -> wf_opt wf_vis vis = true -> id_in vis_keywords i = false ->
  consume_item_body R E (ca ++ print_opt print_vis vis ++ TIdent i :: r)
  = let ts := TIdent i :: r in
    if id_is "struct" i then wrap IStruct (parse_struct attrs vis i r)
    else if id_is "enum" i then
      do (e, ts) <- parse_enum attrs vis i r ;;
      match e with Ok e => Ret (Ok (IEnum e), ts) | Err er => Ret (Err er, ts) end
    else if id_is "union" i then wrap IUnion (parse_union attrs vis i r)
    else if id_is "mod" i then wrap IModule (parse_mod R attrs vis ts)
    else if id_is "trait" i then wrap ITrait (parse_trait E attrs vis ts)
    else if id_is "impl" i then wrap IImpl (parse_impl E attrs ts)
    else if id_is "static" i then wrap IConstant (parse_const_or_static attrs vis ts)
    else if id_is "use" i then wrap IUse (parse_use_declaration attrs vis ts)
    else if either_keyword i then wrap (fun i => i) (consume_either R E attrs vis ts)
    else wrap (fun i => i) (parse_item_macro attrs ts).
Proof.
  intros Ha Hca Hv Hi. unfold consume_item_body.
  rewrite (attrs_vis_complete attrs); auto using prefix_ok_ident. cbn [bind].
  rewrite vis_complete; auto using prefix_ok_ident.
Qed.

(** An item that starts with one of the function keywords goes through [consume_either]. *)
Lemma item_head_either R E attrs ca vis i r :
  wf_outer attrs = true -> spells_attributes attrs ca -> wf_opt wf_vis vis = true ->
  id_in ["default"; "const"; "async"; "unsafe"; "extern"; "fn"; "type"]%string i = true ->
  consume_item_body R E (ca ++ print_opt print_vis vis ++ TIdent i :: r)
  = wrap (fun i => i) (consume_either R E attrs vis (TIdent i :: r)).
Proof.
  intros Ha Hca Hv Hi.
  assert (id_in vis_keywords i = false).
  { unfold id_in in Hi. simpl in Hi. repeat bcase; known; try reflexivity. discriminate. }
  rewrite (item_head R E attrs) by auto. unfold id_in in Hi. simpl in Hi.
  repeat bcase; known; try reflexivity. discriminate.
Qed.

(** ** [consume_either] on each kind *)
Lemma either_function R E f cp rest :
  wf_function f = true -> spells_params f cp ->
  consume_either R E (fn_attributes f) (fn_vis f) (function_tail f cp ++ rest) = Ret (IFunction f, rest).
Proof.
  intros H Hp. pose proof (function_complete f cp rest H Hp) as Hc.
  destruct (function_head f cp rest H) as (i & r & He & Hi). rewrite He in *.
  unfold consume_either.
  assert (Hk : id_is "type" i = false /\ fn_like_keyword i = true).
  { unfold id_in in Hi. simpl in Hi. repeat bcase; known; try (split; reflexivity). discriminate. }
  destruct Hk as [-> ->]. rewrite Hc. reflexivity.
Qed.

Lemma either_constant R E c rest :
  shape_constant c = true ->
  consume_either R E (co_attributes c) (co_vis c) (constant_tail c ++ rest) = Ret (IConstant c, rest).
Proof.
  intros H. pose proof (constant_complete c rest H) as Hc.
  destruct (constant_not_fn c rest H) as (nf & He & Hnf).
  unfold consume_either. unfold constant_tail in *. cbn [app] in *.
  assert (Hk : id_is "type" (co_kw c) = false /\ fn_like_keyword (co_kw c) = true).
  { unfold shape_constant in H. bsplit. destruct c; simpl in *. bcase; bsplit; known; split; reflexivity. }
  destruct Hk as [-> ->]. rewrite He. cbn [bind]. destruct Hnf; subst; rewrite Hc; reflexivity.
Qed.

Lemma either_type_alias R E t rest :
  wf_type_alias t = true ->
  consume_either R E (ta_attributes t) (ta_vis t) (type_alias_tail t ++ rest) = Ret (ITypeAlias t, rest).
Proof.
  intros H. pose proof (type_alias_complete t rest H) as Hc.
  unfold consume_either. unfold type_alias_tail in *. cbn [app] in *.
  unfold wf_type_alias in H. bsplit. rwb. rewrite Hc. reflexivity.
Qed.

Lemma either_macro R E m rest :
  shape_macro member_keywords m = true ->
  consume_either R E (ma_attributes m) None (macro_tokens m ++ rest) = Ret (IMacro m, rest).
Proof.
  intros H. pose proof (macro_complete _ m rest H) as Hc.
  unfold consume_either. unfold macro_tokens in *. cbn [app] in *.
  unfold shape_macro in H. bsplit. unfold id_in in *. simpl in *. bsplit.
  unfold fn_like_keyword. rwb. simpl. rewrite Hc. reflexivity.
Qed.

(** ** Members *)
Ltac app_ne H := repeat (apply app_eq_nil in H; destruct H as [_ H]); discriminate.

Lemma function_ne f c : spells_function f c -> c <> [].
Proof. intros (ca & cp & _ & _ & ->) H. app_ne H. Qed.
Lemma impl_member_ne m c : spells_impl_member m c -> c <> [].
Proof.
  destruct m; simpl.
  - apply function_ne.
  - intros (ca & _ & ->) H; app_ne H.
  - intros (ca & _ & ->) H; app_ne H.
  - intros (ca & _ & ->) H. app_ne H.
Qed.

Lemma impl_member_complete R E allow m c rest :
  shape_impl_member allow m = true -> spells_impl_member m c ->
  parse_impl_member (consume_either R E) allow (c ++ rest) = Ret (m, rest).
Proof.
  intros H Hs. unfold parse_impl_member. destruct m as [f|k|t|m]; simpl in H, Hs.
  - destruct Hs as (ca & cp & Hca & Hcp & ->).
    match goal with |- context [ca ++ print_opt print_vis (fn_vis f) ++ ?x] =>
      change x with (function_tail f cp) end.
    app_norm. pose proof (either_function R E f cp rest H Hcp) as He.
    destruct (function_head f cp rest H) as (i & r & Hh & Hi). rewrite Hh in *.
    assert (id_in vis_keywords i = false).
    { unfold id_in in Hi. simpl in Hi. repeat bcase; known; try reflexivity. discriminate. }
    unfold wf_function in H. bsplit.
    rewrite (attrs_vis_complete (fn_attributes f)); auto using prefix_ok_ident. cbn [bind].
    rewrite vis_complete; auto using prefix_ok_ident. rewrite He. reflexivity.
  - destruct Hs as (ca & Hca & ->).
    match goal with |- context [ca ++ print_opt print_vis (co_vis k) ++ ?x] =>
      change x with (constant_tail k) end.
    bsplit. app_norm. pose proof (either_constant R E k rest H) as He.
    unfold constant_tail in *. cbn [app] in *.
    assert (Hv : id_in vis_keywords (co_kw k) = false).
    { unfold shape_constant in H. bsplit. clear H0. bcase; bsplit; destruct k; simpl in *; known; reflexivity. }
    unfold shape_constant in H. bsplit.
    rewrite (attrs_vis_complete (co_attributes k)); auto using prefix_ok_ident. cbn [bind].
    rewrite vis_complete; auto using prefix_ok_ident. rewrite He. cbn [bind impl_member_of_item].
    destruct allow; simpl in *; [destruct (id_is "const" (co_kw k))|]; rwb; reflexivity.
  - destruct Hs as (ca & Hca & ->).
    match goal with |- context [ca ++ print_opt print_vis (ta_vis t) ++ ?x] =>
      change x with (type_alias_tail t) end.
    app_norm. pose proof (either_type_alias R E t rest H) as He.
    unfold type_alias_tail in *. cbn [app] in *.
    assert (Hv : id_in vis_keywords (ta_type t) = false).
    { unfold wf_type_alias in H. bsplit. destruct t; simpl in *; known; reflexivity. }
    unfold wf_type_alias in H. bsplit.
    rewrite (attrs_vis_complete (ta_attributes t)); auto using prefix_ok_ident. cbn [bind].
    rewrite vis_complete; auto using prefix_ok_ident. rewrite He. reflexivity.
  - destruct Hs as (ca & Hca & ->).
    bsplit. app_norm. pose proof (either_macro R E m rest H) as He.
    unfold macro_tokens in *. cbn [app] in *.
    unfold stable_macro in *. bsplit.
    assert (Ha : wf_outer (ma_attributes m) = true) by (unfold shape_macro in H; bsplit; auto).
    rewrite (attrs_vis_complete (ma_attributes m)); auto using prefix_ok_ident. cbn [bind].
    rewrite vis_complete; auto using prefix_ok_ident. rewrite He. reflexivity.
Qed.

(** Printed members may follow inner attributes. *)
Lemma impl_member_inner_follow allow m c rest :
  shape_impl_member allow m = true -> spells_impl_member m c -> inner_follow (c ++ rest) = true.
Proof.
  destruct m as [f|k|t|m]; simpl; intros H Hs.
  - destruct Hs as (ca & cp & Hca & Hcp & ->).
    match goal with |- context [ca ++ print_opt print_vis (fn_vis f) ++ ?x] =>
      change x with (function_tail f cp) end.
    app_norm. destruct (function_head f cp rest H) as (i & r & -> & Hi).
    unfold wf_function in H. bsplit. eauto using outer_inner_follow, vis_inner_follow.
  - destruct Hs as (ca & Hca & ->). bsplit. unfold shape_constant in H. bsplit. app_norm.
    eapply outer_inner_follow; eauto. apply vis_inner_follow; auto.
  - destruct Hs as (ca & Hca & ->). unfold wf_type_alias in H. bsplit. app_norm.
    eapply outer_inner_follow; eauto. apply vis_inner_follow; auto.
  - destruct Hs as (ca & Hca & ->). bsplit. unfold shape_macro in H. bsplit. app_norm.
    eapply outer_inner_follow; eauto.
Qed.

Lemma impl_body_complete R E allow attrs items d sp s :
  wf_inner_attrs attrs = true -> forallb (shape_impl_member allow) items = true ->
  spells_body spells_impl_member attrs items s ->
  parse_impl_body (consume_either R E) (mkGroup d s sp) allow
  = Ret (mkGroupSpan d sp, attrs, items).
Proof.
  intros Ha Hi (ci & cm & Hci & Hcm & ->). unfold parse_impl_body. cbn [g_stream].
  rewrite forallb_forall in Hi.
  rewrite (inner_attributes_complete attrs); auto.
  2:{ destruct items as [|m l]; [simpl in Hcm; subst; reflexivity|].
      destruct Hcm as (c1 & c2 & -> & H1 & _).
      eapply impl_member_inner_follow with (allow := allow); eauto. apply Hi. simpl; auto. }
  cbn [bind]. apply spells_list_members in Hcm.
  rewrite (many_loop_ok _ _ _ _ _ Hcm); auto.
  - intros. eapply impl_member_ne; eauto.
  - intros. apply impl_member_complete; auto.
Qed.

(** ** Impl, trait, extern block *)
Definition impl_tail (i : impl_) (cb : list tok) : list tok :=
  print_opt print_ident (im_unsafe i) ++ TIdent (im_impl i)
  :: print_opt print_generic_params (im_generics i) ++ print_opt print_type (im_trait i)
  ++ print_opt print_ident (im_for i) ++ te_tokens (im_self i)
  ++ print_opt print_where (im_where i) ++ cb.

Lemma where_no ts : head_is (is_ident "where") ts = false -> consume_where_clause ts = Ret (None, ts).
Proof. intro H. unfold consume_where_clause. rewrite consume_ident_no; auto. Qed.

Lemma where_brace_complete wh s sp rest :
  wf_opt wf_where wh = true ->
  consume_where_clause (print_opt print_where wh ++ TGroup (mkGroup Brace s sp) :: rest)
  = Ret (wh, TGroup (mkGroup Brace s sp) :: rest).
Proof. intro H. apply where_complete; auto. destruct wh; reflexivity. Qed.

(** A where clause or a brace group ends a run that stops at both. *)
Lemma where_brace_term P wh s sp rest :
  (forall t, is_group Brace t || is_ident "where" t = true -> P t = true) ->
  wf_opt wf_where wh = true ->
  head_is (term P) (print_opt print_where wh ++ TGroup (mkGroup Brace s sp) :: rest) = true.
Proof.
  intros HP H. destruct wh as [[kw ps]|]; simpl in *; unfold term.
  - unfold wf_where in H. bsplit. simpl in *. known.
    rewrite HP by reflexivity. reflexivity.
  - rewrite HP by reflexivity. reflexivity.
Qed.

Lemma impl_complete R E i cb rest :
  shape_impl i = true ->
  spells_group (im_braces i) (spells_body spells_impl_member (im_inner_attributes i) (im_items i)) cb ->
  parse_impl (consume_either R E) (im_attributes i) (impl_tail i cb ++ rest) = Ret (i, rest).
Proof.
  destruct i as [attrs uns kw gen tr fr [se] wh [d sp] inner items].
  unfold shape_impl, impl_tail.
  cbn [im_attributes im_unsafe im_impl im_generics im_trait im_for im_self im_where im_braces
       im_inner_attributes im_items te_tokens print_type gs_delim gs_span].
  intros H (s & Hs & ->). bsplit. app_norm. unfold parse_impl.
  rewrite consume_ident_opt; auto. 2:{ intros _. known. reflexivity. }
  cbn [parse_ident]. rwb. cbn [bind].
  unfold quote_with. cbn [gs_delim gs_span app]. known.
  rewrite generics_complete; auto.
  2:{ intros ->. destruct tr as [[ty]|], fr as [f|]; try discriminate; bsplit; simpl in *; bsplit.
      - destruct ty; simpl in *; known; auto.
      - destruct se; simpl in *; auto. destruct wh as [[k p]|]; auto. }
  cbn [bind].
  destruct tr as [[ty]|], fr as [f|]; try discriminate; cbn [print_opt print_type te_tokens]; bsplit.
  - rewrite (until_term end_impl_ty true ty); auto.
    2:{ simpl. known. reflexivity. }
    cbn [bind print_ident app]. rewrite consume_ident_yes by auto.
    rewrite (until_term end_impl_self_ty true se); auto.
    2:{ apply where_brace_term; auto. }
    cbn [bind]. rewrite where_brace_complete by auto. cbn [bind parse_body_group g_delim delim_eqb].
    rewrite (impl_body_complete R E false inner items) by auto. reflexivity.
  - rewrite ?app_nil_l'. rewrite (until_term end_impl_ty true se); auto.
    2:{ apply where_brace_term; auto. intros t Ht. unfold end_impl_ty. bcase; rwb; rewrite ?orb_true_r; reflexivity. }
    cbn [bind]. rewrite consume_ident_no.
    2:{ destruct wh as [[k p]|]; auto. simpl in *. unfold wf_where in *. simpl in *. bsplit. known. reflexivity. }
    cbn [bind]. rewrite where_brace_complete by auto. cbn [bind parse_body_group g_delim delim_eqb].
    rewrite (impl_body_complete R E false inner items) by auto. reflexivity.
Qed.

Lemma impl_of_trait_id m : trait_member_of_impl (impl_of_trait_member m) = m.
Proof. destruct m; reflexivity. Qed.
Lemma spells_trait_members l : forall c,
  spells_list spells_trait_member l c -> spells_list spells_impl_member (map impl_of_trait_member l) c.
Proof. induction l; simpl; auto. intros c (c1 & c2 & -> & H1 & H2). eauto 10. Qed.
Lemma forallb_map {A B} (f : A -> B) (p : B -> bool) l : forallb p (map f l) = forallb (fun x => p (f x)) l.
Proof. induction l; simpl; auto. rewrite IHl. reflexivity. Qed.

Definition trait_tail (t : trait_) (cb : list tok) : list tok :=
  print_opt print_ident (tr_unsafe t) ++ TIdent (tr_trait t) :: TIdent (tr_name t)
  :: print_opt print_generic_params (tr_generics t) ++ print_opt print_bound (tr_bound t)
  ++ print_opt print_where (tr_where t) ++ cb.

Lemma trait_complete R E t cb rest :
  shape_trait t = true ->
  spells_group (tr_braces t) (spells_body spells_trait_member (tr_inner_attributes t) (tr_items t)) cb ->
  parse_trait (consume_either R E) (tr_attributes t) (tr_vis t) (trait_tail t cb ++ rest) = Ret (t, rest).
Proof.
  destruct t as [attrs vis uns kw name gen bound wh [d sp] inner items].
  unfold shape_trait, trait_tail.
  cbn [tr_attributes tr_vis tr_unsafe tr_trait tr_name tr_generics tr_bound tr_where tr_braces
       tr_inner_attributes tr_items gs_delim gs_span].
  intros H (s & (ci & cm & Hci & Hcm & ->) & ->). bsplit. app_norm. unfold parse_trait.
  rewrite consume_ident_opt; auto. 2:{ intros _. known. reflexivity. }
  cbn [parse_ident]. rwb. cbn [bind parse_any_ident].
  unfold quote_with. cbn [gs_delim gs_span app]. known.
  rewrite generics_complete; auto.
  2:{ intros ->. destruct bound as [[c b]|], wh as [[k p]|]; simpl in *; unfold wf_bound in *; simpl in *; bsplit; known; auto. }
  cbn [bind].
  assert (Ht : forall s, head_is (term end_trait_bound) (print_opt print_where wh ++ TGroup (mkGroup Brace s sp) :: rest) = true).
  { intro s. apply where_brace_term; auto. intros t Ht. unfold end_trait_bound. bcase; rwb; rewrite ?orb_true_r; reflexivity. }
  assert (Hb : forall s, consume_bound end_trait_bound (print_opt print_bound bound ++ print_opt print_where wh ++ TGroup (mkGroup Brace s sp) :: rest)
     = Ret (bound, print_opt print_where wh ++ TGroup (mkGroup Brace s sp) :: rest)).
  { intro s. destruct bound as [b|].
    - apply bound_some_complete; auto.
    - destruct wh as [[k p]|]; simpl in *; auto. unfold wf_where in *. simpl in *. bsplit. known. reflexivity. }
  rewrite Hb. cbn [bind]. rewrite where_brace_complete by auto. cbn [bind parse_body_group g_delim delim_eqb].
  apply spells_trait_members in Hcm.
  rewrite (impl_body_complete R E false inner (map impl_of_trait_member items)); auto.
  - cbn [bind]. rewrite map_map. rewrite (map_ext _ (fun x => x)) by apply impl_of_trait_id.
    rewrite map_id. reflexivity.
  - rewrite forallb_map. auto.
  - exists ci, cm. auto.
Qed.

Definition extern_block_tail (b : extern_block) (cb : list tok) : list tok :=
  print_opt print_ident (eb_unsafe b) ++ TIdent (eb_extern b)
  :: print_opt print_lit (eb_abi b) ++ cb.

Lemma extern_block_complete R E b cb rest :
  shape_extern_block b = true ->
  spells_group (eb_braces b) (spells_body spells_impl_member (eb_inner_attributes b) (eb_items b)) cb ->
  parse_extern_block (consume_either R E) (eb_attributes b) (eb_vis b) (extern_block_tail b cb ++ rest) = Ret (b, rest)
  /\ consume_fn (eb_attributes b) (eb_vis b) (extern_block_tail b cb ++ rest)
     = Ret (Err NFExternBlock, extern_block_tail b cb ++ rest).
Proof.
  destruct b as [attrs vis uns kw abi [d sp] inner items].
  unfold shape_extern_block, extern_block_tail.
  cbn [eb_attributes eb_vis eb_unsafe eb_extern eb_abi eb_braces
       eb_inner_attributes eb_items gs_delim gs_span].
  intros H (s & Hs & ->). bsplit. app_norm. unfold quote_with. cbn [gs_delim gs_span app]. known. split.
  - unfold parse_extern_block, consume_extern_block.
    rewrite consume_ident_opt; auto. 
    rewrite consume_ident_yes by reflexivity.
    destruct abi; cbn [print_opt print_lit app consume_literal g_delim delim_eqb];
      rewrite (impl_body_complete R E true inner items) by auto; reflexivity.
  - unfold consume_fn.
    destruct uns, abi; simpl in *; known; reflexivity.
Qed.

(** ** Structs, enums, unions *)
Definition struct_tail (s : struct_) (cf : list tok) : list tok :=
  TIdent (st_name s) :: print_opt print_generic_params (st_generics s)
  ++ match st_fields s with
     | FNamed _ => print_opt print_where (st_where s) ++ cf ++ print_opt print_punct (st_semicolon s)
     | _ => cf ++ print_opt print_where (st_where s) ++ print_opt print_punct (st_semicolon s)
     end.

Lemma struct_complete s cf rest :
  shape_struct s = true -> spells_fields (st_fields s) cf -> struct_follow s rest = true ->
  parse_struct (st_attributes s) (st_vis s) (st_struct s) (struct_tail s cf ++ rest) = Ret (s, rest).
Proof.
  destruct s as [attrs vis kw name gen wh fs semi]. unfold shape_struct, struct_follow, struct_tail.
  cbn [st_attributes st_vis st_struct st_name st_generics st_where st_fields st_semicolon].
  intros H Hs Hf. bsplit. unfold parse_struct. app_norm. cbn [app consume_item_name parse_any_ident bind].
  match goal with H : wf_fields fs = true |- _ => rename H into Hfs end.
  destruct fs as [|f|f]; simpl in Hs.
  - (* unit *) subst cf. destruct semi as [p|]; [|discriminate]. simpl in *. app_norm. cbn [app].
    rewrite generics_complete; auto.
    2:{ intros _. destruct wh as [[k q]|]; auto. simpl. known. reflexivity. }
    cbn [bind]. rewrite where_complete; auto.
    2:{ destruct wh; simpl; unfold where_follow; simpl; auto. }
    cbn [bind print_punct app]. rwb. cbn [bind]. unfold consume_punct. rwb. reflexivity.
  - (* tuple *) destruct Hs as (s & Hs & ->).
    pose proof (tuple_fields_complete f (gs_span (tfs_parens f)) s Hfs eq_refl Hs) as Ef.
    simpl in Hfs; unfold wf_tuple_fields in Hfs. unfold quote_with. bsplit.
    destruct f as [fl [d sp]]. simpl in *. known. app_norm. cbn [app].
    rewrite generics_complete; auto. cbn [bind].
    rewrite where_no by reflexivity. cbn [bind g_delim delim_eqb]. rewrite Ef. cbn [bind].
    rewrite where_complete; auto.
    2:{ destruct wh, semi; simpl in *; unfold where_follow; simpl; bsplit; auto; rewrite ?Hf; auto. }
    cbn [bind]. rewrite consume_punct_opt; auto.
    intros ->. destruct wh; bsplit; auto. destruct rest as [|[g|i|p|l] r]; simpl in *; auto. discriminate.
  - (* named *) destruct Hs as (s & Hs & ->).
    pose proof (named_fields_complete f (gs_span (nfs_braces f)) s Hfs eq_refl Hs) as Ef.
    simpl in Hfs; unfold wf_named_fields in Hfs. unfold quote_with. bsplit.
    destruct f as [fl [d sp]]. simpl in *. known. app_norm. cbn [app].
    rewrite generics_complete; auto.
    2:{ intros _. destruct wh; reflexivity. }
    cbn [bind]. rewrite where_brace_complete by auto. cbn [bind g_delim delim_eqb]. rewrite Ef. cbn [bind].
    rewrite consume_punct_opt; auto. intros ->. simpl in Hf. bsplit. auto.
Qed.

Definition enum_tail (e : enum_) (cv : list tok) : list tok :=
  TIdent (en_name e)
  :: print_opt print_generic_params (en_generics e) ++ print_opt print_where (en_where e) ++ cv.
Lemma enum_complete e cv rest :
  wf_enum e = true ->
  spells_group (en_braces e) (spells_punctuated spells_variant gap_variant (en_variants e)) cv ->
  parse_enum (en_attributes e) (en_vis e) (en_enum e) (enum_tail e cv ++ rest) = Ret (Ok e, rest).
Proof.
  destruct e as [attrs vis kw name gen wh [d sp] vs]. unfold wf_enum, enum_tail.
  cbn [en_attributes en_vis en_enum en_name en_generics en_where en_braces en_variants gs_delim gs_span].
  intros H (s & Hs & ->). bsplit. unfold parse_enum, quote_with. app_norm. cbn [app consume_item_name parse_any_ident bind gs_delim gs_span].
  known. rewrite generics_complete; auto.
  2:{ intros _. destruct wh; reflexivity. }
  cbn [bind]. rewrite where_brace_complete by auto. cbn [bind g_delim delim_eqb g_stream].
  rewrite (variants_complete vs) by auto. reflexivity.
Qed.

Definition union_tail (u : union_) (cf : list tok) : list tok :=
  TIdent (un_name u)
  :: print_opt print_generic_params (un_generics u) ++ print_opt print_where (un_where u) ++ cf.
Lemma union_complete u cf rest :
  wf_union u = true -> spells_named_fields (un_fields u) cf ->
  parse_union (un_attributes u) (un_vis u) (un_union u) (union_tail u cf ++ rest) = Ret (u, rest).
Proof.
  destruct u as [attrs vis kw name gen wh f]. unfold wf_union, union_tail.
  cbn [un_attributes un_vis un_union un_name un_generics un_where un_fields].
  intros H (s & Hs & ->). bsplit. pose proof (named_fields_complete f (gs_span (nfs_braces f)) s H0 eq_refl Hs) as Ef.
  unfold wf_named_fields in H0. bsplit. destruct f as [fl [d sp]]. simpl in H0, Ef. known.
  unfold parse_union, quote_with. app_norm. cbn [app consume_item_name parse_any_ident bind gs_delim gs_span nfs_braces nfs_fields].
  rewrite generics_complete; auto.
  2:{ intros _. destruct wh; reflexivity. }
  cbn [bind]. rewrite where_brace_complete by auto. cbn [bind g_delim delim_eqb].
  rewrite Ef. reflexivity.
Qed.

(** ** Modules *)
Definition spells_module_body (m : module_ item) (cb : list tok) : Prop :=
  match mo_semicolon m, mo_braces m with
  | Some p, _ => cb = [TPunct p]
  | None, Some gs =>
      spells_group gs (fun s => exists ci cm, spells_attributes (mo_inner_attributes m) ci
                                /\ spells_members spells_item follow_ok (mo_members m) cm /\ s = ci ++ cm) cb
  | None, None => cb = []
  end.
Definition module_tail (m : module_ item) (cb : list tok) : list tok :=
  print_opt print_ident (mo_unsafe m) ++ TIdent (mo_mod m) :: TIdent (mo_name m) :: cb.

Lemma item_ne i c : spells_item i c -> c <> [].
Proof.
  destruct i; simpl; intros Hs H; unfold spells_struct, spells_enum, spells_union, spells_module, spells_trait,
    spells_impl, spells_type_alias, spells_constant, spells_use, spells_macro, spells_extern_block,
    spells_extern_crate in Hs; try (bsplit; subst; app_ne H).
  apply function_ne in Hs. auto.
Qed.

Lemma item_inner_follow i c rest :
  shape_item i = true -> spells_item i c -> inner_follow (c ++ rest) = true.
Proof.
  destruct i; simpl; intros H Hs.
  - destruct Hs as (ca & cf & Hca & Hcf & ->). unfold shape_struct in H. bsplit. app_norm.
    eapply outer_inner_follow; eauto. apply vis_inner_follow; auto.
  - destruct Hs as (ca & cf & Hca & Hcf & ->). unfold wf_enum in H. bsplit. app_norm.
    eapply outer_inner_follow; eauto. apply vis_inner_follow; auto.
  - destruct Hs as (ca & cf & Hca & Hcf & ->). unfold wf_union in H. bsplit. app_norm.
    eapply outer_inner_follow; eauto. apply vis_inner_follow; auto.
  - destruct Hs as (ca & cf & Hca & Hcf & ->). unfold shape_module in H. bsplit. app_norm.
    eapply outer_inner_follow; eauto. apply vis_inner_follow; auto. destruct (mo_unsafe m); reflexivity.
  - destruct Hs as (ca & cf & Hca & Hcf & ->). unfold shape_trait in H. bsplit. app_norm.
    eapply outer_inner_follow; eauto. apply vis_inner_follow; auto. destruct (tr_unsafe t); reflexivity.
  - destruct Hs as (ca & vis & cf & Hca & Hv & Hcf & ->). unfold shape_impl in H. bsplit. app_norm.
    eapply outer_inner_follow; eauto. apply vis_inner_follow; auto. destruct (im_unsafe i); reflexivity.
  - apply (impl_member_inner_follow true (IMType t)); auto.
  - apply (impl_member_inner_follow true (IMFunction f)); auto.
  - apply (impl_member_inner_follow true (IMConstant c0)); auto. simpl. rewrite H. reflexivity.
  - destruct Hs as (ca & Hca & ->). unfold wf_use in H. bsplit. app_norm.
    eapply outer_inner_follow; eauto. apply vis_inner_follow; auto.
  - destruct Hs as (vis & Hv & _ & ca & Hca & ->). unfold shape_macro in H. bsplit. app_norm.
    eapply outer_inner_follow; eauto. apply vis_inner_follow; auto.
  - destruct Hs as (ca & cf & Hca & Hcf & ->). unfold shape_extern_block in H. bsplit. app_norm.
    eapply outer_inner_follow; eauto. apply vis_inner_follow; auto. destruct (eb_unsafe b); reflexivity.
  - destruct Hs as (ca & Hca & ->). unfold wf_extern_crate in H. bsplit. app_norm.
    eapply outer_inner_follow; eauto. apply vis_inner_follow; auto.
Qed.

Lemma module_complete R m cb rest :
  shape_module shape_item m = true -> spells_module_body m cb ->
  (forall i c rest, In i (mo_members m) -> toks_depth c < toks_depth cb -> shape_item i = true ->
     spells_item i c -> follow_ok i rest = true -> R (c ++ rest) = Ret (Ok i, rest)) ->
  parse_mod R (mo_attributes m) (mo_vis m) (module_tail m cb ++ rest) = Ret (m, rest).
Proof.
  destruct m as [attrs vis uns kw name semi br inner members].
  unfold shape_module, module_tail, spells_module_body.
  cbn [mo_attributes mo_vis mo_unsafe mo_mod mo_name mo_semicolon mo_braces mo_inner_attributes mo_members].
  intros H Hs HR. bsplit. app_norm. unfold parse_mod.
  rewrite consume_ident_opt; auto. 2:{ intros _. known. reflexivity. }
  cbn [parse_ident]. rwb. cbn [bind consume_item_name parse_any_ident].
  destruct semi as [p|], br as [[d sp]|]; try discriminate; bsplit.
  - subst cb. cbn [app]. rwb. destruct inner, members; try discriminate. reflexivity.
  - destruct Hs as (s & (ci & cm & Hci & Hcm & ->) & ->).
    unfold quote_with. cbn [app gs_delim gs_span] in *. known. cbn [g_delim delim_eqb g_stream].
    match goal with H : forallb shape_item _ = true |- _ => rename H into Hsm end.
    rewrite forallb_forall in Hsm.
    rewrite (inner_attributes_complete inner); auto.
    2:{ destruct members as [|i l]; [simpl in Hcm; subst; reflexivity|].
        destruct Hcm as (c1 & c2 & -> & H4 & _).
        eapply item_inner_follow; eauto. apply Hsm. simpl; auto. }
    cbn [bind].
    assert (Hcm' : spells_members (fun i c => spells_item i c /\ toks_depth c <= toks_depth cm) follow_ok members cm).
    { assert (G : forall l c n, spells_members spells_item follow_ok l c -> toks_depth c <= n ->
        spells_members (fun i c => spells_item i c /\ toks_depth c <= n) follow_ok l c).
      { induction l as [|y l IH]; simpl; auto. intros c n (c1 & c2 & -> & G1 & G2 & G3) Hn.
        rewrite toks_depth_app in Hn. exists c1, c2. repeat split; auto; try lia. apply IH; auto; lia. }
      apply G; auto. }
    rewrite (many_loop_ok _ _ _ _ _ Hcm'); auto.
    + intros y c _ [Hx _]. eapply item_ne; eauto.
    + intros y c r Hx [Hsp Hd] Hfo. unfold parse_mod_member. rewrite (HR y c r); auto.
      cbn [quote_with toks_depth]. unfold quote_with. simpl toks_depth. rewrite tok_depth_group, toks_depth_app. lia.
Qed.

(** ** Items *)
Lemma module_not_fn m cb rest u :
  shape_module shape_item m = true -> mo_unsafe m = Some u ->
  consume_fn (mo_attributes m) (mo_vis m) (module_tail m cb ++ rest) = Ret (Err NFMod, module_tail m cb ++ rest).
Proof.
  intros H Hu. unfold shape_module in H. bsplit. unfold module_tail. rewrite Hu in *. simpl in H2.
  destruct m; simpl in *. known. reflexivity.
Qed.
Lemma trait_not_fn t cb rest u :
  shape_trait t = true -> tr_unsafe t = Some u ->
  consume_fn (tr_attributes t) (tr_vis t) (trait_tail t cb ++ rest) = Ret (Err NFTrait, trait_tail t cb ++ rest).
Proof.
  intros H Hu. unfold shape_trait in H. bsplit. unfold trait_tail. rewrite Hu in *.
  destruct t; simpl in *. known. reflexivity.
Qed.
Lemma impl_not_fn i cb rest u vis :
  shape_impl i = true -> im_unsafe i = Some u ->
  consume_fn (im_attributes i) vis (impl_tail i cb ++ rest) = Ret (Err NFImpl, impl_tail i cb ++ rest).
Proof.
  intros H Hu. unfold shape_impl in H. bsplit. unfold impl_tail. rewrite Hu in *.
  destruct i; simpl in *. known. reflexivity.
Qed.

Lemma quote_depth gs s c : spells_group gs s c -> toks_depth c > 0.
Proof. intros (x & _ & ->). unfold quote_with. simpl. lia. Qed.

(** The items and the blocks of members inside an item. *)
Definition inner_items (i : item) : list item := match i with IModule m => mo_members m | _ => [] end.
Definition has_members (i : item) : bool := match i with ITrait _ | IImpl _ | IExternBlock _ => true | _ => false end.
Theorem item_body_complete R E i c rest :
  (forall j d rest, In j (inner_items i) -> toks_depth d < toks_depth c -> shape_item j = true -> spells_item j d ->
     follow_ok j rest = true -> R (d ++ rest) = Ret (Ok j, rest)) ->
  (toks_depth c > 0 -> has_members i = true -> exists R' E', E = consume_either R' E') ->
  shape_item i = true -> spells_item i c -> follow_ok i rest = true ->
  consume_item_body R E (c ++ rest) = Ret (Ok i, rest).
Proof.
  intros HR HE Hsh Hsp Hf.
  destruct i as [s|e|u|m|t|im|t|f|k|u|m|b|k]; simpl in Hsp.
  - destruct Hsp as (ca & cf & Hca & Hcf & ->). pose proof (struct_complete s cf rest Hsh Hcf Hf) as Hc.
    match goal with |- context [TIdent (st_struct s) :: ?x] => change x with (struct_tail s cf) end.
    simpl in Hsh. unfold shape_struct in Hsh. bsplit. app_norm.
    rewrite (item_head R E (st_attributes s)); auto. 2:{ destruct s; simpl in *; known; reflexivity. }
    rwb. rewrite Hc. reflexivity.
  - destruct Hsp as (ca & cf & Hca & Hcf & ->). pose proof (enum_complete e cf rest Hsh Hcf) as Hc.
    match goal with |- context [TIdent (en_enum e) :: ?x] => change x with (enum_tail e cf) end.
    simpl in Hsh. unfold wf_enum in Hsh. bsplit. app_norm.
    rewrite (item_head R E (en_attributes e)); auto. 2:{ destruct e; simpl in *; known; reflexivity. }
    rewrite Hc. destruct e; simpl in *; known; reflexivity.
  - destruct Hsp as (ca & cf & Hca & Hcf & ->). pose proof (union_complete u cf rest Hsh Hcf) as Hc.
    match goal with |- context [TIdent (un_union u) :: ?x] => change x with (union_tail u cf) end.
    simpl in Hsh. unfold wf_union in Hsh. bsplit. app_norm.
    rewrite (item_head R E (un_attributes u)); auto. 2:{ destruct u; simpl in *; known; reflexivity. }
    rewrite Hc. destruct u; simpl in *; known; reflexivity.
  - (* module *)
    destruct Hsp as (ca & cb & Hca & Hcb & ->).
    assert (Hc : parse_mod R (mo_attributes m) (mo_vis m) (module_tail m cb ++ rest) = Ret (m, rest)).
    { apply module_complete; auto. intros i c r Hi Hd Hsi Hti Hfi. apply HR; auto.
      rewrite !toks_depth_app. simpl toks_depth. lia. }
    match goal with |- context [ca ++ print_opt print_vis (mo_vis m) ++ ?x] => change x with (module_tail m cb) end.
    app_norm. pose proof (module_not_fn m cb rest) as Hnf. simpl in Hsh. specialize (fun u => Hnf u Hsh).
    unfold shape_module in Hsh. bsplit. unfold module_tail in *.
    destruct (mo_unsafe m) as [un|] eqn:Eu.
    + specialize (Hnf un eq_refl). simpl in Hnf, Hc |- *. simpl in *. rewrite (item_head_either R E (mo_attributes m)); auto. 2:{ known. reflexivity. }
      unfold consume_either. assert (Hk : id_is "type" un = false /\ fn_like_keyword un = true) by (known; auto).
      destruct Hk as [-> ->]. rewrite Hnf. cbn [bind]. rewrite Hc. reflexivity.
    + simpl in *. rewrite (item_head R E (mo_attributes m)); auto. 2:{ destruct m; simpl in *; known; reflexivity. }
      cbv zeta. rewrite Hc. destruct m; simpl in *; known; reflexivity.
  - (* trait *)
    destruct Hsp as (ca & cb & Hca & Hcb & ->). destruct HE as (R' & E' & ->).
    { apply quote_depth in Hcb. repeat (rewrite toks_depth_app; simpl). lia. }
    { reflexivity. }
    pose proof (trait_complete R' E' t cb rest Hsh Hcb) as Hc.
    match goal with |- context [ca ++ print_opt print_vis (tr_vis t) ++ ?x] => change x with (trait_tail t cb) end.
    app_norm. pose proof (trait_not_fn t cb rest) as Hnf. simpl in Hsh. specialize (fun u => Hnf u Hsh).
    unfold shape_trait in Hsh. bsplit. unfold trait_tail in *.
    destruct (tr_unsafe t) as [un|] eqn:Eu.
    + specialize (Hnf un eq_refl). simpl in *. rewrite (item_head_either _ _ (tr_attributes t)); auto. 2:{ known. reflexivity. }
      unfold consume_either at 1. assert (Hk : id_is "type" un = false /\ fn_like_keyword un = true) by (known; auto).
      destruct Hk as [-> ->]. rewrite Hnf. cbn [bind]. rewrite Hc. reflexivity.
    + simpl in *. rewrite (item_head _ _ (tr_attributes t)); auto. 2:{ destruct t; simpl in *; known; reflexivity. }
      cbv zeta. rewrite Hc. destruct t; simpl in *; known; reflexivity.
  - (* impl *)
    destruct Hsp as (ca & vis & cb & Hca & Hv & Hcb & ->). destruct HE as (R' & E' & ->).
    { apply quote_depth in Hcb. repeat (rewrite toks_depth_app; simpl). lia. }
    { reflexivity. }
    pose proof (impl_complete R' E' im cb rest Hsh Hcb) as Hc.
    match goal with |- context [ca ++ print_opt print_vis vis ++ ?x] => change x with (impl_tail im cb) end.
    app_norm. pose proof (impl_not_fn im cb rest) as Hnf. simpl in Hsh. specialize (fun u v => Hnf u v Hsh).
    unfold shape_impl in Hsh. bsplit. unfold impl_tail in *.
    destruct (im_unsafe im) as [un|] eqn:Eu.
    + specialize (Hnf un vis eq_refl). simpl in *.
      rewrite (item_head_either _ _ (im_attributes im)); auto. 2:{ known. reflexivity. }
      unfold consume_either at 1. assert (Hk : id_is "type" un = false /\ fn_like_keyword un = true) by (known; auto).
      destruct Hk as [-> ->]. rewrite Hnf. cbn [bind]. rewrite Hc. reflexivity.
    + simpl in *.
      rewrite (item_head _ _ (im_attributes im)); auto. 2:{ destruct im; simpl in *; known; reflexivity. }
      cbv zeta. rewrite Hc. destruct im; simpl in *; known; reflexivity.
  - (* type alias *)
    destruct Hsp as (ca & Hca & ->). pose proof (either_type_alias R E t rest Hsh) as Hc.
    match goal with |- context [ca ++ print_opt print_vis (ta_vis t) ++ ?x] => change x with (type_alias_tail t) end.
    app_norm. simpl in Hsh. unfold wf_type_alias in Hsh. bsplit. unfold type_alias_tail in *. cbn [app] in *.
    rewrite (item_head_either _ _ (ta_attributes t)); auto. 2:{ destruct t; simpl in *; known; reflexivity. }
    rewrite Hc. reflexivity.
  - (* function *)
    destruct Hsp as (ca & cp & Hca & Hcp & ->). pose proof (either_function R E f cp rest Hsh Hcp) as Hc.
    match goal with |- context [ca ++ print_opt print_vis (fn_vis f) ++ ?x] => change x with (function_tail f cp) end.
    app_norm. destruct (function_head f cp rest Hsh) as (i & r & Hh & Hi). rewrite Hh in *.
    simpl in Hsh. unfold wf_function in Hsh. bsplit.
    rewrite (item_head_either _ _ (fn_attributes f)); auto.
    2:{ unfold id_in in *. simpl in *. repeat bcase; rwb; rewrite ?orb_true_r; auto. }
    rewrite Hc. reflexivity.
  - (* constant *)
    destruct Hsp as (ca & Hca & ->). pose proof (either_constant R E k rest Hsh) as Hc.
    pose proof (constant_complete k rest Hsh) as Hc'.
    match goal with |- context [ca ++ print_opt print_vis (co_vis k) ++ ?x] => change x with (constant_tail k) end.
    app_norm. simpl in Hsh. unfold shape_constant in Hsh. bsplit. unfold constant_tail in *. cbn [app] in *.
    bcase; bsplit.
    + rewrite (item_head_either _ _ (co_attributes k)); auto. 2:{ destruct k; simpl in *; known; reflexivity. }
      rewrite Hc. reflexivity.
    + rewrite (item_head _ _ (co_attributes k)); auto. 2:{ destruct k; simpl in *; known; reflexivity. }
      cbv zeta. rewrite Hc'.
      match goal with H : id_is "static" (co_kw k) = true |- _ => apply id_is_eq in H; destruct H as [? ->] end.
      reflexivity.
  - (* use *)
    destruct Hsp as (ca & Hca & ->). pose proof (use_complete u rest Hsh) as Hc.
    match goal with |- context [ca ++ print_opt print_vis (us_vis u) ++ ?x] => change x with (use_tail u) end.
    app_norm. simpl in Hsh. unfold wf_use in Hsh. bsplit. unfold use_tail in *. cbn [app] in *.
    rewrite (item_head _ _ (us_attributes u)); auto. 2:{ destruct u; simpl in *; known; reflexivity. }
    cbv zeta. rewrite Hc. destruct u; simpl in *; known; reflexivity.
  - (* macro *)
    destruct Hsp as (vis & Hv & Hp & ca & Hca & ->). pose proof (macro_complete _ m rest Hsh) as Hc.
    app_norm. simpl in Hsh. unfold shape_macro in Hsh. bsplit. unfold macro_tokens in *. cbn [app] in *.
    unfold consume_item_body.
    assert (Hp' : forall r, prefix_ok vis (TIdent (ma_name m) :: r) = true).
    { intro r. destruct vis as [[v1 v2]|]; auto. }
    rewrite (attrs_vis_complete (ma_attributes m)); auto. cbn [bind].
    rewrite vis_complete; auto.
    unfold parse_item_macro. rewrite Hc. unfold id_in in *. simpl in *. bsplit.
    unfold either_keyword. rwb. reflexivity.
  - (* extern block *)
    destruct Hsp as (ca & cb & Hca & Hcb & ->). destruct HE as (R' & E' & ->).
    { apply quote_depth in Hcb. repeat (rewrite toks_depth_app; simpl). lia. }
    { reflexivity. }
    destruct (extern_block_complete R' E' b cb rest Hsh Hcb) as [Hc Hnf].
    match goal with |- context [ca ++ print_opt print_vis (eb_vis b) ++ ?x] => change x with (extern_block_tail b cb) end.
    app_norm. simpl in Hsh. unfold shape_extern_block in Hsh. bsplit.
    assert (Hh : exists i r, extern_block_tail b cb ++ rest = TIdent i :: r
       /\ id_in ["unsafe"; "extern"]%string i = true).
    { unfold extern_block_tail. destruct b as [? ? [un|] ? ? ? ? ?]; simpl in *; known; eauto. }
    destruct Hh as (i & r & Hh & Hi). rewrite Hh in *.
    assert (Hk : id_is "type" i = false /\ fn_like_keyword i = true
       /\ id_in ["default"; "const"; "async"; "unsafe"; "extern"; "fn"; "type"]%string i = true).
    { unfold id_in in Hi. simpl in Hi. repeat bcase; known; try (repeat split; reflexivity). discriminate. }
    destruct Hk as (K1 & K2 & K3).
    rewrite (item_head_either _ _ (eb_attributes b)); auto. unfold consume_either at 1. rewrite K1, K2, Hnf. cbn [bind]. rewrite Hc. reflexivity.
  - (* extern crate *)
    destruct Hsp as (ca & Hca & ->). destruct (extern_crate_complete k rest Hsh) as [Hc Hnf].
    match goal with |- context [ca ++ print_opt print_vis (ec_vis k) ++ ?x] => change x with (extern_crate_tail k) end.
    app_norm. simpl in Hsh. unfold wf_extern_crate in Hsh. bsplit. unfold extern_crate_tail in *. cbn [app] in *.
    rewrite (item_head_either _ _ (ec_attributes k)); auto. 2:{ destruct k; simpl in *; known; reflexivity. }
    unfold consume_either. rewrite Hnf. cbn [bind]. rewrite Hc.
    destruct k; simpl in *; known; reflexivity.
Qed.

Lemma nest_complete n : forall i c rest,
  toks_depth c < n -> shape_item i = true -> spells_item i c ->
  follow_ok i rest = true -> fst (nest n) (c ++ rest) = Ret (Ok i, rest).
Proof.
  induction n as [|n IH]; intros i c rest Hd Hsh Hst Hf; [lia|].
  cbn [nest]. destruct (nest n) as [R E] eqn:En. cbn [fst] in *.
  apply item_body_complete; auto.
  - intros j d r _ Hj Hsj Htj Hfj. apply IH; auto. lia.
  - intros Hp _. destruct n as [|n]; [lia|]. cbn [nest] in En. destruct (nest n) as [R' E'].
    injection En as <- <-. eauto.
Qed.

Theorem consume_item_complete i c rest :
  shape_item i = true -> spells_item i c -> follow_ok i rest = true ->
  consume_item (c ++ rest) = Ret (Ok i, rest).
Proof.
  intros Hsh Hsp Hf. unfold consume_item. apply nest_complete; auto.
  rewrite toks_depth_app. lia.
Qed.

(** C73: what is inside the groups of types, bounds and values does not influence parsing. *)
From Verif Require Import Debug PrintSpells Complete3 Sound2 Unfold Samples PropRoundTrip PropErr PropMore.
Local Open Scope string_scope.
Local Open Scope list_scope.

Section Hide.
(** The new contents of a group. *)
Variable h : group -> list tok.
Definition hid_tok (t : tok) : tok := match t with TGroup g => TGroup (mkGroup (g_delim g) (h g) (g_span g)) | t => t end.
Definition hid : list tok -> list tok := map hid_tok.
Definition hid_type (t : type_expr) : type_expr := mkTypeExpr (hid (te_tokens t)).
Definition hid_value (v : value_expr) : value_expr := mkValueExpr (hid (ve_tokens v)).
Definition hid_bound (b : generic_bound) : generic_bound := mkBound (gb_colon b) (hid (gb_tokens b)).
Definition hid_pu {A} (g : A -> A) (p : punctuated A) : punctuated A :=
  mkPunctuated (map (fun x => (g (fst x), snd x)) (pu_inner p)) (pu_skip_last p).
Definition hid_gparam (p : generic_param) : generic_param := mkGenericParam (gp_prefix p) (gp_name p) (option_map hid_bound (gp_bound p)).
Definition hid_generics (g : generic_param_list) : generic_param_list := mkGenericParamList (gpl_l g) (hid_pu hid_gparam (gpl_params g)) (gpl_r g).
Definition hid_pred (w : where_predicate) : where_predicate := mkWherePredicate (hid (wp_left w)) (hid_bound (wp_bound w)).
Definition hid_where (w : where_clause) : where_clause := mkWhereClause (wc_where w) (hid_pu hid_pred (wc_items w)).
Definition hid_tfield (f : tuple_field) : tuple_field := mkTupleField (tf_attributes f) (tf_vis f) (hid_type (tf_ty f)).
Definition hid_nfield (f : named_field) : named_field := mkNamedField (nf_attributes f) (nf_vis f) (nf_name f) (nf_colon f) (hid_type (nf_ty f)).
Definition hid_fields (f : fields) : fields :=
  match f with
  | FUnit => FUnit
  | FTuple f => FTuple (mkTupleFields (hid_pu hid_tfield (tfs_fields f)) (tfs_parens f))
  | FNamed f => FNamed (mkNamedFields (hid_pu hid_nfield (nfs_fields f)) (nfs_braces f))
  end.
Definition hid_variant (v : enum_variant) : enum_variant :=
  mkVariant (ev_attributes v) (ev_vis v) (ev_name v) (hid_fields (ev_fields v))
    (option_map (fun x => mkVariantValue (vv_equal x) (hid_tok (vv_value x))) (ev_value v)).
Definition hid_param (p : fn_param) : fn_param :=
  match p with FPTyped t => FPTyped (mkTyped (ft_attributes t) (ft_mut t) (ft_name t) (ft_colon t) (hid_type (ft_ty t))) | p => p end.
Definition hid_function (f : function) : function :=
  mkFunction (fn_attributes f) (fn_vis f) (fn_qualifiers_ f) (fn_kw f) (fn_name f) (option_map hid_generics (fn_generics f)) (fn_parens f)
    (hid_pu hid_param (fn_params f)) (option_map hid_where (fn_where f)) (fn_arrow f) (option_map hid_type (fn_ret f)) (fn_semicolon f) (fn_body f).
Definition hid_constant (k : constant) : constant :=
  mkConstant (co_attributes k) (co_vis k) (co_kw k) (co_mut k) (co_name k) (co_colon k) (hid_type (co_ty k)) (co_equals k) (option_map hid_value (co_init k)) (co_semicolon k).
Definition hid_alias (t : type_alias) : type_alias :=
  mkTypeAlias (ta_attributes t) (ta_vis t) (ta_type t) (ta_name t) (option_map hid_bound (ta_bound t)) (ta_equals t) (option_map hid_type (ta_init t)) (ta_semicolon t).
Definition hid_impl_member (m : impl_member) : impl_member :=
  match m with IMFunction f => IMFunction (hid_function f) | IMConstant k => IMConstant (hid_constant k) | IMType t => IMType (hid_alias t) | m => m end.
Definition hid_trait_member (m : trait_member) : trait_member :=
  match m with TMFunction f => TMFunction (hid_function f) | TMConstant k => TMConstant (hid_constant k) | TMType t => TMType (hid_alias t) | m => m end.
(** Apply it in every type, bound, where clause, initialiser, discriminant and use tree. *)
Fixpoint hid_item (i : item) : item :=
  match i with
  | IStruct (mkStruct a v k n g w f s) => IStruct (mkStruct a v k n (option_map hid_generics g) (option_map hid_where w) (hid_fields f) s)
  | IEnum (mkEnum a v k n g w b vs) => IEnum (mkEnum a v k n (option_map hid_generics g) (option_map hid_where w) b (hid_pu hid_variant vs))
  | IUnion (mkUnion a v k n g w (mkNamedFields f b)) =>
      IUnion (mkUnion a v k n (option_map hid_generics g) (option_map hid_where w) (mkNamedFields (hid_pu hid_nfield f) b))
  | IFunction f => IFunction (hid_function f)
  | IConstant k => IConstant (hid_constant k)
  | ITypeAlias t => ITypeAlias (hid_alias t)
  | IUse (mkUse a v k t s) => IUse (mkUse a v k (hid_type t) s)
  | IModule (mkModule a v u k n s b ia ms) => IModule (mkModule a v u k n s b ia (map hid_item ms))
  | ITrait (mkTrait a v u k n g b w br ia ms) =>
      ITrait (mkTrait a v u k n (option_map hid_generics g) (option_map hid_bound b) (option_map hid_where w) br ia (map hid_trait_member ms))
  | IImpl (mkImpl a u k g t f s w br ia ms) =>
      IImpl (mkImpl a u k (option_map hid_generics g) (option_map hid_type t) f (hid_type s) (option_map hid_where w) br ia (map hid_impl_member ms))
  | IExternBlock (mkExternBlock a v u e ab br ia ms) => IExternBlock (mkExternBlock a v u e ab br ia (map hid_impl_member ms))
  | IMacro m => IMacro m
  | IExternCrate c => IExternCrate c
  end.

(** ** Proof: every test on tokens gives the same answer *)
Definition blind_to (P : tok -> bool) : Prop := forall t, P (hid_tok t) = P t.
Lemma blind_is_punct c : blind_to (is_punct c). Proof. intros []; reflexivity. Qed.
Lemma blind_is_ident k : blind_to (is_ident k). Proof. intros []; reflexivity. Qed.
Lemma blind_is_group d : blind_to (is_group d). Proof. intros []; reflexivity. Qed.
Lemma blind_or P Q : blind_to P -> blind_to Q -> blind_to (fun t => P t || Q t). Proof. intros H1 H2 t. rewrite H1, H2. reflexivity. Qed.
Hint Resolve blind_is_punct blind_is_ident blind_is_group blind_or : blind.
Lemma head_hid P ts : blind_to P -> head_is P (hid ts) = head_is P ts. Proof. destruct ts; cbn; auto. Qed.
Lemma nonempty_hid ts : nonempty (hid ts) = nonempty ts. Proof. destruct ts; reflexivity. Qed.
Lemma scan_hid P : blind_to P -> forall ts d b, scan P d b (hid ts) = scan P d b ts.
Proof.
  intros H ts. induction ts as [|t ts IH]; intros d b; [reflexivity|]. cbn [hid map scan]. fold (hid ts).
  unfold stops, next_depth, opens, closes. rewrite !blind_is_punct, !H, IH. reflexivity.
Qed.
Lemma closed_hid P ts : blind_to P -> run_closed P (hid ts) = run_closed P ts. Proof. intro H. unfold run_closed. rewrite scan_hid; auto. Qed.
Lemma any_hid P ts : blind_to P -> run_any P (hid ts) = run_any P ts. Proof. intro H. unfold run_any. rewrite scan_hid; auto. Qed.
Lemma opt_hid {A} (f : A -> bool) (g : A -> A) x : (forall y, f (g y) = f y) -> wf_opt f (option_map g x) = wf_opt f x.
Proof. intro H. destruct x; cbn; auto. Qed.
Lemma pu_hid {A} (wf : bool -> A -> bool) (g : A -> A) p : (forall b x, wf b (g x) = wf b x) -> wf_punctuated wf (hid_pu g p) = wf_punctuated wf p.
Proof.
  intro H. unfold wf_punctuated, hid_pu. cbn [pu_inner pu_skip_last]. induction (pu_inner p) as [|[x c] l IH]; [reflexivity|].
  destruct l as [|y l]; cbn in *; rewrite H; [reflexivity|]. rewrite <- IH. reflexivity.
Qed.
Lemma field_ty_hid b t : wf_field_ty b (hid_type t) = wf_field_ty b t.
Proof. unfold wf_field_ty, hid_type. cbn [te_tokens]. rewrite nonempty_hid, closed_hid, any_hid; auto; apply blind_is_punct. Qed.
Lemma bound_hid P b : blind_to P -> wf_bound P (hid_bound b) = wf_bound P b.
Proof. intro H. unfold wf_bound. cbn. rewrite closed_hid; auto. Qed.
Lemma gparam_hid b p : wf_generic_param b (hid_gparam p) = wf_generic_param b p.
Proof. unfold wf_generic_param. cbn. rewrite (opt_hid (wf_bound end_param)); auto. intro. apply bound_hid. unfold end_param. auto with blind. Qed.
Lemma generics_hid g : wf_generics (hid_generics g) = wf_generics g.
Proof. unfold wf_generics. cbn [hid_generics gpl_l gpl_r gpl_params]. rewrite pu_hid; auto using gparam_hid. Qed.
Lemma pred_hid b w : wf_where_predicate b (hid_pred w) = wf_where_predicate b w.
Proof.
  unfold wf_where_predicate. cbn [hid_pred wp_left wp_bound]. rewrite closed_hid, !head_hid, bound_hid; auto with blind.
  unfold end_where_item. auto with blind.
Qed.
Lemma where_hid w : wf_where (hid_where w) = wf_where w.
Proof. unfold wf_where. cbn [hid_where wc_where wc_items]. rewrite pu_hid; auto using pred_hid. Qed.
Lemma prefix_hid v ts : prefix_ok v (hid ts) = prefix_ok v ts.
Proof. unfold prefix_ok. destruct v as [[[] []]|]; rewrite ?head_hid; auto with blind. Qed.
Lemma tfield_hid b f : wf_tuple_field b (hid_tfield f) = wf_tuple_field b f.
Proof. unfold wf_tuple_field. cbn [hid_tfield tf_attributes tf_vis tf_ty]. cbn [hid_type te_tokens]. rewrite prefix_hid. fold (hid_type (tf_ty f)). rewrite field_ty_hid. reflexivity. Qed.
Lemma nfield_hid b f : wf_named_field b (hid_nfield f) = wf_named_field b f.
Proof. unfold wf_named_field. cbn [hid_nfield nf_attributes nf_vis nf_name nf_colon nf_ty]. rewrite field_ty_hid. reflexivity. Qed.
Lemma fields_hid f : wf_fields (hid_fields f) = wf_fields f.
Proof.
  destruct f; cbn [hid_fields wf_fields]; [reflexivity| |]; unfold wf_tuple_fields, wf_named_fields; cbn [tfs_fields tfs_parens nfs_fields nfs_braces];
    rewrite pu_hid; auto using tfield_hid, nfield_hid.
Qed.
Lemma variant_hid b v : wf_variant b (hid_variant v) = wf_variant b v.
Proof. unfold wf_variant. cbn [hid_variant ev_attributes ev_vis ev_name ev_fields ev_value]. rewrite fields_hid. destruct (ev_value v); reflexivity. Qed.
Lemma param_hid b p : wf_fn_param b (hid_param p) = wf_fn_param b p.
Proof. destruct p; [reflexivity|]. cbn [hid_param wf_fn_param ft_attributes ft_mut ft_name ft_colon ft_ty]. rewrite field_ty_hid. reflexivity. Qed.
Lemma function_hid f : wf_function (hid_function f) = wf_function f.
Proof.
  unfold wf_function. cbn [hid_function fn_attributes fn_vis fn_qualifiers_ fn_kw fn_name fn_generics fn_parens fn_params fn_where fn_arrow fn_ret fn_semicolon fn_body].
  rewrite (opt_hid wf_generics), (opt_hid wf_where), pu_hid by auto using generics_hid, where_hid, param_hid.
  destruct (fn_arrow f) as [[]|], (fn_ret f); cbn [option_map]; auto. cbn [hid_type te_tokens]. rewrite closed_hid; auto. unfold end_return. auto with blind.
Qed.
Lemma constant_hid k : shape_constant (hid_constant k) = shape_constant k.
Proof.
  unfold shape_constant. cbn [hid_constant co_attributes co_vis co_kw co_mut co_name co_colon co_ty co_equals co_init co_semicolon hid_type te_tokens].
  rewrite closed_hid by (unfold end_const_ty; auto with blind). destruct (co_equals k), (co_init k); cbn [option_map]; auto.
  cbn [hid_value ve_tokens]. rewrite nonempty_hid, closed_hid; auto. apply blind_is_punct.
Qed.
Lemma alias_hid t : wf_type_alias (hid_alias t) = wf_type_alias t.
Proof.
  unfold wf_type_alias. cbn [hid_alias ta_attributes ta_vis ta_type ta_name ta_bound ta_equals ta_init ta_semicolon].
  rewrite (opt_hid (wf_bound end_const_ty)) by (intro; apply bound_hid; unfold end_const_ty; auto with blind).
  destruct (ta_equals t), (ta_init t); cbn [option_map]; auto. cbn [hid_type te_tokens]. rewrite closed_hid; auto. apply blind_is_punct.
Qed.
Lemma impl_member_hid b m : shape_impl_member b (hid_impl_member m) = shape_impl_member b m.
Proof. destruct m; cbn [hid_impl_member shape_impl_member]; rewrite ?function_hid, ?constant_hid, ?alias_hid; reflexivity. Qed.
Lemma trait_member_hid m : shape_trait_member (hid_trait_member m) = shape_trait_member m.
Proof. destruct m; unfold shape_trait_member; cbn [hid_trait_member impl_of_trait_member shape_impl_member]; rewrite ?function_hid, ?constant_hid, ?alias_hid; reflexivity. Qed.

Lemma hid_shape i : shape_item (hid_item i) = shape_item i.
Proof.
  induction i as [m IH|i No] using item_nested_ind.
  - destruct m as [a v u k n s b ia ms]. cbn [mo_members] in IH. cbn [hid_item shape_item]. unfold shape_module.
    cbn [mo_attributes mo_vis mo_unsafe mo_mod mo_name mo_semicolon mo_braces mo_inner_attributes mo_members].
    assert (F : forallb shape_item (map hid_item ms) = forallb shape_item ms) by (induction IH as [|x l Hx _ IHl]; cbn; [auto|rewrite Hx, IHl; auto]).
    rewrite F. destruct ms; reflexivity.
  - destruct i as [[xa xv xk xn xg xw xf xs]|[xa xv xk xn xg xw xb xvs]|[xa xv xk xn xg xw [xf xb]]|m|[xa xv xu xk xn xg xbd xw xbr xia xms]|[xa xu xk xg xt xf xs xw xbr xia xms]|t|f|k|[xa xv xk xt xs]|m|[xa xv xu xe xab xbr xia xms]|c];
      cbn [hid_item shape_item].
    + unfold shape_struct. cbn [st_attributes st_vis st_struct st_name st_generics st_where st_fields st_semicolon].
      rewrite (opt_hid wf_generics), (opt_hid wf_where), fields_hid by auto using generics_hid, where_hid. destruct xf; reflexivity.
    + unfold wf_enum. cbn [en_attributes en_vis en_enum en_name en_generics en_where en_braces en_variants].
      rewrite (opt_hid wf_generics), (opt_hid wf_where), pu_hid by auto using generics_hid, where_hid, variant_hid. reflexivity.
    + unfold wf_union, wf_named_fields. cbn [un_attributes un_vis un_union un_name un_generics un_where un_fields nfs_fields nfs_braces].
      rewrite (opt_hid wf_generics), (opt_hid wf_where), pu_hid by auto using generics_hid, where_hid, nfield_hid. reflexivity.
    + exfalso. eapply No. reflexivity.
    + unfold shape_trait. cbn [tr_attributes tr_vis tr_unsafe tr_trait tr_name tr_generics tr_bound tr_where tr_braces tr_inner_attributes tr_items].
      rewrite (opt_hid wf_generics), (opt_hid wf_where), (opt_hid (wf_bound end_supertraits)), (forallb_map_same _ shape_trait_member _ _ trait_member_hid);
        auto using generics_hid, where_hid. intro. apply bound_hid. unfold end_supertraits. auto with blind.
    + unfold shape_impl. cbn [im_attributes im_unsafe im_impl im_generics im_trait im_for im_self im_where im_braces im_inner_attributes im_items].
      rewrite (opt_hid wf_generics), (opt_hid wf_where), (forallb_map_same _ (shape_impl_member false) _ _ (impl_member_hid false)) by auto using generics_hid, where_hid.
      assert (S : some (option_map hid_generics xg) = some xg) by (destruct xg; reflexivity). rewrite S.
      assert (B1 : blind_to end_impl_header) by (unfold end_impl_header; auto with blind).
      assert (B2 : blind_to end_impl_self) by (unfold end_impl_self; auto with blind).
      destruct xt, xf; cbn [option_map hid_type te_tokens]; rewrite ?closed_hid, ?head_hid by auto with blind; reflexivity.
    + apply alias_hid.
    + apply function_hid.
    + apply constant_hid.
    + unfold wf_use. cbn [us_attributes us_vis us_use us_tree us_semicolon hid_type te_tokens]. rewrite closed_hid; auto. apply blind_is_punct.
    + reflexivity.
    + unfold shape_extern_block. cbn [eb_attributes eb_vis eb_unsafe eb_extern eb_abi eb_braces eb_inner_attributes eb_items].
      rewrite (forallb_map_same _ (shape_impl_member true) _ _ (impl_member_hid true)). reflexivity.
    + reflexivity.
Qed.
Lemma hid_start i : same_start (print_item (hid_item i)) (print_item i).
Proof.
  destruct i as [[]|[]|[? ? ? ? ? ? []]|[]|[]|[]|[]|f|[]|[]|m|[]|]; cbn [hid_item print_item];
    unfold print_struct, print_enum, print_union, print_module, print_trait, print_impl, print_type_alias, print_function, print_constant, print_use, print_macro,
      print_extern_block, print_extern_crate; cbn; repeat (apply same_start_cons || apply same_start_app).
Qed.
Lemma hid_follow i r s : (forall p, head_is p r = head_is p s) -> follow_ok (hid_item i) r = follow_ok i s.
Proof.
  intro H. destruct i as [[a v k n g w f se]|[]|[? ? ? ? ? ? []]|[]|[]|[]| |f| |[]|m|[]|]; try reflexivity. cbn [hid_item follow_ok]. unfold struct_follow.
  cbn [st_fields st_semicolon st_where]. rewrite !H. destruct f, se, w; reflexivity.
Qed.
Lemma hid_members l : members_follow (map hid_item l) = members_follow l.
Proof.
  induction l as [|i l IH]; [reflexivity|]. cbn [map members_follow]. rewrite IH. f_equal. apply hid_follow. intro p.
  destruct l as [|j l]; [reflexivity|]. cbn [map flat_map]. apply same_start_head, hid_start.
Qed.
Lemma hid_stable i : stable_item (hid_item i) = stable_item i.
Proof.
  induction i as [m IH|i No] using item_nested_ind.
  - destruct m as [a v u k n s b ia ms]. cbn [mo_members] in IH. cbn [hid_item stable_item mo_members]. rewrite hid_members. f_equal.
    induction IH as [|x l Hx _ IHl]; cbn; [auto|rewrite Hx, IHl; auto].
  - destruct i as [[a v k n g w f se]|[]|[? ? ? ? ? ? []]|m|[]|[]| |f| |[]|m|[]|]; try reflexivity.
    + destruct f; reflexivity.
    + exfalso. eapply No. reflexivity.
    + apply forallb_map_same. intros []; reflexivity.
    + apply forallb_map_same. intros []; reflexivity.
    + apply forallb_map_same. intros []; reflexivity.
Qed.
End Hide.

(** ** C73 *)
Theorem C73_contents_opaque (h : group -> list tok) (i : item) :
  parse_item (print_item (hid_item h i)) = Ret (Ok (hid_item h i)) <-> parse_item (print_item i) = Ret (Ok i).
Proof. rewrite !C01_print_parse_iff. unfold wf_item. rewrite hid_shape, hid_stable, (hid_follow h i [] []) by auto. reflexivity. Qed.
(** So a type pasted by a [macro_rules!] variable ([$ty], an invisible group) is one unit, whatever it contains. *)
Theorem C73_pasted_field (a : list attribute) (v : option vis_marker) (pasted : list tok) (sp : N) (gs : group_span) (name : ident) kw semi :
  wf_outer a = true -> wf_opt wf_vis v = true -> id_is "struct" kw = true -> p_is ";" semi = true -> gs_delim gs = Parenthesis ->
  let s := mkStruct a v kw name None None
             (FTuple (mkTupleFields (mkPunctuated [(mkTupleField [] None (mkTypeExpr [TGroup (mkGroup NoDelim pasted sp)]), punct_new "," Alone)] true) gs)) (Some semi) in
  parse_item (print_item (IStruct s)) = Ret (Ok (IStruct s)).
Proof.
  intros H1 H2 H3 H4 H5 s. apply C01_print_parse_iff. split; [|reflexivity]. subst s. unfold wf_item. cbn [shape_item stable_item]. unfold shape_struct, stable_struct.
  cbn [st_attributes st_vis st_struct st_name st_generics st_where st_fields st_semicolon]. rewrite H1, H2, H3. cbn. unfold wf_tuple_fields.
  cbn. rewrite H5. cbn. rewrite H4. reflexivity.
Qed.
Example C73_example :
  let i := item_of "struct S<T: F(A)>(pub [T; 4], &'a (A, B)) where [T]: X<{ N }>;" in
  parse_item (print_item i) = Ret (Ok i)
  /\ print_item (hid_item (fun g => lex ", > ; where") i) <> print_item i
  /\ parse_item (print_item (hid_item (fun g => lex ", > ; where") i)) = Ret (Ok (hid_item (fun g => lex ", > ; where") i)).
Proof. split; [vm_compute; reflexivity|]. split; [vm_compute; discriminate|vm_compute; reflexivity]. Qed.

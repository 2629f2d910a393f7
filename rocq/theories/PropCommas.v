(** C72: trailing commas are optional. *)
From Verif Require Import Debug PrintSpells Complete3 Sound2 Unfold Samples PropRoundTrip PropErr PropMore.
Local Open Scope string_scope.
Local Open Scope list_scope.

(** ** The same list with another end: [trail None] has no trailing comma, [trail (Some c)] has [c]. *)
Fixpoint set_last {A B} (c : punct) (g : A -> B) (l : list (A * punct)) : list (B * punct) :=
  match l with
  | [] => []
  | [(x, _)] => [(g x, c)]
  | (x, d) :: r => (g x, d) :: set_last c g r
  end.
Section Trail.
Variable o : option punct.
Definition end_comma_of : punct := match o with Some c => c | None => mkPunct "," Alone call_site end.
Definition trail {A B} (g : A -> B) (p : punctuated A) : punctuated B :=
  mkPunctuated (set_last end_comma_of g (pu_inner p))
    (match o, pu_inner p with None, _ :: _ => true | _, _ => false end).
Definition same {A} (x : A) : A := x.

Definition trail_generics (g : generic_param_list) : generic_param_list :=
  mkGenericParamList (gpl_l g) (trail same (gpl_params g)) (gpl_r g).
Definition trail_where (w : where_clause) : where_clause := mkWhereClause (wc_where w) (trail same (wc_items w)).
Definition trail_tuple (f : tuple_fields) : tuple_fields := mkTupleFields (trail same (tfs_fields f)) (tfs_parens f).
Definition trail_named (f : named_fields) : named_fields := mkNamedFields (trail same (nfs_fields f)) (nfs_braces f).
Definition trail_fields (f : fields) : fields :=
  match f with FUnit => FUnit | FTuple f => FTuple (trail_tuple f) | FNamed f => FNamed (trail_named f) end.
Definition trail_variant (v : enum_variant) : enum_variant :=
  mkVariant (ev_attributes v) (ev_vis v) (ev_name v) (trail_fields (ev_fields v)) (ev_value v).
Definition trail_function (f : function) : function :=
  mkFunction (fn_attributes f) (fn_vis f) (fn_qualifiers_ f) (fn_kw f) (fn_name f) (option_map trail_generics (fn_generics f)) (fn_parens f)
    (trail same (fn_params f)) (option_map trail_where (fn_where f)) (fn_arrow f) (fn_ret f) (fn_semicolon f) (fn_body f).
Definition trail_impl_member (m : impl_member) : impl_member := match m with IMFunction f => IMFunction (trail_function f) | m => m end.
Definition trail_trait_member (m : trait_member) : trait_member := match m with TMFunction f => TMFunction (trail_function f) | m => m end.
(** Every comma-separated list of the item, at any depth. *)
Fixpoint trail_item (i : item) : item :=
  match i with
  | IStruct (mkStruct a v k n g w f s) => IStruct (mkStruct a v k n (option_map trail_generics g) (option_map trail_where w) (trail_fields f) s)
  | IEnum (mkEnum a v k n g w b vs) => IEnum (mkEnum a v k n (option_map trail_generics g) (option_map trail_where w) b (trail trail_variant vs))
  | IUnion (mkUnion a v k n g w f) => IUnion (mkUnion a v k n (option_map trail_generics g) (option_map trail_where w) (trail_named f))
  | IFunction f => IFunction (trail_function f)
  | IModule (mkModule a v u k n s b ia ms) => IModule (mkModule a v u k n s b ia (map trail_item ms))
  | ITrait (mkTrait a v u k n g b w br ia ms) =>
      ITrait (mkTrait a v u k n (option_map trail_generics g) b (option_map trail_where w) br ia (map trail_trait_member ms))
  | IImpl (mkImpl a u k g t f s w br ia ms) =>
      IImpl (mkImpl a u k (option_map trail_generics g) t f s (option_map trail_where w) br ia (map trail_impl_member ms))
  | IExternBlock (mkExternBlock a v u e ab br ia ms) => IExternBlock (mkExternBlock a v u e ab br ia (map trail_impl_member ms))
  | i => i
  end.

(** The types of the fields and parameters in these lists. *)
Definition fields_types (f : fields) : list type_expr :=
  match f with
  | FUnit => []
  | FTuple f => map (fun x => tf_ty (fst x)) (pu_inner (tfs_fields f))
  | FNamed f => map (fun x => nf_ty (fst x)) (pu_inner (nfs_fields f))
  end.
Definition param_types (p : fn_param) : list type_expr := match p with FPTyped t => [ft_ty t] | FPReceiver _ => [] end.
Definition function_types (f : function) : list type_expr := flat_map (fun x => param_types (fst x)) (pu_inner (fn_params f)).
Definition impl_member_types (m : impl_member) : list type_expr := match m with IMFunction f => function_types f | _ => [] end.
Fixpoint listed_types (i : item) : list type_expr :=
  match i with
  | IStruct s => fields_types (st_fields s)
  | IEnum e => flat_map (fun v => fields_types (ev_fields (fst v))) (pu_inner (en_variants e))
  | IUnion u => fields_types (FNamed (un_fields u))
  | IFunction f => function_types f
  | IModule m => flat_map listed_types (mo_members m)
  | ITrait t => flat_map (fun m => impl_member_types (impl_of_trait_member m)) (tr_items t)
  | IImpl i => flat_map impl_member_types (im_items i)
  | IExternBlock b => flat_map impl_member_types (eb_items b)
  | _ => []
  end.

(** ** Proof *)
Definition comma_ok : Prop := match o with Some c => p_is "," c = true | None => True end.
(** When a comma is added after it, a type must have no open ['<']. *)
Definition fits (t : type_expr) : bool := match o with Some _ => run_closed end_comma (te_tokens t) | None => true end.
Definition with_comma : bool := match o with Some _ => true | None => false end.
Hypothesis Ho : comma_ok.

Lemma wf_inner_cons {A} (f : bool -> A -> bool) sk x c l : l <> [] -> wf_inner f sk ((x, c) :: l) = f true x && p_is "," c && wf_inner f sk l.
Proof. destruct l; [congruence|reflexivity]. Qed.
Lemma trail_wf {A B} (wf : bool -> A -> bool) (wf' : bool -> B -> bool) (g : A -> B) p :
  wf_punctuated wf p = true ->
  (forall b x c, In (x, c) (pu_inner p) -> wf b x = true -> wf' with_comma (g x) = true) ->
  (forall x c, In (x, c) (pu_inner p) -> wf true x = true -> wf' true (g x) = true) ->
  wf_punctuated wf' (trail g p) = true.
Proof.
  unfold wf_punctuated, trail. cbn [pu_inner pu_skip_last]. destruct p as [l sk]. cbn [pu_inner pu_skip_last].
  intros W H1 H2. induction l as [|[x c] l IH].
  - cbn. destruct o; reflexivity.
  - destruct l as [|y l].
    + cbn in *. apply andb_prop in W. destruct W as [W _]. specialize (H1 _ _ _ (or_introl eq_refl) W). unfold end_comma_of, with_comma, comma_ok in *. destruct o as [d|]; cbn.
      * rewrite H1, Ho. reflexivity.
      * rewrite H1. reflexivity.
    + cbn [wf_inner] in W. apply andb_prop in W. destruct W as [W W2]. apply andb_prop in W. destruct W as [W1 W3].
      specialize (IH W2 (fun b z d Hz => H1 b z d (or_intror Hz)) (fun z d Hz => H2 z d (or_intror Hz))).
      change (set_last end_comma_of g ((x, c) :: y :: l)) with ((g x, c) :: set_last end_comma_of g (y :: l)).
      rewrite wf_inner_cons by (destruct y as [y1 y2], l; discriminate). rewrite (H2 _ _ (or_introl eq_refl) W1), W3. exact IH.
Qed.
Lemma fits_field b t : wf_field_ty b t = true -> fits t = true -> wf_field_ty with_comma t = true.
Proof.
  unfold wf_field_ty, fits, with_comma. intros W F. apply andb_prop in W. destruct W as [W1 W2]. rewrite W1. cbn.
  destruct o; [exact F|]. destruct b; [|exact W2]. unfold run_closed, run_any in *. destruct (scan end_comma 0 false (te_tokens t)); [auto|discriminate].
Qed.
Lemma trail_generics_wf g : wf_generics g = true -> wf_generics (trail_generics g) = true.
Proof.
  unfold wf_generics. cbn. intro H. bsplit. rwb. rewrite andb_true_r. cbn. eapply trail_wf; [eassumption| |]; auto.
Qed.

Lemma trail_where_wf w : wf_where w = true -> wf_where (trail_where w) = true.
Proof. unfold wf_where. cbn. intro H. bsplit. rwb. eapply trail_wf; [eassumption| |]; auto. Qed.
Lemma opt_wf {A} (f : A -> bool) (g : A -> A) x : (forall y, f y = true -> f (g y) = true) -> wf_opt f x = true -> wf_opt f (option_map g x) = true.
Proof. intro H. destruct x; cbn; auto. Qed.
Lemma in_fits {A} (f : A -> type_expr) (l : list (A * punct)) x c :
  forallb fits (map (fun y => f (fst y)) l) = true -> In (x, c) l -> fits (f x) = true.
Proof. intros F H. rewrite forallb_forall in F. apply F. apply in_map_iff. exists (x, c). auto. Qed.
Lemma trail_tuple_wf f : forallb fits (fields_types (FTuple f)) = true -> wf_tuple_fields f = true -> wf_tuple_fields (trail_tuple f) = true.
Proof.
  unfold wf_tuple_fields. cbn [fields_types trail_tuple tfs_fields tfs_parens]. intros F H. bsplit. rwb. eapply trail_wf; [eassumption| |]; auto.
  intros b x c Hx W. unfold wf_tuple_field, same in *. bsplit. rwb. cbn. eapply fits_field; [eassumption|]. exact (in_fits tf_ty _ _ _ F Hx).
Qed.
Lemma trail_named_wf f : forallb fits (fields_types (FNamed f)) = true -> wf_named_fields f = true -> wf_named_fields (trail_named f) = true.
Proof.
  unfold wf_named_fields. cbn [fields_types trail_named nfs_fields nfs_braces]. intros F H. bsplit. rwb. eapply trail_wf; [eassumption| |]; auto.
  intros b x c Hx W. unfold wf_named_field, same in *. bsplit. rwb. cbn. eapply fits_field; [eassumption|]. exact (in_fits nf_ty _ _ _ F Hx).
Qed.
Lemma trail_fields_wf f : forallb fits (fields_types f) = true -> wf_fields f = true -> wf_fields (trail_fields f) = true.
Proof. destruct f; cbn [wf_fields trail_fields]; auto using trail_tuple_wf, trail_named_wf. Qed.
Lemma forallb_flat {A B} (f : B -> bool) (g : A -> list B) l x : forallb f (flat_map g l) = true -> In x l -> forallb f (g x) = true.
Proof.
  intros F H. rewrite forallb_forall in *. intros y Hy. apply F. apply in_flat_map. eauto.
Qed.
Lemma trail_function_wf f : forallb fits (function_types f) = true -> wf_function f = true -> wf_function (trail_function f) = true.
Proof.
  intros F H. unfold wf_function in *. cbn [trail_function fn_attributes fn_vis fn_qualifiers_ fn_kw fn_name fn_generics fn_parens fn_params fn_where fn_arrow fn_ret fn_semicolon fn_body].
  bsplit. rwb. rewrite (opt_wf wf_generics), (opt_wf wf_where) by auto using trail_generics_wf, trail_where_wf. rewrite ?andb_true_r, ?andb_true_l.
  eapply trail_wf; [eassumption| |]; auto.
  intros b x c Hx W. unfold same. destruct x as [r|t]; cbn [wf_fn_param] in *; auto. bsplit. rwb. cbn. eapply fits_field; [eassumption|].
  pose proof (forallb_flat fits _ _ _ F Hx) as G. cbn in G. rewrite andb_true_r in G. exact G.
Qed.
Lemma trail_impl_member_shape b m : forallb fits (impl_member_types m) = true -> shape_impl_member b m = true -> shape_impl_member b (trail_impl_member m) = true.
Proof. destruct m; cbn; auto using trail_function_wf. Qed.
Lemma trail_trait_member_shape m : forallb fits (impl_member_types (impl_of_trait_member m)) = true -> shape_trait_member m = true -> shape_trait_member (trail_trait_member m) = true.
Proof. destruct m; cbn; auto using trail_function_wf. Qed.
Lemma forallb_map_in {A} (f : A -> bool) (g : A -> A) l : (forall x, In x l -> f x = true -> f (g x) = true) -> forallb f l = true -> forallb f (map g l) = true.
Proof. intros H F. rewrite forallb_forall in *. intros y Hy. apply in_map_iff in Hy. destruct Hy as (x & <- & Hx). auto. Qed.

Lemma trail_shape i : forallb fits (listed_types i) = true -> shape_item i = true -> shape_item (trail_item i) = true.
Proof.
  induction i as [m IH|i No] using item_nested_ind.
  - destruct m as [a v u k n s b ia ms]. cbn [mo_members] in IH. cbn [trail_item shape_item listed_types mo_members]. unfold shape_module.
    cbn [mo_attributes mo_vis mo_unsafe mo_mod mo_name mo_semicolon mo_braces mo_inner_attributes mo_members]. intros F H. bsplit. rwb. cbn.
    assert (N : nonempty (map trail_item ms) = nonempty ms) by (destruct ms; reflexivity). rewrite N.
    destruct s, b; auto. bsplit. rwb. cbn. apply forallb_map_in; auto. intros x Hx. rewrite Forall_forall in IH. apply IH; auto.
    eapply forallb_flat; eauto.
  - destruct i as [[xa xv xk xn xg xw xf xs]|[xa xv xk xn xg xw xb xvs]|[xa xv xk xn xg xw xf]|m|[xa xv xu xk xn xg xbd xw xbr xia xms]|[xa xu xk xg xt xf xs xw xbr xia xms]| |f| | |m|[xa xv xu xe xab xbr xia xms]|]; intros F H; try exact H.
    + cbn [trail_item shape_item listed_types st_fields] in *. unfold shape_struct in *. cbn [st_attributes st_vis st_struct st_name st_generics st_where st_fields st_semicolon] in *. bsplit. rwb.
      rewrite (opt_wf wf_generics), (opt_wf wf_where), trail_fields_wf by auto using trail_generics_wf, trail_where_wf. cbn.
      destruct xf; auto.
    + cbn [trail_item shape_item listed_types en_variants] in *. unfold wf_enum in *. cbn [en_attributes en_vis en_enum en_name en_generics en_where en_braces en_variants] in *. bsplit. rwb.
      rewrite (opt_wf wf_generics), (opt_wf wf_where) by auto using trail_generics_wf, trail_where_wf. cbn.
      assert (G : forall b b' x c, In (x, c) (pu_inner xvs) -> wf_variant b x = true -> wf_variant b' (trail_variant x) = true).
      { intros b b' x c Hx W. unfold wf_variant in *. cbn [trail_variant ev_attributes ev_vis ev_name ev_fields ev_value]. bsplit. rwb. rewrite trail_fields_wf; auto.
        exact (forallb_flat fits _ _ _ F Hx). }
      eapply trail_wf; [eassumption| |]; eauto.
    + cbn [trail_item shape_item listed_types] in *. unfold wf_union in *. cbn [un_attributes un_vis un_union un_name un_generics un_where un_fields] in *. bsplit. rwb.
      rewrite (opt_wf wf_generics), (opt_wf wf_where), trail_named_wf by auto using trail_generics_wf, trail_where_wf. reflexivity.
    + exfalso. eapply No. reflexivity.
    + cbn [trail_item shape_item listed_types tr_items] in *. unfold shape_trait in *. cbn -[shape_trait_member wf_generics wf_where] in *. bsplit. rwb.
      rewrite (opt_wf wf_generics), (opt_wf wf_where) by auto using trail_generics_wf, trail_where_wf. cbn -[shape_trait_member].
      apply forallb_map_in; auto. intros x Hx. apply trail_trait_member_shape. exact (forallb_flat fits _ _ _ F Hx).
    + cbn [trail_item shape_item listed_types im_items] in *. unfold shape_impl in *. cbn -[shape_impl_member wf_generics wf_where] in *. bsplit. rwb.
      rewrite (opt_wf wf_generics), (opt_wf wf_where) by auto using trail_generics_wf, trail_where_wf. cbn -[shape_impl_member].
      assert (S : some (option_map trail_generics xg) = some xg) by (destruct xg; reflexivity). rewrite S. rwb. cbn -[shape_impl_member].
      apply forallb_map_in; auto. intros x Hx. apply trail_impl_member_shape. exact (forallb_flat fits _ _ _ F Hx).
    + cbn [trail_item shape_item listed_types] in *. apply trail_function_wf; auto.
    + cbn [trail_item shape_item listed_types eb_items] in *. unfold shape_extern_block in *. cbn -[shape_impl_member] in *. bsplit. rwb. cbn -[shape_impl_member].
      apply forallb_map_in; auto. intros x Hx. apply trail_impl_member_shape. exact (forallb_flat fits _ _ _ F Hx).
Qed.
Lemma trail_start i : same_start (print_item (trail_item i)) (print_item i).
Proof.
  destruct i as [[]|[]|[]|[]|[]|[]| |f| | |m|[]|]; cbn [trail_item print_item];
    unfold print_struct, print_enum, print_union, print_module, print_trait, print_impl, print_type_alias, print_function, print_constant, print_use, print_macro,
      print_extern_block, print_extern_crate; cbn; repeat (apply same_start_cons || apply same_start_app).
Qed.
Lemma trail_follow i r s : (forall p, head_is p r = head_is p s) -> follow_ok (trail_item i) r = follow_ok i s.
Proof.
  intro H. destruct i as [[a v k n g w f se]|[]|[]|[]|[]|[]| |f| | |m|[]|]; try reflexivity. cbn [trail_item follow_ok]. unfold struct_follow.
  cbn [st_fields st_semicolon st_where]. rewrite !H. destruct f, se, w; reflexivity.
Qed.
Lemma trail_members l : members_follow (map trail_item l) = members_follow l.
Proof.
  induction l as [|i l IH]; [reflexivity|]. cbn [map members_follow]. rewrite IH. f_equal. apply trail_follow. intro p.
  destruct l as [|j l]; [reflexivity|]. cbn [map flat_map]. apply same_start_head, trail_start.
Qed.
Lemma trail_stable i : stable_item (trail_item i) = stable_item i.
Proof.
  induction i as [m IH|i No] using item_nested_ind.
  - destruct m as [a v u k n s b ia ms]. cbn [mo_members] in IH. cbn [trail_item stable_item mo_members]. rewrite trail_members. f_equal.
    induction IH as [|x l Hx _ IHl]; cbn; [auto|rewrite Hx, IHl; auto].
  - destruct i as [[a v k n g w f se]|[]|[]|m|[]|[]| |f| | |m|[]|]; try reflexivity.
    + destruct f; reflexivity.
    + exfalso. eapply No. reflexivity.
    + apply forallb_map_same. intros []; reflexivity.
    + apply forallb_map_same. intros []; reflexivity.
    + apply forallb_map_same. intros []; reflexivity.
Qed.
Lemma trail_round_trip i : forallb fits (listed_types i) = true ->
  parse_item (print_item i) = Ret (Ok i) -> parse_item (print_item (trail_item i)) = Ret (Ok (trail_item i)).
Proof.
  intros F H. apply C01_print_parse_iff in H. apply C01_print_parse_iff. destruct H as [H1 H2]. rewrite (trail_follow i [] []) by auto.
  split; [|exact H2]. unfold wf_item in *. rewrite trail_stable. apply andb_prop in H1. destruct H1 as [H1 ->]. rewrite trail_shape; auto.
Qed.
End Trail.

(** ** C72 *)
(** Dropping all trailing commas, at every depth: the printed item parses to the same item without them. *)
Theorem C72_drop (i : item) :
  parse_item (print_item i) = Ret (Ok i) -> parse_item (print_item (trail_item None i)) = Ret (Ok (trail_item None i)).
Proof. apply trail_round_trip; [exact I|]. apply forallb_forall. reflexivity. Qed.
(** Putting one everywhere, if every field and parameter type closes its angle brackets. *)
Theorem C72_add (c : punct) (i : item) :
  p_char c = ","%char -> forallb (fun t => run_closed end_comma (te_tokens t)) (listed_types i) = true ->
  parse_item (print_item i) = Ret (Ok i) -> parse_item (print_item (trail_item (Some c) i)) = Ret (Ok (trail_item (Some c) i)).
Proof.
  intros Hc. apply (trail_round_trip (Some c)). cbn. unfold p_is. rewrite Hc. reflexivity.
Qed.
(** The elements stay the same. *)
Theorem C72_elements {A B} (o : option punct) (g : A -> B) (p : punctuated A) :
  pu_items (trail o g p) = map g (pu_items p)
  /\ pu_len (trail o g p) = pu_len p
  /\ (pu_inner p <> [] -> pu_skip_last (trail o g p) = match o with None => true | Some _ => false end).
Proof.
  unfold pu_items, pu_len, trail. cbn [pu_inner pu_skip_last]. destruct p as [l sk]. cbn [pu_inner]. generalize (end_comma_of o) as d. intro d.
  split; [|split].
  - induction l as [|[x c] [|y l] IH]; [reflexivity|reflexivity|].
    change (set_last d g ((x, c) :: y :: l)) with ((g x, c) :: set_last d g (y :: l)). cbn [map fst] in *. rewrite IH. reflexivity.
  - induction l as [|[x c] [|y l] IH]; [reflexivity|reflexivity|].
    change (set_last d g ((x, c) :: y :: l)) with ((g x, c) :: set_last d g (y :: l)). cbn [List.length] in *. rewrite IH. reflexivity.
  - destruct l; [congruence|]. intros _. destruct o; reflexivity.
Qed.
(** The condition of [C72_add] is needed: after an open ['<'] the comma becomes part of the type. *)
Theorem C72_open_angle : exists i c,
  parse_item (print_item i) = Ret (Ok i) /\ p_char c = ","%char
  /\ exists j, parse_item (print_item (trail_item (Some c) i)) = Ret (Ok j) /\ j <> trail_item (Some c) i.
Proof.
  exists (item_of "struct S(A < B);"), (mkPunct "," Alone 3%N). split; [vm_compute; reflexivity|]. split; [reflexivity|].
  eexists. split; [vm_compute; reflexivity|]. vm_compute. discriminate.
Qed.
Example C72_example :
  let i := item_of "mod m { struct S<T, U: X,>(A<B, C>, D) where T: Y; impl A { fn f(&self, x: u8,) where A: B, {} } enum E { A(u8,), B { x: u8 } } }" in
  parse_item (print_item i) = Ret (Ok i)
  /\ forallb (fun t => run_closed end_comma (te_tokens t)) (listed_types i) = true
  /\ List.length (listed_types i) = 5
  /\ trail_item None i <> i /\ trail_item (Some (mkPunct "," Alone 0%N)) i <> i.
Proof. split; [vm_compute; reflexivity|]. split; [vm_compute; reflexivity|]. split; [vm_compute; reflexivity|]. split; vm_compute; discriminate. Qed.

(** C16-C18, C26-C30, C42, C43: what a parsed item looks like, relative to its source. *)
From Verif Require Import Unfold Samples Edit PropErr PropRoundTrip.
Local Open Scope string_scope.
Local Open Scope list_scope.

(** ** The leading part of a stream, read off the tokens *)
(** The maximal run of [#] [[..]] pairs, and what follows it. *)
Fixpoint leading_attrs (ts : list tok) : list (punct * group) :=
  match ts with
  | TPunct h :: TGroup g :: r =>
      if Ascii.eqb (p_char h) "#" && delim_eqb (g_delim g) Bracket then (h, g) :: leading_attrs r else []
  | _ => []
  end.
Fixpoint after_attrs (ts : list tok) : list tok :=
  match ts with
  | TPunct h :: TGroup g :: r =>
      if Ascii.eqb (p_char h) "#" && delim_eqb (g_delim g) Bracket then after_attrs r else ts
  | _ => ts
  end.
(** The visibility at the head of a stream, and what follows it. *)
Definition leading_vis (ts : list tok) : list tok * list tok :=
  match ts with
  | TIdent i :: r =>
      if String.eqb (id_str i) "pub" then
        match r with
        | TGroup (mkGroup Parenthesis s sp) :: r' => ([TIdent i; TGroup (mkGroup Parenthesis s sp)], r')
        | _ => ([TIdent i], r)
        end
      else if String.eqb (id_str i) "crate" then ([TIdent i], r)
      else ([], ts)
  | _ => ([], ts)
  end.
(** What follows attributes and visibility. *)
Definition leading (ts : list tok) : list tok := snd (leading_vis (after_attrs ts)).

(** ** C17: attributes *)
(** Does the path of an attribute end here? *)
Definition path_end (t : tok) : bool :=
  match t with TGroup _ => true | TPunct p => Ascii.eqb (p_char p) "=" | _ => false end.
Fixpoint before (f : tok -> bool) (ts : list tok) : list tok :=
  match ts with [] => [] | t :: r => if f t then [] else t :: before f r end.
Fixpoint from (f : tok -> bool) (ts : list tok) : list tok :=
  match ts with [] => [] | t :: r => if f t then ts else from f r end.
(** The attribute written as [#] (or [#!]) and a bracket group. *)
Definition attribute_of (h : punct) (bang : option punct) (g : group) : attribute :=
  mkAttribute h bang (mkGroupSpan (g_delim g) (g_span g)) (before path_end (g_stream g))
    match from path_end (g_stream g) with
    | TGroup v :: _ => AVGroup (mkGroupSpan (g_delim v) (g_span v)) (g_stream v)
    | TPunct e :: v => AVEquals e v
    | _ => AVEmpty
    end.

Lemma attribute_path_spec ts p r : attribute_path ts = Ret (p, r) -> p = before path_end ts /\ r = from path_end ts.
Proof.
  revert p r. induction ts as [|t ts IH]; intros p r H; simpl in *; [bsplit; auto|].
  destruct t as [g|i|q|l]; try discriminate.
  - bsplit. auto.
  - inv_bind H. destruct x as [p' r']. bsplit. destruct (IH _ _ Hx) as [-> ->]. auto.
  - simpl. fold (p_is "=" q). destruct (p_is "=" q).
    + bsplit. auto.
    + destruct (p_is ":" q); [|discriminate].
      inv_bind H. destruct x as [p' r']. bsplit. destruct (IH _ _ Hx) as [-> ->]. auto.
Qed.
Lemma attribute_spec h b g a : parse_attribute h b g = Ret a -> a = attribute_of h b g.
Proof.
  unfold parse_attribute. intro H. inv_bind H. destruct x as [p r]. inv_bind H. bsplit.
  apply attribute_path_spec in Hx. destruct Hx as [-> ->]. unfold attribute_of, group_span_new. f_equal.
  unfold attribute_value_of in Hx0. destruct (from path_end (g_stream g)) as [|[v|i|q|l] r']; try discriminate.
  - injection Hx0 as <-. auto.
  - injection Hx0 as <-. auto.
  - destruct (p_is "=" q); [|discriminate]. injection Hx0 as <-. auto.
Qed.
Local Arguments consume_attributes_with_inner expect_inner !ts.
Lemma outer_spec : forall n ts l r, List.length ts <= n -> consume_outer_attributes ts = Ret (l, r) ->
  l = map (fun hg => attribute_of (fst hg) None (snd hg)) (leading_attrs ts) /\ r = after_attrs ts.
Proof.
  unfold consume_outer_attributes.
  induction n as [|n IH]; intros ts l r Hn H.
  { destruct ts; [|simpl in Hn; lia]. unfold consume_attributes_with_inner in H. bsplit. auto. }
  destruct ts as [|[g|i|h|li] ts]; try (injection H as <- <-; auto; fail).
  cbn [consume_attributes_with_inner] in H. change (Ascii.eqb (p_char h) "#") with (p_is "#" h).
  cbn [leading_attrs after_attrs]. change (Ascii.eqb (p_char h) "#") with (p_is "#" h).
  destruct (p_is "#" h).
  - destruct ts as [|[g|i|q|li] ts]; try discriminate. destruct (delim_eqb (g_delim g) Bracket); [|discriminate].
    inv_bind H. inv_bind H. destruct x0 as [l' r']. injection H as <- <-.
    apply attribute_spec in Hx. subst x. apply IH in Hx0; [|simpl in Hn; lia]. destruct Hx0 as [-> ->]. auto.
  - injection H as <- <-. destruct ts as [|[g|i|q|li] ts]; auto.
Qed.
Global Arguments consume_attributes_with_inner : simpl never.
Lemma vis_spec ts v r : consume_vis_marker ts = (v, r) -> leading_vis ts = (print_opt print_vis v, r).
Proof.
  unfold consume_vis_marker, leading_vis, id_is. intro H. destruct ts as [|[g|i|p|l] ts]; try (injection H as <- <-; auto; fail).
  destruct (String.eqb (id_str i) "pub").
  - destruct ts as [|[[d s sp]|j|p|l] ts]; try (injection H as <- <-; auto; fail).
    destruct d; simpl in H; injection H as <- <-; auto.
  - destruct (String.eqb (id_str i) "crate"); injection H as <- <-; auto.
Qed.

(** The visibility of an item; an impl and a macro have none. *)
Definition item_vis (i : item) : option (option vis_marker) :=
  match i with
  | IStruct s => Some (st_vis s) | IEnum e => Some (en_vis e) | IUnion u => Some (un_vis u)
  | IModule m => Some (mo_vis m) | ITrait t => Some (tr_vis t) | IImpl _ => None
  | ITypeAlias t => Some (ta_vis t) | IFunction f => Some (fn_vis f) | IConstant c => Some (co_vis c)
  | IUse u => Some (us_vis u) | IMacro _ => None | IExternBlock b => Some (eb_vis b)
  | IExternCrate c => Some (ec_vis c)
  end.

(** ** C16: the leading keyword *)
Inductive kind := KStruct | KEnum | KUnion | KModule | KTrait | KImpl | KTypeAlias | KFunction | KConstant
  | KUse | KMacro | KExternBlock | KExternCrate.
Definition kind_of (i : item) : kind :=
  match i with
  | IStruct _ => KStruct | IEnum _ => KEnum | IUnion _ => KUnion | IModule _ => KModule | ITrait _ => KTrait
  | IImpl _ => KImpl | ITypeAlias _ => KTypeAlias | IFunction _ => KFunction | IConstant _ => KConstant
  | IUse _ => KUse | IMacro _ => KMacro | IExternBlock _ => KExternBlock | IExternCrate _ => KExternCrate
  end.
Definition kinds_of (keyword : string) : list kind :=
  match find (fun e => String.eqb (fst e) keyword)
    [("struct", [KStruct]); ("enum", [KEnum]); ("union", [KUnion]); ("mod", [KModule]); ("trait", [KTrait]);
     ("impl", [KImpl]); ("static", [KConstant]); ("use", [KUse]); ("type", [KTypeAlias]); ("fn", [KFunction]);
     ("default", [KFunction]); ("async", [KFunction]); ("const", [KFunction; KConstant]);
     ("unsafe", [KFunction; KModule; KTrait; KImpl; KExternBlock]);
     ("extern", [KFunction; KExternBlock; KExternCrate])] with
  | Some e => snd e
  | None => [KMacro]
  end.

Definition head_fact (i : item) (ts rest : list tok) : Prop :=
  exists ca vis kw tl, ts = ca ++ print_opt print_vis vis ++ TIdent kw :: tl
  /\ wf_outer (item_attributes i) = true /\ spells_attributes (item_attributes i) ca /\ wf_opt wf_vis vis = true
  /\ prefix_ok vis (TIdent kw :: tl) = true /\ (match item_vis i with Some v => v = vis | None => True end)
  /\ In (kind_of i) (kinds_of (id_str kw)).
Lemma kw_prefix s i vis tl : id_is s i = true -> existsb (String.eqb s) vis_keywords = false ->
  prefix_ok vis (TIdent i :: tl) = true.
Proof.
  intros H Hs. apply prefix_ok_ident. unfold id_is in H. apply String.eqb_eq in H. unfold id_in, vis_keywords, id_is.
  rewrite H. exact Hs.
Qed.
Lemma kw_kinds s i : id_is s i = true -> kinds_of (id_str i) = kinds_of s.
Proof. unfold id_is. intro H. apply String.eqb_eq in H. rewrite H. reflexivity. Qed.
Lemma macro_kinds i : id_in item_keywords i = false -> kinds_of (id_str i) = [KMacro].
Proof.
  unfold id_in, item_keywords, id_is, kinds_of. intro H. cbn [existsb] in H.
  repeat (apply orb_false_iff in H; destruct H as [? H]).
  cbn [find fst]. repeat match goal with |- context [String.eqb ?s (id_str i)] =>
    rewrite (String.eqb_sym s (id_str i)) end.
  repeat match goal with E : String.eqb (id_str i) ?s = false |- _ => rewrite E end. reflexivity.
Qed.
Lemma fn_kind (f : function) cp rest : wf_function f = true ->
  exists i r, function_tail f cp ++ rest = TIdent i :: r /\ In KFunction (kinds_of (id_str i)) /\ id_in vis_keywords i = false.
Proof.
  intro H. destruct (function_head f cp rest H) as (i & r & E & Hi). exists i, r. split; auto.
  unfold id_in in Hi |- *. cbn [existsb vis_keywords] in *.
  repeat (apply orb_true_iff in Hi; destruct Hi as [Hi|Hi]); try discriminate;
    rewrite (kw_kinds _ _ Hi); (split; [vm_compute; tauto|]);
    unfold id_is in *; apply String.eqb_eq in Hi; rewrite Hi; reflexivity.
Qed.

Lemma head_lemma ts i rest : consume_item ts = Ret (Ok i, rest) -> head_fact i ts rest.
Proof.
  intro H. apply consume_item_iff in H. destruct H as (c & -> & Hs & Hw & _).
  destruct i as [s|e|u|m|t|im|t|f|k|u|m|b|k]; simpl in Hs, Hw; unfold head_fact; cbn [item_attributes item_vis kind_of].
  - destruct Hs as (ca & cf & Hca & Hcf & ->). unfold shape_struct in Hw. bsplit. app_norm.
    exists ca, (st_vis s), (st_struct s). eexists. repeat split; eauto using kw_prefix. rewrite (kw_kinds "struct") by auto. left; auto.
  - destruct Hs as (ca & cf & Hca & Hcf & ->). unfold wf_enum in Hw. bsplit. app_norm.
    exists ca, (en_vis e), (en_enum e). eexists. repeat split; eauto using kw_prefix. rewrite (kw_kinds "enum") by auto. left; auto.
  - destruct Hs as (ca & cf & Hca & Hcf & ->). unfold wf_union in Hw. bsplit. app_norm.
    exists ca, (un_vis u), (un_union u). eexists. repeat split; eauto using kw_prefix. rewrite (kw_kinds "union") by auto. left; auto.
  - destruct Hs as (ca & cf & Hca & Hcf & ->). unfold shape_module in Hw. bsplit. app_norm.
    destruct (mo_unsafe m) as [un|] eqn:Eu; cbn [print_opt print_ident app wf_opt] in *.
    + exists ca, (mo_vis m), un. eexists. repeat split; eauto using kw_prefix. rewrite (kw_kinds "unsafe") by auto. vm_compute; auto.
    + exists ca, (mo_vis m), (mo_mod m). eexists. repeat split; eauto using kw_prefix. rewrite (kw_kinds "mod") by auto. vm_compute; auto.
  - destruct Hs as (ca & cf & Hca & Hcf & ->). unfold shape_trait in Hw. bsplit. app_norm.
    destruct (tr_unsafe t) as [un|] eqn:Eu; cbn [print_opt print_ident app wf_opt] in *.
    + exists ca, (tr_vis t), un. eexists. repeat split; eauto using kw_prefix. rewrite (kw_kinds "unsafe") by auto. vm_compute; auto.
    + exists ca, (tr_vis t), (tr_trait t). eexists. repeat split; eauto using kw_prefix. rewrite (kw_kinds "trait") by auto. vm_compute; auto.
  - destruct Hs as (ca & vis & cf & Hca & Hv & Hcf & ->). unfold shape_impl in Hw. bsplit. app_norm.
    destruct (im_unsafe im) as [un|] eqn:Eu; cbn [print_opt print_ident app wf_opt] in *.
    + exists ca, vis, un. eexists. repeat split; eauto using kw_prefix. rewrite (kw_kinds "unsafe") by auto. vm_compute; auto.
    + exists ca, vis, (im_impl im). eexists. repeat split; eauto using kw_prefix. rewrite (kw_kinds "impl") by auto. vm_compute; auto.
  - destruct Hs as (ca & Hca & ->). unfold wf_type_alias in Hw. bsplit. app_norm.
    exists ca, (ta_vis t), (ta_type t). eexists. repeat split; eauto using kw_prefix. rewrite (kw_kinds "type") by auto. left; auto.
  - destruct Hs as (ca & cp & Hca & Hcp & ->). destruct (fn_kind f cp rest Hw) as (i & r & E & K & V).
    unfold wf_function in Hw. bsplit. exists ca, (fn_vis f), i, r. rewrite <- E. repeat split; auto.
    + unfold function_tail. app_norm. reflexivity.
    + rewrite E. apply prefix_ok_ident. auto.
  - destruct Hs as (ca & Hca & ->). unfold shape_constant in Hw. bsplit. app_norm.
    exists ca, (co_vis k), (co_kw k). eexists.
    match goal with H : _ || _ = true |- _ => apply orb_true_iff in H; destruct H end; bsplit;
    repeat split; eauto using kw_prefix; [rewrite (kw_kinds "const") by auto|rewrite (kw_kinds "static") by auto]; vm_compute; auto.
  - destruct Hs as (ca & Hca & ->). unfold wf_use in Hw. bsplit. app_norm.
    exists ca, (us_vis u), (us_use u). eexists. repeat split; eauto using kw_prefix. rewrite (kw_kinds "use") by auto. left; auto.
  - destruct Hs as (vis & Hv & Hp & ca & Hca & ->). unfold shape_macro, macro_tokens in *. bsplit. app_norm.
    exists ca, vis, (ma_name m). eexists. repeat split; eauto using prefix_ok_cons.
    rewrite macro_kinds by auto. left; auto.
  - destruct Hs as (ca & cf & Hca & Hcf & ->). unfold shape_extern_block in Hw. bsplit. app_norm.
    destruct (eb_unsafe b) as [un|] eqn:Eu; cbn [print_opt print_ident app wf_opt] in *.
    + exists ca, (eb_vis b), un. eexists. repeat split; eauto using kw_prefix. rewrite (kw_kinds "unsafe") by auto. vm_compute; auto 10.
    + exists ca, (eb_vis b), (eb_extern b). eexists. repeat split; eauto using kw_prefix. rewrite (kw_kinds "extern") by auto. vm_compute; auto.
  - destruct Hs as (ca & Hca & ->). unfold wf_extern_crate in Hw. bsplit. app_norm.
    exists ca, (ec_vis k), (ec_extern k). eexists. repeat split; eauto using kw_prefix. rewrite (kw_kinds "extern") by auto. vm_compute; auto.
Qed.
Lemma prefix_leading l ca vis r : wf_outer l = true -> spells_attributes l ca -> wf_opt wf_vis vis = true ->
  prefix_ok vis r = true ->
  l = map (fun hg => attribute_of (fst hg) None (snd hg)) (leading_attrs (ca ++ print_opt print_vis vis ++ r))
  /\ leading_vis (after_attrs (ca ++ print_opt print_vis vis ++ r)) = (print_opt print_vis vis, r).
Proof.
  intros H1 H2 H3 H4. pose proof (attrs_vis_complete l ca vis r H1 H2 H3 H4) as H.
  apply (outer_spec _ _ _ _ (le_n _)) in H. destruct H as [H5 H6]. split; auto.
  rewrite <- H6. apply vis_spec. apply vis_complete; auto.
Qed.

Theorem C16_keyword_decides (ts rest : list tok) r :
  consume_item ts = Ret (r, rest) ->
  exists kw tl, leading ts = TIdent kw :: tl
  /\ match r with Ok i => In (kind_of i) (kinds_of (id_str kw)) | Err _ => id_str kw = "enum" end.
Proof.
  intro H. destruct r as [i|er].
  - destruct (head_lemma _ _ _ H) as (ca & vis & kw & tl & -> & H1 & H2 & H3 & H4 & _ & H5).
    exists kw, tl. unfold leading. destruct (prefix_leading _ _ _ _ H1 H2 H3 H4) as [_ ->]. auto.
  - destruct (C12_no_err_from_module _ _ _ H) as (attrs & ts0 & vis & kw & tl & H1 & H2 & H3).
    exists kw, tl. apply (outer_spec _ _ _ _ (le_n _)) in H1. destruct H1 as [_ ->]. apply vis_spec in H2.
    unfold leading. rewrite H2. auto.
Qed.
(** Hence a stream that does not start with an identifier (after attributes and
    visibility) panics. *)
Theorem C16_no_identifier_panics (ts : list tok) :
  match leading ts with TIdent _ :: _ => False | _ => True end -> exists p, consume_item ts = Panic p.
Proof.
  intro H. pose proof (consume_item_safe ts) as Hs. destruct (consume_item ts) as [[r rest]|p|] eqn:E; [| eauto |contradiction].
  apply C16_keyword_decides in E. destruct E as (kw & tl & E & _). rewrite E in H. contradiction.
Qed.
Definition kind_in (s : string) : list kind := map kind_of (items_of 1 (lex s)).
Example C16_example :
  map kind_in ["#[a] pub(crate) struct S;"; "unsafe impl A {}"; "pub unsafe mod m {}"; "unsafe trait T {}"; "unsafe extern {}";
    "unsafe fn f() {}"; "const C: u8;"; "const fn f() {}"; "extern crate a;"; "extern fn f();"; "crate extern {}"; "pub(x) mac!{}";
    "async fn f();"; "default fn f();"; "static S: u8;"; "use a;"; "type T;"; "union U {}"; "enum E {}"]
  = [[KStruct]; [KImpl]; [KModule]; [KTrait]; [KExternBlock]; [KFunction]; [KConstant]; [KFunction]; [KExternCrate]; [KFunction];
     [KExternBlock]; [KMacro]; [KFunction]; [KFunction]; [KConstant]; [KUse]; [KTypeAlias]; [KUnion]; [KEnum]]
  /\ map (fun s => panic_of (consume_item (lex s))) ["5"; ""; "#[a] pub ="; "(x)"] = [Some PNoDeclaration; Some PEndOfStream; Some PNoDeclaration; Some PNoDeclaration].
Proof. vm_compute. auto. Qed.

Theorem C17_attributes (ts rest : list tok) i :
  consume_item ts = Ret (Ok i, rest) ->
  item_attributes i = map (fun hg => attribute_of (fst hg) None (snd hg)) (leading_attrs ts).
Proof.
  intro H. destruct (head_lemma _ _ _ H) as (ca & vis & kw & tl & -> & H1 & H2 & H3 & H4 & _).
  eapply prefix_leading; eauto.
Qed.
Example C17_example :
  match consume_item (lex "#[a::b] #[doc = x y] #[derive(A, B) ignored] struct S;") with
  | Ret (Ok i, []) => map (fun a => (List.length (at_path a), List.length (get_value_tokens a))) (item_attributes i)
      = [(4, 0); (1, 2); (1, 3)]
  | _ => False
  end.
Proof. vm_compute. reflexivity. Qed.

(** ** C18: visibilities *)
Definition vis_text (v : vis_marker) : Prop :=
  (exists i, v = mkVis (TIdent i) None /\ (id_str i = "pub" \/ id_str i = "crate"))
  \/ (exists i s sp, v = mkVis (TIdent i) (Some (TGroup (mkGroup Parenthesis s sp))) /\ id_str i = "pub").
(** All visibilities stored in an item. *)
Definition opt_list {A} (o : option A) : list A := match o with Some x => [x] | None => [] end.
Definition fields_vis (f : fields) : list vis_marker :=
  match f with
  | FUnit => []
  | FTuple f => flat_map (fun x => opt_list (tf_vis x)) (pu_items (tfs_fields f))
  | FNamed f => flat_map (fun x => opt_list (nf_vis x)) (pu_items (nfs_fields f))
  end.
Definition member_vis (m : impl_member) : list vis_marker :=
  match m with
  | IMFunction f => opt_list (fn_vis f)
  | IMConstant c => opt_list (co_vis c)
  | IMType t => opt_list (ta_vis t)
  | IMMacro _ => []
  end.
Fixpoint all_vis (i : item) : list vis_marker :=
  match item_vis i with Some (Some v) => [v] | _ => [] end ++
  match i with
  | IStruct s => fields_vis (st_fields s)
  | IEnum e => flat_map (fun v => opt_list (ev_vis v) ++ fields_vis (ev_fields v)) (pu_items (en_variants e))
  | IUnion u => fields_vis (FNamed (un_fields u))
  | ITrait t => flat_map (fun m => member_vis (impl_of_trait_member m)) (tr_items t)
  | IImpl i => flat_map member_vis (im_items i)
  | IExternBlock b => flat_map member_vis (eb_items b)
  | IModule m => flat_map all_vis (mo_members m)
  | _ => []
  end.
Lemma wf_vis_text v : wf_vis v = true -> vis_text v.
Proof.
  destruct v as [[g|i|p|l] [[[d s sp]|j|q|l']|]]; simpl; intro H; try discriminate; bsplit.
  - right. destruct d; try discriminate. apply String.eqb_eq in H. exists i, s, sp. auto.
  - left. exists i. split; auto. apply orb_true_iff in H. destruct H as [H|H]; apply String.eqb_eq in H; auto.
Qed.
Lemma opt_vis_text o v : wf_opt wf_vis o = true -> In v (opt_list o) -> vis_text v.
Proof. destruct o; simpl; [|contradiction]. intros H [<-|[]]. apply wf_vis_text; auto. Qed.
Lemma wf_inner_in {A} (wf : bool -> A -> bool) skip l x :
  wf_inner wf skip l = true -> In x (map fst l) -> exists b, wf b x = true.
Proof.
  induction l as [|[y p] l IH]; simpl; [contradiction|]. intros H Hx. destruct l as [|z l].
  - bsplit. destruct Hx as [<-|[]]. eauto.
  - destruct z as [z q]. apply andb_true_iff in H. destruct H as [H H2]. apply andb_true_iff in H. destruct H as [H _].
    destruct Hx as [<-|Hx]; eauto.
Qed.
Lemma fields_vis_text f v : wf_fields f = true -> In v (fields_vis f) -> vis_text v.
Proof.
  destruct f as [|f|f]; simpl; intros H Hv; [contradiction| |].
  - unfold wf_tuple_fields, wf_punctuated in H. bsplit. apply in_flat_map in Hv. destruct Hv as (x & Hx & Hv).
    destruct (wf_inner_in _ _ _ _ H0 Hx) as [b Hb]. unfold wf_tuple_field in Hb. bsplit. eapply opt_vis_text; eauto.
  - unfold wf_named_fields, wf_punctuated in H. bsplit. apply in_flat_map in Hv. destruct Hv as (x & Hx & Hv).
    destruct (wf_inner_in _ _ _ _ H0 Hx) as [b Hb]. unfold wf_named_field in Hb. bsplit. eapply opt_vis_text; eauto.
Qed.
Lemma member_vis_text allow m v : shape_impl_member allow m = true -> In v (member_vis m) -> vis_text v.
Proof.
  destruct m; simpl; intros H Hv; try contradiction; (eapply opt_vis_text; [|eauto]).
  - unfold wf_function in H. bsplit. auto.
  - unfold shape_constant in H. bsplit. auto.
  - unfold wf_type_alias in H. bsplit. auto.
Qed.
Lemma forallb_in {A} (f : A -> bool) l x : forallb f l = true -> In x l -> f x = true.
Proof. rewrite forallb_forall. auto. Qed.
Lemma shape_item_vis i o : shape_item i = true -> item_vis i = Some o -> wf_opt wf_vis o = true.
Proof.
  destruct i; simpl; intros H E; try discriminate; injection E as <-;
    unfold shape_struct, wf_enum, wf_union, shape_module, shape_trait, wf_type_alias, wf_function, shape_constant,
      wf_use, shape_extern_block, wf_extern_crate in H; bsplit; auto.
Qed.
Lemma all_vis_text : forall i v, shape_item i = true -> In v (all_vis i) -> vis_text v.
Proof.
  fix IH 1. intros i v Hw Hv.
  assert (H0 : In v match item_vis i with Some (Some v) => [v] | _ => [] end -> vis_text v).
  { intro H. destruct (item_vis i) as [o|] eqn:E; [|contradiction]. pose proof (shape_item_vis _ _ Hw E) as Ho.
    destruct o as [w|]; [|contradiction]. destruct H as [<-|[]]. apply wf_vis_text. exact Ho. }
  destruct i as [s|e|u|m|t|im|t|f|k|u|m|b|k]; cbn [all_vis] in Hv; apply in_app_or in Hv;
    (destruct Hv as [Hv|Hv]; [exact (H0 Hv)|]); try contradiction; clear H0; cbn [shape_item] in Hw.
  - unfold shape_struct in Hw. bsplit. eapply fields_vis_text; [|exact Hv]. auto.
  - unfold wf_enum, wf_punctuated in Hw. bsplit. apply in_flat_map in Hv. destruct Hv as (x & Hx & Hv).
    match goal with H : wf_inner wf_variant _ _ = true |- _ => destruct (wf_inner_in _ _ _ _ H Hx) as [c Hc] end.
    unfold wf_variant in Hc. bsplit. apply in_app_or in Hv.
    destruct Hv as [Hv|Hv]; [eapply opt_vis_text|eapply fields_vis_text]; eauto.
  - unfold wf_union in Hw. bsplit. eapply fields_vis_text; [|exact Hv]. auto.
  - assert (Hm : forallb shape_item (mo_members m) = true).
    { unfold shape_module in Hw. bsplit. destruct (mo_semicolon m), (mo_braces m); try discriminate; bsplit; auto.
      destruct (mo_members m); [reflexivity|discriminate]. }
    clear Hw. induction (mo_members m) as [|j l IHl]; [contradiction|]. cbn [flat_map forallb] in *.
    apply andb_true_iff in Hm. destruct Hm as [H1 H2]. apply in_app_or in Hv.
    destruct Hv as [Hv|Hv]; [exact (IH j v H1 Hv)|exact (IHl Hv H2)].
  - unfold shape_trait in Hw. bsplit. apply in_flat_map in Hv. destruct Hv as (x & Hx & Hv).
    match goal with H : forallb shape_trait_member _ = true |- _ => pose proof (forallb_in _ _ _ H Hx) as Hm end.
    eapply (member_vis_text false); eauto.
  - unfold shape_impl in Hw. bsplit. apply in_flat_map in Hv. destruct Hv as (x & Hx & Hv).
    match goal with H : forallb (shape_impl_member _) _ = true |- _ => pose proof (forallb_in _ _ _ H Hx) as Hm end.
    eapply member_vis_text; eauto.
  - unfold shape_extern_block in Hw. bsplit. apply in_flat_map in Hv. destruct Hv as (x & Hx & Hv).
    match goal with H : forallb (shape_impl_member _) _ = true |- _ => pose proof (forallb_in _ _ _ H Hx) as Hm end.
    eapply member_vis_text; eauto.
Qed.
Theorem C18_visibilities (ts rest : list tok) i v :
  consume_item ts = Ret (Ok i, rest) -> In v (all_vis i) -> vis_text v.
Proof. intro H. apply consume_item_iff in H. destruct H as (c & _ & _ & Hw & _). apply all_vis_text; auto. Qed.
(** The visibility of an item is the one at the head of the stream. *)
Theorem C18_item_visibility (ts rest : list tok) i o :
  consume_item ts = Ret (Ok i, rest) -> item_vis i = Some o -> print_opt print_vis o = fst (leading_vis (after_attrs ts)).
Proof.
  intros H E. destruct (head_lemma _ _ _ H) as (ca & vis & kw & tl & -> & H1 & H2 & H3 & H4 & H5 & _).
  rewrite E in H5. subst o. destruct (prefix_leading _ _ _ _ H1 H2 H3 H4) as [_ ->]. reflexivity.
Qed.
(** [Debug for VisMarker] (src/types.rs:971-985), up to its text: it panics on a second token
    that is not a group. *)
Definition vis_debug_ok (v : vis_marker) : bool :=
  match vis_token2 v with None => true | Some (TGroup _) => true | _ => false end.
Theorem C18_debug_never_panics (ts rest : list tok) i v :
  consume_item ts = Ret (Ok i, rest) -> In v (all_vis i) -> vis_debug_ok v = true.
Proof.
  intros H Hv. destruct (C18_visibilities _ _ _ _ H Hv) as [(k & -> & _)|(k & s & sp & -> & _)]; reflexivity.
Qed.
Example C18_example : List.length (all_vis rich_module) = 7 /\ parse_item (lex rich_text) = Ret (Ok rich_module).
Proof. vm_compute. auto. Qed.

(** ** Items at any depth *)
(** An item and the members of its modules, recursively. *)
Fixpoint all_items (i : item) : list item :=
  i :: match i with IModule m => flat_map all_items (mo_members m) | _ => [] end.
Lemma all_items_shape : forall i j, shape_item i = true -> In j (all_items i) -> shape_item j = true.
Proof.
  fix IH 1. intros i j Hw Hj.
  destruct i as [s|e|u|m|t|im|t|f|k|u|m|b|k]; cbn [all_items] in Hj;
    try (destruct Hj as [<-|[]]; exact Hw; fail).
  destruct Hj as [<-|Hj]; [exact Hw|].
  assert (Hm : forallb shape_item (mo_members m) = true).
  { cbn [shape_item] in Hw. unfold shape_module in Hw. bsplit. destruct (mo_semicolon m), (mo_braces m); try discriminate; bsplit; auto.
    destruct (mo_members m); [reflexivity|discriminate]. }
  clear Hw. induction (mo_members m) as [|k l IHl]; [contradiction|]. cbn [flat_map forallb] in *.
  apply andb_true_iff in Hm. destruct Hm as [H1 H2]. apply in_app_or in Hj.
  destruct Hj as [Hj|Hj]; [exact (IH k j H1 Hj)|exact (IHl Hj H2)].
Qed.
Lemma parsed_shape ts i rest j : consume_item ts = Ret (Ok i, rest) -> In j (all_items i) -> shape_item j = true.
Proof. intro H. apply consume_item_iff in H. destruct H as (c & _ & _ & Hw & _). apply all_items_shape; auto. Qed.

(** ** C26: functions *)
(** The functions of an item: itself, or its members. *)
Definition member_fn (m : impl_member) : list function := match m with IMFunction f => [f] | _ => [] end.
Definition own_functions (i : item) : list function :=
  match i with
  | IFunction f => [f]
  | ITrait t => flat_map (fun m => member_fn (impl_of_trait_member m)) (tr_items t)
  | IImpl i => flat_map member_fn (im_items i)
  | IExternBlock b => flat_map member_fn (eb_items b)
  | _ => []
  end.
Lemma own_functions_wf i f : shape_item i = true -> In f (own_functions i) -> wf_function f = true.
Proof.
  assert (G : forall allow l, forallb (shape_impl_member allow) l = true -> In f (flat_map member_fn l) -> wf_function f = true).
  { intros allow l Hl Hf. apply in_flat_map in Hf. destruct Hf as (m & Hm & Hf). pose proof (forallb_in _ _ _ Hl Hm) as H.
    destruct m; simpl in Hf; try contradiction. destruct Hf as [<-|[]]. exact H. }
  destruct i; simpl; intros Hw Hf; try contradiction.
  - unfold shape_trait in Hw. bsplit. apply in_flat_map in Hf. destruct Hf as (m & Hm & Hf).
    match goal with H : forallb shape_trait_member _ = true |- _ => pose proof (forallb_in _ _ _ H Hm) as H' end.
    apply (G false [impl_of_trait_member m]); simpl; [|rewrite app_nil_r; auto].
    unfold shape_trait_member in H'. rewrite H'. reflexivity.
  - unfold shape_impl in Hw. bsplit. eapply G; eauto.
  - destruct Hf as [<-|[]]. exact Hw.
  - unfold shape_extern_block in Hw. bsplit. eapply G; eauto.
Qed.
Definition one_of {A B} (a : option A) (b : option B) : Prop :=
  (exists x, a = Some x /\ b = None) \/ (exists y, a = None /\ b = Some y).
Theorem C26_function_shape (ts rest : list tok) i j f :
  consume_item ts = Ret (Ok i, rest) -> In j (all_items i) -> In f (own_functions j) ->
  one_of (fn_body f) (fn_semicolon f)
  /\ (fn_arrow f = None <-> fn_ret f = None)
  /\ (fq_extern (fn_qualifiers_ f) = None -> fq_abi (fn_qualifiers_ f) = None).
Proof.
  intros H Hj Hf. pose proof (own_functions_wf _ _ (parsed_shape _ _ _ _ H Hj) Hf) as Hw. clear -Hw.
  unfold wf_function, wf_qualifiers in Hw. bsplit. unfold one_of. repeat split.
  - destruct (fn_body f), (fn_semicolon f); try discriminate; eauto.
  - intro E. rewrite E in *. destruct (fn_ret f); [discriminate|auto].
  - intro E. rewrite E in *. destruct (fn_arrow f) as [[? ?]|]; [discriminate|auto].
  - intro E. rewrite E in *. destruct (fq_abi (fn_qualifiers_ f)); [discriminate|auto].
Qed.
(** The parameters are the successive sections of the parenthesised group, each followed by
    its comma (which may be missing after a receiver). *)
Theorem C26_parameters (ts rest : list tok) f :
  consume_item ts = Ret (Ok (IFunction f), rest) ->
  exists before group after, ts = before ++ TGroup group :: after /\ g_delim group = Parenthesis
  /\ spells_punctuated spells_fn_param gap_param (fn_params f) (g_stream group).
Proof.
  intro H. apply consume_item_iff in H. destruct H as (c & -> & (ca & cp & Hca & (s & Hs & ->) & ->) & Hw & _).
  simpl in Hw. unfold wf_function in Hw. bsplit. unfold quote_with.
  match goal with H : delim_eqb _ Parenthesis = true |- _ => rename H into Hd end.
  exists (ca ++ print_opt print_vis (fn_vis f) ++ print_qualifiers (fn_qualifiers_ f)
         ++ TIdent (fn_kw f) :: TIdent (fn_name f) :: print_opt print_generic_params (fn_generics f)).
  eexists (mkGroup _ s _). eexists. split; [|split; [|exact Hs]].
  - app_norm. reflexivity.
  - simpl. destruct (gs_delim (fn_parens f)); try discriminate. reflexivity.
Qed.
Example C26_example :
  match consume_item (lex "pub const unsafe extern ""C"" fn f<T>(&'a mut self, #[x] mut a: Vec<A, B>, b: u8,) -> Vec<T> where T: X;") with
  | Ret (Ok (IFunction f), []) =>
      map (fun p => match p with FPReceiver r => "self" | FPTyped t => id_str (ft_name t) end) (pu_items (fn_params f)) = ["self"; "a"; "b"]
      /\ fn_body f = None /\ fn_arrow f <> None /\ fq_abi (fn_qualifiers_ f) <> None
  | _ => False
  end.
Proof. vm_compute. repeat split; discriminate. Qed.

(** ** C27: modules *)
Theorem C27_module_shape (ts rest : list tok) i m :
  consume_item ts = Ret (Ok i, rest) -> In (IModule m) (all_items i) ->
  one_of (mo_semicolon m) (mo_braces m)
  /\ (mo_braces m = None -> mo_members m = [] /\ mo_inner_attributes m = [])
  /\ (forall p, mo_semicolon m = Some p -> p_char p = ";"%char)
  /\ (forall g, mo_braces m = Some g -> gs_delim g = Brace)
  /\ id_str (mo_mod m) = "mod".
Proof.
  intros H Hj. pose proof (parsed_shape _ _ _ _ H Hj) as Hw. clear -Hw. simpl in Hw. unfold shape_module in Hw. bsplit.
  unfold one_of. destruct (mo_semicolon m) as [p|], (mo_braces m) as [g|]; try discriminate; bsplit.
  - repeat split; eauto; try discriminate.
    + destruct (mo_members m); [auto|discriminate].
    + destruct (mo_inner_attributes m); [auto|discriminate].
    + intros q E. injection E as <-. apply Ascii.eqb_eq. assumption.
    + apply String.eqb_eq. assumption.
  - repeat split; eauto; try discriminate.
    + intros q E. injection E as <-. destruct (gs_delim g); try discriminate; auto.
    + apply String.eqb_eq. assumption.
Qed.
Example C27_example :
  match parse_item (lex "mod a { #![x] mod b; unsafe mod c { mod d; } }") with
  | Ret (Ok i) => map (fun j => match j with IModule m => id_str (mo_name m) | _ => "" end) (all_items i) = ["a"; "b"; "c"; "d"]
  | _ => False
  end.
Proof. vm_compute. reflexivity. Qed.

(** ** C28, C30: impls, traits and extern blocks *)
Definition member_constants (m : impl_member) : list constant := match m with IMConstant c => [c] | _ => [] end.
Theorem C28_impl_shape (ts rest : list tok) i im :
  consume_item ts = Ret (Ok i, rest) -> In (IImpl im) (all_items i) ->
  (im_trait im = None <-> im_for im = None)
  /\ (forall f, im_for im = Some f -> id_str f = "for")
  /\ (forall c, In c (flat_map member_constants (im_items im)) -> id_str (co_kw c) = "const").
Proof.
  intros H Hj. pose proof (parsed_shape _ _ _ _ H Hj) as Hw. clear -Hw. simpl in Hw. unfold shape_impl in Hw. bsplit.
  repeat split.
  - intro E. rewrite E in *. destruct (im_for im); [discriminate|auto].
  - intro E. rewrite E in *. destruct (im_trait im); [discriminate|auto].
  - intros f E. rewrite E in *. destruct (im_trait im); [|discriminate]. bsplit. apply String.eqb_eq. assumption.
  - intros c Hc. apply in_flat_map in Hc. destruct Hc as (m & Hm & Hc).
    match goal with H : forallb (shape_impl_member false) _ = true |- _ => pose proof (forallb_in _ _ _ H Hm) as H' end.
    destruct m; try contradiction. destruct Hc as [<-|[]]. simpl in H'. bsplit. apply String.eqb_eq. assumption.
Qed.
Theorem C30_no_static_member (ts rest : list tok) i j c :
  consume_item ts = Ret (Ok i, rest) -> In j (all_items i) ->
  In c (match j with
        | IImpl im => flat_map member_constants (im_items im)
        | ITrait t => flat_map (fun m => member_constants (impl_of_trait_member m)) (tr_items t)
        | _ => []
        end) ->
  is_static c = false /\ id_str (co_kw c) = "const".
Proof.
  intros H Hj Hc. assert (G : id_str (co_kw c) = "const").
  { destruct j; try contradiction.
    - pose proof (parsed_shape _ _ _ _ H Hj) as Hw. simpl in Hw. unfold shape_trait in Hw. bsplit.
      apply in_flat_map in Hc. destruct Hc as (m & Hm & Hc).
      match goal with H : forallb shape_trait_member _ = true |- _ => pose proof (forallb_in _ _ _ H Hm) as H' end.
      unfold shape_trait_member in H'. destruct (impl_of_trait_member m); try contradiction. destruct Hc as [<-|[]].
      simpl in H'. bsplit. apply String.eqb_eq. assumption.
    - destruct (C28_impl_shape _ _ _ _ H Hj) as (_ & _ & G). auto. }
  split; auto. unfold is_static, id_is. rewrite G. reflexivity.
Qed.
(** Extern blocks accept them: any well-formed block parses, whatever the keywords of its
    constants. *)
Theorem C30_extern_static (b : extern_block) (rest : list tok) :
  shape_extern_block b = true -> forallb stable_impl_member (eb_items b) = true ->
  consume_item (print_item (IExternBlock b) ++ rest) = Ret (Ok (IExternBlock b), rest).
Proof. intros H1 H2. apply C01_print_consume; auto. unfold wf_item. simpl. rewrite H1, H2. reflexivity. Qed.
Example C28_example :
  match parse_item (lex "unsafe impl<T> A for B<T> where T: X { const C: u8 = 1; fn f(); type T = u8; m!{} }") with
  | Ret (Ok (IImpl im)) => List.length (flat_map member_constants (im_items im)) = 1 /\ im_for im <> None
  | _ => False
  end.
Proof. vm_compute. split; [reflexivity|discriminate]. Qed.
Example C30_example :
  panic_of (parse_item (lex "impl A { static S: u8; }")) = Some PUnsupportedMember
  /\ panic_of (parse_item (lex "trait A { static S: u8; }")) = Some PUnsupportedMember
  /\ match parse_item (lex "extern { static S: u8; const C: u8; }") with
     | Ret (Ok (IExternBlock b)) =>
         map is_static (flat_map member_constants (eb_items b)) = [true; false] /\ shape_extern_block b = true
     | _ => False
     end.
Proof. vm_compute. auto. Qed.
Example C30_example_stable :
  match item_of "extern { static mut: u8; }",
        item_of "unsafe extern ""C"" { pub static S: u8; #[a] fn f(x: u8); m!{} type T; }" with
  | IExternBlock a, IExternBlock b => shape_extern_block b = true /\ forallb stable_impl_member (eb_items b) = true /\ List.length (eb_items b) = 4
      /\ forallb stable_impl_member (eb_items a) = false
  | _, _ => False
  end.
Proof. vm_compute. auto. Qed.

(** ** C42: names *)
(** The keyword in front of the name. *)
Definition name_keywords (k : kind) : list string :=
  match k with
  | KStruct => ["struct"] | KEnum => ["enum"] | KUnion => ["union"] | KModule => ["mod"] | KTrait => ["trait"]
  | KTypeAlias => ["type"] | KFunction => ["fn"] | KConstant => ["const"; "static"] | KExternCrate => ["crate"]
  | _ => []
  end.
(** Qualifiers that may stand in front of that keyword. *)
Definition qualifier (t : tok) : bool :=
  match t with
  | TIdent i => existsb (fun s => String.eqb (id_str i) s) ["default"; "const"; "async"; "unsafe"; "extern"]
  | TLit _ => true
  | _ => false
  end.
Theorem C42_name (ts rest : list tok) i :
  consume_item ts = Ret (Ok i, rest) ->
  match item_name i with
  | None => In (kind_of i) [KImpl; KUse; KExternBlock]
  | Some name =>
      ~ In (kind_of i) [KImpl; KUse; KExternBlock] /\
      if match kind_of i with KMacro => true | _ => false end
      then exists bang tl, leading ts = TIdent name :: TPunct bang :: tl /\ p_char bang = "!"%char
      else exists quals kw tl, leading ts = quals ++ TIdent kw :: TIdent name :: tl
           /\ forallb qualifier quals = true /\ In (id_str kw) (name_keywords (kind_of i))
  end.
Proof.
  intro H. pose proof H as H0. apply consume_item_iff in H. destruct H as (c & -> & Hs & Hw & _).
  assert (K : forall s i, id_is s i = true -> s = id_str i) by (intros s k E; symmetry; apply String.eqb_eq; exact E).
  assert (L : forall ca vis r, wf_outer (item_attributes i) = true -> spells_attributes (item_attributes i) ca ->
     wf_opt wf_vis vis = true -> prefix_ok vis r = true -> leading (ca ++ print_opt print_vis vis ++ r) = r).
  { intros ca vis r L1 L2 L3 L4. unfold leading. destruct (prefix_leading _ _ _ _ L1 L2 L3 L4) as [_ ->]. reflexivity. }
  destruct i as [s|e|u|m|t|im|t|f|k|u|m|b|k]; simpl in Hs, Hw; cbn [item_name kind_of name_keywords item_attributes] in *;
    try (simpl; tauto); (split; [simpl; intuition discriminate|]).
  - destruct Hs as (ca & cf & Hca & Hcf & ->). unfold shape_struct in Hw. bsplit. app_norm.
    rewrite L; eauto using kw_prefix. exists [], (st_struct s). eexists. split; [reflexivity|]. simpl. auto 6.
  - destruct Hs as (ca & cf & Hca & Hcf & ->). unfold wf_enum in Hw. bsplit. app_norm.
    rewrite L; eauto using kw_prefix. exists [], (en_enum e). eexists. split; [reflexivity|]. simpl. auto 6.
  - destruct Hs as (ca & cf & Hca & Hcf & ->). unfold wf_union in Hw. bsplit. app_norm.
    rewrite L; eauto using kw_prefix. exists [], (un_union u). eexists. split; [reflexivity|]. simpl. auto 6.
  - destruct Hs as (ca & cf & Hca & Hcf & ->). unfold shape_module in Hw. bsplit. app_norm.
    exists (print_opt print_ident (mo_unsafe m)), (mo_mod m), (cf ++ rest).
    destruct (mo_unsafe m) as [un|]; cbn [print_opt print_ident app wf_opt] in *; (rewrite L; eauto using kw_prefix);
      (split; [reflexivity|]); simpl; auto 6.
    rewrite <- (K "unsafe" un) by auto. simpl. auto 6.
  - destruct Hs as (ca & cf & Hca & Hcf & ->). unfold shape_trait in Hw. bsplit. app_norm.
    exists (print_opt print_ident (tr_unsafe t)), (tr_trait t). eexists.
    destruct (tr_unsafe t) as [un|]; cbn [print_opt print_ident app wf_opt] in *; (rewrite L; eauto using kw_prefix);
      (split; [reflexivity|]); simpl; auto 6.
    rewrite <- (K "unsafe" un) by auto. simpl. auto 6.
  - destruct Hs as (ca & Hca & ->). unfold wf_type_alias in Hw. bsplit. app_norm.
    rewrite L; eauto using kw_prefix. exists [], (ta_type t). eexists. split; [reflexivity|]. simpl. auto 6.
  - destruct Hs as (ca & cp & Hca & Hcp & ->). destruct (fn_kind f cp rest Hw) as (i & r & E & _ & V).
    unfold wf_function, wf_qualifiers in Hw. bsplit.
    match goal with |- context [leading (?x ++ rest)] =>
      replace (x ++ rest) with (ca ++ print_opt print_vis (fn_vis f) ++ function_tail f cp ++ rest)
      by (unfold function_tail; app_norm; reflexivity) end.
    rewrite L; auto. 2:{ rewrite E. apply prefix_ok_ident. auto. }
    exists (print_qualifiers (fn_qualifiers_ f)), (fn_kw f). eexists. split; [unfold function_tail; app_norm; reflexivity|].
    split; [|simpl; auto 6].
    unfold print_qualifiers.
    destruct (fn_qualifiers_ f) as [d c a u e b]; simpl in *.
    destruct d, c, a, u, e, b; simpl in *; try discriminate;
      repeat match goal with E : id_is ?s ?x = true |- _ => rewrite <- (K s x E); clear E end; reflexivity.
  - destruct Hs as (ca & Hca & ->). unfold shape_constant in Hw. bsplit. app_norm.
    exists [], (co_kw k). eexists.
    match goal with H : _ || _ = true |- _ => apply orb_true_iff in H; destruct H end; bsplit;
      (rewrite L; eauto using kw_prefix); (split; [reflexivity|]); simpl; auto 6.
  - destruct Hs as (vis & Hv & Hp & ca & Hca & ->). unfold shape_macro, macro_tokens in *. bsplit. app_norm.
    rewrite L; eauto using prefix_ok_cons. exists (ma_bang m). eexists. split; [reflexivity|]. apply Ascii.eqb_eq. auto.
  - destruct Hs as (ca & Hca & ->). unfold wf_extern_crate in Hw. bsplit. app_norm.
    rewrite L; eauto using kw_prefix. exists [TIdent (ec_extern k)], (ec_crate k). eexists. split; [reflexivity|].
    simpl. rewrite <- (K "extern" (ec_extern k)) by auto. simpl. auto 6.
Qed.
Example C42_example :
  map (fun s => map (fun i => option_map id_str (item_name i)) (items_of 1 (lex s)))
    ["#[a] pub struct S;"; "const async unsafe extern ""C"" fn f();"; "static T: u8;"; "vec![]"; "vec!();"; "unsafe mod m;";
     "extern crate a as b;"; "use a::b;"; "impl A {}"; "extern {}"]
  = [[Some "S"]; [Some "f"]; [Some "T"]; []; [Some "vec"]; [Some "m"]; [Some "a"]; [None]; [None]; [None]].
Proof. vm_compute. reflexivity. Qed.

(** ** C43: the thirteen accessors *)
(** Each accessor with the constructor it undoes. *)
Definition views (i : item) : list (option item) :=
  [option_map IStruct (as_struct i); option_map IEnum (as_enum i); option_map IUnion (as_union i);
   option_map IModule (as_module i); option_map ITrait (as_trait i); option_map IImpl (as_impl i);
   option_map ITypeAlias (as_type_alias i); option_map IFunction (as_function i); option_map IConstant (as_constant i);
   option_map IUse (as_use_declaration i); option_map IMacro (as_macro i); option_map IExternBlock (as_extern_block i);
   option_map IExternCrate (as_extern_crate i)].
Theorem C43_one_accessor (i : item) :
  exists l r, views i = l ++ Some i :: r /\ Forall (eq None) (l ++ r) /\ List.length (l ++ r) = 12.
Proof.
  destruct i; unfold views; cbn.
  - exists [], (repeat None 12). repeat constructor.
  - exists (repeat None 1), (repeat None 11). repeat constructor.
  - exists (repeat None 2), (repeat None 10). repeat constructor.
  - exists (repeat None 3), (repeat None 9). repeat constructor.
  - exists (repeat None 4), (repeat None 8). repeat constructor.
  - exists (repeat None 5), (repeat None 7). repeat constructor.
  - exists (repeat None 6), (repeat None 6). repeat constructor.
  - exists (repeat None 7), (repeat None 5). repeat constructor.
  - exists (repeat None 8), (repeat None 4). repeat constructor.
  - exists (repeat None 9), (repeat None 3). repeat constructor.
  - exists (repeat None 10), (repeat None 2). repeat constructor.
  - exists (repeat None 11), (repeat None 1). repeat constructor.
  - exists (repeat None 12), []. repeat constructor.
Qed.
(** The position says which kind it is. *)
Theorem C43_accessor_kind (i : item) :
  map some (views i)
  = map (fun k => match k, kind_of i with
                  | KStruct, KStruct | KEnum, KEnum | KUnion, KUnion | KModule, KModule | KTrait, KTrait | KImpl, KImpl
                  | KTypeAlias, KTypeAlias | KFunction, KFunction | KConstant, KConstant | KUse, KUse | KMacro, KMacro
                  | KExternBlock, KExternBlock | KExternCrate, KExternCrate => true
                  | _, _ => false
                  end)
      [KStruct; KEnum; KUnion; KModule; KTrait; KImpl; KTypeAlias; KFunction; KConstant; KUse; KMacro; KExternBlock; KExternCrate].
Proof. destruct i; reflexivity. Qed.
Example C43_example : nth 4 (views (item_of "trait T {}")) None = Some (item_of "trait T {}").
Proof. vm_compute. reflexivity. Qed.

Print Assumptions C16_keyword_decides.
Print Assumptions C17_attributes.
Print Assumptions C18_visibilities.
Print Assumptions C26_function_shape.
Print Assumptions C26_parameters.
Print Assumptions C27_module_shape.
Print Assumptions C28_impl_shape.
Print Assumptions C30_no_static_member.
Print Assumptions C42_name.
Print Assumptions C43_one_accessor.

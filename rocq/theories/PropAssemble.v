(** C96: items assembled from parts of other items. *)
From Verif Require Import RustSyntax Debug PrintSpells Complete3 Sound2 Unfold Samples PropRoundTrip PropErr PropMore PropLimits PropRust PropSubst PropDecorate.
Local Open Scope string_scope.
Local Open Scope list_scope.

(** ** The parts of an item: every list element, at every depth, and every nested item *)
Inductive part :=
| PaParam (x : generic_param)
| PaPredicate (x : where_predicate)
| PaTuple (x : tuple_field)
| PaNamed (x : named_field)
| PaVariant (x : enum_variant)
| PaInput (x : fn_param)
| PaFunction (x : function)
| PaConstant (x : constant)
| PaAlias (x : type_alias)
| PaMacro (x : macro)
| PaItem (x : item).

Definition parts_pu {A} (g : A -> list part) (p : punctuated A) : list part := flat_map (fun x => g (fst x)) (pu_inner p).
Definition parts_generics (o : option generic_param_list) : list part :=
  match o with Some g => parts_pu (fun x => [PaParam x]) (gpl_params g) | None => [] end.
Definition parts_where (o : option where_clause) : list part :=
  match o with Some w => parts_pu (fun x => [PaPredicate x]) (wc_items w) | None => [] end.
Definition parts_fields (x : fields) : list part :=
  match x with
  | FUnit => []
  | FTuple x => parts_pu (fun x => [PaTuple x]) (tfs_fields x)
  | FNamed x => parts_pu (fun x => [PaNamed x]) (nfs_fields x)
  end.
Definition parts_variant (v : enum_variant) : list part := PaVariant v :: parts_fields (ev_fields v).
Definition parts_function (f : function) : list part :=
  PaFunction f :: parts_generics (fn_generics f) ++ parts_pu (fun x => [PaInput x]) (fn_params f) ++ parts_where (fn_where f).
Definition parts_impl_member (m : impl_member) : list part :=
  match m with IMFunction f => parts_function f | IMConstant c => [PaConstant c] | IMType t => [PaAlias t] | IMMacro m => [PaMacro m] end.
Definition parts_trait_member (m : trait_member) : list part :=
  match m with TMFunction f => parts_function f | TMConstant c => [PaConstant c] | TMType t => [PaAlias t] | TMMacro m => [PaMacro m] end.
Fixpoint parts_item (i : item) : list part :=
  PaItem i ::
  match i with
  | IStruct s => parts_generics (st_generics s) ++ parts_where (st_where s) ++ parts_fields (st_fields s)
  | IEnum e => parts_generics (en_generics e) ++ parts_where (en_where e) ++ parts_pu parts_variant (en_variants e)
  | IUnion u => parts_generics (un_generics u) ++ parts_where (un_where u) ++ parts_fields (FNamed (un_fields u))
  | IModule m => flat_map parts_item (mo_members m)
  | ITrait t => parts_generics (tr_generics t) ++ parts_where (tr_where t) ++ flat_map parts_trait_member (tr_items t)
  | IImpl m => parts_generics (im_generics m) ++ parts_where (im_where m) ++ flat_map parts_impl_member (im_items m)
  | ITypeAlias t => [PaAlias t]
  | IFunction f => parts_function f
  | IConstant c => [PaConstant c]
  | IMacro m => [PaMacro m]
  | IExternBlock b => flat_map parts_impl_member (eb_items b)
  | IUse _ | IExternCrate _ => []
  end.

(** ** Items assembled from a box [K] of parts

    All lists are filled from the box, in any order, number and with any separators; the
    rest of the item is that of an item in the box. *)
Section Assemble.
Variable K : part -> Prop.
Definition all_pu {A} (P : A -> Prop) (p : punctuated A) : Prop := Forall (fun x => P (fst x)) (pu_inner p).
Definition as_generics (o o0 : option generic_param_list) : Prop :=
  match o, o0 with
  | None, None => True
  | Some g, Some g0 => gpl_l g = gpl_l g0 /\ gpl_r g = gpl_r g0 /\ all_pu (fun x => K (PaParam x)) (gpl_params g)
  | _, _ => False
  end.
Definition as_where (o o0 : option where_clause) : Prop :=
  match o, o0 with
  | None, None => True
  | Some w, Some w0 => wc_where w = wc_where w0 /\ all_pu (fun x => K (PaPredicate x)) (wc_items w)
  | _, _ => False
  end.
Definition as_named (x x0 : named_fields) : Prop :=
  nfs_braces x = nfs_braces x0 /\ all_pu (fun x => K (PaNamed x)) (nfs_fields x).
Definition as_fields (x x0 : fields) : Prop :=
  match x, x0 with
  | FUnit, FUnit => True
  | FTuple x, FTuple x0 => tfs_parens x = tfs_parens x0 /\ all_pu (fun x => K (PaTuple x)) (tfs_fields x)
  | FNamed x, FNamed x0 => as_named x x0
  | _, _ => False
  end.
Definition as_variant (v : enum_variant) : Prop :=
  exists v0, K (PaVariant v0) /\ as_fields (ev_fields v) (ev_fields v0)
    /\ v = mkVariant (ev_attributes v0) (ev_vis v0) (ev_name v0) (ev_fields v) (ev_value v0).
Definition as_function (f : function) : Prop :=
  exists f0, K (PaFunction f0) /\ as_generics (fn_generics f) (fn_generics f0) /\ as_where (fn_where f) (fn_where f0)
    /\ all_pu (fun x => K (PaInput x)) (fn_params f)
    /\ f = mkFunction (fn_attributes f0) (fn_vis f0) (fn_qualifiers_ f0) (fn_kw f0) (fn_name f0) (fn_generics f) (fn_parens f0)
             (fn_params f) (fn_where f) (fn_arrow f0) (fn_ret f0) (fn_semicolon f0) (fn_body f0).
Definition as_impl_member (m : impl_member) : Prop :=
  match m with IMFunction f => as_function f | IMConstant c => K (PaConstant c) | IMType t => K (PaAlias t) | IMMacro m => K (PaMacro m) end.
Definition as_trait_member (m : trait_member) : Prop := as_impl_member (impl_of_trait_member m).
Fixpoint assembled (j : item) : Prop :=
  match j with
  | IStruct s => exists s0, K (PaItem (IStruct s0)) /\ as_generics (st_generics s) (st_generics s0) /\ as_where (st_where s) (st_where s0)
      /\ as_fields (st_fields s) (st_fields s0)
      /\ s = mkStruct (st_attributes s0) (st_vis s0) (st_struct s0) (st_name s0) (st_generics s) (st_where s) (st_fields s) (st_semicolon s0)
  | IEnum e => exists e0, K (PaItem (IEnum e0)) /\ as_generics (en_generics e) (en_generics e0) /\ as_where (en_where e) (en_where e0)
      /\ all_pu as_variant (en_variants e)
      /\ e = mkEnum (en_attributes e0) (en_vis e0) (en_enum e0) (en_name e0) (en_generics e) (en_where e) (en_braces e0) (en_variants e)
  | IUnion u => exists u0, K (PaItem (IUnion u0)) /\ as_generics (un_generics u) (un_generics u0) /\ as_where (un_where u) (un_where u0)
      /\ as_named (un_fields u) (un_fields u0)
      /\ u = mkUnion (un_attributes u0) (un_vis u0) (un_union u0) (un_name u0) (un_generics u) (un_where u) (un_fields u)
  | IModule m => exists m0, K (PaItem (IModule m0))
      /\ m = mkModule (mo_attributes m0) (mo_vis m0) (mo_unsafe m0) (mo_mod m0) (mo_name m0) (mo_semicolon m0) (mo_braces m0) (mo_inner_attributes m0) (mo_members m)
      /\ (mo_braces m = None -> mo_members m = [])
      /\ (fix all l := match l with [] => True | x :: r => assembled x /\ all r end) (mo_members m)
  | ITrait t => exists t0, K (PaItem (ITrait t0)) /\ as_generics (tr_generics t) (tr_generics t0) /\ as_where (tr_where t) (tr_where t0)
      /\ Forall as_trait_member (tr_items t)
      /\ t = mkTrait (tr_attributes t0) (tr_vis t0) (tr_unsafe t0) (tr_trait t0) (tr_name t0) (tr_generics t) (tr_bound t0) (tr_where t)
               (tr_braces t0) (tr_inner_attributes t0) (tr_items t)
  | IImpl m => exists m0, K (PaItem (IImpl m0)) /\ as_generics (im_generics m) (im_generics m0) /\ as_where (im_where m) (im_where m0)
      /\ Forall as_impl_member (im_items m)
      /\ m = mkImpl (im_attributes m0) (im_unsafe m0) (im_impl m0) (im_generics m) (im_trait m0) (im_for m0) (im_self m0) (im_where m)
               (im_braces m0) (im_inner_attributes m0) (im_items m)
  | IExternBlock b => exists b0, K (PaItem (IExternBlock b0)) /\ Forall as_impl_member (eb_items b)
      /\ b = mkExternBlock (eb_attributes b0) (eb_vis b0) (eb_unsafe b0) (eb_extern b0) (eb_abi b0) (eb_braces b0) (eb_inner_attributes b0) (eb_items b)
  | ITypeAlias t => K (PaAlias t)
  | IFunction f => as_function f
  | IConstant c => K (PaConstant c)
  | IMacro m => K (PaMacro m)
  | IUse _ | IExternCrate _ => K (PaItem j)
  end.
End Assemble.

(** ** When the pieces hold together *)
(** Commas: every element is followed by a [,], which may be missing (and is then the default one) behind the last. An element [x] can have a comma behind it only if [closed x]. *)
Definition separated {A} (closed : A -> bool) (p : punctuated A) : bool := wf_punctuated (fun comma x => negb comma || closed x) p.
Definition ty_closed (t : type_expr) : bool := run_closed (is_punct ",") (te_tokens t).
Definition any {A} (_ : A) : bool := true.
Definition glue_generics (o : option generic_param_list) : bool := wf_opt (fun g => separated any (gpl_params g)) o.
Definition glue_where (o : option where_clause) : bool := wf_opt (fun w => separated any (wc_items w)) o.
Definition glue_fields (x : fields) : bool :=
  match x with
  | FUnit => true
  | FTuple x => separated (fun f => ty_closed (tf_ty f)) (tfs_fields x)
  | FNamed x => separated (fun f => ty_closed (nf_ty f)) (nfs_fields x)
  end.
Definition input_closed (p : fn_param) : bool := match p with FPReceiver _ => true | FPTyped t => ty_closed (ft_ty t) end.
Definition glue_function (f : function) : bool := glue_generics (fn_generics f) && separated input_closed (fn_params f) && glue_where (fn_where f).
(** Only extern blocks have statics. *)
Definition glue_impl_member (statics : bool) (m : impl_member) : bool :=
  match m with IMFunction f => glue_function f | IMConstant c => statics || id_is "const" (co_kw c) | _ => true end.
Definition glue_trait_member (m : trait_member) : bool := glue_impl_member false (impl_of_trait_member m).
(** A macro named [where] without attributes must not come behind a tuple struct without [;]. *)
Definition may_join (i j : item) : bool := negb (open_struct i && bare_where j).
Fixpoint may_join_all (l : list item) : bool := match l with i :: (j :: _) as r => may_join i j && may_join_all r | _ => true end.
Fixpoint glue_item (i : item) : bool :=
  match i with
  | IStruct s => glue_generics (st_generics s) && glue_where (st_where s) && glue_fields (st_fields s)
  | IEnum e => glue_generics (en_generics e) && glue_where (en_where e) && separated any (en_variants e)
      && forallb (fun v => glue_fields (ev_fields (fst v))) (pu_inner (en_variants e))
  | IUnion u => glue_generics (un_generics u) && glue_where (un_where u) && glue_fields (FNamed (un_fields u))
  | IModule m => forallb glue_item (mo_members m) && may_join_all (mo_members m)
  | ITrait t => glue_generics (tr_generics t) && glue_where (tr_where t) && forallb glue_trait_member (tr_items t)
  | IImpl m => glue_generics (im_generics m) && glue_where (im_where m) && forallb (glue_impl_member false) (im_items m)
  | IExternBlock b => forallb (glue_impl_member true) (eb_items b)
  | IFunction f => glue_function f
  | IMacro m => negb (id_in item_keywords (ma_name m)) (* member macros may be named [struct], [use], .. *)
  | _ => true
  end.

(** ** Proof *)
Definition part_ok (p : part) : Prop :=
  match p with
  | PaParam x => forall b, wf_generic_param b x = true
  | PaPredicate x => forall b, wf_where_predicate b x = true
  | PaTuple x => wf_tuple_field false x = true
  | PaNamed x => wf_named_field false x = true
  | PaVariant x => wf_variant true x = true
  | PaInput x => wf_fn_param false x = true
  | PaFunction x => wf_function x = true
  | PaConstant x => shape_constant x = true /\ stable_constant x = true
  | PaAlias x => wf_type_alias x = true
  | PaMacro x => shape_macro member_keywords x = true /\ stable_macro x = true
  | PaItem x => wf_item x = true /\ follow_ok x [] = true
  end.
Lemma run_closed_any P ts : run_closed P ts = true -> run_any P ts = true.
Proof. unfold run_closed, run_any. destruct (scan P 0 false ts) as [[]|]; auto. Qed.
Lemma field_ty_any b t : wf_field_ty b t = true -> wf_field_ty false t = true.
Proof. destruct b; auto. unfold wf_field_ty. intro H. bsplit. rwb. apply run_closed_any; auto. Qed.
Lemma tfield_any b x : wf_tuple_field b x = true -> wf_tuple_field false x = true.
Proof. unfold wf_tuple_field. intro H. bsplit. rwb. eapply field_ty_any; eauto. Qed.
Lemma nfield_any b x : wf_named_field b x = true -> wf_named_field false x = true.
Proof. unfold wf_named_field. intro H. bsplit. rwb. eapply field_ty_any; eauto. Qed.
Lemma input_any b x : wf_fn_param b x = true -> wf_fn_param false x = true.
Proof. destruct x; auto. cbn. intro H. bsplit. rwb. eapply field_ty_any; eauto. Qed.
Lemma pu_elems {A} (wf : bool -> A -> bool) p x c : wf_punctuated wf p = true -> In (x, c) (pu_inner p) -> exists b, wf b x = true.
Proof.
  unfold wf_punctuated. induction (pu_inner p) as [|[y d] l IH]; [intros _ []|]. destruct l as [|z l].
  - cbn. intros H [E|[]]. injection E as -> ->. bsplit. eauto.
  - cbn [wf_inner]. intros H [E|I]; [injection E as -> ->; bsplit; eauto|bsplit; auto].
Qed.
Lemma parts_pu_ok {A} (wf : bool -> A -> bool) (g : A -> list part) p :
  (forall b x, wf b x = true -> Forall part_ok (g x)) -> wf_punctuated wf p = true -> Forall part_ok (parts_pu g p).
Proof.
  intros H W. unfold parts_pu. apply Forall_flat_map, Forall_forall. intros [x c] I. destruct (pu_elems _ _ _ _ W I). cbn. eauto.
Qed.
Lemma parts_generics_ok o : wf_opt wf_generics o = true -> Forall part_ok (parts_generics o).
Proof. destruct o as [g|]; cbn; auto. unfold wf_generics. intro H. bsplit. eapply parts_pu_ok; [|eauto]. intros b x Hx. constructor; auto. exact (fun _ => Hx). Qed.
Lemma parts_where_ok o : wf_opt wf_where o = true -> Forall part_ok (parts_where o).
Proof. destruct o as [g|]; cbn; auto. unfold wf_where. intro H. bsplit. eapply parts_pu_ok; [|eauto]. intros b x Hx. constructor; auto. exact (fun _ => Hx). Qed.
Lemma parts_fields_ok x : wf_fields x = true -> Forall part_ok (parts_fields x).
Proof.
  destruct x; cbn; auto; unfold wf_tuple_fields, wf_named_fields; intro H; bsplit; (eapply parts_pu_ok; [|eauto]); intros b y Hy; constructor; auto; cbn;
    eauto using tfield_any, nfield_any.
Qed.
Lemma parts_variant_ok b v : wf_variant b v = true -> Forall part_ok (parts_variant v).
Proof. intro H. constructor; [exact H|]. apply parts_fields_ok. unfold wf_variant in H. bsplit. auto. Qed.
Lemma parts_function_ok f : wf_function f = true -> Forall part_ok (parts_function f).
Proof.
  intro H. constructor; [exact H|]. unfold wf_function in H. bsplit. rewrite !Forall_app. repeat split; auto using parts_generics_ok, parts_where_ok.
  eapply parts_pu_ok; [|eauto]. intros b y Hy. constructor; auto. cbn. eauto using input_any.
Qed.
Lemma id_in_sub l l' i : incl l l' -> id_in l' i = false -> id_in l i = false.
Proof.
  intros S H. unfold id_in in *. apply not_true_iff_false. intro E. apply existsb_exists in E. destruct E as (x & I & E).
  apply not_true_iff_false in H. apply H, existsb_exists. eauto.
Qed.
Lemma member_items : incl member_keywords item_keywords.
Proof. intros x. cbn. tauto. Qed.
Lemma item_macro m : shape_macro item_keywords m = shape_macro member_keywords m && negb (id_in item_keywords (ma_name m)).
Proof.
  unfold shape_macro. destruct (id_in item_keywords (ma_name m)) eqn:E; cbn [negb].
  - rewrite !andb_false_r. reflexivity.
  - rewrite (id_in_sub _ _ _ member_items E). rewrite !andb_true_r. reflexivity.
Qed.
Lemma parts_impl_member_ok b m : shape_impl_member b m = true -> stable_impl_member m = true -> Forall part_ok (parts_impl_member m).
Proof.
  destruct m; cbn; intros H S; auto using parts_function_ok; bsplit; repeat constructor; auto.
Qed.
Lemma parts_trait_member_ok m : shape_trait_member m = true -> stable_trait_member m = true -> Forall part_ok (parts_trait_member m).
Proof. unfold shape_trait_member, stable_trait_member. intros H S. apply (parts_impl_member_ok false) in H; auto. destruct m; exact H. Qed.
(** Nothing in a module can end a tuple struct with a where clause but its [;]. *)
Lemma member_closed i l : shape_item i = true -> forallb shape_item l = true -> follow_ok i (flat_map print_item l) = true -> follow_ok i [] = true.
Proof.
  intros Hi Hl. destruct i as [[a v k n g w x s]| | | | | | | | | | | |]; auto. cbn. unfold struct_follow. cbn [st_fields st_semicolon st_where].
  destruct x, s, w; auto. destruct l as [|j l]; auto. cbn [forallb flat_map] in *. bsplit.
  destruct (item_starts (fun x => x) (fun x => x) (fun x => x) j (flat_map print_item l)) as (E & _); auto. rewrite E. auto.
Qed.
Lemma parts_item_ok i : wf_item i = true -> follow_ok i [] = true -> Forall part_ok (parts_item i).
Proof.
  unfold wf_item. induction i as [m IH|i No] using item_nested_ind; intros H Fo.
  - cbn [parts_item]. constructor; [split; [exact H|exact Fo]|]. cbn [shape_item stable_item] in H. unfold shape_module in H. bsplit.
    assert (S : forallb shape_item (mo_members m) = true).
    { destruct (mo_semicolon m), (mo_braces m); try discriminate; bsplit; auto. destruct (mo_members m); [reflexivity|discriminate]. }
    assert (M : members_follow (mo_members m) = true) by auto. assert (St : forallb stable_item (mo_members m) = true) by auto.
    apply Forall_flat_map. clear -IH S M St. revert IH S M St. induction (mo_members m) as [|x l IHl]; [constructor|]. intros IH S M St. inversion_clear IH. cbn [forallb members_follow] in *. bsplit.
    constructor; [|apply IHl; auto]. apply H; [rwb; reflexivity|]. eapply member_closed; eauto.
  - destruct i; cbn [parts_item]; (constructor; [split; [exact H|exact Fo]|]); cbn [shape_item stable_item] in H;
      unfold shape_struct, wf_enum, wf_union, shape_trait, shape_impl, shape_extern_block in H; bsplit;
      rewrite ?Forall_app; repeat split; auto using parts_generics_ok, parts_where_ok, parts_fields_ok, parts_function_ok.
    + eapply parts_pu_ok; eauto using parts_variant_ok.
    + exfalso. eapply No. reflexivity.
    + apply Forall_flat_map, Forall_forall. intros x Hx. rewrite forallb_forall in *. apply parts_trait_member_ok; auto.
    + apply Forall_flat_map, Forall_forall. intros x Hx. rewrite forallb_forall in *. eapply parts_impl_member_ok; eauto.
    + repeat constructor; auto.
    + rewrite item_macro in *. bsplit. repeat constructor; auto.
    + apply Forall_flat_map, Forall_forall. intros x Hx. rewrite forallb_forall in *. eapply parts_impl_member_ok; eauto.
Qed.

Lemma pu_glue {A} (wf : bool -> A -> bool) (closed : A -> bool) (P : A -> Prop) p :
  (forall b x, P x -> wf b x = negb b || closed x) -> all_pu P p -> wf_punctuated wf p = separated closed p.
Proof.
  intro H. unfold all_pu, separated, wf_punctuated. induction (pu_inner p) as [|[x c] l IH]; [reflexivity|]. intro F. inversion_clear F. cbn in H0.
  destruct l as [|y l]; [cbn; rewrite H by auto; reflexivity|]. cbn [wf_inner] in *. rewrite IH, H by auto. reflexivity.
Qed.
Lemma all_pu_impl {A} (P Q : A -> Prop) p : (forall x, P x -> Q x) -> all_pu P p -> all_pu Q p.
Proof. unfold all_pu. intros H F. eapply Forall_impl; [|exact F]. auto. Qed.
Lemma field_ty_glue b t : wf_field_ty false t = true -> wf_field_ty b t = negb b || ty_closed t.
Proof. unfold wf_field_ty, ty_closed. intro H. destruct b; bsplit; rwb; reflexivity. Qed.

Section Proof.
Variable K : part -> Prop.
Hypothesis Kok : forall p, K p -> part_ok p.
Lemma generics_glue o o0 : as_generics K o o0 -> wf_opt wf_generics o0 = true -> wf_opt wf_generics o = glue_generics o.
Proof.
  destruct o as [g|], o0 as [g0|]; cbn; try tauto. intros (E1 & E2 & F). unfold wf_generics. rewrite E1, E2. intro H. bsplit. rwb. rewrite andb_true_r.
  eapply pu_glue; [|exact F]. intros b x Hx. apply Kok in Hx. cbn in Hx. rewrite Hx, orb_true_r. reflexivity.
Qed.
Lemma where_glue o o0 : as_where K o o0 -> wf_opt wf_where o0 = true -> wf_opt wf_where o = glue_where o.
Proof.
  destruct o as [g|], o0 as [g0|]; cbn; try tauto. intros (E1 & F). unfold wf_where. rewrite E1. intro H. bsplit. rwb.
  eapply pu_glue; [|exact F]. intros b x Hx. apply Kok in Hx. cbn in Hx. rewrite Hx, orb_true_r. reflexivity.
Qed.
Lemma named_glue x x0 : as_named K x x0 -> wf_named_fields x0 = true -> wf_named_fields x = glue_fields (FNamed x).
Proof.
  intros (E & F). unfold wf_named_fields. rewrite E. intro H. bsplit. rwb. cbn. eapply pu_glue; [|exact F].
  intros b y Hy. apply Kok in Hy. cbn in Hy. unfold wf_named_field in *. bsplit. rwb. apply field_ty_glue. auto.
Qed.
Lemma fields_glue x x0 : as_fields K x x0 -> wf_fields x0 = true -> wf_fields x = glue_fields x.
Proof.
  destruct x as [|x|x], x0 as [|x0|x0]; cbn [as_fields]; try tauto; try apply named_glue. intros (E & F). cbn [wf_fields]. unfold wf_tuple_fields. rewrite E. intro H. bsplit. rwb. cbn.
  eapply pu_glue; [|exact F]. intros b y Hy. apply Kok in Hy. cbn in Hy. unfold wf_tuple_field in *. bsplit. rwb. apply field_ty_glue. auto.
Qed.
Lemma variant_glue b v : as_variant K v -> wf_variant b v = glue_fields (ev_fields v).
Proof.
  intros (v0 & Hv & Hf & E). apply Kok in Hv. cbn in Hv. unfold wf_variant in *. rewrite E. cbn [ev_attributes ev_vis ev_name ev_fields ev_value]. bsplit.
  rewrite (fields_glue _ _ Hf) by auto. rwb. rewrite andb_true_r. reflexivity.
Qed.
Lemma wf_inner_cons {A} (wf : bool -> A -> bool) b x c y l : wf_inner wf b ((x, c) :: y :: l) = wf true x && p_is "," c && wf_inner wf b (y :: l).
Proof. reflexivity. Qed.
Lemma variants_glue p : all_pu (as_variant K) p -> wf_punctuated wf_variant p = separated any p && forallb (fun v => glue_fields (ev_fields (fst v))) (pu_inner p).
Proof.
  unfold all_pu, separated, wf_punctuated, any. induction (pu_inner p) as [|[x c] l IH]; [cbn; rewrite andb_true_r; reflexivity|]. intro F. inversion_clear F. cbn [fst] in H.
  destruct l as [|y l].
  - cbn. rewrite variant_glue, orb_true_r, andb_true_r by auto. destruct (glue_fields (ev_fields x)), (if pu_skip_last p then _ else _); reflexivity.
  - rewrite !wf_inner_cons, IH, variant_glue by auto. cbn [forallb fst orb negb andb]. destruct (glue_fields (ev_fields x)), (p_is "," c); rewrite ?andb_false_r; reflexivity.
Qed.
Lemma function_glue f : as_function K f -> wf_function f = glue_function f.
Proof.
  intros (f0 & Hf & Hg & Hw & Hp & E). apply Kok in Hf. cbn in Hf. unfold wf_function in *. rewrite E.
  cbn [fn_attributes fn_vis fn_qualifiers_ fn_kw fn_name fn_generics fn_parens fn_params fn_where fn_arrow fn_ret fn_semicolon fn_body]. bsplit.
  rewrite (generics_glue _ _ Hg), (where_glue _ _ Hw) by auto.
  rewrite (pu_glue _ input_closed (fun x => K (PaInput x))).
  - rwb. unfold glue_function. cbn [fn_generics fn_params fn_where]. rewrite !andb_true_r. reflexivity.
  - intros b x Hx. apply Kok in Hx. destruct x as [r|t]; cbn in *; [rewrite Hx, orb_true_r; reflexivity|]. bsplit. rwb. apply field_ty_glue. auto.
  - exact Hp.
Qed.
Lemma impl_member_glue b m : as_impl_member K m -> shape_impl_member b m = glue_impl_member b m /\ stable_impl_member m = true.
Proof.
  destruct m; cbn; intro H; auto using function_glue; apply Kok in H; cbn in H; try (destruct H; rwb; auto); auto.
Qed.
Lemma impl_members_glue b l : Forall (as_impl_member K) l -> forallb (shape_impl_member b) l = forallb (glue_impl_member b) l /\ forallb stable_impl_member l = true.
Proof. induction 1 as [|m l H _ [I1 I2]]; cbn; auto. destruct (impl_member_glue b m H) as [E1 E2]. rewrite I1, I2, E1, E2. auto. Qed.
Lemma trait_members_glue l : Forall (as_trait_member K) l -> forallb shape_trait_member l = forallb glue_trait_member l /\ forallb stable_trait_member l = true.
Proof.
  induction 1 as [|m l H _ [I1 I2]]; cbn; auto. destruct (impl_member_glue false _ H) as [E1 E2]. unfold shape_trait_member at 1, glue_trait_member at 1, stable_trait_member at 1. rewrite I1, I2, E1, E2. auto.
Qed.
Lemma as_fields_kind x x0 : as_fields K x x0 -> match x, x0 with FUnit, FUnit | FTuple _, FTuple _ | FNamed _, FNamed _ => True | _, _ => False end.
Proof. destruct x, x0; cbn; tauto. Qed.
Lemma as_where_some w w0 : as_where K w w0 -> some w = some w0.
Proof. destruct w, w0; cbn; tauto. Qed.
Lemma assembled_closed j : assembled K j -> follow_ok j [] = true.
Proof.
  destruct j as [s| | | | | | | | | | | |]; try reflexivity. cbn. intros (s0 & H & _ & Hw & Hf & E). apply Kok in H. destruct H as [_ H].
  cbn in H. unfold struct_follow in *. rewrite E. cbn [st_fields st_semicolon st_where]. apply as_fields_kind in Hf.
  destruct (st_fields s), (st_fields s0), (st_semicolon s0), (st_where s), (st_where s0); cbn in *; tauto.
Qed.
Lemma joins l : forallb shape_item l = true -> Forall (fun j => follow_ok j [] = true) l -> members_follow l = may_join_all l.
Proof.
  induction l as [|i l IH]; [reflexivity|]. intros H F. cbn [forallb] in H. bsplit. assert (Fi : follow_ok i [] = true) by (inversion F; auto). assert (Fl : Forall (fun j => follow_ok j [] = true) l) by (inversion F; auto). clear F. cbn [members_follow]. rewrite IH by auto.
  destruct l as [|j l]; cbn [flat_map]; [rewrite Fi; reflexivity|]. cbn [may_join_all]. f_equal.
  destruct i as [[a v k n g w x se]| | | | | | | | | | | |]; try reflexivity. cbn [forallb] in *. bsplit.
  cbn in Fi |- *. unfold struct_follow in *. cbn [st_fields st_semicolon st_where] in *.
  destruct (item_starts (fun x => x) (fun x => x) (fun x => x) j (flat_map print_item l)) as (E1 & E2 & E3); auto. rewrite E1, E2, E3. unfold may_join. cbn.
  destruct x, se, w; try reflexivity; try discriminate. apply andb_true_r.
Qed.
Lemma assembled_members l : (fix all l := match l with [] => True | x :: r => assembled K x /\ all r end) l <-> Forall (assembled K) l.
Proof. induction l as [|x l IH]; [split; auto|]. rewrite IH. split; [intros []; auto|intro F; inversion_clear F; auto]. Qed.
Lemma assembled_glue j : assembled K j -> wf_item j = glue_item j.
Proof.
  unfold wf_item. induction j as [m IH|j No] using item_nested_ind; intro H.
  - cbn [assembled] in H. destruct H as (m0 & H & E & N & F). apply assembled_members in F. apply Kok in H. destruct H as [H _]. unfold wf_item in H.
    cbn [shape_item stable_item glue_item] in *. unfold shape_module in *. rewrite E. rewrite E in N. cbn [mo_attributes mo_vis mo_unsafe mo_mod mo_name mo_semicolon mo_braces mo_inner_attributes mo_members] in *.
    bsplit. rwb. cbn [andb].
    assert (L : forallb shape_item (mo_members m) && forallb stable_item (mo_members m) = forallb glue_item (mo_members m)).
    { clear -IH F. induction IH as [|x l Hx _ IHl]; [reflexivity|]. inversion_clear F. cbn. rewrite <- IHl, <- Hx by auto.
      destruct (shape_item x), (stable_item x), (forallb shape_item l); reflexivity. }
    assert (J : forallb shape_item (mo_members m) = true -> members_follow (mo_members m) = may_join_all (mo_members m)).
    { intro S. apply joins; auto. eapply Forall_impl; [|exact F]. apply assembled_closed. }
    destruct (mo_semicolon m0), (mo_braces m0); try discriminate; bsplit; rwb; cbn [andb].
    + rewrite N by auto. reflexivity.
    + rewrite <- L. destruct (forallb shape_item (mo_members m)); cbn [andb]; [|reflexivity]. rewrite J by auto. reflexivity.
  - destruct j; cbn [assembled] in H; cbn [glue_item].
    + destruct H as (s0 & H & Hg & Hw & Hf & E). apply Kok in H. destruct H as [H _]. unfold wf_item in H. cbn [shape_item stable_item] in *. unfold shape_struct, stable_struct in *.
      rewrite E. cbn [st_attributes st_vis st_struct st_name st_generics st_where st_fields st_semicolon] in *. bsplit.
      rewrite (generics_glue _ _ Hg), (where_glue _ _ Hw), (fields_glue _ _ Hf) by auto. apply as_fields_kind in Hf. rwb.
      destruct (st_fields s), (st_fields s0); try tauto; rwb; rewrite ?andb_true_r; reflexivity.
    + destruct H as (e0 & H & Hg & Hw & Hv & E). apply Kok in H. destruct H as [H _]. unfold wf_item in H. cbn [shape_item stable_item] in *. unfold wf_enum in *.
      rewrite E. cbn [en_attributes en_vis en_enum en_name en_generics en_where en_braces en_variants]. bsplit.
      rewrite (generics_glue _ _ Hg), (where_glue _ _ Hw), variants_glue by auto. rwb. rewrite !andb_true_r, !andb_assoc. reflexivity.
    + destruct H as (u0 & H & Hg & Hw & Hf & E). apply Kok in H. destruct H as [H _]. unfold wf_item in H. cbn [shape_item stable_item] in *. unfold wf_union in *.
      rewrite E. cbn [un_attributes un_vis un_union un_name un_generics un_where un_fields]. bsplit.
      rewrite (generics_glue _ _ Hg), (where_glue _ _ Hw), (named_glue _ _ Hf) by auto. rwb. rewrite ?andb_true_r. reflexivity.
    + exfalso. eapply No. reflexivity.
    + destruct H as (t0 & H & Hg & Hw & Hm & E). apply Kok in H. destruct H as [H _]. unfold wf_item in H. cbn [shape_item stable_item] in *. unfold shape_trait in *.
      destruct (trait_members_glue _ Hm) as [E1 E2]. rewrite E2, andb_true_r.
      rewrite E. cbn [tr_attributes tr_vis tr_unsafe tr_trait tr_name tr_generics tr_bound tr_where tr_braces tr_inner_attributes tr_items]. bsplit.
      rewrite (generics_glue _ _ Hg), (where_glue _ _ Hw), E1 by auto. rwb. rewrite ?andb_true_r. reflexivity.
    + destruct H as (m0 & H & Hg & Hw & Hm & E). apply Kok in H. destruct H as [H _]. unfold wf_item in H. cbn [shape_item stable_item] in *. unfold shape_impl in *.
      destruct (impl_members_glue false _ Hm) as [E1 E2]. rewrite E2, andb_true_r.
      rewrite E. cbn [im_attributes im_unsafe im_impl im_generics im_trait im_for im_self im_where im_braces im_inner_attributes im_items]. bsplit.
      assert (S : some (im_generics i) = some (im_generics m0)) by (destruct (im_generics i), (im_generics m0); cbn in *; tauto). rewrite S.
      rewrite (generics_glue _ _ Hg), (where_glue _ _ Hw), E1 by auto. rwb. rewrite ?andb_true_r. reflexivity.
    + apply Kok in H. cbn in *. rewrite H. reflexivity.
    + cbn. rewrite andb_true_r. apply function_glue, H.
    + apply Kok in H. cbn in *. destruct H. rwb. reflexivity.
    + apply Kok in H. cbn in H. destruct H as [H _]. exact H.
    + apply Kok in H. cbn [shape_item stable_item part_ok] in *. rewrite item_macro. destruct H. rwb. apply andb_true_r.
    + destruct H as (b0 & H & Hm & E). apply Kok in H. destruct H as [H _]. unfold wf_item in H. cbn [shape_item stable_item] in *. unfold shape_extern_block in *.
      destruct (impl_members_glue true _ Hm) as [E1 E2]. rewrite E2, andb_true_r.
      rewrite E. cbn [eb_attributes eb_vis eb_unsafe eb_extern eb_abi eb_braces eb_inner_attributes eb_items]. bsplit. rewrite E1. rwb. reflexivity.
    + apply Kok in H. cbn in H. destruct H as [H _]. exact H.
Qed.
End Proof.

(** ** C96 *)
Theorem C96_assemble (K : part -> Prop) (j : item) :
  (forall p, K p -> exists i, parse_item (print_item i) = Ret (Ok i) /\ In p (parts_item i)) ->
  assembled K j -> (parse_item (print_item j) = Ret (Ok j) <-> glue_item j = true).
Proof.
  intros H A. assert (Kok : forall p, K p -> part_ok p).
  { intros p Hp. destruct (H p Hp) as (i & Hi & I). apply C01_print_parse_iff in Hi. destruct Hi as [H1 H2].
    pose proof (parts_item_ok i H1 H2) as F. rewrite Forall_forall in F. auto. }
  rewrite C01_print_parse_iff, (assembled_glue K Kok j A). pose proof (assembled_closed K Kok j A). tauto.
Qed.

(** ** Lists made with [Punctuated::push] *)
Definition pushed {A} (l : list (A * option punct)) : punctuated A := fold_left (fun p x => pu_push p (fst x) (snd x)) l pu_new.
Definition comma_of (o : option punct) : punct := match o with Some c => c | None => punct_new "," Alone end.
Definition ends_bare {A} (l : list (A * option punct)) : bool := match rev l with (_, None) :: _ => true | _ => false end.
Lemma pushed_eq {A} (l : list (A * option punct)) : pushed l = mkPunctuated (map (fun x => (fst x, comma_of (snd x))) l) (ends_bare l).
Proof.
  unfold pushed. induction l as [|[x c] l IH] using rev_ind; [reflexivity|]. rewrite fold_left_app, IH. cbn. unfold pu_push. cbn [pu_inner]. rewrite map_app.
  unfold ends_bare. rewrite rev_app_distr. destruct c; reflexivity.
Qed.
(** The elements that get a comma. *)
Fixpoint with_comma {A} (l : list (A * option punct)) : list A :=
  match l with
  | [] => []
  | [(x, None)] => []
  | (x, _) :: r => x :: with_comma r
  end.
Theorem C96_pushed {A} (closed : A -> bool) (l : list (A * option punct)) :
  separated closed (pushed l) = true
  <-> Forall (fun x => match snd x with Some c => p_char c = ","%char | None => True end) l /\ Forall (fun x => closed x = true) (with_comma l).
Proof.
  rewrite pushed_eq. unfold separated, wf_punctuated. cbn [pu_inner pu_skip_last].
  assert (P : forall c : option punct, p_is "," (comma_of c) = true <-> match c with Some c => p_char c = ","%char | None => True end).
  { intros [c|]; cbn; [apply Ascii.eqb_eq|split; auto]. }
  induction l as [|[x c] l IH]; [cbn; split; auto|]. destruct l as [|y l].
  - cbn. destruct c as [c|]; cbn.
    + rewrite andb_true_iff. rewrite (P (Some c)). split; [intros []; auto|intros [F G]; inversion_clear F; inversion_clear G; auto].
    + split; [intros _; split; repeat constructor|reflexivity].
  - assert (E : ends_bare ((x, c) :: y :: l) = ends_bare (y :: l)).
    { unfold ends_bare. cbn [rev]. destruct (rev l); reflexivity. }
    rewrite E. change (map _ ((x, c) :: y :: l)) with ((x, comma_of c) :: map (fun x => (fst x, comma_of (snd x))) (y :: l)). cbn [map]. rewrite wf_inner_cons.
    cbn [map] in IH. rewrite !andb_true_iff, IH, P. cbn [negb orb].
    assert (W : with_comma ((x, c) :: y :: l) = x :: with_comma (y :: l)) by (destruct c; reflexivity). rewrite W. rewrite !Forall_cons_iff. cbn [snd]. tauto.
Qed.

(** ** Removing elements everywhere *)
Section Filter.
Variables (kg : generic_param -> bool) (kw : where_predicate -> bool) (kt : tuple_field -> bool) (kn : named_field -> bool)
  (kv : enum_variant -> bool) (kp : fn_param -> bool) (km : impl_member -> bool) (ki : item -> bool).
Definition keep_pu {A} (k : A -> bool) (g : A -> A) (p : punctuated A) : punctuated A := pushed (map (fun x => (g x, None)) (filter k (pu_items p))).
Definition keep_generics := option_map (fun g => mkGenericParamList (gpl_l g) (keep_pu kg (fun x => x) (gpl_params g)) (gpl_r g)).
Definition keep_where := option_map (fun w => mkWhereClause (wc_where w) (keep_pu kw (fun x => x) (wc_items w))).
Definition keep_named (x : named_fields) := mkNamedFields (keep_pu kn (fun x => x) (nfs_fields x)) (nfs_braces x).
Definition keep_fields (x : fields) : fields :=
  match x with
  | FUnit => FUnit
  | FTuple x => FTuple (mkTupleFields (keep_pu kt (fun x => x) (tfs_fields x)) (tfs_parens x))
  | FNamed x => FNamed (keep_named x)
  end.
Definition keep_variant (v : enum_variant) : enum_variant := mkVariant (ev_attributes v) (ev_vis v) (ev_name v) (keep_fields (ev_fields v)) (ev_value v).
Definition keep_function (x : function) : function :=
  mkFunction (fn_attributes x) (fn_vis x) (fn_qualifiers_ x) (fn_kw x) (fn_name x) (keep_generics (fn_generics x)) (fn_parens x)
    (keep_pu kp (fun x => x) (fn_params x)) (keep_where (fn_where x)) (fn_arrow x) (fn_ret x) (fn_semicolon x) (fn_body x).
Definition keep_impl_member (m : impl_member) : impl_member := match m with IMFunction x => IMFunction (keep_function x) | _ => m end.
Definition keep_trait_member (m : trait_member) : trait_member := match m with TMFunction x => TMFunction (keep_function x) | _ => m end.
Definition keep_impl_members (l : list impl_member) := map keep_impl_member (filter km l).
Definition keep_trait_members (l : list trait_member) := map keep_trait_member (filter (fun m => km (impl_of_trait_member m)) l).
Fixpoint keep_item (i : item) : item :=
  match i with
  | IStruct (mkStruct a v k n g w x s) => IStruct (mkStruct a v k n (keep_generics g) (keep_where w) (keep_fields x) s)
  | IEnum (mkEnum a v k n g w b vs) => IEnum (mkEnum a v k n (keep_generics g) (keep_where w) b (keep_pu kv keep_variant vs))
  | IUnion (mkUnion a v k n g w x) => IUnion (mkUnion a v k n (keep_generics g) (keep_where w) (keep_named x))
  | IFunction x => IFunction (keep_function x)
  | IModule (mkModule a v u k n s b ia ms) =>
      IModule (mkModule a v u k n s b ia ((fix all l := match l with [] => [] | x :: r => if ki x then keep_item x :: all r else all r end) ms))
  | ITrait (mkTrait a v u k n g b w br ia ms) => ITrait (mkTrait a v u k n (keep_generics g) b (keep_where w) br ia (keep_trait_members ms))
  | IImpl (mkImpl a u k g t x s w br ia ms) => IImpl (mkImpl a u k (keep_generics g) t x s (keep_where w) br ia (keep_impl_members ms))
  | IExternBlock (mkExternBlock a v u e ab br ia ms) => IExternBlock (mkExternBlock a v u e ab br ia (keep_impl_members ms))
  | _ => i
  end.
End Filter.
(** No macro named [where] without attributes follows a tuple struct without [;]. *)
Fixpoint joins_item (i : item) : bool :=
  match i with IModule m => forallb joins_item (mo_members m) && may_join_all (mo_members m) | _ => true end.

Fixpoint nonlast {A} (closed : A -> bool) (l : list A) : bool := match l with [] | [_] => true | x :: r => closed x && nonlast closed r end.
Lemma separated_nonlast {A} (closed : A -> bool) p : separated closed p = true -> nonlast closed (pu_items p) = true.
Proof.
  unfold separated, wf_punctuated, pu_items. induction (pu_inner p) as [|[x c] l IH]; [auto|]. destruct l as [|[y d] l]; [auto|]. rewrite wf_inner_cons. cbn [map nonlast fst negb orb] in *.
  intro H. bsplit. rwb. apply IH. auto.
Qed.
Lemma nonlast_filter {A} (closed : A -> bool) k l : nonlast closed l = true -> nonlast closed (filter k l) = true.
Proof.
  induction l as [|x l IH]; [auto|]. destruct l as [|y l]; [cbn; destruct (k x); auto|]. intro H. cbn [nonlast] in H. apply andb_prop in H. destruct H as [Hx Hl]. specialize (IH Hl).
  change (filter k (x :: y :: l)) with (if k x then x :: filter k (y :: l) else filter k (y :: l)). destruct (k x); auto. destruct (filter k (y :: l)) as [|z r]; [reflexivity|].
  change (closed x && nonlast closed (z :: r) = true). rewrite Hx. exact IH.
Qed.
Lemma keep_separated {A} (closed : A -> bool) k g p : (forall x, closed (g x) = closed x) -> separated closed p = true -> separated closed (keep_pu k g p) = true.
Proof.
  intros G H. apply separated_nonlast in H. apply (nonlast_filter _ k) in H. unfold keep_pu. apply C96_pushed. split.
  - rewrite Forall_map. apply Forall_forall. cbn. auto.
  - induction (filter k (pu_items p)) as [|x l IH]; [constructor|]. destruct l as [|y l]; [constructor|]. cbn [nonlast] in H. apply andb_prop in H. destruct H.
    change (with_comma _) with (g x :: with_comma (map (fun x => (g x, @None punct)) (y :: l))). constructor; [rewrite G; auto|auto].
Qed.
Lemma keep_all {A} (P : A -> Prop) k g (p : punctuated A) : (forall x c, In (x, c) (pu_inner p) -> P (g x)) -> all_pu P (keep_pu k g p).
Proof.
  intro H. unfold keep_pu, all_pu. rewrite pushed_eq. cbn [pu_inner]. rewrite map_map, Forall_map. apply Forall_forall. intros x Hx. apply filter_In in Hx. destruct Hx as [Hx _].
  unfold pu_items in Hx. apply in_map_iff in Hx. destruct Hx as ([y c] & <- & Hx). cbn. eauto.
Qed.
Lemma in_parts_pu {A} (h : A -> list part) p x c q : In (x, c) (pu_inner p) -> In q (h x) -> In q (parts_pu h p).
Proof. intros. unfold parts_pu. apply in_flat_map. exists (x, c). auto. Qed.

Lemma as_generics_mono (K K' : part -> Prop) o o0 : (forall p, K p -> K' p) -> as_generics K o o0 -> as_generics K' o o0.
Proof. intro H. destruct o, o0; cbn; try tauto. intros (? & ? & F). repeat split; auto. eapply all_pu_impl; [|exact F]. cbn. auto. Qed.
Lemma as_where_mono (K K' : part -> Prop) o o0 : (forall p, K p -> K' p) -> as_where K o o0 -> as_where K' o o0.
Proof. intro H. destruct o, o0; cbn; try tauto. intros (? & F). repeat split; auto. eapply all_pu_impl; [|exact F]. cbn. auto. Qed.
Lemma as_fields_mono (K K' : part -> Prop) o o0 : (forall p, K p -> K' p) -> as_fields K o o0 -> as_fields K' o o0.
Proof. intro H. destruct o, o0; cbn; try tauto; intros (? & F); split; auto; (eapply all_pu_impl; [|exact F]); cbn; auto. Qed.
Lemma as_variant_mono (K K' : part -> Prop) v : (forall p, K p -> K' p) -> as_variant K v -> as_variant K' v.
Proof. intros H (v0 & ? & ? & ?). exists v0. eauto using as_fields_mono. Qed.
Lemma as_function_mono (K K' : part -> Prop) f : (forall p, K p -> K' p) -> as_function K f -> as_function K' f.
Proof.
  intros H (f0 & ? & ? & ? & F & ?). exists f0. repeat (split; [solve [eauto using as_generics_mono, as_where_mono]|]). split; [|auto]. eapply all_pu_impl; [|exact F]. cbn. auto.
Qed.
Lemma as_impl_member_mono (K K' : part -> Prop) m : (forall p, K p -> K' p) -> as_impl_member K m -> as_impl_member K' m.
Proof. intro H. destruct m; cbn; auto. apply as_function_mono, H. Qed.
Lemma assembled_mono (K K' : part -> Prop) j : (forall p, K p -> K' p) -> assembled K j -> assembled K' j.
Proof.
  intro H. induction j as [m IH|j No] using item_nested_ind.
  - cbn [assembled]. intros (m0 & ? & ? & ? & F). exists m0. repeat (split; [auto|]). apply assembled_members in F. apply assembled_members.
    clear -IH F. induction IH; inversion_clear F; constructor; auto.
  - destruct j; cbn [assembled]; auto.
    + intros (x & ? & ? & ? & ? & ?). exists x. repeat (split; [solve [eauto using as_generics_mono, as_where_mono, as_fields_mono]|]). auto.
    + intros (x & ? & ? & ? & F & ?). exists x. repeat (split; [solve [eauto using as_generics_mono, as_where_mono]|]). split; [|auto]. eapply all_pu_impl; [|exact F]. intros. eapply as_variant_mono; eauto.
    + intros (x & ? & ? & ? & F & ?). exists x. repeat (split; [solve [eauto using as_generics_mono, as_where_mono]|]). split; [|auto]. exact (as_fields_mono _ _ (FNamed _) (FNamed _) H F).
    + exfalso. eapply No. reflexivity.
    + intros (x & ? & ? & ? & F & ?). exists x. repeat (split; [solve [eauto using as_generics_mono, as_where_mono]|]). split; [|auto]. eapply Forall_impl; [|exact F]. intros. eapply as_impl_member_mono; eauto.
    + intros (x & ? & ? & ? & F & ?). exists x. repeat (split; [solve [eauto using as_generics_mono, as_where_mono]|]). split; [|auto]. eapply Forall_impl; [|exact F]. intros. eapply as_impl_member_mono; eauto.
    + apply as_function_mono, H.
    + intros (x & ? & F & ?). exists x. repeat (split; [solve [auto]|]). split; [|auto]. eapply Forall_impl; [|exact F]. intros. eapply as_impl_member_mono; eauto.
Qed.

Section FilterProof.
Variables (kg : generic_param -> bool) (kw : where_predicate -> bool) (kt : tuple_field -> bool) (kn : named_field -> bool)
  (kv : enum_variant -> bool) (kp : fn_param -> bool) (km : impl_member -> bool) (ki : item -> bool).
Local Notation G := (keep_generics kg).
Local Notation W := (keep_where kw).
Local Notation FN := (keep_function kg kw kp).
Local Notation KI := (keep_item kg kw kt kn kv kp km ki).
Lemma keep_generics_as (K : part -> Prop) o : (forall q, In q (parts_generics o) -> K q) -> as_generics K (G o) o.
Proof. destruct o as [g|]; cbn; auto. intro H. repeat split. apply keep_all. intros x c I. apply H. eapply in_parts_pu; eauto. cbn. auto. Qed.
Lemma keep_where_as (K : part -> Prop) o : (forall q, In q (parts_where o) -> K q) -> as_where K (W o) o.
Proof. destruct o as [g|]; cbn; auto. intro H. repeat split. apply keep_all. intros x c I. apply H. eapply in_parts_pu; eauto. cbn. auto. Qed.
Lemma keep_fields_as (K : part -> Prop) x : (forall q, In q (parts_fields x) -> K q) -> as_fields K (keep_fields kt kn x) x.
Proof. destruct x; cbn; auto; intro H; repeat split; apply keep_all; intros x c I; apply H; (eapply in_parts_pu; eauto); cbn; auto. Qed.
Lemma keep_variant_as (K : part -> Prop) v : (forall q, In q (parts_variant v) -> K q) -> as_variant K (keep_variant kt kn v).
Proof. intro H. exists v. cbn. split; [apply H; left; reflexivity|]. split; [|reflexivity]. apply keep_fields_as. intros. apply H. right. auto. Qed.
Lemma keep_function_as (K : part -> Prop) f : (forall q, In q (parts_function f) -> K q) -> as_function K (FN f).
Proof.
  intro H. exists f. unfold parts_function in H. cbn [keep_function fn_generics fn_where fn_params]. split; [apply H; left; reflexivity|]. repeat split.
  - apply keep_generics_as. intros. apply H. right. rewrite !in_app_iff. auto.
  - apply keep_where_as. intros. apply H. right. rewrite !in_app_iff. auto.
  - apply keep_all. intros x c I. apply H. right. rewrite !in_app_iff. right. left. eapply in_parts_pu; eauto. cbn. auto.
Qed.
Lemma keep_impl_member_as (K : part -> Prop) m : (forall q, In q (parts_impl_member m) -> K q) -> as_impl_member K (keep_impl_member kg kw kp m).
Proof. destruct m; cbn; auto. apply keep_function_as. Qed.
Lemma keep_trait_member_as (K : part -> Prop) m : (forall q, In q (parts_trait_member m) -> K q) -> as_trait_member K (keep_trait_member kg kw kp m).
Proof. unfold as_trait_member. destruct m; cbn; auto. apply keep_function_as. Qed.
Lemma keep_members_eq l : (fix all l := match l with [] => [] | x :: r => if ki x then KI x :: all r else all r end) l = map KI (filter ki l).
Proof. induction l as [|x l IH]; [reflexivity|]. cbn [filter]. rewrite IH. destruct (ki x); reflexivity. Qed.
Lemma keep_item_as i : shape_item i = true -> assembled (fun q => In q (parts_item i)) (KI i).
Proof.
  induction i as [m IH|i No] using item_nested_ind; intro S.
  - destruct m as [a v u k n s b ia ms]. cbn [keep_item]. rewrite keep_members_eq. cbn [assembled]. eexists. split; [left; reflexivity|].
    cbn [mo_attributes mo_vis mo_unsafe mo_mod mo_name mo_semicolon mo_braces mo_inner_attributes mo_members] in *. cbn [shape_item] in S. unfold shape_module in S.
    cbn [mo_attributes mo_vis mo_unsafe mo_mod mo_name mo_semicolon mo_braces mo_inner_attributes mo_members] in S. bsplit. split; [reflexivity|]. split.
    + intros ->. destruct s; [|discriminate]. bsplit. destruct ms; [reflexivity|discriminate].
    + apply assembled_members. apply Forall_map, Forall_forall. intros x Hx. apply filter_In in Hx. destruct Hx as [Hx _]. rewrite Forall_forall in IH.
      eapply assembled_mono; [|apply IH; auto].
      * cbn. intros q Hq. right. apply in_flat_map. eauto.
      * destruct s, b; try discriminate; bsplit; [destruct ms; [destruct Hx|discriminate]|]. match goal with H : forallb shape_item ms = true |- _ => rewrite forallb_forall in H; auto end.
  - destruct i as [[xa xv xk xn xg xw xf xs]|[xa xv xk xn xg xw xb xvs]|[xa xv xk xn xg xw xf]|m|[xa xv xu xk xn xg xbd xw xbr xia xms]|[xa xu xk xg xt xf xs xw xbr xia xms]|t|f|c|u|m|[xa xv xu xe xab xbr xia xms]|e]; cbn [keep_item assembled]; try (cbn; auto; fail).
    + eexists. split; [left; reflexivity|]. cbn [st_generics st_where st_fields]. split; [|split; [|split; [|reflexivity]]]; [apply keep_generics_as|apply keep_where_as|apply keep_fields_as];
        intros; right; cbn [st_generics st_where st_fields]; rewrite !in_app_iff; auto.
    + eexists. split; [left; reflexivity|]. cbn [en_generics en_where en_variants]. split; [|split; [|split; [|reflexivity]]]; [apply keep_generics_as|apply keep_where_as|].
      1,2: intros; right; cbn [en_generics en_where en_variants]; rewrite !in_app_iff; auto.
      apply keep_all. intros x c I. apply keep_variant_as. intros. right. cbn [en_generics en_where en_variants]. rewrite !in_app_iff. right. right. eapply in_parts_pu; eauto.
    + eexists. split; [left; reflexivity|]. cbn [un_generics un_where un_fields]. split; [|split; [|split; [|reflexivity]]]; [apply keep_generics_as|apply keep_where_as|].
      1,2: intros; right; cbn [un_generics un_where un_fields]; rewrite !in_app_iff; auto.
      apply (keep_fields_as _ (FNamed xf)). intros. right. cbn [un_generics un_where un_fields]. rewrite !in_app_iff. auto.
    + exfalso. eapply No. reflexivity.
    + eexists. split; [left; reflexivity|]. cbn [tr_generics tr_where tr_items]. split; [|split; [|split; [|reflexivity]]]; [apply keep_generics_as|apply keep_where_as|].
      1,2: intros; right; cbn [tr_generics tr_where tr_items]; rewrite !in_app_iff; auto.
      apply Forall_map, Forall_forall. intros x Hx. apply filter_In in Hx. apply keep_trait_member_as. intros. right. cbn [tr_generics tr_where tr_items]. rewrite !in_app_iff. right. right.
      apply in_flat_map. exists x. tauto.
    + eexists. split; [left; reflexivity|]. cbn [im_generics im_where im_items]. split; [|split; [|split; [|reflexivity]]]; [apply keep_generics_as|apply keep_where_as|].
      1,2: intros; right; cbn [im_generics im_where im_items]; rewrite !in_app_iff; auto.
      apply Forall_map, Forall_forall. intros x Hx. apply filter_In in Hx. apply keep_impl_member_as. intros. right. cbn [im_generics im_where im_items]. rewrite !in_app_iff. right. right.
      apply in_flat_map. exists x. tauto.
    + apply keep_function_as. intros. right. auto.
    + eexists. split; [left; reflexivity|]. split; [|reflexivity].
      apply Forall_map, Forall_forall. intros x Hx. apply filter_In in Hx. apply keep_impl_member_as. intros. right. cbn [eb_items]. apply in_flat_map. exists x. tauto.
Qed.
Lemma wf_separated {A} (wf : bool -> A -> bool) (closed : A -> bool) p : (forall x, wf true x = true -> closed x = true) -> wf_punctuated wf p = true -> separated closed p = true.
Proof.
  intro H. unfold separated, wf_punctuated. induction (pu_inner p) as [|[x c] l IH]; [auto|]. destruct l as [|y l].
  - cbn. destruct (pu_skip_last p); cbn; intro E; apply andb_prop in E; destruct E as [E1 E2]; rewrite E2, ?(H x) by auto; reflexivity.
  - rewrite !wf_inner_cons. cbn [negb orb]. intro E. apply andb_prop in E. destruct E as [E1 E2]. apply andb_prop in E1. destruct E1 as [E0 E1]. rewrite (H x E0), E1, (IH E2). reflexivity.
Qed.
Lemma wf_keep {A} (wf : bool -> A -> bool) (closed : A -> bool) k g p :
  (forall x, wf true x = true -> closed x = true) -> (forall x, closed (g x) = closed x) -> wf_punctuated wf p = true -> separated closed (keep_pu k g p) = true.
Proof. intros H1 H2 H. apply keep_separated; auto. eapply wf_separated; eauto. Qed.
Lemma keep_generics_glue o : wf_opt wf_generics o = true -> glue_generics (G o) = true.
Proof. destruct o as [g|]; cbn; auto. unfold wf_generics. intro H. bsplit. eapply wf_keep; eauto; reflexivity. Qed.
Lemma keep_where_glue o : wf_opt wf_where o = true -> glue_where (W o) = true.
Proof. destruct o as [g|]; cbn; auto. unfold wf_where. intro H. bsplit. eapply wf_keep; eauto; reflexivity. Qed.
Lemma keep_fields_glue x : wf_fields x = true -> glue_fields (keep_fields kt kn x) = true.
Proof.
  destruct x; cbn; auto; unfold wf_tuple_fields, wf_named_fields; intro H; bsplit; (eapply wf_keep; [|reflexivity|eauto]); intros x Hx;
    unfold wf_tuple_field, wf_named_field, wf_field_ty in Hx; bsplit; auto.
Qed.
Lemma keep_function_glue f : wf_function f = true -> glue_function (FN f) = true.
Proof.
  unfold wf_function, glue_function. intro H. bsplit. cbn [keep_function fn_generics fn_params fn_where]. rewrite keep_generics_glue, keep_where_glue by auto.
  rewrite andb_true_r. cbn [andb]. eapply wf_keep; [|reflexivity|eauto]. intros [r|t] Hx; [reflexivity|]. cbn in Hx. unfold wf_field_ty in Hx. bsplit. auto.
Qed.
Lemma keep_impl_member_glue b m : shape_impl_member b m = true -> glue_impl_member b (keep_impl_member kg kw kp m) = true.
Proof. destruct m; cbn; auto using keep_function_glue. intro H. bsplit. auto. Qed.
Lemma keep_impl_members_glue b l : forallb (shape_impl_member b) l = true -> forallb (glue_impl_member b) (keep_impl_members kg kw kp km l) = true.
Proof.
  rewrite !forallb_forall. intros H x Hx. apply in_map_iff in Hx. destruct Hx as (y & <- & Hy). apply filter_In in Hy. apply keep_impl_member_glue, H. tauto.
Qed.
Lemma keep_trait_members_glue l : forallb shape_trait_member l = true -> forallb glue_trait_member (keep_trait_members kg kw kp km l) = true.
Proof.
  rewrite !forallb_forall. intros H x Hx. apply in_map_iff in Hx. destruct Hx as (y & <- & Hy). apply filter_In in Hy. destruct Hy as [Hy _]. apply H in Hy.
  unfold shape_trait_member in Hy. apply keep_impl_member_glue in Hy. unfold glue_trait_member. destruct y; exact Hy.
Qed.
Lemma keep_variants_glue p : wf_punctuated wf_variant p = true ->
  separated any (keep_pu kv (keep_variant kt kn) p) = true
  /\ forallb (fun v => glue_fields (ev_fields (fst v))) (pu_inner (keep_pu kv (keep_variant kt kn) p)) = true.
Proof.
  intro H. split; [eapply wf_keep; eauto; reflexivity|]. apply forallb_forall. apply Forall_forall. apply (keep_all (fun v => glue_fields (ev_fields v) = true)).
  intros x c I. destruct (pu_elems _ _ _ _ H I) as [b Hb]. unfold wf_variant in Hb. bsplit. cbn. apply keep_fields_glue. auto.
Qed.
Lemma keep_glue i : shape_item i = true -> glue_item (KI i) = joins_item (KI i).
Proof.
  induction i as [m IH|i No] using item_nested_ind; intro S.
  - destruct m as [a v u k n s b ia ms]. cbn [keep_item]. rewrite keep_members_eq. cbn [glue_item joins_item mo_members] in *. f_equal.
    assert (M : forallb shape_item ms = true).
    { cbn [shape_item] in S. unfold shape_module in S. cbn [mo_semicolon mo_braces mo_members] in S. bsplit. destruct s, b; try discriminate; bsplit; auto. destruct ms; [reflexivity|discriminate]. }
    clear S. induction IH as [|x l Hx _ IHl]; [reflexivity|]. cbn [forallb] in M. bsplit. cbn [filter]. destruct (ki x); auto. cbn [map forallb]. rewrite Hx, IHl by auto. reflexivity.
  - destruct i as [[xa xv xk xn xg xw xf xs]|[xa xv xk xn xg xw xb xvs]|[xa xv xk xn xg xw xf]|m|[xa xv xu xk xn xg xbd xw xbr xia xms]|[xa xu xk xg xt xf xs xw xbr xia xms]|t|f|c|u|m|[xa xv xu xe xab xbr xia xms]|e];
      cbn [keep_item glue_item joins_item shape_item] in *; auto using keep_function_glue;
      unfold shape_struct, wf_enum, wf_union, shape_trait, shape_impl, shape_extern_block in S;
      cbn [st_generics st_where st_fields en_generics en_where en_variants un_generics un_where un_fields tr_generics tr_where tr_items im_generics im_where im_items eb_items] in *; bsplit;
      rewrite ?keep_generics_glue, ?keep_where_glue, ?keep_fields_glue by auto; auto using keep_impl_members_glue.
    + destruct (keep_variants_glue xvs) as [E1 E2]; auto. rewrite E1, E2. reflexivity.
    + apply (keep_fields_glue (FNamed xf)). auto.
    + exfalso. eapply No. reflexivity.
    + cbn [andb]. apply keep_trait_members_glue. auto.
    + cbn [andb]. apply keep_impl_members_glue. auto.
    + rewrite item_macro in S. bsplit. rwb. auto.
Qed.
(** Elements may be removed from all lists at every depth, unless this brings a macro [where] without attributes behind a tuple struct without [;]. *)
Theorem C96_remove (i : item) : parse_item (print_item i) = Ret (Ok i) ->
  (parse_item (print_item (KI i)) = Ret (Ok (KI i)) <-> joins_item (KI i) = true).
Proof.
  intro H. assert (S : shape_item i = true) by (apply C01_print_parse_iff in H; destruct H as [H _]; unfold wf_item in H; bsplit; auto).
  rewrite <- keep_glue by auto. apply (C96_assemble (fun q => In q (parts_item i))); [eauto|]. apply keep_item_as, S.
Qed.
End FilterProof.

(** Without macros named [where] nothing can go wrong. *)
Lemma join_free l : forallb (fun j => negb (bare_where j)) l = true -> may_join_all l = true.
Proof.
  induction l as [|i l IH]; [reflexivity|]. intro H. destruct l as [|j l]; [reflexivity|]. cbn [forallb may_join_all] in *. apply andb_prop in H. destruct H as [_ H].
  rewrite IH by auto. apply andb_prop in H. destruct H as [H _]. unfold may_join. rewrite (proj1 (negb_true_iff _) H), andb_false_r. reflexivity.
Qed.
Theorem C96_remove_any kg kw kt kn kv kp km ki (i : item) : parse_item (print_item i) = Ret (Ok i) ->
  (forall m, In (PaMacro m) (parts_item i) -> id_str (ma_name m) <> "where") ->
  let j := keep_item kg kw kt kn kv kp km ki i in parse_item (print_item j) = Ret (Ok j).
Proof.
  intros H N j. apply C96_remove; auto. clear H j. revert N. induction i as [m IH|i No] using item_nested_ind; intro N.
  - destruct m as [a v u k n s b ia ms]. cbn [keep_item]. rewrite keep_members_eq. cbn [joins_item mo_members] in *. rewrite Forall_forall in IH. apply andb_true_intro. split.
    + apply forallb_forall. intros x Hx. apply in_map_iff in Hx. destruct Hx as (y & <- & Hy). apply filter_In in Hy. destruct Hy as [Hy _]. apply IH; auto.
      intros m Hm. apply N. cbn. right. apply in_flat_map. eauto.
    + apply join_free, forallb_forall. intros x Hx. apply in_map_iff in Hx. destruct Hx as (y & <- & Hy). apply filter_In in Hy. destruct Hy as [Hy _].
      destruct y as [[]|[]|[]|[]|[]|[]| | | | |m|[]| ]; try reflexivity. cbn [keep_item bare_where]. apply negb_true_iff, andb_false_iff. right. unfold id_is. apply String.eqb_neq. apply N. cbn. right.
      apply in_flat_map. eexists. split; [exact Hy|]. cbn. auto.
  - destruct i as [[]|[]|[]|[]|[]|[]| | | | | |[]| ]; try reflexivity. exfalso. eapply No. reflexivity.
Qed.

(** ** Examples *)
Definition donor_impl := item_of "impl S { fn f(&self, n: u8) -> u8 { n } union! { } const C: u8 = 1; }".
Definition donor_mod := item_of "mod m { struct A(u8) #[a] where! { } fn g<T>() { } }".
Definition donor_extern := item_of "extern { static X: u8; }".
Definition box (q : part) : Prop := In q (parts_item donor_impl ++ parts_item donor_mod ++ parts_item donor_extern).
Definition impl_members_of (i : item) : list impl_member := match i with IImpl m => im_items m | IExternBlock b => eb_items b | _ => [] end.
Definition as_item (m : impl_member) : item := match m with IMFunction f => IFunction f | IMConstant c => IConstant c | IMType t => ITypeAlias t | IMMacro m => IMacro m end.
Definition refill (i : item) (l : list item) (ms : list impl_member) : item :=
  match i with
  | IModule m => IModule (mkModule (mo_attributes m) (mo_vis m) (mo_unsafe m) (mo_mod m) (mo_name m) (mo_semicolon m) (mo_braces m) (mo_inner_attributes m) l)
  | IImpl m => IImpl (mkImpl (im_attributes m) (im_unsafe m) (im_impl m) (im_generics m) (im_trait m) (im_for m) (im_self m) (im_where m) (im_braces m) (im_inner_attributes m) ms)
  | _ => i
  end.
Definition mod_members_of (i : item) : list item := match i with IModule m => mo_members m | _ => [] end.
Ltac from_box := unfold box; vm_compute; repeat (first [left; reflexivity | right]).
Ltac build := repeat match goal with
  | |- box _ => solve [from_box]
  | |- as_function box ?f => exists f
  | |- _ /\ _ => split
  | |- exists _, _ => eexists
  | |- Forall _ _ => constructor
  | |- True => exact I
  | |- _ = _ => reflexivity
  | |- _ -> _ => let H := fresh in intro H; discriminate H
  | |- _ => progress (unfold all_pu; cbn)
  end.
(** Methods, constants, items moved and repeated. *)
Definition mixed : item := refill donor_mod (mod_members_of donor_mod ++ map as_item (firstn 1 (impl_members_of donor_impl) ++ impl_members_of donor_extern) ++ mod_members_of donor_mod) [].
Example C96_example :
  (forall i, In i [donor_impl; donor_mod; donor_extern] -> parse_item (print_item i) = Ret (Ok i))
  /\ texts (print_item mixed) = texts (lex "mod m { struct A(u8) #[a] where! { } fn g<T>() { } fn f(&self, n: u8) -> u8 { n } static X: u8; struct A(u8) #[a] where! { } fn g<T>() { } }")
  /\ parse_item (print_item mixed) = Ret (Ok mixed)
  /\ (* a macro named [union] is a member, not an item *)
     (let j := refill donor_mod (map as_item (impl_members_of donor_impl)) [] in glue_item j = false /\ exists p, parse_item (print_item j) = Panic p)
  /\ (* no static in an impl *)
     (let j := refill donor_impl [] (impl_members_of donor_extern) in glue_item j = false /\ exists p, parse_item (print_item j) = Panic p).
Proof.
  split; [intros i [<-|[<-|[<-|[]]]]; vm_compute; reflexivity|]. repeat split; try (vm_compute; reflexivity); try (eexists; vm_compute; reflexivity).
Qed.
Example C96_example_assembled : assembled box mixed.
Proof.
  unfold mixed. let m := eval vm_compute in mixed in change (assembled box m).
  cbn. build.
Qed.

(** Both sides of C96_remove: dropping private fields, the variant [B], receivers and items other than structs and macros. *)
Definition prune : item -> item :=
  keep_item (fun g => negb (id_is "U" (gp_name g))) (fun _ => false) (fun f => some (tf_vis f)) (fun f => some (nf_vis f)) (fun v => negb (id_is "B" (ev_name v)))
    (fun p => match p with FPReceiver _ => false | FPTyped _ => true end) (fun m => match m with IMFunction _ => true | _ => false end)
    (fun i => match i with IStruct _ | IMacro _ | IModule _ | IImpl _ => true | _ => false end).
Example C96_example_remove :
  (let i := item_of "mod m { use a::b; pub struct S<T, U> where T: X { pub x: u8, y: Vec<T, U>, pub z: T } impl S { const C: u8 = 1; fn f(&self, n: u8) { } } }" in
   parse_item (print_item i) = Ret (Ok i)
   /\ texts (print_item (prune i)) = texts (lex "mod m { pub struct S<T> where { pub x: u8, pub z: T } impl S { fn f(n: u8) { } } }")
   /\ parse_item (print_item (prune i)) = Ret (Ok (prune i)))
  /\ (let i := item_of "enum E { A { pub x: u8, y: u8 }, B, C(u8, pub u8), }" in
      parse_item (print_item i) = Ret (Ok i)
      /\ texts (print_item (prune i)) = texts (lex "enum E { A { pub x: u8 }, C(pub u8) }")
      /\ parse_item (print_item (prune i)) = Ret (Ok (prune i)))
  /\ (let i := item_of "mod m { struct S(u8) fn f() { } where! { } }" in
      parse_item (print_item i) = Ret (Ok i) /\ joins_item (prune i) = false /\ exists p, parse_item (print_item (prune i)) = Panic p).
Proof. repeat split; try (vm_compute; reflexivity). eexists. vm_compute. reflexivity. Qed.
(** A type with an open bracket can only come last. *)
Example C96_example_open :
  let i := item_of "struct S(u8, A<B);" in
  let swap x := match x with
    | IStruct (mkStruct a v k n g w (FTuple (mkTupleFields (mkPunctuated [(x, c); (y, d)] b) p)) s) =>
        IStruct (mkStruct a v k n g w (FTuple (mkTupleFields (pushed [(y, Some c); (x, None)]) p)) s)
    | x => x end in
  parse_item (print_item i) = Ret (Ok i) /\ glue_item (swap i) = false
  /\ match parse_item (print_item (swap i)) with Ret (Ok (IStruct s)) => match st_fields s with FTuple f => pu_len (tfs_fields f) = 1%nat | _ => False end | _ => False end.
Proof. vm_compute. repeat split; reflexivity. Qed.

(** C78: types may be replaced by other types. *)
From Verif Require Import RustSyntax Debug PrintSpells Complete3 Sound2 Unfold Samples PropRoundTrip PropErr PropMore PropLimits PropRust.
Local Open Scope string_scope.
Local Open Scope list_scope.

Section Subst.
(** The type that replaces a type. *)
Variable f : list tok -> list tok.
Definition sub_type (t : type_expr) : type_expr := mkTypeExpr (f (te_tokens t)).
Definition sub_pu {A} (g : A -> A) (p : punctuated A) : punctuated A :=
  mkPunctuated (map (fun x => (g (fst x), snd x)) (pu_inner p)) (pu_skip_last p).
Definition sub_tfield (x : tuple_field) : tuple_field := mkTupleField (tf_attributes x) (tf_vis x) (sub_type (tf_ty x)).
Definition sub_nfield (x : named_field) : named_field := mkNamedField (nf_attributes x) (nf_vis x) (nf_name x) (nf_colon x) (sub_type (nf_ty x)).
Definition sub_fields (x : fields) : fields :=
  match x with
  | FUnit => FUnit
  | FTuple x => FTuple (mkTupleFields (sub_pu sub_tfield (tfs_fields x)) (tfs_parens x))
  | FNamed x => FNamed (mkNamedFields (sub_pu sub_nfield (nfs_fields x)) (nfs_braces x))
  end.
Definition sub_variant (v : enum_variant) : enum_variant :=
  mkVariant (ev_attributes v) (ev_vis v) (ev_name v) (sub_fields (ev_fields v)) (ev_value v).
Definition sub_param (p : fn_param) : fn_param :=
  match p with FPTyped t => FPTyped (mkTyped (ft_attributes t) (ft_mut t) (ft_name t) (ft_colon t) (sub_type (ft_ty t))) | p => p end.
Definition sub_function (x : function) : function :=
  mkFunction (fn_attributes x) (fn_vis x) (fn_qualifiers_ x) (fn_kw x) (fn_name x) (fn_generics x) (fn_parens x)
    (sub_pu sub_param (fn_params x)) (fn_where x) (fn_arrow x) (option_map sub_type (fn_ret x)) (fn_semicolon x) (fn_body x).
Definition sub_constant (k : constant) : constant :=
  mkConstant (co_attributes k) (co_vis k) (co_kw k) (co_mut k) (co_name k) (co_colon k) (sub_type (co_ty k)) (co_equals k) (co_init k) (co_semicolon k).
Definition sub_alias (t : type_alias) : type_alias :=
  mkTypeAlias (ta_attributes t) (ta_vis t) (ta_type t) (ta_name t) (ta_bound t) (ta_equals t) (option_map sub_type (ta_init t)) (ta_semicolon t).
Definition sub_impl_member (m : impl_member) : impl_member :=
  match m with IMFunction x => IMFunction (sub_function x) | IMConstant k => IMConstant (sub_constant k) | IMType t => IMType (sub_alias t) | m => m end.
Definition sub_trait_member (m : trait_member) : trait_member :=
  match m with TMFunction x => TMFunction (sub_function x) | TMConstant k => TMConstant (sub_constant k) | TMType t => TMType (sub_alias t) | m => m end.
(** Apply it to the types of fields, parameters, results, constants and aliases and to the self
    type of impls of traits, in nested modules, too. *)
Fixpoint sub_item (i : item) : item :=
  match i with
  | IStruct (mkStruct a v k n g w x s) => IStruct (mkStruct a v k n g w (sub_fields x) s)
  | IEnum (mkEnum a v k n g w b vs) => IEnum (mkEnum a v k n g w b (sub_pu sub_variant vs))
  | IUnion (mkUnion a v k n g w (mkNamedFields x b)) => IUnion (mkUnion a v k n g w (mkNamedFields (sub_pu sub_nfield x) b))
  | IFunction x => IFunction (sub_function x)
  | IConstant k => IConstant (sub_constant k)
  | ITypeAlias t => ITypeAlias (sub_alias t)
  | IModule (mkModule a v u k n s b ia ms) => IModule (mkModule a v u k n s b ia (map sub_item ms))
  | ITrait (mkTrait a v u k n g b w br ia ms) => ITrait (mkTrait a v u k n g b w br ia (map sub_trait_member ms))
  | IImpl (mkImpl a u k g t x s w br ia ms) =>
      IImpl (mkImpl a u k g t x (match t with Some _ => sub_type s | None => s end) w br ia (map sub_impl_member ms))
  | IExternBlock (mkExternBlock a v u e ab br ia ms) => IExternBlock (mkExternBlock a v u e ab br ia (map sub_impl_member ms))
  | i => i
  end.

(** Every type is kept or becomes a Rust type that does not start with [crate] or with a tuple (C19, C20). *)
Definition plain_start (ts : list tok) : Prop :=
  ~ starts (fun t => exists i, t = TIdent i /\ id_str i = "crate") ts /\ ~ starts (fun t => exists g, t = TGroup g /\ g_delim g = Parenthesis) ts.
Hypothesis f_type : forall ts, f ts = ts \/ (rust_type anywhere (f ts) /\ plain_start (f ts)).

Lemma closed_sub P ts : compatible anywhere P -> run_closed P ts = true -> run_closed P (f ts) = true.
Proof. intros H E. destruct (f_type ts) as [->|[T _]]; auto. apply (passes_closed anywhere); auto. apply type_passes, T. Qed.
Lemma field_ty_sub b t : wf_field_ty b t = true -> wf_field_ty b (sub_type t) = true.
Proof.
  unfold wf_field_ty, sub_type. cbn [te_tokens]. intro H. destruct (f_type (te_tokens t)) as [->|[T _]]; auto.
  destruct (type_headed _ _ T) as (x & r & E & _). rewrite (passes_any anywhere), (passes_closed anywhere), E; auto using compat_comma, type_passes; destruct b; auto.
Qed.
Lemma prefix_sub v ts : prefix_ok v ts = true -> prefix_ok v (f ts) = true.
Proof.
  destruct (f_type ts) as [->|[T [S1 S2]]]; auto. intros _. destruct (type_headed _ _ T) as (t & r & E & G).
  pose proof (not_starts_false _ _ _ group_paren S2) as P. unfold prefix_ok. destruct v as [[[] []]|]; try reflexivity.
  - rewrite P, andb_false_r. reflexivity.
  - rewrite E in *. cbn [head_is] in *. unfold good_head in G. bsplit. rwb. cbn [negb andb]. apply negb_true_iff. destruct t as [|i| |]; auto. cbn. unfold id_is.
    apply String.eqb_neq. intro Ei. apply S1. cbn. eauto.
Qed.
Lemma pu_sub {A} (wf : bool -> A -> bool) (g : A -> A) p : (forall b x, wf b x = true -> wf b (g x) = true) ->
  wf_punctuated wf p = true -> wf_punctuated wf (sub_pu g p) = true.
Proof.
  intro H. unfold wf_punctuated, sub_pu. cbn [pu_inner pu_skip_last]. induction (pu_inner p) as [|[x c] l IH]; [auto|].
  destruct l as [|y l]; cbn in *; intro E; bsplit; rewrite H by auto; rwb; auto.
Qed.
Lemma tfield_sub b x : wf_tuple_field b x = true -> wf_tuple_field b (sub_tfield x) = true.
Proof.
  unfold wf_tuple_field. cbn [sub_tfield tf_attributes tf_vis tf_ty]. intro H. bsplit. rwb. rewrite field_ty_sub by auto. cbn [sub_type te_tokens].
  rewrite prefix_sub by auto. reflexivity.
Qed.
Lemma nfield_sub b x : wf_named_field b x = true -> wf_named_field b (sub_nfield x) = true.
Proof. unfold wf_named_field. cbn [sub_nfield nf_attributes nf_vis nf_name nf_colon nf_ty]. intro H. bsplit. rwb. rewrite field_ty_sub by auto. reflexivity. Qed.
Lemma fields_sub x : wf_fields x = true -> wf_fields (sub_fields x) = true.
Proof.
  destruct x; cbn [sub_fields wf_fields]; auto; unfold wf_tuple_fields, wf_named_fields; cbn [tfs_fields tfs_parens nfs_fields nfs_braces]; intro H; bsplit; rwb;
    apply pu_sub; auto using tfield_sub, nfield_sub.
Qed.
Lemma variant_sub b v : wf_variant b v = true -> wf_variant b (sub_variant v) = true.
Proof. unfold wf_variant. cbn [sub_variant ev_attributes ev_vis ev_name ev_fields ev_value]. intro H. bsplit. rwb. rewrite fields_sub; auto. Qed.
Lemma param_sub b p : wf_fn_param b p = true -> wf_fn_param b (sub_param p) = true.
Proof. destruct p; [auto|]. cbn [sub_param wf_fn_param ft_attributes ft_mut ft_name ft_colon ft_ty]. intro H. bsplit. rwb. rewrite field_ty_sub by auto. reflexivity. Qed.
Lemma function_sub x : wf_function x = true -> wf_function (sub_function x) = true.
Proof.
  unfold wf_function. cbn [sub_function fn_attributes fn_vis fn_qualifiers_ fn_kw fn_name fn_generics fn_parens fn_params fn_where fn_arrow fn_ret fn_semicolon fn_body].
  intro H. bsplit. rwb. rewrite pu_sub by auto using param_sub. cbn [andb].
  destruct (fn_arrow x) as [[]|], (fn_ret x); cbn [option_map]; bsplit; rwb; auto. cbn [sub_type te_tokens]. rewrite closed_sub by auto using compat_return. reflexivity.
Qed.
Lemma constant_sub k : shape_constant k = true -> shape_constant (sub_constant k) = true.
Proof.
  unfold shape_constant. cbn [sub_constant co_attributes co_vis co_kw co_mut co_name co_colon co_ty co_equals co_init co_semicolon sub_type te_tokens].
  intro H. bsplit. rwb. rewrite closed_sub by auto using compat_const_ty. reflexivity.
Qed.
Lemma alias_sub t : wf_type_alias t = true -> wf_type_alias (sub_alias t) = true.
Proof.
  unfold wf_type_alias. cbn [sub_alias ta_attributes ta_vis ta_type ta_name ta_bound ta_equals ta_init ta_semicolon].
  destruct (ta_equals t), (ta_init t); cbn [option_map]; auto. cbn [sub_type te_tokens]. intro H. bsplit. rwb. rewrite closed_sub by auto using compat_semicolon. reflexivity.
Qed.
Lemma impl_member_sub b m : shape_impl_member b m = true -> shape_impl_member b (sub_impl_member m) = true.
Proof.
  destruct m; cbn [sub_impl_member shape_impl_member]; auto using function_sub, alias_sub. intro H. apply andb_prop in H. destruct H as [H1 H2].
  rewrite (constant_sub _ H1). exact H2.
Qed.
Lemma trait_member_sub m : shape_trait_member m = true -> shape_trait_member (sub_trait_member m) = true.
Proof. intro H. apply (impl_member_sub false) in H. destruct m; exact H. Qed.
Lemma forallb_sub {A} (p : A -> bool) (g : A -> A) l : (forall x, p x = true -> p (g x) = true) -> forallb p l = true -> forallb p (map g l) = true.
Proof. intro H. induction l as [|x l IH]; cbn; [auto|]. intro E. bsplit. rewrite H, IH; auto. Qed.

Lemma sub_shape i : shape_item i = true -> shape_item (sub_item i) = true.
Proof.
  induction i as [m IH|i No] using item_nested_ind.
  - destruct m as [a v u k n s b ia ms]. cbn [mo_members] in IH. cbn [sub_item shape_item]. unfold shape_module.
    cbn [mo_attributes mo_vis mo_unsafe mo_mod mo_name mo_semicolon mo_braces mo_inner_attributes mo_members].
    assert (F : forallb shape_item ms = true -> forallb shape_item (map sub_item ms) = true)
      by (induction IH as [|x l Hx _ IHl]; cbn; [auto|intro E; bsplit; rewrite Hx, IHl; auto]).
    assert (N : nonempty (map sub_item ms) = nonempty ms) by (destruct ms; reflexivity). rewrite N.
    intro H. bsplit. rwb. destruct s, b; bsplit; rwb; auto.
  - destruct i as [[xa xv xk xn xg xw xf xs]|[xa xv xk xn xg xw xb xvs]|[xa xv xk xn xg xw [xf xb]]|m|[xa xv xu xk xn xg xbd xw xbr xia xms]|[xa xu xk xg xt xf xs xw xbr xia xms]|t|x|k|[xa xv xk xt xs]|m|[xa xv xu xe xab xbr xia xms]|c];
      cbn [sub_item shape_item]; auto.
    + unfold shape_struct. cbn [st_attributes st_vis st_struct st_name st_generics st_where st_fields st_semicolon].
      intro H. bsplit. rwb. rewrite fields_sub by auto. destruct xf; auto.
    + unfold wf_enum. cbn [en_attributes en_vis en_enum en_name en_generics en_where en_braces en_variants].
      intro H. bsplit. rwb. apply pu_sub; auto using variant_sub.
    + unfold wf_union, wf_named_fields. cbn [un_attributes un_vis un_union un_name un_generics un_where un_fields nfs_fields nfs_braces].
      intro H. bsplit. rwb. apply pu_sub; auto using nfield_sub.
    + exfalso. eapply No. reflexivity.
    + unfold shape_trait. cbn [tr_attributes tr_vis tr_unsafe tr_trait tr_name tr_generics tr_bound tr_where tr_braces tr_inner_attributes tr_items].
      intro H. bsplit. rwb. apply forallb_sub; auto using trait_member_sub.
    + unfold shape_impl. cbn [im_attributes im_unsafe im_impl im_generics im_trait im_for im_self im_where im_braces im_inner_attributes im_items].
      intro H. bsplit. rwb. rewrite forallb_sub by auto using impl_member_sub. rewrite andb_true_r.
      destruct xt, xf; try discriminate; bsplit; cbn [sub_type te_tokens]; rewrite ?closed_sub by auto using compat_impl_self; rwb; auto.
    + apply alias_sub.
    + apply function_sub.
    + apply constant_sub.
    + unfold shape_extern_block. cbn [eb_attributes eb_vis eb_unsafe eb_extern eb_abi eb_braces eb_inner_attributes eb_items].
      intro H. bsplit. rwb. apply forallb_sub; auto using impl_member_sub.
Qed.
Lemma sub_start i : same_start (print_item (sub_item i)) (print_item i).
Proof.
  destruct i as [[]|[]|[? ? ? ? ? ? []]|[]|[]|[]|[]|x|[]|[]|m|[]|]; cbn [sub_item print_item];
    unfold print_struct, print_enum, print_union, print_module, print_trait, print_impl, print_type_alias, print_function, print_constant, print_use, print_macro,
      print_extern_block, print_extern_crate; cbn; repeat (apply same_start_cons || apply same_start_app).
Qed.
Lemma sub_follow i r s : (forall p, head_is p r = head_is p s) -> follow_ok (sub_item i) r = follow_ok i s.
Proof.
  intro H. destruct i as [[a v k n g w x se]|[]|[? ? ? ? ? ? []]|[]|[]|[]| |x| |[]|m|[]|]; try reflexivity. cbn [sub_item follow_ok]. unfold struct_follow.
  cbn [st_fields st_semicolon st_where]. rewrite !H. destruct x, se, w; reflexivity.
Qed.
Lemma sub_members l : members_follow (map sub_item l) = members_follow l.
Proof.
  induction l as [|i l IH]; [reflexivity|]. cbn [map members_follow]. rewrite IH. f_equal. apply sub_follow. intro p.
  destruct l as [|j l]; [reflexivity|]. cbn [map flat_map]. apply same_start_head, sub_start.
Qed.
Lemma sub_stable i : stable_item (sub_item i) = stable_item i.
Proof.
  induction i as [m IH|i No] using item_nested_ind.
  - destruct m as [a v u k n s b ia ms]. cbn [mo_members] in IH. cbn [sub_item stable_item mo_members]. rewrite sub_members. f_equal.
    induction IH as [|x l Hx _ IHl]; cbn; [auto|rewrite Hx, IHl; auto].
  - destruct i as [[a v k n g w x se]|[]|[? ? ? ? ? ? []]|m|[]|[]| |x| |[]|m|[]|]; try reflexivity.
    + destruct x; reflexivity.
    + exfalso. eapply No. reflexivity.
    + apply forallb_map_same. intros []; reflexivity.
    + apply forallb_map_same. intros []; reflexivity.
    + apply forallb_map_same. intros []; reflexivity.
Qed.

(** ** C78 *)
(** The item with the new types is printed and parsed faithfully, whatever the old types were. *)
Theorem C78_substitute (i : item) :
  parse_item (print_item i) = Ret (Ok i) -> parse_item (print_item (sub_item i)) = Ret (Ok (sub_item i)).
Proof.
  rewrite !C01_print_parse_iff. unfold wf_item. rewrite sub_stable, (sub_follow i [] []) by auto. intros [H1 H2]. apply andb_prop in H1. destruct H1 as [H1 H3].
  rewrite sub_shape, H3; auto.
Qed.
End Subst.

(** ** In the Rust fragment *)
Section Fragment.
Variable f : list tok -> list tok.
Hypothesis keeps : forall ts, rust_type anywhere ts -> rust_type anywhere (f ts) /\ plain_start (f ts).
Lemma rust_pu {A} (X : A -> Prop) (g : A -> A) p : (forall x, X x -> X (g x)) -> rust_list X p -> rust_list X (sub_pu g p).
Proof.
  intros H [H1 H2]. unfold rust_list, sub_pu. cbn [pu_inner pu_skip_last]. split.
  - clear H2. induction (pu_inner p) as [|[x c] l IH]; auto. destruct l as [|y l]; auto. destruct H1 as [H1 H3]. split; [exact H1|apply IH, H3].
  - rewrite Forall_map. eapply Forall_impl; [|exact H2]. cbn. auto.
Qed.
Lemma rust_tfield x : rust_tuple_field x -> rust_tuple_field (sub_tfield f x).
Proof.
  intros (H1 & H2 & H3 & H4). destruct (keeps _ H3) as [H5 [H6 H7]]. unfold rust_tuple_field. cbn. repeat split; auto. destruct (tf_vis x); auto.
Qed.
Lemma rust_nfield x : rust_named_field x -> rust_named_field (sub_nfield f x).
Proof. intros (H1 & H2 & H3 & H4 & H5). unfold rust_named_field. cbn. repeat split; auto. apply keeps, H5. Qed.
Lemma rust_fields_sub x : rust_fields x -> rust_fields (sub_fields f x).
Proof. destruct x; cbn -[rust_list]; auto; intros [H1 H2]; split; auto; apply rust_pu; auto using rust_tfield, rust_nfield. Qed.
Lemma rust_variant_sub v : rust_variant v -> rust_variant (sub_variant f v).
Proof. intros (H1 & H2 & H3 & H4 & H5). unfold rust_variant. cbn -[rust_fields]. auto 8 using rust_fields_sub. Qed.
Lemma rust_param_sub p : rust_param p -> rust_param (sub_param f p).
Proof. destruct p; auto. cbn. intros (H1 & H2 & H3 & H4 & H5). repeat split; auto. apply keeps, H5. Qed.
Lemma rust_function_sub x : rust_function x -> rust_function (sub_function f x).
Proof.
  unfold rust_function. cbn -[rust_list]. intros (H1 & H2 & H3 & H4 & H5 & H6 & H7 & H8 & H9 & H10). do 6 (split; [assumption|]).
  split; [apply rust_pu; auto using rust_param_sub|]. split; [|auto]. destruct (fn_arrow x) as [[]|], (fn_ret x); auto. cbn in *. destruct H8 as (H8 & H11 & H12).
  split; auto. split; auto. apply keeps, H12.
Qed.
Lemma rust_constant_sub b k : rust_constant b k -> rust_constant b (sub_constant f k).
Proof. unfold rust_constant. cbn. intuition. apply keeps; auto. apply keeps; auto. Qed.
Lemma rust_alias_sub t : rust_alias t -> rust_alias (sub_alias f t).
Proof. unfold rust_alias. cbn. intros (H1 & H2 & H3 & H4 & H5 & H6). repeat split; auto. destruct (ta_equals t), (ta_init t); auto. cbn. destruct H5. split; auto. apply keeps; auto. Qed.
Lemma rust_member_sub b m : rust_member b m -> rust_member b (sub_impl_member f m).
Proof. destruct m; cbn -[rust_function rust_constant rust_alias]; auto using rust_function_sub, rust_constant_sub, rust_alias_sub. Qed.
Lemma rust_trait_member_sub m : rust_trait_member m -> rust_trait_member (sub_trait_member f m).
Proof. destruct m; cbn -[rust_function rust_constant rust_alias]; auto using rust_function_sub, rust_constant_sub, rust_alias_sub. Qed.
(** A rewriting of types that keeps Rust types keeps the items of the fragment. *)
Theorem C78_fragment (i : item) : rust_item i -> rust_item (sub_item f i).
Proof.
  induction i as [m IH|i No] using item_nested_ind.
  - destruct m as [a v u k n s b ia ms]. cbn [mo_members] in IH. cbn [sub_item rust_item mo_attributes mo_vis mo_unsafe mo_mod mo_semicolon mo_braces mo_inner_attributes mo_members].
    intros (H1 & H2 & H3 & H4 & H5 & H6). do 4 (split; [assumption|]). split.
    + destruct s, b; auto. destruct H5 as (H5 & H7 & ->). auto.
    + clear H5. induction IH as [|x l Hx _ IHl]; auto. destruct H6 as [H6 H7]. split; [auto|apply IHl, H7].
  - assert (L : forall {A} (X : A -> Prop) g l, (forall x, X x -> X (g x)) -> Forall X l -> Forall X (map g l)).
    { intros A X g l H Hl. rewrite Forall_map. eapply Forall_impl; [|exact Hl]. auto. }
    destruct i as [[xa xv xk xn xg xw xf xs]|[xa xv xk xn xg xw xb xvs]|[xa xv xk xn xg xw [xf xb]]|m|[xa xv xu xk xn xg xbd xw xbr xia xms]|[xa xu xk xg xt xf xs xw xbr xia xms]|t|x|k|[xa xv xk xt xs]|m|[xa xv xu xe xab xbr xia xms]|c];
      cbn [sub_item rust_item]; auto using rust_function_sub, rust_constant_sub, rust_alias_sub.
    + unfold rust_struct. cbn -[rust_fields rust_generics rust_where]. intros (H1 & H2 & H3 & H4 & H5 & H6 & H7). do 5 (split; [assumption|]).
      split; [apply rust_fields_sub; auto|]. destruct xf; exact H7.
    + unfold rust_enum. cbn -[rust_list rust_generics rust_where]. intros (H1 & H2 & H3 & H4 & H5 & H6 & H7). do 6 (split; [assumption|]). apply rust_pu; auto using rust_variant_sub.
    + unfold rust_union. cbn -[rust_list rust_generics rust_where]. intros (H1 & H2 & H3 & H4 & H5 & H6 & H7). do 6 (split; [assumption|]). apply rust_pu; auto using rust_nfield.
    + exfalso. eapply No. reflexivity.
    + unfold rust_trait. cbn -[rust_generics rust_where rust_trait_member]. intros (H1 & H2 & H3 & H4 & H5 & H6 & H7 & H8 & H9 & H10). do 9 (split; [assumption|]). auto using rust_trait_member_sub.
    + unfold rust_impl. cbn -[rust_generics rust_where rust_member]. intros (H1 & H2 & H3 & H4 & H5 & H6 & H7 & H8 & H9). do 4 (split; [assumption|]). split; [|auto 6 using rust_member_sub].
      destruct xt, xf; auto. destruct H5 as (H5 & H10 & H11). split; auto. split; auto. cbn. apply keeps, H10.
    + unfold rust_extern_block. cbn -[rust_member]. intros (H1 & H2 & H3 & H4 & H5 & H6 & H7). do 6 (split; [assumption|]). auto using rust_member_sub.
Qed.
End Fragment.
(** For example [Name<..>] around every type. *)
Definition wrapped (n : ident) (l r : punct) (ts : list tok) : list tok := TIdent n :: TPunct l :: ts ++ [TPunct r].
Theorem C78_wrap (i : item) (n : ident) (l r : punct) : rust_item i -> declared_name n -> mark "<" l -> mark ">" r ->
  let j := sub_item (wrapped n l r) i in rust_item j /\ parse_item (print_item j) = Ret (Ok j).
Proof.
  intros Hi Hn Hl Hr j. assert (rust_item j); [|auto using C74_rust_items].
  apply C78_fragment; auto. intros ts T. split.
  - apply type_of_one; auto; [|apply arg_type, T]. intro E. apply Hn, in_or_app. auto.
  - split; cbn.
    + intros (k & E & Ek). injection E as <-. apply Hn. rewrite Ek. cbn. tauto.
    + intros (g & E & _). discriminate.
Qed.
(** The hypotheses of C78_substitute hold of the function that replaces [T] by [&'a [T]], on an item that is not in the fragment. *)
Definition only_t (ts : list tok) : list tok :=
  match ts with
  | [TIdent i] => if String.eqb (id_str i) "T" then
      [TPunct (mkPunct "&" Alone 1%N); TPunct (mkPunct "'" Joint 2%N); TIdent (mkIdent "a" 3%N); TGroup (mkGroup Bracket [TIdent i] 4%N)] else ts
  | _ => ts
  end.
Example C78_example :
  (forall ts, only_t ts = ts \/ (rust_type anywhere (only_t ts) /\ plain_start (only_t ts)))
  /\ (let i := item_of "mod m { struct S(T, A < B); impl X for T { const K: T = 1; fn f(a: T, b: U) -> T { } } }" in
      parse_item (print_item i) = Ret (Ok i)
      /\ texts (print_item (sub_item only_t i))
         = texts (lex "mod m { struct S(&'a [T], A < B); impl X for &'a [T] { const K: &'a [T] = 1; fn f(a: &'a [T], b: U) -> &'a [T] { } } }"))
  /\ rust_item (item_of pair_text)
  /\ texts (print_item (sub_item (wrapped (mkIdent "Box" 1%N) (mkPunct "<" Alone 2%N) (mkPunct ">" Alone 3%N)) (item_of "struct S { a: T, b: Vec<U> }")))
     = texts (lex "struct S { a: Box<T>, b: Box<Vec<U>> }").
Proof.
  split; [|split; [vm_compute; auto|split; [exact pair_item|vm_compute; reflexivity]]].
  intros ts. destruct ts as [|[g|i|p|t] [|]]; auto. cbn [only_t]. destruct (String.eqb (id_str i) "T"); auto. right. split.
  - apply (ty_reference _ _ [_; _] [] [_]); [reflexivity|right; life|left; reflexivity|]. apply ty_group. discriminate.
  - split; cbn; intros (x & E & _); discriminate.
Qed.

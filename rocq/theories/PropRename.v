(** C93: declared names may be replaced by other names. *)
From Verif Require Import RustSyntax Debug PrintSpells Complete3 Sound2 Unfold Samples PropRoundTrip PropErr PropMore PropLimits PropRust PropSubst.
Local Open Scope string_scope.
Local Open Scope list_scope.

(** Where a name is declared. *)
Inductive role :=
| RItem                 (* struct, enum, union, mod, trait, fn, type, macro_rules and the alias of extern crate *)
| RConst | RStatic
| RMember (vis : bool)  (* a field or variant; does it have a visibility? *)
| RParam (mut_ : bool)  (* a parameter of a function; is it mut? *)
| RType                 (* a type parameter *)
| RPrefixed.            (* a lifetime or const parameter *)

(** The names that cannot be declared there, because the parser takes them for something else. *)
Definition forbidden (r : role) : list string :=
  match r with
  | RItem | RPrefixed | RMember true => []
  | RMember false => ["pub"; "crate"]
  | RParam true => ["self"]
  | RParam false => ["self"; "mut"]
  | RConst => ["async"; "unsafe"; "extern"; "fn"; "mut"]
  | RStatic => ["mut"]
  | RType => ["const"]
  end.
Definition may_declare (r : role) (n : ident) : Prop := ~ In (id_str n) (forbidden r).

Section Rename.
(** The new name of a declared name. *)
Variable f : role -> ident -> ident.

Definition const_role (k : constant) : role := if id_is "const" (co_kw k) then RConst else RStatic.
Definition ren_param (p : generic_param) : generic_param :=
  mkGenericParam (gp_prefix p) (f (match gp_prefix p with Some _ => RPrefixed | None => RType end) (gp_name p)) (gp_bound p).
Definition ren_generics (g : option generic_param_list) : option generic_param_list :=
  option_map (fun g => mkGenericParamList (gpl_l g) (sub_pu ren_param (gpl_params g)) (gpl_r g)) g.
Definition ren_nfield (x : named_field) : named_field :=
  mkNamedField (nf_attributes x) (nf_vis x) (f (RMember (some (nf_vis x))) (nf_name x)) (nf_colon x) (nf_ty x).
Definition ren_fields (x : fields) : fields :=
  match x with FNamed x => FNamed (mkNamedFields (sub_pu ren_nfield (nfs_fields x)) (nfs_braces x)) | x => x end.
Definition ren_variant (v : enum_variant) : enum_variant :=
  mkVariant (ev_attributes v) (ev_vis v) (f (RMember (some (ev_vis v))) (ev_name v)) (ren_fields (ev_fields v)) (ev_value v).
Definition ren_fn_param (p : fn_param) : fn_param :=
  match p with FPTyped t => FPTyped (mkTyped (ft_attributes t) (ft_mut t) (f (RParam (some (ft_mut t))) (ft_name t)) (ft_colon t) (ft_ty t)) | p => p end.
Definition ren_function (x : function) : function :=
  mkFunction (fn_attributes x) (fn_vis x) (fn_qualifiers_ x) (fn_kw x) (f RItem (fn_name x)) (ren_generics (fn_generics x)) (fn_parens x)
    (sub_pu ren_fn_param (fn_params x)) (fn_where x) (fn_arrow x) (fn_ret x) (fn_semicolon x) (fn_body x).
Definition ren_constant (k : constant) : constant :=
  mkConstant (co_attributes k) (co_vis k) (co_kw k) (co_mut k) (f (const_role k) (co_name k)) (co_colon k) (co_ty k) (co_equals k) (co_init k) (co_semicolon k).
Definition ren_alias (t : type_alias) : type_alias :=
  mkTypeAlias (ta_attributes t) (ta_vis t) (ta_type t) (f RItem (ta_name t)) (ta_bound t) (ta_equals t) (ta_init t) (ta_semicolon t).
Definition ren_macro (m : macro) : macro :=
  mkMacro (ma_attributes m) (ma_name m) (ma_bang m) (option_map (f RItem) (ma_declared m)) (ma_group m) (ma_inner m) (ma_semicolon m).
Definition ren_impl_member (m : impl_member) : impl_member :=
  match m with
  | IMFunction x => IMFunction (ren_function x) | IMConstant k => IMConstant (ren_constant k)
  | IMType t => IMType (ren_alias t) | IMMacro m => IMMacro (ren_macro m)
  end.
Definition ren_trait_member (m : trait_member) : trait_member :=
  match m with
  | TMFunction x => TMFunction (ren_function x) | TMConstant k => TMConstant (ren_constant k)
  | TMType t => TMType (ren_alias t) | TMMacro m => TMMacro (ren_macro m)
  end.
(** Rename every declaration, at every depth. *)
Fixpoint ren_item (i : item) : item :=
  match i with
  | IStruct (mkStruct a v k n g w x s) => IStruct (mkStruct a v k (f RItem n) (ren_generics g) w (ren_fields x) s)
  | IEnum (mkEnum a v k n g w b vs) => IEnum (mkEnum a v k (f RItem n) (ren_generics g) w b (sub_pu ren_variant vs))
  | IUnion (mkUnion a v k n g w (mkNamedFields x b)) => IUnion (mkUnion a v k (f RItem n) (ren_generics g) w (mkNamedFields (sub_pu ren_nfield x) b))
  | IFunction x => IFunction (ren_function x)
  | IConstant k => IConstant (ren_constant k)
  | ITypeAlias t => ITypeAlias (ren_alias t)
  | IModule (mkModule a v u k n s b ia ms) => IModule (mkModule a v u k (f RItem n) s b ia (map ren_item ms))
  | ITrait (mkTrait a v u k n g b w br ia ms) => ITrait (mkTrait a v u k (f RItem n) (ren_generics g) b w br ia (map ren_trait_member ms))
  | IImpl (mkImpl a u k g t x s w br ia ms) => IImpl (mkImpl a u k (ren_generics g) t x s w br ia (map ren_impl_member ms))
  | IMacro m => IMacro (ren_macro m)
  | IExternBlock (mkExternBlock a v u e ab br ia ms) => IExternBlock (mkExternBlock a v u e ab br ia (map ren_impl_member ms))
  | IExternCrate (mkExternCrate a v e c n k x u s) => IExternCrate (mkExternCrate a v e c n k (option_map (f RItem) x) u s)
  | IUse u => IUse u
  end.
End Rename.

(** The declared names of an item with their places. *)
Definition names_pu {A} (g : A -> list (role * ident)) (p : punctuated A) : list (role * ident) := flat_map (fun x => g (fst x)) (pu_inner p).
Definition names_opt {A} (g : A -> list (role * ident)) (o : option A) : list (role * ident) := match o with Some x => g x | None => [] end.
Definition names_param (p : generic_param) := [(match gp_prefix p with Some _ => RPrefixed | None => RType end, gp_name p)].
Definition names_generics := names_opt (fun g => names_pu names_param (gpl_params g)).
Definition names_nfield (x : named_field) := [(RMember (some (nf_vis x)), nf_name x)].
Definition names_fields (x : fields) := match x with FNamed x => names_pu names_nfield (nfs_fields x) | _ => [] end.
Definition names_variant (v : enum_variant) := (RMember (some (ev_vis v)), ev_name v) :: names_fields (ev_fields v).
Definition names_fn_param (p : fn_param) := match p with FPTyped t => [(RParam (some (ft_mut t)), ft_name t)] | _ => [] end.
Definition names_function (x : function) := (RItem, fn_name x) :: names_generics (fn_generics x) ++ names_pu names_fn_param (fn_params x).
Definition names_constant (k : constant) := [(const_role k, co_name k)].
Definition names_alias (t : type_alias) := [(RItem, ta_name t)].
Definition names_macro (m : macro) := names_opt (fun n => [(RItem, n)]) (ma_declared m).
Definition names_impl_member (m : impl_member) :=
  match m with IMFunction x => names_function x | IMConstant k => names_constant k | IMType t => names_alias t | IMMacro m => names_macro m end.
Definition names_trait_member (m : trait_member) :=
  match m with TMFunction x => names_function x | TMConstant k => names_constant k | TMType t => names_alias t | TMMacro m => names_macro m end.
Fixpoint names_item (i : item) : list (role * ident) :=
  match i with
  | IStruct s => (RItem, st_name s) :: names_generics (st_generics s) ++ names_fields (st_fields s)
  | IEnum e => (RItem, en_name e) :: names_generics (en_generics e) ++ names_pu names_variant (en_variants e)
  | IUnion u => (RItem, un_name u) :: names_generics (un_generics u) ++ names_fields (FNamed (un_fields u))
  | IFunction x => names_function x
  | IConstant k => names_constant k
  | ITypeAlias t => names_alias t
  | IModule m => (RItem, mo_name m) :: flat_map names_item (mo_members m)
  | ITrait t => (RItem, tr_name t) :: names_generics (tr_generics t) ++ flat_map names_trait_member (tr_items t)
  | IImpl m => names_generics (im_generics m) ++ flat_map names_impl_member (im_items m)
  | IMacro m => names_macro m
  | IExternBlock b => flat_map names_impl_member (eb_items b)
  | IExternCrate c => names_opt (fun n => [(RItem, n)]) (ec_alias c)
  | IUse _ => []
  end.

Section Proof.
Variable f : role -> ident -> ident.
Definition good (x : role * ident) : bool := negb (id_in (forbidden (fst x)) (f (fst x) (snd x))).

Lemma pu_ren {A} (wf : bool -> A -> bool) (g : A -> A) (d : A -> list (role * ident)) p :
  (forall b x, wf b x = true -> wf b (g x) = forallb good (d x)) ->
  wf_punctuated wf p = true -> wf_punctuated wf (sub_pu g p) = forallb good (names_pu d p).
Proof.
  intro H. unfold wf_punctuated, sub_pu, names_pu. cbn [pu_inner pu_skip_last]. induction (pu_inner p) as [|[x c] l IH]; [auto|].
  destruct l as [|y l].
  - cbn. intro E. bsplit. rewrite (H _ _ H0), app_nil_r. rwb. apply andb_true_r.
  - cbn [map wf_inner fst snd flat_map] in *. intro E. bsplit. rewrite (H _ _ H0), forallb_app, <- IH by auto. rwb. destruct (forallb good (d x)); reflexivity.
Qed.
Lemma param_ren b p : wf_generic_param b p = true -> wf_generic_param b (ren_param f p) = forallb good (names_param p).
Proof.
  unfold wf_generic_param, names_param, good, id_in. cbn. intro H. bsplit. rwb. destruct (gp_prefix p) as [[]|]; cbn; rwb; rewrite ?orb_false_r, ?andb_true_r; auto; discriminate.
Qed.
Lemma generics_ren g : wf_opt wf_generics g = true -> wf_opt wf_generics (ren_generics f g) = forallb good (names_generics g).
Proof.
  destruct g as [[]|]; [|reflexivity]. cbn. unfold wf_generics. cbn. intro H. bsplit. rwb. cbn. rewrite andb_true_r. apply pu_ren; auto using param_ren.
Qed.
Lemma prefix_name (v : option vis_marker) n : wf_opt wf_vis v = true -> prefix_ok v [TIdent n] = negb (id_in (forbidden (RMember (some v))) n).
Proof.
  destruct v as [[[] []]|]; cbn; try discriminate; auto; intros _; rewrite ?andb_false_r, ?orb_false_r; auto. unfold id_in. cbn. rewrite ?orb_false_r, negb_orb. reflexivity.
Qed.
Lemma nfield_ren b x : wf_named_field b x = true -> wf_named_field b (ren_nfield f x) = forallb good (names_nfield x).
Proof.
  unfold wf_named_field, names_nfield, good. cbn -[prefix_ok forbidden]. intro H. bsplit. rewrite prefix_name by auto. rwb. cbn -[forbidden]. rewrite ?andb_true_r. reflexivity.
Qed.
Lemma fields_ren x : wf_fields x = true -> wf_fields (ren_fields f x) = forallb good (names_fields x).
Proof.
  destruct x; auto. cbn. unfold wf_named_fields. cbn. intro H. bsplit. rwb. cbn. apply pu_ren; auto using nfield_ren.
Qed.
Lemma variant_ren b v : wf_variant b v = true -> wf_variant b (ren_variant f v) = forallb good (names_variant v).
Proof.
  unfold wf_variant, names_variant. cbn [ren_variant ev_attributes ev_vis ev_name ev_fields ev_value forallb]. intro H. bsplit.
  rewrite prefix_name, fields_ren by auto. rwb. cbn. rewrite andb_true_r. reflexivity.
Qed.
Lemma fn_param_ren b p : wf_fn_param b p = true -> wf_fn_param b (ren_fn_param f p) = forallb good (names_fn_param p).
Proof.
  destruct p as [r|t]; [cbn; auto|]. cbn [ren_fn_param wf_fn_param names_fn_param ft_attributes ft_mut ft_name ft_colon ft_ty forallb]. unfold good, id_in. intro H. bsplit.
  rwb. destruct (ft_mut t); cbn; rewrite ?orb_false_r, ?andb_true_r, ?negb_orb; reflexivity.
Qed.
Lemma function_ren x : wf_function x = true -> wf_function (ren_function f x) = forallb good (names_function x).
Proof.
  unfold wf_function, names_function.
  cbn [ren_function fn_attributes fn_vis fn_qualifiers_ fn_kw fn_name fn_generics fn_parens fn_params fn_where fn_arrow fn_ret fn_semicolon fn_body forallb].
  intro H. bsplit. rewrite generics_ren, (pu_ren _ _ names_fn_param) by auto using fn_param_ren. rwb. rewrite forallb_app. cbn. rewrite ?andb_true_r. reflexivity.
Qed.
(** [static mut: T], whose name is [tk_mut] too, is not printed faithfully anyway. *)
Lemma constant_ren k : shape_constant k = true -> stable_constant k = true -> shape_constant (ren_constant f k) = forallb good (names_constant k).
Proof.
  unfold shape_constant, stable_constant, names_constant, good, id_in.
  cbn [ren_constant co_attributes co_vis co_kw co_mut co_name co_colon co_ty co_equals co_init co_semicolon forallb fst snd]. intros H S.
  destruct (co_mut k); [discriminate|]. bsplit. rwb. cbn [some negb andb]. rewrite ?andb_true_r. unfold const_role.
  destruct (id_is "const" (co_kw k)) eqn:C.
  - assert (E : id_is "static" (co_kw k) = false) by (apply id_is_eq in C; destruct C as [? ->]; reflexivity). rewrite E. cbn. rewrite ?orb_false_r, ?andb_true_r. reflexivity.
  - cbn in *. bsplit. rwb. cbn. rewrite orb_false_r. reflexivity.
Qed.
Lemma alias_ren t : wf_type_alias (ren_alias f t) = wf_type_alias t.
Proof. reflexivity. Qed.
Lemma alias_good t : forallb good (names_alias t) = true.
Proof. reflexivity. Qed.
Lemma opt_good (o : option ident) : forallb good (names_opt (fun n => [(RItem, n)]) o) = true.
Proof. destruct o; reflexivity. Qed.
Lemma impl_member_ren b m : shape_impl_member b m && stable_impl_member m = true ->
  shape_impl_member b (ren_impl_member f m) && stable_impl_member (ren_impl_member f m) = forallb good (names_impl_member m).
Proof.
  destruct m as [x|k|t|m]; cbn [ren_impl_member shape_impl_member stable_impl_member names_impl_member]; rewrite ?andb_true_r; auto using function_ren.
  - intro H. bsplit. rewrite constant_ren by auto. change (stable_constant (ren_constant f k)) with (stable_constant k). change (co_kw (ren_constant f k)) with (co_kw k).
    destruct b; cbn [orb] in *; rwb; rewrite ?andb_true_r; reflexivity.
  - intro H. etransitivity; [exact H|]. symmetry. apply opt_good.
Qed.
Lemma trait_member_ren m : shape_trait_member m && stable_trait_member m = true ->
  shape_trait_member (ren_trait_member f m) && stable_trait_member (ren_trait_member f m) = forallb good (names_trait_member m).
Proof. intro H. apply (impl_member_ren false) in H. destruct m; exact H. Qed.
Lemma list_ren {A} (p q : A -> bool) (g : A -> A) (d : A -> list (role * ident)) l :
  (forall x, p x && q x = true -> p (g x) && q (g x) = forallb good (d x)) ->
  forallb p l = true -> forallb q l = true -> forallb p (map g l) && forallb q (map g l) = forallb good (flat_map d l).
Proof.
  intro H. induction l as [|x l IH]; [auto|]. cbn. intros E F. bsplit. rewrite forallb_app, <- IH, <- H by (rwb; auto).
  destruct (p (g x)), (q (g x)), (forallb p (map g l)), (forallb q (map g l)); reflexivity.
Qed.
Lemma ren_start i : same_start (print_item (ren_item f i)) (print_item i).
Proof.
  destruct i as [[]|[]|[? ? ? ? ? ? []]|[]|[]|[]|[]|x|[]|[]|m|[]|[]]; cbn [ren_item print_item];
    unfold print_struct, print_enum, print_union, print_module, print_trait, print_impl, print_type_alias, print_function, print_constant, print_use, print_macro,
      print_extern_block, print_extern_crate; cbn; repeat (apply same_start_cons || apply same_start_app).
Qed.
Lemma ren_follow i r s : (forall p, head_is p r = head_is p s) -> follow_ok (ren_item f i) r = follow_ok i s.
Proof.
  intro H. destruct i as [[a v k n g w x se]|[]|[? ? ? ? ? ? []]|[]|[]|[]| |x| |[]|m|[]|[]]; try reflexivity. cbn [ren_item follow_ok]. unfold struct_follow.
  cbn [st_fields st_semicolon st_where]. rewrite !H. destruct x, se, w; reflexivity.
Qed.
Lemma ren_members l : members_follow (map (ren_item f) l) = members_follow l.
Proof.
  induction l as [|i l IH]; [reflexivity|]. cbn [map members_follow]. rewrite IH. f_equal. apply ren_follow. intro p.
  destruct l as [|j l]; [reflexivity|]. cbn [map flat_map]. apply same_start_head, ren_start.
Qed.

Lemma ren_wf i : wf_item i = true -> wf_item (ren_item f i) = forallb good (names_item i).
Proof.
  unfold wf_item. induction i as [m IH|i No] using item_nested_ind.
  - destruct m as [a v u k n s b ia ms]. cbn [mo_members] in IH. cbn [ren_item shape_item stable_item names_item mo_members mo_name forallb]. unfold shape_module.
    cbn [mo_attributes mo_vis mo_unsafe mo_mod mo_name mo_semicolon mo_braces mo_inner_attributes mo_members]. rewrite ren_members.
    assert (N : nonempty (map (ren_item f) ms) = nonempty ms) by (destruct ms; reflexivity). rewrite N. change (good (RItem, n)) with true.
    intro H. bsplit. rwb. rewrite andb_true_r. cbn [andb].
    destruct s, b; try discriminate; bsplit; rwb; cbn [andb negb]; [destruct ms; [reflexivity|discriminate]|].
    assert (F : Forall (fun i => shape_item i && stable_item i = true) ms).
    { rewrite Forall_forall. intros x Hx. rewrite forallb_forall in H0, H6. rewrite H0, H6; auto. }
    clear -IH F. induction IH as [|x l Hx _ IHl]; [reflexivity|]. inversion_clear F. cbn. rewrite forallb_app, <- IHl, <- Hx by auto.
    destruct (shape_item (ren_item f x)), (stable_item (ren_item f x)), (forallb shape_item (map (ren_item f) l)); reflexivity.
  - destruct i as [[xa xv xk xn xg xw xf xs]|[xa xv xk xn xg xw xb xvs]|[xa xv xk xn xg xw [xf xb]]|m|[xa xv xu xk xn xg xbd xw xbr xia xms]|[xa xu xk xg xt xf xs xw xbr xia xms]|t|x|k|[xa xv xk xt xs]|m|[xa xv xu xe xab xbr xia xms]|[ca cv ce cc cn ck cx cu cs]];
      cbn [ren_item shape_item stable_item names_item]; rewrite ?andb_true_r; auto.
    + unfold shape_struct, stable_struct. cbn [st_attributes st_vis st_struct st_name st_generics st_where st_fields st_semicolon forallb]. rewrite forallb_app.
      intro H. bsplit. rewrite fields_ren, generics_ren by auto. rwb. destruct xf; cbn in *; rwb; cbn; rewrite ?andb_true_r; reflexivity.
    + unfold wf_enum. cbn [en_attributes en_vis en_enum en_name en_generics en_where en_braces en_variants forallb]. rewrite forallb_app.
      intro H. bsplit. rewrite generics_ren, (pu_ren _ _ names_variant) by auto using variant_ren. rwb. cbn. rewrite ?andb_true_r. reflexivity.
    + unfold wf_union, wf_named_fields. cbn [un_attributes un_vis un_union un_name un_generics un_where un_fields nfs_fields nfs_braces forallb names_fields]. rewrite forallb_app.
      intro H. bsplit. rewrite generics_ren, (pu_ren _ _ names_nfield) by auto using nfield_ren. rwb. cbn. rewrite ?andb_true_r. reflexivity.
    + exfalso. eapply No. reflexivity.
    + unfold shape_trait. cbn [tr_attributes tr_vis tr_unsafe tr_trait tr_name tr_generics tr_bound tr_where tr_braces tr_inner_attributes tr_items forallb]. rewrite forallb_app.
      intro H. bsplit. rewrite generics_ren, <- (list_ren shape_trait_member stable_trait_member (ren_trait_member f)) by auto using trait_member_ren. rwb. cbn. rewrite ?andb_true_r, <- ?andb_assoc. reflexivity.
    + unfold shape_impl. cbn [im_attributes im_unsafe im_impl im_generics im_trait im_for im_self im_where im_braces im_inner_attributes im_items]. rewrite forallb_app.
      intro H. bsplit. rewrite generics_ren, <- (list_ren (shape_impl_member false) stable_impl_member (ren_impl_member f)) by auto using impl_member_ren.
      assert (G : some (ren_generics f xg) = some xg) by (destruct xg; reflexivity). rewrite G. rwb. cbn. rewrite ?andb_true_r, <- ?andb_assoc. reflexivity.
    + apply function_ren.
    + intro H. apply andb_prop in H. destruct H as [H1 H2]. rewrite constant_ren by auto. change (stable_constant (ren_constant f k)) with (stable_constant k). rewrite H2. apply andb_true_r.
    + intro H. etransitivity; [exact H|]. symmetry. apply opt_good.
    + unfold shape_extern_block. cbn [eb_attributes eb_vis eb_unsafe eb_extern eb_abi eb_braces eb_inner_attributes eb_items].
      intro H. bsplit. rewrite <- (list_ren (shape_impl_member true) stable_impl_member (ren_impl_member f)) by auto using impl_member_ren. rwb. reflexivity.
    + cbn [ec_alias]. rewrite opt_good. unfold wf_extern_crate. cbn [ec_attributes ec_vis ec_extern ec_crate ec_as ec_alias ec_underscore ec_semicolon].
      destruct ck, cx; auto.
Qed.
Lemma good_may x : good x = true <-> may_declare (fst x) (f (fst x) (snd x)).
Proof.
  unfold good, may_declare, id_in. rewrite negb_true_iff. split.
  - intros H I. apply not_true_iff_false in H. apply H. apply existsb_exists. exists (id_str (f (fst x) (snd x))). split; auto. apply String.eqb_refl.
  - intro H. apply not_true_iff_false. intro E. apply existsb_exists in E. destruct E as (s & I & E). apply String.eqb_eq in E. subst. auto.
Qed.

(** ** C93 *)
(** After renaming, the item is printed and parsed faithfully exactly if no name is declared where it is forbidden. *)
Theorem C93_rename (i : item) : parse_item (print_item i) = Ret (Ok i) ->
  (parse_item (print_item (ren_item f i)) = Ret (Ok (ren_item f i)) <-> Forall (fun x => may_declare (fst x) (f (fst x) (snd x))) (names_item i)).
Proof.
  rewrite !C01_print_parse_iff. intros [H1 H2]. rewrite ren_wf, (ren_follow i [] []) by auto. rewrite forallb_forall, Forall_forall.
  setoid_rewrite good_may. tauto.
Qed.

(** Renaming renames all the names listed, in order. *)
Lemma names_pu_ren {A} (g : A -> A) (d : A -> list (role * ident)) p :
  (forall x, d (g x) = map (fun y => (fst y, f (fst y) (snd y))) (d x)) ->
  names_pu d (sub_pu g p) = map (fun y => (fst y, f (fst y) (snd y))) (names_pu d p).
Proof. intro H. unfold names_pu, sub_pu. cbn [pu_inner]. induction (pu_inner p) as [|[x c] l IH]; [reflexivity|]. cbn in *. rewrite map_app, H, IH. reflexivity. Qed.
Lemma names_generics_ren g : names_generics (ren_generics f g) = map (fun y => (fst y, f (fst y) (snd y))) (names_generics g).
Proof. destruct g; [|reflexivity]. apply names_pu_ren. reflexivity. Qed.
Lemma names_fields_ren x : names_fields (ren_fields f x) = map (fun y => (fst y, f (fst y) (snd y))) (names_fields x).
Proof. destruct x; try reflexivity. apply names_pu_ren. reflexivity. Qed.
Lemma names_function_ren x : names_function (ren_function f x) = map (fun y => (fst y, f (fst y) (snd y))) (names_function x).
Proof.
  unfold names_function. cbn [ren_function fn_name fn_generics fn_params map]. rewrite map_app, names_generics_ren, names_pu_ren; [reflexivity|]. intros []; reflexivity.
Qed.
Lemma names_list_ren {A} (g : A -> A) (d : A -> list (role * ident)) l :
  (forall x, In x l -> d (g x) = map (fun y => (fst y, f (fst y) (snd y))) (d x)) ->
  flat_map d (map g l) = map (fun y => (fst y, f (fst y) (snd y))) (flat_map d l).
Proof. intro H. induction l as [|x l IH]; [reflexivity|]. cbn. rewrite map_app, H, IH; auto using in_eq, in_cons. Qed.
Lemma names_impl_member_ren m : names_impl_member (ren_impl_member f m) = map (fun y => (fst y, f (fst y) (snd y))) (names_impl_member m).
Proof. destruct m as [x|k|t|[? ? ? [] ? ? ?]]; try reflexivity. apply names_function_ren. Qed.
Lemma names_trait_member_ren m : names_trait_member (ren_trait_member f m) = map (fun y => (fst y, f (fst y) (snd y))) (names_trait_member m).
Proof. destruct m as [x|k|t|[? ? ? [] ? ? ?]]; try reflexivity. apply names_function_ren. Qed.
Theorem C93_names (i : item) : names_item (ren_item f i) = map (fun y => (fst y, f (fst y) (snd y))) (names_item i).
Proof.
  induction i as [m IH|i No] using item_nested_ind.
  - destruct m as [a v u k n s b ia ms]. cbn [mo_members] in IH. cbn [ren_item names_item mo_members mo_name map]. f_equal. apply names_list_ren. apply Forall_forall, IH.
  - destruct i as [[]|[]|[? ? ? ? ? ? []]|m|[]|[]|[]|x|[]|[]|[? ? ? [] ? ? ?]|[]|[? ? ? ? ? ? [] ? ?]]; cbn -[names_function ren_function names_generics ren_generics names_fields ren_fields names_trait_member names_impl_member map];
      cbn [map]; rewrite ?map_app, ?names_generics_ren, ?names_fields_ren; try reflexivity.
    + f_equal. f_equal. apply names_pu_ren. intro v. unfold names_variant. cbn [ren_variant ev_vis ev_name ev_fields map]. rewrite names_fields_ren. reflexivity.
    + f_equal. f_equal. apply names_pu_ren. reflexivity.
    + exfalso. eapply No. reflexivity.
    + f_equal. f_equal. apply names_list_ren. auto using names_trait_member_ren.
    + f_equal. apply names_list_ren. auto using names_impl_member_ren.
    + apply names_function_ren.
    + apply names_list_ren. auto using names_impl_member_ren.
Qed.
End Proof.

(** Nothing but names changes: renaming to the same names changes nothing, and renaming twice is renaming by both. *)
Lemma pu_id {A} (g : A -> A) p : (forall x, g x = x) -> sub_pu g p = p.
Proof. intro H. destruct p as [l s]. unfold sub_pu. cbn. f_equal. induction l as [|[x c] l IH]; [reflexivity|]. cbn. rewrite H, IH. reflexivity. Qed.
Lemma pu_comp {A} (g h k : A -> A) p : (forall x, g (h x) = k x) -> sub_pu g (sub_pu h p) = sub_pu k p.
Proof. intro H. unfold sub_pu. cbn. f_equal. rewrite map_map. apply map_ext. intros []. cbn. rewrite H. reflexivity. Qed.
Lemma list_id {A} (g : A -> A) l : (forall x, In x l -> g x = x) -> map g l = l.
Proof. intro H. rewrite <- (map_id l) at 2. apply map_ext_in, H. Qed.
Section Same.
Notation same := (fun (_ : role) (n : ident) => n).
Lemma generics_id g : ren_generics same g = g.
Proof. destruct g as [[l p r]|]; [|reflexivity]. cbn. rewrite pu_id; [reflexivity|intros []; reflexivity]. Qed.
Lemma fields_id x : ren_fields same x = x.
Proof. destruct x as [| |[]]; try reflexivity. cbn. rewrite pu_id; [reflexivity|intros []; reflexivity]. Qed.
Lemma function_id x : ren_function same x = x.
Proof. destruct x. unfold ren_function. cbn. rewrite generics_id, pu_id; [reflexivity|intros [|[]]; reflexivity]. Qed.
Lemma macro_id m : ren_macro same m = m.
Proof. destruct m as [? ? ? [] ? ? ?]; reflexivity. Qed.
Lemma impl_member_id m : ren_impl_member same m = m.
Proof. destruct m as [x|[]|[]|m]; try reflexivity; cbn; f_equal; auto using function_id, macro_id. Qed.
Lemma trait_member_id m : ren_trait_member same m = m.
Proof. destruct m as [x|[]|[]|m]; try reflexivity; cbn; f_equal; auto using function_id, macro_id. Qed.
Theorem C93_identity (i : item) : ren_item same i = i.
Proof.
  induction i as [m IH|i No] using item_nested_ind.
  - destruct m. cbn. f_equal. f_equal. apply list_id, Forall_forall, IH.
  - destruct i as [[]|[]|[? ? ? ? ? ? []]|m|[]|[]|[]|x|[]|[]|m|[]|[? ? ? ? ? ? [] ? ?]]; cbn -[ren_function ren_generics ren_fields ren_macro]; rewrite ?generics_id, ?fields_id; try reflexivity; f_equal;
      auto using function_id, macro_id.
    + f_equal. apply pu_id. intros []. unfold ren_variant. cbn. rewrite fields_id. reflexivity.
    + do 2 f_equal. apply pu_id. intros []. reflexivity.
    + exfalso. eapply No. reflexivity.
    + f_equal. apply list_id. auto using trait_member_id.
    + f_equal. apply list_id. auto using impl_member_id.
    + f_equal. apply list_id. auto using impl_member_id.
Qed.
End Same.
Section Twice.
Variables f g : role -> ident -> ident.
Notation both := (fun r n => g r (f r n)).
Lemma generics_comp x : ren_generics g (ren_generics f x) = ren_generics both x.
Proof. destruct x as [[l p r]|]; [|reflexivity]. cbn. rewrite (pu_comp _ _ (ren_param both)); reflexivity. Qed.
Lemma fields_comp x : ren_fields g (ren_fields f x) = ren_fields both x.
Proof. destruct x as [| |[]]; try reflexivity. cbn. rewrite (pu_comp _ _ (ren_nfield both)); reflexivity. Qed.
Lemma function_comp x : ren_function g (ren_function f x) = ren_function both x.
Proof. unfold ren_function. cbn. rewrite generics_comp, (pu_comp _ _ (ren_fn_param both)); [reflexivity|intros []; reflexivity]. Qed.
Lemma macro_comp m : ren_macro g (ren_macro f m) = ren_macro both m.
Proof. destruct m as [? ? ? [] ? ? ?]; reflexivity. Qed.
Lemma impl_member_comp m : ren_impl_member g (ren_impl_member f m) = ren_impl_member both m.
Proof. destruct m; try reflexivity; cbn -[ren_macro]; f_equal; auto using function_comp, macro_comp. Qed.
Lemma trait_member_comp m : ren_trait_member g (ren_trait_member f m) = ren_trait_member both m.
Proof. destruct m; try reflexivity; cbn -[ren_macro]; f_equal; auto using function_comp, macro_comp. Qed.
Theorem C93_twice (i : item) : ren_item g (ren_item f i) = ren_item both i.
Proof.
  induction i as [m IH|i No] using item_nested_ind.
  - destruct m. cbn. f_equal. f_equal. rewrite map_map. apply map_ext_in, Forall_forall, IH.
  - destruct i as [[]|[]|[? ? ? ? ? ? []]|m|[]|[]|[]|x|[]|[]|m|[]|[? ? ? ? ? ? [] ? ?]]; cbn -[ren_function ren_generics ren_fields ren_macro]; rewrite ?generics_comp, ?fields_comp; try reflexivity; f_equal;
      auto using function_comp, macro_comp.
    + f_equal. apply pu_comp. intros []. unfold ren_variant. cbn. rewrite fields_comp. reflexivity.
    + do 2 f_equal. apply pu_comp. reflexivity.
    + exfalso. eapply No. reflexivity.
    + f_equal. rewrite map_map. apply map_ext. auto using trait_member_comp.
    + f_equal. rewrite map_map. apply map_ext. auto using impl_member_comp.
    + f_equal. rewrite map_map. apply map_ext. auto using impl_member_comp.
Qed.
End Twice.

(** The hypotheses of C93_rename hold, and both sides of it occur. *)
Definition marked (r : role) (n : ident) : ident := mkIdent ("my_" ++ id_str n)%string (id_span n).
Definition called (s : string) (r : role) (n : ident) : ident := mkIdent s (id_span n).
Definition rename_text : string :=
  "mod m { pub enum E<'a, T: X, const N: usize> { A, B { x: T } } impl<T> E<T> { const K: u8 = 1; fn f<U>(&self, mut a: T, b: U) -> T { a } } extern ""C"" { static S: u8; } macro_rules! mac { () => {} } }".
Example C93_example :
  (let i := item_of rename_text in
   parse_item (print_item i) = Ret (Ok i)
   /\ (forall r, forbidden r = [] \/ forall n, may_declare r (marked r n))
   /\ texts (print_item (ren_item marked i))
      = texts (lex "mod my_m { pub enum my_E<'my_a, my_T: X, const my_N: usize> { my_A, my_B { my_x: T } } impl<my_T> E<T> { const my_K: u8 = 1; fn my_f<my_U>(&self, mut my_a: T, my_b: U) -> T { a } } extern ""C"" { static my_S: u8; } macro_rules! my_mac { () => {} } }"))
  /\ (let i := item_of "pub struct S<'a> { pub x: T }" in let j := ren_item (called "crate") i in
      parse_item (print_item i) = Ret (Ok i) /\ parse_item (print_item j) = Ret (Ok j))
  /\ (let i := item_of "pub struct S { x: T }" in let j := ren_item (called "crate") i in
      parse_item (print_item i) = Ret (Ok i) /\ ~ may_declare (RMember false) (mkIdent "crate" 1%N) /\ (exists p, parse_item (print_item j) = Panic p))
  /\ (let i := item_of "fn f(x: u8) { }" in let j := ren_item (called "self") i in
      parse_item (print_item i) = Ret (Ok i) /\ (exists p, parse_item (print_item j) = Panic p))
  /\ (let i := item_of "const C: u8 = 1;" in exists p, parse_item (print_item (ren_item (called "mut") i)) = Panic p).
Proof.
  split; [|split; [vm_compute; auto|split; [split; [vm_compute; reflexivity|split; [unfold may_declare; cbn; tauto|vm_compute; eauto]]|split; [vm_compute; eauto|vm_compute; eauto]]]].
  split; [vm_compute; reflexivity|]. split; [|vm_compute; reflexivity].
  intros []; [left|right|right|destruct vis; [left|right]|destruct mut_; right|right|left]; try reflexivity;
    intros n; unfold may_declare, marked; cbn; intuition discriminate.
Qed.

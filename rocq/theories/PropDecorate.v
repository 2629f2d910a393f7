(** C94: attributes and visibilities may be replaced at every depth. *)
From Verif Require Import RustSyntax Debug PrintSpells Complete3 Sound2 Unfold Samples PropRoundTrip PropErr PropMore PropLimits PropRust PropSubst.
Local Open Scope string_scope.
Local Open Scope list_scope.

Section Decorate.
(** The new outer attributes, inner attributes and visibility. *)
Variables (fa fi : list attribute -> list attribute) (fv : option vis_marker -> option vis_marker).

Definition dec_tfield (x : tuple_field) : tuple_field := mkTupleField (fa (tf_attributes x)) (fv (tf_vis x)) (tf_ty x).
Definition dec_nfield (x : named_field) : named_field := mkNamedField (fa (nf_attributes x)) (fv (nf_vis x)) (nf_name x) (nf_colon x) (nf_ty x).
Definition dec_fields (x : fields) : fields :=
  match x with
  | FUnit => FUnit
  | FTuple x => FTuple (mkTupleFields (sub_pu dec_tfield (tfs_fields x)) (tfs_parens x))
  | FNamed x => FNamed (mkNamedFields (sub_pu dec_nfield (nfs_fields x)) (nfs_braces x))
  end.
Definition dec_variant (v : enum_variant) : enum_variant :=
  mkVariant (fa (ev_attributes v)) (fv (ev_vis v)) (ev_name v) (dec_fields (ev_fields v)) (ev_value v).
Definition dec_param (p : fn_param) : fn_param :=
  match p with
  | FPReceiver r => FPReceiver (mkReceiver (fa (fr_attributes r)) (fr_ref r) (fr_lifetime r) (fr_mut r) (fr_self r))
  | FPTyped t => FPTyped (mkTyped (fa (ft_attributes t)) (ft_mut t) (ft_name t) (ft_colon t) (ft_ty t))
  end.
Definition dec_function (x : function) : function :=
  mkFunction (fa (fn_attributes x)) (fv (fn_vis x)) (fn_qualifiers_ x) (fn_kw x) (fn_name x) (fn_generics x) (fn_parens x)
    (sub_pu dec_param (fn_params x)) (fn_where x) (fn_arrow x) (fn_ret x) (fn_semicolon x) (fn_body x).
Definition dec_constant (k : constant) : constant :=
  mkConstant (fa (co_attributes k)) (fv (co_vis k)) (co_kw k) (co_mut k) (co_name k) (co_colon k) (co_ty k) (co_equals k) (co_init k) (co_semicolon k).
Definition dec_alias (t : type_alias) : type_alias :=
  mkTypeAlias (fa (ta_attributes t)) (fv (ta_vis t)) (ta_type t) (ta_name t) (ta_bound t) (ta_equals t) (ta_init t) (ta_semicolon t).
Definition dec_macro (m : macro) : macro :=
  mkMacro (fa (ma_attributes m)) (ma_name m) (ma_bang m) (ma_declared m) (ma_group m) (ma_inner m) (ma_semicolon m).
Definition dec_impl_member (m : impl_member) : impl_member :=
  match m with
  | IMFunction x => IMFunction (dec_function x) | IMConstant k => IMConstant (dec_constant k)
  | IMType t => IMType (dec_alias t) | IMMacro m => IMMacro (dec_macro m)
  end.
Definition dec_trait_member (m : trait_member) : trait_member :=
  match m with
  | TMFunction x => TMFunction (dec_function x) | TMConstant k => TMConstant (dec_constant k)
  | TMType t => TMType (dec_alias t) | TMMacro m => TMMacro (dec_macro m)
  end.
Fixpoint dec_item (i : item) : item :=
  match i with
  | IStruct (mkStruct a v k n g w x s) => IStruct (mkStruct (fa a) (fv v) k n g w (dec_fields x) s)
  | IEnum (mkEnum a v k n g w b vs) => IEnum (mkEnum (fa a) (fv v) k n g w b (sub_pu dec_variant vs))
  | IUnion (mkUnion a v k n g w (mkNamedFields x b)) => IUnion (mkUnion (fa a) (fv v) k n g w (mkNamedFields (sub_pu dec_nfield x) b))
  | IFunction x => IFunction (dec_function x)
  | IConstant k => IConstant (dec_constant k)
  | ITypeAlias t => ITypeAlias (dec_alias t)
  | IModule (mkModule a v u k n s b ia ms) =>
      IModule (mkModule (fa a) (fv v) u k n s b (match b with Some _ => fi ia | None => ia end) (map dec_item ms))
  | ITrait (mkTrait a v u k n g b w br ia ms) => ITrait (mkTrait (fa a) (fv v) u k n g b w br (fi ia) (map dec_trait_member ms))
  | IImpl (mkImpl a u k g t x s w br ia ms) => IImpl (mkImpl (fa a) u k g t x s w br (fi ia) (map dec_impl_member ms))
  | IMacro m => IMacro (dec_macro m)
  | IExternBlock (mkExternBlock a v u e ab br ia ms) => IExternBlock (mkExternBlock (fa a) (fv v) u e ab br (fi ia) (map dec_impl_member ms))
  | IExternCrate (mkExternCrate a v e c n k x u s) => IExternCrate (mkExternCrate (fa a) (fv v) e c n k x u s)
  | IUse (mkUse a v k t s) => IUse (mkUse (fa a) (fv v) k t s)
  end.
End Decorate.

(** ** The places of an item with attributes or a visibility *)
Inductive place :=
| POuter (a : list attribute)
| PInner (a : list attribute)
| PVis (v : option vis_marker) (behind : list tok)  (* [behind]: the name or type of a field or variant *)
| PKeep (a : list attribute).                       (* those of a macro named [where] behind a tuple struct without [;] *)

Definition places_pu {A} (g : A -> list place) (p : punctuated A) : list place := flat_map (fun x => g (fst x)) (pu_inner p).
Definition places_tfield (x : tuple_field) := [POuter (tf_attributes x); PVis (tf_vis x) (te_tokens (tf_ty x))].
Definition places_nfield (x : named_field) := [POuter (nf_attributes x); PVis (nf_vis x) [TIdent (nf_name x)]].
Definition places_fields (x : fields) :=
  match x with FUnit => [] | FTuple x => places_pu places_tfield (tfs_fields x) | FNamed x => places_pu places_nfield (nfs_fields x) end.
Definition places_variant (v : enum_variant) := POuter (ev_attributes v) :: PVis (ev_vis v) [TIdent (ev_name v)] :: places_fields (ev_fields v).
Definition places_param (p : fn_param) := match p with FPReceiver r => [POuter (fr_attributes r)] | FPTyped t => [POuter (ft_attributes t)] end.
Definition places_function (x : function) := POuter (fn_attributes x) :: PVis (fn_vis x) [] :: places_pu places_param (fn_params x).
Definition places_constant (k : constant) := [POuter (co_attributes k); PVis (co_vis k) []].
Definition places_alias (t : type_alias) := [POuter (ta_attributes t); PVis (ta_vis t) []].
Definition places_macro (m : macro) := [POuter (ma_attributes m)].
Definition places_impl_member (m : impl_member) :=
  match m with IMFunction x => places_function x | IMConstant k => places_constant k | IMType t => places_alias t | IMMacro m => places_macro m end.
Definition places_trait_member (m : trait_member) :=
  match m with TMFunction x => places_function x | TMConstant k => places_constant k | TMType t => places_alias t | TMMacro m => places_macro m end.
(** A tuple struct without [;] that goes on if [where] comes behind it. *)
Definition open_struct (i : item) : bool :=
  match i with IStruct (mkStruct _ _ _ _ _ None (FTuple _) None) => true | _ => false end.
Definition place_between (i j : item) : list place :=
  match j with IMacro m => if open_struct i && id_is "where" (ma_name m) then [PKeep (ma_attributes m)] else [] | _ => [] end.
Fixpoint places_between (l : list item) : list place :=
  match l with i :: (j :: _) as r => place_between i j ++ places_between r | _ => [] end.
Fixpoint places_item (i : item) : list place :=
  match i with
  | IStruct s => POuter (st_attributes s) :: PVis (st_vis s) [] :: places_fields (st_fields s)
  | IEnum e => POuter (en_attributes e) :: PVis (en_vis e) [] :: places_pu places_variant (en_variants e)
  | IUnion u => POuter (un_attributes u) :: PVis (un_vis u) [] :: places_fields (FNamed (un_fields u))
  | IFunction x => places_function x
  | IConstant k => places_constant k
  | ITypeAlias t => places_alias t
  | IModule m => POuter (mo_attributes m) :: PVis (mo_vis m) [] :: match mo_braces m with Some _ => [PInner (mo_inner_attributes m)] | None => [] end
      ++ flat_map places_item (mo_members m) ++ places_between (mo_members m)
  | ITrait t => POuter (tr_attributes t) :: PVis (tr_vis t) [] :: PInner (tr_inner_attributes t) :: flat_map places_trait_member (tr_items t)
  | IImpl m => POuter (im_attributes m) :: PInner (im_inner_attributes m) :: flat_map places_impl_member (im_items m)
  | IMacro m => places_macro m
  | IExternBlock b => POuter (eb_attributes b) :: PVis (eb_vis b) [] :: PInner (eb_inner_attributes b) :: flat_map places_impl_member (eb_items b)
  | IExternCrate c => [POuter (ec_attributes c); PVis (ec_vis c) []]
  | IUse u => [POuter (us_attributes u); PVis (us_vis u) []]
  end.

Section Proof.
Variables (fa fi : list attribute -> list attribute) (fv : option vis_marker -> option vis_marker).
(** What is put at a place may stand there. *)
Definition may_stand (p : place) : Prop :=
  match p with
  | POuter a => Forall (fun x => wf_attribute false x = true) (fa a)
  | PInner a => Forall (fun x => wf_attribute true x = true) (fi a)
  | PVis v behind =>
      match fv v with
      | None => head_is (is_punct "#") behind = false /\ head_is (is_ident "pub") behind = false /\ head_is (is_ident "crate") behind = false
      | Some w => wf_vis w = true /\ ~ ((exists k, w = mkVis (TIdent k) None /\ id_str k = "pub") /\ head_is (is_group Parenthesis) behind = true)
      end
  | PKeep a => fa a <> []
  end.
Definition standb (p : place) : bool :=
  match p with
  | POuter a => wf_outer (fa a)
  | PInner a => wf_inner_attrs (fi a)
  | PVis v behind => wf_opt wf_vis (fv v) && prefix_ok (fv v) behind
  | PKeep a => nonempty (fa a)
  end.
Lemma stand_iff p : standb p = true <-> may_stand p.
Proof.
  destruct p as [a|a|v b|a]; cbn [standb may_stand].
  - unfold wf_outer. rewrite forallb_forall, Forall_forall. reflexivity.
  - unfold wf_inner_attrs. rewrite forallb_forall, Forall_forall. reflexivity.
  - destruct (fv v) as [w|]; cbn [wf_opt andb].
    + rewrite andb_true_iff. apply and_iff_compat_l. destruct w as [[g|k|q|t] [w2|]]; cbn [prefix_ok]; try (split; [intros _ [(k' & E & _) _]; discriminate|reflexivity]).
      unfold id_is. rewrite negb_true_iff, andb_false_iff, String.eqb_neq. split.
      * intros H [(k' & E & Ek) Hp]. injection E as <-. destruct H as [H|H]; [auto|congruence].
      * intro H. destruct (String.string_dec (id_str k) "pub"); [|auto]. right. apply not_true_iff_false. intro. apply H. eauto.
    + cbn [prefix_ok]. rewrite !andb_true_iff, !negb_true_iff. tauto.
  - destruct (fa a); cbn; split; auto; try discriminate; congruence.
Qed.

Ltac atoms :=
  cbn [forallb standb andb]; rewrite ?andb_true_r, ?andb_false_r;
  repeat match goal with
  | |- context [andb ?a _] => lazymatch a with andb _ _ => fail | true => fail | false => fail | _ => destruct a end; cbn [andb]; rewrite ?andb_true_r, ?andb_false_r
  end; try reflexivity.
Local Notation D g := (g fa fv) (only parsing).
Lemma pu_dec {A} (wf : bool -> A -> bool) (g : A -> A) (d : A -> list place) p :
  (forall b x, wf b x = true -> wf b (g x) = forallb standb (d x)) ->
  wf_punctuated wf p = true -> wf_punctuated wf (sub_pu g p) = forallb standb (places_pu d p).
Proof.
  intro H. unfold wf_punctuated, sub_pu, places_pu. cbn [pu_inner pu_skip_last]. induction (pu_inner p) as [|[x c] l IH]; [auto|].
  destruct l as [|y l].
  - cbn. intro E. bsplit. rewrite (H _ _ H0), app_nil_r. rwb. apply andb_true_r.
  - cbn [map wf_inner fst snd flat_map] in *. intro E. bsplit. rewrite (H _ _ H0), forallb_app, <- IH by auto. rwb. destruct (forallb standb (d x)); reflexivity.
Qed.
Lemma tfield_dec b x : wf_tuple_field b x = true -> wf_tuple_field b (dec_tfield fa fv x) = forallb standb (places_tfield x).
Proof. unfold wf_tuple_field, places_tfield. cbn [dec_tfield tf_attributes tf_vis tf_ty]. intro H. bsplit. rwb. atoms. Qed.
Lemma nfield_dec b x : wf_named_field b x = true -> wf_named_field b (dec_nfield fa fv x) = forallb standb (places_nfield x).
Proof. unfold wf_named_field, places_nfield. cbn [dec_nfield nf_attributes nf_vis nf_name nf_colon nf_ty]. intro H. bsplit. rwb. atoms. Qed.
Lemma fields_dec x : wf_fields x = true -> wf_fields (dec_fields fa fv x) = forallb standb (places_fields x).
Proof.
  destruct x; cbn [dec_fields wf_fields places_fields]; auto; unfold wf_tuple_fields, wf_named_fields; cbn [tfs_fields tfs_parens nfs_fields nfs_braces]; intro H; bsplit; rwb;
    apply pu_dec; auto using tfield_dec, nfield_dec.
Qed.
Lemma variant_dec b v : wf_variant b v = true -> wf_variant b (dec_variant fa fv v) = forallb standb (places_variant v).
Proof.
  unfold wf_variant, places_variant. cbn [dec_variant ev_attributes ev_vis ev_name ev_fields ev_value]. intro H. bsplit. rewrite fields_dec by auto. rwb. atoms.
Qed.
Lemma param_dec b p : wf_fn_param b p = true -> wf_fn_param b (dec_param fa p) = forallb standb (places_param p).
Proof.
  destruct p as [r|t]; cbn [dec_param wf_fn_param places_param fr_attributes fr_ref fr_lifetime fr_mut fr_self ft_attributes ft_mut ft_name ft_colon ft_ty]; intro H; bsplit; rwb; atoms.
Qed.
Lemma vis_only v : wf_opt wf_vis (fv v) && prefix_ok (fv v) [] = wf_opt wf_vis (fv v).
Proof. destruct (fv v) as [[[] []]|]; cbn; rewrite ?andb_false_r, ?andb_true_r; reflexivity. Qed.
Lemma function_dec x : wf_function x = true -> wf_function (dec_function fa fv x) = forallb standb (places_function x).
Proof.
  unfold wf_function, places_function.
  cbn [dec_function fn_attributes fn_vis fn_qualifiers_ fn_kw fn_name fn_generics fn_parens fn_params fn_where fn_arrow fn_ret fn_semicolon fn_body forallb standb].
  intro H. bsplit. rewrite (pu_dec _ _ places_param) by auto using param_dec. rewrite vis_only. rwb. atoms.
Qed.
Lemma constant_dec k : shape_constant k = true -> shape_constant (dec_constant fa fv k) = forallb standb (places_constant k).
Proof.
  unfold shape_constant, places_constant. cbn [dec_constant co_attributes co_vis co_kw co_mut co_name co_colon co_ty co_equals co_init co_semicolon forallb standb].
  rewrite vis_only. intro H. bsplit. rwb. atoms.
Qed.
Lemma alias_dec t : wf_type_alias t = true -> wf_type_alias (dec_alias fa fv t) = forallb standb (places_alias t).
Proof.
  unfold wf_type_alias, places_alias. cbn [dec_alias ta_attributes ta_vis ta_type ta_name ta_bound ta_equals ta_init ta_semicolon forallb standb].
  rewrite vis_only. intro H. bsplit. rwb. atoms.
Qed.
Lemma macro_dec l m : shape_macro l m = true -> shape_macro l (dec_macro fa m) = forallb standb (places_macro m).
Proof. unfold shape_macro, places_macro. cbn [dec_macro ma_attributes ma_name ma_bang ma_declared ma_group ma_inner ma_semicolon]. intro H. bsplit. rwb. atoms. Qed.
Lemma impl_member_dec b m : shape_impl_member b m = true -> shape_impl_member b (dec_impl_member fa fv m) = forallb standb (places_impl_member m).
Proof.
  destruct m as [x|k|t|m]; cbn [dec_impl_member shape_impl_member places_impl_member]; auto using function_dec, alias_dec.
  - intro H. apply andb_prop in H. destruct H as [H1 H2]. rewrite constant_dec by auto. change (co_kw (dec_constant fa fv k)) with (co_kw k). rewrite H2. apply andb_true_r.
  - intro H. apply andb_prop in H. destruct H as [H1 H2]. rewrite macro_dec by auto. change (stable_macro (dec_macro fa m)) with (stable_macro m). rewrite H2. apply andb_true_r.
Qed.
Lemma trait_member_dec m : shape_trait_member m = true -> shape_trait_member (dec_trait_member fa fv m) = forallb standb (places_trait_member m).
Proof. intro H. apply (impl_member_dec false) in H. destruct m; exact H. Qed.
Lemma list_dec {A} (p : A -> bool) (g : A -> A) (d : A -> list place) l :
  (forall x, p x = true -> p (g x) = forallb standb (d x)) -> forallb p l = true -> forallb p (map g l) = forallb standb (flat_map d l).
Proof. intro H. induction l as [|x l IH]; [auto|]. cbn. intro E. bsplit. rewrite forallb_app, <- IH, <- H; auto. Qed.

(** How the printed form starts. *)
Definition bare_where (i : item) : bool :=
  match i with IMacro m => negb (nonempty (ma_attributes m)) && id_is "where" (ma_name m) | _ => false end.
Lemma attrs_start f a r : wf_outer a = true -> (forall p, p_is "#" p = true -> f (TPunct p) = false) ->
  head_is f (print_attributes a ++ r) = negb (nonempty a) && head_is f r.
Proof. intros H Hf. destruct a as [|x a]; [reflexivity|]. cbn [wf_outer forallb] in H. unfold wf_attribute in H. bsplit. cbn. apply Hf; auto. Qed.
Lemma vis_start f v r : wf_opt wf_vis v = true -> (forall i, id_is "pub" i || id_is "crate" i = true -> f (TIdent i) = false) ->
  head_is f (print_opt print_vis v ++ r) = negb (some v) && head_is f r.
Proof.
  destruct v as [[[] []]|]; cbn; try discriminate; auto; intros H Hf; apply Hf; auto. destruct t; [|discriminate..]. bsplit. rwb. reflexivity.
Qed.
Lemma word_start f s (o : option ident) r : wf_opt (id_is s) o = true -> (forall i, id_is s i = true -> f (TIdent i) = false) ->
  head_is f (print_opt print_ident o ++ r) = negb (some o) && head_is f r.
Proof. destruct o; cbn; auto. Qed.
Lemma item_start f i r : shape_item i = true -> (forall p, p_is "#" p = true -> f (TPunct p) = false) ->
  (forall i, In (id_str i) ["pub"; "crate"; "struct"; "enum"; "union"; "mod"; "trait"; "impl"; "static"; "use"; "default"; "const"; "async"; "unsafe"; "extern"; "fn"; "type"] -> f (TIdent i) = false) ->
  head_is f (print_item i ++ r) = match i with IMacro m => negb (nonempty (ma_attributes m)) && f (TIdent (ma_name m)) | _ => false end.
Proof.
  intros H Fp Fi.
  assert (Fv : forall i, id_is "pub" i || id_is "crate" i = true -> f (TIdent i) = false).
  { intros k E. apply Fi. unfold id_is in E. apply orb_prop in E. destruct E as [E|E]; apply String.eqb_eq in E; rewrite E; cbn; tauto. }
  assert (Fk : forall s k, id_is s k = true -> In s ["pub"; "crate"; "struct"; "enum"; "union"; "mod"; "trait"; "impl"; "static"; "use"; "default"; "const"; "async"; "unsafe"; "extern"; "fn"; "type"] -> f (TIdent k) = false).
  { intros s k E I. apply Fi. unfold id_is in E. apply String.eqb_eq in E. rewrite E. exact I. }
  destruct i as [[]|[]|[]|[]|[]|[]|[]|[xa xv [q1 q2 q3 q4 q5 q6]]|[]|[]|[]|[]|[]]; cbn [shape_item] in H;
    unfold shape_struct, wf_enum, wf_union, shape_module, shape_trait, shape_impl, wf_type_alias, wf_function, wf_qualifiers, shape_constant, wf_use, shape_macro, shape_extern_block, wf_extern_crate in H;
    cbn in H; bsplit; cbn [print_item];
    unfold print_struct, print_enum, print_union, print_module, print_trait, print_impl, print_type_alias, print_function, print_qualifiers, print_constant, print_use, print_macro,
      print_extern_block, print_extern_crate; cbn -[print_opt print_attributes head_is]; rewrite <- ?app_assoc;
    rewrite attrs_start by auto; try (rewrite vis_start by auto); 
    try reflexivity;
    repeat (erewrite word_start; [|eassumption|intros; eapply Fk; [eassumption|cbn; tauto]]);
    try (cbn [app head_is]; rewrite (Fk _ _ ltac:(eassumption)) by (cbn; tauto); rewrite ?andb_false_r; reflexivity).
  - destruct q5; [cbn; rewrite ?andb_false_r; reflexivity|]. cbn in H8. destruct q6; [discriminate|]. cbn. rewrite (Fk "fn") by (auto; cbn; tauto). rewrite ?andb_false_r. reflexivity.
  - cbn [app head_is]. match goal with H : _ || _ = true |- _ => apply orb_prop in H; destruct H end; bsplit; rewrite (Fk _ _ ltac:(eassumption)) by (cbn; tauto); rewrite ?andb_false_r; reflexivity.
  - cbn [app head_is]. rewrite (Fk "extern") by (auto; cbn; tauto). rewrite ?andb_false_r. reflexivity.
Qed.
Lemma item_starts i r : shape_item i = true ->
  head_is (is_group Brace) (print_item i ++ r) = false /\ head_is (is_punct ";") (print_item i ++ r) = false
  /\ head_is (is_ident "where") (print_item i ++ r) = bare_where i.
Proof.
  intro H. assert (K : forall k, In (id_str k) ["pub"; "crate"; "struct"; "enum"; "union"; "mod"; "trait"; "impl"; "static"; "use"; "default"; "const"; "async"; "unsafe"; "extern"; "fn"; "type"] -> is_ident "where" (TIdent k) = false).
  { intros k I. cbn. unfold id_is. apply String.eqb_neq. intro E. rewrite E in I. cbn in I. intuition discriminate. }
  assert (P : forall p, p_is "#" p = true -> is_punct ";" (TPunct p) = false).
  { intros p E. apply p_is_eq in E. destruct E as (? & ? & ->). reflexivity. }
  rewrite !item_start by auto. destruct i; auto. cbn. rewrite !andb_false_r. auto.
Qed.
Lemma dec_members l : forallb shape_item l = true -> members_follow l = true ->
  forallb shape_item (map (dec_item fa fi fv) l) = true ->
  members_follow (map (dec_item fa fi fv) l) = forallb standb (places_between l).
Proof.
  induction l as [|i l IH]; [reflexivity|]. intros H M S. cbn [map members_follow] in *. cbn [forallb] in H, S. bsplit. rewrite IH by auto.
  assert (E : follow_ok (dec_item fa fi fv i) (flat_map print_item (map (dec_item fa fi fv) l)) = match l with j :: _ => forallb standb (place_between i j) | [] => true end).
  { clear IH. destruct i as [[a v k n g w x se]|[]|[? ? ? ? ? ? []]|[]|[]|[]| | | |[]| |[]|[]]; try (destruct l as [|[]]; reflexivity).
    cbn [dec_item follow_ok] in *. unfold struct_follow in *. cbn [st_fields st_semicolon st_where] in *.
    destruct l as [|j l].
    - cbn in *. destruct x, se, w; auto.
    - cbn [map flat_map forallb] in *. bsplit. destruct (item_starts j (flat_map print_item l)) as (E1 & E2 & E3); auto.
      destruct (item_starts (dec_item fa fi fv j) (flat_map print_item (map (dec_item fa fi fv) l))) as (D1 & D2 & D3); auto.
      rewrite E1, E2, E3 in *. rewrite D1, D2, D3. unfold place_between. cbn [open_struct]. destruct x, se, w; cbn [dec_fields andb some orb negb] in *; try discriminate; try (destruct j; reflexivity).
      rewrite andb_true_r in *. destruct j as [[]|[]|[? ? ? ? ? ? []]|[]|[]|[]| | | |[]|m|[]|[]]; try reflexivity. cbn [dec_item bare_where dec_macro ma_attributes ma_name] in *.
      destruct (id_is "where" (ma_name m)); rewrite ?andb_false_r, ?andb_true_r; [|reflexivity]. cbn [forallb standb]. rewrite andb_true_r. destruct (fa (ma_attributes m)); reflexivity. }
  rewrite E. destruct l as [|j l]; [reflexivity|]. cbn [places_between]. rewrite forallb_app. reflexivity.
Qed.
Lemma dec_stable_members l : (forall x, In x l -> stable_item (dec_item fa fi fv x) = true) -> forallb stable_item (map (dec_item fa fi fv) l) = true.
Proof. intro H. rewrite forallb_forall. intros x Hx. apply in_map_iff in Hx. destruct Hx as (y & <- & Hy). auto. Qed.
Lemma dec_wf i : wf_item i = true -> wf_item (dec_item fa fi fv i) = forallb standb (places_item i).
Proof.
  unfold wf_item. induction i as [m IH|i No] using item_nested_ind.
  - destruct m as [a v u k n s b ia ms]. cbn [mo_members] in IH.
    cbn [dec_item shape_item stable_item places_item mo_members mo_attributes mo_vis mo_braces mo_inner_attributes forallb standb]. unfold shape_module.
    cbn [mo_attributes mo_vis mo_unsafe mo_mod mo_name mo_semicolon mo_braces mo_inner_attributes mo_members]. rewrite vis_only, !forallb_app.
    assert (N : nonempty (map (dec_item fa fi fv) ms) = nonempty ms) by (destruct ms; reflexivity). rewrite N.
    intro H. bsplit. rwb.
    destruct s, b; try discriminate; bsplit; rwb; cbn [andb negb]; [destruct ms; [cbn; atoms|discriminate]|].
    assert (F : Forall (fun i => shape_item i && stable_item i = true) ms).
    { rewrite Forall_forall. intros x Hx. rewrite forallb_forall in *. apply andb_true_intro. auto. }
    assert (L : forallb shape_item (map (dec_item fa fi fv) ms) && forallb stable_item (map (dec_item fa fi fv) ms) = forallb standb (flat_map places_item ms)).
    { clear -IH F. induction IH as [|x l Hx _ IHl]; [reflexivity|]. inversion_clear F. cbn. rewrite forallb_app, <- IHl, <- Hx by auto.
      destruct (shape_item (dec_item fa fi fv x)), (stable_item (dec_item fa fi fv x)), (forallb shape_item (map (dec_item fa fi fv) l)); reflexivity. }
    rewrite <- L. destruct (forallb shape_item (map (dec_item fa fi fv) ms)) eqn:E; [rewrite dec_members by auto|]; cbn [forallb standb]; atoms.
  - destruct i as [[xa xv xk xn xg xw xf xs]|[xa xv xk xn xg xw xb xvs]|[xa xv xk xn xg xw [xf xb]]|m|[xa xv xu xk xn xg xbd xw xbr xia xms]|[xa xu xk xg xt xf xs xw xbr xia xms]|t|x|k|[xa xv xk xt xs]|m|[xa xv xu xe xab xbr xia xms]|[ca cv ce cc cn ck cx cu cs]];
      cbn [dec_item shape_item stable_item places_item]; rewrite ?andb_true_r; auto using function_dec, alias_dec.
    + unfold shape_struct, stable_struct. cbn [st_attributes st_vis st_struct st_name st_generics st_where st_fields st_semicolon forallb standb]. rewrite vis_only.
      intro H. bsplit. rewrite fields_dec by auto. rwb. destruct xf; cbn [dec_fields places_fields forallb] in *; rwb; atoms.
    + unfold wf_enum. cbn [en_attributes en_vis en_enum en_name en_generics en_where en_braces en_variants forallb standb]. rewrite vis_only.
      intro H. bsplit. rewrite (pu_dec _ _ places_variant) by auto using variant_dec. rwb. atoms.
    + unfold wf_union, wf_named_fields. cbn [un_attributes un_vis un_union un_name un_generics un_where un_fields nfs_fields nfs_braces forallb standb places_fields]. rewrite vis_only.
      intro H. bsplit. rewrite (pu_dec _ _ places_nfield) by auto using nfield_dec. rwb. atoms.
    + exfalso. eapply No. reflexivity.
    + unfold shape_trait. cbn [tr_attributes tr_vis tr_unsafe tr_trait tr_name tr_generics tr_bound tr_where tr_braces tr_inner_attributes tr_items forallb standb]. rewrite vis_only.
      intro H. bsplit. rewrite (list_dec shape_trait_member _ places_trait_member) by auto using trait_member_dec.
      rewrite (forallb_map_same stable_trait_member stable_trait_member) by (intros []; reflexivity). rwb. atoms.
    + unfold shape_impl. cbn [im_attributes im_unsafe im_impl im_generics im_trait im_for im_self im_where im_braces im_inner_attributes im_items forallb standb].
      intro H. bsplit. rewrite (list_dec (shape_impl_member false) _ places_impl_member) by auto using impl_member_dec.
      rewrite (forallb_map_same stable_impl_member stable_impl_member) by (intros []; reflexivity). rwb. atoms.
    + intro H. apply andb_prop in H. destruct H as [H1 H2]. rewrite constant_dec by auto. change (stable_constant (dec_constant fa fv k)) with (stable_constant k). rewrite H2. apply andb_true_r.
    + unfold wf_use. cbn [us_attributes us_vis us_use us_tree us_semicolon forallb standb]. rewrite vis_only. intro H. bsplit. rwb. atoms.
    + intro H. apply andb_prop in H. destruct H as [H1 H2]. rewrite macro_dec by auto. change (stable_macro (dec_macro fa m)) with (stable_macro m). rewrite H2. apply andb_true_r.
    + unfold shape_extern_block. cbn [eb_attributes eb_vis eb_unsafe eb_extern eb_abi eb_braces eb_inner_attributes eb_items forallb standb]. rewrite vis_only.
      intro H. bsplit. rewrite (list_dec (shape_impl_member true) _ places_impl_member) by auto using impl_member_dec.
      rewrite (forallb_map_same stable_impl_member stable_impl_member) by (intros []; reflexivity). rwb. atoms.
    + unfold wf_extern_crate. cbn [ec_attributes ec_vis ec_extern ec_crate ec_as ec_alias ec_underscore ec_semicolon forallb standb]. rewrite vis_only. intro H. bsplit. rwb. atoms.
Qed.

(** ** C94 *)
(** With other attributes and visibilities everywhere, the item is printed and parsed faithfully exactly if each may stand at its place. *)
Theorem C94_decorate (i : item) : parse_item (print_item i) = Ret (Ok i) ->
  (parse_item (print_item (dec_item fa fi fv i)) = Ret (Ok (dec_item fa fi fv i)) <-> Forall may_stand (places_item i)).
Proof.
  rewrite !C01_print_parse_iff. intros [H1 H2]. rewrite dec_wf by auto. rewrite forallb_forall, Forall_forall. setoid_rewrite stand_iff.
  assert (E : follow_ok (dec_item fa fi fv i) [] = follow_ok i []).
  { destruct i as [[a v k n g w x se]|[]|[? ? ? ? ? ? []]|[]|[]|[]| |x| |[]|m|[]|[]]; try reflexivity. destruct x, se, w; reflexivity. }
  rewrite E. tauto.
Qed.
End Proof.

(** Decorating replaces what is at the places listed, in order. *)
Section Places.
Variables (fa fi : list attribute -> list attribute) (fv : option vis_marker -> option vis_marker).
Definition put (p : place) : place :=
  match p with POuter a => POuter (fa a) | PInner a => PInner (fi a) | PVis v b => PVis (fv v) b | PKeep a => PKeep (fa a) end.
Lemma places_pu_dec {A} (g : A -> A) (d : A -> list place) p : (forall x, d (g x) = map put (d x)) -> places_pu d (sub_pu g p) = map put (places_pu d p).
Proof. intro H. unfold places_pu, sub_pu. cbn [pu_inner]. induction (pu_inner p) as [|[x c] l IH]; [reflexivity|]. cbn in *. rewrite map_app, H, IH. reflexivity. Qed.
Lemma places_list_dec {A} (g : A -> A) (d : A -> list place) l : (forall x, In x l -> d (g x) = map put (d x)) -> flat_map d (map g l) = map put (flat_map d l).
Proof. intro H. induction l as [|x l IH]; [reflexivity|]. cbn. rewrite map_app, H, IH; auto using in_eq, in_cons. Qed.
Lemma places_fields_dec x : places_fields (dec_fields fa fv x) = map put (places_fields x).
Proof. destruct x; [reflexivity|apply places_pu_dec; reflexivity..]. Qed.
Lemma places_function_dec x : places_function (dec_function fa fv x) = map put (places_function x).
Proof. unfold places_function. cbn [map put]. rewrite <- (places_pu_dec (dec_param fa)) by (intros []; reflexivity). reflexivity. Qed.
Lemma places_impl_member_dec m : places_impl_member (dec_impl_member fa fv m) = map put (places_impl_member m).
Proof. destruct m; try reflexivity. apply places_function_dec. Qed.
Lemma places_trait_member_dec m : places_trait_member (dec_trait_member fa fv m) = map put (places_trait_member m).
Proof. destruct m; try reflexivity. apply places_function_dec. Qed.
Lemma place_between_dec i j : place_between (dec_item fa fi fv i) (dec_item fa fi fv j) = map put (place_between i j).
Proof.
  assert (E : open_struct (dec_item fa fi fv i) = open_struct i).
  { destruct i as [[a v k n g w x se]|[]|[? ? ? ? ? ? []]|[]|[]|[]| |x| |[]|m|[]|[]]; try reflexivity. destruct x, se, w; reflexivity. }
  unfold place_between. rewrite E. destruct j as [[]|[]|[? ? ? ? ? ? []]|[]|[]|[]| | | |[]|m|[]|[]]; try reflexivity. cbn. destruct (open_struct i && _); reflexivity.
Qed.
Lemma places_between_dec l : places_between (map (dec_item fa fi fv) l) = map put (places_between l).
Proof. induction l as [|i [|j l] IH]; try reflexivity. cbn [map places_between] in *. rewrite map_app, IH, place_between_dec. reflexivity. Qed.
Theorem C94_places (i : item) : places_item (dec_item fa fi fv i) = map put (places_item i).
Proof.
  induction i as [m IH|i No] using item_nested_ind.
  - destruct m as [a v u k n s b ia ms]. cbn [mo_members] in IH. cbn [dec_item places_item mo_attributes mo_vis mo_braces mo_inner_attributes mo_members map put].
    rewrite !map_app, places_between_dec, places_list_dec by (apply Forall_forall, IH). destruct b; reflexivity.
  - destruct i as [[]|[]|[? ? ? ? ? ? []]|m|[]|[]|[]|x|[]|[]|m|[]|[]]; cbn -[places_function dec_function places_fields dec_fields places_trait_member places_impl_member map];
      cbn [map put]; rewrite ?places_fields_dec; try reflexivity.
    + do 2 f_equal. apply places_pu_dec. intro v. unfold places_variant. cbn [dec_variant ev_attributes ev_vis ev_name ev_fields map put]. rewrite places_fields_dec. reflexivity.
    + do 2 f_equal. apply places_pu_dec. reflexivity.
    + exfalso. eapply No. reflexivity.
    + do 3 f_equal. apply places_list_dec. auto using places_trait_member_dec.
    + do 2 f_equal. apply places_list_dec. auto using places_impl_member_dec.
    + apply places_function_dec.
    + do 3 f_equal. apply places_list_dec. auto using places_impl_member_dec.
Qed.
End Places.

(** Nothing else changes. *)
Section Same.
Notation keep := (fun x => x).
Lemma dpu_id {A} (g : A -> A) p : (forall x, g x = x) -> sub_pu g p = p.
Proof. intro H. destruct p as [l s]. unfold sub_pu. cbn. f_equal. induction l as [|[x c] l IH]; [reflexivity|]. cbn. rewrite H, IH. reflexivity. Qed.
Lemma dlist_id {A} (g : A -> A) l : (forall x, In x l -> g x = x) -> map g l = l.
Proof. intro H. rewrite <- (map_id l) at 2. apply map_ext_in, H. Qed.
Lemma dfields_id x : dec_fields keep keep x = x.
Proof. destruct x as [|[]|[]]; try reflexivity; cbn; rewrite dpu_id; auto; intros []; reflexivity. Qed.
Lemma dfunction_id x : dec_function keep keep x = x.
Proof. destruct x. unfold dec_function. cbn. rewrite dpu_id; [reflexivity|intros [[]|[]]; reflexivity]. Qed.
Lemma dimpl_member_id m : dec_impl_member keep keep m = m.
Proof. destruct m as [x|[]|[]|[]]; try reflexivity. cbn. f_equal. apply dfunction_id. Qed.
Lemma dtrait_member_id m : dec_trait_member keep keep m = m.
Proof. destruct m as [x|[]|[]|[]]; try reflexivity. cbn. f_equal. apply dfunction_id. Qed.
Theorem C94_identity (i : item) : dec_item keep keep keep i = i.
Proof.
  induction i as [m IH|i No] using item_nested_ind.
  - destruct m as [a v u k n s b ia ms]. cbn. f_equal. f_equal; [destruct b; reflexivity|]. apply dlist_id, Forall_forall, IH.
  - destruct i as [[]|[]|[? ? ? ? ? ? []]|m|[]|[]|[]|x|[]|[]|[]|[]|[]]; cbn -[dec_function dec_fields]; rewrite ?dfields_id; try reflexivity; f_equal; auto using dfunction_id.
    + f_equal. apply dpu_id. intros []. unfold dec_variant. cbn. rewrite dfields_id. reflexivity.
    + do 2 f_equal. apply dpu_id. intros []. reflexivity.
    + exfalso. eapply No. reflexivity.
    + f_equal. apply dlist_id. auto using dtrait_member_id.
    + f_equal. apply dlist_id. auto using dimpl_member_id.
    + f_equal. apply dlist_id. auto using dimpl_member_id.
Qed.
End Same.

(** ** Two uses *)
(** Attributes may be removed everywhere, except all those of a macro [where] behind an open tuple struct. *)
Theorem C94_strip (p : attribute -> bool) (i : item) : parse_item (print_item i) = Ret (Ok i) ->
  (forall a, In (PKeep a) (places_item i) -> filter p a <> []) ->
  let j := dec_item (filter p) (filter p) (fun v => v) i in parse_item (print_item j) = Ret (Ok j).
Proof.
  intros H K j. apply C94_decorate; auto.
  assert (E : Forall (may_stand (fun x => x) (fun x => x) (fun x => x)) (places_item i)) by (apply C94_decorate; rewrite ?C94_identity; auto).
  rewrite Forall_forall in *. intros [a|a|v b|a] I; specialize (E _ I); cbn in *; auto;
    rewrite Forall_forall in *; intros x Hx; apply filter_In in Hx; apply E; tauto.
Qed.
(** Everything may be made public, except tuple fields whose type starts with parentheses (C20). *)
Theorem C94_publish (k : ident) (i : item) : id_str k = "pub" -> parse_item (print_item i) = Ret (Ok i) ->
  let j := dec_item (fun a => a) (fun a => a) (fun _ => Some (mkVis (TIdent k) None)) i in
  (parse_item (print_item j) = Ret (Ok j) <-> forall v b, In (PVis v b) (places_item i) -> head_is (is_group Parenthesis) b = false).
Proof.
  intros Hk H j.
  assert (E : Forall (may_stand (fun x => x) (fun x => x) (fun x => x)) (places_item i)) by (apply C94_decorate; rewrite ?C94_identity; auto).
  subst j. rewrite C94_decorate by auto. rewrite Forall_forall in *. split.
  - intros F v b I. apply F in I. cbn in I. destruct I as [_ I]. apply not_true_iff_false. intro. apply I. eauto.
  - intros F [a|a|v b|a] I; pose proof (E _ I) as X; cbn in *; auto. rewrite (F _ _ I). split; [unfold id_is; rewrite Hk; reflexivity|]. intros [_ X']. discriminate.
Qed.

(** Both sides of C94_decorate occur. *)
Definition strip_all := dec_item (filter (fun _ => false)) (filter (fun _ => false)) (fun v => v).
Definition publish := dec_item (fun a => a) (fun a => a) (fun _ => Some (mkVis (TIdent (mkIdent "pub" 7%N)) None)).
Example C94_example :
  (let i := item_of "#[a] mod m { #![b] #[c(d)] pub struct S { #[e = 1] pub(crate) x: u8, y: T } impl S { #[f] fn g(#[h] &self, #[i] z: u8) { #[j] 1 } } enum E { #[k] A(#[l] u8) } }" in
   parse_item (print_item i) = Ret (Ok i)
   /\ (forall a, ~ In (PKeep a) (places_item i))
   /\ texts (print_item (strip_all i)) = texts (lex "mod m { pub struct S { pub(crate) x: u8, y: T } impl S { fn g(&self, z: u8) { #[j] 1 } } enum E { A(u8) } }")
   /\ parse_item (print_item (publish i)) = Ret (Ok (publish i)))
  /\ (let i := item_of "struct S((u8, u8));" in parse_item (print_item i) = Ret (Ok i) /\ parse_item (print_item (publish i)) <> Ret (Ok (publish i)))
  /\ (let i := item_of "mod m { struct S(u8) #[a] where! { } }" in parse_item (print_item i) = Ret (Ok i)
      /\ (exists a, In (PKeep a) (places_item i)) /\ exists p, parse_item (print_item (strip_all i)) = Panic p).
Proof.
  split; [|split].
  - split; [vm_compute; reflexivity|]. split; [|split; vm_compute; reflexivity]. intros a. vm_compute. intuition discriminate.
  - split; [vm_compute; reflexivity|vm_compute; discriminate].
  - split; [vm_compute; reflexivity|]. split; [|eexists; vm_compute; reflexivity]. eexists. vm_compute. repeat (first [left; reflexivity | right]).
Qed.

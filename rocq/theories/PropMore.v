(** C63-C65: printed items decode uniquely, what follows an item does not matter, function
    bodies and macro contents are opaque. *)
From Verif Require Import Debug PrintSpells Complete3 Sound2 Unfold Samples PropRoundTrip PropErr.
Local Open Scope string_scope.
Local Open Scope list_scope.

(** ** C63: unique decoding *)
Theorem C63_prefix (x y : item) (r s : list tok) :
  wf_item x = true -> follow_ok x r = true -> wf_item y = true -> follow_ok y s = true ->
  print_item x ++ r = print_item y ++ s -> x = y /\ r = s.
Proof.
  intros Wx Fx Wy Fy E. pose proof (C01_print_consume x r Wx Fx) as A. pose proof (C01_print_consume y s Wy Fy) as B.
  rewrite E, B in A. injection A as -> ->. auto.
Qed.
Theorem C63_injective (x y : item) :
  wf_item x = true -> follow_ok x [] = true -> wf_item y = true -> follow_ok y [] = true ->
  print_item x = print_item y -> x = y.
Proof. intros Wx Fx Wy Fy E. eapply (C63_prefix x y [] []); auto. rewrite E. reflexivity. Qed.
(** A printed file decodes to one list of items only. *)
Theorem C63_sequence (l k : list item) :
  forallb wf_item l = true -> separable l [] -> forallb wf_item k = true -> separable k [] ->
  flat_map print_item l = flat_map print_item k -> l = k.
Proof.
  assert (NE : forall i, wf_item i = true -> print_item i <> []).
  { intros i H. eapply item_ne. apply print_spells_item, H. }
  revert k. induction l as [|i l IH]; intros [|j k] Wl Sl Wk Sk E; cbn [flat_map] in E; auto.
  - exfalso. symmetry in E. apply app_eq_nil in E. destruct E as [E _]. cbn in Wk. apply andb_prop in Wk. exact (NE _ (proj1 Wk) E).
  - exfalso. apply app_eq_nil in E. destruct E as [E _]. cbn in Wl. apply andb_prop in Wl. exact (NE _ (proj1 Wl) E).
  - cbn [forallb separable] in *. apply andb_prop in Wl, Wk. destruct Wl as [W1 W2], Wk as [V1 V2], Sl as [S1 S2], Sk as [T1 T2].
    rewrite app_nil_r in S1, T1. destruct (C63_prefix i j _ _ W1 S1 V1 T1 E) as [-> E2]. f_equal. auto.
Qed.
(** Without the conditions it fails, even on parsed items. *)
Theorem C63_unstable_collide : exists x y ts us,
  parse_item ts = Ret (Ok x) /\ parse_item us = Ret (Ok y) /\ x <> y /\ print_item x = print_item y.
Proof.
  exists (item_of "struct S { x: u8 };"), (item_of "struct S { x: u8 }"), (lex "struct S { x: u8 };"), (lex "struct S { x: u8 }").
  split; [vm_compute; reflexivity|]. split; [vm_compute; reflexivity|]. split; [vm_compute; discriminate|vm_compute; reflexivity].
Qed.
Example C63_example :
  let l := items_of 9 (lex "struct A(u8) struct B; use a::b; mod m { fn f() {} } x!();") in
  List.length l = 5 /\ forallb wf_item l = true /\ separable l [].
Proof. vm_compute. auto 10. Qed.

(** ** C64: what follows the item *)
(** Once an item was read from [c], it is read from [c] in front of anything that does not
    continue a struct; and only then. *)
Theorem C64_ok (c r s : list tok) (i : item) :
  consume_item (c ++ r) = Ret (Ok i, r) -> (consume_item (c ++ s) = Ret (Ok i, s) <-> follow_ok i s = true).
Proof.
  intro H. apply consume_item_iff in H. destruct H as (c' & E & S & Sh & _). apply app_inv_tail in E. subst c'. split; intro H.
  - apply consume_item_iff in H. destruct H as (c' & E & _ & _ & F). exact F.
  - apply consume_item_iff. exists c. auto.
Qed.
Theorem C64_err (c r s : list tok) (e : error) :
  consume_item (c ++ r) = Ret (Err e, r) -> consume_item (c ++ s) = Ret (Err e, s).
Proof.
  intro H. apply C11_err_iff in H. destruct H as (head & body & t & after & sp & en & v & E & H & H1 & H2 & H3 & H4).
  assert (F : forall b, head ++ TGroup (mkGroup Brace b sp) :: r = (head ++ [TGroup (mkGroup Brace b sp)]) ++ r) by (intro; app_norm; reflexivity).
  rewrite F in E, H. apply app_inv_tail in E. subst c. apply (C64_ok _ _ s) in H. apply C11_err_iff.
  exists head, body, t, after, sp, en, v. split; [app_norm; reflexivity|]. split; [|auto]. rewrite <- app_assoc in H. apply H. reflexivity.
Qed.
(** The one item that may fail to end by itself is a struct. *)
Theorem C64_self_delimiting (c r s : list tok) (i : item) :
  consume_item (c ++ r) = Ret (Ok i, r) -> (forall x, i <> IStruct x) -> consume_item (c ++ s) = Ret (Ok i, s).
Proof. intros H N. apply (C64_ok c r s i H). destruct i; auto. exfalso. eapply N. reflexivity. Qed.
Example C64_example :
  let c := lex "#[a] pub fn f<T>(x: T) -> u8 where T: Copy { 1 }" in let e := lex "enum E { A = 1 + 2 }" in
  (exists i, consume_item (c ++ lex "struct S;") = Ret (Ok i, lex "struct S;"))
  /\ (exists r, consume_item (e ++ lex "where ; }") = Ret (Err r, lex "where ; }")).
Proof. split; eexists; vm_compute; reflexivity. Qed.

(** ** C65: code is opaque *)
(** Replace the tokens in every function body and in every macro call, wherever they are. *)
Section Code.
Variable h : list tok -> list tok.
Definition code_group (g : group) : group := mkGroup (g_delim g) (h (g_stream g)) (g_span g).
Definition code_function (f : function) : function :=
  mkFunction (fn_attributes f) (fn_vis f) (fn_qualifiers_ f) (fn_kw f) (fn_name f) (fn_generics f) (fn_parens f) (fn_params f) (fn_where f)
    (fn_arrow f) (fn_ret f) (fn_semicolon f) (option_map code_group (fn_body f)).
Definition code_macro (m : macro) : macro :=
  mkMacro (ma_attributes m) (ma_name m) (ma_bang m) (ma_declared m) (ma_group m) (h (ma_inner m)) (ma_semicolon m).
Definition code_impl_member (m : impl_member) : impl_member :=
  match m with IMFunction f => IMFunction (code_function f) | IMMacro m => IMMacro (code_macro m) | m => m end.
Definition code_trait_member (m : trait_member) : trait_member :=
  match m with TMFunction f => TMFunction (code_function f) | TMMacro m => TMMacro (code_macro m) | m => m end.
Fixpoint code_item (i : item) : item :=
  match i with
  | IFunction f => IFunction (code_function f)
  | IMacro m => IMacro (code_macro m)
  | IModule (mkModule a v u k n s b ia ms) => IModule (mkModule a v u k n s b ia (map code_item ms))
  | ITrait (mkTrait a v u k n g b w br ia ms) => ITrait (mkTrait a v u k n g b w br ia (map code_trait_member ms))
  | IImpl (mkImpl a u k g t f s w br ia ms) => IImpl (mkImpl a u k g t f s w br ia (map code_impl_member ms))
  | IExternBlock (mkExternBlock a v u e ab br ia ms) => IExternBlock (mkExternBlock a v u e ab br ia (map code_impl_member ms))
  | i => i
  end.

Lemma code_function_wf f : wf_function (code_function f) = wf_function f.
Proof. destruct f as [? ? ? ? ? ? ? ? ? ? ? ? [[]|]]; reflexivity. Qed.
Lemma code_impl_member_shape b m : shape_impl_member b (code_impl_member m) = shape_impl_member b m.
Proof. destruct m; try reflexivity. apply code_function_wf. Qed.
Lemma code_trait_member_shape m : shape_trait_member (code_trait_member m) = shape_trait_member m.
Proof. destruct m; try reflexivity. apply code_function_wf. Qed.
Lemma forallb_map_same {A B} (p : B -> bool) (q : A -> bool) (g : A -> B) l : (forall x, p (g x) = q x) -> forallb p (map g l) = forallb q l.
Proof. intro H. induction l as [|x l IH]; cbn; [auto|]. rewrite H, IH. reflexivity. Qed.
Lemma code_shape i : shape_item (code_item i) = shape_item i.
Proof.
  induction i as [m IH|i No] using item_nested_ind.
  - destruct m as [a v u k n s b ia ms]. cbn [mo_members] in IH. cbn [code_item shape_item]. unfold shape_module.
    cbn [mo_attributes mo_vis mo_unsafe mo_mod mo_name mo_semicolon mo_braces mo_inner_attributes mo_members].
    assert (F : forallb shape_item (map code_item ms) = forallb shape_item ms) by (induction IH as [|x l Hx _ IHl]; cbn; [auto|rewrite Hx, IHl; auto]).
    rewrite F. destruct ms; reflexivity.
  - destruct i as [| | |m|[]|[]| |f| | |m|[]|]; try reflexivity.
    + exfalso. eapply No. reflexivity.
    + cbn [code_item shape_item]. unfold shape_trait. cbn -[shape_trait_member]. rewrite (forallb_map_same _ shape_trait_member _ _ code_trait_member_shape). reflexivity.
    + cbn [code_item shape_item]. unfold shape_impl. cbn -[shape_impl_member]. rewrite (forallb_map_same _ (shape_impl_member false) _ _ (code_impl_member_shape false)). reflexivity.
    + apply code_function_wf.
    + cbn [code_item shape_item]. unfold shape_extern_block. cbn -[shape_impl_member]. rewrite (forallb_map_same _ (shape_impl_member true) _ _ (code_impl_member_shape true)). reflexivity.
Qed.
(** The printed form starts in the same way. *)
Definition same_start (a b : list tok) : Prop := exists pre k x y, a = pre ++ TIdent k :: x /\ b = pre ++ TIdent k :: y.
Lemma same_start_app a b c : same_start a b -> same_start (c ++ a) (c ++ b).
Proof. intros (pre & k & x & y & -> & ->). exists (c ++ pre), k, x, y. rewrite !app_assoc. auto. Qed.
Lemma same_start_cons k a b : same_start (TIdent k :: a) (TIdent k :: b).
Proof. exists [], k, a, b. auto. Qed.
Lemma code_start i : same_start (print_item (code_item i)) (print_item i).
Proof.
  destruct i as [| | |[]|[]|[]| |f| | |m|[]|]; cbn [code_item print_item];
    unfold print_struct, print_enum, print_union, print_module, print_trait, print_impl, print_type_alias, print_function, print_constant, print_use, print_macro,
      print_extern_block, print_extern_crate; cbn; repeat (apply same_start_cons || apply same_start_app).
Qed.
Lemma same_start_head p a b r s : same_start a b -> head_is p (a ++ r) = head_is p (b ++ s).
Proof. intros (pre & k & x & y & -> & ->). destruct pre; reflexivity. Qed.
Lemma code_follow i r s : (forall p, head_is p r = head_is p s) -> follow_ok (code_item i) r = follow_ok i s.
Proof.
  intro H. destruct i as [x| | |[]|[]|[]| |f| | |m|[]|]; try reflexivity. cbn [code_item follow_ok]. unfold struct_follow.
  rewrite !H. reflexivity.
Qed.
Lemma code_members l : members_follow (map code_item l) = members_follow l.
Proof.
  induction l as [|i l IH]; [reflexivity|]. cbn [map members_follow]. rewrite IH. f_equal. apply code_follow. intro p.
  destruct l as [|j l]; [reflexivity|]. cbn [map flat_map]. apply same_start_head, code_start.
Qed.
Lemma code_stable i : stable_item (code_item i) = stable_item i.
Proof.
  induction i as [m IH|i No] using item_nested_ind.
  - destruct m as [a v u k n s b ia ms]. cbn [mo_members] in IH. cbn [code_item stable_item mo_members]. rewrite code_members. f_equal.
    induction IH as [|x l Hx _ IHl]; cbn; [auto|rewrite Hx, IHl; auto].
  - destruct i as [| | |m|[]|[]| |f| | |m|[]|]; try reflexivity.
    + exfalso. eapply No. reflexivity.
    + apply forallb_map_same. intros []; reflexivity.
    + apply forallb_map_same. intros []; reflexivity.
    + apply forallb_map_same. intros []; reflexivity.
Qed.
Lemma code_wf i : wf_item (code_item i) = wf_item i.
Proof. unfold wf_item. rewrite code_shape, code_stable. reflexivity. Qed.
End Code.

(** New code does not change whether the printed item parses, nor what it parses to. *)
Theorem C65_code_opaque (h : list tok -> list tok) (i : item) :
  parse_item (print_item i) = Ret (Ok i) -> parse_item (print_item (code_item h i)) = Ret (Ok (code_item h i)).
Proof.
  intro H. apply C01_print_parse_iff in H. apply C01_print_parse_iff. rewrite code_wf, (code_follow h i [] []) by auto. exact H.
Qed.
(** And [code_item] changes nothing else: undoing the change gives the item back. *)
Theorem C65_only_code (h k : list tok -> list tok) (i : item) : (forall ts, k (h ts) = ts) -> code_item k (code_item h i) = i.
Proof.
  intro H. assert (G : forall g, code_group k (code_group h g) = g) by (intros []; unfold code_group; cbn; rewrite H; reflexivity).
  assert (F : forall f, code_function k (code_function h f) = f).
  { intros [fa fv fq fk fn fg fp fps fw far fr fs [g|]]; unfold code_function; cbn [fn_attributes fn_vis fn_qualifiers_ fn_kw fn_name fn_generics fn_parens fn_params fn_where
      fn_arrow fn_ret fn_semicolon fn_body option_map]; rewrite ?G; reflexivity. }
  assert (M : forall m, code_macro k (code_macro h m) = m) by (intros []; unfold code_macro; cbn; rewrite H; reflexivity).
  assert (I : forall l, map (code_impl_member k) (map (code_impl_member h) l) = l).
  { induction l as [|[]]; cbn; rewrite ?F, ?M; f_equal; auto. }
  assert (T : forall l, map (code_trait_member k) (map (code_trait_member h) l) = l).
  { induction l as [|[]]; cbn; rewrite ?F, ?M; f_equal; auto. }
  induction i as [m IH|i No] using item_nested_ind.
  - destruct m as [a v u kw n s b ia ms]. cbn [mo_members] in IH. cbn [code_item]. do 2 f_equal. induction IH; cbn; f_equal; auto.
  - destruct i as [| | |m|[]|[]| |f| | |m|[]|]; try reflexivity; cbn [code_item]; rewrite ?I, ?T, ?F, ?M; try reflexivity. exfalso. eapply No. reflexivity.
Qed.
(** On streams, for a function in front of anything: the body is exchanged and nothing else. *)
Theorem C65_body (c r : list tok) (f : function) (g g' : group) :
  consume_item (c ++ TGroup g :: r) = Ret (Ok (IFunction f), r) -> fn_body f = Some g -> g_delim g' = g_delim g ->
  consume_item (c ++ TGroup g' :: r) = Ret (Ok (IFunction
    (mkFunction (fn_attributes f) (fn_vis f) (fn_qualifiers_ f) (fn_kw f) (fn_name f) (fn_generics f) (fn_parens f) (fn_params f) (fn_where f)
       (fn_arrow f) (fn_ret f) (fn_semicolon f) (Some g'))), r).
Proof.
  intros H B D. apply consume_item_iff in H. destruct H as (c' & E & S & W & F). change (TGroup g :: r) with ([TGroup g] ++ r) in E.
  rewrite app_assoc in E. apply app_inv_tail in E. subst c'. apply consume_item_iff. exists (c ++ [TGroup g']).
  split; [app_norm; reflexivity|]. cbn [spells_item shape_item follow_ok] in *. destruct f as [a v q kw n ge ps pp w ar rt se bd]. cbn [fn_body] in B. subst bd.
  unfold wf_function in *. cbn [fn_attributes fn_vis fn_qualifiers_ fn_kw fn_name fn_generics fn_parens fn_params fn_where fn_arrow fn_ret fn_semicolon fn_body] in *.
  rewrite D. split; [|split; auto]. destruct se; [apply andb_prop in W; destruct W; discriminate|]. clear W F.
  destruct S as (ca & cp & S1 & S2 & S3). exists ca, cp. split; [exact S1|]. split; [exact S2|].
  cbn [fn_attributes fn_vis fn_qualifiers_ fn_kw fn_name fn_generics fn_parens fn_params fn_where fn_arrow fn_ret fn_semicolon fn_body print_opt print_group] in *.
  rewrite app_nil_r in *. rewrite ?app_assoc, ?app_comm_cons in *. rewrite !app_assoc in *.
  apply app_inj_tail in S3. destruct S3 as [-> _]. reflexivity.
Qed.
Example C65_example :
  let c := lex "#[a] pub fn f<T>(x: T) -> u8 where T: Copy" in
  (exists f, consume_item (c ++ lex "{ 1 }" ++ lex "struct S;") = Ret (Ok (IFunction f), lex "struct S;") /\ fn_body f <> None)
  /\ parse_item (print_item (item_of "impl A { fn f(&self) { 1 + 1 } x!(a b); fn g(); }")) = Ret (Ok (item_of "impl A { fn f(&self) { 1 + 1 } x!(a b); fn g(); }"))
  /\ map (fun t => match t with TGroup g => g_stream g | _ => [] end) (print_item (code_item (fun _ => lex "fn ; }") (item_of "x!(a b);"))) = [[]; []; lex "fn ; }"; []].
Proof. split; [eexists; split; [vm_compute; reflexivity|discriminate]|]. split; vm_compute; reflexivity. Qed.

(** ** C66: attributes and visibility do not influence how the rest is read *)
(** The item with these attributes and this visibility.  An [impl] and a macro call have no
    place for a visibility. *)
Definition decorate (A : list attribute) (V : option vis_marker) (i : item) : item :=
  match i with
  | IStruct x => IStruct (mkStruct A V (st_struct x) (st_name x) (st_generics x) (st_where x) (st_fields x) (st_semicolon x))
  | IEnum x => IEnum (mkEnum A V (en_enum x) (en_name x) (en_generics x) (en_where x) (en_braces x) (en_variants x))
  | IUnion x => IUnion (mkUnion A V (un_union x) (un_name x) (un_generics x) (un_where x) (un_fields x))
  | IModule x => IModule (mkModule A V (mo_unsafe x) (mo_mod x) (mo_name x) (mo_semicolon x) (mo_braces x) (mo_inner_attributes x) (mo_members x))
  | ITrait x => ITrait (mkTrait A V (tr_unsafe x) (tr_trait x) (tr_name x) (tr_generics x) (tr_bound x) (tr_where x) (tr_braces x) (tr_inner_attributes x) (tr_items x))
  | IImpl x => IImpl (mkImpl A (im_unsafe x) (im_impl x) (im_generics x) (im_trait x) (im_for x) (im_self x) (im_where x) (im_braces x) (im_inner_attributes x) (im_items x))
  | ITypeAlias x => ITypeAlias (mkTypeAlias A V (ta_type x) (ta_name x) (ta_bound x) (ta_equals x) (ta_init x) (ta_semicolon x))
  | IFunction x => IFunction (mkFunction A V (fn_qualifiers_ x) (fn_kw x) (fn_name x) (fn_generics x) (fn_parens x) (fn_params x) (fn_where x) (fn_arrow x) (fn_ret x)
                                (fn_semicolon x) (fn_body x))
  | IConstant x => IConstant (mkConstant A V (co_kw x) (co_mut x) (co_name x) (co_colon x) (co_ty x) (co_equals x) (co_init x) (co_semicolon x))
  | IUse x => IUse (mkUse A V (us_use x) (us_tree x) (us_semicolon x))
  | IMacro x => IMacro (mkMacro A (ma_name x) (ma_bang x) (ma_declared x) (ma_group x) (ma_inner x) (ma_semicolon x))
  | IExternBlock x => IExternBlock (mkExternBlock A V (eb_unsafe x) (eb_extern x) (eb_abi x) (eb_braces x) (eb_inner_attributes x) (eb_items x))
  | IExternCrate x => IExternCrate (mkExternCrate A V (ec_extern x) (ec_crate x) (ec_name x) (ec_as x) (ec_alias x) (ec_underscore x) (ec_semicolon x))
  end.
(** Change the value that a run returns, not what it consumes or whether it panics. *)
Definition lift {A B} (g : A -> B) (o : outcome (A * list tok)) : outcome (B * list tok) :=
  match o with Ret (x, r) => Ret (g x, r) | Panic p => Panic p | OutOfFuel => OutOfFuel end.
Definition on_ok {A} (g : A -> A) (r : result A error) : result A error := match r with Ok x => Ok (g x) | Err e => Err e end.

Section Decorate.
Variables (R : parser (result item error)) (E : list attribute -> option vis_marker -> parser item).
Variables (A : list attribute) (V : option vis_marker).
Ltac step := match goal with
  | |- context [bind ?m _] => lazymatch m with
      | bind _ _ => fail
      | match ?x with _ => _ end => destruct x
      | _ => destruct m as [[? ?]| |] || destruct m
      end
  | |- context [match ?m with _ => _ end] => lazymatch m with bind _ _ => fail | lift _ _ => fail | match _ with _ => _ end => fail | _ => destruct m end
  end; cbn [bind lift on_ok decorate].
Ltac par := repeat (reflexivity || step).
Lemma dec_struct kw ts : wrap IStruct (parse_struct A V kw ts) = lift (on_ok (decorate A V)) (wrap IStruct (parse_struct [] None kw ts)).
Proof. unfold parse_struct, wrap. par. Qed.
Lemma dec_union kw ts : wrap IUnion (parse_union A V kw ts) = lift (on_ok (decorate A V)) (wrap IUnion (parse_union [] None kw ts)).
Proof. unfold parse_union, wrap. par. Qed.
Lemma dec_enum kw ts :
  (do (e, ts) <- parse_enum A V kw ts ;; match e with Ok e => Ret (Ok (IEnum e), ts) | Err er => Ret (Err er, ts) end)
  = lift (on_ok (decorate A V)) (do (e, ts) <- parse_enum [] None kw ts ;; match e with Ok e => Ret (Ok (IEnum e), ts) | Err er => Ret (Err er, ts) end).
Proof. unfold parse_enum. par. Qed.
Notation D := (lift (on_ok (decorate A V))).
Lemma dec_use ts : wrap IUse (parse_use_declaration A V ts) = D (wrap IUse (parse_use_declaration [] None ts)).
Proof. unfold parse_use_declaration, wrap. par. Qed.
Lemma dec_constant ts : wrap IConstant (parse_const_or_static A V ts) = D (wrap IConstant (parse_const_or_static [] None ts)).
Proof. unfold parse_const_or_static, wrap. par. Qed.
Lemma dec_impl ts : wrap IImpl (parse_impl E A ts) = D (wrap IImpl (parse_impl E [] ts)).
Proof. unfold parse_impl, wrap. par. Qed.
Lemma dec_trait ts : wrap ITrait (parse_trait E A V ts) = D (wrap ITrait (parse_trait E [] None ts)).
Proof. unfold parse_trait, wrap. par. Qed.
Lemma dec_mod ts : wrap IModule (parse_mod R A V ts) = D (wrap IModule (parse_mod R [] None ts)).
Proof. unfold parse_mod, wrap. par. Qed.
Lemma dec_ecrate ts : wrap IExternCrate (parse_extern_crate A V ts) = D (wrap IExternCrate (parse_extern_crate [] None ts)).
Proof. unfold parse_extern_crate, consume_extern_crate, wrap. par. Qed.
Lemma dec_eblock ts : wrap IExternBlock (parse_extern_block E A V ts) = D (wrap IExternBlock (parse_extern_block E [] None ts)).
Proof. unfold parse_extern_block, consume_extern_block, wrap. par. Qed.
Lemma dec_macro ts : wrap (fun i => i) (parse_item_macro A ts) = D (wrap (fun i => i) (parse_item_macro [] ts)).
Proof. unfold parse_item_macro, consume_macro, consume_macro_inner, wrap. par. Qed.
Lemma dec_either kw r : either_keyword kw = true ->
  wrap (fun i => i) (consume_either R E A V (TIdent kw :: r)) = D (wrap (fun i => i) (consume_either R E [] None (TIdent kw :: r))).
Proof.
  intro H. assert (T : id_is "type" kw = true \/ fn_like_keyword kw = true).
  { unfold either_keyword, fn_like_keyword in *. destruct (id_is "type" kw); auto. right. rewrite !orb_true_iff in *. intuition discriminate. }
  unfold consume_either. set (ts := TIdent kw :: r). clearbody ts. destruct (id_is "type" kw).
  - unfold consume_ty_definition, wrap. par.
  - destruct T as [T|T]; [discriminate|]. rewrite T. unfold consume_fn.
    destruct (consume_fn_qualifiers ts) as [q t]. destruct (classify_fn q t) as [[[k|nf] t2]| |]; cbn [bind]; try reflexivity.
    + unfold wrap. par.
    + assert (W : forall B (c : B -> item) m, wrap (fun i => i) (do (x, ts) <- m ;; Ret (c x, ts)) = wrap c m) by (intros B c [[]| |]; reflexivity).
      destruct nf; rewrite !W; auto using dec_constant, dec_trait, dec_impl, dec_mod, dec_eblock, dec_ecrate.
Qed.
Lemma dec_body ca ts : wf_outer A = true -> spells_attributes A ca -> wf_opt wf_vis V = true -> prefix_ok V ts = true -> prefix_ok None ts = true ->
  consume_item_body R E (ca ++ print_opt print_vis V ++ ts) = D (consume_item_body R E ts).
Proof.
  intros H1 H2 H3 H4 H5. unfold consume_item_body. rewrite (attrs_vis_complete A) by auto.
  pose proof (attrs_vis_complete [] [] None ts eq_refl eq_refl eq_refl H5) as N. pose proof (vis_complete None ts eq_refl H5) as N2.
  cbn [app print_opt] in N, N2. rewrite N. cbn [bind]. rewrite (vis_complete V) by auto. rewrite N2.
  destruct ts as [|[g|kw|p|l] r]; try reflexivity; try apply dec_macro.
  destruct (id_is "struct" kw); [apply dec_struct|]. destruct (id_is "enum" kw); [apply dec_enum|]. destruct (id_is "union" kw); [apply dec_union|].
  destruct (id_is "mod" kw); [apply dec_mod|]. destruct (id_is "trait" kw); [apply dec_trait|]. destruct (id_is "impl" kw); [apply dec_impl|].
  destruct (id_is "static" kw); [apply dec_constant|]. destruct (id_is "use" kw); [apply dec_use|].
  destruct (either_keyword kw) eqn:K; [apply dec_either, K|apply dec_macro].
Qed.
End Decorate.

(** Any run of outer attributes, any visibility, then a stream that starts with neither. *)
Theorem C66_decorate (A : list attribute) (ca : list tok) (V : option vis_marker) (ts : list tok) :
  wf_outer A = true -> spells_attributes A ca -> wf_opt wf_vis V = true -> prefix_ok V ts = true -> prefix_ok None ts = true ->
  consume_item (ca ++ print_opt print_vis V ++ ts) = lift (on_ok (decorate A V)) (consume_item ts).
Proof. intros. rewrite !consume_item_unfold. apply dec_body; auto. Qed.
(** Every run of [consume_item] that gets past the attributes has this form, unless a second
    visibility follows the first. *)
Theorem C66_covers (ts ts1 ts2 : list tok) (A : list attribute) (V : option vis_marker) :
  consume_outer_attributes ts = Ret (A, ts1) -> consume_vis_marker ts1 = (V, ts2) -> prefix_ok None ts2 = true ->
  consume_item ts = lift (on_ok (decorate A V)) (consume_item ts2).
Proof.
  intros H1 H2 H3. destruct (attrs_vis_sound _ _ _ _ _ H1 H2) as (ca & -> & S1 & S2 & S3 & S4). apply C66_decorate; auto.
Qed.
Example C66_example :
  let ts := lex "impl A { }" in
  consume_item (lex "#[a(b)] #[c = 1] pub(crate)" ++ ts)
  = lift (on_ok (decorate (item_attributes (item_of "#[a(b)] #[c = 1] pub(crate) struct S;")) None)) (consume_item ts)
  /\ (exists i, consume_item (lex "#[a(b)] pub" ++ lex "fn f() {}") = Ret (Ok i, [])
               /\ consume_item (lex "fn f() {}") = Ret (Ok (decorate [] None i), [])).
Proof. split; [vm_compute; reflexivity|]. eexists. split; vm_compute; reflexivity. Qed.

(** C91: what the documentation of src/types.rs says about the optional fields of macros,
    constants, type aliases, receivers and generic parameters. *)
From Verif Require Import Debug PrintSpells Complete3 Sound2 Stable Unfold Samples PropRoundTrip PropShape PathSpec PathProof PropPath PropLimits.
Local Open Scope string_scope.
Local Open Scope list_scope.

(** The members of an item, as items: of traits, impls and extern blocks. *)
Definition as_item (m : impl_member) : item :=
  match m with IMFunction f => IFunction f | IMConstant c => IConstant c | IMType t => ITypeAlias t | IMMacro m => IMacro m end.
Definition own_members (i : item) : list item :=
  match i with
  | ITrait t => map (fun m => as_item (impl_of_trait_member m)) (tr_items t)
  | IImpl i => map as_item (im_items i)
  | IExternBlock b => map as_item (eb_items b)
  | _ => []
  end.
(** Everything declared in an item at any depth, with itself. *)
Definition declared (i : item) : list item := flat_map (fun j => j :: own_members j) (all_items i).

(** The shape of an item or of a member. *)
Definition shape_either (i : item) : Prop :=
  match i with IMacro m => exists k, shape_macro k m = true | _ => shape_item i = true end.
Lemma as_item_shape allow m : shape_impl_member allow m = true -> shape_either (as_item m).
Proof. destruct m; cbn; intro H; bsplit; eauto. Qed.
Lemma declared_shape ts i rest j : consume_item ts = Ret (Ok i, rest) -> In j (declared i) -> shape_either j.
Proof.
  intros H Hj. unfold declared in Hj. apply in_flat_map in Hj. destruct Hj as (k & Hk & Hj).
  pose proof (parsed_shape _ _ _ _ H Hk) as S. destruct Hj as [<-|Hj].
  { destruct k; cbn in *; eauto. }
  destruct k; cbn [own_members] in Hj; try contradiction; apply in_map_iff in Hj; destruct Hj as (m & <- & Hm); cbn in S.
  - unfold shape_trait in S. bsplit. eapply (as_item_shape false).
    match goal with H : forallb shape_trait_member _ = true |- _ => exact (forallb_in _ _ _ H Hm) end.
  - unfold shape_impl in S. bsplit. eapply as_item_shape. eapply forallb_in; eauto.
  - unfold shape_extern_block in S. bsplit. eapply as_item_shape. eapply forallb_in; eauto.
Qed.

(** Macros: parentheses and then a [;], or braces. *)
Theorem C91_macro (ts rest : list tok) i m :
  consume_item ts = Ret (Ok i, rest) -> In (IMacro m) (declared i) ->
  p_char (ma_bang m) = "!"%char
  /\ ((gs_delim (ma_group m) = Parenthesis /\ exists p, ma_semicolon m = Some p /\ p_char p = ";"%char)
      \/ (gs_delim (ma_group m) = Brace /\ ma_semicolon m = None)).
Proof.
  intros H Hj. destruct (declared_shape _ _ _ _ H Hj) as [k S]. unfold shape_macro in S. bsplit.
  split; [apply Ascii.eqb_eq; auto|]. destruct (ma_semicolon m) as [p|]; bsplit.
  - left. split; [destruct (gs_delim (ma_group m)); try discriminate; auto|]. exists p. split; auto. apply Ascii.eqb_eq. auto.
  - right. split; auto. destruct (gs_delim (ma_group m)); try discriminate; auto.
Qed.
(** "Only set for [macro_rules!] declarations" is false: any name may be declared by any macro. *)
Theorem C91_declared_name_refuted : exists m d,
  parse_item (lex "foo! bar { }") = Ret (Ok (IMacro m)) /\ ma_declared m = Some d /\ id_str (ma_name m) <> "macro_rules".
Proof. eexists _, _. split; [vm_compute; reflexivity|]. split; [reflexivity|]. discriminate. Qed.

(** Constants: [mut] only for [static]; a value only behind [=], and never empty. *)
Theorem C91_constant (ts rest : list tok) i c :
  consume_item ts = Ret (Ok i, rest) -> In (IConstant c) (declared i) ->
  (id_str (co_kw c) = "const" /\ co_mut c = None \/ id_str (co_kw c) = "static")
  /\ (forall m, co_mut c = Some m -> id_str m = "mut")
  /\ (forall e, co_equals c = Some e -> p_char e = "="%char)
  /\ (forall v, co_init c = Some v -> co_equals c <> None /\ ve_tokens v <> []).
Proof.
  intros H Hj. pose proof (declared_shape _ _ _ _ H Hj) as S. cbn in S. unfold shape_constant in S. bsplit.
  match goal with H : _ || _ = true |- _ => apply orb_prop in H; rename H into K end.
  match goal with H : match co_equals c with _ => _ end = true |- _ => rename H into V end.
  unfold id_is, p_is in *. split; [|split; [|split]].
  - destruct K as [K|K]; bsplit; [left|right; apply String.eqb_eq; auto]. split; [apply String.eqb_eq; auto|].
    destruct (co_mut c); [discriminate|auto].
  - intros m Em. rewrite Em in K. destruct K as [K|K]; bsplit; [discriminate|]. apply String.eqb_eq. auto.
  - intros e Ee. rewrite Ee in V. apply Ascii.eqb_eq. destruct (co_init c); bsplit; auto.
  - intros v Ev. rewrite Ev in V. destruct (co_equals c); [|discriminate]. bsplit. split; [discriminate|].
    destruct (ve_tokens v); [discriminate|congruence].
Qed.
(** The [=] without a value is accepted as well: [tk_equals] does not say that there is a value. *)
Theorem C91_equals_refuted : exists c,
  parse_item (lex "const X: u8 = ;") = Ret (Ok (IConstant c)) /\ co_equals c <> None /\ co_init c = None.
Proof. eexists. split; [vm_compute; reflexivity|]. split; [discriminate|reflexivity]. Qed.

(** Type aliases: a type exactly behind [=]. *)
Theorem C91_type_alias (ts rest : list tok) i t :
  consume_item ts = Ret (Ok i, rest) -> In (ITypeAlias t) (declared i) ->
  id_str (ta_type t) = "type" /\ (ta_equals t = None <-> ta_init t = None)
  /\ (forall e, ta_equals t = Some e -> p_char e = "="%char) /\ p_char (ta_semicolon t) = ";"%char.
Proof.
  intros H Hj. pose proof (declared_shape _ _ _ _ H Hj) as S. cbn in S. unfold wf_type_alias in S. bsplit.
  repeat split; try (apply String.eqb_eq; assumption); try (apply Ascii.eqb_eq; assumption).
  - intro E. rewrite E in *. destruct (ta_init t); [discriminate|auto].
  - intro E. rewrite E in *. destruct (ta_equals t); [discriminate|auto].
  - intros e E. rewrite E in *. destruct (ta_init t); [|discriminate]. bsplit. apply Ascii.eqb_eq. auto.
Qed.

(** Parameters: a receiver is [self] behind [&], a lifetime and [mut], each optional; a typed
    parameter is not named [self]. *)
Theorem C91_params (ts rest : list tok) i f p :
  consume_item ts = Ret (Ok i, rest) -> In (IFunction f) (declared i) -> In p (pu_items (fn_params f)) ->
  match p with
  | FPReceiver r => id_str (fr_self r) = "self" /\ (forall x, fr_ref r = Some x -> p_char x = "&"%char)
      /\ (forall l, fr_lifetime r = Some l -> p_char (lt_apostrophe l) = "'"%char)
      /\ (forall m, fr_mut r = Some m -> id_str m = "mut")
  | FPTyped t => id_str (ft_name t) <> "self" /\ p_char (ft_colon t) = ":"%char /\ te_tokens (ft_ty t) <> []
      /\ (forall m, ft_mut t = Some m -> id_str m = "mut")
  end.
Proof.
  intros H Hj Hp. pose proof (declared_shape _ _ _ _ H Hj) as S. cbn in S. unfold wf_function in S. bsplit.
  assert (W : exists b, wf_fn_param b p = true).
  { match goal with H : wf_punctuated wf_fn_param _ = true |- _ => rename H into K end. clear - K Hp.
    unfold wf_punctuated, pu_items in *. induction (pu_inner (fn_params f)) as [|[x c] l IH]; [contradiction|].
    destruct Hp as [<-|Hp]; destruct l as [|[y q] l]; cbn [wf_inner] in K; bsplit; try contradiction; eauto. }
  destruct W as [b W]. destruct p as [r|t]; cbn in W; bsplit; unfold p_is, id_is in *.
  - repeat split; try (apply String.eqb_eq; assumption).
    + intros x E. rewrite E in *. apply Ascii.eqb_eq. auto.
    + intros l E. rewrite E in *. apply Ascii.eqb_eq. auto.
    + intros m E. rewrite E in *. apply String.eqb_eq. auto.
  - repeat split; try (apply Ascii.eqb_eq; assumption).
    + apply String.eqb_neq. destruct (String.eqb (id_str (ft_name t)) "self"); auto.
    + unfold wf_field_ty in *. bsplit. destruct (te_tokens (ft_ty t)); [discriminate|congruence].
    + intros m E. rewrite E in *. apply String.eqb_eq. auto.
Qed.
(** "Reference lifetimes are not yet supported" is false, and a lifetime needs no [&]. *)
Theorem C91_receiver_refuted : exists f g r s,
  parse_item (lex "fn f(&'a self);") = Ret (Ok (IFunction f)) /\ pu_items (fn_params f) = [FPReceiver r]
  /\ fr_ref r <> None /\ fr_lifetime r <> None
  /\ parse_item (lex "fn f('a self);") = Ret (Ok (IFunction g)) /\ pu_items (fn_params g) = [FPReceiver s]
  /\ fr_ref s = None /\ fr_lifetime s <> None.
Proof.
  eexists _, _, _, _. split; [vm_compute; reflexivity|]. split; [reflexivity|]. split; [discriminate|]. split; [discriminate|].
  split; [vm_compute; reflexivity|]. split; [reflexivity|]. split; [reflexivity|discriminate].
Qed.

(** Paths: the separator is only omitted for the leading segment. *)
Theorem C91_path_separators (t : type_expr) (p : path) a s b :
  as_path t = Ret (Some p) -> pa_segments p = a ++ s :: b -> a <> [] -> ps_colons s <> None.
Proof.
  intros H Hs Ha. apply C44_as_path_iff in H. destruct H as [W _]. unfold wf_path in W. rewrite Hs in W.
  destruct a as [|x a]; [congruence|]. cbn [app] in W. bsplit.
  match goal with H : forallb _ (a ++ s :: b) = true |- _ => rewrite forallb_app in H; cbn [forallb] in H end.
  bsplit. match goal with H : wf_segment false s = true |- _ => unfold wf_segment in H end.
  destruct (ps_colons s); [discriminate|]. discriminate.
Qed.

Example C91_example :
  match consume_item (lex "mod m { impl A { const C: u8 = 1 + 2; m!(a); fn f(&'a mut self, mut b: B) {} } static X: u8; macro_rules! n { } }") with
  | Ret (Ok i, []) => List.length (declared i) = 7%nat
      /\ flat_map (fun j => match j with IMacro m => [is_some (ma_semicolon m)] | _ => [] end) (declared i) = [true; false]
      /\ flat_map (fun j => match j with IConstant c => [is_some (co_init c)] | _ => [] end) (declared i) = [true; false]
  | _ => False
  end.
Proof. vm_compute. auto. Qed.
Example C91_example_path : exists p a s b, as_path (mkTypeExpr (lex "::a::B<C>::d")) = Ret (Some p)
  /\ pa_segments p = a ++ s :: b /\ List.length a = 1 /\ List.length b = 1 /\ ps_colons s <> None.
Proof.
  eexists. eexists [_], _, [_]. split; [vm_compute; reflexivity|]. split; [reflexivity|]. repeat split. discriminate.
Qed.

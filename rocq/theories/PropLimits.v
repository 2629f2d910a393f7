(** C19-C25, C29: documented or expected behaviour that the parser does not have, with the
    general statement of what it does instead. *)
From Verif Require Import Unfold Samples Edit ScanSpec PropScan PropRoundTrip PropShape.
Local Open Scope string_scope.
Local Open Scope list_scope.

(** Some text without spans, to compare with [lex]. *)
Definition texts (ts : list tok) : list string :=
  map (fun t => match t with
                | TIdent i => id_str i
                | TPunct p => String (p_char p) ""
                | TLit l => l_repr l
                | TGroup _ => "(..)"
                end) ts.
Definition first_tuple_field (i : item) : option tuple_field :=
  match i with
  | IStruct s => match st_fields s with
                 | FTuple f => match pu_items (tfs_fields f) with x :: _ => Some x | [] => None end
                 | _ => None
                 end
  | _ => None
  end.

(** ** C19: [crate::Foo] as a tuple field *)
Theorem C19_crate_path_refuted : exists i f,
  parse_item (lex "struct S(crate::Foo);") = Ret (Ok i) /\ first_tuple_field i = Some f
  /\ texts (print_opt print_vis (tf_vis f)) = ["crate"] /\ texts (te_tokens (tf_ty f)) = [":"; ":"; "Foo"].
Proof. eexists. eexists. vm_compute. auto. Qed.
(** A leading [crate] is always taken for a visibility: no private tuple field has a type that
    starts with [crate] (or [pub]). *)
Definition tuple_fields_of (f : fields) : list tuple_field :=
  match f with FTuple f => pu_items (tfs_fields f) | _ => [] end.
Definition own_tuple_fields (i : item) : list tuple_field :=
  match i with
  | IStruct s => tuple_fields_of (st_fields s)
  | IEnum e => flat_map (fun v => tuple_fields_of (ev_fields v)) (pu_items (en_variants e))
  | _ => []
  end.
Lemma tuple_fields_of_wf f x : wf_fields f = true -> In x (tuple_fields_of f) -> exists b, wf_tuple_field b x = true.
Proof.
  destruct f as [|f|f]; simpl; try contradiction. unfold wf_tuple_fields, wf_punctuated. intros H Hx. bsplit.
  eapply wf_inner_in; eauto.
Qed.
Lemma own_tuple_fields_wf i x : shape_item i = true -> In x (own_tuple_fields i) -> exists b, wf_tuple_field b x = true.
Proof.
  destruct i; simpl; try contradiction; intros Hw Hx.
  - unfold shape_struct in Hw. bsplit. eapply tuple_fields_of_wf; eauto.
  - unfold wf_enum, wf_punctuated in Hw. bsplit. apply in_flat_map in Hx. destruct Hx as (v & Hv & Hx).
    match goal with H : wf_inner wf_variant _ _ = true |- _ => destruct (wf_inner_in _ _ _ _ H Hv) as [c Hc] end.
    unfold wf_variant in Hc. bsplit. eapply tuple_fields_of_wf; eauto.
Qed.
Theorem C19_no_private_crate_type (ts rest : list tok) i j f :
  consume_item ts = Ret (Ok i, rest) -> In j (all_items i) -> In f (own_tuple_fields j) -> tf_vis f = None ->
  match te_tokens (tf_ty f) with TIdent k :: _ => id_str k <> "crate" /\ id_str k <> "pub" | _ => True end.
Proof.
  intros H Hj Hf Hn. destruct (own_tuple_fields_wf _ _ (parsed_shape _ _ _ _ H Hj) Hf) as [b Hb].
  unfold wf_tuple_field in Hb. bsplit. rewrite Hn in *. destruct (te_tokens (tf_ty f)) as [|[g|k|p|l] r]; auto.
  match goal with H : prefix_ok None _ = true |- _ => rename H into Hp end. unfold prefix_ok in Hp.
  apply andb_prop in Hp. destruct Hp as [Hp N2]. apply andb_prop in Hp. destruct Hp as [_ N1].
  apply negb_true_iff in N1, N2. simpl in N1, N2. unfold id_is in N1, N2. split; apply String.eqb_neq; auto.
Qed.
(** And it is accepted whatever follows: the field [crate r] has visibility [crate] and type [r]. *)
Theorem C19_crate_is_visibility (kw name k : ident) (semi : punct) sp (r rest : list tok) :
  id_str kw = "struct" -> id_str k = "crate" -> p_char semi = ";"%char -> r <> [] -> run_any end_comma r = true ->
  exists i f, consume_item (TIdent kw :: TIdent name :: TGroup (mkGroup Parenthesis (TIdent k :: r) sp) :: TPunct semi :: rest)
              = Ret (Ok i, rest)
  /\ first_tuple_field i = Some f /\ tf_vis f = Some (mkVis (TIdent k) None) /\ te_tokens (tf_ty f) = r.
Proof.
  intros H1 H2 H3 H4 H5.
  set (f := mkTupleField [] (Some (mkVis (TIdent k) None)) (mkTypeExpr r)).
  set (i := IStruct (mkStruct [] None kw name None None
         (FTuple (mkTupleFields (mkPunctuated [(f, punct_new "," Alone)] true) (mkGroupSpan Parenthesis sp))) (Some semi))).
  exists i, f. split; [|auto].
  assert (Hr : nonempty r = true) by (destruct r; [congruence|reflexivity]).
  assert (E : wf_item i = true).
  { unfold wf_item, i, f. cbn -[run_any]. unfold wf_tuple_field, wf_field_ty, id_is, p_is, wf_vis, prefix_ok, id_is. cbn -[run_any].
    unfold shape_struct, wf_fields, wf_tuple_fields, wf_punctuated, wf_tuple_field, wf_field_ty. cbn -[run_any].
    unfold wf_vis, prefix_ok, id_is, p_is. cbn -[run_any]. rewrite H1, H2, H3, Hr, H5. reflexivity. }
  pose proof (C01_print_consume i rest E eq_refl) as C. rewrite <- C. f_equal. simpl. unfold print_punctuated, print_tuple_field. simpl. rewrite ?app_nil_r. reflexivity.
Qed.
Example C19_example : run_any end_comma (lex "::Foo<A, B>") = true.
Proof. reflexivity. Qed.

(** ** C20: [pub (A, B)] as a tuple field *)
Theorem C20_pub_tuple_refuted : panic_of (parse_item (lex "struct S(pub (A, B));")) = Some PTypeMissing.
Proof. vm_compute. reflexivity. Qed.
(** The parenthesised type is always taken for the scope of the visibility. *)
Theorem C20_pub_tuple_panics (kw name k : ident) s sp sp' (r rest : list tok) :
  id_str kw = "struct" -> id_str k = "pub" -> r = [] \/ head_is (is_punct ",") r = true ->
  exists p, consume_item (TIdent kw :: TIdent name
    :: TGroup (mkGroup Parenthesis (TIdent k :: TGroup (mkGroup Parenthesis s sp) :: r) sp') :: rest) = Panic p.
Proof.
  intros H1 H2 H3. rewrite consume_item_unfold. unfold consume_item_body.
  destruct kw as [kw ksp], k as [k ksp']. simpl in H1, H2. subst kw k.
  destruct H3 as [->|H3]; [eexists; reflexivity|].
  destruct r as [|[g|i|p|l] r]; try discriminate. simpl in H3. destruct p as [c x y]. unfold p_is in H3. simpl in H3.
  apply Ascii.eqb_eq in H3. subst c. eexists. reflexivity.
Qed.
Example C20_example :
  exists kw name k s sp r sp' rest, lex "struct S(pub (A, B), C);" = TIdent kw :: TIdent name
    :: TGroup (mkGroup Parenthesis (TIdent k :: TGroup (mkGroup Parenthesis s sp) :: r) sp') :: rest
    /\ id_str kw = "struct" /\ id_str k = "pub" /\ head_is (is_punct ",") r = true /\ List.length s = 3.
Proof. do 8 eexists. vm_compute. auto 10. Qed.

(** ** C21: [static mut] *)
Theorem C21_static_mut_refuted : panic_of (parse_item (lex "static mut X: u8 = 0;")) = Some (PExpectedPunct ":" "const/static" false).
Proof. vm_compute. reflexivity. Qed.
Theorem C21_static_mut_panics (kw m name : ident) (rest : list tok) :
  id_str kw = "static" -> id_str m = "mut" ->
  consume_item (TIdent kw :: TIdent m :: TIdent name :: rest) = Panic (PExpectedPunct ":" "const/static" false).
Proof.
  intros H1 H2. rewrite consume_item_unfold. unfold consume_item_body.
  destruct kw as [kw ksp], m as [m msp]. simpl in H1, H2. subst. reflexivity.
Qed.
Definition own_constants (i : item) : list constant :=
  match i with
  | IConstant c => [c]
  | ITrait t => flat_map (fun m => member_constants (impl_of_trait_member m)) (tr_items t)
  | IImpl i => flat_map member_constants (im_items i)
  | IExternBlock b => flat_map member_constants (eb_items b)
  | _ => []
  end.
Lemma own_constants_shape i c : shape_item i = true -> In c (own_constants i) -> shape_constant c = true.
Proof.
  assert (G : forall allow m, shape_impl_member allow m = true -> In c (member_constants m) -> shape_constant c = true).
  { intros allow m Hm Hc. destruct m; try contradiction. destruct Hc as [<-|[]]. simpl in Hm. bsplit. auto. }
  destruct i; simpl; intros Hw Hc; try contradiction.
  - unfold shape_trait in Hw. bsplit. apply in_flat_map in Hc. destruct Hc as (m & Hm & Hc).
    match goal with H : forallb _ _ = true |- _ => pose proof (forallb_in _ _ _ H Hm) as H' end.
    eapply (G false); eauto.
  - unfold shape_impl in Hw. bsplit. apply in_flat_map in Hc. destruct Hc as (m & Hm & Hc).
    match goal with H : forallb (shape_impl_member _) _ = true |- _ => pose proof (forallb_in _ _ _ H Hm) as H' end. eapply G; eauto.
  - destruct Hc as [<-|[]]. auto.
  - unfold shape_extern_block in Hw. bsplit. apply in_flat_map in Hc. destruct Hc as (m & Hm & Hc).
    match goal with H : forallb (shape_impl_member _) _ = true |- _ => pose proof (forallb_in _ _ _ H Hm) as H' end. eapply G; eauto.
Qed.
(** [tk_mut] is set only when the constant is named [mut]. *)
Theorem C21_mut_is_the_name (ts rest : list tok) i j c :
  consume_item ts = Ret (Ok i, rest) -> In j (all_items i) -> In c (own_constants j) ->
  (exists m, co_mut c = Some m) <-> id_str (co_name c) = "mut".
Proof.
  intros H Hj Hc. pose proof (own_constants_shape _ _ (parsed_shape _ _ _ _ H Hj) Hc) as Hw. clear -Hw.
  unfold shape_constant in Hw. bsplit.
  match goal with H : _ || _ = true |- _ => rename H into Hk end. apply orb_true_iff in Hk. destruct Hk as [Hk|Hk]; bsplit.
  - destruct (co_mut c); [discriminate|]. split; [intros [m Hm]; discriminate|]. intro E.
    unfold id_in, id_is in *. simpl in *. rewrite E in *. discriminate.
  - destruct (co_mut c) as [m|]; bsplit; split; eauto.
    + intros _. apply String.eqb_eq. auto.
    + intros [m Hm]; discriminate.
    + intro E. unfold id_is in *. rewrite E in *. discriminate.
Qed.
Example C21_example :
  match parse_item (lex "static mut: u8 = 0;") with
  | Ret (Ok (IConstant c)) => id_str (co_name c) = "mut" /\ co_mut c <> None
  | _ => False
  end.
Proof. vm_compute. split; [reflexivity|discriminate]. Qed.

(** ** C22: typed [self] *)
Theorem C22_typed_self_refuted : panic_of (parse_item (lex "fn f(self: Box<Self>) {}")) = Some (PExpectedIdent "fn param name" false).
Proof. vm_compute. reflexivity. Qed.
(** After any [self], with or without [&], a lifetime and [mut], a colon panics. *)
Theorem C22_typed_self_panics (kw name self : ident) amp lt m colon sp (r rest : list tok) :
  id_str kw = "fn" -> wf_opt (p_is "&") amp = true -> wf_opt wf_lifetime lt = true -> wf_opt (id_is "mut") m = true ->
  id_str self = "self" -> p_char colon = ":"%char ->
  consume_item (TIdent kw :: TIdent name
    :: TGroup (mkGroup Parenthesis (print_opt print_punct amp ++ print_opt print_lifetime lt ++ print_opt print_ident m
                                    ++ TIdent self :: TPunct colon :: r) sp) :: rest)
  = Panic (PExpectedIdent "fn param name" false).
Proof.
  intros H1 H2 H3 H4 H5 H6. rewrite consume_item_unfold. unfold consume_item_body.
  destruct kw as [kw ksp], self as [self ssp], colon as [colon cs csp]. simpl in H1, H5, H6. subst.
  assert (E : parse_fn_params (print_opt print_punct amp ++ print_opt print_lifetime lt ++ print_opt print_ident m
                  ++ TIdent (mkIdent "self" ssp) :: TPunct (mkPunct ":" cs csp) :: r) = Panic (PExpectedIdent "fn param name" false)).
  { destruct amp as [[? ? ?]|], lt as [[[? ? ?] ?]|], m as [[? ?]|]; unfold wf_lifetime, id_is, p_is in *; simpl in *;
      repeat match goal with H : Ascii.eqb _ _ = true |- _ => apply Ascii.eqb_eq in H | H : String.eqb _ _ = true |- _ => apply String.eqb_eq in H end;
      subst; reflexivity. }
  revert E. generalize (print_opt print_punct amp ++ print_opt print_lifetime lt ++ print_opt print_ident m
                  ++ TIdent (mkIdent "self" ssp) :: TPunct (mkPunct ":" cs csp) :: r). intros ps E.
  assert (F : consume_fn [] None (TIdent (mkIdent "fn" ksp) :: TIdent name :: TGroup (mkGroup Parenthesis ps sp) :: rest)
              = Panic (PExpectedIdent "fn param name" false)).
  { unfold consume_fn. cbn -[parse_fn_params consume_generic_params]. 
    change (consume_generic_params (TGroup (mkGroup Parenthesis ps sp) :: rest)) with (Ret (@None generic_param_list, TGroup (mkGroup Parenthesis ps sp) :: rest)).
    cbn -[parse_fn_params]. rewrite E. reflexivity. }
  match goal with |- (do (a, t) <- ?m ;; _) = _ => change m with (Ret (@nil attribute, TIdent (mkIdent "fn" ksp) :: TIdent name :: TGroup (mkGroup Parenthesis ps sp) :: rest)) end.
  cbn -[consume_fn]. rewrite F. reflexivity.
Qed.
Example C22_example : panic_of (parse_item (lex "fn f(&'a mut self: T)")) = Some (PExpectedIdent "fn param name" false).
Proof. vm_compute. reflexivity. Qed.

(** ** C23: paths on the left of a where predicate *)
Definition where_lefts (i : item) : list (list string) :=
  match i with
  | IStruct s => match st_where s with Some w => map (fun p => texts (wp_left p)) (pu_items (wc_items w)) | None => [] end
  | _ => []
  end.
Theorem C23_path_on_the_left_refuted :
  exists i, parse_item (lex "struct S<T>(T) where T::Item: X;") = Ret (Ok i) /\ where_lefts i = [["T"]].
Proof. eexists. vm_compute. auto. Qed.
(** All where clauses and generic parameter lists of an item (with its member functions). *)
Definition own_where (i : item) : list where_clause :=
  match i with
  | IStruct s => opt_list (st_where s) | IEnum e => opt_list (en_where e) | IUnion u => opt_list (un_where u)
  | ITrait t => opt_list (tr_where t) | IImpl i => opt_list (im_where i) | _ => []
  end ++ flat_map (fun f => opt_list (fn_where f)) (own_functions i).
Definition own_generics (i : item) : list generic_param_list :=
  match i with
  | IStruct s => opt_list (st_generics s) | IEnum e => opt_list (en_generics e) | IUnion u => opt_list (un_generics u)
  | ITrait t => opt_list (tr_generics t) | IImpl i => opt_list (im_generics i) | _ => []
  end ++ flat_map (fun f => opt_list (fn_generics f)) (own_functions i).
Lemma opt_list_wf {A} (f : A -> bool) o x : wf_opt f o = true -> In x (opt_list o) -> f x = true.
Proof. destruct o; simpl; [|contradiction]. intros H [<-|[]]. auto. Qed.
Lemma own_where_wf i w : shape_item i = true -> In w (own_where i) -> wf_where w = true.
Proof.
  intros Hw Hi. unfold own_where in Hi. apply in_app_or in Hi. destruct Hi as [Hi|Hi].
  - destruct i; simpl in *; try contradiction; (eapply opt_list_wf; [|exact Hi]);
      unfold shape_struct, wf_enum, wf_union, shape_trait, shape_impl in Hw; bsplit; auto.
  - apply in_flat_map in Hi. destruct Hi as (f & Hf & Hi). pose proof (own_functions_wf _ _ Hw Hf) as H.
    eapply opt_list_wf; [|exact Hi]. unfold wf_function in H. bsplit. auto.
Qed.
Lemma own_generics_wf i w : shape_item i = true -> In w (own_generics i) -> wf_generics w = true.
Proof.
  intros Hw Hi. unfold own_generics in Hi. apply in_app_or in Hi. destruct Hi as [Hi|Hi].
  - destruct i; simpl in *; try contradiction; (eapply opt_list_wf; [|exact Hi]);
      unfold shape_struct, wf_enum, wf_union, shape_trait, shape_impl in Hw; bsplit; auto.
  - apply in_flat_map in Hi. destruct Hi as (f & Hf & Hi). pose proof (own_functions_wf _ _ Hw Hf) as H.
    eapply opt_list_wf; [|exact Hi]. unfold wf_function in H. bsplit. auto.
Qed.
Lemma run_closed_no_end P ts a t b : run_closed P ts = true -> ts = a ++ t :: b -> ~ ends_run P a t.
Proof.
  unfold run_closed. intro H. destruct (scan P 0 false ts) as [[d dash]|] eqn:E; [|discriminate].
  apply scan_run in E. destruct E as [E _]. apply E.
Qed.
(** The left side never contains a colon outside of angle brackets, at any depth. *)
Theorem C23_left_has_no_colon (ts rest : list tok) i j w p a t b :
  consume_item ts = Ret (Ok i, rest) -> In j (all_items i) -> In w (own_where j) -> In p (pu_items (wc_items w)) ->
  wp_left p = a ++ t :: b -> top_level a -> is_punct ":" t = false.
Proof.
  intros H Hj Hw Hp El Ht. pose proof (own_where_wf _ _ (parsed_shape _ _ _ _ H Hj) Hw) as G.
  unfold wf_where, wf_punctuated in G. bsplit.
  match goal with H : wf_inner wf_where_predicate _ _ = true |- _ => destruct (wf_inner_in _ _ _ _ H Hp) as [c Hc] end.
  unfold wf_where_predicate in Hc. bsplit.
  match goal with H : run_closed _ (wp_left p) = true |- _ => pose proof (run_closed_no_end _ _ _ _ _ H El) as N end.
  destruct (is_punct ":" t) eqn:E; auto. exfalso. apply N. split; auto. right. split; auto.
  destruct t as [g|k|q|l]; try discriminate. simpl in *. unfold p_is in *. apply Ascii.eqb_eq in E. rewrite E. auto.
Qed.
Example C23_example : exists i, parse_item (lex "struct S<T>(T) where <T as A::B>: X, Vec<T::U>: Y;") = Ret (Ok i)
  /\ where_lefts i = [["<"; "T"; "as"; "A"; ":"; ":"; "B"; ">"]; ["Vec"; "<"; "T"; ":"; ":"; "U"; ">"]].
Proof. eexists. vm_compute. auto. Qed.

(** ** C24: arrows in the bounds of generic parameters *)
Theorem C24_arrow_in_bound_refuted :
  panic_of (parse_item (lex "struct S<F: Fn() -> T>(F);")) = Some PStructToken
  /\ (exists i, parse_item (lex "struct S<F>(F) where F: Fn() -> T;") = Ret (Ok i)).
Proof. split; [vm_compute; reflexivity|]. eexists. vm_compute. reflexivity. Qed.
(** No bound of a parsed generic parameter contains a ['>'] outside of angle brackets, so no
    arrow. *)
Theorem C24_no_arrow_in_bound (ts rest : list tok) i j g p bd a t b :
  consume_item ts = Ret (Ok i, rest) -> In j (all_items i) -> In g (own_generics j) -> In p (pu_items (gpl_params g)) ->
  gp_bound p = Some bd -> gb_tokens bd = a ++ t :: b -> top_level a -> is_punct ">" t = false.
Proof.
  intros H Hj Hw Hp Hb El Ht. pose proof (own_generics_wf _ _ (parsed_shape _ _ _ _ H Hj) Hw) as G.
  unfold wf_generics, wf_punctuated in G. bsplit.
  match goal with H : wf_inner wf_generic_param _ _ = true |- _ => destruct (wf_inner_in _ _ _ _ H Hp) as [c Hc] end.
  unfold wf_generic_param in Hc. rewrite Hb in Hc. cbn [wf_opt] in Hc. unfold wf_bound in Hc. bsplit.
  match goal with H : run_closed _ (gb_tokens bd) = true |- _ => pose proof (run_closed_no_end _ _ _ _ _ H El) as N end.
  destruct (is_punct ">" t) eqn:E; auto. exfalso. apply N. split; auto. right. unfold end_param. rewrite E, orb_true_r.
  split; auto. destruct t as [g'|k|q|l]; try discriminate. simpl in *. unfold p_is in *. apply Ascii.eqb_eq in E. rewrite E. auto.
Qed.
Example C24_example : exists i, parse_item (lex "struct S<F: Fn(Fn() -> T) + A<B -> C>>(F);") = Ret (Ok i).
Proof. eexists. vm_compute. reflexivity. Qed.

(** ** C25: constants one after another *)
Theorem C25_separate_constants_refuted :
  exists i m, parse_item (lex "mod m { const A: bool = 1 < 2; const B: bool = 2 > 1; }") = Ret (Ok i)
  /\ as_module i = Some m /\ List.length (mo_members m) = 1.
Proof. eexists. eexists. vm_compute. auto. Qed.
(** They stay separate if types and initialisers have no angle brackets (and no [;], and the
    type no [=]): the initialisers are then read back exactly. *)
Record const_decl := mkDecl { cd_kw : ident; cd_name : ident; cd_colon : punct; cd_ty : list tok;
  cd_eq : punct; cd_value : list tok; cd_semi : punct }.
Definition decl_tokens (d : const_decl) : list tok :=
  TIdent (cd_kw d) :: TIdent (cd_name d) :: TPunct (cd_colon d) :: cd_ty d
  ++ TPunct (cd_eq d) :: cd_value d ++ [TPunct (cd_semi d)].
Definition decl_item (d : const_decl) : item :=
  IConstant (mkConstant [] None (cd_kw d) None (cd_name d) (cd_colon d) (mkTypeExpr (cd_ty d)) (Some (cd_eq d))
    (Some (mkValueExpr (cd_value d))) (cd_semi d)).
Definition free_of (l : list ascii) (ts : list tok) : Prop :=
  forall p, In (TPunct p) ts -> ~ In (p_char p) l.
Definition plain_decl (d : const_decl) : Prop :=
  (id_str (cd_kw d) = "const" \/ id_str (cd_kw d) = "static")
  /\ ~ In (id_str (cd_name d)) ["async"; "unsafe"; "extern"; "fn"; "mut"]
  /\ p_char (cd_colon d) = ":"%char /\ p_char (cd_eq d) = "="%char /\ p_char (cd_semi d) = ";"%char
  /\ free_of ["<"; ">"; ";"; "="]%char (cd_ty d) /\ free_of ["<"; ">"; ";"]%char (cd_value d) /\ cd_value d <> [].
Lemma free_punct l ts c t : free_of l ts -> In t ts -> In c l -> is_punct c t = false.
Proof.
  intros H Ht Hc. destruct t as [g|k|p|x]; auto. simpl. unfold p_is. apply Ascii.eqb_neq. intros E.
  apply (H p Ht). rewrite E. auto.
Qed.
Lemma plain_run P ts : (forall t, In t ts -> is_punct "<" t = false /\ is_punct ">" t = false /\ P t = false) ->
  run_closed P ts = true.
Proof.
  intro H. assert (G : forall dash, exists dash', scan P 0 dash ts = Some (0%Z, dash')).
  { induction ts as [|t ts IH]; intros dash; simpl; [eauto|]. destruct (H t) as (H1 & H2 & H3); [left; auto|].
    unfold stops, next_depth, opens, closes. rewrite H1, H2, H3. simpl. rewrite ?andb_false_r. apply IH.
    intros u Hu. apply H. right. auto. }
  unfold run_closed. destruct (G false) as [d ->]. reflexivity.
Qed.
Theorem C25_plain_constants (l : list const_decl) (rest : list tok) :
  Forall plain_decl l -> consumes (flat_map decl_tokens l ++ rest) (map decl_item l) rest.
Proof.
  intro H. assert (E : flat_map decl_tokens l = flat_map print_item (map decl_item l)).
  { clear. induction l as [|d l IH]; auto. simpl. rewrite IH. unfold decl_tokens. simpl. repeat rewrite <- app_assoc; simpl. reflexivity. }
  rewrite E. clear E. apply C15_sequence.
  - rewrite forallb_forall. intros i Hi. apply in_map_iff in Hi. destruct Hi as (d & <- & Hd).
    rewrite Forall_forall in H. destruct (H d Hd) as (H1 & H2 & H3 & H4 & H5 & H6 & H7 & H8). clear -H1 H2 H3 H4 H5 H6 H7 H8.
    destruct d as [kw name colon ty eq v semi]. cbn [cd_kw cd_name cd_colon cd_ty cd_eq cd_value cd_semi] in *.
    assert (E1 : run_closed end_const_ty ty = true).
    { apply plain_run. intros t Ht. unfold end_const_ty.
      rewrite !(free_punct _ _ _ _ H6 Ht) by (simpl; auto 6). auto. }
    assert (E2 : run_closed end_semicolon v = true).
    { apply plain_run. intros t Ht. unfold end_semicolon.
      rewrite !(free_punct _ _ _ _ H7 Ht) by (simpl; auto 6). auto. }
    assert (E3 : id_in ["async"; "unsafe"; "extern"; "fn"; "mut"] name = false).
    { apply not_true_iff_false. intro E. apply existsb_exists in E. destruct E as (s & Hs & E).
      unfold id_is in E. apply String.eqb_eq in E. subst. auto. }
    assert (E4 : id_is "mut" name = false).
    { simpl in E3. apply orb_false_iff in E3. destruct E3 as [_ E3]. destruct (id_is "mut" name); auto.
      rewrite ?orb_true_r in E3. discriminate. }
    assert (E5 : nonempty v = true) by (destruct v; [congruence|reflexivity]).
    unfold wf_item, decl_item. cbn [cd_kw cd_name cd_colon cd_ty cd_eq cd_value cd_semi shape_item stable_item].
    unfold shape_constant, stable_constant.
    cbn [co_attributes co_vis co_kw co_mut co_name co_colon co_ty co_equals co_init co_semicolon te_tokens ve_tokens wf_outer forallb wf_opt some].
    rewrite E1, E2, E3, E4, E5. unfold id_is, p_is. rewrite H3, H4, H5. destruct H1 as [-> | ->]; reflexivity.
  - clear H. induction l as [|d l IH]; simpl; auto.
Qed.
Example C25_example :
  match items_of 9 (lex "const A: bool = 1 == 2; static B: u8 = x - y;") with
  | [IConstant a; IConstant b] => texts (print_opt ve_tokens (co_init a)) = ["1"; "="; "="; "2"]
  | _ => False
  end.
Proof. vm_compute. auto. Qed.
Example C25_example_plain :
  match lex "const A: = ;" with
  | [TIdent k; TIdent n; TPunct c; TPunct e; TPunct s] => plain_decl (mkDecl k n c (lex "[bool; 2]") e (lex "[1 == 2, a | b]") s)
  | _ => False
  end.
Proof.
  cbn -[plain_decl]. unfold plain_decl, free_of. cbn. repeat split; auto; try discriminate; intros p; intuition (try discriminate); subst;
    repeat match goal with H : TPunct _ = TPunct _ |- _ => injection H as <- end; cbn in *; intuition discriminate.
Qed.

(** ** C29: [extern crate x as _] *)
Theorem C29_underscore_refuted : exists c,
  parse_item (lex "extern crate foo as _;") = Ret (Ok (IExternCrate c))
  /\ ec_underscore c = None /\ option_map id_str (ec_alias c) = Some "_".
Proof. eexists. vm_compute. auto. Qed.
(** The underscore token is never set; an alias comes with its [as]. *)
Theorem C29_extern_crate (ts rest : list tok) i j c :
  consume_item ts = Ret (Ok i, rest) -> In j (all_items i) -> j = IExternCrate c ->
  ec_underscore c = None /\ ((exists k, ec_as c = Some k) <-> (exists a, ec_alias c = Some a)).
Proof.
  intros H Hj ->. pose proof (parsed_shape _ _ _ _ H Hj) as Hw. clear -Hw. simpl in Hw. unfold wf_extern_crate in Hw.
  destruct (ec_underscore c); [rewrite !andb_false_r in Hw; discriminate|]. split; auto.
  destruct (ec_as c), (ec_alias c); try (rewrite !andb_false_r in Hw; discriminate); split; eauto; intros [? ?]; discriminate.
Qed.
Example C29_example : exists c, parse_item (lex "pub extern crate self as me;") = Ret (Ok (IExternCrate c))
  /\ option_map id_str (ec_alias c) = Some "me".
Proof. eexists. vm_compute. auto. Qed.

Print Assumptions C19_no_private_crate_type.
Print Assumptions C19_crate_is_visibility.
Print Assumptions C20_pub_tuple_panics.
Print Assumptions C21_static_mut_panics.
Print Assumptions C21_mut_is_the_name.
Print Assumptions C22_typed_self_panics.
Print Assumptions C23_left_has_no_colon.
Print Assumptions C24_no_arrow_in_bound.
Print Assumptions C25_plain_constants.
Print Assumptions C29_extern_crate.

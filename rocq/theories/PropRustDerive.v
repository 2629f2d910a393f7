(** C77: what the builders and a derive macro produce from Rust source stays Rust source. *)
From Verif Require Import RustSyntax PropRust Edit Unfold Samples ScanSpec PathSpec PropScan PropRoundTrip PropPath PropEdit PropDerive PropRustPath PropLimits.
Local Open Scope string_scope.
Local Open Scope list_scope.

(** ** More flags allow more *)
Definition flags_le (F G : flags) : Prop :=
  (fl_arrow F = true -> fl_arrow G = true) /\ (fl_for F = true -> fl_for G = true) /\ (fl_colons F = true -> fl_colons G = true).
Lemma flags_any F : flags_le F anywhere. Proof. repeat split. Qed.
Lemma rust_mono :
  (forall F ts, rust_type F ts -> forall G, flags_le F G -> rust_type G ts)
  /\ (forall F ts, rust_return F ts -> forall G, flags_le F G -> rust_return G ts)
  /\ (forall ts, rust_self ts -> rust_self ts)
  /\ (forall F ts, rust_path F ts -> forall G, flags_le F G -> rust_path G ts)
  /\ (forall F ts, rust_segment F ts -> forall G, flags_le F G -> rust_segment G ts)
  /\ (forall ts, rust_args ts -> rust_args ts)
  /\ (forall ts, rust_arg ts -> rust_arg ts)
  /\ (forall F ts, rust_bounds F ts -> forall G, flags_le F G -> rust_bounds G ts)
  /\ (forall F ts, rust_bound F ts -> forall G, flags_le F G -> rust_bound G ts).
Proof.
  apply rust_syntax_ind; intros; try match goal with H : flags_le _ _ |- _ => pose proof H as (? & ? & ?) end;
    try solve [econstructor; eauto].
  - apply ty_fn; auto. intuition.
  - apply seg_args; auto. intuition.
  - apply bound_trait; auto; intuition.
Qed.
Lemma path_anywhere F ts : rust_path F ts -> rust_path anywhere ts.
Proof. intro H. eapply rust_mono; eauto using flags_any. Qed.
Lemma declared_segment i : declared_name i -> segment_name i.
Proof. unfold declared_name, segment_name. intros H E. apply H, in_or_app. auto. Qed.

(** ** Lists *)
Definition new_comma : punct := mkPunct "," Alone call_site.
Lemma separated_last {A} skip (l : list (A * punct)) x : RustSyntax.separated skip l -> RustSyntax.separated true (l ++ [(x, new_comma)]).
Proof.
  induction l as [|[y c] l IH]; intro H; [reflexivity|]. destruct l as [|[z d] l].
  - cbn in H |- *. destruct skip; [subst c|]; repeat split; auto.
  - destruct H as [H1 H2]. change (mark "," c /\ RustSyntax.separated true (((z, d) :: l) ++ [(x, new_comma)])). auto.
Qed.
Lemma list_push {A} (X : A -> Prop) p x : rust_list X p -> X x -> rust_list X (pu_push p x None).
Proof.
  intros [H1 H2] Hx. destruct p as [l s]. split; cbn in *; [eapply separated_last; eauto|].
  apply Forall_app. auto.
Qed.
Lemma list_first {A} (X : A -> Prop) p x q : rust_list X p -> X x -> pu_insert p 0 x None = Ret q -> rust_list X q.
Proof.
  intros H Hx E. destruct p as [[|[y c] l] s].
  - unfold pu_insert in E. cbn in E. injection E as <-. apply (list_push X (mkPunctuated [] s)); auto.
  - cbn in E. injection E as <-. destruct H as [H1 H2]. split; cbn [pu_inner pu_skip_last] in *.
    + change (mark "," new_comma /\ RustSyntax.separated s ((y, c) :: l)). split; [reflexivity|auto].
    + apply Forall_cons; auto.
Qed.
Lemma generics_push g p o : if_some rust_generics g -> rust_generic_param p -> generics_with_param g p = Ret o -> if_some rust_generics o.
Proof.
  intros Hg Hp E. unfold generics_with_param in E. inv_bind E. injection E as <-. cbn [if_some].
  assert (H : rust_generics (match g with Some l => l | None => generic_params_default end)).
  { destruct g as [g|]; [exact Hg|]. repeat split; auto. constructor. }
  clear Hg. set (l := match g with Some l => l | None => generic_params_default end) in *. clearbody l. destruct H as (H1 & H2 & H3).
  unfold gpl_with_param in Hx. destruct (gp_is_lifetime p).
  - inv_bind Hx. injection Hx as <-. split; [|split]; auto. eapply list_first; eauto.
  - injection Hx as <-. split; [|split]; auto. apply list_push; auto.
Qed.
Lemma where_push w p : if_some rust_where w -> rust_predicate p -> if_some rust_where (where_with_predicate w p).
Proof.
  intros Hw Hp. destruct w as [w|]; cbn.
  - destruct Hw. split; auto. apply list_push; auto.
  - split; [reflexivity|]. apply list_push; auto. split; [reflexivity|constructor].
Qed.
(** ** C77 *)
(** Adding a Rust parameter or predicate to a Rust declaration gives a Rust declaration. *)
Theorem C77_with_param (i j : item) (p : generic_param) :
  rust_item i -> rust_generic_param p -> item_with_param i p = Some (Ret j) -> rust_item j.
Proof.
  intros Hi Hp E. destruct i; try discriminate; cbn in E; injection E as E; inv_bind E; injection E as <-; cbn [rust_item] in *.
  - unfold struct_with_param in Hx. inv_bind Hx. injection Hx as <-. unfold rust_struct in *. cbn in *. intuition. eapply generics_push; eauto.
  - unfold enum_with_param in Hx. inv_bind Hx. injection Hx as <-. unfold rust_enum in *. cbn in *. intuition. eapply generics_push; eauto.
  - unfold union_with_param in Hx. inv_bind Hx. injection Hx as <-. unfold rust_union in *. cbn in *. intuition. eapply generics_push; eauto.
Qed.
Theorem C77_with_where (i j : item) (p : where_predicate) :
  rust_item i -> rust_predicate p -> item_with_where i p = Some j -> rust_item j.
Proof.
  intros Hi Hp E. destruct i; try discriminate; cbn in E; injection E as <-; cbn [rust_item] in *;
    unfold rust_struct, rust_enum, rust_union in *; cbn -[where_with_predicate rust_where] in *; intuition auto using where_push.
Qed.
Definition rust_edit (e : edit) : Prop :=
  match e with EParam p => rust_generic_param p | EWhere p => rust_predicate p end.
Theorem C77_chains (i j : item) (l : list edit) :
  edited i l j -> rust_item i -> Forall rust_edit l -> rust_item j /\ parse_item (print_item j) = Ret (Ok j).
Proof.
  intros H Hi Hl. assert (rust_item j); [|auto using C74_rust_items].
  induction H; auto; inversion Hl; subst; apply IHedited; eauto using C77_with_param, C77_with_where.
Qed.
(** The constructors of parameters give Rust parameters. *)
Definition plain_name (s : string) : Prop := ~ In s (reserved ++ ["crate"; "self"; "Self"; "super"]).
Theorem C77_params (s : string) (b : list tok) : plain_name s ->
  rust_generic_param (gp_lifetime s) /\ rust_generic_param (gp_ty s)
  /\ (rust_bounds no_arrow b -> rust_generic_param (gp_bounded_lifetime s b) /\ rust_generic_param (gp_bounded_ty s b))
  /\ (rust_type no_arrow b -> rust_generic_param (gp_const_param s b)).
Proof.
  intro H. assert (L : lifetime_name (ident_new s)) by (right; apply declared_segment; exact H).
  assert (D : declared_name (ident_new s)) by exact H.
  split; [|split; [|split]].
  - split; [reflexivity|]. split; [exact L|exact I].
  - split; [exact D|exact I].
  - intro Hb. split; repeat split; auto.
  - intro Hb. split; [reflexivity|]. split; [exact D|]. eexists. split; [reflexivity|]. split; [reflexivity|exact Hb].
Qed.
(** [WhereClausePredicate::parse] reads a Rust predicate as such. *)
Theorem C77_predicate (l b : list tok) (c : punct) : rust_left l -> mark ":" c -> rust_bounds anywhere b ->
  where_predicate_parse (l ++ TPunct c :: b) = Ret (mkWherePredicate l (mkBound c b))
  /\ rust_predicate (mkWherePredicate l (mkBound c b)).
Proof.
  intros Hl Hc Hb. assert (P : rust_predicate (mkWherePredicate l (mkBound c b))) by (repeat split; auto). split; [|exact P].
  apply (predicate_wf true) in P. unfold wf_where_predicate in P. cbn [wp_left] in P. bsplit.
  unfold where_predicate_parse. rewrite until_term; auto; cbn [bind].
  - rewrite (mark_is _ _ Hc). reflexivity.
  - cbn. unfold term. cbn. unfold p_is. red in Hc. rewrite Hc. reflexivity.
Qed.

(** ** Generic arguments *)
Lemma param_arg p : rust_generic_param p ->
  rust_arg ((if gp_is_lifetime p then print_opt print_tok (gp_prefix p) else []) ++ [TIdent (gp_name p)]).
Proof.
  unfold rust_generic_param, gp_is_lifetime. destruct (gp_prefix p) as [[g|k|q|t]|]; try contradiction.
  - intros (_ & H & _). apply arg_type, type_name, declared_segment, H.
  - intros (H & H1 & _). rewrite (mark_is _ _ H). apply arg_lifetime, lifetime_is; auto.
  - intros (H & _). apply arg_type, type_name, declared_segment, H.
Qed.
(** [Name<'a, T, N,>], as [InlineGenericArgs] prints it, is a Rust path. *)
Theorem C77_inline_args (F : flags) (n : ident) (g : generic_param_list) : segment_name n -> rust_generics g ->
  rust_type F (TIdent n :: print_inline_args g).
Proof.
  intros Hn (_ & [_ H] & _). apply ty_path, path_one. unfold print_inline_args.
  apply (seg_args F n []); auto; try reflexivity. induction H as [|[p c] l Hp _ IH]; [constructor|].
  cbn [flat_map fst]. rewrite (app_assoc _ [TIdent (gp_name p)] [TPunct (punct_new "," Alone)] : _ ++ [TIdent (gp_name p); _] = _).
  rewrite <- app_assoc. apply args_cons; auto; [|reflexivity]. apply param_arg, Hp.
Qed.
(** And so are the arguments of [to_owned_args]. *)
Theorem C77_owned_args (F : flags) (n : ident) (g : generic_param_list) : segment_name n -> rust_generics g ->
  exists a, to_owned_args g = Ret a /\ rust_type F (TIdent n :: print_generic_args a).
Proof.
  intros Hn (Hl & [Hs H] & Hr). unfold to_owned_args.
  assert (A : exists l, owned_args (pu_inner (gpl_params g)) = Ret l
    /\ rust_args (print_punctuated print_generic_arg (mkPunctuated l (pu_skip_last (gpl_params g))))).
  { destruct (gpl_params g) as [l skip]. cbn [pu_inner pu_skip_last] in *. clear Hl Hr. induction H as [|[p c] l Hp _ IH].
    - exists []. split; [reflexivity|]. constructor.
    - assert (O : exists a, owned_arg p = Ret a /\ rust_arg (print_generic_arg a)).
      { cbn [fst] in Hp. unfold rust_generic_param in Hp. unfold owned_arg. destruct (gp_prefix p) as [[g'|k|q|t]|]; try contradiction.
        - destruct Hp as (H & H1 & _). rewrite (word_is _ _ H). eexists. split; [reflexivity|]. apply arg_type, type_name, declared_segment, H1.
        - destruct Hp as (H & H1 & _). rewrite (mark_is _ _ H). eexists. split; [reflexivity|]. apply arg_lifetime, lifetime_is; auto.
        - destruct Hp as (H & _). eexists. split; [reflexivity|]. apply arg_type, type_name, declared_segment, H. }
      destruct O as (a & Ea & Ra). cbn [owned_args]. rewrite Ea. cbn [bind]. destruct l as [|[p' c'] l].
      + exists [(a, c)]. split; [reflexivity|]. unfold print_punctuated. cbn in Hs |- *. destruct skip; cbn.
        * rewrite app_nil_r. apply args_one, Ra.
        * apply (args_cons _ c []); auto. constructor.
      + destruct Hs as [Hc Hs]. destruct (IH Hs) as (l' & E & R). rewrite E. cbn [bind]. exists ((a, c) :: l'). split; [reflexivity|].
        assert (N : l' <> []) by (intros ->; cbn in E; inv_bind E; inv_bind E; discriminate).
        destruct l' as [|x l']; [contradiction|]. change (rust_args (print_generic_arg a ++ TPunct c :: print_punctuated print_generic_arg (mkPunctuated (x :: l') skip))).
        apply args_cons; auto. }
  destruct A as (l & -> & R). cbn [bind]. eexists. split; [reflexivity|].
  apply ty_path, path_one. unfold print_generic_args. cbn. apply (seg_args F n []); auto.
Qed.

(** ** The derive pipeline *)
(** The path of the derived trait, [a::Tr<..>] or [::a::Tr<..>], without [for] at top level. *)
Definition trait_path (ts : list tok) : Prop :=
  rust_path no_for ts \/ exists s r, separator s /\ rust_path no_for r /\ ts = s ++ r.
Lemma trait_bounds ts : trait_path ts -> rust_bounds anywhere ts.
Proof.
  intro H. apply bounds_one. destruct H as [H|(s & r & Hs & H & ->)].
  - apply (bound_trait _ [] []); auto. eapply path_anywhere; eauto.
  - apply (bound_trait _ [] s); auto. eapply path_anywhere; eauto.
Qed.
Lemma trait_type ts : trait_path ts -> rust_type no_for ts.
Proof. intros [H|(s & r & Hs & H & ->)]; [apply ty_path, H|apply ty_global; auto]. Qed.
Lemma trait_start ts : trait_path ts -> ~ starts (fun t => exists p, t = TPunct p /\ mark "<" p) ts.
Proof.
  intros H. assert (A : exists t r, ts = t :: r /\ is_punct "<" t = false).
  { destruct H as [H|(s & r & (p & q & Hp & _ & ->) & _ & ->)].
    - apply path_head in H. destruct H as (i & r & ->). eexists _, _. split; reflexivity.
    - eexists _, _. split; [reflexivity|]. apply (mark_not ":"); auto. discriminate. }
  destruct A as (t & r & -> & A). intros (p & -> & Hp). cbn in A. rewrite (mark_is _ _ Hp) in A. discriminate.
Qed.
Lemma generics_rust i tr w : rust_item i -> item_derive_where i tr = Some w ->
  if_some rust_generics (item_generic_params i) /\ if_some rust_where (item_where i) /\ w = derive_where (item_generic_params i) (item_where i) tr.
Proof.
  intros H E. destruct i; try discriminate; injection E as <-; cbn in *; unfold rust_struct, rust_enum, rust_union in H; intuition.
Qed.
(** The where clause of [create_derive_where_clause]. *)
Theorem C77_derive_where (i : item) (tr : list tok) (w : where_clause) :
  rust_item i -> rust_bounds anywhere tr -> item_derive_where i tr = Some w -> rust_where w.
Proof.
  intros Hi Ht E. destruct (generics_rust i tr w Hi E) as (Hg & Hw & ->). unfold derive_where.
  assert (T : Forall declared_name (map gp_name (type_params (item_generic_params i)))).
  { unfold type_params, generics_params. destruct (item_generic_params i) as [g|]; [|constructor]. cbn in Hg. destruct Hg as (_ & [_ H] & _).
    induction H as [|[p c] l Hp _ IH]; [constructor|]. cbn [map fst filter]. unfold gp_is_ty at 1. cbn [fst] in Hp. unfold rust_generic_param in Hp.
    destruct (gp_prefix p); cbn; auto. constructor; [apply Hp|exact IH]. }
  assert (W : rust_where (match item_where i with Some w => w | None => where_default end)).
  { destruct (item_where i); [exact Hw|]. split; [reflexivity|]. split; [reflexivity|constructor]. }
  revert T W. generalize (match item_where i with Some w => w | None => where_default end). induction (type_params (item_generic_params i)) as [|p l IH]; intros w T W; auto.
  cbn [fold_left]. inversion T; subst. apply IH; auto. apply (where_push (Some w)); auto. split.
  - right. exists [], [TIdent (gp_name p)]. split; auto. split; [apply type_name, declared_segment; auto|reflexivity].
  - split; [reflexivity|exact Ht].
Qed.
(** What a derive macro builds from a Rust declaration, a Rust trait and Rust members with the
    accessors of the crate is a Rust impl; so it parses. *)
Theorem C77_derive (i : item) (n : ident) (tr : list tok) (w : where_clause) (ms : list impl_member) :
  rust_item i -> declared_name n -> trait_path tr -> item_derive_where i tr = Some w -> Forall (rust_member false) ms ->
  exists J, derive_stream i n w tr ms = print_item (IImpl J) /\ rust_item (IImpl J) /\ im_trait J = Some (mkTypeExpr tr) /\ im_items J = ms
    /\ parse_item (derive_stream i n w tr ms) = Ret (Ok (IImpl J)).
Proof.
  intros Hi Hn Ht Hw Hm.
  set (J := mkImpl [] None (mkIdent "impl" call_site) (item_generic_params i) (Some (mkTypeExpr tr)) (Some (mkIdent "for" call_site))
    (mkTypeExpr (TIdent n :: inline_args_of i)) (Some w) (mkGroupSpan Brace call_site) [] ms).
  assert (P : derive_stream i n w tr ms = print_item (IImpl J)) by reflexivity.
  destruct (generics_rust i tr w Hi Hw) as (Hg & _ & _).
  assert (R : rust_item (IImpl J)).
  { cbn [rust_item]. unfold rust_impl, rust_outer. subst J. cbn -[rust_generics rust_where rust_member]. split; [constructor|]. split; [exact I|]. split; [reflexivity|].
    split; [exact Hg|]. split; [|split; [eapply C77_derive_where; eauto using trait_bounds|]; split; [reflexivity|]; split; [constructor|exact Hm]].
    split; [reflexivity|]. split; [|split; [exists [], tr; eauto using trait_type|intros _; apply trait_start, Ht]].
    unfold inline_args_of. destruct (item_generic_params i) as [g|]; [|apply type_name, declared_segment, Hn].
    apply C77_inline_args; [apply declared_segment, Hn|exact Hg]. }
  exists J. do 4 (split; [auto|]). rewrite P. apply C74_rust_items, R.
Qed.
(** The hypotheses hold of: *)
Example C77_example :
  let i := item_of pair_text in let tr := lex "::core::Tr<u8>" in
  let ms := match item_of imp_text with IImpl j => im_items j | _ => [] end in
  rust_item i /\ trait_path tr /\ Forall (rust_member false) ms /\ List.length ms = 4
  /\ match item_derive_where i tr, item_name i with
     | Some w, Some n => declared_name n /\ texts (derive_stream i n w tr [])
         = texts (lex "impl<'a, T: Clone + 'a, const N: usize> ::core::Tr<u8> for Pair<'a, T, N,> where for<'b> &'b T: Fn(&'b T) -> u8 + Tr<Out = u8>, T: ::core::Tr<u8> { }")
     | _, _ => False
     end.
Proof.
  cbv zeta. split; [exact pair_item|]. split; [|split; [|split; [vm_compute; reflexivity|]]].
  - right. set (tr := lex "::core::Tr<u8>"). vm_compute in tr. subst tr.
    match goal with |- exists s r, _ /\ _ /\ ?a :: ?b :: ?l = _ => exists [a; b], l end.
    split; [apply separator_is; reflexivity|]. split; [|reflexivity].
    apply (path_more _ [_] [_; _] [_; _; _; _]); [reflexivity|apply seg_name; names|apply separator_is; reflexivity|].
    apply path_one, (seg_args _ _ [] _ [_] _); auto; try reflexivity; [names|]. apply args_one, arg_type, type_name. names.
  - pose proof imp_item as H. destruct (item_of imp_text); try constructor. apply H.
  - set (o := item_derive_where _ _). set (u := item_name _). vm_compute in o, u. subst o u. cbv iota.
    split; [cbv; intuition discriminate|vm_compute; reflexivity].
Qed.

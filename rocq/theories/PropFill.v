(** C106: exactly which token runs may take the place of a type, a bound, a value or a use tree. *)
From Coq Require Import Btauto.
From Verif Require Import RustSyntax Debug PrintSpells Complete3 Sound2 Unfold Samples ScanSpec PropScan PropRoundTrip PropErr PropMore PropLimits PropRust PropSubst PropRename.
Local Open Scope string_scope.
Local Open Scope list_scope.

(** Where a run of tokens is kept as it is.  [comma]: is a comma printed after it? *)
Inductive before := BNothing | BPub | BOther.  (* the visibility of a tuple field: none, a bare [pub], another one *)
Inductive place :=
| PType (comma : bool)                 (* the type of a named field or of a parameter *)
| PTuple (v : before) (comma : bool)   (* the type of a tuple field *)
| PParam                               (* the bound of a generic parameter *)
| PLeft | PWhere                       (* the two sides of a where predicate *)
| PReturn | PConst | PValue            (* the result of a function, the type and the value of a constant *)
| PAliasBound | PAlias | PUse | PSuper (* the bound and the type of an alias, a use tree, the supertraits *)
| PTrait (generics : bool)             (* the trait of an impl; does the impl have generics? *)
| PSelf                                (* the self type of an impl of a trait *)
| PInherent (generics : bool).         (* the self type of an impl without a trait *)

(** The tokens that end the run, outside of angle brackets. *)
Definition marks (p : place) : list ascii :=
  match p with
  | PType _ | PTuple _ _ => [","]
  | PParam => [","; ">"]
  | PLeft => [":"]
  | PWhere => [","; ";"]
  | PConst | PAliasBound => ["="; ";"]
  | PReturn | PValue | PAlias | PUse => [";"]
  | PSuper | PTrait _ | PSelf | PInherent _ => []
  end%char.
Definition words (p : place) : list string :=
  match p with
  | PReturn | PSuper | PSelf => ["where"]
  | PTrait _ | PInherent _ => ["for"; "where"]
  | _ => []
  end.
Definition at_brace (p : place) : bool :=
  match p with PWhere | PReturn | PSuper | PTrait _ | PSelf | PInherent _ => true | _ => false end.
Definition ends (p : place) (t : tok) : bool :=
  match t with
  | TPunct q => existsb (fun c => p_is c q) (marks p)
  | TIdent i => existsb (fun s => String.eqb (id_str i) s) (words p)
  | TGroup g => at_brace p && delim_eqb (g_delim g) Brace
  | TLit _ => false
  end.
(** The tokens that cannot come first. *)
Definition bad_start (p : place) (t : tok) : bool :=
  match p with
  | PTuple BNothing _ => is_punct "#" t || is_ident "pub" t || is_ident "crate" t
  | PTuple BPub _ => is_group Parenthesis t
  | PLeft => is_group Brace t || is_punct ";" t
  | PTrait false | PInherent false => is_punct "<" t
  | _ => false
  end.
Definition never_empty (p : place) : bool := match p with PType _ | PTuple _ _ | PValue => true | _ => false end.
(** At the end of a list brackets may be left open. *)
Definition may_be_open (p : place) : bool := match p with PType false | PTuple _ false => true | _ => false end.
(** [ts] may stand at the place [p]. *)
Definition fits (p : place) (ts : list tok) : Prop :=
  (forall a t b, ts = a ++ t :: b -> ~ ends_run (ends p) a t)
  /\ (may_be_open p = false -> top_level ts)
  /\ (never_empty p = true -> ts <> [])
  /\ (forall t r, ts = t :: r -> bad_start p t = false).

Definition before_of (v : option vis_marker) : before :=
  match v with
  | None => BNothing
  | Some (mkVis (TIdent i) None) => if String.eqb (id_str i) "pub" then BPub else BOther
  | Some _ => BOther
  end.

Section Fill.
(** What takes the place of a run. *)
Variable f : place -> list tok -> list tok.

Definition fill_type (p : place) (t : type_expr) : type_expr := mkTypeExpr (f p (te_tokens t)).
Definition fill_bound (p : place) (b : generic_bound) : generic_bound := mkBound (gb_colon b) (f p (gb_tokens b)).
(** Is a comma printed after the last element? *)
Fixpoint fill_inner {A} (g : bool -> A -> A) (skip_last : bool) (l : list (A * punct)) : list (A * punct) :=
  match l with
  | [] => []
  | [(x, c)] => [(g (negb skip_last) x, c)]
  | (x, c) :: r => (g true x, c) :: fill_inner g skip_last r
  end.
Definition fill_pu {A} (g : bool -> A -> A) (p : punctuated A) : punctuated A :=
  mkPunctuated (fill_inner g (pu_skip_last p) (pu_inner p)) (pu_skip_last p).
Definition fill_gparam (_ : bool) (p : generic_param) : generic_param :=
  mkGenericParam (gp_prefix p) (gp_name p) (option_map (fill_bound PParam) (gp_bound p)).
Definition fill_generics (g : option generic_param_list) : option generic_param_list :=
  option_map (fun g => mkGenericParamList (gpl_l g) (fill_pu fill_gparam (gpl_params g)) (gpl_r g)) g.
Definition fill_pred (_ : bool) (w : where_predicate) : where_predicate :=
  mkWherePredicate (f PLeft (wp_left w)) (fill_bound PWhere (wp_bound w)).
Definition fill_where (w : option where_clause) : option where_clause :=
  option_map (fun w => mkWhereClause (wc_where w) (fill_pu fill_pred (wc_items w))) w.
Definition fill_tfield (c : bool) (x : tuple_field) : tuple_field :=
  mkTupleField (tf_attributes x) (tf_vis x) (fill_type (PTuple (before_of (tf_vis x)) c) (tf_ty x)).
Definition fill_nfield (c : bool) (x : named_field) : named_field :=
  mkNamedField (nf_attributes x) (nf_vis x) (nf_name x) (nf_colon x) (fill_type (PType c) (nf_ty x)).
Definition fill_fields (x : fields) : fields :=
  match x with
  | FUnit => FUnit
  | FTuple x => FTuple (mkTupleFields (fill_pu fill_tfield (tfs_fields x)) (tfs_parens x))
  | FNamed x => FNamed (mkNamedFields (fill_pu fill_nfield (nfs_fields x)) (nfs_braces x))
  end.
Definition fill_variant (_ : bool) (v : enum_variant) : enum_variant :=
  mkVariant (ev_attributes v) (ev_vis v) (ev_name v) (fill_fields (ev_fields v)) (ev_value v).
Definition fill_param (c : bool) (p : fn_param) : fn_param :=
  match p with FPTyped t => FPTyped (mkTyped (ft_attributes t) (ft_mut t) (ft_name t) (ft_colon t) (fill_type (PType c) (ft_ty t))) | p => p end.
Definition fill_function (x : function) : function :=
  mkFunction (fn_attributes x) (fn_vis x) (fn_qualifiers_ x) (fn_kw x) (fn_name x) (fill_generics (fn_generics x)) (fn_parens x)
    (fill_pu fill_param (fn_params x)) (fill_where (fn_where x)) (fn_arrow x) (option_map (fill_type PReturn) (fn_ret x)) (fn_semicolon x) (fn_body x).
Definition fill_constant (k : constant) : constant :=
  mkConstant (co_attributes k) (co_vis k) (co_kw k) (co_mut k) (co_name k) (co_colon k) (fill_type PConst (co_ty k)) (co_equals k)
    (option_map (fun v => mkValueExpr (f PValue (ve_tokens v))) (co_init k)) (co_semicolon k).
Definition fill_alias (t : type_alias) : type_alias :=
  mkTypeAlias (ta_attributes t) (ta_vis t) (ta_type t) (ta_name t) (option_map (fill_bound PAliasBound) (ta_bound t)) (ta_equals t)
    (option_map (fill_type PAlias) (ta_init t)) (ta_semicolon t).
Definition fill_impl_member (m : impl_member) : impl_member :=
  match m with IMFunction x => IMFunction (fill_function x) | IMConstant k => IMConstant (fill_constant k) | IMType t => IMType (fill_alias t) | m => m end.
Definition fill_trait_member (m : trait_member) : trait_member :=
  match m with TMFunction x => TMFunction (fill_function x) | TMConstant k => TMConstant (fill_constant k) | TMType t => TMType (fill_alias t) | m => m end.
Definition self_place (generics : bool) (t : option type_expr) : place := match t with Some _ => PSelf | None => PInherent generics end.
(** Fill every place, at every depth. *)
Fixpoint fill_item (i : item) : item :=
  match i with
  | IStruct (mkStruct a v k n g w x s) => IStruct (mkStruct a v k n (fill_generics g) (fill_where w) (fill_fields x) s)
  | IEnum (mkEnum a v k n g w b vs) => IEnum (mkEnum a v k n (fill_generics g) (fill_where w) b (fill_pu fill_variant vs))
  | IUnion (mkUnion a v k n g w (mkNamedFields x b)) =>
      IUnion (mkUnion a v k n (fill_generics g) (fill_where w) (mkNamedFields (fill_pu fill_nfield x) b))
  | IFunction x => IFunction (fill_function x)
  | IConstant k => IConstant (fill_constant k)
  | ITypeAlias t => ITypeAlias (fill_alias t)
  | IUse (mkUse a v k t s) => IUse (mkUse a v k (fill_type PUse t) s)
  | IModule (mkModule a v u k n s b ia ms) => IModule (mkModule a v u k n s b ia (map fill_item ms))
  | ITrait (mkTrait a v u k n g b w br ia ms) =>
      ITrait (mkTrait a v u k n (fill_generics g) (option_map (fill_bound PSuper) b) (fill_where w) br ia (map fill_trait_member ms))
  | IImpl (mkImpl a u k g t x s w br ia ms) =>
      IImpl (mkImpl a u k (fill_generics g) (option_map (fill_type (PTrait (some g))) t) x (fill_type (self_place (some g) t) s) (fill_where w) br ia
               (map fill_impl_member ms))
  | IExternBlock (mkExternBlock a v u e ab br ia ms) => IExternBlock (mkExternBlock a v u e ab br ia (map fill_impl_member ms))
  | IMacro m => IMacro m
  | IExternCrate c => IExternCrate c
  end.
End Fill.

(** The runs of an item with their places. *)
Definition run : Type := place * list tok.
Fixpoint runs_inner {A} (g : bool -> A -> list run) (skip_last : bool) (l : list (A * punct)) : list run :=
  match l with
  | [] => []
  | [(x, _)] => g (negb skip_last) x
  | (x, _) :: r => g true x ++ runs_inner g skip_last r
  end.
Definition runs_pu {A} (g : bool -> A -> list run) (p : punctuated A) : list run := runs_inner g (pu_skip_last p) (pu_inner p).
Definition runs_opt {A} (g : A -> list run) (o : option A) : list run := match o with Some x => g x | None => [] end.
Definition runs_type (p : place) (t : type_expr) : list run := [(p, te_tokens t)].
Definition runs_bound (p : place) (b : generic_bound) : list run := [(p, gb_tokens b)].
Definition runs_generics := runs_opt (fun g => runs_pu (fun _ p => runs_opt (runs_bound PParam) (gp_bound p)) (gpl_params g)).
Definition runs_where := runs_opt (fun w => runs_pu (fun _ p => (PLeft, wp_left p) :: runs_bound PWhere (wp_bound p)) (wc_items w)).
Definition runs_tfield (c : bool) (x : tuple_field) := runs_type (PTuple (before_of (tf_vis x)) c) (tf_ty x).
Definition runs_nfield (c : bool) (x : named_field) := runs_type (PType c) (nf_ty x).
Definition runs_fields (x : fields) : list run :=
  match x with FUnit => [] | FTuple x => runs_pu runs_tfield (tfs_fields x) | FNamed x => runs_pu runs_nfield (nfs_fields x) end.
Definition runs_variant (_ : bool) (v : enum_variant) := runs_fields (ev_fields v).
Definition runs_param (c : bool) (p : fn_param) := match p with FPTyped t => runs_type (PType c) (ft_ty t) | _ => [] end.
Definition runs_function (x : function) : list run :=
  runs_generics (fn_generics x) ++ runs_pu runs_param (fn_params x) ++ runs_opt (runs_type PReturn) (fn_ret x) ++ runs_where (fn_where x).
Definition runs_constant (k : constant) : list run := (PConst, te_tokens (co_ty k)) :: runs_opt (fun v => [(PValue, ve_tokens v)]) (co_init k).
Definition runs_alias (t : type_alias) : list run := runs_opt (runs_bound PAliasBound) (ta_bound t) ++ runs_opt (runs_type PAlias) (ta_init t).
Definition runs_impl_member (m : impl_member) : list run :=
  match m with IMFunction x => runs_function x | IMConstant k => runs_constant k | IMType t => runs_alias t | IMMacro _ => [] end.
Definition runs_trait_member (m : trait_member) : list run :=
  match m with TMFunction x => runs_function x | TMConstant k => runs_constant k | TMType t => runs_alias t | TMMacro _ => [] end.
Fixpoint runs_item (i : item) : list run :=
  match i with
  | IStruct s => runs_generics (st_generics s) ++ runs_where (st_where s) ++ runs_fields (st_fields s)
  | IEnum e => runs_generics (en_generics e) ++ runs_where (en_where e) ++ runs_pu runs_variant (en_variants e)
  | IUnion u => runs_generics (un_generics u) ++ runs_where (un_where u) ++ runs_fields (FNamed (un_fields u))
  | IFunction x => runs_function x
  | IConstant k => runs_constant k
  | ITypeAlias t => runs_alias t
  | IUse u => runs_type PUse (us_tree u)
  | IModule m => flat_map runs_item (mo_members m)
  | ITrait t =>
      runs_generics (tr_generics t) ++ runs_opt (runs_bound PSuper) (tr_bound t) ++ runs_where (tr_where t) ++ flat_map runs_trait_member (tr_items t)
  | IImpl m =>
      runs_generics (im_generics m) ++ runs_opt (runs_type (PTrait (some (im_generics m)))) (im_trait m)
        ++ runs_type (self_place (some (im_generics m)) (im_trait m)) (im_self m) ++ runs_where (im_where m) ++ flat_map runs_impl_member (im_items m)
  | IExternBlock b => flat_map runs_impl_member (eb_items b)
  | IMacro _ | IExternCrate _ => []
  end.

(** ** Proof *)
Lemma state_top ts : state ts = 0%Z <-> top_level ts.
Proof. unfold state, top_level. lia. Qed.
(** [fits] as a test. *)
Definition fitb (p : place) (ts : list tok) : bool :=
  (if may_be_open p then run_any (ends p) ts else run_closed (ends p) ts)
  && (negb (never_empty p) || nonempty ts) && negb (head_is (bad_start p) ts).
Lemma closed_spec P ts : run_closed P ts = true <-> (forall a t b, ts = a ++ t :: b -> ~ ends_run P a t) /\ top_level ts.
Proof.
  unfold run_closed. split.
  - destruct (scan P 0 false ts) as [[d s]|] eqn:E; [|discriminate]. intro H. apply scan_run in E. destruct E as (E & D & _). split; auto.
    apply Z.eqb_eq in H. apply state_top. congruence.
  - intros [H T]. assert (E : scan P 0 false ts = Some (state ts, after_dash ts)) by (apply scan_run; auto). rewrite E. apply Z.eqb_eq, state_top, T.
Qed.
Lemma any_spec P ts : run_any P ts = true <-> (forall a t b, ts = a ++ t :: b -> ~ ends_run P a t).
Proof.
  unfold run_any. split.
  - destruct (scan P 0 false ts) as [[d s]|] eqn:E; [|discriminate]. intro H. apply scan_run in E. tauto.
  - intro H. assert (E : scan P 0 false ts = Some (state ts, after_dash ts)) by (apply scan_run; auto). rewrite E. reflexivity.
Qed.
Lemma fits_spec p ts : fits p ts <-> fitb p ts = true.
Proof.
  unfold fits, fitb. rewrite !andb_true_iff.
  assert (H1 : (never_empty p = true -> ts <> []) <-> negb (never_empty p) || nonempty ts = true)
    by (destruct (never_empty p), ts; cbn; intuition (auto; discriminate)).
  assert (H2 : (forall t r, ts = t :: r -> bad_start p t = false) <-> negb (head_is (bad_start p) ts) = true).
  { destruct ts as [|t r]; cbn [head_is]; [split; [reflexivity|discriminate]|]. rewrite negb_true_iff. split; [eauto|]. intros H x y E. injection E as -> ->. exact H. }
  rewrite H1, H2. destruct (may_be_open p); rewrite ?any_spec, ?closed_spec; intuition discriminate.
Qed.
Lemma scan_same P Q : (forall t, P t = Q t) -> forall ts d s, scan P d s ts = scan Q d s ts.
Proof. intro H. induction ts as [|t ts IH]; intros d s; [reflexivity|]. cbn [scan]. unfold stops. rewrite H, IH. reflexivity. Qed.
Lemma closed_same P Q ts : (forall t, P t = Q t) -> run_closed P ts = run_closed Q ts.
Proof. intro H. unfold run_closed. rewrite (scan_same P Q H). reflexivity. Qed.
Lemma any_same P Q ts : (forall t, P t = Q t) -> run_any P ts = run_any Q ts.
Proof. intro H. unfold run_any. rewrite (scan_same P Q H). reflexivity. Qed.
Ltac ender := unfold end_param, end_where_item, end_return, end_const_ty, end_supertraits, end_impl_header, end_impl_self, end_comma, end_semicolon; intros [[]| | |]; cbn; unfold id_is; try reflexivity; btauto.
Lemma e_comma c t : ends (PType c) t = end_comma t. Proof. revert t. ender. Qed.
Lemma e_tuple v c t : ends (PTuple v c) t = end_comma t. Proof. revert t. ender. Qed.
Lemma e_param t : ends PParam t = end_param t. Proof. revert t. ender. Qed.
Lemma e_left t : ends PLeft t = is_punct ":" t. Proof. revert t. ender. Qed.
Lemma e_where t : ends PWhere t = end_where_item t. Proof. revert t. ender. Qed.
Lemma e_return t : ends PReturn t = end_return t. Proof. revert t. ender. Qed.
Lemma e_const t : ends PConst t = end_const_ty t. Proof. revert t. ender. Qed.
Lemma e_value t : ends PValue t = end_semicolon t. Proof. revert t. ender. Qed.
Lemma e_abound t : ends PAliasBound t = end_const_ty t. Proof. revert t. ender. Qed.
Lemma e_alias t : ends PAlias t = end_semicolon t. Proof. revert t. ender. Qed.
Lemma e_use t : ends PUse t = end_semicolon t. Proof. revert t. ender. Qed.
Lemma e_super t : ends PSuper t = end_supertraits t. Proof. revert t. ender. Qed.
Lemma e_trait b t : ends (PTrait b) t = end_impl_header t. Proof. revert t. ender. Qed.
Lemma e_self t : ends PSelf t = end_impl_self t. Proof. revert t. ender. Qed.
Lemma e_inherent b t : ends (PInherent b) t = end_impl_header t. Proof. revert t. ender. Qed.

(** The conditions of the grammar, place by place. *)
Ltac place e := unfold fitb; cbn [may_be_open never_empty negb orb bad_start andb]; rewrite ?(closed_same _ _ _ e), ?(any_same _ _ _ e).
Lemma no_head ts : head_is (fun _ : tok => false) ts = false. Proof. destruct ts; reflexivity. Qed.
Lemma head_or P Q ts : head_is (fun t => P t || Q t) ts = head_is P ts || head_is Q ts. Proof. destruct ts; reflexivity. Qed.
Lemma fit_type c ts : fitb (PType c) ts = nonempty ts && (if c then run_closed end_comma ts else run_any end_comma ts).
Proof. destruct c; place (e_comma true); rewrite ?(any_same _ _ _ (e_comma false)), (no_head ts : head_is (bad_start (PType _)) ts = false); btauto. Qed.
Lemma fit_tuple v c ts : wf_opt wf_vis v = true ->
  fitb (PTuple (before_of v) c) ts = prefix_ok v ts && (nonempty ts && (if c then run_closed end_comma ts else run_any end_comma ts)).
Proof.
  intro W. assert (E : negb (head_is (bad_start (PTuple (before_of v) c)) ts) = prefix_ok v ts).
  { destruct v as [[[g|i|q|l] [t|]]|]; try discriminate; cbn [before_of prefix_ok].
    - exact (f_equal negb (no_head ts)).
    - unfold id_is. destruct (String.eqb (id_str i) "pub"); [|exact (f_equal negb (no_head ts))]. reflexivity.
    - destruct ts as [|t ts]; [reflexivity|]. cbn [head_is bad_start]. rewrite !negb_orb. reflexivity. }
  unfold fitb. rewrite E. cbn [never_empty negb orb]. destruct c; cbn [may_be_open]; [rewrite (closed_same _ _ _ (e_tuple _ true))|rewrite (any_same _ _ _ (e_tuple _ false))]; btauto.
Qed.
Lemma fit_param ts : fitb PParam ts = run_closed end_param ts.
Proof. place e_param. rewrite (no_head ts : head_is (bad_start PParam) ts = false). btauto. Qed.
Lemma fit_left ts : fitb PLeft ts = run_closed (is_punct ":") ts && negb (head_is (is_group Brace) ts) && negb (head_is (is_punct ";") ts).
Proof. place e_left. rewrite (head_or _ _ ts : head_is (bad_start PLeft) ts = _). btauto. Qed.
Lemma fit_where ts : fitb PWhere ts = run_closed end_where_item ts.
Proof. place e_where. rewrite (no_head ts : head_is (bad_start PWhere) ts = false). btauto. Qed.
Lemma fit_return ts : fitb PReturn ts = run_closed end_return ts.
Proof. place e_return. rewrite (no_head ts : head_is (bad_start PReturn) ts = false). btauto. Qed.
Lemma fit_const ts : fitb PConst ts = run_closed end_const_ty ts.
Proof. place e_const. rewrite (no_head ts : head_is (bad_start PConst) ts = false). btauto. Qed.
Lemma fit_value ts : fitb PValue ts = nonempty ts && run_closed end_semicolon ts.
Proof. place e_value. rewrite (no_head ts : head_is (bad_start PValue) ts = false). btauto. Qed.
Lemma fit_abound ts : fitb PAliasBound ts = run_closed end_const_ty ts.
Proof. place e_abound. rewrite (no_head ts : head_is (bad_start PAliasBound) ts = false). btauto. Qed.
Lemma fit_alias ts : fitb PAlias ts = run_closed end_semicolon ts.
Proof. place e_alias. rewrite (no_head ts : head_is (bad_start PAlias) ts = false). btauto. Qed.
Lemma fit_use ts : fitb PUse ts = run_closed end_semicolon ts.
Proof. place e_use. rewrite (no_head ts : head_is (bad_start PUse) ts = false). btauto. Qed.
Lemma fit_super ts : fitb PSuper ts = run_closed end_supertraits ts.
Proof. place e_super. rewrite (no_head ts : head_is (bad_start PSuper) ts = false). btauto. Qed.
Lemma fit_self ts : fitb PSelf ts = run_closed end_impl_self ts.
Proof. place e_self. rewrite (no_head ts : head_is (bad_start PSelf) ts = false). btauto. Qed.
Lemma fit_trait b ts : fitb (PTrait b) ts = run_closed end_impl_header ts && (b || negb (head_is (is_punct "<") ts)).
Proof. unfold fitb. cbn [may_be_open never_empty negb orb]. rewrite (closed_same _ _ _ (e_trait b)). destruct b; [rewrite (no_head ts : head_is (bad_start (PTrait true)) ts = false)|change (bad_start (PTrait false)) with (is_punct "<")]; btauto. Qed.
Lemma fit_inherent b ts : fitb (PInherent b) ts = run_closed end_impl_header ts && (b || negb (head_is (is_punct "<") ts)).
Proof. unfold fitb. cbn [may_be_open never_empty negb orb]. rewrite (closed_same _ _ _ (e_inherent b)). destruct b; [rewrite (no_head ts : head_is (bad_start (PInherent true)) ts = false)|change (bad_start (PInherent false)) with (is_punct "<")]; btauto. Qed.

Section Proof.
Variable f : place -> list tok -> list tok.
Definition okay (x : run) : bool := fitb (fst x) (f (fst x) (snd x)).
Lemma okay_pair p ts : okay (p, ts) = fitb p (f p ts). Proof. reflexivity. Qed.

Lemma pu_fill {A} (wf : bool -> A -> bool) (g : bool -> A -> A) (d : bool -> A -> list run) p :
  (forall b x, wf b x = true -> wf b (g b x) = forallb okay (d b x)) ->
  wf_punctuated wf p = true -> wf_punctuated wf (fill_pu g p) = forallb okay (runs_pu d p).
Proof.
  intro H. unfold wf_punctuated, fill_pu, runs_pu. cbn [pu_inner pu_skip_last]. generalize (pu_skip_last p). intro sk.
  induction (pu_inner p) as [|[x c] l IH]; [auto|]. destruct l as [|[y e] l].
  - cbn [fill_inner runs_inner wf_inner]. intro E. bsplit. rewrite (H _ _ H0). rwb. apply andb_true_r.
  - assert (N : exists z r, fill_inner g sk ((y, e) :: l) = z :: r) by (destruct l; cbn; eauto). destruct N as (z & r & N).
    change (wf_inner wf sk ((x, c) :: (y, e) :: l)) with (wf true x && p_is "," c && wf_inner wf sk ((y, e) :: l)).
    change (fill_inner g sk ((x, c) :: (y, e) :: l)) with ((g true x, c) :: fill_inner g sk ((y, e) :: l)).
    change (runs_inner d sk ((x, c) :: (y, e) :: l)) with (d true x ++ runs_inner d sk ((y, e) :: l)).
    intro E. bsplit. rewrite forallb_app, <- IH, <- H by auto. rewrite N. change (wf_inner wf sk ((g true x, c) :: z :: r)) with (wf true (g true x) && p_is "," c && wf_inner wf sk (z :: r)).
    rwb. btauto.
Qed.
Lemma bound_fill P p b : (forall ts, fitb p ts = run_closed P ts) -> wf_bound P b = true -> wf_bound P (fill_bound f p b) = forallb okay (runs_bound p b).
Proof. intro H. unfold wf_bound, runs_bound, okay. cbn. intro W. bsplit. rwb. rewrite H. btauto. Qed.
Lemma opt_fill {A} (wf : A -> bool) (g : A -> A) (d : A -> list run) o : (forall x, wf x = true -> wf (g x) = forallb okay (d x)) ->
  wf_opt wf o = true -> wf_opt wf (option_map g o) = forallb okay (runs_opt d o).
Proof. intro H. destruct o; cbn; auto. Qed.
Lemma gparam_fill b p : wf_generic_param b p = true -> wf_generic_param b (fill_gparam f b p) = forallb okay (runs_opt (runs_bound PParam) (gp_bound p)).
Proof.
  unfold wf_generic_param. cbn [fill_gparam gp_prefix gp_name gp_bound]. intro H. bsplit.
  rewrite (opt_fill _ _ (runs_bound PParam)) by (auto using bound_fill, fit_param). rwb. reflexivity.
Qed.
Lemma generics_fill g : wf_opt wf_generics g = true -> wf_opt wf_generics (fill_generics f g) = forallb okay (runs_generics g).
Proof.
  unfold fill_generics, runs_generics. apply opt_fill. intros [l p r]. unfold wf_generics. cbn [gpl_l gpl_params gpl_r]. intro H. bsplit.
  rewrite (pu_fill _ _ (fun _ p => runs_opt (runs_bound PParam) (gp_bound p))) by auto using gparam_fill. rwb. btauto.
Qed.
Lemma pred_fill b w : wf_where_predicate b w = true -> wf_where_predicate b (fill_pred f b w) = forallb okay ((PLeft, wp_left w) :: runs_bound PWhere (wp_bound w)).
Proof.
  unfold wf_where_predicate. cbn [fill_pred wp_left wp_bound]. cbn [forallb]. unfold okay at 1. cbn [fst snd]. rewrite fit_left. intro H. bsplit.
  rewrite (bound_fill end_where_item PWhere) by auto using fit_where. btauto.
Qed.
Lemma where_fill w : wf_opt wf_where w = true -> wf_opt wf_where (fill_where f w) = forallb okay (runs_where w).
Proof.
  unfold fill_where, runs_where. apply opt_fill. intros [k p]. unfold wf_where. cbn [wc_where wc_items]. intro H. bsplit.
  rewrite (pu_fill _ _ (fun _ p => (PLeft, wp_left p) :: runs_bound PWhere (wp_bound p))) by auto using pred_fill. rwb. reflexivity.
Qed.
Lemma tfield_fill b x : wf_tuple_field b x = true -> wf_tuple_field b (fill_tfield f b x) = forallb okay (runs_tfield b x).
Proof.
  unfold wf_tuple_field, wf_field_ty, runs_tfield, runs_type, okay. cbn [fill_tfield fill_type te_tokens tf_attributes tf_vis tf_ty forallb fst snd]. intro H. bsplit.
  rewrite fit_tuple by auto. rwb. btauto.
Qed.
Lemma nfield_fill b x : wf_named_field b x = true -> wf_named_field b (fill_nfield f b x) = forallb okay (runs_nfield b x).
Proof.
  unfold wf_named_field, wf_field_ty, runs_nfield, runs_type, okay. cbn [fill_nfield fill_type te_tokens nf_attributes nf_vis nf_name nf_colon nf_ty forallb fst snd]. intro H. bsplit.
  rewrite fit_type. rwb. btauto.
Qed.
Lemma fields_fill x : wf_fields x = true -> wf_fields (fill_fields f x) = forallb okay (runs_fields x).
Proof.
  destruct x; cbn [fill_fields wf_fields runs_fields]; auto; unfold wf_tuple_fields, wf_named_fields; cbn [tfs_fields tfs_parens nfs_fields nfs_braces]; intro H; bsplit; rwb;
    cbn [andb]; apply pu_fill; auto using tfield_fill, nfield_fill.
Qed.
Lemma variant_fill b v : wf_variant b v = true -> wf_variant b (fill_variant f b v) = forallb okay (runs_variant b v).
Proof.
  unfold wf_variant, runs_variant. cbn [fill_variant ev_attributes ev_vis ev_name ev_fields ev_value]. intro H. bsplit. rewrite fields_fill by auto. rwb. btauto.
Qed.
Lemma param_fill b p : wf_fn_param b p = true -> wf_fn_param b (fill_param f b p) = forallb okay (runs_param b p).
Proof.
  destruct p as [r|t]; [cbn; auto|]. cbn [fill_param wf_fn_param runs_param ft_attributes ft_mut ft_name ft_colon ft_ty]. unfold wf_field_ty, runs_type, okay.
  cbn [fill_type te_tokens forallb fst snd]. intro H. bsplit. rewrite fit_type. rwb. btauto.
Qed.
Lemma function_fill x : wf_function x = true -> wf_function (fill_function f x) = forallb okay (runs_function x).
Proof.
  unfold wf_function, runs_function.
  cbn [fill_function fn_attributes fn_vis fn_qualifiers_ fn_kw fn_name fn_generics fn_parens fn_params fn_where fn_arrow fn_ret fn_semicolon fn_body].
  intro H. bsplit. rewrite generics_fill, where_fill, (pu_fill _ _ runs_param) by auto using param_fill. rewrite !forallb_app. rwb.
  assert (R : (match fn_arrow x, option_map (fill_type f PReturn) (fn_ret x) with
    | Some (dash, tip), Some ty => p_is "-" dash && p_is ">" tip && run_closed end_return (te_tokens ty) | None, None => true | _, _ => false end)
    = forallb okay (runs_opt (runs_type PReturn) (fn_ret x))).
  { destruct (fn_arrow x) as [[]|], (fn_ret x); try discriminate; [|reflexivity]. bsplit. cbn [option_map runs_opt runs_type forallb fill_type te_tokens]. unfold okay. cbn [fst snd].
    rewrite fit_return. rwb. btauto. }
  rewrite R. btauto.
Qed.
Lemma constant_fill k : shape_constant k = true -> shape_constant (fill_constant f k) = forallb okay (runs_constant k).
Proof.
  unfold shape_constant, runs_constant.
  cbn [fill_constant co_attributes co_vis co_kw co_mut co_name co_colon co_ty co_equals co_init co_semicolon fill_type te_tokens forallb]. intro H. bsplit.
  unfold okay at 1. cbn [fst snd]. rewrite fit_const. rwb.
  destruct (co_equals k), (co_init k); try discriminate; bsplit; cbn [option_map runs_opt forallb ve_tokens]; unfold okay; cbn [fst snd]; rewrite ?fit_value; rwb; btauto.
Qed.
Lemma alias_fill t : wf_type_alias t = true -> wf_type_alias (fill_alias f t) = forallb okay (runs_alias t).
Proof.
  unfold wf_type_alias, runs_alias. cbn [fill_alias ta_attributes ta_vis ta_type ta_name ta_bound ta_equals ta_init ta_semicolon]. intro H. bsplit.
  rewrite (opt_fill _ _ (runs_bound PAliasBound)) by (auto using bound_fill, fit_abound). rewrite forallb_app. rwb.
  destruct (ta_equals t), (ta_init t); try discriminate; bsplit; cbn [option_map runs_opt runs_type forallb fill_type te_tokens]; unfold okay; cbn [fst snd]; rewrite ?fit_alias; rwb; btauto.
Qed.
Lemma impl_member_fill b m : shape_impl_member b m && stable_impl_member m = true ->
  shape_impl_member b (fill_impl_member f m) && stable_impl_member (fill_impl_member f m) = forallb okay (runs_impl_member m).
Proof.
  destruct m as [x|k|t|m]; cbn [fill_impl_member shape_impl_member stable_impl_member runs_impl_member]; rewrite ?andb_true_r; auto using function_fill, alias_fill.
  intro H. bsplit. rewrite constant_fill by auto. change (stable_constant (fill_constant f k)) with (stable_constant k). change (co_kw (fill_constant f k)) with (co_kw k).
  destruct b; cbn [orb] in *; rwb; rewrite ?andb_true_r; reflexivity.
Qed.
Lemma trait_member_fill m : shape_trait_member m && stable_trait_member m = true ->
  shape_trait_member (fill_trait_member f m) && stable_trait_member (fill_trait_member f m) = forallb okay (runs_trait_member m).
Proof. intro H. apply (impl_member_fill false) in H. destruct m; exact H. Qed.
Lemma list_fill {A} (p q : A -> bool) (g : A -> A) (d : A -> list run) l :
  (forall x, p x && q x = true -> p (g x) && q (g x) = forallb okay (d x)) ->
  forallb p l = true -> forallb q l = true -> forallb p (map g l) && forallb q (map g l) = forallb okay (flat_map d l).
Proof.
  intro H. induction l as [|x l IH]; [auto|]. cbn. intros E F. bsplit. rewrite forallb_app, <- IH, <- H by (rwb; auto). btauto.
Qed.
Lemma fill_start i : same_start (print_item (fill_item f i)) (print_item i).
Proof.
  destruct i as [[]|[]|[? ? ? ? ? ? []]|[]|[]|[]|[]|x|[]|[]|m|[]|[]]; cbn [fill_item print_item];
    unfold print_struct, print_enum, print_union, print_module, print_trait, print_impl, print_type_alias, print_function, print_constant, print_use, print_macro,
      print_extern_block, print_extern_crate; cbn; repeat (apply same_start_cons || apply same_start_app).
Qed.
Lemma fill_follow i r s : (forall p, head_is p r = head_is p s) -> follow_ok (fill_item f i) r = follow_ok i s.
Proof.
  intro H. destruct i as [[a v k n g w x se]|[]|[? ? ? ? ? ? []]|[]|[]|[]| |x| |[]|m|[]|[]]; try reflexivity. cbn [fill_item follow_ok]. unfold struct_follow.
  cbn [st_fields st_semicolon st_where]. rewrite !H. destruct x, se, w; reflexivity.
Qed.
Lemma fill_members l : members_follow (map (fill_item f) l) = members_follow l.
Proof.
  induction l as [|i l IH]; [reflexivity|]. cbn [map members_follow]. rewrite IH. f_equal. apply fill_follow. intro p.
  destruct l as [|j l]; [reflexivity|]. cbn [map flat_map]. apply same_start_head, fill_start.
Qed.
Lemma fill_wf i : wf_item i = true -> wf_item (fill_item f i) = forallb okay (runs_item i).
Proof.
  unfold wf_item. induction i as [m IH|i No] using item_nested_ind.
  - destruct m as [a v u k n s b ia ms]. cbn [mo_members] in IH. cbn [fill_item shape_item stable_item runs_item mo_members forallb]. unfold shape_module.
    cbn [mo_attributes mo_vis mo_unsafe mo_mod mo_name mo_semicolon mo_braces mo_inner_attributes mo_members]. rewrite fill_members.
    assert (N : nonempty (map (fill_item f) ms) = nonempty ms) by (destruct ms; reflexivity). rewrite N.
    intro H. bsplit. rwb. rewrite andb_true_r. cbn [andb].
    destruct s, b; try discriminate; bsplit; rwb; cbn [andb negb]; [destruct ms; [reflexivity|discriminate]|].
    assert (F : Forall (fun i => shape_item i && stable_item i = true) ms).
    { rewrite Forall_forall. intros x Hx. rewrite forallb_forall in H0, H6. rewrite H0, H6; auto. }
    clear -IH F. induction IH as [|x l Hx _ IHl]; [reflexivity|]. inversion_clear F. cbn. rewrite forallb_app, <- IHl, <- Hx by auto. btauto.
  - destruct i as [[xa xv xk xn xg xw xf xs]|[xa xv xk xn xg xw xb xvs]|[xa xv xk xn xg xw [xf xb]]|m|[xa xv xu xk xn xg xbd xw xbr xia xms]|[xa xu xk xg xt xf xs xw xbr xia xms]|t|x|k|[xa xv xk xt xs]|m|[xa xv xu xe xab xbr xia xms]|c];
      cbn [fill_item shape_item stable_item runs_item]; rewrite ?andb_true_r; auto.
    + unfold shape_struct, stable_struct. cbn [st_attributes st_vis st_struct st_name st_generics st_where st_fields st_semicolon]. rewrite !forallb_app.
      intro H. bsplit. rewrite fields_fill, generics_fill, where_fill by auto. rwb. destruct xf; cbn in *; rwb; cbn; btauto.
    + unfold wf_enum. cbn [en_attributes en_vis en_enum en_name en_generics en_where en_braces en_variants]. rewrite !forallb_app.
      intro H. bsplit. rewrite generics_fill, where_fill, (pu_fill _ _ runs_variant) by auto using variant_fill. rwb. btauto.
    + unfold wf_union, wf_named_fields. cbn [un_attributes un_vis un_union un_name un_generics un_where un_fields nfs_fields nfs_braces runs_fields]. rewrite !forallb_app.
      intro H. bsplit. rewrite generics_fill, where_fill, (pu_fill _ _ runs_nfield) by auto using nfield_fill. rwb. btauto.
    + exfalso. eapply No. reflexivity.
    + unfold shape_trait. cbn [tr_attributes tr_vis tr_unsafe tr_trait tr_name tr_generics tr_bound tr_where tr_braces tr_inner_attributes tr_items]. rewrite !forallb_app.
      intro H. bsplit. rewrite generics_fill, where_fill, (opt_fill _ _ (runs_bound PSuper)), <- (list_fill shape_trait_member stable_trait_member (fill_trait_member f))
        by (auto using trait_member_fill, bound_fill, fit_super). rwb. btauto.
    + unfold shape_impl. cbn [im_attributes im_unsafe im_impl im_generics im_trait im_for im_self im_where im_braces im_inner_attributes im_items]. rewrite !forallb_app.
      intro H. bsplit. rewrite generics_fill, where_fill, <- (list_fill (shape_impl_member false) stable_impl_member (fill_impl_member f)) by auto using impl_member_fill.
      assert (G : some (fill_generics f xg) = some xg) by (destruct xg; reflexivity). rewrite G. rwb.
      destruct xt, xf; try discriminate; cbn [option_map runs_opt runs_type forallb fill_type te_tokens self_place]; bsplit; rewrite ?okay_pair, ?fit_trait, ?fit_self, ?fit_inherent; rwb; btauto.
    + apply alias_fill.
    + apply function_fill.
    + intro H. apply andb_prop in H. destruct H as [H1 H2]. rewrite constant_fill by auto. change (stable_constant (fill_constant f k)) with (stable_constant k). rewrite H2. apply andb_true_r.
    + unfold wf_use, runs_type, okay. cbn [us_attributes us_vis us_use us_tree us_semicolon fill_type te_tokens forallb fst snd]. rewrite fit_use. intro H. bsplit. rwb. btauto.
    + unfold shape_extern_block. cbn [eb_attributes eb_vis eb_unsafe eb_extern eb_abi eb_braces eb_inner_attributes eb_items].
      intro H. bsplit. rewrite <- (list_fill (shape_impl_member true) stable_impl_member (fill_impl_member f)) by auto using impl_member_fill. rwb. reflexivity.
Qed.

(** ** C106 *)
(** Filled with other runs, the item is printed and parsed faithfully exactly if every run fits its place. *)
Theorem C106_fill (i : item) : parse_item (print_item i) = Ret (Ok i) ->
  (parse_item (print_item (fill_item f i)) = Ret (Ok (fill_item f i)) <-> Forall (fun x => fits (fst x) (f (fst x) (snd x))) (runs_item i)).
Proof.
  rewrite !C01_print_parse_iff. intros [H1 H2]. rewrite fill_wf, (fill_follow i [] []) by auto. rewrite forallb_forall, Forall_forall.
  setoid_rewrite fits_spec. unfold okay. tauto.
Qed.
End Proof.

(** Filling changes the listed runs, all of them and in order, and keeps their places. *)
Section Runs.
Variable f : place -> list tok -> list tok.
Notation new := (map (fun y : run => (fst y, f (fst y) (snd y)))).
Lemma pu_runs {A} (g : bool -> A -> A) (d : bool -> A -> list run) p : (forall b x, d b (g b x) = new (d b x)) -> runs_pu d (fill_pu g p) = new (runs_pu d p).
Proof.
  intro H. unfold runs_pu, fill_pu. cbn [pu_inner pu_skip_last]. generalize (pu_skip_last p). intro sk. induction (pu_inner p) as [|[x c] l IH]; [reflexivity|].
  destruct l as [|[y e] l]; [apply H|].
  change (fill_inner g sk ((x, c) :: (y, e) :: l)) with ((g true x, c) :: fill_inner g sk ((y, e) :: l)).
  change (runs_inner d sk ((x, c) :: (y, e) :: l)) with (d true x ++ runs_inner d sk ((y, e) :: l)).
  assert (N : exists z r, fill_inner g sk ((y, e) :: l) = z :: r) by (destruct l; cbn; eauto). destruct N as (z & r & N). rewrite map_app, <- IH, <- H, N. reflexivity.
Qed.
Lemma generics_runs g : runs_generics (fill_generics f g) = new (runs_generics g).
Proof. destruct g as [g|]; [|reflexivity]. cbn -[runs_pu fill_pu]. apply pu_runs. intros b [? ? []]; reflexivity. Qed.
Lemma where_runs w : runs_where (fill_where f w) = new (runs_where w).
Proof. destruct w as [w|]; [|reflexivity]. cbn -[runs_pu fill_pu]. apply pu_runs. reflexivity. Qed.
Lemma fields_runs x : runs_fields (fill_fields f x) = new (runs_fields x).
Proof. destruct x; [reflexivity| |]; cbn -[runs_pu fill_pu]; apply pu_runs; reflexivity. Qed.
Lemma function_runs x : runs_function (fill_function f x) = new (runs_function x).
Proof.
  unfold runs_function. cbn [fill_function fn_generics fn_params fn_ret fn_where]. rewrite !map_app, generics_runs, where_runs, pu_runs by (intros ? []; reflexivity).
  destruct (fn_ret x); reflexivity.
Qed.
Lemma constant_runs k : runs_constant (fill_constant f k) = new (runs_constant k).
Proof. unfold runs_constant. cbn [fill_constant co_ty co_init]. destruct (co_init k); reflexivity. Qed.
Lemma alias_runs t : runs_alias (fill_alias f t) = new (runs_alias t).
Proof. unfold runs_alias. cbn [fill_alias ta_bound ta_init]. destruct (ta_bound t), (ta_init t); reflexivity. Qed.
Lemma impl_member_runs m : runs_impl_member (fill_impl_member f m) = new (runs_impl_member m).
Proof. destruct m; cbn [fill_impl_member runs_impl_member]; auto using function_runs, constant_runs, alias_runs. Qed.
Lemma trait_member_runs m : runs_trait_member (fill_trait_member f m) = new (runs_trait_member m).
Proof. destruct m; cbn [fill_trait_member runs_trait_member]; auto using function_runs, constant_runs, alias_runs. Qed.
Lemma list_runs {A} (g : A -> A) (d : A -> list run) l : (forall x, In x l -> d (g x) = new (d x)) -> flat_map d (map g l) = new (flat_map d l).
Proof. intro H. induction l as [|x l IH]; [reflexivity|]. cbn. rewrite map_app, H, IH; auto using in_eq, in_cons. Qed.
Theorem C106_runs (i : item) : runs_item (fill_item f i) = new (runs_item i).
Proof.
  induction i as [m IH|i No] using item_nested_ind.
  - destruct m as [a v u k n s b ia ms]. cbn [mo_members] in IH. cbn [fill_item runs_item mo_members]. apply list_runs. apply Forall_forall, IH.
  - destruct i as [[xa xv xk xn xg xw xf xs]|[xa xv xk xn xg xw xb xvs]|[xa xv xk xn xg xw [xf xb]]|m|[xa xv xu xk xn xg xbd xw xbr xia xms]|[xa xu xk xg xt xf xs xw xbr xia xms]|t|x|k|[xa xv xk xt xs]|m|[xa xv xu xe xab xbr xia xms]|c]; cbn [fill_item runs_item]; auto using function_runs, constant_runs, alias_runs.
    + cbn [st_generics st_where st_fields]. rewrite !map_app, generics_runs, where_runs, fields_runs. reflexivity.
    + cbn [en_generics en_where en_variants]. rewrite !map_app, generics_runs, where_runs. do 2 f_equal. apply pu_runs. intros b v. apply fields_runs.
    + cbn [un_generics un_where un_fields runs_fields nfs_fields]. rewrite !map_app, generics_runs, where_runs. do 2 f_equal. apply pu_runs. reflexivity.
    + exfalso. eapply No. reflexivity.
    + cbn [tr_generics tr_bound tr_where tr_items]. rewrite !map_app, generics_runs, where_runs, list_runs by auto using trait_member_runs. f_equal.
      destruct xbd; reflexivity.
    + cbn [im_generics im_trait im_self im_where im_items]. rewrite !map_app, generics_runs, where_runs, list_runs by auto using impl_member_runs.
      destruct xg, xt; reflexivity.
    + cbn [eb_items]. apply list_runs. auto using impl_member_runs.
Qed.
End Runs.

(** Two fillings that put the same at every run give the same item, and runs put back in their places change nothing. *)
Section Ext.
Variables f g : place -> list tok -> list tok.
Notation agree := (Forall (fun x : run => f (fst x) (snd x) = g (fst x) (snd x))).
Lemma pu_ext {A} (h k : bool -> A -> A) (d : bool -> A -> list run) p : (forall b x, agree (d b x) -> h b x = k b x) -> agree (runs_pu d p) -> fill_pu h p = fill_pu k p.
Proof.
  intro H. unfold runs_pu, fill_pu. generalize (pu_skip_last p). intros sk E. f_equal. revert E. induction (pu_inner p) as [|[x c] l IH]; [reflexivity|].
  destruct l as [|[y e] l]; [cbn; intro E; rewrite H; auto|].
  change (fill_inner ?h sk ((x, c) :: (y, e) :: l)) with ((h true x, c) :: fill_inner h sk ((y, e) :: l)).
  change (runs_inner d sk ((x, c) :: (y, e) :: l)) with (d true x ++ runs_inner d sk ((y, e) :: l)).
  rewrite Forall_app. intros [E1 E2]. rewrite (H _ _ E1), (IH E2). reflexivity.
Qed.
Lemma one_ext p ts : agree [(p, ts)] -> f p ts = g p ts. Proof. intro H. inversion_clear H. auto. Qed.
Lemma type_ext p t : agree (runs_type p t) -> fill_type f p t = fill_type g p t. Proof. intro H. apply one_ext in H. unfold fill_type. rewrite H. reflexivity. Qed.
Lemma bound_ext p t : agree (runs_bound p t) -> fill_bound f p t = fill_bound g p t. Proof. intro H. apply one_ext in H. unfold fill_bound. rewrite H. reflexivity. Qed.
Lemma opt_ext {A} (h k : A -> A) (d : A -> list run) o : (forall x, agree (d x) -> h x = k x) -> agree (runs_opt d o) -> option_map h o = option_map k o.
Proof. intro H. destruct o; cbn; auto. intro E. rewrite H; auto. Qed.
Lemma generics_ext x : agree (runs_generics x) -> fill_generics f x = fill_generics g x.
Proof.
  apply opt_ext. intros [l p r] H. cbn [gpl_l gpl_params gpl_r] in *. f_equal. revert H. apply pu_ext. intros b y H. unfold fill_gparam.
  rewrite (opt_ext _ _ _ _ (bound_ext PParam) H). reflexivity.
Qed.
Lemma where_ext x : agree (runs_where x) -> fill_where f x = fill_where g x.
Proof.
  apply opt_ext. intros [k p] H. cbn [wc_where wc_items] in *. f_equal. revert H. apply pu_ext. intros b y H. unfold fill_pred. inversion_clear H as [|? ? H1 H2]. cbn in H1.
  rewrite H1, (bound_ext _ _ H2). reflexivity.
Qed.
Lemma nfield_ext b x : agree (runs_nfield b x) -> fill_nfield f b x = fill_nfield g b x.
Proof. intro H. unfold fill_nfield. rewrite (type_ext _ _ H). reflexivity. Qed.
Lemma tfield_ext b x : agree (runs_tfield b x) -> fill_tfield f b x = fill_tfield g b x.
Proof. intro H. unfold fill_tfield. rewrite (type_ext _ _ H). reflexivity. Qed.
Lemma fields_ext x : agree (runs_fields x) -> fill_fields f x = fill_fields g x.
Proof. destruct x; cbn -[runs_pu fill_pu]; intro H; [reflexivity| |]; do 2 f_equal; (eapply pu_ext; [|exact H]); auto using nfield_ext, tfield_ext. Qed.
Lemma param_ext b p : agree (runs_param b p) -> fill_param f b p = fill_param g b p.
Proof. destruct p; [reflexivity|]. cbn [runs_param fill_param]. intro H. rewrite (type_ext _ _ H). reflexivity. Qed.
Lemma function_ext x : agree (runs_function x) -> fill_function f x = fill_function g x.
Proof.
  unfold runs_function, fill_function. rewrite !Forall_app. intros (H1 & H2 & H3 & H4). rewrite (generics_ext _ H1), (where_ext _ H4), (pu_ext _ _ _ _ param_ext H2), (opt_ext _ _ _ _ (type_ext PReturn) H3). reflexivity.
Qed.
Lemma constant_ext k : agree (runs_constant k) -> fill_constant f k = fill_constant g k.
Proof.
  unfold runs_constant, fill_constant. intro H. inversion_clear H as [|? ? H1 H2]. cbn in H1. unfold fill_type. rewrite H1. f_equal. revert H2. apply opt_ext. intros v H2. apply one_ext in H2.
  rewrite H2. reflexivity.
Qed.
Lemma alias_ext t : agree (runs_alias t) -> fill_alias f t = fill_alias g t.
Proof. unfold runs_alias, fill_alias. rewrite Forall_app. intros [H1 H2]. rewrite (opt_ext _ _ _ _ (bound_ext PAliasBound) H1), (opt_ext _ _ _ _ (type_ext PAlias) H2). reflexivity. Qed.
Lemma impl_member_ext m : agree (runs_impl_member m) -> fill_impl_member f m = fill_impl_member g m.
Proof. destruct m; cbn [runs_impl_member fill_impl_member]; intro H; f_equal; auto using function_ext, constant_ext, alias_ext. Qed.
Lemma trait_member_ext m : agree (runs_trait_member m) -> fill_trait_member f m = fill_trait_member g m.
Proof. destruct m; cbn [runs_trait_member fill_trait_member]; intro H; f_equal; auto using function_ext, constant_ext, alias_ext. Qed.
Lemma list_ext {A} (h k : A -> A) (d : A -> list run) l : Forall (fun x => agree (d x) -> h x = k x) l -> agree (flat_map d l) -> map h l = map k l.
Proof. intro H. induction H as [|x l Hx _ IH]; cbn; [auto|]. rewrite Forall_app. intros [E1 E2]. rewrite Hx, IH; auto. Qed.
Theorem C106_same (i : item) : agree (runs_item i) -> fill_item f i = fill_item g i.
Proof.
  induction i as [m IH|i No] using item_nested_ind.
  - destruct m as [a v u k n s b ia ms]. cbn [mo_members] in IH. cbn [fill_item runs_item mo_members]. intro H. rewrite (list_ext _ _ _ _ IH H). reflexivity.
  - destruct i as [[xa xv xk xn xg xw xf xs]|[xa xv xk xn xg xw xb xvs]|[xa xv xk xn xg xw [xf xb]]|m|[xa xv xu xk xn xg xbd xw xbr xia xms]|[xa xu xk xg xt xf xs xw xbr xia xms]|t|x|k|[xa xv xk xt xs]|m|[xa xv xu xe xab xbr xia xms]|c]; cbn [fill_item runs_item st_generics st_where st_fields en_generics en_where en_variants un_generics un_where un_fields tr_generics tr_bound tr_where tr_items us_tree eb_items]; rewrite ?Forall_app; intro H.
    + destruct H as (H1 & H2 & H3). rewrite (generics_ext _ H1), (where_ext _ H2), (fields_ext _ H3). reflexivity.
    + destruct H as (H1 & H2 & H3). rewrite (generics_ext _ H1), (where_ext _ H2), (pu_ext (fill_variant f) (fill_variant g) _ _) with (2 := H3); [reflexivity|].
      intros b v E. unfold fill_variant. rewrite (fields_ext _ E). reflexivity.
    + destruct H as (H1 & H2 & H3). rewrite (generics_ext _ H1), (where_ext _ H2). cbn [un_fields runs_fields nfs_fields] in H3. rewrite (pu_ext _ _ _ _ nfield_ext H3). reflexivity.
    + exfalso. eapply No. reflexivity.
    + destruct H as (H1 & H2 & H3 & H4). rewrite (generics_ext _ H1), (opt_ext _ _ _ _ (bound_ext PSuper) H2), (where_ext _ H3).
      rewrite (list_ext (fill_trait_member f) (fill_trait_member g) runs_trait_member) by (auto; apply Forall_forall; auto using trait_member_ext). reflexivity.
    + destruct H as (H1 & H2 & H3 & H4 & H5). cbn [im_generics im_trait im_self im_where im_items] in *.
      rewrite (generics_ext _ H1), (opt_ext _ _ _ _ (type_ext _) H2), (type_ext _ _ H3), (where_ext _ H4).
      rewrite (list_ext (fill_impl_member f) (fill_impl_member g) runs_impl_member) by (auto; apply Forall_forall; auto using impl_member_ext). reflexivity.
    + rewrite (alias_ext _ H). reflexivity.
    + rewrite (function_ext _ H). reflexivity.
    + rewrite (constant_ext _ H). reflexivity.
    + rewrite (type_ext _ _ H). reflexivity.
    + reflexivity.
    + rewrite (list_ext (fill_impl_member f) (fill_impl_member g) runs_impl_member) by (auto; apply Forall_forall; auto using impl_member_ext). reflexivity.
    + reflexivity.
Qed.
End Ext.
(** Nothing but runs changes: putting back the same runs changes nothing, and filling twice is filling by both. *)
Lemma pu_same {A} (g : bool -> A -> A) p : (forall b x, g b x = x) -> fill_pu g p = p.
Proof.
  intro H. destruct p as [l sk]. unfold fill_pu. cbn [pu_inner pu_skip_last]. f_equal. induction l as [|[x c] l IH]; [reflexivity|].
  destruct l as [|[y e] l]; [cbn; rewrite H; reflexivity|]. change (fill_inner g sk ((x, c) :: (y, e) :: l)) with ((g true x, c) :: fill_inner g sk ((y, e) :: l)).
  rewrite IH, H. reflexivity.
Qed.
Lemma pu_twice {A} (g h k : bool -> A -> A) p : (forall b x, g b (h b x) = k b x) -> fill_pu g (fill_pu h p) = fill_pu k p.
Proof.
  intro H. unfold fill_pu. cbn [pu_inner pu_skip_last]. f_equal. generalize (pu_skip_last p). intro sk. induction (pu_inner p) as [|[x c] l IH]; [reflexivity|].
  destruct l as [|[y e] l]; [cbn; rewrite H; reflexivity|]. change (fill_inner ?g sk ((x, c) :: (y, e) :: l)) with ((g true x, c) :: fill_inner g sk ((y, e) :: l)).
  assert (N : exists z r, fill_inner h sk ((y, e) :: l) = z :: r) by (destruct l; cbn; eauto). destruct N as (z & r & N). rewrite N in *.
  change (fill_inner g sk ((h true x, c) :: z :: r)) with ((g true (h true x), c) :: fill_inner g sk (z :: r)). rewrite IH, H. reflexivity.
Qed.
Section Same.
Notation same := (fun (_ : place) (ts : list tok) => ts).
Lemma bound_same p (o : option generic_bound) : option_map (fill_bound same p) o = o. Proof. destruct o as [[]|]; reflexivity. Qed.
Lemma otype_same p (o : option type_expr) : option_map (fill_type same p) o = o. Proof. destruct o as [[]|]; reflexivity. Qed.
Lemma type_same p t : fill_type same p t = t. Proof. destruct t; reflexivity. Qed.
Lemma generics_same g : fill_generics same g = g.
Proof. destruct g as [[l p r]|]; [|reflexivity]. cbn -[fill_pu]. rewrite pu_same; [reflexivity|]. intros b [q n o]. unfold fill_gparam. cbn [gp_bound gp_prefix gp_name]. rewrite bound_same. reflexivity. Qed.
Lemma where_same g : fill_where same g = g.
Proof. destruct g as [[k p]|]; [|reflexivity]. cbn -[fill_pu]. rewrite pu_same; [reflexivity|]. intros b [? []]. reflexivity. Qed.
Lemma nfield_same b x : fill_nfield same b x = x. Proof. destruct x as [? ? ? ? []]. reflexivity. Qed.
Lemma fields_same x : fill_fields same x = x.
Proof. destruct x as [|[]|[]]; [reflexivity| |]; cbn -[fill_pu]; rewrite pu_same; auto using nfield_same. intros b [? ? []]. reflexivity. Qed.
Lemma function_same x : fill_function same x = x.
Proof.
  destruct x. unfold fill_function. cbn -[fill_pu]. rewrite generics_same, where_same, otype_same, pu_same; [reflexivity|]. intros b [|[? ? ? ? []]]; reflexivity.
Qed.
Lemma constant_same k : fill_constant same k = k. Proof. destruct k as [? ? ? ? ? ? [] ? [[]|] ?]; reflexivity. Qed.
Lemma alias_same t : fill_alias same t = t. Proof. destruct t. unfold fill_alias. cbn -[fill_bound fill_type]. rewrite bound_same, otype_same. reflexivity. Qed.
Lemma impl_member_same m : fill_impl_member same m = m. Proof. destruct m; cbn [fill_impl_member]; f_equal; auto using function_same, constant_same, alias_same. Qed.
Lemma trait_member_same m : fill_trait_member same m = m. Proof. destruct m; cbn [fill_trait_member]; f_equal; auto using function_same, constant_same, alias_same. Qed.
Theorem C106_identity (i : item) : fill_item same i = i.
Proof.
  induction i as [m IH|i No] using item_nested_ind.
  - destruct m. cbn [fill_item]. do 2 f_equal. apply list_id, Forall_forall, IH.
  - destruct i as [[xa xv xk xn xg xw xf xs]|[xa xv xk xn xg xw xb xvs]|[xa xv xk xn xg xw [xf xb]]|m|[xa xv xu xk xn xg xbd xw xbr xia xms]|[xa xu xk xg xt xf xs xw xbr xia xms]|t|x|k|[xa xv xk xt xs]|m|[xa xv xu xe xab xbr xia xms]|c];
      cbn [fill_item]; rewrite ?generics_same, ?where_same, ?fields_same, ?bound_same, ?otype_same, ?type_same; try reflexivity.
    + rewrite pu_same; [reflexivity|]. intros b [a v n x e]. unfold fill_variant. cbn [ev_fields ev_attributes ev_vis ev_name ev_value]. rewrite fields_same. reflexivity.
    + rewrite pu_same by auto using nfield_same. reflexivity.
    + exfalso. eapply No. reflexivity.
    + rewrite list_id by auto using trait_member_same. reflexivity.
    + rewrite list_id by auto using impl_member_same. reflexivity.
    + rewrite alias_same. reflexivity.
    + rewrite function_same. reflexivity.
    + rewrite constant_same. reflexivity.
    + rewrite list_id by auto using impl_member_same. reflexivity.
Qed.
End Same.
Section Twice.
Variables f g : place -> list tok -> list tok.
Notation both := (fun p ts => g p (f p ts)).
Lemma opt_twice {A} (h k l : A -> A) o : (forall x, h (k x) = l x) -> option_map h (option_map k o) = option_map l o.
Proof. intro H. destruct o; cbn; rewrite ?H; reflexivity. Qed.
Lemma generics_twice x : fill_generics g (fill_generics f x) = fill_generics both x.
Proof.
  apply opt_twice. intros [l p r]. cbn -[fill_pu]. f_equal. apply pu_twice. intros b [q n o]. unfold fill_gparam. cbn [gp_prefix gp_name gp_bound]. f_equal. apply opt_twice. reflexivity.
Qed.
Lemma where_twice x : fill_where g (fill_where f x) = fill_where both x.
Proof. apply opt_twice. intros [k p]. cbn -[fill_pu]. f_equal. apply pu_twice. reflexivity. Qed.
Lemma fields_twice x : fill_fields g (fill_fields f x) = fill_fields both x.
Proof. destruct x; [reflexivity| |]; cbn -[fill_pu]; do 2 f_equal; apply pu_twice; reflexivity. Qed.
Lemma function_twice x : fill_function g (fill_function f x) = fill_function both x.
Proof.
  unfold fill_function. cbn -[fill_pu]. rewrite generics_twice, where_twice, (pu_twice _ _ (fill_param both)), (opt_twice _ _ (fill_type both PReturn)); try reflexivity.
  intros b []; reflexivity.
Qed.
Lemma constant_twice k : fill_constant g (fill_constant f k) = fill_constant both k.
Proof. unfold fill_constant. cbn. f_equal. apply opt_twice. reflexivity. Qed.
Lemma alias_twice k : fill_alias g (fill_alias f k) = fill_alias both k.
Proof. unfold fill_alias. cbn -[fill_bound fill_type]. f_equal; apply opt_twice; reflexivity. Qed.
Lemma impl_member_twice m : fill_impl_member g (fill_impl_member f m) = fill_impl_member both m.
Proof. destruct m; cbn [fill_impl_member]; f_equal; auto using function_twice, constant_twice, alias_twice. Qed.
Lemma trait_member_twice m : fill_trait_member g (fill_trait_member f m) = fill_trait_member both m.
Proof. destruct m; cbn [fill_trait_member]; f_equal; auto using function_twice, constant_twice, alias_twice. Qed.
Theorem C106_twice (i : item) : fill_item g (fill_item f i) = fill_item both i.
Proof.
  induction i as [m IH|i No] using item_nested_ind.
  - destruct m. cbn [fill_item]. do 2 f_equal. rewrite map_map. apply map_ext_in, Forall_forall, IH.
  - destruct i as [[xa xv xk xn xg xw xf xs]|[xa xv xk xn xg xw xb xvs]|[xa xv xk xn xg xw [xf xb]]|m|[xa xv xu xk xn xg xbd xw xbr xia xms]|[xa xu xk xg xt xf xs xw xbr xia xms]|t|x|k|[xa xv xk xt xs]|m|[xa xv xu xe xab xbr xia xms]|c];
      cbn [fill_item]; rewrite ?generics_twice, ?where_twice, ?fields_twice; try reflexivity.
    + rewrite (pu_twice _ _ (fill_variant both)); [reflexivity|]. intros b [a v n x e]. unfold fill_variant. cbn [ev_fields ev_attributes ev_vis ev_name ev_value]. rewrite fields_twice. reflexivity.
    + rewrite (pu_twice _ _ (fill_nfield both)) by reflexivity. reflexivity.
    + exfalso. eapply No. reflexivity.
    + rewrite map_map, (map_ext _ _ trait_member_twice), (opt_twice _ _ (fill_bound both PSuper)); reflexivity.
    + rewrite map_map, (map_ext _ _ impl_member_twice).
      assert (G : some (fill_generics f xg) = some xg) by (destruct xg; reflexivity). rewrite G. destruct xt; reflexivity.
    + rewrite alias_twice. reflexivity.
    + rewrite function_twice. reflexivity.
    + rewrite constant_twice. reflexivity.
    + rewrite map_map, (map_ext _ _ impl_member_twice). reflexivity.
Qed.
End Twice.

(** ** An item is preserved exactly if its skeleton is and every run fits *)
Definition blank (_ : place) (_ : list tok) : list tok := [TIdent (mkIdent "x" call_site)].
Definition fit1 (x : run) : bool := fitb (fst x) (snd x).
Lemma fit1_pair p ts : fit1 (p, ts) = fitb p ts. Proof. reflexivity. Qed.
Lemma pu_blank {A} (wf : bool -> A -> bool) (g : bool -> A -> A) (d : bool -> A -> list run) p :
  (forall b x, wf b x = wf b (g b x) && forallb fit1 (d b x)) -> wf_punctuated wf p = wf_punctuated wf (fill_pu g p) && forallb fit1 (runs_pu d p).
Proof.
  intro H. unfold wf_punctuated, fill_pu, runs_pu. cbn [pu_inner pu_skip_last]. generalize (pu_skip_last p). intro sk.
  induction (pu_inner p) as [|[x c] l IH]; [cbn; btauto|]. destruct l as [|[y e] l].
  - cbn [fill_inner runs_inner wf_inner]. rewrite (H _ x). btauto.
  - assert (N : exists z r, fill_inner g sk ((y, e) :: l) = z :: r) by (destruct l; cbn; eauto). destruct N as (z & r & N).
    change (wf_inner wf sk ((x, c) :: (y, e) :: l)) with (wf true x && p_is "," c && wf_inner wf sk ((y, e) :: l)).
    change (fill_inner g sk ((x, c) :: (y, e) :: l)) with ((g true x, c) :: fill_inner g sk ((y, e) :: l)).
    change (runs_inner d sk ((x, c) :: (y, e) :: l)) with (d true x ++ runs_inner d sk ((y, e) :: l)).
    rewrite forallb_app, IH, (H _ x), N. change (wf_inner wf sk ((g true x, c) :: z :: r)) with (wf true (g true x) && p_is "," c && wf_inner wf sk (z :: r)). btauto.
Qed.
Lemma opt_blank {A} (wf : A -> bool) (g : A -> A) (d : A -> list run) o : (forall x, wf x = wf (g x) && forallb fit1 (d x)) ->
  wf_opt wf o = wf_opt wf (option_map g o) && forallb fit1 (runs_opt d o).
Proof. intro H. destruct o; cbn; auto. Qed.
Lemma bound_blank P p b : (forall ts, fitb p ts = run_closed P ts) -> run_closed P (blank p []) = true ->
  wf_bound P b = wf_bound P (fill_bound blank p b) && forallb fit1 (runs_bound p b).
Proof. intros H E. unfold wf_bound, runs_bound. cbn [fill_bound gb_colon gb_tokens forallb]. unfold fit1. cbn [fst snd]. rewrite H. unfold blank in *. rewrite E. btauto. Qed.
Lemma gparam_blank b p : wf_generic_param b p = wf_generic_param b (fill_gparam blank b p) && forallb fit1 (runs_opt (runs_bound PParam) (gp_bound p)).
Proof.
  unfold wf_generic_param. cbn [fill_gparam gp_prefix gp_name gp_bound].
  rewrite (opt_blank _ (fill_bound blank PParam) (runs_bound PParam) (gp_bound p)) by (intro; apply bound_blank; auto using fit_param). btauto.
Qed.
Lemma generics_blank g : wf_opt wf_generics g = wf_opt wf_generics (fill_generics blank g) && forallb fit1 (runs_generics g).
Proof.
  unfold fill_generics, runs_generics. apply opt_blank. intros [l p r]. unfold wf_generics. cbn [gpl_l gpl_params gpl_r].
  rewrite (pu_blank _ _ (fun _ p => runs_opt (runs_bound PParam) (gp_bound p)) p gparam_blank). btauto.
Qed.
Lemma pred_blank b w : wf_where_predicate b w = wf_where_predicate b (fill_pred blank b w) && forallb fit1 ((PLeft, wp_left w) :: runs_bound PWhere (wp_bound w)).
Proof.
  unfold wf_where_predicate. cbn [fill_pred wp_left wp_bound forallb]. unfold fit1 at 1. cbn [fst snd]. rewrite fit_left.
  rewrite (bound_blank end_where_item PWhere (wp_bound w)) by auto using fit_where. 
  change (run_closed (is_punct ":") (blank PLeft _)) with true. change (head_is (is_group Brace) (blank PLeft _)) with false. change (head_is (is_punct ";") (blank PLeft _)) with false. btauto.
Qed.
Lemma where_blank w : wf_opt wf_where w = wf_opt wf_where (fill_where blank w) && forallb fit1 (runs_where w).
Proof.
  unfold fill_where, runs_where. apply opt_blank. intros [k p]. unfold wf_where. cbn [wc_where wc_items].
  rewrite (pu_blank _ _ (fun _ p => (PLeft, wp_left p) :: runs_bound PWhere (wp_bound p)) p pred_blank). btauto.
Qed.
Lemma tfield_blank b x : wf_tuple_field b x = wf_tuple_field b (fill_tfield blank b x) && forallb fit1 (runs_tfield b x).
Proof.
  unfold wf_tuple_field, wf_field_ty, runs_tfield, runs_type, fit1. cbn [fill_tfield fill_type te_tokens tf_attributes tf_vis tf_ty forallb fst snd].
  destruct (wf_opt wf_vis (tf_vis x)) eqn:W; [|btauto]. rewrite fit_tuple by auto.
  assert (E : prefix_ok (tf_vis x) (blank (PTuple (before_of (tf_vis x)) b) (te_tokens (tf_ty x))) = true)
    by (unfold prefix_ok, blank; destruct (tf_vis x) as [[[] []]|]; cbn; rewrite ?andb_false_r; reflexivity).
  rewrite E. destruct b; cbn; btauto.
Qed.
Lemma nfield_blank b x : wf_named_field b x = wf_named_field b (fill_nfield blank b x) && forallb fit1 (runs_nfield b x).
Proof.
  unfold wf_named_field, wf_field_ty, runs_nfield, runs_type, fit1. cbn [fill_nfield fill_type te_tokens nf_attributes nf_vis nf_name nf_colon nf_ty forallb fst snd].
  rewrite fit_type. destruct b; cbn -[prefix_ok]; btauto.
Qed.
Lemma fields_blank x : wf_fields x = wf_fields (fill_fields blank x) && forallb fit1 (runs_fields x).
Proof.
  destruct x as [|x|x]; cbn [fill_fields wf_fields runs_fields]; [reflexivity| |]; unfold wf_tuple_fields, wf_named_fields; cbn [tfs_fields tfs_parens nfs_fields nfs_braces].
  - rewrite (pu_blank _ _ _ (tfs_fields x) tfield_blank). btauto.
  - rewrite (pu_blank _ _ _ (nfs_fields x) nfield_blank). btauto.
Qed.
Lemma variant_blank b v : wf_variant b v = wf_variant b (fill_variant blank b v) && forallb fit1 (runs_variant b v).
Proof. unfold wf_variant, runs_variant. cbn [fill_variant ev_attributes ev_vis ev_name ev_fields ev_value]. rewrite (fields_blank (ev_fields v)). btauto. Qed.
Lemma param_blank b p : wf_fn_param b p = wf_fn_param b (fill_param blank b p) && forallb fit1 (runs_param b p).
Proof.
  destruct p as [r|t]; [cbn [fill_param runs_param forallb]; btauto|]. cbn [fill_param wf_fn_param runs_param ft_attributes ft_mut ft_name ft_colon ft_ty].
  unfold wf_field_ty, runs_type, fit1. cbn [fill_type te_tokens forallb fst snd]. rewrite fit_type. destruct b; cbn; btauto.
Qed.
Lemma function_blank x : wf_function x = wf_function (fill_function blank x) && forallb fit1 (runs_function x).
Proof.
  unfold wf_function, runs_function.
  cbn [fill_function fn_attributes fn_vis fn_qualifiers_ fn_kw fn_name fn_generics fn_parens fn_params fn_where fn_arrow fn_ret fn_semicolon fn_body].
  rewrite (generics_blank (fn_generics x)), (where_blank (fn_where x)), (pu_blank _ _ _ (fn_params x) param_blank), !forallb_app.
  destruct (fn_arrow x) as [[]|], (fn_ret x) as [t|]; cbn [option_map runs_opt runs_type forallb]; unfold fit1; cbn [fst snd fill_type te_tokens]; rewrite ?fit_return;
    change (run_closed end_return (blank PReturn _)) with true; btauto.
Qed.
Lemma constant_blank k : shape_constant k = shape_constant (fill_constant blank k) && forallb fit1 (runs_constant k).
Proof.
  unfold shape_constant, runs_constant.
  cbn [fill_constant co_attributes co_vis co_kw co_mut co_name co_colon co_ty co_equals co_init co_semicolon fill_type te_tokens forallb].
  unfold fit1 at 1. cbn [fst snd]. rewrite fit_const. change (run_closed end_const_ty (blank PConst _)) with true.
  destruct (co_equals k), (co_init k); cbn [option_map runs_opt forallb ve_tokens]; unfold fit1; cbn [fst snd]; rewrite ?fit_value;
    change (run_closed end_semicolon (blank PValue _)) with true; change (nonempty (blank PValue _)) with true; btauto.
Qed.
Lemma alias_blank t : wf_type_alias t = wf_type_alias (fill_alias blank t) && forallb fit1 (runs_alias t).
Proof.
  unfold wf_type_alias, runs_alias. cbn [fill_alias ta_attributes ta_vis ta_type ta_name ta_bound ta_equals ta_init ta_semicolon].
  rewrite (opt_blank _ (fill_bound blank PAliasBound) (runs_bound PAliasBound) (ta_bound t)) by (intro; apply bound_blank; auto using fit_abound). rewrite forallb_app.
  destruct (ta_equals t), (ta_init t); cbn [option_map runs_opt runs_type forallb fill_type te_tokens]; rewrite ?fit1_pair, ?fit_alias;
    change (run_closed end_semicolon (blank PAlias _)) with true; btauto.
Qed.
Lemma impl_member_blank b m : shape_impl_member b m = shape_impl_member b (fill_impl_member blank m) && forallb fit1 (runs_impl_member m).
Proof.
  destruct m as [x|k|t|m]; cbn [fill_impl_member shape_impl_member runs_impl_member]; [apply function_blank| |apply alias_blank|cbn [forallb]; btauto].
  rewrite constant_blank. change (co_kw (fill_constant blank k)) with (co_kw k). btauto.
Qed.
Lemma trait_member_blank m : shape_trait_member m = shape_trait_member (fill_trait_member blank m) && forallb fit1 (runs_trait_member m).
Proof. pose proof (impl_member_blank false (impl_of_trait_member m)) as H. destruct m; exact H. Qed.
Lemma impl_stable m : stable_impl_member (fill_impl_member blank m) = stable_impl_member m. Proof. destruct m; reflexivity. Qed.
Lemma trait_stable m : stable_trait_member (fill_trait_member blank m) = stable_trait_member m. Proof. destruct m; reflexivity. Qed.
Lemma list_blank {A} (p : A -> bool) (g : A -> A) (d : A -> list run) l : Forall (fun x => p x = p (g x) && forallb fit1 (d x)) l ->
  forallb p l = forallb p (map g l) && forallb fit1 (flat_map d l).
Proof. intro H. induction H as [|x l Hx _ IH]; [reflexivity|]. cbn. rewrite forallb_app, IH, Hx. btauto. Qed.
Lemma list_stable {A} (q : A -> bool) (g : A -> A) l : (forall x, In x l -> q (g x) = q x) -> forallb q (map g l) = forallb q l.
Proof. intro H. induction l as [|x l IH]; [reflexivity|]. cbn. rewrite H, IH; auto using in_eq, in_cons. Qed.
Lemma stable_blank i : stable_item (fill_item blank i) = stable_item i.
Proof.
  induction i as [m IH|i No] using item_nested_ind.
  - destruct m as [a v u k n s b ia ms]. cbn [mo_members] in IH. cbn [fill_item stable_item mo_members]. rewrite fill_members, list_stable; [reflexivity|]. apply Forall_forall, IH.
  - destruct i as [[xa xv xk xn xg xw xf xs]|[xa xv xk xn xg xw xb xvs]|[xa xv xk xn xg xw [xf xb]]|m|[xa xv xu xk xn xg xbd xw xbr xia xms]|[xa xu xk xg xt xf xs xw xbr xia xms]|t|x|k|[xa xv xk xt xs]|m|[xa xv xu xe xab xbr xia xms]|c];
      try reflexivity; cbn [fill_item stable_item tr_items im_items eb_items].
    + unfold stable_struct. cbn [st_fields st_semicolon]. destruct xf; reflexivity.
    + exfalso. eapply No. reflexivity.
    + apply list_stable. auto using trait_stable.
    + apply list_stable. auto using impl_stable.
    + apply list_stable. auto using impl_stable.
Qed.
Lemma shape_blank i : shape_item i = shape_item (fill_item blank i) && forallb fit1 (runs_item i).
Proof.
  induction i as [m IH|i No] using item_nested_ind.
  - destruct m as [a v u k n s b ia ms]. cbn [mo_members] in IH. cbn [fill_item shape_item runs_item mo_members]. unfold shape_module.
    cbn [mo_attributes mo_vis mo_unsafe mo_mod mo_name mo_semicolon mo_braces mo_inner_attributes mo_members].
    assert (N : nonempty (map (fill_item blank) ms) = nonempty ms) by (destruct ms; reflexivity). rewrite N, (list_blank _ _ _ _ IH).
    destruct s, b; try btauto. destruct ms; cbn [nonempty flat_map forallb]; btauto.
  - destruct i as [[xa xv xk xn xg xw xf xs]|[xa xv xk xn xg xw xb xvs]|[xa xv xk xn xg xw [xf xb]]|m|[xa xv xu xk xn xg xbd xw xbr xia xms]|[xa xu xk xg xt xf xs xw xbr xia xms]|t|x|k|[xa xv xk xt xs]|m|[xa xv xu xe xab xbr xia xms]|c];
      cbn [fill_item shape_item runs_item].
    + unfold shape_struct. cbn [st_attributes st_vis st_struct st_name st_generics st_where st_fields st_semicolon]. rewrite !forallb_app, (fields_blank xf), (generics_blank xg), (where_blank xw).
      assert (E : match fill_fields blank xf with FUnit => some xs | _ => true end = match xf with FUnit => some xs | _ => true end) by (destruct xf; reflexivity). rewrite E. btauto.
    + unfold wf_enum. cbn [en_attributes en_vis en_enum en_name en_generics en_where en_braces en_variants]. rewrite !forallb_app, (generics_blank xg), (where_blank xw), (pu_blank _ _ _ xvs variant_blank). btauto.
    + unfold wf_union, wf_named_fields. cbn [un_attributes un_vis un_union un_name un_generics un_where un_fields nfs_fields nfs_braces runs_fields].
      rewrite !forallb_app, (generics_blank xg), (where_blank xw), (pu_blank _ _ _ xf nfield_blank). btauto.
    + exfalso. eapply No. reflexivity.
    + unfold shape_trait. cbn [tr_attributes tr_vis tr_unsafe tr_trait tr_name tr_generics tr_bound tr_where tr_braces tr_inner_attributes tr_items].
      rewrite !forallb_app, (generics_blank xg), (where_blank xw), (list_blank shape_trait_member (fill_trait_member blank) runs_trait_member xms) by (apply Forall_forall; auto using trait_member_blank).
      rewrite (opt_blank _ (fill_bound blank PSuper) (runs_bound PSuper) xbd) by (intro; apply bound_blank; auto using fit_super). btauto.
    + unfold shape_impl. cbn [im_attributes im_unsafe im_impl im_generics im_trait im_for im_self im_where im_braces im_inner_attributes im_items].
      rewrite !forallb_app, (generics_blank xg), (where_blank xw), (list_blank (shape_impl_member false) (fill_impl_member blank) runs_impl_member xms) by (apply Forall_forall; auto using impl_member_blank).
      assert (G : some (fill_generics blank xg) = some xg) by (destruct xg; reflexivity). rewrite G.
      destruct xt, xf; cbn [option_map runs_opt runs_type forallb fill_type te_tokens self_place]; rewrite ?fit1_pair, ?fit_trait, ?fit_self, ?fit_inherent;
        change (run_closed end_impl_header (blank _ _)) with true; change (run_closed end_impl_self (blank _ _)) with true; change (head_is (is_punct "<") (blank _ _)) with false; btauto.
    + apply alias_blank.
    + apply function_blank.
    + apply constant_blank.
    + unfold wf_use, runs_type, fit1. cbn [us_attributes us_vis us_use us_tree us_semicolon fill_type te_tokens forallb fst snd]. rewrite fit_use.
      change (run_closed end_semicolon (blank _ _)) with true. btauto.
    + cbn [forallb]. btauto.
    + unfold shape_extern_block. cbn [eb_attributes eb_vis eb_unsafe eb_extern eb_abi eb_braces eb_inner_attributes eb_items].
      rewrite (list_blank (shape_impl_member true) (fill_impl_member blank) runs_impl_member xms) by (apply Forall_forall; auto using impl_member_blank). btauto.
    + cbn [forallb]. btauto.
Qed.
Theorem C106_skeleton (i : item) : parse_item (print_item i) = Ret (Ok i) <->
  parse_item (print_item (fill_item blank i)) = Ret (Ok (fill_item blank i)) /\ Forall (fun x => fits (fst x) (snd x)) (runs_item i).
Proof.
  rewrite !C01_print_parse_iff. unfold wf_item. rewrite stable_blank, (fill_follow _ i [] []), (shape_blank i) by auto.
  rewrite !andb_true_iff, forallb_forall, Forall_forall. setoid_rewrite fits_spec. unfold fit1. tauto.
Qed.
(** So two items that differ in their runs only, each run being replaced on its own, fare alike but for the runs. *)
Theorem C106_replace (i j : item) : parse_item (print_item i) = Ret (Ok i) -> fill_item blank j = fill_item blank i ->
  (parse_item (print_item j) = Ret (Ok j) <-> Forall (fun x => fits (fst x) (snd x)) (runs_item j)).
Proof. rewrite (C106_skeleton i), (C106_skeleton j). intros [H _] ->. tauto. Qed.

(** ** What Rust writes there fits *)
Definition of_type (p : place) : bool := match p with PType _ | PReturn | PConst | PAlias | PSelf | PTuple BOther _ => true | _ => false end.
Definition of_bound (p : place) : bool := match p with PWhere | PAliasBound | PSuper => true | _ => false end.
Lemma fits_of p ts : fitb p ts = true -> fits p ts. Proof. apply fits_spec. Qed.
Theorem C106_rust_type (p : place) (ts : list tok) : rust_type anywhere ts -> of_type p = true -> fits p ts.
Proof.
  intros T H. pose proof (type_passes _ _ T) as P. destruct (type_headed _ _ T) as (x & r & E & _). apply fits_of.
  destruct p as [c|[] c| | | | | | | | | | | | | ]; try discriminate.
  - rewrite fit_type, (passes_closed anywhere), (passes_any anywhere), E by auto using compat_comma. destruct c; reflexivity.
  - unfold fitb. rewrite (closed_same _ _ _ (e_tuple BOther c)), (any_same _ _ _ (e_tuple BOther c)), (passes_closed anywhere), (passes_any anywhere), E by auto using compat_comma.
    destruct c; reflexivity.
  - rewrite fit_return. eapply passes_closed; eauto using compat_return.
  - rewrite fit_const. eapply passes_closed; eauto using compat_const_ty.
  - rewrite fit_alias. eapply passes_closed; eauto using compat_semicolon.
  - rewrite fit_self. eapply passes_closed; eauto using compat_impl_self.
Qed.
Theorem C106_rust_bounds (p : place) (ts : list tok) :
  (rust_bounds anywhere ts -> of_bound p = true -> fits p ts) /\ (rust_bounds no_arrow ts -> fits PParam ts) /\ (rust_value ts -> fits PValue ts).
Proof.
  split; [|split].
  - intros T H. pose proof (bounds_passes _ _ T) as P. apply fits_of. destruct p; try discriminate.
    + rewrite fit_where. eapply passes_closed; eauto using compat_where_item.
    + rewrite fit_abound. eapply passes_closed; eauto using compat_const_ty.
    + rewrite fit_super. eapply passes_closed; eauto using compat_supertraits.
  - intro T. apply fits_of. rewrite fit_param. eapply passes_closed; [apply bounds_passes, T|apply compat_param].
  - intro T. apply fits_of. rewrite fit_value. apply (value_wf (mkValueExpr ts)), T.
Qed.

(** The hypotheses hold and both sides of C106_fill occur. *)
Definition put (at_ : place -> bool) (s : string) (p : place) (ts : list tok) : list tok := if at_ p then lex s else ts.
Definition kept (s : string) (at_ : place -> bool) (new : string) : Prop :=
  let i := item_of s in let j := fill_item (put at_ new) i in
  parse_item (print_item i) = Ret (Ok i) /\ i <> j /\ parse_item (print_item j) = Ret (Ok j).
Definition lost (s : string) (at_ : place -> bool) (new : string) : Prop :=
  let i := item_of s in let j := fill_item (put at_ new) i in
  parse_item (print_item i) = Ret (Ok i) /\ parse_item (print_item j) <> Ret (Ok j).
Definition fill_text : string :=
  "mod m { struct A<'a, T: X, const N: usize>(pub T, u8) where T: Y, Vec<T>: Z; trait B: C { type D: E; fn f(&self, x: u8) -> u8; } impl F for G { const H: u8 = 1; } impl I { } use j::k; }".
Example C106_ex1 :
  map (fun x => (fst x, texts (snd x))) (runs_item (item_of fill_text))
  = [(PParam, ["X"]); (PParam, ["usize"]); (PLeft, ["T"]); (PWhere, ["Y"]); (PLeft, ["Vec"; "<"; "T"; ">"]); (PWhere, ["Z"]);
     (PTuple BPub true, ["T"]); (PTuple BNothing false, ["u8"]); (PSuper, ["C"]); (PAliasBound, ["E"]); (PType false, ["u8"]); (PReturn, ["u8"]);
     (PTrait false, ["F"]); (PSelf, ["G"]); (PConst, ["u8"]); (PValue, ["1"]); (PInherent false, ["I"]); (PUse, ["j"; ":"; ":"; "k"])].
Proof. vm_compute. reflexivity. Qed.
(** A where clause may hold anything but a colon on the left; an impl without generics may not start with a
    qualified path; brackets may be left open at the end of a list only; a tuple may not come after [pub]. *)
Example C106_ex2 :
  kept fill_text (fun p => match p with PLeft => true | _ => false end) "where for , x" /\ lost fill_text (fun p => match p with PLeft => true | _ => false end) "T::U"
  /\ kept "impl<T> A for B { }" (fun p => match p with PTrait true => true | _ => false end) "<T as X>::Y"
  /\ lost "impl A for B { }" (fun p => match p with PTrait _ => true | _ => false end) "<T as X>::Y"
  /\ kept "impl A for B { }" (fun p => match p with PSelf => true | _ => false end) "<T as X>::Y for"
  /\ kept "struct S(A, B);" (fun p => match p with PTuple _ false => true | _ => false end) "Vec<T, U"
  /\ lost "struct S(A, B);" (fun p => match p with PTuple _ true => true | _ => false end) "Vec<T, U".
Proof. repeat (split; [vm_compute; repeat split; discriminate|]). vm_compute; repeat split; discriminate. Qed.
Example C106_ex3 :
  kept "struct S(A, B);" (fun p => match p with PTuple BNothing _ => true | _ => false end) "(u8, u8)"
  /\ lost "struct S(pub A, B);" (fun p => match p with PTuple BPub _ => true | _ => false end) "(u8, u8)"
  /\ lost "struct S(A, B);" (fun p => match p with PTuple BNothing _ => true | _ => false end) "crate::T"
  /\ kept "const C: u8 = 1;" (fun p => match p with PConst => true | _ => false end) "" /\ lost "const C: u8 = 1;" (fun p => match p with PValue => true | _ => false end) ""
  /\ kept "struct S<T: A> { x: T }" (fun p => match p with PParam => true | _ => false end) "Fn(A)" /\ lost "struct S<T: A> { x: T }" (fun p => match p with PParam => true | _ => false end) "Fn(A) -> B".
Proof. repeat (split; [vm_compute; repeat split; discriminate|]). vm_compute; repeat split; discriminate. Qed.
(** Two fields of the same type get different ones. *)
Definition set_two (one two : string) (i : item) : item :=
  match i with
  | IStruct (mkStruct a v k n g w (FTuple (mkTupleFields (mkPunctuated [(x, c); (y, d)] sk) ps)) s) =>
      IStruct (mkStruct a v k n g w (FTuple (mkTupleFields (mkPunctuated
        [(mkTupleField (tf_attributes x) (tf_vis x) (mkTypeExpr (lex one)), c); (mkTupleField (tf_attributes y) (tf_vis y) (mkTypeExpr (lex two)), d)] sk) ps)) s)
  | i => i
  end.
Example C106_ex4 :
  let i := item_of "struct S(A, A);" in
  parse_item (print_item i) = Ret (Ok i)
  /\ (let j := set_two "Vec<A, B>" "[u8; 4]" i in fill_item blank j = fill_item blank i /\ parse_item (print_item j) = Ret (Ok j))
  /\ (let j := set_two "Vec<A>" "A, B" i in fill_item blank j = fill_item blank i /\ parse_item (print_item j) <> Ret (Ok j)).
Proof. vm_compute. repeat split; discriminate. Qed.

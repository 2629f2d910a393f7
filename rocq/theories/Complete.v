(** Completeness of the leaf parsers: reading back a printed, well-formed tree. *)
From Verif Require Export Base.

Lemma consume_ident_no s ts : head_is (is_ident s) ts = false -> consume_ident s ts = (None, ts).
Proof.
  destruct ts as [|t r]; simpl; auto. destruct t; simpl; auto. intros ->. reflexivity.
Qed.
Lemma consume_punct_no c ts : head_is (is_punct c) ts = false -> consume_punct c ts = (None, ts).
Proof.
  destruct ts as [|t r]; simpl; auto. destruct t; simpl; auto. intros ->. reflexivity.
Qed.
Lemma consume_punct_yes c p r : p_is c p = true -> consume_punct c (TPunct p :: r) = (Some p, r).
Proof. intro H. simpl. rewrite H. reflexivity. Qed.
Lemma consume_ident_yes s i r : id_is s i = true -> consume_ident s (TIdent i :: r) = (Some i, r).
Proof. intro H. simpl. rewrite H. reflexivity. Qed.

Lemma consume_ident_opt s o rest :
  wf_opt (id_is s) o = true -> (o = None -> head_is (is_ident s) rest = false) ->
  consume_ident s (print_opt print_ident o ++ rest) = (o, rest).
Proof.
  intros. destruct o; simpl in *.
  - rewrite H. reflexivity.
  - apply consume_ident_no; auto.
Qed.
Lemma consume_punct_opt c o rest :
  wf_opt (p_is c) o = true -> (o = None -> head_is (is_punct c) rest = false) ->
  consume_punct c (print_opt print_punct o ++ rest) = (o, rest).
Proof.
  intros. destruct o; simpl in *.
  - rewrite H. reflexivity.
  - apply consume_punct_no; auto.
Qed.

(** ** Attributes *)
Lemma attribute_path_complete path : forall vt,
  forallb path_token path = true ->
  match vt with [] => True | TGroup _ :: _ => True | TPunct p :: _ => p_is "=" p = true | _ => False end ->
  attribute_path (path ++ vt) = Ret (path, vt).
Proof.
  induction path as [|t r IH]; intros vt Hp Hv; simpl in *.
  - destruct vt as [|[g|i|p|l] vt]; simpl; auto; try contradiction. rewrite Hv. reflexivity.
  - bsplit. destruct t as [g|i|p|l]; simpl in *; try discriminate; rewrite IH by auto; auto.
    known. reflexivity.
Qed.

Lemma parse_attribute_complete inner a extra :
  wf_attribute inner a = true ->
  match at_value a with AVGroup _ _ => True | _ => extra = [] end ->
  parse_attribute (at_hash a) (at_bang a)
    (mkGroup (gs_delim (at_brackets a)) (at_path a ++ print_attribute_value (at_value a) ++ extra)
             (gs_span (at_brackets a))) = Ret a.
Proof.
  destruct a as [h b [d sp] path v]. unfold wf_attribute. simpl. intros H Hx. bsplit.
  unfold parse_attribute. cbn [g_stream].
  rewrite attribute_path_complete; auto.
  - unfold group_span_new. destruct v as [[gd gsp] s|p l|]; simpl in *; subst; auto.
    rewrite H0, app_nil_r. reflexivity.
  - destruct v as [[gd gsp] s|p l|]; simpl in *; subst; auto.
Qed.

Lemma attributes_cons inner a c rest :
  wf_attribute inner a = true -> spells_attribute a c ->
  consume_attributes_with_inner inner (c ++ rest)
  = do (l, r) <- consume_attributes_with_inner inner rest ;; Ret (a :: l, r).
Proof.
  intros H (extra & -> & Hx). pose proof (parse_attribute_complete _ _ extra H Hx) as Hp.
  destruct a as [h b [d sp] path v]. unfold wf_attribute in H. simpl in *. bsplit. known.
  destruct b as [b|]; bsplit; known; subst inner || (destruct inner; [discriminate|]);
    cbn [at_hash at_bang at_brackets at_path at_value print_opt print_punct
      quote_with gs_delim gs_span app consume_attributes_with_inner p_is p_char Ascii.eqb Bool.eqb g_delim delim_eqb];
    rewrite Hp; reflexivity.
Qed.

Global Arguments consume_attributes_with_inner : simpl never.

(** What may follow inner attributes. *)
Definition inner_follow (rest : list tok) : bool :=
  match rest with
  | TPunct p :: r => negb (p_is "#" p) || head_is (is_group Bracket) r
  | _ => true
  end.

Lemma outer_attributes_complete l c rest :
  wf_outer l = true -> spells_attributes l c -> head_is (is_punct "#") rest = false ->
  consume_outer_attributes (c ++ rest) = Ret (l, rest).
Proof.
  unfold consume_outer_attributes. intros H Hc Hr. revert c Hc. induction l as [|a l IH]; intros c Hc.
  - simpl in Hc. subst. unfold consume_attributes_with_inner.
    destruct rest as [|[g|i|p|li] r]; simpl in *; auto. rewrite Hr. reflexivity.
  - destruct Hc as (c1 & c2 & -> & H1 & H2). simpl in H. bsplit. app_norm.
    rewrite (attributes_cons _ a) by auto. rewrite IH by auto. reflexivity.
Qed.
Lemma inner_attributes_complete l c rest :
  wf_inner_attrs l = true -> spells_attributes l c -> inner_follow rest = true ->
  consume_inner_attributes (c ++ rest) = Ret (l, rest).
Proof.
  unfold consume_inner_attributes. intros H Hc Hr. revert c Hc. induction l as [|a l IH]; intros c Hc.
  - simpl in Hc. subst. unfold consume_attributes_with_inner.
    destruct rest as [|[g|i|p|li] r]; simpl in *; auto. destruct (p_is "#" p); auto. simpl in Hr.
    destruct r as [|[g|i|q|li] r]; simpl in *; try discriminate. rewrite Hr. reflexivity.
  - destruct Hc as (c1 & c2 & -> & H1 & H2). simpl in H. bsplit. app_norm.
    rewrite (attributes_cons _ a) by auto. rewrite IH by auto. reflexivity.
Qed.

(** ** Visibility *)
Lemma vis_complete v rest :
  wf_opt wf_vis v = true -> prefix_ok v rest = true ->
  consume_vis_marker (print_opt print_vis v ++ rest) = (v, rest).
Proof.
  destruct v as [[t1 t2]|]; simpl.
  - destruct t1 as [g|i|p|l]; try discriminate.
    destruct t2 as [[g|j|p|l]|]; try discriminate; simpl; intros H Hr; bsplit.
    + known. cbn. destruct g; simpl in *; known; reflexivity.
    + destruct (id_is "pub" i); simpl in *.
      * destruct rest as [|[g|j|p|l] r]; simpl in *; auto. bsplit. rewrite Hr. reflexivity.
      * rewrite H. reflexivity.
  - intros _ H. bsplit. destruct rest as [|[g|j|p|l] r]; simpl in *; auto.
    rewrite H0, H1. reflexivity.
Qed.

(** The token after the attributes is not ['#']. *)
Lemma prefix_head v rest :
  wf_opt wf_vis v = true -> prefix_ok v rest = true ->
  head_is (is_punct "#") (print_opt print_vis v ++ rest) = false.
Proof.
  destruct v as [[t1 t2]|]; simpl.
  - destruct t1; simpl; auto. discriminate.
  - intros _ H. bsplit. auto.
Qed.

Lemma attrs_vis_complete l c v rest :
  wf_outer l = true -> spells_attributes l c -> wf_opt wf_vis v = true -> prefix_ok v rest = true ->
  consume_outer_attributes (c ++ print_opt print_vis v ++ rest)
  = Ret (l, print_opt print_vis v ++ rest).
Proof. intros. apply outer_attributes_complete; auto. apply prefix_head; auto. Qed.

Lemma prefix_ok_cons v t rest :
  prefix_ok v [t] = true -> prefix_ok v (t :: rest) = true.
Proof. destruct v as [[[g|i|p|l] [t2|]]|]; simpl; auto. Qed.

(** An ident that is not a visibility keyword may always come next. *)
Lemma prefix_ok_ident v i rest :
  id_in vis_keywords i = false -> prefix_ok v (TIdent i :: rest) = true.
Proof.
  unfold vis_keywords, id_in. simpl. intro H. bsplit.
  destruct v as [[[g|j|p|l] [t2|]]|]; simpl; auto. 
  - rewrite andb_false_r. reflexivity.
  - rewrite H, H0. reflexivity.
Qed.

(** ** Comma-separated lists *)
Lemma default_comma_eq c : default_comma c = true -> c = punct_new "," Alone.
Proof.
  unfold default_comma. intro H. bsplit. destruct c as [cc cs csp]; simpl in *.
  destruct cs; try discriminate. apply Ascii.eqb_eq in H. apply N.eqb_eq in H0. subst. reflexivity.
Qed.

(** The printed form of a list is one of its spellings. *)
Lemma print_spells_inner {A} (pr : A -> list tok) (sp : A -> list tok -> Prop) gap skip l :
  (forall x p, In (x, p) l -> sp x (pr x)) -> spells_inner sp gap skip l (print_inner pr skip l).
Proof.
  induction l as [|[x p] l IH]; intro H.
  - reflexivity.
  - exists (pr x), (print_inner pr skip l). split; [apply (H x p); simpl; auto|].
    split; [apply IH; intros y q Hy; apply (H y q); simpl; auto|].
    destruct l as [|y l]; simpl; auto.
Qed.

Lemma spells_inner_length {A} (sp : A -> list tok -> Prop) gap wf skip l : forall c,
  (forall b x c, wf b x = true -> sp x c -> c <> []) ->
  wf_inner wf skip l = true -> spells_inner sp gap skip l c -> List.length l <= List.length c.
Proof.
  intros c Hne. revert c. induction l as [|[x p] l IH]; intros c Hw Hs; simpl; auto with arith.
  destruct Hs as (c1 & c2 & H1 & H2 & H3).
  destruct l as [|y l].
  - simpl in Hw. bsplit. assert (c1 <> []) by eauto. destruct c1; [congruence|].
    rewrite H3. simpl. lia.
  - change (wf true x && p_is "," p && wf_inner wf skip (y :: l) = true) in Hw. bsplit.
    specialize (IH c2 H0 H2). assert (c1 <> []) by eauto. destruct c1; [congruence|].
    destruct H3 as [->|(_ & _ & ->)]; rewrite app_length; simpl in *; lia.
Qed.

Lemma punct_loop_complete {A} stop (elem : parser A) (sp : A -> list tok -> Prop) gap wf
  (starts : list tok -> Prop) tail :
  (forall b x c r, wf b x = true -> sp x c -> starts (c ++ r)) ->
  (forall x c p rest, wf true x = true -> sp x c -> p_is "," p = true ->
     stop (c ++ TPunct p :: rest) = Ret false
     /\ elem (c ++ TPunct p :: rest) = Ret (x, TPunct p :: rest)) ->
  (forall x c rest, wf true x = true -> sp x c -> gap x = true -> starts rest ->
     stop (c ++ rest) = Ret false /\ elem (c ++ rest) = Ret (x, rest)
     /\ consume_comma rest = (None, rest)) ->
  (forall x c, wf false x = true -> sp x c ->
     stop (c ++ tail) = Ret false /\ elem (c ++ tail) = Ret (x, tail)) ->
  consume_comma tail = (None, tail) -> stop tail = Ret true ->
  forall skip l c acc fuel,
  wf_inner wf skip l = true -> spells_inner sp gap skip l c -> List.length l < fuel ->
  punct_loop stop elem fuel acc (c ++ tail)
  = Ret (mkPunctuated (pu_inner acc ++ l)
           (match l with [] => pu_skip_last acc | _ => skip end), tail).
Proof.
  intros Hst Hc Hg Hl Ht Hs skip l. induction l as [|[x p] l IH]; intros c acc fuel Hw Hsp Hf.
  - destruct fuel; [simpl in Hf; lia|]. simpl in *. subst. simpl. rewrite Hs. simpl. rewrite app_nil_r. destruct acc; reflexivity.
  - destruct fuel; [simpl in Hf; lia|]. simpl in Hf. destruct Hsp as (c1 & c2 & S1 & S2 & S3).
    destruct l as [|[y q] l].
    + cbn [wf_inner] in Hw. bsplit. cbn [punct_loop]. rewrite S3. destruct skip; simpl in *.
      * app_norm. destruct (Hl _ _ H S1) as [-> ->]. cbn [bind]. rewrite Ht.
        destruct fuel; [lia|]. cbn [punct_loop]. rewrite Hs. simpl. rewrite (default_comma_eq p) by auto.
        reflexivity.
      * app_norm. destruct (Hc x _ p tail H S1 H0) as [-> ->]. cbn [bind]. unfold consume_comma.
        rewrite consume_punct_yes by auto.
        destruct fuel; [lia|]. simpl. rewrite Hs. reflexivity.
    + change (wf true x && p_is "," p && wf_inner wf skip ((y, q) :: l) = true) in Hw. bsplit.
      assert (Hstart : starts (c2 ++ tail)).
      { destruct S2 as (d1 & d2 & D1 & D2 & D3).
        assert (Hy : exists b, wf b y = true) by (simpl in H0; destruct l; bsplit; eauto).
        destruct Hy as [b Hy].
        destruct l; [rewrite D3|destruct D3 as [->|(_ & _ & ->)]]; app_norm; eapply Hst; eauto. }
      cbn [punct_loop]. destruct S3 as [->|(G & D & ->)]; app_norm.
      * destruct (Hc x _ p (c2 ++ tail) H S1 H1) as [-> ->]. cbn [bind].
        unfold consume_comma. rewrite consume_punct_yes by auto.
        rewrite IH; auto; [|simpl in *; lia]. simpl. rewrite <- app_assoc. reflexivity.
      * destruct (Hg x _ (c2 ++ tail) H S1 G Hstart) as (-> & -> & Hcc). cbn [bind]. rewrite Hcc.
        rewrite IH; auto; [|simpl in *; lia]. simpl. rewrite (default_comma_eq p) by auto.
        rewrite <- app_assoc. reflexivity.
Qed.

(** With enough fuel and starting from the empty list. *)
Lemma punct_loop_ok {A} stop (elem : parser A) (sp : A -> list tok -> Prop) gap wf
  (starts : list tok -> Prop) tail p c :
  (forall b x c r, wf b x = true -> sp x c -> starts (c ++ r)) ->
  (forall b x c, wf b x = true -> sp x c -> c <> []) ->
  (forall x c p rest, wf true x = true -> sp x c -> p_is "," p = true ->
     stop (c ++ TPunct p :: rest) = Ret false
     /\ elem (c ++ TPunct p :: rest) = Ret (x, TPunct p :: rest)) ->
  (forall x c rest, wf true x = true -> sp x c -> gap x = true -> starts rest ->
     stop (c ++ rest) = Ret false /\ elem (c ++ rest) = Ret (x, rest)
     /\ consume_comma rest = (None, rest)) ->
  (forall x c, wf false x = true -> sp x c ->
     stop (c ++ tail) = Ret false /\ elem (c ++ tail) = Ret (x, tail)) ->
  consume_comma tail = (None, tail) -> stop tail = Ret true ->
  wf_punctuated wf p = true -> spells_punctuated sp gap p c ->
  punct_loop stop elem (loop_fuel (c ++ tail)) pu_new (c ++ tail) = Ret (p, tail).
Proof.
  intros Hst Hne Hc Hg Hl Ht Hs Hw Hsp. destruct p as [l skip].
  unfold wf_punctuated, spells_punctuated in *. cbn [pu_inner pu_skip_last] in *.
  rewrite (punct_loop_complete stop elem sp gap wf starts tail Hst Hc Hg Hl Ht Hs skip l c); auto.
  - f_equal. f_equal. simpl. destruct l; auto. simpl in Hw. destruct skip; [discriminate|reflexivity].
  - unfold loop_fuel. rewrite app_length.
    pose proof (spells_inner_length sp gap wf skip l c Hne Hw Hsp). lia.
Qed.

(** ** Bounds and generics *)
Lemma term_comma_field c : p_is "," c = true -> term (is_punct ",") (TPunct c) = true.
Proof. intro. known. reflexivity. Qed.

Lemma bound_some_complete P b rest :
  wf_bound P b = true -> head_is (term P) rest = true ->
  consume_bound P (print_bound b ++ rest) = Ret (Some b, rest).
Proof.
  destruct b as [c l]. unfold wf_bound. simpl. intros H Ht. bsplit. rewrite H.
  rewrite (until_term P false l rest) by auto. reflexivity.
Qed.

(** In front of '>' the generic-parameter test stops whether or not a dash precedes. *)
Lemma until_param_end body p rest :
  run_closed end_param body = true -> end_param (TPunct p) = true ->
  consume_stuff_until end_generic_param false (body ++ TPunct p :: rest) = Ret (body, TPunct p :: rest).
Proof.
  unfold run_closed. intros H He.
  destruct (scan end_param 0 false body) as [[d dash]|] eqn:E; [|discriminate].
  apply Z.eqb_eq in H. subst d.
  eapply until_complete; [exact E| |discriminate].
  unfold end_param in He. simpl in He. apply orb_true_iff in He.
  unfold run_end, stops, opens, closes, end_generic_param. simpl.
  destruct He; known; simpl; auto. destruct dash; auto.
Qed.

Lemma generic_param_complete p q rest :
  wf_generic_param true p = true -> end_param (TPunct q) = true ->
  stop_generic_params (print_generic_param p ++ TPunct q :: rest) = Ret false
  /\ parse_generic_param (print_generic_param p ++ TPunct q :: rest) = Ret (p, TPunct q :: rest).
Proof.
  destruct p as [pre name b]. unfold wf_generic_param. simpl. intros H He. bsplit.
  assert (Hb : consume_bound end_generic_param (print_opt print_bound b ++ TPunct q :: rest)
               = Ret (b, TPunct q :: rest)).
  { destruct b as [[c l]|]; simpl in *.
    - unfold wf_bound in H0. simpl in H0. bsplit. known. cbn [p_is p_char Ascii.eqb Bool.eqb].
      rewrite until_param_end by auto. reflexivity.
    - unfold end_param, end_generic_param in *. simpl in *. rewrite He.
      destruct (p_is ":" q) eqn:E; auto. apply orb_true_iff in He.
      destruct He; known; discriminate. }
  unfold parse_generic_param, print_generic_param. cbn [gp_prefix gp_name gp_bound].
  destruct pre as [[g|i|pp|l]|]; try discriminate; simpl print_opt; app_norm; known;
    cbn [print_tok app]; app_norm.
  - split; [reflexivity|]. simpl bind. rewrite Hb. reflexivity.
  - split; [reflexivity|]. simpl bind. rewrite Hb. reflexivity.
  - split; [reflexivity|]. apply negb_true_iff in H. rewrite H. simpl bind. rewrite Hb. reflexivity.
Qed.

Lemma wf_generic_param_comma c p : wf_generic_param c p = wf_generic_param true p.
Proof. reflexivity. Qed.

Lemma generics_complete o rest :
  wf_opt wf_generics o = true -> (o = None -> head_is (is_punct "<") rest = false) ->
  consume_generic_params (print_opt print_generic_params o ++ rest) = Ret (o, rest).
Proof.
  intros H Hr. destruct o as [[l ps r]|]; simpl in *.
  - unfold wf_generics in H. simpl in H. bsplit.
    unfold print_generic_params, consume_generic_params. cbn [gpl_l gpl_params gpl_r]. app_norm.
    rewrite consume_punct_yes by auto. simpl app.
    rewrite (punct_loop_ok stop_generic_params parse_generic_param (fun x c => c = print_generic_param x) no_gap
      wf_generic_param (fun _ => True) (TPunct r :: rest) ps); auto.
    + intros b x c _ ->. unfold print_generic_param. destruct (gp_prefix x); discriminate.
    + intros x c p rs Hx -> Hp. apply generic_param_complete; auto. unfold end_param. simpl. rewrite Hp. reflexivity.
    + intros; discriminate.
    + intros x c Hx ->.
      apply generic_param_complete; auto. unfold end_param. simpl. rewrite H0. apply orb_true_r.
    + known. reflexivity.
    + known. reflexivity.
    + apply print_spells_inner. auto.
  - unfold consume_generic_params. rewrite consume_punct_no; auto.
Qed.

(** ** Where clauses *)
Lemma where_predicate_complete w rest :
  wf_where_predicate true w = true -> head_is (term end_where_item) rest = true ->
  stop_where (print_where_predicate w ++ rest) = Ret false
  /\ parse_where_predicate (print_where_predicate w ++ rest) = Ret (w, rest).
Proof.
  destruct w as [lhs [c b]]. unfold wf_where_predicate, wf_bound, print_where_predicate, print_bound.
  simpl. intros H He. bsplit. app_norm. split.
  - destruct lhs as [|t l]; simpl in *.
    + known. reflexivity.
    + rwb. reflexivity.
  - unfold parse_where_predicate. rewrite until_term; auto; [|known; reflexivity].
    simpl. rwb. rewrite (until_term end_where_bound true b rest); auto.
Qed.

Lemma where_complete o rest :
  wf_opt wf_where o = true ->
  match o with Some _ => where_follow rest = true | None => head_is (is_ident "where") rest = false end ->
  consume_where_clause (print_opt print_where o ++ rest) = Ret (o, rest).
Proof.
  intros H Hr. destruct o as [[kw ps]|]; simpl in *.
  - unfold wf_where in H. simpl in H. bsplit.
    unfold consume_where_clause, print_where. cbn [wc_where wc_items]. app_norm.
    rewrite consume_ident_yes by auto.
    assert (Ht : head_is (term end_where_item) rest = true /\ consume_comma rest = (None, rest)
                 /\ stop_where rest = Ret true).
    { unfold where_follow in Hr. destruct rest as [|[[[] s sp]|i|p|l] rest]; simpl in *; try discriminate; auto.
      known. auto. }
    destruct Ht as (Ht1 & Ht2 & Ht3).
    rewrite (punct_loop_ok stop_where parse_where_predicate (fun x c => c = print_where_predicate x) no_gap
      wf_where_predicate (fun _ => True) rest ps); auto.
    + intros b x c _ ->. unfold print_where_predicate, print_bound. destruct (wp_left x); discriminate.
    + intros x c p rs Hx -> Hp. apply where_predicate_complete; auto. simpl. known. reflexivity.
    + intros; discriminate.
    + intros x c Hx ->. apply where_predicate_complete; auto.
    + apply print_spells_inner. auto.
  - unfold consume_where_clause. rewrite consume_ident_no; auto.
Qed.

(** ** Fields *)
Lemma field_type_comma l c rest :
  wf_field_ty true (mkTypeExpr l) = true -> p_is "," c = true ->
  consume_field_type (l ++ TPunct c :: rest) = Ret (l, TPunct c :: rest).
Proof.
  unfold wf_field_ty, consume_field_type. simpl. intros H Hc. bsplit.
  rewrite (until_term _ false l (TPunct c :: rest)); auto.
  - simpl. destruct l; [discriminate|reflexivity].
  - simpl. apply term_comma_field; auto.
Qed.
Lemma field_type_last l :
  wf_field_ty false (mkTypeExpr l) = true -> consume_field_type l = Ret (l, []).
Proof.
  unfold wf_field_ty, consume_field_type. simpl. intros H. bsplit.
  rewrite until_end; auto. simpl. destruct l; [discriminate|reflexivity].
Qed.

Lemma stop_at_end_app (l : list tok) (r : list tok) : l <> [] -> stop_at_end (l ++ r) = Ret false.
Proof. destruct l; simpl; congruence. Qed.

Lemma wf_field_ty_ne c l : wf_field_ty c (mkTypeExpr l) = true -> l <> [].
Proof. unfold wf_field_ty. simpl. intros H ->. discriminate. Qed.

Lemma tuple_field_complete f cf :
  spells_tuple_field f cf ->
  (forall c rest, wf_tuple_field true f = true -> p_is "," c = true ->
     parse_tuple_field (cf ++ TPunct c :: rest) = Ret (f, TPunct c :: rest))
  /\ (wf_tuple_field false f = true -> parse_tuple_field cf = Ret (f, [])).
Proof.
  destruct f as [attrs v [l]]. unfold wf_tuple_field, spells_tuple_field, parse_tuple_field.
  cbn [tf_attributes tf_vis tf_ty te_tokens print_type]. intros (ca & Hca & ->).
  split.
  - intros c rest H Hc. bsplit. pose proof (wf_field_ty_ne _ _ H0) as Hne. app_norm.
    assert (Hp : prefix_ok v (l ++ TPunct c :: rest) = true).
    { destruct l; [congruence|]. destruct v as [[[] []]|]; auto. }
    rewrite (attrs_vis_complete attrs); auto. simpl bind. rewrite vis_complete; auto.
    rewrite field_type_comma; auto.
  - intros H. bsplit. rewrite (attrs_vis_complete attrs); auto. simpl bind. rewrite vis_complete; auto.
    rewrite field_type_last; auto.
Qed.

Lemma tuple_field_ne b f c : wf_tuple_field b f = true -> spells_tuple_field f c -> c <> [].
Proof.
  destruct f as [a v [l]]. unfold wf_tuple_field, spells_tuple_field. simpl. intros H (ca & _ & ->). bsplit.
  apply wf_field_ty_ne in H0. intro E. apply app_eq_nil in E. destruct E as [_ E].
  apply app_eq_nil in E. destruct E as [_ E]. auto.
Qed.
Lemma named_field_ne f c : spells_named_field f c -> c <> [].
Proof.
  intros (ca & _ & ->) E. apply app_eq_nil in E. destruct E as [_ E].
  apply app_eq_nil in E. destruct E as [_ E]. discriminate.
Qed.

Lemma tuple_fields_complete f sp s :
  wf_tuple_fields f = true -> gs_span (tfs_parens f) = sp ->
  spells_punctuated spells_tuple_field no_gap (tfs_fields f) s ->
  parse_tuple_fields (mkGroup Parenthesis s sp) = Ret f.
Proof.
  destruct f as [fs [d sp0]]. unfold wf_tuple_fields, parse_tuple_fields. cbn [tfs_fields tfs_parens gs_delim gs_span g_stream].
  intros H <- Hs. bsplit. known.
  rewrite <- (app_nil_r s).
  rewrite (punct_loop_ok stop_at_end parse_tuple_field spells_tuple_field no_gap wf_tuple_field (fun _ => True) [] fs s); auto.
  - intros. eapply tuple_field_ne; eauto.
  - intros. split; [|apply tuple_field_complete; auto]. apply stop_at_end_app; auto.
    eapply tuple_field_ne; eauto.
  - intros; discriminate.
  - intros x c Hx Hc. rewrite app_nil_r. split.
    + rewrite <- (app_nil_r c). apply stop_at_end_app; auto. eapply tuple_field_ne; eauto.
    + apply tuple_field_complete; auto.
Qed.

Lemma named_field_complete f cf :
  spells_named_field f cf ->
  (forall c rest, wf_named_field true f = true -> p_is "," c = true ->
     parse_named_field (cf ++ TPunct c :: rest) = Ret (f, TPunct c :: rest))
  /\ (wf_named_field false f = true -> parse_named_field cf = Ret (f, [])).
Proof.
  destruct f as [attrs v name colon [l]]. unfold wf_named_field, spells_named_field, parse_named_field.
  cbn [nf_attributes nf_vis nf_name nf_colon nf_ty te_tokens print_type]. intros (ca & Hca & ->).
  split.
  - intros c rest H Hc. bsplit. app_norm.
    rewrite (attrs_vis_complete attrs); auto using prefix_ok_cons. simpl bind.
    rewrite vis_complete; auto using prefix_ok_cons. simpl. rwb. simpl.
    rewrite field_type_comma; auto.
  - intros H. bsplit. rewrite (attrs_vis_complete attrs); auto using prefix_ok_cons. simpl bind.
    rewrite vis_complete; auto using prefix_ok_cons. simpl. rwb. simpl.
    rewrite field_type_last; auto.
Qed.

Lemma named_fields_complete f sp s :
  wf_named_fields f = true -> gs_span (nfs_braces f) = sp ->
  spells_punctuated spells_named_field no_gap (nfs_fields f) s ->
  parse_named_fields (mkGroup Brace s sp) = Ret f.
Proof.
  destruct f as [fs [d sp0]]. unfold wf_named_fields, parse_named_fields. cbn [nfs_fields nfs_braces gs_delim gs_span g_stream].
  intros H <- Hs. bsplit. known.
  rewrite <- (app_nil_r s).
  rewrite (punct_loop_ok stop_at_end parse_named_field spells_named_field no_gap wf_named_field (fun _ => True) [] fs s); auto.
  - intros. eapply named_field_ne; eauto.
  - intros. split; [|apply named_field_complete; auto]. apply stop_at_end_app; auto.
    eapply named_field_ne; eauto.
  - intros; discriminate.
  - intros x c Hx Hc. rewrite app_nil_r. split.
    + rewrite <- (app_nil_r c). apply stop_at_end_app; auto. eapply named_field_ne; eauto.
    + apply named_field_complete; auto.
Qed.

(** ** Enum variants *)
(** What can come after a variant: the end, a comma, or the next variant if there is a gap. *)
Definition variant_rest (gap : bool) (rest : list tok) : Prop :=
  match rest with
  | [] => True
  | t :: _ => is_punct "," t = true \/ (gap = true /\ is_punct "=" t = false)
  end.

Lemma variant_fields_complete f cf v rest :
  wf_fields f = true -> spells_fields f cf ->
  wf_opt (fun x => p_is "=" (vv_equal x)) v = true ->
  variant_rest (match f, v with FUnit, _ => false | _, Some _ => false | _, None => true end) rest ->
  parse_variant_fields (cf ++ print_opt print_variant_value v ++ rest)
  = Ret (f, print_opt print_variant_value v ++ rest).
Proof.
  intros Hf Hsp Hv Hr. destruct f as [|f|f]; simpl in Hf, Hsp.
  - subst cf. destruct v as [[e x]|]; simpl in *.
    + rewrite Hv. rewrite orb_true_r. reflexivity.
    + destruct rest as [|t r]; simpl in *; auto. destruct Hr as [Hr|[Hr _]]; [|discriminate].
      destruct t; simpl in *; try discriminate. rewrite Hr. reflexivity.
  - destruct Hsp as (s & Hs & ->).
    pose proof (tuple_fields_complete f (gs_span (tfs_parens f)) s Hf eq_refl Hs) as E.
    unfold wf_tuple_fields in Hf. bsplit. destruct f as [fs [d sp]]. simpl in *. known.
    cbn [delim_eqb]. rewrite E. reflexivity.
  - destruct Hsp as (s & Hs & ->).
    pose proof (named_fields_complete f (gs_span (nfs_braces f)) s Hf eq_refl Hs) as E.
    unfold wf_named_fields in Hf. bsplit. destruct f as [fs [d sp]]. simpl in *. known.
    cbn [delim_eqb]. rewrite E. reflexivity.
Qed.

Lemma discriminant_complete v gap rest :
  wf_opt (fun x => p_is "=" (vv_equal x)) v = true ->
  (some v = true -> gap = false) -> variant_rest gap rest ->
  consume_enum_discriminant (print_opt print_variant_value v ++ rest) = Ret (Ok v, rest).
Proof.
  intros Hv Hg Hr. destruct v as [[e x]|]; simpl in *; unfold consume_enum_discriminant.
  - rewrite consume_punct_yes by auto. destruct rest as [|t r]; simpl in *; auto.
    destruct Hr as [Hr|[Hr _]]; [|rewrite Hg in Hr by auto; discriminate]. rewrite Hr. reflexivity.
  - rewrite consume_punct_no; auto. destruct rest as [|t r]; simpl in *; auto.
    destruct Hr as [Hr|[_ Hr]]; auto.
    apply (punct_excl "," "="); auto. discriminate.
Qed.

Lemma variant_step v c rest fuel acc :
  wf_variant true v = true -> spells_variant v c -> variant_rest (gap_variant v) rest ->
  enum_variants_loop (S fuel) acc (c ++ rest)
  = let (comma, ts) := consume_comma rest in enum_variants_loop fuel (pu_push acc v comma) ts.
Proof.
  intros Hw (ca & cf & Hca & Hcf & ->) Hr. destruct v as [a vis name f val].
  unfold wf_variant in Hw. cbn [ev_attributes ev_vis ev_name ev_fields ev_value] in *. bsplit.
  app_norm. cbn [enum_variants_loop].
  rewrite (attrs_vis_complete a); auto using prefix_ok_cons. simpl bind.
  rewrite vis_complete; auto using prefix_ok_cons. simpl bind.
  rewrite (variant_fields_complete f); auto.
  simpl bind.
  rewrite (discriminant_complete val (gap_variant (mkVariant a vis name f val))); auto.
  2:{ destruct f, val; simpl; auto; discriminate. }
  simpl bind.
  destruct (ca ++ print_opt print_vis vis ++ TIdent name :: cf ++ print_opt print_variant_value val ++ rest) eqn:E.
  { exfalso. apply app_eq_nil in E. destruct E as [_ E]. apply app_eq_nil in E. destruct E as [_ E]. discriminate. }
  destruct (consume_comma rest); reflexivity.
Qed.

Lemma attributes_head l c :
  wf_outer l = true -> spells_attributes l c -> forall f rest,
  (forall p, p_is "#" p = true -> f (TPunct p) = false) -> head_is f rest = false ->
  head_is f (c ++ rest) = false.
Proof.
  intros Hw Hs f rest Hf Hr. destruct l as [|a l].
  - simpl in Hs. subst. auto.
  - destruct Hs as (c1 & c2 & -> & (e & -> & _) & _). simpl. apply Hf.
    simpl in Hw. bsplit. unfold wf_attribute in H. bsplit. auto.
Qed.
Lemma vis_head v : wf_opt wf_vis v = true -> forall f rest,
  (forall i, f (TIdent i) = false) -> head_is f rest = false ->
  head_is f (print_opt print_vis v ++ rest) = false.
Proof. destruct v as [[[] t]|]; simpl; intros; auto; discriminate. Qed.

Lemma variant_head b v c rest k :
  wf_variant b v = true -> spells_variant v c -> k <> "#"%char ->
  c ++ rest <> [] /\ head_is (is_punct k) (c ++ rest) = false.
Proof.
  intros Hw (ca & cf & Hca & Hcf & ->) Hk. unfold wf_variant in Hw. bsplit. app_norm. split.
  - intro E. apply app_eq_nil in E. destruct E as [_ E]. apply app_eq_nil in E. destruct E as [_ E]. discriminate.
  - eapply attributes_head; eauto.
    + intros p Hp. apply (punct_excl "#" k (TPunct p)); auto.
    + apply vis_head; auto.
Qed.

Lemma variants_loop_complete skip l : forall c acc fuel,
  wf_inner wf_variant skip l = true -> spells_inner spells_variant gap_variant skip l c ->
  List.length l < fuel ->
  enum_variants_loop fuel acc c
  = Ret (Ok (mkPunctuated (pu_inner acc ++ l) (match l with [] => pu_skip_last acc | _ => skip end))).
Proof.
  induction l as [|[x p] l IH]; intros c acc fuel Hw Hs Hf; (destruct fuel; [simpl in Hf; lia|]).
  - simpl in Hs. subst. simpl. rewrite app_nil_r. destruct acc; reflexivity.
  - simpl in Hf. destruct Hs as (c1 & c2 & S1 & S2 & S3). destruct l as [|[y q] l].
    + cbn [wf_inner] in Hw. bsplit. rewrite S3.
      assert (Hx : wf_variant true x = true) by (destruct skip; exact H).
      destruct skip; rewrite (variant_step x) by (auto; simpl; auto).
      * destruct fuel; [lia|]. cbn. rewrite (default_comma_eq p) by auto. reflexivity.
      * unfold consume_comma. rewrite consume_punct_yes by auto. destruct fuel; [lia|]. reflexivity.
    + change (wf_variant true x && p_is "," p && wf_inner wf_variant skip ((y, q) :: l) = true) in Hw.
      bsplit. destruct S3 as [->|(G & D & ->)].
      * rewrite (variant_step x) by (auto; simpl; auto).
        unfold consume_comma. rewrite consume_punct_yes by auto.
        rewrite IH; auto; [|simpl in *; lia]. simpl. rewrite <- app_assoc. reflexivity.
      * assert (Hh : forall k, k <> "#"%char -> c2 <> [] /\ head_is (is_punct k) c2 = false).
        { intros k Hk. destruct S2 as (d1 & d2 & D1 & D2 & D3).
          assert (Hy : exists b, wf_variant b y = true) by (simpl in H0; destruct l; bsplit; eauto).
          destruct Hy as [b Hy].
          destruct l; [rewrite D3|destruct D3 as [->|(_ & _ & ->)]]; eapply variant_head; eauto. }
        destruct (Hh ","%char ltac:(discriminate)) as [Hn1 Hn2].
        destruct (Hh "="%char ltac:(discriminate)) as [_ Hn3].
        rewrite (variant_step x); auto.
        2:{ destruct c2; simpl in *; auto. }
        unfold consume_comma. rewrite consume_punct_no by auto.
        rewrite IH; auto; [|simpl in *; lia]. simpl. rewrite (default_comma_eq p) by auto.
        rewrite <- app_assoc. reflexivity.
Qed.

Lemma variants_complete p c :
  wf_punctuated wf_variant p = true -> spells_punctuated spells_variant gap_variant p c ->
  parse_enum_variants c = Ret (Ok p).
Proof.
  destruct p as [l skip]. unfold wf_punctuated, spells_punctuated, parse_enum_variants. cbn [pu_inner pu_skip_last]. intros H Hs.
  rewrite (variants_loop_complete skip l c); auto.
  - simpl. destruct l; auto. simpl in H. destruct skip; [discriminate|reflexivity].
  - unfold loop_fuel. pose proof (spells_inner_length spells_variant gap_variant wf_variant skip l c) as Hl.
    assert (List.length l <= List.length c); [|lia]. apply Hl; auto.
    intros b x c0 Hx Hc0. destruct (variant_head b x c0 [] "," Hx Hc0) as [Hn _]; [discriminate|].
    rewrite app_nil_r in Hn. auto.
Qed.

(** C103: the contents of a group are given up only, and at once, when nothing can follow.

    C95 takes a group as one token.  Here the same is shown for the lists inside: the
    parameters of a function, the fields of a struct or variant, the variants of an enum.  Every
    such list can be completed, or fails the same way whatever follows; so a list that fails
    has one first token to blame, and this is the token that the panic message shows. *)
From Verif Require Import Samples Safe Edit Unfold Imp PropErase PropPanics PropMissing PropViable Blame PropBlame PropInside.
Local Open Scope string_scope.
Local Open Scope list_scope.

(** ** Elements *)
Lemma comma_none w : done w -> consume_comma w = (None, w).
Proof. intros ->. reflexivity. Qed.
Lemma type_content : lively any done consume_field_type.
Proof.
  intro ts. pose proof (fun u => stuff_extend (is_punct ",") u ts 0 false) as X. unfold consume_field_type, consume_stuff_until.
  destruct (stuff_loop (is_punct ",") 0 false ts) as [[o met] r] eqn:El. destruct r as [|t r].
  - right. destruct o as [|x o].
    + assert (ts = []) as ->.
      { pose proof (until_sound (is_punct ",") false ts [] []) as S. unfold consume_stuff_until in S. rewrite El in S. destruct S as [S _]; auto. }
      exists [word "x"]. eexists. split; [exact I|]. intros w ->. reflexivity.
    + exists [], (x :: o). split; [exact I|]. intros w ->. rewrite !app_nil_r, El. reflexivity.
  - left. intro u. unfold follows. rewrite El, X by discriminate. cbn [andb bind]. destruct o as [|x o]; [|reflexivity].
    change (t :: r ++ u) with ((t :: r) ++ u). unfold consume_comma. rewrite (punct_looks "," t r u). destruct (consume_punct "," (t :: r)) as [[c|] r']; reflexivity.
Qed.
(** A visibility looks at two tokens. *)
Lemma vis_content {A} (good : A -> Prop) (k : option vis_marker -> parser A) (c : list tok) :
  (forall v, lively good done (k v)) -> (exists i c', c = TIdent i :: c' /\ id_is "pub" i = false /\ id_is "crate" i = false) ->
  (forall v, exists x, good x /\ k v c = Ret (x, [])) ->
  lively good done (fun ts => let (v, r) := consume_vis_marker ts in k v r).
Proof.
  intros Hk (i & c' & -> & Hp & Hc) Hx [|t r].
  - right. destruct (Hx None) as (x & Hg & E). exists (TIdent i :: c'), x. split; [exact Hg|]. intros w ->. rewrite app_nil_r. cbn [app consume_vis_marker].
    rewrite Hp, Hc. exact E.
  - assert (V : (exists j, t = TIdent j /\ id_is "pub" j = true /\ r = []) \/
      forall u, consume_vis_marker ((t :: r) ++ u) = (fst (consume_vis_marker (t :: r)), snd (consume_vis_marker (t :: r)) ++ u)).
    { destruct t as [g|j|p|l]; try (right; reflexivity). destruct r as [|t r].
      - destruct (id_is "pub" j) eqn:Ep; [left; eauto|]. right. intro u. cbn [consume_vis_marker app]. rewrite Ep. destruct (id_is "crate" j); reflexivity.
      - right. intro u. cbn [consume_vis_marker app]. destruct (id_is "pub" j); [|destruct (id_is "crate" j); reflexivity].
        destruct t as [g|j'|p|l]; try reflexivity. destruct (delim_eqb (g_delim g) Parenthesis); reflexivity. }
    destruct V as [(j & -> & Ej & ->)|V].
    + right. destruct (Hx (Some (mkVis (TIdent j) None))) as (x & Hg & E). exists (TIdent i :: c'), x. split; [exact Hg|].
      intros w ->. rewrite app_nil_r. cbn [app consume_vis_marker]. rewrite Ej. exact E.
    + apply (at_skip good done (k (fst (consume_vis_marker (t :: r)))) _ _ (snd (consume_vis_marker (t :: r)))); [|apply Hk].
      intro u. rewrite V. reflexivity.
Qed.
Lemma tuple_field_content : lively any done parse_tuple_field.
Proof.
  unfold parse_tuple_field. eapply lively_bind; [apply attributes_lively|intro attrs|].
  2: { intros attrs _. exists [word "x"]. eexists. split; [exact I|]. intros w ->. split; reflexivity. }
  apply (vis_content any (fun v ts => do (ty, ts) <- consume_field_type ts ;; Ret (mkTupleField attrs v (mkTypeExpr ty), ts)) [word "x"]).
  - intro v. eapply lively_bind; [apply type_content|intro; apply lively_ret|]. intros ty _. exists []. eexists. split; [exact I|]. intros w ->. split; reflexivity.
  - eexists. eexists. split; [reflexivity|]. split; reflexivity.
  - intro v. eexists. split; [exact I|reflexivity].
Qed.
Lemma named_field_content : lively any done parse_named_field.
Proof.
  unfold parse_named_field. eapply lively_bind; [apply attributes_lively|intro attrs|].
  2: { intros attrs _. exists [word "x"; mark ":"; word "x"]. eexists. split; [exact I|]. intros w ->. split; reflexivity. }
  apply (vis_content any (fun v ts => do (name, ts) <- parse_any_ident "field name" ts ;; do (colon, ts) <- parse_punct ":" "named fields" ts ;;
    do (ty, ts) <- consume_field_type ts ;; Ret (mkNamedField attrs v name colon (mkTypeExpr ty), ts)) [word "x"; mark ":"; word "x"]).
  - intro v. eapply lively_bind; [apply any_ident_lively|intro name|].
    2: { intros ? _. exists [mark ":"; word "x"]. eexists. split; [exact I|]. intros w ->. split; [exact I|reflexivity]. }
    eapply lively_bind; [apply punct_lively|intro colon|].
    2: { intros ? _. exists [word "x"]. eexists. split; [exact I|]. intros w ->. split; [exact I|reflexivity]. }
    eapply lively_bind; [apply type_content|intro; apply lively_ret|]. intros ty _. exists []. eexists. split; [exact I|]. intros w ->. split; reflexivity.
  - eexists. eexists. split; [reflexivity|]. split; reflexivity.
  - intro v. eexists. split; [exact I|reflexivity].
Qed.
Lemma lifetime_content : lively any (starts (fun t => match t with TIdent _ => true | _ => false end)) (consume_lifetime false).
Proof.
  intros [|t r].
  - right. exists [], None. split; [exact I|]. intros [|[g|i|p|l] w] Hw; try contradiction Hw; try discriminate Hw. reflexivity.
  - destruct t as [g|i|p|l]; try (left; intro u; reflexivity). destruct (p_is "'" p) eqn:Ep.
    + destruct r as [|[g|i|q|l] r].
      * right. exists [word "x"]. eexists. split; [exact I|]. intros w _. unfold consume_lifetime. cbn [app consume_punct]. rewrite Ep. reflexivity.
      * eapply at_panic. intro u. unfold consume_lifetime. cbn [app consume_punct]. rewrite Ep. reflexivity.
      * left. intro u. unfold consume_lifetime. cbn [app consume_punct]. rewrite Ep. reflexivity.
      * eapply at_panic. intro u. unfold consume_lifetime. cbn [app consume_punct]. rewrite Ep. reflexivity.
      * eapply at_panic. intro u. unfold consume_lifetime. cbn [app consume_punct]. rewrite Ep. reflexivity.
    + left. intro u. unfold consume_lifetime. cbn [app consume_punct]. rewrite Ep. reflexivity.
Qed.
Lemma fn_param_content : lively any done parse_fn_param.
Proof.
  unfold parse_fn_param. eapply lively_bind; [apply attributes_lively|intro attrs|].
  2: { intros attrs _. exists [word "self"]. eexists. split; [exact I|]. intros w ->. split; reflexivity. }
  apply lively_let; [apply punct_looks|intro amp|exists [word "self"]; eexists; split; [exact I|intros w ->; reflexivity]].
  eapply lively_bind; [apply lifetime_content|intro lt|].
  2: { intros lt _. exists [word "self"]. eexists. split; [exact I|]. intros w ->. split; reflexivity. }
  apply lively_let; [apply ident_looks|intro mu|exists [word "self"]; eexists; split; [exact I|intros w ->; reflexivity]].
  apply (lively_equal _ _ _ (fun ts => let (s, r) := consume_ident "self" ts in
    match s with
    | Some tk_self => Ret (FPReceiver (mkReceiver attrs amp lt mu tk_self), r)
    | None => do (name, ts) <- parse_any_ident "fn param name" r ;; do (colon, ts) <- parse_punct ":" "fn params" ts ;;
        do (ty, ts) <- consume_field_type ts ;; Ret (FPTyped (mkTyped attrs mu name colon (mkTypeExpr ty)), ts)
    end)).
  { intro ts. destruct (consume_ident "self" ts) as [[|] ?]; reflexivity. }
  apply (lively_let any done (consume_ident "self") (fun s r => match s with
    | Some tk_self => Ret (FPReceiver (mkReceiver attrs amp lt mu tk_self), r)
    | None => do (name, ts) <- parse_any_ident "fn param name" r ;; do (colon, ts) <- parse_punct ":" "fn params" ts ;;
        do (ty, ts) <- consume_field_type ts ;; Ret (FPTyped (mkTyped attrs mu name colon (mkTypeExpr ty)), ts)
    end)); [apply ident_looks|intros [s|]|exists [word "self"]; eexists; split; [exact I|intros w ->; reflexivity]].
  - apply lively_ret.
  - eapply lively_bind; [apply any_ident_lively|intro name|].
    2: { intros ? _. exists [mark ":"; word "x"]. eexists. split; [exact I|]. intros w ->. split; [exact I|reflexivity]. }
    eapply lively_bind; [apply punct_lively|intro colon|].
    2: { intros ? _. exists [word "x"]. eexists. split; [exact I|]. intros w ->. split; [exact I|reflexivity]. }
    eapply lively_bind; [apply type_content|intro; apply lively_ret|]. intros ty _. exists []. eexists. split; [exact I|]. intros w ->. split; reflexivity.
Qed.

(** ** Lists up to the end of a group *)
Lemma list_content {A} (elem : parser A) : lively any done elem -> (forall ts, safe (elem ts)) ->
  (forall ts x r, ts <> [] -> elem ts = Ret (x, r) -> List.length r < List.length ts) ->
  forall n acc ts, List.length ts < n ->
    (exists c x, forall f, List.length (ts ++ c) < f -> punct_loop stop_at_end elem f acc (ts ++ c) = Ret (x, []))
    \/ (exists p, forall c f, List.length (ts ++ c) < f -> punct_loop stop_at_end elem f acc (ts ++ c) = Panic p).
Proof.
  intros He Hs Hp. induction n as [|n IH]; intros acc ts Hn; [lia|]. destruct ts as [|t r].
  { left. exists [], acc. intros [|f] Hf; [simpl in Hf; lia|]. reflexivity. }
  assert (Hend : forall c x, elem ((t :: r) ++ c) = Ret (x, []) ->
     forall f, List.length ((t :: r) ++ c) < f -> punct_loop stop_at_end elem f acc ((t :: r) ++ c) = Ret (pu_push acc x None, [])).
  { intros c x E [|f] Hf; [lia|]. cbn [punct_loop]. cbn [app stop_at_end bind]. change (t :: r ++ c) with ((t :: r) ++ c). rewrite E. cbn [bind].
    destruct f as [|f]; [simpl in Hf; lia|]. reflexivity. }
  destruct (He (t :: r)) as [G|(c & x & _ & G)].
  - unfold settled in G. specialize (Hs (t :: r)). destruct (elem (t :: r)) as [[x r1]|e|] eqn:Ee; cbn [follows] in G; [| |contradiction].
    + destruct r1 as [|t1 r1].
      * left. exists []. eexists. apply Hend. apply (G []).
      * specialize (Hp (t :: r) x _ ltac:(discriminate) Ee).
        pose proof (consume_punct_length "," (t1 :: r1)) as L. pose proof (fun u => punct_looks "," t1 r1 u) as Q.
        unfold consume_comma in *. destruct (consume_punct "," (t1 :: r1)) as [cm r2] eqn:Ec. cbn [fst snd] in *.
        assert (F : forall c f, List.length ((t :: r) ++ c) < S f ->
          punct_loop stop_at_end elem (S f) acc ((t :: r) ++ c) = punct_loop stop_at_end elem f (pu_push acc x cm) (r2 ++ c) /\ List.length (r2 ++ c) < f).
        { intros c f Hf. split; [|rewrite app_length in *; simpl in *; lia]. cbn [punct_loop]. cbn [app stop_at_end bind]. change (t :: r ++ c) with ((t :: r) ++ c). rewrite G. cbn [bind].
          change (t1 :: r1 ++ c) with ((t1 :: r1) ++ c). unfold consume_comma. rewrite Q. reflexivity. }
        destruct (IH (pu_push acc x cm) r2) as [(c & y & H)|(p & H)]; [simpl in *; lia| |].
        { left. exists c, y. intros [|f] Hf; [lia|]. destruct (F c f Hf) as [-> Hl]. auto. }
        right. exists p. intros c [|f] Hf; [lia|]. destruct (F c f Hf) as [-> Hl]. auto.
    + right. exists e. intros c [|f] Hf; [lia|]. cbn [punct_loop]. cbn [app stop_at_end bind]. change (t :: r ++ c) with ((t :: r) ++ c). rewrite G. reflexivity.
  - left. exists c. eexists. apply Hend. specialize (G [] eq_refl). rewrite app_nil_r in G. exact G.
Qed.

Lemma variant_fields_content : lively any done parse_variant_fields.
Proof.
  intros [|t r]; [right; exists [], FUnit; split; [exact I|]; intros w ->; reflexivity|]. left. intro u. destruct t as [g|i|p|l]; cbn [app parse_variant_fields].
  - destruct (delim_eqb (g_delim g) Parenthesis); [destruct (parse_tuple_fields g); reflexivity|].
    destruct (delim_eqb (g_delim g) Brace); [destruct (parse_named_fields g); reflexivity|reflexivity].
  - reflexivity.
  - destruct (p_is "," p || p_is "=" p); reflexivity.
  - reflexivity.
Qed.
Lemma discriminant_content : lively is_ok done consume_enum_discriminant.
Proof.
  intros [|t r].
  - right. exists []. eexists. split; [|intros w ->; reflexivity]. exact I.
  - destruct t as [g|i|p|l]; try (left; intro u; reflexivity). unfold consume_enum_discriminant.
    destruct (p_is "=" p) eqn:Ep.
    + destruct r as [|v [|t r]].
      * right. exists [word "x"]. eexists. split; [|intros w ->; cbn [app consume_punct]; rewrite Ep; reflexivity]. exact I.
      * right. exists []. eexists. split; [|intros w ->; cbn [app consume_punct]; rewrite Ep; reflexivity]. exact I.
      * left. intro u. unfold follows. cbn [app consume_punct]. rewrite Ep. destruct (is_punct "," t); reflexivity.
    + left. intro u. unfold follows. cbn [app consume_punct]. rewrite Ep. reflexivity.
Qed.
(** One round of the loop over variants. *)
Definition variant_round : parser (result enum_variant error) := fun ts =>
  do (attributes, ts) <- consume_outer_attributes ts ;;
  let (vis, ts) := consume_vis_marker ts in
  do (name, ts) <- parse_any_ident "enum variant name" ts ;;
  do (contents, ts) <- parse_variant_fields ts ;;
  do (d, ts) <- consume_enum_discriminant ts ;;
  Ret (match d with Ok v => Ok (mkVariant attributes vis name contents v) | Err e => Err e end, ts).
Lemma variants_step f acc t r : enum_variants_loop (S f) acc (t :: r) =
  do (v, ts) <- variant_round (t :: r) ;;
  let (comma, ts) := consume_comma ts in
  match v with Ok v => enum_variants_loop f (pu_push acc v comma) ts | Err e => Ret (Err e) end.
Proof.
  cbn [enum_variants_loop]. unfold variant_round. destruct (consume_outer_attributes (t :: r)) as [[a t1]| |]; try reflexivity. cbn [bind].
  destruct (consume_vis_marker t1) as [v t2]. destruct (parse_any_ident "enum variant name" t2) as [[n t3]| |]; try reflexivity. cbn [bind].
  destruct (parse_variant_fields t3) as [[c t4]| |]; try reflexivity. cbn [bind].
  destruct (consume_enum_discriminant t4) as [[[d|e] t5]| |]; try reflexivity.
Qed.
Lemma variant_content : lively is_ok done variant_round.
Proof.
  unfold variant_round. eapply lively_bind; [apply attributes_lively|intro attrs|].
  2: { intros attrs _. exists [word "x"]. eexists. split; [|intros w ->; split; reflexivity]. exact I. }
  apply (vis_content is_ok (fun vis ts => do (name, ts) <- parse_any_ident "enum variant name" ts ;; do (contents, ts) <- parse_variant_fields ts ;;
    do (d, ts) <- consume_enum_discriminant ts ;; Ret (match d with Ok v => Ok (mkVariant attrs vis name contents v) | Err e => Err e end, ts)) [word "x"]).
  - intro v. eapply lively_bind; [apply any_ident_lively|intro name|].
    2: { intros ? _. exists []. eexists. split; [|intros w ->; split; [exact I|reflexivity]]. exact I. }
    eapply lively_bind; [apply variant_fields_content|intro contents|].
    2: { intros ? _. exists []. eexists. split; [|intros w ->; split; reflexivity]. exact I. }
    eapply lively_bind; [apply discriminant_content|intro; apply lively_ret|]. intros [d|e] Hd; [|contradiction Hd]. exists []. eexists. split; [|intros w ->; split; reflexivity]. exact I.
  - eexists. eexists. split; [reflexivity|]. split; reflexivity.
  - intro v. eexists. split; [|reflexivity]. exact I.
Qed.
Lemma variant_shorter ts v r : variant_round ts = Ret (v, r) -> List.length r < List.length ts.
Proof.
  unfold variant_round. intro H. destruct (consume_outer_attributes ts) as [[a t1]| |] eqn:E1; try discriminate. cbn [bind] in H.
  destruct (consume_vis_marker t1) as [vi t2] eqn:Ev. destruct (attrs_vis_sound _ _ _ _ _ E1 Ev) as (ca & -> & _).
  destruct (parse_any_ident "enum variant name" t2) as [[n t3]| |] eqn:E2; try discriminate. cbn [bind] in H. apply parse_any_ident_sound in E2. subst t2.
  destruct (parse_variant_fields t3) as [[c t4]| |] eqn:E3; try discriminate. cbn [bind] in H. apply variant_fields_sound in E3. destruct E3 as (cf & -> & _).
  destruct (consume_enum_discriminant t4) as [[d t5]| |] eqn:E4; try discriminate. cbn [bind] in H. apply discriminant_length in E4. injection H as _ <-.
  rewrite !app_length. simpl. rewrite app_length. lia.
Qed.
Lemma variant_safe ts : safe (variant_round ts).
Proof.
  unfold variant_round. apply safe_bind; [apply outer_attributes_safe|]. intros [a t1] _. destruct (consume_vis_marker t1).
  apply safe_bind; [apply parse_any_ident_safe|]. intros [? ?] _. apply safe_bind; [apply variant_fields_safe|]. intros [? ?] _.
  apply safe_bind; [apply discriminant_safe|]. intros [? ?] _. exact I.
Qed.
Lemma variants_content : forall n acc ts, List.length ts < n ->
    (exists c x, forall f, List.length (ts ++ c) < f -> enum_variants_loop f acc (ts ++ c) = Ret (Ok x))
    \/ (exists p, forall c f, List.length (ts ++ c) < f -> enum_variants_loop f acc (ts ++ c) = Panic p)
    \/ (exists e, forall c f, List.length (ts ++ c) < f -> enum_variants_loop f acc (ts ++ c) = Ret (Err e)).
Proof.
  induction n as [|n IH]; intros acc ts Hn; [lia|]. destruct ts as [|t r].
  { left. exists [], acc. intros [|f] Hf; [simpl in Hf; lia|]. reflexivity. }
  assert (Hend : forall c x, variant_round ((t :: r) ++ c) = Ret (Ok x, []) ->
     forall f, List.length ((t :: r) ++ c) < f -> enum_variants_loop f acc ((t :: r) ++ c) = Ret (Ok (pu_push acc x None))).
  { intros c x E [|f] Hf; [lia|]. cbn [app]. rewrite variants_step. change (t :: r ++ c) with ((t :: r) ++ c). rewrite E. cbn [bind].
    destruct f as [|f]; [simpl in Hf; lia|]. reflexivity. }
  destruct (variant_content (t :: r)) as [G|(c & [x|e] & Hx & G)]; [| |contradiction Hx].
  - unfold settled in G. pose proof (variant_safe (t :: r)) as Hs. destruct (variant_round (t :: r)) as [[[x|er] r1]|e|] eqn:Ee; cbn [follows] in G; [| | |contradiction].
    + destruct r1 as [|t1 r1].
      * left. exists []. eexists. apply Hend. apply (G []).
      * pose proof (variant_shorter _ _ _ Ee) as Hp.
        pose proof (consume_punct_length "," (t1 :: r1)) as L. pose proof (fun u => punct_looks "," t1 r1 u) as Q.
        destruct (consume_punct "," (t1 :: r1)) as [cm r2] eqn:Ec. cbn [fst snd] in *.
        assert (F : forall c f, List.length ((t :: r) ++ c) < S f ->
          enum_variants_loop (S f) acc ((t :: r) ++ c) = enum_variants_loop f (pu_push acc x cm) (r2 ++ c) /\ List.length (r2 ++ c) < f).
        { intros c f Hf. split; [|rewrite app_length in *; simpl in *; lia]. cbn [app]. rewrite variants_step. change (t :: r ++ c) with ((t :: r) ++ c). rewrite G. cbn [bind].
          change (t1 :: r1 ++ c) with ((t1 :: r1) ++ c). unfold consume_comma. rewrite Q. reflexivity. }
        destruct (IH (pu_push acc x cm) r2) as [(c & y & H)|[(p & H)|(e & H)]]; [simpl in *; lia| | |].
        { left. exists c, y. intros [|f] Hf; [lia|]. destruct (F c f Hf) as [-> Hl]. auto. }
        { right. left. exists p. intros c [|f] Hf; [lia|]. destruct (F c f Hf) as [-> Hl]. auto. }
        right. right. exists e. intros c [|f] Hf; [lia|]. destruct (F c f Hf) as [-> Hl]. auto.
    + right. right. exists er. intros c [|f] Hf; [lia|]. cbn [app]. rewrite variants_step. change (t :: r ++ c) with ((t :: r) ++ c). rewrite G. cbn [bind].
      destruct (consume_comma (r1 ++ c)). reflexivity.
    + right. left. exists e. intros c [|f] Hf; [lia|]. cbn [app]. rewrite variants_step. change (t :: r ++ c) with ((t :: r) ++ c). rewrite G. reflexivity.
  - left. exists c. eexists. apply Hend. specialize (G [] eq_refl). rewrite app_nil_r in G. exact G.
Qed.

(** ** C103 *)
Theorem C103_params (ts : list tok) :
  (exists c ps, parse_fn_params (ts ++ c) = Ret ps) \/ (exists p, forall c, parse_fn_params (ts ++ c) = Panic p).
Proof.
  destruct (list_content parse_fn_param fn_param_content fn_param_safe) with (n := S (List.length ts)) (acc := @pu_new fn_param) (ts := ts) as [(c & x & H)|(p & H)]; auto.
  - intros ts' x rest Hs H. apply fn_param_sound in H; [|destruct ts'; [congruence|reflexivity]]. destruct H as (c & -> & Hc & _).
    apply length_lt. destruct x; simpl in Hc.
    + destruct Hc as (ca & _ & ->). rewrite !app_assoc. intro H. apply app_eq_nil in H. destruct H; discriminate.
    + destruct Hc as (ca & amp & lt & _ & _ & _ & ->). rewrite !app_assoc. intro H. apply app_eq_nil in H. destruct H; discriminate.
  - left. exists c, x. unfold parse_fn_params. rewrite H; [reflexivity|unfold loop_fuel; lia].
  - right. exists p. intro c. unfold parse_fn_params. rewrite H; [reflexivity|unfold loop_fuel; lia].
Qed.
Theorem C103_tuple (d : delimiter) (sp : span) (ts : list tok) :
  (exists c fs, parse_tuple_fields (mkGroup d (ts ++ c) sp) = Ret fs) \/ (exists p, forall c, parse_tuple_fields (mkGroup d (ts ++ c) sp) = Panic p).
Proof.
  destruct (list_content parse_tuple_field tuple_field_content) with (n := S (List.length ts)) (acc := @pu_new tuple_field) (ts := ts) as [(c & x & H)|(p & H)]; auto.
  - intro us. unfold parse_tuple_field. apply safe_bind; [apply outer_attributes_safe|]. intros [? t1] _.
    destruct (consume_vis_marker t1). apply safe_bind; [apply field_type_safe|]. intros [? ?] _. exact I.
  - intros us x rest Hs H. unfold parse_tuple_field in H. inv_bind H. destruct x0 as [attrs t1].
    destruct (consume_vis_marker t1) as [v t2] eqn:Ev. inv_bind H. destruct x0 as [ty t3]. bsplit.
    destruct (attrs_vis_sound _ _ _ _ _ Hx Ev) as (ca & -> & _).
    unfold consume_field_type in Hx0. inv_bind Hx0. destruct x as [ty' t4].
    apply until_sound in Hx1. destruct Hx1 as [-> _].
    destruct ty'; [destruct (consume_comma t4) as [[]]; discriminate|]. bsplit.
    rewrite !app_assoc. apply length_lt. intro H. apply app_eq_nil in H. destruct H; discriminate.
  - left. exists c. eexists. unfold parse_tuple_fields. cbn [g_stream]. rewrite H; [reflexivity|unfold loop_fuel; lia].
  - right. exists p. intro c. unfold parse_tuple_fields. cbn [g_stream]. rewrite H; [reflexivity|unfold loop_fuel; lia].
Qed.
Theorem C103_named (d : delimiter) (sp : span) (ts : list tok) :
  (exists c fs, parse_named_fields (mkGroup d (ts ++ c) sp) = Ret fs) \/ (exists p, forall c, parse_named_fields (mkGroup d (ts ++ c) sp) = Panic p).
Proof.
  destruct (list_content parse_named_field named_field_content) with (n := S (List.length ts)) (acc := @pu_new named_field) (ts := ts) as [(c & x & H)|(p & H)]; auto.
  - intro us. unfold parse_named_field. apply safe_bind; [apply outer_attributes_safe|]. intros [? t1] _.
    destruct (consume_vis_marker t1). apply safe_bind; [apply parse_any_ident_safe|]. intros [? ?] _.
    apply safe_bind; [apply parse_punct_safe|]. intros [? ?] _.
    apply safe_bind; [apply field_type_safe|]. intros [? ?] _. exact I.
  - intros us x rest Hs H. apply named_field_sound in H; [|destruct us; [congruence|reflexivity]]. destruct H as (c & -> & (ca & _ & ->) & _).
    rewrite !app_assoc. apply length_lt. intro H. apply app_eq_nil in H. destruct H; discriminate.
  - left. exists c. eexists. unfold parse_named_fields. cbn [g_stream]. rewrite H; [reflexivity|unfold loop_fuel; lia].
  - right. exists p. intro c. unfold parse_named_fields. cbn [g_stream]. rewrite H; [reflexivity|unfold loop_fuel; lia].
Qed.
Theorem C103_variants (ts : list tok) :
  (exists c vs, parse_enum_variants (ts ++ c) = Ret (Ok vs))
  \/ (exists p, forall c, parse_enum_variants (ts ++ c) = Panic p)
  \/ (exists e, forall c, parse_enum_variants (ts ++ c) = Ret (Err e)).
Proof.
  destruct (variants_content (S (List.length ts)) pu_new ts) as [(c & x & H)|[(p & H)|(e & H)]]; auto.
  - left. exists c, x. apply H. unfold loop_fuel. lia.
  - right. left. exists p. intro c. apply H. unfold loop_fuel. lia.
  - right. right. exists e. intro c. apply H. unfold loop_fuel. lia.
Qed.

(** ** The token that is shown is the first wrong one *)
Section First.
Variable F : list tok -> option (panic * list piece).
Variable V : list tok -> Prop.
Hypothesis fates : forall ts, V ts \/ (exists p, forall c, exists why, F (ts ++ c) = Some (p, why)) \/ (forall c, F (ts ++ c) = None).
Hypothesis alive_ : forall ts, V ts -> exists c, F (ts ++ c) = None.
Hypothesis spot_ : forall ts p why, F ts = Some (p, why) -> mute p = false ->
  exists l t r, ts = l ++ t :: r /\ (forall x, In x (shown why) -> part x t) /\ forall u, F (l ++ t :: u) = Some (p, why).
Lemma first_wrong ts p why : F ts = Some (p, why) -> mute p = false ->
  exists l t r, ts = l ++ t :: r /\ V l /\ ~ V (l ++ [t]) /\ forall x, In x (shown why) -> part x t.
Proof.
  remember (List.length ts) as n eqn:Hn. revert ts Hn. induction n as [n IH] using lt_wf_ind. intros ts -> H M.
  destruct (spot_ _ _ _ H M) as (l & t & r & -> & C & U).
  assert (N : ~ V (l ++ [t])).
  { intro Hv. destruct (alive_ _ Hv) as [c Hc]. rewrite <- app_assoc in Hc. cbn [app] in Hc. rewrite U in Hc. discriminate. }
  destruct (fates l) as [Hv|[(q & Hq)|Hq]].
  - exists l, t, r. auto.
  - destruct (Hq (t :: r)) as [w1 E1]. rewrite H in E1. injection E1 as -> <-. destruct (Hq []) as [w E]. rewrite app_nil_r in E.
    destruct (spot_ _ _ _ E M) as (l1 & t1 & r1 & El & _ & U1). specialize (U1 (r1 ++ t :: r)).
    assert (X : l1 ++ t1 :: r1 ++ t :: r = l ++ t :: r) by (rewrite El, <- app_assoc; reflexivity).
    rewrite X, H in U1. injection U1 as <-.
    destruct (IH (List.length l)) with (ts := l) as (l2 & t2 & r2 & -> & H2); auto; [rewrite app_length; simpl; lia|].
    exists l2, t2, (r2 ++ t :: r). rewrite <- app_assoc. auto.
  - rewrite Hq in H. discriminate.
Qed.
End First.

(** From an outcome of the model and the ending, with a message, of the transcription. *)
Definition agrees {A B} (o : ending A) (m : outcome B) : Prop :=
  match m with Panic q => exists w, o = Died q w | Ret _ => forall q w, o <> Died q w | OutOfFuel => False end.
Lemma agrees_run {A B} (o : ending (A * list tok)) (f : A * list tok -> outcome B) m : (forall x, exists y, f x = Ret y) -> bind (plainly o) f = m -> safe m -> agrees o m.
Proof.
  intros Hf <- S. destruct o as [x|q w|]; cbn [plainly bind] in *; [|exists w; reflexivity|exact S].
  destruct (Hf x) as [y Hy]. rewrite Hy. cbn. discriminate.
Qed.
Lemma content_blame {A B} (E : list tok -> ending A) (P : list tok -> outcome B) (good : B -> Prop) :
  (forall us, agrees (E us) (P us)) ->
  (forall us, (exists c x, P (us ++ c) = Ret x /\ good x) \/ (exists p, forall c, P (us ++ c) = Panic p) \/ (exists x, forall c, P (us ++ c) = Ret x)) ->
  (forall us p why, E us = Died p why -> mute p = false ->
    exists l t r, us = l ++ t :: r /\ (forall x, In x (shown why) -> part x t) /\ forall u, E (l ++ t :: u) = Died p why) ->
  forall ts p why, E ts = Died p why -> mute p = false ->
  exists l t r, ts = l ++ t :: r /\ (exists c x, P (l ++ c) = Ret x /\ good x) /\ ~ (exists c x, P ((l ++ [t]) ++ c) = Ret x /\ good x) /\ forall x, In x (shown why) -> part x t.
Proof.
  intros HA HV HS ts p why H M.
  apply (first_wrong (fun us => match E us with Died p why => Some (p, why) | _ => None end) (fun l => exists c x, P (l ++ c) = Ret x /\ good x)) with (p := p); auto.
  - intro us. destruct (HV us) as [V|[(q & V)|(x & V)]]; [left; exact V|right; left|right; right].
    + exists q. intro c. specialize (HA (us ++ c)). rewrite V in HA. destruct HA as [w ->]. exists w. reflexivity.
    + intro c. specialize (HA (us ++ c)). rewrite V in HA. cbn in HA. destruct (E (us ++ c)) as [y|q w|]; auto. destruct (HA q w eq_refl).
  - intros us (c & x & V & _). exists c. specialize (HA (us ++ c)). rewrite V in HA. cbn in HA. destruct (E (us ++ c)) as [y|q w|]; auto. destruct (HA q w eq_refl).
  - intros us q w D M2. destruct (E us) as [y|q' w'|] eqn:Eu; try discriminate. injection D as -> ->. destruct (HS us q w Eu M2) as (l & t & r & -> & C & U).
    exists l, t, r. split; auto. split; auto. intro u. rewrite U. reflexivity.
  - rewrite H. reflexivity.
Qed.

Definition params_viable (ts : list tok) : Prop := exists c ps, parse_fn_params (ts ++ c) = Ret ps.
Lemma any_viable {B} (P : list tok -> outcome B) ts : (exists c x, P (ts ++ c) = Ret x /\ True) <-> exists c x, P (ts ++ c) = Ret x.
Proof. split; intros (c & x & H); exists c, x; tauto. Qed.
Theorem C103_params_blame (ts : list tok) (p : panic) (why : list piece) :
  fst (i_fn_params ts) = Died p why -> mute p = false ->
  exists l t r, ts = l ++ t :: r /\ params_viable l /\ ~ params_viable (l ++ [t]) /\ forall x, In x (shown why) -> part x t.
Proof.
  intros H M. destruct (content_blame (fun us => fst (i_fn_params us)) parse_fn_params (fun _ => True)) with (ts := ts) (p := p) (why := why) as (l & t & r & E & V & N & C); auto.
  - intro us. eapply agrees_run; [|apply e_fn_params|apply fn_params_safe]. intros [x y]. eexists. reflexivity.
  - intro us. destruct (C103_params us) as [(c & x & V)|V]; [left; exists c, x; auto|right; left; exact V].
  - apply C101_params.
  - exists l, t, r. rewrite any_viable in V, N. auto.
Qed.
Definition named_viable (ts : list tok) : Prop := exists c fs, parse_named_fields (mkGroup Brace (ts ++ c) call_site) = Ret fs.
Theorem C103_named_blame (ts w : list tok) (p : panic) (why : list piece) :
  fst (i_named_fields (mkGroup Brace ts call_site) w) = Died p why -> mute p = false ->
  exists l t r, ts = l ++ t :: r /\ named_viable l /\ ~ named_viable (l ++ [t]) /\ forall x, In x (shown why) -> part x t.
Proof.
  intros H M. destruct (content_blame (fun us => fst (i_named_fields (mkGroup Brace us call_site) w)) (fun us => parse_named_fields (mkGroup Brace us call_site)) (fun _ => True))
    with (ts := ts) (p := p) (why := why) as (l & t & r & E & V & N & C); auto.
  - intro us. eapply (agrees_run _ (fun x => Ret (fst x))); [intro x; eexists; reflexivity| |apply named_fields_safe].
    pose proof (e_named_fields (mkGroup Brace us call_site) w) as X. unfold run in X. rewrite X. destruct (parse_named_fields (mkGroup Brace us call_site)); reflexivity.
  - intro us. destruct (C103_named Brace call_site us) as [(c & x & V)|V]; [left; exists c, x; auto|right; left; exact V].
  - intros us q y D M2. destruct (C101_named _ _ _ _ _ _ D M2) as (l & t & r & E & C & U). exists l, t, r. auto.
  - exists l, t, r. rewrite (any_viable (fun us => parse_named_fields (mkGroup Brace us call_site))) in V, N. auto.
Qed.
Definition tuple_viable (ts : list tok) : Prop := exists c fs, parse_tuple_fields (mkGroup Parenthesis (ts ++ c) call_site) = Ret fs.
Theorem C103_tuple_blame (ts w : list tok) (p : panic) (why : list piece) :
  fst (i_tuple_fields (mkGroup Parenthesis ts call_site) w) = Died p why -> mute p = false ->
  exists l t r, ts = l ++ t :: r /\ tuple_viable l /\ ~ tuple_viable (l ++ [t]) /\ forall x, In x (shown why) -> part x t.
Proof.
  intros H M. destruct (content_blame (fun us => fst (i_tuple_fields (mkGroup Parenthesis us call_site) w)) (fun us => parse_tuple_fields (mkGroup Parenthesis us call_site)) (fun _ => True))
    with (ts := ts) (p := p) (why := why) as (l & t & r & E & V & N & C); auto.
  - intro us. eapply (agrees_run _ (fun x => Ret (fst x))); [intro x; eexists; reflexivity| |apply tuple_fields_safe].
    pose proof (e_tuple_fields (mkGroup Parenthesis us call_site) w) as X. unfold run in X. rewrite X. destruct (parse_tuple_fields (mkGroup Parenthesis us call_site)); reflexivity.
  - intro us. destruct (C103_tuple Parenthesis call_site us) as [(c & x & V)|V]; [left; exists c, x; auto|right; left; exact V].
  - intros us q y D M2. destruct (C101_tuple _ _ _ _ _ _ D M2) as (l & t & r & E & C & U). exists l, t, r. auto.
  - exists l, t, r. rewrite (any_viable (fun us => parse_tuple_fields (mkGroup Parenthesis us call_site))) in V, N. auto.
Qed.
Definition variants_viable (ts : list tok) : Prop := exists c vs, parse_enum_variants (ts ++ c) = Ret (Ok vs).
Theorem C103_variants_blame (ts : list tok) (p : panic) (why : list piece) :
  fst (i_enum_variants ts) = Died p why -> mute p = false ->
  exists l t r, ts = l ++ t :: r /\ variants_viable l /\ ~ variants_viable (l ++ [t]) /\ forall x, In x (shown why) -> part x t.
Proof.
  intros H M. destruct (content_blame (fun us => fst (i_enum_variants us)) parse_enum_variants is_ok) with (ts := ts) (p := p) (why := why) as (l & t & r & E & V & N & C); auto.
  - intro us. eapply agrees_run; [|apply e_enum_variants|apply variants_safe]. intros [x y]. eexists. reflexivity.
  - intro us. destruct (C103_variants us) as [(c & x & V)|[V|(e & V)]]; [left; exists c, (Ok x); split; [exact V|exact I]|right; left; exact V|right; right; exists (Err e); exact V].
  - apply C101_variants.
  - assert (W : forall us, (exists c x, parse_enum_variants (us ++ c) = Ret x /\ is_ok x) <-> variants_viable us).
    { intro us. split; [intros (c & [x|] & Hx & Hg); [exists c, x; auto|contradiction Hg]|intros (c & x & Hx); exists c, (Ok x); split; [exact Hx|exact I]]. }
    exists l, t, r. rewrite W in V, N. auto.
Qed.

(** ** Examples *)
(** The literal is the first wrong token, for the list of parameters and in the message. *)
Example C103_params_ex : fate i_fn_params "#[a] mut x: Vec<u8>, &'3 self, y z" = Some (PLifetimeToken, ["3"])
  /\ params_viable (lex "#[a] mut x: Vec<u8>, &'") /\ ~ params_viable (lex "#[a] mut x: Vec<u8>, &'3").
Proof.
  split; [reflexivity|]. split.
  - exists (lex "b self"). eexists. vm_compute. reflexivity.
  - destruct (C103_params (lex "#[a] mut x: Vec<u8>, &'3")) as [(c & x & H)|(p & H)]; [vm_compute in H; discriminate H|].
    intros (c & x & V). rewrite H in V. discriminate.
Qed.
(** A discriminant of several tokens is no panic: the enum is rejected whatever follows. *)
Example C103_variants_ex : fate i_enum_variants "A(u8), B = 1, C [u8], D" = Some (PVariantToken, ["[u8]"])
  /\ variants_viable (lex "A(u8), B = 1, C") /\ ~ variants_viable (lex "A(u8), B = 1, C [u8]")
  /\ (exists e, forall c, parse_enum_variants (lex "A = 1 + " ++ c) = Ret (Err e)).
Proof.
  split; [reflexivity|]. split; [|split].
  - exists []. eexists. vm_compute. reflexivity.
  - intros (c & x & V). vm_compute in V. discriminate.
  - eexists. intro c. vm_compute. reflexivity.
Qed.
Example C103_named_ex : named_viable (lex "pub(crate) a: B<C, pub") /\ ~ named_viable (lex "pub(crate) a: B, pub b =").
Proof.
  split.
  - exists (lex ">"). eexists. vm_compute. reflexivity.
  - intros (c & x & V). vm_compute in V. discriminate.
Qed.
Example C103_tuple_ex : tuple_viable (lex "pub") /\ tuple_viable (lex "a, b,") /\ ~ tuple_viable (lex "a,,").
Proof.
  split; [|split].
  - exists (lex "u8"). eexists. vm_compute. reflexivity.
  - exists []. eexists. vm_compute. reflexivity.
  - intros (c & x & V). vm_compute in V. discriminate.
Qed.

(** ** The items of a module *)
Lemma mod_member_content : lively any done (parse_mod_member consume_item).
Proof.
  intro ts. unfold parse_mod_member. destruct (consume_item_lively ts) as [H|(c & [i|e] & Hx & H)]; [| |contradiction].
  - left. intro u. specialize (H u). unfold follows in *. destruct (consume_item ts) as [[[i|e] r]|p|]; cbn [bind]; try rewrite H; first [reflexivity|exact I].
  - right. exists c, i. split; [exact I|]. intros w Hw. rewrite (H w Hw). reflexivity.
Qed.
Lemma many_content {A} (elem : parser A) : lively any done elem -> (forall ts, safe (elem ts)) ->
  (forall ts x r, ts <> [] -> elem ts = Ret (x, r) -> List.length r < List.length ts) ->
  forall n ts, List.length ts < n ->
    (exists c x, forall f, List.length (ts ++ c) < f -> many_loop elem f (ts ++ c) = Ret x)
    \/ (exists p, forall c f, List.length (ts ++ c) < f -> many_loop elem f (ts ++ c) = Panic p).
Proof.
  intros He Hs Hp. induction n as [|n IH]; intros ts Hn; [lia|]. destruct ts as [|t r].
  { left. exists [], []. intros [|f] Hf; [simpl in Hf; lia|]. reflexivity. }
  assert (Hend : forall c x, elem ((t :: r) ++ c) = Ret (x, []) ->
     forall f, List.length ((t :: r) ++ c) < f -> many_loop elem f ((t :: r) ++ c) = Ret [x]).
  { intros c x E [|f] Hf; [lia|]. cbn [many_loop app]. change (t :: r ++ c) with ((t :: r) ++ c). rewrite E. cbn [bind].
    destruct f as [|f]; [simpl in Hf; lia|]. reflexivity. }
  destruct (He (t :: r)) as [G|(c & x & _ & G)].
  - unfold settled in G. specialize (Hs (t :: r)). destruct (elem (t :: r)) as [[x r1]|e|] eqn:Ee; cbn [follows] in G; [| |contradiction].
    + specialize (Hp (t :: r) x _ ltac:(discriminate) Ee).
      assert (F : forall c f, List.length ((t :: r) ++ c) < S f ->
        many_loop elem (S f) ((t :: r) ++ c) = (do l <- many_loop elem f (r1 ++ c) ;; Ret (x :: l)) /\ List.length (r1 ++ c) < f).
      { intros c f Hf. split; [|rewrite app_length in *; simpl in *; lia]. cbn [many_loop app]. change (t :: r ++ c) with ((t :: r) ++ c). rewrite G. reflexivity. }
      destruct (IH r1) as [(c & y & H)|(p & H)]; [simpl in *; lia| |].
      { left. exists c, (x :: y). intros [|f] Hf; [lia|]. destruct (F c f Hf) as [-> Hl]. rewrite H; auto. }
      right. exists p. intros c [|f] Hf; [lia|]. destruct (F c f Hf) as [-> Hl]. rewrite H; auto.
    + right. exists e. intros c [|f] Hf; [lia|]. cbn [many_loop app]. change (t :: r ++ c) with ((t :: r) ++ c). rewrite G. reflexivity.
  - left. exists c. eexists. apply Hend. specialize (G [] eq_refl). rewrite app_nil_r in G. exact G.
Qed.

(** Inner attributes are settled, or can be completed to a body with at most one item. *)
Definition simple_body (one : list tok) (r : list tok) : Prop :=
  r = [] \/ exists h, p_is "#" h = true /\ r = TPunct h :: TGroup (mkGroup Bracket [word "x"] call_site) :: one.
Definition a_struct : list tok := [word "struct"; word "x"; mark ";"].
Lemma inner_step hash r : consume_attributes_with_inner true (TPunct hash :: r) =
  if p_is "#" hash then
    match r with
    | TPunct bang :: r1 =>
        if p_is "!" bang then
          match r1 with
          | TGroup g :: r2 =>
              if delim_eqb (g_delim g) Bracket then
                do a <- parse_attribute hash (Some bang) g ;;
                do (l, rest) <- consume_attributes_with_inner true r2 ;;
                Ret (a :: l, rest)
              else Panic PInnerAttrBracket
          | _ => Panic PInnerAttrBracket
          end
        else Panic PInnerAttrBang
    | TGroup g :: _ => if delim_eqb (g_delim g) Bracket then Ret ([], TPunct hash :: r) else Panic PInnerAttrBang
    | _ => Panic PInnerAttrBang
    end
  else Ret ([], TPunct hash :: r).
Proof. reflexivity. Qed.
Lemma inner_content one ts : settled consume_inner_attributes ts
  \/ (exists c l r, consume_inner_attributes (ts ++ c) = Ret (l, r) /\ simple_body one r).
Proof.
  remember (List.length ts) as n eqn:Hn. assert (Hl : List.length ts <= n) by lia. clear Hn. revert ts Hl.
  unfold consume_inner_attributes. induction n as [|n IH]; intros ts Hl.
  { destruct ts; [|simpl in Hl; lia]. right. exists [], [], []. split; [reflexivity|left; reflexivity]. }
  destruct ts as [|t r].
  { apply IH. simpl. lia. }
  destruct t as [g|i|p|l]; try (left; intro u; reflexivity). destruct (p_is "#" p) eqn:Ep.
  2: { left. intro u. cbn [app]. rewrite ?inner_step, Ep. reflexivity. }
  destruct r as [|t r].
  { right. exists (TGroup (mkGroup Bracket [word "x"] call_site) :: one). do 2 eexists.
    split; [|right; exists p; split; [exact Ep|reflexivity]]. cbn [app]. rewrite ?inner_step, Ep. reflexivity. }
  destruct t as [g|i|q|l]; try (left; intro u; cbn [app]; rewrite ?inner_step, Ep; reflexivity).
  { left. intro u. cbn [app]. rewrite ?inner_step, Ep. destruct (delim_eqb (g_delim g) Bracket); reflexivity. }
  destruct (p_is "!" q) eqn:Eq.
  2: { left. intro u. cbn [app]. rewrite ?inner_step, Ep, Eq. reflexivity. }
  destruct r as [|t r].
  { right. exists [TGroup (mkGroup Bracket [word "x"] call_site)]. do 2 eexists. split; [|left; reflexivity].
    cbn [app]. rewrite ?inner_step, Ep, Eq. reflexivity. }
  destruct t as [g|i|q'|l]; try (left; intro u; cbn [app]; rewrite ?inner_step, Ep, Eq; reflexivity).
  destruct (delim_eqb (g_delim g) Bracket) eqn:Eg.
  2: { left. intro u. cbn [app]. rewrite ?inner_step, Ep, Eq, Eg. reflexivity. }
  destruct (parse_attribute p (Some q) g) as [a|e|] eqn:Ea;
    try (left; intro u; cbn [app]; rewrite ?inner_step, Ep, Eq, Eg, Ea; try exact I; reflexivity).
  destruct (IH r) as [H|(c & l & r' & H & B)]; [simpl in Hl; lia| |].
  - left. intro u. specialize (H u). unfold follows in *. cbn [app]. rewrite ?inner_step, Ep, Eq, Eg, Ea. cbn [bind].
    destruct (consume_attributes_with_inner true r) as [[l r']|e|]; try exact I; rewrite H; reflexivity.
  - right. exists c, (a :: l), r'. split; [|exact B]. cbn [app]. rewrite ?inner_step, Ep, Eq, Eg, Ea. cbn [bind]. rewrite H. reflexivity.
Qed.

Definition module_of (name : ident) (sp : span) (ts : list tok) : list tok := [word "mod"; TIdent name; TGroup (mkGroup Brace ts sp)].
Lemma module_unfold name sp ts : parse_item (module_of name sp ts) =
  (do (inner, us) <- consume_inner_attributes ts ;;
   do members <- many_loop (parse_mod_member consume_item) (loop_fuel us) us ;;
   Ret (Ok (IModule (mkModule [] None None (mkIdent "mod" call_site) name None (Some (group_span_new (mkGroup Brace ts sp))) inner members)))).
Proof.
  unfold parse_item. rewrite consume_item_unfold. unfold module_of, word. 
  set (toks := [_; _; _]).
  assert (consume_item_body consume_item consume_either_item toks = wrap IModule (parse_mod consume_item [] None toks)) as -> by reflexivity.
  unfold toks, parse_mod, wrap. cbn [consume_ident id_is id_str parse_ident parse_any_ident bind g_delim delim_eqb g_stream]. cbn -[consume_inner_attributes many_loop loop_fuel consume_item group_span_new].
  destruct (consume_inner_attributes ts) as [[inner us]|p|]; [|reflexivity|reflexivity]. cbn [bind].
  destruct (many_loop (parse_mod_member consume_item) (loop_fuel us) us) as [l|p|]; reflexivity.
Qed.
Lemma mod_member_safe ts : safe (parse_mod_member consume_item ts).
Proof. unfold parse_mod_member. apply safe_bind; [apply consume_item_safe|]. intros [[i|e] r] _; [exact I|reflexivity]. Qed.
Lemma simple_members r : simple_body a_struct r -> exists l, many_loop (parse_mod_member consume_item) (loop_fuel r) r = Ret l.
Proof.
  intros [->|(h & Eh & ->)]; [exists []; reflexivity|]. 
  destruct h as [c s sp]. unfold p_is in Eh. cbn [p_char] in Eh. apply Ascii.eqb_eq in Eh. subst. eexists. reflexivity.
Qed.

Theorem C103_module (name : ident) (sp : span) (ts : list tok) :
  (exists c i, parse_item (module_of name sp (ts ++ c)) = Ret (Ok i))
  \/ (exists p, forall c, parse_item (module_of name sp (ts ++ c)) = Panic p).
Proof.
  destruct (inner_content a_struct ts) as [H|(c & l & r & H & B)].
  2: { left. exists c. destruct (simple_members r B) as (m & M). eexists. rewrite module_unfold, H. cbn [bind]. rewrite M. reflexivity. }
  unfold settled in H. pose proof (inner_attributes_safe ts) as S. destruct (consume_inner_attributes ts) as [[inner us]|p|] eqn:E; cbn [follows] in H; [| |contradiction].
  2: { right. exists p. intro c. rewrite module_unfold, H. reflexivity. }
  destruct (many_content _ mod_member_content mod_member_safe) with (n := Datatypes.S (List.length us)) (ts := us) as [(c & x & M)|(p & M)].
  - intros ts' x r Hne Hm. unfold parse_mod_member in Hm. inv_bind Hm. destruct x0 as [[i|e] r']; [|discriminate]. bsplit.
    apply consume_item_sound in Hx. destruct Hx as (c & -> & C1 & _). apply length_lt. eapply item_ne; eauto.
  - lia.
  - left. exists c. eexists. rewrite module_unfold, H. cbn [bind]. rewrite M; [reflexivity|unfold loop_fuel; lia].
  - right. exists p. intro c. rewrite module_unfold, H. cbn [bind]. rewrite M; [reflexivity|unfold loop_fuel; lia].
Qed.
Example C103_module_ex :
  (exists i, parse_item (module_of (mkIdent "m" call_site) call_site (lex "#![a] #[b] fn f(x: u8) { } enum E { A } impl<T" ++ lex "> T { } ")) = Ret (Ok i))
  /\ (forall c, parse_item (module_of (mkIdent "m" call_site) call_site (lex "#![a] enum E { A = 1 + 2 }" ++ c)) = Panic PDeclInMod).
Proof.
  split; [eexists; vm_compute; reflexivity|].
  intro c. rewrite module_unfold. set (us := tl (tl (tl (lex "#![a] enum E { A = 1 + 2 }" ++ c)))).
  assert (exists a, consume_inner_attributes (lex "#![a] enum E { A = 1 + 2 }" ++ c) = Ret (a, us)) as (a & ->) by (eexists; unfold us; vm_compute; reflexivity).
  assert (H : exists e, consume_item us = Ret (Err e, c)).
  { rewrite consume_item_unfold. unfold us. generalize consume_item, consume_either_item. intros R E. eexists. vm_compute. reflexivity. }
  destruct H as (e & H). cbn [bind]. unfold loop_fuel. assert (Hu : us <> []) by discriminate. clearbody us. destruct us as [|t us]; [congruence|].
  cbn [many_loop]. unfold parse_mod_member at 1. rewrite H. reflexivity.
Qed.

(** The body of an impl is different: a member of an unsupported kind is read to its end before
    it is refused, so that the site of the panic is open while nothing can save the body. *)
Definition impl_of (ts : list tok) : list tok := [word "impl"; word "A"; TGroup (mkGroup Brace ts call_site)].
Lemma unsafe_trait_refused c : exists p, parse_item (impl_of (lex "unsafe trait B" ++ c)) = Panic p.
Proof.
  pose proof (parse_item_safe (impl_of (lex "unsafe trait B" ++ c))) as S.
  destruct (parse_item (impl_of (lex "unsafe trait B" ++ c))) as [x|p|] eqn:E; [exfalso|eauto|contradiction].
  unfold parse_item in E. rewrite consume_item_unfold in E. unfold impl_of in E.
  set (us := lex "unsafe trait B" ++ c) in *. set (toks := [_; _; _]) in E.
  assert (consume_item_body consume_item consume_either_item toks = wrap IImpl (parse_impl consume_either_item [] toks)) as Hb by reflexivity.
  rewrite Hb in E. clear Hb.
  assert (Hi : parse_impl consume_either_item [] toks =
    (do ((braces, inner, items), ts) <- parse_body_group consume_either_item AtImplBody PImplToken [TGroup (mkGroup Brace us call_site)] ;;
     Ret (mkImpl [] None (mkIdent "impl" call_site) None None None (mkTypeExpr [word "A"]) None braces inner items, ts))) by reflexivity.
  rewrite Hi in E. clear Hi. unfold wrap, parse_body_group in E. cbn [g_delim delim_eqb] in E. unfold parse_impl_body in E. cbn [g_stream] in E.
  assert (Ha : consume_inner_attributes us = Ret ([], us)) by reflexivity. rewrite Ha in E. clear Ha. cbn [bind] in E.
  assert (Hm : exists p, parse_impl_member consume_either_item false us = Panic p \/ parse_impl_member consume_either_item false us = OutOfFuel).
  { unfold parse_impl_member. assert (Ho : consume_outer_attributes us = Ret ([], us)) by reflexivity. rewrite Ho. cbn [bind].
    assert (Hv : consume_vis_marker us = (None, us)) by reflexivity. rewrite Hv.
    assert (He : consume_either_item [] None us = (do (t, ts) <- parse_trait consume_either_item [] None us ;; Ret (ITrait t, ts))).
    { rewrite consume_either_unfold. reflexivity. }
    rewrite He. destruct (parse_trait consume_either_item [] None us) as [[t r]|p|]; cbn [bind impl_member_of_item]; [exists PUnsupportedMember|exists p|exists PUnsupportedMember]; auto. }
  destruct Hm as (p & Hm). unfold loop_fuel in E. assert (Hu : us <> []) by discriminate. clearbody us. destruct us as [|t us]; [congruence|].
  cbn [many_loop] in E. destruct Hm as [Hm|Hm]; rewrite Hm in E; discriminate E.
Qed.
Theorem C103_impl_open : (forall c, exists p, parse_item (impl_of (lex "unsafe trait B" ++ c)) = Panic p)
  /\ ~ (exists p, forall c, parse_item (impl_of (lex "unsafe trait B" ++ c)) = Panic p).
Proof.
  split; [exact unsafe_trait_refused|]. intros (p & E).
  pose proof (E []) as E1. pose proof (E (lex "{ }")) as E2. vm_compute in E1, E2. congruence.
Qed.

(** [consume_path] accepts exactly the spellings of well-formed paths. *)
From Verif Require Export PathSpec ParsePath Sound Safe.

Lemma colon2_complete p rest : wf_colon2 p = true -> consume_colon2 (TPunct (fst p) :: TPunct (snd p) :: rest) = (Some p, rest).
Proof.
  destruct p as [a b]. unfold wf_colon2. simpl. intro H. bsplit. rwb. unfold is_joint.
  destruct (p_spacing a), (p_spacing b); try discriminate. reflexivity.
Qed.
Lemma colon2_sound ts o rest : consume_colon2 ts = (o, rest) ->
  ts = print_opt print_punct2 o ++ rest /\ wf_opt wf_colon2 o = true.
Proof.
  unfold consume_colon2. intro H.
  destruct ts as [|[| |a|] [|[| |b|] r]]; try (bsplit; auto; fail).
  destruct (p_is ":" a && is_joint (p_spacing a) && p_is ":" b && negb (is_joint (p_spacing b))) eqn:E; bsplit; auto.
  split; auto. simpl. unfold wf_colon2. simpl. rwb. unfold is_joint in *.
  destruct (p_spacing a), (p_spacing b); try discriminate; reflexivity.
Qed.

Lemma generic_arg_complete b a : wf_generic_arg b a = true -> parse_generic_arg (print_generic_arg a) = Ret a.
Proof.
  unfold wf_generic_arg. intro H. bsplit. destruct a as [l|id eq ty|e]; simpl in *.
  - destruct l as [q n]. unfold wf_lifetime in H0. simpl in *. unfold parse_generic_arg, consume_lifetime. simpl. rewrite H0. reflexivity.
  - unfold parse_generic_arg. simpl. rewrite H0. destruct ty. reflexivity.
  - unfold print_type. destruct e as [ts]. simpl in *. unfold parse_generic_arg, consume_lifetime, plain_arg in *.
    destruct ts as [|[g|i|p|l] r]; try discriminate; simpl in *; auto.
    + destruct r as [|[] r]; simpl in *; auto. apply negb_true_iff in H0. rewrite H0. reflexivity.
    + apply negb_true_iff in H0. rewrite H0. reflexivity.
Qed.
Lemma generic_arg_sound ts a : parse_generic_arg ts = Ret a ->
  print_generic_arg a = ts /\ (forall b, arg_run b ts = true -> wf_generic_arg b a = true).
Proof.
  unfold parse_generic_arg, consume_lifetime. intro H. inv_bind H. destruct x as [lt ts1].
  destruct (consume_punct "'" ts) as [q r] eqn:Eq. apply consume_punct_sound in Eq. destruct Eq as (-> & Q1 & Q2).
  destruct q as [q|].
  - destruct r as [|[|i| |] [|? ?]]; try discriminate. bsplit. simpl. split; auto. intros b Hb.
    apply andb_true_intro. split; [exact Hb|exact Q1].
  - bsplit. simpl in *.
    assert (Hplain : plain_arg ts1 = true -> print_generic_arg (GATypeOrConst (mkTypeExpr ts1)) = ts1 /\
       (forall b, arg_run b ts1 = true -> wf_generic_arg b (GATypeOrConst (mkTypeExpr ts1)) = true)).
    { intro Hp. split; auto. intros b Hb. unfold wf_generic_arg. simpl. unfold print_type. simpl. rewrite Hb, Hp. reflexivity. }
    destruct ts1 as [|[g|i|p|l] r]; try discriminate; try (bsplit; apply Hplain; reflexivity).
    + destruct r as [|[g|i'|p|l] r]; try (bsplit; apply Hplain; reflexivity).
      destruct (p_is "=" p) eqn:Ep; bsplit.
      * simpl. split; auto. intros b Hb. apply andb_true_intro. split; [exact Hb|exact Ep].
      * apply Hplain. simpl. rewrite Ep. reflexivity.
    + bsplit. apply Hplain. specialize (Q2 eq_refl). simpl in *. rewrite Q2. reflexivity.
Qed.
Lemma generic_arg_ne b a : wf_generic_arg b a = true -> print_generic_arg a <> [].
Proof.
  unfold wf_generic_arg. intros H E. bsplit. destruct a; simpl in *; try discriminate.
  unfold print_type in E. rewrite E in H0. discriminate.
Qed.

(** One step of the scan of an argument. *)
Lemma arg_until_comma c p rest : arg_run true c = true -> p_is "," p = true ->
  consume_stuff_until (is_punct ",") false (c ++ TPunct p :: rest) = Ret (c, TPunct p :: rest).
Proof.
  intros Hr Hp. apply until_term; auto.
  - unfold arg_run in Hr. unfold run_closed.
    change (is_punct ",") with end_comma. destruct (scan end_comma 0 false c) as [[d dash]|]; [|discriminate]. bsplit. auto.
  - simpl. apply term_comma_field; auto.
Qed.
Lemma arg_until_gt c p rest : arg_run false c = true -> p_is ">" p = true ->
  consume_stuff_until (is_punct ",") false (c ++ TPunct p :: rest) = Ret (c, TPunct p :: rest).
Proof.
  intros Hr Hp. unfold arg_run in Hr. destruct (scan end_comma 0 false c) as [[d dash]|] eqn:Es; [|discriminate].
  simpl in Hr. bsplit. apply Z.eqb_eq in H. subst d dash.
  eapply until_complete; [exact Es| |discriminate]. simpl. unfold stops, closes, opens. simpl. known. reflexivity.
Qed.

Lemma arg_now_comma p rest : p_is "," p = true ->
  consume_stuff_until (is_punct ",") false (TPunct p :: rest) = Ret ([], TPunct p :: rest).
Proof. intro H. apply (arg_until_comma []); auto. Qed.
Lemma arg_now_gt p rest : p_is ">" p = true ->
  consume_stuff_until (is_punct ",") false (TPunct p :: rest) = Ret ([], TPunct p :: rest).
Proof. intro H. apply (arg_until_gt []); auto. Qed.

Lemma args_loop_complete r rest surplus : p_is ">" r = true -> forall skip l acc fuel,
  wf_inner wf_generic_arg skip l = true -> List.length l < fuel ->
  wf_opt (fun p => p_is "," p && negb (match l with [] => pu_skip_last acc | _ => skip end)) surplus = true ->
  generic_args_loop fuel acc (print_inner print_generic_arg skip l ++ print_opt print_punct surplus ++ TPunct r :: rest)
  = Ret (mkPunctuated (pu_inner acc ++ l) (match l with [] => pu_skip_last acc | _ => skip end), TPunct r :: rest).
Proof.
  intros Hr skip l. induction l as [|[x p] l IH]; intros acc fuel Hw Hf Hs.
  - destruct fuel; [simpl in Hf; lia|]. cbn [generic_args_loop print_inner app].
    destruct surplus as [s|]; cbn [print_opt print_punct app].
    + simpl in Hs. bsplit. rewrite arg_now_comma by auto. cbn [bind]. unfold consume_comma. rewrite consume_punct_yes by auto.
      rewrite app_nil_r. destruct acc; reflexivity.
    + rewrite arg_now_gt by auto. cbn [bind]. unfold consume_comma.
      rewrite consume_punct_no by (simpl; known; reflexivity). rewrite app_nil_r. destruct acc; reflexivity.
  - destruct fuel; [simpl in Hf; lia|]. simpl in Hf.
    assert (Hstep : forall (comma : option punct) tail,
      wf_generic_arg (some comma) x = true ->
      consume_stuff_until (is_punct ",") false (print_generic_arg x ++ print_opt print_punct comma ++ tail)
        = Ret (print_generic_arg x, print_opt print_punct comma ++ tail) ->
      consume_comma (print_opt print_punct comma ++ tail) = (comma, tail) ->
      generic_args_loop (S fuel) acc (print_generic_arg x ++ print_opt print_punct comma ++ tail)
      = generic_args_loop fuel (pu_push acc x comma) tail).
    { intros comma tail Hwx Hu Hc. cbn [generic_args_loop]. rewrite Hu. cbn [bind]. rewrite Hc.
      pose proof (generic_arg_ne _ _ Hwx). destruct (print_generic_arg x) eqn:Ex; [congruence|].
      rewrite <- Ex, (generic_arg_complete _ _ Hwx). reflexivity. }
    destruct l as [|[y q] l].
    + cbn [wf_inner print_inner] in *. bsplit. destruct skip; simpl negb in *.
      * assert (surplus = None) as -> by (destruct surplus; auto; simpl in Hs; bsplit; discriminate).
        app_norm. cbn [print_opt app].
        etransitivity; [apply (Hstep None (TPunct r :: rest)); auto|].
        -- unfold wf_generic_arg in H. bsplit. apply arg_until_gt; auto.
        -- apply consume_punct_no. simpl. known. reflexivity.
        -- destruct fuel; [simpl in Hf; lia|]. cbn [generic_args_loop]. rewrite arg_now_gt by auto. cbn [bind]. unfold consume_comma.
           rewrite consume_punct_no by (simpl; known; reflexivity). simpl. rewrite (default_comma_eq p) by auto. reflexivity.
      * app_norm. cbn [app]. etransitivity; [apply (Hstep (Some p)); auto|].
        -- unfold wf_generic_arg in H. bsplit. apply arg_until_comma; auto.
        -- apply consume_punct_yes; auto.
        -- etransitivity; [apply (IH (pu_push acc x (Some p)) fuel); auto; simpl in *; lia|].
           simpl. app_norm. reflexivity.
    + change (wf_generic_arg true x && p_is "," p && wf_inner wf_generic_arg skip ((y, q) :: l) = true) in Hw. bsplit.
      change (print_inner print_generic_arg skip ((x, p) :: (y, q) :: l))
        with (print_generic_arg x ++ TPunct p :: print_inner print_generic_arg skip ((y, q) :: l)).
      rewrite <- app_assoc. cbn [app]. etransitivity; [apply (Hstep (Some p)); auto|].
      * unfold wf_generic_arg in H. bsplit. apply arg_until_comma; auto.
      * apply consume_punct_yes; auto.
      * etransitivity; [apply (IH (pu_push acc x (Some p)) fuel); auto; simpl in *; lia|].
        simpl. app_norm. reflexivity.
Qed.
Lemma args_length skip l : wf_inner wf_generic_arg skip l = true ->
  List.length l <= List.length (print_inner print_generic_arg skip l).
Proof.
  intro H. eapply (spells_inner_length (fun x c => c = print_generic_arg x) no_gap); eauto.
  - intros b x c Hx ->. eapply generic_arg_ne; eauto.
  - apply print_spells_inner. auto.
Qed.
Lemma generic_args_complete g c rest : wf_generic_args g = true -> spells_generic_args g c ->
  consume_generic_args (c ++ rest) = Ret (Some g, rest).
Proof.
  unfold wf_generic_args. intros H (surplus & -> & Hs). bsplit.
  destruct g as [tf l [args skip] r]. simpl in *. unfold wf_punctuated in H1. simpl in *.
  assert (Hc : consume_colon2 (print_opt print_punct2 tf ++ TPunct l :: print_punctuated print_generic_arg {| pu_inner := args; pu_skip_last := skip |} ++
     print_opt print_punct surplus ++ TPunct r :: rest)
     = (tf, TPunct l :: print_punctuated print_generic_arg {| pu_inner := args; pu_skip_last := skip |} ++
     print_opt print_punct surplus ++ TPunct r :: rest)).
  { destruct tf as [p|]; simpl in *; [apply colon2_complete; auto|]. known. simpl.
    match goal with |- match ?x with _ => _ end = _ => destruct x as [|[] ?]; reflexivity end. }
  unfold consume_generic_args. app_norm. cbn [app]. rewrite Hc. rewrite consume_punct_yes by auto.
  change (print_punctuated print_generic_arg {| pu_inner := args; pu_skip_last := skip |})
    with (print_inner print_generic_arg skip args).
  rewrite args_loop_complete; auto.
  - cbn [bind]. simpl. rewrite H0. simpl. f_equal. f_equal. f_equal. f_equal. f_equal.
    destruct args; auto. simpl in H1. destruct skip; [discriminate|reflexivity].
  - unfold loop_fuel. rewrite app_length. pose proof (args_length _ _ H1). lia.
  - destruct surplus; auto. simpl in *. destruct args; auto. apply andb_true_iff in Hs. destruct Hs as [Hs _]. rewrite Hs. reflexivity.
Qed.

Lemma args_loop_sound : forall fuel acc ts p rest,
  generic_args_loop fuel acc ts = Ret (p, rest) ->
  head_is (is_punct ">") rest = true ->
  (pu_skip_last acc = true -> head_is (is_punct ">") ts = true \/ ts = []) ->
  exists l surplus,
    pu_inner p = pu_inner acc ++ l
    /\ ts = print_inner print_generic_arg (pu_skip_last p) l ++ print_opt print_punct surplus ++ rest
    /\ (match l with [] => pu_skip_last p = pu_skip_last acc | _ => wf_inner wf_generic_arg (pu_skip_last p) l = true end)
    /\ wf_opt (fun c => p_is "," c && negb (pu_skip_last p)) surplus = true.
Proof.
  induction fuel as [|fuel IH]; intros acc ts p rest H Hg Hk; [discriminate|].
  cbn [generic_args_loop] in H. inv_bind H. destruct x as [arg ts1].
  destruct (consume_comma ts1) as [comma ts2] eqn:Ec. apply consume_punct_sound in Ec. destruct Ec as (-> & C1 & C2).
  apply until_sound in Hx. destruct Hx as [-> (d & dash & D1 & D2 & D3 & _)].
  destruct arg as [|t0 arg].
  - bsplit. exists [], comma. simpl. rewrite app_nil_r. repeat split; auto.
    destruct comma as [c|]; auto. simpl in *. rewrite C1. simpl.
    destruct (pu_skip_last p); auto. destruct (Hk eq_refl) as [Hk'|Hk']; [|discriminate].
    pose proof (punct_excl ">" "," (TPunct c) ltac:(congruence) Hk') as Hx. simpl in Hx. congruence.
  - remember (t0 :: arg) as a0. inv_bind H.
    assert (Ha : print_generic_arg x = a0 /\ (forall b, arg_run b a0 = true -> wf_generic_arg b x = true)).
    { apply generic_arg_sound. subst a0. exact Hx. }
    destruct Ha as [Ha1 Ha2]. clear Hx.
    destruct comma as [c|].
    + simpl in C1, D3. destruct (term_stops (is_punct ",") dash (TPunct c)) as [_ _]; [simpl; apply term_comma_field; auto|].
      assert (d = 0%Z) as ->.
      { unfold stops in D3. bsplit. apply Z.eqb_eq in H0. auto. }
      assert (Hw : wf_generic_arg true x = true).
      { apply Ha2. unfold arg_run. change end_comma with (is_punct ","). rewrite D2. reflexivity. }
      apply IH in H; auto; [|discriminate].
      destruct H as (l & surplus & L1 & L2 & L3 & L4). exists ((x, c) :: l), surplus. simpl in L1.
      rewrite <- app_assoc in L1. simpl in L1. rewrite L1. split; auto. rewrite L2. split; [|split]; auto.
      * destruct l as [|[y q] l]; simpl; rewrite Ha1.
        -- simpl in L3. rewrite L3. app_norm. reflexivity.
        -- app_norm. reflexivity.
      * destruct l as [|[y q] l].
        -- simpl in L3. rewrite L3. simpl. rewrite Hw, C1. reflexivity.
        -- change (wf_generic_arg true x && p_is "," c && wf_inner wf_generic_arg (pu_skip_last p) ((y, q) :: l) = true).
           rwb. reflexivity.
    + simpl in D3, H. specialize (C2 eq_refl). simpl app in *. destruct ts2 as [|t2 r2].
      * exfalso. apply IH in H; auto. destruct H as (l & surplus & _ & L2 & _).
        destruct rest; [discriminate|]. symmetry in L2. apply app_eq_nil in L2. destruct L2 as [_ L2].
        apply app_eq_nil in L2. destruct L2. discriminate.
      * change (stops (is_punct ",") d dash t2 = true) in D3. unfold stops, closes in D3. simpl in C2.
        rewrite C2, andb_false_r, orb_false_r in D3.
        apply andb_true_iff in D3. destruct D3 as [D3 D4]. apply andb_true_iff in D3. destruct D3 as [D3 _].
        apply andb_true_iff in D4. destruct D4 as [D4 D5]. apply Z.eqb_eq in D3. subst d.
        apply negb_true_iff in D5. subst dash.
        assert (Hw : wf_generic_arg false x = true).
        { apply Ha2. unfold arg_run. change end_comma with (is_punct ","). rewrite D2. reflexivity. }
        assert (Hg2 : generic_args_loop fuel (pu_push acc x None) (t2 :: r2) = Ret (pu_push acc x None, t2 :: r2)).
        { destruct fuel; [discriminate|]. cbn [generic_args_loop]. destruct t2 as [| |q|]; try discriminate.
          rewrite arg_now_gt by auto. cbn [bind]. unfold consume_comma. rewrite consume_punct_no by auto. reflexivity. }
        rewrite Hg2 in H. bsplit. exists [(x, punct_new "," Alone)], None. simpl. rewrite Ha1, app_nil_r, Hw. auto.
Qed.

Lemma generic_args_sound ts o rest : consume_generic_args ts = Ret (o, rest) ->
  match o with
  | None => rest = ts
  | Some g => wf_generic_args g = true /\ exists c, ts = c ++ rest /\ spells_generic_args g c
  end.
Proof.
  unfold consume_generic_args. intro H. destruct (consume_colon2 ts) as [tf ts1] eqn:E1.
  apply colon2_sound in E1. destruct E1 as [-> E1].
  destruct (consume_punct "<" ts1) as [l ts2] eqn:E2. apply consume_punct_sound in E2. destruct E2 as (-> & E2 & _).
  destruct l as [l|]; [|bsplit; reflexivity].
  inv_bind H. destruct x as [args ts3]. inv_bind H. destruct x as [r ts4]. apply parse_punct_sound in Hx0. destruct Hx0 as [-> Hr].
  bsplit. apply args_loop_sound in Hx; auto; [|discriminate].
  destruct Hx as (la & surplus & L1 & L2 & L3 & L4). simpl in L1. subst la ts2.
  assert (W : wf_punctuated wf_generic_arg args = true).
  { unfold wf_punctuated. destruct (pu_inner args) eqn:Ei; auto. simpl. rewrite L3. reflexivity. }
  split.
  - unfold wf_generic_args. simpl in *. rewrite E1, E2, W, Hr. reflexivity.
  - eexists. split; [|exists surplus; split; [reflexivity|exact L4]]. simpl. unfold print_punctuated. app_norm. reflexivity.
Qed.

Lemma generic_args_none id ts : ts = [] \/ (exists c r, ts = TPunct (fst c) :: TPunct (snd c) :: TIdent id :: r /\ wf_colon2 c = true) ->
  consume_generic_args ts = Ret (None, ts).
Proof.
  intros [->|(c & r & -> & H)]; [reflexivity|]. unfold consume_generic_args. rewrite colon2_complete by auto. reflexivity.
Qed.

Lemma path_loop_complete : forall r s acc fuel ca cr,
  wf_opt wf_generic_args (ps_args s) = true -> forallb (wf_segment false) r = true ->
  (match ps_args s with Some g => spells_generic_args g ca | None => ca = [] end) ->
  spells_segments r cr -> List.length r < fuel ->
  path_loop fuel (ps_colons s) acc (TIdent (ps_ident s) :: ca ++ cr) = Ret (Some (mkPath (acc ++ s :: r))).
Proof.
  induction r as [|s' r IH]; intros s acc fuel ca cr Hw Hr Hs Hc Hf; (destruct fuel; [simpl in Hf; lia|]); cbn [path_loop].
  - simpl in Hc. subst cr.
    assert (E : consume_generic_args (ca ++ []) = Ret (ps_args s, [])).
    { destruct (ps_args s) as [g|]; [apply generic_args_complete; auto|subst ca; reflexivity]. }
    rewrite E. cbn [bind]. destruct s; reflexivity.
  - simpl in Hf. destruct Hc as (c1 & x0 & -> & (ca' & Ha' & ->) & Hc'). simpl in Hr.
    apply andb_true_iff in Hr. destruct Hr as [Hs' Hr']. apply andb_true_iff in Hs'. destruct Hs' as [Hc2 Hg2].
    destruct (ps_colons s') as [c|] eqn:Ec; [|discriminate]. simpl print_opt. unfold print_punct2. simpl.
    match goal with |- context [consume_generic_args ?x] => assert (E : consume_generic_args x
       = Ret (ps_args s, TPunct (fst c) :: TPunct (snd c) :: TIdent (ps_ident s') :: ca' ++ x0)) end.
    { destruct (ps_args s) as [g|].
      - apply generic_args_complete; auto. 
      - subst ca. apply (generic_args_none (ps_ident s')). right. exists c. eexists. split; [reflexivity|auto]. }
    rewrite E. cbn [bind]. rewrite colon2_complete by auto. 
    rewrite <- Ec. rewrite IH; auto; [|lia]. rewrite <- app_assoc. destruct s; reflexivity.
Qed.
Lemma segment_ne s c : spells_segment s c -> c <> [].
Proof. intros (ca & _ & ->) E. apply app_eq_nil in E. destruct E. discriminate. Qed.
Lemma segments_length l : forall c, spells_segments l c -> List.length l <= List.length c.
Proof.
  induction l as [|s r IH]; intros c H; simpl in *; [lia|]. destruct H as (c1 & c2 & -> & H1 & H2).
  apply segment_ne in H1. apply IH in H2. rewrite app_length. destruct c1; [congruence|]. simpl. lia.
Qed.
Lemma path_complete p ts : wf_path p = true -> spells_path p ts -> consume_path ts = Ret (Some p).
Proof.
  unfold wf_path, spells_path. destruct p as [[|s r]]; [discriminate|]. cbn [pa_segments]. intros Hw (c1 & c2 & -> & Hs & Hr).
  bsplit. destruct Hs as (ca & Ha & ->). unfold wf_segment in H. bsplit. app_norm. simpl app.
  assert (E : consume_colon2 (print_opt print_punct2 (ps_colons s) ++ TIdent (ps_ident s) :: ca ++ c2)
     = (ps_colons s, TIdent (ps_ident s) :: ca ++ c2)).
  { destruct (ps_colons s) as [c|]; [apply colon2_complete; auto|reflexivity]. }
  unfold consume_path. rewrite E. apply (path_loop_complete r s []); auto. unfold loop_fuel. simpl. rewrite app_length.
  apply segments_length in Hr. lia.
Qed.

Lemma path_loop_sound : forall fuel colons acc ts p,
  path_loop fuel colons acc ts = Ret (Some p) ->
  exists s r, pa_segments p = acc ++ s :: r /\ ps_colons s = colons
    /\ wf_opt wf_generic_args (ps_args s) = true /\ forallb (wf_segment false) r = true
    /\ spells_segments (s :: r) (print_opt print_punct2 colons ++ ts).
Proof.
  induction fuel as [|fuel IH]; intros colons acc ts p H; [discriminate|]. cbn [path_loop] in H.
  destruct ts as [|[|id| |] ts]; try discriminate. inv_bind H. destruct x as [args ts1].
  apply generic_args_sound in Hx.
  assert (Hs : exists ca, ts = ca ++ ts1 /\ wf_opt wf_generic_args args = true
      /\ match args with Some g => spells_generic_args g ca | None => ca = [] end).
  { destruct args as [g|]; [destruct Hx as (W & c & -> & S); exists c; auto|subst; exists []; auto]. }
  clear Hx. destruct Hs as (ca & -> & W & S).
  destruct ts1 as [|t1 r1].
  - bsplit. exists (mkPathSegment colons id args), []. simpl. split; [reflexivity|]. split; [reflexivity|]. split; [exact W|].
    split; auto. exists (print_opt print_punct2 colons ++ TIdent id :: ca), []. rewrite !app_nil_r. split; auto. split; auto.
    exists ca. simpl. auto.
  - destruct (consume_colon2 (t1 :: r1)) as [[sep|] ts2] eqn:Ec; [|discriminate].
    apply colon2_sound in Ec. destruct Ec as [-> Wc]. apply IH in H. destruct H as (s & r & P1 & P2 & P3 & P4 & P5).
    exists (mkPathSegment colons id args), (s :: r). rewrite P1, <- app_assoc. simpl app. split; auto. split; auto. split; auto. split.
    + simpl. rewrite P4. unfold wf_segment. rewrite P2, P3. simpl in Wc. rewrite Wc. reflexivity.
    + cbn [spells_segments]. exists (print_opt print_punct2 colons ++ TIdent id :: ca), (print_opt print_punct2 (Some sep) ++ ts2).
      split; [app_norm; reflexivity|]. split; [exists ca; simpl; auto|exact P5].
Qed.
Lemma path_sound ts p : consume_path ts = Ret (Some p) -> wf_path p = true /\ spells_path p ts.
Proof.
  unfold consume_path. destruct (consume_colon2 ts) as [c ts1] eqn:E. apply colon2_sound in E. destruct E as [-> E]. intro H.
  apply path_loop_sound in H. destruct H as (s & r & P1 & P2 & P3 & P4 & P5). simpl in P1. unfold wf_path, spells_path. rewrite P1. split; auto.
  rewrite P4. unfold wf_segment. rewrite P2, P3. destruct c; auto. simpl in E. rewrite E. reflexivity.
Qed.
Theorem consume_path_iff ts p : consume_path ts = Ret (Some p) <-> wf_path p = true /\ spells_path p ts.
Proof. split; [apply path_sound|intros []; apply path_complete; auto]. Qed.

(** ** Termination and panics *)
Lemma parse_generic_arg_safe ts : safe (parse_generic_arg ts).
Proof.
  unfold parse_generic_arg. apply safe_bind; [apply lifetime_safe|]. intros [lt r] _.
  destruct lt; [exact I|]. destruct r as [|[] [|[] ?]]; simpl; auto. destruct (p_is "=" p); exact I.
Qed.
Lemma args_loop_safe : forall fuel acc ts, List.length ts < fuel -> safe (generic_args_loop fuel acc ts).
Proof.
  induction fuel as [|fuel IH]; intros acc ts Hf; [lia|]. cbn [generic_args_loop].
  apply safe_bind; [apply until_safe|]. intros [arg ts1] Hu. apply until_sound in Hu. destruct Hu as [-> _].
  destruct (consume_comma ts1) as [comma ts2] eqn:Ec. apply consume_punct_sound in Ec. destruct Ec as (-> & _ & _).
  destruct arg as [|t arg]; [exact I|]. apply safe_bind; [apply parse_generic_arg_safe|]. intros a _. apply IH.
  rewrite !app_length in Hf. simpl in Hf. lia.
Qed.
Lemma generic_args_safe ts : safe (consume_generic_args ts).
Proof.
  unfold consume_generic_args. destruct (consume_colon2 ts) as [tf ts1]. destruct (consume_punct "<" ts1) as [[l|] ts2]; [|exact I].
  apply safe_bind; [apply args_loop_safe; unfold loop_fuel; lia|]. intros [a t] _. apply safe_bind; [apply parse_punct_safe|]. intros [? ?] _. exact I.
Qed.
Lemma generic_args_length ts o rest : consume_generic_args ts = Ret (o, rest) -> List.length rest <= List.length ts.
Proof.
  intro H. apply generic_args_sound in H. destruct o; [|subst; lia]. destruct H as (_ & c & -> & _). rewrite app_length. lia.
Qed.
Lemma path_loop_safe : forall fuel colons acc ts, List.length ts < fuel -> safe (path_loop fuel colons acc ts).
Proof.
  induction fuel as [|fuel IH]; intros colons acc ts Hf; [lia|]. cbn [path_loop].
  destruct ts as [|[|id| |] ts]; try exact I. apply safe_bind; [apply generic_args_safe|]. intros [args ts1] Hx.
  apply generic_args_length in Hx. destruct ts1 as [|t1 r1]; [exact I|].
  destruct (consume_colon2 (t1 :: r1)) as [[sep|] ts2] eqn:Ec; [|exact I]. apply colon2_sound in Ec. destruct Ec as [Ec _].
  apply IH. apply (f_equal (@List.length tok)) in Ec. rewrite app_length in Ec. simpl in *. lia.
Qed.
Lemma consume_path_safe ts : safe (consume_path ts).
Proof. unfold consume_path. destruct (consume_colon2 ts). apply path_loop_safe. unfold loop_fuel. lia. Qed.
Lemma as_path_safe t : safe (as_path t).
Proof. unfold as_path. destruct (unwrap_invisible_group t); apply consume_path_safe. Qed.

(** Soundness of the leaf parsers: what is read is a spelling of a well-formed tree. *)
From Verif Require Export Complete3.

(** Split on every [if] and [match] of a hypothesis, dropping the impossible cases. *)
Ltac step H :=
  match type of H with
  | context [if ?b then _ else _] => let E := fresh "E" in destruct b eqn:E
  | context [match ?x with _ => _ end] => let E := fresh "E" in destruct x eqn:E
  end; try discriminate H.

Lemma consume_ident_sound s ts o rest :
  consume_ident s ts = (o, rest) ->
  ts = print_opt print_ident o ++ rest /\ wf_opt (id_is s) o = true
  /\ (o = None -> head_is (is_ident s) rest = false).
Proof.
  unfold consume_ident. intro H. destruct ts as [|[g|i|p|l] r]; try (bsplit; simpl; auto; fail).
  destruct (id_is s i) eqn:E; bsplit; simpl; auto. repeat split; auto. discriminate.
Qed.
Lemma consume_punct_sound c ts o rest :
  consume_punct c ts = (o, rest) ->
  ts = print_opt print_punct o ++ rest /\ wf_opt (p_is c) o = true
  /\ (o = None -> head_is (is_punct c) rest = false).
Proof.
  unfold consume_punct. intro H. destruct ts as [|[g|i|p|l] r]; try (bsplit; simpl; auto; fail).
  destruct (p_is c p) eqn:E; bsplit; simpl; auto. repeat split; auto. discriminate.
Qed.
Lemma parse_any_ident_sound s ts i rest : parse_any_ident s ts = Ret (i, rest) -> ts = TIdent i :: rest.
Proof. unfold parse_any_ident. intro H. destruct ts as [|[g|j|p|l] r]; bsplit; auto. Qed.
Lemma parse_ident_sound s c ts i rest :
  parse_ident s c ts = Ret (i, rest) -> ts = TIdent i :: rest /\ id_is s i = true.
Proof. unfold parse_ident. intro H. destruct ts as [|[g|j|p|l] r]; bsplit. step H. bsplit. auto. Qed.
Lemma parse_punct_sound c s ts p rest :
  parse_punct c s ts = Ret (p, rest) -> ts = TPunct p :: rest /\ p_is c p = true.
Proof. unfold parse_punct. intro H. destruct ts as [|[g|j|q|l] r]; bsplit. step H. bsplit. auto. Qed.

(** ** Attributes *)
Lemma attribute_path_sound : forall ts path rest,
  attribute_path ts = Ret (path, rest) ->
  ts = path ++ rest /\ forallb path_token path = true /\
  match rest with [] => True | TGroup _ :: _ => True | TPunct p :: _ => p_is "=" p = true | _ => False end.
Proof.
  induction ts as [|t r IH]; intros path rest H; cbn [attribute_path] in H.
  - bsplit. simpl. auto.
  - destruct t as [g|i|p|l]; try discriminate.
    + bsplit. simpl. auto.
    + inv_bind H. destruct x as [pa rs]. bsplit. destruct (IH _ _ Hx) as (-> & H1 & H2). simpl. auto.
    + destruct (p_is "=" p) eqn:E1; [bsplit; simpl; rewrite E1; auto|].
      destruct (p_is ":" p) eqn:E2; [|discriminate].
      inv_bind H. destruct x as [pa rs]. bsplit. destruct (IH _ _ Hx) as (-> & H1 & H2). simpl. rewrite E2. auto.
Qed.

Lemma parse_attribute_sound h b g a :
  parse_attribute h b g = Ret a ->
  at_hash a = h /\ at_bang a = b /\ at_brackets a = group_span_new g
  /\ forallb path_token (at_path a) = true
  /\ (match at_value a with AVEquals p _ => p_is "=" p | _ => true end) = true
  /\ exists extra, g_stream g = at_path a ++ print_attribute_value (at_value a) ++ extra
     /\ match at_value a with AVGroup _ _ => True | _ => extra = [] end.
Proof.
  unfold parse_attribute. intro H. inv_bind H. destruct x as [path rest]. inv_bind H. bsplit.
  apply attribute_path_sound in Hx. destruct Hx as (Hs & Hp & Hr). simpl. repeat split; auto.
  - destruct rest as [|[g'|i|p|l] r]; simpl in Hx0; bsplit; auto. rewrite Hr in Hx0. bsplit. auto.
  - destruct rest as [|[g'|i|p|l] r]; simpl in Hx0; bsplit; auto.
    + exists []. rewrite app_nil_r in *. auto.
    + exists r. simpl. split; auto. rewrite Hs. unfold quote_with, group_span_new. simpl.
      rewrite group_eta. reflexivity.
    + rewrite Hr in Hx0. bsplit. exists []. rewrite app_nil_r. auto.
Qed.

Lemma spells_attributes_nil : spells_attributes [] [].
Proof. reflexivity. Qed.
Local Hint Resolve spells_attributes_nil : core.
Arguments consume_attributes_with_inner expect_inner !ts.

Lemma attributes_sound inner : forall n ts l rest, List.length ts <= n ->
  consume_attributes_with_inner inner ts = Ret (l, rest) ->
  exists c, ts = c ++ rest /\ spells_attributes l c /\ forallb (wf_attribute inner) l = true
    /\ (if inner then inner_follow rest else negb (head_is (is_punct "#") rest)) = true.
Proof.
  induction n as [|n IH]; intros ts l rest Hn H.
  - destruct ts; [|simpl in Hn; lia]. cbn in H. bsplit. exists []. simpl. destruct inner; auto.
  - destruct ts as [|[g|i|p|li] r]; try (cbn in H; bsplit; exists []; simpl; destruct inner; auto; fail).
    cbn [consume_attributes_with_inner] in H.
    destruct (p_is "#" p) eqn:Eh.
    2:{ bsplit. exists []. simpl. rewrite Eh. destruct inner; auto. }
    destruct inner.
    + destruct r as [|[g|i|q|li] r]; try discriminate.
      * destruct (delim_eqb (g_delim g) Bracket) eqn:Ed; [|discriminate]. bsplit.
        exists []. simpl. rewrite Ed. rewrite Eh. auto.
      * destruct (p_is "!" q) eqn:Eb; [|discriminate].
        destruct r as [|[g|i|q2|li] r]; try discriminate.
        destruct (delim_eqb (g_delim g) Bracket) eqn:Ed; [|discriminate].
        inv_bind H. inv_bind H. destruct x0 as [l' rs]. bsplit.
        apply parse_attribute_sound in Hx. destruct Hx as (A1 & A2 & A3 & A4 & A5 & e & A6 & A7).
        apply IH in Hx0; [|simpl in Hn; lia]. destruct Hx0 as (c2 & -> & C1 & C2 & C3).
        exists (TPunct p :: TPunct q :: TGroup g :: c2). split; auto. split; [|split; auto].
        -- exists [TPunct p; TPunct q; TGroup g], c2. split; auto. split; auto.
           exists e. split; auto. rewrite A1, A2, A3, <- A6. simpl.
           unfold quote_with, group_span_new. simpl. rewrite group_eta. reflexivity.
        -- simpl. rewrite C2. unfold wf_attribute. rewrite A1, A2, A3, A4, A5, Eh, Eb. simpl. rewrite Ed. reflexivity.
    + destruct r as [|[g|i|q|li] r]; try discriminate.
      destruct (delim_eqb (g_delim g) Bracket) eqn:Ed; [|discriminate].
      inv_bind H. inv_bind H. destruct x0 as [l' rs]. bsplit.
      apply parse_attribute_sound in Hx. destruct Hx as (A1 & A2 & A3 & A4 & A5 & e & A6 & A7).
      apply IH in Hx0; [|simpl in Hn; lia]. destruct Hx0 as (c2 & -> & C1 & C2 & C3).
      exists (TPunct p :: TGroup g :: c2). split; auto. split; [|split; auto].
      * exists [TPunct p; TGroup g], c2. split; auto. split; auto.
        exists e. split; auto. rewrite A1, A2, A3, <- A6. simpl.
        unfold quote_with, group_span_new. simpl. rewrite group_eta. reflexivity.
      * simpl. rewrite C2. unfold wf_attribute. rewrite A1, A2, A3, A4, A5, Eh. simpl. rewrite Ed. reflexivity.
Qed.

Global Arguments consume_attributes_with_inner : simpl never.

Lemma outer_attributes_sound ts l rest :
  consume_outer_attributes ts = Ret (l, rest) ->
  exists c, ts = c ++ rest /\ spells_attributes l c /\ wf_outer l = true
    /\ head_is (is_punct "#") rest = false.
Proof.
  intro H. apply (attributes_sound false (List.length ts)) in H; auto.
  destruct H as (c & H1 & H2 & H3 & H4). bsplit. eauto.
Qed.
Lemma inner_attributes_sound ts l rest :
  consume_inner_attributes ts = Ret (l, rest) ->
  exists c, ts = c ++ rest /\ spells_attributes l c /\ wf_inner_attrs l = true.
Proof.
  intro H. apply (attributes_sound true (List.length ts)) in H; auto.
  destruct H as (c & H1 & H2 & H3 & H4). eauto.
Qed.

Lemma vis_sound ts v rest :
  consume_vis_marker ts = (v, rest) ->
  ts = print_opt print_vis v ++ rest /\ wf_opt wf_vis v = true
  /\ (head_is (is_punct "#") ts = false -> prefix_ok v rest = true).
Proof.
  unfold consume_vis_marker. intro H. destruct ts as [|[g|i|p|l] r]; try (bsplit; simpl; intuition; fail).
  - destruct (id_is "pub" i) eqn:E1.
    + destruct r as [|[g|j|p|l] r]; bsplit; simpl; rewrite ?E1; auto.
      destruct (delim_eqb (g_delim g) Parenthesis) eqn:Ed; bsplit; simpl; rewrite ?E1, ?Ed; auto.
    + destruct (id_is "crate" i) eqn:E2; bsplit; simpl; rewrite ?E1, ?E2; auto.
  - bsplit. simpl. repeat split; auto. intros ->. reflexivity.
Qed.

Lemma attrs_vis_sound ts l ts1 v rest :
  consume_outer_attributes ts = Ret (l, ts1) -> consume_vis_marker ts1 = (v, rest) ->
  exists ca, ts = ca ++ print_opt print_vis v ++ rest /\ spells_attributes l ca /\ wf_outer l = true
    /\ wf_opt wf_vis v = true /\ prefix_ok v rest = true.
Proof.
  intros H1 H2. apply outer_attributes_sound in H1. destruct H1 as (c & -> & S1 & S2 & S3).
  apply vis_sound in H2. destruct H2 as (-> & V1 & V2). exists c. repeat split; auto.
Qed.

(** ** Comma-separated lists *)
Lemma default_comma_ok : default_comma (punct_new "," Alone) = true.
Proof. reflexivity. Qed.
Lemma default_comma_is c : default_comma c = true -> p_is "," c = true.
Proof. intro H. rewrite (default_comma_eq c H). reflexivity. Qed.

Lemma punct_loop_sound {A} stop (elem : parser A) (sp : A -> list tok -> Prop) gap wf :
  (forall ts x rest, stop ts = Ret false -> elem ts = Ret (x, rest) ->
     exists c, ts = c ++ rest /\ sp x c
     /\ (head_is (is_punct ",") rest = true -> wf true x = true)
     /\ (stop rest = Ret true -> wf false x = true)
     /\ (head_is (is_punct ",") rest = false -> stop rest = Ret false -> (exists y r, elem rest = Ret (y, r)) ->
         wf true x = true /\ gap x = true)) ->
  forall fuel acc ts p rest,
  punct_loop stop elem fuel acc ts = Ret (p, rest) ->
  exists l skip c, ts = c ++ rest /\ pu_inner p = pu_inner acc ++ l
    /\ (l <> [] -> wf_inner wf skip l = true) /\ spells_inner sp gap skip l c
    /\ pu_skip_last p = (match l with [] => pu_skip_last acc | _ => skip end)
    /\ stop rest = Ret true
    /\ (l = [] \/ (stop ts = Ret false /\ exists y r, elem ts = Ret (y, r))).
Proof.
  intros He. induction fuel as [|fuel IH]; intros acc ts p rest H; [discriminate|].
  cbn [punct_loop] in H. inv_bind H. destruct x.
  - bsplit. exists [], false, []. simpl. rewrite app_nil_r. repeat split; auto.
  - inv_bind H. destruct x as [x ts1]. destruct (consume_comma ts1) as [comma ts2] eqn:Ec.
    destruct (He _ _ _ Hx Hx0) as (c1 & -> & S1 & W1 & W2 & W3).
    apply consume_punct_sound in Ec. destruct Ec as (-> & C1 & C2).
    apply IH in H. destruct H as (l & skip & c2 & -> & I1 & I2 & I3 & I4 & I5 & I6).
    destruct l as [|[y q] l].
    + simpl in I3. subst c2. simpl in I1, I4.
      rewrite app_nil_r in I1. rewrite ?app_nil_l' in *.
      destruct comma as [cm|]; simpl in *.
      * exists [(x, cm)], false, (c1 ++ [TPunct cm]). simpl. app_norm.
        split; auto. split; auto. repeat split; auto.
        -- intros _. rewrite C1, W1; auto.
        -- exists c1, []. auto.
        -- right. eauto.
      * exists [(x, punct_new "," Alone)], true, c1. repeat split; auto.
        -- intros _. simpl. rewrite W2; auto.
        -- exists c1, []. simpl. app_norm. auto.
        -- right. eauto.
    + destruct I6 as [I6|(I6 & I7)]; [discriminate|].
      set (cm := match comma with Some c => c | None => punct_new "," Alone end).
      exists ((x, cm) :: (y, q) :: l), skip, (c1 ++ print_opt print_punct comma ++ c2).
      app_norm. split; auto. split.
      { rewrite I1. simpl. rewrite <- app_assoc. reflexivity. }
      assert (Hw : wf true x = true /\ p_is "," cm = true).
      { destruct comma; simpl in *; subst cm; auto. destruct W3; auto. }
      destruct Hw as [Hw1 Hw2]. split.
      { intros _. change (wf true x && p_is "," cm && wf_inner wf skip ((y, q) :: l) = true).
        rewrite Hw1, Hw2, I2; auto. discriminate. }
      split.
      { exists c1, c2. split; auto. split; auto. destruct comma; simpl in *; subst cm; auto.
        destruct W3; auto. }
      repeat split; auto. right. eauto.
Qed.

(** From the empty list. *)
Lemma punct_loop_new {A} stop (elem : parser A) (sp : A -> list tok -> Prop) gap wf fuel ts p rest :
  (forall ts x rest, stop ts = Ret false -> elem ts = Ret (x, rest) ->
     exists c, ts = c ++ rest /\ sp x c
     /\ (head_is (is_punct ",") rest = true -> wf true x = true)
     /\ (stop rest = Ret true -> wf false x = true)
     /\ (head_is (is_punct ",") rest = false -> stop rest = Ret false -> (exists y r, elem rest = Ret (y, r)) ->
         wf true x = true /\ gap x = true)) ->
  punct_loop stop elem fuel pu_new ts = Ret (p, rest) ->
  exists c, ts = c ++ rest /\ spells_punctuated sp gap p c /\ wf_punctuated wf p = true
    /\ stop rest = Ret true.
Proof.
  intros He H. apply (punct_loop_sound _ _ sp gap wf He) in H.
  destruct H as (l & skip & c & -> & H1 & H2 & H3 & H4 & H5 & _).
  exists c. destruct p as [inner sk]. simpl in *. subst. unfold spells_punctuated, wf_punctuated. simpl.
  destruct l as [|x l].
  - simpl in *. auto.
  - rewrite H2 by discriminate. auto.
Qed.

Lemma spells_inner_print {A} (pr : A -> list tok) skip l : forall c,
  spells_inner (fun x c => c = pr x) no_gap skip l c -> c = print_inner pr skip l.
Proof.
  induction l as [|[x p] l IH]; simpl; auto. intros c (c1 & c2 & -> & H1 & H2).
  destruct l as [|y l]; auto. destruct H2 as [->|(? & _)]; [|discriminate].
  rewrite <- (IH c2); auto.
Qed.

(** ** Generics and where clauses *)
Lemma bound_sound P ts o t rest :
  consume_bound P ts = Ret (o, t :: rest) ->
  ts = print_opt print_bound o ++ t :: rest /\ wf_opt (wf_bound P) o = true
  /\ (P t = true \/ (is_punct ">" t = true /\ some o = true))
  /\ (o = None -> is_punct ":" t = false).
Proof.
  unfold consume_bound. intro H. destruct ts as [|t0 r]; [discriminate|].
  assert (Hother : (if P t0 then Ret (@None generic_bound, t0 :: r) else Panic PBoundToken) = Ret (o, t :: rest) ->
    is_punct ":" t0 = false ->
    t0 :: r = print_opt print_bound o ++ t :: rest /\ wf_opt (wf_bound P) o = true
    /\ (P t = true \/ (is_punct ">" t = true /\ some o = true)) /\ (o = None -> is_punct ":" t = false)).
  { intros Ho Hn. destruct (P t0) eqn:E; [|discriminate]. bsplit. simpl. auto. }
  destruct t0 as [g|i|p|l]; auto.
  destruct (p_is ":" p) eqn:Ep.
  - inv_bind H. destruct x as [bound rs]. bsplit.
    apply until_sound_term in Hx. destruct Hx as (-> & _ & H1 & H2 & _).
    simpl. unfold wf_bound. simpl. rewrite Ep, H1. repeat split; auto; try discriminate.
    destruct H2 as [H2|H2]; auto. unfold term in H2. bsplit. auto.
  - apply Hother; auto.
Qed.

Lemma generic_param_sound ts x rest :
  stop_generic_params ts = Ret false -> parse_generic_param ts = Ret (x, rest) ->
  exists c, ts = c ++ rest /\ c = print_generic_param x
  /\ (head_is (is_punct ",") rest = true -> wf_generic_param true x = true)
  /\ (stop_generic_params rest = Ret true -> wf_generic_param false x = true)
  /\ (head_is (is_punct ",") rest = false -> stop_generic_params rest = Ret false ->
      (exists y r, parse_generic_param rest = Ret (y, r)) -> wf_generic_param true x = true /\ no_gap x = true).
Proof.
  intros _ H. unfold parse_generic_param in H. inv_bind H. destruct x0 as [prefix ts1].
  inv_bind H. destruct x0 as [name ts2]. inv_bind H. destruct x0 as [bound ts3]. bsplit.
  apply parse_any_ident_sound in Hx0. subst ts1.
  assert (Hpre : ts = print_opt print_tok prefix ++ TIdent name :: ts2 /\
    (match prefix with
     | None => negb (id_is "const" name)
     | Some (TPunct q) => p_is "'" q
     | Some (TIdent i) => id_is "const" i
     | Some _ => false
     end) = true).
  { destruct ts as [|[g|i|p|l] r]; try discriminate.
    - destruct (id_is "const" i) eqn:E; bsplit; simpl; rewrite ?E; auto.
    - destruct (p_is "'" p) eqn:E; bsplit; simpl; rewrite ?E; auto. }
  destruct Hpre as [-> Hpre]. clear Hx.
  exists (print_generic_param (mkGenericParam prefix name bound)).
  destruct rest as [|t rest].
  { (* the end of the stream: no bound can stop here without a panic in the loop *)
    assert (exists o, bound = o /\ ts2 = print_opt print_bound o).
    { exists bound. split; auto. unfold consume_bound in Hx1. destruct ts2 as [|t0 r]; [discriminate|].
      destruct t0 as [g|i|p|l].
      1,2,4: match type of Hx1 with context [if ?b then _ else _] => destruct b end; bsplit; discriminate.
      destruct (p_is ":" p).
      - inv_bind Hx1. destruct x as [b rs]. bsplit. apply until_sound in Hx. destruct Hx as [-> _].
        simpl. unfold print_bound. simpl. app_norm. reflexivity.
      - destruct (end_generic_param (TPunct p)); bsplit; discriminate. }
    destruct H as (o & <- & ->). unfold print_generic_param. simpl. app_norm.
    repeat split; auto; try discriminate; intros; bsplit; discriminate. }
  apply bound_sound in Hx1. destruct Hx1 as (-> & B1 & B2 & _).
  assert (Hwf : forall b, wf_generic_param b (mkGenericParam prefix name bound) = true).
  { intro b. unfold wf_generic_param. simpl. rewrite Hpre. exact B1. }
  unfold print_generic_param at 1. simpl. app_norm. repeat split; auto.
  exfalso. injection H0 as Hs.
  unfold end_generic_param in B2. rewrite Hs, H in B2. destruct B2 as [B2|[B2 _]]; discriminate.
Qed.

Lemma generics_sound ts o rest :
  consume_generic_params ts = Ret (o, rest) ->
  ts = print_opt print_generic_params o ++ rest /\ wf_opt wf_generics o = true
  /\ (o = None -> head_is (is_punct "<") rest = false).
Proof.
  unfold consume_generic_params. intro H. destruct (consume_punct "<" ts) as [l ts1] eqn:E.
  apply consume_punct_sound in E. destruct E as (-> & E1 & E2). destruct l as [l|].
  - inv_bind H. destruct x as [ps ts2].
    apply (punct_loop_new _ _ (fun x c => c = print_generic_param x) no_gap wf_generic_param) in Hx;
      [|apply generic_param_sound].
    destruct Hx as (c & -> & S1 & S2 & S3).
    unfold spells_punctuated in S1. apply spells_inner_print in S1. subst c.
    destruct ts2 as [|[g|i|p|li] r]; try discriminate. bsplit. simpl in *.
    unfold print_generic_params, print_punctuated. simpl. app_norm. repeat split; auto; try discriminate.
    unfold wf_generics. simpl. rewrite E1, S2. injection S3 as ->. reflexivity.
  - bsplit. auto.
Qed.

Lemma where_predicate_sound ts x rest :
  stop_where ts = Ret false -> parse_where_predicate ts = Ret (x, rest) ->
  exists c, ts = c ++ rest /\ c = print_where_predicate x
  /\ (head_is (is_punct ",") rest = true -> wf_where_predicate true x = true)
  /\ (stop_where rest = Ret true -> wf_where_predicate false x = true)
  /\ (head_is (is_punct ",") rest = false -> stop_where rest = Ret false ->
      (exists y r, parse_where_predicate rest = Ret (y, r)) -> wf_where_predicate true x = true /\ no_gap x = true).
Proof.
  intros Hst H. unfold parse_where_predicate in H. inv_bind H. destruct x0 as [lhs ts1].
  apply until_sound_term in Hx. destruct Hx as (-> & _ & Hl).
  assert (Hst' : negb (head_is (is_group Brace) lhs) && negb (head_is (is_punct ";") lhs) = true).
  { destruct lhs as [|t0 lhs]; auto. simpl in Hst. injection Hst as Hst. bsplit. simpl. rwb. reflexivity. }
  destruct ts1 as [|[g|i|colon|l] ts1]; try discriminate.
  destruct (p_is ":" colon) eqn:Ec; [|discriminate]. inv_bind H. destruct x0 as [bound ts2]. bsplit.
  apply until_sound_term in Hx. destruct Hx as (-> & _ & Hb).
  destruct rest as [|t rest]; [discriminate|]. destruct Hb as (Hb1 & Hb2 & Hb3). specialize (Hb3 eq_refl).
  exists (print_where_predicate (mkWherePredicate lhs (mkBound colon bound))).
  assert (Hwf : forall b, wf_where_predicate b (mkWherePredicate lhs (mkBound colon bound)) = true).
  { intro b. unfold wf_where_predicate, wf_bound. simpl. bsplit. rwb. simpl. exact Hb1. }
  unfold print_where_predicate at 1, print_bound. simpl. app_norm. repeat split; auto.
  exfalso. unfold stop_where in *. simpl head_is in *. unfold end_where_bound in Hb3.
  repeat match goal with X : Ret _ = Ret _ |- _ => injection X as X end.
  match goal with X : is_punct "," t = false |- _ => rewrite X in Hb3 end.
  simpl in Hb3. congruence.
Qed.

Lemma where_sound ts o rest :
  consume_where_clause ts = Ret (o, rest) ->
  ts = print_opt print_where o ++ rest /\ wf_opt wf_where o = true
  /\ (some o = true -> where_follow rest = true)
  /\ (o = None -> head_is (is_ident "where") rest = false).
Proof.
  unfold consume_where_clause. intro H. destruct (consume_ident "where" ts) as [k ts1] eqn:E.
  apply consume_ident_sound in E. destruct E as (-> & E1 & E2). destruct k as [k|].
  - inv_bind H. destruct x as [ps ts2]. bsplit.
    apply (punct_loop_new _ _ (fun x c => c = print_where_predicate x) no_gap wf_where_predicate) in Hx;
      [|apply where_predicate_sound].
    destruct Hx as (c & -> & S1 & S2 & S3).
    unfold spells_punctuated in S1. apply spells_inner_print in S1. subst c.
    unfold print_where, print_punctuated. simpl in *. repeat split; auto; try discriminate.
    + unfold wf_where. simpl. rewrite E1, S2. reflexivity.
    + intros _. unfold stop_where in S3. destruct rest as [|t r]; [discriminate|]. simpl.
      injection S3 as S3. unfold where_follow. simpl. exact S3.
  - bsplit. repeat split; auto. discriminate.
Qed.

(** ** Fields *)
Lemma field_type_sound ts ty rest :
  consume_field_type ts = Ret (ty, rest) ->
  ts = ty ++ rest
  /\ (rest = [] -> wf_field_ty false (mkTypeExpr ty) = true)
  /\ (rest <> [] -> wf_field_ty true (mkTypeExpr ty) = true)
  /\ (rest = [] \/ head_is (is_punct ",") rest = true \/ head_is (is_punct ">") rest = true).
Proof.
  unfold consume_field_type. intro H. inv_bind H. destruct x as [t ts1].
  apply until_sound_term in Hx. destruct Hx as (-> & H1 & H2).
  destruct t as [|t0 t]; [destruct (consume_comma ts1) as [[]]; discriminate|]. bsplit.
  split; auto. unfold wf_field_ty. cbn [te_tokens nonempty andb]. split; [auto|].
  destruct rest as [|r0 rest]; [split; [congruence|auto]|].
  destruct H2 as (H2 & H3 & _). split; auto. right. simpl.
  destruct H3 as [H3|H3]; auto. unfold term in H3. bsplit. auto.
Qed.

Lemma attributes_other k p r :
  p_is k p = true -> k <> "#"%char -> consume_outer_attributes (TPunct p :: r) = Ret ([], TPunct p :: r).
Proof.
  intros H Hk. unfold consume_outer_attributes, consume_attributes_with_inner.
  pose proof (punct_excl k "#" (TPunct p) Hk H) as E. simpl in E. rewrite E. reflexivity.
Qed.

Lemma tuple_field_gt t r y : is_punct ">" t = true -> parse_tuple_field (t :: r) = Ret y -> False.
Proof.
  destruct t as [g|i|p|l]; try discriminate. simpl is_punct. intros Hp H. unfold parse_tuple_field in H.
  rewrite (attributes_other ">") in H by (auto; discriminate). cbn [bind consume_vis_marker] in H.
  unfold consume_field_type, consume_stuff_until in H. rewrite stuff_loop_step in H by lia.
  known. simpl in H. discriminate.
Qed.
Lemma named_field_gt t r y : is_punct ">" t = true -> parse_named_field (t :: r) = Ret y -> False.
Proof.
  destruct t as [g|i|p|l]; try discriminate. simpl is_punct. intros Hp H. unfold parse_named_field in H.
  rewrite (attributes_other ">") in H by (auto; discriminate). discriminate.
Qed.

Lemma tuple_field_sound ts x rest :
  stop_at_end ts = Ret false -> parse_tuple_field ts = Ret (x, rest) ->
  exists c, ts = c ++ rest /\ spells_tuple_field x c
  /\ (head_is (is_punct ",") rest = true -> wf_tuple_field true x = true)
  /\ (stop_at_end rest = Ret true -> wf_tuple_field false x = true)
  /\ (head_is (is_punct ",") rest = false -> stop_at_end rest = Ret false ->
      (exists y r, parse_tuple_field rest = Ret (y, r)) -> wf_tuple_field true x = true /\ no_gap x = true).
Proof.
  intros _ H. unfold parse_tuple_field in H. inv_bind H. destruct x0 as [attrs ts1].
  destruct (consume_vis_marker ts1) as [v ts2] eqn:Ev. inv_bind H. destruct x0 as [ty ts3]. bsplit.
  destruct (attrs_vis_sound _ _ _ _ _ Hx Ev) as (ca & -> & A1 & A2 & A3 & A4).
  apply field_type_sound in Hx0. destruct Hx0 as (-> & T1 & T2 & T3).
  exists (ca ++ print_opt print_vis v ++ ty). app_norm. split; auto. split.
  { exists ca. auto. }
  assert (Hp : ty <> [] -> prefix_ok v ty = true).
  { intro Hne. destruct ty; [congruence|]. destruct v as [[[]]|]; auto. }
  assert (Hwf : forall b, wf_field_ty b (mkTypeExpr ty) = true -> wf_tuple_field b (mkTupleField attrs v (mkTypeExpr ty)) = true).
  { intros b Hb. unfold wf_tuple_field. simpl. rewrite A2, A3, Hp, Hb; auto. eapply wf_field_ty_ne; eauto. }
  repeat split.
  - intro Hc. apply Hwf, T2. intros ->. discriminate.
  - intro Hs. destruct rest; [|discriminate]. auto.
  - intros. apply Hwf, T2. intros ->. discriminate.
  - intros. exfalso. destruct T3 as [->|[T3|T3]]; [discriminate|congruence|].
    destruct rest; [discriminate|]. bsplit. eapply tuple_field_gt; eauto.
Qed.

Lemma named_field_sound ts x rest :
  stop_at_end ts = Ret false -> parse_named_field ts = Ret (x, rest) ->
  exists c, ts = c ++ rest /\ spells_named_field x c
  /\ (head_is (is_punct ",") rest = true -> wf_named_field true x = true)
  /\ (stop_at_end rest = Ret true -> wf_named_field false x = true)
  /\ (head_is (is_punct ",") rest = false -> stop_at_end rest = Ret false ->
      (exists y r, parse_named_field rest = Ret (y, r)) -> wf_named_field true x = true /\ no_gap x = true).
Proof.
  intros _ H. unfold parse_named_field in H. inv_bind H. destruct x0 as [attrs ts1].
  destruct (consume_vis_marker ts1) as [v ts2] eqn:Ev. inv_bind H. destruct x0 as [name ts3].
  inv_bind H. destruct x0 as [colon ts4]. inv_bind H. destruct x0 as [ty ts5]. bsplit.
  destruct (attrs_vis_sound _ _ _ _ _ Hx Ev) as (ca & -> & A1 & A2 & A3 & A4).
  apply parse_any_ident_sound in Hx0. subst ts2. apply parse_punct_sound in Hx1. destruct Hx1 as [-> Hc].
  apply field_type_sound in Hx2. destruct Hx2 as (-> & T1 & T2 & T3).
  exists (ca ++ print_opt print_vis v ++ TIdent name :: TPunct colon :: ty). app_norm. split; auto. split.
  { exists ca. auto. }
  assert (Hp : prefix_ok v [TIdent name] = true).
  { destruct v as [[[]]|]; auto. }
  assert (Hwf : forall b, wf_field_ty b (mkTypeExpr ty) = true -> wf_named_field b (mkNamedField attrs v name colon (mkTypeExpr ty)) = true).
  { intros b Hb. unfold wf_named_field. cbn [nf_attributes nf_vis nf_name nf_colon nf_ty]. rewrite A2, A3, Hp, Hb, Hc; auto. }
  repeat split.
  - intro. apply Hwf, T2. intros ->. discriminate.
  - intro Hs. destruct rest; [|discriminate]. auto.
  - intros. apply Hwf, T2. intros ->. discriminate.
  - intros. exfalso. destruct T3 as [->|[T3|T3]]; [discriminate|congruence|].
    destruct rest; [discriminate|]. bsplit. eapply named_field_gt; eauto.
Qed.

Lemma stop_at_end_true ts : stop_at_end ts = Ret true -> ts = [].
Proof. destruct ts; auto. discriminate. Qed.

Lemma tuple_fields_sound g f :
  delim_eqb (g_delim g) Parenthesis = true -> parse_tuple_fields g = Ret f ->
  spells_tuple_fields f [TGroup g] /\ wf_tuple_fields f = true.
Proof.
  intros Hd H. unfold parse_tuple_fields in H. inv_bind H. destruct x as [fs r]. bsplit.
  apply (punct_loop_new _ _ spells_tuple_field no_gap wf_tuple_field) in Hx; [|apply tuple_field_sound].
  destruct Hx as (c & Hc & S1 & S2 & S3). apply stop_at_end_true in S3. subst r.
  rewrite app_nil_r in Hc. subst c. split.
  - exists (g_stream g). split; auto. unfold quote_with, group_span_new. simpl. rewrite group_eta. reflexivity.
  - unfold wf_tuple_fields. simpl. rewrite Hd. exact S2.
Qed.
Lemma named_fields_sound g f :
  delim_eqb (g_delim g) Brace = true -> parse_named_fields g = Ret f ->
  spells_named_fields f [TGroup g] /\ wf_named_fields f = true.
Proof.
  intros Hd H. unfold parse_named_fields in H. inv_bind H. destruct x as [fs r]. bsplit.
  apply (punct_loop_new _ _ spells_named_field no_gap wf_named_field) in Hx; [|apply named_field_sound].
  destruct Hx as (c & Hc & S1 & S2 & S3). apply stop_at_end_true in S3. subst r.
  rewrite app_nil_r in Hc. subst c. split.
  - exists (g_stream g). split; auto. unfold quote_with, group_span_new. simpl. rewrite group_eta. reflexivity.
  - unfold wf_named_fields. simpl. rewrite Hd. exact S2.
Qed.

(** ** Enum variants *)
Lemma variant_fields_sound ts f rest :
  parse_variant_fields ts = Ret (f, rest) ->
  exists cf, ts = cf ++ rest /\ spells_fields f cf /\ wf_fields f = true
    /\ (f = FUnit -> rest = [] \/ head_is (is_punct ",") rest = true \/ head_is (is_punct "=") rest = true).
Proof.
  unfold parse_variant_fields. intro H. destruct ts as [|[g|i|p|l] r]; try discriminate.
  - bsplit. exists []. simpl. auto.
  - destruct (delim_eqb (g_delim g) Parenthesis) eqn:E1.
    + inv_bind H. bsplit. apply tuple_fields_sound in Hx; auto. destruct Hx.
      exists [TGroup g]. simpl. repeat split; auto. discriminate.
    + destruct (delim_eqb (g_delim g) Brace) eqn:E2; [|discriminate].
      inv_bind H. bsplit. apply named_fields_sound in Hx; auto. destruct Hx.
      exists [TGroup g]. simpl. repeat split; auto. discriminate.
  - destruct (p_is "," p || p_is "=" p) eqn:E; [|discriminate]. bsplit.
    exists []. simpl. repeat split; auto. intros _. bcase; auto.
Qed.

Lemma discriminant_sound ts v rest :
  consume_enum_discriminant ts = Ret (Ok v, rest) ->
  ts = print_opt print_variant_value v ++ rest
  /\ wf_opt (fun x => p_is "=" (vv_equal x)) v = true
  /\ (v <> None -> rest = [] \/ head_is (is_punct ",") rest = true)
  /\ (v = None -> head_is (is_punct "=") rest = false).
Proof.
  unfold consume_enum_discriminant. intro H. destruct (consume_punct "=" ts) as [e ts1] eqn:E.
  apply consume_punct_sound in E. destruct E as (-> & E1 & E2). destruct e as [e|].
  - destruct ts1 as [|v0 [|t ts1]]; try discriminate.
    + bsplit. simpl. repeat split; auto; discriminate.
    + destruct (is_punct "," t) eqn:Et; [|discriminate]. bsplit. simpl. repeat split; auto; discriminate.
  - bsplit. simpl. repeat split; auto.
Qed.

Lemma variants_loop_sound : forall fuel acc ts p,
  enum_variants_loop fuel acc ts = Ret (Ok p) ->
  exists l skip, pu_inner p = pu_inner acc ++ l
    /\ (l <> [] -> wf_inner wf_variant skip l = true) /\ spells_inner spells_variant gap_variant skip l ts
    /\ pu_skip_last p = (match l with [] => pu_skip_last acc | _ => skip end)
    /\ (ts = [] -> l = []).
Proof.
  induction fuel as [|fuel IH]; intros acc ts p H; [discriminate|].
  cbn [enum_variants_loop] in H. destruct ts as [|t0 r0].
  { injection H as <-. exists [], false. simpl. rewrite app_nil_r. repeat split; auto. }
  remember (t0 :: r0) as ts eqn:Ets.
  inv_bind H. destruct x as [attrs ts1]. destruct (consume_vis_marker ts1) as [v ts2] eqn:Ev.
  inv_bind H. destruct x as [name ts3]. inv_bind H. destruct x as [f ts4]. inv_bind H. destruct x as [d ts5].
  destruct (consume_comma ts5) as [comma ts6] eqn:Ec. destruct d as [val|e]; [|discriminate].
  destruct (attrs_vis_sound _ _ _ _ _ Hx Ev) as (ca & Hts & A1 & A2 & A3 & A4).
  apply parse_any_ident_sound in Hx0. subst ts2.
  apply variant_fields_sound in Hx1. destruct Hx1 as (cf & -> & F1 & F2 & F3).
  apply discriminant_sound in Hx2. destruct Hx2 as (-> & D1 & D2 & D3).
  apply consume_punct_sound in Ec. destruct Ec as (-> & C1 & C2).
  apply IH in H. destruct H as (l & skip & I1 & I2 & I3 & I4 & I5).
  set (x := mkVariant attrs v name f val) in *.
  set (c1 := ca ++ print_opt print_vis v ++ TIdent name :: cf ++ print_opt print_variant_value val).
  assert (Hsp : spells_variant x c1) by (exists ca, cf; auto).
  assert (Hwf : forall b, wf_variant b x = true).
  { intro b. unfold wf_variant. subst x. cbn [ev_attributes ev_vis ev_name ev_fields ev_value].
    rewrite A2, A3, F2, D1.
    replace (prefix_ok v [TIdent name]) with true; auto. }
  assert (Hts' : ts = c1 ++ print_opt print_punct comma ++ ts6).
  { subst c1. rewrite Hts. app_norm. reflexivity. }
  clearbody c1. destruct l as [|[y q] l].
  - simpl in I3. subst ts6. simpl in I1, I4. rewrite app_nil_r in I1.
    destruct comma as [cm|]; simpl in *.
    + exists [(x, cm)], false. repeat split; auto.
      * intros _. simpl. rewrite C1, Hwf. reflexivity.
      * exists c1, []. rewrite Hts'. app_norm. repeat split; auto.
      * intro Hc. rewrite Hc in Ets. discriminate.
    + exists [(x, punct_new "," Alone)], true. repeat split; auto.
      * intros _. simpl. rewrite Hwf. reflexivity.
      * exists c1, []. rewrite Hts'. app_norm. repeat split; auto.
      * intro Hc. rewrite Hc in Ets. discriminate.
  - set (cm := match comma with Some c => c | None => punct_new "," Alone end).
    exists ((x, cm) :: (y, q) :: l), skip. split.
    { rewrite I1. simpl. rewrite <- app_assoc. reflexivity. }
    assert (Hw2 : p_is "," cm = true) by (destruct comma; simpl in *; subst cm; auto).
    split.
    { intros _. change (wf_variant true x && p_is "," cm && wf_inner wf_variant skip ((y, q) :: l) = true).
      rewrite Hwf, Hw2, I2; auto. discriminate. }
    split.
    { exists c1, ts6. split; auto. split; auto. destruct comma; subst cm; auto. right.
      split; [|auto]. assert (Hne : ts6 <> []) by (intros ->; discriminate (I5 eq_refl)).
      subst x. unfold gap_variant. simpl. simpl in D2, F3. specialize (C2 eq_refl).
      destruct f; auto.
      - destruct val; simpl in *.
        + destruct D2 as [D2|D2]; try congruence.
        + destruct F3 as [F3|[F3|F3]]; auto; try congruence. rewrite D3 in F3; auto; discriminate.
      - destruct val; auto. destruct D2 as [D2|D2]; try congruence.
      - destruct val; auto. destruct D2 as [D2|D2]; try congruence. }
    split; auto. intro Hc. rewrite Hc in Ets. discriminate.
Qed.

Lemma variants_sound ts p :
  parse_enum_variants ts = Ret (Ok p) ->
  spells_punctuated spells_variant gap_variant p ts /\ wf_punctuated wf_variant p = true.
Proof.
  unfold parse_enum_variants. intro H. apply variants_loop_sound in H.
  destruct H as (l & skip & H1 & H2 & H3 & H4 & _). destruct p as [inner sk]. simpl in *. subst.
  unfold spells_punctuated, wf_punctuated. simpl. destruct l; simpl in *; auto.
  split; auto. apply H2. discriminate.
Qed.

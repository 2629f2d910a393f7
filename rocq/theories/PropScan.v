(** C13, C14: where a captured type, bound or expression ends. *)
From Verif Require Import ScanSpec Unfold Samples PrintSpells PropRoundTrip.

Lemma closers_snoc a t : closers (a ++ [t]) = closers a + (if closing a t then 1 else 0).
Proof.
  unfold closers. rewrite app_length. simpl. rewrite Nat.add_1_r, seq_S, filter_app, app_length. simpl.
  f_equal.
  - f_equal. apply filter_ext_in. intros i Hi. apply in_seq in Hi.
    rewrite app_nth1 by lia. rewrite firstn_app. replace (i - List.length a) with 0 by lia. rewrite firstn_O, app_nil_r. reflexivity.
  - rewrite app_nth2 by lia. rewrite Nat.sub_diag. simpl.
    rewrite firstn_app, Nat.sub_diag, firstn_O, app_nil_r, firstn_all. destruct (closing a t); reflexivity.
Qed.
Lemma openers_snoc a t : openers (a ++ [t]) = openers a + (if is_punct "<" t then 1 else 0).
Proof. unfold openers. rewrite filter_app, app_length. simpl. destruct (is_punct "<" t); reflexivity. Qed.
Lemma after_dash_snoc a t : after_dash (a ++ [t]) = is_punct "-" t.
Proof. unfold after_dash. rewrite rev_app_distr. reflexivity. Qed.

(** State of the scan after [a]. *)
Definition state (a : list tok) : Z := (Z.of_nat (openers a) - Z.of_nat (closers a))%Z.
Lemma closes_closing a t : closes (after_dash a) t = closing a t.
Proof. reflexivity. Qed.
Lemma next_state a t : next_depth (state a) (after_dash a) t = state (a ++ [t]).
Proof.
  unfold next_depth, state. rewrite closers_snoc, openers_snoc, closes_closing. unfold opens.
  destruct (is_punct "<" t) eqn:E.
  - unfold closing. rewrite (punct_excl "<" ">" t) by (auto; congruence). simpl. lia.
  - destruct (closing a t); lia.
Qed.
Lemma stops_ends P a t : stops P (state a) (after_dash a) t = true <-> ends_run P a t.
Proof.
  unfold stops, ends_run, top_level, state, opens. rewrite closes_closing. split.
  - intro H. bsplit. apply Z.eqb_eq in H. split; [lia|]. apply orb_true_iff in H0. destruct H0; auto. bsplit. auto.
  - intros [H1 H2]. replace (Z.of_nat (openers a) - Z.of_nat (closers a))%Z with 0%Z by lia. simpl.
    destruct H2 as [H2|(H2 & H3 & H4)]; rwb; auto.
    + unfold closing in H2. bsplit. rewrite (punct_excl ">" "<" t) by (auto; congruence). reflexivity.
    + rewrite orb_true_r. reflexivity.
Qed.
Lemma scan_positions P : forall out a d dash,
  scan P (state a) (after_dash a) out = Some (d, dash) <->
  (forall b t c, out = b ++ t :: c -> ~ ends_run P (a ++ b) t) /\ d = state (a ++ out) /\ dash = after_dash (a ++ out).
Proof.
  induction out as [|t out IH]; intros a d dash; cbn [scan].
  - rewrite app_nil_r. split.
    + intro H. bsplit. split; auto. intros b t c E. destruct b; discriminate.
    + intros (_ & -> & ->). reflexivity.
  - destruct (stops P (state a) (after_dash a) t) eqn:E.
    + apply stops_ends in E. split; [discriminate|]. intros [H _]. exfalso. apply (H [] t out eq_refl). rewrite app_nil_r. auto.
    + rewrite next_state, <- (after_dash_snoc a t), IH, <- !app_assoc. simpl app.
      assert (Hn : ~ ends_run P a t) by (intro X; apply stops_ends in X; congruence).
      split; intros (H1 & H2 & H3); (split; [|auto]).
      * intros b t' c Eb. destruct b as [|t0 b]; simpl in Eb; bsplit.
        -- rewrite app_nil_r. auto.
        -- specialize (H1 b t' c eq_refl). rewrite <- app_assoc in H1. auto.
      * intros b t' c ->. rewrite <- app_assoc. apply (H1 (t :: b) t' c eq_refl).
Qed.
Lemma scan_run P out d dash : scan P 0 false out = Some (d, dash) <->
  (forall b t c, out = b ++ t :: c -> ~ ends_run P b t) /\ d = state out /\ dash = after_dash out.
Proof. exact (scan_positions P out [] d dash). Qed.

(** ** C13: the run ends exactly at the first token that ends it *)
Theorem C13_run (P : tok -> bool) (ts out rest : list tok) :
  consume_stuff_until P false ts = Ret (out, rest) <-> ts = out ++ rest /\ is_run P out rest.
Proof.
  unfold is_run. split.
  - intro H. apply until_sound in H. destruct H as [-> (d & dash & _ & H2 & H3 & _)].
    apply scan_run in H2. destruct H2 as (H2 & -> & ->). split; auto. split; auto.
    destruct rest; auto. apply stops_ends. exact H3.
  - intros (-> & H1 & H2). eapply until_complete; [apply scan_run; split; [exact H1|auto]| |discriminate].
    destruct rest; [exact I|]. simpl. apply stops_ends. auto.
Qed.
(** With a mandatory terminator: the end of the stream and an unopened [>] are panics. *)
Theorem C13_run_must (P : tok -> bool) (ts out rest : list tok) :
  consume_stuff_until P true ts = Ret (out, rest) <->
  ts = out ++ rest /\ is_run P out rest /\ exists t r, rest = t :: r /\ closing out t = false.
Proof.
  unfold is_run. split.
  - intro H. apply until_sound in H. destruct H as [-> (d & dash & _ & H2 & H3 & H4)].
    apply scan_run in H2. destruct H2 as (H2 & -> & ->). specialize (H4 eq_refl).
    destruct rest as [|t r]; [discriminate|]. split; auto. split; [split; auto; apply stops_ends; exact H3|].
    exists t, r. split; auto. simpl in H4. apply negb_true_iff in H4. exact H4.
  - intros (-> & [H1 H2] & t & r & -> & H3). eapply until_complete; [apply scan_run; split; [exact H1|auto]| |].
    + simpl. apply stops_ends. auto.
    + intros _. simpl. rewrite closes_closing, H3. reflexivity.
Qed.
Theorem C13_run_must_panics (P : tok -> bool) (ts : list tok) :
  (exists p, consume_stuff_until P true ts = Panic p) <->
  exists out rest, ts = out ++ rest /\ is_run P out rest
    /\ match rest with [] => True | t :: _ => closing out t = true end.
Proof.
  split.
  - intros [p H]. destruct (consume_stuff_until P false ts) as [[out rest]| |] eqn:E.
    + exists out, rest. apply C13_run in E. destruct E as [-> E]. split; auto. split; auto.
      destruct rest as [|t r]; auto. destruct (closing out t) eqn:F; auto.
      assert (X : consume_stuff_until P true (out ++ t :: r) = Ret (out, t :: r)) by (apply C13_run_must; eauto 6). congruence.
    + unfold consume_stuff_until in E. destruct (stuff_loop P 0 false ts) as [[o m] r]. discriminate.
    + unfold consume_stuff_until in E. destruct (stuff_loop P 0 false ts) as [[o m] r]. discriminate.
  - intros (out & rest & -> & Hr & Ht). pose proof (until_safe P true (out ++ rest)) as Hs.
    destruct (consume_stuff_until P true (out ++ rest)) as [[o r]|p|] eqn:E; [|eauto|contradiction]. exfalso.
    apply C13_run_must in E. destruct E as (E & Hr' & t & r' & -> & Hc).
    assert (X : consume_stuff_until P false (out ++ rest) = Ret (out, rest)) by (apply C13_run; auto).
    assert (Y : consume_stuff_until P false (out ++ rest) = Ret (o, t :: r')) by (rewrite E; apply C13_run; auto).
    rewrite X in Y. injection Y as -> ->. congruence.
Qed.
(** There is exactly one run. *)
Theorem C13_unique P out rest out' rest' :
  is_run P out rest -> is_run P out' rest' -> out ++ rest = out' ++ rest' -> out = out' /\ rest = rest'.
Proof.
  intros H H' E.
  assert (X : consume_stuff_until P false (out ++ rest) = Ret (out, rest)) by (apply C13_run; auto).
  assert (Y : consume_stuff_until P false (out ++ rest) = Ret (out', rest')) by (apply C13_run; auto).
  rewrite X in Y. injection Y; auto.
Qed.
Theorem C13_exists P ts : exists out rest, ts = out ++ rest /\ is_run P out rest.
Proof.
  destruct (consume_stuff_until P false ts) as [[out rest]| |] eqn:E.
  - exists out, rest. apply C13_run. auto.
  - unfold consume_stuff_until in E. destruct (stuff_loop P 0 false ts) as [[o m] r]. discriminate.
  - unfold consume_stuff_until in E. destruct (stuff_loop P 0 false ts) as [[o m] r]. discriminate.
Qed.
Example C13_example : let ts := lex "Map<A, fn(B) -> C<D, E>>, rest" in
  consume_stuff_until (is_punct ",") false ts = Ret (firstn 15 ts, skipn 15 ts)
  /\ consume_stuff_until (is_punct ";") true ts = Panic PTypeEnd
  /\ consume_stuff_until (is_punct ";") true (lex "a > b;") = Panic PUnbalancedAngle.
Proof. vm_compute. auto. Qed.

(** ** C14: nested angle brackets *)
Lemma nested_scan b ts : nested b ts -> forall d, (if b then 0 < d else 0 <= d)%Z ->
  scan (is_punct ",") d false ts = Some (d, false).
Proof.
  induction 1 as [|b t r H1 H2 H3 H4 _ IH|b x g r H1 H2 _ IH|b l inner g r H1 _ IHi H2 _ IHr]; intros d Hd; auto.
  - cbn [scan]. unfold stops, next_depth, closes, opens. rewrite H1, H2, H3. simpl.
    destruct (is_punct "," t) eqn:E.
    + assert (b = true) as -> by auto. replace (d =? 0)%Z with false by (symmetry; apply Z.eqb_neq; lia). simpl. auto.
    + rewrite !andb_false_r. auto.
  - known. cbn [scan]. unfold stops, next_depth, closes, opens. simpl. rewrite !andb_false_r. simpl. auto.
  - known. cbn [scan app]. unfold stops at 1, next_depth at 1, closes, opens. simpl. rewrite andb_false_r. simpl.
    assert (E : forall u v d1 d2, scan (is_punct ",") d1 false u = Some (d2, false) ->
              scan (is_punct ",") d1 false (u ++ v) = scan (is_punct ",") d2 false v).
    { assert (E' : forall u v d1 b1 d2 b2, scan (is_punct ",") d1 b1 u = Some (d2, b2) ->
              scan (is_punct ",") d1 b1 (u ++ v) = scan (is_punct ",") d2 b2 v).
      { induction u as [|t u IHu]; intros v d1 b1 d2 b2 E; cbn [scan app] in *; [bsplit; auto|].
        destruct (stops (is_punct ",") d1 b1 t); [discriminate|]. apply IHu. auto. }
      intros; apply E'; auto. }
    rewrite (E _ _ _ (d + 1)%Z) by (apply IHi; destruct b; lia).
    cbn [scan]. unfold stops, next_depth, closes, opens. simpl.
    replace (d + 1 =? 0)%Z with false by (symmetry; apply Z.eqb_neq; destruct b; lia). simpl.
    replace (d + 1 - 1)%Z with d by lia. apply IHr. auto.
Qed.
Theorem C14_field_type (ts rest : list tok) :
  nested false ts -> ts <> [] -> (rest = [] \/ head_is (is_punct ",") rest = true) ->
  consume_field_type (ts ++ rest) = Ret (ts, rest).
Proof.
  intros H Hn Hr. unfold consume_field_type.
  rewrite (until_complete (is_punct ",") false ts 0 false rest).
  - simpl. destruct ts; [congruence|reflexivity].
  - apply (nested_scan false); auto. lia.
  - destruct Hr as [->|Hr]; [exact I|]. destruct rest as [|[]]; try discriminate. simpl in Hr. known. reflexivity.
  - discriminate.
Qed.

(** Types separated by commas, with or without a last one after the last comma. *)
Definition separated (l : list (list tok * punct)) (last : option (list tok)) : list tok :=
  flat_map (fun x => fst x ++ [TPunct (snd x)]) l ++ match last with Some t => t | None => [] end.
(** A type that is not mistaken for an attribute or a visibility. *)
Definition field_start (ts : list tok) : bool :=
  match ts with
  | t :: _ => negb (is_punct "#" t) && negb (is_ident "pub" t) && negb (is_ident "crate" t)
  | [] => false
  end.
Definition field_ty (ts : list tok) : Prop := nested false ts /\ field_start ts = true.

Definition columns {A} (f : list tok -> A) (l : list (list tok * punct)) (last : option (list tok)) : punctuated A :=
  mkPunctuated (map (fun x => (f (fst x), snd x)) l
                ++ match last with Some t => [(f t, mkPunct "," Alone call_site)] | None => [] end)
    (match last with Some _ => true | None => false end).

Lemma inner_print {A} (pr : A -> list tok) l : forall skip,
  print_inner pr skip l = flat_map (fun x => pr (fst x) ++ [TPunct (snd x)]) (if skip then removelast l else l)
     ++ (if skip then match rev l with x :: _ => pr (fst x) | [] => [] end else []).
Proof.
  intros skip. induction l as [|[x c] l IH].
  - destruct skip; reflexivity.
  - destruct l as [|[y q] l].
    + simpl. destruct skip; simpl; rewrite ?app_nil_r; reflexivity.
    + change (print_inner pr skip ((x, c) :: (y, q) :: l)) with (pr x ++ TPunct c :: print_inner pr skip ((y, q) :: l)).
      rewrite IH. destruct skip.
      * change (removelast ((x, c) :: (y, q) :: l)) with ((x, c) :: removelast ((y, q) :: l)).
        cbn [flat_map fst snd]. rewrite <- !app_assoc. simpl app at 2. f_equal. f_equal. f_equal.
        simpl. rewrite <- app_assoc. destruct (rev l); reflexivity.
      * cbn [flat_map fst snd]. rewrite !app_nil_r, <- !app_assoc. reflexivity.
Qed.
Lemma columns_print {A} (pr : A -> list tok) f (l : list (list tok * punct)) last :
  print_punctuated pr (columns f l last)
  = flat_map (fun x => pr (f (fst x)) ++ [TPunct (snd x)]) l ++ match last with Some t => pr (f t) | None => [] end.
Proof.
  unfold print_punctuated, columns. simpl. rewrite inner_print. destruct last.
  - rewrite removelast_last, rev_app_distr. simpl. f_equal. induction l; simpl; auto. rewrite IHl. reflexivity.
  - rewrite !app_nil_r. induction l; simpl; auto. rewrite IHl. reflexivity.
Qed.
Lemma columns_wf {A} (wf : bool -> A -> bool) f (l : list (list tok * punct)) last :
  Forall (fun x => (forall b, wf b (f (fst x)) = true) /\ p_is "," (snd x) = true) l ->
  (match last with Some t => forall b, wf b (f t) = true | None => True end) ->
  wf_punctuated wf (columns f l last) = true.
Proof.
  intros Hl Ht. unfold wf_punctuated, columns. simpl. induction Hl as [|[t c] l [H1 H2] _ IH].
  - destruct last; simpl; auto. rewrite Ht. reflexivity.
  - simpl in H1, H2. cbn [map app fst snd].
    destruct (map (fun x => (f (fst x), snd x)) l ++ match last with Some t => [(f t, mkPunct "," Alone call_site)] | None => [] end) as [|[y q] r] eqn:E.
    + destruct last; [destruct l; discriminate|]. simpl. rewrite H1, H2. reflexivity.
    + change (wf true (f t) && p_is "," c && wf_inner wf (match last with Some _ => true | None => false end) ((y, q) :: r) = true).
      rewrite H1, H2, IH. reflexivity.
Qed.
Lemma field_ty_wf ts : field_ty ts -> forall b, wf_field_ty b (mkTypeExpr ts) = true.
Proof.
  intros [H1 H2] b. unfold wf_field_ty, run_closed, run_any. simpl.
  change end_comma with (is_punct ","). rewrite (nested_scan false _ H1) by lia.
  destruct ts; [discriminate|]. destruct b; reflexivity.
Qed.

Local Arguments columns : simpl never.
Local Arguments wf_punctuated : simpl never.
Local Arguments print_punctuated : simpl never.

(** A tuple struct whose field types nest angle brackets to any depth. *)
Theorem C14_tuple_struct kw name (l : list (list tok * punct)) last sp semi :
  id_is "struct" kw = true -> p_is ";" semi = true ->
  Forall (fun x => field_ty (fst x) /\ p_is "," (snd x) = true) l ->
  (match last with Some t => field_ty t | None => True end) ->
  parse_item [TIdent kw; TIdent name; TGroup (mkGroup Parenthesis (separated l last) sp); TPunct semi]
  = Ret (Ok (IStruct (mkStruct [] None kw name None None
      (FTuple (mkTupleFields (columns (fun t => mkTupleField [] None (mkTypeExpr t)) l last) (mkGroupSpan Parenthesis sp)))
      (Some semi)))).
Proof.
  intros Hk Hs Hl Ht.
  match goal with |- _ = Ret (Ok ?i) => assert (Hp : print_item i =
    [TIdent kw; TIdent name; TGroup (mkGroup Parenthesis (separated l last) sp); TPunct semi]) end.
  { cbn. rewrite columns_print. reflexivity. }
  assert (Hw : forall t, field_ty t -> forall b, wf_tuple_field b (mkTupleField [] None (mkTypeExpr t)) = true).
  { intros t Hf b. unfold wf_tuple_field. cbn [tf_attributes tf_vis tf_ty te_tokens]. rewrite field_ty_wf by auto. simpl. rewrite andb_true_r.
    destruct Hf as [_ Hf]. destruct t; [discriminate|]. simpl in Hf |- *. bsplit. rwb. reflexivity. }
  rewrite <- Hp. apply C01_print_parse_identity; [|reflexivity].
  unfold wf_item. simpl. unfold shape_struct, stable_struct. simpl. rewrite Hk, Hs. unfold wf_tuple_fields. simpl.
  rewrite columns_wf; auto.
  - eapply Forall_impl; [|exact Hl]. intros x [H1 H2]. split; auto.
  - destruct last; auto.
Qed.
(** Likewise for named fields; [f] gives the name and the colon of each field. *)
Theorem C14_named_struct kw name (f : list tok -> ident * punct) (l : list (list tok * punct)) last sp :
  id_is "struct" kw = true ->
  (forall t, p_is ":" (snd (f t)) = true /\ id_is "pub" (fst (f t)) = false /\ id_is "crate" (fst (f t)) = false) ->
  Forall (fun x => nested false (fst x) /\ fst x <> [] /\ p_is "," (snd x) = true) l ->
  (match last with Some t => nested false t /\ t <> [] | None => True end) ->
  let entry t := TIdent (fst (f t)) :: TPunct (snd (f t)) :: t in
  parse_item [TIdent kw; TIdent name;
    TGroup (mkGroup Brace (separated (map (fun x => (entry (fst x), snd x)) l) (option_map entry last)) sp)]
  = Ret (Ok (IStruct (mkStruct [] None kw name None None
      (FNamed (mkNamedFields (columns (fun t => mkNamedField [] None (fst (f t)) (snd (f t)) (mkTypeExpr t)) l last)
         (mkGroupSpan Brace sp)))
      None))).
Proof.
  intros Hk Hf Hl Ht entry.
  match goal with |- _ = Ret (Ok ?i) => assert (Hp : print_item i =
    [TIdent kw; TIdent name;
    TGroup (mkGroup Brace (separated (map (fun x => (entry (fst x), snd x)) l) (option_map entry last)) sp)]) end.
  { cbn. unfold print_named_fields. cbn. rewrite columns_print. unfold separated.
    match goal with |- context [quote_with _ ?x] => match goal with |- context [mkGroup _ ?y _] => assert (E : x = y); [|rewrite E; reflexivity] end end.
    f_equal; [|destruct last; reflexivity].
    clear. induction l as [|a l IHl]; [reflexivity|]. cbn [flat_map map fst snd]. rewrite IHl. reflexivity. }
  assert (Hw : forall t, nested false t -> t <> [] -> forall b,
     wf_named_field b (mkNamedField [] None (fst (f t)) (snd (f t)) (mkTypeExpr t)) = true).
  { intros t H1 H2 b. destruct (Hf t) as (F1 & F2 & F3). unfold wf_named_field. simpl. rewrite F1, F2, F3. simpl.
    unfold wf_field_ty, run_closed, run_any. simpl.
    change end_comma with (is_punct ","). rewrite (nested_scan false _ H1) by lia.
    destruct t; [congruence|]. destruct b; reflexivity. }
  rewrite <- Hp. apply C01_print_parse_identity; [|reflexivity].
  unfold wf_item. simpl. unfold shape_struct, stable_struct. simpl. rewrite Hk. unfold wf_named_fields. simpl.
  rewrite columns_wf; auto.
  - eapply Forall_impl; [|exact Hl]. intros x (H1 & H2 & H3). split; auto.
  - destruct last; auto. destruct Ht. auto.
Qed.
(** A type with brackets nested [n] deep, each level with a comma: no bound on [n]. *)
Fixpoint deep (n : nat) : list tok :=
  match n with
  | O => [TIdent (mkIdent "T" 1%N)]
  | S n => TIdent (mkIdent "M" 2%N) :: TPunct (mkPunct "<" Alone 3%N)
           :: (deep n ++ TPunct (mkPunct "," Alone 4%N) :: deep n) ++ [TPunct (mkPunct ">" Alone 5%N)]
  end.
Lemma nested_app b u v : nested b u -> nested b v -> nested b (u ++ v).
Proof.
  induction 1; intro Hv; simpl; auto.
  - apply nested_plain; auto.
  - apply nested_arrow; auto.
  - rewrite <- app_assoc. simpl. apply nested_angle; auto.
Qed.
Lemma nested_weaken b u : nested b u -> nested true u.
Proof. induction 1; [constructor|apply nested_plain|apply nested_arrow|apply nested_angle]; auto. Qed.
Example C14_example n : field_ty (deep n).
Proof.
  split; [|destruct n; reflexivity]. induction n; simpl.
  - apply nested_plain; try reflexivity; [discriminate|constructor].
  - apply nested_plain; try reflexivity; [discriminate|].
    apply (nested_angle false _ (deep n ++ TPunct (mkPunct "," Alone 4%N) :: deep n) _ []); try reflexivity; [|constructor].
    apply nested_app; [eapply nested_weaken; eauto|]. apply nested_plain; try reflexivity. eapply nested_weaken; eauto.
Qed.
Example C14_example_arrow : field_ty (lex "Box<dyn Fn(A, B) -> Map<fn(A) -> B, C>>").
Proof.
  split; [|reflexivity]. set (ts := lex _). vm_compute in ts. subst ts.
  apply nested_plain; try reflexivity; [discriminate|].
  match goal with |- nested _ (TPunct ?l :: ?r) =>
    change (nested false (TPunct l :: firstn 15 r ++ nth 15 r (TPunct l) :: [])) end.
  apply nested_angle; [reflexivity| |reflexivity|constructor]. simpl.
  do 3 (apply nested_plain; try reflexivity). apply nested_arrow; try reflexivity.
  apply nested_plain; try reflexivity.
  match goal with |- nested _ (TPunct ?l :: ?r) =>
    change (nested true (TPunct l :: firstn 7 r ++ nth 7 r (TPunct l) :: [])) end.
  apply nested_angle; [reflexivity| |reflexivity|constructor]. simpl.
  do 2 (apply nested_plain; try reflexivity). apply nested_arrow; try reflexivity.
  do 3 (apply nested_plain; try reflexivity). constructor.
Qed.

Print Assumptions C13_run.
Print Assumptions C13_run_must.
Print Assumptions C13_run_must_panics.
Print Assumptions C14_field_type.
Print Assumptions C14_tuple_struct.
Print Assumptions C14_named_struct.

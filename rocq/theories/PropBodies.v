(** C103, continued: the bodies of impls, traits and extern blocks. *)
From Verif Require Import Samples Safe Sound2 Edit PathProof Unfold PropPanics PropMissing PropViable PropContent.
Local Open Scope string_scope.
Local Open Scope list_scope.

(** Nothing can follow, but some tokens lead to the refusal of a whole member. *)
Definition doomed {A} (p : parser A) (ts : list tok) : Prop :=
  (forall u, exists e, p (ts ++ u) = Panic e) /\ exists u, p (ts ++ u) = Panic PUnsupportedMember.
Definition three {A} (p : parser A) (ts : list tok) : Prop := (settled p ts \/ fills any done p ts) \/ doomed p ts.

Lemma three_skip {A} (p q : parser A) ts r : (forall u, q (ts ++ u) = p (r ++ u)) -> three p r -> three q ts.
Proof.
  intros H [L|[D1 (u & D2)]].
  - left. eapply at_skip; eauto.
  - right. split; [intro v; rewrite H; apply D1|exists u; rewrite H; exact D2].
Qed.
Lemma either_item_safe attrs vis ts : safe (consume_either_item attrs vis ts).
Proof. unfold consume_either_item. apply nest_safe. lia. Qed.

(** The macros among the members: another message than for items. *)
Definition member_macro (attrs : list attribute) : parser item := fun ts =>
  do (m, ts) <- consume_macro attrs ts ;; match m with Some m => Ret (IMacro m, ts) | None => Panic PUnsupportedItem end.
Lemma member_macro_item attrs ts : member_macro attrs ts = match parse_item_macro attrs ts with Panic PNoDeclaration => Panic PUnsupportedItem | x => x end.
Proof.
  unfold member_macro, parse_item_macro. assert (H : consume_macro attrs ts <> Panic PNoDeclaration).
  { unfold consume_macro, consume_macro_inner. destruct (consume_any_ident ts) as [[name|] t1]; [|discriminate].
    destruct (consume_punct "!" t1) as [[bang|] t2]; [|discriminate]. destruct (consume_any_ident t2) as [d [|[g|i|p|l] t3]]; try discriminate.
    destruct (delim_eqb (g_delim g) Parenthesis); [|destruct (delim_eqb (g_delim g) Brace); discriminate].
    unfold parse_punct. destruct t3 as [|[g'|i|p|l] t3]; try discriminate. destruct (p_is ";" p); discriminate. }
  destruct (consume_macro attrs ts) as [[[m|] w]|e|]; try reflexivity. destruct e; try reflexivity. congruence.
Qed.
Lemma member_macro_lively attrs : lively any every (member_macro attrs).
Proof.
  intro ts. destruct (item_macro_lively attrs ts) as [S|(c & x & Hx & F)].
  - left. intro u. specialize (S u). unfold follows in *. rewrite !member_macro_item. destruct (parse_item_macro attrs ts) as [[x r]|e|]; [|destruct e|exact I]; rewrite S; reflexivity.
  - right. exists c, x. split; [exact Hx|]. intros w Hw. rewrite member_macro_item, (F w Hw). reflexivity.
Qed.

Section Member.
Variable allow : bool.
Definition member (attrs : list attribute) (vis : option vis_marker) : parser impl_member := fun ts =>
  do (i, w) <- consume_either_item attrs vis ts ;; do m <- impl_member_of_item allow i ;; Ret (m, w).
Lemma member_safe attrs vis ts : safe (member attrs vis ts).
Proof.
  unfold member. apply safe_bind; [apply either_item_safe|]. intros [i w] _. apply safe_bind; [|intros; exact I].
  destruct i; cbn [impl_member_of_item]; try exact I; try reflexivity.
  match goal with |- safe (if ?b then _ else _) => destruct b; [exact I|] end. destruct allow; [exact I|reflexivity].
Qed.
Lemma kind_three {A} (P : parser A) (f : A -> item) attrs vis ts r :
  (forall u, member attrs vis (ts ++ u) = do (x, w) <- P (r ++ u) ;; do m <- impl_member_of_item allow (f x) ;; Ret (m, w)) ->
  settled P r \/ fills any every P r ->
  (forall u x w, P (r ++ u) = Ret (x, w) -> exists m, impl_member_of_item allow (f x) = Ret m)
  \/ (forall u x w, P (r ++ u) = Ret (x, w) -> impl_member_of_item allow (f x) = Panic PUnsupportedMember) ->
  three (member attrs vis) ts.
Proof.
  intros H [S|(c & x & _ & F)] D.
  - left. left. intro u. pose proof (H []) as H0. rewrite !app_nil_r in H0. rewrite H, H0. specialize (S u). unfold follows in *.
    destruct (P r) as [[x w]|e|]; try rewrite S; cbn [bind]; try exact I; try reflexivity.
    destruct (impl_member_of_item allow (f x)); reflexivity.
  - assert (F0 : P (r ++ c) = Ret (x, [])) by (specialize (F [] I); rewrite app_nil_r in F; exact F). destruct D as [D|D].
    + left. right. destruct (D _ _ _ F0) as (m & M). exists c, m. split; [exact I|]. intros w _. rewrite H, (F w I). cbn [bind]. rewrite M. reflexivity.
    + right. split.
      * intro u. pose proof (member_safe attrs vis (ts ++ u)) as Sf. rewrite H in *. destruct (P (r ++ u)) as [[y w]|e|] eqn:E; cbn [bind] in *; [|eauto|contradiction].
        rewrite (D _ _ _ E). eexists. reflexivity.
      * exists c. rewrite H, F0. cbn [bind]. rewrite (D _ _ _ F0). reflexivity.
Qed.
Lemma constant_kw attrs vis i r x w : parse_const_or_static attrs vis (TIdent i :: r) = Ret (x, w) -> co_kw x = i.
Proof.
  unfold parse_const_or_static. intro H. inv_bind H. destruct x0 as [[kw b] t1].
  assert (kw = i) as -> by (destruct (id_is "const" i); [congruence|destruct (id_is "static" i); congruence]).
  repeat (inv_bind H; repeat match type of H with context [let (_, _) := ?y in _] => destruct y end).
  injection H as <- _. reflexivity.
Qed.

Lemma either_three attrs vis ts : three (member attrs vis) ts.
Proof.
  assert (Fn : exists c m, forall w, member attrs vis ([] ++ c ++ w) = Ret (m, w)).
  { exists [word "fn"; word "x"; block Parenthesis; mark ";"]. eexists. intro w. unfold member. cbn [app]. rewrite consume_either_unfold. reflexivity. }
  destruct ts as [|t r].
  { left. right. destruct Fn as (c & m & Fn). exists c, m. split; [exact I|]. intros w _. apply Fn. }
  destruct t as [g|i|p|l]; try (left; eapply at_panic; intro u; unfold member; cbn [app]; rewrite consume_either_unfold; reflexivity).
  destruct (id_is "type" i) eqn:Et.
  { apply (kind_three (fun ts => do (t, ts) <- consume_ty_definition attrs vis ts ;;
        match t with Some t => Ret (t, ts) | None => Panic (PUnwrapNone AtTypeAlias) end) ITypeAlias _ _ _ (TIdent i :: r)).
    - intro u. unfold member. cbn [app]. rewrite consume_either_unfold. cbn [consume_either]. rewrite Et.
      destruct (consume_ty_definition attrs vis (TIdent i :: r ++ u)) as [[[t|] w]|e|]; reflexivity.
    - eapply lively_bind; [apply type_alias_lively| |].
      + intros [t|]; [apply lively_ret|]. intro ts. eapply at_panic. reflexivity.
      + intros [t|] Ht; [|congruence]. opened (@nil tok).
    - left. intros. eexists. reflexivity. }
  destruct (fn_like_keyword i) eqn:F.
  2: { destruct vis as [v|].
    { left. eapply at_panic. intro u. unfold member. cbn [app]. rewrite consume_either_unfold. cbn [consume_either]. rewrite Et, F. reflexivity. }
    apply (kind_three (member_macro attrs) (fun x => x) _ _ _ (TIdent i :: r)).
    - intro u. unfold member. cbn [app]. rewrite consume_either_unfold. cbn [consume_either]. rewrite Et, F. reflexivity.
    - apply member_macro_lively.
    - left. intros u x w H. unfold member_macro in H. inv_bind H. destruct x0 as [[m|] t]; [|discriminate]. injection H as <- _. eexists. reflexivity. }
  set (alt := fun (nf : not_function) (ts : list tok) => match nf with
        | NFConst | NFStatic => do (c, ts) <- parse_const_or_static attrs vis ts ;; Ret (IConstant c, ts)
        | NFTrait => do (t, ts) <- parse_trait consume_either_item attrs vis ts ;; Ret (ITrait t, ts)
        | NFImpl => do (i, ts) <- parse_impl consume_either_item attrs ts ;; Ret (IImpl i, ts)
        | NFMod => do (m, ts) <- parse_mod consume_item attrs vis ts ;; Ret (IModule m, ts)
        | NFExternBlock => do (b, ts) <- parse_extern_block consume_either_item attrs vis ts ;; Ret (IExternBlock b, ts)
        | NFExternCrate => do (c, ts) <- parse_extern_crate attrs vis ts ;; Ret (IExternCrate c, ts)
        end).
  set (fn := fun q kw ts => do (f, ts) <- fn_rest attrs vis q kw ts ;; Ret (IFunction f, ts)).
  set (all := fun ts => let (q, t1) := consume_fn_qualifiers ts in
     do (kw, t2) <- classify_fn q t1 ;; match kw with Err nf => alt nf ts | Ok kw => fn q kw t2 end).
  assert (U : forall ts, consume_either_item attrs vis (TIdent i :: ts) = all (TIdent i :: ts)).
  { intro ts. rewrite consume_either_unfold. cbn [consume_either]. rewrite Et, F. unfold all, consume_fn, fn, fn_rest. destruct (consume_fn_qualifiers (TIdent i :: ts)) as [q t1].
    destruct (classify_fn q t1) as [[[kw|nf] t2]|e|]; cbn [bind]; try reflexivity.
    destruct (consume_item_name t2) as [[name t3]| |]; cbn [bind]; try reflexivity.
    destruct (consume_generic_params t3) as [[gen t4]| |]; cbn [bind]; try reflexivity.
    destruct (parse_fn_parens t4) as [[ps t5]| |]; cbn [bind]; try reflexivity.
    destruct (consume_fn_return t5) as [[ret t6]| |]; cbn [bind]; try reflexivity.
    destruct (consume_where_clause t6) as [[wh t7]| |]; cbn [bind]; try reflexivity.
    destruct (parse_fn_body t7) as [[b t8]| |]; reflexivity. }
  assert (UM : forall u, member attrs vis ((TIdent i :: r) ++ u) = do (x, w) <- all ((TIdent i :: r) ++ u) ;; do m <- impl_member_of_item allow x ;; Ret (m, w)).
  { intro u. unfold member. cbn [app]. rewrite U. reflexivity. }
  clear U Fn.
  destruct (consume_fn_qualifiers (TIdent i :: r)) as [q t1] eqn:Eq. destruct t1 as [|t1 r1].
  - left. right. exists [word "fn"; word "x"; block Parenthesis; mark ";"]. eexists. split; [exact I|]. intros w _. rewrite UM.
    unfold all. cbn [app]. pose proof (qualifiers_end (word "x" :: block Parenthesis :: mark ";" :: w) _ _ Eq) as L. cbn [app] in L. rewrite L.
    reflexivity.
  - assert (L : forall u, consume_fn_qualifiers ((TIdent i :: r) ++ u) = (q, (t1 :: r1) ++ u)).
    { intro u. destruct (proj1 qualifiers_reads (TIdent i) r u) as [X|X]; rewrite Eq in X; [discriminate|exact X]. }
    assert (C : forall u, follows u (classify_fn q (t1 :: r1)) (classify_fn q ((t1 :: r1) ++ u))).
    { intro u. cbn [classify_fn app]. cbv zeta. destruct t1 as [g|j|p|l];
        repeat match goal with |- context [if ?b then _ else _] => destruct b end; reflexivity. }
    destruct (classify_fn q (t1 :: r1)) as [[[kw|nf] t2]|e|] eqn:Ec; cbn [follows] in C.
    + apply (kind_three (fn_rest attrs vis q kw) IFunction _ _ _ t2); [|apply fn_rest_lively|left; intros; eexists; reflexivity].
      intro u. rewrite UM. unfold all. rewrite L, C. cbn [bind]. unfold fn. destruct (fn_rest attrs vis q kw (t2 ++ u)) as [[x w]|e|]; reflexivity.
    + assert (UA : forall u, member attrs vis ((TIdent i :: r) ++ u) = do (x, w) <- alt nf ((TIdent i :: r) ++ u) ;; do m <- impl_member_of_item allow x ;; Ret (m, w)).
      { intro u. rewrite UM. unfold all. rewrite L, C. reflexivity. }
      assert (K : forall A (P : parser A) (f : A -> item), (forall ts, alt nf ts = do (x, w) <- P ts ;; Ret (f x, w)) ->
        forall u, member attrs vis ((TIdent i :: r) ++ u) = do (x, w) <- P ((TIdent i :: r) ++ u) ;; do m <- impl_member_of_item allow (f x) ;; Ret (m, w)).
      { intros A P f HP u. rewrite UA, HP. destruct (P ((TIdent i :: r) ++ u)) as [[x w]|e|]; reflexivity. }
      assert (KC : nf = NFConst \/ nf = NFStatic -> three (member attrs vis) (TIdent i :: r)).
      { intro Hn. apply (kind_three (parse_const_or_static attrs vis) IConstant _ _ _ (TIdent i :: r)); [|apply constant_lively|].
        - apply K. intro ts. destruct Hn as [->| ->]; reflexivity.
        - destruct (id_is "const" i || allow) eqn:Ek; [left|right]; intros u x w Hx; apply constant_kw in Hx; cbn [impl_member_of_item]; rewrite Hx;
            destruct (id_is "const" i); try (eexists; reflexivity); destruct allow; try discriminate; try reflexivity. eexists; reflexivity. }
      destruct nf; auto.
      * apply (kind_three (parse_trait consume_either_item attrs vis) ITrait _ _ _ (TIdent i :: r)); [apply K; reflexivity|apply trait_lively|right; reflexivity].
      * apply (kind_three (parse_impl consume_either_item attrs) IImpl _ _ _ (TIdent i :: r)); [apply K; reflexivity|apply impl_lively|right; reflexivity].
      * apply (kind_three (parse_mod consume_item attrs vis) IModule _ _ _ (TIdent i :: r)); [apply K; reflexivity|apply mod_lively|right; reflexivity].
      * apply (kind_three (parse_extern_crate attrs vis) IExternCrate _ _ _ (TIdent i :: r)); [apply K; reflexivity|apply extern_crate_lively|right; reflexivity].
      * apply (kind_three (parse_extern_block consume_either_item attrs vis) IExternBlock _ _ _ (TIdent i :: r)); [apply K; reflexivity|apply extern_block_lively|right; reflexivity].
    + left. eapply at_panic. intro u. rewrite UM. unfold all. rewrite L, C. reflexivity.
    + left. left. intro u. pose proof (UM []) as U0. rewrite !app_nil_r in U0. rewrite U0. unfold all. rewrite Eq, Ec. exact I.
Qed.
Definition a_fn : list tok := [word "fn"; word "x"; block Parenthesis; mark ";"].
Lemma fn_member attrs vis w : exists m, member attrs vis (a_fn ++ w) = Ret (m, w).
Proof. eexists. unfold member. cbn [a_fn app]. rewrite consume_either_unfold. reflexivity. Qed.
Definition vis_member (attrs : list attribute) : parser impl_member := fun ts => let (vis, ts) := consume_vis_marker ts in member attrs vis ts.
Lemma vis_three attrs ts : three (vis_member attrs) ts.
Proof.
  destruct ts as [|t r].
  { left. right. exists a_fn. destruct (fn_member attrs None []) as (m & M). exists m. split; [exact I|]. intros w ->. exact M. }
  assert (V : (exists i, t = TIdent i /\ id_is "pub" i = true /\ r = []) \/
    forall u, consume_vis_marker ((t :: r) ++ u) = (fst (consume_vis_marker (t :: r)), snd (consume_vis_marker (t :: r)) ++ u)).
  { destruct t as [g|i|p|l]; try (right; reflexivity). destruct r as [|t r].
    - destruct (id_is "pub" i) eqn:Ep; [left; eauto|]. right. intro u. cbn [consume_vis_marker app]. rewrite Ep. destruct (id_is "crate" i); reflexivity.
    - right. intro u. cbn [consume_vis_marker app]. destruct (id_is "pub" i); [|destruct (id_is "crate" i); reflexivity].
      destruct t as [g|j|p|l]; try reflexivity. destruct (delim_eqb (g_delim g) Parenthesis); reflexivity. }
  destruct V as [(i & -> & Ei & ->)|V].
  - left. right. exists a_fn. destruct (fn_member attrs (Some (mkVis (TIdent i) None)) []) as (m & M). exists m. split; [exact I|]. intros w ->.
    unfold vis_member, a_fn. cbn [app consume_vis_marker word]. unfold word at 1. rewrite Ei. exact M.
  - apply (three_skip (member attrs (fst (consume_vis_marker (t :: r)))) _ _ (snd (consume_vis_marker (t :: r)))); [|apply either_three].
    intro u. unfold vis_member. rewrite V. reflexivity.
Qed.
Lemma member_three ts : three (parse_impl_member consume_either_item allow) ts.
Proof.
  assert (Eq : forall us, parse_impl_member consume_either_item allow us = do (a, w) <- consume_outer_attributes us ;; vis_member a w) by reflexivity.
  destruct (attributes_lively ts) as [S|(c & a & _ & F)].
  - pose proof (outer_attributes_safe ts) as Sf. unfold settled in S. destruct (consume_outer_attributes ts) as [[a r]|e|] eqn:E; cbn [follows] in S; [| |contradiction].
    + apply (three_skip (vis_member a) _ _ r); [|apply vis_three]. intro u. rewrite Eq, S. reflexivity.
    + left. eapply at_panic. intro u. rewrite Eq, S. reflexivity.
  - left. right. exists (c ++ a_fn). destruct (fn_member a None []) as (m & M). exists m. split; [exact I|]. intros w ->. rewrite Eq, <- app_assoc, (F (a_fn ++ [])); [|reflexivity].
    cbn [bind]. exact M.
Qed.
Lemma member_whole_safe ts : safe (parse_impl_member consume_either_item allow ts).
Proof.
  unfold parse_impl_member. apply safe_bind; [apply outer_attributes_safe|]. intros [a r] _. destruct (consume_vis_marker r) as [v w].
  apply (member_safe a v w).
Qed.
Lemma member_shorter ts m r : parse_impl_member consume_either_item allow ts = Ret (m, r) -> List.length r < List.length ts.
Proof.
  intro H. apply impl_member_sound in H.
  - destruct H as (c & -> & Hc & _). apply length_lt. eapply impl_member_ne; eauto.
  - intros. unfold consume_either_item in *. eapply nest_sound; eauto.
Qed.
End Member.

Lemma many_three {A} (elem : parser A) : (forall ts, three elem ts) -> (forall ts, safe (elem ts)) ->
  (forall ts x r, elem ts = Ret (x, r) -> List.length r < List.length ts) ->
  forall n ts, List.length ts < n ->
    (exists c x, forall f, List.length (ts ++ c) < f -> many_loop elem f (ts ++ c) = Ret x)
    \/ (exists p, forall c f, List.length (ts ++ c) < f -> many_loop elem f (ts ++ c) = Panic p)
    \/ ((forall c, exists p, forall f, List.length (ts ++ c) < f -> many_loop elem f (ts ++ c) = Panic p)
        /\ exists c, forall f, List.length (ts ++ c) < f -> many_loop elem f (ts ++ c) = Panic PUnsupportedMember).
Proof.
  intros He Hs Hp. induction n as [|n IH]; intros ts Hn; [lia|]. destruct ts as [|t r].
  { left. exists [], []. intros [|f] Hf; [simpl in Hf; lia|]. reflexivity. }
  assert (Hend : forall c x, elem ((t :: r) ++ c) = Ret (x, []) ->
     forall f, List.length ((t :: r) ++ c) < f -> many_loop elem f ((t :: r) ++ c) = Ret [x]).
  { intros c x E [|f] Hf; [lia|]. cbn [many_loop app]. change (t :: r ++ c) with ((t :: r) ++ c). rewrite E. cbn [bind].
    destruct f as [|f]; [simpl in Hf; lia|]. reflexivity. }
  assert (Hbad : forall c p, elem ((t :: r) ++ c) = Panic p ->
     forall f, List.length ((t :: r) ++ c) < f -> many_loop elem f ((t :: r) ++ c) = Panic p).
  { intros c p E [|f] Hf; [lia|]. cbn [many_loop app]. change (t :: r ++ c) with ((t :: r) ++ c). rewrite E. reflexivity. }
  destruct (He (t :: r)) as [[G|(c & x & _ & G)]|[D1 (c & D2)]].
  - unfold settled in G. specialize (Hs (t :: r)). destruct (elem (t :: r)) as [[x r1]|e|] eqn:Ee; cbn [follows] in G; [| |contradiction].
    + specialize (Hp (t :: r) x _ Ee).
      assert (F : forall c f, List.length ((t :: r) ++ c) < S f ->
        many_loop elem (S f) ((t :: r) ++ c) = (do l <- many_loop elem f (r1 ++ c) ;; Ret (x :: l)) /\ List.length (r1 ++ c) < f).
      { intros c f Hf. split; [|rewrite app_length in *; simpl in *; lia]. cbn [many_loop app]. change (t :: r ++ c) with ((t :: r) ++ c). rewrite G. reflexivity. }
      destruct (IH r1) as [(c & y & H)|[(p & H)|[H1 (c & H2)]]]; [simpl in *; lia| | |].
      { left. exists c, (x :: y). intros [|f] Hf; [lia|]. destruct (F c f Hf) as [-> Hl]. rewrite H; auto. }
      { right. left. exists p. intros c [|f] Hf; [lia|]. destruct (F c f Hf) as [-> Hl]. rewrite H; auto. }
      right. right. split.
      * intro d. destruct (H1 d) as (p & H). exists p. intros [|f] Hf; [lia|]. destruct (F d f Hf) as [-> Hl]. rewrite H; auto.
      * exists c. intros [|f] Hf; [lia|]. destruct (F c f Hf) as [-> Hl]. rewrite H2; auto.
    + right. left. exists e. intros c. apply Hbad. apply G.
  - left. exists c. eexists. apply Hend. specialize (G [] eq_refl). rewrite app_nil_r in G. exact G.
  - right. right. split; [|exists c; apply Hbad; exact D2]. intro d. destruct (D1 d) as (p & D). exists p. apply Hbad. exact D.
Qed.

Theorem C103_bodies (allow : bool) (d : delimiter) (sp : span) (ts : list tok) :
  let body c := parse_impl_body consume_either_item (mkGroup d (ts ++ c) sp) allow in
  (exists c b, body c = Ret b)
  \/ (exists p, forall c, body c = Panic p)
  \/ ((forall c, exists p, body c = Panic p) /\ exists c, body c = Panic PUnsupportedMember).
Proof.
  cbv zeta. unfold parse_impl_body. cbn [g_stream].
  destruct (inner_content a_fn ts) as [H|(c & l & r & H & B)].
  2: { left. exists c. assert (M : exists m, many_loop (parse_impl_member consume_either_item allow) (loop_fuel r) r = Ret m).
    { destruct B as [->|(h & Eh & ->)]; [exists []; reflexivity|]. destruct h as [x s hs]. unfold p_is in Eh. cbn [p_char] in Eh. apply Ascii.eqb_eq in Eh. subst. eexists. reflexivity. }
    destruct M as (m & M). eexists. rewrite H. cbn [bind]. rewrite M. reflexivity. }
  unfold settled in H. pose proof (inner_attributes_safe ts) as S. destruct (consume_inner_attributes ts) as [[inner us]|p|] eqn:E; cbn [follows] in H; [| |contradiction].
  2: { right. left. exists p. intro c. rewrite H. reflexivity. }
  destruct (many_three _ (member_three allow) (member_whole_safe allow) (member_shorter allow)) with (n := Datatypes.S (List.length us)) (ts := us)
    as [(c & x & M)|[(p & M)|[M1 (c & M2)]]]; [lia| | |].
  - left. exists c. eexists. rewrite H. cbn [bind]. rewrite M; [reflexivity|unfold loop_fuel; lia].
  - right. left. exists p. intro c. rewrite H. cbn [bind]. rewrite M; [reflexivity|unfold loop_fuel; lia].
  - right. right. split.
    + intro d'. destruct (M1 d') as (p & M). exists p. rewrite H. cbn [bind]. rewrite M; [reflexivity|unfold loop_fuel; lia].
    + exists c. rewrite H. cbn [bind]. rewrite M2; [reflexivity|unfold loop_fuel; lia].
Qed.
(** All three cases: [static] is lost in an impl but not in an extern block. *)
Example C103_bodies_ex :
  let body allow s c := parse_impl_body consume_either_item (mkGroup Brace (lex s ++ c) call_site) allow in
  (exists b, body false "#![a] fn f(); #[b] pub unsafe extern" (lex "fn g() { }") = Ret b)
  /\ (forall c, body false "1" c = Panic PUnsupportedElement)
  /\ (forall c, exists p, body false "static X: u8" c = Panic p)
  /\ body false "static X: u8" (lex ", u8;") = Panic PUnsupportedMember
  /\ body false "static X: u8" [] = Panic PTypeEnd
  /\ (exists b, body true "static X: u8" (lex "= 1;") = Ret b).
Proof.
  cbv zeta. split; [eexists; vm_compute; reflexivity|]. split.
  { intro c. unfold parse_impl_body, loop_fuel. cbn [g_stream].
    assert (consume_inner_attributes (lex "1" ++ c) = Ret ([], lex "1" ++ c)) as -> by reflexivity. cbn [bind].
    assert (M : parse_impl_member consume_either_item false (lex "1" ++ c) = Panic PUnsupportedElement).
    { unfold parse_impl_member. assert (consume_outer_attributes (lex "1" ++ c) = Ret ([], lex "1" ++ c)) as -> by reflexivity. cbn [bind].
      assert (consume_vis_marker (lex "1" ++ c) = (None, lex "1" ++ c)) as -> by reflexivity. rewrite consume_either_unfold. reflexivity. }
    destruct (lex "1" ++ c) as [|t r] eqn:E; [discriminate E|]. cbn [many_loop]. rewrite M. reflexivity. }
  split; [|split; [vm_compute; reflexivity|split; [vm_compute; reflexivity|eexists; vm_compute; reflexivity]]].
  destruct (C103_bodies false Brace call_site (lex "static X: u8")) as [(c & b & H)|[(p & H)|[H _]]]; [exfalso| |exact H].
  2: { intro c. exists p. apply H. }
  unfold parse_impl_body in H. cbn [g_stream] in H. inv_bind H. destruct x as [inner us]. inv_bind H. clear H.
  assert (us = lex "static X: u8" ++ c) as -> by (vm_compute in Hx; vm_compute; congruence).
  unfold loop_fuel in Hx0. cbn [many_loop lex] in Hx0.
  destruct (lex "static X: u8" ++ c) as [|t r] eqn:E; [discriminate E|]. cbn [many_loop] in Hx0. inv_bind Hx0. clear Hx0. rewrite <- E in Hx1. destruct x0 as [m w].
  unfold parse_impl_member in Hx1. inv_bind Hx1. destruct x0 as [a t1]. destruct (consume_vis_marker t1) as [v t2] eqn:Ev. inv_bind Hx1. destruct x0 as [i t3].
  assert (t2 = lex "static X: u8" ++ c) as -> by (vm_compute in Hx0; injection Hx0 as <- <-; vm_compute in Ev; vm_compute; congruence).
  rewrite consume_either_unfold in Hx2.
  assert (R : consume_either consume_item consume_either_item a v (lex "static X: u8" ++ c) =
     do (k, w) <- parse_const_or_static a v (lex "static X: u8" ++ c) ;; Ret (IConstant k, w)) by reflexivity.
  rewrite R in Hx2. inv_bind Hx2. destruct x0 as [k w']. injection Hx2 as <- <-.
  apply constant_kw in Hx3. cbn [impl_member_of_item] in Hx1. rewrite Hx3 in Hx1. discriminate Hx1.
Qed.

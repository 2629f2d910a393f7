(** C85: which expressions may be the value of a constant. *)
From Verif Require Import Debug PrintSpells Complete3 Sound2 Unfold Samples PropRoundTrip PropErr PropReject ScanSpec PropScan PropLimits RustSyntax PropRust.
Local Open Scope string_scope.
Local Open Scope list_scope.

(** ** C85 *)
Definition value_decl (d : const_decl) : Prop :=
  (word "const" (cd_kw d) \/ word "static" (cd_kw d)) /\ declared_name (cd_name d) /\ mark ":" (cd_colon d)
  /\ rust_type anywhere (cd_ty d) /\ mark "=" (cd_eq d) /\ cd_value d <> [] /\ mark ";" (cd_semi d).

Lemma const_dispatch (kw n : ident) (r : list tok) : word "const" kw \/ word "static" kw -> declared_name n ->
  consume_item (TIdent kw :: TIdent n :: r)
  = wrap IConstant (parse_const_or_static [] None (TIdent kw :: TIdent n :: r)).
Proof.
  intros Hk Hn. rewrite consume_item_unfold. unfold consume_item_body. rewrite no_attributes.
  assert (E : forall k, In k (reserved ++ ["crate"; "self"; "Self"; "super"]) -> id_is k n = false) by (intros; apply name_not; auto).
  destruct kw as [kw sp]. destruct Hk as [Hk|Hk]; red in Hk; cbn [id_str] in Hk; subst.
  - assert (F : forall ts, consume_fn [] None (TIdent (mkIdent "const" sp) :: TIdent n :: ts) = Ret (Err NFConst, TIdent (mkIdent "const" sp) :: TIdent n :: ts)).
    { intro ts. unfold consume_fn, consume_fn_qualifiers, consume_ident. cbn.
      rewrite !E by (cbn; tauto). cbn. unfold classify_fn. rewrite !E by (cbn; tauto). reflexivity. }
    cbn -[parse_const_or_static consume_fn]. rewrite F. cbn -[parse_const_or_static]. unfold wrap.
    destruct (parse_const_or_static [] None _) as [[c ts]| |]; reflexivity.
  - reflexivity.
Qed.
Lemma end_semi_same v : run_closed end_semi v = run_closed end_semicolon v. Proof. reflexivity. Qed.

(** A constant is read with exactly its value if the brackets of the value match; otherwise
    it panics. *)
Theorem C85_value (d : const_decl) : value_decl d ->
  (matched false (cd_value d) /\ parse_item (decl_tokens d) = Ret (Ok (decl_item d)))
  \/ (~ matched false (cd_value d) /\ exists p, parse_item (decl_tokens d) = Panic p).
Proof.
  destruct d as [kw n c ty e v s]. unfold value_decl, decl_tokens, decl_item, parse_item. cbn [cd_kw cd_name cd_colon cd_ty cd_eq cd_value cd_semi].
  intros (Hk & Hn & Hc & Ht & He & Hv & Hs). rewrite const_dispatch by auto. 
  assert (P : parse_const_or_static [] None (TIdent kw :: TIdent n :: TPunct c :: ty ++ TPunct e :: v ++ [TPunct s])
    = do (value, ts) <- consume_stuff_until end_semi true (v ++ [TPunct s]) ;;
      let init := match value with [] => None | _ :: _ => Some (mkValueExpr value) end in
      do (semi, ts) <- parse_punct ";" "const/static" ts ;;
      Ret (mkConstant [] None kw None n c (mkTypeExpr ty) (Some e) init semi, ts)).
  { unfold parse_const_or_static.
    assert (Em : id_is "mut" n = false) by (apply name_not; auto; cbn; tauto).
    assert (R : consume_stuff_until end_eq_or_semi true (ty ++ TPunct e :: v ++ [TPunct s]) = Ret (ty, TPunct e :: v ++ [TPunct s])).
    { apply until_term; [|]. 
      - exact (passes_closed _ _ _ (type_passes _ _ Ht) (compat_const_ty _)).
      - cbn. unfold term, end_eq_or_semi, opens. cbn. unfold p_is. red in He. rewrite He. reflexivity. }
    assert (K : (if id_is "const" kw then Ret (kw, true, TIdent n :: TPunct c :: ty ++ TPunct e :: v ++ [TPunct s])
        else if id_is "static" kw then Ret (kw, false, TIdent n :: TPunct c :: ty ++ TPunct e :: v ++ [TPunct s]) else Panic PConstOrStatic)
      = Ret (kw, id_is "const" kw, TIdent n :: TPunct c :: ty ++ TPunct e :: v ++ [TPunct s])).
    { destruct Hk as [Hk|Hk]; red in Hk; unfold id_is; rewrite Hk; reflexivity. }
    rewrite K. cbn [bind fst snd]. rewrite Em. cbn [bind parse_any_ident consume_any_ident]. unfold parse_punct at 1. cbn [consume_punct]. rewrite (mark_is _ _ Hc). cbn [bind].
    rewrite R. cbn [bind]. unfold consume_punct at 1. rewrite (mark_is _ _ He). reflexivity. }
  rewrite P. clear P.
  destruct (run_closed end_semicolon v) eqn:M.
  - left. split; [apply closed_matched; auto|]. rewrite (until_term end_semi true v [TPunct s]); auto.
    + cbn [bind]. unfold parse_punct, consume_punct. rewrite (mark_is _ _ Hs). destruct v; [congruence|reflexivity].
    + cbn. unfold term, end_semi, opens. cbn. unfold p_is. red in Hs. rewrite Hs. reflexivity.
  - right. split; [intro X; apply closed_matched in X; congruence|].
    destruct (consume_stuff_until end_semi true (v ++ [TPunct s])) as [[out r]|p|] eqn:U.
    + cbn [bind]. apply until_sound_term in U. destruct U as (U1 & _ & U2). destruct r as [|t r]; [discriminate|]. destruct U2 as (U2 & _ & U3).
      unfold parse_punct, consume_punct. destruct t as [| |q|]; try (eexists; reflexivity). destruct (p_is ";" q); [|eexists; reflexivity]. cbn [bind].
      destruct r as [|t' r]; [|eexists; reflexivity]. apply app_inj_tail in U1. destruct U1 as [-> _]. change (run_closed end_semi out) with (run_closed end_semicolon out) in U2. congruence.
    + eexists. reflexivity.
    + unfold consume_stuff_until in U. destruct (stuff_loop end_semi 0 false (v ++ [TPunct s])) as [[o m] r]. cbn [andb] in U. destruct (negb m); [|discriminate U]. destruct r as [|[| |q|] r]; try discriminate U. destruct (p_is ">" q); discriminate U.
Qed.

(** So a [<] without a [>] panics: [1 << 3], [a < b], [a <= b]. *)
Corollary C85_less_panics (d : const_decl) (l : punct) : value_decl d -> In (TPunct l) (cd_value d) -> mark "<" l ->
  Forall (fun t => is_punct ">" t = false) (cd_value d) -> exists p, parse_item (decl_tokens d) = Panic p.
Proof.
  intros H Hl El F. destruct (C85_value d H) as [[M _]|[_ P]]; auto. exfalso.
  revert Hl F. assert (Z : forall b v, matched b v -> In (TPunct l) v -> Forall (fun t => is_punct ">" t = false) v -> False); [|exact (Z _ _ M)].
  clear -El. intros b0 v M. induction M as [b|b t r H1 H2 H3 H4 IH|b dd g r Hd Hg H' IH|b l' inner g r Hl' Hi IHi Hd Hg Hr IHr]; intros Hl F.
  - destruct Hl.
  - destruct Hl as [->|Hl].
    + rewrite (proj2 (Ascii.eqb_eq _ _) El : is_punct "<" (TPunct l) = true) in H1. discriminate.
    + inversion F; auto.
  - inversion F as [|? ? _ F2]; subst. inversion F2 as [|? ? F3 _]; subst. rewrite (proj2 (Ascii.eqb_eq _ _) Hg : is_punct ">" (TPunct g) = true) in F3. discriminate.
  - inversion F as [|? ? _ F2]; subst. apply Forall_app in F2. destruct F2 as [_ F2]. inversion F2 as [|? ? F3 _]; subst.
    rewrite (proj2 (Ascii.eqb_eq _ _) Hg : is_punct ">" (TPunct g) = true) in F3. discriminate.
Qed.
(** And so does a [>] before any [<], except in an arrow: [a >> 3], [a > b], [a >= b]. *)
Corollary C85_greater_panics (d : const_decl) (a b : list tok) (g : punct) : value_decl d -> cd_value d = a ++ TPunct g :: b -> mark ">" g ->
  after_dash a = false -> Forall (fun t => is_punct "<" t = false) a -> exists p, parse_item (decl_tokens d) = Panic p.
Proof.
  intros H E Eg Ha F. destruct (C85_value d H) as [[M _]|[_ P]]; auto. exfalso. rewrite E in M. clear E.
  remember (a ++ TPunct g :: b) as v eqn:E. revert a E Ha F.
  assert (Z : forall b0 v, matched b0 v -> forall a, v = a ++ TPunct g :: b -> after_dash a = false -> Forall (fun t => is_punct "<" t = false) a -> False);
    [|exact (Z _ _ M)]. clear -Eg. intros b0 v M.
  assert (G : is_punct ">" (TPunct g) = true) by exact (proj2 (Ascii.eqb_eq _ _) Eg).
  induction M as [b'|b' t r H1 H2 H3 H4 IH|b' dd g' r Hd Hg H' IH|b' l' inner g' r Hl' Hi IHi Hd Hg Hr IHr]; intros a E Ha F.
  - destruct a; discriminate.
  - destruct a as [|x a]; cbn [app] in E; injection E as -> E; [congruence|]. apply (IH _ E).
    + rewrite dash_cons in Ha. destruct a; auto.
    + inversion F; auto.
  - destruct a as [|x a]; cbn [app] in E; injection E as <- E.
    + red in Eg. red in Hd. rewrite Eg in Hd. discriminate.
    + destruct a as [|y a]; cbn [app] in E; injection E as <- E.
      * cbn in Ha. red in Hd. unfold after_dash in Ha. cbn in Ha. unfold p_is in Ha. rewrite Hd in Ha. discriminate.
      * apply (IH _ E); [rewrite !dash_cons in Ha; destruct a; auto|inversion F as [|? ? _ F2]; inversion F2; auto].
  - destruct a as [|x a]; cbn [app] in E; injection E as <- E.
    + red in Eg. red in Hl'. rewrite Eg in Hl'. discriminate.
    + inversion F as [|? ? F1 _]. rewrite (proj2 (Ascii.eqb_eq _ _) Hl' : is_punct "<" (TPunct l') = true) in F1. discriminate.
Qed.

(** A shift in a constant is ordinary Rust. *)
Theorem C85_shift_refuted : panic_of (parse_item (lex "const FLAG: u32 = 1 << 3;")) = Some PTypeEnd
  /\ panic_of (parse_item (lex "const TOP: u32 = X >> 3;")) = Some PUnbalancedAngle.
Proof. vm_compute. auto. Qed.

Definition decl_of (s : string) (ty v : list tok) : const_decl :=
  match lex s with
  | [TIdent k; TIdent n; TPunct c; TPunct e; TPunct s] => mkDecl k n c ty e v s
  | _ => mkDecl (mkIdent "" call_site) (mkIdent "" call_site) hyphen [] hyphen [] hyphen
  end.
Ltac marks := repeat first [reflexivity | discriminate | apply ma_nil | apply ma_tok; [reflexivity|reflexivity|discriminate|]].
(** Bracketed arguments, also with a [;] between the brackets, and a closure with a return type. *)
Example C85_example :
  let d := decl_of "const A: =;" (lex "u8") (lex "f::<[u8; 2], A>(|x| -> u8 { x }) - 1") in
  let d' := decl_of "static B: =;" (lex "u8") (lex "1 << X - 1") in
  let d'' := decl_of "const C: =;" (lex "u8") (lex "a - b > (c)") in
  value_decl d /\ matched false (cd_value d) /\ value_decl d' /\ value_decl d'' /\ after_dash (firstn 3 (cd_value d'')) = false.
Proof.
  cbn zeta. assert (T : rust_type anywhere (lex "u8")) by (vm_compute; apply ty_path, path_one, seg_name; names).
  split; [|split; [|split; [|split]]].
  - unfold value_decl. repeat split; try (left; reflexivity); try exact T; try reflexivity; try discriminate. vm_compute. intuition discriminate.
  - vm_compute. do 3 (apply ma_tok; [reflexivity|reflexivity|discriminate|]).
    match goal with |- matched _ (?l :: ?a :: ?b :: ?c :: ?g :: ?r) => apply (ma_angle false _ [a; b; c] _ r); [reflexivity| |reflexivity|reflexivity|]; marks end.
  - unfold value_decl. repeat split; try (right; reflexivity); try exact T; try reflexivity; try discriminate. vm_compute. intuition discriminate.
  - unfold value_decl. repeat split; try (left; reflexivity); try exact T; try reflexivity; try discriminate. vm_compute. intuition discriminate.
  - reflexivity.
Qed.
Print Assumptions C85_value.

(** C69: Rust syntax that always panics. *)
From Verif Require Import Unfold Samples PathProof ScanSpec Complete Complete2 PrintSpells PropRoundTrip PropLimits.
Local Open Scope string_scope.
Local Open Scope list_scope.

Lemma loop_panics {A} stop (elem : parser A) (pr : A -> list tok) (l : list (A * punct)) (ts : list tok) (p : panic) :
  Forall (fun x => p_is "," (snd x) = true /\ forall r, stop (pr (fst x) ++ TPunct (snd x) :: r) = Ret false
                   /\ elem (pr (fst x) ++ TPunct (snd x) :: r) = Ret (fst x, TPunct (snd x) :: r)) l ->
  stop ts = Ret false -> elem ts = Panic p ->
  forall fuel acc, List.length l < fuel ->
  punct_loop stop elem fuel acc (flat_map (fun x => pr (fst x) ++ [TPunct (snd x)]) l ++ ts) = Panic p.
Proof.
  intros H S E. induction H as [|[x c] l [Hc Hx] _ IH]; intros fuel acc F; destruct fuel; cbn [List.length] in F; try lia; cbn [flat_map fst snd app punct_loop].
  - rewrite S. cbn. rewrite E. reflexivity.
  - cbn [fst snd] in *. rewrite <- !app_assoc. cbn [app]. destruct (Hx (flat_map (fun x => pr (fst x) ++ [TPunct (snd x)]) l ++ ts)) as [A1 A2].
    rewrite A1. cbn [bind]. rewrite A2. cbn [bind]. unfold consume_comma. rewrite consume_punct_yes by auto. apply IH. lia.
Qed.
Lemma flat_long {A} (pr : A -> list tok) (l : list (A * punct)) ts :
  List.length l < loop_fuel (flat_map (fun x => pr (fst x) ++ [TPunct (snd x)]) l ++ ts).
Proof.
  unfold loop_fuel. induction l; cbn [flat_map List.length]; [lia|]. rewrite !app_length in *. cbn [List.length]. lia.
Qed.

Lemma no_attributes i r : consume_outer_attributes (TIdent i :: r) = Ret ([], TIdent i :: r).
Proof. reflexivity. Qed.

(** A generic parameter with a default but no bound, at any position of the list. *)
Theorem C69_generic_default (kw name : ident) (lt : punct) (l : list (generic_param * punct)) (n : ident) (eq : punct) (rest : list tok) :
  In (id_str kw) ["struct"; "enum"; "union"; "trait"; "fn"] -> p_char lt = "<"%char ->
  forallb (fun x => wf_generic_param true (fst x) && p_is "," (snd x)) l = true ->
  id_str n <> "const" -> p_char eq = "="%char ->
  consume_item (TIdent kw :: TIdent name :: TPunct lt
                :: flat_map (fun x => print_generic_param (fst x) ++ [TPunct (snd x)]) l ++ TIdent n :: TPunct eq :: rest) = Panic PBoundToken.
Proof.
  intros Hk Hl Hp Hn He.
  assert (G : forall ts, ts = TPunct lt :: flat_map (fun x => print_generic_param (fst x) ++ [TPunct (snd x)]) l ++ TIdent n :: TPunct eq :: rest ->
    consume_generic_params ts = Panic PBoundToken).
  { intros ts ->. unfold consume_generic_params. rewrite consume_punct_yes by (unfold p_is; rewrite Hl; reflexivity).
    rewrite (loop_panics stop_generic_params parse_generic_param print_generic_param l _ PBoundToken); try reflexivity.
    - apply Forall_forall. intros x Hx. rewrite forallb_forall in Hp. apply Hp in Hx. bsplit. split; auto. intro r.
      apply generic_param_complete; auto. unfold end_param. cbn. rewrite H0. reflexivity.
    - unfold parse_generic_param. unfold id_is. destruct (String.eqb_spec (id_str n) "const"); [contradiction|]. cbn [bind parse_any_ident].
      unfold consume_bound, end_generic_param, is_punct, p_is. rewrite He. reflexivity.
    - apply flat_long. }
  rewrite consume_item_unfold. destruct kw as [k ks]. cbn [id_str In] in Hk. set (ts := TPunct lt :: _) in *. specialize (G ts eq_refl). clearbody ts.
  unfold consume_item_body. rewrite no_attributes. cbn [bind].
  destruct Hk as [<-|[<-|[<-|[<-|[<-|[]]]]]]; cbn -[consume_generic_params];
    unfold parse_struct, parse_enum, parse_union, parse_trait, consume_either, consume_fn; cbn -[consume_generic_params]; rewrite G; reflexivity.
Qed.

(** A function parameter that starts with a pattern other than a name, at any position. *)
Definition starts_param (t : tok) : bool :=
  match t with TIdent _ => true | TPunct p => p_is "#" p || p_is "&" p || p_is "'" p | _ => false end.
Theorem C69_pattern_param (kw name : ident) (l : list (fn_param * punct)) (t : tok) (r rest : list tok) sp :
  id_str kw = "fn" -> forallb (fun x => wf_fn_param true (fst x) && p_is "," (snd x)) l = true -> starts_param t = false ->
  consume_item (TIdent kw :: TIdent name
    :: TGroup (mkGroup Parenthesis (flat_map (fun x => print_fn_param (fst x) ++ [TPunct (snd x)]) l ++ t :: r) sp) :: rest)
  = Panic (PExpectedIdent "fn param name" false).
Proof.
  intros Hk Hp Ht. set (s := flat_map _ l ++ t :: r).
  assert (G : parse_fn_params s = Panic (PExpectedIdent "fn param name" false)).
  { unfold parse_fn_params, s.
    rewrite (loop_panics stop_at_end parse_fn_param print_fn_param l (t :: r) (PExpectedIdent "fn param name" false)); try reflexivity.
    - apply Forall_forall. intros x Hx. rewrite forallb_forall in Hp. apply Hp in Hx. bsplit. split; auto. intro u. split.
      + destruct (print_fn_param (fst x)); reflexivity.
      + apply (fn_param_complete true); auto.
        * apply print_spells_fn_param; auto.
        * destruct (fst x); auto. cbn. eauto.
    - unfold parse_fn_param, consume_outer_attributes, consume_attributes_with_inner. destruct t as [g|i|p|li]; try discriminate; try reflexivity.
      cbn in Ht. apply orb_false_iff in Ht. destruct Ht as [Ht H3]. apply orb_false_iff in Ht. destruct Ht as [H1 H2].
      cbn. rewrite H1. cbn. rewrite H2. unfold consume_lifetime. cbn. rewrite H3. reflexivity.
    - apply flat_long. }
  clearbody s. rewrite consume_item_unfold. destruct kw as [k ks]. cbn [id_str] in Hk. subst k.
  unfold consume_item_body. rewrite no_attributes. cbn -[parse_fn_params].
  unfold consume_either, consume_fn; cbn -[parse_fn_params]. rewrite G. reflexivity.
Qed.

(** Macro calls with square brackets. *)
Definition plain_name (n : ident) : Prop := ~ In (id_str n) (item_keywords ++ vis_keywords).
Lemma plain_dispatch n r : plain_name n ->
  consume_item (TIdent n :: r) = wrap (fun i => i) (parse_item_macro [] (TIdent n :: r)).
Proof.
  intro H. rewrite consume_item_unfold. unfold consume_item_body. rewrite no_attributes. cbn [bind].
  unfold plain_name in H. cbn [item_keywords vis_keywords app In] in H.
  assert (K : forall s, In s (item_keywords ++ vis_keywords) -> id_is s n = false).
  { intros s Hs. unfold id_is. destruct (String.eqb_spec (id_str n) s); [|reflexivity]. exfalso. apply H. subst s. exact Hs. }
  unfold consume_vis_marker. rewrite !K by (cbn; auto 20). unfold either_keyword. rewrite !K by (cbn; auto 20). reflexivity.
Qed.
Theorem C69_bracket_macro (n : ident) (bang : punct) (d : option ident) s sp (rest : list tok) :
  plain_name n -> p_char bang = "!"%char ->
  consume_item (TIdent n :: TPunct bang :: print_opt print_ident d ++ TGroup (mkGroup Bracket s sp) :: rest) = Panic PMacroBody.
Proof.
  intros H Hb. rewrite plain_dispatch by auto. unfold parse_item_macro, consume_macro, consume_macro_inner. cbn.
  unfold p_is. rewrite Hb. cbn. destruct d; reflexivity.
Qed.
(** A name that is not a keyword and not directly followed by [!]: [a::b! { }], [auto trait],
    [macro m() {}], [safe fn] ... *)
Theorem C69_not_an_item (n : ident) (rest : list tok) :
  plain_name n -> head_is (is_punct "!") rest = false -> consume_item (TIdent n :: rest) = Panic PNoDeclaration.
Proof.
  intros H Hb. rewrite plain_dispatch by auto. unfold parse_item_macro, consume_macro, consume_macro_inner. cbn.
  destruct rest as [|[| |p|] r]; try reflexivity. cbn in *. rewrite Hb. reflexivity.
Qed.
(** A macro whose name is an item keyword. *)
Theorem C69_keyword_macro (n : ident) (bang : punct) (rest : list tok) :
  In (id_str n) item_keywords -> id_str n <> "impl" -> id_str n <> "use" -> p_char bang = "!"%char ->
  exists p, consume_item (TIdent n :: TPunct bang :: rest) = Panic p.
Proof.
  intros H N1 N2 Hb. rewrite consume_item_unfold. unfold consume_item_body. rewrite no_attributes. cbn [bind].
  destruct n as [n sp], bang as [c s bs]. cbn [id_str p_char] in *. subst c.
  repeat (destruct H as [<-|H]; [try congruence; eexists; reflexivity|]). contradiction.
Qed.
(** Generic type aliases and trait aliases. *)
Theorem C69_type_alias_generics (kw name : ident) (lt : punct) (rest : list tok) :
  id_str kw = "type" -> p_char lt = "<"%char -> exists p, consume_item (TIdent kw :: TIdent name :: TPunct lt :: rest) = Panic p.
Proof.
  intros H Hb. rewrite consume_item_unfold. destruct kw as [n sp], lt as [c s bs]. cbn [id_str p_char] in *. subst. eexists. reflexivity.
Qed.
Theorem C69_trait_alias (kw name : ident) (eq : punct) (rest : list tok) :
  id_str kw = "trait" -> p_char eq = "="%char -> consume_item (TIdent kw :: TIdent name :: TPunct eq :: rest) = Panic PBoundToken.
Proof.
  intros H Hb. rewrite consume_item_unfold. destruct kw as [n sp], eq as [c s bs]. cbn [id_str p_char] in *. subst. reflexivity.
Qed.
(** An item cannot start with a literal, a group or punctuation other than [#].  The group may
    be invisible: [$vis] or [$item] in a [macro_rules] macro expands to such a group. *)
Theorem C69_stray_token (t : tok) (rest : list tok) :
  match t with TLit _ => True | TGroup _ => True | TPunct p => p_char p <> "#"%char | TIdent _ => False end ->
  consume_item (t :: rest) = Panic PNoDeclaration.
Proof.
  intro H. rewrite consume_item_unfold. unfold consume_item_body. destruct t as [g|i|p|li]; try contradiction; try reflexivity.
  unfold consume_outer_attributes, consume_attributes_with_inner. assert (E : p_is "#" p = false) by (unfold p_is; apply Ascii.eqb_neq; auto).
  cbn. rewrite E. reflexivity.
Qed.
Example C69_example :
  panic_of (parse_item (lex "fn f(a: u8, (b, c): T) {}")) = Some (PExpectedIdent "fn param name" false)
  /\ panic_of (parse_item (lex "struct S<'a, T: A, U = u8>(T);")) = Some PBoundToken
  /\ panic_of (parse_item (lex "vec![1];")) = Some PMacroBody /\ panic_of (parse_item (lex "macro_rules! m [];")) = Some PMacroBody
  /\ panic_of (parse_item (lex "a::b! { }")) = Some PNoDeclaration /\ panic_of (parse_item (lex "auto trait T {}")) = Some PNoDeclaration
  /\ panic_of (parse_item (lex "union! { }")) = Some (PExpectedIdent "item" false) /\ panic_of (parse_item (lex "trait A = B;")) = Some PBoundToken
  /\ (exists i, parse_item (lex "impl !A for B {}") = Ret (Ok i)) /\ (exists i, parse_item (lex "struct S<'a, T: A, U: B = u8>(T);") = Ret (Ok i)).
Proof. vm_compute. repeat split; eauto. Qed.

(** ** C70: a visibility that arrives as an invisible group ([$vis] of a [macro_rules] macro)
    is never recognised. *)
Theorem C70_item (g : group) (rest : list tok) : g_delim g = NoDelim -> consume_item (TGroup g :: rest) = Panic PNoDeclaration.
Proof. intros _. apply C69_stray_token. exact I. Qed.
(** In front of a named field, at any position, it panics: [struct S { $vis x: T }]. *)
Theorem C70_named_field (kw name : ident) (l : list (named_field * punct)) (g : group) (r rest : list tok) sp :
  id_str kw = "struct" -> forallb (fun x => wf_named_field true (fst x) && p_is "," (snd x)) l = true ->
  consume_item (TIdent kw :: TIdent name
    :: TGroup (mkGroup Brace (flat_map (fun x => print_named_field (fst x) ++ [TPunct (snd x)]) l ++ TGroup g :: r) sp) :: rest)
  = Panic (PExpectedIdent "field name" false).
Proof.
  intros Hk Hp. set (s := flat_map _ l ++ TGroup g :: r).
  assert (G : parse_named_fields (mkGroup Brace s sp) = Panic (PExpectedIdent "field name" false)).
  { unfold parse_named_fields, s. cbn [g_stream].
    rewrite (loop_panics stop_at_end parse_named_field print_named_field l (TGroup g :: r) (PExpectedIdent "field name" false)); try reflexivity.
    - apply Forall_forall. intros x Hx. rewrite forallb_forall in Hp. apply Hp in Hx. bsplit. split; auto. intro u. split.
      + destruct (print_named_field (fst x)); reflexivity.
      + apply (named_field_complete (fst x) (print_named_field (fst x))); auto. exists (print_attributes (nf_attributes (fst x))). split; [apply print_spells_attributes|reflexivity].
    - apply flat_long. }
  clearbody s. rewrite consume_item_unfold. destruct kw as [k ks]. cbn [id_str] in Hk. subst k.
  unfold consume_item_body. rewrite no_attributes. cbn -[parse_named_fields].
  unfold parse_struct. cbn -[parse_named_fields]. rewrite G. reflexivity.
Qed.
(** In front of the type of a tuple field it is read as part of the type: [struct S($vis T);]. *)
Theorem C70_tuple_field (kw name : ident) (g : group) (semi : punct) sp (r rest : list tok) :
  id_str kw = "struct" -> p_char semi = ";"%char -> run_any end_comma (TGroup g :: r) = true ->
  exists i f, consume_item (TIdent kw :: TIdent name :: TGroup (mkGroup Parenthesis (TGroup g :: r) sp) :: TPunct semi :: rest) = Ret (Ok i, rest)
    /\ first_tuple_field i = Some f /\ tf_vis f = None /\ te_tokens (tf_ty f) = TGroup g :: r.
Proof.
  intros H1 H3 H5.
  set (f := mkTupleField [] None (mkTypeExpr (TGroup g :: r))).
  set (i := IStruct (mkStruct [] None kw name None None
         (FTuple (mkTupleFields (mkPunctuated [(f, punct_new "," Alone)] true) (mkGroupSpan Parenthesis sp))) (Some semi))).
  exists i, f. split; [|auto].
  assert (E : wf_item i = true).
  { unfold wf_item, i, f. cbn -[run_any]. unfold wf_tuple_field, wf_field_ty, id_is, p_is, wf_vis, prefix_ok, id_is. cbn -[run_any].
    unfold shape_struct, wf_fields, wf_tuple_fields, wf_punctuated, wf_tuple_field, wf_field_ty. cbn -[run_any].
    unfold wf_vis, prefix_ok, id_is, p_is. cbn -[run_any]. rewrite H1, H3, H5. reflexivity. }
  pose proof (C01_print_consume i rest E eq_refl) as C. rewrite <- C. f_equal. simpl. unfold print_punctuated, print_tuple_field. simpl. rewrite ?app_nil_r. reflexivity.
Qed.
Example C70_example : let v := TGroup (mkGroup NoDelim (lex "pub") call_site) in
  panic_of (parse_item (v :: lex "struct S;")) = Some PNoDeclaration
  /\ panic_of (parse_item (lex "struct S" ++ [TGroup (mkGroup Brace (lex "a: u8," ++ v :: lex "b: u8") call_site)])) = Some (PExpectedIdent "field name" false)
  /\ run_any end_comma (v :: lex "Vec<u8, A>") = true.
Proof. vm_compute. auto. Qed.

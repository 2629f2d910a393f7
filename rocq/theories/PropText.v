(** C102: the text that Debug prints tells items apart. *)
From Verif Require Import Debug Blind PropBlind PrintSpells Complete3 Sound2 Unfold Samples Lossy LossyProof PropRoundTrip PropDebug PropCommas PropShown DebugText.
Local Open Scope string_scope.
Local Open Scope list_scope.

(** ** Legal tokens *)
(** Names are names; literals are lexemes of Rust that are neither names nor strings of one
    character; punctuation characters are not quotes or backslashes. *)
Definition legal_tok (t : tok) : bool :=
  match t with
  | TGroup _ => true
  | TIdent i => name_text (id_str i)
  | TPunct p => negb (Ascii.eqb (p_char p) quote_str) && negb (Ascii.eqb (p_char p) backslash)
  | TLit l => lexeme (l_repr l) && negb (name_text (l_repr l)) && negb (one_quoted (l_repr l))
  end.
(** Legal at every depth, and no [pub] is followed by empty parentheses. *)
Definition empty_pub (t : tok) (r : list tok) : bool :=
  is_ident "pub" t && match r with TGroup (mkGroup Parenthesis [] _) :: _ => true | _ => false end.
Section Spelled.
Variable f : tok -> bool.
Fixpoint spelled_list (ts : list tok) : bool :=
  match ts with [] => true | t :: r => f t && negb (empty_pub t r) && spelled_list r end.
End Spelled.
Fixpoint spelled_tok (t : tok) : bool :=
  legal_tok t && match t with TGroup (mkGroup _ s _) => spelled_list spelled_tok s | _ => true end.
Notation sp := (spelled_list spelled_tok).
Lemma sp_cons t r : sp (t :: r) = true -> spelled_tok t = true /\ empty_pub t r = false /\ sp r = true.
Proof. cbn [spelled_list]. intro H. apply andb_prop in H. destruct H as [H H2]. apply andb_prop in H. destruct H as [H H1]. apply negb_true_iff in H1. auto. Qed.
Lemma sp_app a b : sp (a ++ b) = true -> sp a = true /\ sp b = true.
Proof.
  induction a as [|t a IH]; cbn [app]; auto. intro H. apply sp_cons in H. destruct H as (H1 & H2 & H3). destruct (IH H3) as [Ha Hb]. split; auto.
  cbn [spelled_list]. rewrite H1, Ha. replace (empty_pub t a) with false; auto.
  destruct a; [|symmetry; exact H2]. unfold empty_pub. rewrite andb_false_r. reflexivity.
Qed.
Lemma sp_in l t : sp l = true -> In t l -> spelled_tok t = true.
Proof. induction l as [|x l IH]; [contradiction|]. intros H Hi. apply sp_cons in H. destruct H as (H1 & _ & H3). destruct Hi as [->|Hi]; auto. Qed.
Lemma sp_plain_tok : forall t, spelled_tok t = true -> all_plain t = true.
Proof.
  fix IH 1. intros [[d s sp]|i|p|l]; cbn [spelled_tok all_plain legal_tok plain_tok andb]; intro H; auto.
  - induction s as [|x s IHs]; [reflexivity|]. apply sp_cons in H. destruct H as (H1 & _ & H3). cbn [forallb]. rewrite (IH x H1). apply IHs, H3.
  - apply andb_prop in H. destruct H as [H _]. apply andb_prop in H. destruct H as [H ->]. apply andb_prop in H. destruct H as [_ ->]. reflexivity.
Qed.
Lemma sp_plain l : sp l = true -> ap l = true.
Proof. intro H. apply forallb_forall. intros x Hx. apply sp_plain_tok, (sp_in l); auto. Qed.

(** ** Where a bracket pair can stand *)
Definition span_label (s : string) : bool :=
  existsb (String.eqb s) ["tk_brackets"; "tk_params_parens"; "tk_braces_or_parens"; "tk_braces"].
(** [c] says that a bracket pair is expected.  It is expected in the fields above, inside of
    [Some] there, and in the second place of [Group]; a list is expected elsewhere. *)
Fixpoint legible (c : bool) (d : dbg) : bool :=
  match d with
  | DText s => lexeme s || c && brackets_text s
  | DStruct n fs => lexeme n && nonnil fs && forallb (fun f => lexeme (fst f ++ ":")%string && legible (span_label (fst f)) (snd f)) fs
  | DTuple n fs => lexeme n && nonnil fs &&
      (if String.eqb n "Group" then match fs with [x; y] => legible false x && legible true y | _ => false end
       else forallb (legible (c && String.eqb n "Some")) fs)
  | DList l => negb c && forallb (legible false) l
  | DPrefix s d => String.eqb s "TokenStream " && match d with DList l => forallb (legible false) l | _ => false end
  | DPanic => false
  end.
Lemma legible_readable : forall d c, legible c d = true -> readable d = true.
Proof.
  induction d as [s0|n fs IH|n fs IH|l IH|s0 d IH|] using dbg_rect'; intros c H; cbn [legible readable] in *.
  - destruct (lexeme s0); auto. destruct c; auto. discriminate.
  - apply andb_prop in H. destruct H as [-> H]. rewrite forallb_forall in H. apply forallb_forall. intros x Hx. specialize (H x Hx). apply andb_prop in H. destruct H as [-> H].
    cbn [andb]. eapply IH; eauto.
  - apply andb_prop in H. destruct H as [-> H]. destruct (String.eqb n "Group").
    + destruct fs as [|x [|y [|]]]; try discriminate. apply andb_prop in H. destruct H as [H1 H2]. cbn [forallb andb].
      rewrite (IH x (or_introl eq_refl) _ H1), (IH y (or_intror (or_introl eq_refl)) _ H2). reflexivity.
    + rewrite forallb_forall in H. apply forallb_forall. intros x Hx. eapply IH; eauto.
  - apply andb_prop in H. destruct H as [_ H]. rewrite forallb_forall in H. apply forallb_forall. intros x Hx. eapply IH; eauto.
  - apply andb_prop in H. destruct H as [-> H]. destruct d; try discriminate. apply (IH false). cbn. exact H.
  - discriminate.
Qed.
Lemma tight : forall d e c, legible c d = true -> legible c e = true -> like d e -> d = e.
Proof.
  assert (M : forall l m, (forall x, In x l -> forall e c, legible c x = true -> legible c e = true -> like x e -> x = e) -> forall c,
    forallb (legible c) l = true -> forallb (legible c) m = true -> Forall2 like l m -> l = m).
  { intros l m IH c L1 L2 F. induction F as [|x y l m Hxy F IHF]; auto. cbn [forallb] in *. apply andb_prop in L1, L2. destruct L1, L2.
    f_equal; [eapply IH; eauto; left; reflexivity|]. apply IHF; auto. intros z Hz. apply IH. right. exact Hz. }
  induction d as [s0|n fs IH|n fs IH|l IH|s0 d IH|] using dbg_rect'; intros e c H1 H2 L; inversion L; subst; cbn [legible] in *; auto.
  - destruct c; discriminate.
  - f_equal. apply andb_prop in H1, H2. destruct H1 as [_ L1], H2 as [_ L2]. clear L. revert L1 L2 IH.
    match goal with F : Forall2 _ _ _ |- _ => induction F as [|x y l m [E Hxy] F IHF] end; auto. cbn [forallb]. intros L1 L2 IH.
    apply andb_prop in L1, L2. destruct L1 as [L1 L3], L2 as [L2 L4]. apply andb_prop in L1, L2. destruct L1, L2.
    f_equal; [|apply IHF; auto; intros z Hz; apply IH; right; exact Hz]. destruct x as [a d], y as [b e']. cbn [fst snd] in *. subst b. f_equal.
    apply (IH (a, d) (or_introl eq_refl) e' (span_label a)); auto.
  - f_equal. apply andb_prop in H1, H2. destruct H1 as [_ L1], H2 as [_ L2]. destruct (String.eqb n "Group").
    + destruct fs as [|x [|y [|]]]; try discriminate. destruct gs as [|x' [|y' [|]]]; try discriminate. apply andb_prop in L1, L2. destruct L1, L2.
      match goal with F : Forall2 _ _ _ |- _ => inversion F as [|? ? ? ? Hx F2]; subst; inversion F2 as [|? ? ? ? Hy _]; subst end.
      f_equal; [|f_equal]; eapply IH; eauto; cbn; auto.
    + eapply M; eauto.
  - destruct c; discriminate.
  - apply andb_prop in H1, H2. destruct H1, H2. f_equal. eapply M; eauto.
  - f_equal. apply andb_prop in H1, H2. destruct H1, H2. destruct d; try discriminate. destruct e0; try discriminate. apply (IH _ false); auto.
Qed.

(** ** Leaves *)
Lemma name_outside st c : name_byte false c = true -> match st with Start | Byte | Hashes _ | Word => true | _ => false end = true ->
  exists st', lex_step st c = Some st' /\ match st' with Byte | Hashes _ | Word => true | _ => false end = true.
Proof.
  intros H S. assert (N : forall x, name_byte false x = false -> Ascii.eqb c x = false).
  { intros x Hx. destruct (Ascii.eqb_spec c x); auto. subst. congruence. }
  assert (T : stop_char c = false) by (unfold stop_char; cbn [existsb]; rewrite !N by reflexivity; reflexivity).
  assert (Q : is_quote c = false) by (unfold is_quote; rewrite !N by reflexivity; reflexivity).
  destruct st; try discriminate S; unfold lex_step; rewrite ?T, ?Q, ?(N "#"%char), ?(N quote_str) by reflexivity;
    repeat match goal with |- context [if ?b then _ else _] => destruct b end; eauto.
Qed.
Lemma name_lexed s : name_bytes s = true -> forall st, match st with Byte | Hashes _ | Word => true | _ => false end = true -> lexed st s = true.
Proof.
  induction s as [|c s IH]; intros H st S; [destruct st; auto|]. cbn [name_bytes lexed] in *. apply andb_prop in H. destruct H as [H1 H2].
  destruct (name_outside st c H1) as (st' & -> & S'); [destruct st; auto|]. apply IH; auto.
Qed.
Lemma first_byte c : name_byte true c = true -> name_byte false c = true.
Proof. unfold name_byte. cbn [negb andb]. rewrite orb_false_r. intros ->. reflexivity. Qed.
Lemma name_lexeme s : name_text s = true -> lexeme s = true.
Proof.
  assert (B : forall s st, bare_name s = true -> match st with Start | Byte | Hashes _ | Word => true | _ => false end = true -> lexed st s = true).
  { intros [|c r] st H S; [discriminate|]. cbn [bare_name lexed] in *. apply andb_prop in H. destruct H as [H1 H2]. apply first_byte in H1.
    destruct (name_outside st c H1 S) as (st' & -> & S'). apply name_lexed; auto. }
  unfold name_text, lexeme. intro H. apply orb_prop in H. destruct H as [H|H]; [apply B; auto|].
  destruct s as [|[[] [] [] [] [] [] [] []] [|[[] [] [] [] [] [] [] []] r]]; try discriminate. apply (B r (Hashes 1)); auto.
Qed.
Lemma escape_lexed q c r : is_quote q = true -> lexed (Text q) (escape_char q c ++ r) = lexed (Text q) r.
Proof.
  intro Q. assert (B : Ascii.eqb backslash backslash = true) by reflexivity. unfold escape_char.
  destruct (Ascii.eqb_spec c q) as [->|Hq]; [cbn [orb append lexed lex_step]; rewrite B; reflexivity|]. cbn [orb].
  destruct (Ascii.eqb_spec c backslash) as [->|Hb]; [cbn [append lexed lex_step]; rewrite B; reflexivity|].
  destruct (Ascii.eqb c newline); [reflexivity|]. destruct (Ascii.eqb c _); [reflexivity|]. destruct (Ascii.eqb c _); [reflexivity|].
  cbn [append lexed lex_step]. destruct (Ascii.eqb_spec c backslash); [contradiction|]. destruct (Ascii.eqb_spec c q); [contradiction|]. reflexivity.
Qed.
Lemma string_lexeme s : lexeme (String quote_str (escape s ++ String quote_str "")) = true.
Proof.
  unfold lexeme. cbn [lexed]. change (lex_step Start quote_str) with (Some (Text quote_str)). cbn iota.
  induction s as [|c s IH]; [reflexivity|]. cbn [escape]. rewrite sapp_assoc, escape_lexed; auto.
Qed.
Lemma char_lexeme c : lexeme (String quote_char (escape_char quote_char c ++ String quote_char "")) = true.
Proof. unfold lexeme. cbn [lexed]. change (lex_step Start quote_char) with (Some (Text quote_char)). cbn iota. rewrite escape_lexed; reflexivity. Qed.
Lemma struct_legible c n fs : lexeme n = true -> nonnil fs = true ->
  Forall (fun f => lexeme (fst f ++ ":")%string = true /\ legible (span_label (fst f)) (snd f) = true) fs -> legible c (DStruct n fs) = true.
Proof.
  intros H1 H2 F. cbn [legible]. rewrite H1, H2. cbn [andb]. apply forallb_forall. intros x Hx. rewrite Forall_forall in F. destruct (F x Hx) as [-> ->]. reflexivity.
Qed.
Lemma one_legible c n d : lexeme n = true -> String.eqb n "Group" = false -> legible (c && String.eqb n "Some") d = true -> legible c (DTuple n [d]) = true.
Proof. intros H1 H2 H. cbn [legible forallb nonnil]. rewrite H1, H2, H. reflexivity. Qed.
Lemma list_legible {A} (d : A -> dbg) l : (forall x, In x l -> legible false (d x) = true) -> legible false (DList (map d l)) = true.
Proof. intro H. cbn [legible negb andb]. rewrite forallb_map. apply forallb_forall. exact H. Qed.
Lemma opt_legible {A} (d : A -> dbg) o c : (forall x, o = Some x -> legible c (d x) = true) -> legible c (debug_opt d o) = true.
Proof. intro H. destruct o as [x|]; cbn [debug_opt]; [|reflexivity]. apply one_legible; try reflexivity. change (String.eqb "Some" "Some") with true. rewrite andb_true_r. auto. Qed.
Lemma text_legible c s : lexeme s = true -> legible c (DText s) = true.
Proof. intro H. cbn [legible]. rewrite H. reflexivity. Qed.
Ltac fields := apply struct_legible; [reflexivity|reflexivity|];
  repeat (apply Forall_cons; [split; [reflexivity|]; cbn [fst snd];
    match goal with |- legible (span_label ?s) _ = _ => let v := eval vm_compute in (span_label s) in change (span_label s) with v end|]);
  [..|apply Forall_nil].
Lemma ident_legible c i : name_text (id_str i) = true -> legible c (debug_ident i) = true.
Proof. intro H. apply one_legible; try reflexivity. apply text_legible, name_lexeme, H. Qed.
Lemma string_legible c s : legible c (debug_string s) = true.
Proof. apply text_legible, string_lexeme. Qed.
Lemma punct_legible c p : legible c (debug_punct p) = true.
Proof. fields; apply text_legible; [apply char_lexeme|destruct (p_spacing p); reflexivity]. Qed.
Lemma literal_legible c l : lexeme (l_repr l) = true -> legible c (debug_literal l) = true.
Proof. intro H. fields. apply text_legible, H. Qed.
Lemma span_legible g : legible true (debug_group_span g) = true.
Proof. destruct g as [[] ?]; reflexivity. Qed.
Lemma lit_lexeme l : spelled_tok (TLit l) = true -> lexeme (l_repr l) = true.
Proof. cbn [spelled_tok legal_tok]. intro H. do 3 (apply andb_prop in H; destruct H as [H _]). exact H. Qed.
Lemma ident_name i : spelled_tok (TIdent i) = true -> name_text (id_str i) = true.
Proof. cbn [spelled_tok legal_tok]. rewrite andb_true_r. auto. Qed.
Lemma tok_legible : forall t c, spelled_tok t = true -> legible c (debug_tok t) = true.
Proof.
  fix IH 1. intros [[d s z]|i|p|l] c H.
  - cbn [debug_tok]. cbn [spelled_tok legal_tok andb] in H. fields; [apply text_legible; destruct d; reflexivity|].
    cbn [legible]. rewrite String.eqb_refl. cbn [andb]. clear c. induction s as [|x s IHs]; [reflexivity|]. apply sp_cons in H. destruct H as (H1 & _ & H3).
    cbn [map forallb]. rewrite (IH x false H1). apply IHs, H3.
  - cbn [debug_tok]. fields. apply text_legible, name_lexeme, ident_name, H.
  - apply punct_legible.
  - apply literal_legible, lit_lexeme, H.
Qed.
Lemma ref_legible t c : spelled_tok t = true -> legible c (debug_ref t) = true.
Proof.
  destruct t as [g|i|p|l]; intro H; cbn [debug_ref].
  - apply tok_legible, H.
  - apply text_legible, name_lexeme, ident_name, H.
  - apply text_legible. cbn [spelled_tok legal_tok show_tok append] in *. rewrite andb_true_r in H. apply andb_prop in H. destruct H as [H1 H2]. apply negb_true_iff in H1, H2.
    unfold lexeme. cbn [lexed]. change (lex_step Start quote_str) with (Some (Text quote_str)). cbn [lexed lex_step]. rewrite H1, H2. reflexivity.
  - apply text_legible, lit_lexeme, H.
Qed.
Lemma tokens_legible l : sp l = true -> legible false (debug_tokens l) = true.
Proof. intro H. apply list_legible. intros x Hx. apply ref_legible, (sp_in l); auto. Qed.

(** ** Parts of items.  [spells] splits what is known of the printed tokens. *)
Ltac spells := repeat match goal with
  | H : sp (_ ++ _) = true |- _ => apply sp_app in H; destruct H
  | H : sp (quote_with _ _) = true |- _ => unfold quote_with in H
  | H : spelled_tok (TGroup _) = true |- _ => cbn [spelled_tok legal_tok andb] in H
  | H : sp (_ :: _) = true |- _ => apply sp_cons in H; destruct H as (? & ? & ?)
  | H : sp [] = true |- _ => clear H
  end.
Lemma flat_spells {A} (pr : A -> list tok) l x : sp (flat_map pr l) = true -> In x l -> sp (pr x) = true.
Proof.
  induction l as [|y l IH]; [contradiction|]. cbn [flat_map]. intros H [->|Hi]; apply sp_app in H; destruct H; auto.
Qed.
Lemma pu_spells {A} (pr : A -> list tok) p x : sp (print_punctuated pr p) = true -> In x (pu_inner p) -> sp (pr (fst x)) = true.
Proof.
  destruct p as [l sk]. unfold print_punctuated. cbn. revert x. induction l as [|[y c] [|[z d] l] IH]; intros x H Hi; [contradiction| |].
  - destruct Hi as [<-|[]]. cbn [print_inner] in H. apply sp_app in H. apply H.
  - change (print_inner pr sk ((y, c) :: (z, d) :: l)) with (pr y ++ TPunct c :: print_inner pr sk ((z, d) :: l)) in H.
    apply sp_app in H. destruct H as [H1 H2]. destruct Hi as [<-|Hi]; [exact H1|]. apply sp_cons in H2. apply (IH x); auto. apply H2.
Qed.
Lemma pu_legible {A} (wf : bool -> A -> bool) (pr : A -> list tok) (d : A -> dbg) p :
  (forall x b, wf b x = true -> sp (pr x) = true -> legible false (d x) = true) ->
  wf_punctuated wf p = true -> sp (print_punctuated pr p) = true -> legible false (debug_punctuated d p) = true.
Proof.
  intros Hd W S. unfold debug_punctuated. apply list_legible. intros x Hx. destruct (pu_wf_in _ _ _ W Hx) as [b Wb]. apply (Hd _ b); auto. eapply pu_spells; eauto.
Qed.
Lemma oident_legible c o : sp (print_opt print_ident o) = true -> legible c (debug_opt debug_ident o) = true.
Proof. intro H. apply opt_legible. intros x ->. cbn [print_opt] in H. unfold print_ident in H. spells. apply ident_legible, ident_name. auto. Qed.
Lemma opunct_legible c o : legible c (debug_opt debug_punct o) = true.
Proof. apply opt_legible. intros. apply punct_legible. Qed.
Lemma olit_legible c o : sp (print_opt print_lit o) = true -> legible c (debug_opt debug_literal o) = true.
Proof. intro H. apply opt_legible. intros x ->. cbn [print_opt] in H. unfold print_lit in H. spells. apply literal_legible, lit_lexeme. auto. Qed.
Lemma ogroup_legible c o : sp (print_opt print_group o) = true -> legible c (debug_opt debug_group o) = true.
Proof. intro H. apply opt_legible. intros x ->. cbn [print_opt] in H. unfold print_group in H. apply sp_cons in H. apply tok_legible, H. Qed.
Lemma type_legible t : sp (print_type t) = true -> legible false (debug_type t) = true.
Proof. apply tokens_legible. Qed.
Lemma otype_legible o : sp (print_opt print_type o) = true -> legible false (debug_opt debug_type o) = true.
Proof. intro H. apply opt_legible. intros x ->. apply type_legible, H. Qed.
Lemma ovalue_legible o : sp (print_opt print_value o) = true -> legible false (debug_opt debug_value o) = true.
Proof. intro H. apply opt_legible. intros x ->. apply tokens_legible, H. Qed.
Lemma obound_legible o : sp (print_opt print_bound o) = true -> legible false (debug_opt debug_bound o) = true.
Proof. intro H. apply opt_legible. intros x ->. cbn [print_opt] in H. unfold print_bound in H. spells. apply tokens_legible. auto. Qed.
Lemma attr_legible a : sp (print_attribute a) = true -> legible false (debug_attribute a) = true.
Proof.
  destruct a as [h b g p v]. unfold print_attribute, debug_attribute. cbn [at_hash at_bang at_brackets at_path at_value]. intro H. spells.
  assert (V : legible false (debug_attribute_value v) = true).
  { destruct v; cbn [debug_attribute_value print_attribute_value] in *; spells; [..|reflexivity].
    - change (legible false (debug_tokens value) && legible true (debug_group_span gs) = true). rewrite tokens_legible, span_legible; auto.
    - change (forallb (legible false) [debug_tokens value; debug_punct tk_equals] = true). cbn [forallb]. rewrite tokens_legible, punct_legible; auto. }
  destruct b; cbn [app]; fields; auto using punct_legible, span_legible, tokens_legible.
Qed.
Lemma attrs_legible l : sp (print_attributes l) = true -> legible false (debug_vec debug_attribute l) = true.
Proof. intro H. apply list_legible. intros x Hx. apply attr_legible. eapply flat_spells; eauto. Qed.
Lemma vis_legible v : wf_vis v = true -> sp (print_vis v) = true -> legible false (debug_vis v) = true.
Proof.
  destruct v as [[| i | |] [[g| | |]|]]; try discriminate; unfold debug_vis, print_vis; cbn [vis_token1 vis_token2 print_opt print_tok show_tok]; intros W H.
  - destruct g as [d s z]. cbn [wf_vis g_delim] in W. apply andb_prop in W. destruct W as [W1 W2]. destruct d; try discriminate W2. unfold id_is in W1. unfold print_tok in H.
    apply sp_cons in H. destruct H as (_ & H1 & H2). unfold empty_pub, is_ident, id_is in H1. rewrite W1 in H1. apply String.eqb_eq in W1. rewrite W1.
    apply sp_cons in H2. destruct H2 as [H2 _]. cbn [spelled_tok legal_tok andb] in H2. cbn [g_stream]. destruct s as [|t s]; [discriminate|].
    cbn [legible]. change (lexeme "pub") with true. change (String.eqb "pub" "Group") with false. cbn [andb nonnil map]. apply forallb_forall.
    intros x Hx. change (In x (map debug_ref (t :: s))) in Hx. apply in_map_iff in Hx. destruct Hx as (y & <- & Hy). apply ref_legible. eapply sp_in; eauto.
  - apply sp_cons in H. apply text_legible, name_lexeme, ident_name, H.
Qed.
Lemma ovis_legible v : wf_opt wf_vis v = true -> sp (print_opt print_vis v) = true -> legible false (debug_opt debug_vis v) = true.
Proof. intros W H. apply opt_legible. intros x ->. apply vis_legible; auto. Qed.
Lemma gparam_legible p : sp (print_generic_param p) = true -> legible false (debug_generic_param p) = true.
Proof.
  destruct p as [x n b]. unfold print_generic_param, debug_generic_param. cbn [gp_prefix gp_name gp_bound]. intro H. spells.
  destruct x; cbn [app]; fields; auto using string_legible, obound_legible.
Qed.
Lemma ogenerics_legible o : wf_opt wf_generics o = true -> sp (print_opt print_generic_params o) = true -> legible false (debug_opt debug_generic_params o) = true.
Proof.
  intros W H. apply opt_legible. intros [l p r] ->. cbn [wf_opt print_opt] in *. unfold wf_generics, print_generic_params, debug_generic_params in *. cbn [gpl_l gpl_params gpl_r] in *.
  wfs. spells. eapply (pu_legible wf_generic_param print_generic_param); eauto using gparam_legible.
Qed.
Lemma owhere_legible o : wf_opt wf_where o = true -> sp (print_opt print_where o) = true -> legible false (debug_opt debug_where o) = true.
Proof.
  intros W H. apply opt_legible. intros [k p] ->. cbn [wf_opt print_opt] in *. unfold wf_where, print_where, debug_where in *. cbn [wc_where wc_items] in *.
  wfs. spells. eapply (pu_legible wf_where_predicate print_where_predicate); eauto. intros. apply tokens_legible. auto.
Qed.
Ltac legible_leaves := auto using attrs_legible, ovis_legible, ogenerics_legible, owhere_legible, oident_legible, opunct_legible, olit_legible, ogroup_legible,
  type_legible, otype_legible, ovalue_legible, obound_legible, ident_legible, ident_name, punct_legible, span_legible.
Ltac legible_part := intros; wfs; spells; fields; legible_leaves.
Lemma tfield_legible f b : wf_tuple_field b f = true -> sp (print_tuple_field f) = true -> legible false (debug_tuple_field f) = true.
Proof. unfold wf_tuple_field, print_tuple_field, debug_tuple_field, wf_outer. legible_part. Qed.
Lemma nfield_legible f b : wf_named_field b f = true -> sp (print_named_field f) = true -> legible false (debug_named_field f) = true.
Proof. unfold wf_named_field, print_named_field, debug_named_field, wf_outer. legible_part. Qed.
Lemma nfields_legible f : wf_named_fields f = true -> sp (print_named_fields f) = true -> legible false (debug_named_fields f) = true.
Proof. unfold wf_named_fields, print_named_fields, debug_named_fields. intros. wfs. spells. eapply (pu_legible wf_named_field); eauto using nfield_legible. Qed.
Lemma tfields_legible f : wf_tuple_fields f = true -> sp (print_tuple_fields f) = true -> legible false (debug_tuple_fields f) = true.
Proof. unfold wf_tuple_fields, print_tuple_fields, debug_tuple_fields. intros. wfs. spells. eapply (pu_legible wf_tuple_field); eauto using tfield_legible. Qed.
Lemma fields_legible f : wf_fields f = true -> sp (print_fields f) = true -> legible false (debug_fields f) = true.
Proof. destruct f; cbn [wf_fields print_fields debug_fields]; intros; [reflexivity|..]; apply one_legible; try reflexivity; auto using tfields_legible, nfields_legible. Qed.
Lemma variant_legible v b : wf_variant b v = true -> sp (print_variant v) = true -> legible false (debug_variant v) = true.
Proof.
  destruct v as [a vi n f vv]. unfold wf_variant, print_variant, debug_variant. cbn [ev_attributes ev_vis ev_name ev_fields ev_value]. legible_part; [apply fields_legible; auto|].
  apply opt_legible. intros [e x] ->. cbn [print_opt] in *. unfold print_variant_value, debug_variant_value in *. cbn [vv_equal vv_value] in *. unfold print_tok in *. spells. fields; auto using punct_legible, tok_legible.
Qed.
Lemma lifetime_legible c l : sp (print_lifetime l) = true -> legible c (debug_lifetime l) = true.
Proof. unfold print_lifetime, debug_lifetime. legible_part. Qed.
Lemma olifetime_legible c o : sp (print_opt print_lifetime o) = true -> legible c (debug_opt debug_lifetime o) = true.
Proof. intro H. apply opt_legible. intros x ->. apply lifetime_legible, H. Qed.
Lemma param_legible p b : wf_fn_param b p = true -> sp (print_fn_param p) = true -> legible false (debug_param p) = true.
Proof.
  destruct p as [r|t]; unfold wf_fn_param, print_fn_param, print_receiver, print_typed, debug_param; intros; wfs; spells; (apply one_legible; [reflexivity|reflexivity|]); fields; legible_leaves. apply olifetime_legible; auto.
Qed.
Lemma quals_legible q : sp (print_qualifiers q) = true -> legible false (debug_qualifiers q) = true.
Proof. unfold print_qualifiers, debug_qualifiers. legible_part. Qed.
Lemma arrow_legible o : legible false (debug_opt debug_punct2 o) = true.
Proof. apply opt_legible. intros x _. unfold debug_punct2. cbn [legible forallb negb andb]. rewrite !punct_legible. reflexivity. Qed.
Lemma function_legible f : wf_function f = true -> sp (print_function f) = true -> legible false (debug_function f) = true.
Proof.
  unfold wf_function, print_function, debug_function, wf_outer. legible_part; auto using quals_legible, arrow_legible.
  eapply (pu_legible wf_fn_param); eauto using param_legible.
Qed.
Lemma constant_legible c : shape_constant c = true -> sp (print_constant c) = true -> legible false (debug_constant c) = true.
Proof. unfold shape_constant, print_constant, debug_constant, wf_outer. legible_part. Qed.
Lemma alias_legible c : wf_type_alias c = true -> sp (print_type_alias c) = true -> legible false (debug_type_alias c) = true.
Proof. unfold wf_type_alias, print_type_alias, debug_type_alias, wf_outer. legible_part. Qed.
Lemma macro_legible k m : shape_macro k m = true -> sp (print_macro m) = true -> legible false (debug_macro m) = true.
Proof. unfold shape_macro, print_macro, debug_macro, wf_outer. legible_part. apply list_legible. intros x Hx. apply tok_legible. apply (sp_in (ma_inner m)); auto. Qed.
Lemma imember_legible k m : shape_impl_member k m = true -> sp (print_impl_member m) = true -> legible false (debug_impl_member m) = true.
Proof.
  destruct m; unfold shape_impl_member, print_impl_member, debug_impl_member; intros; wfs; (apply one_legible; [reflexivity|reflexivity|]);
    eauto using function_legible, constant_legible, alias_legible, macro_legible.
Qed.
Lemma tmember_legible m : shape_trait_member m = true -> sp (print_trait_member m) = true -> legible false (debug_trait_member m) = true.
Proof. rewrite <- print_of_trait_member. unfold shape_trait_member. intros. replace (debug_trait_member m) with (debug_impl_member (impl_of_trait_member m)) by (destruct m; reflexivity). eapply imember_legible; eauto. Qed.
Lemma imembers_legible k l : forallb (shape_impl_member k) l = true -> sp (flat_map print_impl_member l) = true -> legible false (debug_vec debug_impl_member l) = true.
Proof. intros W H. rewrite forallb_forall in W. apply list_legible. intros x Hx. eapply imember_legible; [eauto|eapply flat_spells; eauto]. Qed.
Lemma tmembers_legible l : forallb shape_trait_member l = true -> sp (flat_map print_trait_member l) = true -> legible false (debug_vec debug_trait_member l) = true.
Proof. intros W H. rewrite forallb_forall in W. apply list_legible. intros x Hx. apply tmember_legible; [auto|eapply flat_spells; eauto]. Qed.
Lemma struct_legible' s : shape_struct s = true -> sp (print_struct s) = true -> legible false (debug_struct s) = true.
Proof.
  unfold shape_struct, print_struct, debug_struct, wf_outer. intros W H. wfs. spells.
  assert (X : sp (print_opt print_where (st_where s)) = true /\ sp (print_fields (st_fields s)) = true) by (destruct (st_fields s); spells; auto).
  destruct X. fields; legible_leaves. apply fields_legible; auto.
Qed.
Lemma enum_legible e : wf_enum e = true -> sp (print_enum e) = true -> legible false (debug_enum e) = true.
Proof. unfold wf_enum, print_enum, debug_enum, wf_outer. legible_part. eapply (pu_legible wf_variant); eauto using variant_legible. Qed.
Lemma union_legible e : wf_union e = true -> sp (print_union e) = true -> legible false (debug_union e) = true.
Proof. unfold wf_union, print_union, debug_union, wf_outer. legible_part. apply nfields_legible; auto. Qed.
Lemma trait_legible t : shape_trait t = true -> sp (print_trait t) = true -> legible false (debug_trait t) = true.
Proof. unfold shape_trait, print_trait, debug_trait, wf_outer. legible_part. apply tmembers_legible; auto. Qed.
Lemma impl_legible t : shape_impl t = true -> sp (print_impl t) = true -> legible false (debug_impl t) = true.
Proof. unfold shape_impl, print_impl, debug_impl, wf_outer. legible_part. eapply imembers_legible; eauto. Qed.
Lemma eblock_legible t : shape_extern_block t = true -> sp (print_extern_block t) = true -> legible false (debug_extern_block t) = true.
Proof. unfold shape_extern_block, print_extern_block, debug_extern_block, wf_outer. legible_part. eapply imembers_legible; eauto. Qed.
Lemma use_legible t : wf_use t = true -> sp (print_use t) = true -> legible false (debug_use t) = true.
Proof. unfold wf_use, print_use, debug_use, wf_outer. legible_part. Qed.
Lemma ecrate_legible t : wf_extern_crate t = true -> sp (print_extern_crate t) = true -> legible false (debug_extern_crate t) = true.
Proof. unfold wf_extern_crate, print_extern_crate, debug_extern_crate, wf_outer. legible_part. Qed.
Lemma item_legible : forall i, shape_item i = true -> sp (print_item i) = true -> legible false (debug_item i) = true.
Proof.
  intro i. induction i as [m IH|i No] using item_nested_ind; intros W H.
  - destruct m as [a v u k n s b ia ms]. cbn [mo_members] in IH. cbn [debug_item]. apply one_legible; try reflexivity. change (false && String.eqb "Module" "Some")%bool with false.
    cbn [shape_item print_item] in *. unfold shape_module, print_module, wf_outer in *.
    cbn [mo_attributes mo_vis mo_unsafe mo_mod mo_name mo_semicolon mo_braces mo_inner_attributes mo_members] in *. wfs. spells.
    assert (X : sp (print_attributes ia) = true /\ legible false (DList (map debug_item ms)) = true).
    { destruct s as [s|]; [destruct b as [b|]; try discriminate; wfs; destruct ia; try discriminate; destruct ms; try discriminate; auto|].
      destruct b as [b|]; try discriminate. wfs. spells. split; auto. apply list_legible. intros x Hx. rewrite Forall_forall in IH. apply (IH x Hx); [|eapply flat_spells; eauto].
      match goal with H : forallb shape_item ms = true |- _ => rewrite forallb_forall in H; auto end. }
    destruct X as [X1 X2]. fields; legible_leaves. apply opt_legible. intros. apply span_legible.
  - destruct i; try (exfalso; eapply No; reflexivity); cbn [debug_item shape_item print_item] in *; (apply one_legible; [reflexivity|reflexivity|]);
      cbn [andb]; eauto using struct_legible', enum_legible, union_legible, trait_legible, impl_legible, eblock_legible, use_legible, ecrate_legible, alias_legible, function_legible, constant_legible, macro_legible.
Qed.

(** ** From the source tokens to the item *)
Definition empty_head (ts : list tok) : bool := match ts with TGroup (mkGroup Parenthesis [] _) :: _ => true | _ => false end.
Lemma lossy_empty a b : lossy a b -> b = [] -> a = [].
Proof.
  induction 1; intro E; try discriminate; auto.
  - rewrite (IHlossy E) in *. contradiction.
  - rewrite (IHlossy E) in *. contradiction.
Qed.
Lemma lossy_head a b : lossy a b -> empty_head b = true -> empty_head a = true.
Proof.
  induction 1; intro E; auto.
  - cbn in *. destruct d; try discriminate. destruct s'; try discriminate. rewrite (lossy_empty _ _ H eq_refl). reflexivity.
  - apply IHlossy in E. destruct a as [|[]]; try contradiction. discriminate.
  - apply IHlossy in E. destruct a as [|[]]; try contradiction. discriminate.
  - cbn in *. destruct d; try discriminate. destruct s'; try discriminate. rewrite (lossy_empty _ _ H1 eq_refl). reflexivity.
Qed.
Lemma sp_keep t a b : (empty_head b = true -> empty_head a = true) -> sp b = true -> sp (t :: a) = true -> sp (t :: b) = true.
Proof.
  intros E S H. apply sp_cons in H. destruct H as (H1 & H2 & _). cbn [spelled_list]. rewrite H1, S, andb_true_r. cbn [andb]. apply negb_true_iff.
  unfold empty_pub in *. fold (empty_head a) in H2. fold (empty_head b). destruct (is_ident "pub" t); auto. cbn [andb] in *. destruct (empty_head b); auto. rewrite E in H2; auto.
Qed.
Lemma sp_group d s z : sp s = true -> spelled_tok (TGroup (mkGroup d s z)) = true.
Proof. intro H. cbn [spelled_tok legal_tok andb]. exact H. Qed.
Lemma sp_group_cons d s z a : sp s = true -> sp a = true -> sp (TGroup (mkGroup d s z) :: a) = true.
Proof. intros H1 H2. cbn [spelled_list]. rewrite sp_group, H2; auto. Qed.
Lemma sp_punct_cons p a : spelled_tok (TPunct p) = true -> sp a = true -> sp (TPunct p :: a) = true.
Proof. intros H1 H2. cbn [spelled_list]. rewrite H1, H2. reflexivity. Qed.
Lemma lossy_spells a b : lossy a b -> sp a = true -> sp b = true.
Proof.
  induction 1; intro S; auto.
  - assert (S' := S). apply sp_cons in S'. apply (sp_keep t a b); [apply lossy_head; auto|apply IHlossy, S'|exact S].
  - spells. apply sp_group_cons; auto.
  - spells. auto.
  - spells. apply sp_group_cons; auto.
  - apply sp_cons in S. destruct S as (S1 & _ & S). apply sp_app in S. destruct S as [S2 S3]. apply sp_cons in S3. destruct S3 as (S3 & _ & S4).
    apply sp_punct_cons; auto. cbn [spelled_tok legal_tok andb] in S3.
    replace (path ++ TGroup g :: extra) with ((path ++ [TGroup g]) ++ extra) in S3 by (rewrite <- app_assoc; reflexivity). apply sp_app in S3. destruct S3 as [S3 _].
    assert (S5 := sp_group_cons Bracket (path ++ [TGroup g]) sp b S3 (IHlossy S4)).
    destruct bang as [|t [|]]; [exact S5| |cbn in H1; lia]. cbn [app]. cbn [forallb] in H0. apply andb_prop in H0. destruct H0 as [H0 _]. destruct t as [| |q|]; try discriminate.
    apply sp_cons in S2. apply sp_punct_cons; auto. apply S2.
  - spells. auto.
  - spells. cbn [spelled_list]. rewrite IHlossy by auto. change (spelled_tok the_default_comma) with true. unfold empty_pub. rewrite andb_false_r.
    match goal with X : spelled_tok _ = true |- _ => rewrite X end. reflexivity.
  - spells. apply sp_group_cons; auto.
  - apply sp_cons in S. destruct S as (S1 & _ & S2). apply sp_cons in S2. destruct S2 as (S2 & _ & S3). cbn [spelled_list]. rewrite S1, S2, (IHlossy S3).
    unfold empty_pub. cbn [is_ident]. unfold id_is in *. apply String.eqb_eq in H0. rewrite H0, andb_false_r. reflexivity.
Qed.
Lemma parsed_spells ts rest i : consume_item ts = Ret (Ok i, rest) -> sp ts = true -> sp (print_item i) = true.
Proof. intros H S. destruct (C04_reprint_lossy _ _ _ H) as (src & -> & L). apply sp_app in S. eapply lossy_spells; [exact L|]. apply S. Qed.

(** ** C102 *)
(** If the tokens of two parsed items are legal and the items are printed alike by [{:?}] or by
    [{:#?}], then they are the same up to spans, spacing and trailing commas. *)
Theorem C102_text (a b r1 r2 : list tok) (i j : item) :
  consume_item a = Ret (Ok i, r1) -> consume_item b = Ret (Ok j, r2) -> sp a = true -> sp b = true ->
  plain (debug_item i) = plain (debug_item j) \/ pretty (debug_item i) = pretty (debug_item j) ->
  bare i = bare j /\ debug_item i = debug_item j.
Proof.
  intros Hi Hj Sa Sb H. pose proof (parsed_spells _ _ _ Hi Sa) as Si. pose proof (parsed_spells _ _ _ Hj Sb) as Sj.
  pose proof (item_legible i (C02_parsed_shape _ _ _ Hi) Si) as Li. pose proof (item_legible j (C02_parsed_shape _ _ _ Hj) Sj) as Lj.
  assert (E : debug_item i = debug_item j).
  { apply (tight _ _ false); auto. destruct (C59_parsed _ _ _ Hi) as [[s Hs] [t Ht]].
    destruct H as [H|H]; [apply (same_plain _ _ t)|apply (same_pretty _ _ s)]; eauto using legible_readable; congruence. }
  split; auto. eapply C84_determines; eauto using sp_plain.
Qed.
(** The same for lists of items. *)
Lemma readable_ok : forall d, readable d = true -> dbg_ok d = true.
Proof.
  induction d as [s0|n fs IH|n fs IH|l IH|s0 d IH|] using dbg_rect'; cbn [readable dbg_ok]; intro H; auto.
  - apply andb_prop in H. destruct H as [_ H]. rewrite forallb_forall in *. intros x Hx. specialize (H x Hx). apply andb_prop in H. destruct H. auto.
  - apply andb_prop in H. destruct H as [_ H]. rewrite forallb_forall in *. auto.
  - rewrite forallb_forall in *. auto.
  - apply andb_prop in H. destruct H as [_ H]. destruct d; try discriminate. apply IH, H.
Qed.
Theorem C102_items (l m : list item) :
  (forall i, In i (l ++ m) -> exists ts rest, consume_item ts = Ret (Ok i, rest) /\ sp ts = true) ->
  plain (debug_vec debug_item l) = plain (debug_vec debug_item m) \/ pretty (debug_vec debug_item l) = pretty (debug_vec debug_item m) ->
  map bare l = map bare m.
Proof.
  intros P H.
  assert (G : forall i, In i (l ++ m) -> legible false (debug_item i) = true).
  { intros i Hi. destruct (P i Hi) as (ts & rest & Hc & S). apply item_legible; [eapply C02_parsed_shape; eauto|eapply parsed_spells; eauto]. }
  assert (Ll : legible false (debug_vec debug_item l) = true) by (apply list_legible; intros x Hx; apply G, in_or_app; auto).
  assert (Lm : legible false (debug_vec debug_item m) = true) by (apply list_legible; intros x Hx; apply G, in_or_app; auto).
  assert (E : debug_vec debug_item l = debug_vec debug_item m).
  { apply (tight _ _ false); auto. apply legible_readable in Ll, Lm. destruct (dbg_ok_spec (debug_vec debug_item l)) as [H1 H2]. unfold formats in *.
    rewrite (readable_ok _ Ll) in *. destruct H1 as [s Hs], H2 as [t Ht].
    destruct H as [H|H]; [apply (same_plain _ _ t)|apply (same_pretty _ _ s)]; auto; congruence. }
  revert E. apply vec_shown. intros x y Hx Hy E.
  destruct (P x) as (ts & rest & Hc & S); [apply in_or_app; auto|]. destruct (P y) as (ts' & rest' & Hc' & S'); [apply in_or_app; auto|].
  eapply C84_determines; eauto using sp_plain, parsed_spells.
Qed.
(** Two spellings printed alike; and strings of two lines, where the pretty form indents the
    second line. *)
Definition two_lines (indent : string) : list tok :=
  lex ("#[doc = " ++ String dquote ("a" ++ nl ++ indent ++ "b" ++ String dquote "] pub(crate) struct S(u8);"))%string.
Example C102_example :
  let a := lex "mod m { #![x(y = '-')] pub(crate) struct S<'a, const N: u8>(A<B, C>, D) where T: Y; impl<T> A for B { fn f(&self, x: u8,) -> u8 where A: B, {} } }" in
  let b := lex "mod m { #![x(y  =  '-')] pub(crate) struct S<'a, const N: u8,>(A<B, C>, D,) where T: Y; impl<T> A for B { fn f(&self, x: u8) -> u8 where A: B {} } }" in
  sp a = true /\ sp b = true /\ a <> b
  /\ (exists i j, consume_item a = Ret (Ok i, []) /\ consume_item b = Ret (Ok j, []) /\ i <> j
        /\ plain (debug_item i) = plain (debug_item j) /\ pretty (debug_item i) = pretty (debug_item j) /\ bare i = bare j)
  /\ sp (two_lines "") = true /\ sp (two_lines "    ") = true
  /\ (exists i j, consume_item (two_lines "") = Ret (Ok i, []) /\ consume_item (two_lines "    ") = Ret (Ok j, [])
        /\ pretty (debug_item i) <> pretty (debug_item j) /\ bare i <> bare j).
Proof.
  cbv zeta. split; [vm_compute; reflexivity|]. split; [vm_compute; reflexivity|]. split; [vm_compute; discriminate|]. split.
  - do 2 eexists. split; [vm_compute; reflexivity|]. split; [vm_compute; reflexivity|]. split; [discriminate|]. repeat split; vm_compute; reflexivity.
  - split; [vm_compute; reflexivity|]. split; [vm_compute; reflexivity|].
    do 2 eexists. split; [vm_compute; reflexivity|]. split; [vm_compute; reflexivity|]. split; vm_compute; discriminate.
Qed.
(** That the conditions on the tokens are needed is shown by [C84_text_refuted] and
    [C84_literal_refuted] in PropShown. *)

(** C84: what Debug shows of an item. *)
From Verif Require Import Debug Blind PropBlind PrintSpells Complete3 Sound2 Unfold Samples PropRoundTrip PropDebug PropCommas.
Local Open Scope string_scope.
Local Open Scope list_scope.

(** Spans and spacing forgotten, everything else kept. *)
Definition blank : subst := mkSubst (fun _ => call_site) id_str (fun _ => Alone) l_repr.
Notation bt := (s_tok blank).
Notation bts := (s_toks blank).

(** ** Tokens of Rust *)
(** Bytes of names: letters, digits, [_] and everything outside ASCII. *)
Definition name_byte (first : bool) (c : ascii) : bool :=
  let n := nat_of_ascii c in
  ((65 <=? n) && (n <=? 90) || (97 <=? n) && (n <=? 122) || (n =? 95) || (128 <=? n)
   || (negb first && (48 <=? n) && (n <=? 57)))%nat.
Fixpoint name_bytes (s : string) : bool :=
  match s with EmptyString => true | String c r => name_byte false c && name_bytes r end.
Definition bare_name (s : string) : bool :=
  match s with EmptyString => false | String c r => name_byte true c && name_bytes r end.
Definition name_text (s : string) : bool :=
  bare_name s || match s with String "r" (String "#" r) => bare_name r | _ => false end.
(** A literal of one character between double quotes. *)
Definition one_quoted (s : string) : bool :=
  match s with
  | String a (String _ (String b EmptyString)) => Ascii.eqb a quote_str && Ascii.eqb b quote_str
  | _ => false
  end.
(** Names are names; literals are not, nor are they a string of one character. *)
Definition plain_tok (t : tok) : bool :=
  match t with
  | TIdent i => name_text (id_str i)
  | TLit l => negb (name_text (l_repr l)) && negb (one_quoted (l_repr l))
  | _ => true
  end.
Fixpoint all_plain (t : tok) : bool :=
  plain_tok t && match t with TGroup (mkGroup _ s _) => forallb all_plain s | _ => true end.
Notation ap := (forallb all_plain).

(** ** Leaves *)
Lemma escape_inj a b : escape a = escape b -> a = b.
Proof.
  intro H. pose proof (read_escape a "") as E. rewrite H, read_escape in E. congruence.
Qed.
Lemma append_quote_inj (a b c d : string) : (a ++ c = b ++ d)%string -> String.length c = String.length d -> a = b.
Proof.
  revert b. induction a as [|x a IH]; intros [|y b] H L; cbn in H; auto.
  - subst c. cbn in L. assert (X : forall s t, String.length (s ++ t)%string = (String.length s + String.length t)%nat) by (induction s; cbn; auto).
    rewrite X in L. lia.
  - subst d. cbn in L. assert (X : forall s t, String.length (s ++ t)%string = (String.length s + String.length t)%nat) by (induction s; cbn; auto).
    rewrite X in L. lia.
  - injection H as -> H. f_equal. eapply IH; eauto.
Qed.
Lemma debug_string_inj a b : debug_string a = debug_string b -> a = b.
Proof. unfold debug_string. intro H. injection H as H. apply append_quote_inj in H; [|reflexivity]. apply escape_inj, H. Qed.
Lemma escape_char_inj c d : escape_char quote_char c = escape_char quote_char d -> c = d.
Proof.
  unfold escape_char.
  repeat match goal with |- context [Ascii.eqb ?x ?y] => destruct (Ascii.eqb_spec x y) end; subst; cbn [orb]; intro H; try congruence;
    try (vm_compute in H; discriminate); injection H; intros; subst; try congruence; try (exfalso; auto; fail).
Qed.
Lemma debug_char_inj c d : debug_char c = debug_char d -> c = d.
Proof.
  unfold debug_char. intro H. injection H as H. apply append_quote_inj in H; [|reflexivity]. apply escape_char_inj, H.
Qed.
Lemma ident_shown i j : debug_ident i = debug_ident j -> s_ident blank i = s_ident blank j.
Proof. destruct i, j. unfold debug_ident. cbn. intro H. injection H as ->. reflexivity. Qed.
Lemma punct_shown i j : debug_punct i = debug_punct j -> s_punct blank i = s_punct blank j.
Proof.
  destruct i as [c1 s1 p1], j as [c2 s2 p2]. unfold debug_punct. cbn [p_char p_spacing]. intro H. injection H as H _.
  assert (E : c1 = c2) by (apply debug_char_inj; unfold debug_char; f_equal; cbn [append]; f_equal; exact H).
  subst. reflexivity.
Qed.
Lemma lit_shown i j : debug_literal i = debug_literal j -> s_lit blank i = s_lit blank j.
Proof. destruct i, j. unfold debug_literal. cbn. intro H. injection H as ->. reflexivity. Qed.
Lemma gs_shown i j : debug_group_span i = debug_group_span j -> s_gs blank i = s_gs blank j.
Proof. destruct i as [[] ?], j as [[] ?]; cbn; intro H; try discriminate; reflexivity. Qed.
Lemma map_shown {A C D} (d : A -> C) (g : A -> D) : forall l m, (forall x y, In x l -> In y m -> d x = d y -> g x = g y) -> map d l = map d m -> map g l = map g m.
Proof.
  induction l as [|x l IH]; intros [|y m] Hd H; try discriminate; [reflexivity|]. cbn in H. injection H as H1 H2. cbn. f_equal; [apply Hd; cbn; auto|].
  apply IH; [|exact H2]. intros. apply Hd; cbn; auto.
Qed.
Lemma vec_shown {A D} (d : A -> dbg) (g : A -> D) l m :
  (forall x y, In x l -> In y m -> d x = d y -> g x = g y) -> debug_vec d l = debug_vec d m -> map g l = map g m.
Proof. intros Hd H. unfold debug_vec in H. injection H as H. eapply map_shown; eauto. Qed.
Lemma opt_shown {A D} (d : A -> dbg) (g : A -> D) l m :
  (forall x y, l = Some x -> m = Some y -> d x = d y -> g x = g y) -> debug_opt d l = debug_opt d m -> option_map g l = option_map g m.
Proof. intros Hd H. destruct l, m; cbn in *; try discriminate; [|reflexivity]. injection H as H. f_equal. auto. Qed.
Lemma tok_shown : forall t u, debug_tok t = debug_tok u -> bt t = bt u.
Proof.
  fix IH 1. intros [[d s sp]|i|p|l] [[d' s' sp']|i'|p'|l']; try discriminate.
  - intro H. cbn [debug_tok] in H. injection H as H1 H2. assert (d = d') by (destruct d, d'; try discriminate; reflexivity). subst.
    cbn [s_tok]. do 2 f_equal. revert s' H2. induction s as [|x s IHs]; intros [|y s'] H2; try discriminate; [reflexivity|].
    cbn [map] in *. injection H2 as H3 H4. f_equal; [apply IH, H3|apply IHs, H4].
  - destruct i, i'. cbn. intro H. injection H as ->. reflexivity.
  - intro H. cbn [s_tok]. f_equal. apply punct_shown, H.
  - intro H. cbn [s_tok]. f_equal. apply lit_shown, H.
Qed.
Lemma group_shown g h : debug_group g = debug_group h -> s_group blank g = s_group blank h.
Proof. intro H. apply tok_shown in H. destruct g, h. cbn [s_tok] in H. injection H as -> H. unfold s_group, s_toks. cbn. f_equal. exact H. Qed.
(** In a token run a name, a punctuation character and a literal are only told apart by their texts. *)
Lemma name_not_quoted s c : name_text s = true -> s <> String quote_str (String c (String quote_str "")).
Proof. intros H ->. vm_compute in H. discriminate. Qed.
Lemma ref_shown t u : plain_tok t = true -> plain_tok u = true -> debug_ref t = debug_ref u -> bt t = bt u.
Proof.
  destruct t as [g|i|p|l], u as [g'|i'|p'|l']; intros P Q H;
    try (destruct g; discriminate); try (destruct g'; discriminate).
  - apply tok_shown, H.
  - cbn in *. injection H as H. destruct i, i'. cbn in H. subst. reflexivity.
  - cbn in *. injection H as H. exfalso. eapply name_not_quoted; [exact P|]. rewrite H. reflexivity.
  - cbn in *. injection H as H. rewrite H in P. rewrite P in Q. discriminate.
  - cbn in *. injection H as H. exfalso. eapply name_not_quoted; [exact Q|]. rewrite <- H. reflexivity.
  - cbn in *. injection H as H. destruct p, p'. cbn in *. unfold s_punct; cbn; congruence.
  - cbn in *. injection H as H. rewrite <- H in Q. rewrite andb_comm in Q. vm_compute in Q. discriminate.
  - cbn in *. injection H as H. rewrite H in P. rewrite Q in P. discriminate.
  - cbn in *. injection H as H. rewrite H in P. rewrite andb_comm in P. vm_compute in P. discriminate.
  - cbn in *. injection H as H. destruct l, l'. cbn in *. unfold s_lit; cbn; congruence.
Qed.
Lemma plain_in ts t : ap ts = true -> In t ts -> plain_tok t = true.
Proof. intros H Hi. rewrite forallb_forall in H. specialize (H t Hi). destruct t as [[]| | |]; [reflexivity| | |]; cbn [all_plain] in H; apply andb_prop in H; apply H. Qed.
Lemma tokens_shown a b : ap a = true -> ap b = true -> debug_tokens a = debug_tokens b -> bts a = bts b.
Proof.
  intros A C H. unfold debug_tokens in H. injection H as H. eapply map_shown; [|exact H]. intros x y Hx Hy. apply ref_shown; [apply (plain_in a)|apply (plain_in b)]; auto.
Qed.
Lemma type_shown a b : ap (print_type a) = true -> ap (print_type b) = true -> debug_type a = debug_type b -> s_type blank a = s_type blank b.
Proof. destruct a, b. unfold s_type. cbn. intros A C H. f_equal. apply tokens_shown; auto. Qed.
Lemma value_shown a b : ap (print_value a) = true -> ap (print_value b) = true -> debug_value a = debug_value b -> s_vexpr blank a = s_vexpr blank b.
Proof. destruct a, b. unfold s_vexpr. cbn. intros A C H. f_equal. apply tokens_shown; auto. Qed.
(** Punctuation that is not shown is known. *)
Lemma known_punct c p q : p_is c p = true -> p_is c q = true -> s_punct blank p = s_punct blank q.
Proof. destruct p, q. unfold p_is. cbn. intros H1 H2. apply Ascii.eqb_eq in H1, H2. unfold s_punct. cbn. congruence. Qed.
Lemma known_ident c p q : id_is c p = true -> id_is c q = true -> s_ident blank p = s_ident blank q.
Proof. destruct p, q. unfold id_is. cbn. intros H1 H2. apply String.eqb_eq in H1, H2. unfold s_ident. cbn. congruence. Qed.
Lemma known_gs d p q : delim_eqb (gs_delim p) d = true -> delim_eqb (gs_delim q) d = true -> s_gs blank p = s_gs blank q.
Proof. destruct p as [[] ?], q as [[] ?], d; cbn; intros; try discriminate; reflexivity. Qed.

(** ** Lists *)
Definition norm {A C} (g : A -> C) (s : A -> A) (p : punctuated A) : punctuated C := trail None g (s_pu blank s p).
Lemma norm_spec {A C} (wf : bool -> A -> bool) (g : A -> C) s p : wf_punctuated wf p = true ->
  norm g s p = mkPunctuated (map (fun x => (g (s (fst x)), punct_new "," Alone)) (pu_inner p)) (nonempty (pu_inner p)).
Proof.
  destruct p as [l sk]. unfold norm, trail, s_pu, wf_punctuated. cbn [pu_inner pu_skip_last]. intro H. f_equal; [|destruct l; reflexivity].
  induction l as [|[x c] [|[y d] l] IH]; [reflexivity|reflexivity|].
  change (set_last (end_comma_of None) g (map (fun x => (s (fst x), s_punct blank (snd x))) ((x, c) :: (y, d) :: l)))
    with ((g (s x), s_punct blank c) :: set_last (end_comma_of None) g (map (fun x => (s (fst x), s_punct blank (snd x))) ((y, d) :: l))).
  cbn [wf_inner] in H. apply andb_prop in H. destruct H as [H H2]. apply andb_prop in H. destruct H as [_ H1].
  rewrite (IH H2). cbn [map fst]. f_equal. f_equal. destruct c. unfold p_is in H1. cbn in H1. apply Ascii.eqb_eq in H1. subst. reflexivity.
Qed.
Lemma pu_wf_in {A} (wf : bool -> A -> bool) p x : wf_punctuated wf p = true -> In x (pu_inner p) -> exists b, wf b (fst x) = true.
Proof.
  destruct p as [l sk]. unfold wf_punctuated. cbn. revert x. induction l as [|[y c] [|[z d] l] IH]; intros x H Hi; [contradiction| |].
  - destruct Hi as [<-|[]]. cbn [wf_inner] in H. apply andb_prop in H. eexists. apply H.
  - cbn [wf_inner] in H. apply andb_prop in H. destruct H as [H H2]. apply andb_prop in H. destruct H as [H1 _].
    destruct Hi as [<-|Hi]; [eauto|]. apply (IH x); auto.
Qed.
Lemma pu_plain_in {A} (pr : A -> list tok) p x : ap (print_punctuated pr p) = true -> In x (pu_inner p) -> ap (pr (fst x)) = true.
Proof.
  destruct p as [l sk]. unfold print_punctuated. cbn. revert x. induction l as [|[y c] [|[z d] l] IH]; intros x H Hi; [contradiction| |].
  - destruct Hi as [<-|[]]. cbn [print_inner] in H. rewrite forallb_app in H. apply andb_prop in H. apply H.
  - change (print_inner pr sk ((y, c) :: (z, d) :: l)) with (pr y ++ TPunct c :: print_inner pr sk ((z, d) :: l)) in H.
    rewrite forallb_app in H. apply andb_prop in H. destruct H as [H1 H2].
    destruct Hi as [<-|Hi]; [exact H1|]. apply (IH x); auto.
Qed.
Lemma pu_shown {A C} (wf : bool -> A -> bool) (pr : A -> list tok) (d : A -> dbg) (g : A -> C) s p q :
  (forall x y b1 b2, wf b1 x = true -> wf b2 y = true -> ap (pr x) = true -> ap (pr y) = true -> d x = d y -> g (s x) = g (s y)) ->
  wf_punctuated wf p = true -> wf_punctuated wf q = true ->
  ap (print_punctuated pr p) = true -> ap (print_punctuated pr q) = true ->
  debug_punctuated d p = debug_punctuated d q -> norm g s p = norm g s q.
Proof.
  intros Hd Wp Wq Pp Pq H. rewrite (norm_spec wf g s p Wp), (norm_spec wf g s q Wq). unfold debug_punctuated in H. injection H as H.
  f_equal.
  - eapply map_shown; [|exact H]. intros x y Hx Hy E. destruct (pu_wf_in _ _ _ Wp Hx) as [b1 W1], (pu_wf_in _ _ _ Wq Hy) as [b2 W2].
    f_equal. exact (Hd _ _ b1 b2 W1 W2 (pu_plain_in _ _ _ Pp Hx) (pu_plain_in _ _ _ Pq Hy) E).
  - destruct (pu_inner p), (pu_inner q); try discriminate; reflexivity.
Qed.

(** ** Parts of items.  [plains] splits what is known of the printed tokens, [wfs] of the shape. *)
Ltac plains := repeat match goal with
  | H : ap (_ ++ _) = true |- _ => rewrite forallb_app in H; apply andb_prop in H; destruct H
  | H : ap (quote_with _ _) = true |- _ => unfold quote_with in H
  | H : all_plain (TGroup _) = true |- _ => cbn [all_plain plain_tok andb] in H
  | H : all_plain _ && _ = true |- _ => apply andb_prop in H; destruct H
  | H : ap (_ :: _) = true |- _ => cbn [forallb] in H; apply andb_prop in H; destruct H
  | H : ap [] = true |- _ => clear H
  end.
Ltac wfs := repeat match goal with H : _ && _ = true |- _ => apply andb_prop in H; destruct H end.
(** The parts of a description are equal if the whole is. *)
Lemma struct_parts n m f g : DStruct n f = DStruct m g -> f = g. Proof. congruence. Qed.
Lemma tuple_parts n m f g : DTuple n f = DTuple m g -> f = g. Proof. congruence. Qed.
Lemma field_parts (n m : string) (x y : dbg) f g : (n, x) :: f = (m, y) :: g -> x = y /\ f = g. Proof. split; congruence. Qed.
Lemma entry_parts (x y : dbg) f g : x :: f = y :: g -> x = y /\ f = g. Proof. split; congruence. Qed.
Ltac parts H := try apply struct_parts in H; try apply tuple_parts in H;
  repeat first [apply field_parts in H; let E := fresh "E" in destruct H as [E H]|apply entry_parts in H; let E := fresh "E" in destruct H as [E H]];
  try clear H.
Lemma attrs_plain l x : ap (print_attributes l) = true -> In x l -> ap (print_attribute x) = true.
Proof.
  unfold print_attributes. induction l as [|y l IH]; [contradiction|]. cbn [flat_map]. rewrite forallb_app. intros H [->|Hi]; apply andb_prop in H; destruct H; auto.
Qed.
Lemma attr_shown b a c : wf_attribute b a = true -> wf_attribute b c = true -> ap (print_attribute a) = true -> ap (print_attribute c) = true ->
  debug_attribute a = debug_attribute c -> s_attr blank a = s_attr blank c.
Proof.
  destruct a as [h1 b1 g1 p1 v1], c as [h2 b2 g2 p2 v2]. unfold wf_attribute, print_attribute, debug_attribute. cbn [at_hash at_bang at_brackets at_path at_value].
  intros W1 W2 P1 P2 H. wfs. plains. unfold s_attr. cbn [at_hash at_bang at_brackets at_path at_value].
  assert (V : debug_attribute_value v1 = debug_attribute_value v2 -> s_value blank v1 = s_value blank v2).
  { destruct v1, v2; cbn [debug_attribute_value]; intro E; try discriminate; cbn [print_attribute_value] in *; plains; cbn [s_value]; [..|reflexivity].
    - parts E. f_equal; [apply gs_shown; auto|apply tokens_shown; auto].
    - parts E. f_equal; [apply punct_shown; auto|apply tokens_shown; auto]. }
  destruct b1, b2; cbn [app] in H; try (apply struct_parts in H; discriminate); parts H; f_equal; cbn [option_map]; auto using gs_shown, punct_shown, tokens_shown.
  f_equal. auto using punct_shown.
Qed.
Lemma attrs_shown b l m : forallb (wf_attribute b) l = true -> forallb (wf_attribute b) m = true -> ap (print_attributes l) = true -> ap (print_attributes m) = true ->
  debug_vec debug_attribute l = debug_vec debug_attribute m -> s_attrs blank l = s_attrs blank m.
Proof.
  intros W1 W2 P1 P2. apply vec_shown. intros x y Hx Hy. rewrite forallb_forall in W1, W2. apply (attr_shown b); eauto using attrs_plain.
Qed.
Lemma vis_shown v w : wf_vis v = true -> wf_vis w = true -> ap (print_vis v) = true -> ap (print_vis w) = true ->
  debug_vis v = debug_vis w -> s_vis blank v = s_vis blank w.
Proof.
  destruct v as [[| i | |] [[g| | |]|]], w as [[| j | |] [[h| | |]|]]; try discriminate; unfold debug_vis, print_vis, s_vis; cbn [vis_token1 vis_token2 print_opt print_tok show_tok]; intros W1 W2 P1 P2 H; try discriminate.
  - destruct g, h. cbn in W1, W2. wfs. unfold print_tok in *. plains. unfold s_vis. cbn [vis_token1 vis_token2 option_map s_tok] in *. f_equal; [f_equal; eapply known_ident; eauto|].
    do 3 f_equal; [destruct g_delim, g_delim0; try discriminate; reflexivity|]. apply tuple_parts in H. apply tokens_shown; auto. exact (f_equal DList H).
  - unfold s_vis. cbn [vis_token1 vis_token2 option_map s_tok]. f_equal. f_equal. unfold s_ident. cbn. congruence.
Qed.
Lemma ovis_shown v w : wf_opt wf_vis v = true -> wf_opt wf_vis w = true -> ap (print_opt print_vis v) = true -> ap (print_opt print_vis w) = true ->
  debug_opt debug_vis v = debug_opt debug_vis w -> s_ovis blank v = s_ovis blank w.
Proof. intros W1 W2 P1 P2. apply opt_shown. intros x y -> ->. apply vis_shown; auto. Qed.

Lemma oident_shown a b : debug_opt debug_ident a = debug_opt debug_ident b -> option_map (s_ident blank) a = option_map (s_ident blank) b.
Proof. apply opt_shown. intros. apply ident_shown. auto. Qed.
Lemma opunct_shown a b : debug_opt debug_punct a = debug_opt debug_punct b -> option_map (s_punct blank) a = option_map (s_punct blank) b.
Proof. apply opt_shown. intros. apply punct_shown. auto. Qed.
Lemma olit_shown a b : debug_opt debug_literal a = debug_opt debug_literal b -> option_map (s_lit blank) a = option_map (s_lit blank) b.
Proof. apply opt_shown. intros. apply lit_shown. auto. Qed.
Lemma ogroup_shown a b : debug_opt debug_group a = debug_opt debug_group b -> option_map (s_group blank) a = option_map (s_group blank) b.
Proof. apply opt_shown. intros. apply group_shown. auto. Qed.
Lemma ogs_shown a b : debug_opt debug_group_span a = debug_opt debug_group_span b -> option_map (s_gs blank) a = option_map (s_gs blank) b.
Proof. apply opt_shown. intros. apply gs_shown. auto. Qed.
Lemma otype_shown a b : ap (print_opt print_type a) = true -> ap (print_opt print_type b) = true ->
  debug_opt debug_type a = debug_opt debug_type b -> option_map (s_type blank) a = option_map (s_type blank) b.
Proof. intros P1 P2. apply opt_shown. intros x y -> ->. apply type_shown; auto. Qed.
Lemma ovalue_shown a b : ap (print_opt print_value a) = true -> ap (print_opt print_value b) = true ->
  debug_opt debug_value a = debug_opt debug_value b -> option_map (s_vexpr blank) a = option_map (s_vexpr blank) b.
Proof. intros P1 P2. apply opt_shown. intros x y -> ->. apply value_shown; auto. Qed.
Lemma bound_shown P a b : wf_bound P a = true -> wf_bound P b = true -> ap (print_bound a) = true -> ap (print_bound b) = true ->
  debug_bound a = debug_bound b -> s_bound blank a = s_bound blank b.
Proof.
  destruct a as [c1 t1], b as [c2 t2]. unfold wf_bound, print_bound, debug_bound, s_bound. cbn [gb_colon gb_tokens]. intros W1 W2 P1 P2 H. wfs. plains.
  f_equal; [eapply known_punct; eauto|apply tokens_shown; auto].
Qed.
Lemma obound_shown P a b : wf_opt (wf_bound P) a = true -> wf_opt (wf_bound P) b = true -> ap (print_opt print_bound a) = true -> ap (print_opt print_bound b) = true ->
  debug_opt debug_bound a = debug_opt debug_bound b -> option_map (s_bound blank) a = option_map (s_bound blank) b.
Proof. intros W1 W2 P1 P2. apply opt_shown. intros x y -> ->. apply (bound_shown P); auto. Qed.
Lemma gparam_shown p q b1 b2 : wf_generic_param b1 p = true -> wf_generic_param b2 q = true ->
  ap (print_generic_param p) = true -> ap (print_generic_param q) = true ->
  debug_generic_param p = debug_generic_param q -> same (s_gparam blank p) = same (s_gparam blank q).
Proof.
  destruct p as [x1 n1 o1], q as [x2 n2 o2]. unfold wf_generic_param, print_generic_param, debug_generic_param, s_gparam, same. cbn [gp_prefix gp_name gp_bound].
  intros W1 W2 P1 P2 H. wfs. plains.
  assert (N : forall a b, debug_string (id_str a) = debug_string (id_str b) -> s_ident blank a = s_ident blank b).
  { intros a b E. apply debug_string_inj in E. unfold s_ident. cbn. congruence. }
  destruct x1 as [[|i1|q1|]|], x2 as [[|i2|q2|]|]; try discriminate; cbn [app] in H; try (apply struct_parts in H; discriminate); parts H;
    cbn [option_map s_tok]; f_equal; auto; try (eapply obound_shown; eauto).
  - do 2 f_equal. eapply known_ident; eauto.
  - apply debug_string_inj in E. cbn in E. repeat match goal with H : id_is _ i1 = true |- _ => unfold id_is in H; apply String.eqb_eq in H; rewrite H in E end. discriminate.
  - apply debug_string_inj in E. cbn in E. repeat match goal with H : id_is _ i2 = true |- _ => unfold id_is in H; apply String.eqb_eq in H; rewrite H in E end. discriminate.
  - do 2 f_equal. eapply known_punct; eauto.
Qed.
Definition n_generics (g : generic_param_list) := trail_generics None (s_gparams blank g).
Lemma generics_shown a b : wf_generics a = true -> wf_generics b = true -> ap (print_generic_params a) = true -> ap (print_generic_params b) = true ->
  debug_generic_params a = debug_generic_params b -> n_generics a = n_generics b.
Proof.
  destruct a as [l1 p1 r1], b as [l2 p2 r2]. unfold wf_generics, print_generic_params, debug_generic_params, n_generics, trail_generics, s_gparams. cbn [gpl_l gpl_params gpl_r].
  intros W1 W2 P1 P2 H. wfs. plains. f_equal; try (eapply known_punct; eauto; fail). eapply (pu_shown wf_generic_param); eauto using gparam_shown.
Qed.
Lemma ogenerics_shown a b : wf_opt wf_generics a = true -> wf_opt wf_generics b = true -> ap (print_opt print_generic_params a) = true -> ap (print_opt print_generic_params b) = true ->
  debug_opt debug_generic_params a = debug_opt debug_generic_params b -> option_map (trail_generics None) (s_ogparams blank a) = option_map (trail_generics None) (s_ogparams blank b).
Proof.
  intros W1 W2 P1 P2 H. unfold s_ogparams. apply (opt_shown debug_generic_params n_generics) in H; [destruct a, b; cbn [option_map] in *; exact H|].
  intros x y -> ->. apply generics_shown; auto.
Qed.

(** A predicate is shown as one run of tokens; the first colon outside angle brackets splits it. *)
Lemma stops_blank c d dash t : stops (is_punct c) d dash (bt t) = stops (is_punct c) d dash t.
Proof. destruct t as [[]| | |]; reflexivity. Qed.
Lemma scan_blank c : forall l d dash, scan (is_punct c) d dash (bts l) = scan (is_punct c) d dash l.
Proof.
  induction l as [|t l IH]; intros; [reflexivity|]. cbn [s_toks map scan]. rewrite stops_blank. fold (bts l). rewrite IH.
  replace (next_depth d dash (bt t)) with (next_depth d dash t) by (destruct t as [[]| | |]; reflexivity).
  replace (is_punct "-" (bt t)) with (is_punct "-" t) by (destruct t as [[]| | |]; reflexivity). reflexivity.
Qed.
Lemma split_once : forall l1 l2 d dash c1 c2 r1 r2,
  (exists s, scan (is_punct ":") d dash l1 = Some (0%Z, s)) -> (exists s, scan (is_punct ":") d dash l2 = Some (0%Z, s)) ->
  is_punct ":" c1 = true -> is_punct ":" c2 = true -> l1 ++ c1 :: r1 = l2 ++ c2 :: r2 -> l1 = l2 /\ r1 = r2.
Proof.
  assert (S : forall c dash, is_punct ":" c = true -> stops (is_punct ":") 0 dash c = true).
  { intros c dash H. unfold stops, opens, closes. rewrite H. destruct c as [| |p|]; try discriminate. unfold is_punct, p_is in *. apply Ascii.eqb_eq in H. rewrite H. reflexivity. }
  induction l1 as [|x l1 IH]; intros [|y l2] d dash c1 c2 r1 r2 [s1 H1] [s2 H2] C1 C2 E; cbn [app] in E.
  - split; congruence.
  - injection E as -> E. cbn [scan] in *. injection H1 as -> _. rewrite (S _ _ C1) in H2. discriminate.
  - injection E as -> E. cbn [scan] in *. injection H2 as -> _. rewrite (S _ _ C2) in H1. discriminate.
  - injection E as -> E. cbn [scan] in *. destruct (stops (is_punct ":") d dash y); [discriminate|].
    destruct (IH l2 _ _ c1 c2 r1 r2 (ex_intro _ _ H1) (ex_intro _ _ H2) C1 C2 E) as [-> ->]. auto.
Qed.
Lemma run_closed_scan P l : run_closed P l = true -> exists s, scan P 0 false l = Some (0%Z, s).
Proof. unfold run_closed. destruct (scan P 0 false l) as [[d s]|]; [|discriminate]. intro H. apply Z.eqb_eq in H. subst. eauto. Qed.
Lemma pred_shown p q b1 b2 : wf_where_predicate b1 p = true -> wf_where_predicate b2 q = true ->
  ap (print_where_predicate p) = true -> ap (print_where_predicate q) = true ->
  debug_predicate p = debug_predicate q -> same (s_pred blank p) = same (s_pred blank q).
Proof.
  destruct p as [l1 [c1 t1]], q as [l2 [c2 t2]]. unfold wf_where_predicate, debug_predicate, s_pred, same, wf_bound. cbn [wp_left wp_bound gb_colon gb_tokens].
  intros W1 W2 P1 P2 H. apply tokens_shown in H; auto. unfold print_where_predicate, print_bound in H. cbn [wp_left wp_bound gb_colon gb_tokens] in H.
  unfold s_toks in H. rewrite !map_app in H. cbn [map s_tok] in H. wfs.
  apply (split_once _ _ 0%Z false) in H.
  - destruct H as [E1 E2]. f_equal; [exact E1|]. unfold s_bound. cbn [gb_colon gb_tokens]. f_equal; [eapply known_punct; eauto|exact E2].
  - fold (bts l1). rewrite scan_blank. apply run_closed_scan. auto.
  - fold (bts l2). rewrite scan_blank. apply run_closed_scan. auto.
  - auto.
  - auto.
Qed.
Definition n_where (g : where_clause) := trail_where None (s_where blank g).
Lemma where_shown a b : wf_where a = true -> wf_where b = true -> ap (print_where a) = true -> ap (print_where b) = true ->
  debug_where a = debug_where b -> n_where a = n_where b.
Proof.
  destruct a as [k1 p1], b as [k2 p2]. unfold wf_where, print_where, debug_where, n_where, trail_where, s_where. cbn [wc_where wc_items].
  intros W1 W2 P1 P2 H. wfs. plains. f_equal; try (eapply known_ident; eauto; fail). eapply (pu_shown wf_where_predicate); eauto using pred_shown.
Qed.
Lemma owhere_shown a b : wf_opt wf_where a = true -> wf_opt wf_where b = true -> ap (print_opt print_where a) = true -> ap (print_opt print_where b) = true ->
  debug_opt debug_where a = debug_opt debug_where b -> option_map (trail_where None) (s_owhere blank a) = option_map (trail_where None) (s_owhere blank b).
Proof.
  intros W1 W2 P1 P2 H. unfold s_owhere. apply (opt_shown debug_where n_where) in H; [destruct a, b; cbn [option_map] in *; exact H|].
  intros x y -> ->. apply where_shown; auto.
Qed.
Lemma tfield_shown p q b1 b2 : wf_tuple_field b1 p = true -> wf_tuple_field b2 q = true ->
  ap (print_tuple_field p) = true -> ap (print_tuple_field q) = true ->
  debug_tuple_field p = debug_tuple_field q -> same (s_tfield blank p) = same (s_tfield blank q).
Proof.
  destruct p as [a1 v1 t1], q as [a2 v2 t2]. unfold wf_tuple_field, print_tuple_field, debug_tuple_field, s_tfield, same, wf_outer. cbn [tf_attributes tf_vis tf_ty].
  intros W1 W2 P1 P2 H. wfs. plains. parts H. f_equal; [eapply attrs_shown; eauto|apply ovis_shown; auto|apply type_shown; auto].
Qed.
Lemma nfield_shown p q b1 b2 : wf_named_field b1 p = true -> wf_named_field b2 q = true ->
  ap (print_named_field p) = true -> ap (print_named_field q) = true ->
  debug_named_field p = debug_named_field q -> same (s_nfield blank p) = same (s_nfield blank q).
Proof.
  destruct p as [a1 v1 n1 c1 t1], q as [a2 v2 n2 c2 t2]. unfold wf_named_field, print_named_field, debug_named_field, s_nfield, same, wf_outer. cbn [nf_attributes nf_vis nf_name nf_colon nf_ty].
  intros W1 W2 P1 P2 H. wfs. plains. parts H.
  f_equal; [eapply attrs_shown; eauto|apply ovis_shown; auto|apply ident_shown; auto|apply punct_shown; auto|apply type_shown; auto].
Qed.
Lemma nfields_shown a b : wf_named_fields a = true -> wf_named_fields b = true -> ap (print_named_fields a) = true -> ap (print_named_fields b) = true ->
  debug_named_fields a = debug_named_fields b -> trail_named None (s_nfields blank a) = trail_named None (s_nfields blank b).
Proof.
  destruct a as [p1 g1], b as [p2 g2]. unfold wf_named_fields, print_named_fields, debug_named_fields, trail_named, s_nfields. cbn [nfs_fields nfs_braces].
  intros W1 W2 P1 P2 H. wfs. plains. f_equal; [|eapply known_gs; eauto]. eapply (pu_shown wf_named_field); eauto using nfield_shown.
Qed.
Lemma tfields_shown a b : wf_tuple_fields a = true -> wf_tuple_fields b = true -> ap (print_tuple_fields a) = true -> ap (print_tuple_fields b) = true ->
  debug_tuple_fields a = debug_tuple_fields b -> trail_tuple None (s_tfields blank a) = trail_tuple None (s_tfields blank b).
Proof.
  destruct a as [p1 g1], b as [p2 g2]. unfold wf_tuple_fields, print_tuple_fields, debug_tuple_fields, trail_tuple, s_tfields. cbn [tfs_fields tfs_parens].
  intros W1 W2 P1 P2 H. wfs. plains. f_equal; [|eapply known_gs; eauto]. eapply (pu_shown wf_tuple_field); eauto using tfield_shown.
Qed.
Lemma fields_shown a b : wf_fields a = true -> wf_fields b = true -> ap (print_fields a) = true -> ap (print_fields b) = true ->
  debug_fields a = debug_fields b -> trail_fields None (s_fields blank a) = trail_fields None (s_fields blank b).
Proof.
  destruct a, b; cbn [wf_fields print_fields debug_fields trail_fields s_fields]; intros W1 W2 P1 P2 H; try discriminate; [reflexivity|parts H..]; f_equal;
    [apply tfields_shown|apply nfields_shown]; auto.
Qed.
Lemma variant_shown p q b1 b2 : wf_variant b1 p = true -> wf_variant b2 q = true ->
  ap (print_variant p) = true -> ap (print_variant q) = true ->
  debug_variant p = debug_variant q -> trail_variant None (s_variant blank p) = trail_variant None (s_variant blank q).
Proof.
  destruct p as [a1 v1 n1 f1 t1], q as [a2 v2 n2 f2 t2]. unfold wf_variant, print_variant, debug_variant, s_variant, trail_variant, wf_outer. cbn [ev_attributes ev_vis ev_name ev_fields ev_value].
  intros W1 W2 P1 P2 H. wfs. plains. parts H.
  f_equal; [eapply attrs_shown; eauto|apply ovis_shown; auto|apply ident_shown; auto|apply fields_shown; auto|].
  revert E3. apply opt_shown. intros [e1 x1] [e2 x2] _ _ E3. unfold debug_variant_value in E3. cbn [vv_equal vv_value] in E3. parts E3.
  unfold s_vvalue. cbn [vv_equal vv_value]. f_equal; [apply punct_shown; auto|apply tok_shown; auto].
Qed.
Lemma lifetime_shown a b : debug_lifetime a = debug_lifetime b -> s_lifetime blank a = s_lifetime blank b.
Proof. unfold debug_lifetime, s_lifetime. intro H. parts H. f_equal; [apply punct_shown; auto|apply ident_shown; auto]. Qed.
Lemma param_shown p q b1 b2 : wf_fn_param b1 p = true -> wf_fn_param b2 q = true ->
  ap (print_fn_param p) = true -> ap (print_fn_param q) = true ->
  debug_param p = debug_param q -> same (s_param blank p) = same (s_param blank q).
Proof.
  destruct p as [p|p], q as [q|q]; cbn [wf_fn_param print_fn_param debug_param s_param same]; unfold print_fn_param, wf_outer, print_receiver, print_typed; intros W1 W2 P1 P2 H; try discriminate; wfs; plains; unfold same; f_equal.
  - apply tuple_parts, entry_parts in H. destruct H as [H _]. parts H.
    f_equal; [eapply attrs_shown; eauto|apply opunct_shown; auto| |apply oident_shown; auto|apply ident_shown; auto].
    revert E1. apply opt_shown. intros. apply lifetime_shown. auto.
  - apply tuple_parts, entry_parts in H. destruct H as [H _]. parts H.
    f_equal; [eapply attrs_shown; eauto|apply oident_shown; auto|apply ident_shown; auto|apply punct_shown; auto|apply type_shown; auto].
Qed.
Lemma quals_shown a b : debug_qualifiers a = debug_qualifiers b -> s_quals blank a = s_quals blank b.
Proof. unfold debug_qualifiers, s_quals. intro H. parts H. f_equal; try (apply oident_shown; auto; fail). apply olit_shown; auto. Qed.
Lemma arrow_shown a b : debug_opt debug_punct2 a = debug_opt debug_punct2 b -> option_map (s_punct2 blank) a = option_map (s_punct2 blank) b.
Proof.
  apply opt_shown. intros x y _ _ H. unfold debug_punct2 in H. unfold s_punct2.
  assert (E : [debug_punct (fst x); debug_punct (snd x)] = [debug_punct (fst y); debug_punct (snd y)]) by congruence. parts E.
  f_equal; apply punct_shown; auto.
Qed.
Lemma function_shown a b : wf_function a = true -> wf_function b = true -> ap (print_function a) = true -> ap (print_function b) = true ->
  debug_function a = debug_function b -> trail_function None (s_function blank a) = trail_function None (s_function blank b).
Proof.
  unfold wf_function, print_function, debug_function, trail_function, s_function, wf_outer.
  cbn [fn_attributes fn_vis fn_qualifiers_ fn_kw fn_name fn_generics fn_parens fn_params fn_where fn_arrow fn_ret fn_semicolon fn_body].
  intros W1 W2 P1 P2 H. wfs. plains. parts H.
  f_equal; auto using ident_shown, gs_shown, quals_shown, arrow_shown, opunct_shown, ogroup_shown, ovis_shown, ogenerics_shown, owhere_shown, otype_shown.
  - eapply attrs_shown; eauto.
  - eapply (pu_shown wf_fn_param); eauto using param_shown.
Qed.
Lemma constant_shown a b : shape_constant a = true -> shape_constant b = true -> ap (print_constant a) = true -> ap (print_constant b) = true ->
  debug_constant a = debug_constant b -> s_constant blank a = s_constant blank b.
Proof.
  unfold shape_constant, print_constant, debug_constant, s_constant, wf_outer. intros W1 W2 P1 P2 H. wfs. plains. parts H.
  f_equal; auto using ident_shown, punct_shown, oident_shown, opunct_shown, ovis_shown, type_shown, ovalue_shown. eapply attrs_shown; eauto.
Qed.
Lemma alias_shown a b : wf_type_alias a = true -> wf_type_alias b = true -> ap (print_type_alias a) = true -> ap (print_type_alias b) = true ->
  debug_type_alias a = debug_type_alias b -> s_alias blank a = s_alias blank b.
Proof.
  unfold wf_type_alias, print_type_alias, debug_type_alias, s_alias, wf_outer. intros W1 W2 P1 P2 H. wfs. plains. parts H.
  f_equal; auto using ident_shown, punct_shown, oident_shown, opunct_shown, ovis_shown, otype_shown; [eapply attrs_shown; eauto|eapply obound_shown; eauto].
Qed.
Lemma macro_shown k1 k2 a b : shape_macro k1 a = true -> shape_macro k2 b = true -> ap (print_macro a) = true -> ap (print_macro b) = true ->
  debug_macro a = debug_macro b -> s_macro blank a = s_macro blank b.
Proof.
  unfold shape_macro, print_macro, debug_macro, s_macro, wf_outer. intros W1 W2 P1 P2 H. wfs. plains. parts H.
  f_equal; auto using ident_shown, punct_shown, oident_shown, opunct_shown, gs_shown; [eapply attrs_shown; eauto|].
  revert E4. apply vec_shown. intros. apply tok_shown. auto.
Qed.
Definition n_imember m := trail_impl_member None (s_imember blank m).
Lemma imember_shown b1 b2 a b : shape_impl_member b1 a = true -> shape_impl_member b2 b = true -> ap (print_impl_member a) = true -> ap (print_impl_member b) = true ->
  debug_impl_member a = debug_impl_member b -> n_imember a = n_imember b.
Proof.
  destruct a, b; unfold shape_impl_member, print_impl_member, debug_impl_member, n_imember; cbn [s_imember trail_impl_member]; intros W1 W2 P1 P2 H; try discriminate;
    wfs; parts H; f_equal; eauto using function_shown, constant_shown, alias_shown, macro_shown.
Qed.
Lemma print_of_trait_member m : print_impl_member (impl_of_trait_member m) = print_trait_member m.
Proof. destruct m; reflexivity. Qed.
Definition n_tmember m := trail_trait_member None (s_tmember blank m).
Lemma tmember_shown a b : shape_trait_member a = true -> shape_trait_member b = true -> ap (print_trait_member a) = true -> ap (print_trait_member b) = true ->
  debug_trait_member a = debug_trait_member b -> n_tmember a = n_tmember b.
Proof.
  rewrite <- !print_of_trait_member. unfold shape_trait_member. intros W1 W2 P1 P2 H.
  assert (E : n_imember (impl_of_trait_member a) = n_imember (impl_of_trait_member b)).
  { eapply imember_shown; eauto. destruct a, b; exact H. }
  destruct a, b; try discriminate H; unfold n_imember, n_tmember in *; cbn [impl_of_trait_member s_imember s_tmember trail_impl_member trail_trait_member] in *; congruence.
Qed.
Lemma flat_plain {A} (pr : A -> list tok) l x : ap (flat_map pr l) = true -> In x l -> ap (pr x) = true.
Proof.
  induction l as [|y l IH]; [contradiction|]. cbn [flat_map]. rewrite forallb_app. intros H [->|Hi]; apply andb_prop in H; destruct H; auto.
Qed.
Lemma imembers_shown b1 b2 l m : forallb (shape_impl_member b1) l = true -> forallb (shape_impl_member b2) m = true ->
  ap (flat_map print_impl_member l) = true -> ap (flat_map print_impl_member m) = true ->
  debug_vec debug_impl_member l = debug_vec debug_impl_member m -> map n_imember l = map n_imember m.
Proof.
  intros W1 W2 P1 P2. rewrite forallb_forall in W1, W2. apply vec_shown. intros x y Hx Hy.
  apply (imember_shown b1 b2); [auto|auto|apply (flat_plain _ l)|apply (flat_plain _ m)]; auto.
Qed.
Lemma tmembers_shown l m : forallb shape_trait_member l = true -> forallb shape_trait_member m = true ->
  ap (flat_map print_trait_member l) = true -> ap (flat_map print_trait_member m) = true ->
  debug_vec debug_trait_member l = debug_vec debug_trait_member m -> map n_tmember l = map n_tmember m.
Proof.
  intros W1 W2 P1 P2. rewrite forallb_forall in W1, W2. apply vec_shown. intros x y Hx Hy.
  apply tmember_shown; [auto|auto|apply (flat_plain _ l)|apply (flat_plain _ m)]; auto.
Qed.
(** An item without spans, spacing and trailing commas. *)
Definition bare (i : item) : item := trail_item None (s_item blank i).
Ltac leaves := auto using ident_shown, gs_shown, punct_shown, oident_shown, opunct_shown, olit_shown, ogs_shown, ovis_shown, ogenerics_shown, owhere_shown, type_shown, otype_shown;
  try (eapply attrs_shown; eauto; fail).
Lemma struct_shown a b : shape_struct a = true -> shape_struct b = true -> ap (print_struct a) = true -> ap (print_struct b) = true ->
  debug_struct a = debug_struct b -> bare (IStruct a) = bare (IStruct b).
Proof.
  destruct a as [a v k n g w f s], b as [a' v' k' n' g' w' f' s']. unfold shape_struct, print_struct, debug_struct, bare, wf_outer.
  cbn [s_item trail_item]. unfold s_struct. cbn [st_attributes st_vis st_struct st_name st_generics st_where st_fields st_semicolon].
  intros W1 W2 P1 P2 H. wfs. plains. parts H.
  assert (X : forall f w s, ap (match f with FNamed _ => print_opt print_where w ++ print_fields f | _ => print_fields f ++ print_opt print_where w ++ print_opt print_punct s end) = true ->
    ap (print_opt print_where w) = true /\ ap (print_fields f) = true).
  { intros f0 w0 s0 A. destruct f0; plains; auto. }
  repeat match goal with A : ap (match _ with FUnit => _ | _ => _ end) = true |- _ => apply X in A; destruct A end.
  cbn [trail_item]. f_equal. f_equal; leaves. apply fields_shown; auto.
Qed.
Lemma enum_shown a b : wf_enum a = true -> wf_enum b = true -> ap (print_enum a) = true -> ap (print_enum b) = true ->
  debug_enum a = debug_enum b -> bare (IEnum a) = bare (IEnum b).
Proof.
  destruct a as [a v k n g w br vs], b as [a' v' k' n' g' w' br' vs']. unfold wf_enum, print_enum, debug_enum, bare, wf_outer.
  cbn [s_item]. unfold s_enum. cbn [en_attributes en_vis en_enum en_name en_generics en_where en_braces en_variants].
  intros W1 W2 P1 P2 H. wfs. plains. parts H. cbn [trail_item]. f_equal. f_equal; leaves; [eapply known_gs; eauto|].
  eapply (pu_shown wf_variant); eauto using variant_shown.
Qed.
Lemma union_shown a b : wf_union a = true -> wf_union b = true -> ap (print_union a) = true -> ap (print_union b) = true ->
  debug_union a = debug_union b -> bare (IUnion a) = bare (IUnion b).
Proof.
  destruct a as [a v k n g w f], b as [a' v' k' n' g' w' f']. unfold wf_union, print_union, debug_union, bare, wf_outer.
  cbn [s_item]. unfold s_union. cbn [un_attributes un_vis un_union un_name un_generics un_where un_fields].
  intros W1 W2 P1 P2 H. wfs. plains. parts H. cbn [trail_item]. f_equal. f_equal; leaves. apply nfields_shown; auto.
Qed.
Lemma trait_shown a b : shape_trait a = true -> shape_trait b = true -> ap (print_trait a) = true -> ap (print_trait b) = true ->
  debug_trait a = debug_trait b -> bare (ITrait a) = bare (ITrait b).
Proof.
  destruct a as [a v u k n g b0 w br ia ms], b as [a' v' u' k' n' g' b0' w' br' ia' ms']. unfold shape_trait, print_trait, debug_trait, bare, wf_outer, wf_inner_attrs.
  cbn [s_item]. unfold s_trait. cbn [tr_attributes tr_vis tr_unsafe tr_trait tr_name tr_generics tr_bound tr_where tr_braces tr_inner_attributes tr_items].
  intros W1 W2 P1 P2 H. wfs. plains. parts H. cbn [trail_item]. f_equal. f_equal; leaves; [eapply obound_shown; eauto|].
  rewrite !map_map. apply tmembers_shown; auto.
Qed.
Lemma impl_shown a b : shape_impl a = true -> shape_impl b = true -> ap (print_impl a) = true -> ap (print_impl b) = true ->
  debug_impl a = debug_impl b -> bare (IImpl a) = bare (IImpl b).
Proof.
  destruct a as [a u k g t fo se w br ia ms], b as [a' u' k' g' t' fo' se' w' br' ia' ms']. unfold shape_impl, print_impl, debug_impl, bare, wf_outer, wf_inner_attrs.
  cbn [s_item]. unfold s_impl. cbn [im_attributes im_unsafe im_impl im_generics im_trait im_for im_self im_where im_braces im_inner_attributes im_items].
  intros W1 W2 P1 P2 H. wfs. plains. parts H. cbn [trail_item]. f_equal. f_equal; leaves.
  rewrite !map_map. eapply imembers_shown; eauto.
Qed.
Lemma eblock_shown a b : shape_extern_block a = true -> shape_extern_block b = true -> ap (print_extern_block a) = true -> ap (print_extern_block b) = true ->
  debug_extern_block a = debug_extern_block b -> bare (IExternBlock a) = bare (IExternBlock b).
Proof.
  destruct a as [a v u e ab br ia ms], b as [a' v' u' e' ab' br' ia' ms']. unfold shape_extern_block, print_extern_block, debug_extern_block, bare, wf_outer, wf_inner_attrs.
  cbn [s_item]. unfold s_eblock. cbn [eb_attributes eb_vis eb_unsafe eb_extern eb_abi eb_braces eb_inner_attributes eb_items].
  intros W1 W2 P1 P2 H. wfs. plains. parts H. cbn [trail_item]. f_equal. f_equal; leaves.
  rewrite !map_map. eapply imembers_shown; eauto.
Qed.
Lemma use_shown a b : wf_use a = true -> wf_use b = true -> ap (print_use a) = true -> ap (print_use b) = true ->
  debug_use a = debug_use b -> s_use blank a = s_use blank b.
Proof. unfold wf_use, print_use, debug_use, s_use, wf_outer. intros W1 W2 P1 P2 H. wfs. plains. parts H. f_equal; leaves. Qed.
Lemma ecrate_shown a b : wf_extern_crate a = true -> wf_extern_crate b = true -> ap (print_extern_crate a) = true -> ap (print_extern_crate b) = true ->
  debug_extern_crate a = debug_extern_crate b -> s_ecrate blank a = s_ecrate blank b.
Proof. unfold wf_extern_crate, print_extern_crate, debug_extern_crate, s_ecrate, wf_outer. intros W1 W2 P1 P2 H. wfs. plains. parts H. f_equal; leaves. Qed.
Lemma item_shown : forall i j, shape_item i = true -> shape_item j = true -> ap (print_item i) = true -> ap (print_item j) = true ->
  debug_item i = debug_item j -> bare i = bare j.
Proof.
  intro i. induction i as [m IH|i No] using item_nested_ind; intros j W1 W2 P1 P2 H.
  - destruct m as [a v u k n s b ia ms]. destruct j as [| | |[a' v' u' k' n' s' b' ia' ms']| | | | | | | | |]; try discriminate H. cbn [mo_members] in IH.
    cbn [debug_item] in H. apply tuple_parts, entry_parts in H. destruct H as [H _]. parts H.
    unfold bare. cbn [s_item trail_item]. cbn [shape_item print_item] in *. unfold shape_module, print_module, wf_outer in *.
    cbn [mo_attributes mo_vis mo_unsafe mo_mod mo_name mo_semicolon mo_braces mo_inner_attributes mo_members] in *. wfs. plains.
    assert (X : s_attrs blank ia = s_attrs blank ia' /\ map (trail_item None) (map (s_item blank) ms) = map (trail_item None) (map (s_item blank) ms')).
    { destruct s as [s|], b as [b|], s' as [s'|], b' as [b'|]; try discriminate; wfs.
      - destruct ia, ia'; try discriminate. destruct ms, ms'; try discriminate. auto.
      - plains. split; [eapply attrs_shown; eauto|]. rewrite !map_map. injection E7 as E7. clear E5 E4 E6 E.
        match goal with H1 : forallb shape_item ms = true, H2 : forallb shape_item ms' = true |- _ => revert H1 H2 end.
        repeat match goal with H : ap (flat_map print_item _) = true |- _ => revert H end. clear - IH E7. revert ms' E7.
        induction IH as [|x l Hx _ IHl]; intros [|y l'] E7; try discriminate; [reflexivity|]. cbn [flat_map map forallb]. rewrite !forallb_app. intros A1 A2 A3 A4. wfs.
        cbn [map] in E7. apply entry_parts in E7. destruct E7 as [E1 E2]. f_equal; [apply Hx; auto|]. apply IHl; auto. }
    destruct X as [X1 X2]. f_equal. f_equal; leaves.
  - destruct i; [..|destruct j; try discriminate H|destruct j; try discriminate H]; try (destruct j; try discriminate H);
      try (exfalso; eapply No; reflexivity); try match goal with m : module_ item |- _ => destruct m; discriminate H end; cbn [debug_item] in H; cbn [shape_item print_item] in *; parts H;
      (solve [eauto using struct_shown, enum_shown, union_shown, trait_shown, impl_shown, eblock_shown]
       || (unfold bare; cbn [s_item trail_item]; f_equal; eauto using alias_shown, function_shown, constant_shown, use_shown, macro_shown, ecrate_shown)).
Qed.

(** ** C84 *)
(** If two parsed items are shown alike, they are the same up to spans, spacing and trailing
    commas, provided their literals are not single quoted characters. *)
Theorem C84_determines (a b r1 r2 : list tok) (i j : item) :
  consume_item a = Ret (Ok i, r1) -> consume_item b = Ret (Ok j, r2) ->
  ap (print_item i) = true -> ap (print_item j) = true ->
  debug_item i = debug_item j ->
  bare i = bare j.
Proof. intros Hi Hj Pi Pj H. apply item_shown; eauto using C02_parsed_shape. Qed.

(** Debug does not depend on spans: a substitution that keeps names, spacing and texts changes nothing. *)
Section Spans.
Variable f : subst.
Hypothesis Hn : forall i, new_name f i = id_str i.
Hypothesis Hs : forall p, new_spacing f p = p_spacing p.
Hypothesis Ht : forall l, new_text f l = l_repr l.
Lemma sp_ident i : debug_ident (s_ident f i) = debug_ident i.
Proof. unfold debug_ident, s_ident. cbn. rewrite Hn. reflexivity. Qed.
Lemma sp_punct i : debug_punct (s_punct f i) = debug_punct i.
Proof. unfold debug_punct, s_punct. cbn. rewrite Hs. reflexivity. Qed.
Lemma sp_lit i : debug_literal (s_lit f i) = debug_literal i.
Proof. unfold debug_literal, s_lit. cbn. rewrite Ht. reflexivity. Qed.
Lemma sp_gs i : debug_group_span (s_gs f i) = debug_group_span i.
Proof. reflexivity. Qed.
Lemma sp_opt {A} (d : A -> dbg) s o : (forall x, d (s x) = d x) -> debug_opt d (option_map s o) = debug_opt d o.
Proof. intro H. destruct o; cbn; rewrite ?H; reflexivity. Qed.
Lemma sp_vec {A} (d : A -> dbg) s l : (forall x, d (s x) = d x) -> debug_vec d (map s l) = debug_vec d l.
Proof. intro H. unfold debug_vec. rewrite map_map. f_equal. apply map_ext, H. Qed.
Lemma sp_pu {A} (d : A -> dbg) s p : (forall x, d (s x) = d x) -> debug_punctuated d (s_pu f s p) = debug_punctuated d p.
Proof. intro H. unfold debug_punctuated, s_pu. cbn. rewrite map_map. f_equal. apply map_ext. intro x. apply H. Qed.
Lemma sp_tok : forall t, debug_tok (s_tok f t) = debug_tok t.
Proof.
  fix IH 1. intros [[d s sp]|i|p|l]; cbn [s_tok debug_tok].
  - do 5 f_equal. assert (E : map debug_tok (map (s_tok f) s) = map debug_tok s).
    { induction s as [|x s IHs]; [reflexivity|]. cbn. rewrite IH, IHs. reflexivity. } rewrite E. reflexivity.
  - cbn. rewrite Hn. reflexivity.
  - apply sp_punct.
  - apply sp_lit.
Qed.
Lemma sp_group g : debug_group (s_group f g) = debug_group g.
Proof. destruct g. exact (sp_tok (TGroup (mkGroup g_delim g_stream g_span))). Qed.
Lemma sp_ref t : debug_ref (s_tok f t) = debug_ref t.
Proof.
  destruct t as [g|i|p|l]; [destruct g as [d s sp]; exact (sp_tok (TGroup (mkGroup d s sp)))|..]; unfold debug_ref; cbn; rewrite ?Hn, ?Ht; reflexivity.
Qed.
Lemma sp_tokens l : debug_tokens (s_toks f l) = debug_tokens l.
Proof. unfold debug_tokens, s_toks. rewrite map_map. f_equal. apply map_ext, sp_ref. Qed.
Lemma sp_show : forall t, show_tok (s_tok f t) = show_tok t.
Proof.
  fix IH 1. intros [[d s sp]|i|p|l]; [|cbn; rewrite ?Hn, ?Ht; reflexivity..].
  assert (E : map (fun x => (show_tok x, joint_punct x)) (map (s_tok f) s) = map (fun x => (show_tok x, joint_punct x)) s).
  { induction s as [|x s IHs]; [reflexivity|]. cbn [map]. rewrite IHs, IH. do 2 f_equal. destruct x as [[]| |q|]; try reflexivity. cbn. rewrite Hs. reflexivity. }
  cbn [s_tok show_tok]. rewrite E. destruct d, s; reflexivity.
Qed.
Lemma sp_type x : debug_type (s_type f x) = debug_type x. Proof. apply sp_tokens. Qed.
Lemma sp_value x : debug_value (s_vexpr f x) = debug_value x. Proof. apply sp_tokens. Qed.
Lemma sp_bound x : debug_bound (s_bound f x) = debug_bound x. Proof. apply sp_tokens. Qed.
Lemma sp_attr x : debug_attribute (s_attr f x) = debug_attribute x.
Proof.
  unfold debug_attribute, s_attr. cbn [at_hash at_bang at_brackets at_path at_value]. rewrite sp_punct, sp_gs, sp_tokens.
  assert (V : debug_attribute_value (s_value f (at_value x)) = debug_attribute_value (at_value x)).
  { destruct (at_value x); cbn [s_value debug_attribute_value]; rewrite ?sp_tokens, ?sp_gs, ?sp_punct; reflexivity. }
  rewrite V. destruct (at_bang x); cbn [option_map]; rewrite ?sp_punct; reflexivity.
Qed.
Lemma sp_attrs x : debug_vec debug_attribute (s_attrs f x) = debug_vec debug_attribute x.
Proof. apply sp_vec, sp_attr. Qed.
Lemma sp_vis x : debug_vis (s_vis f x) = debug_vis x.
Proof.
  unfold debug_vis, s_vis. cbn [vis_token1 vis_token2]. rewrite sp_show. destruct (vis_token2 x) as [[[d s sp]| | |]|]; cbn [option_map s_tok]; try reflexivity.
  f_equal. cbn. rewrite map_map. apply map_ext, sp_ref.
Qed.
Lemma sp_ovis x : debug_opt debug_vis (s_ovis f x) = debug_opt debug_vis x. Proof. apply sp_opt, sp_vis. Qed.
Lemma sp_gparam x : debug_generic_param (s_gparam f x) = debug_generic_param x.
Proof.
  unfold debug_generic_param, s_gparam. cbn [gp_prefix gp_name gp_bound]. rewrite (sp_opt _ _ _ sp_bound). unfold s_ident. cbn [id_str]. rewrite Hn.
  destruct (gp_prefix x); cbn [option_map]; rewrite ?sp_show; reflexivity.
Qed.
Lemma sp_gparams x : debug_opt debug_generic_params (s_ogparams f x) = debug_opt debug_generic_params x.
Proof. apply sp_opt. intro. apply sp_pu, sp_gparam. Qed.
Lemma sp_pred x : debug_predicate (s_pred f x) = debug_predicate x.
Proof.
  unfold debug_predicate. rewrite <- (sp_tokens (print_where_predicate x)). f_equal. unfold s_toks, print_where_predicate, s_pred, print_bound, s_bound.
  cbn [wp_left wp_bound gb_colon gb_tokens]. rewrite map_app. reflexivity.
Qed.
Lemma sp_where x : debug_opt debug_where (s_owhere f x) = debug_opt debug_where x.
Proof. apply sp_opt. intro. apply sp_pu, sp_pred. Qed.
Ltac sp := rewrite ?sp_attrs, ?sp_ovis, ?sp_gparams, ?sp_where, ?sp_ident, ?sp_punct, ?sp_gs, ?sp_type, ?sp_tok,
  ?(sp_opt _ _ _ sp_ident), ?(sp_opt _ _ _ sp_punct), ?(sp_opt _ _ _ sp_lit), ?(sp_opt _ _ _ sp_gs), ?(sp_opt _ _ _ sp_group), ?(sp_opt _ _ _ sp_type),
  ?(sp_opt _ _ _ sp_value), ?(sp_opt _ _ _ sp_bound).
Lemma sp_tfield x : debug_tuple_field (s_tfield f x) = debug_tuple_field x.
Proof. unfold debug_tuple_field, s_tfield. cbn [tf_attributes tf_vis tf_ty]. sp. reflexivity. Qed.
Lemma sp_nfield x : debug_named_field (s_nfield f x) = debug_named_field x.
Proof. unfold debug_named_field, s_nfield. cbn [nf_attributes nf_vis nf_name nf_colon nf_ty]. sp. reflexivity. Qed.
Lemma sp_nfields x : debug_named_fields (s_nfields f x) = debug_named_fields x.
Proof. apply sp_pu, sp_nfield. Qed.
Lemma sp_fields x : debug_fields (s_fields f x) = debug_fields x.
Proof. destruct x as [|t|n]; cbn [s_fields debug_fields]; [reflexivity|..]; do 2 f_equal; [apply sp_pu, sp_tfield|apply sp_nfields]. Qed.
Lemma sp_struct x : debug_struct (s_struct f x) = debug_struct x.
Proof. unfold debug_struct, s_struct. cbn [st_attributes st_vis st_struct st_name st_generics st_where st_fields st_semicolon]. sp. rewrite sp_fields. reflexivity. Qed.
Lemma sp_vvalue x : debug_variant_value (s_vvalue f x) = debug_variant_value x.
Proof. unfold debug_variant_value, s_vvalue. cbn [vv_equal vv_value]. sp. reflexivity. Qed.
Lemma sp_variant x : debug_variant (s_variant f x) = debug_variant x.
Proof. unfold debug_variant, s_variant. cbn [ev_attributes ev_vis ev_name ev_fields ev_value]. sp. rewrite sp_fields, (sp_opt _ _ _ sp_vvalue). reflexivity. Qed.
Lemma sp_enum x : debug_enum (s_enum f x) = debug_enum x.
Proof. unfold debug_enum, s_enum. cbn [en_attributes en_vis en_enum en_name en_generics en_where en_braces en_variants]. sp. rewrite (sp_pu _ _ _ sp_variant). reflexivity. Qed.
Lemma sp_union x : debug_union (s_union f x) = debug_union x.
Proof. unfold debug_union, s_union. cbn [un_attributes un_vis un_union un_name un_generics un_where un_fields]. sp. rewrite sp_nfields. reflexivity. Qed.
Lemma sp_constant x : debug_constant (s_constant f x) = debug_constant x.
Proof. unfold debug_constant, s_constant. cbn [co_attributes co_vis co_kw co_mut co_name co_colon co_ty co_equals co_init co_semicolon]. sp. reflexivity. Qed.
Lemma sp_alias x : debug_type_alias (s_alias f x) = debug_type_alias x.
Proof. unfold debug_type_alias, s_alias. cbn [ta_attributes ta_vis ta_type ta_name ta_bound ta_equals ta_init ta_semicolon]. sp. reflexivity. Qed.
Lemma sp_quals x : debug_qualifiers (s_quals f x) = debug_qualifiers x.
Proof. unfold debug_qualifiers, s_quals. cbn [fq_default fq_const fq_async fq_unsafe fq_extern fq_abi]. sp. reflexivity. Qed.
Lemma sp_lifetime x : debug_lifetime (s_lifetime f x) = debug_lifetime x.
Proof. unfold debug_lifetime, s_lifetime. cbn [lt_apostrophe lt_name]. sp. reflexivity. Qed.
Lemma sp_param x : debug_param (s_param f x) = debug_param x.
Proof.
  destruct x; cbn [s_param debug_param fr_attributes fr_ref fr_lifetime fr_mut fr_self ft_attributes ft_mut ft_name ft_colon ft_ty]; sp; rewrite ?(sp_opt _ _ _ sp_lifetime); reflexivity.
Qed.
Lemma sp_punct2 x : debug_punct2 (s_punct2 f x) = debug_punct2 x.
Proof. unfold debug_punct2, s_punct2. cbn [fst snd]. sp. reflexivity. Qed.
Lemma sp_function x : debug_function (s_function f x) = debug_function x.
Proof.
  unfold debug_function, s_function. cbn [fn_attributes fn_vis fn_qualifiers_ fn_kw fn_name fn_generics fn_parens fn_params fn_where fn_arrow fn_ret fn_semicolon fn_body].
  sp. rewrite sp_quals, (sp_pu _ _ _ sp_param), (sp_opt _ _ _ sp_punct2). reflexivity.
Qed.
Lemma sp_macro x : debug_macro (s_macro f x) = debug_macro x.
Proof.
  unfold debug_macro, s_macro. cbn [ma_attributes ma_name ma_bang ma_declared ma_group ma_inner ma_semicolon]. unfold s_toks. sp. rewrite (sp_vec _ _ _ sp_tok). reflexivity.
Qed.
Lemma sp_imember x : debug_impl_member (s_imember f x) = debug_impl_member x.
Proof. destruct x; cbn [s_imember debug_impl_member]; rewrite ?sp_function, ?sp_constant, ?sp_alias, ?sp_macro; reflexivity. Qed.
Lemma sp_tmember x : debug_trait_member (s_tmember f x) = debug_trait_member x.
Proof. destruct x; cbn [s_tmember debug_trait_member]; rewrite ?sp_function, ?sp_constant, ?sp_alias, ?sp_macro; reflexivity. Qed.
Lemma sp_trait x : debug_trait (s_trait f x) = debug_trait x.
Proof.
  unfold debug_trait, s_trait. cbn [tr_attributes tr_vis tr_unsafe tr_trait tr_name tr_generics tr_bound tr_where tr_braces tr_inner_attributes tr_items]. sp.
  rewrite (sp_vec _ _ _ sp_tmember). reflexivity.
Qed.
Lemma sp_impl x : debug_impl (s_impl f x) = debug_impl x.
Proof.
  unfold debug_impl, s_impl. cbn [im_attributes im_unsafe im_impl im_generics im_trait im_for im_self im_where im_braces im_inner_attributes im_items]. sp.
  rewrite (sp_vec _ _ _ sp_imember). reflexivity.
Qed.
Lemma sp_use x : debug_use (s_use f x) = debug_use x.
Proof. unfold debug_use, s_use. cbn [us_attributes us_vis us_use us_tree us_semicolon]. sp. reflexivity. Qed.
Lemma sp_eblock x : debug_extern_block (s_eblock f x) = debug_extern_block x.
Proof.
  unfold debug_extern_block, s_eblock. cbn [eb_attributes eb_vis eb_unsafe eb_extern eb_abi eb_braces eb_inner_attributes eb_items]. sp.
  rewrite (sp_vec _ _ _ sp_imember). reflexivity.
Qed.
Lemma sp_ecrate x : debug_extern_crate (s_ecrate f x) = debug_extern_crate x.
Proof. unfold debug_extern_crate, s_ecrate. cbn [ec_attributes ec_vis ec_extern ec_crate ec_name ec_as ec_alias ec_underscore ec_semicolon]. sp. reflexivity. Qed.
Theorem C84_no_spans (i : item) : debug_item (s_item f i) = debug_item i.
Proof.
  induction i as [m IH|i No] using item_nested_ind.
  - destruct m as [a v u k n s b ia ms]. cbn [mo_members] in IH. cbn [s_item debug_item]. sp.
    assert (E : map debug_item (map (s_item f) ms) = map debug_item ms) by (induction IH as [|x l Hx _ IHl]; [reflexivity|]; cbn [map]; rewrite Hx, IHl; reflexivity).
    rewrite E. reflexivity.
  - destruct i; cbn [s_item debug_item];
      rewrite ?sp_struct, ?sp_enum, ?sp_union, ?sp_trait, ?sp_impl, ?sp_alias, ?sp_function, ?sp_constant, ?sp_use, ?sp_macro, ?sp_eblock, ?sp_ecrate; try reflexivity; exfalso; eapply No; reflexivity.
Qed.
End Spans.

(** How options, lists and names are shown. *)
Theorem C84_wrappers {A} (d : A -> dbg) (x : A) (s : string) :
  plain (debug_opt d None) = Ret "None" /\ pretty (debug_opt d None) = Ret "None"
  /\ (plain (d x) = Ret s -> plain (debug_opt d (Some x)) = Ret (String.append "Some(" (String.append s ")")))
  /\ plain (debug_vec d []) = Ret "[]"
  /\ (plain (d x) = Ret s -> plain (debug_vec d [x]) = Ret (String.append "[" (String.append s "]")))
  /\ (forall i : ident, plain (debug_ident i) = Ret (String.append "Ident(" (String.append (id_str i) ")"))).
Proof.
  repeat split; try reflexivity; intro H; cbn [debug_opt debug_vec map plain all_ret] in *; rewrite ?H; reflexivity.
Qed.
Example C84_wrappers_example :
  plain (debug_opt debug_ident (Some (ident_new "ab"))) = Ret "Some(Ident(ab))"
  /\ plain (debug_vec debug_ident [ident_new "ab"]) = Ret "[Ident(ab)]".
Proof. split; reflexivity. Qed.

(** Without the condition on literals the output does not determine the item: a punctuation
    character is shown like the string of that character. *)
Theorem C84_literal_refuted : exists i j,
  parse_item (print_item i) = Ret (Ok i) /\ parse_item (print_item j) = Ret (Ok j)
  /\ debug_item i = debug_item j /\ bare i <> bare j.
Proof.
  exists (item_of "const A: T = +;"),
    (item_of (String.append "const A: T = " (String quote_str (String "+" (String quote_str ";"))))).
  vm_compute. repeat split; discriminate.
Qed.
(** Nor does the text if visibilities are empty: [pub()] is shown like [pub]. *)
Theorem C84_text_refuted : exists i j,
  parse_item (print_item i) = Ret (Ok i) /\ parse_item (print_item j) = Ret (Ok j)
  /\ ap (print_item i) = true /\ ap (print_item j) = true
  /\ pretty (debug_item i) = pretty (debug_item j) /\ plain (debug_item i) = plain (debug_item j) /\ bare i <> bare j.
Proof.
  exists (item_of "pub struct A;"), (item_of "pub() struct A;"). vm_compute. repeat split; discriminate.
Qed.
Example C84_example :
  let i := item_of "mod m { #![x] pub(crate) struct S<'a, const N: u8, T: X>(A<B, C>, D) where T: Y; impl<T> A for B { fn f(&self, x: u8,) -> u8 where A: B, {} } enum E { A = 1, B { x: u8 } } }" in
  let j := item_of "mod m { #![x] pub(crate) struct S<'a, const N : u8, T: X,>(A<B, C>, D,) where T: Y; impl<T> A for B { fn f(&self, x: u8) -> u8 where A: B {} } enum E { A=1, B { x: u8 }, } }" in
  parse_item (print_item i) = Ret (Ok i) /\ parse_item (print_item j) = Ret (Ok j)
  /\ ap (print_item i) = true /\ ap (print_item j) = true /\ i <> j /\ debug_item i = debug_item j /\ bare i = bare j.
Proof. vm_compute. repeat split; discriminate. Qed.

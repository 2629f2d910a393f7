(** C62: the parser sees keywords, punctuation characters and delimiters, and nothing else. *)
From Verif Require Import Debug PrintSpells Samples PropRoundTrip Blind.
Local Open Scope string_scope.
Local Open Scope list_scope.

Local Arguments consume_attributes_with_inner expect_inner !ts.

Section Blind.
Variable f : subst.
Hypothesis adm : admissible f.
Notation RB s := (s_ret (s_both f s)).

Lemma bl_id k i : In k keywords -> id_is k (s_ident f i) = id_is k i.
Proof.
  intro H. unfold id_is. cbn. destruct adm as [A _]. specialize (A i k H).
  destruct (String.eqb_spec (id_str i) k), (String.eqb_spec (new_name f i) k); auto; exfalso; tauto.
Qed.
Lemma bl_p c p : p_is c (s_punct f p) = p_is c p. Proof. reflexivity. Qed.
Lemma bl_comma : s_punct f (punct_new "," Alone) = punct_new "," Alone.
Proof. destruct adm as (_ & A & B). unfold s_punct, punct_new. cbn [p_char p_span]. rewrite A, B. reflexivity. Qed.
Lemma bl_is_punct c t : is_punct c (s_tok f t) = is_punct c t.
Proof. destruct t as [[]| | |]; reflexivity. Qed.
Lemma bl_is_group d t : is_group d (s_tok f t) = is_group d t.
Proof. destruct t as [[]| | |]; reflexivity. Qed.
Lemma bl_is_ident k t : In k keywords -> is_ident k (s_tok f t) = is_ident k t.
Proof. intro H. destruct t as [[]| | |]; try reflexivity. apply bl_id, H. Qed.
Lemma bl_span t : tok_span (s_tok f t) = new_span f (tok_span t).
Proof. destruct t as [[]| | |]; reflexivity. Qed.
Lemma bl_length ts : List.length (s_toks f ts) = List.length ts.
Proof. apply map_length. Qed.
Lemma bl_fuel ts : loop_fuel (s_toks f ts) = loop_fuel ts.
Proof. unfold loop_fuel. rewrite bl_length. reflexivity. Qed.
Lemma bl_depth_tok : forall t, tok_depth (s_tok f t) = tok_depth t.
Proof.
  fix IH 1. intros [[d s sp]|i|p|l]; try reflexivity. cbn. f_equal.
  induction s as [|x s IHs]; [reflexivity|]. cbn. rewrite IH. f_equal. exact IHs.
Qed.
Lemma bl_depth ts : toks_depth (s_toks f ts) = toks_depth ts.
Proof. induction ts as [|t ts IH]; [reflexivity|]. cbn. rewrite bl_depth_tok. f_equal. exact IH. Qed.

(** Sequencing. *)
Lemma bl_bind {A A' B B'} (a : A -> A') (b : B -> B') m k k' :
  (forall x, k' (a x) = s_ret b (k x)) -> bind (s_ret a m) k' = s_ret b (bind m k).
Proof. intro H. destruct m; cbn; auto. Qed.

Ltac kw := first [apply bl_id | apply bl_is_ident]; cbn; tauto.
Ltac ids := repeat match goal with
  | |- context [id_is ?k (s_ident f ?i)] => rewrite (bl_id k i) by (cbn; tauto)
  | |- context [is_ident ?k (s_tok f ?i)] => rewrite (bl_is_ident k i) by (cbn; tauto)
  end.
Ltac ifs := repeat match goal with |- context [if ?b then _ else _] => lazymatch b with context [if _ then _ else _] => fail | _ => destruct b end end.
(** Case analysis on the shape of the next token. *)
Ltac next ts := destruct ts as [|[[gd gs gsp]|ti|tp|tli] tl].
Ltac next2 ts := destruct ts as [|[[gd2 gs2 gsp2]|ti2|tp2|tli2] tl2].

(** ** parse_utils.rs *)
Lemma bl_parse_any_ident c ts : parse_any_ident c (s_toks f ts) = RB (s_ident f) (parse_any_ident c ts).
Proof. next ts; reflexivity. Qed.
Lemma bl_parse_ident k c ts : In k keywords -> parse_ident k c (s_toks f ts) = RB (s_ident f) (parse_ident k c ts).
Proof. intro H. next ts; try reflexivity. cbn -[id_is]. rewrite bl_id by auto. destruct (id_is k ti); reflexivity. Qed.
Lemma bl_consume_any_ident ts : consume_any_ident (s_toks f ts) = s_both f (option_map (s_ident f)) (consume_any_ident ts).
Proof. next ts; reflexivity. Qed.
Lemma bl_consume_ident k ts : In k keywords -> consume_ident k (s_toks f ts) = s_both f (option_map (s_ident f)) (consume_ident k ts).
Proof. intro H. next ts; try reflexivity. cbn -[id_is]. rewrite bl_id by auto. destruct (id_is k ti); reflexivity. Qed.
Lemma bl_parse_punct c s ts : parse_punct c s (s_toks f ts) = RB (s_punct f) (parse_punct c s ts).
Proof. next ts; try reflexivity. cbn -[p_is]. rewrite bl_p. destruct (p_is c tp); reflexivity. Qed.
Lemma bl_consume_punct c ts : consume_punct c (s_toks f ts) = s_both f (option_map (s_punct f)) (consume_punct c ts).
Proof. next ts; try reflexivity. cbn -[p_is]. rewrite bl_p. destruct (p_is c tp); reflexivity. Qed.
Lemma bl_consume_comma ts : consume_comma (s_toks f ts) = s_both f (option_map (s_punct f)) (consume_comma ts).
Proof. apply bl_consume_punct. Qed.
Lemma bl_consume_literal ts : consume_literal (s_toks f ts) = s_both f (option_map (s_lit f)) (consume_literal ts).
Proof. next ts; reflexivity. Qed.
Lemma bl_attribute_path ts : attribute_path (s_toks f ts) = RB (s_toks f) (attribute_path ts).
Proof.
  induction ts as [|[[d s sp]|i|p|l] ts IH]; try reflexivity; cbn -[p_is]; fold (s_toks f ts); rewrite IH.
  - destruct (attribute_path ts) as [[]| |]; reflexivity.
  - rewrite !bl_p. destruct (p_is "=" p); [reflexivity|]. destruct (p_is ":" p); [|reflexivity].
    destruct (attribute_path ts) as [[]| |]; reflexivity.
Qed.
Lemma bl_attribute_value ts : attribute_value_of (s_toks f ts) = s_ret (s_value f) (attribute_value_of ts).
Proof. next ts; try reflexivity. cbn -[p_is]. rewrite bl_p. destruct (p_is "=" tp); reflexivity. Qed.
Lemma bl_parse_attribute h b g :
  parse_attribute (s_punct f h) (option_map (s_punct f) b) (s_group f g) = s_ret (s_attr f) (parse_attribute h b g).
Proof.
  unfold parse_attribute. destruct g as [d s sp]. cbn [s_group g_stream g_delim g_span]. rewrite bl_attribute_path.
  apply bl_bind. intros [path rest]. cbn [s_both fst snd]. rewrite bl_attribute_value. apply bl_bind. intro v. reflexivity.
Qed.
Lemma bl_attributes inner ts :
  consume_attributes_with_inner inner (s_toks f ts) = RB (s_attrs f) (consume_attributes_with_inner inner ts).
Proof.
  revert ts. assert (G : forall n ts, List.length ts <= n ->
    consume_attributes_with_inner inner (s_toks f ts) = RB (s_attrs f) (consume_attributes_with_inner inner ts)).
  { induction n as [|n IH]; intros ts Hn.
    - destruct ts; [reflexivity|cbn in Hn; lia].
    - destruct ts as [|[[]|i|hash|l] r]; try reflexivity. cbn -[p_is delim_eqb]. rewrite bl_p. fold (s_toks f r).
      destruct (p_is "#" hash); [|reflexivity]. destruct inner.
      + destruct r as [|[[d s sp]|i|bang|l] r]; try reflexivity; cbn -[p_is delim_eqb].
        * destruct (delim_eqb d Bracket); reflexivity.
        * rewrite bl_p. destruct (p_is "!" bang); [|reflexivity]. destruct r as [|[[d s sp]|i|p|l] r]; try reflexivity.
          cbn -[p_is delim_eqb]. destruct (delim_eqb d Bracket); [|reflexivity].
          change (Some (s_punct f bang)) with (option_map (s_punct f) (Some bang)).
          change (mkGroup d (map (s_tok f) s) (new_span f sp)) with (s_group f (mkGroup d s sp)).
          rewrite bl_parse_attribute. apply bl_bind. intro a. fold (s_toks f r). rewrite IH by (cbn in Hn; lia).
          apply bl_bind. intros [l rest]. reflexivity.
      + destruct r as [|[[d s sp]|i|bang|l] r]; try reflexivity; cbn -[p_is delim_eqb].
        destruct (delim_eqb d Bracket); [|reflexivity].
        change None with (option_map (s_punct f) None) at 1.
        change (mkGroup d (map (s_tok f) s) (new_span f sp)) with (s_group f (mkGroup d s sp)).
        rewrite bl_parse_attribute. apply bl_bind. intro a. fold (s_toks f r). rewrite IH by (cbn in Hn; lia).
        apply bl_bind. intros [l rest]. reflexivity. }
  intro ts. apply (G _ ts (le_n _)).
Qed.
Lemma bl_outer ts : consume_outer_attributes (s_toks f ts) = RB (s_attrs f) (consume_outer_attributes ts).
Proof. apply bl_attributes. Qed.
Lemma bl_inner ts : consume_inner_attributes (s_toks f ts) = RB (s_attrs f) (consume_inner_attributes ts).
Proof. apply bl_attributes. Qed.
Lemma bl_vis ts : consume_vis_marker (s_toks f ts) = s_both f (s_ovis f) (consume_vis_marker ts).
Proof.
  next ts; try reflexivity. cbn -[id_is delim_eqb]. ids. destruct (id_is "pub" ti).
  - next2 tl; try reflexivity. cbn -[delim_eqb]. destruct (delim_eqb gd2 Parenthesis); reflexivity.
  - destruct (id_is "crate" ti); reflexivity.
Qed.
(** A test on tokens that the substitution does not change. *)
Definition blind (pr : tok -> bool) : Prop := forall t, pr (s_tok f t) = pr t.
Lemma bl_stuff_loop pr : blind pr -> forall ts bc d,
  stuff_loop pr bc d (s_toks f ts) = let '(out, met, rest) := stuff_loop pr bc d ts in (s_toks f out, met, s_toks f rest).
Proof.
  intro H. induction ts as [|t ts IH]; intros bc d; [reflexivity|].
  cbn -[Z.ltb Z.eqb Z.add Z.sub is_punct]. rewrite !bl_is_punct, H. fold (s_toks f ts). rewrite !IH.
  destruct (is_punct "<" t).
  - destruct (Z.ltb (bc + 1) 0); [reflexivity|]. destruct (stuff_loop pr (bc + 1) false ts) as [[? ?] ?]; reflexivity.
  - destruct (is_punct ">" t && negb d).
    + destruct (Z.ltb (bc - 1) 0); [reflexivity|]. destruct (stuff_loop pr (bc - 1) false ts) as [[? ?] ?]; reflexivity.
    + destruct (is_punct "-" t).
      * destruct (Z.ltb bc 0); [reflexivity|]. destruct (stuff_loop pr bc true ts) as [[? ?] ?]; reflexivity.
      * destruct (pr t && Z.eqb bc 0); [reflexivity|]. destruct (Z.ltb bc 0); [reflexivity|].
        destruct (stuff_loop pr bc false ts) as [[? ?] ?]; reflexivity.
Qed.
Lemma bl_stuff pr must ts : blind pr -> consume_stuff_until pr must (s_toks f ts) = RB (s_toks f) (consume_stuff_until pr must ts).
Proof.
  intro H. unfold consume_stuff_until. rewrite bl_stuff_loop by auto. destruct (stuff_loop pr 0 false ts) as [[out met] rest].
  destruct (must && negb met); [|reflexivity]. next rest; try reflexivity. cbn -[p_is]. rewrite bl_p. destruct (p_is ">" tp); reflexivity.
Qed.
Lemma blind_punct c : blind (is_punct c). Proof. intro t. apply bl_is_punct. Qed.
Ltac blind_tac := let t := fresh in intro t; rewrite ?bl_is_punct, ?bl_is_group; ids; reflexivity.
Lemma blind_end_generic_param : blind end_generic_param. Proof. unfold end_generic_param. blind_tac. Qed.
Lemma blind_end_where_bound : blind end_where_bound. Proof. unfold end_where_bound. blind_tac. Qed.
Lemma blind_end_fn_return : blind end_fn_return. Proof. unfold end_fn_return. blind_tac. Qed.
Lemma blind_end_eq_or_semi : blind end_eq_or_semi. Proof. unfold end_eq_or_semi. blind_tac. Qed.
Lemma blind_end_semi : blind end_semi. Proof. unfold end_semi. blind_tac. Qed.
Lemma blind_end_impl_ty : blind end_impl_ty. Proof. unfold end_impl_ty. blind_tac. Qed.
Lemma blind_end_impl_self_ty : blind end_impl_self_ty. Proof. unfold end_impl_self_ty. blind_tac. Qed.
Lemma blind_end_trait_bound : blind end_trait_bound. Proof. unfold end_trait_bound. blind_tac. Qed.

(** ** parse_type.rs *)
Lemma bl_push {A} (s : A -> A) p x c : pu_push (s_pu f s p) (s x) (option_map (s_punct f) c) = s_pu f s (pu_push p x c).
Proof.
  unfold pu_push, s_pu. cbn [pu_inner pu_skip_last]. rewrite map_app. cbn [map fst snd].
  destruct c; cbn [option_map]; [reflexivity|]. rewrite bl_comma. reflexivity.
Qed.
Lemma bl_punct_loop {A} (s : A -> A) stop elem :
  (forall ts, stop (s_toks f ts) = stop ts) -> (forall ts, elem (s_toks f ts) = RB (s) (elem ts)) ->
  forall fuel acc ts, punct_loop stop elem fuel (s_pu f s acc) (s_toks f ts) = RB (s_pu f s) (punct_loop stop elem fuel acc ts).
Proof.
  intros Hs He. induction fuel as [|fuel IH]; intros acc ts; [reflexivity|]. cbn [punct_loop]. rewrite Hs.
  destruct (stop ts) as [b| |]; [|reflexivity|reflexivity]. cbn [bind]. destruct b; [reflexivity|].
  rewrite He. apply bl_bind. intros [x r]. cbn [s_both fst snd]. rewrite bl_consume_comma.
  destruct (consume_comma r) as [comma r2]. cbn [s_both fst snd]. rewrite bl_push. apply IH.
Qed.
Lemma bl_punct_loop' {A} (s : A -> A) stop elem ts :
  (forall ts, stop (s_toks f ts) = stop ts) -> (forall ts, elem (s_toks f ts) = RB (s) (elem ts)) ->
  punct_loop stop elem (loop_fuel (s_toks f ts)) pu_new (s_toks f ts) = RB (s_pu f s) (punct_loop stop elem (loop_fuel ts) pu_new ts).
Proof. intros. rewrite bl_fuel. change pu_new with (s_pu f s pu_new) at 1. apply bl_punct_loop; auto. Qed.
Lemma bl_stop_at_end ts : stop_at_end (s_toks f ts) = stop_at_end ts.
Proof. destruct ts; reflexivity. Qed.
Lemma bl_bound pr ts : blind pr -> consume_bound pr (s_toks f ts) = RB (option_map (s_bound f)) (consume_bound pr ts).
Proof.
  intro H. destruct ts as [|t ts]; [reflexivity|]. cbn [s_toks map consume_bound]. fold (s_toks f ts). rewrite H.
  destruct t as [[]|i|p|l]; cbn -[p_is consume_stuff_until]; try (destruct (pr _); reflexivity).
  rewrite bl_p. destruct (p_is ":" p); [|destruct (pr _); reflexivity]. rewrite bl_stuff by auto. apply bl_bind. intros []. reflexivity.
Qed.
Lemma bl_gparam ts : parse_generic_param (s_toks f ts) = RB (s_gparam f) (parse_generic_param ts).
Proof.
  unfold parse_generic_param.
  set (pre := fun ts => match ts with
    | [] => Panic PGenericParamsEnd
    | t :: r => match t with
        | TPunct p => if p_is "'" p then Ret (Some t, r) else Panic PGenericParamsToken
        | TIdent i => if id_is "const" i then Ret (Some t, r) else Ret (None, ts)
        | _ => Panic PGenericParamsToken
        end end : outcome (option tok * list tok)).
  change (bind (pre (s_toks f ts)) (fun '(prefix, ts) => do (name, ts) <- parse_any_ident "generic param name" ts ;;
     do (bound, ts) <- consume_bound end_generic_param ts ;; Ret (mkGenericParam prefix name bound, ts))
   = RB (s_gparam f) (bind (pre ts) (fun '(prefix, ts) => do (name, ts) <- parse_any_ident "generic param name" ts ;;
     do (bound, ts) <- consume_bound end_generic_param ts ;; Ret (mkGenericParam prefix name bound, ts)))).
  assert (P : pre (s_toks f ts) = RB (option_map (s_tok f)) (pre ts)).
  { next ts; try reflexivity; cbn -[id_is p_is]; ids; rewrite ?bl_p; [destruct (id_is "const" ti)|destruct (p_is "'" tp)]; reflexivity. }
  rewrite P. apply bl_bind. intros [prefix r]. cbn [s_both fst snd]. rewrite bl_parse_any_ident. apply bl_bind. intros [name r2].
  cbn [s_both fst snd]. rewrite bl_bound by apply blind_end_generic_param. apply bl_bind. intros [b r3]. reflexivity.
Qed.
Lemma bl_gparams ts : consume_generic_params (s_toks f ts) = RB (s_ogparams f) (consume_generic_params ts).
Proof.
  unfold consume_generic_params. rewrite bl_consume_punct. destruct (consume_punct "<" ts) as [[l|] r]; [|reflexivity].
  cbn [s_both fst snd option_map]. rewrite (bl_punct_loop' (s_gparam f)).
  - apply bl_bind. intros [ps r2]. cbn [s_both fst snd]. next r2; reflexivity.
  - intro t. destruct t as [|t ?]; [reflexivity|]. cbn -[is_punct]. rewrite bl_is_punct. reflexivity.
  - apply bl_gparam.
Qed.
Lemma bl_lifetime b ts : consume_lifetime b (s_toks f ts) = RB (option_map (s_lifetime f)) (consume_lifetime b ts).
Proof.
  unfold consume_lifetime. rewrite bl_consume_punct. destruct (consume_punct "'" ts) as [[p|] r]; [|reflexivity].
  cbn [s_both fst snd option_map]. next r; try reflexivity. destruct b; [|reflexivity]. destruct tl; reflexivity.
Qed.
Lemma bl_pred ts : parse_where_predicate (s_toks f ts) = RB (s_pred f) (parse_where_predicate ts).
Proof.
  unfold parse_where_predicate. rewrite bl_stuff by apply blind_punct. apply bl_bind. intros [lhs r]. cbn [s_both fst snd].
  next r; try reflexivity. cbn -[p_is consume_stuff_until]. rewrite bl_p. destruct (p_is ":" tp); [|reflexivity].
  fold (s_toks f tl). rewrite bl_stuff by apply blind_end_where_bound. apply bl_bind. intros []. reflexivity.
Qed.
Lemma bl_where ts : consume_where_clause (s_toks f ts) = RB (s_owhere f) (consume_where_clause ts).
Proof.
  unfold consume_where_clause. rewrite bl_consume_ident by (cbn; tauto). destruct (consume_ident "where" ts) as [[k|] r]; [|reflexivity].
  cbn [s_both fst snd option_map]. rewrite (bl_punct_loop' (s_pred f)).
  - apply bl_bind. intros [ps r2]. reflexivity.
  - intro t. destruct t as [|t ?]; [reflexivity|]. cbn -[is_punct is_group]. rewrite bl_is_punct, bl_is_group. reflexivity.
  - apply bl_pred.
Qed.
Lemma bl_field_type ts : consume_field_type (s_toks f ts) = RB (s_toks f) (consume_field_type ts).
Proof.
  unfold consume_field_type. rewrite bl_stuff by apply blind_punct. apply bl_bind. intros [ty r]. cbn [s_both fst snd].
  destruct ty; [|reflexivity]. cbn [s_toks map]. rewrite bl_consume_comma. destruct (consume_comma r) as [[]]; reflexivity.
Qed.
Lemma bl_tfield ts : parse_tuple_field (s_toks f ts) = RB (s_tfield f) (parse_tuple_field ts).
Proof.
  unfold parse_tuple_field. rewrite bl_outer. apply bl_bind. intros [at_ r]. cbn [s_both fst snd]. rewrite bl_vis.
  destruct (consume_vis_marker r) as [v r2]. cbn [s_both fst snd]. rewrite bl_field_type. apply bl_bind. intros []. reflexivity.
Qed.
Lemma bl_nfield ts : parse_named_field (s_toks f ts) = RB (s_nfield f) (parse_named_field ts).
Proof.
  unfold parse_named_field. rewrite bl_outer. apply bl_bind. intros [at_ r]. cbn [s_both fst snd]. rewrite bl_vis.
  destruct (consume_vis_marker r) as [v r2]. cbn [s_both fst snd]. rewrite bl_parse_any_ident. apply bl_bind. intros [n r3]. cbn [s_both fst snd].
  rewrite bl_parse_punct. apply bl_bind. intros [c r4]. cbn [s_both fst snd]. rewrite bl_field_type. apply bl_bind. intros []. reflexivity.
Qed.
Lemma bl_tfields g : parse_tuple_fields (s_group f g) = s_ret (s_tfields f) (parse_tuple_fields g).
Proof.
  unfold parse_tuple_fields. destruct g as [d s sp]. cbn [s_group g_stream g_delim g_span].
  rewrite (bl_punct_loop' (s_tfield f)) by (apply bl_stop_at_end || apply bl_tfield). apply bl_bind. intros []. reflexivity.
Qed.
Lemma bl_nfields g : parse_named_fields (s_group f g) = s_ret (s_nfields f) (parse_named_fields g).
Proof.
  unfold parse_named_fields. destruct g as [d s sp]. cbn [s_group g_stream g_delim g_span].
  rewrite (bl_punct_loop' (s_nfield f)) by (apply bl_stop_at_end || apply bl_nfield). apply bl_bind. intros []. reflexivity.
Qed.
Ltac group := match goal with |- context [mkGroup ?d (map (s_tok f) ?s) (new_span f ?sp)] =>
  change (mkGroup d (map (s_tok f) s) (new_span f sp)) with (s_group f (mkGroup d s sp)) end.
Lemma bl_vfields ts : parse_variant_fields (s_toks f ts) = RB (s_fields f) (parse_variant_fields ts).
Proof.
  next ts; try reflexivity.
  - cbn -[parse_tuple_fields parse_named_fields delim_eqb]. group. rewrite bl_tfields, bl_nfields.
    destruct (delim_eqb gd Parenthesis); [|destruct (delim_eqb gd Brace); [|reflexivity]]; apply bl_bind; reflexivity.
  - cbn -[p_is]. rewrite !bl_p. destruct (p_is "," tp || p_is "=" tp); reflexivity.
Qed.
Lemma bl_discriminant ts : consume_enum_discriminant (s_toks f ts) = RB (s_result f (option_map (s_vvalue f))) (consume_enum_discriminant ts).
Proof.
  unfold consume_enum_discriminant. rewrite bl_consume_punct. destruct (consume_punct "=" ts) as [[eq|] r]; [|reflexivity].
  cbn [s_both fst snd option_map]. destruct r as [|v r]; [reflexivity|]. cbn [s_toks map]. destruct r as [|t r]; [reflexivity|].
  cbn [map]. rewrite bl_is_punct. destruct (is_punct "," t); [reflexivity|]. rewrite bl_span. reflexivity.
Qed.
Lemma bl_variants_loop : forall fuel acc ts,
  enum_variants_loop fuel (s_pu f (s_variant f) acc) (s_toks f ts) = s_ret (s_result f (s_pu f (s_variant f))) (enum_variants_loop fuel acc ts).
Proof.
  induction fuel as [|fuel IH]; intros acc ts; [reflexivity|]. cbn [enum_variants_loop]. destruct ts as [|t ts]; [reflexivity|].
  cbn [s_toks map]. change (s_tok f t :: map (s_tok f) ts) with (s_toks f (t :: ts)). rewrite bl_outer. apply bl_bind. intros [at_ r]. cbn [s_both fst snd].
  rewrite bl_vis. destruct (consume_vis_marker r) as [v r2]. cbn [s_both fst snd]. rewrite bl_parse_any_ident. apply bl_bind. intros [n r3].
  cbn [s_both fst snd]. rewrite bl_vfields. apply bl_bind. intros [fs r4]. cbn [s_both fst snd]. rewrite bl_discriminant. apply bl_bind. intros [d r5].
  cbn [s_both fst snd]. rewrite bl_consume_comma. destruct (consume_comma r5) as [c r6]. cbn [s_both fst snd]. destruct d as [d|e]; [|reflexivity].
  cbn [s_result]. match goal with |- context [pu_push _ ?x _] => change x with (s_variant f (mkVariant at_ v n fs d)) end.
  rewrite bl_push. apply IH.
Qed.
Lemma bl_variants ts : parse_enum_variants (s_toks f ts) = s_ret (s_result f (s_pu f (s_variant f))) (parse_enum_variants ts).
Proof. unfold parse_enum_variants. rewrite bl_fuel. change pu_new with (s_pu f (s_variant f) pu_new) at 1. apply bl_variants_loop. Qed.

(** ** parse_fn.rs *)
Lemma bl_some {A B} (s : A -> B) o : is_some (option_map s o) = is_some o. Proof. destruct o; reflexivity. Qed.
Lemma bl_none {A B} (s : A -> B) o : is_none (option_map s o) = is_none o. Proof. destruct o; reflexivity. Qed.
Lemma bl_quals ts : consume_fn_qualifiers (s_toks f ts) = s_both f (s_quals f) (consume_fn_qualifiers ts).
Proof.
  unfold consume_fn_qualifiers.
  rewrite bl_consume_ident by (cbn; tauto). destruct (consume_ident "default" ts) as [o1 r1]. cbn [s_both fst snd].
  rewrite bl_consume_ident by (cbn; tauto). destruct (consume_ident "const" r1) as [o2 r2]. cbn [s_both fst snd].
  rewrite bl_consume_ident by (cbn; tauto). destruct (consume_ident "async" r2) as [o3 r3]. cbn [s_both fst snd].
  rewrite bl_consume_ident by (cbn; tauto). destruct (consume_ident "unsafe" r3) as [o4 r4]. cbn [s_both fst snd].
  rewrite bl_consume_ident by (cbn; tauto). destruct (consume_ident "extern" r4) as [[o5|] r5]; cbn [s_both fst snd option_map]; [|reflexivity].
  rewrite bl_consume_literal. destruct (consume_literal r5) as [o6 r6]. reflexivity.
Qed.
Lemma bl_xor q : has_only_const_xor_unsafe (s_quals f q) = has_only_const_xor_unsafe q.
Proof. unfold has_only_const_xor_unsafe. cbn [s_quals fq_default fq_const fq_async fq_unsafe fq_extern fq_abi]. rewrite !bl_some, !bl_none. reflexivity. Qed.
Lemma bl_param ts : parse_fn_param (s_toks f ts) = RB (s_param f) (parse_fn_param ts).
Proof.
  unfold parse_fn_param. rewrite bl_outer. apply bl_bind. intros [at_ r]. cbn [s_both fst snd]. rewrite bl_consume_punct.
  destruct (consume_punct "&" r) as [rf r2]. cbn [s_both fst snd]. rewrite bl_lifetime. apply bl_bind. intros [lt r3]. cbn [s_both fst snd].
  rewrite bl_consume_ident by (cbn; tauto). destruct (consume_ident "mut" r3) as [mu r4]. cbn [s_both fst snd].
  rewrite bl_consume_ident by (cbn; tauto). destruct (consume_ident "self" r4) as [[se|] r5]; cbn [s_both fst snd option_map]; [reflexivity|].
  rewrite bl_parse_any_ident. apply bl_bind. intros [n r6]. cbn [s_both fst snd].
  rewrite bl_parse_punct. apply bl_bind. intros [c r7]. cbn [s_both fst snd]. rewrite bl_field_type. apply bl_bind. intros []. reflexivity.
Qed.
Lemma bl_params ts : parse_fn_params (s_toks f ts) = s_ret (s_pu f (s_param f)) (parse_fn_params ts).
Proof.
  unfold parse_fn_params. rewrite (bl_punct_loop' (s_param f)) by (apply bl_stop_at_end || apply bl_param). apply bl_bind. intros []. reflexivity.
Qed.
Definition s_return (x : (punct * punct) * type_expr) := (s_punct2 f (fst x), s_type f (snd x)).
Lemma bl_fn_return ts : consume_fn_return (s_toks f ts) = RB (option_map s_return) (consume_fn_return ts).
Proof.
  unfold consume_fn_return. rewrite bl_consume_punct. destruct (consume_punct "-" ts) as [[p|] r]; cbn [s_both fst snd option_map]; [|reflexivity].
  next r; try reflexivity. cbn -[p_is consume_stuff_until]. rewrite bl_p. destruct (p_is ">" tp); [|reflexivity]. fold (s_toks f tl).
  rewrite bl_stuff by apply blind_end_fn_return. apply bl_bind. intros []. reflexivity.
Qed.
Definition s_nf (r : result ident not_function) : result ident not_function := match r with Ok i => Ok (s_ident f i) | Err e => Err e end.
Lemma bl_classify q ts : classify_fn (s_quals f q) (s_toks f ts) = RB (s_nf) (classify_fn q ts).
Proof.
  next ts; try reflexivity; cbn -[id_is has_only_const_xor_unsafe delim_eqb]; rewrite ?bl_xor, ?bl_some; ids; ifs; reflexivity.
Qed.
Lemma bl_parens ts : parse_fn_parens (s_toks f ts) = RB (fun x => (s_pu f (s_param f) (fst x), s_gs f (snd x))) (parse_fn_parens ts).
Proof.
  next ts; try reflexivity. cbn -[parse_fn_params delim_eqb]. destruct (delim_eqb gd Parenthesis); [|reflexivity].
  fold (s_toks f gs). rewrite bl_params. apply bl_bind. reflexivity.
Qed.
Lemma bl_body ts : parse_fn_body (s_toks f ts) = RB (fun x => (option_map (s_group f) (fst x), option_map (s_punct f) (snd x))) (parse_fn_body ts).
Proof. next ts; try reflexivity; cbn -[p_is delim_eqb]; rewrite ?bl_p; ifs; reflexivity. Qed.
Definition s_fnres (r : result function not_function) : result function not_function := match r with Ok i => Ok (s_function f i) | Err e => Err e end.
Lemma bl_fn at_ v ts : consume_fn (s_attrs f at_) (s_ovis f v) (s_toks f ts) = RB (s_fnres) (consume_fn at_ v ts).
Proof.
  unfold consume_fn. rewrite bl_quals. destruct (consume_fn_qualifiers ts) as [q r]. cbn [s_both fst snd]. rewrite bl_classify.
  apply bl_bind. intros [[kw|nf] r1]; cbn [s_both fst snd s_nf]; [|reflexivity].
  unfold consume_item_name. rewrite bl_parse_any_ident. apply bl_bind. intros [n r2]. cbn [s_both fst snd].
  rewrite bl_gparams. apply bl_bind. intros [g r3]. cbn [s_both fst snd]. rewrite bl_parens. apply bl_bind. intros [[ps gs] r4]. cbn [s_both fst snd].
  rewrite bl_fn_return. apply bl_bind. intros [rt r5]. cbn [s_both fst snd]. rewrite bl_where. apply bl_bind. intros [w r6]. cbn [s_both fst snd].
  rewrite bl_body. apply bl_bind. intros [[bd se] r7]. cbn [s_both fst snd]. destruct rt as [[[]]|]; reflexivity.
Qed.
Lemma bl_macro_inner at_ ts : consume_macro_inner (s_attrs f at_) (s_toks f ts) = RB (option_map (s_macro f)) (consume_macro_inner at_ ts).
Proof.
  unfold consume_macro_inner. rewrite bl_consume_any_ident. destruct (consume_any_ident ts) as [[n|] r]; cbn [s_both fst snd option_map]; [|reflexivity].
  rewrite bl_consume_punct. destruct (consume_punct "!" r) as [[b|] r2]; cbn [s_both fst snd option_map]; [|reflexivity].
  rewrite bl_consume_any_ident. destruct (consume_any_ident r2) as [d r3]; cbn [s_both fst snd]. next r3; try reflexivity.
  cbn -[parse_punct delim_eqb]. destruct (delim_eqb gd Parenthesis); [|destruct (delim_eqb gd Brace); reflexivity].
  fold (s_toks f tl). rewrite bl_parse_punct. apply bl_bind. intros []. reflexivity.
Qed.
Lemma bl_macro at_ ts : consume_macro (s_attrs f at_) (s_toks f ts) = RB (option_map (s_macro f)) (consume_macro at_ ts).
Proof. unfold consume_macro. rewrite bl_macro_inner. apply bl_bind. intros [[m|] r]; reflexivity. Qed.

(** ** parse_impl.rs, parse_mod.rs, parse_extern.rs, parse.rs *)
Lemma bl_constant at_ v ts : parse_const_or_static (s_attrs f at_) (s_ovis f v) (s_toks f ts) = RB (s_constant f) (parse_const_or_static at_ v ts).
Proof.
  unfold parse_const_or_static.
  match goal with |- bind ?m' _ = RB (_) (bind ?m _) => assert (P : m' = RB (fun x => (s_ident f (fst x), snd x)) m) end.
  { next ts; try reflexivity. cbn -[id_is]. ids. ifs; reflexivity. }
  rewrite P. apply bl_bind. intros [[kw c] r]. cbn [s_both fst snd].
  match goal with |- bind ?m' _ = RB (_) (bind ?m _) => assert (P2 : m' = s_ret (option_map (s_ident f)) m) end.
  { next r; try reflexivity. cbn -[id_is]. ids. ifs; reflexivity. }
  rewrite P2. apply bl_bind. intro mu. rewrite bl_parse_any_ident. apply bl_bind. intros [n r2]. cbn [s_both fst snd].
  rewrite bl_parse_punct. apply bl_bind. intros [co r3]. cbn [s_both fst snd]. rewrite bl_stuff by apply blind_end_eq_or_semi.
  apply bl_bind. intros [ty r4]. cbn [s_both fst snd]. rewrite bl_consume_punct. destruct (consume_punct "=" r4) as [eq r5]. cbn [s_both fst snd].
  rewrite bl_stuff by apply blind_end_semi. apply bl_bind. intros [val r6]. cbn [s_both fst snd]. rewrite bl_parse_punct. apply bl_bind. intros [se r7].
  destruct val; reflexivity.
Qed.
Lemma bl_alias at_ v ts : consume_ty_definition (s_attrs f at_) (s_ovis f v) (s_toks f ts) = RB (option_map (s_alias f)) (consume_ty_definition at_ v ts).
Proof.
  unfold consume_ty_definition. rewrite bl_parse_ident by (cbn; tauto). apply bl_bind. intros [kw r]. cbn [s_both fst snd].
  rewrite bl_parse_any_ident. apply bl_bind. intros [n r2]. cbn [s_both fst snd]. rewrite bl_bound by apply blind_end_eq_or_semi. apply bl_bind. intros [b r3].
  cbn [s_both fst snd]. rewrite bl_consume_punct. destruct (consume_punct "=" r3) as [[eq|] r4]; cbn [s_both fst snd option_map].
  - rewrite bl_stuff by apply blind_end_semi. destruct (consume_stuff_until end_semi true r4) as [[ty r5]| |]; try reflexivity.
    cbn [s_ret s_both bind fst snd]. rewrite bl_parse_punct. apply bl_bind. intros []. reflexivity.
  - cbn [bind]. rewrite bl_parse_punct. apply bl_bind. intros []. reflexivity.
Qed.
Lemma bl_use at_ v ts : parse_use_declaration (s_attrs f at_) (s_ovis f v) (s_toks f ts) = RB (s_use f) (parse_use_declaration at_ v ts).
Proof.
  unfold parse_use_declaration. rewrite bl_parse_ident by (cbn; tauto). apply bl_bind. intros [kw r]. cbn [s_both fst snd].
  rewrite bl_stuff by apply blind_end_semi. apply bl_bind. intros [ty r2]. cbn [s_both fst snd]. rewrite bl_parse_punct. apply bl_bind. intros []. reflexivity.
Qed.
Lemma bl_ecrate at_ v ts : parse_extern_crate (s_attrs f at_) (s_ovis f v) (s_toks f ts) = RB (s_ecrate f) (parse_extern_crate at_ v ts).
Proof.
  unfold parse_extern_crate.
  assert (P : consume_extern_crate (s_attrs f at_) (s_ovis f v) (s_toks f ts) = RB (option_map (s_ecrate f)) (consume_extern_crate at_ v ts)).
  { unfold consume_extern_crate. rewrite bl_consume_ident by (cbn; tauto). destruct (consume_ident "extern" ts) as [[k|] r]; cbn [s_both fst snd option_map]; [|reflexivity].
    rewrite bl_consume_ident by (cbn; tauto). destruct (consume_ident "crate" r) as [[k2|] r2]; cbn [s_both fst snd option_map]; [|reflexivity].
    rewrite bl_parse_any_ident. apply bl_bind. intros [n r3]. cbn [s_both fst snd].
    rewrite bl_consume_ident by (cbn; tauto). destruct (consume_ident "as" r3) as [[k3|] r4]; cbn [s_both fst snd option_map].
    - rewrite bl_parse_any_ident. destruct (parse_any_ident "extern crate: alias" r4) as [[al r5]| |]; try reflexivity. cbn [s_ret s_both bind fst snd].
      rewrite bl_parse_punct. apply bl_bind. intros []. reflexivity.
    - cbn [bind]. rewrite bl_parse_punct. apply bl_bind. intros []. reflexivity. }
  rewrite P. apply bl_bind. intros [[c|] r]; reflexivity.
Qed.
Lemma bl_many {A} (s : A -> A) elem : (forall ts, elem (s_toks f ts) = RB (s) (elem ts)) ->
  forall fuel ts, many_loop elem fuel (s_toks f ts) = s_ret (map s) (many_loop elem fuel ts).
Proof.
  intro H. induction fuel as [|fuel IH]; intro ts; [reflexivity|]. cbn [many_loop]. destruct ts as [|t ts]; [reflexivity|].
  cbn [s_toks map]. change (s_tok f t :: map (s_tok f) ts) with (s_toks f (t :: ts)). rewrite H. apply bl_bind. intros [x r]. cbn [s_both fst snd].
  rewrite IH. apply bl_bind. reflexivity.
Qed.
Lemma bl_member_of_item b i : impl_member_of_item b (s_item f i) = s_ret (s_imember f) (impl_member_of_item b i).
Proof. destruct i as [| | |[]| | | | | | | | |]; try reflexivity. cbn -[id_is]. ids. ifs; reflexivity. Qed.

Section Rec.
Variable rec_item : parser (result item error).
Variable rec_either : list attribute -> option vis_marker -> parser item.
Hypothesis Hitem : forall ts, rec_item (s_toks f ts) = RB (s_result f (s_item f)) (rec_item ts).
Hypothesis Heither : forall a v ts, rec_either (s_attrs f a) (s_ovis f v) (s_toks f ts) = RB (s_item f) (rec_either a v ts).

Lemma bl_impl_member b ts : parse_impl_member rec_either b (s_toks f ts) = RB (s_imember f) (parse_impl_member rec_either b ts).
Proof.
  unfold parse_impl_member. rewrite bl_outer. apply bl_bind. intros [a r]. cbn [s_both fst snd]. rewrite bl_vis.
  destruct (consume_vis_marker r) as [v r2]. cbn [s_both fst snd]. rewrite Heither. apply bl_bind. intros [i r3]. cbn [s_both fst snd].
  rewrite bl_member_of_item. apply bl_bind. reflexivity.
Qed.
Definition s_bodyc (x : group_span * list attribute * list impl_member) :=
  (s_gs f (fst (fst x)), s_attrs f (snd (fst x)), map (s_imember f) (snd x)).
Lemma bl_impl_body g b : parse_impl_body rec_either (s_group f g) b = s_ret s_bodyc (parse_impl_body rec_either g b).
Proof.
  unfold parse_impl_body. destruct g as [d s sp]. cbn [s_group g_stream g_delim g_span]. rewrite bl_inner. apply bl_bind. intros [ia r]. cbn [s_both fst snd].
  rewrite bl_fuel, (bl_many (s_imember f)) by apply bl_impl_member. apply bl_bind. reflexivity.
Qed.
Lemma bl_body_group site bad ts : parse_body_group rec_either site bad (s_toks f ts) = RB (s_bodyc) (parse_body_group rec_either site bad ts).
Proof.
  next ts; try reflexivity. cbn -[parse_impl_body delim_eqb]. group. rewrite bl_impl_body. destruct (delim_eqb gd Brace); [|reflexivity].
  apply bl_bind. reflexivity.
Qed.
Lemma bl_impl a ts : parse_impl rec_either (s_attrs f a) (s_toks f ts) = RB (s_impl f) (parse_impl rec_either a ts).
Proof.
  unfold parse_impl. rewrite bl_consume_ident by (cbn; tauto). destruct (consume_ident "unsafe" ts) as [u r]. cbn [s_both fst snd].
  rewrite bl_parse_ident by (cbn; tauto). apply bl_bind. intros [kw r2]. cbn [s_both fst snd]. rewrite bl_gparams. apply bl_bind. intros [g r3]. cbn [s_both fst snd].
  rewrite bl_stuff by apply blind_end_impl_ty. apply bl_bind. intros [ty r4]. cbn [s_both fst snd]. rewrite bl_consume_ident by (cbn; tauto).
  assert (K : forall fo tt sf r, (do (wh, ts) <- consume_where_clause (s_toks f r) ;;
     do ((braces, inner, items), ts) <- parse_body_group rec_either AtImplBody PImplToken ts ;;
     Ret (mkImpl (s_attrs f a) (option_map (s_ident f) u) (s_ident f kw) (s_ogparams f g) (option_map (s_type f) tt) (option_map (s_ident f) fo) (s_type f sf) wh braces inner items, ts))
     = RB (s_impl f) (do (wh, ts) <- consume_where_clause r ;;
     do ((braces, inner, items), ts) <- parse_body_group rec_either AtImplBody PImplToken ts ;;
     Ret (mkImpl a u kw g tt fo sf wh braces inner items, ts))).
  { intros fo tt sf r0. rewrite bl_where. apply bl_bind. intros [w r6]. cbn [s_both fst snd]. rewrite bl_body_group. apply bl_bind. intros [[[]] r7]. reflexivity. }
  destruct (consume_ident "for" r4) as [[fo|] r5]; cbn [s_both fst snd option_map].
  - rewrite bl_stuff by apply blind_end_impl_self_ty. destruct (consume_stuff_until end_impl_self_ty true r5) as [[ty2 r6]| |]; try reflexivity.
    cbn [bind s_ret s_both fst snd]. apply (K (Some fo) (Some (mkTypeExpr ty)) (mkTypeExpr ty2)).
  - cbn [bind]. apply (K None None (mkTypeExpr ty)).
Qed.
Lemma bl_trait a v ts : parse_trait rec_either (s_attrs f a) (s_ovis f v) (s_toks f ts) = RB (s_trait f) (parse_trait rec_either a v ts).
Proof.
  unfold parse_trait. rewrite bl_consume_ident by (cbn; tauto). destruct (consume_ident "unsafe" ts) as [u r]. cbn [s_both fst snd].
  rewrite bl_parse_ident by (cbn; tauto). apply bl_bind. intros [kw r2]. cbn [s_both fst snd]. rewrite bl_parse_any_ident. apply bl_bind. intros [n r3]. cbn [s_both fst snd].
  rewrite bl_gparams. apply bl_bind. intros [g r4]. cbn [s_both fst snd]. rewrite bl_bound by apply blind_end_trait_bound. apply bl_bind. intros [b r5]. cbn [s_both fst snd].
  rewrite bl_where. apply bl_bind. intros [w r6]. cbn [s_both fst snd]. rewrite bl_body_group. apply bl_bind. intros [[[br ia] its] r7].
  cbn [s_both fst snd s_bodyc s_ret]. unfold s_both, s_trait. cbn [fst snd tr_items tr_attributes tr_vis tr_unsafe tr_trait tr_name tr_generics tr_bound tr_where tr_braces tr_inner_attributes].
  rewrite !map_map. do 2 f_equal. f_equal. apply map_ext. intros []; reflexivity.
Qed.
Lemma bl_eblock a v ts : parse_extern_block rec_either (s_attrs f a) (s_ovis f v) (s_toks f ts) = RB (s_eblock f) (parse_extern_block rec_either a v ts).
Proof.
  unfold parse_extern_block.
  assert (P : consume_extern_block rec_either (s_attrs f a) (s_ovis f v) (s_toks f ts) = RB (option_map (s_eblock f)) (consume_extern_block rec_either a v ts)).
  { unfold consume_extern_block. rewrite bl_consume_ident by (cbn; tauto). destruct (consume_ident "unsafe" ts) as [u r]. cbn [s_both fst snd].
    rewrite bl_consume_ident by (cbn; tauto). destruct (consume_ident "extern" r) as [[k|] r2]; cbn [s_both fst snd option_map]; [|reflexivity].
    rewrite bl_consume_literal. destruct (consume_literal r2) as [ab r3]. cbn [s_both fst snd]. next r3; try reflexivity.
    cbn -[parse_impl_body delim_eqb]. group. rewrite bl_impl_body. destruct (delim_eqb gd Brace); [|reflexivity].
    destruct (parse_impl_body rec_either (mkGroup gd gs gsp) true) as [[[]]| |]; reflexivity. }
  rewrite P. apply bl_bind. intros [[c|] r]; reflexivity.
Qed.
Lemma bl_mod_member ts : parse_mod_member rec_item (s_toks f ts) = RB (s_item f) (parse_mod_member rec_item ts).
Proof. unfold parse_mod_member. rewrite Hitem. apply bl_bind. intros [[i|e] r]; reflexivity. Qed.
Lemma bl_mod a v ts : (do (m, r) <- parse_mod rec_item (s_attrs f a) (s_ovis f v) (s_toks f ts) ;; Ret (IModule m, r))
  = RB (s_item f) (do (m, r) <- parse_mod rec_item a v ts ;; Ret (IModule m, r)).
Proof.
  unfold parse_mod. rewrite bl_consume_ident by (cbn; tauto). destruct (consume_ident "unsafe" ts) as [u r]. cbn [s_both fst snd].
  rewrite bl_parse_ident by (cbn; tauto). destruct (parse_ident "mod" "module declaration" r) as [[kw r2]| |]; try reflexivity. cbn [s_both fst snd s_ret bind].
  unfold consume_item_name. rewrite bl_parse_any_ident. destruct (parse_any_ident "item" r2) as [[n r3]| |]; try reflexivity. cbn [s_both fst snd s_ret bind].
  next r3; try reflexivity; cbn -[consume_inner_attributes many_loop delim_eqb p_is].
  - destruct (delim_eqb gd Brace); [|reflexivity]. fold (s_toks f gs). rewrite bl_inner.
    destruct (consume_inner_attributes gs) as [[ia r4]| |]; try reflexivity. cbn [s_both fst snd s_ret bind].
    rewrite bl_fuel, (bl_many (s_item f)) by apply bl_mod_member. destruct (many_loop (parse_mod_member rec_item) (loop_fuel r4) r4); reflexivity.
  - rewrite bl_p. destruct (p_is ";" tp); reflexivity.
Qed.
Lemma bl_fn_like i : fn_like_keyword (s_ident f i) = fn_like_keyword i.
Proof. unfold fn_like_keyword. ids. reflexivity. Qed.
Lemma bl_either_kw i : either_keyword (s_ident f i) = either_keyword i.
Proof. unfold either_keyword. ids. reflexivity. Qed.
Lemma bl_either a v ts : consume_either rec_item rec_either (s_attrs f a) (s_ovis f v) (s_toks f ts) = RB (s_item f) (consume_either rec_item rec_either a v ts).
Proof.
  unfold consume_either. destruct ts as [|[[]|i|p|l] r]; try reflexivity.
  change (s_toks f (TIdent i :: r)) with (TIdent (s_ident f i) :: s_toks f r). cbv iota beta. ids. rewrite bl_fn_like.
  change (TIdent (s_ident f i) :: s_toks f r) with (s_toks f (TIdent i :: r)). set (ts := TIdent i :: r). clearbody ts.
  destruct (id_is "type" i).
  - rewrite bl_alias. apply bl_bind. intros [[]]; reflexivity.
  - destruct (fn_like_keyword i).
    + rewrite bl_fn. apply bl_bind. intros [[x|nf] r2]; cbn [s_both fst snd s_fnres]; [reflexivity|].
      destruct nf; [rewrite bl_constant|rewrite bl_constant|rewrite bl_trait|rewrite bl_impl|apply bl_mod|rewrite bl_ecrate|rewrite bl_eblock];
        apply bl_bind; intros []; reflexivity.
    + destruct v; [reflexivity|]. cbn [s_ovis option_map]. rewrite bl_macro. apply bl_bind. intros [[]]; reflexivity.
Qed.
Lemma bl_struct a v kw ts : parse_struct (s_attrs f a) (s_ovis f v) (s_ident f kw) (s_toks f ts) = RB (s_struct f) (parse_struct a v kw ts).
Proof.
  unfold parse_struct, consume_item_name. rewrite bl_parse_any_ident. apply bl_bind. intros [n r]. cbn [s_both fst snd]. rewrite bl_gparams. apply bl_bind. intros [g r2].
  cbn [s_both fst snd]. rewrite bl_where. apply bl_bind. intros [w r3]. cbn [s_both fst snd].
  match goal with |- bind ?m' _ = RB (_) (bind ?m _) => assert (P : m' = RB (s_fields f) m) end.
  { next r3; try reflexivity.
    - cbn -[parse_tuple_fields parse_named_fields delim_eqb]. group. rewrite bl_tfields, bl_nfields.
      destruct (delim_eqb gd Parenthesis); [|destruct (delim_eqb gd Brace); [|reflexivity]]; apply bl_bind; reflexivity.
    - cbn -[p_is]. rewrite bl_p. destruct (p_is ";" tp); reflexivity. }
  rewrite P. apply bl_bind. intros [fs r4]. cbn [s_both fst snd].
  match goal with |- bind ?m' _ = RB (_) (bind ?m _) => assert (P2 : m' = RB (s_owhere f) m) end.
  { destruct fs; try reflexivity. destruct w; [reflexivity|]. apply bl_where. }
  rewrite P2. apply bl_bind. intros [w2 r5]. cbn [s_both fst snd]. rewrite bl_consume_punct. destruct (consume_punct ";" r5) as [se r6]. reflexivity.
Qed.
Lemma bl_enum a v kw ts : parse_enum (s_attrs f a) (s_ovis f v) (s_ident f kw) (s_toks f ts) = RB (s_result f (s_enum f)) (parse_enum a v kw ts).
Proof.
  unfold parse_enum, consume_item_name. rewrite bl_parse_any_ident. apply bl_bind. intros [n r]. cbn [s_both fst snd]. rewrite bl_gparams. apply bl_bind. intros [g r2].
  cbn [s_both fst snd]. rewrite bl_where. apply bl_bind. intros [w r3]. cbn [s_both fst snd]. next r3; try reflexivity.
  cbn -[parse_enum_variants delim_eqb]. destruct (delim_eqb gd Brace); [|reflexivity]. fold (s_toks f gs). rewrite bl_variants. apply bl_bind. intros []; reflexivity.
Qed.
Lemma bl_union a v kw ts : parse_union (s_attrs f a) (s_ovis f v) (s_ident f kw) (s_toks f ts) = RB (s_union f) (parse_union a v kw ts).
Proof.
  unfold parse_union, consume_item_name. rewrite bl_parse_any_ident. apply bl_bind. intros [n r]. cbn [s_both fst snd]. rewrite bl_gparams. apply bl_bind. intros [g r2].
  cbn [s_both fst snd]. rewrite bl_where. apply bl_bind. intros [w r3]. cbn [s_both fst snd]. next r3; try reflexivity.
  cbn -[parse_named_fields delim_eqb]. destruct (delim_eqb gd Brace); [|reflexivity]. group. rewrite bl_nfields. apply bl_bind. reflexivity.
Qed.
Lemma bl_item_macro a ts : parse_item_macro (s_attrs f a) (s_toks f ts) = RB (s_item f) (parse_item_macro a ts).
Proof. unfold parse_item_macro. rewrite bl_macro. apply bl_bind. intros [[]]; reflexivity. Qed.
Lemma bl_wrap {A} (s : A -> A) (c : A -> item) m m' : (forall x, c (s x) = s_item f (c x)) -> m' = RB s m -> wrap c m' = RB (s_result f (s_item f)) (wrap c m).
Proof. intros H ->. unfold wrap. apply bl_bind. intros [x r]. cbn [s_both fst snd s_ret s_result]. rewrite H. reflexivity. Qed.
Lemma bl_item_body ts : consume_item_body rec_item rec_either (s_toks f ts) = RB (s_result f (s_item f)) (consume_item_body rec_item rec_either ts).
Proof.
  unfold consume_item_body. rewrite bl_outer. apply bl_bind. intros [a r]. cbn [s_both fst snd]. rewrite bl_vis.
  destruct (consume_vis_marker r) as [v r2]. cbn [s_both fst snd].
  destruct r2 as [|[[d s sp]|kw|p|l] r2]; try reflexivity.
  change (s_toks f (TIdent kw :: r2)) with (TIdent (s_ident f kw) :: s_toks f r2). cbv iota beta. ids. rewrite bl_either_kw.
  destruct (id_is "struct" kw); [apply (bl_wrap (s_struct f)); [reflexivity|apply bl_struct]|].
  destruct (id_is "enum" kw); [rewrite bl_enum; apply bl_bind; intros [[]]; reflexivity|].
  destruct (id_is "union" kw); [apply (bl_wrap (s_union f)); [reflexivity|apply bl_union]|].
  change (TIdent (s_ident f kw) :: s_toks f r2) with (s_toks f (TIdent kw :: r2)). set (ts2 := TIdent kw :: r2). clearbody ts2.
  destruct (id_is "mod" kw).
  { pose proof (bl_mod a v ts2) as M. unfold wrap. destruct (parse_mod rec_item a v ts2) as [[m q]| |];
      destruct (parse_mod rec_item (s_attrs f a) (s_ovis f v) (s_toks f ts2)) as [[m' q']| |]; cbn [bind s_ret s_both fst snd s_result] in *; try discriminate; (injection M as M1 M2; rewrite M1, M2; reflexivity) || congruence. }
  destruct (id_is "trait" kw); [apply (bl_wrap (s_trait f)); [reflexivity|apply bl_trait]|].
  destruct (id_is "impl" kw); [apply (bl_wrap (s_impl f)); [reflexivity|apply bl_impl]|].
  destruct (id_is "static" kw); [apply (bl_wrap (s_constant f)); [reflexivity|apply bl_constant]|].
  destruct (id_is "use" kw); [apply (bl_wrap (s_use f)); [reflexivity|apply bl_use]|].
  destruct (either_keyword kw); [apply (bl_wrap (s_item f)); [reflexivity|apply bl_either]|].
  apply (bl_wrap (s_item f)); [reflexivity|apply bl_item_macro].
Qed.
End Rec.

Lemma bl_nest n : (forall ts, fst (nest n) (s_toks f ts) = RB (s_result f (s_item f)) (fst (nest n) ts))
  /\ (forall a v ts, snd (nest n) (s_attrs f a) (s_ovis f v) (s_toks f ts) = RB (s_item f) (snd (nest n) a v ts)).
Proof.
  induction n as [|n [IH1 IH2]]; [split; reflexivity|]. cbn [nest]. destruct (nest n) as [ri re]. cbn [fst snd] in *.
  split; intros; [apply bl_item_body|apply bl_either]; auto.
Qed.
Lemma bl_consume_item ts : consume_item (s_toks f ts) = RB (s_result f (s_item f)) (consume_item ts).
Proof. unfold consume_item. rewrite bl_depth. apply bl_nest. Qed.
End Blind.

(** Reading a changed stream gives the changed item and the changed rest; a panic stays the
    same panic. *)
Theorem C62_consume (f : subst) (ts : list tok) :
  admissible f -> consume_item (s_toks f ts) = s_ret (s_both f (s_result f (s_item f))) (consume_item ts).
Proof. intro H. apply bl_consume_item, H. Qed.
Theorem C62_parse (f : subst) (ts : list tok) :
  admissible f -> parse_item (s_toks f ts) = s_ret (s_result f (s_item f)) (parse_item ts).
Proof.
  intro H. unfold parse_item. rewrite (C62_consume f ts H). apply bl_bind. intros [d r]. destruct r; reflexivity.
Qed.

(** Printing goes along as well. *)
Section Print.
Variable f : subst.
Notation S := (s_toks f).
Lemma bp_app a b : S (a ++ b) = S a ++ S b. Proof. apply map_app. Qed.
Lemma bp_opt {A} (pr : A -> list tok) s o : (forall x, pr (s x) = S (pr x)) -> print_opt pr (option_map s o) = S (print_opt pr o).
Proof. intro H. destruct o; [apply H|reflexivity]. Qed.
Lemma bp_flat {A} (pr : A -> list tok) s l : (forall x, pr (s x) = S (pr x)) -> flat_map pr (map s l) = S (flat_map pr l).
Proof. intro H. induction l as [|x l IH]; [reflexivity|]. cbn [map flat_map]. rewrite bp_app, H, IH. reflexivity. Qed.
Lemma bp_pu {A} (pr : A -> list tok) s p : (forall x, pr (s x) = S (pr x)) -> print_punctuated pr (s_pu f s p) = S (print_punctuated pr p).
Proof.
  intro H. destruct p as [l sk]. unfold print_punctuated, s_pu. cbn [pu_inner pu_skip_last].
  induction l as [|[x c] l IH]; [reflexivity|]. destruct l as [|y l].
  - cbn [map print_inner fst snd]. rewrite bp_app, H. destruct sk; reflexivity.
  - change (print_inner pr sk ((x, c) :: y :: l)) with (pr x ++ TPunct c :: print_inner pr sk (y :: l)).
    change (map (fun z : A * punct => (s (fst z), s_punct f (snd z))) ((x, c) :: y :: l))
      with ((s x, s_punct f c) :: map (fun z => (s (fst z), s_punct f (snd z))) (y :: l)).
    rewrite bp_app, <- H. cbn [pu_inner pu_skip_last] in IH.
    change (S (TPunct c :: print_inner pr sk (y :: l))) with (TPunct (s_punct f c) :: S (print_inner pr sk (y :: l))). rewrite <- IH. reflexivity.
Qed.
Lemma bp_q g inner : quote_with (s_gs f g) (S inner) = S (quote_with g inner). Proof. reflexivity. Qed.
Lemma bp_attr a : print_attribute (s_attr f a) = S (print_attribute a).
Proof.
  destruct a as [h [b|] g p v]; destruct v; unfold print_attribute; cbn [s_attr s_value print_attribute_value at_hash at_bang at_brackets at_path at_value option_map print_opt print_punct app];
    cbn; rewrite !map_app; reflexivity.
Qed.
Lemma bp_attrs l : print_attributes (s_attrs f l) = S (print_attributes l).
Proof. apply bp_flat, bp_attr. Qed.
Lemma bp_vis v : print_vis (s_vis f v) = S (print_vis v).
Proof. destruct v as [a [b|]]; reflexivity. Qed.
Lemma bp_ovis v : print_opt print_vis (s_ovis f v) = S (print_opt print_vis v).
Proof. apply bp_opt, bp_vis. Qed.
Lemma bp_ident o : print_opt print_ident (option_map (s_ident f) o) = S (print_opt print_ident o). Proof. destruct o; reflexivity. Qed.
Lemma bp_punct o : print_opt print_punct (option_map (s_punct f) o) = S (print_opt print_punct o). Proof. destruct o; reflexivity. Qed.
Lemma bp_punct2 o : print_opt print_punct2 (option_map (s_punct2 f) o) = S (print_opt print_punct2 o). Proof. destruct o as [[]|]; reflexivity. Qed.
Lemma bp_lit o : print_opt print_lit (option_map (s_lit f) o) = S (print_opt print_lit o). Proof. destruct o; reflexivity. Qed.
Lemma bp_tok o : print_opt print_tok (option_map (s_tok f) o) = S (print_opt print_tok o). Proof. destruct o; reflexivity. Qed.
Lemma bp_group o : print_opt print_group (option_map (s_group f) o) = S (print_opt print_group o). Proof. destruct o as [[]|]; reflexivity. Qed.
Lemma bp_type o : print_opt print_type (option_map (s_type f) o) = S (print_opt print_type o). Proof. destruct o; reflexivity. Qed.
Lemma bp_vexpr o : print_opt print_value (option_map (s_vexpr f) o) = S (print_opt print_value o). Proof. destruct o; reflexivity. Qed.
Lemma bp_bound o : print_opt print_bound (option_map (s_bound f) o) = S (print_opt print_bound o). Proof. destruct o; reflexivity. Qed.
Lemma bp_lt o : print_opt print_lifetime (option_map (s_lifetime f) o) = S (print_opt print_lifetime o). Proof. destruct o; reflexivity. Qed.
Ltac go := cbn; repeat (progress (change (map (s_tok f)) with S; rewrite ?bp_app, ?bp_attrs, ?bp_ovis, ?bp_ident, ?bp_punct, ?bp_punct2, ?bp_lit, ?bp_tok, ?bp_group, ?bp_type,
  ?bp_vexpr, ?bp_bound, ?bp_lt; cbn [s_toks map s_tok app])); try reflexivity.
Lemma bp_gparam x : print_generic_param (s_gparam f x) = S (print_generic_param x).
Proof. unfold print_generic_param. go. Qed.
Lemma bp_gparams o : print_opt print_generic_params (s_ogparams f o) = S (print_opt print_generic_params o).
Proof.
  apply bp_opt. intro x. unfold print_generic_params, s_gparams. cbn [gpl_l gpl_params gpl_r]. rewrite (bp_pu _ (s_gparam f)) by apply bp_gparam. go.
Qed.
Lemma bp_pred x : print_where_predicate (s_pred f x) = S (print_where_predicate x).
Proof. unfold print_where_predicate. go. Qed.
Lemma bp_where o : print_opt print_where (s_owhere f o) = S (print_opt print_where o).
Proof. apply bp_opt. intro x. unfold print_where, s_where. cbn [wc_where wc_items]. rewrite (bp_pu _ (s_pred f)) by apply bp_pred. go. Qed.
Lemma bp_tfield x : print_tuple_field (s_tfield f x) = S (print_tuple_field x).
Proof. unfold print_tuple_field. go. Qed.
Lemma bp_nfield x : print_named_field (s_nfield f x) = S (print_named_field x).
Proof. unfold print_named_field. go. Qed.
Lemma bp_nfields x : print_named_fields (s_nfields f x) = S (print_named_fields x).
Proof. unfold print_named_fields, s_nfields. cbn [nfs_braces nfs_fields]. rewrite (bp_pu _ (s_nfield f)) by apply bp_nfield. go. Qed.
Lemma bp_fields x : print_fields (s_fields f x) = S (print_fields x).
Proof.
  destruct x; [reflexivity| |apply bp_nfields]. cbn [s_fields print_fields]. unfold print_tuple_fields, s_tfields. cbn [tfs_parens tfs_fields].
  rewrite (bp_pu _ (s_tfield f)) by apply bp_tfield. go.
Qed.
Lemma bp_struct x : print_struct (s_struct f x) = S (print_struct x).
Proof.
  unfold print_struct, s_struct. cbn [st_attributes st_vis st_struct st_name st_generics st_where st_fields st_semicolon]. rewrite bp_gparams, bp_where, bp_fields, bp_punct.
  destruct (st_fields x); cbn [s_fields]; go.
Qed.
Lemma bp_vvalue o : print_opt print_variant_value (option_map (s_vvalue f) o) = S (print_opt print_variant_value o). Proof. destruct o; reflexivity. Qed.
Lemma bp_variant x : print_variant (s_variant f x) = S (print_variant x).
Proof. unfold print_variant, s_variant. cbn [ev_attributes ev_vis ev_name ev_fields ev_value]. rewrite bp_fields, bp_vvalue. go. Qed.
Lemma bp_enum x : print_enum (s_enum f x) = S (print_enum x).
Proof.
  unfold print_enum, s_enum. cbn [en_attributes en_vis en_enum en_name en_generics en_where en_braces en_variants].
  rewrite bp_gparams, bp_where, (bp_pu _ (s_variant f)) by apply bp_variant. go.
Qed.
Lemma bp_union x : print_union (s_union f x) = S (print_union x).
Proof. unfold print_union, s_union. cbn [un_attributes un_vis un_union un_name un_generics un_where un_fields]. rewrite bp_gparams, bp_where, bp_nfields. go. Qed.
Lemma bp_constant x : print_constant (s_constant f x) = S (print_constant x).
Proof. unfold print_constant. go. Qed.
Lemma bp_alias x : print_type_alias (s_alias f x) = S (print_type_alias x).
Proof. unfold print_type_alias. go. Qed.
Lemma bp_quals x : print_qualifiers (s_quals f x) = S (print_qualifiers x).
Proof. unfold print_qualifiers. go. Qed.
Lemma bp_param x : print_fn_param (s_param f x) = S (print_fn_param x).
Proof. unfold print_fn_param. destruct x; cbn [s_param]; unfold print_receiver, print_typed; go. Qed.
Lemma bp_function x : print_function (s_function f x) = S (print_function x).
Proof.
  unfold print_function, s_function. cbn [fn_attributes fn_vis fn_qualifiers_ fn_kw fn_name fn_generics fn_parens fn_params fn_where fn_arrow fn_ret fn_semicolon fn_body].
  rewrite bp_gparams, bp_where, bp_quals, (bp_pu _ (s_param f)) by apply bp_param. go.
Qed.
Lemma bp_macro x : print_macro (s_macro f x) = S (print_macro x).
Proof. unfold print_macro. go. Qed.
Lemma bp_imember x : print_impl_member (s_imember f x) = S (print_impl_member x).
Proof. destruct x; [apply bp_function|apply bp_constant|apply bp_alias|apply bp_macro]. Qed.
Lemma bp_tmember x : print_trait_member (s_tmember f x) = S (print_trait_member x).
Proof. destruct x; [apply bp_function|apply bp_constant|apply bp_alias|apply bp_macro]. Qed.
Lemma bp_trait x : print_trait (s_trait f x) = S (print_trait x).
Proof.
  unfold print_trait, s_trait. cbn [tr_items tr_attributes tr_vis tr_unsafe tr_trait tr_name tr_generics tr_bound tr_where tr_braces tr_inner_attributes].
  rewrite bp_gparams, bp_where, (bp_flat _ (s_tmember f)) by apply bp_tmember. go. rewrite <- bp_q, bp_app. reflexivity.
Qed.
Lemma bp_impl x : print_impl (s_impl f x) = S (print_impl x).
Proof.
  unfold print_impl, s_impl. cbn [im_items im_attributes im_unsafe im_impl im_generics im_trait im_for im_self im_where im_braces im_inner_attributes].
  rewrite bp_gparams, bp_where, (bp_flat _ (s_imember f)) by apply bp_imember. go. rewrite <- bp_q, bp_app. reflexivity.
Qed.
Lemma bp_use x : print_use (s_use f x) = S (print_use x).
Proof. unfold print_use. go. Qed.
Lemma bp_eblock x : print_extern_block (s_eblock f x) = S (print_extern_block x).
Proof.
  unfold print_extern_block, s_eblock. cbn [eb_items eb_attributes eb_vis eb_unsafe eb_extern eb_abi eb_braces eb_inner_attributes].
  rewrite (bp_flat _ (s_imember f)) by apply bp_imember. go. rewrite <- bp_q, bp_app. reflexivity.
Qed.
Lemma bp_ecrate x : print_extern_crate (s_ecrate f x) = S (print_extern_crate x).
Proof. unfold print_extern_crate. go. Qed.
End Print.
Theorem C62_print (f : subst) (i : item) : print_item (s_item f i) = s_toks f (print_item i).
Proof.
  induction i as [m IH|i No] using item_nested_ind.
  - destruct m as [a v u k n s b ia ms]. cbn [mo_members] in IH. cbn [s_item print_item]. unfold print_module.
    cbn [mo_attributes mo_vis mo_unsafe mo_mod mo_name mo_semicolon mo_braces mo_inner_attributes mo_members].
    assert (F : flat_map print_item (map (s_item f) ms) = s_toks f (flat_map print_item ms)).
    { induction IH as [|x l Hx _ IHl]; [reflexivity|]. cbn [map flat_map]. rewrite bp_app, Hx, IHl. reflexivity. }
    rewrite F, !bp_attrs, bp_ovis, bp_ident, !bp_app. do 3 f_equal. cbn [s_toks map s_tok]. do 2 f_equal. destruct s; [reflexivity|]. destruct b; [|reflexivity].
    cbn [option_map]. rewrite <- bp_app. reflexivity.
  - destruct i; [apply bp_struct|apply bp_enum|apply bp_union|exfalso; eapply No; reflexivity|apply bp_trait|apply bp_impl|apply bp_alias|apply bp_function|apply bp_constant
      |apply bp_use|apply bp_macro|apply bp_eblock|apply bp_ecrate].
Qed.

(** In particular: streams that become equal once names, spans, spacing and literal texts are
    forgotten are treated alike, down to the panic. *)
Definition forget : subst :=
  mkSubst (fun _ => call_site) (fun i => if existsb (String.eqb (id_str i)) keywords then id_str i else "x")
    (fun _ => Alone) (fun _ => "0").
Lemma forget_admissible : admissible forget.
Proof.
  split; [|split; reflexivity]. intros i k H. cbn [new_name forget]. destruct (existsb (String.eqb (id_str i)) keywords) eqn:E; [reflexivity|].
  assert (N : id_str i <> k).
  { intro H1. subst k. enough (existsb (String.eqb (id_str i)) keywords = true) by congruence. apply existsb_exists. exists (id_str i).
    split; auto. apply String.eqb_refl. }
  split; [|intro H1; contradiction]. intros <-. exfalso. cbn in H. repeat destruct H as [H|H]; try discriminate; contradiction.
Qed.
Theorem C62_skeleton (a b : list tok) :
  s_toks forget a = s_toks forget b ->
  (forall p, parse_item a = Panic p <-> parse_item b = Panic p)
  /\ ((exists i, parse_item a = Ret (Ok i)) <-> exists j, parse_item b = Ret (Ok j))
  /\ (forall i j, parse_item a = Ret (Ok i) -> parse_item b = Ret (Ok j) -> s_item forget i = s_item forget j).
Proof.
  intro E. pose proof (C62_parse forget a forget_admissible) as A. pose proof (C62_parse forget b forget_admissible) as B.
  rewrite E in A. rewrite A in B. clear A E.
  destruct (parse_item a) as [[x|x]|p|], (parse_item b) as [[y|y]|q|]; cbn in B; try discriminate.
  all: split; [|split]; try (intros; split; intros; congruence).
  all: try (split; intros [z Hz]; discriminate || eauto).
  all: intros u v Hu Hv; try discriminate; injection Hu as <-; injection Hv as <-; congruence.
Qed.

(** A substitution that changes everything it may: names get a suffix, spans shift, spacing
    flips and literals turn into 7. *)
Definition shake : subst :=
  mkSubst (fun s => if N.eqb s call_site then call_site else N.succ s)
    (fun i => if existsb (String.eqb (id_str i)) keywords then id_str i else (id_str i ++ "_1")%string)
    (fun p => match p_spacing p, p_is "," p with Alone, false => Joint | _, _ => Alone end) (fun _ => "7").
Lemma shake_admissible : admissible shake.
Proof.
  split; [|split; reflexivity]. intros i k H. cbn [new_name shake]. destruct (existsb (String.eqb (id_str i)) keywords) eqn:E; [reflexivity|].
  assert (N : id_str i <> k).
  { intro H1. subst k. enough (existsb (String.eqb (id_str i)) keywords = true) by congruence. apply existsb_exists. exists (id_str i).
    split; auto. apply String.eqb_refl. }
  split; [|intro H1; contradiction]. intros <-. exfalso. clear E N. destruct i as [s sp]. cbn [id_str] in H. cbn in H.
  assert (G : forall t, (s ++ "_1")%string = t -> String.get (String.length s) t = Some "_"%char).
  { intros t <-. clear. induction s as [|c s IH]; cbn; auto. }
  repeat destruct H as [H|H]; try contradiction; symmetry in H; apply G in H;
    do 9 (destruct s as [|? s]; [discriminate|]); cbn in H; destruct (String.length s); discriminate.
Qed.
Example C62_example :
  parse_item (s_toks shake (lex rich_text)) = Ret (Ok (s_item shake rich_module))
  /\ s_toks shake (lex rich_text) <> lex rich_text
  /\ parse_item (s_toks shake (lex "struct S(A B) garbage")) = parse_item (lex "struct S(A B) garbage").
Proof.
  split; [|split].
  - rewrite (C62_parse _ _ shake_admissible), rich_module_parses. reflexivity.
  - vm_compute. discriminate.
  - vm_compute. reflexivity.
Qed.

(** C88: which type declarations make the parser panic.  The documentation of [parse_item]
    (src/parse.rs:24-27) says that the input of a derive macro never does. *)
From Verif Require Import RustAny Debug PrintSpells Complete3 Sound2 Stable Unfold Samples PropRoundTrip PropErr ScanSpec PropScan RustSyntax PropRust PropAny PropLimits PropPath PropMisread.
Local Open Scope string_scope.
Local Open Scope list_scope.

(** An arrow outside of angle brackets. *)
Definition top_arrow (ts : list tok) : Prop :=
  exists a d g b, ts = a ++ TPunct d :: TPunct g :: b /\ mark "-" d /\ mark ">" g /\ matched false a.
Definition arrow_bound (p : generic_param) : Prop := exists b, gp_bound p = Some b /\ top_arrow (gb_tokens b).
Definition arrow_params (o : option generic_param_list) : Prop :=
  exists g p, o = Some g /\ In p (map fst (pu_inner (gpl_params g))) /\ arrow_bound p.
(** [pub (A, B)] and a field of the type [crate]. *)
Definition bad_field (f : tuple_field) : Prop :=
  (exists i g, tf_vis f = Some (mkVis (TIdent i) None) /\ id_str i = "pub" /\ te_tokens (tf_ty f) = [TGroup g] /\ g_delim g = Parenthesis)
  \/ (exists i, tf_vis f = None /\ te_tokens (tf_ty f) = [TIdent i] /\ id_str i = "crate").
Definition bad_fields (f : fields) : Prop :=
  match f with FTuple f => exists x, In x (map fst (pu_inner (tfs_fields f))) /\ bad_field x | _ => False end.
Definition is_type (i : item) : Prop := match i with IStruct _ | IEnum _ | IUnion _ => True | _ => False end.
Definition bad_type (i : item) : Prop :=
  match i with
  | IStruct s => arrow_params (st_generics s) \/ bad_fields (st_fields s)
  | IEnum e => arrow_params (en_generics e) \/ exists v, In v (map fst (pu_inner (en_variants e))) /\ bad_fields (ev_fields v)
  | IUnion u => arrow_params (un_generics u)
  | _ => False
  end.

(** ** Generics *)
Lemma scan_state P Q ts : forall d dash e, scan P d dash ts = Some e -> scan Q d dash ts = None \/ scan Q d dash ts = Some e.
Proof.
  induction ts as [|t r IH]; intros d dash e E; [auto|]. cbn [scan] in *. destruct (stops P d dash t); [discriminate|]. destruct (stops Q d dash t); auto.
Qed.
Lemma arrow_not_closed ts : top_arrow ts -> run_closed end_param ts = false.
Proof.
  intros (a & d & g & b & -> & Hd & Hg & M). unfold run_closed. rewrite scan_app.
  pose proof (matched_scan _ _ M 0%Z false ltac:(auto) ltac:(lia) ltac:(discriminate)) as Sc.
  destruct (scan_state _ end_param _ _ _ _ Sc) as [->| ->]; auto.
  destruct d as [dc ds dp], g as [gc gs gp]. red in Hd, Hg. cbn in Hd, Hg. subst. cbn [scan]. destruct (stops _ _ _ _); auto.
Qed.
Lemma arrow_top ts : arrow_in ts -> top_arrow ts.
Proof.
  intros (a & d & g & t & b & -> & Hd & Hg & Ha & _). exists a, d, g, (t :: b). repeat split; auto. apply closed_matched. eapply passes_closed; [exact Ha|apply compat_semicolon].
Qed.
Lemma param_arrow p : any_generic_param p -> wf_generic_param true p = true -> ~ arrow_bound p.
Proof.
  intros A W (b & E & T). unfold wf_generic_param in W. rewrite E in W. cbn [wf_opt] in W. unfold wf_bound in W. rewrite (arrow_not_closed _ T), andb_false_r, andb_false_r in W. discriminate.
Qed.
Lemma param_no_arrow p : any_generic_param p -> arrow_bound p \/ rust_generic_param p.
Proof.
  unfold any_generic_param, rust_generic_param, arrow_bound. intros A. destruct (gp_prefix p) as [[|k|q|]|]; auto.
  - destruct A as (A1 & A2 & b & E & A3 & A4). destruct (type_arrow _ _ A4) as [H|H]; [right|left; eauto using arrow_top]. repeat split; auto. exists b. auto.
  - destruct A as (A1 & A2 & A3). destruct (gp_bound p) as [b|]; auto. destruct A3 as [A3 A4]. destruct (bounds_arrow _ _ A4) as [H|H]; [right|left; eauto using arrow_top]. repeat split; auto.
  - destruct A as (A1 & A3). destruct (gp_bound p) as [b|]; auto. destruct A3 as [A3 A4]. destruct (bounds_arrow _ _ A4) as [H|H]; [right|left; eauto using arrow_top]. repeat split; auto.
Qed.
Lemma generics_arrow o : if_some any_generics o -> (if_some rust_generics o <-> ~ arrow_params o).
Proof.
  destruct o as [g|]; [|split; [intros _ (g & p & E & _); discriminate|auto]]. intros (A & [B C] & D). split.
  - intros W (g' & p & E & I & T). inversion E; subst g'. clear E. apply in_map_iff in I. destruct I as (x & <- & I).
    destruct W as (_ & [_ W] & _). rewrite Forall_forall in *. eapply param_arrow; [apply C, I| |exact T]. apply generic_param_wf, W, I.
  - intro N. split; auto. split; auto. split; auto. rewrite Forall_forall in *. intros x I. destruct (param_no_arrow _ (C x I)) as [T|T]; auto. exfalso. apply N. exists g, (fst x). repeat split; auto. apply in_map. exact I.
Qed.
Lemma arrow_params_dec o : if_some any_generics o -> arrow_params o \/ ~ arrow_params o.
Proof.
  destruct o as [g|]; [|right; intros (g & p & E & _); discriminate]. intros (A & [B C] & D).
  assert (Z : (exists p, In p (map fst (pu_inner (gpl_params g))) /\ arrow_bound p) \/ Forall (fun x => rust_generic_param (fst x)) (pu_inner (gpl_params g))).
  { clear B. induction C as [|x l Hx C IH]; [right; constructor|]. destruct (param_no_arrow _ Hx) as [T|T]; [left; exists (fst x); cbn; auto|].
    destruct IH as [(p & I & T')|IH]; [left; exists p; cbn; auto|right; constructor; auto]. }
  destruct Z as [(p & I & T)|Z]; [left; exists g, p; auto|right]. apply generics_arrow; [split; auto; split; auto; split; auto|]. split; auto. split; auto. split; auto.
Qed.

(** ** Fields *)
Lemma field_same f : any_tuple_field f -> ~ bad_field f -> exists h, (forall b, wf_tuple_field b h = true) /\ print_tuple_field h = print_tuple_field f.
Proof.
  intros A N. pose proof A as (A1 & A2 & A3). destruct f as [at_ v ty]. cbn [tf_attributes tf_vis tf_ty] in *.
  assert (D : clean_field (mkTupleField at_ v ty) \/ v = None /\ exists i r, te_tokens ty = TIdent i :: r /\ id_str i = "crate").
  { unfold clean_field. cbn [tf_vis tf_ty]. destruct v; [left; discriminate|]. destruct (te_tokens ty) as [|[g|i|p|l] r]; try (left; intros _ H; cbn in H; destruct H as (i' & H & _); discriminate); [left; intros _ []|].
    destruct (String.eqb_spec (id_str i) "crate"); [right; eauto|left]. intros _ (i' & E & H). inversion E; subst. auto. }
  destruct D as [D|(-> & i & r & Et & Ei)].
  - destruct (tuple_field_cases _ A D) as [R|(i & g & V & P & G & T)]; [eauto using tuple_field_wf|]. exfalso. apply N. left. exists i, g. auto.
  - exists (mkTupleField at_ (Some (mkVis (TIdent i) None)) (mkTypeExpr r)). split.
    + intro b. unfold wf_tuple_field, wf_field_ty. cbn [tf_attributes tf_vis tf_ty wf_opt wf_vis prefix_ok te_tokens]. rewrite (outer_wf _ A1). unfold id_is. rewrite Ei. cbn [String.eqb Ascii.eqb Bool.eqb orb andb negb].
      assert (Nr : r <> []) by (intros ->; apply N; right; exists i; auto).
      pose proof (type_passes _ _ A3 end_comma 0%Z ltac:(lia) (fun _ => compat_comma _)) as Sc. rewrite Et in Sc. cbn [scan stops next_depth] in Sc. unfold stops, next_depth, opens, closes in Sc. cbn in Sc.
      unfold run_closed, run_any. rewrite Sc. destruct r; [congruence|]. destruct b; reflexivity.
    + unfold print_tuple_field, print_type. cbn [tf_attributes tf_vis tf_ty te_tokens print_opt print_vis vis_token1 vis_token2 print_tok app]. rewrite Et. reflexivity.
Qed.
Lemma field_bad f r : any_tuple_field f -> bad_field f -> after_element r -> forall v, parse_tuple_field (print_tuple_field f ++ r) <> Ret v.
Proof.
  intros (A1 & A2 & A3) B Hr v Ee. unfold print_tuple_field, parse_tuple_field, print_type in Ee. rewrite <- !app_assoc in Ee.
  rewrite (outer_attributes_complete (tf_attributes f)) in Ee; auto using outer_wf, print_spells_attributes.
  2: { destruct B as [(i & g & V & P & T & Gd)|(i & V & T & P)]; rewrite V, T; reflexivity. }
  cbn [bind] in Ee. destruct B as [(i & g & V & P & T & Gd)|(i & V & T & P)]; rewrite V, T in Ee;
    cbn [print_opt print_vis print_tok vis_token1 vis_token2 app consume_vis_marker] in Ee; unfold id_is in Ee; rewrite P in Ee; cbn in Ee; rewrite ?Gd in Ee; cbn in Ee;
    inv_bind Ee; destruct x; eapply no_field_type; eauto.
Qed.
Lemma bad_field_dec f : bad_field f \/ ~ bad_field f.
Proof.
  destruct f as [a v [ty]]. unfold bad_field. cbn.
  destruct ty as [|t [|t2 ty]]; try (right; intros [(i & g & _ & _ & H & _)|(i & _ & H & _)]; discriminate).
  destruct t as [g|i|p|l]; try (right; intros [(i' & g' & _ & _ & H & _)|(i' & _ & H & _)]; discriminate).
  - destruct v as [[[|i| |] [|]]|]; try (right; intros [(i' & g' & H & _)|(i' & H & H' & _)]; discriminate).
    destruct (String.eqb_spec (id_str i) "pub"); [|right; intros [(i' & g' & H & H' & _)|(i' & H & _)]; [inversion H; subst; auto|discriminate]].
    destruct (g_delim g) eqn:D; try (right; intros [(i' & g' & _ & _ & H & H')|(i' & H & _)]; [inversion H; subst; congruence|discriminate]).
    left. left. exists i, g. auto.
  - destruct v; [right; intros [(i' & g' & _ & _ & H & _)|(i' & H & _)]; discriminate|]. destruct (String.eqb_spec (id_str i) "crate"); [left; right; eauto|right].
    intros [(i' & g' & H & _)|(i' & _ & H & H')]; [discriminate|inversion H; subst; auto].
Qed.
Lemma fields_not_bad f v : any_fields (FTuple f) -> forall sp, parse_tuple_fields (mkGroup Parenthesis (print_punctuated print_tuple_field (tfs_fields f)) sp) = Ret v -> ~ bad_fields (FTuple f).
Proof.
  intros [D [S F]] sp E (x & I & B). unfold parse_tuple_fields in E. inv_bind E. destruct x0 as [ps rest]. cbn [g_stream] in Hx.
  assert (G : Forall (fun x => ~ bad_field (fst x)) (pu_inner (tfs_fields f))).
  { refine (loop_all parse_tuple_field print_tuple_field any_tuple_field (fun f => ~ bad_field f) _ _ _ _ _ _ _ S F Hx).
    - intros g (_ & _ & T) N. unfold print_tuple_field in N. apply app_eq_nil in N. destruct N as [_ N]. apply app_eq_nil in N. destruct N as [_ N].
      destruct (type_start _ _ T) as (t & b & Et & _). unfold print_type in N. congruence.
    - intros g r y r' A Hr Ee. left. destruct (bad_field_dec g) as [Bg|Bg]; [exfalso; eapply field_bad; eauto|]. split; auto.
      destruct (field_same _ A Bg) as (h & W & Ep). rewrite <- Ep in Ee. destruct (tuple_field_complete h _ (spells_own_tuple h)) as [T1 T2].
      destruct Hr as [->|(c & r0 & -> & Hc)].
      + rewrite app_nil_r, T2 in Ee by auto. congruence.
      + rewrite T1 in Ee by auto using mark_is. congruence. }
  apply in_map_iff in I. destruct I as (y & <- & I). rewrite Forall_forall in G. exact (G _ I B).
Qed.
Lemma fields_same f : any_fields f -> ~ bad_fields f -> exists h, wf_fields h = true /\ print_fields h = print_fields f /\ match f, h with FUnit, FUnit | FTuple _, FTuple _ => True | FNamed _, FNamed _ => True | _, _ => False end.
Proof.
  destruct f as [|f|f]; intros A N; [exists FUnit; auto| |exists (FNamed f); split; [apply fields_wf|]; auto].
  destruct A as [D [S F]]. assert (L : rust_list (fun x => any_tuple_field x /\ ~ bad_field x) (tfs_fields f)).
  { split; auto. rewrite Forall_forall in *. intros x I. split; auto. intro B. apply N. exists (fst x). split; auto. apply in_map. auto. }
  destruct (list_reads _ (fun h => forall b, wf_tuple_field b h = true) print_tuple_field _ (fun x H => field_same x (proj1 H) (proj2 H)) L) as (q & Q & E).
  exists (FTuple (mkTupleFields q (tfs_parens f))). repeat split.
  - cbn. unfold wf_tuple_fields. cbn. rewrite (delim_is _ _ D), (list_wf _ _ _ (fun b x (H : forall b, wf_tuple_field b x = true) => H b) Q). reflexivity.
  - cbn. unfold print_tuple_fields. cbn. rewrite E. reflexivity.
Qed.
Lemma bad_fields_dec f : bad_fields f \/ ~ bad_fields f.
Proof.
  destruct f as [|f|f]; cbn; auto. induction (map fst (pu_inner (tfs_fields f))) as [|x l IH]; [right; intros (x & [] & _)|].
  destruct (bad_field_dec x) as [H|H]; [left; exists x; cbn; auto|]. destruct IH as [(y & I & B)|N]; [left; exists y; cbn; auto|right]. intros (y & [->|I] & B); eauto.
Qed.

(** ** Variants *)
Lemma variant_same v : any_variant v -> ~ bad_fields (ev_fields v) -> exists h, (forall b, wf_variant b h = true) /\ print_variant h = print_variant v.
Proof.
  intros (A1 & A2 & A3 & A4 & A5) N. destruct (fields_same _ A4 N) as (h & W & E & _). exists (mkVariant (ev_attributes v) (ev_vis v) (ev_name v) h (ev_value v)). split.
  - intro b. unfold wf_variant. cbn. rewrite (outer_wf _ A1), (if_some_wf _ _ _ vis_wf A2), W, name_prefix by auto. cbn. eapply if_some_wf; [|exact A5]. cbn. auto using mark_is.
  - unfold print_variant. cbn. rewrite E. reflexivity.
Qed.
Lemma variants_not_bad sk l : forall fuel acc v, separated sk l -> Forall (fun x => any_variant (fst x)) l ->
  enum_variants_loop fuel acc (print_inner print_variant sk l) = Ret v -> Forall (fun x => ~ bad_fields (ev_fields (fst x))) l.
Proof.
  induction l as [|[x c] l IH]; intros fuel acc v S F E; [constructor|].
  inversion F as [|? ? Fx Fl]; subst. cbn [fst] in *.
  assert (Z : exists r, after_element r /\ print_inner print_variant sk ((x, c) :: l) = print_variant x ++ r
              /\ (l <> [] -> r = TPunct c :: print_inner print_variant sk l /\ mark "," c)).
  { destruct l as [|y l].
    - exists (if sk then [] else [TPunct c]). cbn in S. split; [destruct sk; [left|right]; eauto|]. split; [reflexivity|congruence].
    - exists (TPunct c :: print_inner print_variant sk (y :: l)). destruct y as [y d]. cbn [separated] in S. destruct S as [S _].
      split; [right; eauto|]. split; [reflexivity|auto]. }
  destruct Z as (r & Hr & Ep & Hc). rewrite Ep in E. destruct fuel; [discriminate|].
  assert (R : ~ bad_fields (ev_fields x)).
  { destruct Fx as (A1 & A2 & A3 & A4 & A5). clear -E A1 A2 A3 A4.
    unfold print_variant in E. rewrite <- !app_assoc in E. cbn [app] in E. rewrite <- !app_assoc in E.
    assert (V : id_in vis_keywords (ev_name x) = false) by (unfold vis_keywords, id_in; cbn; rewrite !(name_not _ _ A3) by (cbn; tauto); reflexivity).
    cbn [enum_variants_loop] in E.
    assert (Q : exists z, z = print_attributes (ev_attributes x) ++ print_opt print_vis (ev_vis x)
      ++ TIdent (ev_name x) :: print_fields (ev_fields x) ++ print_opt print_variant_value (ev_value x) ++ r) by eauto.
    destruct Q as [z Q]. rewrite <- Q in E. destruct z as [|t z].
    { symmetry in Q. apply app_eq_nil in Q. destruct Q as [_ Q]. apply app_eq_nil in Q. destruct Q as [_ Q]. discriminate. }
    rewrite Q in E. rewrite (attrs_vis_complete (ev_attributes x)) in E;
      [|apply outer_wf; auto|apply print_spells_attributes|eapply if_some_wf; [apply vis_wf|auto]|apply prefix_ok_ident; auto].
    cbn [bind] in E. rewrite vis_complete in E; [|eapply if_some_wf; [apply vis_wf|auto]|apply prefix_ok_ident; auto].
    cbn [parse_any_ident bind] in E. inv_bind E. destruct (ev_fields x) as [|f|f]; auto. pose proof A4 as [D _].
    cbn [print_fields] in Hx. unfold print_tuple_fields, quote_with in Hx. cbn [app parse_variant_fields g_delim] in Hx. rewrite D in Hx. cbn [delim_eqb] in Hx.
    inv_bind Hx. eapply fields_not_bad; eauto. }
  constructor; auto. destruct l as [|y l]; [constructor|]. destruct (Hc ltac:(discriminate)) as [-> Hm].
  destruct (variant_same x Fx R) as (h & W & Eh). rewrite <- Eh in E.
  rewrite (variant_step h) in E.
  - unfold consume_comma in E. rewrite consume_punct_yes in E by (apply mark_is; auto). eapply IH; eauto. destruct y. cbn [separated] in S. tauto.
  - apply W.
  - apply print_spells_variant.
  - cbn. left. apply mark_is; auto.
Qed.

(** ** Items *)
Lemma read_not_bad i z r ts : any_item i -> is_type i -> consume_item (print_item i ++ z) = Ret (r, ts) -> ~ bad_type i \/ stuck ts.
Proof.
  intros A K Hx. rewrite consume_item_unfold in Hx.
  destruct i as [s|e|u|m|t|im|ta|f|k|us|mc|eb|ec]; cbn [any_item is_type print_item bad_type] in *; try contradiction.
  - pose proof A as (A1 & A2 & A3 & A4 & A5 & A6 & A7). unfold print_struct in Hx. revert Hx; app_norm; intro Hx.
    rewrite (item_head _ _ (st_attributes s)) in Hx; [|apply outer_wf; auto|apply print_spells_attributes|eapply if_some_wf; [apply vis_wf|auto]|eapply no_keyword; eauto; cbn; tauto].
    cbn zeta in Hx. rewrite (word_is _ _ A3) in Hx. unfold wrap in Hx. inv_bind Hx. destruct x as [v ts']. inversion Hx; subst.
    destruct (struct_core _ _ _ _ _ A Hx0) as [[G Q]|]; [left|auto]. apply generics_arrow in G; auto. intros [B|B]; auto. destruct (st_fields s); auto. destruct Q as (sp & w & Q). eapply fields_not_bad; eauto.
  - pose proof A as (A1 & A2 & A3 & A4 & A5 & A6 & A7). unfold print_enum in Hx. revert Hx; app_norm; intro Hx.
    rewrite (item_head _ _ (en_attributes e)) in Hx; [|apply outer_wf; auto|apply print_spells_attributes|eapply if_some_wf; [apply vis_wf|auto]|eapply no_keyword; eauto; cbn; tauto].
    cbn zeta in Hx. rewrite (word_is _ _ A3) in Hx. replace (id_is "struct" (en_enum e)) with false in Hx by (red in A3; unfold id_is; rewrite A3; reflexivity).
    inv_bind Hx. left. destruct (enum_core _ _ _ _ A Hx0) as (G & w & Q). apply generics_arrow in G; auto. intros [B|(v & I & B)]; auto.
    unfold parse_enum_variants in Q. destruct A7 as [S F]. apply variants_not_bad in Q; auto. apply in_map_iff in I. destruct I as (y & <- & I). rewrite Forall_forall in Q. exact (Q _ I B).
  - pose proof A as (A1 & A2 & A3 & A4 & A5 & A6). unfold print_union in Hx. revert Hx; app_norm; intro Hx.
    rewrite (item_head _ _ (un_attributes u)) in Hx; [|apply outer_wf; auto|apply print_spells_attributes|eapply if_some_wf; [apply vis_wf|auto]|eapply no_keyword; eauto; cbn; tauto].
    cbn zeta in Hx. rewrite (word_is _ _ A3) in Hx. replace (id_is "struct" (un_union u)) with false in Hx by (red in A3; unfold id_is; rewrite A3; reflexivity).
    replace (id_is "enum" (un_union u)) with false in Hx by (red in A3; unfold id_is; rewrite A3; reflexivity).
    unfold wrap in Hx. inv_bind Hx. left. apply union_core in Hx0; auto. apply generics_arrow; auto.
Qed.
Lemma parsed_not_bad i r : any_item i -> is_type i -> parse_item (print_item i) = Ret r -> ~ bad_type i.
Proof.
  intros A K E. unfold parse_item in E. inv_bind E. destruct x as [d rest]. destruct rest; [|discriminate]. clear E r.
  rewrite <- (app_nil_r (print_item i)) in Hx. destruct (read_not_bad _ _ _ _ A K Hx) as [H|(x & q & H & _)]; [exact H|discriminate].
Qed.
Lemma item_same i : any_item i -> is_type i -> ~ bad_type i -> exists j, wf_item j = true /\ follow_ok j [] = true /\ print_item j = print_item i.
Proof.
  intros A K N. destruct i as [s|e|u|m|t|im|ta|f|k|us|mc|eb|ec]; cbn [any_item is_type print_item bad_type] in *; try contradiction.
  - destruct A as (A1 & A2 & A3 & A4 & A5 & A6 & A7). assert (G : if_some rust_generics (st_generics s)) by (apply generics_arrow; auto).
    destruct (where_same_opt _ A5) as (w & W & Ew & _). destruct (fields_same _ A6 ltac:(auto)) as (h & H & Eh & Sh).
    exists (IStruct (mkStruct (st_attributes s) (st_vis s) (st_struct s) (st_name s) (st_generics s) w h (st_semicolon s))). repeat split.
    + unfold wf_item. cbn [shape_item stable_item]. unfold shape_struct, stable_struct. cbn.
      rewrite (outer_wf _ A1), (if_some_wf _ _ _ vis_wf A2), (word_is _ _ A3), (if_some_wf _ _ _ generics_wf G), W, H. cbn.
      destruct (st_fields s), h; try contradiction; try (destruct A7 as (p & -> & Hp); cbn; rewrite (mark_is _ _ Hp); reflexivity). rewrite A7. reflexivity.
    + cbn. unfold struct_follow. cbn. destruct (st_fields s), h; try contradiction; try (destruct A7 as (p & -> & Hp)); cbn; auto. apply orb_true_r.
    + cbn. unfold print_struct. cbn. rewrite Ew. destruct (st_fields s), h; try contradiction; rewrite ?Eh; reflexivity.
  - destruct A as (A1 & A2 & A3 & A4 & A5 & A6 & A7). assert (G : if_some rust_generics (en_generics e)) by (apply generics_arrow; auto).
    destruct (where_same_opt _ A5) as (w & W & Ew & _).
    assert (L : rust_list (fun x => any_variant x /\ ~ bad_fields (ev_fields x)) (en_variants e)).
    { destruct A7 as [S F]. split; auto. rewrite Forall_forall in *. intros x I. split; auto. intro B. apply N. right. exists (fst x). split; auto. apply in_map. auto. }
    destruct (list_reads _ (fun h => forall b, wf_variant b h = true) print_variant _ (fun x H => variant_same x (proj1 H) (proj2 H)) L) as (q & Q & E).
    exists (IEnum (mkEnum (en_attributes e) (en_vis e) (en_enum e) (en_name e) (en_generics e) w (en_braces e) q)). repeat split.
    + unfold wf_item. cbn [shape_item stable_item]. unfold wf_enum. cbn.
      rewrite (outer_wf _ A1), (if_some_wf _ _ _ vis_wf A2), (word_is _ _ A3), (if_some_wf _ _ _ generics_wf G), W, (delim_is _ _ A6), (list_wf _ _ _ (fun b x (H : forall b, wf_variant b x = true) => H b) Q). reflexivity.
    + cbn. unfold print_enum. cbn. rewrite Ew, E. reflexivity.
  - destruct A as (A1 & A2 & A3 & A4 & A5 & A6). assert (G : if_some rust_generics (un_generics u)) by (apply generics_arrow; auto).
    destruct (where_same_opt _ A5) as (w & W & Ew & _). pose proof (fields_wf _ A6) as H. cbn in H.
    exists (IUnion (mkUnion (un_attributes u) (un_vis u) (un_union u) (un_name u) (un_generics u) w (un_fields u))). repeat split.
    + unfold wf_item. cbn [shape_item stable_item]. unfold wf_union. cbn.
      rewrite (outer_wf _ A1), (if_some_wf _ _ _ vis_wf A2), (word_is _ _ A3), (if_some_wf _ _ _ generics_wf G), W, H. reflexivity.
    + cbn. unfold print_union. cbn. rewrite Ew. reflexivity.
Qed.
Lemma bad_type_dec i : any_item i -> is_type i -> bad_type i \/ ~ bad_type i.
Proof.
  destruct i as [s|e|u|m|t|im|ta|f|k|us|mc|eb|ec]; try contradiction; cbn [any_item bad_type]; intros A _.
  - destruct A as (A1 & A2 & A3 & A4 & _). destruct (arrow_params_dec _ A4), (bad_fields_dec (st_fields s)); tauto.
  - destruct A as (A1 & A2 & A3 & A4 & _). destruct (arrow_params_dec _ A4) as [|N]; auto.
    enough (Z : (exists v, In v (map fst (pu_inner (en_variants e))) /\ bad_fields (ev_fields v)) \/ ~ (exists v, In v (map fst (pu_inner (en_variants e))) /\ bad_fields (ev_fields v))) by tauto.
    induction (map fst (pu_inner (en_variants e))) as [|x l IH]; [right; intros (x & [] & _)|].
    destruct (bad_fields_dec (ev_fields x)) as [H|H]; [left; exists x; cbn; auto|]. destruct IH as [(y & I & B)|M]; [left; exists y; cbn; auto|right]. intros (y & [->|I] & B); eauto.
  - destruct A as (A1 & A2 & A3 & A4 & _). apply arrow_params_dec. auto.
Qed.

(** ** C88 *)
(** A struct, enum or union is parsed, with all of its tokens in the result, or the parser
    panics; and which of both is decided by the arrows in bounds of generic parameters, the
    tuple fields with [pub] in front of a parenthesis, and those of the type [crate]. *)
Theorem C88_exactly_these (i : item) : any_item i -> is_type i ->
  (bad_type i /\ exists p, parse_item (print_item i) = Panic p)
  \/ (~ bad_type i /\ exists j, parse_item (print_item i) = Ret (Ok j) /\ print_item j = print_item i).
Proof.
  intros A K. destruct (parse_item (print_item i)) as [r|p|] eqn:E.
  - right. pose proof (parsed_not_bad _ _ A K E) as N. split; auto. destruct (item_same i A K N) as (j & W & F & P). exists j. split; auto.
    rewrite <- P, (proj2 (C01_print_parse_iff j)) in E by auto. congruence.
  - left. split; eauto. destruct (bad_type_dec i A K) as [B|B]; auto. exfalso. destruct (item_same i A K B) as (j & W & F & P).
    rewrite <- P, (proj2 (C01_print_parse_iff j)) in E by auto. discriminate.
  - exfalso. exact (proj1 (proj2 (C09_terminates (print_item i))) E).
Qed.
(** So the documented claim is false: this struct is accepted by rustc and panics here. *)
Definition callback_item : item :=
  IStruct (mkStruct [] None (nm "struct") (nm "S")
    (Some (mkGenericParamList (pc "<") (just (mkGenericParam None (nm "F") (Some (mkBound (pc ":") (lex "Fn(u8) -> u8"))))) (pc ">")))
    None (FNamed (mkNamedFields (just (mkNamedField [] None (nm "f") (pc ":") (mkTypeExpr (lex "F")))) (gsp Brace))) None).
Lemma callback_any : any_item callback_item.
Proof.
  set (i := callback_item). vm_compute in i. subst i. cbn [any_item]. unfold any_struct, any_fields, rust_fields, rust_outer, any_generics, any_generic_param, rust_list. flat.
  - apply bounds_one, (bound_trait _ [] [] [_; _; _; _; _]); auto. apply path_one, seg_fn; [names|reflexivity|]. apply ret_some; try reflexivity. apply type_name. names.
  - apply type_name. names.
Qed.
Theorem C88_documented_refuted : exists i, any_item i /\ is_type i
  /\ show_tokens (print_item i) = "struct S < F : Fn (u8) -> u8 > { f : F }" /\ exists p, parse_item (print_item i) = Panic p.
Proof. exists callback_item. split; [apply callback_any|]. split; [exact I|]. split; [|eexists]; vm_compute; reflexivity. Qed.
(** Inputs of both kinds, and one that is parsed but not as itself. *)
Example C88_example : any_item callback_item /\ bad_type callback_item
  /\ (any_item (item_of pair_text) /\ ~ bad_type (item_of pair_text))
  /\ (exists i, nth_error unrestricted 3 = Some i /\ any_item i /\ ~ bad_type i /\ parse_item (print_item i) <> Ret (Ok i))
  /\ (exists i, nth_error unrestricted 4 = Some i /\ any_item i /\ bad_type i).
Proof.
  assert (U : forall n i, nth_error unrestricted n = Some i -> any_item i /\ ~ rust_item i).
  { intros n i E. pose proof unrestricted_any as A. pose proof C86_needed as N. rewrite Forall_forall in *. apply nth_error_In in E. auto. }
  split; [apply callback_any|]. split.
  - left. eexists _, _. split; [reflexivity|]. split; [left; reflexivity|]. eexists. split; [reflexivity|]. cbn [gb_tokens].
    eexists [_; _], _, _, _. split; [vm_compute; reflexivity|]. repeat split. apply closed_matched. reflexivity.
  - split.
    + split; [apply C86_restricts, pair_item|]. assert (A : any_item (item_of pair_text)) by apply C86_restricts, pair_item.
      destruct (C88_exactly_these _ A I) as [[_ [p E]]|[N _]]; auto. rewrite (proj2 (C86_exactly _ A) pair_item) in E. discriminate.
    + split.
      * eexists. split; [reflexivity|]. destruct (U 3%nat _ eq_refl) as [A N]. split; auto. split; [|intro E; apply N, C86_exactly; auto].
        destruct (C88_exactly_these _ A I) as [[_ [p E]]|[M _]]; auto. exfalso. vm_compute in E. discriminate.
      * eexists. split; [reflexivity|]. destruct (U 4%nat _ eq_refl) as [A N]. split; auto. right. eexists. split; [left; reflexivity|]. left. eexists _, _. vm_compute. auto.
Qed.
Print Assumptions C88_exactly_these.

(** The printed form of a tree differs from any of its spellings by the edits of Lossy.v. *)
From Verif Require Export Lossy Sound2 Stable.

Lemma lossy_refl a : lossy a a.
Proof. induction a; constructor; auto. Qed.
(** Concatenation, when the second part starts something (so that contexts are kept). *)
Lemma lossy_app a a' b b' : lossy a a' -> lossy b b' -> lossy (a ++ b) (a' ++ b').
Proof.
  intros Ha Hb. induction Ha; app_norm; auto; try (constructor; auto; fail).
  - apply lossy_vis; auto. destruct a as [|[] [|? ?]]; simpl in *; auto; contradiction.
  - apply lossy_ref; auto. destruct a as [|[] [|[] ?]]; simpl in *; auto; try contradiction;
      destruct l as [|[] ?]; simpl in *; auto; contradiction.
  - apply lossy_comma_self; auto. destruct a; [congruence|discriminate].
  - apply lossy_comma_variant; auto. destruct a; [congruence|discriminate].
  - apply lossy_mut; auto. destruct H1 as (c & r & -> & Hc). exists c, (r ++ b). auto.
Qed.
Lemma lossy_app_same a b b' : lossy b b' -> lossy (a ++ b) (a ++ b').
Proof. intro. apply lossy_app; auto. apply lossy_refl. Qed.

Lemma lossy_attribute inner a c :
  wf_attribute inner a = true -> spells_attribute a c -> forall b b', lossy b b' -> lossy (c ++ b) (print_attribute a ++ b').
Proof.
  intros Hw (extra & -> & He) b b' Hb. unfold print_attribute, wf_attribute in *. bsplit.
  destruct (at_value a) eqn:Ev.
  - destruct a as [h bang [bd bs] path val]. simpl in *. subst val. known. simpl in *.
    unfold quote_with. simpl. app_norm. simpl.
    apply (lossy_attr _ (print_opt print_punct bang)); auto.
    + destruct bang; simpl in *; auto. bsplit. rwb. reflexivity.
    + destruct bang; simpl; lia.
    + intros g' Hg. match goal with H : forallb path_token _ = true |- _ => rewrite forallb_forall in H; specialize (H _ Hg); discriminate end.
  - subst. app_norm. constructor. do 2 apply lossy_app_same. auto.
  - subst. app_norm. constructor. do 2 apply lossy_app_same. auto.
Qed.
Lemma lossy_attributes inner l : forall c, forallb (wf_attribute inner) l = true -> spells_attributes l c ->
  forall b b', lossy b b' -> lossy (c ++ b) (print_attributes l ++ b').
Proof.
  induction l as [|a l IH]; intros c Hw Hs b b' Hb.
  - simpl in *. subst. auto.
  - destruct Hs as (c1 & c2 & -> & H1 & H2). simpl in Hw. bsplit.
    change (print_attributes (a :: l)) with (print_attribute a ++ print_attributes l). rewrite <- !app_assoc.
    eapply lossy_attribute; eauto.
Qed.

Lemma lossy_group gs s s' b b' : lossy s s' -> lossy b b' -> lossy (quote_with gs s ++ b) (quote_with gs s' ++ b').
Proof. intros. unfold quote_with. simpl. constructor; auto. Qed.

(** Comma-separated lists; [gap] elements may lack their comma. *)
Lemma wf_inner_head {A} (wf : bool -> A -> bool) skip x p l :
  wf_inner wf skip ((x, p) :: l) = true -> exists b, wf b x = true.
Proof. destruct l as [|[y q] l]; simpl; intro H; bsplit; eauto. Qed.
Lemma lossy_punct {A} (sp : A -> list tok -> Prop) (pr : A -> list tok) gap wf (p : punctuated A) c :
  (forall b x c, wf b x = true -> sp x c -> c <> []) ->
  (forall b x c, wf b x = true -> sp x c -> lossy c (pr x)) ->
  (forall wb x c b b', wf wb x = true -> sp x c -> gap x = true -> b <> [] -> lossy b b' ->
     lossy (c ++ b) (pr x ++ the_default_comma :: b')) ->
  wf_punctuated wf p = true -> spells_punctuated sp gap p c -> lossy c (print_punctuated pr p).
Proof.
  intros Hne H1 H2. unfold print_punctuated, spells_punctuated, wf_punctuated. destruct p as [l skip]. simpl.
  revert c. induction l as [|[x p] l IH]; intros c Hw Hs.
  - simpl in Hs. subst. constructor.
  - destruct Hs as (c1 & c2 & Hx & Hr & Hc). destruct (wf_inner_head _ _ _ _ _ Hw) as [b Hb]. destruct l as [|[y q] l].
    + subst c. cbn [print_inner]. simpl in Hw. bsplit. apply lossy_app; [|apply lossy_refl]. eauto.
    + change (wf true x && p_is "," p && wf_inner wf skip ((y, q) :: l) = true) in Hw. bsplit.
      change (print_inner pr skip ((x, p) :: (y, q) :: l)) with (pr x ++ TPunct p :: print_inner pr skip ((y, q) :: l)).
      specialize (IH _ H0 Hr).
      destruct Hc as [->|(Hg & Hd & ->)].
      * apply lossy_app; eauto. constructor; auto.
      * apply default_comma_eq in Hd. subst p. eapply H2; eauto.
        destruct Hr as (c3 & c4 & Hy & _ & Hc). intro. subst c2.
        destruct (wf_inner_head _ _ _ _ _ H0) as [b' Hb'].
        apply (Hne _ _ _ Hb' Hy).
        destruct l; [destruct c3; auto; discriminate|].
        destruct Hc as [Hc|(_ & _ & Hc)]; destruct c3; auto; discriminate.
Qed.

(** ** Fields and variants *)
Lemma lossy_tuple_field b f c : wf_tuple_field b f = true -> spells_tuple_field f c -> lossy c (print_tuple_field f).
Proof.
  intros Hw (ca & Ha & ->). unfold wf_tuple_field in Hw. bsplit. unfold print_tuple_field.
  eapply lossy_attributes; eauto. apply lossy_refl.
Qed.
Lemma lossy_named_field b f c : wf_named_field b f = true -> spells_named_field f c -> lossy c (print_named_field f).
Proof.
  intros Hw (ca & Ha & ->). unfold wf_named_field in Hw. bsplit. unfold print_named_field.
  eapply lossy_attributes; eauto. apply lossy_refl.
Qed.
Lemma lossy_fields f c : wf_fields f = true -> spells_fields f c ->
  c = print_fields f \/
  exists d s s' sp, (d = Parenthesis \/ d = Brace /\ exists g, f = FNamed g)
    /\ lossy s s' /\ c = [TGroup (mkGroup d s sp)] /\ print_fields f = [TGroup (mkGroup d s' sp)].
Proof.
  destruct f as [|f|f]; simpl; intros Hw Hs; auto; right;
    unfold wf_tuple_fields, wf_named_fields in Hw; bsplit;
    destruct Hs as (s & Hs & ->); unfold print_tuple_fields, print_named_fields, quote_with.
  - exists Parenthesis, s, (print_punctuated print_tuple_field (tfs_fields f)), (gs_span (tfs_parens f)).
    apply delim_eqb_eq in H. rewrite H. repeat split; auto.
    eapply lossy_punct; eauto; [exact tuple_field_ne | exact lossy_tuple_field | discriminate].
  - exists Brace, s, (print_punctuated print_named_field (nfs_fields f)), (gs_span (nfs_braces f)).
    apply delim_eqb_eq in H. rewrite H. repeat split; eauto.
    eapply lossy_punct; eauto; [intros ? ? ? _; apply named_field_ne | exact lossy_named_field | discriminate].
Qed.
Lemma lossy_fields_app f c b b' : wf_fields f = true -> spells_fields f c -> lossy b b' ->
  lossy (c ++ b) (print_fields f ++ b').
Proof.
  intros Hw Hs Hb. destruct (lossy_fields _ _ Hw Hs) as [->|(d & s & s' & sp & _ & Hl & -> & ->)].
  - apply lossy_app_same; auto.
  - simpl. constructor; auto.
Qed.
Lemma lossy_variant b v c : wf_variant b v = true -> spells_variant v c -> lossy c (print_variant v).
Proof.
  intros Hw (ca & cf & Ha & Hf & ->). unfold wf_variant in Hw. bsplit. unfold print_variant.
  eapply lossy_attributes; eauto. apply lossy_app_same. constructor. apply lossy_fields_app; auto. apply lossy_refl.
Qed.
Lemma lossy_variant_gap b v c r r' : wf_variant b v = true -> spells_variant v c -> gap_variant v = true ->
  r <> [] -> lossy r r' -> lossy (c ++ r) (print_variant v ++ the_default_comma :: r').
Proof.
  intros Hw (ca & cf & Ha & Hf & ->) Hg Hr Hl. unfold wf_variant in Hw. bsplit. unfold print_variant. app_norm.
  eapply lossy_attributes; eauto. apply lossy_app_same. constructor.
  unfold gap_variant in Hg.
  destruct (lossy_fields _ _ H1 Hf) as [->|(d & s & s' & sp & Hd & Hls & -> & ->)].
  - destruct (ev_fields v) as [|f|f] eqn:Ef; [discriminate| |];
      (destruct (ev_value v); [discriminate|]); simpl in H1; unfold wf_tuple_fields, wf_named_fields in H1; bsplit;
      unfold print_fields, print_tuple_fields, print_named_fields, quote_with; simpl; known.
    + apply delim_eqb_eq in H1. rewrite H1. apply lossy_comma_variant; auto using lossy_refl.
    + apply delim_eqb_eq in H1. rewrite H1. apply lossy_comma_variant; auto using lossy_refl.
  - destruct (ev_fields v); [discriminate| |]; (destruct (ev_value v); [discriminate|]); simpl;
      apply lossy_comma_variant; auto; destruct Hd as [|[]]; auto.
Qed.
Lemma variant_ne v c : spells_variant v c -> c <> [].
Proof. intros (ca & cf & _ & _ & ->) H. apply app_eq_nil in H. destruct H as [_ H]. apply app_eq_nil in H. destruct H; discriminate. Qed.

(** ** Functions *)
Lemma lossy_param b p c : wf_fn_param b p = true -> spells_fn_param p c -> lossy c (print_fn_param p).
Proof.
  destruct p as [r|t]; simpl; intros Hw Hs; bsplit.
  - subst. unfold print_fn_param, print_receiver. eapply lossy_attributes; eauto. apply lossy_refl.
  - rename x0 into amp, x1 into lt. subst. unfold print_fn_param, print_typed. eapply lossy_attributes; eauto.
    apply lossy_ref.
    + destruct amp; simpl in *; auto. rwb. reflexivity.
    + destruct amp; simpl; lia.
    + destruct lt as [[q i]|]; simpl in *; auto. right. exists q, i. auto.
    + destruct (ft_mut t); simpl in *; auto.
    + apply lossy_refl.
Qed.
Lemma lossy_param_gap b p c r r' : wf_fn_param b p = true -> spells_fn_param p c -> gap_param p = true ->
  r <> [] -> lossy r r' -> lossy (c ++ r) (print_fn_param p ++ the_default_comma :: r').
Proof.
  destruct p as [rc|t]; simpl; intros Hw Hs Hg Hr Hl; [|discriminate]. bsplit. subst.
  unfold print_fn_param, print_receiver. app_norm. eapply lossy_attributes; eauto.
  do 3 apply lossy_app_same. simpl. apply lossy_comma_self; auto.
Qed.
Lemma lossy_function f c : wf_function f = true -> spells_function f c -> lossy c (print_function f).
Proof.
  intros Hw (ca & cp & Ha & (s & Hp & ->) & ->). unfold wf_function in Hw. bsplit. unfold print_function.
  eapply lossy_attributes; eauto. apply lossy_app_same. apply lossy_app_same. constructor. constructor.
  apply lossy_app_same. apply lossy_group; [|apply lossy_refl].
  eapply lossy_punct; eauto; [intros ? ? ? _; apply fn_param_ne | exact lossy_param | exact lossy_param_gap].
Qed.
Lemma lossy_macro kws vis m c : shape_macro kws m = true -> wf_opt wf_vis vis = true ->
  spells_macro vis m c -> lossy c (print_macro m).
Proof.
  intros Hw Hv (ca & Ha & ->). unfold shape_macro in Hw. bsplit. unfold print_macro, macro_tokens.
  eapply lossy_attributes; eauto. destruct vis as [[t1 t2]|]; [|apply lossy_refl].
  apply lossy_vis; [|simpl; auto|apply lossy_refl].
  simpl in Hv. destruct t1; try discriminate. destruct t2 as [[g| | |]|]; try discriminate; simpl.
  - bsplit. destruct g; simpl in *. known. apply vis_pub_in. reflexivity.
  - bcase; [apply vis_pub|apply vis_crate]; auto.
Qed.
Lemma lossy_constant k c : shape_constant k = true -> spells_constant k c -> lossy c (print_constant k).
Proof.
  intros Hw (ca & Ha & ->). unfold shape_constant in Hw. bsplit. unfold print_constant.
  eapply lossy_attributes; eauto. apply lossy_app_same.
  destruct (co_mut k) as [m|] eqn:Em; [|apply lossy_refl]. simpl in H3.
  bcase; bsplit; [discriminate|]. simpl.
  assert (m = co_name k) as ->. { match goal with H : N.eqb _ _ = true |- _ => apply N.eqb_eq in H end. apply ident_eq; auto.
    repeat match goal with H : id_is "mut" _ = true |- _ => unfold id_is in H; apply String.eqb_eq in H end. congruence. }
  apply lossy_mut; auto using lossy_refl. eauto.
Qed.
Lemma lossy_type_alias t c : wf_type_alias t = true -> spells_type_alias t c -> lossy c (print_type_alias t).
Proof.
  intros Hw (ca & Ha & ->). unfold wf_type_alias in Hw. bsplit. unfold print_type_alias.
  eapply lossy_attributes; eauto. apply lossy_refl.
Qed.
Lemma lossy_impl_member allow m c : shape_impl_member allow m = true -> spells_impl_member m c -> lossy c (print_impl_member m).
Proof.
  destruct m; simpl; intros Hw Hs; bsplit.
  - apply lossy_function; auto.
  - apply lossy_constant; auto.
  - apply lossy_type_alias; auto.
  - eapply (lossy_macro _ None); eauto.
Qed.
Lemma lossy_trait_member m c : shape_trait_member m = true -> spells_trait_member m c -> lossy c (print_trait_member m).
Proof. intros Hw Hs. apply lossy_impl_member with (allow := false) in Hs; auto. destruct m; auto. Qed.

Lemma lossy_list {A} (sp : A -> list tok -> Prop) (pr : A -> list tok) (wf : A -> bool) l : forall c,
  (forall x c, wf x = true -> sp x c -> lossy c (pr x)) ->
  forallb wf l = true -> spells_list sp l c -> lossy c (flat_map pr l).
Proof.
  induction l as [|x l IH]; intros c H Hw Hs; simpl in *.
  - subst. constructor.
  - bsplit. subst. apply lossy_app; auto.
Qed.
Lemma lossy_body {A} (sp : A -> list tok -> Prop) (pr : A -> list tok) (wf : A -> bool) attrs items s :
  (forall x c, wf x = true -> sp x c -> lossy c (pr x)) ->
  wf_inner_attrs attrs = true -> forallb wf items = true -> spells_body sp attrs items s ->
  lossy s (print_attributes attrs ++ flat_map pr items).
Proof.
  intros H Ha Hw (ci & cm & Hi & Hm & ->). eapply lossy_attributes; eauto. eapply lossy_list; eauto.
Qed.

(** ** Items *)
Theorem lossy_item i : forall c, shape_item i = true -> spells_item i c -> lossy c (print_item i).
Proof.
  induction i as [m IH|i Hn] using item_nested_ind; intros c Hsh Hs.
  - simpl in *. destruct Hs as (ca & cb & Ha & Hb & ->). unfold shape_module in Hsh. bsplit. unfold print_module.
    eapply lossy_attributes; eauto. apply lossy_app_same. apply lossy_app_same. do 2 constructor.
    destruct (mo_semicolon m); [subst; apply lossy_refl|].
    destruct (mo_braces m); [|subst; apply lossy_refl]. bsplit.
    destruct Hb as (s & (ci & cm & Hi & Hm & ->) & ->). unfold quote_with. constructor; [|constructor].
    eapply lossy_attributes; eauto.
    match goal with H : forallb shape_item _ = true |- _ => rename H into Hms end.
    clear - IH Hm Hms. revert cm Hm. induction (mo_members m) as [|x l IHl]; intros cm Hm; simpl in *.
    + subst. constructor.
    + inversion IH; subst. bsplit. subst. apply lossy_app; auto.
  - destruct i; simpl in Hs, Hsh; cbn [print_item]; try (exfalso; eapply Hn; reflexivity).
    + destruct Hs as (ca & cf & Ha & Hf & ->). unfold shape_struct in Hsh. bsplit. unfold print_struct.
      eapply lossy_attributes; eauto. apply lossy_app_same. do 2 constructor. apply lossy_app_same.
      destruct (st_fields s) eqn:Ef; [apply lossy_fields_app with (f := FUnit); auto using lossy_refl
        |apply lossy_fields_app with (f := FTuple f); auto using lossy_refl|].
      apply lossy_app_same. destruct (st_semicolon s) as [p|].
      * destruct (lossy_fields _ _ H2 Hf) as [->|(d & s1 & s' & sp & Hd & Hls & -> & ->)].
        -- simpl. unfold print_named_fields, quote_with. simpl in H2. unfold wf_named_fields in H2. bsplit.
           apply delim_eqb_eq in H2. rewrite H2. apply lossy_semi; auto using lossy_refl.
        -- simpl in *. destruct Hd as [->|[-> _]].
           ++ exfalso. destruct Hf as (s2 & _ & Hq). unfold wf_named_fields in H2. bsplit. apply delim_eqb_eq in H2.
              unfold quote_with in Hq. rewrite H2 in Hq. discriminate.
           ++ apply lossy_semi; auto. constructor.
      * cbn [print_opt]. rewrite <- (app_nil_r (print_fields _)). apply lossy_fields_app; auto. constructor.
    + destruct Hs as (ca & cf & Ha & (s & Hv & ->) & ->). unfold wf_enum in Hsh. bsplit. unfold print_enum.
      eapply lossy_attributes; eauto. apply lossy_app_same. do 2 constructor. do 2 apply lossy_app_same.
      unfold quote_with. constructor; [|constructor].
      eapply lossy_punct; eauto; [intros ? ? ? _; apply variant_ne | exact lossy_variant | exact lossy_variant_gap].
    + destruct Hs as (ca & cf & Ha & Hf & ->). unfold wf_union in Hsh. bsplit. unfold print_union.
      eapply lossy_attributes; eauto. apply lossy_app_same. do 2 constructor. do 2 apply lossy_app_same.
      rewrite <- (app_nil_r cf), <- (app_nil_r (print_named_fields _)).
      apply lossy_fields_app with (f := FNamed (un_fields u)); auto. constructor.
    + destruct Hs as (ca & cf & Ha & (s & Hv & ->) & ->). unfold shape_trait in Hsh. bsplit. unfold print_trait.
      eapply lossy_attributes; eauto. apply lossy_app_same. apply lossy_app_same. do 2 constructor. do 3 apply lossy_app_same.
      unfold quote_with. constructor; [|constructor].
      eapply lossy_body; eauto. exact lossy_trait_member.
    + destruct Hs as (ca & vis & cf & Ha & Hvis & (s & Hv & ->) & ->). unfold shape_impl in Hsh. bsplit. unfold print_impl.
      eapply lossy_attributes; eauto.
      assert (Hb : lossy (quote_with (im_braces i) s) (quote_with (im_braces i)
        (print_attributes (im_inner_attributes i) ++ flat_map print_impl_member (im_items i)))).
      { unfold quote_with. constructor; [|constructor]. eapply lossy_body; eauto. intros; eapply lossy_impl_member; eauto. }
      match goal with |- lossy (_ ++ ?X) ?Y => assert (Hb' : lossy X Y) end.
      { apply lossy_app_same. constructor. repeat (apply lossy_app_same). auto. }
      destruct vis as [[t1 t2]|]; auto.
      apply lossy_vis; auto.
      * simpl in Hvis. destruct t1; try discriminate. destruct t2 as [[g| | |]|]; try discriminate; simpl.
        -- bsplit. destruct g; simpl in *. known. apply vis_pub_in. reflexivity.
        -- bcase; [apply vis_pub|apply vis_crate]; auto.
      * destruct (im_unsafe i); simpl in *.
        -- right; left. auto.
        -- match goal with |- match ?l with _ => _ end => destruct l eqn:El; auto end.
           repeat (apply app_eq_nil in El; destruct El as [_ El]). discriminate.
    + apply lossy_type_alias; auto.
    + apply lossy_function; auto.
    + apply lossy_constant; auto.
    + destruct Hs as (ca & Ha & ->). unfold wf_use in Hsh. bsplit. unfold print_use.
      eapply lossy_attributes; eauto. apply lossy_refl.
    + bsplit. eapply lossy_macro; eauto.
    + destruct Hs as (ca & cf & Ha & (s & Hv & ->) & ->). unfold shape_extern_block in Hsh. bsplit. unfold print_extern_block.
      eapply lossy_attributes; eauto. apply lossy_app_same. apply lossy_app_same. constructor. apply lossy_app_same.
      unfold quote_with. constructor; [|constructor].
      eapply lossy_body; eauto. intros; eapply lossy_impl_member; eauto.
    + destruct Hs as (ca & Ha & ->). unfold wf_extern_crate in Hsh. bsplit. unfold print_extern_crate.
      eapply lossy_attributes; eauto. destruct (ec_underscore c0); [discriminate|]. apply lossy_refl.
Qed.

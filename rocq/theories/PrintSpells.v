(** The printed form of a well-formed tree is one of its spellings. *)
From Verif Require Export Base.

Lemma item_nested_ind (P : item -> Prop) :
  (forall m, Forall P (mo_members m) -> P (IModule m)) ->
  (forall i, (forall m, i <> IModule m) -> P i) ->
  forall i, P i.
Proof.
  intros Hm Ho. fix IH 1. intros [s|e|u|m|t|im|t|f|c|u|m|b|c]; try (apply Ho; discriminate).
  apply Hm. destruct m as [? ? ? ? ? ? ? ? l]. cbn [mo_members].
  induction l as [|x l IHl]; constructor; auto.
Qed.

Lemma print_spells_attribute a : spells_attribute a (print_attribute a).
Proof.
  exists []. rewrite app_nil_r. split; [reflexivity|]. destruct (at_value a); auto.
Qed.
Lemma print_spells_attributes l : spells_attributes l (print_attributes l).
Proof.
  induction l as [|a l IH]; simpl; auto.
  exists (print_attribute a), (print_attributes l). auto using print_spells_attribute.
Qed.
Lemma print_spells_punct {A} (pr : A -> list tok) (sp : A -> list tok -> Prop) gap p :
  (forall x, sp x (pr x)) -> spells_punctuated sp gap p (print_punctuated pr p).
Proof.
  intro H. unfold spells_punctuated, print_punctuated. generalize (pu_skip_last p), (pu_inner p).
  intros skip l. induction l as [|[x q] l IH].
  - reflexivity.
  - exists (pr x), (print_inner pr skip l). split; auto. split; auto.
    destruct l as [|y l]; simpl; auto.
Qed.
Lemma print_spells_group gs (P : list tok -> Prop) s : P s -> spells_group gs P (quote_with gs s).
Proof. intro H. exists s. auto. Qed.

Lemma print_spells_fields f : spells_fields f (print_fields f).
Proof.
  destruct f as [|f|f]; simpl; auto; apply print_spells_group, print_spells_punct; intro x.
  - exists (print_attributes (tf_attributes x)). auto using print_spells_attributes.
  - exists (print_attributes (nf_attributes x)). auto using print_spells_attributes.
Qed.
Lemma print_spells_variant v : spells_variant v (print_variant v).
Proof.
  exists (print_attributes (ev_attributes v)), (print_fields (ev_fields v)).
  auto using print_spells_attributes, print_spells_fields.
Qed.
Lemma print_spells_fn_param p : spells_fn_param p (print_fn_param p).
Proof.
  destruct p as [r|t]; simpl.
  - exists (print_attributes (fr_attributes r)). auto using print_spells_attributes.
  - exists (print_attributes (ft_attributes t)), None, None. auto using print_spells_attributes.
Qed.
Lemma print_spells_function f : spells_function f (print_function f).
Proof.
  eexists (print_attributes (fn_attributes f)), _. split; [apply print_spells_attributes|].
  split; [apply print_spells_group, print_spells_punct, print_spells_fn_param|reflexivity].
Qed.
Lemma print_spells_constant c : stable_constant c = true -> spells_constant c (print_constant c).
Proof.
  unfold stable_constant. intro H. exists (print_attributes (co_attributes c)).
  split; [apply print_spells_attributes|]. unfold print_constant. destruct (co_mut c); [discriminate|reflexivity].
Qed.
Lemma print_spells_type_alias t : spells_type_alias t (print_type_alias t).
Proof. exists (print_attributes (ta_attributes t)). auto using print_spells_attributes. Qed.
Lemma print_spells_impl_member m :
  stable_impl_member m = true -> spells_impl_member m (print_impl_member m).
Proof.
  destruct m; simpl; intro H; auto using print_spells_function, print_spells_constant, print_spells_type_alias.
  exists (print_attributes (ma_attributes m)). auto using print_spells_attributes.
Qed.
Lemma print_spells_list {A} (pr : A -> list tok) (sp : A -> list tok -> Prop) l :
  (forall x, In x l -> sp x (pr x)) -> spells_list sp l (flat_map pr l).
Proof.
  induction l as [|x l IH]; simpl; auto. intro H. exists (pr x), (flat_map pr l). split; [reflexivity|]. split; [apply H; auto|]. apply IH. auto.
Qed.

Lemma print_spells_item i : wf_item i = true -> spells_item i (print_item i).
Proof.
  unfold wf_item. intro H. apply andb_true_iff in H. destruct H as [Hsh Hst]. revert Hsh Hst.
  induction i as [m IH|i Hi] using item_nested_ind; intros Hsh Hst.
  - simpl in *. unfold shape_module in Hsh. bsplit.
    match goal with |- spells_module _ _ _ ?c => change c with (print_module print_item m) end.
    eexists (print_attributes (mo_attributes m)), _. split; [apply print_spells_attributes|].
    split; [|reflexivity].
    destruct (mo_semicolon m) as [p|], (mo_braces m) as [b|]; try discriminate; auto.
    apply print_spells_group. bsplit.
    eexists (print_attributes (mo_inner_attributes m)), (flat_map print_item (mo_members m)).
    split; [apply print_spells_attributes|]. split; [|reflexivity].
    match goal with H : forallb shape_item _ = true |- _ => rename H into Hsm end.
    match goal with H : members_follow _ = true |- _ => rename H into Hmf end.
    match goal with H : forallb stable_item _ = true |- _ => rename H into Hst end.
    revert IH Hsm Hst Hmf. generalize (mo_members m). intro l. induction l as [|x l IHl]; [reflexivity|].
    intros IH Hsm Hst Hmf. cbn [members_follow] in Hmf. simpl in Hsm, Hst. bsplit. inversion IH; subst.
    exists (print_item x), (flat_map print_item l). repeat split; auto.
  - destruct i as [s|e|u|m|t|im|t|f|c|u|m|b|c]; simpl in *.
    + exists (print_attributes (st_attributes s)), (print_fields (st_fields s)).
      split; [apply print_spells_attributes|]. split; [apply print_spells_fields|].
      unfold stable_struct in Hst. unfold print_struct. destruct (st_fields s); auto.
      destruct (st_semicolon s); [discriminate|]. cbn [print_opt]. app_norm. reflexivity.
    + eexists (print_attributes (en_attributes e)), _.
      split; [apply print_spells_attributes|]. split; [|reflexivity].
      apply print_spells_group, print_spells_punct, print_spells_variant.
    + eexists (print_attributes (un_attributes u)), _.
      split; [apply print_spells_attributes|]. split; [|reflexivity].
      apply (print_spells_fields (FNamed (un_fields u))).
    + destruct (Hi m eq_refl).
    + eexists (print_attributes (tr_attributes t)), _.
      split; [apply print_spells_attributes|]. split; [|reflexivity].
      apply print_spells_group. eexists (print_attributes (tr_inner_attributes t)), _.
      split; [apply print_spells_attributes|]. split; [|reflexivity].
      apply print_spells_list. intros x Hx. rewrite forallb_forall in Hst. specialize (Hst x Hx).
      unfold spells_trait_member.
      replace (print_trait_member x) with (print_impl_member (impl_of_trait_member x)) by (destruct x; reflexivity).
      apply print_spells_impl_member. exact Hst.
    + eexists (print_attributes (im_attributes im)), None, _.
      split; [apply print_spells_attributes|]. split; [reflexivity|]. split; [|reflexivity].
      apply print_spells_group. eexists (print_attributes (im_inner_attributes im)), _.
      split; [apply print_spells_attributes|]. split; [|reflexivity].
      apply print_spells_list. intros x Hx. rewrite forallb_forall in Hst.
      apply print_spells_impl_member; auto.
    + apply print_spells_type_alias.
    + apply print_spells_function.
    + apply print_spells_constant; auto.
    + exists (print_attributes (us_attributes u)). auto using print_spells_attributes.
    + exists None. split; auto. split.
      * unfold stable_macro, id_in in Hst. simpl in Hst. bsplit. simpl. rwb. reflexivity.
      * exists (print_attributes (ma_attributes m)). auto using print_spells_attributes.
    + eexists (print_attributes (eb_attributes b)), _.
      split; [apply print_spells_attributes|]. split; [|reflexivity].
      apply print_spells_group. eexists (print_attributes (eb_inner_attributes b)), _.
      split; [apply print_spells_attributes|]. split; [|reflexivity].
      apply print_spells_list. intros x Hx. rewrite forallb_forall in Hst.
      apply print_spells_impl_member; auto.
    + exists (print_attributes (ec_attributes c)). split; [apply print_spells_attributes|].
      unfold wf_extern_crate in Hsh. bsplit. unfold print_extern_crate.
      destruct (ec_underscore c); [discriminate|]. reflexivity.
Qed.

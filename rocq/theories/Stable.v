(** The converse of [print_spells_item]: a tree of the right shape that is spelled by its own
    printed form is stable. *)
From Verif Require Export PrintSpells Complete3.

Lemma app_inj_len {A} (a b c d : list A) :
  a ++ b = c ++ d -> List.length a = List.length c -> a = c /\ b = d.
Proof.
  revert c. induction a as [|x a IH]; intros [|y c] H Hl; try discriminate; auto.
  simpl in *. injection H as -> H. injection Hl as Hl. destruct (IH _ H Hl) as [-> ->]. auto.
Qed.

Lemma attributes_len l : forall c, spells_attributes l c -> List.length c = List.length (print_attributes l).
Proof.
  induction l as [|a l IH]; intros c H.
  - simpl in H. subst. reflexivity.
  - destruct H as (c1 & c2 & -> & H1 & H2). destruct H1 as (extra & -> & _).
    unfold print_attributes. cbn [flat_map]. rewrite !app_length. fold (print_attributes l).
    rewrite (IH _ H2). unfold print_attribute. cbn [List.length]. rewrite !app_length. reflexivity.
Qed.
Lemma group_len gs P c : spells_group gs P c -> List.length c = 1.
Proof. intros (s & _ & ->). reflexivity. Qed.
Lemma fields_len f c : spells_fields f c -> List.length c = List.length (print_fields f).
Proof. destruct f; simpl; intro H; subst; auto; apply group_len in H; auto. Qed.

Definition stable_top (i : item) : bool :=
  match i with
  | IStruct s => stable_struct s
  | IConstant c => stable_constant c
  | IMacro m => stable_macro m
  | _ => true
  end.

Ltac lens :=
  repeat match goal with
  | H : spells_attributes _ _ |- _ => apply attributes_len in H
  | H : spells_fields _ _ |- _ => apply fields_len in H
  | H : spells_group _ _ _ |- _ => apply group_len in H
  end.
Ltac len_eq := unfold print_type, print_value; repeat (rewrite app_length || cbn [List.length quote_with print_opt print_type]); lia.

(** One constant in front of anything. *)
Lemma constant_print_eq k c r r' :
  spells_constant k c -> c ++ r = print_constant k ++ r' -> c = print_constant k /\ stable_constant k = true.
Proof.
  intros (ca & Ha & ->) H. unfold print_constant in *. revert H. app_norm. intro H.
  apply app_inj_len in H; [|apply attributes_len; auto]. destruct H as [-> H].
  apply app_inv_head in H. injection H as H.
  unfold stable_constant. destruct (co_mut k); simpl in H; [discriminate|]. split; auto.
Qed.
Lemma macro_print_eq m vis c r r' :
  prefix_ok vis [TIdent (ma_name m)] = true -> wf_opt wf_vis vis = true ->
  spells_macro vis m c -> c ++ r = print_macro m ++ r' ->
  c = print_macro m /\ stable_macro m = true.
Proof.
  intros Hp Hv (ca & Ha & ->) H. unfold print_macro, macro_tokens in *. revert H. app_norm. intro H.
  apply app_inj_len in H; [|apply attributes_len; auto]. destruct H as [-> H].
  destruct vis as [[t1 [t2|]]|]; simpl in H.
  - injection H as H1 H2. subst. discriminate.
  - injection H as H1 H2. discriminate.
  - split; auto. unfold stable_macro, vis_keywords, id_in. simpl in *. bsplit. rwb. reflexivity.
Qed.
Lemma function_print_len f c : spells_function f c -> List.length c = List.length (print_function f).
Proof. intros (ca & cp & Ha & Hp & ->). lens. unfold print_function. len_eq. Qed.
Lemma type_alias_print_len t c : spells_type_alias t c -> List.length c = List.length (print_type_alias t).
Proof. intros (ca & Ha & ->). lens. unfold print_type_alias. len_eq. Qed.

Lemma impl_member_print_eq allow m c r r' :
  shape_impl_member allow m = true ->
  spells_impl_member m c -> c ++ r = print_impl_member m ++ r' ->
  c = print_impl_member m /\ r = r' /\ stable_impl_member m = true.
Proof.
  destruct m; simpl; intros Hw Hs H.
  - apply app_inj_len in H; [|apply function_print_len; auto]. tauto.
  - destruct (constant_print_eq _ _ _ _ Hs H) as [-> Hst]. apply app_inv_head in H. auto.
  - apply app_inj_len in H; [|apply type_alias_print_len; auto]. tauto.
  - bsplit. assert (Hp : prefix_ok None [TIdent (ma_name m)] = true).
    { unfold stable_macro, id_in in H1. simpl in *. bsplit. rwb. reflexivity. }
    destruct (macro_print_eq _ _ _ _ _ Hp eq_refl Hs H) as [-> _]. apply app_inv_head in H. auto.
Qed.
Lemma impl_members_print_eq allow l : forall c,
  forallb (shape_impl_member allow) l = true ->
  spells_list spells_impl_member l c -> c = flat_map print_impl_member l ->
  forallb stable_impl_member l = true.
Proof.
  induction l as [|m l IH]; auto. intros c Hw (c1 & c2 & -> & H1 & H2) H. simpl in *. bsplit.
  destruct (impl_member_print_eq _ _ _ _ _ H0 H1 H) as (-> & -> & ->). simpl. eapply IH; eauto.
Qed.

Lemma body_print_eq {A} (sp : A -> list tok -> Prop) pr attrs items gs cb s0 :
  spells_group gs (spells_body sp attrs items) cb ->
  cb = quote_with gs (print_attributes attrs ++ s0) -> s0 = flat_map pr items ->
  spells_list sp items (flat_map pr items).
Proof.
  intros (s & (ci & cm & Hi & Hm & ->) & ->) H ->. unfold quote_with in H. injection H as H.
  apply app_inj_len in H; [|apply attributes_len; auto]. destruct H as [_ ->]. auto.
Qed.

Lemma print_head_semi i rest :
  shape_item i = true -> head_is (is_punct ";") (print_item i ++ rest) = false.
Proof.
  assert (Hat : forall l rest, wf_outer l = true -> head_is (is_punct ";") rest = false ->
    head_is (is_punct ";") (print_attributes l ++ rest) = false).
  { intros [|a l] rs Hl Hr; auto. simpl in *. unfold wf_attribute in Hl. bsplit. destruct a; simpl in *. known. reflexivity. }
  assert (Hv : forall v rest, wf_opt wf_vis v = true -> head_is (is_punct ";") rest = false ->
    head_is (is_punct ";") (print_opt print_vis v ++ rest) = false).
  { intros [[t1 t2]|] rs Hl Hr; auto. simpl in *. destruct t1, t2 as [[]|]; try discriminate; reflexivity. }
  intro H. destruct i; simpl in H;
    unfold shape_struct, wf_enum, wf_union, shape_module, shape_trait, shape_impl, wf_type_alias, wf_function,
      shape_constant, wf_use, shape_macro, shape_extern_block, wf_extern_crate in H; bsplit;
    simpl print_item; unfold print_struct, print_enum, print_union, print_module, print_trait, print_impl,
      print_type_alias, print_function, print_constant, print_use, print_macro, print_extern_block, print_extern_crate;
    app_norm; apply Hat; auto; try (apply Hv; auto); unfold print_qualifiers; app_norm;
    repeat match goal with |- context [print_opt _ ?o] => destruct o; try reflexivity; cbn [print_opt app] end; reflexivity.
Qed.

(** One item in front of anything that does not start with [;]. *)
Lemma item_print_eq i c r r' :
  shape_item i = true -> spells_item i c -> c ++ r = print_item i ++ r' ->
  head_is (is_punct ";") r' = false ->
  c = print_item i /\ stable_top i = true.
Proof.
  intros Hsh Hs H Hr. destruct i; simpl in Hs, Hsh; cbn [print_item stable_top] in *;
    try (destruct (constant_print_eq _ _ _ _ Hs H); auto; fail).
  - (* struct *)
    destruct Hs as (ca & cf & Ha & Hf & ->). unfold print_struct in *. revert H. app_norm. intro H.
    apply app_inj_len in H; [|apply attributes_len; auto]. destruct H as [-> H].
    apply app_inv_head in H. injection H as H. apply app_inv_head in H.
    unfold stable_struct. destruct (st_fields s) eqn:Ef.
    + simpl in *. subst cf. auto.
    + revert H. app_norm. intro H. apply app_inj_len in H; [|apply fields_len; auto]. destruct H as [-> H]. auto.
    + revert H. app_norm. intro H. apply app_inv_head in H.
      apply app_inj_len in H; [|apply fields_len; auto]. destruct H as [-> H].
      destruct (st_semicolon s) eqn:Es; simpl in H.
      * subst r'. unfold shape_struct in Hsh. rewrite Es in Hsh. bsplit. simpl in *. congruence.
      * split; auto; cbn [print_opt]; rewrite ?app_nil_r; auto.
  - (* enum *) destruct Hs as (ca & cf & Ha & Hf & ->). lens.
    apply app_inj_len in H; [tauto|]. unfold print_enum. len_eq.
  - destruct Hs as (ca & cf & Ha & Hf & ->). unfold spells_named_fields in Hf. lens.
    apply app_inj_len in H; [tauto|]. unfold print_union, print_named_fields. len_eq.
  - destruct Hs as (ca & cf & Ha & Hf & ->).
    assert (List.length cf = List.length (match mo_semicolon m with
       | Some semi => [TPunct semi]
       | None =>
           match mo_braces m with
           | Some braces =>
               quote_with braces
                 (print_attributes (mo_inner_attributes m) ++ flat_map print_item (mo_members m))
           | None => []
           end
       end)).
    { destruct (mo_semicolon m); [subst; auto|]. destruct (mo_braces m); [lens; auto|subst; auto]. }
    lens. apply app_inj_len in H; [tauto|]. unfold print_module. len_eq.
  - destruct Hs as (ca & cf & Ha & Hf & ->). lens.
    apply app_inj_len in H; [tauto|]. unfold print_trait. len_eq.
  - (* impl *)
    destruct Hs as (ca & vis & cf & Ha & Hv & Hf & ->). unfold print_impl in *. revert H. app_norm. intro H.
    apply app_inj_len in H; [|apply attributes_len; auto]. destruct H as [-> H].
    destruct vis as [[t1 t2]|].
    + exfalso. unfold shape_impl in Hsh. bsplit. destruct t1 as [|v| |]; try discriminate. simpl in Hv.
      assert (id_is "unsafe" v = false /\ id_is "impl" v = false) as [Hu Hi].
      { destruct t2 as [[]|]; bsplit; try discriminate; try bcase; known; auto. }
      destruct (im_unsafe i); simpl in *; injection H; intros; subst; congruence.
    + simpl in *. split; auto. lens. apply app_inv_head in H. injection H as H. 
      repeat (apply app_inv_head in H).
      destruct cf as [|t [|? ?]]; try discriminate Hf. injection H as -> _. auto.
  - apply app_inj_len in H; [tauto|]. apply type_alias_print_len; auto.
  - apply app_inj_len in H; [tauto|]. apply function_print_len; auto.
  - destruct Hs as (ca & Ha & ->). lens.
    apply app_inj_len in H; [tauto|]. unfold print_use. len_eq.
  - destruct Hs as (vis & Hv & Hp & Hs). eapply macro_print_eq; eauto.
  - destruct Hs as (ca & cf & Ha & Hf & ->). lens.
    apply app_inj_len in H; [tauto|]. unfold print_extern_block. len_eq.
  - destruct Hs as (ca & Ha & ->). lens. unfold wf_extern_crate in Hsh. bsplit.
    apply app_inj_len in H; [tauto|]. unfold print_extern_crate. destruct (ec_underscore c0); [discriminate|]. len_eq.
Qed.

(** The members of a module. *)
Lemma members_print_eq l : forall c,
  Forall (fun i => shape_item i = true -> spells_item i (print_item i) -> stable_item i = true) l ->
  forallb shape_item l = true -> spells_members spells_item follow_ok l c -> c = flat_map print_item l ->
  forallb stable_item l = true /\ members_follow l = true.
Proof.
  induction l as [|i l IH]; auto. intros c HF Hsh (c1 & c2 & -> & H1 & H2 & H3) H.
  inversion HF; subst. simpl in Hsh. bsplit. cbn [flat_map] in H.
  assert (Hh : head_is (is_punct ";") (flat_map print_item l) = false).
  { destruct l as [|j l]; auto. cbn [flat_map]. apply print_head_semi. simpl in *. bsplit. auto. }
  destruct (item_print_eq _ _ _ _ H0 H1 H Hh) as [-> _]. apply app_inv_head in H.
  destruct (IH _ H6 H4 H3 H) as [Ha Hb]. simpl. subst c2. rewrite H2, Ha, Hb, H5; auto.
Qed.

Theorem spells_print_stable i :
  shape_item i = true -> spells_item i (print_item i) -> stable_item i = true.
Proof.
  induction i as [m IH|i Hn] using item_nested_ind; intros Hsh Hs.
  - simpl in *. unfold shape_module in Hsh. destruct Hs as (ca & cb & Ha & Hb & H). unfold print_module in H.
    apply app_inj_len in H; [|symmetry; apply attributes_len; auto]. destruct H as [<- H].
    repeat (apply app_inv_head in H). injection H as H. subst cb. bsplit.
    destruct (mo_semicolon m).
    + destruct (mo_braces m); [discriminate|]. bsplit. destruct (mo_members m); [reflexivity|discriminate].
    + destruct (mo_braces m); [|discriminate]. bsplit.
      destruct Hb as (s & (ci & cm & Hi & Hm & ->) & Hq). unfold quote_with in Hq. injection Hq as Hq.
      apply app_inj_len in Hq; [|symmetry; apply attributes_len; auto]. destruct Hq as [_ Hq].
      destruct (members_print_eq _ _ IH ltac:(eassumption) Hm ltac:(auto)) as [-> ->]. reflexivity.
  - pose proof (item_print_eq i (print_item i) [] [] Hsh Hs eq_refl eq_refl) as [_ Htop].
    destruct i; auto; try (exfalso; eapply Hn; reflexivity); simpl in *.
    + destruct Hs as (ca & cb & Ha & Hb & H). unfold print_trait in H.
      apply app_inj_len in H; [|symmetry; apply attributes_len; auto]. destruct H as [<- H].
      do 2 apply app_inv_head in H. injection H as H. do 3 apply app_inv_head in H. subst cb.
      unfold shape_trait in Hsh. bsplit.
      eapply body_print_eq in Hb; [|reflexivity|reflexivity].
      assert (Hb' : spells_list spells_impl_member (map impl_of_trait_member (tr_items t))
        (flat_map print_impl_member (map impl_of_trait_member (tr_items t)))).
      { apply spells_trait_members in Hb. 
        replace (flat_map print_impl_member (map impl_of_trait_member (tr_items t))) with (flat_map print_trait_member (tr_items t)); auto.
        clear. induction (tr_items t) as [|m l IH]; auto. simpl. rewrite IH. destruct m; reflexivity. }
      eapply impl_members_print_eq in Hb'; [|rewrite forallb_map; eassumption|reflexivity].
      rewrite forallb_map in Hb'. exact Hb'.
    + destruct Hs as (ca & vis & cb & Ha & Hv & Hb & H).
      unfold print_impl in H.
      apply app_inj_len in H; [|symmetry; apply attributes_len; auto]. destruct H as [<- H].
      assert (vis = None) as ->.
      { apply group_len in Hb. apply (f_equal (@List.length tok)) in H. revert H. unfold print_opt at 6.
        repeat (rewrite app_length || cbn [List.length quote_with]). destruct vis as [[]|]; auto. simpl. unfold print_type. lia. }
      simpl in H. apply app_inv_head in H. injection H as H. do 5 apply app_inv_head in H. subst cb.
      unfold shape_impl in Hsh. bsplit.
      eapply body_print_eq in Hb; [|reflexivity|reflexivity].
      eapply impl_members_print_eq in Hb; [|eassumption|reflexivity]. auto.
    + destruct Hs as (ca & cb & Ha & Hb & H). unfold print_extern_block in H.
      apply app_inj_len in H; [|symmetry; apply attributes_len; auto]. destruct H as [<- H].
      do 2 apply app_inv_head in H. injection H as H. apply app_inv_head in H. subst cb.
      unfold shape_extern_block in Hsh. bsplit.
      eapply body_print_eq in Hb; [|reflexivity|reflexivity].
      eapply impl_members_print_eq in Hb; [|eassumption|reflexivity]. auto.
Qed.

(** The depth bound of [nest] is immaterial: [consume_item] satisfies the recursion
    equation of the source. *)
From Verif Require Export Safe.

Lemma bind_ext {A B} (m : outcome A) (k k' : A -> outcome B) :
  (forall x, m = Ret x -> k x = k' x) -> bind m k = bind m k'.
Proof. destruct m; simpl; auto. Qed.

Lemma many_loop_ext {A} (elem elem' : parser A) n :
  (forall ts, toks_depth ts < n -> elem ts = elem' ts) ->
  (forall ts x rest, elem ts = Ret (x, rest) -> exists c, ts = c ++ rest) ->
  forall fuel ts, toks_depth ts < n -> many_loop elem fuel ts = many_loop elem' fuel ts.
Proof.
  intros H1 H2. induction fuel as [|fuel IH]; intros ts Hd; auto. cbn [many_loop].
  destruct ts as [|t r]; auto. rewrite <- H1 by auto. apply bind_ext. intros [x rest] Hx.
  apply H2 in Hx. destruct Hx as [c Hc]. rewrite Hc, toks_depth_app in Hd. rewrite IH by lia. reflexivity.
Qed.

Section Ext.
Variables R R' : parser (result item error).
Variables E E' : list attribute -> option vis_marker -> parser item.
Variable n : nat.
Hypothesis HR : forall ts i rest, R ts = Ret (Ok i, rest) ->
  exists c, ts = c ++ rest /\ spells_item i c /\ shape_item i = true /\ follow_ok i rest = true.
Hypothesis HE : forall attrs vis ts i rest, E attrs vis ts = Ret (i, rest) ->
  wf_outer attrs = true -> wf_opt wf_vis vis = true -> either_ok attrs vis ts i rest.
Hypothesis XR : forall ts, toks_depth ts < n -> R ts = R' ts.
Hypothesis XE : forall attrs vis ts, toks_depth ts < n -> E attrs vis ts = E' attrs vis ts.

Lemma impl_body_ext g allow :
  toks_depth (g_stream g) < n -> parse_impl_body E g allow = parse_impl_body E' g allow.
Proof.
  intro Hd. unfold parse_impl_body. apply bind_ext. intros [inner t1] H1.
  apply inner_attributes_sound in H1. destruct H1 as (ci & Hs & _). f_equal.
  apply (many_loop_ext _ _ n).
  - intros ts Ht. unfold parse_impl_member. apply bind_ext. intros [attrs t2] H2.
    destruct (consume_vis_marker t2) as [v t3] eqn:Ev.
    destruct (attrs_vis_sound _ _ _ _ _ H2 Ev) as (ca & -> & _).
    rewrite !toks_depth_app in Ht. rewrite XE by lia. reflexivity.
  - intros ts x rest Hm. apply impl_member_sound in Hm; auto. destruct Hm as (c & -> & _). eauto.
  - rewrite Hs in Hd. rewrite toks_depth_app in Hd. lia.
Qed.
Lemma body_group_ext site bad pre ts :
  toks_depth (pre ++ ts) <= n -> parse_body_group E site bad ts = parse_body_group E' site bad ts.
Proof.
  intros Hd. unfold parse_body_group. destruct ts as [|[g|i|p|l] r]; auto.
  rewrite impl_body_ext; auto. pose proof (depth_inside pre g r). lia.
Qed.
Lemma impl_ext attrs ts : toks_depth ts <= n -> parse_impl E attrs ts = parse_impl E' attrs ts.
Proof.
  intro Hd. unfold parse_impl. destruct (consume_ident "unsafe" ts) as [u t0] eqn:Eu.
  apply consume_ident_sound in Eu. destruct Eu as (-> & _).
  apply bind_ext. intros [kw t1] H. apply parse_ident_sound in H. destruct H as [-> _].
  apply bind_ext. intros [gen t2] H. apply generics_sound in H. destruct H as (-> & _).
  apply bind_ext. intros [ty1 t3] H. apply until_sound in H. destruct H as [-> _].
  rewrite !toks_depth_app in Hd. simpl in Hd. rewrite !toks_depth_app in Hd.
  apply bind_ext. intros [[[a b] c] t4] H.
  assert (Ht : exists pre, t3 = pre ++ t4).
  { destruct (consume_ident "for" t3) as [f t5] eqn:Ef. apply consume_ident_sound in Ef. destruct Ef as (-> & _).
    destruct f as [f|].
    - inv_bind H. destruct x as [ty2 t6]. bsplit. apply until_sound in Hx. destruct Hx as [-> _].
      exists (TIdent f :: ty2). reflexivity.
    - bsplit. exists []. reflexivity. }
  destruct Ht as [pre ->]. rewrite toks_depth_app in Hd.
  apply bind_ext. intros [wh t6] H6. apply where_sound in H6. destruct H6 as (-> & _).
  rewrite (body_group_ext _ PImplToken (print_opt print_where wh)); auto. lia.
Qed.
Lemma trait_ext attrs vis ts : toks_depth ts <= n -> parse_trait E attrs vis ts = parse_trait E' attrs vis ts.
Proof.
  intro Hd. unfold parse_trait. destruct (consume_ident "unsafe" ts) as [u t0] eqn:Eu.
  apply consume_ident_sound in Eu. destruct Eu as (-> & _).
  apply bind_ext. intros [kw t1] H. apply parse_ident_sound in H. destruct H as [-> _].
  apply bind_ext. intros [name t2] H. apply parse_any_ident_sound in H. subst t1.
  apply bind_ext. intros [gen t3] H. apply generics_sound in H. destruct H as (-> & _).
  rewrite !toks_depth_app in Hd. simpl in Hd. rewrite !toks_depth_app in Hd.
  apply bind_ext. intros [bound t4] H.
  assert (Ht : exists pre, t3 = pre ++ t4).
  { destruct t4; [exists t3; rewrite app_nil_r; auto|]. apply bound_sound in H. destruct H as (-> & _). eauto. }
  destruct Ht as [pre ->]. rewrite toks_depth_app in Hd.
  apply bind_ext. intros [wh t6] H6. apply where_sound in H6. destruct H6 as (-> & _).
  rewrite (body_group_ext _ PTraitToken (print_opt print_where wh)); auto. lia.
Qed.
Lemma extern_block_ext attrs vis ts :
  toks_depth ts <= n -> parse_extern_block E attrs vis ts = parse_extern_block E' attrs vis ts.
Proof.
  intro Hd. unfold parse_extern_block. f_equal.
  unfold consume_extern_block. destruct (consume_ident "unsafe" ts) as [u t0] eqn:Eu.
  apply consume_ident_sound in Eu. destruct Eu as (-> & _).
  destruct (consume_ident "extern" t0) as [k t1] eqn:Ek. apply consume_ident_sound in Ek. destruct Ek as (-> & _).
  destruct k as [k|]; auto.
  destruct (consume_literal t1) as [abi t2] eqn:Ea. apply consume_literal_sound in Ea. subst t1.
  destruct t2 as [|[g|i|p|l] r]; auto. rewrite impl_body_ext; auto.
  rewrite !toks_depth_app in Hd. pose proof (depth_inside [] g r). simpl app in H. lia.
Qed.
Lemma mod_ext attrs vis ts : toks_depth ts <= n -> parse_mod R attrs vis ts = parse_mod R' attrs vis ts.
Proof.
  intro Hd. unfold parse_mod. destruct (consume_ident "unsafe" ts) as [u t0] eqn:Eu.
  apply consume_ident_sound in Eu. destruct Eu as (-> & _).
  apply bind_ext. intros [kw t1] H. apply parse_ident_sound in H. destruct H as [-> _].
  apply bind_ext. intros [name t2] H. apply parse_any_ident_sound in H. subst t1.
  destruct t2 as [|[g|i|p|l] r]; auto. destruct (delim_eqb (g_delim g) Brace); auto.
  apply bind_ext. intros [inner t1] H1. apply inner_attributes_sound in H1. destruct H1 as (ci & Hs & _). f_equal.
  assert (Hg : toks_depth (g_stream g) < n).
  { rewrite toks_depth_app in Hd. cbn [toks_depth] in Hd.
    pose proof (depth_inside [] g r) as H. cbn [app toks_depth] in H. lia. }
  apply (many_loop_ext _ _ n).
  - intros ts Ht. unfold parse_mod_member. rewrite XR by auto. reflexivity.
  - intros ts x rest Hm. unfold parse_mod_member in Hm. inv_bind Hm. destruct x0 as [[i|e] r']; [|discriminate].
    bsplit. apply HR in Hx. destruct Hx as (c & -> & _). eauto.
  - rewrite Hs in Hg. rewrite toks_depth_app in Hg. lia.
Qed.

Lemma either_ext attrs vis ts :
  toks_depth ts <= n -> consume_either R E attrs vis ts = consume_either R' E' attrs vis ts.
Proof.
  intro Hd. unfold consume_either. destruct ts as [|[g|k|p|l] r]; auto.
  destruct (id_is "type" k); auto. destruct (fn_like_keyword k); auto.
  apply bind_ext. intros [[f|nf] t1] H; auto. apply consume_fn_rollback in H. subst t1.
  destruct nf; try reflexivity; f_equal; auto using trait_ext, impl_ext, mod_ext, extern_block_ext.
Qed.
Lemma item_body_ext ts : toks_depth ts <= n -> consume_item_body R E ts = consume_item_body R' E' ts.
Proof.
  intro Hd. unfold consume_item_body. apply bind_ext. intros [attrs t1] H1.
  destruct (consume_vis_marker t1) as [v t2] eqn:Ev.
  destruct (attrs_vis_sound _ _ _ _ _ H1 Ev) as (ca & -> & _). rewrite !toks_depth_app in Hd.
  assert (Hd2 : toks_depth t2 <= n) by lia. clear Hd.
  destruct t2 as [|[g|k|p|l] r]; [reflexivity|reflexivity| |reflexivity|reflexivity].
  repeat match goal with |- (if ?b then _ else _) = _ => destruct b end; try reflexivity;
    [ rewrite mod_ext by exact Hd2 | rewrite trait_ext by exact Hd2 | rewrite impl_ext by exact Hd2
    | rewrite either_ext by exact Hd2 ]; reflexivity.
Qed.
End Ext.

(** Any two sufficient bounds give the same parser. *)
Lemma nest_agree : forall n m,
  (forall ts, toks_depth ts < n -> toks_depth ts < m -> fst (nest n) ts = fst (nest m) ts)
  /\ (forall attrs vis ts, toks_depth ts < n -> toks_depth ts < m ->
        snd (nest n) attrs vis ts = snd (nest m) attrs vis ts).
Proof.
  induction n as [|n IH]; intros m; [split; intros; lia|].
  destruct m as [|m]; [split; intros; lia|]. specialize (IH m). destruct IH as [IH1 IH2].
  pose proof (nest_sound n) as [S1 S2]. cbn [nest].
  destruct (nest n) as [R E], (nest m) as [R' E']. simpl in *.
  split; intros.
  - apply (item_body_ext R R' E E' (toks_depth ts)); auto; intros; [apply IH1 | apply IH2]; lia.
  - apply (either_ext R R' E E' (toks_depth ts)); auto; intros; [apply IH1 | apply IH2]; lia.
Qed.

(** [consume_either_fn_type_const_static_impl] with a sufficient bound. *)
Definition consume_either_item (attrs : list attribute) (vis : option vis_marker) : parser item := fun ts =>
  snd (nest (S (toks_depth ts))) attrs vis ts.

(** The recursion equations of src/parse.rs:86-239 and src/parse_impl.rs:122-186. *)
Theorem consume_item_unfold ts : consume_item ts = consume_item_body consume_item consume_either_item ts.
Proof.
  unfold consume_item at 1. cbn [nest]. pose proof (nest_sound (toks_depth ts)) as [S1 S2].
  destruct (nest (toks_depth ts)) as [R E] eqn:En. simpl in *.
  apply (item_body_ext R _ E _ (toks_depth ts)); auto; intros.
  - unfold consume_item. replace R with (fst (nest (toks_depth ts))) by (rewrite En; auto). apply nest_agree; lia.
  - unfold consume_either_item. replace E with (snd (nest (toks_depth ts))) by (rewrite En; auto). apply nest_agree; lia.
Qed.
Theorem consume_either_unfold attrs vis ts :
  consume_either_item attrs vis ts = consume_either consume_item consume_either_item attrs vis ts.
Proof.
  unfold consume_either_item at 1. cbn [nest]. pose proof (nest_sound (toks_depth ts)) as [S1 S2].
  destruct (nest (toks_depth ts)) as [R E] eqn:En. simpl in *.
  apply (either_ext R _ E _ (toks_depth ts)); auto; intros.
  - unfold consume_item. replace R with (fst (nest (toks_depth ts))) by (rewrite En; auto). apply nest_agree; lia.
  - unfold consume_either_item. replace E with (snd (nest (toks_depth ts))) by (rewrite En; auto). apply nest_agree; lia.
Qed.

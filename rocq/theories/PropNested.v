(** C89: the nested items outside of the restrictions of RustSyntax.v: modules, traits, impls and
    extern blocks panic rather than being misread (continues C87). *)
From Verif Require Import RustAny Debug PrintSpells Complete3 Sound2 Stable Unfold Samples PropRoundTrip PropErr ScanSpec PropScan RustSyntax PropRust PropAny PropLimits PropPath PropMisread.
Local Open Scope string_scope.
Local Open Scope list_scope.

(** ** How items start *)
Definition front (ts : list tok) : Prop :=
  exists attrs vis i r, ts = print_attributes attrs ++ print_opt print_vis vis ++ TIdent i :: r /\ rust_outer attrs /\ if_some rust_vis vis.
Lemma front_app ts z : front ts -> front (ts ++ z).
Proof. intros (a & v & i & r & -> & H). exists a, v, i, (r ++ z). split; auto. app_norm. reflexivity. Qed.
Lemma front_semi ts : front ts -> head_is (is_punct ";") ts = false.
Proof.
  intros (a & v & i & r & -> & Ha & Hv). destruct a as [|x a].
  - cbn. destruct v as [[[] t2]|]; cbn; auto. destruct Hv as (k & E & _). discriminate.
  - cbn. inversion Ha as [|? ? (H & _)]; subst. unfold print_attribute. cbn. unfold p_is. red in H. rewrite H. reflexivity.
Qed.
Lemma front_inner ts : front ts -> inner_follow ts = true.
Proof.
  intros (a & v & i & r & -> & Ha & Hv). apply (outer_inner_follow a); [apply outer_wf; auto|apply print_spells_attributes|].
  apply vis_inner_follow; [eapply if_some_wf; [apply vis_wf|auto]|]. reflexivity.
Qed.
Lemma front_opt attrs vis o i r : rust_outer attrs -> if_some rust_vis vis -> front (print_attributes attrs ++ print_opt print_vis vis ++ print_opt print_ident o ++ TIdent i :: r).
Proof. intros. destruct o as [u|]; [exists attrs, vis, u, (TIdent i :: r)|exists attrs, vis, i, r]; auto. Qed.
Lemma front_none attrs o i r : rust_outer attrs -> front (print_attributes attrs ++ print_opt print_ident o ++ TIdent i :: r).
Proof. intros. apply (front_opt attrs None); auto. exact I. Qed.
Lemma front_function f : any_function f -> front (print_function f).
Proof.
  intros (A1 & A2 & A3 & A4 & _). unfold print_function.
  match goal with |- context [print_qualifiers _ ++ TIdent _ :: ?z] => destruct (qualifiers_head _ (fn_kw f) z A3 A4) as (i & r & -> & _) end.
  eexists _, _, _, _. split; [reflexivity|auto].
Qed.
Lemma front_constant st k : any_constant st k -> front (print_constant k).
Proof. intros (A1 & A2 & _). eexists _, _, _, _. split; [reflexivity|auto]. Qed.
Lemma front_alias t : rust_alias t -> front (print_type_alias t).
Proof. intros (A1 & A2 & _). eexists _, _, _, _. split; [reflexivity|auto]. Qed.
Lemma front_macro m : any_macro m -> front (print_macro m).
Proof. intros (A1 & _). exists (ma_attributes m), None. eexists _, _. split; [reflexivity|]. split; [auto|exact I]. Qed.
Lemma front_member st m : any_member st m -> front (print_impl_member m).
Proof. destruct m; cbn; eauto using front_function, front_constant, front_alias, front_macro. Qed.
Lemma front_item i : any_item i -> front (print_item i).
Proof.
  destruct i as [s|e|u|m|t|im|ta|f|k|us|mc|eb|ec]; cbn [any_item print_item]; eauto using front_function, front_constant, front_alias, front_macro;
    intros (A1 & A2 & _); try (eexists _, _, _, _; split; [reflexivity|auto]).
  - unfold print_module. apply front_opt; auto.
  - unfold print_trait. apply front_opt; auto.
  - unfold print_impl. apply front_none; auto.
  - unfold print_extern_block. apply front_opt; auto.
Qed.

(** ** Members of blocks *)
Definition clean_member (m : impl_member) : Prop :=
  match m with
  | IMFunction f => if_some clean_where (fn_where f)
  | IMConstant k => calm_constant k
  | _ => True
  end.
Lemma function_reads f z v : any_function f -> if_some clean_where (fn_where f) ->
  consume_either_item (fn_attributes f) (fn_vis f)
   (print_qualifiers (fn_qualifiers_ f) ++ TIdent (fn_kw f) :: TIdent (fn_name f) :: print_opt print_generic_params (fn_generics f)
     ++ quote_with (fn_parens f) (print_punctuated print_fn_param (fn_params f))
     ++ print_opt print_punct2 (fn_arrow f) ++ print_opt print_type (fn_ret f)
     ++ print_opt print_where (fn_where f)
     ++ print_opt print_group (fn_body f) ++ print_opt print_punct (fn_semicolon f) ++ z) = Ret v -> rust_function f.
Proof.
  intros A K E. pose proof A as (_ & _ & A3 & A4 & _). rewrite consume_either_unfold in E.
  match type of E with context [print_qualifiers _ ++ TIdent _ :: ?z] => destruct (qualifiers_head _ (fn_kw f) z A3 A4) as (i & l & Eq & Hi) end.
  rewrite Eq in E. unfold consume_either in E.
  assert (T : id_is "type" i = false /\ fn_like_keyword i = true).
  { clear -Hi. unfold id_in, fn_like_keyword, id_is in *. cbn in Hi. repeat match type of Hi with context [String.eqb ?a ?b] => destruct (String.eqb_spec a b) as [Q|_]; cbn in Hi; [rewrite ?Q; auto|] end. discriminate. }
  destruct T as [T1 T2]. rewrite T1, T2, <- Eq in E. inv_bind E. eapply function_good; eauto.
Qed.
Lemma constant_reads st k z v : any_constant st k -> calm_constant k ->
  consume_either_item (co_attributes k) (co_vis k)
      (TIdent (co_kw k) :: print_opt print_ident (co_mut k) ++ TIdent (co_name k) :: TPunct (co_colon k) :: print_type (co_ty k)
       ++ print_opt print_punct (co_equals k) ++ print_opt print_value (co_init k) ++ TPunct (co_semicolon k) :: z) = Ret v -> rust_constant st k.
Proof.
  intros A K E. pose proof A as (_ & _ & A3 & A4 & _). rewrite consume_either_unfold in E. unfold consume_either in E.
  assert (T : id_is "type" (co_kw k) = false /\ fn_like_keyword (co_kw k) = true).
  { destruct A3 as [[W _]|(_ & W & _)]; red in W; unfold fn_like_keyword, id_is; rewrite W; auto. }
  destruct T as [T1 T2]. rewrite T1, T2 in E. inv_bind E. destruct x as [q ts'].
  set (u := TIdent (co_kw k) :: _) in *.
  assert (Q : ts' = u /\ (q = Err NFConst \/ q = Err NFStatic)).
  { unfold u in *. clear u. assert (N : forall w, In w (reserved ++ ["crate"; "self"; "Self"; "super"]) -> id_is w (co_name k) = false) by (intros; apply name_not; auto).
    clear -Hx N A3. destruct A3 as [[Kw Km]|(_ & Kw & Km)].
    - rewrite Km in *. cbn [print_opt app] in *.
      destruct (co_kw k) as [w sp]. red in Kw. cbn in Kw. subst. unfold consume_fn, consume_fn_qualifiers, consume_ident in Hx. cbn in Hx.
      rewrite !N in Hx by (cbn; tauto). cbn in Hx. unfold classify_fn in Hx. rewrite !N in Hx by (cbn; tauto). cbn in Hx. inversion Hx; auto.
    - destruct (co_kw k) as [w sp]. red in Kw. cbn in Kw. subst. unfold consume_fn, consume_fn_qualifiers, consume_ident in Hx. cbn in Hx. inversion Hx; auto. }
  destruct Q as [-> [-> | ->]]; inv_bind E; eapply constant_on; eauto.
Qed.
Lemma macro_reads m z v : any_macro m ->
  consume_either_item (ma_attributes m) None (TIdent (ma_name m) :: TPunct (ma_bang m) :: print_opt print_ident (ma_declared m) ++ quote_with (ma_group m) (ma_inner m)
   ++ print_opt print_punct (ma_semicolon m) ++ z) = Ret v -> rust_macro m.
Proof.
  intros A E. pose proof A as (_ & A2 & A3 & _). rewrite consume_either_unfold in E. unfold consume_either in E.
  assert (N : forall w, In w (reserved ++ ["crate"; "self"; "Self"; "super"]) -> id_is w (ma_name m) = false) by (intros; apply name_not; auto).
  assert (N2 : forall w, In w ["union"; "default"] -> id_is w (ma_name m) = false).
  { intros w Hw. unfold id_is. destruct (String.eqb_spec (id_str (ma_name m)) w); auto. subst. tauto. }
  unfold fn_like_keyword in E. rewrite (N2 "default") in E by (cbn; tauto). rewrite !N in E by (cbn; tauto). cbn [orb] in E. inv_bind E. eapply macro_good; eauto.
Qed.
Lemma member_reads st m z v : any_member st m -> clean_member m ->
  parse_impl_member consume_either_item st (print_impl_member m ++ z) = Ret v -> rust_member st m.
Proof.
  assert (H : forall attrs vis i r, rust_outer attrs -> if_some rust_vis vis -> id_in vis_keywords i = false ->
    parse_impl_member consume_either_item st (print_attributes attrs ++ print_opt print_vis vis ++ TIdent i :: r) = Ret v ->
    exists w, consume_either_item attrs vis (TIdent i :: r) = Ret w).
  { intros attrs vis i r Ha Hv Hi E. unfold parse_impl_member in E. rewrite (attrs_vis_complete attrs) in E;
      [|apply outer_wf; auto|apply print_spells_attributes|eapply if_some_wf; [apply vis_wf|auto]|auto using prefix_ok_ident].
    cbn [bind] in E. rewrite vis_complete in E; [|eapply if_some_wf; [apply vis_wf|auto]|auto using prefix_ok_ident]. inv_bind E. eauto. }
  destruct m as [f|k|t|m]; cbn [any_member clean_member rust_member print_impl_member]; auto; intros A K E.
  - pose proof A as (A1 & A2 & A3 & A4 & _). unfold print_function in E. revert E. app_norm. intro E.
    match type of E with context [print_qualifiers _ ++ TIdent _ :: ?z] => destruct (qualifiers_head _ (fn_kw f) z A3 A4) as (i & l & Eq & Hi) end.
    rewrite Eq in E. apply H in E; auto.
    + rewrite <- Eq in E. destruct E as [w E]. eapply function_reads; eauto.
    + clear -Hi. unfold vis_keywords, id_in, id_is in *. cbn in *. repeat match type of Hi with context [String.eqb ?a ?b] => destruct (String.eqb_spec a b) as [Q|_]; cbn in Hi; [rewrite ?Q; auto|] end. discriminate.
  - pose proof A as (A1 & A2 & A3 & A4 & _). unfold print_constant in E. revert E. app_norm. intro E. apply H in E; auto.
    + destruct E as [w E]. eapply constant_reads; eauto.
    + destruct A3 as [[W _]|(_ & W & _)]; red in W; unfold vis_keywords, id_in, id_is; cbn; rewrite W; auto.
  - pose proof A as (A1 & A2 & A3 & _). unfold print_macro in E. revert E. app_norm. intro E.
    apply (H _ None) in E; auto.
    + destruct E as [w E]. eapply macro_reads; eauto.
    + assert (N : forall w, In w (reserved ++ ["crate"; "self"; "Self"; "super"]) -> id_is w (ma_name m) = false) by (intros; apply name_not; auto).
      unfold vis_keywords, id_in. cbn. rewrite !N by (cbn; tauto). reflexivity.
Qed.
Lemma member_back st m z : rust_member st m -> parse_impl_member consume_either_item st (print_impl_member m ++ z) = Ret (m, z).
Proof.
  intro R. pose proof (member_wf _ _ R) as [W1 W2].
  rewrite <- (impl_member_complete consume_item consume_either_item st m (print_impl_member m) z W1 (print_spells_impl_member m W2)).
  unfold parse_impl_member. apply bind_ext. intros [a ts]. destruct (consume_vis_marker ts) as [v ts'] eqn:Ev || idtac.
  rewrite ?consume_either_unfold. reflexivity.
Qed.
Lemma members_read st l : forall fuel v, Forall (any_member st) l -> Forall clean_member l ->
  many_loop (parse_impl_member consume_either_item st) fuel (flat_map print_impl_member l) = Ret v -> Forall (rust_member st) l.
Proof.
  induction l as [|m l IH]; intros fuel v A K E; [constructor|]. inversion A; inversion K; subst. cbn [flat_map] in E.
  destruct fuel; [discriminate|]. cbn [many_loop] in E.
  assert (N : print_impl_member m ++ flat_map print_impl_member l <> []).
  { destruct (front_member st m) as (a & w & i & r & -> & _); auto. destruct a, w as [[]|]; discriminate. }
  destruct (print_impl_member m ++ flat_map print_impl_member l) as [|t ts] eqn:Et; [congruence|]. rewrite <- Et in E.
  inv_bind E. destruct x as [y r].
  assert (R : rust_member st m) by (eapply member_reads; eauto).
  rewrite (member_back _ _ _ R) in Hx. inversion Hx; subst. inv_bind E. constructor; eauto.
Qed.
Lemma body_reads st inner l d sp v : Forall (rust_attribute true) inner -> Forall (any_member st) l -> Forall clean_member l ->
  parse_impl_body consume_either_item (mkGroup d (print_attributes inner ++ flat_map print_impl_member l) sp) st = Ret v -> Forall (rust_member st) l.
Proof.
  intros I A K E. unfold parse_impl_body in E. cbn [g_stream] in E. rewrite (inner_attributes_complete inner) in E; [|apply inner_wf; auto|apply print_spells_attributes|].
  - cbn [bind] in E. inv_bind E. eapply members_read; eauto.
  - destruct l as [|m l]; [reflexivity|]. inversion A; subst. cbn [flat_map]. apply front_inner, front_app. eapply front_member; eauto.
Qed.

(** ** Traits, impls and extern blocks *)
Lemma trait_members_forall (P : impl_member -> Prop) (Q : trait_member -> Prop) l :
  (forall m, P (impl_of_trait_member m) <-> Q m) -> (Forall P (map impl_of_trait_member l) <-> Forall Q l).
Proof. intro H. induction l; split; intro F; constructor; inversion F; subst; firstorder. Qed.
Lemma print_trait_members l : flat_map print_trait_member l = flat_map print_impl_member (map impl_of_trait_member l).
Proof. induction l as [|m l IH]; auto. cbn. rewrite IH. destruct m; reflexivity. Qed.
Lemma trait_step E t s sp rest : shape_trait t = true ->
  parse_trait E (tr_attributes t) (tr_vis t) (trait_tail t [TGroup (mkGroup Brace s sp)] ++ rest)
  = do (braces, inner, items) <- parse_impl_body E (mkGroup Brace s sp) false ;;
    Ret (mkTrait (tr_attributes t) (tr_vis t) (tr_unsafe t) (tr_trait t) (tr_name t) (tr_generics t) (tr_bound t) (tr_where t) braces inner (map trait_member_of_impl items), rest).
Proof.
  destruct t as [attrs vis uns kw name gen bound wh br inn its]. unfold shape_trait, trait_tail.
  cbn [tr_attributes tr_vis tr_unsafe tr_trait tr_name tr_generics tr_bound tr_where tr_braces tr_inner_attributes tr_items].
  intro H. bsplit. app_norm. unfold parse_trait.
  rewrite consume_ident_opt; auto. 2:{ intros _. known. reflexivity. }
  cbn [parse_ident]. rwb. cbn [bind parse_any_ident].
  rewrite generics_complete; auto.
  2:{ intros ->. destruct bound as [[c b]|], wh as [[k p]|]; simpl in *; unfold wf_bound in *; simpl in *; bsplit; known; auto. }
  cbn [bind].
  assert (Ht : head_is (term end_trait_bound) (print_opt print_where wh ++ TGroup (mkGroup Brace s sp) :: rest) = true).
  { apply where_brace_term; auto. intros t Ht. unfold end_trait_bound. bcase; rwb; rewrite ?orb_true_r; reflexivity. }
  assert (Hb : consume_bound end_trait_bound (print_opt print_bound bound ++ print_opt print_where wh ++ TGroup (mkGroup Brace s sp) :: rest)
     = Ret (bound, print_opt print_where wh ++ TGroup (mkGroup Brace s sp) :: rest)).
  { destruct bound as [b|].
    - apply bound_some_complete; auto.
    - destruct wh as [[k p]|]; simpl in *; auto. unfold wf_where in *. simpl in *. bsplit. known. reflexivity. }
  rewrite Hb. cbn [bind]. rewrite where_brace_complete by auto. cbn [bind parse_body_group g_delim delim_eqb].
  destruct (parse_impl_body E _ false) as [[[b i] l]|q|]; reflexivity.
Qed.
Lemma impl_step E i s sp rest : shape_impl i = true ->
  parse_impl E (im_attributes i) (impl_tail i [TGroup (mkGroup Brace s sp)] ++ rest)
  = do (braces, inner, items) <- parse_impl_body E (mkGroup Brace s sp) false ;;
    Ret (mkImpl (im_attributes i) (im_unsafe i) (im_impl i) (im_generics i) (im_trait i) (im_for i) (im_self i) (im_where i) braces inner items, rest).
Proof.
  destruct i as [attrs uns kw gen tr fr [se] wh br inn its]. unfold shape_impl, impl_tail.
  cbn [im_attributes im_unsafe im_impl im_generics im_trait im_for im_self im_where im_braces im_inner_attributes im_items te_tokens print_type].
  intro H. bsplit. app_norm. unfold parse_impl.
  rewrite consume_ident_opt; auto. 2:{ intros _. known. reflexivity. }
  cbn [parse_ident]. rwb. cbn [bind].
  rewrite generics_complete; auto.
  2:{ intros ->. destruct tr as [[ty]|], fr as [f|]; try discriminate; bsplit; simpl in *; bsplit.
      - destruct ty; simpl in *; known; auto.
      - destruct se; simpl in *; auto. destruct wh as [[k p]|]; auto. }
  cbn [bind].
  destruct tr as [[ty]|], fr as [f|]; try discriminate; cbn [print_opt print_type te_tokens]; bsplit.
  - rewrite (until_term end_impl_ty true ty); auto.
    2:{ simpl. known. reflexivity. }
    cbn [bind print_ident app]. rewrite consume_ident_yes by auto.
    rewrite (until_term end_impl_self_ty true se); auto.
    2:{ apply where_brace_term; auto. }
    cbn [bind]. rewrite where_brace_complete by auto. cbn [bind parse_body_group g_delim delim_eqb].
    destruct (parse_impl_body E _ false) as [[[b i] l]|q|]; reflexivity.
  - rewrite ?app_nil_l'. rewrite (until_term end_impl_ty true se); auto.
    2:{ apply where_brace_term; auto. intros t Ht. unfold end_impl_ty. bcase; rwb; rewrite ?orb_true_r; reflexivity. }
    cbn [bind]. rewrite consume_ident_no.
    2:{ destruct wh as [[k p]|]; auto. simpl in *. unfold wf_where in *. simpl in *. bsplit. known. reflexivity. }
    cbn [bind]. rewrite where_brace_complete by auto. cbn [bind parse_body_group g_delim delim_eqb].
    destruct (parse_impl_body E _ false) as [[[b i] l]|q|]; reflexivity.
Qed.
(** The declaration of a trait or impl with no members, which says that its header is of the
    fragment. *)
Definition trait_shell (t : trait_) : trait_ :=
  mkTrait (tr_attributes t) (tr_vis t) (tr_unsafe t) (tr_trait t) (tr_name t) (tr_generics t) (tr_bound t) (tr_where t) (tr_braces t) (tr_inner_attributes t) [].
Definition impl_shell (i : impl_) : impl_ :=
  mkImpl (im_attributes i) (im_unsafe i) (im_impl i) (im_generics i) (im_trait i) (im_for i) (im_self i) (im_where i) (im_braces i) (im_inner_attributes i) [].
Lemma trait_reads t z v : any_trait t -> rust_trait (trait_shell t) -> Forall clean_member (map impl_of_trait_member (tr_items t)) ->
  parse_trait consume_either_item (tr_attributes t) (tr_vis t)
    (trait_tail t (quote_with (tr_braces t) (print_attributes (tr_inner_attributes t) ++ flat_map print_trait_member (tr_items t))) ++ z) = Ret v -> rust_trait t.
Proof.
  intros A R M E. pose proof R as (R1 & R2 & R3 & R4 & R5 & R6 & R7 & R8 & R9 & _). cbn in R1, R2, R3, R4, R5, R6, R7, R8, R9.
  assert (B : Forall rust_trait_member (tr_items t)); [|unfold rust_trait; repeat (split; auto)].
  destruct (trait_wf _ R) as [H _]. pose proof (trait_step consume_either_item (trait_shell t)) as P. cbn [trait_shell tr_attributes tr_vis] in P.
  unfold quote_with in E. rewrite R8 in E. change (trait_tail t) with (trait_tail (trait_shell t)) in E. rewrite P in E by exact H. inv_bind E. destruct x as [[b i] l].
  rewrite print_trait_members in Hx. apply body_reads in Hx; auto.
  - apply (trait_members_forall (rust_member false)); auto. intros []; cbn; tauto.
  - apply (trait_members_forall (any_member false) any_trait_member); [intros []; cbn; tauto|]. apply A.
Qed.
Lemma impl_reads i z v : any_impl i -> rust_impl (impl_shell i) -> Forall clean_member (im_items i) ->
  parse_impl consume_either_item (im_attributes i)
    (impl_tail i (quote_with (im_braces i) (print_attributes (im_inner_attributes i) ++ flat_map print_impl_member (im_items i))) ++ z) = Ret v -> rust_impl i.
Proof.
  intros A R M E. pose proof R as (R1 & R2 & R3 & R4 & R5 & R6 & R7 & R8 & _). cbn in R1, R2, R3, R4, R5, R6, R7, R8.
  assert (B : Forall (rust_member false) (im_items i)); [|unfold rust_impl; repeat (split; auto)].
  destruct (impl_wf _ R) as [H _]. pose proof (impl_step consume_either_item (impl_shell i)) as P. cbn [impl_shell im_attributes] in P.
  unfold quote_with in E. rewrite R7 in E. change (impl_tail i) with (impl_tail (impl_shell i)) in E. rewrite P in E by exact H. inv_bind E. destruct x as [[b a] l].
  apply body_reads in Hx; auto. apply A.
Qed.
Lemma extern_block_reads b z v : any_extern_block b -> Forall clean_member (eb_items b) ->
  parse_extern_block consume_either_item (eb_attributes b) (eb_vis b)
    (extern_block_tail b (quote_with (eb_braces b) (print_attributes (eb_inner_attributes b) ++ flat_map print_impl_member (eb_items b))) ++ z) = Ret v -> rust_extern_block b.
Proof.
  intros (A1 & A2 & A3 & A4 & A5 & A6 & A7) M E.
  assert (B : Forall (rust_member true) (eb_items b)); [|unfold rust_extern_block; repeat (split; auto)].
  unfold parse_extern_block, consume_extern_block, extern_block_tail, quote_with in E. rewrite A5 in E. revert E. app_norm. intro E. rewrite consume_ident_opt in E.
  2: { eapply if_some_wf; [apply word_is|auto]. }
  2: { intros _. cbn. red in A4. unfold id_is. rewrite A4. reflexivity. }
  cbn [app] in E. rewrite consume_ident_yes in E by (apply word_is; auto).
  destruct (eb_abi b); cbn [print_opt print_lit app consume_literal g_delim delim_eqb] in E; inv_bind E; destruct x; inv_bind Hx; eapply body_reads; eauto.
Qed.
(** ** Items with nested items *)
Lemma nested_head attrs vis uns k r v : rust_outer attrs -> if_some rust_vis vis -> if_some (word "unsafe") uns -> In (id_str k) ["mod"; "trait"; "impl"] ->
  consume_item (print_attributes attrs ++ print_opt print_vis vis ++ print_opt print_ident uns ++ TIdent k :: r) = Ret v ->
  let ts := print_opt print_ident uns ++ TIdent k :: r in
  (word "mod" k -> exists m, parse_mod consume_item attrs vis ts = Ret (m, snd v))
  /\ (word "trait" k -> exists t, parse_trait consume_either_item attrs vis ts = Ret (t, snd v))
  /\ (word "impl" k -> exists i, parse_impl consume_either_item attrs ts = Ret (i, snd v)).
Proof.
  intros A1 A2 A3 A4 E. rewrite consume_item_unfold in E. cbn zeta. destruct uns as [u|]; cbn [print_opt print_ident app if_some] in *.
  - rewrite (item_head_either _ _ attrs) in E; [|apply outer_wf; auto|apply print_spells_attributes|eapply if_some_wf; [apply vis_wf|auto]|red in A3; unfold id_in, id_is; rewrite A3; reflexivity].
    unfold wrap in E. inv_bind E. destruct x as [i ts]. inversion E; subst. clear E. unfold consume_either in Hx.
    destruct u as [w sp]. red in A3. cbn in A3. subst w. change (id_is "type" (mkIdent "unsafe" sp)) with false in Hx. change (fn_like_keyword (mkIdent "unsafe" sp)) with true in Hx. cbn iota in Hx.
    destruct k as [w sk]. cbn [id_str] in A4. unfold word. cbn [id_str snd]. cbn in A4.
    decompose [or] A4; subst; try contradiction; cbn [consume_fn consume_fn_qualifiers consume_ident] in Hx; unfold consume_fn, consume_fn_qualifiers in Hx; cbn -[parse_mod parse_trait parse_impl] in Hx; inv_bind Hx; destruct x as [x ts']; inversion Hx; subst;
      (split; [|split]); intro Q; try discriminate Q; eauto.
  - rewrite (item_head _ _ attrs) in E; [|apply outer_wf; auto|apply print_spells_attributes|eapply if_some_wf; [apply vis_wf|auto]|].
    2: { unfold vis_keywords, id_in, id_is. cbn in *. decompose [or] A4; try contradiction; match goal with H : _ = id_str k |- _ => rewrite <- H end; reflexivity. }
    cbn zeta in E. unfold id_is, word in *. cbn in A4.
    decompose [or] A4; try contradiction; match goal with H : _ = id_str k |- _ => rewrite <- H in * end; cbn -[parse_mod parse_trait parse_impl] in E; unfold wrap in E; inv_bind E; destruct x as [x ts']; inversion E; subst;
      (split; [|split]); intro Q; try discriminate Q; cbn [snd]; eauto.
Qed.
Lemma extern_head b s sp z v : rust_outer (eb_attributes b) -> if_some rust_vis (eb_vis b) -> if_some (word "unsafe") (eb_unsafe b) -> word "extern" (eb_extern b) ->
  consume_item (print_attributes (eb_attributes b) ++ print_opt print_vis (eb_vis b) ++ extern_block_tail b [TGroup (mkGroup Brace s sp)] ++ z) = Ret v ->
  exists w, parse_extern_block consume_either_item (eb_attributes b) (eb_vis b) (extern_block_tail b [TGroup (mkGroup Brace s sp)] ++ z) = Ret w.
Proof.
  intros A1 A2 A3 A4 E. rewrite consume_item_unfold in E.
  assert (F : consume_fn (eb_attributes b) (eb_vis b) (extern_block_tail b [TGroup (mkGroup Brace s sp)] ++ z) = Ret (Err NFExternBlock, extern_block_tail b [TGroup (mkGroup Brace s sp)] ++ z)).
  { destruct b as [at_ vi [[w su]|] [w2 se] ab br inn its]; unfold word, extern_block_tail in *; cbn [eb_unsafe eb_extern eb_abi if_some id_str print_opt print_ident app] in *; subst; destruct ab; reflexivity. }
  assert (H : exists i r, extern_block_tail b [TGroup (mkGroup Brace s sp)] ++ z = TIdent i :: r /\ id_in ["unsafe"; "extern"] i = true).
  { unfold extern_block_tail. destruct (eb_unsafe b) as [u|]; cbn in *; eexists _, _; (split; [reflexivity|]); unfold id_in, id_is, word in *; cbn; [rewrite A3|rewrite A4]; reflexivity. }
  destruct H as (i & r & H & Hi). rewrite H in *.
  assert (T : id_in ["default"; "const"; "async"; "unsafe"; "extern"; "fn"; "type"] i = true /\ id_is "type" i = false /\ fn_like_keyword i = true).
  { clear -Hi. unfold id_in, fn_like_keyword, id_is in *. cbn in *. repeat match type of Hi with context [String.eqb ?a ?b] => destruct (String.eqb_spec a b) as [Q|_]; cbn in Hi; [rewrite ?Q; auto|] end. discriminate. }
  destruct T as (T0 & T1 & T2). rewrite (item_head_either _ _ (eb_attributes b)) in E; [|apply outer_wf; auto|apply print_spells_attributes|eapply if_some_wf; [apply vis_wf|auto]|auto].
  unfold wrap in E. inv_bind E. clear E. unfold consume_either in Hx. rewrite T1, T2, F in Hx. cbn [bind] in Hx. inv_bind Hx. eauto.
Qed.
Lemma stuck_panics ts r : stuck ts -> consume_item ts = Ret r -> False.
Proof.
  intros (x & l & -> & H) E. rewrite consume_item_unfold in E. unfold not_end in H. apply existsb_exists in H. destruct H as (c & Hc & H).
  destruct x as [g|i|p|t]; try discriminate. cbn in H. destruct p as [pc j sp]. unfold p_is in H. cbn in H. apply Ascii.eqb_eq in H. subst pc.
  cbn in Hc. decompose [or] Hc; subst; try contradiction; discriminate.
Qed.

(** The conditions under which nothing is misread: those of C87 for flat items and members;
    the values of constants have matched angle brackets; the headers of traits and impls are
    within the restrictions. *)
Fixpoint tidy_item (i : item) : Prop :=
  match i with
  | IModule m => (fix each (l : list item) : Prop := match l with [] => True | x :: r => tidy_item x /\ each r end) (mo_members m)
  | ITrait t => rust_trait (trait_shell t) /\ Forall clean_member (map impl_of_trait_member (tr_items t))
  | IImpl i => rust_impl (impl_shell i) /\ Forall clean_member (im_items i)
  | IExternBlock b => Forall clean_member (eb_items b)
  | _ => clean_item i /\ calm_item i
  end.
Lemma each_tidy l : (fix each (l : list item) : Prop := match l with [] => True | x :: r => tidy_item x /\ each r end) l <-> Forall tidy_item l.
Proof. induction l as [|x l IH]; split; auto; intro H; [destruct H; constructor; tauto|inversion H; subst; tauto]. Qed.
Lemma items_read l : Forall (fun i => forall z r ts, any_item i -> tidy_item i -> consume_item (print_item i ++ z) = Ret (r, ts) -> rust_item i \/ stuck ts) l ->
  Forall any_item l -> Forall tidy_item l -> forall fuel v, many_loop (parse_mod_member consume_item) fuel (flat_map print_item l) = Ret v -> Forall rust_item l.
Proof.
  induction l as [|i l IH]; intros H A K fuel v E; [constructor|]. inversion H; inversion A; inversion K; subst. cbn [flat_map] in E.
  destruct fuel; [discriminate|]. cbn [many_loop] in E.
  assert (N : print_item i ++ flat_map print_item l <> []).
  { destruct (front_item i) as (a & w & j & r & -> & _); auto. destruct a, w as [[]|]; discriminate. }
  destruct (print_item i ++ flat_map print_item l) as [|t ts] eqn:Et; [congruence|]. rewrite <- Et in E.
  inv_bind E. destruct x as [y q]. unfold parse_mod_member in Hx. inv_bind Hx. destruct x as [d q']. destruct d as [d|]; [|discriminate]. inversion Hx; subst. clear Hx.
  assert (R : rust_item i).
  { edestruct H2 as [R|R]; eauto. exfalso. inv_bind E. destruct fuel; [discriminate|]. cbn [many_loop] in Hx. destruct R as (x1 & l1 & -> & R).
    inv_bind Hx. unfold parse_mod_member in Hx1. inv_bind Hx1. eapply stuck_panics; [|exact Hx2]. exists x1, l1. auto. }
  constructor; auto.
  assert (F : follow_ok i (flat_map print_item l) = true).
  { apply follow_before; auto. destruct l as [|i2 l2]; auto. cbn [flat_map]. apply front_semi, front_app, front_item. inversion H7; auto. }
  pose proof (item_wf i R) as W. unfold wf_item in W. apply andb_true_iff in W. destruct W as [W1 W2].
  rewrite (consume_item_complete i) in Hx0; auto; [|apply print_spells_item; unfold wf_item; rewrite W1, W2; reflexivity].
  inversion Hx0; subst. inv_bind E. eapply IH; eauto.
Qed.
Lemma read_nested i : forall z r ts, any_item i -> tidy_item i -> consume_item (print_item i ++ z) = Ret (r, ts) -> rust_item i \/ stuck ts.
Proof.
  induction i as [m IH|i Hi] using item_nested_ind; intros z r ts A K E.
  - left. cbn [any_item tidy_item rust_item print_item] in *. rewrite each_any in A. rewrite each_tidy in K. rewrite each_forall.
    destruct A as (A1 & A2 & A3 & A4 & A5 & A6). unfold print_module in E. revert E. app_norm. intro E. apply nested_head in E; auto; [|red in A4; rewrite A4; cbn; tauto].
    destruct E as [E _]. specialize (E A4). destruct E as [v E].
    assert (B : Forall rust_item (mo_members m)); [|repeat (split; auto)].
    unfold parse_mod in E. rewrite consume_ident_opt in E; [|eapply if_some_wf; [apply word_is|auto]|intros _; cbn; red in A4; unfold id_is; rewrite A4; reflexivity].
    cbn [parse_ident] in E. rewrite (word_is _ _ A4) in E. cbn [bind consume_item_name parse_any_ident] in E.
    destruct (mo_semicolon m) as [p|], (mo_braces m) as [b|]; try contradiction.
    + destruct A5 as (_ & _ & ->). constructor.
    + destruct A5 as (A5 & A7). unfold quote_with in E. rewrite A5 in E. cbn [app g_delim delim_eqb g_stream] in E.
      rewrite (inner_attributes_complete (mo_inner_attributes m)) in E; [|apply inner_wf; auto|apply print_spells_attributes|].
      * cbn [bind] in E. inv_bind E. eapply items_read; eauto.
      * destruct (mo_members m) as [|x l]; [reflexivity|]. cbn [flat_map]. apply front_inner, front_app, front_item. inversion A6; auto.
  - destruct i as [s|e|u|m|t|im|ta|f|k|us|mc|eb|ec]; try (destruct K as [K1 K2]; eapply read_on; eauto; fail); cbn [any_item tidy_item rust_item print_item] in *.
    + exfalso. exact (Hi m eq_refl).
    + left. pose proof A as (A1 & A2 & A3 & A4 & _). destruct K as [K1 K2]. unfold print_trait in E. revert E. app_norm. intro E. apply nested_head in E; auto; [|red in A4; rewrite A4; cbn; tauto].
      destruct E as (_ & E & _). specialize (E A4). destruct E as [v E]. apply (trait_reads t z (v, ts)); auto. unfold trait_tail. app_norm. exact E.
    + left. pose proof A as (A1 & A3 & A4 & _). destruct K as [K1 K2]. unfold print_impl in E. revert E. app_norm. intro E. apply (nested_head _ None) in E; auto; try (red in A4; rewrite A4; cbn; tauto); try exact I.
      destruct E as (_ & _ & E). specialize (E A4). destruct E as [v E]. apply (impl_reads im z (v, ts)); auto. unfold impl_tail. app_norm. exact E.
    + left. pose proof A as (A1 & A2 & A3 & A4 & A5 & _). unfold print_extern_block in E. revert E. app_norm. unfold quote_with. rewrite A5. intro E.
      edestruct (extern_head eb (print_attributes (eb_inner_attributes eb) ++ flat_map print_impl_member (eb_items eb)) (gs_span (eb_braces eb)) z (r, ts)) as [w F]; auto.
      { unfold extern_block_tail. app_norm. exact E. }
      apply (extern_block_reads eb z w); auto. unfold quote_with. rewrite A5. exact F.
Qed.

(** ** C89 *)
(** An item of the relaxed grammar that is tidy is read as itself if it is parsed at all: with
    all items, members of traits, impls and extern blocks that it contains. *)
Lemma tidy_back i r : any_item i -> tidy_item i -> parse_item (print_item i) = Ret r -> rust_item i.
Proof.
  intros A K E. unfold parse_item in E. inv_bind E. destruct x as [d rest]. destruct rest; [|discriminate]. rewrite <- (app_nil_r (print_item i)) in Hx.
  destruct (read_nested _ _ _ _ A K Hx) as [H|(x & l & H & _)]; [exact H|discriminate].
Qed.
Theorem C89_never_misread (i : item) (r : result item error) : any_item i -> tidy_item i -> parse_item (print_item i) = Ret r -> r = Ok i.
Proof. intros A K E. pose proof (tidy_back _ _ A K E) as R. apply C86_exactly in R; auto. congruence. Qed.
(** So it is parsed exactly if all of it is in the fragment, and otherwise the parser panics. *)
Theorem C89_exact_or_panic (i : item) : any_item i -> tidy_item i ->
  (rust_item i /\ parse_item (print_item i) = Ret (Ok i)) \/ (~ rust_item i /\ exists p, parse_item (print_item i) = Panic p).
Proof.
  intros A K. destruct (parse_item (print_item i)) as [r|p|] eqn:E.
  - left. split; [eapply tidy_back; eauto|]. rewrite (C89_never_misread i r A K E). reflexivity.
  - right. split; eauto. intro R. apply C86_exactly in R; auto. congruence.
  - exfalso. exact (proj1 (proj2 (C09_terminates (print_item i))) E).
Qed.
(** All items of the fragment are tidy. *)
Lemma member_tidy st m : rust_member st m -> clean_member m.
Proof.
  destruct m as [f|k|t|m]; cbn; auto.
  - intros (A1 & A2 & A3 & A4 & A5 & A6 & A7 & A8 & A9 & A10). auto using clean_where_rust.
  - intros (A1 & A2 & A3 & A4 & A5 & A6 & A7 & A8 & A9). unfold calm_constant. destruct (co_equals k), (co_init k); try contradiction; auto. destruct A8 as [_ A8]. apply A8.
Qed.
Theorem C89_fragment_tidy (i : item) : rust_item i -> tidy_item i.
Proof.
  induction i as [m IH|i Hi] using item_nested_ind.
  - cbn [rust_item tidy_item]. rewrite each_forall, each_tidy. intros (_ & _ & _ & _ & _ & H). rewrite Forall_forall in *. auto.
  - intro H. assert (F : flat_item i -> clean_item i) by (apply C87_fragment_clean; auto).
    destruct i as [s|e|u|m|t|im|ta|f|k|us|mc|eb|ec]; cbn [rust_item tidy_item flat_item calm_item] in *; auto.
    + exfalso. exact (Hi m eq_refl).
    + destruct H as (A1 & A2 & A3 & A4 & A5 & A6 & A7 & A8 & A9 & A10). split; [unfold rust_trait, trait_shell; cbn; repeat (split; auto)|].
      apply (trait_members_forall clean_member (fun m => clean_member (impl_of_trait_member m))); [tauto|]. eapply Forall_impl; [|exact A10]. intros m Hm. apply (member_tidy false). destruct m; exact Hm.
    + destruct H as (A1 & A2 & A3 & A4 & A5 & A6 & A7 & A8 & A9). split; [unfold rust_impl, impl_shell; cbn; repeat (split; auto)|]. eapply Forall_impl; [|exact A9]. apply member_tidy.
    + split; auto. apply (member_tidy true (IMConstant k)). exact H.
    + destruct H as (A1 & A2 & A3 & A4 & A5 & A6 & A7). eapply Forall_impl; [|exact A7]. apply member_tidy.
Qed.

(** Modules around items, and an impl with one method. *)
Definition mod_of (l : list item) : item := IModule (mkModule [] None None (nm "mod") (nm "m") None (Some (gsp Brace)) [] l).
Definition impl_of (l : list impl_member) : item := IImpl (mkImpl [] None (nm "impl") None None None (mkTypeExpr (lex "A")) None (gsp Brace) [] l).
Lemma any_mod l : any_item (mod_of l) <-> Forall any_item l.
Proof. cbn [any_item mod_of mo_attributes mo_vis mo_unsafe mo_mod mo_semicolon mo_braces mo_inner_attributes mo_members]. rewrite each_any. unfold rust_outer, if_some, word. cbn. intuition. Qed.
Lemma tidy_mod l : tidy_item (mod_of l) <-> Forall tidy_item l.
Proof. apply each_tidy. Qed.
Lemma rust_mod l : rust_item (mod_of l) <-> Forall rust_item l.
Proof. cbn [rust_item mod_of mo_attributes mo_vis mo_unsafe mo_mod mo_semicolon mo_braces mo_inner_attributes mo_members]. rewrite each_forall. unfold rust_outer, if_some, word. cbn. intuition. Qed.
Definition method : function :=
  mkFunction [] None (mkFnQualifiers None None None None None None) (nm "fn") (nm "f")
    (Some (mkGenericParamList (pc "<") (just (mkGenericParam None (nm "F") (Some (mkBound (pc ":") (lex "Fn(u8) -> u8"))))) (pc ">"))) (gsp Parenthesis) no_params None None None None
    (Some (mkGroup Brace [] call_site)).
(** [mod m { struct Pair.. impl A { fn f<F: Fn(u8) -> u8,>() {} } }]: any item, tidy, outside of
    the fragment. *)
Definition deep : item := mod_of [item_of pair_text; impl_of [IMFunction method]].
Lemma method_any : any_function method.
Proof. pose proof unrestricted_any as A. inversion A; auto. Qed.
Lemma method_not_rust : ~ rust_function method.
Proof. pose proof C86_needed as N. inversion N; subst. tauto. Qed.
Example C89_example : any_item deep /\ tidy_item deep /\ ~ rust_item deep.
Proof.
  assert (H : forall l, Forall (any_member false) l -> any_item (impl_of l)).
  { intros l Hl. cbn [any_item impl_of]. unfold any_impl, rust_outer. cbn. repeat (split; auto); try reflexivity; [apply type_name; names|]. intros _ (p & E & _). discriminate. }
  assert (P : rust_item (item_of pair_text)) by apply pair_item.
  unfold deep. rewrite any_mod, tidy_mod, rust_mod. split; [|split].
  - constructor; [apply C86_restricts; auto|]. constructor; auto. apply H. constructor; auto. exact method_any.
  - constructor; [apply C89_fragment_tidy; auto|]. constructor; auto. cbn [tidy_item impl_of im_items]. split; [|repeat constructor].
    unfold rust_impl, rust_outer. cbn. repeat (split; auto); try reflexivity; [apply type_name; names|]. intros _ (p & E & _). discriminate.
  - intro R. inversion R as [|? ? _ R']; subst. inversion R' as [|? ? R2 _]; subst. destruct R2 as (_ & _ & _ & _ & _ & _ & _ & _ & R2). inversion R2; subst. apply method_not_rust. auto.
Qed.
(** Without the condition on the values of constants it is false in a module: two constants
    are read as one ([mod m { const K: u8 = 1 < 2; const K: u8 = 2 > 1; }]). *)
Definition halves : list item := [const_with "const" None "1 < 2"; const_with "const" None "2 > 1"].
Theorem C89_calm_refuted : exists i j, any_item i /\ i = mod_of halves /\ Forall clean_item halves /\ parse_item (print_item i) = Ret (Ok j) /\ i <> j
  /\ match j with IModule m => List.length (mo_members m) = 1%nat | _ => False end.
Proof.
  eexists (mod_of halves), _. split; [|split; [reflexivity|split; [repeat constructor|split; [vm_compute; reflexivity|]]]].
  - apply any_mod. unfold halves, const_with. set (l := [_; _]). vm_compute in l. subst l. repeat apply Forall_cons; try apply Forall_nil; cbn [any_item];
      unfold any_constant, any_value, rust_outer; flat; try (apply type_name; names); try (left; split; reflexivity).
  - split; [vm_compute; discriminate|reflexivity].
Qed.
Print Assumptions C89_exact_or_panic.

(** C07 (Err), C11, C12: when [Err] is returned. *)
From Verif Require Import Unfold Samples PropRoundTrip.

(** The discriminant of the last variant. *)
Fixpoint last_value (l : list (enum_variant * punct)) : option variant_value :=
  match l with
  | [] => None
  | [(v, _)] => ev_value v
  | _ :: r => last_value r
  end.
(** The error for a discriminant whose first token is [v]. *)
Definition complex_error (v : variant_value) : error :=
  mkError [mkErrorMessage (tok_span (vv_value v)) (tok_span (vv_value v))
    "Complex values for enum variants are not supported unless they are between parentheses."].

Definition bad_variants (l : list (enum_variant * punct)) (c : list tok) (er : error) (ts : list tok) : Prop :=
  exists t after v,
    wf_inner wf_variant true l = true /\ spells_inner spells_variant gap_variant true l c
    /\ last_value l = Some v /\ er = complex_error v /\ is_punct "," t = false /\ ts = c ++ t :: after.

Lemma discriminant_err ts er rest : consume_enum_discriminant ts = Ret (Err er, rest) ->
  exists e v t r, ts = TPunct e :: v :: t :: r /\ p_is "=" e = true /\ is_punct "," t = false
    /\ er = complex_error (mkVariantValue e v).
Proof.
  unfold consume_enum_discriminant. intro H. destruct (consume_punct "=" ts) as [e ts1] eqn:E.
  apply consume_punct_sound in E. destruct E as (-> & E1 & _). destruct e as [e|]; [|discriminate].
  destruct ts1 as [|v [|t r]]; try discriminate. destruct (is_punct "," t) eqn:Et; [discriminate|]. bsplit.
  exists e, v, t, r. auto.
Qed.

Lemma variants_err_sound : forall fuel acc ts er,
  enum_variants_loop fuel acc ts = Ret (Err er) -> exists l c, bad_variants l c er ts /\ ts <> [].
Proof.
  induction fuel as [|fuel IH]; intros acc ts er H; [discriminate|].
  cbn [enum_variants_loop] in H. destruct ts as [|t0 r0]; [discriminate|].
  remember (t0 :: r0) as ts eqn:Ets. assert (Hne : ts <> []) by (subst; discriminate).
  inv_bind H. destruct x as [attrs ts1]. destruct (consume_vis_marker ts1) as [v ts2] eqn:Ev.
  inv_bind H. destruct x as [name ts3]. inv_bind H. destruct x as [f ts4]. inv_bind H. destruct x as [d ts5].
  destruct (consume_comma ts5) as [comma ts6] eqn:Ec.
  destruct (attrs_vis_sound _ _ _ _ _ Hx Ev) as (ca & Hts & A1 & A2 & A3 & A4).
  apply parse_any_ident_sound in Hx0. subst ts2.
  apply variant_fields_sound in Hx1. destruct Hx1 as (cf & -> & F1 & F2 & F3).
  destruct d as [val|e].
  - apply discriminant_sound in Hx2. destruct Hx2 as (-> & D1 & D2 & D3).
    apply consume_punct_sound in Ec. destruct Ec as (-> & C1 & C2).
    apply IH in H. destruct H as (l & c & (t & after & vv & B1 & B2 & B3 & B4 & B5 & B6) & B7).
    set (x := mkVariant attrs v name f val) in *.
    set (c1 := ca ++ print_opt print_vis v ++ TIdent name :: cf ++ print_opt print_variant_value val).
    assert (Hsp : spells_variant x c1) by (exists ca, cf; auto).
    assert (Hwf : forall b, wf_variant b x = true).
    { intro b. unfold wf_variant. subst x. cbn [ev_attributes ev_vis ev_name ev_fields ev_value].
      rewrite A2, A3, F2, D1. replace (prefix_ok v [TIdent name]) with true; auto. }
    assert (Hts' : ts = c1 ++ print_opt print_punct comma ++ ts6).
    { subst c1. rewrite Hts. app_norm. reflexivity. }
    clearbody c1. destruct l as [|[y q] l]; [discriminate|].
    set (cm := match comma with Some c => c | None => punct_new "," Alone end).
    assert (Hw2 : p_is "," cm = true) by (destruct comma; simpl in *; subst cm; auto).
    exists ((x, cm) :: (y, q) :: l), (c1 ++ print_opt print_punct comma ++ c). split; auto.
    exists t, after, vv. split.
    { change (wf_variant true x && p_is "," cm && wf_inner wf_variant true ((y, q) :: l) = true). rewrite Hwf, Hw2, B1. reflexivity. }
    split; [|rewrite Hts', B6, <- !app_assoc; auto].
    exists c1, c. split; auto. split; auto. destruct comma; subst cm; auto. right. split; [|auto].
    subst x. unfold gap_variant. simpl. simpl in D2, F3. specialize (C2 eq_refl).
    destruct f; auto.
    + destruct val; simpl in *.
      * destruct D2 as [D2|D2]; try congruence.
      * destruct F3 as [F3|[F3|F3]]; auto; try congruence. rewrite D3 in F3; auto; discriminate.
    + destruct val; auto. destruct D2 as [D2|D2]; try congruence.
    + destruct val; auto. destruct D2 as [D2|D2]; try congruence.
  - injection H as ->. apply discriminant_err in Hx2. destruct Hx2 as (e & vv & t & r & -> & E1 & E2 & E3).
    set (x := mkVariant attrs v name f (Some (mkVariantValue e vv))).
    exists [(x, punct_new "," Alone)], (ca ++ print_opt print_vis v ++ TIdent name :: cf ++ [TPunct e; vv]).
    split; auto. exists t, r, (mkVariantValue e vv). repeat split; auto.
    + simpl. rewrite andb_true_r. unfold wf_variant. subst x. cbn [ev_attributes ev_vis ev_name ev_fields ev_value wf_opt vv_equal].
      rewrite A2, A3, F2, E1. replace (prefix_ok v [TIdent name]) with true; auto.
    + exists (ca ++ print_opt print_vis v ++ TIdent name :: cf ++ [TPunct e; vv]), []. split; [exists ca, cf; auto|].
      split; [reflexivity|]. rewrite app_nil_r. reflexivity.
    + rewrite Hts. app_norm. reflexivity.
Qed.

Lemma variant_step_err v val c t rest fuel acc :
  wf_variant true v = true -> spells_variant v c -> ev_value v = Some val -> is_punct "," t = false ->
  enum_variants_loop (S fuel) acc (c ++ t :: rest) = Ret (Err (complex_error val)).
Proof.
  intros Hw (ca & cf & Hca & Hcf & ->) Hv Ht. destruct v as [a vis name f val']. simpl in Hv. subst val'.
  unfold wf_variant in Hw. cbn [ev_attributes ev_vis ev_name ev_fields ev_value] in *. bsplit.
  app_norm. cbn [enum_variants_loop].
  rewrite (attrs_vis_complete a); auto using prefix_ok_cons. simpl bind.
  rewrite vis_complete; auto using prefix_ok_cons. simpl bind.
  match goal with |- context [parse_variant_fields ?x] => assert (E : parse_variant_fields x
     = Ret (f, print_opt print_variant_value (Some val) ++ t :: rest)) end.
  { destruct f as [|f|f]; simpl in Hcf.
    - subst cf. simpl in *. rewrite H0, orb_true_r. reflexivity.
    - pose proof (variant_fields_complete (FTuple f) cf (Some val) [] ltac:(auto) Hcf ltac:(auto) I) as E.
      destruct Hcf as (s & Hs & ->). simpl in *. unfold quote_with in *. simpl in *.
      destruct (delim_eqb (gs_delim (tfs_parens f)) Parenthesis).
      + inv_bind E. rewrite Hx. injection E as ->. reflexivity.
      + destruct (delim_eqb (gs_delim (tfs_parens f)) Brace); [|discriminate]. inv_bind E. discriminate.
    - pose proof (variant_fields_complete (FNamed f) cf (Some val) [] ltac:(auto) Hcf ltac:(auto) I) as E.
      destruct Hcf as (s & Hs & ->). simpl in *. unfold quote_with in *. simpl in *.
      destruct (delim_eqb (gs_delim (nfs_braces f)) Parenthesis).
      + inv_bind E. discriminate.
      + destruct (delim_eqb (gs_delim (nfs_braces f)) Brace); [|discriminate]. inv_bind E. rewrite Hx. injection E as ->. reflexivity. }
  rewrite E. cbn [bind].
  destruct (ca ++ print_opt print_vis vis ++ TIdent name :: cf ++ print_opt print_variant_value (Some val) ++ t :: rest) eqn:En.
  { exfalso. apply app_eq_nil in En. destruct En as [_ En]. apply app_eq_nil in En. destruct En as [_ En]. discriminate. }
  destruct val as [eq v]. simpl. unfold consume_enum_discriminant. simpl in H0. rewrite consume_punct_yes by auto.
  rewrite Ht. cbn [bind]. destruct (consume_comma (t :: rest)). reflexivity.
Qed.
Lemma variants_err_complete : forall l c er t after v acc fuel,
  wf_inner wf_variant true l = true -> spells_inner spells_variant gap_variant true l c ->
  last_value l = Some v -> er = complex_error v -> is_punct "," t = false -> List.length l <= fuel ->
  enum_variants_loop fuel acc (c ++ t :: after) = Ret (Err er).
Proof.
  induction l as [|[x p] l IH]; intros c er t after v acc fuel Hw Hs Hl He Ht Hf; [discriminate|].
  destruct fuel; [simpl in Hf; lia|]. simpl in Hf. destruct Hs as (c1 & c2 & S1 & S2 & S3). destruct l as [|[y q] l].
  - cbn [wf_inner] in Hw. simpl in S3. subst c er. bsplit. rewrite app_nil_r. eapply variant_step_err; eauto.
  - change (wf_variant true x && p_is "," p && wf_inner wf_variant true ((y, q) :: l) = true) in Hw.
    change (last_value ((y, q) :: l) = Some v) in Hl.
    bsplit. destruct S3 as [->|(G & D & ->)].
    + rewrite <- app_assoc. rewrite (variant_step x) by (auto; simpl; auto).
      simpl app. unfold consume_comma. rewrite consume_punct_yes by auto. eapply IH; eauto. simpl in *. lia.
    + assert (Hh : forall k, k <> "#"%char -> c2 <> [] /\ head_is (is_punct k) c2 = false).
      { intros k Hk. destruct S2 as (d1 & d2 & D1 & D2 & D3).
        assert (Hy : exists b, wf_variant b y = true) by (simpl in H0; destruct l; bsplit; eauto).
        destruct Hy as [b Hy].
        destruct l; [rewrite D3|destruct D3 as [->|(_ & _ & ->)]]; eapply variant_head; eauto. }
      destruct (Hh ","%char ltac:(discriminate)) as [Hn1 Hn2].
      destruct (Hh "="%char ltac:(discriminate)) as [_ Hn3].
      rewrite <- app_assoc. rewrite (variant_step x); auto.
      2:{ destruct c2; [congruence|]. simpl in *. auto. }
      unfold consume_comma. rewrite consume_punct_no by (destruct c2; [congruence|auto]).
      eapply IH; eauto. simpl in *. lia.
Qed.
Lemma parse_variants_err ts er : parse_enum_variants ts = Ret (Err er) <-> exists l c, bad_variants l c er ts.
Proof.
  unfold parse_enum_variants. split.
  - intro H. apply variants_err_sound in H. destruct H as (l & c & H & _). eauto.
  - intros (l & c & t & after & v & B1 & B2 & B3 & B4 & B5 & ->).
    eapply variants_err_complete; eauto. unfold loop_fuel. rewrite app_length.
    assert (List.length l <= List.length c); [|lia].
    apply (spells_inner_length spells_variant gap_variant wf_variant true l c); auto.
    intros b x c0 Hx Hc0. destruct (variant_head b x c0 [] "," Hx Hc0) as [Hn _]; [discriminate|].
    rewrite app_nil_r in Hn. auto.
Qed.

(** [consume_item] returns [Err] only in its [enum] branch. *)
Lemma item_err R E ts er rest : consume_item_body R E ts = Ret (Err er, rest) ->
  exists attrs vis kw ts1, (exists ts0, consume_outer_attributes ts = Ret (attrs, ts0) /\ consume_vis_marker ts0 = (vis, TIdent kw :: ts1))
   /\ id_is "enum" kw = true /\ parse_enum attrs vis kw ts1 = Ret (Err er, rest).
Proof.
  unfold consume_item_body. intro H. inv_bind H. destruct x as [attrs ts0]. destruct (consume_vis_marker ts0) as [vis ts1] eqn:Ev.
  assert (W : forall A (c : A -> item) m, wrap c m <> Ret (Err er, rest)).
  { intros A c m X. unfold wrap in X. inv_bind X. destruct x. discriminate. }
  destruct ts1 as [|[g|kw|p|l] r]; try discriminate; try (exfalso; eapply W; exact H).
  destruct (id_is "struct" kw); [exfalso; eapply W; exact H|].
  destruct (id_is "enum" kw) eqn:Ek.
  { inv_bind H. destruct x as [[e|e] ts2]; [discriminate|]. bsplit. exists attrs, vis, kw, r. eauto. }
  repeat match type of H with (if ?b then _ else _) = _ => destruct b end; exfalso; eapply W; exact H.
Qed.

(** ** C11: [Err] is returned exactly for a complex discriminant: the input is an accepted enum
    whose body ends with [= value], in which tokens other than a comma were added after
    that value. *)
Theorem C11_err_iff (ts rest : list tok) (er : error) :
  consume_item ts = Ret (Err er, rest) <->
  exists head body t after sp en v,
    ts = head ++ TGroup (mkGroup Brace (body ++ t :: after) sp) :: rest
    /\ consume_item (head ++ TGroup (mkGroup Brace body sp) :: rest) = Ret (Ok (IEnum en), rest)
    /\ last_value (pu_inner (en_variants en)) = Some v /\ pu_skip_last (en_variants en) = true
    /\ is_punct "," t = false /\ er = complex_error v.
Proof.
  split.
  - intro H. rewrite consume_item_unfold in H. apply item_err in H.
    destruct H as (attrs & vis & kw & ts1 & (ts0 & Ha & Hv) & Hk & H).
    destruct (attrs_vis_sound _ _ _ _ _ Ha Hv) as (ca & -> & A1 & A2 & A3 & A4).
    unfold parse_enum in H. inv_bind H. destruct x as [name t1]. apply parse_any_ident_sound in Hx. subst ts1.
    inv_bind H. destruct x as [gen t2]. apply generics_sound in Hx. destruct Hx as (-> & G1 & _).
    inv_bind H. destruct x as [wh t3]. apply where_sound in Hx. destruct Hx as (-> & W1 & _).
    destruct t3 as [|[g|i|p|l] r]; try discriminate.
    destruct (delim_eqb (g_delim g) Brace) eqn:Ed; [|discriminate].
    inv_bind H. destruct x as [vs|e]; [discriminate|]. bsplit.
    apply parse_variants_err in Hx. destruct Hx as (l & c & t & after & v & B1 & B2 & B3 & B4 & B5 & B6).
    destruct g as [d s sp]. simpl in B6, Ed. assert (d = Brace) by (destruct d; auto; discriminate). subst d s.
    set (en := mkEnum attrs vis kw name gen wh (mkGroupSpan Brace sp) (mkPunctuated l true)).
    exists (ca ++ print_opt print_vis vis ++ TIdent kw :: TIdent name :: print_opt print_generic_params gen ++ print_opt print_where wh), c, t, after, sp, en, v.
    split; [app_norm; reflexivity|]. split; [|auto].
    apply consume_item_iff. exists (ca ++ print_opt print_vis vis ++ TIdent kw :: TIdent name :: print_opt print_generic_params gen ++ print_opt print_where wh ++ [TGroup (mkGroup Brace c sp)]).
    split; [app_norm; reflexivity|]. split; [|split; [|reflexivity]].
    + simpl. exists ca, [TGroup (mkGroup Brace c sp)]. split; auto. split; auto. exists c. split; auto.
    + simpl. unfold wf_enum, en, wf_punctuated. cbn [en_attributes en_vis en_enum en_generics en_where en_braces en_variants gs_delim pu_inner pu_skip_last].
      rewrite A2, A3, G1, W1, B1, Hk. reflexivity.
  - intros (head & body & t & after & sp & en & v & -> & H & Hv & Hs & Ht & ->).
    apply consume_item_iff in H. destruct H as (c & Hc & (ca & cv & S1 & (s & S2 & ->) & ->) & Hw & _).
    simpl in Hw. unfold wf_enum in Hw. bsplit.
    destruct en as [attrs vis kw name gen wh [d sp'] [l skip]]. cbn [en_attributes en_vis en_enum en_name en_generics en_where en_braces en_variants gs_delim gs_span pu_inner pu_skip_last] in *.
    subst skip. unfold quote_with in Hc. cbn [gs_delim gs_span] in Hc. known.
    assert (Hh : head = ca ++ print_opt print_vis vis ++ TIdent (mkIdent "enum" x) :: TIdent name :: print_opt print_generic_params gen ++ print_opt print_where wh
        /\ body = s /\ sp = sp').
    { change (TGroup (mkGroup Brace body sp) :: rest) with ([TGroup (mkGroup Brace body sp)] ++ rest) in Hc.
      rewrite app_assoc in Hc. apply app_inv_tail in Hc.
      match type of Hc with _ = ?r => assert (Hr : r = (ca ++ print_opt print_vis vis ++ TIdent (mkIdent "enum" x) :: TIdent name :: print_opt print_generic_params gen ++ print_opt print_where wh) ++ [TGroup (mkGroup Brace s sp')]) by (app_norm; reflexivity) end.
      rewrite Hr in Hc. apply app_inj_tail in Hc. destruct Hc as [-> Hc]. injection Hc; auto. }
    destruct Hh as (-> & -> & ->). clear Hc.
    rewrite consume_item_unfold. unfold consume_item_body. app_norm.
    rewrite (attrs_vis_complete attrs) by (auto using prefix_ok_ident; apply prefix_ok_ident; auto).
    cbn [bind]. rewrite vis_complete by (auto; apply prefix_ok_ident; auto).
    cbn -[parse_enum]. unfold parse_enum. cbn [consume_item_name parse_any_ident bind].
    rewrite generics_complete; auto. 2:{ intros _. destruct wh; reflexivity. }
    cbn [bind]. rewrite where_brace_complete by auto. cbn [bind g_delim delim_eqb g_stream].
    assert (E : parse_enum_variants (s ++ t :: after) = Ret (Err (complex_error v))).
    { apply parse_variants_err. exists l, s, t, after, v. auto 8. }
    rewrite E. reflexivity.
Qed.
Example C11_example :
  let ts := lex "#[repr(u8)] pub enum E<T> where T: X { A(u8), B = 3, C { x: T } = 1 << 2, D } struct S;" in
  match consume_item ts with
  | Ret (Err er, rest) => map em_text (er_messages er) = ["Complex values for enum variants are not supported unless they are between parentheses."%string]
       /\ List.length rest = 3
  | _ => False
  end.
Proof. vm_compute. auto. Qed.

(** ** C07 for [Err]: the header and the body are consumed, nothing else. *)
Theorem C07_err_consumes_prefix (ts rest : list tok) (er : error) :
  consume_item ts = Ret (Err er, rest) -> exists src, ts = src ++ rest /\ src <> [].
Proof.
  intro H. apply C11_err_iff in H. destruct H as (head & body & t & after & sp & en & v & -> & _).
  exists (head ++ [TGroup (mkGroup Brace (body ++ t :: after) sp)]). app_norm. split; auto. destruct head; discriminate.
Qed.
Example C07_err_example : exists er rest, consume_item (lex "#[a] enum E { A, B = 1 + 2 } struct S;") = Ret (Err er, rest)
  /\ List.length rest = 3.
Proof. eexists. eexists. vm_compute. auto. Qed.

(** ** C12: the members of a module *)
(** What a module makes of the tokens after its inner attributes: it reads items to the
    end, and stops at the first one that is not accepted. *)
Inductive reads : list tok -> outcome (list item) -> Prop :=
| reads_nil : reads [] (Ret [])
| reads_item t ts i rest o : consume_item (t :: ts) = Ret (Ok i, rest) -> reads rest o ->
    reads (t :: ts) (match o with Ret l => Ret (i :: l) | Panic p => Panic p | OutOfFuel => OutOfFuel end)
| reads_err t ts er rest : consume_item (t :: ts) = Ret (Err er, rest) -> reads (t :: ts) (Panic PDeclInMod)
| reads_panic t ts p : consume_item (t :: ts) = Panic p -> reads (t :: ts) (Panic p).

Lemma reads_loop : forall fuel ts, List.length ts < fuel ->
  reads ts (many_loop (parse_mod_member consume_item) fuel ts).
Proof.
  induction fuel as [|fuel IH]; intros ts Hf; [lia|]. cbn [many_loop].
  destruct ts as [|t ts]; [constructor|]. unfold parse_mod_member at 1.
  pose proof (consume_item_safe (t :: ts)) as Hs.
  destruct (consume_item (t :: ts)) as [[[i|e] rest]|p|] eqn:E; cbn [bind].
  - destruct (C07_consumes_prefix _ _ _ E) as (src & Hsrc & Hne).
    assert (Hl : List.length rest < fuel).
    { apply (f_equal (@List.length tok)) in Hsrc. rewrite app_length in Hsrc. destruct src; [congruence|]. simpl in *. lia. }
    specialize (IH rest Hl). eapply reads_item in IH; [|exact E].
    destruct (many_loop _ fuel rest); exact IH.
  - eapply reads_err; eauto.
  - eapply reads_panic; eauto.
  - contradiction.
Qed.
Lemma reads_det ts o : reads ts o -> forall o', reads ts o' -> o = o'.
Proof.
  induction 1 as [|t ts i rest o Hc Hr IH|t ts er rest Hc|t ts p Hc]; intros o' H'; inversion H'; subst; auto; try congruence.
  match goal with H1 : consume_item (t :: ts) = Ret (Ok _, ?r), H2 : reads ?r _ |- _ => rewrite Hc in H1; injection H1 as <- <-; rewrite (IH _ H2); reflexivity end.
Qed.
Theorem C12_reads_total (ts : list tok) : exists! o, reads ts o.
Proof.
  eexists. split; [apply (reads_loop (S (List.length ts))); lia|]. intros o H.
  eapply reads_det; eauto. apply reads_loop. lia.
Qed.

Definition with_members (m : module_ item) (l : list item) : module_ item :=
  mkModule (mo_attributes m) (mo_vis m) (mo_unsafe m) (mo_mod m) (mo_name m) (mo_semicolon m)
    (mo_braces m) (mo_inner_attributes m) l.

(** Adding [body] to an accepted module without members gives the module with the items of
    [body], or the panic of its first bad item. *)
Theorem C12_module_members (head inner body rest : list tok) sp (m : module_ item) o :
  consume_item (head ++ TGroup (mkGroup Brace inner sp) :: rest) = Ret (Ok (IModule m), rest) ->
  mo_members m = [] -> inner_follow body = true -> reads body o ->
  consume_item (head ++ TGroup (mkGroup Brace (inner ++ body) sp) :: rest)
  = match o with
    | Ret l => Ret (Ok (IModule (with_members m l)), rest)
    | Panic p => Panic p
    | OutOfFuel => OutOfFuel
    end.
Proof.
  intros H Hm Hb Ho.
  assert (E : many_loop (parse_mod_member consume_item) (loop_fuel body) body = o).
  { eapply reads_det; eauto. apply reads_loop. unfold loop_fuel. lia. }
  clear Ho. apply consume_item_iff in H. destruct H as (c & Hc & (ca & cb & Hca & Hcb & ->) & Hw & _).
  change (shape_module shape_item m = true) in Hw.
  assert (Hp : forall x, print_opt print_ident (mo_unsafe m) ++ TIdent (mo_mod m) :: TIdent (mo_name m) :: x = module_tail m x) by reflexivity.
  rewrite Hp in Hc. clear Hp.
  assert (Hs : mo_semicolon m = None /\ mo_braces m = Some (mkGroupSpan Brace sp) /\ spells_attributes (mo_inner_attributes m) inner
     /\ head = ca ++ print_opt print_vis (mo_vis m) ++ module_tail m []).
  { change (TGroup (mkGroup Brace inner sp) :: rest) with ([TGroup (mkGroup Brace inner sp)] ++ rest) in Hc.
    rewrite app_assoc in Hc. apply app_inv_tail in Hc.
    assert (Ht : forall x, ca ++ print_opt print_vis (mo_vis m) ++ module_tail m x = (ca ++ print_opt print_vis (mo_vis m) ++ module_tail m []) ++ x).
    { intro x. unfold module_tail. app_norm. reflexivity. }
    rewrite Ht in Hc. unfold shape_module in Hw. rewrite Hm in Hw, Hcb.
    destruct (mo_semicolon m), (mo_braces m) as [[d sp']|]; bsplit; try discriminate.
    - subst cb. apply app_inj_tail in Hc. destruct Hc; discriminate.
    - destruct Hcb as (s & (ci & cm & Hci & Hcm & ->) & ->). simpl in Hcm. subst cm. rewrite app_nil_r in *.
      unfold quote_with in Hc. cbn [gs_delim gs_span] in Hc, H3. apply app_inj_tail in Hc. destruct Hc as [-> Hc].
      injection Hc as -> -> ->. repeat split; auto. }
  destruct Hs as (Hs & Hbr & Hin & ->). clear Hc.
  rewrite consume_item_unfold.
  assert (Hmod : parse_mod consume_item (mo_attributes m) (mo_vis m)
     (module_tail m [TGroup (mkGroup Brace (inner ++ body) sp)] ++ rest)
     = match o with Ret l => Ret (with_members m l, rest) | Panic p => Panic p | OutOfFuel => OutOfFuel end).
  { unfold parse_mod, module_tail. unfold shape_module in Hw. bsplit. app_norm.
    rewrite consume_ident_opt; auto. 2:{ intros _. destruct m; simpl in *; known. reflexivity. }
    cbn [parse_ident]. rwb. cbn [bind consume_item_name parse_any_ident]. cbn [app g_delim delim_eqb g_stream].
    rewrite Hs, Hbr in H0. bsplit.
    rewrite (inner_attributes_complete (mo_inner_attributes m)); auto.
    cbn [bind]. rewrite E. destruct o; auto. cbn [bind]. unfold with_members. rewrite Hs, Hbr. reflexivity. }
  replace ((ca ++ print_opt print_vis (mo_vis m) ++ module_tail m []) ++ TGroup (mkGroup Brace (inner ++ body) sp) :: rest)
    with (ca ++ print_opt print_vis (mo_vis m) ++ module_tail m [TGroup (mkGroup Brace (inner ++ body) sp)] ++ rest)
    by (unfold module_tail; app_norm; reflexivity).
  set (cb2 := [TGroup (mkGroup Brace (inner ++ body) sp)]) in *. clearbody cb2.
  pose proof (module_not_fn m cb2 rest) as Hnf. specialize (fun u => Hnf u Hw).
  unfold shape_module in Hw. bsplit. unfold module_tail in *.
  destruct (mo_unsafe m) as [un|] eqn:Eu.
  + specialize (Hnf un eq_refl). cbn [print_opt print_ident app] in Hnf, Hmod |- *.
    rewrite (item_head_either _ _ (mo_attributes m)); auto. 2:{ simpl in *. known. reflexivity. }
    unfold consume_either. assert (Hk : id_is "type" un = false /\ fn_like_keyword un = true) by (simpl in *; known; auto).
    destruct Hk as [-> ->]. rewrite Hnf. cbn [bind]. rewrite Hmod. destruct o; reflexivity.
  + cbn [print_opt print_ident app] in *. rewrite (item_head _ _ (mo_attributes m)); auto. 2:{ destruct m; simpl in *; known; reflexivity. }
    cbv zeta. unfold wrap. rewrite Hmod. destruct m; simpl in *; known. destruct o; reflexivity.
Qed.
Example C12_example_members :
  exists m o, consume_item (lex "pub mod m" ++ TGroup (mkGroup Brace (lex "#![x]") call_site) :: lex "fn") = Ret (Ok (IModule m), lex "fn")
  /\ mo_members m = [] /\ inner_follow (lex "struct A; #[b] fn f() {}") = true
  /\ reads (lex "struct A; #[b] fn f() {}") (Ret o) /\ List.length o = 2.
Proof.
  eexists. eexists. split; [vm_compute; reflexivity|]. split; [vm_compute; reflexivity|]. split; [vm_compute; reflexivity|].
  split.
  - eapply (reads_item _ _ _ _ (Ret [_])); [vm_compute; reflexivity|].
    eapply (reads_item _ _ _ _ (Ret [])); [vm_compute; reflexivity|]. constructor.
  - reflexivity.
Qed.

(** The [Err] of a complex discriminant never leaves a module: it becomes a panic. *)
Theorem C12_no_err_from_module (ts rest : list tok) (er : error) :
  consume_item ts = Ret (Err er, rest) ->
  exists attrs ts0 vis kw ts1, consume_outer_attributes ts = Ret (attrs, ts0)
    /\ consume_vis_marker ts0 = (vis, TIdent kw :: ts1) /\ id_str kw = "enum"%string.
Proof.
  intro H. rewrite consume_item_unfold in H. apply item_err in H.
  destruct H as (attrs & vis & kw & ts1 & (ts0 & Ha & Hv) & Hk & _).
  exists attrs, ts0, vis, kw, ts1. repeat split; auto. apply String.eqb_eq. exact Hk.
Qed.
Theorem C12_complex_discriminant_in_module (head inner body bad rest bad_rest : list tok) sp (m : module_ item) l er :
  consume_item (head ++ TGroup (mkGroup Brace inner sp) :: rest) = Ret (Ok (IModule m), rest) ->
  mo_members m = [] -> consumes body l bad -> consume_item bad = Ret (Err er, bad_rest) ->
  consume_item (head ++ TGroup (mkGroup Brace (inner ++ body) sp) :: rest) = Panic PDeclInMod.
Proof.
  intros H Hm Hc He.
  assert (Hr : reads body (Panic PDeclInMod)).
  { revert He. clear -Hc. induction Hc as [ts|ts i ts1 l rest Hi Hc IH]; intro He.
    - destruct ts; [discriminate|]. econstructor. exact He.
    - destruct ts as [|t ts]; [discriminate|]. eapply reads_item in Hi; [|exact (IH He)]. exact Hi. }
  assert (Hf : inner_follow body = true).
  { assert (G : forall ts x rest, consume_item ts = Ret (x, rest) -> inner_follow ts = true).
    { intros ts x r G. rewrite consume_item_unfold in G. unfold consume_item_body in G. inv_bind G. destruct x0 as [attrs t1].
      clear G. unfold consume_outer_attributes in Hx. destruct ts as [|[g|i|p|li] r0]; auto.
      simpl. unfold consume_attributes_with_inner in Hx. destruct (p_is "#" p); auto. destruct r0 as [|[g|i|q|li] r0]; try discriminate.
      simpl. destruct (delim_eqb (g_delim g) Bracket); [reflexivity|discriminate]. }
    inversion Hc; subst; eauto. }
  rewrite (C12_module_members _ _ _ _ _ _ _ H Hm Hf Hr). reflexivity.
Qed.
Example C12_example :
  panic_of (consume_item (lex "pub mod m { #![x] struct A(u8) mod n { use a::b; enum E { A = 1 + 2 } } }")) = Some PDeclInMod
  /\ panic_of (consume_item (lex "pub mod m { #![x] struct A(u8) mod n { use a::b; enum E { A = (1 + 2) } } }")) = None.
Proof. vm_compute. auto. Qed.

Print Assumptions C07_err_consumes_prefix.
Print Assumptions C11_err_iff.
Print Assumptions C12_module_members.
Print Assumptions C12_complex_discriminant_in_module.

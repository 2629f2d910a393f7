(** C76: how [TypeExpr::as_path] classifies the types of the fragment of Rust in RustSyntax.v. *)
From Verif Require Import RustSyntax Debug PathProof Samples PropRoundTrip PropErr PropPath PropRust.
Local Open Scope string_scope.
Local Open Scope list_scope.

(** ** Specification of paths *)
(** [::] as the compiler writes it. *)
Definition joined (ts : list tok) : Prop :=
  exists p q, mark ":" p /\ p_spacing p = Joint /\ mark ":" q /\ p_spacing q = Alone /\ ts = [TPunct p; TPunct q].
(** [listed l ts]: the arguments [l] separated by commas, with or without a trailing one. *)
Inductive listed : list (list tok) -> list tok -> Prop :=
| li_nil : listed [] []
| li_one a : rust_arg a -> listed [a] a
| li_cons a c l r : rust_arg a -> mark "," c -> listed l r -> listed (a :: l) (a ++ TPunct c :: r).
(** [segment i l ts]: a name with arguments [l], if any; [Vec<T>] or [Vec::<T>]. *)
Inductive segment : ident -> option (list (list tok)) -> list tok -> Prop :=
| sg_name i : segment i None [TIdent i]
| sg_args i c l a la r : c = [] \/ joined c -> mark "<" l -> listed la a -> mark ">" r ->
    segment i (Some la) (TIdent i :: c ++ TPunct l :: a ++ [TPunct r]).
Inductive segments : list (ident * option (list (list tok))) -> list tok -> Prop :=
| ss_one i a ts : segment i a ts -> segments [(i, a)] ts
| ss_more i a ts c l r : segment i a ts -> joined c -> segments l r -> segments ((i, a) :: l) (ts ++ c ++ r).
(** How an argument is to be classified: a lifetime, [name = type], or anything else. *)
Definition arg_value (ts : list tok) : generic_arg :=
  match ts with
  | [TPunct q; TIdent i] => if p_is "'" q then GALifetime (mkLifetime q i) else GATypeOrConst (mkTypeExpr ts)
  | TIdent i :: TPunct e :: r => if p_is "=" e then GABinding i e (mkTypeExpr r) else GATypeOrConst (mkTypeExpr ts)
  | _ => GATypeOrConst (mkTypeExpr ts)
  end.

(** ** Arguments *)
Definition starts_ident (ts : list tok) : Prop := exists i r, ts = TIdent i :: r.
Lemma path_head F ts : rust_path F ts -> starts_ident ts.
Proof. destruct 1 as [F s H|F s c r _ H]; destruct H; cbn; eexists _, _; reflexivity. Qed.
Lemma segment_head F ts : rust_segment F ts -> starts_ident ts.
Proof. destruct 1; eexists _, _; reflexivity. Qed.
Lemma mark_not c d p : mark c p -> c <> d -> p_is d p = false.
Proof. intros E N. red in E. unfold p_is. rewrite E. apply Ascii.eqb_neq. auto. Qed.
Lemma type_head F ts : rust_type F ts -> exists t r, ts = t :: r /\ is_punct "'" t = false.
Proof.
  destruct 1 as [F ts H|F s ts _ H _|F l q r s ts _ H _ _ _ _|F a l m ts H _ _ _|F a k ts H _ _|F g H|F p H|F fl hd g ret H1 H2 _ _|F k ts H _|F ts b g H _ _].
  - apply path_head in H. destruct H as (i & r & ->). eexists _, _. split; reflexivity.
  - destruct H as (p & q & Hp & _ & ->). eexists _, _. split; [reflexivity|]. apply (mark_not ":"); auto. discriminate.
  - eexists _, _. split; [reflexivity|]. apply (mark_not "<"); auto. discriminate.
  - eexists _, _. split; [reflexivity|]. apply (mark_not "&"); auto. discriminate.
  - eexists _, _. split; [reflexivity|]. apply (mark_not "*"); auto. discriminate.
  - eexists _, _. split; reflexivity.
  - eexists _, _. split; [reflexivity|]. apply (mark_not "!"); auto. discriminate.
  - destruct H1 as [->|[_ (k & l & a & r & _ & _ & _ & _ & ->)]]; [|eexists _, _; split; reflexivity].
    destruct H2 as (u & e & abi & k & Hu & He & Ha & _ & ->). destruct Hu as [->|(i & _ & ->)]; [|eexists _, _; split; reflexivity].
    destruct He as [->|(i & _ & ->)]; [|eexists _, _; split; reflexivity]. destruct Ha as [->|[x ->]]; eexists _, _; split; reflexivity.
  - destruct H as (i & _ & ->). eexists _, _. split; reflexivity.
  - apply path_head in H. destruct H as (i & r & ->). eexists _, _. split; reflexivity.
Qed.
Definition closed_run (P : tok -> bool) (ts : list tok) : Prop := scan P 0 false ts = Some (0%Z, false).
Lemma closed_app P a b : closed_run P a -> closed_run P b -> closed_run P (a ++ b).
Proof. unfold closed_run. intros Ha Hb. rewrite scan_app, Ha. exact Hb. Qed.
Lemma closed_tok P t r : P t = false -> is_punct "<" t = false -> is_punct ">" t = false -> is_punct "-" t = false -> closed_run P r -> closed_run P (t :: r).
Proof.
  unfold closed_run. intros H1 H2 H3 H4 H. cbn [scan]. unfold stops, next_depth, opens, closes. rewrite H1, H2, H3, H4. cbn. exact H.
Qed.
Lemma passes_run P ts : compatible anywhere P -> passes anywhere ts -> closed_run P ts.
Proof. intros C H. apply H; [lia|auto]. Qed.
Lemma segment_passes F ts : rust_segment F ts -> passes F ts.
Proof. apply rust_passes. Qed.
Lemma not_equals i p r : closed_run (is_punct "=") (TIdent i :: TPunct p :: r) -> p_is "=" p = false.
Proof.
  intro H. unfold closed_run in H. destruct (p_is "=" p) eqn:E; auto. exfalso. cbn [scan] in H.
  change (stops (is_punct "=") 0 false (TIdent i)) with false in H. change (next_depth 0 false (TIdent i)) with 0%Z in H.
  change (is_punct "-" (TIdent i)) with false in H. unfold stops, opens, closes in H. cbn [is_punct] in H. rewrite E in H.
  unfold p_is in *. apply Ascii.eqb_eq in E. rewrite E in H. discriminate.
Qed.
Definition unbound (ts : list tok) : Prop := forall i p r, ts = TIdent i :: TPunct p :: r -> p_is "=" p = false.
Lemma run_unbound ts : closed_run (is_punct "=") ts -> unbound ts.
Proof. intros H i p r ->. eapply not_equals. eauto. Qed.
Lemma plain_value ts : unbound ts -> (exists t r, ts = t :: r /\ is_punct "'" t = false) ->
  arg_value ts = GATypeOrConst (mkTypeExpr ts) /\ plain_arg ts = true.
Proof.
  intros H (t & r & -> & Ht). destruct t as [g|i|p|l]; cbn in Ht.
  - auto.
  - destruct r as [|[g|j|p|l] r]; auto. cbn. rewrite (H i p r eq_refl). auto.
  - cbn. rewrite Ht. split; auto. destruct r as [|[g|j|q|l] [|? r]]; auto.
  - auto.
Qed.
Lemma arg_ok ts : rust_arg ts -> print_generic_arg (arg_value ts) = ts /\ forall b, wf_generic_arg b (arg_value ts) = true.
Proof.
  assert (R : forall ts, closed_run end_comma ts -> forall b, arg_run b ts = true).
  { intros us H b. unfold arg_run. rewrite H. destruct b; reflexivity. }
  assert (P : forall ts, closed_run end_comma ts -> unbound ts -> (exists t r, ts = t :: r /\ is_punct "'" t = false) ->
    print_generic_arg (arg_value ts) = ts /\ forall b, wf_generic_arg b (arg_value ts) = true).
  { intros us H1 H2 H3. destruct (plain_value us H2 H3) as [-> Hp]. split; [reflexivity|]. intro b. unfold wf_generic_arg. cbn. unfold print_type. cbn.
    rewrite (R us H1 b), Hp. reflexivity. }
  assert (C1 : compatible anywhere end_comma) by apply compat_comma.
  assert (C2 : compatible anywhere (is_punct "=")) by (apply punct_ok; cbn; auto).
  destruct 1 as [ts H|ts H|l|p l H|g H|s e ts H1 H2 H3|s c ts H1 H2 H3].
  - pose proof (passes_run _ _ C1 (passes_lifetime anywhere _ H)) as Hr. destruct H as (q & i & Hq & Hi & ->).
    assert (E : arg_value [TPunct q; TIdent i] = GALifetime (mkLifetime q i)) by (cbn; rewrite (mark_is _ _ Hq); reflexivity).
    rewrite E. split; auto. intro b. unfold wf_generic_arg. change (print_generic_arg (GALifetime (mkLifetime q i))) with [TPunct q; TIdent i].
    rewrite (R _ Hr b). apply mark_is. auto.
  - pose proof (type_passes _ _ H) as Hp. apply P; [apply passes_run; auto|apply run_unbound, passes_run; auto|]. apply (type_head _ _ H).
  - split; [reflexivity|]. intros []; reflexivity.
  - apply P.
    + red in H. unfold closed_run. cbn [scan]. unfold stops, next_depth, opens, closes, end_comma. cbn. unfold p_is. rewrite H. reflexivity.
    + intros i q r E. discriminate.
    + eexists _, _. split; [reflexivity|]. apply (mark_not "-"); auto. discriminate.
  - apply P; [apply closed_tok; reflexivity|intros i q r E; discriminate|eexists _, _; split; reflexivity].
  - pose proof (type_passes _ _ H3) as Hp. pose proof (segment_passes _ _ H1) as Hs.
    assert (Hr : closed_run end_comma (s ++ TPunct e :: ts)).
    { apply closed_app; [apply passes_run; auto|]. apply closed_tok; try (apply (mark_not "="); auto; discriminate). apply passes_run; auto. }
    destruct H1 as [F i Hi|F i c l a r Hi Hc Hl Ha Hrr|F i g ret Hi Hg Hret].
    + cbn [app] in *. assert (E : arg_value (TIdent i :: TPunct e :: ts) = GABinding i e (mkTypeExpr ts)) by (cbn; rewrite (mark_is _ _ H2); destruct ts; reflexivity).
      rewrite E. split; auto. intro b. unfold wf_generic_arg. change (print_generic_arg (GABinding i e (mkTypeExpr ts))) with (TIdent i :: TPunct e :: ts).
      rewrite (R _ Hr b). apply mark_is. auto.
    + apply P; auto; [|eexists _, _; split; reflexivity]. intros j p rr E. destruct Hc as [->|[_ (p1 & p2 & M & _ & ->)]]; injection E as _ <- _.
      * apply (mark_not "<"); auto. discriminate.
      * apply (mark_not ":"); auto. discriminate.
    + apply P; auto; [|eexists _, _; split; reflexivity]. intros j p rr E. discriminate.
  - pose proof (bounds_passes _ _ H3) as Hp. pose proof (segment_passes _ _ H1) as Hs.
    assert (Hr : forall P, compatible anywhere P -> P (TPunct c) = false -> closed_run P (s ++ TPunct c :: ts)).
    { intros Q CQ HQ. apply closed_app; [apply passes_run; auto|]. apply closed_tok; try (apply (mark_not ":"); auto; discriminate); auto. apply passes_run; auto. }
    apply P; [apply Hr; auto; apply (mark_not ":"); auto; discriminate|apply run_unbound, Hr; auto; apply (mark_not ":"); auto; discriminate|].
    apply segment_head in H1. destruct H1 as (i & r & ->). eexists _, _. split; reflexivity.
Qed.
Lemma listed_args l ts : listed l ts -> exists p, wf_punctuated wf_generic_arg p = true /\ print_punctuated print_generic_arg p = ts
  /\ pu_items p = map arg_value l.
Proof.
  induction 1 as [|a H|a c l r H Hc _ (p & P1 & P2 & P3)].
  - exists pu_new. auto.
  - destruct (arg_ok a H) as [A1 A2]. exists (mkPunctuated [(arg_value a, punct_new "," Alone)] true). split; [|split]; [|unfold print_punctuated; cbn [pu_inner pu_skip_last print_inner]; rewrite A1; apply app_nil_r|reflexivity].
    unfold wf_punctuated. cbn [pu_inner pu_skip_last wf_inner]. rewrite A2. reflexivity.
  - destruct (arg_ok a H) as [A1 A2]. destruct p as [inner sk]. exists (mkPunctuated ((arg_value a, c) :: inner) sk). unfold wf_punctuated, print_punctuated, pu_items in *. cbn [pu_inner pu_skip_last] in *.
    destruct inner as [|[y q] inner].
    + cbn in P2, P3. subst r. destruct sk; [discriminate P1|]. cbn [wf_inner print_inner map fst negb]. rewrite A2, A1, (mark_is _ _ Hc), <- P3. auto.
    + split; [|split].
      * change (wf_generic_arg true (arg_value a) && p_is "," c && wf_inner wf_generic_arg sk ((y, q) :: inner) = true). 
        rewrite A2, (mark_is _ _ Hc). destruct sk; exact P1 || (apply andb_prop in P1; tauto).
      * change (print_generic_arg (arg_value a) ++ TPunct c :: print_inner print_generic_arg sk ((y, q) :: inner) = a ++ TPunct c :: r). rewrite A1, P2. reflexivity.
      * cbn [map fst]. rewrite <- P3. reflexivity.
Qed.
Lemma joined_colon2 c : joined c -> exists p, wf_colon2 p = true /\ print_punct2 p = c.
Proof.
  intros (p & q & Hp & Sp & Hq & Sq & ->). exists (p, q). split; auto. unfold wf_colon2. cbn. rewrite (mark_is _ _ Hp), (mark_is _ _ Hq), Sp, Sq. reflexivity.
Qed.
(** What is to be seen of a segment. *)
Definition view (s : path_segment) : ident * option (list generic_arg) := (ps_ident s, option_map (fun g => pu_items (gal_args g)) (ps_args s)).
Definition classified (x : ident * option (list (list tok))) : ident * option (list generic_arg) := (fst x, option_map (map arg_value) (snd x)).
Lemma segment_args i a ts : segment i a ts -> exists g, wf_opt wf_generic_args g = true
  /\ ts = TIdent i :: print_opt print_generic_args g /\ option_map (fun g => pu_items (gal_args g)) g = option_map (map arg_value) a.
Proof.
  destruct 1 as [i|i c l a la r Hc Hl H Hr].
  - exists None. auto.
  - destruct (listed_args _ _ H) as (p & P1 & P2 & P3). assert (T : exists t, wf_opt wf_colon2 t = true /\ print_opt print_punct2 t = c).
    { destruct Hc as [->|Hc]; [exists None; auto|]. destruct (joined_colon2 _ Hc) as (q & Q1 & Q2). exists (Some q). auto. }
    destruct T as (t & T1 & T2). exists (Some (mkGenericArgList t l p r)). split; [|split].
    + cbn. unfold wf_generic_args. cbn. rewrite T1, P1, (mark_is _ _ Hl), (mark_is _ _ Hr). reflexivity.
    + cbn [print_opt]. unfold print_generic_args. cbn. rewrite P2, T2. reflexivity.
    + cbn. rewrite P3. reflexivity.
Qed.
Lemma segments_path l ts c : segments l ts -> wf_opt wf_colon2 c = true -> exists s r,
  wf_segment (match c with None => true | Some _ => false end) s = true /\ forallb (wf_segment false) r = true
  /\ ps_colons s = c /\ flat_map print_path_segment (s :: r) = print_opt print_punct2 c ++ ts /\ map view (s :: r) = map classified l.
Proof.
  intro H. revert c. induction H as [i a ts H|i a ts c' l r H Hc _ IH]; intros c Wc; destruct (segment_args _ _ _ H) as (g & G1 & G2 & G3).
  - exists (mkPathSegment c i g), []. unfold wf_segment. cbn [ps_colons ps_args]. rewrite G1. split; [destruct c; cbn in *; rewrite ?Wc; reflexivity|]. split; [reflexivity|]. split; [reflexivity|]. split.
    + cbn [flat_map]. unfold print_path_segment. cbn [ps_colons ps_ident ps_args]. rewrite app_nil_r, G2. reflexivity.
    + unfold view, classified. cbn. rewrite G3. reflexivity.
  - destruct (joined_colon2 _ Hc) as (q & Q1 & Q2). destruct (IH (Some q) Q1) as (s & r' & I1 & I2 & I3 & I4 & I5).
    exists (mkPathSegment c i g), (s :: r'). unfold wf_segment at 1. cbn [ps_colons ps_args]. rewrite G1. split; [destruct c; cbn in *; rewrite ?Wc; reflexivity|]. 
    split; [cbn [forallb]; rewrite I1, I2; reflexivity|]. split; [reflexivity|]. split.
    + cbn [flat_map] in *. rewrite I4. unfold print_path_segment. cbn [ps_colons ps_ident ps_args print_opt]. rewrite G2, Q2. app_norm. reflexivity.
    + cbn [map] in *. rewrite I5. unfold view, classified. cbn. rewrite G3. reflexivity.
Qed.
(** Every Rust path is recognised, with its segments and arguments, classified as they should be, and keeps its tokens. *)
Theorem C76_paths l lead ts : lead = [] \/ joined lead -> segments l ts ->
  exists p, as_path (mkTypeExpr (lead ++ ts)) = Ret (Some p) /\ print_path p = lead ++ ts /\ map view (pa_segments p) = map classified l.
Proof.
  intros Hl H. assert (T : exists t, wf_opt wf_colon2 t = true /\ print_opt print_punct2 t = lead).
  { destruct Hl as [->|Hc]; [exists None; auto|]. destruct (joined_colon2 _ Hc) as (q & Q1 & Q2). exists (Some q). auto. }
  destruct T as (t & T1 & <-). destruct (segments_path l ts t H T1) as (s & r & I1 & I2 & I3 & I4 & I5).
  exists (mkPath (s :: r)). split; [|split; auto]. change (print_opt print_punct2 t ++ ts) with (te_tokens (mkTypeExpr (print_opt print_punct2 t ++ ts))). rewrite <- I4. apply (C44_as_path_print (mkPath (s :: r))).
  unfold wf_path. cbn [pa_segments]. rewrite I2, andb_true_r. unfold wf_segment in *. rewrite I3 in *. destruct t; auto.
Qed.
(** These are paths in the sense of RustSyntax.v. *)
Theorem C76_paths_are_rust l ts : segments l ts -> Forall (fun x => segment_name (fst x)) l -> rust_path anywhere ts.
Proof.
  assert (J : forall c, joined c -> separator c) by (intros c (p & q & H1 & _ & H2 & _ & ->); exists p, q; auto).
  assert (A : forall l a, listed l a -> rust_args a) by (induction 1; [apply args_nil|apply args_one; auto|apply args_cons; auto]).
  assert (S : forall i a ts, segment i a ts -> segment_name i -> rust_segment anywhere ts).
  { destruct 1 as [i|i c l0 a la r Hc Hl H Hr]; intro N; [apply seg_name; auto|]. apply seg_args; eauto. destruct Hc; auto. }
  induction 1 as [i a t H|i a t c l r H Hc H' IH]; intro F; inversion F; subst; [apply path_one|apply path_more]; eauto.
Qed.

(** ** Totality *)
(** What may follow a path. *)
Definition after_path (rest : list tok) : Prop := match rest with [] => True | t :: _ => is_punct "<" t = false /\ is_punct ":" t = false end.
Lemma no_args ts : (forall p r, ts = TPunct p :: r -> p_is "<" p = false /\ p_is ":" p = false) -> consume_generic_args ts = Ret (None, ts) /\ consume_colon2 ts = (None, ts).
Proof.
  intro H. assert (C : consume_colon2 ts = (None, ts)).
  { unfold consume_colon2. destruct ts as [|[|?|p|?] [|[|?|q|?] r]]; auto. destruct (H _ _ eq_refl) as [_ ->]. reflexivity. }
  split; auto. unfold consume_generic_args. rewrite C. destruct ts as [|[|?|p|?] r]; auto. cbn. destruct (H _ _ eq_refl) as [-> _]. reflexivity.
Qed.
Lemma after_no_args rest : after_path rest -> consume_generic_args rest = Ret (None, rest) /\ consume_colon2 rest = (None, rest).
Proof. intro H. apply no_args. intros p r ->. exact H. Qed.
(** A path separator in front of a name is not a turbofish. *)
Lemma sep_no_args c i r : separator c -> consume_generic_args (c ++ TIdent i :: r) = Ret (None, c ++ TIdent i :: r).
Proof.
  intros (p & q & Hp & Hq & ->). cbn [app]. unfold consume_generic_args, consume_colon2.
  destruct (p_is ":" p && is_joint (p_spacing p) && p_is ":" q && negb (is_joint (p_spacing q))); [reflexivity|]. cbn.
  rewrite (mark_not _ "<" _ Hp) by discriminate. reflexivity.
Qed.
Lemma sep_cases c r : separator c -> consume_colon2 (c ++ r) = (None, c ++ r) \/ exists p, consume_colon2 (c ++ r) = (Some p, r).
Proof. intros (p & q & Hp & Hq & ->). cbn. destruct (_ && _ && _ && _); eauto. Qed.
Lemma rust_listed a : rust_args a -> exists l, listed l a.
Proof. induction 1 as [|a H|a c r H Hc _ [l IH]]; eexists; [apply li_nil|apply li_one; auto|apply li_cons; eauto]. Qed.
Lemma args_read c l a r rest : c = [] \/ separator c -> mark "<" l -> rust_args a -> mark ">" r ->
  (exists g, consume_generic_args (c ++ TPunct l :: a ++ TPunct r :: rest) = Ret (Some g, rest))
  \/ (c <> [] /\ consume_generic_args (c ++ TPunct l :: a ++ TPunct r :: rest) = Ret (None, c ++ TPunct l :: a ++ TPunct r :: rest)
      /\ consume_colon2 (c ++ TPunct l :: a ++ TPunct r :: rest) = (None, c ++ TPunct l :: a ++ TPunct r :: rest)).
Proof.
  intros Hc Hl Ha Hr. destruct (rust_listed _ Ha) as [la La]. destruct (listed_args _ _ La) as (p & P1 & P2 & _).
  assert (G : forall t, wf_opt wf_colon2 t = true -> consume_generic_args (print_opt print_punct2 t ++ TPunct l :: a ++ TPunct r :: rest)
     = Ret (Some (mkGenericArgList t l p r), rest)).
  { intros t T. rewrite <- (generic_args_complete (mkGenericArgList t l p r) (print_opt print_punct2 t ++ TPunct l :: a ++ [TPunct r])).
    - f_equal. app_norm. reflexivity.
    - unfold wf_generic_args. cbn. rewrite T, P1, (mark_is _ _ Hl), (mark_is _ _ Hr). reflexivity.
    - exists None. cbn. rewrite P2. auto. }
  destruct Hc as [->|(p1 & p2 & M1 & M2 & ->)]; [left; eexists; apply (G None); reflexivity|].
  destruct (wf_colon2 (p1, p2)) eqn:W; [left; eexists; apply (G (Some (p1, p2))); auto|].
  right. split; [discriminate|].
  assert (C : consume_colon2 ([TPunct p1; TPunct p2] ++ TPunct l :: a ++ TPunct r :: rest) = (None, [TPunct p1; TPunct p2] ++ TPunct l :: a ++ TPunct r :: rest)).
  { cbn. unfold wf_colon2 in W. cbn in W. unfold is_joint. rewrite (mark_is _ _ M1), (mark_is _ _ M2) in *. cbn in *.
    destruct (p_spacing p1), (p_spacing p2); auto; discriminate. }
  split; auto. unfold consume_generic_args. rewrite C. cbn. rewrite (mark_not _ "<" _ M1) by discriminate. reflexivity.
Qed.
Lemma for_sep F c : (c = [] \/ (fl_colons F = true /\ separator c)) -> c = [] \/ separator c. Proof. tauto. Qed.
Lemma path_total F ts : rust_path F ts -> forall rest colons acc fuel, after_path rest -> List.length (ts ++ rest) < fuel ->
  exists o, path_loop fuel colons acc (ts ++ rest) = Ret o /\ (rest <> [] -> o = None).
Proof.
  induction 1 as [F s H|F s c r Hc H Hs Hr IH]; intros rest colons acc fuel A Hf.
  - destruct fuel as [|fuel]; [lia|]. destruct (after_no_args _ A) as [A1 A2].
    destruct H as [F i Hi|F i c l a r Hi Hc Hl Ha Hr|F i g ret Hi Hg Hret]; cbn [app path_loop].
    + rewrite A1. cbn [bind]. destruct rest as [|t rest]; [eexists; split; [reflexivity|congruence]|]. rewrite A2. eauto.
    + app_norm. cbn [app]. destruct (args_read c l a r rest (for_sep _ _ Hc) Hl Ha Hr) as [[g E]|(N & E & E')]; rewrite E; cbn [bind].
      * destruct rest as [|t rest]; [eexists; split; [reflexivity|congruence]|]. rewrite A2. eauto.
      * rewrite E'. destruct c; [congruence|]. cbn [app]. eauto.
    + destruct (no_args (TGroup g :: ret ++ rest)) as [E1 E2]; [discriminate|]. rewrite E1. cbn [bind]. rewrite E2. eauto.
  - destruct fuel as [|fuel]; [lia|]. destruct (path_head _ _ Hr) as (i0 & r0 & Er).
    assert (N : forall acc', exists o, (match c ++ r ++ rest with [] => Ret (Some (mkPath acc')) | _ :: _ =>
        match consume_colon2 (c ++ r ++ rest) with (Some sep, ts) => path_loop fuel (Some sep) acc' ts | (None, _) => Ret None end end) = Ret o /\ (rest <> [] -> o = None)).
    { intros acc'. assert (L : List.length (r ++ rest) < fuel).
      { rewrite !app_length in *. destruct s; [apply segment_head in H; destruct H as (? & ? & ?); discriminate|]. cbn in Hf. lia. }
      assert (Hne : exists t u, c ++ r ++ rest = t :: u) by (destruct Hs as (p & q & _ & _ & ->); eexists _, _; reflexivity).
      destruct Hne as (t & u & Et). destruct (sep_cases c (r ++ rest) Hs) as [E|[p E]]; rewrite E, Et; eauto. }
    destruct H as [F i Hi|F i c' l a r' Hi Hc' Hl Ha Hr'|F i g ret Hi Hg Hret]; cbn [app path_loop]; app_norm; cbn [app].
    + assert (E : consume_generic_args (c ++ r ++ rest) = Ret (None, c ++ r ++ rest)) by (rewrite Er; cbn [app]; apply sep_no_args; auto).
      rewrite E. cbn [bind]. destruct (N (acc ++ [mkPathSegment colons i None])) as (o & -> & N2). eauto.
    + destruct (args_read c' l a r' (c ++ r ++ rest) (for_sep _ _ Hc') Hl Ha Hr') as [[g E]|(N' & E & E')]; rewrite E; cbn [bind].
      * destruct (N (acc ++ [mkPathSegment colons i (Some g)])) as (o & -> & N2). eauto.
      * rewrite E'. destruct c'; [congruence|]. cbn [app]. eauto.
    + destruct (no_args (TGroup g :: ret ++ c ++ r ++ rest)) as [E1 E2]; [discriminate|]. rewrite E1. cbn [bind]. rewrite E2. eauto.
Qed.

Lemma literal_or_ident_none fuel colons acc t u r : match t with TIdent _ => True | TLit _ => True | _ => False end -> 
  (match u with TPunct p => p_is "<" p = false /\ p_is ":" p = false | _ => True end) -> 
  path_loop (S (S fuel)) colons acc (t :: u :: r) = Ret None.
Proof.
  intros Ht Hu. destruct t as [|i| |]; try contradiction; [|reflexivity]. cbn [path_loop].
  destruct (no_args (u :: r)) as [E1 E2]; [intros p r' E; injection E as -> _; exact Hu|]. rewrite E1. cbn [bind]. rewrite E2. reflexivity.
Qed.
Lemma consume_path_ident i u r : (match u with TPunct p => p_is "<" p = false /\ p_is ":" p = false | _ => True end) -> consume_path (TIdent i :: u :: r) = Ret None.
Proof. intro H. unfold consume_path. cbn [consume_colon2]. apply literal_or_ident_none; cbn; auto. Qed.
(** The types that are not paths. *)
Inductive other_type : list tok -> Prop :=
| ot_mark c p r : In c ["&"; "*"; "!"; "<"]%char -> mark c p -> other_type (TPunct p :: r)
| ot_group g : g_delim g <> NoDelim -> other_type [TGroup g]
| ot_fn fl hd g ret : fl = [] \/ for_lifetimes fl -> fn_type_head hd -> other_type (fl ++ hd ++ TGroup g :: ret)
| ot_object k ts : keyword_in ["dyn"; "impl"] k -> rust_bounds anywhere ts -> ts <> [] -> ~ starts (fun t => exists p, t = TPunct p /\ mark ":" p) ts ->
    other_type (k ++ ts)
| ot_macro lead ts b r : lead = [] \/ separator lead -> rust_path anywhere ts -> mark "!" b -> other_type (lead ++ ts ++ TPunct b :: r)
| ot_call i g ret : other_type (TIdent i :: TGroup g :: ret).
Lemma bounds_head F ts : rust_bounds F ts -> match ts with
  | [] => True
  | t :: _ => (is_punct "<" t = false /\ is_punct ":" t = false)
     \/ exists s path rest, separator s /\ rust_path F path /\ after_path rest /\ ts = s ++ path ++ rest
  end.
Proof.
  assert (B : forall F b rest, rust_bound F b -> after_path rest -> match b ++ rest with [] => True | t :: _ => (is_punct "<" t = false /\ is_punct ":" t = false)
     \/ exists s path rest', separator s /\ rust_path F path /\ after_path rest' /\ b ++ rest = s ++ path ++ rest' end).
  { intros F0 b rest H A. destruct H as [F0 ts0 H|F0 fl s ts0 H1 H2 H3|F0 q ts0 H _|F0 g H].
    - destruct H as (q & i & Hq & _ & ->). left. split; apply (mark_not "'"); auto; discriminate.
    - destruct H1 as [->|[_ (k & l & a & r & _ & _ & _ & _ & ->)]]; [|left; split; reflexivity]. cbn [app].
      destruct H2 as [->|[_ H2]].
      + destruct (path_head _ _ H3) as (i & r & ->). left. split; reflexivity.
      + assert (X : exists t r, (s ++ ts0) ++ rest = t :: r) by (destruct H2 as (p & q & _ & _ & ->); eexists _, _; reflexivity).
        destruct X as (t & r & X). rewrite X. right. exists s, ts0, rest. rewrite <- X. app_norm. auto.
    - left. split; apply (mark_not "?"); auto; discriminate.
    - left. split; reflexivity. }
  destruct 1 as [F|F b H|F b p r H Hp _]; auto.
  - specialize (B F b [] H I). rewrite app_nil_r in B. exact B.
  - apply (B F b (TPunct p :: r) H). cbn. split; apply (mark_not "+"); auto; discriminate.
Qed.
Lemma visible_cons t u r : visible_tokens (mkTypeExpr (t :: u :: r)) = t :: u :: r.
Proof. cbn. destruct t as [[[] ? ?]| | |]; reflexivity. Qed.
Lemma path_then F lead ts rest : lead = [] \/ separator lead -> rust_path F ts -> after_path rest ->
  exists o, consume_path (lead ++ ts ++ rest) = Ret o /\ (rest <> [] -> o = None).
Proof.
  intros Hl H A. destruct (path_head _ _ H) as (i & r & E). unfold consume_path. destruct Hl as [->|Hl].
  - cbn [app]. assert (X : consume_colon2 (ts ++ rest) = (None, ts ++ rest)) by (rewrite E; reflexivity). rewrite X. apply (path_total F); auto.
  - destruct (sep_cases lead (ts ++ rest) Hl) as [X|[p X]]; rewrite X; [|apply (path_total F); auto].
    destruct Hl as (p & q & _ & _ & ->). cbn. eauto.
Qed.
Theorem C76_others ts : other_type ts -> as_path (mkTypeExpr ts) = Ret None.
Proof.
  rewrite as_path_visible. destruct 1 as [c p r Hc H|g H|fl hd g ret Hf Hh|k ts Hk Hb Hn Hs|lead ts b r Hl H Hb|i g ret].
  - cbn [visible_tokens te_tokens]. unfold consume_path, consume_colon2.
    assert (E : p_is ":" p = false) by (apply (mark_not c); auto; intros ->; destruct Hc as [E|[E|[E|[E|[]]]]]; discriminate).
    destruct r as [|[| |q|] r]; rewrite ?E; reflexivity.
  - cbn. destruct g as [[] s sp]; try reflexivity. contradiction.
  - destruct Hf as [->|(k & l & a & r & Hk & Hl & Ha & Hr & ->)].
    + cbn [app]. destruct Hh as (u & e & abi & k & Hu & He & Hab & _ & ->).
      destruct Hu as [->|(i & _ & ->)], He as [->|(j & _ & ->)], Hab as [->|[x ->]]; cbn [app]; rewrite visible_cons; try (apply consume_path_ident; exact I); reflexivity.
    + cbn [app]. rewrite visible_cons. unfold consume_path. cbn [consume_colon2]. unfold loop_fuel. cbn [List.length path_loop]. app_norm. cbn [app].
      assert (La : rust_args a).
      { clear - Ha. induction Ha; [apply args_nil|apply args_one, arg_lifetime; auto|apply args_cons; auto; apply arg_lifetime; auto]. }
      destruct (args_read [] l a r (hd ++ TGroup g :: ret)) as [[ga E]|[N _]]; auto; [|congruence]. cbn [app] in E. rewrite E. cbn [bind].
      destruct Hh as (u & e & abi & k' & Hu & He & Hab & _ & ->).
      destruct Hu as [->|(i & _ & ->)], He as [->|(j & _ & ->)], Hab as [->|[x ->]]; reflexivity.
  - destruct Hk as (i & _ & ->). destruct ts as [|t r]; [congruence|]. cbn [app]. rewrite visible_cons. apply consume_path_ident.
    pose proof (bounds_head _ _ Hb) as B. destruct t as [| |p|]; auto. destruct B as [B|(s & pa & re & (p1 & p2 & M & _ & ->) & _ & _ & E)]; auto.
    exfalso. injection E as -> _. apply Hs. exists p1. auto.
  - assert (V : exists t u w, lead ++ ts ++ TPunct b :: r = t :: u :: w).
    { destruct (path_head _ _ H) as (i & w & ->). destruct Hl as [->|(p & q & _ & _ & ->)]; [destruct w|]; eexists _, _, _; reflexivity. }
    destruct V as (t & u & w & V). rewrite V, visible_cons, <- V.
    destruct (path_then anywhere lead ts (TPunct b :: r)) as (o & -> & N); auto; [split; apply (mark_not "!"); auto; discriminate|]. rewrite N by discriminate. reflexivity.
  - rewrite visible_cons. apply consume_path_ident. exact I.
Qed.
(** No type of the fragment makes it panic (an invisible group may contain anything, so it is excluded). *)
Theorem C76_total F ts : rust_type F ts -> (forall g, ts = [TGroup g] -> g_delim g <> NoDelim) -> exists o, as_path (mkTypeExpr ts) = Ret o.
Proof.
  intros H N. assert (V : visible_tokens (mkTypeExpr ts) = ts).
  { cbn. destruct ts as [|[[[] s sp]| | |] [|? ?]]; auto. exfalso. exact (N _ eq_refl eq_refl). }
  destruct H as [F ts H|F s ts _ H1 H2|F l q r s ts _ H _ _ _ _|F a l m ts H _ _ _|F a k ts H _ _|F g H|F p H|F fl hd g ret H1 H2 _ _|F k ts Hk H|F ts b g H Hb _].
  - rewrite as_path_visible, V. destruct (path_then F [] ts []) as (o & E & _); auto; [exact I|]. cbn in E. rewrite app_nil_r in E. eauto.
  - rewrite as_path_visible, V. destruct (path_then F s ts []) as (o & E & _); auto; [exact I|]. rewrite app_nil_r in E. eauto.
  - eexists. apply C76_others. apply (ot_mark "<"); auto. cbn; auto.
  - eexists. apply C76_others. apply (ot_mark "&"); auto. cbn; auto.
  - eexists. apply C76_others. apply (ot_mark "*"); auto. cbn; auto.
  - eexists. apply C76_others. apply ot_group. apply (N g); auto.
  - eexists. apply C76_others. apply (ot_mark "!"); auto. cbn; auto.
  - eexists. apply C76_others. apply ot_fn; auto. tauto.
  - destruct Hk as (i & _ & ->). pose proof (bounds_head _ _ H) as B. rewrite as_path_visible, V. destruct ts as [|t r]; [eexists; reflexivity|].
    destruct B as [B|(s & pa & re & Hs & Hp & Ha & E)].
    + eexists. cbn [app]. apply consume_path_ident. destruct t; auto.
    + rewrite E. cbn [app]. unfold consume_path. cbn [consume_colon2]. unfold loop_fuel. cbn [List.length path_loop].
      destruct (path_head _ _ Hp) as (j & w & Ep). assert (G : consume_generic_args (s ++ pa ++ re) = Ret (None, s ++ pa ++ re)) by (rewrite Ep; apply sep_no_args; auto).
      rewrite G. cbn [bind]. destruct (sep_cases s (pa ++ re) Hs) as [X|[p X]]; rewrite X.
      * destruct Hs as (p1 & p2 & _ & _ & ->). cbn. eauto.
      * assert (L : List.length (pa ++ re) < S (List.length (s ++ pa ++ re))) by (rewrite (app_length s); lia).
        destruct (path_total F pa Hp re (Some p) [mkPathSegment None i None] _ Ha L) as (o & E' & _).
        exists o. destruct Hs as (p1 & p2 & _ & _ & ->). exact E'.
  - rewrite as_path_visible, V. destruct (path_then F [] ts [TPunct b; TGroup g]) as (o & E & _); auto; [split; apply (mark_not "!"); auto; discriminate|]. eauto.
Qed.
(** ** The exception: a trait object or [impl] type of a global path is reported as a path *)
Theorem C76_object_of_global_path (k : ident) lead l ts : joined lead -> segments l ts ->
  exists p, as_path (mkTypeExpr (TIdent k :: lead ++ ts)) = Ret (Some p) /\ map view (pa_segments p) = (k, None) :: map classified l.
Proof.
  intros Hl H. destruct (C76_paths ((k, None) :: l) [] ([TIdent k] ++ lead ++ ts)) as (p & E & _ & V); auto.
  - apply ss_more; auto. apply sg_name.
  - exists p. auto.
Qed.
(** Full statement: [as_path] recognises a type of the fragment only if it is a path.  False. *)
Theorem C76_only_paths_refuted : ~ forall ts p, rust_type anywhere ts -> as_path (mkTypeExpr ts) = Ret (Some p) ->
  Forall (fun s => ~ In (id_str (ps_ident s)) ["dyn"; "impl"]) (pa_segments p).
Proof.
  intro H. pose (ts := lex "dyn ::std::Any"). vm_compute in ts. specialize (H ts).
  assert (T : rust_type anywhere ts).
  { subst ts. apply (ty_object _ [_]); [apply keyword_is; cbn; auto|]. apply bounds_one, (bound_trait _ [] [_; _] [_; _; _; _]); auto.
    - right. split; [reflexivity|]. apply separator_is; reflexivity.
    - apply (path_more _ [_] [_; _] [_]); [reflexivity|apply seg_name; names|apply separator_is; reflexivity|apply path_one, seg_name; names]. }
  set (o := as_path (mkTypeExpr ts)). assert (E : o = as_path (mkTypeExpr ts)) by reflexivity. vm_compute in o. subst o.
  match type of E with Ret (Some ?p) = _ => specialize (H p T (eq_sym E)) end. apply Forall_inv in H. apply H. cbn. auto.
Qed.
Example C76_example :
  segments [(mkIdent "std" 0%N, None); (mkIdent "Map" 5%N, Some [lex "'a"; lex "T"; lex "Out = u8"])]
    (TIdent (mkIdent "std" 0%N) :: [TPunct (mkPunct ":" Joint 3%N); TPunct (mkPunct ":" Alone 4%N)]
      ++ TIdent (mkIdent "Map" 5%N) :: TPunct (mkPunct "<" Alone 8%N) :: (lex "'a" ++ TPunct (mkPunct "," Alone 9%N) :: lex "T" ++ TPunct (mkPunct "," Alone 9%N) :: lex "Out = u8")
      ++ [TPunct (mkPunct ">" Alone 10%N)])
  /\ map arg_value [lex "'a"; lex "T"; lex "Out = u8"]
     = [GALifetime (mkLifetime (mkPunct "'" Joint 1%N) (mkIdent "a" 2%N)); GATypeOrConst (mkTypeExpr (lex "T"));
        GABinding (mkIdent "Out" 1%N) (mkPunct "=" Alone 5%N) (mkTypeExpr [TIdent (mkIdent "u8" 7%N)])].
Proof.
  split; [|vm_compute; reflexivity]. apply (ss_more _ _ [TIdent (mkIdent "std" 0%N)]).
  - apply sg_name.
  - exists (mkPunct ":" Joint 3%N), (mkPunct ":" Alone 4%N). repeat split.
  - apply ss_one, (sg_args _ []); auto; try reflexivity. apply li_cons; [|reflexivity|apply li_cons; [|reflexivity|apply li_one]].
    + apply arg_lifetime. vm_compute lex. life.
    + apply arg_type. vm_compute lex. apply type_name. names.
    + vm_compute lex. apply (arg_binding [_] _ [_]); [apply seg_name; names|reflexivity|apply type_name; names].
Qed.
Example C76_example_others : other_type (lex "&'a T") /\ other_type (lex "(A, B)") /\ other_type (lex "for<'a> fn(&'a u8) -> u8") /\ other_type (lex "dyn Send + 'a")
  /\ other_type (lex "a::m!(x)") /\ other_type (lex "Fn(A) -> B") /\ other_type (lex "<T as X>::Y") /\ other_type (lex "*const T") /\ other_type (lex "!").
Proof.
  repeat split; vm_compute lex.
  - apply (ot_mark "&"); [cbn; auto|reflexivity].
  - apply ot_group. discriminate.
  - apply (ot_fn [_; _; _; _; _] [_]); [right; life|apply fn_head; reflexivity].
  - apply (ot_object [_]); [apply keyword_is; cbn; auto| |discriminate|intros (p & E & _); discriminate].
    apply (bounds_cons _ [_] _ [_; _]); [apply (bound_trait _ [] [] [_]); auto; apply path_one, seg_name; names|reflexivity|apply bounds_one, bound_lifetime; life].
  - apply (ot_macro [] [_; _; _; _]); auto; [|reflexivity].
    apply (path_more _ [_] [_; _] [_]); [reflexivity|apply seg_name; names|apply separator_is; reflexivity|apply path_one, seg_name; names].
  - apply ot_call.
  - apply (ot_mark "<"); [cbn; auto|reflexivity].
  - apply (ot_mark "*"); [cbn; auto|reflexivity].
  - apply (ot_mark "!"); [cbn; auto|reflexivity].
Qed.

(** C87: what the crate does with Rust items outside of the restrictions of RustSyntax.v: it
    panics rather than returning another item. *)
From Verif Require Import RustAny Debug PrintSpells Complete3 Sound2 Stable Unfold Samples PropRoundTrip PropErr ScanSpec PropScan RustSyntax PropRust PropAny PropLimits PropPath.
Local Open Scope string_scope.
Local Open Scope list_scope.

(** ** Arrows *)
(** Tokens that no item and no part of an item goes on with: where a type has ended. *)
Definition not_end (t : tok) : bool := existsb (fun c => is_punct c t) [":"; "!"; "+"; ","; ">"]%char.
Definition starts_type (t : tok) : bool := negb (is_ident "where" t || is_punct ";" t || is_group Brace t).
Definition early (t : tok) (b : list tok) : Prop :=
  starts_type t = true /\ (is_group Parenthesis t = true -> b = [] \/ exists x r, b = x :: r /\ not_end x = true).
Definition arrow_in (ts : list tok) : Prop :=
  exists a d g t b, ts = a ++ TPunct d :: TPunct g :: t :: b /\ mark "-" d /\ mark ">" g /\ passes no_arrow a /\ early t b.
Definition soft (ts : list tok) : Prop := ts = [] \/ exists x r, ts = x :: r /\ not_end x = true.
Lemma arrow_app pre ts post : passes no_arrow pre -> arrow_in ts -> soft post -> arrow_in (pre ++ ts ++ post).
Proof.
  intros Hp (a & d & g & t & b & -> & Hd & Hg & Ha & Ht & Hb) Hs. exists (pre ++ a), d, g, t, (b ++ post).
  split; [rewrite <- !app_assoc; reflexivity|]. repeat split; auto using passes_app. intro E. destruct (Hb E) as [->|(x & r & -> & Hx)].
  - exact Hs.
  - right. exists x, (r ++ post). auto.
Qed.
Lemma arrow_pre pre ts : passes no_arrow pre -> arrow_in ts -> arrow_in (pre ++ ts).
Proof. intros. rewrite <- (app_nil_r ts). apply arrow_app; auto. left. reflexivity. Qed.
Lemma arrow_post ts post : arrow_in ts -> soft post -> arrow_in (ts ++ post).
Proof. intros. apply (arrow_app []); auto. apply passes_nil. Qed.

Lemma name_starts i : segment_name i -> starts_type (TIdent i) = true.
Proof.
  intro H. unfold starts_type. cbn. destruct (id_is "where" i) eqn:E; auto. exfalso. apply H. unfold id_is in E. apply String.eqb_eq in E. rewrite E. cbn; tauto.
Qed.
Lemma keyword_starts l ts : keyword_in l ts -> ~ In "where" l -> exists i, ts = [TIdent i] /\ starts_type (TIdent i) = true.
Proof.
  intros (i & H & ->) N. exists i. split; auto. unfold starts_type. cbn. destruct (id_is "where" i) eqn:E; auto. unfold id_is in E. apply String.eqb_eq in E. congruence.
Qed.
Lemma mark_starts c p : mark c p -> c <> ";"%char -> starts_type (TPunct p) = true.
Proof. intros E N. unfold starts_type. cbn. unfold p_is. red in E. rewrite E. apply Ascii.eqb_neq in N. rewrite N. reflexivity. Qed.
Definition opening (ts : list tok) : Prop := exists t b, ts = t :: b /\ starts_type t = true /\ is_group Parenthesis t = false.
Lemma segment_opening G ts : rust_segment G ts -> opening ts.
Proof. intros []; eexists _, _; repeat split; auto using name_starts. Qed.
Lemma opening_app a b : opening a -> opening (a ++ b).
Proof. intros (t & r & -> & H). exists t, (r ++ b). auto. Qed.
Lemma path_opening G ts : rust_path G ts -> opening ts.
Proof. intros []; eauto using opening_app, segment_opening. Qed.
Lemma fn_head_opening ts : fn_type_head ts -> opening ts.
Proof.
  intros (u & e & abi & k & Hu & He & Ha & Hk & ->).
  assert (K : opening [TIdent k]) by (exists (TIdent k), []; unfold starts_type; cbn; unfold id_is; red in Hk; rewrite Hk; auto).
  destruct Hu as [->|Hu].
  - cbn [app]. destruct He as [->|He].
    + cbn [app]. destruct Ha as [->|[l ->]]; [exact K|]. exists (TLit l), [TIdent k]. auto.
    + apply opening_app. apply keyword_starts in He; [|cbn; intuition discriminate]. destruct He as (i & -> & E). exists (TIdent i), []. auto.
  - apply opening_app. apply keyword_starts in Hu; [|cbn; intuition discriminate]. destruct Hu as (i & -> & E). exists (TIdent i), []. auto.
Qed.
Lemma type_start G ts : rust_type G ts -> exists t b, ts = t :: b /\ starts_type t = true /\ (is_group Parenthesis t = true -> b = []).
Proof.
  assert (Z : forall ts, opening ts -> exists t b, ts = t :: b /\ starts_type t = true /\ (is_group Parenthesis t = true -> b = [])).
  { intros l (t & b & -> & H1 & H2). exists t, b. repeat split; auto. congruence. }
  intros [].
  - apply Z. eapply path_opening; eauto.
  - destruct H0 as (p & q & Hp & Hq & ->). apply Z. exists (TPunct p), (TPunct q :: ts0). repeat split; auto. eapply mark_starts; eauto. discriminate.
  - apply Z. eexists _, _. repeat split; auto. eapply mark_starts; eauto. discriminate.
  - apply Z. eexists _, _. repeat split; auto. eapply mark_starts; eauto. discriminate.
  - apply Z. eexists _, _. repeat split; auto. eapply mark_starts; eauto. discriminate.
  - exists (TGroup g), []. repeat split; auto. unfold starts_type. cbn. destruct (g_delim g); auto; congruence.
  - apply Z. eexists _, _. repeat split; auto. eapply mark_starts; eauto. discriminate.
  - apply Z. destruct H as [->|[_ (k & l & a & r & Hk & Hl & Ha & Hr & ->)]].
    + apply (opening_app hd). apply fn_head_opening. auto.
    + eexists _, _. repeat split; auto. unfold starts_type. cbn. unfold id_is. red in Hk. rewrite Hk. reflexivity.
  - apply Z, opening_app. apply keyword_starts in H; [|cbn; intuition discriminate]. destruct H as (i & -> & E). exists (TIdent i), []. auto.
  - apply Z, opening_app. eapply path_opening; eauto.
Qed.

Lemma soft_mark c p r : mark c p -> In c [":"; "!"; "+"; ","; ">"]%char -> soft (TPunct p :: r).
Proof. intros E H. right. exists (TPunct p), r. split; auto. unfold not_end. apply existsb_exists. exists c. split; auto. apply mark_is; auto. Qed.

Lemma arrow_syntax :
  (forall G ts, rust_type G ts -> rust_type no_arrow ts \/ arrow_in ts) /\ (forall G ts, rust_return G ts -> rust_return no_arrow ts \/ arrow_in ts)
  /\ (forall ts, rust_self ts -> rust_self ts)
  /\ (forall G ts, rust_path G ts -> rust_path no_arrow ts \/ arrow_in ts) /\ (forall G ts, rust_segment G ts -> rust_segment no_arrow ts \/ arrow_in ts)
  /\ (forall ts, rust_args ts -> rust_args ts) /\ (forall ts, rust_arg ts -> rust_arg ts)
  /\ (forall G ts, rust_bounds G ts -> rust_bounds no_arrow ts \/ arrow_in ts) /\ (forall G ts, rust_bound G ts -> rust_bound no_arrow ts \/ arrow_in ts).
Proof.
  destruct rust_passes as (Pt & Pr & Ps & Pp & Pg & Pa & Par & Pbs & Pb).
  assert (Pk : forall l k, keyword_in l k -> ~ In "where" l -> ~ In "for" l -> passes no_arrow k) by (intros; eapply passes_keyword; eauto).
  apply rust_syntax_ind;
    try solve [econstructor; eauto]; try solve [intros; econstructor; eauto].
  - intros G ts _ [H|H]; auto. left. apply ty_path; auto.
  - intros G s ts _ Hs _ [H|H]; [left; apply ty_global; auto|right]. apply arrow_pre; auto. apply passes_sep; auto.
  - intros G l q r s ts _ Hl Hq _ Hr Hs _ [H|H]; [left; apply ty_qualified; auto|right].
    replace (TPunct l :: q ++ TPunct r :: s ++ ts) with ((TPunct l :: q ++ TPunct r :: s) ++ ts) by (cbn; rewrite <- app_assoc; reflexivity).
    apply arrow_pre; auto. apply passes_angle; auto. apply passes_sep; auto.
  - intros G a l m ts Ha Hl Hm _ [H|H]; [left; apply ty_reference; auto|right].
    replace (TPunct a :: l ++ m ++ ts) with ((TPunct a :: l ++ m) ++ ts) by (cbn; rewrite <- app_assoc; reflexivity).
    apply arrow_pre; auto. apply (passes_mark _ "&"); auto; [cbn; tauto|]. apply passes_app; [eapply passes_opt; [apply passes_lifetime|auto]|].
    eapply passes_opt; [|eassumption]. intros; eapply Pk; eauto; cbn; intuition discriminate.
  - intros G a k ts Ha Hk _ [H|H]; [left; apply ty_pointer; auto|right]. apply (arrow_pre (TPunct a :: k)); auto.
    apply (passes_mark _ "*"); auto; [cbn; tauto|]. eapply Pk; eauto; cbn; intuition discriminate.
  - intros; left; apply ty_group; auto.
  - intros; left; apply ty_never; auto.
  - intros G fl hd g ret Hf Hh Hg _ [H|H].
    + left. apply ty_fn; auto. destruct Hf as [->|[_ Hf]]; auto.
    + right. replace (fl ++ hd ++ TGroup g :: ret) with ((fl ++ hd ++ [TGroup g]) ++ ret) by (rewrite <- !app_assoc; reflexivity).
      apply arrow_pre; auto. apply passes_app; [destruct Hf as [->|[_ Hf]]; [apply passes_nil|apply passes_for; auto]|].
      apply passes_app; [apply passes_fn_head; auto|]. apply passes_group; [rewrite Hg; discriminate|apply passes_nil].
  - intros G k ts Hk _ [H|H]; [left; apply ty_object; auto|right]. apply arrow_pre; auto. eapply Pk; eauto; cbn; intuition discriminate.
  - intros G ts b g _ [H|H] Hb Hg; [left; apply ty_macro; auto|right]. apply arrow_post; auto. eapply soft_mark; eauto. cbn; tauto.
  - left. apply ret_none.
  - intros G d r ts _ Hd Hr Ht _. right. destruct (type_start _ _ Ht) as (t & b & -> & H1 & H2).
    exists [], d, r, t, b. repeat split; auto using passes_nil.
  - intros G s _ [H|H]; auto. left. apply path_one; auto.
  - intros G s c r _ _ [Hs|Hs] Hc _ [Hr|Hr].
    + left. apply path_more; auto.
    + right. replace (s ++ c ++ r) with ((s ++ c) ++ r) by (rewrite <- app_assoc; reflexivity). apply arrow_pre; auto. apply passes_app; auto. apply passes_sep; auto.
    + right. apply arrow_post; auto. destruct Hc as (p & q & Hp & Hq & ->). eapply soft_mark; eauto. cbn; tauto.
    + right. apply arrow_post; auto. destruct Hc as (p & q & Hp & Hq & ->). eapply soft_mark; eauto. cbn; tauto.
  - intros; left; apply seg_name; auto.
  - intros G i c l a r Hi Hc Hl Ha _ Hr. left. apply seg_args; auto. destruct Hc as [->|[_ Hc]]; auto.
  - intros G i g ret Hi Hg _ [H|H]; [left; apply seg_fn; auto|right]. apply (arrow_pre [TIdent i; TGroup g]); auto.
    apply passes_name; auto. apply passes_group; [rewrite Hg; discriminate|apply passes_nil].
  - left. apply bounds_nil.
  - intros G b _ [H|H]; auto. left. apply bounds_one; auto.
  - intros G b p r _ [Hb|Hb] Hp _ [Hr|Hr].
    + left. apply bounds_cons; auto.
    + right. replace (b ++ TPunct p :: r) with ((b ++ [TPunct p]) ++ r) by (rewrite <- app_assoc; reflexivity). apply arrow_pre; auto. apply passes_app; auto.
      apply (passes_mark _ "+"); auto; [cbn; tauto|apply passes_nil].
    + right. apply arrow_post; auto. eapply soft_mark; eauto. cbn; tauto.
    + right. apply arrow_post; auto. eapply soft_mark; eauto. cbn; tauto.
  - intros; left; apply bound_lifetime; auto.
  - intros G fl s ts Hf Hs _ [H|H].
    + left. apply bound_trait; auto; [destruct Hf as [->|[_ Hf]]; auto|destruct Hs as [->|[_ Hs]]; auto].
    + right. replace (fl ++ s ++ ts) with ((fl ++ s) ++ ts) by (rewrite <- app_assoc; reflexivity). apply arrow_pre; auto.
      apply passes_app; [destruct Hf as [->|[_ Hf]]; [apply passes_nil|apply passes_for; auto]|]. destruct Hs as [->|[_ Hs]]; [apply passes_nil|apply passes_sep; auto].
  - intros G q ts Hq _ [H|H]; [left; apply bound_maybe; auto|right]. apply (arrow_pre [TPunct q]); auto. apply (passes_mark _ "?"); auto; [cbn; tauto|apply passes_nil].
  - intros; left; apply bound_paren; auto.
Qed.
Definition type_arrow := proj1 arrow_syntax.
Definition bounds_arrow : forall G ts, rust_bounds G ts -> rust_bounds no_arrow ts \/ arrow_in ts := proj1 (proj2 (proj2 (proj2 (proj2 (proj2 (proj2 (proj2 arrow_syntax))))))).

(** A parameter with an arrow in its bound is cut in front of the ['>'] of the arrow. *)
Lemma dash_closed a d : passes no_arrow a -> mark "-" d -> run_closed end_param (a ++ [TPunct d]) = true.
Proof.
  intros Ha Hd. unfold run_closed. rewrite scan_app, (Ha end_param 0%Z) by (auto using compat_param; lia). cbn. unfold stops, opens, closes, end_param, next_depth, opens, closes. cbn.
  unfold p_is. red in Hd. rewrite Hd. reflexivity.
Qed.
Lemma param_cut p : any_generic_param p -> wf_generic_param true p = true
  \/ exists q g t b, wf_generic_param true q = true /\ print_generic_param p = print_generic_param q ++ TPunct g :: t :: b /\ mark ">" g /\ early t b.
Proof.
  assert (C : forall pre name bd, arrow_in (gb_tokens bd) -> mark ":" (gb_colon bd) ->
    (forall bd', wf_bound end_param bd' = true -> wf_generic_param true (mkGenericParam pre name (Some bd')) = true) ->
    exists q g t b, wf_generic_param true q = true /\ print_generic_param (mkGenericParam pre name (Some bd)) = print_generic_param q ++ TPunct g :: t :: b /\ mark ">" g /\ early t b).
  { intros pre name [c l] (a & d & g & t & b & E & Hd & Hg & Ha & He) Hc W. cbn in *. subst l.
    exists (mkGenericParam pre name (Some (mkBound c (a ++ [TPunct d])))), g, t, b. repeat split; try apply He; auto.
    - apply W. unfold wf_bound. cbn. rewrite (mark_is _ _ Hc), dash_closed; auto.
    - unfold print_generic_param, print_bound. cbn. rewrite <- !app_assoc. cbn. rewrite <- !app_assoc. reflexivity. }
  destruct p as [pre name bd]. unfold any_generic_param, wf_generic_param in *. cbn [gp_prefix gp_name gp_bound] in *.
  destruct pre as [[|k|q|]|]; try contradiction.
  - intros (H1 & H2 & b & -> & H3 & H4). destruct (type_arrow _ _ H4) as [N|N].
    + left. rewrite (word_is _ _ H1). cbn. unfold wf_bound. rewrite (mark_is _ _ H3). eapply passes_closed; eauto using type_passes, compat_param.
    + right. apply C; auto. intros bd' W. rewrite (word_is _ _ H1). exact W.
  - intros (H1 & H2 & H3). destruct bd as [b|]; [|left; rewrite (mark_is _ _ H1); reflexivity]. destruct H3 as [H3 H4]. destruct (bounds_arrow _ _ H4) as [N|N].
    + left. rewrite (mark_is _ _ H1). cbn. unfold wf_bound. rewrite (mark_is _ _ H3). eapply passes_closed; eauto using bounds_passes, compat_param.
    + right. apply C; auto. intros bd' W. rewrite (mark_is _ _ H1). exact W.
  - intros (H1 & H3). assert (K : negb (id_is "const" name) = true) by (rewrite (name_not "const" _ H1); [reflexivity|cbn; tauto]).
    destruct bd as [b|]; [|left; rewrite K; reflexivity]. destruct H3 as [H3 H4]. destruct (bounds_arrow _ _ H4) as [N|N].
    + left. rewrite K. cbn. unfold wf_bound. rewrite (mark_is _ _ H3). eapply passes_closed; eauto using bounds_passes, compat_param.
    + right. apply C; auto. intros bd' W. rewrite K. exact W.
Qed.
Lemma early_more t b r : early t b -> soft r -> r <> [] -> early t (b ++ r) /\ b ++ r <> [].
Proof.
  intros [H1 H2] Hr N. split; [split; auto|].
  - intro E. destruct (H2 E) as [->|(x & l & -> & Hx)]; [exact Hr|]. right. exists x, (l ++ r). auto.
  - intro E. apply app_eq_nil in E. tauto.
Qed.
Lemma print_inner_soft sk (x : generic_param) c l r : separated sk ((x, c) :: l) -> mark ">" r ->
  exists q, soft q /\ q <> [] /\ print_inner print_generic_param sk ((x, c) :: l) ++ [TPunct r] = print_generic_param x ++ q.
Proof.
  intros S Hr. destruct l as [|y l].
  - cbn [print_inner]. destruct sk.
    + exists [TPunct r]. repeat split; [eapply soft_mark; eauto; cbn; tauto|discriminate|]. rewrite app_nil_r. reflexivity.
    + exists [TPunct c; TPunct r]. cbn in S. repeat split; [eapply soft_mark; eauto; cbn; tauto|discriminate|]. rewrite <- app_assoc. reflexivity.
  - exists (TPunct c :: print_inner print_generic_param sk (y :: l) ++ [TPunct r]). destruct y as [y d]. cbn [separated] in S.
    repeat split; [destruct S; eapply soft_mark; eauto; cbn; tauto|discriminate|]. cbn [print_inner]. rewrite <- app_assoc. reflexivity.
Qed.
Lemma params_cut sk l r : separated sk l -> mark ">" r -> Forall (fun x => any_generic_param (fst x)) l ->
  Forall (fun x => wf_generic_param true (fst x) = true) l
  \/ exists l' g t b, l' <> [] /\ wf_inner wf_generic_param true l' = true
     /\ print_inner print_generic_param sk l ++ [TPunct r] = print_inner print_generic_param true l' ++ TPunct g :: t :: b /\ mark ">" g /\ early t b /\ b <> [].
Proof.
  intros S Hr. induction l as [|[x c] l IH]; intro F; [left; constructor|]. inversion F as [|? ? Fx Fl]; subst. cbn [fst] in Fx.
  destruct (param_cut x Fx) as [W|(q & g & t & b & W & E & Hg & He)].
  - destruct l as [|[y d] l]; [left; constructor; auto|]. assert (S' : separated sk ((y, d) :: l) /\ mark "," c) by (cbn [separated] in S |- *; tauto).
    destruct S' as [S' Hc]. destruct (IH S' Fl) as [N|(l' & g & t & b & N & W' & E & R)]; [left; constructor; auto|].
    right. exists ((x, c) :: l'), g, t, b. split; [discriminate|]. destruct l' as [|[z e] l']; [congruence|]. split; [|split; auto].
    + change (wf_generic_param true x && p_is "," c && wf_inner wf_generic_param true ((z, e) :: l') = true). rewrite W, W', (mark_is _ _ Hc). reflexivity.
    + change (print_inner print_generic_param sk ((x, c) :: (y, d) :: l)) with (print_generic_param x ++ TPunct c :: print_inner print_generic_param sk ((y, d) :: l)).
      change (print_inner print_generic_param true ((x, c) :: (z, e) :: l')) with (print_generic_param x ++ TPunct c :: print_inner print_generic_param true ((z, e) :: l')).
      rewrite <- !app_assoc. cbn [app]. rewrite E. reflexivity.
  - right. destruct (print_inner_soft _ _ _ _ _ S Hr) as (s & S1 & S2 & S3). destruct (early_more _ _ _ He S1 S2) as [He' Nb].
    exists [(q, punct_new "," Alone)], g, t, (b ++ s). split; [discriminate|]. split; [|split; [|auto]].
    + cbn. rewrite wf_generic_param_comma, W. reflexivity.
    + rewrite S3, E. cbn [print_inner]. rewrite app_nil_r, <- app_assoc. reflexivity.
Qed.
Lemma generics_cut g : any_generics g -> wf_generics g = true
  \/ exists g' t b, wf_generics g' = true /\ print_generic_params g = print_generic_params g' ++ t :: b /\ early t b /\ b <> [].
Proof.
  intros (H1 & [H2 H3] & H4). destruct g as [l [ps sk] r]. cbn [gpl_l gpl_params gpl_r pu_inner pu_skip_last] in *.
  destruct (params_cut _ _ _ H2 H4 H3) as [W|(l' & g & t & b & N & W & E & Hg & He & Nb)].
  - left. unfold wf_generics. cbn [gpl_l gpl_params gpl_r]. rewrite (mark_is _ _ H1), (mark_is _ _ H4).
    rewrite (list_wf (fun p => wf_generic_param true p = true)); [reflexivity| |split; auto]. intros b x Hx. rewrite wf_generic_param_comma. exact Hx.
  - right. exists (mkGenericParamList l (mkPunctuated l' true) g), t, b. repeat split; try apply He; auto.
    + unfold wf_generics. cbn [gpl_l gpl_params gpl_r]. rewrite (mark_is _ _ H1), (mark_is _ _ Hg). unfold wf_punctuated. cbn. rewrite W. reflexivity.
    + unfold print_generic_params, print_punctuated. cbn [gpl_l gpl_params gpl_r pu_inner pu_skip_last]. rewrite E, <- app_comm_cons, <- app_assoc. reflexivity.
Qed.

(** ** Lists of fields and parameters *)
Definition after_element (r : list tok) : Prop := r = [] \/ exists c r', r = TPunct c :: r' /\ mark "," c.
Lemma loop_all {A} (elem : parser A) (pr : A -> list tok) (X good : A -> Prop) :
  (forall x, X x -> pr x <> []) ->
  (forall x r y r', X x -> after_element r -> elem (pr x ++ r) = Ret (y, r') ->
     (good x /\ r' = r) \/ (r' <> [] /\ head_is (is_punct ",") r' = false /\ forall v, elem r' <> Ret v)) ->
  forall sk l fuel acc v, separated sk l -> Forall (fun x => X (fst x)) l ->
  punct_loop stop_at_end elem fuel acc (print_inner pr sk l) = Ret v -> Forall (fun x => good (fst x)) l.
Proof.
  intros Hne H sk l. induction l as [|[x c] l IH]; intros fuel acc v S F E; [constructor|].
  inversion F as [|? ? Fx Fl]; subst. cbn [fst] in Fx.
  assert (Z : exists r, after_element r /\ print_inner pr sk ((x, c) :: l) = pr x ++ r
              /\ (l <> [] -> r = TPunct c :: print_inner pr sk l /\ mark "," c)).
  { destruct l as [|y l].
    - exists (if sk then [] else [TPunct c]). cbn in S. split; [destruct sk; [left|right]; eauto|]. split; [reflexivity|congruence].
    - exists (TPunct c :: print_inner pr sk (y :: l)). destruct y as [y d]. cbn [separated] in S. destruct S as [S _].
      split; [right; eauto|]. split; [reflexivity|auto]. }
  destruct Z as (r & Hr & Ep & Hc). rewrite Ep in E. destruct fuel; [discriminate|]. cbn [punct_loop] in E.
  assert (N : stop_at_end (pr x ++ r) = Ret false) by (apply stop_at_end_app; auto). rewrite N in E. cbn [bind] in E.
  destruct (elem (pr x ++ r)) as [[y r']| |] eqn:Ee; try discriminate. cbn [bind] in E.
  destruct (H _ _ _ _ Fx Hr Ee) as [[G ->]|(G1 & G2 & G3)].
  - constructor; auto. destruct l as [|z l]; [constructor|]. destruct (Hc ltac:(discriminate)) as [-> Hm].
    unfold consume_comma in E. rewrite consume_punct_yes in E by (apply mark_is; auto). eapply IH; eauto. destruct z. cbn [separated] in S. tauto.
  - exfalso. unfold consume_comma in E. rewrite consume_punct_no in E by auto. destruct fuel; [discriminate|]. cbn [punct_loop] in E.
    destruct r' as [|t r']; [congruence|]. cbn [stop_at_end bind] in E. destruct (elem (t :: r')) as [p| |] eqn:Ex; try discriminate. eapply G3; eauto.
Qed.
Definition clean_field (f : tuple_field) : Prop :=
  tf_vis f = None -> ~ starts (fun t => exists i, t = TIdent i /\ id_str i = "crate") (te_tokens (tf_ty f)).
Lemma tuple_field_cases f : any_tuple_field f -> clean_field f -> rust_tuple_field f
  \/ exists i g, tf_vis f = Some (mkVis (TIdent i) None) /\ id_str i = "pub" /\ g_delim g = Parenthesis /\ te_tokens (tf_ty f) = [TGroup g].
Proof.
  intros (A & B & C) K. unfold rust_tuple_field. destruct (tf_vis f) as [[t1 t2]|] eqn:E; [|left; repeat split; auto].
  cbn [if_some vis_token1 vis_token2] in B |- *. destruct B as (i & B1 & B). cbn [vis_token1 vis_token2] in B1, B. subst t1. destruct t2 as [t2|]; [left; repeat split; auto; try congruence; exists i; auto|].
  destruct (String.eqb_spec (id_str i) "pub") as [P|P].
  - destruct (type_start _ _ C) as (t & b & Et & St & Sb). destruct (is_group Parenthesis t) eqn:G.
    + right. destruct t as [g| | |]; try discriminate. exists i, g. rewrite (Sb eq_refl) in Et. repeat split; auto. cbn in G. destruct (g_delim g); auto; discriminate.
    + left. repeat split; auto; [exists i; auto|]. intros _ _. rewrite Et. cbn. intros (g & -> & Gd). cbn in G. rewrite Gd in G. discriminate.
  - left. repeat split; auto; [exists i; auto|]. intros _ (i' & E' & P'). inversion E'; subst. congruence.
Qed.
Lemma spells_own_tuple f : spells_tuple_field f (print_tuple_field f).
Proof. exists (print_attributes (tf_attributes f)). split; auto using print_spells_attributes. Qed.
Lemma after_comma c r : mark "," c -> after_element (TPunct c :: r). Proof. right. eauto. Qed.
Lemma no_field_type r : after_element r -> forall v, consume_field_type r <> Ret v.
Proof.
  intros [->|(c & r' & -> & Hc)] v; [discriminate|]. unfold consume_field_type, consume_stuff_until. destruct c as [c s p]. red in Hc. cbn in Hc. subst c. discriminate.
Qed.
Lemma tuple_fields_good f v : any_fields (FTuple f) -> Forall (fun x => clean_field (fst x)) (pu_inner (tfs_fields f)) ->
  forall sp, parse_tuple_fields (mkGroup Parenthesis (print_punctuated print_tuple_field (tfs_fields f)) sp) = Ret v -> rust_fields (FTuple f).
Proof.
  intros [D [S F]] K sp E. split; auto. split; auto. unfold parse_tuple_fields in E. inv_bind E. destruct x as [ps rest]. cbn [g_stream] in Hx.
  assert (FK : Forall (fun x => any_tuple_field (fst x) /\ clean_field (fst x)) (pu_inner (tfs_fields f))).
  { clear -F K. induction F; inversion K; constructor; auto. }
  refine (loop_all parse_tuple_field print_tuple_field (fun f => any_tuple_field f /\ clean_field f) rust_tuple_field _ _ _ _ _ _ _ S FK Hx).
  - intros g [(_ & _ & T) _] N. unfold print_tuple_field in N. apply app_eq_nil in N. destruct N as [_ N]. apply app_eq_nil in N. destruct N as [_ N].
    destruct (type_start _ _ T) as (t & b & Et & _). unfold print_type in N. congruence.
  - intros g r y r' [A C] Hr Ee. left. destruct (tuple_field_cases _ A C) as [R|(i & h & V & P & Gd & T)].
    + split; auto. destruct (tuple_field_complete g _ (spells_own_tuple g)) as [T1 T2].
      destruct Hr as [->|(c & r0 & -> & Hc)].
      * rewrite app_nil_r, T2 in Ee by (apply tuple_field_wf; auto). congruence.
      * rewrite T1 in Ee by (try apply tuple_field_wf; auto using mark_is). congruence.
    + exfalso. destruct A as (A1 & A2 & A3). unfold print_tuple_field, parse_tuple_field in Ee. rewrite V in Ee. unfold print_type in Ee. rewrite T in Ee.
      rewrite <- app_assoc in Ee. cbn [print_opt print_vis print_tok vis_token1 vis_token2 app] in Ee.
      rewrite (outer_attributes_complete (tf_attributes g)) in Ee; auto using outer_wf, print_spells_attributes.
      cbn [bind consume_vis_marker] in Ee. unfold id_is in Ee. rewrite P in Ee. cbn in Ee. rewrite Gd in Ee. cbn in Ee.
      inv_bind Ee. destruct x. eapply no_field_type; eauto.
Qed.
Lemma param_cases p : any_param p -> rust_param p \/ exists a m s c ty, p = FPTyped (mkTyped a m s c ty) /\ rust_outer a /\ if_some (word "mut") m /\ word "self" s /\ mark ":" c.
Proof.
  destruct p as [r|[a m n c t]]; [auto|]. cbn. intros (A1 & A2 & [A3|A3] & A4 & A5); [left; tauto|right]. exists a, m, n, c, t. auto.
Qed.
Lemma spells_own_param p : spells_fn_param p (print_fn_param p).
Proof. destruct p as [r|t]; apply print_spells_fn_param. Qed.
Lemma params_good p v : rust_list any_param p -> parse_fn_params (print_punctuated print_fn_param p) = Ret v -> rust_list rust_param p.
Proof.
  intros [S F] E. split; auto. unfold parse_fn_params in E. inv_bind E. destruct x as [ps rest].
  refine (loop_all parse_fn_param print_fn_param any_param rust_param _ _ _ _ _ _ _ S F Hx).
  - intros g _. apply (fn_param_ne g), spells_own_param.
  - intros g r y r' A Hr Ee. destruct (param_cases _ A) as [R|(a & m & s & c & ty & -> & R1 & R2 & R3 & R4)].
    + left. split; auto. destruct Hr as [->|(c & r0 & -> & Hc)].
      * rewrite (fn_param_complete false g) in Ee; [congruence|apply param_wf; auto|apply spells_own_param|destruct g; cbn; auto].
      * rewrite (fn_param_complete true g) in Ee; [congruence|apply param_wf; auto|apply spells_own_param|destruct g; cbn; eauto using mark_is].
    + right. set (q := FPReceiver (mkReceiver a None None m s)).
      assert (Eq : print_fn_param (FPTyped (mkTyped a m s c ty)) ++ r = print_fn_param q ++ TPunct c :: te_tokens ty ++ r).
      { unfold q, print_fn_param, print_receiver, print_typed, print_type. cbn [fr_attributes fr_ref fr_lifetime fr_mut fr_self ft_attributes ft_mut ft_name ft_colon ft_ty print_opt].
        app_norm. cbn [app]. reflexivity. }
      rewrite Eq, (fn_param_complete true q) in Ee; [|apply param_wf; cbn; repeat split; auto|apply spells_own_param|exact I].
      inversion Ee; subst. repeat split; try discriminate.
      * cbn. unfold p_is. red in R4. rewrite R4. reflexivity.
      * intro w. destruct c as [c cs cp]. red in R4. cbn in R4. subst c. discriminate.
Qed.

(** ** Items *)
Definition clean_where (w : where_clause) : Prop := Forall (fun x => rust_left (wp_left (fst x))) (pu_inner (wc_items w)).
Definition clean_fields (f : fields) : Prop := match f with FTuple f => Forall (fun x => clean_field (fst x)) (pu_inner (tfs_fields f)) | _ => True end.
(** Items without nested items, where no left side of a where predicate has path separators
    (property C23) and no private tuple field has a type that starts with [crate] (C19). *)
Definition clean_item (i : item) : Prop :=
  match i with
  | IStruct s => if_some clean_where (st_where s) /\ clean_fields (st_fields s)
  | IEnum e => if_some clean_where (en_where e) /\ Forall (fun x => clean_fields (ev_fields (fst x))) (pu_inner (en_variants e))
  | IUnion u => if_some clean_where (un_where u)
  | IFunction f => if_some clean_where (fn_where f)
  | IModule _ | ITrait _ | IImpl _ | IExternBlock _ => False
  | _ => True
  end.
Lemma where_clean w : any_where w -> clean_where w -> rust_where w.
Proof.
  intros (A & B & C) K. split; auto. split; auto. unfold clean_where in K. rewrite Forall_forall in *. intros x Hx. destruct (C x Hx) as [_ D]. split; auto.
Qed.
Lemma where_clean_opt o : if_some any_where o -> if_some clean_where o -> if_some rust_where o.
Proof. destruct o; cbn; auto using where_clean. Qed.
Lemma generics_result o rest g ts : if_some any_generics o -> (o = None -> head_is (is_punct "<") rest = false) ->
  consume_generic_params (print_opt print_generic_params o ++ rest) = Ret (g, ts) ->
  (if_some rust_generics o /\ ts = rest) \/ exists t b, ts = t :: b ++ rest /\ early t b /\ b <> [].
Proof.
  intros A N E. destruct o as [o|].
  - cbn in A. destruct (generics_cut o A) as [W|(g' & t & b & W & Ep & He & Nb)].
    + left. rewrite generics_complete in E by auto. inversion E; subst. split; auto. apply generics_down; auto.
    + right. exists t, b. cbn [print_opt] in E. rewrite Ep, <- app_assoc in E. cbn [app] in E.
      change (print_generic_params g' ++ t :: b ++ rest) with (print_opt print_generic_params (Some g') ++ t :: b ++ rest) in E.
      rewrite generics_complete in E by (auto; discriminate). inversion E; subst. auto.
  - left. rewrite generics_complete in E; [|reflexivity|auto]. inversion E; subst. split; auto.
Qed.
Lemma early_where t b r v : early t b -> consume_where_clause (t :: r) = Ret v -> v = (None, t :: r).
Proof.
  intros [H _] E. unfold starts_type in H. apply negb_true_iff in H. apply orb_false_elim in H. destruct H as [H _]. apply orb_false_elim in H. destruct H as [H _].
  pose proof (where_complete None (t :: r) eq_refl H) as C. cbn [print_opt app] in C. congruence.
Qed.
Lemma not_ends x : not_end x = true -> is_ident "where" x = false /\ is_punct ";" x = false /\ is_punct "-" x = false /\ is_group Brace x = false.
Proof.
  unfold not_end. intro H. apply existsb_exists in H. destruct H as (c & I & H). destruct x as [| |p|]; try discriminate. cbn in H |- *. unfold p_is in *.
  apply Ascii.eqb_eq in H. rewrite H. clear H. cbn in I. intuition (subst; reflexivity).
Qed.
Lemma soft_where x r v : not_end x = true -> consume_where_clause (x :: r) = Ret v -> v = (None, x :: r).
Proof.
  intros H E. apply not_ends in H. destruct H as [H _].
  pose proof (where_complete None (x :: r) eq_refl H) as C. cbn [print_opt app] in C. congruence.
Qed.
Lemma early_paren t b : early t b -> b <> [] -> is_group Parenthesis t = true -> exists x r, b = x :: r /\ not_end x = true.
Proof. intros [_ H] N E. destruct (H E); [congruence|auto]. Qed.
Lemma starts_types t : starts_type t = true -> is_ident "where" t = false /\ is_punct ";" t = false /\ is_group Brace t = false.
Proof. unfold starts_type. intro H. apply negb_true_iff in H. repeat (apply orb_false_elim in H; destruct H as [H ?]). auto. Qed.

(** Every where clause is read to its end, if not as itself: a predicate with a path on the left
    is split at the first colon. *)
Lemma first_colon P ts : forall d dash e f, scan P d dash ts = Some (e, f) -> scan (is_punct ":") d dash ts = Some (e, f)
  \/ exists a c b f', ts = a ++ TPunct c :: b /\ mark ":" c /\ scan (is_punct ":") d dash a = Some (0%Z, f') /\ scan P 0 false b = Some (e, f).
Proof.
  induction ts as [|t r IH]; intros d dash e f E; [left; exact E|]. cbn [scan] in *. destruct (stops P d dash t) eqn:Sp; [discriminate|].
  destruct (stops (is_punct ":") d dash t) eqn:Sc.
  - right. unfold stops in *. apply andb_prop in Sc. destruct Sc as [Sc1 Sc2]. rewrite Sc1 in Sp. cbn [andb] in Sp. apply orb_false_elim in Sp. destruct Sp as [Sp _].
    rewrite Sp in Sc2. cbn [orb] in Sc2. apply andb_prop in Sc2. destruct Sc2 as [S1 S2]. destruct t as [| |c|]; try discriminate. cbn in S2.
    apply andb_prop in Sc1. destruct Sc1 as [S3 S4]. apply Z.eqb_eq in S3. subst d. exists [], c, r, dash. split; [reflexivity|]. split; [apply Ascii.eqb_eq; auto|]. split; [reflexivity|].
    unfold next_depth in E. apply negb_true_iff in S1. apply negb_true_iff in S4. rewrite Sp, S1, S4 in E. exact E.
  - destruct (IH _ _ _ _ E) as [H|(a & c & b & f' & -> & Hc & Ha & Hb)]; [left; exact H|right]. exists (t :: a), c, b, f'. repeat split; auto. cbn [scan]. rewrite Sc. exact Ha.
Qed.
Lemma scan_cons_colon P p r : p_is ":" p = true -> P (TPunct p) = false -> scan P 0 false (TPunct p :: r) = scan P 0 false r.
Proof.
  intros H N. cbn [scan]. unfold stops, next_depth, opens, closes, is_punct. unfold p_is in *. apply Ascii.eqb_eq in H. rewrite H. cbn. rewrite N. reflexivity.
Qed.
Lemma any_left_passes ts : any_left ts -> passes anywhere ts /\ headed ts.
Proof.
  intros [H|(fl & t & Hf & Ht & ->)].
  - split; [apply passes_lifetime; auto|]. destruct H as (q & i & Hq & _ & ->). apply (headed_mark "'"); auto. cbn; tauto.
  - split.
    + apply passes_app; [|apply type_passes; auto]. destruct Hf as [->|Hf]; [apply passes_nil|apply passes_for; auto].
    + destruct Hf as [->|(k & l & a & r & Hk & _ & _ & _ & ->)]; [eapply type_headed; eauto|]. red in Hk. apply headed_word. congruence.
Qed.
Lemma predicate_reads p : any_predicate p -> exists q, (forall b, wf_where_predicate b q = true) /\ print_where_predicate q = print_where_predicate p.
Proof.
  intros [L B]. destruct (any_left_passes _ L) as [Q Hd]. pose proof (Q end_where_item 0%Z ltac:(lia) (fun _ => compat_where_item _)) as Sc.
  pose proof (bound_wf _ _ _ (compat_where_item _) B) as Bw. assert (Bw' := Bw). unfold wf_bound in Bw'. apply andb_prop in Bw'. destruct Bw' as [Bc Br].
  assert (H : forall a, (exists x, wp_left p = a ++ x) -> head_is (is_group Brace) a = false /\ head_is (is_punct ";") a = false).
  { intros a [x Ex]. destruct a as [|t a]; [split; reflexivity|]. destruct Hd as (t' & r & E & G). rewrite E in Ex. inversion Ex; subst. cbn [head_is].
    unfold good_head in G. apply andb_prop in G. destruct G as [G G1]. apply andb_prop in G. destruct G as [_ G2]. split; apply negb_true_iff; auto. }
  destruct (first_colon _ _ _ _ _ _ Sc) as [S1|(a & c & b & f' & E & Hc & Ha & Hb)].
  - exists p. split; auto. intro b. unfold wf_where_predicate, run_closed. rewrite S1, Bw. destruct (H (wp_left p)) as [-> ->]; [exists []; rewrite app_nil_r; reflexivity|reflexivity].
  - exists (mkWherePredicate a (mkBound c (b ++ TPunct (gb_colon (wp_bound p)) :: gb_tokens (wp_bound p)))). split.
    + intro b'. unfold wf_where_predicate, wf_bound, run_closed. cbn [wp_left wp_bound gb_colon gb_tokens]. destruct (H a) as [-> ->]; [eauto|]. rewrite Ha, (mark_is _ _ Hc). cbn [andb negb Z.eqb]. unfold run_any. rewrite scan_app, Hb.
      rewrite scan_cons_colon; auto. unfold end_where_item, is_punct, is_group, p_is in *. apply Ascii.eqb_eq in Bc. rewrite Bc. reflexivity.
    + unfold print_where_predicate, print_bound. cbn [wp_left wp_bound gb_colon gb_tokens]. rewrite E, <- app_assoc. reflexivity.
Qed.
Lemma list_reads {A} (X Y : A -> Prop) (pr : A -> list tok) p : (forall x, X x -> exists y, Y y /\ pr y = pr x) -> rust_list X p ->
  exists q, rust_list Y q /\ print_punctuated pr q = print_punctuated pr p.
Proof.
  intros H [S F]. destruct p as [l sk]. cbn [pu_inner pu_skip_last] in *.
  assert (Z : exists l', separated sk l' /\ Forall (fun x => Y (fst x)) l' /\ print_inner pr sk l' = print_inner pr sk l /\ (l' = [] -> l = [])).
  { induction l as [|[x c] l IH]; [exists []; auto|]. inversion F as [|? ? Fx Fl]; subst. destruct (H _ Fx) as (y & Hy & Ey). cbn [fst] in Ey. destruct l as [|z l].
    - exists [(y, c)]. split; [exact S|]. split; [constructor; [exact Hy|constructor]|]. split; [cbn; rewrite Ey; reflexivity|discriminate].
    - destruct z as [z d]. cbn [separated] in S. destruct S as [Sc S]. destruct (IH S Fl) as (l' & L1 & L2 & L3 & L4). destruct l' as [|z' l']; [discriminate (L4 eq_refl)|].
      exists ((y, c) :: z' :: l'). destruct z' as [z' d']. split; [cbn [separated]; auto|]. split; [constructor; auto|]. split; [|discriminate].
      change (pr y ++ TPunct c :: print_inner pr sk ((z', d') :: l') = pr x ++ TPunct c :: print_inner pr sk ((z, d) :: l)). rewrite L3, Ey. reflexivity. }
  destruct Z as (l' & L1 & L2 & L3 & _). exists (mkPunctuated l' sk). repeat split; auto.
Qed.
Lemma where_same w : any_where w -> exists w', wf_where w' = true /\ print_where w' = print_where w.
Proof.
  intros [W L]. destruct (list_reads _ (fun q => forall b, wf_where_predicate b q = true) print_where_predicate _ predicate_reads L) as (q & Q & E).
  exists (mkWhereClause (wc_where w) q). split.
  - unfold wf_where. cbn [wc_where wc_items]. rewrite (word_is _ _ W), (list_wf _ _ _ (fun b x (H : forall b, wf_where_predicate b x = true) => H b) Q). reflexivity.
  - unfold print_where. cbn [wc_where wc_items]. rewrite E. reflexivity.
Qed.
Lemma where_same_opt o : if_some any_where o -> exists o', wf_opt wf_where o' = true /\ print_opt print_where o' = print_opt print_where o /\ (o' = None <-> o = None).
Proof.
  destruct o as [w|]; [|exists None; repeat split; auto]. intro W. destruct (where_same w W) as (w' & A & B). exists (Some w'). repeat split; auto; discriminate.
Qed.
Lemma where_reads o rest : if_some any_where o -> where_follow rest = true ->
  exists o', consume_where_clause (print_opt print_where o ++ rest) = Ret (o', rest).
Proof.
  intros W F. destruct (where_same_opt o W) as (o' & A & B & _). exists o'. rewrite <- B. apply where_complete; auto. destruct o'; auto.
  unfold where_follow in F. destruct rest as [|[] ?]; try discriminate; auto.
Qed.

(** Tokens that no item starts with. *)
Definition stuck (ts : list tok) : Prop := exists x r, ts = x :: r /\ not_end x = true.
Lemma struct_core s kw z v ts : any_struct s ->
  parse_struct (st_attributes s) (st_vis s) kw
    (TIdent (st_name s) :: print_opt print_generic_params (st_generics s)
     ++ match st_fields s with
        | FNamed _ => print_opt print_where (st_where s) ++ print_fields (st_fields s)
        | _ => print_fields (st_fields s) ++ print_opt print_where (st_where s) ++ print_opt print_punct (st_semicolon s)
        end ++ z) = Ret (v, ts) ->
  (if_some rust_generics (st_generics s)
   /\ match st_fields s with FTuple f => exists sp w, parse_tuple_fields (mkGroup Parenthesis (print_punctuated print_tuple_field (tfs_fields f)) sp) = Ret w | _ => True end)
  \/ stuck ts.
Proof.
  intros (A1 & A2 & A3 & A4 & A5 & A6 & A7) E. set (rest := match st_fields s with FNamed _ => _ | _ => _ end ++ z) in E.
  unfold parse_struct in E. cbn [consume_item_name parse_any_ident bind] in E. inv_bind E. destruct x as [g ts0].
  assert (N : st_generics s = None -> head_is (is_punct "<") rest = false).
  { intros _. unfold rest. destruct (st_fields s) as [|f|f].
    - cbn. destruct A7 as (p & -> & Hp). destruct (st_where s); cbn; auto. unfold p_is. red in Hp. rewrite Hp. reflexivity.
    - reflexivity.
    - destruct (st_where s); reflexivity. }
  destruct (generics_result _ _ _ _ A4 N Hx) as [[G ->]|(t & b & -> & He & Nb)].
  - left. split; auto. destruct (st_fields s) as [|f|f] eqn:Ef; auto.
    inv_bind E. destruct x as [w ts1]. unfold rest in Hx0. cbn [print_fields app] in Hx0.
    pose proof A6 as [D _]. unfold print_tuple_fields, quote_with in Hx0. cbn [app] in Hx0.
    assert (W : (w, ts1) = (None, rest)).
    { change (consume_where_clause rest = Ret (w, ts1)) in Hx0. pose proof (where_complete None rest eq_refl eq_refl) as C. cbn [print_opt app] in C. congruence. }
    inversion W; subst w ts1. clear W Hx0. unfold rest in E. cbn [print_fields print_tuple_fields quote_with app] in E.
    inv_bind E. clear E. cbn [g_delim] in Hx0. rewrite D in Hx0. cbn [delim_eqb] in Hx0. inv_bind Hx0. clear Hx0. eauto.
  - right. inv_bind E. destruct x as [w ts1]. apply (early_where t b) in Hx0; auto. inversion Hx0; subst w ts1. clear Hx0.
    inv_bind E. destruct x as [fs ts1]. destruct (starts_types t (proj1 He)) as (S1 & S2 & S3).
    destruct t as [h|i|p|l]; try discriminate.
    + cbn in S3. rewrite S3 in Hx0. destruct (delim_eqb (g_delim h) Parenthesis) eqn:Eh; [|discriminate]. inv_bind Hx0. inversion Hx0; subst fs ts1. clear Hx0.
      destruct (early_paren _ _ He Nb Eh) as (y & r & -> & Hy). cbn [app] in E. inv_bind E. destruct x0 as [w ts1].
      match goal with H : consume_where_clause _ = _ |- _ => apply soft_where in H; auto; inversion H; subst end.
      destruct (not_ends _ Hy) as (_ & Y2 & _). rewrite consume_punct_no in E by exact Y2. inversion E; subst. exists y, (r ++ rest). auto.
    + cbn in S2. rewrite S2 in Hx0. discriminate.
Qed.

Lemma struct_good s kw z v ts : any_struct s -> clean_item (IStruct s) ->
  parse_struct (st_attributes s) (st_vis s) kw
    (TIdent (st_name s) :: print_opt print_generic_params (st_generics s)
     ++ match st_fields s with
        | FNamed _ => print_opt print_where (st_where s) ++ print_fields (st_fields s)
        | _ => print_fields (st_fields s) ++ print_opt print_where (st_where s) ++ print_opt print_punct (st_semicolon s)
        end ++ z) = Ret (v, ts) -> rust_struct s \/ stuck ts.
Proof.
  intros A [K1 K2] E. destruct (struct_core _ _ _ _ _ A E) as [[G Q]|]; [left|auto]. destruct A as (A1 & A2 & A3 & A4 & A5 & A6 & A7).
  unfold rust_struct. repeat (split; auto using where_clean_opt). destruct (st_fields s) as [|f|f] eqn:Ef; auto. destruct Q as (sp & w & Q). eapply tuple_fields_good; eauto.
Qed.

Lemma variant_fields_good f vv r v : any_fields f -> clean_fields f -> parse_variant_fields (print_fields f ++ print_opt print_variant_value vv ++ r) = Ret v -> rust_fields f.
Proof.
  destruct f as [|f|f]; cbn [any_fields clean_fields]; auto. intros A K E. pose proof A as [D _].
  cbn [print_fields print_tuple_fields quote_with app] in E. unfold print_tuple_fields, quote_with in E. cbn [app parse_variant_fields g_delim] in E. rewrite D in E. cbn [delim_eqb] in E.
  inv_bind E. eapply tuple_fields_good; eauto.
Qed.
Lemma variants_good sk l : forall fuel acc v, separated sk l -> Forall (fun x => any_variant (fst x)) l -> Forall (fun x => clean_fields (ev_fields (fst x))) l ->
  enum_variants_loop fuel acc (print_inner print_variant sk l) = Ret v -> Forall (fun x => rust_variant (fst x)) l.
Proof.
  induction l as [|[x c] l IH]; intros fuel acc v S F K E; [constructor|].
  inversion F as [|? ? Fx Fl]; subst. inversion K as [|? ? Kx Kl]; subst. cbn [fst] in *.
  assert (Z : exists r, after_element r /\ print_inner print_variant sk ((x, c) :: l) = print_variant x ++ r
              /\ (l <> [] -> r = TPunct c :: print_inner print_variant sk l /\ mark "," c)).
  { destruct l as [|y l].
    - exists (if sk then [] else [TPunct c]). cbn in S. split; [destruct sk; [left|right]; eauto|]. split; [reflexivity|congruence].
    - exists (TPunct c :: print_inner print_variant sk (y :: l)). destruct y as [y d]. cbn [separated] in S. destruct S as [S _].
      split; [right; eauto|]. split; [reflexivity|auto]. }
  destruct Z as (r & Hr & Ep & Hc). rewrite Ep in E. destruct fuel; [discriminate|].
  assert (R : rust_variant x).
  { destruct Fx as (A1 & A2 & A3 & A4 & A5). unfold rust_variant. repeat (split; auto). clear -E A1 A2 A3 A4 Kx.
    unfold print_variant in E. rewrite <- !app_assoc in E. cbn [app] in E. rewrite <- !app_assoc in E.
    assert (V : id_in vis_keywords (ev_name x) = false) by (unfold vis_keywords, id_in; cbn; rewrite !(name_not _ _ A3) by (cbn; tauto); reflexivity).
    cbn [enum_variants_loop] in E.
    assert (Q : exists z, z = print_attributes (ev_attributes x) ++ print_opt print_vis (ev_vis x)
      ++ TIdent (ev_name x) :: print_fields (ev_fields x) ++ print_opt print_variant_value (ev_value x) ++ r) by eauto.
    destruct Q as [z Q]. rewrite <- Q in E. destruct z as [|t z].
    { symmetry in Q. apply app_eq_nil in Q. destruct Q as [_ Q]. apply app_eq_nil in Q. destruct Q as [_ Q]. discriminate. }
    rewrite Q in E. rewrite (attrs_vis_complete (ev_attributes x)) in E;
      [|apply outer_wf; auto|apply print_spells_attributes|eapply if_some_wf; [apply vis_wf|auto]|apply prefix_ok_ident; auto].
    cbn [bind] in E. rewrite vis_complete in E; [|eapply if_some_wf; [apply vis_wf|auto]|apply prefix_ok_ident; auto].
    cbn [parse_any_ident bind] in E. inv_bind E. eapply variant_fields_good; eauto. }
  constructor; auto. destruct l as [|y l]; [constructor|]. destruct (Hc ltac:(discriminate)) as [-> Hm].
  rewrite (variant_step x) in E.
  - unfold consume_comma in E. rewrite consume_punct_yes in E by (apply mark_is; auto). eapply IH; eauto. destruct y. cbn [separated] in S. tauto.
  - apply variant_wf; auto.
  - apply print_spells_variant.
  - cbn. left. apply mark_is; auto.
Qed.
Lemma enum_core e kw z v : any_enum e ->
  parse_enum (en_attributes e) (en_vis e) kw
    (TIdent (en_name e) :: print_opt print_generic_params (en_generics e) ++ print_opt print_where (en_where e)
     ++ quote_with (en_braces e) (print_punctuated print_variant (en_variants e)) ++ z) = Ret v -> if_some rust_generics (en_generics e) /\ exists w, parse_enum_variants (print_punctuated print_variant (en_variants e)) = Ret w.
Proof.
  intros (A1 & A2 & A3 & A4 & A5 & A6 & A7) E.
  unfold parse_enum in E. cbn [consume_item_name parse_any_ident bind] in E. inv_bind E. destruct x as [g ts].
  apply generics_result in Hx; auto; [|intros _; destruct (en_where e); reflexivity].
  destruct Hx as [[G ->]|(t & b & -> & He & Nb)].
  - match type of E with context [consume_where_clause (_ ++ ?r)] => destruct (where_reads _ r A5) as [o Eo] end.
    { unfold quote_with, where_follow; cbn; rewrite A6; reflexivity. }
    rewrite Eo in E. cbn [bind] in E. unfold quote_with in E. cbn [app g_delim delim_eqb] in E. rewrite A6 in E. cbn [delim_eqb g_stream] in E. inv_bind E. clear E. 
    eauto.
  - exfalso. inv_bind E. destruct x as [w ts]. apply (early_where t b) in Hx; auto. inversion Hx; subst w ts. clear Hx.
    destruct (starts_types t (proj1 He)) as (S1 & S2 & S3). destruct t; try discriminate. cbn in S3. rewrite S3 in E. discriminate.
Qed.
Lemma enum_good e kw z v : any_enum e -> clean_item (IEnum e) ->
  parse_enum (en_attributes e) (en_vis e) kw
    (TIdent (en_name e) :: print_opt print_generic_params (en_generics e) ++ print_opt print_where (en_where e)
     ++ quote_with (en_braces e) (print_punctuated print_variant (en_variants e)) ++ z) = Ret v -> rust_enum e.
Proof.
  intros A [K1 K2] E. destruct (enum_core _ _ _ _ A E) as (G & w & Q). destruct A as (A1 & A2 & A3 & A4 & A5 & A6 & A7). pose proof (where_clean_opt _ A5 K1) as W.
  unfold rust_enum. repeat (split; auto). apply A7. destruct A7 as [S F]. eapply variants_good; eauto.
Qed.
Lemma union_core u kw z v : any_union u ->
  parse_union (un_attributes u) (un_vis u) kw
    (TIdent (un_name u) :: print_opt print_generic_params (un_generics u) ++ print_opt print_where (un_where u)
     ++ print_named_fields (un_fields u) ++ z) = Ret v -> if_some rust_generics (un_generics u).
Proof.
  intros (A1 & A2 & A3 & A4 & A5 & A6) E.
  unfold parse_union in E. cbn [consume_item_name parse_any_ident bind] in E. inv_bind E. destruct x as [g ts].
  apply generics_result in Hx; auto; [|intros _; destruct (un_where u); reflexivity].
  destruct Hx as [[G ->]|(t & b & -> & He & Nb)].
  - auto.
  - exfalso. inv_bind E. destruct x as [w ts]. apply (early_where t b) in Hx; auto. inversion Hx; subst w ts. clear Hx.
    destruct (starts_types t (proj1 He)) as (S1 & S2 & S3). destruct t; try discriminate. cbn in S3. rewrite S3 in E. discriminate.
Qed.
Lemma union_good u kw z v : any_union u -> clean_item (IUnion u) ->
  parse_union (un_attributes u) (un_vis u) kw
    (TIdent (un_name u) :: print_opt print_generic_params (un_generics u) ++ print_opt print_where (un_where u)
     ++ print_named_fields (un_fields u) ++ z) = Ret v -> rust_union u.
Proof.
  intros A K E. pose proof (union_core _ _ _ _ A E) as G. destruct A as (A1 & A2 & A3 & A4 & A5 & A6). pose proof (where_clean_opt _ A5 K). unfold rust_union. repeat (split; auto).
Qed.
Lemma qualifiers_wf q : rust_qualifiers q -> wf_qualifiers q = true.
Proof.
  intros (Q1 & Q2 & Q3 & Q4 & Q5 & Q6). unfold wf_qualifiers.
  rewrite (if_some_wf _ _ _ (word_is _) Q1), (if_some_wf _ _ _ (word_is _) Q2), (if_some_wf _ _ _ (word_is _) Q3), (if_some_wf _ _ _ (word_is _) Q4), (if_some_wf _ _ _ (word_is _) Q5).
  destruct (fq_extern q); auto. rewrite Q6; auto.
Qed.
Lemma function_good f z v : any_function f -> clean_item (IFunction f) ->
  consume_fn (fn_attributes f) (fn_vis f)
   (print_qualifiers (fn_qualifiers_ f) ++ TIdent (fn_kw f) :: TIdent (fn_name f) :: print_opt print_generic_params (fn_generics f)
     ++ quote_with (fn_parens f) (print_punctuated print_fn_param (fn_params f))
     ++ print_opt print_punct2 (fn_arrow f) ++ print_opt print_type (fn_ret f)
     ++ print_opt print_where (fn_where f)
     ++ print_opt print_group (fn_body f) ++ print_opt print_punct (fn_semicolon f) ++ z) = Ret v -> rust_function f.
Proof.
  intros (A1 & A2 & A3 & A4 & A5 & A6 & A7 & A8 & A9 & A10) K E. pose proof (where_clean_opt _ A9 K) as W.
  unfold consume_fn in E. rewrite qualifiers_complete in E; [|apply qualifiers_wf; auto|red in A4; unfold id_in, id_is; rewrite A4; reflexivity].
  unfold classify_fn in E. rewrite (word_is _ _ A4) in E. cbn [bind consume_item_name parse_any_ident] in E.
  inv_bind E. destruct x as [g ts]. apply generics_result in Hx; auto.
  destruct Hx as [[G ->]|(t & b & -> & He & Nb)].
  - unfold quote_with in E. cbn [app parse_fn_parens g_delim g_stream] in E. rewrite A6 in E. cbn [delim_eqb] in E. inv_bind E. clear E. inv_bind Hx. clear Hx.
    apply params_good in Hx0; auto. unfold rust_function. repeat (split; auto).
  - exfalso. inv_bind E. destruct x as [ps ts]. destruct t as [h|i|p|l]; try discriminate. cbn [parse_fn_parens] in Hx. destruct (delim_eqb (g_delim h) Parenthesis) eqn:Eh; [|discriminate].
    inv_bind Hx. inversion Hx; subst. clear Hx. destruct (early_paren _ _ He Nb Eh) as (y & r & -> & Hy). destruct (not_ends _ Hy) as (Y1 & Y2 & Y3 & Y4).
    cbn [app] in E. unfold consume_fn_return in E. rewrite consume_punct_no in E by exact Y3. cbn [bind] in E.
    inv_bind E. destruct x0 as [w ts]. match goal with H : consume_where_clause _ = _ |- _ => apply soft_where in H; auto; inversion H; subst end.
    destruct y as [h'|i'|p'|l']; try discriminate; cbn in Y2, Y4; cbn [parse_fn_body bind] in E; rewrite ?Y2, ?Y4 in E; discriminate.
Qed.
Lemma constant_good k v : any_constant true k ->
  parse_const_or_static (co_attributes k) (co_vis k)
    (TIdent (co_kw k) :: print_opt print_ident (co_mut k) ++ TIdent (co_name k) :: TPunct (co_colon k) :: print_type (co_ty k)
     ++ print_opt print_punct (co_equals k) ++ print_opt print_value (co_init k) ++ [TPunct (co_semicolon k)]) = Ret (v, []) -> rust_constant true k.
Proof.
  intros (A1 & A2 & A3 & A4 & A5 & A6 & A7 & A8) E. unfold parse_const_or_static in E.
  inv_bind E. destruct x as [[kw c] ts].
  assert (ts = print_opt print_ident (co_mut k) ++ TIdent (co_name k) :: TPunct (co_colon k) :: print_type (co_ty k)
     ++ print_opt print_punct (co_equals k) ++ print_opt print_value (co_init k) ++ [TPunct (co_semicolon k)]).
  { destruct (id_is "const" (co_kw k)); [inversion Hx; auto|]. destruct (id_is "static" (co_kw k)); inversion Hx; auto. }
  subst ts. clear Hx. destruct (co_mut k) as [m|] eqn:Em.
  { exfalso. cbn [print_opt print_ident app] in E. inv_bind E. cbn [parse_any_ident bind] in E. discriminate. }
  assert (Kw : word "const" (co_kw k) \/ word "static" (co_kw k)) by tauto.
  unfold rust_constant. repeat (split; auto). destruct A3 as [[A3 _]|(A3 & A3' & _)]; auto.
  destruct (co_equals k) as [e|], (co_init k) as [[w]|]; auto. cbn [ve_tokens] in *. destruct A7 as [He Hv]. split; auto.
  cbn [print_opt print_ident app] in E. inv_bind E. clear Hx. cbn [parse_any_ident bind] in E. unfold parse_punct at 1 in E. cbn [consume_punct] in E. rewrite (mark_is _ _ A5) in E. cbn [bind] in E.
  rewrite (until_term end_eq_or_semi true (te_tokens (co_ty k))) in E.
  2: exact (passes_closed _ _ _ (type_passes _ _ A6) (compat_const_ty _)).
  2: { cbn. unfold term, end_eq_or_semi, opens. cbn. unfold p_is. red in He. rewrite He. reflexivity. }
  cbn [bind print_punct app] in E. rewrite consume_punct_yes in E by (apply mark_is; auto). cbn [print_value ve_tokens] in E. inv_bind E. destruct x0 as [out ts].
  apply until_sound_term in Hx. destruct Hx as (U1 & _ & U2). inv_bind E. destruct x0 as [q ts']. inversion E; subst.
  unfold parse_punct, consume_punct in Hx. destruct ts as [|t r]; [discriminate|]. destruct U2 as (U2 & _ & U3). destruct t as [| |q'|]; try discriminate. destruct (p_is ";" q'); [|discriminate]. inversion Hx; subst.
  apply app_inj_tail in U1. destruct U1 as [-> _]. split; auto. apply closed_matched. exact U2.
Qed.
(** The value of a constant has matching angle brackets. *)
Definition calm_constant (k : constant) : Prop := match co_init k with Some v => matched false (ve_tokens v) | None => True end.
Lemma constant_on st k z v : any_constant st k -> calm_constant k ->
  parse_const_or_static (co_attributes k) (co_vis k)
    (TIdent (co_kw k) :: print_opt print_ident (co_mut k) ++ TIdent (co_name k) :: TPunct (co_colon k) :: print_type (co_ty k)
     ++ print_opt print_punct (co_equals k) ++ print_opt print_value (co_init k) ++ TPunct (co_semicolon k) :: z) = Ret v -> rust_constant st k.
Proof.
  intros (A1 & A2 & A3 & A4 & A5 & A6 & A7 & A8) L E. unfold parse_const_or_static in E.
  inv_bind E. destruct x as [[kw c] ts]. destruct (co_mut k) as [m|] eqn:Em.
  { exfalso. assert (ts = TIdent m :: TIdent (co_name k) :: TPunct (co_colon k) :: print_type (co_ty k)
     ++ print_opt print_punct (co_equals k) ++ print_opt print_value (co_init k) ++ TPunct (co_semicolon k) :: z).
    { destruct (id_is "const" (co_kw k)); [inversion Hx; auto|]. destruct (id_is "static" (co_kw k)); inversion Hx; auto. }
    subst ts. clear Hx. inv_bind E. cbn [parse_any_ident bind] in E. discriminate. }
  unfold rust_constant. repeat (split; auto). { tauto. }
  unfold calm_constant in L. destruct (co_equals k) as [e|], (co_init k) as [w|]; auto. destruct A7 as [He Hv]. split; auto. split; auto.
Qed.
Lemma macro_good m z v : any_macro m ->
  consume_macro (ma_attributes m) (TIdent (ma_name m) :: TPunct (ma_bang m) :: print_opt print_ident (ma_declared m) ++ quote_with (ma_group m) (ma_inner m)
   ++ print_opt print_punct (ma_semicolon m) ++ z) = Ret v -> rust_macro m.
Proof.
  intros (A1 & A2 & A3 & A4 & A5) E. unfold rust_macro. repeat (split; auto). destruct (ma_semicolon m); auto. destruct A5 as [A5 [A6|A6]]; [split; auto|exfalso].
  unfold consume_macro, consume_macro_inner in E. cbn [consume_any_ident] in E. rewrite consume_punct_yes in E by (apply mark_is; auto).
  destruct (ma_declared m); cbn in E; rewrite A6 in E; discriminate.
Qed.
Lemma no_keyword i k : word k i -> In k ["struct"; "enum"; "union"; "static"] -> id_in vis_keywords i = false.
Proof. intros W H. red in W. unfold vis_keywords, id_in, id_is. cbn in *. rewrite W. clear W. intuition (subst; reflexivity). Qed.
Lemma qualifiers_head q kw r : rust_qualifiers q -> word "fn" kw ->
  exists i r', print_qualifiers q ++ TIdent kw :: r = TIdent i :: r' /\ id_in ["default"; "const"; "async"; "unsafe"; "extern"; "fn"] i = true.
Proof.
  intros (Q1 & Q2 & Q3 & Q4 & Q5 & Q6) K. unfold print_qualifiers. destruct q as [d c a u e b]. cbn [fq_default fq_const fq_async fq_unsafe fq_extern fq_abi] in *.
  assert (Z : forall s i, word s i -> In s ["default"; "const"; "async"; "unsafe"; "extern"; "fn"] -> id_in ["default"; "const"; "async"; "unsafe"; "extern"; "fn"] i = true).
  { intros s i W H. red in W. unfold id_in, id_is. cbn in *. rewrite W. clear W. intuition (subst; reflexivity). }
  destruct d; cbn in *; [eexists _, _; split; [reflexivity|eapply Z; eauto; cbn; tauto]|].
  destruct c; cbn in *; [eexists _, _; split; [reflexivity|eapply Z; eauto; cbn; tauto]|].
  destruct a; cbn in *; [eexists _, _; split; [reflexivity|eapply Z; eauto; cbn; tauto]|].
  destruct u; cbn in *; [eexists _, _; split; [reflexivity|eapply Z; eauto; cbn; tauto]|].
  destruct e; cbn in *; [eexists _, _; split; [reflexivity|eapply Z; eauto; cbn; tauto]|].
  rewrite (Q6 eq_refl). cbn. eexists _, _; split; [reflexivity|eapply Z; eauto; cbn; tauto].
Qed.
Definition calm_item (i : item) : Prop := match i with IConstant k => calm_constant k | _ => True end.
Lemma constant_head k z r ts : any_constant true k -> consume_item (print_constant k ++ z) = Ret (r, ts) ->
  exists v, parse_const_or_static (co_attributes k) (co_vis k)
      (TIdent (co_kw k) :: print_opt print_ident (co_mut k) ++ TIdent (co_name k) :: TPunct (co_colon k) :: print_type (co_ty k)
       ++ print_opt print_punct (co_equals k) ++ print_opt print_value (co_init k) ++ TPunct (co_semicolon k) :: z) = Ret (v, ts).
Proof.
  intros A Hx. rewrite consume_item_unfold in Hx. pose proof A as (A1 & A2 & A3 & A4 & _). unfold print_constant in Hx. revert Hx; app_norm; intro Hx.
  destruct A3 as [[Kw Km]|(_ & Kw & Km)].
  + rewrite Km in *. cbn [print_opt app] in *.
      rewrite (item_head_either _ _ (co_attributes k)) in Hx; [|apply outer_wf; auto|apply print_spells_attributes|eapply if_some_wf; [apply vis_wf|auto]|red in Kw; unfold id_in, id_is; rewrite Kw; reflexivity].
      unfold wrap in Hx. inv_bind Hx. destruct x as [i ts']. inversion Hx; subst. clear Hx. unfold consume_either in Hx0.
      assert (T : id_is "type" (co_kw k) = false /\ fn_like_keyword (co_kw k) = true) by (red in Kw; unfold fn_like_keyword, id_is; rewrite Kw; auto).
      destruct T as [T1 T2]. rewrite T1, T2 in Hx0. inv_bind Hx0. destruct x as [q ts'].
      assert (Q : (q, ts') = (Err NFConst, TIdent (co_kw k) :: TIdent (co_name k) :: TPunct (co_colon k) :: print_type (co_ty k)
       ++ print_opt print_punct (co_equals k) ++ print_opt print_value (co_init k) ++ TPunct (co_semicolon k) :: z)).
      { assert (N : forall w, In w (reserved ++ ["crate"; "self"; "Self"; "super"]) -> id_is w (co_name k) = false) by (intros; apply name_not; auto).
        clear -Hx N Kw. destruct (co_kw k) as [w sp]. red in Kw. cbn in Kw. subst. unfold consume_fn, consume_fn_qualifiers, consume_ident in Hx. cbn in Hx.
        rewrite !N in Hx by (cbn; tauto). cbn in Hx. unfold classify_fn in Hx. rewrite !N in Hx by (cbn; tauto). cbn in Hx. congruence. }
      inversion Q; subst. inv_bind Hx0. destruct x as [c ts']. inversion Hx0; subst. eauto.
  + rewrite (item_head _ _ (co_attributes k)) in Hx; [|apply outer_wf; auto|apply print_spells_attributes|eapply if_some_wf; [apply vis_wf|auto]|eapply no_keyword; eauto; cbn; tauto].
      cbn zeta in Hx. destruct (co_kw k) as [w sp]. red in Kw. cbn in Kw. subst. cbn -[parse_const_or_static] in Hx. unfold wrap in Hx. inv_bind Hx. destruct x as [c ts']. inversion Hx; subst. eauto.
Qed.
(** Whatever follows an item, if it is parsed then it is of the fragment, or the parser
    stops where no item starts. *)
Lemma read_on i z r ts : any_item i -> clean_item i -> calm_item i -> consume_item (print_item i ++ z) = Ret (r, ts) -> rust_item i \/ stuck ts.
Proof.
  intros A K L Hx. rewrite consume_item_unfold in Hx.
  destruct i as [s|e|u|m|t|im|ta|f|k|us|mc|eb|ec]; cbn [any_item clean_item calm_item rust_item print_item] in *; auto; try contradiction.
  - pose proof A as (A1 & A2 & A3 & _). unfold print_struct in Hx. revert Hx; app_norm; intro Hx.
    rewrite (item_head _ _ (st_attributes s)) in Hx; [|apply outer_wf; auto|apply print_spells_attributes|eapply if_some_wf; [apply vis_wf|auto]|eapply no_keyword; eauto; cbn; tauto].
    cbn zeta in Hx. rewrite (word_is _ _ A3) in Hx. unfold wrap in Hx. inv_bind Hx. destruct x as [v ts']. inversion Hx; subst. eapply struct_good; eauto.
  - pose proof A as (A1 & A2 & A3 & _). unfold print_enum in Hx. revert Hx; app_norm; intro Hx.
    rewrite (item_head _ _ (en_attributes e)) in Hx; [|apply outer_wf; auto|apply print_spells_attributes|eapply if_some_wf; [apply vis_wf|auto]|eapply no_keyword; eauto; cbn; tauto].
    cbn zeta in Hx. rewrite (word_is _ _ A3) in Hx. replace (id_is "struct" (en_enum e)) with false in Hx by (red in A3; unfold id_is; rewrite A3; reflexivity).
    inv_bind Hx. left. eapply enum_good; eauto.
  - pose proof A as (A1 & A2 & A3 & _). unfold print_union in Hx. revert Hx; app_norm; intro Hx.
    rewrite (item_head _ _ (un_attributes u)) in Hx; [|apply outer_wf; auto|apply print_spells_attributes|eapply if_some_wf; [apply vis_wf|auto]|eapply no_keyword; eauto; cbn; tauto].
    cbn zeta in Hx. rewrite (word_is _ _ A3) in Hx. replace (id_is "struct" (un_union u)) with false in Hx by (red in A3; unfold id_is; rewrite A3; reflexivity).
    replace (id_is "enum" (un_union u)) with false in Hx by (red in A3; unfold id_is; rewrite A3; reflexivity).
    unfold wrap in Hx. inv_bind Hx. left. eapply union_good; eauto.
  - pose proof A as (A1 & A2 & A3 & A4 & _). unfold print_function in Hx. revert Hx; app_norm; intro Hx.
    match type of Hx with context [print_qualifiers _ ++ TIdent _ :: ?z] => destruct (qualifiers_head _ (fn_kw f) z A3 A4) as (i & l & Eq & Hi) end.
    rewrite Eq in Hx.
    rewrite (item_head_either _ _ (fn_attributes f)) in Hx; [|apply outer_wf; auto|apply print_spells_attributes|eapply if_some_wf; [apply vis_wf|auto]|].
    2: { clear -Hi. unfold id_in, id_is in *. cbn in *. repeat match type of Hi with context [String.eqb ?a ?b] => destruct (String.eqb_spec a b) as [Q|_]; cbn in Hi; [rewrite ?Q; auto|] end. discriminate. }
    unfold wrap in Hx. inv_bind Hx. clear Hx. unfold consume_either in Hx0.
    assert (T : id_is "type" i = false /\ fn_like_keyword i = true).
    { clear -Hi. unfold id_in, fn_like_keyword, id_is in *. cbn in Hi. repeat match type of Hi with context [String.eqb ?a ?b] => destruct (String.eqb_spec a b) as [Q|_]; cbn in Hi; [rewrite ?Q; auto|] end. discriminate. }
    destruct T as [T1 T2]. rewrite T1, T2, <- Eq in Hx0. inv_bind Hx0. left. eapply function_good; eauto.
  - rewrite <- consume_item_unfold in Hx. apply constant_head in Hx; auto. destruct Hx as [v P]. left. eapply constant_on; eauto.
  - pose proof A as (A1 & A2 & A3 & _). unfold print_macro in Hx. revert Hx; app_norm; intro Hx.
    change (print_attributes (ma_attributes mc) ++ TIdent (ma_name mc) :: ?z) with (print_attributes (ma_attributes mc) ++ print_opt print_vis None ++ TIdent (ma_name mc) :: z) in Hx.
    assert (N : forall w, In w (reserved ++ ["crate"; "self"; "Self"; "super"]) -> id_is w (ma_name mc) = false) by (intros; apply name_not; auto).
    assert (N2 : forall w, In w ["union"; "default"] -> id_is w (ma_name mc) = false).
    { intros w Hw. unfold id_is. destruct (String.eqb_spec (id_str (ma_name mc)) w); auto. subst. tauto. }
    rewrite (item_head _ _ (ma_attributes mc)) in Hx; [|apply outer_wf; auto|apply print_spells_attributes|reflexivity|unfold vis_keywords, id_in; cbn; rewrite !N by (cbn; tauto); reflexivity].
    cbn zeta in Hx. unfold either_keyword in Hx. rewrite (N2 "union"), (N2 "default") in Hx by (cbn; tauto). rewrite !N in Hx by (cbn; tauto). cbn [orb] in Hx. unfold wrap in Hx. inv_bind Hx. clear Hx. unfold parse_item_macro in Hx0. inv_bind Hx0.
    left. eapply macro_good; eauto.
Qed.

Lemma read_back i r : any_item i -> clean_item i -> parse_item (print_item i) = Ret r -> rust_item i.
Proof.
  intros A K E. unfold parse_item in E. inv_bind E. destruct x as [d rest]. destruct rest; [|discriminate]. clear E r.
  rewrite <- (app_nil_r (print_item i)) in Hx. destruct i as [s|e|u|m|t|im|ta|f|k|us|mc|eb|ec].
  9: { apply constant_head in Hx; auto. destruct Hx as [v P]. eapply constant_good; eauto. }
  all: destruct (read_on _ _ _ _ A K I Hx) as [H|(x & q & H & _)]; [exact H|discriminate].
Qed.

(** ** C87 *)
(** A clean item of the relaxed grammar that is parsed at all is read as itself. *)
Theorem C87_never_misread (i : item) (r : result item error) : any_item i -> clean_item i -> parse_item (print_item i) = Ret r -> r = Ok i.
Proof. intros A K E. pose proof (read_back _ _ A K E) as R. apply C86_exactly in R; auto. congruence. Qed.
(** So it is parsed exactly if it is in the fragment, and otherwise the parser panics. *)
Theorem C87_exact_or_panic (i : item) : any_item i -> clean_item i ->
  (rust_item i /\ parse_item (print_item i) = Ret (Ok i)) \/ (~ rust_item i /\ exists p, parse_item (print_item i) = Panic p).
Proof.
  intros A K. destruct (parse_item (print_item i)) as [r|p|] eqn:E.
  - left. split; [eapply read_back; eauto|]. rewrite (C87_never_misread i r A K E). reflexivity.
  - right. split; eauto. intro R. apply C86_exactly in R; auto. congruence.
  - exfalso. exact (proj1 (proj2 (C09_terminates (print_item i))) E).
Qed.
(** Without the condition on where clauses and tuple fields, or for an impl block, it is false:
    these items are parsed without a panic, as other items. *)
Theorem C87_clean_refuted : forall n, In n [1%nat; 2%nat; 3%nat] -> exists i j, nth_error unrestricted n = Some i /\ any_item i
  /\ parse_item (print_item i) = Ret (Ok j) /\ i <> j.
Proof.
  intros n H. assert (E : exists i, nth_error unrestricted n = Some i) by (cbn in H; intuition (subst; eexists; reflexivity)).
  destruct E as [i E]. assert (A : any_item i) by (pose proof unrestricted_any as A; rewrite Forall_forall in A; apply A; eapply nth_error_In; eauto).
  cbn in H. decompose [or] H; subst; try contradiction; injection E as <-; eexists _, _; (split; [reflexivity|split; [exact A|split; [vm_compute; reflexivity|]]]);
    clear; vm_compute; discriminate.
Qed.
(** The fragment itself has only clean items, apart from items with nested items. *)
Lemma clean_where_rust o : if_some rust_where o -> if_some clean_where o.
Proof. destruct o as [w|]; cbn; auto. intros (_ & _ & H). eapply Forall_impl; [|exact H]. intros a Ha. apply Ha. Qed.
Lemma clean_fields_rust f : rust_fields f -> clean_fields f.
Proof.
  destruct f as [|f|f]; cbn; auto. intros (_ & _ & H). eapply Forall_impl; [|exact H]. intros a (_ & _ & _ & Ha) E. cbv beta in Ha. rewrite E in Ha. exact Ha.
Qed.
Definition flat_item (i : item) : Prop := match i with IModule _ | ITrait _ | IImpl _ | IExternBlock _ => False | _ => True end.
Theorem C87_fragment_clean (i : item) : rust_item i -> flat_item i -> clean_item i.
Proof.
  destruct i; cbn [rust_item flat_item clean_item]; auto.
  - intros (A1 & A2 & A3 & A4 & A5 & A6 & A7) _. auto using clean_where_rust, clean_fields_rust.
  - intros (A1 & A2 & A3 & A4 & A5 & A6 & A7) _. split; [auto using clean_where_rust|]. destruct A7 as [_ H]. eapply Forall_impl; [|exact H]. intros a (_ & _ & _ & Ha & _). auto using clean_fields_rust.
  - intros (A1 & A2 & A3 & A4 & A5 & A6) _. auto using clean_where_rust.
  - intros (A1 & A2 & A3 & A4 & A5 & A6 & A7 & A8 & A9 & A10) _. auto using clean_where_rust.
Qed.
(** The other items outside the fragment are clean. *)
Example C87_example : Forall (fun n => exists i, nth_error unrestricted n = Some i /\ any_item i /\ clean_item i /\ ~ rust_item i) [0; 4; 5; 6; 7; 8]%nat
  /\ any_item (item_of pair_text) /\ clean_item (item_of pair_text).
Proof.
  split.
  - pose proof unrestricted_any as A. pose proof C86_needed as N. rewrite Forall_forall in *. intros n H.
    assert (E : exists i, nth_error unrestricted n = Some i) by (cbn in H; intuition (subst; eexists; reflexivity)). destruct E as [i E]. exists i. split; auto.
    assert (I : In i unrestricted) by (eapply nth_error_In; eauto). split; [apply A; auto|]. split; [|apply N; auto].
    clear -E H. cbn in H. decompose [or] H; subst; try contradiction; injection E as <-; cbn; auto. split; auto. repeat constructor. intro H'. discriminate.
  - split; [apply C86_restricts, pair_item|]. apply C87_fragment_clean; [apply pair_item|]. exact I.
Qed.
Print Assumptions C87_exact_or_panic.

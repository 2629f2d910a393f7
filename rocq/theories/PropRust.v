(** C74, C75: items written in the fragment of Rust described in RustSyntax.v. *)
From Verif Require Import RustSyntax Debug PrintSpells Complete3 Sound2 Stable Unfold Samples PropRoundTrip PropErr.
Local Open Scope string_scope.
Local Open Scope list_scope.

(** ** Scanning Rust syntax *)
(** The tokens that Rust syntax may have outside of angle brackets, but for the flagged ones. *)
Definition plain_top (t : tok) : bool :=
  match t with
  | TIdent i => negb (id_is "where" i) && negb (id_is "for" i)
  | TPunct p => p_is "&" p || p_is "*" p || p_is "!" p || p_is "'" p || p_is "+" p || p_is "?" p
  | TGroup g => negb (delim_eqb (g_delim g) Brace)
  | TLit _ => true
  end.
Definition compatible (F : flags) (P : tok -> bool) : Prop :=
  (forall t, plain_top t = true -> P t = false)
  /\ (fl_arrow F = true -> forall p, p_is ">" p = true -> P (TPunct p) = false)
  /\ (fl_for F = true -> forall i, id_is "for" i = true -> P (TIdent i) = false)
  /\ (fl_colons F = true -> forall p, p_is ":" p = true -> P (TPunct p) = false).
Definition passes (F : flags) (ts : list tok) : Prop :=
  forall P d, (0 <= d)%Z -> (d = 0%Z -> compatible F P) -> scan P d false ts = Some (d, false).

Lemma scan_app P a : forall d b r, scan P d b (a ++ r) = match scan P d b a with Some (d', b') => scan P d' b' r | None => None end.
Proof. induction a as [|t a IH]; intros d b r; [reflexivity|]. cbn [app scan]. destruct (stops P d b t); auto. Qed.
Lemma passes_app F a b : passes F a -> passes F b -> passes F (a ++ b).
Proof. intros Ha Hb P d H1 H2. rewrite scan_app, (Ha P d H1 H2). apply Hb; auto. Qed.
Lemma passes_nil F : passes F []. Proof. intros P d _ _. reflexivity. Qed.
(** One token that is neither an angle bracket nor ['-']. *)
Lemma passes_tok F t ts : is_punct "<" t = false -> is_punct ">" t = false -> is_punct "-" t = false ->
  (forall P, compatible F P -> P t = false) -> passes F ts -> passes F (t :: ts).
Proof.
  intros H1 H2 H3 H4 H P d Hd Hc. cbn [scan]. unfold stops, next_depth, opens, closes. rewrite H1, H2, H3. cbn.
  destruct (Z.eqb_spec d 0) as [E|E]; cbn.
  - rewrite (H4 _ (Hc E)). apply H; auto.
  - apply H; auto.
Qed.
Lemma passes_plain F t ts : plain_top t = true -> passes F ts -> passes F (t :: ts).
Proof.
  intros H. assert (A : forall c, In c [">"; "<"; "-"]%char -> is_punct c t = false).
  { intros c Hc. destruct t as [| |p|]; auto. cbn in *. unfold p_is in *.
    destruct (Ascii.eqb_spec (p_char p) c) as [E|]; auto. rewrite E in H. destruct Hc as [<-|[<-|[<-|[]]]]; discriminate. }
  apply passes_tok; [apply A; cbn; auto|apply A; cbn; auto|apply A; cbn; auto|]. intros P [C _]. auto.
Qed.
Lemma passes_mark F c p ts : mark c p -> In c ["&"; "*"; "!"; "'"; "+"; "?"]%char -> passes F ts -> passes F (TPunct p :: ts).
Proof.
  intros E Hc. apply passes_plain. cbn. unfold p_is. red in E. rewrite E. cbn in Hc. destruct Hc as [<-|[<-|[<-|[<-|[<-|[<-|[]]]]]]]; reflexivity.
Qed.
(** Inside of angle brackets everything passes that passes at depth 1. *)
Definition inside (ts : list tok) : Prop := forall P d, (0 < d)%Z -> scan P d false ts = Some (d, false).
Lemma passes_inside F ts : passes F ts -> inside ts.
Proof. intros H P d Hd. apply H; lia. Qed.
Lemma inside_app a b : inside a -> inside b -> inside (a ++ b).
Proof. intros Ha Hb P d H. rewrite scan_app, Ha; auto. Qed.
Lemma inside_tok t ts : is_punct "<" t = false -> is_punct ">" t = false -> is_punct "-" t = false -> inside ts -> inside (t :: ts).
Proof.
  intros H1 H2 H3 H P d Hd. cbn [scan]. unfold stops, next_depth, opens, closes. rewrite H1, H2, H3.
  destruct (Z.eqb_spec d 0); [lia|]. cbn. auto.
Qed.
Lemma inside_mark c p ts : mark c p -> In c ["&"; "*"; "!"; "'"; "+"; "?"; ":"; "="; ","]%char -> inside ts -> inside (TPunct p :: ts).
Proof.
  intros E Hc. red in E. apply inside_tok; cbn; unfold p_is; rewrite E; cbn in Hc;
    destruct Hc as [<-|[<-|[<-|[<-|[<-|[<-|[<-|[<-|[<-|[]]]]]]]]]]; reflexivity.
Qed.
Lemma passes_angle F l a r ts : mark "<" l -> inside a -> mark ">" r -> passes F ts -> passes F (TPunct l :: a ++ TPunct r :: ts).
Proof.
  intros El Ha Er H P d Hd Hc. red in El, Er.
  assert (L1 : is_punct "<" (TPunct l) = true) by (cbn; unfold p_is; rewrite El; reflexivity).
  assert (L2 : is_punct "-" (TPunct l) = false) by (cbn; unfold p_is; rewrite El; reflexivity).
  assert (R1 : is_punct "<" (TPunct r) = false) by (cbn; unfold p_is; rewrite Er; reflexivity).
  assert (R2 : is_punct "-" (TPunct r) = false) by (cbn; unfold p_is; rewrite Er; reflexivity).
  assert (R3 : is_punct ">" (TPunct r) = true) by (cbn; unfold p_is; rewrite Er; reflexivity).
  cbn [scan]. unfold stops at 1, next_depth, opens, closes. rewrite L1, L2. cbn [negb andb]. rewrite andb_false_r. cbn [andb].
  rewrite scan_app, Ha by lia. cbn [scan]. unfold stops, next_depth, opens, closes. rewrite R1, R2, R3.
  destruct (Z.eqb_spec (d + 1) 0); [lia|]. cbn [negb andb]. replace (d + 1 - 1)%Z with d by lia. apply H; auto.
Qed.
Lemma passes_colon F p ts : fl_colons F = true -> mark ":" p -> passes F ts -> passes F (TPunct p :: ts).
Proof.
  intros HF E. red in E. apply passes_tok; cbn; unfold p_is; rewrite ?E; auto. intros P (_ & _ & _ & C). apply C; auto. unfold p_is. rewrite E. reflexivity.
Qed.
Lemma passes_sep F s : fl_colons F = true -> separator s -> passes F s.
Proof. intros HF (p & q & Hp & Hq & ->). apply passes_colon; auto. apply passes_colon; auto. apply passes_nil. Qed.
Lemma passes_word F i ts : id_str i <> "where" -> id_str i <> "for" -> passes F ts -> passes F (TIdent i :: ts).
Proof.
  intros H1 H2. apply passes_plain. cbn. unfold id_is. apply String.eqb_neq in H1, H2. rewrite H1, H2. reflexivity.
Qed.
Lemma passes_name F i ts : segment_name i -> passes F ts -> passes F (TIdent i :: ts).
Proof. intro H. apply passes_word; intro E; apply H; rewrite E; cbn; tauto. Qed.
Lemma passes_keyword F l ts : ~ In "where" l -> ~ In "for" l -> keyword_in l ts -> passes F ts.
Proof. intros H1 H2 (i & Hi & ->). apply passes_word; [congruence|congruence|apply passes_nil]. Qed.
Lemma passes_lifetime F ts : lifetime_toks ts -> passes F ts.
Proof.
  intros (q & i & Hq & Hi & ->). apply (passes_mark F "'"); auto; [cbn; tauto|]. apply passes_word; [| |apply passes_nil]; intro E; destruct Hi as [Hi|Hi];
    rewrite E in Hi; try discriminate; apply Hi; cbn; tauto.
Qed.
Lemma passes_opt F (X : list tok -> Prop) ts : (forall a, X a -> passes F a) -> optional X ts -> passes F ts.
Proof. intros H [->|]; [apply passes_nil|auto]. Qed.
Lemma inside_lifetimes a : lifetime_list a -> inside a.
Proof.
  induction 1.
  - intros P d _. reflexivity.
  - apply (passes_inside anywhere), passes_lifetime. auto.
  - apply inside_app; [apply (passes_inside anywhere), passes_lifetime; auto|]. apply (inside_mark ","); auto. cbn. tauto.
Qed.
Lemma passes_for F ts : fl_for F = true -> for_lifetimes ts -> passes F ts.
Proof.
  intros HF (k & l & a & r & Hk & Hl & Ha & Hr & ->). red in Hk. apply passes_tok; auto.
  - intros P (_ & _ & C & _). apply C; auto. unfold id_is. rewrite Hk. reflexivity.
  - apply passes_angle; auto using inside_lifetimes, passes_nil.
Qed.
Lemma passes_fn_head F ts : fn_type_head ts -> passes F ts.
Proof.
  intros (u & e & abi & k & Hu & He & Ha & Hk & ->). red in Hk.
  apply passes_app; [eapply passes_opt; [|exact Hu]; intros; eapply passes_keyword; [| |eassumption]; cbn; intuition discriminate|].
  apply passes_app; [eapply passes_opt; [|exact He]; intros; eapply passes_keyword; [| |eassumption]; cbn; intuition discriminate|].
  apply passes_app.
  - destruct Ha as [->|[l ->]]; [apply passes_nil|]. apply passes_plain; [reflexivity|apply passes_nil].
  - apply passes_word; [congruence|congruence|apply passes_nil].
Qed.
Lemma passes_group F g ts : g_delim g <> Brace -> passes F ts -> passes F (TGroup g :: ts).
Proof. intro H. apply passes_plain. cbn. destruct (g_delim g); auto. Qed.
Lemma passes_arrow F d r ts : fl_arrow F = true -> mark "-" d -> mark ">" r -> passes F ts -> passes F (TPunct d :: TPunct r :: ts).
Proof.
  intros HF Ed Er H P n Hn Hc. red in Ed, Er.
  assert (L1 : is_punct "<" (TPunct d) = false) by (cbn; unfold p_is; rewrite Ed; reflexivity).
  assert (L2 : is_punct "-" (TPunct d) = true) by (cbn; unfold p_is; rewrite Ed; reflexivity).
  assert (L3 : is_punct ">" (TPunct d) = false) by (cbn; unfold p_is; rewrite Ed; reflexivity).
  assert (R1 : is_punct "<" (TPunct r) = false) by (cbn; unfold p_is; rewrite Er; reflexivity).
  assert (R2 : is_punct "-" (TPunct r) = false) by (cbn; unfold p_is; rewrite Er; reflexivity).
  assert (R3 : p_is ">" r = true) by (unfold p_is; rewrite Er; reflexivity).
  cbn [scan]. unfold stops, next_depth, opens, closes. rewrite L1, L2, L3, R1, R2. cbn [is_punct]. rewrite R3. cbn [negb andb orb].
  rewrite andb_false_r. cbn [andb orb]. destruct (Z.eqb_spec n 0) as [E|E]; cbn [andb].
  - destruct (Hc E) as (_ & C & _). rewrite (C HF _ R3). apply H; auto.
  - apply H; auto.
Qed.
Lemma inside_nil : inside []. Proof. intros P d _. reflexivity. Qed.

Lemma rust_passes :
  (forall F ts, rust_type F ts -> passes F ts) /\ (forall F ts, rust_return F ts -> passes F ts) /\ (forall ts, rust_self ts -> inside ts)
  /\ (forall F ts, rust_path F ts -> passes F ts) /\ (forall F ts, rust_segment F ts -> passes F ts) /\ (forall ts, rust_args ts -> inside ts)
  /\ (forall ts, rust_arg ts -> inside ts) /\ (forall F ts, rust_bounds F ts -> passes F ts) /\ (forall F ts, rust_bound F ts -> passes F ts).
Proof.
  apply rust_syntax_ind; intros; auto using passes_nil, passes_app, passes_sep, inside_nil, inside_app, passes_lifetime.
  - apply passes_angle; auto. apply passes_app; auto using passes_sep.
  - apply (passes_mark F "&"); auto; [cbn; tauto|]. apply passes_app; [eapply passes_opt; [apply passes_lifetime|auto]|]. apply passes_app; auto.
    eapply passes_opt; [|eassumption]. intros; eapply passes_keyword; [| |eassumption]; cbn; intuition discriminate.
  - apply (passes_mark F "*"); auto; [cbn; tauto|]. apply passes_app; auto. eapply passes_keyword; [| |eassumption]; cbn; intuition discriminate.
  - apply passes_group; auto using passes_nil.
  - apply (passes_mark F "!"); auto using passes_nil. cbn; tauto.
  - apply passes_app; [destruct H as [->|[]]; auto using passes_nil, passes_for|]. apply passes_app; auto using passes_fn_head.
    apply passes_group; auto. rewrite H1. discriminate.
  - apply passes_app; auto. eapply passes_keyword; [| |eassumption]; cbn; intuition discriminate.
  - apply passes_app; auto. apply (passes_mark F "!"); auto; [cbn; tauto|]. apply passes_group; auto using passes_nil.
  - apply passes_arrow; auto.
  - eapply passes_inside; eauto.
  - apply inside_app; [eapply passes_inside; eauto|]. apply inside_tok; auto. eapply passes_inside; eauto.
  - apply passes_name; auto using passes_nil.
  - apply passes_name; auto. apply passes_app; [destruct H0 as [->|[]]; auto using passes_nil, passes_sep|]. apply passes_angle; auto using passes_nil.
  - apply passes_name; auto. apply passes_group; auto. rewrite H0. discriminate.
  - apply inside_app; auto. apply (inside_mark ","); auto. cbn; tauto.
  - apply (passes_inside anywhere), passes_lifetime. auto.
  - eapply passes_inside; eauto.
  - apply inside_tok; auto using inside_nil.
  - red in H. intros P d Hd. cbn [scan]. unfold stops, next_depth, opens, closes. cbn. unfold p_is. rewrite H. cbn. rewrite !andb_false_r. cbn.
    destruct (Z.eqb_spec d 0); [lia|]. reflexivity.
  - apply inside_tok; auto using inside_nil.
  - apply inside_app; [eapply passes_inside; eauto|]. apply (inside_mark "="); auto; [cbn; tauto|]. eapply passes_inside; eauto.
  - apply inside_app; [eapply passes_inside; eauto|]. apply (inside_mark ":"); auto; [cbn; tauto|]. eapply passes_inside; eauto.
  - apply passes_app; auto. apply (passes_mark F "+"); auto. cbn; tauto.
  - apply passes_app; [destruct H as [->|[]]; auto using passes_nil, passes_for|]. apply passes_app; auto. destruct H0 as [->|[]]; auto using passes_nil, passes_sep.
  - apply (passes_mark F "?"); auto. cbn; tauto.
  - apply passes_group; auto using passes_nil. rewrite H. discriminate.
Qed.

(** ** From Rust syntax to the conditions of Grammar.v *)
Lemma mark_is c p : mark c p -> p_is c p = true. Proof. intro E. red in E. unfold p_is. rewrite E. apply Ascii.eqb_refl. Qed.
Lemma word_is k i : word k i -> id_is k i = true. Proof. intro E. red in E. unfold id_is. rewrite E. apply String.eqb_refl. Qed.
Lemma name_not k i : declared_name i -> In k (reserved ++ ["crate"; "self"; "Self"; "super"]) -> id_is k i = false.
Proof. intros H Hk. unfold id_is. apply String.eqb_neq. intro E. apply H. rewrite E. exact Hk. Qed.
Lemma delim_is a b : a = b -> delim_eqb a b = true. Proof. intros ->. destruct b; reflexivity. Qed.
Lemma if_some_wf {A} (X : A -> Prop) (f : A -> bool) o : (forall x, X x -> f x = true) -> if_some X o -> wf_opt f o = true.
Proof. intro H. destruct o; cbn; auto. Qed.
Lemma forall_wf {A} (X : A -> Prop) (f : A -> bool) l : (forall x, X x -> f x = true) -> Forall X l -> forallb f l = true.
Proof. intros H F. apply forallb_forall. rewrite Forall_forall in F. auto. Qed.
Lemma list_wf {A} (X : A -> Prop) (f : bool -> A -> bool) p : (forall b x, X x -> f b x = true) -> rust_list X p -> wf_punctuated f p = true.
Proof.
  intros H [S F]. unfold wf_punctuated. destruct p as [l sk]. cbn [pu_inner pu_skip_last] in *. induction F as [|[x c] l Hx F IH].
  - cbn in S. subst. reflexivity.
  - cbn [fst] in Hx. destruct l as [|y l].
    + cbn in *. rewrite H by auto. destruct sk; [subst; reflexivity|]. apply mark_is. auto.
    + destruct S as [S1 S2]. specialize (IH S2). cbn [wf_inner] in *. rewrite H by auto. rewrite mark_is by auto. exact IH.
Qed.
Lemma attribute_wf inner a : rust_attribute inner a -> wf_attribute inner a = true.
Proof.
  intros (H1 & H2 & H3 & H4 & H5). unfold wf_attribute. rewrite (mark_is _ _ H1), (delim_is _ _ H3). cbn.
  assert (P : forallb path_token (at_path a) = true).
  { revert H4. apply forall_wf. intros []; cbn; intro; auto using mark_is; contradiction. }
  rewrite P. destruct (at_bang a).
  - destruct H2 as [-> H2]. rewrite (mark_is _ _ H2). destruct (at_value a); auto. cbn. auto using mark_is.
  - subst inner. destruct (at_value a); auto. cbn. auto using mark_is.
Qed.
Lemma outer_wf l : rust_outer l -> wf_outer l = true. Proof. apply forall_wf, attribute_wf. Qed.
Lemma inner_wf l : Forall (rust_attribute true) l -> wf_inner_attrs l = true. Proof. apply forall_wf, attribute_wf. Qed.
Lemma vis_wf v : rust_vis v -> wf_vis v = true.
Proof.
  intros (i & E & H). destruct v as [t1 t2]. cbn in *. subst t1. destruct t2 as [[g| | |]|]; try contradiction.
  - destruct H as [H1 H2]. rewrite (word_is "pub" i H1), (delim_is _ _ H2). reflexivity.
  - destruct H as [H|H]; rewrite (word_is _ _ H); auto. apply orb_true_r.
Qed.
(** What the run tests accept. *)
Lemma punct_plain p c : plain_top (TPunct p) = true -> negb (existsb (Ascii.eqb c) ["&"; "*"; "!"; "'"; "+"; "?"]%char) = true -> p_is c p = false.
Proof.
  cbn. intros H N. unfold p_is in *. destruct (Ascii.eqb_spec (p_char p) c) as [E|]; auto. rewrite E in H. exfalso.
  rewrite (Ascii.eqb_sym c "&"), (Ascii.eqb_sym c "*"), (Ascii.eqb_sym c "!"), (Ascii.eqb_sym c "'"), (Ascii.eqb_sym c "+"), (Ascii.eqb_sym c "?") in N.
  rewrite (Ascii.eqb_sym c "&"), (Ascii.eqb_sym c "*"), (Ascii.eqb_sym c "!"), (Ascii.eqb_sym c "'"), (Ascii.eqb_sym c "+"), (Ascii.eqb_sym c "?") in H.
  destruct (Ascii.eqb "&" c), (Ascii.eqb "*" c), (Ascii.eqb "!" c), (Ascii.eqb "'" c), (Ascii.eqb "+" c), (Ascii.eqb "?" c); discriminate.
Qed.
Lemma compat_or F P Q : compatible F P -> compatible F Q -> compatible F (fun t => P t || Q t).
Proof.
  intros (A & B & C & D) (A' & B' & C' & D'). split; [|split; [|split]].
  - intros t H. rewrite A, A'; auto.
  - intros H p Hp. rewrite B, B'; auto.
  - intros H p Hp. rewrite C, C'; auto.
  - intros H p Hp. rewrite D, D'; auto.
Qed.
Lemma compat_punct F c : negb (existsb (Ascii.eqb c) ["&"; "*"; "!"; "'"; "+"; "?"]%char) = true ->
  (fl_arrow F = true -> c <> ">"%char) -> (fl_colons F = true -> c <> ":"%char) -> compatible F (is_punct c).
Proof.
  intros N A C. split; [|split; [|split]].
  - intros [] H; auto. apply punct_plain; auto.
  - intros H p Hp. cbn. unfold p_is in *. apply Ascii.eqb_eq in Hp. rewrite Hp. apply Ascii.eqb_neq. intro E. apply A; auto.
  - intros H i Hi. reflexivity.
  - intros H p Hp. cbn. unfold p_is in *. apply Ascii.eqb_eq in Hp. rewrite Hp. apply Ascii.eqb_neq. intro E. apply C; auto.
Qed.
Lemma compat_brace F : compatible F (is_group Brace).
Proof.
  split; [|split; [|split]]; try reflexivity. intros [] H; auto. cbn in *. apply negb_true_iff in H. exact H.
Qed.
Lemma compat_where F : compatible F (is_ident "where").
Proof.
  split; [|split; [|split]]; try reflexivity.
  - intros [] H; auto. cbn in *. apply andb_prop in H. destruct H as [H _]. apply negb_true_iff in H. exact H.
  - intros H i Hi. cbn. unfold id_is in *. apply String.eqb_eq in Hi. rewrite Hi. reflexivity.
Qed.
Lemma compat_for : compatible no_for (is_ident "for").
Proof.
  split; [|split; [|split]]; try reflexivity; try discriminate.
  intros [] H; auto. cbn in *. apply andb_prop in H. destruct H as [_ H]. apply negb_true_iff in H. exact H.
Qed.
Lemma punct_ok F c : In c [","; ";"; "="]%char -> compatible F (is_punct c).
Proof. intros [<-|[<-|[<-|[]]]]; apply compat_punct; try reflexivity; intros; discriminate. Qed.
Lemma compat_comma F : compatible F end_comma. Proof. apply punct_ok. cbn; auto. Qed.
Lemma compat_semicolon F : compatible F end_semicolon. Proof. apply punct_ok. cbn; auto. Qed.
Lemma compat_const_ty F : compatible F end_const_ty. Proof. apply compat_or; apply punct_ok; cbn; auto. Qed.
Lemma compat_where_item F : compatible F end_where_item.
Proof. apply compat_or; [apply compat_or|]; try apply compat_brace; apply punct_ok; cbn; auto. Qed.
Lemma compat_return F : compatible F end_return.
Proof. apply compat_or; [apply compat_or|]; [apply compat_brace|apply compat_where|apply punct_ok; cbn; auto]. Qed.
Lemma compat_supertraits F : compatible F end_supertraits. Proof. apply compat_or; [apply compat_where|apply compat_brace]. Qed.
Lemma compat_impl_self F : compatible F end_impl_self. Proof. apply compat_or; [apply compat_brace|apply compat_where]. Qed.
Lemma compat_impl_header : compatible no_for end_impl_header.
Proof. apply compat_or; [apply compat_or|]; [apply compat_brace|apply compat_for|apply compat_where]. Qed.
Lemma compat_param : compatible no_arrow end_param.
Proof. apply compat_or; [apply punct_ok; cbn; auto|]. apply compat_punct; try reflexivity; intros; discriminate. Qed.
Lemma compat_colon : compatible no_colons (is_punct ":").
Proof. apply compat_punct; try reflexivity; intros; discriminate. Qed.

Lemma passes_closed F P ts : passes F ts -> compatible F P -> run_closed P ts = true.
Proof. intros H C. unfold run_closed. rewrite (H P 0%Z) by (auto; lia). reflexivity. Qed.
Lemma passes_any F P ts : passes F ts -> compatible F P -> run_any P ts = true.
Proof. intros H C. unfold run_any. rewrite (H P 0%Z) by (auto; lia). reflexivity. Qed.
Definition type_passes := proj1 rust_passes.
Definition bounds_passes : forall F ts, rust_bounds F ts -> passes F ts := proj1 (proj2 (proj2 (proj2 (proj2 (proj2 (proj2 (proj2 rust_passes))))))).

(** How a type starts. *)
Definition good_head (t : tok) : bool :=
  negb (is_punct "#" t) && negb (is_ident "pub" t) && negb (is_group Brace t) && negb (is_punct ";" t).
Definition headed (ts : list tok) : Prop := exists t r, ts = t :: r /\ good_head t = true.
Lemma headed_app a b : headed a -> headed (a ++ b).
Proof. intros (t & r & -> & H). exists t, (r ++ b). auto. Qed.
Lemma headed_cons t r : good_head t = true -> headed (t :: r). Proof. exists t, r. auto. Qed.
Lemma headed_mark c p r : mark c p -> In c ["&"; "*"; "!"; ":"; "<"; "'"; "?"]%char -> headed (TPunct p :: r).
Proof.
  intros E Hc. apply headed_cons. unfold good_head. cbn. unfold p_is. red in E. rewrite E. cbn in Hc.
  destruct Hc as [<-|[<-|[<-|[<-|[<-|[<-|[<-|[]]]]]]]]; reflexivity.
Qed.
Lemma headed_word i r : id_str i <> "pub" -> headed (TIdent i :: r).
Proof. intro H. apply headed_cons. unfold good_head. cbn. unfold id_is. apply String.eqb_neq in H. rewrite H. reflexivity. Qed.
Lemma headed_name i r : segment_name i -> headed (TIdent i :: r).
Proof. intro H. apply headed_word. intro E. apply H. rewrite E. cbn. tauto. Qed.
Lemma headed_group g r : g_delim g <> Brace -> headed (TGroup g :: r).
Proof. intro H. apply headed_cons. unfold good_head. cbn. destruct (g_delim g); auto. Qed.
Lemma headed_fn ts r : fn_type_head ts -> headed (ts ++ r).
Proof.
  intros (u & e & abi & k & Hu & He & Ha & Hk & ->). red in Hk. destruct Hu as [->|(i & Hi & ->)].
  - destruct He as [->|(i & Hi & ->)].
    + destruct Ha as [->|[l ->]]; [apply headed_word; congruence|apply headed_cons; reflexivity].
    + apply headed_word. destruct Hi as [<-|[]]. discriminate.
  - apply headed_word. destruct Hi as [<-|[]]. discriminate.
Qed.
Lemma rust_headed :
  (forall F ts, rust_type F ts -> headed ts) /\ (forall F ts, rust_return F ts -> True) /\ (forall ts, rust_self ts -> True)
  /\ (forall F ts, rust_path F ts -> headed ts) /\ (forall F ts, rust_segment F ts -> headed ts) /\ (forall ts, rust_args ts -> True)
  /\ (forall ts, rust_arg ts -> True) /\ (forall F ts, rust_bounds F ts -> True) /\ (forall F ts, rust_bound F ts -> True).
Proof.
  apply rust_syntax_ind; intros; auto using headed_app, headed_name.
  - destruct H0 as (p & q & Hp & _ & ->). apply (headed_mark ":"); auto. cbn; tauto.
  - apply (headed_mark "<"); auto. cbn; tauto.
  - apply (headed_mark "&"); auto. cbn; tauto.
  - apply (headed_mark "*"); auto. cbn; tauto.
  - apply headed_group; auto.
  - apply (headed_mark "!"); auto. cbn; tauto.
  - destruct H as [->|[_ (k & l & a & r & Hk & _ & _ & _ & ->)]]; [cbn [app]; apply headed_fn; auto|]. red in Hk. apply headed_word. congruence.
  - destruct H as (i & Hi & ->). apply headed_word. destruct Hi as [<-|[<-|[]]]; discriminate.
Qed.
Definition type_headed := proj1 rust_headed.

Lemma type_field b t : rust_type anywhere (te_tokens t) -> wf_field_ty b t = true.
Proof.
  intro H. unfold wf_field_ty. destruct (type_headed _ _ H) as (x & r & E & _). rewrite E at 1. cbn [nonempty andb].
  destruct b; [eapply passes_closed|eapply passes_any]; eauto using type_passes, compat_comma.
Qed.
Lemma bound_wf F P b : compatible F P -> rust_bound_of F b -> wf_bound P b = true.
Proof. intros C [H1 H2]. unfold wf_bound. rewrite (mark_is _ _ H1). eapply passes_closed; eauto using bounds_passes. Qed.
Lemma generic_param_wf b p : rust_generic_param p -> wf_generic_param b p = true.
Proof.
  unfold rust_generic_param, wf_generic_param. destruct (gp_prefix p) as [[|k|q|]|]; try contradiction.
  - intros [H [_ (bd & E & H1 & H2)]]. rewrite (word_is _ _ H), E. cbn. unfold wf_bound. rewrite (mark_is _ _ H1). eapply passes_closed; eauto using type_passes, compat_param.
  - intros (H1 & _ & H2). rewrite (mark_is _ _ H1). cbn. eapply if_some_wf; [|exact H2]. intros x Hx. eapply bound_wf; eauto using compat_param.
  - intros [H1 H2]. rewrite (name_not "const") by (auto; cbn; tauto). cbn. eapply if_some_wf; [|exact H2]. intros x Hx. eapply bound_wf; eauto using compat_param.
Qed.
Lemma generics_wf g : rust_generics g -> wf_generics g = true.
Proof. intros (H1 & H2 & H3). unfold wf_generics. rewrite (mark_is _ _ H1), (mark_is _ _ H3), (list_wf _ _ _ generic_param_wf H2). reflexivity. Qed.
Lemma left_passes ts : rust_left ts -> passes no_colons ts /\ headed ts.
Proof.
  intros [H|(fl & t & Hf & Ht & ->)].
  - split; [apply passes_lifetime; auto|]. destruct H as (q & i & Hq & _ & ->). apply (headed_mark "'"); auto. cbn; tauto.
  - split.
    + apply passes_app; [|apply type_passes; auto]. destruct Hf as [->|Hf]; [apply passes_nil|apply passes_for; auto].
    + destruct Hf as [->|(k & l & a & r & Hk & _ & _ & _ & ->)]; [eapply type_headed; eauto|]. red in Hk. apply headed_word. congruence.
Qed.
Lemma predicate_wf b w : rust_predicate w -> wf_where_predicate b w = true.
Proof.
  intros [H1 H2]. destruct (left_passes _ H1) as [P (t & r & E & G)]. unfold wf_where_predicate.
  rewrite (passes_closed _ _ _ P compat_colon), (bound_wf _ _ _ (compat_where_item _) H2), E. cbn [head_is]. unfold good_head in G.
  apply andb_prop in G. destruct G as [G G1]. apply andb_prop in G. destruct G as [_ G2]. rewrite G1, G2. reflexivity.
Qed.
Lemma where_wf w : rust_where w -> wf_where w = true.
Proof. intros [H1 H2]. unfold wf_where. rewrite (word_is _ _ H1), (list_wf _ _ _ predicate_wf H2). reflexivity. Qed.
Lemma not_starts_false (f : tok -> bool) (X : tok -> Prop) ts : (forall t, f t = true -> X t) -> ~ starts X ts -> head_is f ts = false.
Proof. intros H N. destruct ts as [|t r]; auto. cbn in *. destruct (f t) eqn:E; auto. exfalso. auto. Qed.
Lemma group_paren t : is_group Parenthesis t = true -> exists g, t = TGroup g /\ g_delim g = Parenthesis.
Proof. destruct t as [g| | |]; try discriminate. cbn. intro H. exists g. split; auto. destruct (g_delim g); auto; discriminate. Qed.
Lemma punct_less t : is_punct "<" t = true -> exists p, t = TPunct p /\ mark "<" p.
Proof. destruct t as [| |p|]; try discriminate. cbn. intro H. exists p. split; auto. apply Ascii.eqb_eq. exact H. Qed.
Lemma tuple_field_wf b f : rust_tuple_field f -> wf_tuple_field b f = true.
Proof.
  intros (H1 & H2 & H3 & H4). unfold wf_tuple_field. rewrite (outer_wf _ H1), (if_some_wf _ _ _ vis_wf H2), (type_field b _ H3). cbn.
  rewrite andb_true_r. unfold prefix_ok. destruct (tf_vis f) as [[t1 t2]|].
  - cbn in H2. destruct H2 as (i & E & H2). cbn in *. subst t1. destruct t2; auto.
    destruct (id_is "pub" i) eqn:Ep; auto. apply String.eqb_eq in Ep.
    rewrite (not_starts_false _ _ _ group_paren (H4 eq_refl (ex_intro _ i (conj eq_refl Ep)))). reflexivity.
  - destruct (type_headed _ _ H3) as (t & r & E & G). rewrite E in *. cbn [head_is]. unfold good_head in G. apply andb_prop in G. destruct G as [G _].
    apply andb_prop in G. destruct G as [G _]. rewrite G. cbn. apply negb_true_iff. destruct t as [|i| |]; auto. cbn. unfold id_is.
    apply String.eqb_neq. intro Ei. apply H4. cbn. eauto.
Qed.
Lemma name_prefix v i : declared_name i -> if_some rust_vis v -> prefix_ok v [TIdent i] = true.
Proof.
  intros H Hv. unfold prefix_ok. destruct v as [[t1 t2]|].
  - destruct Hv as (k & E & _). cbn in E. subst t1. destruct t2; auto. cbn. rewrite andb_false_r. reflexivity.
  - cbn. rewrite (name_not "pub"), (name_not "crate") by (auto; cbn; tauto). reflexivity.
Qed.
Lemma named_field_wf b f : rust_named_field f -> wf_named_field b f = true.
Proof.
  intros (H1 & H2 & H3 & H4 & H5). unfold wf_named_field. rewrite (outer_wf _ H1), (if_some_wf _ _ _ vis_wf H2), (mark_is _ _ H4), (type_field b _ H5). cbn.
  rewrite !andb_true_r. apply name_prefix; auto.
Qed.
Lemma fields_wf f : rust_fields f -> wf_fields f = true.
Proof.
  destruct f; cbn; auto; intros [H1 H2].
  - unfold wf_tuple_fields. rewrite (delim_is _ _ H1), (list_wf _ _ _ tuple_field_wf H2). reflexivity.
  - unfold wf_named_fields. rewrite (delim_is _ _ H1), (list_wf _ _ _ named_field_wf H2). reflexivity.
Qed.
Lemma struct_wf s : rust_struct s -> shape_struct s = true.
Proof.
  intros (H1 & H2 & H3 & H4 & H5 & H6 & H7). unfold shape_struct.
  rewrite (outer_wf _ H1), (if_some_wf _ _ _ vis_wf H2), (word_is _ _ H3), (if_some_wf _ _ _ generics_wf H4), (if_some_wf _ _ _ where_wf H5), (fields_wf _ H6). cbn.
  destruct (st_fields s).
  - destruct H7 as (p & -> & H). cbn. rewrite (mark_is _ _ H). reflexivity.
  - destruct H7 as (p & -> & H). cbn. rewrite (mark_is _ _ H). reflexivity.
  - rewrite H7. reflexivity.
Qed.
Lemma variant_wf b v : rust_variant v -> wf_variant b v = true.
Proof.
  intros (H1 & H2 & H3 & H4 & H5). unfold wf_variant. rewrite (outer_wf _ H1), (if_some_wf _ _ _ vis_wf H2), (fields_wf _ H4), name_prefix by auto. cbn.
  eapply if_some_wf; [|exact H5]. cbn. auto using mark_is.
Qed.
Lemma enum_wf e : rust_enum e -> wf_enum e = true.
Proof.
  intros (H1 & H2 & H3 & H4 & H5 & H6 & H7). unfold wf_enum.
  rewrite (outer_wf _ H1), (if_some_wf _ _ _ vis_wf H2), (word_is _ _ H3), (if_some_wf _ _ _ generics_wf H4), (if_some_wf _ _ _ where_wf H5),
    (delim_is _ _ H6), (list_wf _ _ _ variant_wf H7). reflexivity.
Qed.
Lemma union_wf u : rust_union u -> wf_union u = true.
Proof.
  intros (H1 & H2 & H3 & H4 & H5 & H6). unfold wf_union. apply fields_wf in H6. cbn in H6.
  rewrite (outer_wf _ H1), (if_some_wf _ _ _ vis_wf H2), (word_is _ _ H3), (if_some_wf _ _ _ generics_wf H4), (if_some_wf _ _ _ where_wf H5), H6. reflexivity.
Qed.
Lemma param_wf b p : rust_param p -> wf_fn_param b p = true.
Proof.
  destruct p as [r|t]; cbn.
  - intros (H1 & H2 & H3 & H4 & H5). rewrite (outer_wf _ H1), (if_some_wf _ _ _ (mark_is _) H2), (if_some_wf _ wf_lifetime _ (fun l => mark_is _ (lt_apostrophe l)) H3),
      (if_some_wf _ _ _ (word_is _) H4), (word_is _ _ H5). reflexivity.
  - intros (H1 & H2 & H3 & H4 & H5). rewrite (outer_wf _ H1), (if_some_wf _ _ _ (word_is _) H2), (mark_is _ _ H4), (type_field b _ H5).
    rewrite (name_not "self"), (name_not "mut") by (auto; cbn; tauto). rewrite orb_true_r. reflexivity.
Qed.
Lemma function_wf f : rust_function f -> wf_function f = true.
Proof.
  intros (H1 & H2 & (Q1 & Q2 & Q3 & Q4 & Q5 & Q6) & H4 & H5 & H6 & H7 & H8 & H9 & H10). unfold wf_function, wf_qualifiers.
  rewrite (outer_wf _ H1), (if_some_wf _ _ _ vis_wf H2), (word_is _ _ H4), (if_some_wf _ _ _ generics_wf H5), (if_some_wf _ _ _ where_wf H9),
    (delim_is _ _ H6), (list_wf _ _ _ param_wf H7), (if_some_wf _ _ _ (word_is _) Q1), (if_some_wf _ _ _ (word_is _) Q2), (if_some_wf _ _ _ (word_is _) Q3),
    (if_some_wf _ _ _ (word_is _) Q4), (if_some_wf _ _ _ (word_is _) Q5). cbn.
  assert (A : some (fq_extern (fn_qualifiers_ f)) || negb (some (fq_abi (fn_qualifiers_ f))) = true).
  { destruct (fq_extern (fn_qualifiers_ f)); auto. rewrite Q6; auto. }
  rewrite A. cbn.
  assert (B : match fn_arrow f, fn_ret f with
      | Some (dash, tip), Some ty => p_is "-" dash && p_is ">" tip && run_closed end_return (te_tokens ty)
      | None, None => true | _, _ => false end = true).
  { destruct (fn_arrow f) as [[d r]|], (fn_ret f); try contradiction; auto. destruct H8 as (B1 & B2 & B3).
    rewrite (mark_is _ _ B1), (mark_is _ _ B2). eapply passes_closed; eauto using type_passes, compat_return. }
  rewrite B. cbn. destruct (fn_body f), (fn_semicolon f); try contradiction; auto using delim_is, mark_is.
Qed.
(** *** Values *)
Lemma dash_cons t r : after_dash (t :: r) = match r with [] => is_punct "-" t | _ => after_dash r end.
Proof.
  destruct r as [|u r]; [reflexivity|]. unfold after_dash. cbn [rev]. destruct (rev r ++ [u]) eqn:E; [destruct (rev r); discriminate|]. reflexivity.
Qed.
Lemma dash_app a b : after_dash (a ++ b) = match b with [] => after_dash a | _ => after_dash b end.
Proof.
  destruct b as [|t b]; [rewrite app_nil_r; reflexivity|]. unfold after_dash. rewrite rev_app_distr.
  destruct (rev (t :: b)) eqn:E; [|reflexivity]. apply (f_equal (@List.length tok)) in E. rewrite rev_length in E. discriminate.
Qed.
Lemma is_mark c p : is_punct c (TPunct p) = true -> mark c p.
Proof. cbn. unfold p_is. apply Ascii.eqb_eq. Qed.
Lemma mark_other c c' p : mark c p -> c <> c' -> is_punct c' (TPunct p) = false.
Proof. intros E N. red in E. cbn. unfold p_is. rewrite E. apply Ascii.eqb_neq. auto. Qed.

Lemma matched_head b ts : matched b ts -> head_is (is_punct ">") ts = false.
Proof.
  intros []; cbn [head_is]; auto; eapply mark_other; eauto; intro; discriminate.
Qed.
(** After [ts] the scan is where it was. *)
Lemma matched_scan b ts : matched b ts -> forall d dash, (b = false -> d = 0%Z) -> (0 <= d)%Z -> (b = true -> 0 < d)%Z ->
  scan end_semicolon d dash ts = Some (d, match ts with [] => dash | _ => after_dash ts end).
Proof.
  induction 1 as [b|b t r H1 H2 H3 H4 IH|b dd g r Hd Hg H IH|b l inner g r Hl Hi IHi Hd Hg Hr IHr]; intros d dash D0 D1 D2.
  - reflexivity.
  - cbn [scan]. unfold stops, next_depth, opens, closes, end_semicolon. rewrite H1, H2. cbn [andb negb].
    assert (E : Z.eqb d 0 && true && (false || negb (is_punct "-" t) && is_punct ";" t) = false).
    { destruct (is_punct ";" t); [|rewrite !andb_false_r; reflexivity]. specialize (H3 eq_refl). specialize (D2 H3). destruct (Z.eqb_spec d 0); [lia|reflexivity]. }
    rewrite E, dash_cons. rewrite IH; auto.
  - pose proof (mark_other _ ">"%char _ Hd ltac:(intro; discriminate)) as E1.
    pose proof (mark_other _ "<"%char _ Hd ltac:(intro; discriminate)) as E2.
    pose proof (mark_other _ "<"%char _ Hg ltac:(intro; discriminate)) as E3.
    pose proof (mark_other _ "-"%char _ Hg ltac:(intro; discriminate)) as E4.
    pose proof (mark_other _ ";"%char _ Hg ltac:(intro; discriminate)) as E5.
    assert (E6 : is_punct "-" (TPunct dd) = true) by (red in Hd; cbn; unfold p_is; rewrite Hd; reflexivity).
    cbn [scan]. unfold stops, next_depth, opens, closes, end_semicolon. rewrite E1, E2, E3, E4, E5, E6. cbn [andb negb orb]. rewrite !andb_false_r. cbn [andb].
    rewrite !dash_cons, E4, IH by auto. destruct r; reflexivity.
  - pose proof (mark_other _ ">"%char _ Hl ltac:(intro; discriminate)) as E1.
    pose proof (mark_other _ "-"%char _ Hl ltac:(intro; discriminate)) as E2.
    pose proof (mark_other _ "<"%char _ Hg ltac:(intro; discriminate)) as E3.
    pose proof (mark_other _ "-"%char _ Hg ltac:(intro; discriminate)) as E4.
    assert (E5 : is_punct "<" (TPunct l) = true) by (red in Hl; cbn; unfold p_is; rewrite Hl; reflexivity).
    assert (E6 : is_punct ">" (TPunct g) = true) by (red in Hg; cbn; unfold p_is; rewrite Hg; reflexivity).
    cbn [scan]. unfold stops at 1, next_depth at 1, opens, closes. rewrite E2, E5. cbn [andb negb]. rewrite !andb_false_r. cbn [andb].
    rewrite scan_app, IHi by (try lia; discriminate).
    assert (Ed : match inner with [] => false | _ => after_dash inner end = false) by (destruct inner; auto).
    rewrite Ed. cbn [scan]. unfold stops at 1, next_depth, opens, closes. rewrite E3, E4, E6. cbn [andb negb orb].
    destruct (Z.eqb_spec (d + 1) 0); [lia|]. cbn [andb]. replace (d + 1 - 1)%Z with d by lia.
    rewrite IHr by auto. f_equal. f_equal. rewrite dash_cons. destruct inner as [|x inner]; cbn [app].
    + rewrite dash_cons. destruct r; auto.
    + change (x :: inner ++ TPunct g :: r) with ((x :: inner) ++ TPunct g :: r). rewrite dash_app, dash_cons. destruct r; auto.
Qed.

(** Conversely: a scan that ends at depth 0 read matched brackets.  [pre] stands for what came before. *)
Definition hyphen : punct := mkPunct "-" Alone call_site.
Definition pre (dash : bool) : list tok := if dash then [TPunct hyphen] else [].
Lemma pre_matched dash b ts : matched b ts -> matched b (pre dash ++ ts).
Proof. intro H. destruct dash; auto. cbn. apply ma_tok; auto. intro; discriminate. Qed.
Lemma other_dash b p q ts : mark "-" p -> mark "-" q -> matched b (TPunct p :: ts) -> matched b (TPunct q :: ts).
Proof.
  intros Hp Hq H. inversion H; subst.
  - apply ma_tok; auto; try (eapply mark_other; eauto; intro; discriminate). intro E.
    rewrite (mark_other _ ";"%char _ Hq) in E by (intro; discriminate). discriminate.
  - apply ma_arrow; auto.
  - red in Hp. red in H2. rewrite Hp in H2. discriminate.
Qed.
Lemma scan_matched n : forall ts d dash e, List.length ts <= n -> scan end_semicolon (Z.of_nat d) dash ts = Some (0%Z, e) ->
  match d with
  | O => matched false (pre dash ++ ts)
  | S d' => exists inner g r, ts = inner ++ TPunct g :: r /\ mark ">" g /\ matched true (pre dash ++ inner)
      /\ after_dash (pre dash ++ inner) = false /\ scan end_semicolon (Z.of_nat d') false r = Some (0%Z, e)
  end.
Proof.
  induction n as [|n IH]; intros ts d dash e L H.
  { destruct ts; [|cbn in L; lia]. cbn in H. destruct d; [apply pre_matched, ma_nil|]. injection H as H _. lia. }
  destruct ts as [|t ts].
  { cbn in H. destruct d; [apply pre_matched, ma_nil|]. injection H as H _. lia. }
  cbn [List.length] in L. assert (L' : List.length ts <= n) by lia. cbn [scan] in H.
  destruct (stops end_semicolon (Z.of_nat d) dash t) eqn:St; [discriminate|]. unfold next_depth, opens, closes in H. unfold stops, opens, closes, end_semicolon in St.
  destruct (is_punct "<" t) eqn:E1.
  { destruct t as [| |l|]; try discriminate. pose proof (is_mark _ _ E1) as M.
    pose proof (mark_other _ "-"%char _ M ltac:(intro; discriminate)) as E2. rewrite E2 in H.
    replace (Z.of_nat d + 1)%Z with (Z.of_nat (S d)) in H by lia. apply IH in H; auto. destruct H as (inner & g & r & -> & Hg & Hi & Hd & H).
    rewrite app_length in L'. cbn [List.length] in L'. cbn [pre app] in Hi, Hd.
    apply IH in H; [|lia]. destruct d as [|d].
    - apply pre_matched, ma_angle; auto.
    - destruct H as (inner2 & g2 & r2 & -> & Hg2 & Hi2 & Hd2 & H). cbn [pre app] in Hi2, Hd2.
      exists (TPunct l :: inner ++ TPunct g :: inner2), g2, r2. split; [|split; [|split; [|split]]]; auto.
      + cbn [app]. rewrite <- app_assoc. reflexivity.
      + apply pre_matched, ma_angle; auto.
      + change (pre dash ++ TPunct l :: inner ++ TPunct g :: inner2) with (pre dash ++ (TPunct l :: inner) ++ TPunct g :: inner2).
        rewrite app_assoc, dash_app, dash_cons. destruct inner2; auto. eapply mark_other; eauto. intro; discriminate. }
  destruct (is_punct ">" t) eqn:E2.
  { destruct t as [| |g|]; try discriminate. pose proof (is_mark _ _ E2) as M.
    pose proof (mark_other _ "-"%char _ M ltac:(intro; discriminate)) as E3. rewrite E3 in H. destruct dash; cbn [negb andb] in H, St.
    - apply IH in H; auto. destruct d as [|d].
      + apply ma_arrow; auto. reflexivity.
      + destruct H as (inner & g2 & r & -> & Hg & Hi & Hd & H). cbn [pre app] in Hi, Hd.
        exists (TPunct g :: inner), g2, r. split; [|split; [|split; [|split]]]; auto.
        * apply ma_arrow; auto. reflexivity.
        * cbn [pre app]. rewrite !dash_cons. destruct inner; auto.
    - destruct d as [|d]; [discriminate|]. replace (Z.of_nat (S d) - 1)%Z with (Z.of_nat d) in H by lia.
      exists [], g, ts. split; [|split; [|split; [|split]]]; auto. apply ma_nil. }
  cbn [andb orb negb] in H, St. rewrite andb_true_r in St.
  assert (T : forall b x, (is_punct ";" t = true -> b = true) -> matched b (pre (is_punct "-" t) ++ x) -> matched b (t :: x)).
  { intros b x Hb Hx. destruct (is_punct "-" t) eqn:E3; cbn [pre app] in Hx.
    - destruct t as [| |p|]; try discriminate. eapply other_dash; [|apply is_mark; exact E3|exact Hx]. reflexivity.
    - apply ma_tok; auto. }
  apply IH in H; auto. destruct d as [|d].
  - apply pre_matched, T; auto. intro E3. destruct (is_punct "-" t) eqn:E4; [|cbn in St; rewrite E3 in St; discriminate].
    destruct t as [| |p|]; try discriminate. apply is_mark in E3, E4. red in E3, E4. rewrite E3 in E4. discriminate.
  - destruct H as (inner & g & r & -> & Hg & Hi & Hd & H). exists (t :: inner), g, r. split; [|split; [|split; [|split]]]; auto.
    + apply pre_matched, T; auto.
    + rewrite dash_app, dash_cons. rewrite dash_app in Hd. destruct inner; auto. destruct (is_punct "-" t); auto; discriminate.
Qed.
Lemma closed_matched v : run_closed end_semicolon v = true <-> matched false v.
Proof.
  unfold run_closed. split.
  - destruct (scan end_semicolon 0 false v) as [[d e]|] eqn:E; [|discriminate]. intro H. apply Z.eqb_eq in H. subst.
    apply (scan_matched (List.length v) v 0 false e (le_n _) E).
  - intro H. rewrite (matched_scan _ _ H 0%Z false); auto; try lia; discriminate.
Qed.

Lemma value_wf v : rust_value (ve_tokens v) -> nonempty (ve_tokens v) && run_closed end_semicolon (ve_tokens v) = true.
Proof. intros [H1 H2]. apply closed_matched in H2. rewrite H2. destruct (ve_tokens v); [congruence|reflexivity]. Qed.
Lemma constant_wf st k : rust_constant st k -> shape_constant k && (st || id_is "const" (co_kw k)) = true.
Proof.
  intros (H1 & H2 & H3 & H4 & H5 & H6 & H7 & H8 & H9). unfold shape_constant.
  rewrite (outer_wf _ H1), (if_some_wf _ _ _ vis_wf H2), (mark_is _ _ H6), (mark_is _ _ H9), H4,
    (passes_closed _ _ _ (type_passes _ _ H7) (compat_const_ty _)). cbn [andb negb some].
  assert (A : match co_equals k, co_init k with
      | Some p, Some v => p_is "=" p && nonempty (ve_tokens v) && run_closed end_semicolon (ve_tokens v)
      | Some p, None => p_is "=" p | None, None => true | None, Some _ => false end = true).
  { destruct (co_equals k), (co_init k); try contradiction; auto. destruct H8 as [A1 A2]. rewrite (mark_is _ _ A1). apply value_wf. auto. }
  rewrite A. unfold id_in. cbn [existsb].
  rewrite (name_not "async"), (name_not "unsafe"), (name_not "extern"), (name_not "fn"), (name_not "mut") by (auto; cbn; tauto). cbn.
  destruct H3 as [H3|[-> H3]]; rewrite (word_is _ _ H3); cbn; rewrite ?orb_true_r, ?andb_true_r; auto.
Qed.
Lemma alias_wf t : rust_alias t -> wf_type_alias t = true.
Proof.
  intros (H1 & H2 & H3 & H4 & H5 & H6). unfold wf_type_alias.
  rewrite (outer_wf _ H1), (if_some_wf _ _ _ vis_wf H2), (word_is _ _ H3), (mark_is _ _ H6), (if_some_wf _ _ _ (fun b => bound_wf _ _ b (compat_const_ty _)) H4).
  cbn. rewrite andb_true_r. destruct (ta_equals t), (ta_init t); try contradiction; auto. destruct H5 as [A1 A2]. rewrite (mark_is _ _ A1).
  eapply passes_closed; eauto using type_passes, compat_semicolon.
Qed.
Lemma macro_wf m : rust_macro m -> shape_macro item_keywords m = true /\ shape_macro member_keywords m = true /\ stable_macro m = true.
Proof.
  intros (H1 & H2 & H3 & H4 & H5). unfold shape_macro, stable_macro. rewrite (outer_wf _ H1), (mark_is _ _ H4). cbn [andb].
  assert (A : forall k, In k ["union"; "default"] -> id_is k (ma_name m) = false).
  { intros k Hk. unfold id_is. apply String.eqb_neq. intro E. apply H3. rewrite E. exact Hk. }
  assert (B : match ma_semicolon m with Some p => p_is ";" p && delim_eqb (gs_delim (ma_group m)) Parenthesis | None => delim_eqb (gs_delim (ma_group m)) Brace end = true).
  { destruct (ma_semicolon m); [destruct H5 as [B1 B2]; rewrite (mark_is _ _ B1); cbn [andb]|]; apply delim_is; assumption. }
  rewrite B, !andb_true_r.
  assert (C : forall l, (forall k, In k l -> In k ["union"; "default"] \/ In k (reserved ++ ["crate"; "self"; "Self"; "super"])) -> id_in l (ma_name m) = false).
  { intros l Hl. unfold id_in. destruct (existsb _ l) eqn:E; auto. apply existsb_exists in E. destruct E as (k & Hk & E).
    destruct (Hl k Hk) as [Hu|Hu]; [rewrite A in E by auto|rewrite name_not in E by auto]; discriminate. }
  rewrite !C; [auto| | |]; cbn; intuition auto.
Qed.
Lemma use_wf u : rust_use u -> wf_use u = true.
Proof.
  intros (H1 & H2 & H3 & H4 & H5). unfold wf_use. rewrite (outer_wf _ H1), (if_some_wf _ _ _ vis_wf H2), (word_is _ _ H3), (mark_is _ _ H5). cbn.
  rewrite andb_true_r. unfold run_closed.
  assert (G : forall ts b, Forall (fun t => match t with TIdent _ => True | TPunct p => mark ":" p \/ mark "*" p | TGroup g => g_delim g = Brace | TLit _ => False end) ts ->
    exists b', scan end_semicolon 0 b ts = Some (0%Z, b')).
  { clear. induction ts as [|t ts IH]; intros b F; [eexists; reflexivity|]. inversion F as [|? ? F1 F2]; subst. cbn [scan].
    assert (E : forall c, In c ["<"; ">"; ";"]%char -> is_punct c t = false).
    { intros c Hc. destruct t as [| |p|]; auto. cbn. unfold p_is, mark in *. apply Ascii.eqb_neq. destruct F1 as [F1|F1]; rewrite F1; destruct Hc as [<-|[<-|[<-|[]]]]; discriminate. }
    unfold stops, next_depth, opens, closes, end_semicolon. rewrite (E "<"%char), (E ">"%char), (E ";"%char) by (cbn; tauto).
    cbn. rewrite andb_false_r. auto. }
  destruct (G _ false H4) as [b' E]. rewrite E. reflexivity.
Qed.
Lemma extern_crate_wf c : rust_extern_crate c -> wf_extern_crate c = true.
Proof.
  intros (H1 & H2 & H3 & H4 & H5 & H6 & H7). unfold wf_extern_crate.
  rewrite (outer_wf _ H1), (if_some_wf _ _ _ vis_wf H2), (word_is _ _ H3), (word_is _ _ H4), (mark_is _ _ H7), H6. cbn. rewrite !andb_true_r.
  destruct (ec_as c), (ec_alias c); try contradiction; auto. apply word_is. auto.
Qed.
Lemma member_wf st m : rust_member st m -> shape_impl_member st m = true /\ stable_impl_member m = true.
Proof.
  destruct m as [f|k|t|m]; cbn; intro H.
  - split; auto using function_wf.
  - split; [apply constant_wf; auto|]. destruct H as (_ & _ & _ & H & _). unfold stable_constant. rewrite H. reflexivity.
  - split; auto using alias_wf.
  - apply macro_wf in H. destruct H as (_ & H1 & H2). rewrite H1, H2. auto.
Qed.
Lemma trait_member_wf m : rust_trait_member m -> shape_trait_member m = true /\ stable_trait_member m = true.
Proof. intro H. apply (member_wf false). destruct m; exact H. Qed.
Lemma trait_wf t : rust_trait t -> shape_trait t = true /\ forallb stable_trait_member (tr_items t) = true.
Proof.
  intros (H1 & H2 & H3 & H4 & H5 & H6 & H7 & H8 & H9 & H10). split; [|eapply forall_wf; [|exact H10]; intros; apply trait_member_wf; auto]. unfold shape_trait.
  rewrite (outer_wf _ H1), (if_some_wf _ _ _ vis_wf H2), (if_some_wf _ _ _ (word_is _) H3), (word_is _ _ H4), (if_some_wf _ _ _ generics_wf H5), (if_some_wf _ _ _ where_wf H7),
    (if_some_wf _ _ _ (fun b => bound_wf _ _ b (compat_supertraits _)) H6), (delim_is _ _ H8), (inner_wf _ H9).
  cbn [andb]. eapply forall_wf; [|exact H10]; intros; apply trait_member_wf; auto.
Qed.
Lemma extern_block_wf b : rust_extern_block b -> shape_extern_block b = true /\ forallb stable_impl_member (eb_items b) = true.
Proof.
  intros (H1 & H2 & H3 & H4 & H5 & H6 & H7). split; [|eapply forall_wf; [|exact H7]; intros x Hx; eapply member_wf; exact Hx]. unfold shape_extern_block.
  rewrite (outer_wf _ H1), (if_some_wf _ _ _ vis_wf H2), (if_some_wf _ _ _ (word_is _) H3), (word_is _ _ H4), (delim_is _ _ H5), (inner_wf _ H6).
  cbn [andb]. eapply forall_wf; [|exact H7]; intros; apply member_wf; auto.
Qed.
Lemma no_less (g : option generic_param_list) ts : (g = None -> ~ starts (fun t => exists p, t = TPunct p /\ mark "<" p) ts) -> some g || negb (head_is (is_punct "<") ts) = true.
Proof. intro H. destruct g; auto. cbn. rewrite (not_starts_false _ _ _ punct_less (H eq_refl)). reflexivity. Qed.
Lemma impl_wf i : rust_impl i -> shape_impl i = true /\ forallb stable_impl_member (im_items i) = true.
Proof.
  intros (H1 & H2 & H3 & H4 & H5 & H6 & H7 & H8 & H9). split; [|eapply forall_wf; [|exact H9]; intros x Hx; eapply member_wf; exact Hx]. unfold shape_impl.
  rewrite (outer_wf _ H1), (if_some_wf _ _ _ (word_is _) H2), (word_is _ _ H3), (if_some_wf _ _ _ generics_wf H4), (if_some_wf _ _ _ where_wf H6), (delim_is _ _ H7), (inner_wf _ H8).
  assert (M : forallb (shape_impl_member false) (im_items i) = true) by (eapply forall_wf; [|exact H9]; intros; apply member_wf; auto).
  rewrite M, !andb_true_r. cbn [andb]. destruct (im_trait i) as [t|], (im_for i) as [f|]; try contradiction.
  - destruct H5 as (A1 & A2 & (n & ts & A3 & A4 & A5) & A6). rewrite (word_is _ _ A1), (passes_closed _ _ _ (type_passes _ _ A2) (compat_impl_self _)), (no_less _ _ A6).
    assert (A : run_closed end_impl_header (te_tokens t) = true).
    { rewrite A5. apply (passes_closed no_for); [|apply compat_impl_header]. apply passes_app; [|apply type_passes; auto].
      destruct A3 as [->|(p & Hp & ->)]; [apply passes_nil|]. apply (passes_mark _ "!"); auto using passes_nil. cbn; tauto. }
    rewrite A. reflexivity.
  - destruct H5 as [A1 A2]. rewrite (passes_closed _ _ _ (type_passes _ _ A1) compat_impl_header), (no_less _ _ A2). reflexivity.
Qed.
Lemma each_forall l : (fix each (l : list item) : Prop := match l with [] => True | x :: r => rust_item x /\ each r end) l <-> Forall rust_item l.
Proof. induction l as [|x l IH]; split; auto; intro H; [destruct H; constructor; tauto|inversion H; subst; tauto]. Qed.
Lemma rust_ends i : rust_item i -> ends_itself i = true.
Proof. destruct i; auto. cbn. intros (_ & _ & _ & _ & _ & _ & H). destruct (st_fields s); auto. destruct H as (p & -> & _). reflexivity. Qed.
Lemma follow_before i rest : rust_item i -> head_is (is_punct ";") rest = false -> follow_ok i rest = true.
Proof.
  intros H Hr. destruct i; auto. cbn in *. destruct H as (_ & _ & _ & _ & _ & _ & H). unfold struct_follow. destruct (st_fields s); auto.
  - destruct H as (p & -> & _). reflexivity.
  - rewrite Hr. apply orb_true_r.
Qed.
Lemma item_wf i : rust_item i -> wf_item i = true.
Proof.
  unfold wf_item. induction i as [m IH|i Hi] using item_nested_ind.
  - cbn [rust_item]. rewrite each_forall. intros (H1 & H2 & H3 & H4 & H5 & H6).
    assert (A : forallb shape_item (mo_members m) = true /\ forallb stable_item (mo_members m) = true /\ members_follow (mo_members m) = true).
    { clear - IH H6. induction (mo_members m) as [|x l IHl]; auto. inversion IH; inversion H6; subst. destruct IHl as (A & B & C); auto.
      specialize (H1 H5). apply andb_true_iff in H1. destruct H1 as [D E]. cbn. rewrite A, B, C, D, E, !andb_true_r. repeat split; auto.
      apply follow_before; auto. destruct l as [|y l]; auto. cbn [flat_map]. apply print_head_semi. cbn in A. apply andb_true_iff in A. tauto. }
    destruct A as (A & B & C). cbn [shape_item stable_item]. rewrite B, C. unfold shape_module.
    rewrite (outer_wf _ H1), (if_some_wf _ _ _ vis_wf H2), (if_some_wf _ _ _ (word_is _) H3), (word_is _ _ H4). cbn [andb]. rewrite andb_true_r.
    destruct (mo_semicolon m) as [p|], (mo_braces m) as [b|]; try contradiction.
    + destruct H5 as (D & -> & ->). rewrite (mark_is _ _ D). reflexivity.
    + destruct H5 as (D & E). rewrite (delim_is _ _ D), (inner_wf _ E), A. reflexivity.
  - destruct i; cbn [rust_item shape_item stable_item]; intro H; rewrite ?andb_true_r.
    + rewrite (struct_wf _ H). destruct H as (_ & _ & _ & _ & _ & _ & H). unfold stable_struct. destruct (st_fields s); auto. rewrite H. reflexivity.
    + apply enum_wf, H.
    + apply union_wf, H.
    + exfalso. eapply Hi. reflexivity.
    + destruct (trait_wf _ H) as [-> ->]. reflexivity.
    + destruct (impl_wf _ H) as [-> ->]. reflexivity.
    + apply alias_wf, H.
    + apply function_wf, H.
    + pose proof (constant_wf _ _ H) as A. cbn [orb] in A. rewrite andb_true_r in A. rewrite A.
      destruct H as (_ & _ & _ & H & _). unfold stable_constant. rewrite H. reflexivity.
    + apply use_wf, H.
    + destruct (macro_wf _ H) as (-> & _ & ->). reflexivity.
    + destruct (extern_block_wf _ H) as [-> ->]. reflexivity.
    + apply extern_crate_wf, H.
Qed.

(** ** C74 *)
(** Every item of the fragment is parsed, and parsed into the tree that the grammar assigns to it. *)
Theorem C74_rust_items (i : item) : rust_item i -> parse_item (print_item i) = Ret (Ok i).
Proof. intro H. apply C01_print_parse_iff. split; [apply item_wf; auto|]. apply follow_before; auto. Qed.
(** A file of such items is read item by item. *)
Theorem C74_rust_files (l : list item) : Forall rust_item l -> consumes (flat_map print_item l) l [].
Proof.
  intro H. rewrite <- (app_nil_r (flat_map print_item l)). apply C15_sequence_simple; auto; apply forallb_forall; rewrite Forall_forall in H; auto using item_wf, rust_ends.
Qed.
(** A derive input of the fragment never panics and never is an error. *)
Corollary C74_no_error (i : item) p e : rust_item i -> parse_item (print_item i) <> Panic p /\ parse_item (print_item i) <> Ret (Err e).
Proof. intro H. rewrite (C74_rust_items i H). split; discriminate. Qed.

(** The hypotheses hold of: *)
Definition pair_text : string := "#[derive(Clone)] pub struct Pair<'a, T: Clone + 'a, const N: usize>(pub &'a [T], Option<Vec<<T as Tr>::Out>>, ) where for<'b> &'b T: Fn(&'b T) -> u8 + Tr<Out = u8>;".
Definition imp_text : string := "impl<T> !Tr<'a, 3> for Vec<T> { #![x] type Out = for<'b> fn(&'b T) -> Box<dyn Fn(T) -> T>; const K: u8 = 1 + 2; fn f(&self, mut n: *const u8) -> Option<T> { n } m!(a); }".
Ltac names := first [reflexivity | discriminate | unfold declared_name, segment_name; cbn; intuition discriminate].
Ltac flat := repeat first [split | apply Forall_cons | apply Forall_nil | exact I | progress cbn]; try names; try (unfold lifetime_name; right; names).
Lemma type_name F i : segment_name i -> rust_type F [TIdent i].
Proof. intros. apply ty_path, path_one, seg_name; auto. Qed.
Lemma lifetime_is q i : mark "'" q -> lifetime_name i -> lifetime_toks [TPunct q; TIdent i].
Proof. exists q, i. auto. Qed.
Lemma for_lifetime k l q i r : word "for" k -> mark "<" l -> mark "'" q -> lifetime_name i -> mark ">" r ->
  for_lifetimes [TIdent k; TPunct l; TPunct q; TIdent i; TPunct r].
Proof. intros. exists k, l, [TPunct q; TIdent i], r. repeat split; auto. apply ll_one, lifetime_is; auto. Qed.
Lemma left_for fl t : for_lifetimes fl -> rust_type no_colons t -> rust_left (fl ++ t).
Proof. intros. right. exists fl, t. auto. Qed.
Lemma separator_is p q : mark ":" p -> mark ":" q -> separator [TPunct p; TPunct q].
Proof. exists p, q. auto. Qed.
Lemma fn_head k : word "fn" k -> fn_type_head [TIdent k].
Proof. intro. exists [], [], [], k. unfold optional. auto 10. Qed.
Lemma keyword_is l i : In (id_str i) l -> keyword_in l [TIdent i].
Proof. exists i. auto. Qed.
Lemma type_of_one F i l a r : segment_name i -> mark "<" l -> rust_arg a -> mark ">" r -> rust_type F (TIdent i :: TPunct l :: a ++ [TPunct r]).
Proof. intros. apply ty_path, path_one, (seg_args _ _ [] _ _ _); auto. apply args_one. auto. Qed.
Lemma negative p ts : mark "!" p -> rust_type no_for ts ->
  exists n us, (n = [] \/ exists p, mark "!" p /\ n = [TPunct p]) /\ rust_type no_for us /\ TPunct p :: ts = n ++ us.
Proof. intros. exists [TPunct p], ts. eauto 6. Qed.
Ltac life := first [apply lifetime_is | apply for_lifetime]; try reflexivity; right; names.
Lemma pair_item : rust_item (item_of pair_text).
Proof.
  set (i := item_of pair_text). vm_compute in i. subst i. cbn [rust_item].
  unfold rust_struct, rust_outer, rust_attribute, rust_vis, rust_generics, rust_list, rust_where, rust_fields, rust_tuple_field, rust_predicate. flat.
  - eexists. split; [reflexivity|left; reflexivity].
  - apply (bounds_cons _ [_] _ [_; _]); [|reflexivity|apply bounds_one, bound_lifetime; life].
    apply (bound_trait _ [] [] [_]); auto. apply path_one, seg_name. names.
  - eexists. split; [reflexivity|]. split; [reflexivity|]. apply type_name. names.
  - apply (left_for [_; _; _; _; _] [_; _; _; _]); [life|].
    apply (ty_reference _ _ [_; _] [] [_]); [reflexivity|right; life|left; reflexivity|]. apply type_name. names.
  - apply (bounds_cons _ [_; _; _; _; _] _ [_; _; _; _; _; _]); [|reflexivity|apply bounds_one].
    + apply (bound_trait _ [] [] [_; _; _; _; _]); auto. apply path_one, seg_fn; [names|reflexivity|]. apply ret_some; try reflexivity. apply type_name. names.
    + apply (bound_trait _ [] [] [_; _; _; _; _; _]); auto. apply path_one, (seg_args _ _ [] _ [_; _; _] _); auto; try reflexivity; [names|].
      apply args_one, (arg_binding [_] _ [_]); [apply seg_name; names|reflexivity|apply type_name; names].
  - eexists. split; [reflexivity|left; reflexivity].
  - apply (ty_reference _ _ [_; _] [] [_]); [reflexivity|right; life|left; reflexivity|]. apply ty_group. discriminate.
  - intros _ _ (g & E & _). discriminate.
  - apply ty_path, path_one, (seg_args _ _ [] _ [_; _; _; _; _; _; _; _; _; _; _] _); auto; try reflexivity; [names|]. apply args_one, arg_type.
    apply ty_path, path_one, (seg_args _ _ [] _ [_; _; _; _; _; _; _; _] _); auto; try reflexivity; [names|]. apply args_one, arg_type.
    apply (ty_qualified _ _ [_; _; _] _ [_; _] [_]); try reflexivity; [|apply separator_is; reflexivity|apply path_one, seg_name; names].
    apply (self_as [_] _ [_]); [apply type_name; names|reflexivity|apply type_name; names].
  - intros (i & E & E'). injection E as <-. discriminate.
  - eexists. split; reflexivity.
Qed.
Lemma imp_item : rust_item (item_of imp_text).
Proof.
  set (i := item_of imp_text). vm_compute in i. subst i. cbn [rust_item].
  unfold rust_impl, rust_outer, rust_attribute, rust_generics, rust_list. flat.
  - apply (type_of_one _ _ _ [_]); try reflexivity; [names|]. apply arg_type, type_name. names.
  - apply negative; [reflexivity|]. apply ty_path, path_one, (seg_args _ _ [] _ [_; _; _; _] _); auto; try reflexivity; [names|].
    apply (args_cons [_; _] _ [_]); [apply arg_lifetime; life|reflexivity|apply args_one, arg_literal].
  - apply (ty_fn _ [_; _; _; _; _] [_]); [right; split; [reflexivity|life]|apply fn_head; reflexivity|reflexivity|].
    apply ret_some; try reflexivity. apply (type_of_one _ _ _ [_; _; _; _; _; _]); try reflexivity; [names|]. apply arg_type.
    apply (ty_object _ [_]); [apply keyword_is; cbn; auto|]. apply bounds_one, (bound_trait _ [] []); auto. apply path_one, seg_fn; [names|reflexivity|].
    apply ret_some; try reflexivity. apply type_name. names.
  - left. reflexivity.
  - apply type_name. names.
  - repeat (apply ma_tok; [reflexivity|reflexivity|discriminate|]). apply ma_nil.
  - apply (ty_pointer _ _ [_]); [reflexivity|apply keyword_is; cbn; auto|]. apply type_name. names.
  - apply (type_of_one _ _ _ [_]); try reflexivity; [names|]. apply arg_type, type_name. names.
Qed.
Example C74_example : Forall rust_item [item_of pair_text; item_of imp_text]
  /\ List.length (print_item (item_of pair_text)) = List.length (lex pair_text) /\ List.length (print_item (item_of imp_text)) = List.length (lex imp_text).
Proof. split; [auto using pair_item, imp_item|]. split; vm_compute; reflexivity. Qed.

(** ** C75 *)
(** The header of an impl without generics: inherent, and of a trait. *)
Definition inherent_header (k : ident) (ty : list tok) (body : group) : list tok := TIdent k :: ty ++ [TGroup body].
Definition trait_header (k : ident) (tr : list tok) (f : ident) (ty : list tok) (body : group) : list tok :=
  TIdent k :: tr ++ TIdent f :: ty ++ [TGroup body].
Definition not_less (ts : list tok) : Prop := ~ starts (fun t => exists p, t = TPunct p /\ mark "<" p) ts.
(** Full statement: whatever Rust type stands in an inherent header, it is the self type.
    False: a higher-ranked trait object has a [for] of its own, and the impl is taken for one of a trait. *)
Theorem C75_inherent_refuted : ~ forall k ty sp, word "impl" k -> rust_type anywhere ty -> not_less ty ->
  exists im, parse_item (inherent_header k ty (mkGroup Brace [] sp)) = Ret (Ok (IImpl im)) /\ im_trait im = None /\ te_tokens (im_self im) = ty.
Proof.
  intro H. pose (ts := lex "impl dyn for<'a> Tr<'a> {}"). vm_compute in ts.
  match eval cbv delta [ts] in ts with TIdent ?k :: ?r => match r with ?a :: ?b :: ?c :: ?d :: ?e :: ?f :: ?g :: ?h :: ?i :: ?j :: ?l :: _ =>
    destruct (H k [a; b; c; d; e; f; g; h; i; j; l] 24%N) as (im & E & E' & _) end end.
  - reflexivity.
  - apply (ty_object _ [_]); [apply keyword_is; cbn; auto|]. apply bounds_one, (bound_trait _ [_; _; _; _; _] []); auto; [right; split; [reflexivity|life]|].
    apply path_one, (seg_args _ _ [] _ [_; _] _); auto; try reflexivity; [names|]. apply args_one, arg_lifetime. life.
  - intros (p & E & _). discriminate.
  - vm_compute in E. injection E as <-. discriminate.
Qed.
(** Without such a [for] (outside of angle brackets and groups) it is. *)
Theorem C75_inherent k ty sp : word "impl" k -> rust_type no_for ty -> not_less ty ->
  exists im, parse_item (inherent_header k ty (mkGroup Brace [] sp)) = Ret (Ok (IImpl im)) /\ im_trait im = None /\ te_tokens (im_self im) = ty.
Proof.
  intros H1 H2 H3. set (im := mkImpl [] None k None None None (mkTypeExpr ty) None (mkGroupSpan Brace sp) [] []). exists im. split; [|split; reflexivity].
  apply (C74_rust_items (IImpl im)). cbn. unfold rust_impl, im. cbn. repeat split; auto; constructor.
Qed.
(** The header of a trait impl is split at its own [for] if the trait has none; the self type may have one. *)
Theorem C75_trait k tr f ty sp : word "impl" k -> rust_type no_for tr -> not_less tr -> word "for" f -> rust_type anywhere ty ->
  exists im, parse_item (trait_header k tr f ty (mkGroup Brace [] sp)) = Ret (Ok (IImpl im))
    /\ im_trait im = Some (mkTypeExpr tr) /\ te_tokens (im_self im) = ty.
Proof.
  intros H1 H2 H3 H4 H5. set (im := mkImpl [] None k None (Some (mkTypeExpr tr)) (Some f) (mkTypeExpr ty) None (mkGroupSpan Brace sp) [] []). exists im. split; [|split; reflexivity].
  pose proof (C74_rust_items (IImpl im)) as A. cbn [print_item] in A. unfold print_impl, im in A. cbn in A. revert A. app_norm. cbn. intro A. apply A.
  unfold rust_impl. cbn. repeat split; auto; try constructor. exists [], tr. auto.
Qed.
Example C75_example :
  let im := match item_of "impl Tr<for<'a> fn(&'a u8)> for dyn for<'a> Fn(&'a u8) {}" with IImpl im => im | _ => mkImpl [] None (mkIdent "" call_site) None None None (mkTypeExpr []) None (mkGroupSpan Brace call_site) [] [] end in
  (match im_trait im with Some t => List.length (te_tokens t) | None => 0 end) = 10 /\ List.length (te_tokens (im_self im)) = 8.
Proof. vm_compute. auto. Qed.

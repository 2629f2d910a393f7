(** C86: the restrictions of the fragment of Rust in RustSyntax.v are necessary. *)
From Verif Require Import RustAny Debug PrintSpells Complete3 Sound2 Stable Unfold Samples PropRoundTrip PropErr ScanSpec PropScan RustSyntax PropRust.
Local Open Scope string_scope.
Local Open Scope list_scope.

(** ** The relaxed grammar includes the fragment *)
Lemma syntax_any :
  (forall F ts, rust_type F ts -> rust_type anywhere ts) /\ (forall F ts, rust_return F ts -> rust_return anywhere ts) /\ (forall ts, rust_self ts -> rust_self ts)
  /\ (forall F ts, rust_path F ts -> rust_path anywhere ts) /\ (forall F ts, rust_segment F ts -> rust_segment anywhere ts) /\ (forall ts, rust_args ts -> rust_args ts)
  /\ (forall ts, rust_arg ts -> rust_arg ts) /\ (forall F ts, rust_bounds F ts -> rust_bounds anywhere ts) /\ (forall F ts, rust_bound F ts -> rust_bound anywhere ts).
Proof.
  apply rust_syntax_ind; intros;
    repeat match goal with H : _ \/ (_ /\ _) |- _ => destruct H as [->|[_ H]] end; subst;
    try solve [econstructor; eauto].
Qed.
Definition type_any := proj1 syntax_any.
Definition bounds_any : forall F ts, rust_bounds F ts -> rust_bounds anywhere ts := proj1 (proj2 (proj2 (proj2 (proj2 (proj2 (proj2 (proj2 syntax_any))))))).

(** ** What a scan passes over has the flags of the scan *)
Section Scanned.
  Variable F : flags.
  Variable P : tok -> bool.
  Hypothesis HP : compatible F P.
  Hypothesis catch_arrow : fl_arrow F = false -> forall p, mark ">" p -> P (TPunct p) = true.
  Hypothesis catch_for : fl_for F = false -> forall i, word "for" i -> P (TIdent i) = true.
  Hypothesis catch_colons : fl_colons F = false -> forall p, mark ":" p -> P (TPunct p) = true.
  Definition ok (ts : list tok) : Prop := scan P 0 false ts <> None.

  Lemma ok_left a b : ok (a ++ b) -> ok a.
  Proof. unfold ok. rewrite scan_app. destruct (scan P 0 false a); congruence. Qed.
  Lemma ok_right a b : passes F a -> ok (a ++ b) -> ok b.
  Proof. unfold ok. intro Ha. rewrite scan_app, (Ha P 0%Z); auto; lia. Qed.
  Lemma ok_sep s r : separator s -> ok (s ++ r) -> fl_colons F = true.
  Proof.
    intros (p & q & Hp & Hq & ->) H. destruct (fl_colons F) eqn:E; auto. exfalso. apply H. cbn [app scan].
    unfold stops, opens, closes. cbn. unfold p_is. rewrite (catch_colons eq_refl p Hp). red in Hp. rewrite Hp. reflexivity.
  Qed.
  Lemma ok_for fl r : for_lifetimes fl -> ok (fl ++ r) -> fl_for F = true.
  Proof.
    intros (k & l & a & g & Hk & _ & _ & _ & ->) H. destruct (fl_for F) eqn:E; auto. exfalso. apply H. cbn [app scan].
    unfold stops, opens, closes. cbn. rewrite (catch_for eq_refl k Hk). reflexivity.
  Qed.
  Lemma ok_arrow d g r : mark "-" d -> mark ">" g -> ok (TPunct d :: TPunct g :: r) -> fl_arrow F = true.
  Proof.
    intros Hd Hg H. destruct (fl_arrow F) eqn:E; auto. exfalso. apply H. cbn [scan].
    unfold stops, opens, closes, next_depth. cbn. unfold p_is. rewrite (catch_arrow eq_refl g Hg). red in Hd, Hg. rewrite Hd, Hg. cbn.
    unfold opens, closes. cbn. unfold p_is. rewrite Hd. reflexivity.
  Qed.
  Lemma ok_for_opt fl r : (fl = [] \/ for_lifetimes fl) -> ok (fl ++ r) -> (fl = [] \/ (fl_for F = true /\ for_lifetimes fl)) /\ ok r.
  Proof.
    intros [->|H] O; [split; auto|]. pose proof (ok_for _ _ H O). split; auto. apply (ok_right fl); auto using passes_for.
  Qed.
  Lemma ok_sep_opt s r : (s = [] \/ separator s) -> ok (s ++ r) -> (s = [] \/ (fl_colons F = true /\ separator s)) /\ ok r.
  Proof.
    intros [->|H] O; [split; auto|]. pose proof (ok_sep _ _ H O). split; auto. apply (ok_right s); auto using passes_sep.
  Qed.
  Lemma ok_tok t r : passes F [t] -> ok (t :: r) -> ok r. Proof. apply (ok_right [t]). Qed.
  Lemma ok_mark c p r : mark c p -> In c ["&"; "*"; "!"; "'"; "+"; "?"]%char -> ok (TPunct p :: r) -> ok r.
  Proof. intros H1 H2. apply ok_tok. eapply passes_mark; eauto using passes_nil. Qed.
  Lemma ok_name i r : segment_name i -> ok (TIdent i :: r) -> ok r.
  Proof. intros H. apply ok_tok, passes_name; auto using passes_nil. Qed.
  Lemma ok_group g r : g_delim g <> Brace -> ok (TGroup g :: r) -> ok r.
  Proof. intros H. apply ok_tok, passes_group; auto using passes_nil. Qed.

  Lemma scanned_syntax :
    (forall G ts, rust_type G ts -> ok ts -> rust_type F ts) /\ (forall G ts, rust_return G ts -> ok ts -> rust_return F ts) /\ (forall ts, rust_self ts -> rust_self ts)
    /\ (forall G ts, rust_path G ts -> ok ts -> rust_path F ts) /\ (forall G ts, rust_segment G ts -> ok ts -> rust_segment F ts) /\ (forall ts, rust_args ts -> rust_args ts)
    /\ (forall ts, rust_arg ts -> rust_arg ts) /\ (forall G ts, rust_bounds G ts -> ok ts -> rust_bounds F ts) /\ (forall G ts, rust_bound G ts -> ok ts -> rust_bound F ts).
  Proof.
    destruct rust_passes as (Pt & Pr & Ps & Pp & Pg & Pa & Par & Pbs & Pb).
    apply rust_syntax_ind;
      try solve [econstructor; eauto]; try solve [intros; econstructor; eauto].
    - intros G s ts _ Hs _ IH O. pose proof (ok_sep _ _ Hs O). apply ty_global; auto. apply IH. eapply ok_right; [|exact O]. apply passes_sep; auto.
    - intros G l q r s ts _ Hl Hq _ Hr Hs _ IH O.
      assert (A : passes F (TPunct l :: q ++ [TPunct r])) by (apply passes_angle; auto using passes_nil).
      change (TPunct l :: q ++ TPunct r :: s ++ ts) with ((TPunct l :: q) ++ TPunct r :: s ++ ts) in O.
      assert (O' : ok (s ++ ts)). { apply (ok_right _ _ A). cbn in *. rewrite <- app_assoc. exact O. }
      pose proof (ok_sep _ _ Hs O'). apply ty_qualified; auto. apply IH. eapply ok_right; [|exact O']. apply passes_sep; auto.
    - intros G a l m ts Ha Hl Hm _ IH O. apply ty_reference; auto. apply IH. eapply ok_mark in O; [|exact Ha|cbn; tauto].
      apply ok_right in O; [|eapply passes_opt; [apply passes_lifetime|auto]]. apply ok_right in O; auto.
      eapply passes_opt; [|eassumption]. intros; eapply passes_keyword; [| |eassumption]; cbn; intuition discriminate.
    - intros G a k ts Ha Hk _ IH O. apply ty_pointer; auto. apply IH. eapply ok_mark in O; [|exact Ha|cbn; tauto].
      apply ok_right in O; auto. eapply passes_keyword; [| |eassumption]; cbn; intuition discriminate.
    - intros G fl hd g ret Hf Hh Hg _ IH O. apply ok_for_opt in O; [|tauto]. destruct O as [Hf' O]. apply ty_fn; auto. apply IH.
      apply ok_right in O; [|apply passes_fn_head; auto]. eapply ok_group; [|exact O]. rewrite Hg. discriminate.
    - intros G k ts Hk _ IH O. apply ty_object; auto. apply IH. apply ok_right in O; auto. eapply passes_keyword; [| |eassumption]; cbn; intuition discriminate.
    - intros G ts b g _ IH Hb Hg O. apply ty_macro; auto. apply IH. eapply ok_left, O.
    - intros G d r ts _ Hd Hr _ IH O. pose proof (ok_arrow _ _ _ Hd Hr O). apply ret_some; auto. apply IH. apply (ok_right [TPunct d; TPunct r]); auto.
      apply passes_arrow; auto using passes_nil.
    - intros G s c r _ _ IHs Hc _ IHr O. pose proof (IHs (ok_left _ _ O)) as S'. apply ok_right in O; auto. pose proof (ok_sep _ _ Hc O).
      apply path_more; auto. apply IHr. eapply ok_right; [|exact O]. apply passes_sep; auto.
    - intros G i c l a r Hi Hc Hl Ha _ Hr O. apply ok_name in O; auto. apply ok_sep_opt in O; [|tauto]. apply seg_args; tauto.
    - intros G i g ret Hi Hg _ IH O. apply seg_fn; auto. apply IH. apply ok_name in O; auto. eapply ok_group; [|exact O]. rewrite Hg. discriminate.
    - intros G b p r _ IHb Hp _ IHr O. pose proof (IHb (ok_left _ _ O)) as S'. apply bounds_cons; auto. apply IHr. apply ok_right in O; auto.
      eapply ok_mark; [exact Hp| |exact O]. cbn; tauto.
    - intros G fl s ts Hf Hs _ IH O. apply ok_for_opt in O; [|tauto]. destruct O as [Hf' O]. apply ok_sep_opt in O; [|tauto]. destruct O. apply bound_trait; auto.
    - intros G q ts Hq _ IH O. apply bound_maybe; auto. apply IH. eapply ok_mark; [exact Hq| |exact O]. cbn; tauto.
  Qed.
End Scanned.

Lemma closed_ok P ts : run_closed P ts = true -> ok P ts.
Proof. unfold run_closed, ok. destruct (scan P 0 false ts); congruence. Qed.
Lemma type_no_arrow ts : rust_type anywhere ts -> run_closed end_param ts = true -> rust_type no_arrow ts.
Proof.
  intros H C. apply (proj1 (scanned_syntax no_arrow end_param compat_param ltac:(intros _ p E; unfold end_param; cbn; rewrite (mark_is _ _ E); apply orb_true_r) ltac:(discriminate) ltac:(discriminate)) _ _ H (closed_ok _ _ C)).
Qed.
Lemma bounds_no_arrow ts : rust_bounds anywhere ts -> run_closed end_param ts = true -> rust_bounds no_arrow ts.
Proof.
  intros H C. apply (proj1 (proj2 (proj2 (proj2 (proj2 (proj2 (proj2 (proj2 (scanned_syntax no_arrow end_param compat_param ltac:(intros _ p E; unfold end_param; cbn; rewrite (mark_is _ _ E); apply orb_true_r) ltac:(discriminate) ltac:(discriminate))))))))) _ _ H (closed_ok _ _ C)).
Qed.
Lemma type_no_colons ts : rust_type anywhere ts -> ok (is_punct ":") ts -> rust_type no_colons ts.
Proof.
  intros H C. apply (proj1 (scanned_syntax no_colons (is_punct ":") compat_colon ltac:(discriminate) ltac:(discriminate) ltac:(intros _ p E; exact (mark_is _ _ E))) _ _ H C).
Qed.
Lemma type_no_for ts : rust_type anywhere ts -> ok end_impl_header ts -> rust_type no_for ts.
Proof.
  intros H C. apply (proj1 (scanned_syntax no_for end_impl_header compat_impl_header ltac:(discriminate) ltac:(intros _ i E; unfold end_impl_header; cbn; rewrite (word_is _ _ E); reflexivity) ltac:(discriminate)) _ _ H C).
Qed.

(** ** Component by component *)
Lemma some_down {A} (X Y : A -> Prop) (f : A -> bool) o : (forall x, X x -> f x = true -> Y x) -> if_some X o -> wf_opt f o = true -> if_some Y o.
Proof. destruct o; cbn; auto. Qed.
Lemma all_down {A} (X Y : A -> Prop) (f : A -> bool) l : (forall x, X x -> f x = true -> Y x) -> Forall X l -> forallb f l = true -> Forall Y l.
Proof. intros H. induction 1; cbn; intro E; constructor; bsplit; auto. Qed.
Lemma wf_punctuated_all {A} (f : bool -> A -> bool) (p : punctuated A) : wf_punctuated f p = true -> Forall (fun x => exists b, f b (fst x) = true) (pu_inner p).
Proof.
  unfold wf_punctuated. generalize (pu_skip_last p). intros s. induction (pu_inner p) as [|[x c] l IH]; intro H; constructor.
  - cbn in *. destruct l; bsplit; eauto.
  - destruct l; [constructor|]. apply IH. cbn in *. bsplit. auto.
Qed.
Lemma list_down {A} (X Y : A -> Prop) (f : bool -> A -> bool) p : (forall b x, X x -> f b x = true -> Y x) -> rust_list X p -> wf_punctuated f p = true -> rust_list Y p.
Proof.
  intros H [S1 S2] W. split; auto. apply wf_punctuated_all in W. rewrite Forall_forall in *. intros x Hx. destruct (W x Hx) as [b E]. eapply H; [apply S2, Hx|exact E].
Qed.
Lemma bound_down b : rust_bound_of anywhere b -> wf_bound end_param b = true -> rust_bound_of no_arrow b.
Proof. intros [H1 H2] W. unfold wf_bound in W. bsplit. split; auto using bounds_no_arrow. Qed.
Lemma generic_param_down b p : any_generic_param p -> wf_generic_param b p = true -> rust_generic_param p.
Proof.
  unfold any_generic_param, rust_generic_param, wf_generic_param. intros H W. bsplit. destruct (gp_prefix p) as [[|k|q|]|]; auto.
  - destruct H as (A & B & bd & E & C & D). repeat split; auto. exists bd. rewrite E in *. cbn in *. unfold wf_bound in *. bsplit. auto using type_no_arrow.
  - destruct H as (A & B & C). repeat split; auto. eapply some_down; [|eassumption|eassumption]; apply bound_down.
  - destruct H as (B & C). split; auto. eapply some_down; [|eassumption|eassumption]; apply bound_down.
Qed.
Lemma generics_down g : any_generics g -> wf_generics g = true -> rust_generics g.
Proof. intros (A & B & C) W. unfold wf_generics in W. bsplit. split; [exact A|split; [|exact C]]. eapply list_down; [|eassumption|eassumption]; apply generic_param_down. Qed.
Lemma predicate_down b w : any_predicate w -> wf_where_predicate b w = true -> rust_predicate w.
Proof.
  intros [[L|(fl & t & Hf & Ht & E)] B] W; (split; [|exact B]); [left; exact L|]. right. exists fl, t. repeat split; auto.
  unfold wf_where_predicate in W. bsplit. apply type_no_colons; auto. apply (ok_right no_colons (is_punct ":") compat_colon fl).
  - destruct Hf as [->|Hf]; [apply passes_nil|apply passes_for; auto].
  - rewrite <- E. apply closed_ok. auto.
Qed.
Lemma where_down w : any_where w -> wf_where w = true -> rust_where w.
Proof. intros [A B] W. unfold wf_where in W. bsplit. split; auto. eapply list_down; [|eassumption|eassumption]; apply predicate_down. Qed.
Lemma starts_false (f : tok -> bool) (X : tok -> Prop) ts : (forall t, X t -> f t = true) -> head_is f ts = false -> ~ starts X ts.
Proof. destruct ts as [|t ts]; cbn; auto. intros H E S. rewrite (H t S) in E. discriminate. Qed.
Lemma tuple_field_down b f : any_tuple_field f -> wf_tuple_field b f = true -> rust_tuple_field f.
Proof.
  intros (A & B & C) W. unfold wf_tuple_field in W. bsplit. repeat split; auto.
  match goal with H : prefix_ok _ _ = true |- _ => rename H into Q end. destruct (tf_vis f) as [[t1 t2]|]; cbn in Q |- *.
  - intros -> (i & -> & E). cbn in B. apply (starts_false (is_group Parenthesis)).
    + intros t (g & -> & G). cbn. rewrite G. reflexivity.
    + cbn in Q. unfold id_is in Q. rewrite E in Q. cbn in Q. apply negb_true_iff. exact Q.
  - bsplit. apply (starts_false (is_ident "crate")); auto. intros t (i & -> & E). cbn. unfold id_is. rewrite E. reflexivity.
Qed.
Lemma fields_down f : any_fields f -> wf_fields f = true -> rust_fields f.
Proof. destruct f; auto. cbn. intros [A B] W. unfold wf_tuple_fields in W. bsplit. split; auto. eapply list_down; [|eassumption|eassumption]; apply tuple_field_down. Qed.
Ltac parts := repeat match goal with
  | |- _ /\ _ => split
  | |- if_some rust_generics _ => eapply some_down; [|eassumption|eassumption]; apply generics_down
  | |- if_some rust_where _ => eapply some_down; [|eassumption|eassumption]; apply where_down
  end; auto.
Lemma struct_down s : any_struct s -> shape_struct s = true -> rust_struct s.
Proof. intros (A1 & A2 & A3 & A4 & A5 & A6 & A7) W. unfold shape_struct in W. bsplit. unfold rust_struct. parts. apply fields_down; auto. Qed.
Lemma variant_down b v : any_variant v -> wf_variant b v = true -> rust_variant v.
Proof. intros (A1 & A2 & A3 & A4 & A5) W. unfold wf_variant in W. bsplit. unfold rust_variant. parts. apply fields_down; auto. Qed.
Lemma enum_down e : any_enum e -> wf_enum e = true -> rust_enum e.
Proof. intros (A1 & A2 & A3 & A4 & A5 & A6 & A7) W. unfold wf_enum in W. bsplit. unfold rust_enum. parts. eapply list_down; [|eassumption|eassumption]; apply variant_down. Qed.
Lemma union_down u : any_union u -> wf_union u = true -> rust_union u.
Proof. intros (A1 & A2 & A3 & A4 & A5 & A6) W. unfold wf_union in W. bsplit. unfold rust_union. parts. Qed.
Lemma param_down b p : any_param p -> wf_fn_param b p = true -> rust_param p.
Proof.
  destruct p; auto. cbn. intros (A1 & A2 & A3 & A4 & A5) W. bsplit. parts. destruct A3 as [A3|A3]; auto.
  match goal with H : id_is "self" _ = false |- _ => rewrite (word_is _ _ A3) in H; discriminate end.
Qed.
Lemma function_down f : any_function f -> wf_function f = true -> rust_function f.
Proof. intros (A1 & A2 & A3 & A4 & A5 & A6 & A7 & A8 & A9 & A10) W. unfold wf_function in W. bsplit. unfold rust_function. parts. eapply list_down; [|eassumption|eassumption]; apply param_down. Qed.
Lemma constant_down st k : any_constant st k -> shape_constant k = true -> rust_constant st k.
Proof.
  intros (A1 & A2 & A3 & A4 & A5 & A6 & A7 & A8) W. unfold shape_constant in W. bsplit. unfold rust_constant.
  assert (M : co_mut k = None).
  { destruct A3 as [[_ A3]|(_ & A3 & _)]; auto. destruct (co_mut k) as [m|]; auto. exfalso.
    match goal with H : _ || _ = true |- _ => rename H into Q end. rewrite (name_not "mut" _ A4) in Q by (cbn; tauto).
    cbn [some negb andb] in Q. rewrite !andb_false_r in Q. discriminate. }
  parts.
  - tauto.
  - destruct (co_equals k), (co_init k); auto. destruct A7 as [B1 B2]. bsplit. split; auto. split; auto. apply closed_matched. auto.
Qed.
Lemma macro_down l m : any_macro m -> shape_macro l m = true -> rust_macro m.
Proof.
  intros (A1 & A2 & A3 & A4 & A5) W. unfold shape_macro in W. bsplit. unfold rust_macro. parts. destruct (ma_semicolon m); auto. bsplit.
  split; [tauto|]. destruct (gs_delim (ma_group m)); auto; discriminate.
Qed.
Lemma member_down st m : any_member st m -> shape_impl_member st m = true -> rust_member st m.
Proof. destruct m; cbn; intros H W; bsplit; eauto using function_down, constant_down, macro_down. Qed.
Lemma trait_member_down m : any_trait_member m -> shape_trait_member m = true -> rust_trait_member m.
Proof. destruct m; cbn; intros H W; bsplit; eauto using function_down, constant_down, macro_down. Qed.
Lemma trait_down t : any_trait t -> shape_trait t = true -> rust_trait t.
Proof. intros (A1 & A2 & A3 & A4 & A5 & A6 & A7 & A8 & A9 & A10) W. unfold shape_trait in W. bsplit. unfold rust_trait. parts. eapply all_down; [|eassumption|eassumption]; apply trait_member_down. Qed.
Lemma impl_down i : any_impl i -> shape_impl i = true -> rust_impl i.
Proof.
  intros (A1 & A2 & A3 & A4 & A5 & A6 & A7 & A8 & A9) W. unfold shape_impl in W. bsplit. unfold rust_impl. parts.
  - destruct (im_trait i), (im_for i); auto.
    + destruct A5 as (B1 & B2 & (n & ts & B3 & B4 & B5) & B6). bsplit. parts. exists n, ts. parts. apply type_no_for; auto.
      apply (ok_right no_for end_impl_header compat_impl_header n).
      * destruct B3 as [->|(p & E & ->)]; [apply passes_nil|]. apply (passes_mark no_for "!"); auto using passes_nil. cbn; tauto.
      * rewrite <- B5. apply closed_ok. auto.
    + destruct A5. bsplit. parts. apply type_no_for; auto. apply closed_ok. auto.
  - eapply all_down; [|eassumption|eassumption]; apply member_down.
Qed.
Lemma extern_block_down b : any_extern_block b -> shape_extern_block b = true -> rust_extern_block b.
Proof. intros (A1 & A2 & A3 & A4 & A5 & A6 & A7) W. unfold shape_extern_block in W. bsplit. unfold rust_extern_block. parts. eapply all_down; [|eassumption|eassumption]; apply member_down. Qed.
Lemma each_any l : (fix each (l : list item) : Prop := match l with [] => True | x :: r => any_item x /\ each r end) l <-> Forall any_item l.
Proof. induction l as [|x l IH]; split; auto; intro H; [destruct H; constructor; tauto|inversion H; subst; tauto]. Qed.
Lemma item_down i : any_item i -> shape_item i = true -> rust_item i.
Proof.
  induction i as [m IH|i Hi] using item_nested_ind.
  - cbn [rust_item any_item]. rewrite each_forall, each_any. intros (A1 & A2 & A3 & A4 & A5 & A6) W. cbn in W. unfold shape_module in W. bsplit. parts.
    destruct (mo_semicolon m), (mo_braces m); bsplit; try discriminate.
    + match goal with H : mo_members m = [] |- _ => rewrite H end. constructor.
    + match goal with H : forallb shape_item _ = true |- _ => rename H into Q end. clear -IH A6 Q.
      induction IH; cbn in *; constructor; bsplit; inversion A6; auto.
  - destruct i; cbn [rust_item any_item shape_item]; eauto using struct_down, enum_down, union_down, trait_down, impl_down, function_down, constant_down, macro_down, extern_block_down.
    exfalso. eapply Hi. reflexivity.
Qed.

(** ** The fragment is part of the relaxed grammar *)
Lemma some_up {A} (X Y : A -> Prop) o : (forall x, X x -> Y x) -> if_some X o -> if_some Y o.
Proof. destruct o; cbn; auto. Qed.
Lemma list_up {A} (X Y : A -> Prop) p : (forall x, X x -> Y x) -> rust_list X p -> rust_list Y p.
Proof. intros H [S1 S2]. split; auto. eapply Forall_impl; [|exact S2]. intros a Ha. apply H, Ha. Qed.
Lemma bound_up F b : rust_bound_of F b -> rust_bound_of anywhere b.
Proof. intros [A B]. split; auto. eapply bounds_any, B. Qed.
Lemma generic_param_up p : rust_generic_param p -> any_generic_param p.
Proof.
  unfold any_generic_param, rust_generic_param. destruct (gp_prefix p) as [[|k|q|]|]; auto.
  - intros (A & B & bd & E & C & D). repeat split; auto. exists bd. repeat split; auto. eapply type_any, D.
  - intros (A & B & C). repeat split; auto. eapply some_up; [|exact C]. apply bound_up.
  - intros (B & C). split; auto. eapply some_up; [|exact C]. apply bound_up.
Qed.
Lemma generics_up g : rust_generics g -> any_generics g.
Proof. intros (A & B & C). split; [exact A|split; [|exact C]]. eapply list_up; [|exact B]. apply generic_param_up. Qed.
Lemma predicate_up w : rust_predicate w -> any_predicate w.
Proof. intros [[L|(fl & t & Hf & Ht & E)] B]; (split; [|exact B]); [left; exact L|]. right. exists fl, t. repeat split; auto. eapply type_any, Ht. Qed.
Lemma where_up w : rust_where w -> any_where w.
Proof. intros [A B]. split; auto. eapply list_up; [|exact B]. apply predicate_up. Qed.
Lemma tuple_field_up f : rust_tuple_field f -> any_tuple_field f. Proof. intros (A & B & C & _). repeat split; auto. Qed.
Lemma fields_up f : rust_fields f -> any_fields f.
Proof. destruct f; auto. cbn. intros [A B]. split; auto. eapply list_up; [|exact B]. apply tuple_field_up. Qed.
Ltac ups := repeat match goal with
  | |- _ /\ _ => split
  | |- if_some any_generics _ => eapply some_up; [|eassumption]; apply generics_up
  | |- if_some any_where _ => eapply some_up; [|eassumption]; apply where_up
  | |- any_fields _ => apply fields_up
  end; auto.
Lemma variant_up v : rust_variant v -> any_variant v.
Proof. intros (A1 & A2 & A3 & A4 & A5). unfold any_variant. ups. Qed.
Lemma param_up p : rust_param p -> any_param p.
Proof. destruct p; auto. cbn. intros (A1 & A2 & A3 & A4 & A5). ups. Qed.
Lemma function_up f : rust_function f -> any_function f.
Proof. intros (A1 & A2 & A3 & A4 & A5 & A6 & A7 & A8 & A9 & A10). unfold any_function. ups. eapply list_up; [|exact A7]. apply param_up. Qed.
Lemma constant_up st k : rust_constant st k -> any_constant st k.
Proof.
  intros (A1 & A2 & A3 & A4 & A5 & A6 & A7 & A8 & A9). unfold any_constant. ups.
  - destruct A3 as [A3|[A3 B]]; [left; auto|right]. rewrite A4. cbn. auto.
  - destruct (co_equals k), (co_init k); auto. destruct A8 as [B1 [B2 B3]]. split; auto.
Qed.
Lemma macro_up m : rust_macro m -> any_macro m.
Proof. intros (A1 & A2 & A3 & A4 & A5). unfold any_macro. ups. destruct (ma_semicolon m); tauto. Qed.
Lemma member_up st m : rust_member st m -> any_member st m.
Proof. destruct m; cbn; auto using function_up, constant_up, macro_up. Qed.
Lemma trait_member_up m : rust_trait_member m -> any_trait_member m.
Proof. destruct m; cbn; auto using function_up, constant_up, macro_up. Qed.
Lemma impl_up i : rust_impl i -> any_impl i.
Proof.
  intros (A1 & A2 & A3 & A4 & A5 & A6 & A7 & A8 & A9). unfold any_impl. ups.
  - destruct (im_trait i), (im_for i); auto.
    + destruct A5 as (B1 & B2 & (n & ts & B3 & B4 & B5) & B6). ups. exists n, ts. ups. eapply type_any, B4.
    + destruct A5. ups. eapply type_any. eassumption.
  - eapply Forall_impl; [|exact A9]. apply member_up.
Qed.
Lemma item_up i : rust_item i -> any_item i.
Proof.
  induction i as [m IH|i Hi] using item_nested_ind.
  - cbn [rust_item any_item]. rewrite each_forall, each_any. intros (A1 & A2 & A3 & A4 & A5 & A6). ups.
    clear -IH A6. induction IH; cbn in *; constructor; inversion A6; auto.
  - destruct i; cbn [rust_item any_item]; auto using function_up, constant_up, macro_up, impl_up.
    + intros (A1 & A2 & A3 & A4 & A5 & A6 & A7). unfold any_struct. ups.
    + intros (A1 & A2 & A3 & A4 & A5 & A6 & A7). unfold any_enum. ups. eapply list_up; [|exact A7]. apply variant_up.
    + intros (A1 & A2 & A3 & A4 & A5 & A6). unfold any_union. ups.
    + exfalso. eapply Hi. reflexivity.
    + intros (A1 & A2 & A3 & A4 & A5 & A6 & A7 & A8 & A9 & A10). unfold any_trait. ups. eapply Forall_impl; [|exact A10]. apply trait_member_up.
    + intros (A1 & A2 & A3 & A4 & A5 & A6 & A7). unfold any_extern_block. ups. eapply Forall_impl; [|exact A7]. apply member_up.
Qed.

(** ** C86 *)
(** An item of the relaxed grammar is read back if and only if it meets the restrictions. *)
Theorem C86_exactly (i : item) : any_item i -> (parse_item (print_item i) = Ret (Ok i) <-> rust_item i).
Proof.
  intro A. split.
  - intro H. apply C01_print_parse_iff in H. destruct H as [H _]. apply item_down; auto. unfold wf_item in H. bsplit. auto.
  - apply C74_rust_items.
Qed.
(** The restrictions only take away. *)
Theorem C86_restricts (i : item) : rust_item i -> any_item i. Proof. apply item_up. Qed.

(** No restriction may be dropped: for each one, an item that breaks it and is not read back.
    [C24], [C23], [C75], [C19], [C20], [C85], [C21], [C22], [C69] in this order. *)
Definition nm (s : string) : ident := mkIdent s call_site.
Definition pc (c : ascii) : punct := mkPunct c Alone call_site.
Definition just {A} (x : A) : punctuated A := mkPunctuated [(x, pc ",")] true.
Definition gsp (d : delimiter) : group_span := mkGroupSpan d call_site.
Definition fn_with (g : option generic_param_list) (ps : punctuated fn_param) (w : option where_clause) : item :=
  IFunction (mkFunction [] None (mkFnQualifiers None None None None None None) (nm "fn") (nm "f") g (gsp Parenthesis) ps w None None None
    (Some (mkGroup Brace [] call_site))).
Definition no_params : punctuated fn_param := mkPunctuated [] false.
Definition tuple_with (v : option vis_marker) (ty : string) : item :=
  IStruct (mkStruct [] None (nm "struct") (nm "S") None None (FTuple (mkTupleFields (just (mkTupleField [] v (mkTypeExpr (lex ty)))) (gsp Parenthesis))) (Some (pc ";"))).
Definition const_with (kw : string) (m : option ident) (v : string) : item :=
  IConstant (mkConstant [] None (nm kw) m (nm "K") (pc ":") (mkTypeExpr (lex "u8")) (Some (pc "=")) (Some (mkValueExpr (lex v))) (pc ";")).
Definition unrestricted : list item :=
  [ fn_with (Some (mkGenericParamList (pc "<") (just (mkGenericParam None (nm "F") (Some (mkBound (pc ":") (lex "Fn(u8) -> u8"))))) (pc ">"))) no_params None
  ; fn_with None no_params (Some (mkWhereClause (nm "where") (just (mkWherePredicate (lex "T::A") (mkBound (pc ":") (lex "Copy"))))))
  ; IImpl (mkImpl [] None (nm "impl") None None None (mkTypeExpr (lex "for<'a> fn(&'a u8)")) None (gsp Brace) [] [])
  ; tuple_with None "crate::A"
  ; tuple_with (Some (mkVis (TIdent (nm "pub")) None)) "(A, B)"
  ; const_with "const" None "1 << 3"
  ; const_with "static" (Some (nm "mut")) "1"
  ; fn_with None (just (FPTyped (mkTyped [] None (nm "self") (pc ":") (mkTypeExpr (lex "Box<Self>"))))) None
  ; IMacro (mkMacro [] (nm "m") (pc "!") None (gsp Bracket) [] (Some (pc ";"))) ].
Lemma type_of_path F a p q b : segment_name a -> mark ":" p -> mark ":" q -> segment_name b -> fl_colons F = true -> rust_type F [TIdent a; TPunct p; TPunct q; TIdent b].
Proof.
  intros. apply ty_path, (path_more _ [_] [_; _] [_]); auto using separator_is; [apply seg_name; auto|apply path_one, seg_name; auto].
Qed.
Lemma unrestricted_any : Forall any_item unrestricted.
Proof.
  set (l := unrestricted). vm_compute in l. subst l.
  repeat apply Forall_cons; try apply Forall_nil; cbn [any_item];
    unfold any_struct, any_function, any_constant, any_macro, any_impl, any_fields, any_value, rust_outer, rust_vis, any_generics, any_param, rust_list, any_where, any_predicate, any_tuple_field, rust_qualifiers; flat.
  - apply bounds_one, (bound_trait _ [] [] [_; _; _; _; _]); auto. apply path_one, seg_fn; [names|reflexivity|]. apply ret_some; try reflexivity. apply type_name. names.
  - right. exists [], [TIdent (mkIdent "T" 1%N); TPunct (mkPunct ":" Joint 2%N); TPunct (mkPunct ":" Alone 3%N); TIdent (mkIdent "A" 4%N)].
    split; [auto|split; [|reflexivity]]. apply type_of_path; names.
  - apply bounds_one, (bound_trait _ [] [] [_]); auto. apply path_one, seg_name. names.
  - apply (ty_fn _ [_; _; _; _; _] [_]); [right; split; [reflexivity|life]|apply fn_head; reflexivity|reflexivity|]. apply ret_none.
  - intros _ (p & E & _). discriminate.
  - apply type_of_path; names.
  - eexists. split; reflexivity.
  - exists (nm "pub"). split; [reflexivity|left; reflexivity].
  - apply ty_group. discriminate.
  - eexists. split; reflexivity.
  - left. split; reflexivity.
  - apply type_name. names.
  - right. repeat split; reflexivity.
  - apply type_name. names.
  - apply (type_of_one _ _ _ [_]); try reflexivity; [names|]. apply arg_type, type_name. names.
Qed.
Theorem C86_needed : Forall (fun i => any_item i /\ ~ rust_item i) unrestricted.
Proof.
  assert (N : Forall (fun i => parse_item (print_item i) <> Ret (Ok i)) unrestricted).
  { set (l := unrestricted). vm_compute in l. subst l. repeat apply Forall_cons; try apply Forall_nil; vm_compute; discriminate. }
  pose proof unrestricted_any as A. rewrite Forall_forall in *. intros i Hi. split; auto. intro R. apply (N i Hi). apply C86_exactly; auto.
Qed.
(** An item with all kinds of types meets them all. *)
Example C86_example : any_item (item_of pair_text) /\ any_item (item_of imp_text) /\ parse_item (print_item (item_of pair_text)) = Ret (Ok (item_of pair_text)).
Proof. split; [|split]; [apply C86_restricts, pair_item|apply C86_restricts, imp_item|]. apply C86_exactly; [apply C86_restricts|]; apply pair_item. Qed.
Print Assumptions C86_exactly.

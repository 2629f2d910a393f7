(** C59-C61: Debug output, spacing of constructed lifetimes. *)
From Verif Require Import Unfold Samples Edit Debug PropRoundTrip PropPunct PropShape.
Local Open Scope string_scope.
Local Open Scope list_scope.

(** ** C59: formatting never panics *)
(** Nothing inside panics. *)
Fixpoint dbg_ok (d : dbg) : bool :=
  match d with
  | DText _ => true
  | DStruct _ fs => forallb (fun f => dbg_ok (snd f)) fs
  | DTuple _ fs => forallb dbg_ok fs
  | DList l => forallb dbg_ok l
  | DPrefix _ d => dbg_ok d
  | DPanic => false
  end.
Lemma all_ret_map {A} (f : A -> outcome string) (ok : A -> bool) l :
  (forall x, In x l -> if ok x then exists s, f x = Ret s else f x = Panic PUnreachable) ->
  if forallb ok l then exists r, all_ret (map f l) = Ret r else all_ret (map f l) = Panic PUnreachable.
Proof.
  induction l as [|x l IH]; intro H; cbn; [eauto|]. pose proof (H x (or_introl eq_refl)) as Hx.
  destruct (ok x); cbn; [|rewrite Hx; reflexivity]. destruct Hx as [s ->]. cbn.
  assert (IH' := IH (fun y Hy => H y (or_intror Hy))). destruct (forallb ok l); [destruct IH' as [r ->]; cbn; eauto|rewrite IH'; reflexivity].
Qed.
(** Induction over a description. *)
Lemma dbg_rect' (P : dbg -> Prop)
  (Ht : forall s, P (DText s))
  (Hs : forall n fs, (forall x, In x fs -> P (snd x)) -> P (DStruct n fs))
  (Hu : forall n fs, (forall x, In x fs -> P x) -> P (DTuple n fs))
  (Hl : forall l, (forall x, In x l -> P x) -> P (DList l))
  (Hp : forall s d, P d -> P (DPrefix s d))
  (Hx : P DPanic) : forall d, P d.
Proof.
  fix IH 1. intros [s|n fs|n fs|l|s d|]; [apply Ht|apply Hs|apply Hu|apply Hl|apply Hp, IH|apply Hx].
  - induction fs as [|y fs IHf]; [contradiction|]. intros x [<-|Hi]; [apply IH|apply IHf, Hi].
  - induction fs as [|y fs IHf]; [contradiction|]. intros x [<-|Hi]; [apply IH|apply IHf, Hi].
  - induction l as [|y l IHf]; [contradiction|]. intros x [<-|Hi]; [apply IH|apply IHf, Hi].
Qed.
(** [f] returns on [d] if nothing inside panics, and panics otherwise. *)
Definition formats (f : dbg -> outcome string) (d : dbg) : Prop :=
  if dbg_ok d then exists s, f d = Ret s else f d = Panic PUnreachable.
Lemma formats_field f x : formats f (snd x) ->
  if dbg_ok (snd x) then exists s, (do s <- f (snd x) ;; Ret (fst x ++ ": " ++ s)%string) = Ret s
  else (do s <- f (snd x) ;; Ret (fst x ++ ": " ++ s)%string) = Panic PUnreachable.
Proof. unfold formats. destruct (dbg_ok (snd x)); [intros [s ->]; cbn; eauto|intros ->; reflexivity]. Qed.
Ltac finish_formats G := destruct (forallb _ _); [destruct G as [? G]; rewrite G; cbn; eauto|rewrite G; reflexivity].
Lemma pretty_formats d : formats pretty d.
Proof.
  induction d as [s|n fs IH|n fs IH|l IH|s d IH|] using dbg_rect'; unfold formats; cbn [dbg_ok]; try (cbn; eauto; fail).
  - pose proof (all_ret_map _ _ fs (fun x Hx => formats_field pretty x (IH x Hx))) as G.
    destruct fs as [|f fs]; [cbn; eauto|]. cbn [pretty]. finish_formats G.
  - pose proof (all_ret_map _ _ fs IH) as G. destruct fs as [|f fs]; [cbn; eauto|]. cbn [pretty]. finish_formats G.
  - pose proof (all_ret_map _ _ l IH) as G. destruct l as [|f fs]; [cbn; eauto|]. cbn [pretty]. finish_formats G.
  - unfold formats in IH. cbn [pretty]. destruct (dbg_ok d); [destruct IH as [t ->]; cbn; eauto|rewrite IH; reflexivity].
Qed.
Lemma plain_formats d : formats plain d.
Proof.
  induction d as [s|n fs IH|n fs IH|l IH|s d IH|] using dbg_rect'; unfold formats; cbn [dbg_ok]; try (cbn; eauto; fail).
  - pose proof (all_ret_map _ _ fs (fun x Hx => formats_field plain x (IH x Hx))) as G.
    destruct fs as [|f fs]; [cbn; eauto|]. cbn [plain]. finish_formats G.
  - pose proof (all_ret_map _ _ fs IH) as G. destruct fs as [|f fs]; [cbn; eauto|]. cbn [plain]. finish_formats G.
  - pose proof (all_ret_map _ _ l IH) as G. cbn [plain]. finish_formats G.
  - unfold formats in IH. cbn [plain]. destruct (dbg_ok d); [destruct IH as [t ->]; cbn; eauto|rewrite IH; reflexivity].
Qed.
Lemma dbg_ok_spec d : formats pretty d /\ formats plain d.
Proof. split; [apply pretty_formats|apply plain_formats]. Qed.

(** Parts without a visibility. *)
Lemma forallb_true {A} (f : A -> bool) l : (forall x, f x = true) -> forallb f l = true.
Proof. intro H. induction l; cbn; rewrite ?H; auto. Qed.
Lemma forallb_map {A B} (f : B -> bool) (g : A -> B) l : forallb f (map g l) = forallb (fun x => f (g x)) l.
Proof. induction l; cbn; congruence. Qed.
Lemma tok_ok : forall t, dbg_ok (debug_tok t) = true.
Proof.
  fix IH 1. intros [[d s sp]|i|p|l]; cbn; auto. rewrite andb_true_r.
  induction s as [|x s IHs]; cbn; [auto|]. rewrite IH. exact IHs.
Qed.
Lemma ref_ok t : dbg_ok (debug_ref t) = true.
Proof. destruct t; auto. apply (tok_ok (TGroup g)). Qed.
Lemma tokens_ok ts : dbg_ok (debug_tokens ts) = true.
Proof. cbn. rewrite forallb_map. apply forallb_true, ref_ok. Qed.
Lemma opt_ok {A} (d : A -> dbg) o : (forall x, dbg_ok (d x) = true) -> dbg_ok (debug_opt d o) = true.
Proof. intro H. destruct o; cbn; rewrite ?H; auto. Qed.
Lemma vec_ok {A} (d : A -> dbg) l : (forall x, dbg_ok (d x) = true) -> dbg_ok (debug_vec d l) = true.
Proof. intro H. cbn. rewrite forallb_map. apply forallb_true, H. Qed.
Lemma pu_ok {A} (d : A -> dbg) l : (forall x, dbg_ok (d x) = true) -> dbg_ok (debug_punctuated d l) = true.
Proof. intro H. cbn. rewrite forallb_map. apply forallb_true. intro x. apply H. Qed.
Lemma punct_ok p : dbg_ok (debug_punct p) = true. Proof. reflexivity. Qed.
Lemma ident_ok i : dbg_ok (debug_ident i) = true. Proof. reflexivity. Qed.
Lemma literal_ok i : dbg_ok (debug_literal i) = true. Proof. reflexivity. Qed.
Lemma gs_ok i : dbg_ok (debug_group_span i) = true. Proof. reflexivity. Qed.
Lemma string_ok i : dbg_ok (debug_string i) = true. Proof. reflexivity. Qed.
Lemma attribute_ok a : dbg_ok (debug_attribute a) = true.
Proof.
  unfold debug_attribute. assert (H : dbg_ok (debug_attribute_value (at_value a)) = true).
  { destruct (at_value a); cbn [debug_attribute_value dbg_ok forallb]; rewrite ?tokens_ok; reflexivity. }
  cbn [dbg_ok forallb]. rewrite forallb_app. destruct (at_bang a); cbn [forallb snd]; rewrite ?gs_ok, ?punct_ok, ?tokens_ok, ?H; reflexivity.
Qed.
Lemma attrs_ok l : dbg_ok (debug_vec debug_attribute l) = true.
Proof. apply vec_ok, attribute_ok. Qed.
Lemma bound_ok b : dbg_ok (debug_bound b) = true. Proof. apply tokens_ok. Qed.
Lemma generics_ok o : dbg_ok (debug_opt debug_generic_params o) = true.
Proof.
  apply opt_ok. intro g. apply pu_ok. intro p. unfold debug_generic_param. cbn [dbg_ok]. rewrite forallb_app.
  cbn [forallb snd]. rewrite string_ok, (opt_ok debug_bound _ bound_ok). destruct (gp_prefix p); reflexivity.
Qed.
Lemma where_ok o : dbg_ok (debug_opt debug_where o) = true.
Proof. apply opt_ok. intro w. apply pu_ok. intro p. apply tokens_ok. Qed.
Lemma type_ok t : dbg_ok (debug_type t) = true. Proof. apply tokens_ok. Qed.
Lemma value_ok t : dbg_ok (debug_value t) = true. Proof. apply tokens_ok. Qed.
Lemma group_ok g : dbg_ok (debug_group g) = true. Proof. apply tok_ok. Qed.
Lemma param_ok p : dbg_ok (debug_param p) = true.
Proof.
  destruct p; cbn [debug_param dbg_ok forallb snd]; rewrite ?attrs_ok, ?type_ok, ?(opt_ok _ _ punct_ok), ?(opt_ok _ _ ident_ok); auto.
  rewrite opt_ok; reflexivity.
Qed.
Lemma params_ok p : dbg_ok (debug_punctuated debug_param p) = true.
Proof. apply pu_ok, param_ok. Qed.
Lemma qualifiers_ok q : dbg_ok (debug_qualifiers q) = true.
Proof. cbn [debug_qualifiers dbg_ok forallb snd]. rewrite !(opt_ok _ _ ident_ok), (opt_ok _ _ literal_ok). reflexivity. Qed.
Lemma macro_ok m : dbg_ok (debug_macro m) = true.
Proof.
  cbn [debug_macro dbg_ok forallb snd]. rewrite attrs_ok, punct_ok, ident_ok, gs_ok, (opt_ok _ _ ident_ok), (opt_ok _ _ punct_ok), (vec_ok _ _ tok_ok). reflexivity.
Qed.

(** A visibility is what can go wrong. *)
Lemma vis_ok v : dbg_ok (debug_vis v) = vis_debug_ok v.
Proof.
  unfold debug_vis, vis_debug_ok. destruct (vis_token2 v) as [[g|i|p|l]|]; auto. cbn. rewrite forallb_map.
  apply forallb_true, ref_ok.
Qed.
Lemma opt_vis_ok o : dbg_ok (debug_opt debug_vis o) = forallb vis_debug_ok (opt_list o).
Proof. destruct o; cbn; rewrite ?vis_ok; reflexivity. Qed.
Ltac oks := cbn [dbg_ok forallb snd fst];
  rewrite ?attrs_ok, ?opt_vis_ok, ?generics_ok, ?where_ok, ?type_ok, ?punct_ok, ?ident_ok, ?gs_ok, ?params_ok, ?qualifiers_ok,
    ?(opt_ok _ _ punct_ok), ?(opt_ok _ _ ident_ok), ?(opt_ok _ _ literal_ok), ?(opt_ok _ _ type_ok), ?(opt_ok _ _ value_ok), ?(opt_ok _ _ bound_ok), ?(opt_ok _ _ group_ok),
    ?andb_true_r; cbn [andb]; rewrite ?andb_true_r.
Lemma forallb_flat_map {A B} (f : B -> bool) (g : A -> list B) l : forallb f (flat_map g l) = forallb (fun x => forallb f (g x)) l.
Proof. induction l; cbn; [auto|]. rewrite forallb_app, IHl. reflexivity. Qed.
Lemma forallb_ext {A} (f g : A -> bool) l : (forall x, f x = g x) -> forallb f l = forallb g l.
Proof. intro H. induction l; cbn; rewrite ?H; congruence. Qed.
Lemma fields_ok f : dbg_ok (debug_fields f) = forallb vis_debug_ok (fields_vis f).
Proof.
  destruct f as [|f|f]; [reflexivity| |]; cbn [debug_fields dbg_ok forallb fields_vis];
    unfold debug_tuple_fields, debug_named_fields, debug_punctuated, pu_items; cbn [dbg_ok]; rewrite andb_true_r, forallb_map, forallb_flat_map, forallb_map;
    apply forallb_ext; intro x; unfold debug_tuple_field, debug_named_field; oks; reflexivity.
Qed.
Lemma constant_ok c : dbg_ok (debug_constant c) = forallb vis_debug_ok (opt_list (co_vis c)).
Proof. unfold debug_constant. oks. reflexivity. Qed.
Lemma alias_ok c : dbg_ok (debug_type_alias c) = forallb vis_debug_ok (opt_list (ta_vis c)).
Proof. unfold debug_type_alias. oks. reflexivity. Qed.
Lemma function_ok f : dbg_ok (debug_function f) = forallb vis_debug_ok (opt_list (fn_vis f)).
Proof. unfold debug_function. oks. rewrite opt_ok by reflexivity. rewrite ?andb_true_r. reflexivity. Qed.
Lemma member_ok m : dbg_ok (debug_impl_member m) = forallb vis_debug_ok (member_vis m).
Proof. destruct m; cbn [debug_impl_member dbg_ok forallb member_vis]; rewrite andb_true_r; [apply function_ok|apply constant_ok|apply alias_ok|apply macro_ok]. Qed.
Lemma trait_member_ok m : dbg_ok (debug_trait_member m) = forallb vis_debug_ok (member_vis (impl_of_trait_member m)).
Proof. rewrite <- member_ok. destruct m; reflexivity. Qed.
Lemma item_ok : forall i, dbg_ok (debug_item i) = forallb vis_debug_ok (all_vis i).
Proof.
  fix IH 1. intros [s|e|u|m|t|im|t|f|k|u|m|b|k]; cbn [debug_item dbg_ok forallb all_vis item_vis]; rewrite ?andb_true_r.
  - unfold debug_struct. oks. rewrite fields_ok, forallb_app. destruct (st_vis s); reflexivity.
  - unfold debug_enum. oks. rewrite forallb_app, forallb_flat_map. unfold debug_punctuated, pu_items. cbn [dbg_ok]. rewrite !forallb_map.
    assert (V : forall v, dbg_ok (debug_variant v) = forallb vis_debug_ok (opt_list (ev_vis v) ++ fields_vis (ev_fields v))).
    { intro v. unfold debug_variant. oks. rewrite fields_ok, forallb_app, opt_ok, ?andb_true_r; [reflexivity|].
      intro w. cbn [debug_variant_value dbg_ok forallb snd]. rewrite tok_ok, punct_ok. reflexivity. }
    rewrite (forallb_ext _ _ _ (fun x => V (fst x))). reflexivity.
  - unfold debug_union. oks. rewrite forallb_app.
    pose proof (fields_ok (FNamed (un_fields u))) as H. cbn [debug_fields dbg_ok forallb] in H. rewrite andb_true_r in H. rewrite H.
    destruct (un_vis u); reflexivity.
  - destruct m as [at_ vis un kw name semi braces inner members]. cbn [dbg_ok forallb mo_vis mo_members]. rewrite forallb_app, forallb_flat_map. oks. rewrite opt_ok by reflexivity.
    assert (G : forallb dbg_ok (map debug_item members) = forallb (fun x => forallb vis_debug_ok (all_vis x)) members).
    { induction members as [|j l IHl]; [reflexivity|]. cbn [map forallb]. rewrite (IH j), IHl. reflexivity. }
    rewrite G. cbn [andb]. destruct vis; reflexivity.
  - unfold debug_trait. oks. rewrite forallb_app, forallb_flat_map. unfold debug_vec. cbn [dbg_ok]. rewrite forallb_map.
    rewrite (forallb_ext _ _ _ trait_member_ok). destruct (tr_vis t); reflexivity.
  - unfold debug_impl. oks. cbn [app]. rewrite forallb_flat_map. unfold debug_vec. cbn [dbg_ok]. rewrite forallb_map.
    apply forallb_ext, member_ok.
  - rewrite alias_ok, app_nil_r. destruct (ta_vis t); reflexivity.
  - rewrite function_ok, app_nil_r. destruct (fn_vis f); reflexivity.
  - rewrite constant_ok, app_nil_r. destruct (co_vis k); reflexivity.
  - unfold debug_use. oks. rewrite app_nil_r. destruct (us_vis u); reflexivity.
  - apply macro_ok.
  - unfold debug_extern_block. oks. rewrite forallb_app, forallb_flat_map. unfold debug_vec. cbn [dbg_ok]. rewrite forallb_map.
    rewrite (forallb_ext _ _ _ member_ok). destruct (eb_vis b); reflexivity.
  - unfold debug_extern_crate. oks. rewrite app_nil_r. destruct (ec_vis k); reflexivity.
Qed.
(** Both forms return a text exactly when the second token of every visibility in the tree
    is a group (or absent), and panic otherwise. *)
Theorem C59_debug_iff (i : item) :
  let good := forall v, In v (all_vis i) -> vis_token2 v = None \/ exists g, vis_token2 v = Some (TGroup g) in
  ((exists s, pretty (debug_item i) = Ret s) <-> good)
  /\ ((exists s, plain (debug_item i) = Ret s) <-> good)
  /\ (~ good -> pretty (debug_item i) = Panic PUnreachable /\ plain (debug_item i) = Panic PUnreachable).
Proof.
  cbn zeta. set (good := forall v, _).
  assert (G : dbg_ok (debug_item i) = true <-> good).
  { rewrite item_ok, forallb_forall. unfold good, vis_debug_ok.
    split; intros H v Hv; specialize (H v Hv); destruct (vis_token2 v) as [[g| | |]|]; auto; try discriminate; eauto.
    - destruct H as [H|[? H]]; discriminate.
    - destruct H as [H|[? H]]; discriminate.
    - destruct H as [H|[? H]]; discriminate. }
  destruct (dbg_ok_spec (debug_item i)) as [H1 H2]. unfold formats in *. destruct (dbg_ok (debug_item i)).
  - repeat split; intros; try apply G; auto; exfalso; apply H; apply G; reflexivity.
  - assert (N : ~ good) by (intro X; apply G in X; discriminate).
    repeat split; auto; intro X; exfalso; auto; destruct X as [? X]; congruence.
Qed.
Theorem C59_parsed (ts rest : list tok) (i : item) :
  consume_item ts = Ret (Ok i, rest) ->
  (exists s, pretty (debug_item i) = Ret s) /\ (exists s, plain (debug_item i) = Ret s).
Proof.
  intro H. destruct (C59_debug_iff i) as (H1 & H2 & _). rewrite H1, H2. split; intros v Hv;
  destruct (C18_visibilities _ _ _ _ H Hv) as [(k & -> & _)|(k & s & sp & -> & _)]; cbn; eauto.
Qed.
Example C59_example :
  plain (debug_item (item_of "pub(in a) use b::{c};")) = Ret
"UseDeclaration(UseDeclaration { attributes: [], vis_marker: Some(pub(in, a)), tk_use: Ident(use), import_tree: [b, "":"", "":"", Group { delimiter: Brace, stream: TokenStream [Ident { sym: c }] }], tk_semicolon: Punct { char: ';', spacing: Alone } })"
  /\ (exists v, vis_token2 v = Some (TIdent (mkIdent "x" 1%N)) /\ pretty (debug_vis v) = Panic PUnreachable)
  /\ exists s, pretty (debug_item rich_module) = Ret s.
Proof.
  split; [reflexivity|split]; [exists (mkVis (TIdent (mkIdent "pub" 1%N)) (Some (TIdent (mkIdent "x" 1%N)))); split; reflexivity|].
  eapply C59_parsed with (ts := lex rich_text) (rest := []). vm_compute. reflexivity.
Qed.

(** ** C60: constructed lifetimes *)
(** A lifetime token: an apostrophe joint to a name. *)
Definition lifetime_tokens (name : string) (ts : list tok) : Prop :=
  exists q i r, ts = TPunct q :: TIdent i :: r /\ p_char q = "'"%char /\ p_spacing q = Joint /\ id_str i = name.
Theorem C60_lifetime (name : string) : lifetime_tokens name (print_generic_param (gp_lifetime name)).
Proof. unfold lifetime_tokens. cbn. eexists _, _, _. split; [reflexivity|auto]. Qed.
(** A bounded one is not: its apostrophe stands alone, whatever the name and the bound. *)
Theorem C60_bounded_lifetime_refuted (name other : string) (bound : list tok) :
  ~ lifetime_tokens other (print_generic_param (gp_bounded_lifetime name bound)).
Proof. intros (q & i & r & H & _ & S & _). cbn in H. injection H as <- <- _. discriminate. Qed.
Example C60_example : show_tokens (print_generic_param (gp_lifetime "a")) = "'a"
  /\ show_tokens (print_generic_param (gp_bounded_lifetime "a" (lex "'b"))) = "' a : 'b".
Proof. split; reflexivity. Qed.

(** ** C61: Debug of errors *)
(** Reading a quoted text: up to the closing quote, undoing the escapes. *)
Fixpoint read_quoted (s : string) : option (string * string) :=
  match s with
  | EmptyString => None
  | String c r =>
      if Ascii.eqb c quote_str then Some (EmptyString, r)
      else if Ascii.eqb c backslash then
        match r with
        | String e r =>
            let x := if Ascii.eqb e "n" then newline else if Ascii.eqb e "r" then ascii_of_nat 13
                     else if Ascii.eqb e "t" then ascii_of_nat 9 else e in
            match read_quoted r with Some (a, b) => Some (String x a, b) | None => None end
        | EmptyString => None
        end
      else match read_quoted r with Some (a, b) => Some (String c a, b) | None => None end
  end.
Lemma read_escape s rest : read_quoted (escape s ++ String quote_str rest)%string = Some (s, rest).
Proof.
  induction s as [|c s IH]; [reflexivity|]. cbn [escape].
  assert (A : forall a b r, ((a ++ b) ++ r = a ++ (b ++ r))%string) by (induction a; cbn; intros; congruence). rewrite A. clear A.
  set (tail := (escape s ++ String quote_str rest)%string) in *. clearbody tail.
  unfold escape_char.
  destruct (Ascii.eqb_spec c quote_str) as [->|N1]; [cbn; rewrite IH; reflexivity|].
  destruct (Ascii.eqb_spec c backslash) as [->|N2]; [cbn; rewrite IH; reflexivity|].
  destruct (Ascii.eqb_spec c newline) as [->|N3]; [cbn; rewrite IH; reflexivity|].
  destruct (Ascii.eqb_spec c (ascii_of_nat 13)) as [->|N4]; [cbn; rewrite IH; reflexivity|].
  destruct (Ascii.eqb_spec c (ascii_of_nat 9)) as [->|N5]; [cbn; rewrite IH; reflexivity|].
  cbn [orb append read_quoted]. rewrite (proj2 (Ascii.eqb_neq c quote_str)), (proj2 (Ascii.eqb_neq c backslash)) by assumption.
  rewrite IH. reflexivity.
Qed.
(** The quoted form of a text. *)
Definition quoted (s : string) : string := String quote_str (escape s ++ String quote_str "").
(** [{:?}] of an error is [Error("text")], or [Error(["a", "b", ...])] unless there is exactly
    one message. *)
Theorem C61_debug (e : error) :
  plain (debug_error e) = Ret (match map em_text (er_messages e) with
                               | [t] => "Error(" ++ quoted t ++ ")"
                               | l => "Error([" ++ concat ", " (map quoted l) ++ "])"
                               end)%string.
Proof.
  assert (A : forall l, all_ret (map plain (map debug_message l)) = Ret (map quoted (map em_text l))).
  { induction l as [|m l IH]; [reflexivity|]. cbn [map all_ret]. rewrite IH. reflexivity. }
  assert (S : forall a b r, ((a ++ b) ++ r = a ++ (b ++ r))%string) by (induction a; cbn; intros; congruence).
  unfold debug_error. destruct (er_messages e) as [|m [|m2 l]]; try reflexivity.
  set (L := m :: m2 :: l). cbn [plain map all_ret debug_vec]. fold (map debug_message L). unfold debug_vec. rewrite A. cbn [bind map].
  cbn [concat]. rewrite !S. reflexivity.
Qed.
Lemma quoted_inj s s' r r' : (quoted s ++ r = quoted s' ++ r')%string -> s = s' /\ r = r'.
Proof.
  assert (S : forall a b r, ((a ++ b) ++ r = a ++ (b ++ r))%string) by (induction a; cbn; intros; congruence).
  unfold quoted. cbn [append]. intro H. injection H as H. rewrite !S in H. cbn [append] in H.
  pose proof (read_escape s r) as E. rewrite H, read_escape in E. injection E as -> ->. auto.
Qed.
Lemma concat_inj l : forall l', (concat ", " (map quoted l) ++ "])" = concat ", " (map quoted l') ++ "])")%string -> l = l'.
Proof.
  assert (S : forall a b r, ((a ++ b) ++ r = a ++ (b ++ r))%string) by (induction a; cbn; intros; congruence).
  induction l as [|s l IH]; intros [|s' l'] H; auto.
  - cbn in H. destruct (map quoted l'); discriminate.
  - cbn in H. destruct (map quoted l); discriminate.
  - destruct l as [|t l], l' as [|t' l']; cbn [map concat] in H; rewrite ?S in H; apply quoted_inj in H; destruct H as [-> H]; auto; try discriminate.
    cbn in H. injection H as H. f_equal. apply IH. cbn [map concat]. exact H.
Qed.
(** The output determines the texts of all messages. *)
Theorem C61_faithful (a b : error) :
  plain (debug_error a) = plain (debug_error b) -> map em_text (er_messages a) = map em_text (er_messages b).
Proof.
  rewrite !C61_debug. intro H. apply (f_equal (fun o => match o with Ret s => s | _ => EmptyString end)) in H.
  set (la := map em_text (er_messages a)) in *. set (lb := map em_text (er_messages b)) in *.
  assert (Q : forall x y, (quoted x ++ ")" = quoted y ++ ")")%string -> x = y) by (intros x y E; apply quoted_inj in E; apply E).
  destruct la as [|x [|y la]], lb as [|x' [|y' lb]]; try discriminate H; auto.
  - do 6 apply (f_equal (fun s => match s with String _ r => r | EmptyString => EmptyString end)) in H.
    apply Q in H. congruence.
  - do 7 apply (f_equal (fun s => match s with String _ r => r | EmptyString => EmptyString end)) in H.
    apply concat_inj. exact H.
Qed.
Example C61_example :
  plain (debug_error (error_combine (error_new "a ""quoted"" word") (error_new "b"))) = Ret "Error([""a \""quoted\"" word"", ""b""])"
  /\ plain (debug_error (error_new "b")) = Ret "Error(""b"")".
Proof. split; reflexivity. Qed.

Print Assumptions C59_debug_iff.
Print Assumptions C59_parsed.
Print Assumptions C61_faithful.

(** Panic messages of the imperative transcription: the tokens they show, and where a run is decided. *)
From Verif Require Import Imp PropErase Debug Samples Safe Edit Unfold PropPanics PropMissing PropViable.
Local Open Scope string_scope.
Local Open Scope list_scope.

(** ** The text of a message *)
Definition text (d : dbg) : string := match plain d with Ret s => s | _ => "?" end.
Definition show_piece (p : piece) : string :=
  match p with
  | Txt s => s
  | Dbg t => text (debug_tok t)
  | DbgOpt o => text (debug_opt debug_tok o)
  | DbgIdent i => text (debug_ident i)
  | Dsp ts => show_tokens ts
  end.
Fixpoint show_message (l : list piece) : string :=
  match l with [] => "" | p :: r => (show_piece p ++ show_message r)%string end.
Definition message_of {A} (e : ending A) : option string :=
  match e with Died _ why => Some (show_message why) | _ => None end.
Definition dies (s : string) : option string := message_of (fst (i_parse_item (lex s))).

(** ** The tokens in a message *)
Definition shown_piece (p : piece) : list tok :=
  match p with Txt _ => [] | Dbg t => [t] | DbgOpt (Some t) => [t] | DbgOpt None => [] | DbgIdent i => [TIdent i] | Dsp ts => ts end.
Definition shown (why : list piece) : list tok := flat_map shown_piece why.

(** A token and everything inside of it. *)
Inductive part (x : tok) : tok -> Prop :=
| part_here : part x x
| part_in g y : In y (g_stream g) -> part x y -> part x (TGroup g).

(** The sites with a fixed message. *)
Definition mute (p : panic) : bool :=
  match p with
  | PTrailingTokens | PStructToken | PEnumToken | PUnionToken | PNoDeclaration | PAttrPath | PBoundToken | PGenericParamsToken
  | PLifetimeToken | PWhereToken | PVariantToken | PUnsafeIdent | PFnIdent | PImplToken | PTraitToken | PModToken
  | PUnsupportedMember | PUnsupportedItem | PUnsupportedElement | PVisOnMacro => false
  | PExpectedIdent _ at_end | PExpectedKeyword _ _ at_end | PExpectedPunct _ _ at_end => at_end
  | _ => true
  end.

Create HintDb orig.
(** ** Messages show nothing but tokens that were read *)
Section Origin.
Variable P : tok -> Prop.
Hypothesis closed : forall g, P (TGroup g) -> Forall P (g_stream g).

Definition orig {A} (Q : A -> Prop) (m : T A) : Prop := forall ts, Forall P ts ->
  match fst (m ts) with
  | Got (x, r) => Forall P r /\ Q x
  | Died p why => Forall P (shown why) /\ (shown why = [] \/ mute p = false) /\ p <> PTrailingTokens
  | Stuck => True
  end.
Definition yes {A} (_ : A) : Prop := True.
Definition visP (v : option vis_marker) : Prop := match v with Some v => Forall P (print_vis v) | None => True end.
Definition optP (o : option tok) : Prop := match o with Some t => P t | None => True end.

Lemma orig_weak {A} (Q Q' : A -> Prop) (m : T A) : orig Q m -> (forall x, Q x -> Q' x) -> orig Q' m.
Proof. intros H HQ ts Hts. specialize (H ts Hts). destruct (fst (m ts)) as [[x r]| |]; intuition auto. Qed.
Lemma orig_yes {A} (Q : A -> Prop) (m : T A) : orig Q m -> orig yes m.
Proof. intro H. apply (orig_weak _ _ _ H). unfold yes. auto. Qed.
Lemma orig_ret {A} (Q : A -> Prop) x : Q x -> orig Q (ret x).
Proof. intros H ts Hts. cbn. auto. Qed.
Lemma orig_fail {A} (Q : A -> Prop) p why : Forall P (shown why) -> shown why = [] \/ mute p = false -> p <> PTrailingTokens -> orig Q (fail p why).
Proof. intros H1 H2 H3 ts _. cbn. auto. Qed.
Lemma orig_bind {A B} (Q : A -> Prop) (Q' : B -> Prop) (m : T A) (k : A -> T B) :
  orig Q m -> (forall x, Q x -> orig Q' (k x)) -> orig Q' (andthen m k).
Proof.
  intros H Hk ts Hts. specialize (H ts Hts). unfold andthen. destruct (m ts) as [[[x r]|p why|] [c d]]; cbn [fst] in *; auto.
  destruct H as [Hr Hx]. specialize (Hk x Hx r Hr). destruct (k x r) as [o [c2 d2]]. exact Hk.
Qed.
Lemma orig_peek : orig optP peek.
Proof. intros [|t r] H; cbn; auto. inversion H; subst; auto. Qed.
Lemma orig_next : orig optP next.
Proof. intros [|t r] H; cbn; auto. inversion H; subst; auto. Qed.
Lemma orig_save : orig (Forall P) save.
Proof. intros ts H. cbn. auto. Qed.
Lemma orig_restore s : Forall P s -> orig yes (restore s).
Proof. intros H ts _. cbn. split; [exact H|exact I]. Qed.
Lemma orig_collect : orig (Forall P) collect.
Proof. intros ts H. cbn. auto. Qed.
Lemma orig_on {A} (Q : A -> Prop) s (m : T A) : Forall P s -> orig Q m -> orig Q (on s m).
Proof.
  intros Hs H ts Hts. specialize (H s Hs). unfold on. destruct (m s) as [[[x r]|p why|] c]; cbn [fst] in *; intuition auto.
Qed.
Lemma orig_within {A} (Q : A -> Prop) s (m : T A) : Forall P s -> orig Q m -> orig Q (within s m).
Proof.
  intros Hs H. unfold within. apply (orig_bind yes); [|intros; apply orig_on; auto].
  intros ts Hts. cbn. split; [exact Hts|exact I].
Qed.
Lemma orig_loop {S R} (I : S -> Prop) (Q : R -> Prop) (body : S -> T (S + R)) s :
  (forall s, I s -> orig (fun r => match r with inl s' => I s' | inr x => Q x end) (body s)) -> I s -> orig Q (loop body s).
Proof.
  intros H Hs ts Hts. unfold loop. generalize (loop_fuel ts). intro n. revert s Hs ts Hts.
  induction n as [|n IH]; intros s Hs ts Hts; [exact Logic.I|]. cbn [rounds].
  apply (orig_bind (fun r => match r with inl s' => I s' | inr x => Q x end)); auto.
  intros [s'|x] Hx; [intros r Hr; apply IH; auto|]. apply orig_ret. exact Hx.
Qed.

Ltac ready := cbn [optP] in *; try exact Logic.I; auto.
Ltac simple_term x := match x with context [match _ with _ => _ end] => fail 1 | _ => idtac end.
Ltac group_parts :=
  match goal with H : P (TGroup ?g) |- Forall P (g_stream ?g) => apply closed; exact H end.
Ltac shown_parts :=
  unfold shown; cbn [flat_map shown_piece visP] in *; rewrite ?app_nil_r;
  repeat match goal with H : optP ?o |- context [match ?o with _ => _ end] => destruct o end; cbn [app optP] in *;
  solve [ready | repeat constructor; ready].
Ltac o1 :=
  match goal with
  | |- orig _ (andthen (andthen _ _) _) => eapply (orig_bind yes); [|intros ? _]
  | |- orig _ (andthen peek _) => eapply orig_bind; [apply orig_peek|intros ? ?]
  | |- orig _ (andthen next _) => eapply orig_bind; [apply orig_next|intros ? ?]
  | |- orig _ (andthen save _) => eapply orig_bind; [apply orig_save|intros ? ?]
  | |- orig _ (andthen collect _) => eapply orig_bind; [apply orig_collect|intros ? ?]
  | |- orig _ (andthen (restore _) _) => eapply orig_bind; [apply orig_restore; assumption|intros ? _]
  | |- orig _ (andthen (ret _) _) => eapply (orig_bind yes); [apply orig_ret; exact Logic.I|intros ? _]
  | |- orig _ (andthen (fail _ _) _) => eapply (orig_bind yes); [|intros ? _]
  | |- orig _ (ret _) => apply orig_ret; solve [ready]
  | |- orig _ (fail _ _) => apply orig_fail; [shown_parts|cbn; auto|solve [discriminate|assumption]]
  | |- orig _ (within _ _) => apply orig_within; [group_parts|]
  | |- orig _ (on _ _) => apply orig_on; [assumption|]
  | |- orig _ (andthen (on _ _) _) => eapply (orig_bind yes); [|intros ? _]
  | |- orig _ (loop _ _) => apply (orig_loop yes); [intros ? _|exact Logic.I]
  | H : optP ?o |- orig _ (match ?o with _ => _ end) => destruct o; cbn [optP] in H
  | |- orig _ (andthen (match ?x with _ => _ end) _) => simple_term x; eapply (orig_bind yes); [|intros ? _]
  | |- orig _ (match ?x with _ => _ end) => simple_term x; destruct x; cbn [optP] in *
  | |- orig _ (andthen _ _) => eapply orig_bind; [solve [eauto with orig]|intros ? ?]
  | |- orig _ (andthen _ _) => eapply (orig_bind yes); [|intros ? _]
  | |- orig _ _ => solve [eauto with orig | eapply orig_yes; eauto with orig]
  end.
Ltac os := repeat (cbv zeta; o1).

Lemma o_parse_any_ident c : orig yes (i_parse_any_ident c).
Proof. unfold i_parse_any_ident. os. Qed.
Lemma o_parse_ident x c : orig yes (i_parse_ident x c).
Proof. unfold i_parse_ident. os. Qed.
Lemma o_consume_any_ident : orig yes i_consume_any_ident.
Proof. unfold i_consume_any_ident. os. Qed.
Lemma o_consume_ident x : orig yes (i_consume_ident x).
Proof. unfold i_consume_ident. os. Qed.
Lemma o_parse_punct x c : orig yes (i_parse_punct x c).
Proof. unfold i_parse_punct. os. Qed.
Lemma o_consume_punct x : orig yes (i_consume_punct x).
Proof. unfold i_consume_punct. os. Qed.
Lemma o_consume_comma : orig yes i_consume_comma.
Proof. apply o_consume_punct. Qed.
Lemma o_item_name : orig yes i_item_name.
Proof. apply o_parse_any_ident. Qed.
Hint Resolve orig_collect orig_peek orig_next orig_save o_parse_any_ident o_parse_ident o_consume_any_ident o_consume_ident o_parse_punct o_consume_punct o_consume_comma o_item_name : orig.

Lemma Forall_app_snoc (l : list tok) t : Forall P l -> P t -> Forall P (l ++ [t]).
Proof. intros. apply Forall_app. auto. Qed.

Lemma o_attribute_path : orig yes i_attribute_path.
Proof. unfold i_attribute_path. os. Qed.
Lemma o_attribute_value : orig yes i_attribute_value.
Proof. unfold i_attribute_value. os. Qed.
Hint Resolve o_attribute_path o_attribute_value : orig.
Lemma o_attribute h b g : P (TGroup g) -> orig yes (i_attribute h b g).
Proof. intro H. unfold i_attribute. os. Qed.
Hint Resolve o_attribute : orig.
Lemma o_attributes inner : orig yes (i_attributes inner).
Proof. unfold i_attributes. os. Qed.
Lemma o_vis_marker : orig visP i_vis_marker.
Proof. unfold i_vis_marker. os; cbn; repeat constructor; auto. Qed.
Hint Resolve o_attributes o_vis_marker : orig.
Lemma o_stuff_until pred must : orig (Forall P) (i_stuff_until pred must).
Proof.
  unfold i_stuff_until.
  apply (orig_bind (fun r => Forall P (fst r))).
  - apply (orig_loop (fun s => Forall P (fst (fst s)))); [|constructor]. intros [[out count] dash] Ho. cbn [fst] in Ho.
    eapply orig_bind; [apply orig_peek|]. intros [t|] Ht; [|apply orig_ret; exact Ho]. cbn zeta.
    assert (Go : forall c d, orig (fun r : list tok * Z * bool + list tok * bool => match r with inl s' => Forall P (fst (fst s')) | inr x => Forall P (fst x) end)
      (if (c <? 0)%Z then ret (inr (out, false))
       else u <~ next ;; match u with Some u => ret (inl (out ++ [u], c, d)) | None => fail PUnreachable unwrap_none end)).
    { intros c d. destruct (c <? 0)%Z; [apply orig_ret; exact Ho|]. eapply orig_bind; [apply orig_next|].
      intros [u|] Hu; [apply orig_ret; apply Forall_app_snoc; auto|]. apply orig_fail; cbn; auto; discriminate. }
    repeat (first [apply Go | match goal with |- orig _ (if ?b then _ else _) => destruct b end]); apply orig_ret; exact Ho.
  - intros [out met] Ho. cbn [fst] in Ho. os.
Qed.
Hint Resolve o_stuff_until : orig.
Lemma o_colon2 : orig yes i_colon2.
Proof. unfold i_colon2. os. Qed.
Hint Resolve o_colon2 : orig.
Lemma o_bound e : orig yes (i_bound e).
Proof. unfold i_bound. os. Qed.
Hint Resolve o_bound : orig.
Lemma o_generic_params : orig yes i_generic_params.
Proof. unfold i_generic_params. os. Qed.
Lemma o_lifetime b : orig yes (i_lifetime b).
Proof. unfold i_lifetime. os. Qed.
Hint Resolve o_generic_params o_lifetime : orig.
Lemma o_generic_arg : orig yes i_generic_arg.
Proof. unfold i_generic_arg. os. Qed.
Hint Resolve o_generic_arg : orig.
Lemma o_generic_args : orig yes i_generic_args.
Proof. unfold i_generic_args. os. Qed.
Lemma o_where_clause : orig yes i_where_clause.
Proof. unfold i_where_clause. os. Qed.
Lemma o_field_type : orig yes i_field_type.
Proof. unfold i_field_type. os. Qed.
Lemma o_enum_discriminant : orig yes i_enum_discriminant.
Proof. unfold i_enum_discriminant. os. Qed.
Hint Resolve o_generic_args o_where_clause o_field_type o_enum_discriminant : orig.
Lemma o_tuple_fields g : P (TGroup g) -> orig yes (i_tuple_fields g).
Proof. intro H. unfold i_tuple_fields. os. Qed.
Lemma o_named_fields g : P (TGroup g) -> orig yes (i_named_fields g).
Proof. intro H. unfold i_named_fields. os. Qed.
Hint Resolve o_tuple_fields o_named_fields : orig.
Lemma o_enum_variants : orig yes i_enum_variants.
Proof. unfold i_enum_variants. os. Qed.
Lemma o_fn_qualifiers : orig yes i_fn_qualifiers.
Proof. unfold i_fn_qualifiers. os. Qed.
Lemma o_fn_params : orig yes i_fn_params.
Proof. unfold i_fn_params. os. Qed.
Lemma o_fn_return : orig yes i_fn_return.
Proof. unfold i_fn_return. os. Qed.
Hint Resolve o_enum_variants o_fn_qualifiers o_fn_params o_fn_return : orig.
Lemma o_fn_head : orig yes i_fn_head.
Proof. unfold i_fn_head. os. Qed.
Hint Resolve o_fn_head : orig.
Lemma o_fn a v : orig yes (i_fn a v).
Proof. unfold i_fn. os. Qed.
Lemma o_macro_inner a : orig yes (i_macro_inner a).
Proof. unfold i_macro_inner. os. Qed.
Hint Resolve o_fn o_macro_inner : orig.
Lemma o_macro a : orig yes (i_macro a).
Proof. unfold i_macro. os. Qed.
Lemma o_const a v : orig yes (i_const_or_static a v).
Proof. unfold i_const_or_static. os. Qed.
Lemma o_ty a v : orig yes (i_ty_definition a v).
Proof. unfold i_ty_definition. os. Qed.
Lemma o_use a v : orig yes (i_use a v).
Proof. unfold i_use. os. Qed.
Lemma o_consume_extern_crate a v : orig yes (i_consume_extern_crate a v).
Proof. unfold i_consume_extern_crate. os. Qed.
Hint Resolve o_consume_extern_crate : orig.
Lemma o_extern_crate a v : orig yes (i_extern_crate a v).
Proof. unfold i_extern_crate. os. Qed.
Hint Resolve o_macro o_const o_ty o_use o_extern_crate : orig.

Section Rec.
Variable R : T (result item error).
Variable E : list attribute -> option vis_marker -> T item.
Hypothesis HR : orig yes R.
Hypothesis HE : forall a v, visP v -> orig yes (E a v).
Hint Resolve HR HE : orig.
Lemma o_impl_body g st : P (TGroup g) -> orig yes (i_impl_body E g st).
Proof. intro H. unfold i_impl_body. os. Qed.
Hint Resolve o_impl_body : orig.
Lemma o_body_group site bad s : mute bad = false -> bad <> PTrailingTokens -> orig yes (i_body_group E site bad s).
Proof. intros H Ht. unfold i_body_group. os. Qed.
Hint Extern 1 (orig _ (i_body_group _ _ _ _)) => apply o_body_group; [reflexivity|discriminate] : orig.
Lemma o_impl a : orig yes (i_impl E a).
Proof. unfold i_impl. os. Qed.
Lemma o_trait a v : orig yes (i_trait E a v).
Proof. unfold i_trait. os. Qed.
Lemma o_consume_extern_block a v : orig yes (i_consume_extern_block E a v).
Proof. unfold i_consume_extern_block. os. Qed.
Hint Resolve o_consume_extern_block : orig.
Lemma o_extern_block a v : orig yes (i_extern_block E a v).
Proof. unfold i_extern_block. os. Qed.
Lemma o_mod_inner : orig yes (inner <~ i_attributes true ;;
   members <~ loop (fun members =>
       t <~ peek ;;
       match t with
       | None => ret (inr members)
       | Some _ =>
           i <~ R ;;
           match i with Ok i => ret (inl (members ++ [i])) | Err e => fail PDeclInMod [Txt "declaration in mod: "; Txt (error_text e)] end
       end) [] ;;
   ret (inner, members)).
Proof. os. Qed.
Lemma o_mod a v : orig yes (i_mod R a v).
Proof. unfold i_mod. os. Qed.
Hint Resolve o_impl o_trait o_extern_block o_mod : orig.
Lemma o_either c a v : visP v -> orig yes (i_either R E c a v).
Proof. intro Hv. unfold i_either. os. Qed.
Hint Resolve o_either : orig.
Lemma o_struct a v k : orig yes (i_struct a v k).
Proof. unfold i_struct. os. Qed.
Lemma o_enum a v k : orig yes (i_enum a v k).
Proof. unfold i_enum. os. Qed.
Lemma o_union a v k : orig yes (i_union a v k).
Proof. unfold i_union. os. Qed.
Hint Resolve o_struct o_enum o_union : orig.
Lemma o_item_body : orig yes (i_item_body R E).
Proof. unfold i_item_body. os. Qed.
End Rec.

Lemma o_nest n : orig yes (fst (i_nest n)) /\ forall a v, visP v -> orig yes (snd (i_nest n) a v).
Proof.
  induction n as [|n [H1 H2]]; [split; intros; intros ts _; exact I|]. cbn [i_nest]. destruct (i_nest n) as [R E]. cbn [fst snd] in *.
  split; [apply o_item_body|intros; apply o_either]; auto.
Qed.
Lemma o_consume_item : orig yes i_consume_item.
Proof. intros ts. apply o_nest. Qed.
Hint Resolve o_consume_item : orig.
Lemma o_path : orig yes i_path.
Proof. unfold i_path. os. Qed.
End Origin.

(** ** Where a run is decided *)
Definition covers (t : tok) (why : list piece) : Prop := Forall (fun x => part x t) (shown why).
Definition like {A} (o o' : ending A) : Prop := o' = o \/ o' = Stuck.
(** [at_ f Q c m ts]: if [m] returns, it does so for every other rest with the same first token;
    if it dies with a message that may show a token, this is settled by a token of [ts], which
    is not among the first [f - 1] (and a return leaves none of the first [f]), or by the token [c] read just before, and this token
    contains all that is shown. *)
Definition at_ {A} (f : nat) (Q : A -> Prop) (c : option tok) (m : T A) (ts : list tok) : Prop :=
  match fst (m ts) with
  | Got (x, r) => Q x /\ exists l, ts = l ++ r /\ f <= List.length l /\ forall u, hd_error u = hd_error r -> like (Got (x, u)) (fst (m (l ++ u)))
  | Died p why => mute p = true
      \/ (exists l t r, ts = l ++ t :: r /\ f <= S (List.length l) /\ covers t why /\ forall u, like (Died p why) (fst (m (l ++ t :: u))))
      \/ (exists t, f = 0 /\ c = Some t /\ covers t why /\ forall u, like (Died p why) (fst (m u)))
  | Stuck => True
  end.

Lemma fst_andthen {A B} (m : T A) (k : A -> T B) ts :
  fst (andthen m k ts) = match fst (m ts) with Got (x, r) => fst (k x r) | Died p why => Died p why | Stuck => Stuck end.
Proof. unfold andthen. destruct (m ts) as [[[x r]|p why|] [c d]]; cbn [fst]; auto. destruct (k x r) as [o [c2 d2]]. reflexivity. Qed.
Lemma hd_app {A} (l u r : list A) : hd_error u = hd_error r -> hd_error (l ++ u) = hd_error (l ++ r).
Proof. destruct l; auto. Qed.
Lemma at_ext {A} f (Q : A -> Prop) c (m m' : T A) ts : (forall us, fst (m us) = fst (m' us)) -> at_ f Q c m' ts -> at_ f Q c m ts.
Proof.
  intros H. unfold at_. rewrite H. destruct (fst (m' ts)) as [[x r]|p why|]; auto.
  - intros (Hq & l & E & Hf & Hu). split; auto. exists l. split; auto. split; auto. intros u. rewrite H. auto.
  - intros [Hm|[(l & t & r & E & Hf & Hc & Hu)|(t & Hf & E & Hc & Hu)]]; auto.
    + right. left. exists l, t, r. repeat split; auto. intro u. rewrite H. auto.
    + right. right. exists t. repeat split; auto. intro u. rewrite H. auto.
Qed.
Lemma at_weak {A} f (Q Q' : A -> Prop) c (m : T A) ts : at_ f Q c m ts -> (forall x, Q x -> Q' x) -> at_ f Q' c m ts.
Proof. unfold at_. intros H HQ. destruct (fst (m ts)) as [[x r]|p why|]; auto. destruct H as [Hq H]. auto. Qed.
Lemma at_ctx {A} f (Q : A -> Prop) c (m : T A) ts : at_ f Q None m ts -> at_ f Q c m ts.
Proof.
  unfold at_. destruct (fst (m ts)) as [[x r]|p why|]; auto. intros [H|[H|(t & _ & E & _)]]; auto. discriminate.
Qed.
Lemma at_ret {A} (Q : A -> Prop) c x ts : Q x -> at_ 0 Q c (ret x) ts.
Proof. intro H. cbn. split; auto. exists []. split; auto. split; auto. intros. left. reflexivity. Qed.
Lemma at_mute {A} f (Q : A -> Prop) c p why ts : mute p = true -> at_ f Q c (fail p why) ts.
Proof. intro H. cbn. auto. Qed.
Lemma at_fail {A} (Q : A -> Prop) t p why ts : covers t why -> at_ 0 Q (Some t) (fail p why) ts.
Proof. intro H. cbn. right. right. exists t. repeat split; auto. intros. left. reflexivity. Qed.
Lemma at_next_nil {A} f (Q : A -> Prop) c (k : option tok -> T A) : at_ f Q None (k None) [] -> at_ f Q c (andthen next k) [].
Proof.
  unfold at_. rewrite fst_andthen. cbn [fst next hd_error tl]. destruct (fst (k None [])) as [[x r]|p why|] eqn:E; auto.
  - intros (Hq & l & El & Hf & Hu). split; auto. destruct l; [|discriminate]. cbn in El. subst r. exists []. split; auto. split; auto.
    intros u Hh. destruct u; [|discriminate]. left. rewrite fst_andthen. exact E.
  - intros [H|[(l & t & r & El & _)|(t & _ & El & _)]]; auto; [destruct l|]; discriminate.
Qed.
Lemma at_next_cons {A} f (Q : A -> Prop) c (k : option tok -> T A) t ts :
  at_ (pred f) Q (Some t) (k (Some t)) ts -> at_ f Q c (andthen next k) (t :: ts).
Proof.
  unfold at_. rewrite fst_andthen. cbn [fst next hd_error tl]. destruct (fst (k (Some t) ts)) as [[x r]|p why|] eqn:E; auto.
  - intros (Hq & l & El & Hf & Hu). split; auto. exists (t :: l). split; [cbn; congruence|]. split; [cbn; lia|]. intros u Hh. cbn [app]. rewrite fst_andthen. cbn. auto.
  - intros [H|[(l & t' & r & El & Hf & Hc & Hu)|(t' & Hf & El & Hc & Hu)]]; auto; right; left.
    + exists (t :: l), t', r. split; [cbn; congruence|]. split; [cbn; lia|]. split; auto. intro u. cbn [app]. rewrite fst_andthen. cbn. auto.
    + injection El as <-. exists [], t, ts. split; [auto|]. split; [cbn; lia|]. split; auto. intro u. cbn [app]. rewrite fst_andthen. cbn. auto.
Qed.
Lemma at_peek_nil {A} f (Q : A -> Prop) c (k : option tok -> T A) : at_ f Q None (k None) [] -> at_ f Q c (andthen peek k) [].
Proof.
  unfold at_. rewrite fst_andthen. cbn [fst peek hd_error]. destruct (fst (k None [])) as [[x r]|p why|] eqn:E; auto.
  - intros (Hq & l & El & Hf & Hu). split; auto. destruct l; [|discriminate]. cbn in El. subst r. exists []. split; auto. split; auto.
    intros u Hh. destruct u; [|discriminate]. left. rewrite fst_andthen. exact E.
  - intros [H|[(l & t & r & El & _)|(t & _ & El & _)]]; auto; [destruct l|]; discriminate.
Qed.
Lemma at_peek_cons {A} f (Q : A -> Prop) c (k : option tok -> T A) t ts :
  at_ f Q (Some t) (k (Some t)) (t :: ts) -> at_ f Q c (andthen peek k) (t :: ts).
Proof.
  unfold at_. rewrite fst_andthen. cbn [fst peek hd_error]. destruct (fst (k (Some t) (t :: ts))) as [[x r]|p why|] eqn:E; auto.
  - intros (Hq & l & El & Hf & Hu). split; auto. exists l. split; auto. split; auto. intros u Hh. rewrite fst_andthen. cbn [fst peek].
    rewrite (hd_app l u r Hh), <- El. cbn [hd_error]. auto.
  - intros [H|[(l & t' & r & El & Hf & Hc & Hu)|(t' & Hf & El & Hc & Hu)]]; auto; right; left.
    + exists l, t', r. repeat split; auto. intro u. rewrite fst_andthen. cbn [fst peek].
      rewrite (hd_app l (t' :: u) (t' :: r) eq_refl), <- El. cbn [hd_error]. auto.
    + injection El as <-. exists [], t, ts. split; [auto|]. split; [cbn; lia|]. split; auto. intro u. cbn [app]. rewrite fst_andthen. cbn. auto.
Qed.
Lemma at_bind_at {A B} (Q' : A -> Prop) (Q : B -> Prop) c (m : T A) (k : A -> T B) ts :
  at_ 0 Q' c m ts -> (forall x r, fst (m ts) = Got (x, r) -> Q' x -> at_ 0 Q None (k x) r) -> at_ 0 Q c (andthen m k) ts.
Proof.
  unfold at_ at 1 3. rewrite fst_andthen. destruct (fst (m ts)) as [[x r]|p why|] eqn:E; auto.
  - intros (Hq & l & El & _ & Hu) Hk. specialize (Hk x r eq_refl Hq). unfold at_ in Hk. destruct (fst (k x r)) as [[y s]|p why|]; auto.
    + destruct Hk as (Hy & l2 & El2 & _ & Hu2). split; auto. exists (l ++ l2). split; [rewrite <- app_assoc; congruence|]. split; [lia|].
      intros u Hh. rewrite <- app_assoc, fst_andthen. destruct (Hu (l2 ++ u)) as [->| ->]; [subst r; apply hd_app; auto| |right; auto]. auto.
    + destruct Hk as [H|[(l2 & t & s & El2 & Hf & Hc & Hu2)|(t & _ & Et & _)]]; auto; [|discriminate]. right. left.
      exists (l ++ l2), t, s. split; [rewrite <- app_assoc; congruence|]. split; [lia|]. split; auto. intro u.
      rewrite <- app_assoc, fst_andthen. destruct (Hu (l2 ++ t :: u)) as [->| ->]; [subst r; apply hd_app; auto| |right; auto]. auto.
  - intros H _. destruct H as [H|[(l & t & r & El & Hf & Hc & Hu)|(t & Hf & El & Hc & Hu)]]; auto; right; [left|right].
    + exists l, t, r. repeat split; auto. intro u. rewrite fst_andthen. destruct (Hu u) as [->| ->]; [left|right]; auto.
    + exists t. repeat split; auto. intro u. rewrite fst_andthen. destruct (Hu u) as [->| ->]; [left|right]; auto.
Qed.
Lemma at_bind {A B} (Q' : A -> Prop) (Q : B -> Prop) c (m : T A) (k : A -> T B) ts :
  at_ 0 Q' c m ts -> (forall x r, Q' x -> at_ 0 Q None (k x) r) -> at_ 0 Q c (andthen m k) ts.
Proof. intros H Hk. apply (at_bind_at Q'); auto. Qed.
Lemma at_assoc {A B C} f (Q : C -> Prop) c (m : T A) (k : A -> T B) (k2 : B -> T C) ts :
  at_ f Q c (andthen m (fun x => andthen (k x) k2)) ts -> at_ f Q c (andthen (andthen m k) k2) ts.
Proof.
  apply at_ext. intro us. rewrite !fst_andthen. destruct (fst (m us)) as [[x r]|p why|]; auto. rewrite fst_andthen. reflexivity.
Qed.
Lemma at_ret_bind {A B} f (Q : B -> Prop) c x (k : A -> T B) ts : at_ f Q c (k x) ts -> at_ f Q c (andthen (ret x) k) ts.
Proof. apply at_ext. intro us. rewrite fst_andthen. reflexivity. Qed.
Lemma at_fail_bind {A B} f (Q : B -> Prop) c p why (k : A -> T B) ts : at_ f Q c (fail p why) ts -> at_ f Q c (andthen (fail p why) k) ts.
Proof. apply at_ext. intro us. rewrite fst_andthen. reflexivity. Qed.
Definition inside (g : group) (x : tok) : Prop := part x (TGroup g).
Lemma part_trans x y z : part x y -> part y z -> part x z.
Proof. intros H1 H2. induction H2; auto. eapply part_in; eauto. Qed.
Lemma inside_closed g g' : inside g (TGroup g') -> Forall (inside g) (g_stream g').
Proof.
  intro H. apply Forall_forall. intros y Hy. eapply part_trans; [|exact H]. eapply part_in; [exact Hy|constructor].
Qed.
Lemma inside_stream g : Forall (inside g) (g_stream g).
Proof. apply inside_closed. constructor. Qed.
Lemma at_within {A} g (m : T A) ts : orig (inside g) yes m -> at_ 0 yes (Some (TGroup g)) (within (g_stream g) m) ts.
Proof.
  intro H. specialize (H (g_stream g) (inside_stream g)). unfold at_, within.
  assert (E : forall us, fst ((copied (g_stream g) ;;> on (g_stream g) m) us)
     = match fst (m (g_stream g)) with Got (x, _) => Got (x, us) | Died p why => Died p why | Stuck => Stuck end).
  { intro us. rewrite fst_andthen. cbn [fst copied]. unfold on. destruct (m (g_stream g)) as [[[x r]|p why|] cc]; reflexivity. }
  rewrite E. destruct (fst (m (g_stream g))) as [[x r]|p why|]; auto.
  - split; [exact I|]. exists []. split; auto. split; auto. intros u _. cbn [app]. rewrite E. left. reflexivity.
  - right. right. exists (TGroup g). split; [auto|]. split; [auto|]. split; [exact (proj1 H)|]. intro u. rewrite E. left. reflexivity.
Qed.
Lemma at_loop {S R} (I : S -> Prop) (Q : R -> Prop) c (body : S -> T (S + R)) s ts :
  (forall s ts, I s -> at_ 0 (fun r => match r with inl s' => I s' | inr x => Q x end) None (body s) ts) -> I s ->
  at_ 0 Q c (loop body s) ts.
Proof.
  intros H Hs. apply at_ctx. unfold at_, loop.
  assert (G : forall n s ts, I s -> match fst (rounds n body s ts) with
    | Got (x, r) => Q x /\ exists l, ts = l ++ r /\ forall u n', hd_error u = hd_error r -> like (Got (x, u)) (fst (rounds n' body s (l ++ u)))
    | Died p why => mute p = true
        \/ (exists l t r, ts = l ++ t :: r /\ covers t why /\ forall u n', like (Died p why) (fst (rounds n' body s (l ++ t :: u))))
    | Stuck => True end).
  { clear s ts Hs. induction n as [|n IH]; intros s ts Hs; [exact Logic.I|]. cbn [rounds]. rewrite fst_andthen.
    pose proof (H s ts Hs) as B. unfold at_ in B. destruct (fst (body s ts)) as [[[s'|x] r]|p why|] eqn:E; auto.
    - destruct B as (Hs' & l & El & _ & Hu). specialize (IH s' r Hs'). destruct (fst (rounds n body s' r)) as [[x r2]|p why|]; auto.
      + destruct IH as (Hq & l2 & El2 & Hu2). split; auto. exists (l ++ l2). split; [rewrite <- app_assoc; congruence|].
        intros u n' Hh. destruct n' as [|n']; [right; reflexivity|]. cbn [rounds]. rewrite <- app_assoc, fst_andthen.
        destruct (Hu (l2 ++ u)) as [->| ->]; [subst r; apply hd_app; auto| |right; auto]. auto.
      + destruct IH as [IH|(l2 & t & r2 & El2 & Hc & Hu2)]; auto. right. exists (l ++ l2), t, r2.
        split; [rewrite <- app_assoc; congruence|]. split; auto. intros u n'. destruct n' as [|n']; [right; reflexivity|]. cbn [rounds].
        rewrite <- app_assoc, fst_andthen. destruct (Hu (l2 ++ t :: u)) as [->| ->]; [subst r; apply hd_app; auto| |right; auto]. auto.
    - destruct B as (Hq & l & El & _ & Hu). cbn [fst ret]. split; auto. exists l. split; auto. intros u n' Hh.
      destruct n' as [|n']; [right; reflexivity|]. cbn [rounds]. rewrite fst_andthen. destruct (Hu u Hh) as [->| ->]; [left|right]; reflexivity.
    - destruct B as [B|[(l & t & r & El & _ & Hc & Hu)|(t & _ & Et & _)]]; auto; [|discriminate]. right. exists l, t, r. split; auto. split; auto.
      intros u n'. destruct n' as [|n']; [right; reflexivity|]. cbn [rounds]. rewrite fst_andthen. destruct (Hu u) as [->| ->]; [left|right]; reflexivity. }
  specialize (G (loop_fuel ts) s ts Hs). destruct (fst (rounds (loop_fuel ts) body s ts)) as [[x r]|p why|]; auto.
  - destruct G as (Hq & l & El & Hu). split; auto. exists l. split; auto. split; [lia|]. auto.
  - destruct G as [G|(l & t & r & El & Hc & Hu)]; auto. right. left. exists l, t, r. repeat split; auto. lia.
Qed.

Create HintDb spot.
Ltac covered := unfold covers, shown; cbn [flat_map shown_piece app]; repeat constructor.
Ltac a1 :=
  match goal with
  | |- at_ _ _ _ (andthen (andthen _ _) _) _ => apply at_assoc
  | |- at_ _ _ _ (andthen (ret _) _) _ => apply at_ret_bind
  | |- at_ _ _ _ (andthen (fail _ _) _) _ => apply at_fail_bind
  | |- at_ _ _ _ (andthen next _) [] => apply at_next_nil
  | |- at_ _ _ _ (andthen next _) (_ :: _) => apply at_next_cons; cbn [pred]
  | |- at_ _ _ _ (andthen next _) ?ts => is_var ts; destruct ts as [|[?|?|?|?] ?]
  | |- at_ _ _ _ (andthen peek _) [] => apply at_peek_nil
  | |- at_ _ _ _ (andthen peek _) (_ :: _) => apply at_peek_cons
  | |- at_ _ _ _ (andthen peek _) ?ts => is_var ts; destruct ts as [|[?|?|?|?] ?]
  | |- at_ _ _ _ (ret _) _ => apply at_ret; solve [exact Logic.I | auto]
  | |- at_ _ _ _ (fail _ _) _ => solve [apply at_mute; reflexivity | apply at_fail; covered]
  | |- at_ _ _ _ (within _ _) _ => eapply at_weak; [apply at_within; solve [eauto using inside_closed with orig_all]|auto]
  | |- at_ _ _ _ (andthen (within _ _) _) _ => eapply at_bind; [apply at_within; solve [eauto using inside_closed with orig_all]|intros ? ? _]
  | |- at_ _ _ _ (loop _ _) _ => apply (at_loop yes); [intros ? ? _|exact Logic.I]
  | |- at_ _ _ _ (match ?x with _ => _ end) _ => destruct x eqn:?; try discriminate
  | |- at_ _ _ _ (andthen (match ?x with _ => _ end) _) _ => destruct x eqn:?; try discriminate
  | |- at_ 0 _ _ (andthen _ _) _ => eapply at_bind; [solve [eauto with spot]|intros ? ? ?]
  | |- at_ 0 _ _ (andthen (loop _ _) _) _ => apply (at_bind yes); [|intros ? ? _]
  | |- at_ _ _ _ _ _ => solve [eauto with spot]
  end.
Ltac as_ := repeat (cbv beta iota zeta; a1).

Lemma a_parse_any_ident c x ts : at_ 0 yes c (i_parse_any_ident x) ts.
Proof. unfold i_parse_any_ident. as_. Qed.
Lemma a_parse_ident c x y ts : at_ 0 yes c (i_parse_ident x y) ts.
Proof. unfold i_parse_ident. as_. Qed.
Lemma a_consume_any_ident c ts : at_ 0 yes c i_consume_any_ident ts.
Proof. unfold i_consume_any_ident. as_. Qed.
Lemma a_consume_ident c x ts : at_ 0 yes c (i_consume_ident x) ts.
Proof. unfold i_consume_ident. as_. Qed.
Lemma a_parse_punct c x y ts : at_ 0 yes c (i_parse_punct x y) ts.
Proof. unfold i_parse_punct. as_. Qed.
Lemma a_consume_punct c x ts : at_ 0 yes c (i_consume_punct x) ts.
Proof. unfold i_consume_punct. as_. Qed.
Lemma a_consume_comma c ts : at_ 0 yes c i_consume_comma ts.
Proof. apply a_consume_punct. Qed.
Lemma a_item_name c ts : at_ 0 yes c i_item_name ts.
Proof. apply a_parse_any_ident. Qed.
Global Hint Resolve a_parse_any_ident a_parse_ident a_consume_any_ident a_consume_ident a_parse_punct a_consume_punct a_consume_comma a_item_name : spot.
Create HintDb orig_all.
Global Hint Resolve o_attribute_path o_attribute_value o_fn_params o_enum_variants orig_yes orig_collect : orig_all.
Lemma a_attribute h b g ts : at_ 0 yes (Some (TGroup g)) (i_attribute h b g) ts.
Proof.
  unfold i_attribute. eapply at_bind; [apply at_within|intros; apply at_ret; exact I].
  apply (orig_bind _ yes); [apply o_attribute_path|]. intros p _. apply (orig_bind _ yes); [apply o_attribute_value; apply inside_closed|].
  intros v _. apply orig_ret. exact I.
Qed.
Global Hint Resolve a_attribute : spot.
Lemma a_attributes c ts : at_ 0 yes c (i_attributes false) ts.
Proof. unfold i_attributes. as_. Qed.
Lemma a_vis_marker c ts : at_ 0 yes c i_vis_marker ts.
Proof. unfold i_vis_marker. as_. Qed.
Lemma a_stuff_until c pred must ts : at_ 0 yes c (i_stuff_until pred must) ts.
Proof. unfold i_stuff_until. as_. Qed.
Global Hint Resolve a_attributes a_vis_marker a_stuff_until : spot.
Lemma a_bound c e ts : at_ 0 yes c (i_bound e) ts.
Proof. unfold i_bound. as_. Qed.
Global Hint Resolve a_bound : spot.
Lemma a_generic_params c ts : at_ 0 yes c i_generic_params ts.
Proof. unfold i_generic_params. as_. Qed.
Lemma a_where_clause c ts : at_ 0 yes c i_where_clause ts.
Proof. unfold i_where_clause. as_. Qed.
Global Hint Resolve a_generic_params a_where_clause : spot.
(** Parsers that only read the tokens of a group. *)
Definition blind {A} (m : T A) : Prop := forall us, match fst (m []) with
  | Got (x, _) => fst (m us) = Got (x, us) | Died p why => fst (m us) = Died p why | Stuck => fst (m us) = Stuck end.
Lemma blind_within {A} s (m : T A) : blind (within s m).
Proof.
  intro us. unfold within. rewrite !fst_andthen. cbn [fst copied]. unfold on. destruct (m s) as [[[x r]|p why|] cc]; reflexivity.
Qed.
Lemma blind_bind {A B} (m : T A) (k : A -> T B) : blind m -> (forall x, blind (k x)) -> blind (andthen m k).
Proof.
  intros H Hk us. pose proof (H us) as H1. pose proof (H []) as H0. rewrite !fst_andthen.
  destruct (fst (m [])) as [[x r]|p why|]; rewrite H1; auto. injection H0 as ->. apply Hk.
Qed.
Lemma blind_ret {A} (x : A) : blind (ret x).
Proof. intro us. reflexivity. Qed.
Lemma at_blind {A} g (m : T A) ts : blind m -> orig (inside g) yes m -> at_ 0 yes (Some (TGroup g)) m ts.
Proof.
  intros H HO. specialize (HO [] (Forall_nil _)). unfold at_. pose proof (H ts) as Ht. destruct (fst (m [])) as [[x r]|p why|] eqn:E; rewrite Ht; auto.
  - split; [exact I|]. exists []. split; auto. split; auto. intros u _. left. specialize (H u). rewrite E in H. exact H.
  - right. right. exists (TGroup g). split; [auto|]. split; [auto|]. split; [exact (proj1 HO)|]. intro u. left. specialize (H u). rewrite E in H. exact H.
Qed.
Lemma a_tuple_fields g ts : at_ 0 yes (Some (TGroup g)) (i_tuple_fields g) ts.
Proof.
  apply at_blind; [apply blind_bind; [apply blind_within|intro; apply blind_ret]|].
  apply o_tuple_fields; [apply inside_closed|constructor].
Qed.
Lemma a_named_fields g ts : at_ 0 yes (Some (TGroup g)) (i_named_fields g) ts.
Proof.
  apply at_blind; [apply blind_bind; [apply blind_within|intro; apply blind_ret]|].
  apply o_named_fields; [apply inside_closed|constructor].
Qed.
Global Hint Resolve a_tuple_fields a_named_fields : spot.
Lemma a_fn_qualifiers c ts : at_ 0 yes c i_fn_qualifiers ts.
Proof. unfold i_fn_qualifiers. as_. Qed.
Lemma a_fn_return c ts : at_ 0 yes c i_fn_return ts.
Proof. unfold i_fn_return. as_. Qed.
Global Hint Resolve a_fn_qualifiers a_fn_return : spot.
Lemma a_const c a v ts : at_ 0 yes c (i_const_or_static a v) ts.
Proof. unfold i_const_or_static. as_. Qed.
Lemma a_ty c a v ts : at_ 0 yes c (i_ty_definition a v) ts.
Proof. unfold i_ty_definition. as_. Qed.
Lemma a_use c a v ts : at_ 0 yes c (i_use a v) ts.
Proof. unfold i_use. as_. Qed.
Lemma a_struct c a v k ts : at_ 0 yes c (i_struct a v k) ts.
Proof. unfold i_struct. as_. Qed.
Lemma a_enum c a v k ts : at_ 0 yes c (i_enum a v k) ts.
Proof. unfold i_enum. as_. Qed.
Lemma a_union c a v k ts : at_ 0 yes c (i_union a v k) ts.
Proof. unfold i_union. as_. Qed.
Global Hint Resolve a_const a_ty a_use a_struct a_enum a_union : spot.

(** *** Functions *)
Definition fn_tail (attributes : list attribute) (vis : option vis_marker) (q : fn_qualifiers) (kw : ident) : T (result function not_function) :=
  name <~ i_item_name ;;
  generics <~ i_generic_params ;;
  u <~ next ;;
  params <~
    (match u with
     | None => fail (PUnwrapNone AtFnParams) unwrap_none
     | Some (TGroup g) =>
         if delim_eqb (g_delim g) Parenthesis then ps <~ within (g_stream g) i_fn_params ;; ret (ps, group_span_new g)
         else fail PFnParams no_fn_params
     | Some _ => fail PFnParams no_fn_params
     end) ;;
  r <~ i_fn_return ;;
  wh <~ i_where_clause ;;
  v <~ next ;;
  body <~
    (match v with
     | None => fail (PUnwrapNone AtFnBody) unwrap_none
     | Some (TGroup g) => if delim_eqb (g_delim g) Brace then ret (Some g, None) else fail PFnBody no_fn_body
     | Some (TPunct p) => if p_is ";" p then ret (None, Some p) else fail PFnBody no_fn_body
     | Some _ => fail PFnBody no_fn_body
     end) ;;
  ret (Ok (mkFunction attributes vis q kw name generics (snd params) (fst params) wh
             (option_map fst r) (option_map snd r) (snd body) (fst body))).
Lemma i_fn_split a v : i_fn a v = (h <~ i_fn_head ;; let (q, kw) := h : fn_qualifiers * result ident not_function in
  match kw with Err nf => ret (Err nf) | Ok kw => fn_tail a v q kw end).
Proof. reflexivity. Qed.
Definition found (r : result function not_function) : Prop := match r with Ok _ => True | Err _ => False end.
Lemma a_fn_tail c a v q kw ts : at_ 0 found c (fn_tail a v q kw) ts.
Proof. unfold fn_tail. as_. Qed.

(** What [i_fn_head] makes of the token after the qualifiers. *)
Definition verdict (q : fn_qualifiers) (t : tok) : ending (result ident not_function) :=
  match t with
  | TIdent i =>
      if id_is "fn" i then Got (Ok i)
      else if is_some (fq_extern q) && id_is "crate" i then Got (Err NFExternCrate)
      else if id_is "static" i then Got (Err NFStatic)
      else if has_only_const_xor_unsafe q then
        if is_some (fq_const q) then Got (Err NFConst)
        else if is_some (fq_unsafe q) then
          if id_is "trait" i then Got (Err NFTrait)
          else if id_is "impl" i then Got (Err NFImpl)
          else if id_is "mod" i then Got (Err NFMod)
          else Died PUnsafeIdent [Txt "expected one of 'fn|trait|impl|mod' after 'unsafe', got "; DbgIdent i]
        else Died PUnreachable unreachable_code
      else Died PFnIdent [Txt "expected 'fn' keyword, got ident '"; Dsp [TIdent i]; Txt "'"]
  | TLit _ => if is_some (fq_extern q) then Got (Err NFExternBlock) else Died PFnKeyword no_fn_keyword
  | TGroup g => if is_some (fq_extern q) && delim_eqb (g_delim g) Brace then Got (Err NFExternBlock) else Died PFnKeyword no_fn_keyword
  | _ => Died PFnKeyword no_fn_keyword
  end.
Lemma head_verdict ts q t w : fst (i_fn_qualifiers ts) = Got (q, t :: w) ->
  fst (i_fn_head ts) = match verdict q t with
    | Got (Ok kw) => Got ((q, Ok kw), w) | Got (Err nf) => Got ((q, Err nf), ts) | Died p why => Died p why | Stuck => Stuck end.
Proof.
  intro H. unfold i_fn_head. rewrite fst_andthen. cbn [fst save]. rewrite fst_andthen, H, fst_andthen. cbn [fst next hd_error tl].
  rewrite fst_andthen. unfold verdict.
  repeat match goal with |- context [match ?x with _ => _ end] => is_var x; destruct x | |- context [if ?b then _ else _] => destruct b end;
    try reflexivity; rewrite ?fst_andthen; reflexivity.
Qed.
Lemma verdict_died q t p why : verdict q t = Died p why -> mute p = true \/ covers t why.
Proof.
  unfold verdict. intro H.
  repeat match type of H with context [match ?x with _ => _ end] => is_var x; destruct x | context [if ?b then _ else _] => destruct b end;
    try discriminate; injection H as <- <-; first [left; reflexivity | right; covered].
Qed.
Lemma quals_split ts : exists q l r, ts = l ++ r /\ l = print_qualifiers q /\ wf_qualifiers q = true
  /\ forall u, hd_error u = hd_error r -> fst (i_fn_qualifiers (l ++ u)) = Got (q, u).
Proof.
  pose proof (a_fn_qualifiers None ts) as H. unfold at_ in H. pose proof (e_fn_qualifiers ts) as X. unfold run in X.
  destruct (fst (i_fn_qualifiers ts)) as [[q r]|p why|] eqn:Eq; cbn [plainly] in X; try discriminate. injection X as X. symmetry in X.
  apply qualifiers_sound in X. destruct X as [X W]. destruct H as (_ & l & El & _ & Hu). exists q, l, r. split; auto. split.
  - rewrite X in El. apply app_inv_tail in El. auto.
  - split; auto. intros u Hh. destruct (Hu u Hh) as [G|G]; auto. pose proof (e_fn_qualifiers (l ++ u)) as Y. unfold run in Y. rewrite G in Y. discriminate.
Qed.
Definition stray (ts : list tok) : Prop := exists q s r,
  ts = print_qualifiers q ++ TIdent s :: r /\ wf_qualifiers q = true
  /\ fq_default q = None /\ is_some (fq_const q) = true /\ 3 <= List.length (print_qualifiers q) /\ id_is "static" s = true.

Lemma at_lift {A} (Q : A -> Prop) c (m k : T A) q r :
  (forall u, fst (m (q ++ u)) = fst (k u)) -> at_ 0 Q None k r -> at_ 0 Q c m (q ++ r).
Proof.
  intros H. unfold at_. rewrite H. destruct (fst (k r)) as [[x s]|p why|]; auto.
  - intros (Hq & l & El & Hf & Hu). split; auto. exists (q ++ l). split; [rewrite <- app_assoc; congruence|]. split; [lia|].
    intros u Hh. rewrite <- app_assoc, H. auto.
  - intros [G|[(l & t & s & El & Hf & Hc & Hu)|(t & _ & Et & _)]]; auto; [|discriminate]. right. left. exists (q ++ l), t, s.
    split; [rewrite <- app_assoc; congruence|]. split; [lia|]. split; auto. intro u. rewrite <- app_assoc, H. auto.
Qed.
Lemma app_longer {A} (q l r s : list A) : q ++ r = l ++ s -> List.length q <= List.length l -> exists d, l = q ++ d.
Proof.
  revert l. induction q as [|x q IH]; intros [|y l] H Hl; cbn in *; try lia; [exists []; auto|exists (y :: l); auto|].
  injection H as -> H. destruct (IH l H) as [d ->]; [lia|]. exists d. auto.
Qed.
Lemma at_swap {A} (Q : A -> Prop) c c' (m k : T A) q r : q <> [] ->
  (forall u, fst (m (q ++ u)) = fst (k (q ++ u))) -> at_ (List.length q) Q c' k (q ++ r) -> at_ 0 Q c m (q ++ r).
Proof.
  intros Hn H. unfold at_. rewrite H. destruct (fst (k (q ++ r))) as [[x s]|p why|]; auto.
  - intros (Hq & l & El & Hf & Hu). split; auto. exists l. split; auto. split; [lia|]. intros u Hh.
    destruct (app_longer _ _ _ _ El Hf) as [d ->]. rewrite <- app_assoc, H, app_assoc. auto.
  - intros [G|[(l & t & s & El & Hf & Hc & Hu)|(t & Hf & _)]]; auto; [|destruct q; [contradiction|discriminate]]. right. left. exists l, t, s.
    split; auto. split; [lia|]. split; auto. intro u.
    destruct (app_longer q (l ++ [t]) r s) as [d Ed]; [rewrite <- app_assoc; exact El|rewrite app_length; cbn; lia|].
    replace (l ++ t :: u) with (q ++ d ++ u) by (rewrite app_assoc, <- Ed, <- app_assoc; reflexivity).
    rewrite H. replace (q ++ d ++ u) with (l ++ t :: u) by (rewrite app_assoc, <- Ed, <- app_assoc; reflexivity). auto.
Qed.

(** *** The mutually recursive parsers *)
Section Spots.
Variable R : T (result item error).
Variable E : list attribute -> option vis_marker -> T item.
Hypothesis HR : forall g, orig (inside g) yes R.
Hypothesis HE : forall g a v, visP (inside g) v -> orig (inside g) yes (E a v).

Lemma a_impl_body g st ts : at_ 0 yes (Some (TGroup g)) (i_impl_body E g st) ts.
Proof.
  apply at_blind; [apply blind_bind; [apply blind_within|intro; apply blind_ret]|].
  apply o_impl_body; [apply inside_closed|auto|constructor].
Qed.
Hint Resolve a_impl_body : spot.
Lemma a_body_group c site bad s ts : mute bad = false -> at_ 0 yes c (i_body_group E site bad s) ts.
Proof. intro Hb. unfold i_body_group. as_. Qed.
Hint Resolve a_body_group : spot.
Lemma a_impl c a ts : at_ 0 yes c (i_impl E a) ts.
Proof. unfold i_impl. as_. Qed.
Lemma a_trait c a v ts : at_ 0 yes c (i_trait E a v) ts.
Proof. unfold i_trait. as_. Qed.
Lemma a_mod c a v ts : at_ 0 yes c (i_mod R a v) ts.
Proof.
  unfold i_mod. as_. apply (at_bind yes); [apply at_within|intros; apply at_ret; exact I].
  apply o_mod_inner; [apply inside_closed|apply HR].
Qed.
Hint Resolve a_impl a_trait a_mod : spot.

(** After an item that turned out not to be a function. *)
Definition other_item (a : list attribute) (v : option vis_marker) (nf : not_function) : T item :=
  match nf with
  | NFConst => c <~ i_const_or_static a v ;; ret (IConstant c)
  | NFStatic => c <~ i_const_or_static a v ;; ret (IConstant c)
  | NFTrait => c <~ i_trait E a v ;; ret (ITrait c)
  | NFImpl => c <~ i_impl E a ;; ret (IImpl c)
  | NFMod => c <~ i_mod R a v ;; ret (IModule c)
  | NFExternBlock => c <~ i_extern_block E a v ;; ret (IExternBlock c)
  | NFExternCrate => c <~ i_extern_crate a v ;; ret (IExternCrate c)
  end.
Ltac words := repeat match goal with H : id_is _ _ = true |- _ => apply id_is_eq in H; destruct H as [? ->] end.
Lemma a_other a v q t nf r : wf_qualifiers q = true -> verdict q t = Got (Err nf) -> ~ stray (print_qualifiers q ++ t :: r) ->
  at_ (S (List.length (print_qualifiers q))) yes None (other_item a v nf) (print_qualifiers q ++ t :: r).
Proof.
  intros W V NS. destruct q as [d c a0 u e b]. unfold wf_qualifiers in W. cbn [fq_default fq_const fq_async fq_unsafe fq_extern fq_abi] in W.
  apply andb_prop in W. destruct W as [W Wb]. do 4 (apply andb_prop in W; destruct W as [W ?]).
  unfold verdict in V. destruct t as [g|i|p|l]; cbn [fq_default fq_const fq_async fq_unsafe fq_extern fq_abi] in V.
  - destruct (is_some e && delim_eqb (g_delim g) Brace) eqn:Eb; [|discriminate]. injection V as <-. apply andb_prop in Eb. destruct Eb as [Ee Ed].
    destruct e as [e|]; [|discriminate].
    destruct d as [d|], c as [c|], a0 as [a0|], u as [u|], b as [b|]; cbn [wf_opt] in *; words;
      unfold print_qualifiers, other_item, i_extern_block, i_consume_extern_block, i_consume_ident; cbn [print_opt print_ident print_lit app List.length fq_default fq_const fq_async fq_unsafe fq_extern fq_abi].
    all: as_.
  - destruct (id_is "fn" i); [discriminate|]. destruct (is_some e && id_is "crate" i) eqn:Ec.
    { injection V as <-. apply andb_prop in Ec. destruct Ec as [Ee Ec]. destruct e as [e|]; [|discriminate].
      destruct d as [d|], c as [c|], a0 as [a0|], u as [u|], b as [b|]; cbn [wf_opt] in *; words;
        unfold print_qualifiers, other_item, i_extern_crate, i_consume_extern_crate, i_consume_ident; cbn [print_opt print_ident print_lit app List.length fq_default fq_const fq_async fq_unsafe fq_extern fq_abi];
        as_. }
    destruct (id_is "static" i) eqn:Es.
    { injection V as <-.
      assert (Short : forall k, d = None -> c = Some k -> List.length (print_qualifiers (mkFnQualifiers d c a0 u e b)) <= 2).
      { intros k -> ->. destruct (le_lt_dec (List.length (print_qualifiers (mkFnQualifiers None (Some k) a0 u e b))) 2) as [Hl|Hl]; [exact Hl|]. exfalso. apply NS. exists (mkFnQualifiers None (Some k) a0 u e b), i, r.
        repeat split; auto. unfold wf_qualifiers. cbn [fq_default fq_const fq_async fq_unsafe fq_extern fq_abi]. rewrite W, H, H0, H1, H2, Wb. reflexivity. }
      clear NS.
      destruct d as [d|], c as [c|], a0 as [a0|], u as [u|], e as [e|], b as [b|]; try discriminate; try (exfalso; specialize (Short _ eq_refl eq_refl); unfold print_qualifiers in Short; cbn in Short; lia);
        clear Short; cbn [wf_opt] in *; words;
        unfold print_qualifiers, other_item, i_const_or_static, i_parse_any_ident, i_parse_punct; cbn [print_opt print_ident print_lit app List.length fq_default fq_const fq_async fq_unsafe fq_extern fq_abi];
        as_. }
    destruct (has_only_const_xor_unsafe (mkFnQualifiers d c a0 u e b)) eqn:Eo; [|discriminate].
    destruct d as [d|], c as [c|], a0 as [a0|], u as [u|], e as [e|], b as [b|]; try discriminate Eo; cbn [is_some] in V; try discriminate V; cbn [wf_opt] in *; words.
    + injection V as <-. unfold print_qualifiers, other_item, i_const_or_static, i_parse_any_ident, i_parse_punct; cbn [print_opt print_ident print_lit app List.length fq_default fq_const fq_async fq_unsafe fq_extern fq_abi];
        as_.
    + unfold print_qualifiers; cbn [print_opt print_ident print_lit app List.length fq_default fq_const fq_async fq_unsafe fq_extern fq_abi].
      destruct (id_is "trait" i) eqn:E1; [injection V as <-; words; unfold other_item, i_trait, i_consume_ident, i_parse_ident; as_|].
      destruct (id_is "impl" i) eqn:E2; [injection V as <-; words; unfold other_item, i_impl, i_consume_ident, i_parse_ident; as_|].
      destruct (id_is "mod" i) eqn:E3; [injection V as <-; words|discriminate].
      unfold other_item, i_mod, i_consume_ident, i_parse_ident. as_. apply (at_bind yes); [apply at_within|intros; as_].
      apply o_mod_inner; [apply inside_closed|apply HR].
  - discriminate.
  - destruct (is_some e) eqn:Ee; [|discriminate]. injection V as <-. destruct e as [e|]; [|discriminate].
    destruct d as [d|], c as [c|], a0 as [a0|], u as [u|], b as [b|]; cbn [wf_opt] in *; words;
      unfold print_qualifiers, other_item, i_extern_block, i_consume_extern_block, i_consume_ident; cbn [print_opt print_ident print_lit app List.length fq_default fq_const fq_async fq_unsafe fq_extern fq_abi];
      as_.
Qed.
End Spots.

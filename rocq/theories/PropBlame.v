(** C100: the tokens in a panic message come from the input.
    C101: they are the first token to blame, or inside of it. *)
From Verif Require Import Imp PropErase Debug Samples Safe Edit Unfold PropPanics PropMissing PropViable Blame.
Local Open Scope string_scope.
Local Open Scope list_scope.

Section Spots.
Variable R : T (result item error).
Variable E : list attribute -> option vis_marker -> T item.
Hypothesis HR : forall g, orig (inside g) yes R.
Hypothesis HE : forall g a v, visP (inside g) v -> orig (inside g) yes (E a v).

Lemma a_fn_or c a v ts : ~ stray ts ->
  at_ 0 yes c (f <~ i_fn a v ;; match f with Ok f => ret (IFunction f) | Err nf => other_item R E a v nf end) ts.
Proof.
  intro NS. destruct (quals_split ts) as (q & l & r & -> & -> & W & Hq). destruct r as [|t r].
  - unfold at_. rewrite fst_andthen, i_fn_split, fst_andthen.
    assert (X : fst (i_fn_head (print_qualifiers q ++ [])) = Died PFnKeyword no_fn_keyword).
    { unfold i_fn_head. rewrite fst_andthen. cbn [fst save]. rewrite fst_andthen, (Hq [] eq_refl), fst_andthen. reflexivity. }
    rewrite X. left. reflexivity.
  - assert (X : forall u, fst (i_fn_qualifiers (print_qualifiers q ++ t :: u)) = Got (q, t :: u)) by (intro u; apply Hq; reflexivity).
    assert (Y : forall u, fst (i_fn_head (print_qualifiers q ++ t :: u)) = match verdict q t with
      | Got (Ok kw) => Got ((q, Ok kw), u) | Got (Err nf) => Got ((q, Err nf), print_qualifiers q ++ t :: u) | Died p why => Died p why | Stuck => Stuck end)
      by (intro u; apply head_verdict, X).
    rewrite i_fn_split. destruct (verdict q t) as [[kw|nf]|p why|] eqn:V.
    + change (t :: r) with ([t] ++ r). rewrite app_assoc.
      apply (at_lift _ _ _ (f <~ fn_tail a v q kw ;; match f with Ok f => ret (IFunction f) | Err nf => other_item R E a v nf end)).
      * intro u. rewrite <- app_assoc. cbn [app]. rewrite fst_andthen, fst_andthen, Y, fst_andthen. reflexivity.
      * eapply at_bind; [apply a_fn_tail|]. intros [f|nf] r0 Hf; [apply at_ret; exact I|contradiction].
    + change (t :: r) with ([t] ++ r). rewrite app_assoc. apply (at_swap _ _ None _ (other_item R E a v nf)).
      * destruct (print_qualifiers q); discriminate.
      * intro u. rewrite <- app_assoc. cbn [app]. rewrite fst_andthen, fst_andthen, Y. reflexivity.
      * rewrite app_length, Nat.add_comm. cbn [List.length Nat.add]. rewrite <- app_assoc. cbn [app]. apply a_other; auto.
    + unfold at_. rewrite !fst_andthen, Y. destruct (verdict_died _ _ _ _ V) as [M|C]; [left; exact M|]. right. left.
      exists (print_qualifiers q), t, r. split; auto. split; [lia|]. split; auto. intro u. left. rewrite !fst_andthen, Y. reflexivity.
    + unfold at_. rewrite !fst_andthen, Y. exact I.
Qed.
Lemma a_either c x a v i ts : id_is "type" i || fn_like_keyword i = true -> ~ stray (TIdent i :: ts) -> at_ 0 yes c (i_either R E x a v) (TIdent i :: ts).
Proof.
  intros H NS. unfold i_either. apply at_peek_cons. destruct (id_is "type" i) eqn:Et.
  - as_.
  - cbn [orb] in H. rewrite H. exact (a_fn_or (Some (TIdent i)) a v _ NS).
Qed.
Lemma macro_inner_cut a ts : fst (i_macro a ts) = match fst (i_macro_inner a ts) with Got (None, _) => Got (None, ts) | o => o end.
Proof.
  unfold i_macro. rewrite fst_andthen. cbn [fst save]. rewrite fst_andthen. destruct (fst (i_macro_inner a ts)) as [[[m|] r]|p why|]; reflexivity.
Qed.
Lemma a_macro c a i b ts : p_is "!" b = true -> at_ 0 (fun m => m <> None) c (i_macro a) (TIdent i :: TPunct b :: ts).
Proof.
  intro Hb. assert (G : at_ 0 (fun m => m <> None) None (i_macro_inner a) (TIdent i :: TPunct b :: ts)).
  { unfold i_macro_inner, i_consume_any_ident, i_consume_punct. as_; try congruence; apply at_ret; discriminate. }
  unfold at_ in *. rewrite macro_inner_cut. destruct (fst (i_macro_inner a (TIdent i :: TPunct b :: ts))) as [[[m|] r]|p why|]; auto.
  - destruct G as (Hm & l & El & Hf & Hu). split; auto. exists l. split; auto. split; auto. intros u Hh. rewrite macro_inner_cut.
    destruct (Hu u Hh) as [->| ->]; [left|right]; reflexivity.
  - destruct G as [G _]. congruence.
  - destruct G as [G|[(l & t & r & El & Hf & Hc & Hu)|(t & _ & Et & _)]]; auto; [|discriminate]. right. left. exists l, t, r. repeat split; auto. intro u.
    rewrite macro_inner_cut. destruct (Hu u) as [->| ->]; [left|right]; reflexivity.
Qed.

(** The rest of [i_item_body] after the attributes and the visibility. *)
Definition dispatch (attributes : list attribute) (vis : option vis_marker) : T (result item error) :=
  t <~ peek ;;
  let other t :=
    m <~ i_macro attributes ;;
    match m with
    | Some m => ret (Ok (IMacro m))
    | None =>
        fail PNoDeclaration
          [Txt "cannot parse declaration: expected keyword struct/enum/union/type/trait/impl/mod/default/const/async/unsafe/extern/fn/static or macro, found token "; Dbg t]
    end in
  match t with
  | None =>
      fail PEndOfStream
        [Txt "cannot parse type: expected keyword struct/enum/union/type/trait/impl/mod/default/const/async/unsafe/extern/fn/static or macro, found end-of-stream"]
  | Some (TIdent kw) =>
      if id_is "struct" kw then next ;;> x <~ i_struct attributes vis kw ;; ret (Ok (IStruct x))
      else if id_is "enum" kw then
        next ;;> x <~ i_enum attributes vis kw ;; match x with Ok e => ret (Ok (IEnum e)) | Err e => ret (Err e) end
      else if id_is "union" kw then next ;;> x <~ i_union attributes vis kw ;; ret (Ok (IUnion x))
      else if id_is "mod" kw then x <~ i_mod R attributes vis ;; ret (Ok (IModule x))
      else if id_is "trait" kw then x <~ i_trait E attributes vis ;; ret (Ok (ITrait x))
      else if id_is "impl" kw then x <~ i_impl E attributes ;; ret (Ok (IImpl x))
      else if id_is "static" kw then x <~ i_const_or_static attributes vis ;; ret (Ok (IConstant x))
      else if id_is "use" kw then x <~ i_use attributes vis ;; ret (Ok (IUse x))
      else if either_keyword kw then x <~ i_either R E "fn/type/const/static/extern/extern crate" attributes vis ;; ret (Ok x)
      else other (TIdent kw)
  | Some t => other t
  end.
Lemma item_body_split : i_item_body R E = (a <~ i_attributes false ;; v <~ i_vis_marker ;; dispatch a v).
Proof. reflexivity. Qed.
(** An identifier that starts no item, not followed by an exclamation mark. *)
Definition starter (i : ident) : bool :=
  existsb (fun k => id_is k i) ["struct"; "enum"; "union"; "mod"; "trait"; "impl"; "static"; "use"; "default"; "const"; "async"; "unsafe"; "extern"; "fn"; "type"].
Definition bare (ts : list tok) : Prop := exists i r, ts = TIdent i :: r /\ starter i = false
  /\ match r with TPunct b :: _ => p_is "!" b = false | _ => True end.
Hint Resolve a_impl a_trait a_mod : spot.
Lemma a_dispatch c a v ts : ~ bare ts -> ~ stray ts -> at_ 0 yes c (dispatch a v) ts.
Proof.
  intros NB NS. unfold dispatch. destruct ts as [|[g|i|p|l] ts].
  - as_.
  - cbv zeta. apply at_peek_cons. unfold at_. rewrite fst_andthen. right. left. exists [], (TGroup g), ts. split; auto. split; [lia|]. split; [covered|].
    intro u. left. rewrite fst_andthen. reflexivity.
  - cbv zeta. apply at_peek_cons.
    destruct (id_is "struct" i) eqn:K1; [as_|]. destruct (id_is "enum" i) eqn:K2; [as_|]. destruct (id_is "union" i) eqn:K3; [as_|].
    destruct (id_is "mod" i) eqn:K4; [as_|]. destruct (id_is "trait" i) eqn:K5; [as_|]. destruct (id_is "impl" i) eqn:K6; [as_|].
    destruct (id_is "static" i) eqn:K7; [as_|]. destruct (id_is "use" i) eqn:K8; [as_|].
    destruct (either_keyword i) eqn:K9.
    + apply (at_bind yes); [|intros; apply at_ret; exact I]. apply a_either; auto. unfold either_keyword, fn_like_keyword in *.
      rewrite !orb_true_iff in *. tauto.
    + assert (Hs : starter i = false).
      { unfold starter, either_keyword in *. cbn [existsb]. rewrite K1, K2, K3, K4, K5, K6, K7, K8. cbn [orb]. rewrite !orb_false_iff in *. tauto. }
      destruct ts as [|[g|j|b|l] ts]; try (exfalso; apply NB; eexists _, _; split; [reflexivity|]; split; [exact Hs|exact I]).
      destruct (p_is "!" b) eqn:Eb; [|exfalso; apply NB; eexists _, _; split; [reflexivity|]; split; [exact Hs|exact Eb]].
      eapply at_bind; [apply a_macro; exact Eb|]. intros [m|] r Hm; [apply at_ret; exact I|congruence].
  - cbv zeta. apply at_peek_cons. unfold at_. rewrite fst_andthen. right. left. exists [], (TPunct p), ts. split; auto. split; [lia|]. split; [covered|].
    intro u. left. rewrite fst_andthen. reflexivity.
  - cbv zeta. apply at_peek_cons. unfold at_. rewrite fst_andthen. right. left. exists [], (TLit l), ts. split; auto. split; [lia|]. split; [covered|].
    intro u. left. rewrite fst_andthen. reflexivity.
Qed.
End Spots.

(** ** More fuel *)
Definition below {A} (m m' : T A) : Prop := forall ts, fst (m ts) = Stuck \/ fst (m' ts) = fst (m ts).
Lemma below_refl {A} (m : T A) : below m m.
Proof. intro ts. auto. Qed.
Lemma below_bind {A B} (m m' : T A) (k k' : A -> T B) : below m m' -> (forall x, below (k x) (k' x)) -> below (andthen m k) (andthen m' k').
Proof.
  intros H Hk ts. rewrite !fst_andthen. destruct (H ts) as [->| ->]; [left; reflexivity|].
  destruct (fst (m ts)) as [[x r]|p why|]; auto. apply Hk.
Qed.
Lemma below_within {A} s (m m' : T A) : below m m' -> below (within s m) (within s m').
Proof.
  intro H. apply below_bind; [apply below_refl|]. intros _ ts. unfold on. specialize (H s).
  destruct (m s) as [[[x r]|p why|] c], (m' s) as [[[x' r']|p' why'|] c']; cbn [fst] in *; destruct H as [H|H]; try discriminate; auto;
    right; congruence.
Qed.
Lemma below_loop {S R} (body body' : S -> T (S + R)) s : (forall s, below (body s) (body' s)) -> below (loop body s) (loop body' s).
Proof.
  intros H ts. unfold loop. generalize (loop_fuel ts). intro n. revert s ts. induction n as [|n IH]; intros s ts; [left; reflexivity|].
  cbn [rounds]. apply (below_bind (body s) (body' s)); auto. intros [s'|x]; [|apply below_refl]. intro r. apply IH.
Qed.
Ltac b1 :=
  match goal with
  | |- below ?m ?m => apply below_refl
  | |- below (andthen _ _) (andthen _ _) => apply below_bind; [|intro]
  | |- below (within _ _) (within _ _) => apply below_within
  | |- below (loop _ _) (loop _ _) => apply below_loop; intro
  | |- below (match ?x with _ => _ end) (match ?x with _ => _ end) => destruct x
  | |- _ => solve [auto]
  end.
Ltac bs := repeat (cbv beta iota zeta; b1).
Section More.
Variables R R' : T (result item error).
Variables E E' : list attribute -> option vis_marker -> T item.
Hypothesis HR : below R R'.
Hypothesis HE : forall a v, below (E a v) (E' a v).
Lemma b_impl_body g st : below (i_impl_body E g st) (i_impl_body E' g st).
Proof. unfold i_impl_body. bs. Qed.
Hint Resolve b_impl_body : core.
Lemma b_body_group s b t : below (i_body_group E s b t) (i_body_group E' s b t).
Proof. unfold i_body_group. bs. Qed.
Hint Resolve b_body_group : core.
Lemma b_impl a : below (i_impl E a) (i_impl E' a).
Proof. unfold i_impl. bs. Qed.
Lemma b_trait a v : below (i_trait E a v) (i_trait E' a v).
Proof. unfold i_trait. bs. Qed.
Lemma b_extern_block a v : below (i_extern_block E a v) (i_extern_block E' a v).
Proof. unfold i_extern_block, i_consume_extern_block. bs. Qed.
Lemma b_mod a v : below (i_mod R a v) (i_mod R' a v).
Proof. unfold i_mod. bs. Qed.
Hint Resolve b_impl b_trait b_extern_block b_mod : core.
Lemma b_either c a v : below (i_either R E c a v) (i_either R' E' c a v).
Proof. unfold i_either. bs. Qed.
Hint Resolve b_either : core.
Lemma b_item_body : below (i_item_body R E) (i_item_body R' E').
Proof. unfold i_item_body. bs. Qed.
End More.
Lemma nest_below n m : n <= m -> below (fst (i_nest n)) (fst (i_nest m)) /\ forall a v, below (snd (i_nest n) a v) (snd (i_nest m) a v).
Proof.
  revert m. induction n as [|n IH]; intros m H; [split; intros; left; reflexivity|]. destruct m as [|m]; [lia|].
  destruct (IH m) as [H1 H2]; [lia|]. cbn [i_nest]. destruct (i_nest n) as [R E], (i_nest m) as [R' E']. cbn [fst snd] in *.
  split; [apply b_item_body|intros; apply b_either]; auto.
Qed.
Lemma consume_more ts n : S (toks_depth ts) <= n -> fst (fst (i_nest n) ts) = fst (i_consume_item ts).
Proof.
  intro H. destruct (proj1 (nest_below _ _ H) ts) as [X|X]; [|exact X]. exfalso.
  pose proof (C97_consume_item ts) as Y. unfold run, i_consume_item in Y. rewrite X in Y. cbn in Y. pose proof (consume_item_safe ts) as S. rewrite <- Y in S. exact S.
Qed.
Lemma nest_origin n : (forall g, orig (inside g) yes (fst (i_nest n))) /\ forall g a v, visP (inside g) v -> orig (inside g) yes (snd (i_nest n) a v).
Proof. split; intros; apply o_nest; auto; apply inside_closed. Qed.

(** ** The three ways of dying with a token in the message *)
Definition opens (ts r : list tok) : Prop := exists a t1 v, fst (i_attributes false ts) = Got (a, t1) /\ fst (i_vis_marker t1) = Got (v, r).
Lemma nest_split n : fst (i_nest (S n)) = (a <~ i_attributes false ;; v <~ i_vis_marker ;; dispatch (fst (i_nest n)) (snd (i_nest n)) a v).
Proof. cbn [i_nest]. destruct (i_nest n) as [R E]. reflexivity. Qed.
Lemma a_item n ts : (forall r, opens ts r -> ~ bare r /\ ~ stray r) -> at_ 0 yes None (fst (i_nest (S n))) ts.
Proof.
  intro H. rewrite nest_split. destruct (nest_origin n) as [HR HE].
  apply (at_bind_at yes); [apply a_attributes|]. intros a t1 Ha _. apply (at_bind_at yes); [apply a_vis_marker|]. intros v r Hv _.
  destruct (H r) as [NB NS]; [exists a, t1, v; auto|]. apply a_dispatch; auto.
Qed.
Lemma plainly_not_stuck {A} (m : T A) ts : safe (run m ts) -> fst (m ts) <> Stuck.
Proof. unfold run. intros H Hs. rewrite Hs in H. exact H. Qed.
(** Behind attributes and visibility only the rest counts, as long as its first token stays. *)
Lemma opens_run ts r : opens ts r -> exists pre a v, ts = pre ++ r
  /\ forall n u, hd_error u = hd_error r -> fst (fst (i_nest (S n)) (pre ++ u)) = fst (dispatch (fst (i_nest n)) (snd (i_nest n)) a v u).
Proof.
  intros (a & t1 & v & Ha & Hv). pose proof (a_attributes None ts) as A. unfold at_ in A. rewrite Ha in A. destruct A as (_ & l1 & -> & _ & A).
  pose proof (a_vis_marker None t1) as B. unfold at_ in B. rewrite Hv in B. destruct B as (_ & l2 & -> & _ & B).
  exists (l1 ++ l2), a, v. split; [apply app_assoc|]. intros n u Hu. rewrite nest_split, fst_andthen, <- app_assoc.
  destruct (A (l2 ++ u)) as [X|X]; [apply hd_app; exact Hu| |].
  - rewrite X. rewrite fst_andthen. destruct (B u Hu) as [Y|Y]; [rewrite Y; reflexivity|].
    exfalso. revert Y. apply plainly_not_stuck. rewrite e_vis. exact I.
  - exfalso. revert X. apply plainly_not_stuck. rewrite e_attributes. eapply attributes_safe. eauto.
Qed.
Definition no_declaration (t : tok) : list piece :=
  [Txt "cannot parse declaration: expected keyword struct/enum/union/type/trait/impl/mod/default/const/async/unsafe/extern/fn/static or macro, found token "; Dbg t].
Lemma bare_run R E a v i : starter i = false ->
  (exists x, fst (dispatch R E a v (TIdent i :: lex "! {}")) = Got (Ok (IMacro x), []))
  /\ fst (dispatch R E a v [TIdent i]) = Died PNoDeclaration (no_declaration (TIdent i))
  /\ forall t u, match t with TPunct b => p_is "!" b = false | _ => True end ->
     fst (dispatch R E a v (TIdent i :: t :: u)) = Died PNoDeclaration (no_declaration (TIdent i)).
Proof.
  intro Hs. unfold starter in Hs. cbn [existsb] in Hs. rewrite !orb_false_iff in Hs. destruct Hs as (E1 & E2 & E3 & E4 & E5 & E6 & E7 & E8 & E9 & E10 & E11 & E12 & E13 & E14 & E15 & _).
  assert (Ee : either_keyword i = false) by (unfold either_keyword, fn_like_keyword; rewrite ?E9, ?E10, ?E11, ?E12, ?E13, ?E14, ?E15; reflexivity).
  unfold dispatch. split; [|split]; [eexists| |intros t u Ht]; rewrite !fst_andthen; cbn [fst peek hd_error]; rewrite E1, E2, E3, E4, E5, E6, E7, E8, Ee; try reflexivity.
  destruct t as [g|j|b|k]; try reflexivity. cbn in Ht. unfold i_macro, i_macro_inner, i_consume_punct, i_consume_any_ident, andthen. cbn -[p_is]. rewrite Ht. reflexivity.
Qed.
Definition no_colon (t : tok) : list piece := [Txt "cannot parse "; Txt "const/static"; Txt ": expected `"; Txt ":"; Txt "` punct, got "; DbgOpt (Some t)].
Lemma stray_run R E a v q s : wf_qualifiers q = true -> fq_default q = None -> is_some (fq_const q) = true -> 3 <= List.length (print_qualifiers q) -> id_is "static" s = true ->
  (exists x, fst (dispatch R E a v (print_qualifiers q ++ lex "fn f();")) = Got (Ok (IFunction x), []))
  /\ exists k x y l, print_qualifiers q = TIdent k :: x :: y :: l /\ id_is "const" k = true
    /\ forall u, fst (dispatch R E a v (print_qualifiers q ++ TIdent s :: u)) = Died (PExpectedPunct ":" "const/static" false) (no_colon y).
Proof.
  intros W D C L S. destruct q as [d c y u e b]. cbn in D, C. subst d. destruct c as [c|]; [|discriminate].
  unfold wf_qualifiers in W. cbn [fq_default fq_const fq_async fq_unsafe fq_extern fq_abi wf_opt some andb] in W. rewrite ?andb_true_iff in W. destruct W as ((((Wc & Wa) & Wu) & We) & Wb).
  destruct c as [c c0], s as [s s0]. unfold id_is in Wc, S. cbn [id_str] in Wc, S. apply String.eqb_eq in Wc, S. subst c s.
  destruct y as [[y y0]|], u as [[u u0]|], e as [[e e0]|], b as [b|]; try (exfalso; vm_compute in L; lia); try (vm_compute in Wb; discriminate);
    unfold wf_opt, id_is in Wa, Wu, We; cbn [id_str] in Wa, Wu, We; try apply String.eqb_eq in Wa; try apply String.eqb_eq in Wu; try apply String.eqb_eq in We; subst;
    (split; [eexists; vm_compute; reflexivity|do 4 eexists; split; [reflexivity|split; [reflexivity|intro w; vm_compute; reflexivity]]]).
Qed.
Lemma stray_dec ts : stray ts \/ ~ stray ts.
Proof.
  pose (f := fun ts => match consume_fn_qualifiers ts with
    | (q, TIdent s :: _) => id_is "static" s && negb (is_some (fq_default q)) && is_some (fq_const q) && Nat.leb 3 (List.length (print_qualifiers q))
    | _ => false end).
  assert (F : forall ts, stray ts <-> f ts = true).
  { intro x. unfold f. split.
    - intros (q & s & r & -> & W & D & C & L & S). rewrite qualifiers_complete; auto.
      + rewrite S, D, C. cbn [negb is_some andb]. apply Nat.leb_le. exact L.
      + unfold id_in. unfold id_is in *. apply String.eqb_eq in S. rewrite S. reflexivity.
    - destruct (consume_fn_qualifiers x) as [q [|[g|s|p|l] r]] eqn:Eq; try discriminate. rewrite !andb_true_iff. intros (((S & D) & C) & L).
      apply qualifiers_sound in Eq. destruct Eq as [-> W]. exists q, s, r. repeat split; auto.
      + destruct (fq_default q); [discriminate|reflexivity].
      + apply Nat.leb_le. exact L. }
  destruct (f ts) eqn:Ef; [left; apply F; exact Ef|right]. rewrite F, Ef. discriminate.
Qed.
Lemma bare_dec ts : bare ts \/ ~ bare ts.
Proof.
  destruct ts as [|[g|i|p|l] r]; try (right; intros (j & s & H & _); discriminate).
  destruct (starter i) eqn:Es; [right; intros (j & s & H & Hs & _); injection H as <- <-; congruence|].
  destruct r as [|[g|k|b|l] r]; try (left; exists i; eexists; split; [reflexivity|split; [exact Es|exact I]]).
  destruct (p_is "!" b) eqn:Eb; [right|left].
  - intros (j & s & H & _ & Hm). injection H as <- <-. congruence.
  - exists i. eexists. split; [reflexivity|]. auto.
Qed.
Lemma opens_dec ts : (exists r, opens ts r /\ forall s, opens ts s -> s = r) \/ forall r, ~ opens ts r.
Proof.
  unfold opens. destruct (fst (i_attributes false ts)) as [[a t1]|p why|]; [|right; intros r (a & t1 & v & H & _); discriminate..].
  destruct (fst (i_vis_marker t1)) as [[v r]|p why|] eqn:Ev; [|right; intros r (b & t2 & v & H & H2); injection H as <- <-; congruence..].
  left. exists r. split; [exists a, t1, v; auto|]. intros s (b & t2 & w & H & H2). injection H as <- <-. congruence.
Qed.
Lemma got_viable n pre u i : S (toks_depth (pre ++ u)) <= n -> fst (fst (i_nest n) (pre ++ u)) = Got (Ok i, []) -> viable pre.
Proof.
  intros Hn H. rewrite consume_more in H by exact Hn. exists u, i. pose proof (C97_consume_item (pre ++ u)) as X. unfold run in X. rewrite H in X. cbn in X.
  unfold parse_item. rewrite <- X. reflexivity.
Qed.

(** The three ways. The first is the rule. *)
Lemma ways n ts p why : fst (fst (i_nest (S n)) ts) = Died p why -> mute p = false ->
  (exists l t r, ts = l ++ t :: r /\ covers t why /\ forall u, like (Died p why) (fst (fst (i_nest (S n)) (l ++ t :: u))))
  \/ (exists l i r, ts = l ++ TIdent i :: r /\ viable (l ++ [TIdent i]) /\ p = PNoDeclaration /\ shown why = [TIdent i]
      /\ forall t s u, r = t :: s -> fst (fst (i_nest (S n)) (l ++ TIdent i :: t :: u)) = Died p why)
  \/ (exists l k x y l1 s r, ts = l ++ (TIdent k :: x :: y :: l1) ++ TIdent s :: r /\ viable (l ++ TIdent k :: x :: y :: l1)
      /\ id_is "const" k = true /\ id_is "static" s = true /\ p = PExpectedPunct ":" "const/static" false /\ shown why = [y]
      /\ forall u, fst (fst (i_nest (S n)) (l ++ (TIdent k :: x :: y :: l1) ++ TIdent s :: u)) = Died p why).
Proof.
  intros H M.
  assert (G : at_ 0 yes None (fst (i_nest (S n))) ts \/ exists r, opens ts r /\ (bare r \/ stray r)).
  { destruct (opens_dec ts) as [(r & Hr & U)|N].
    - destruct (bare_dec r) as [B|B]; [right; eauto|]. destruct (stray_dec r) as [S|S]; [right; eauto|].
      left. apply a_item. intros s Hs. apply U in Hs. subst. auto.
    - left. apply a_item. intros r Hr. destruct (N r Hr). }
  destruct G as [G|(r & Hr & G)].
  - unfold at_ in G. rewrite H in G. destruct G as [G|[(l & t & r & E & _ & C & U)|(t & _ & G & _)]]; [congruence| |discriminate].
    left. exists l, t, r. auto.
  - right. destruct (opens_run _ _ Hr) as (pre & a & v & -> & U). destruct G as [(i & s & -> & Hs & Hm)|(q & s & w & -> & W & D & C & L & S)]; [left|right].
    + exists pre, i, s. split; auto.
      destruct (bare_run (fst (i_nest n)) (snd (i_nest n)) a v i Hs) as (_ & B2 & B3).
      split.
      { set (N := toks_depth (pre ++ TIdent i :: lex "! {}")). destruct (bare_run (fst (i_nest N)) (snd (i_nest N)) a v i Hs) as ((x & B) & _).
        apply (got_viable (Datatypes.S N) _ (lex "! {}") (IMacro x)); rewrite <- app_assoc; [apply le_n|]. cbn [app]. rewrite U by reflexivity. exact B. }
      rewrite U in H by reflexivity.
      assert (K : Died p why = Died PNoDeclaration (no_declaration (TIdent i)) :> ending (result item error * list tok)).
      { rewrite <- H. destruct s as [|t s]; [exact B2|]. apply B3. destruct t; auto. }
      injection K as -> ->. split; auto. split; auto. intros t s' u ->. rewrite U by reflexivity. apply B3. destruct t; auto.
    + destruct (stray_run (fst (i_nest n)) (snd (i_nest n)) a v q s W D C L S) as (_ & k & x & y & l1 & Eq & Hk & B3).
      exists pre, k, x, y, l1, s, w. rewrite Eq. split; auto.
      split.
      { set (N := toks_depth ((pre ++ print_qualifiers q) ++ lex "fn f();")). destruct (stray_run (fst (i_nest N)) (snd (i_nest N)) a v q s W D C L S) as ((z & B) & _).
        rewrite <- Eq. apply (got_viable (Datatypes.S N) _ (lex "fn f();") (IFunction z)); [apply le_n|]. rewrite <- app_assoc. rewrite U by (rewrite Eq; reflexivity). exact B. }
      assert (K : forall u, fst (fst (i_nest (Datatypes.S n)) (pre ++ print_qualifiers q ++ TIdent s :: u)) = Died (PExpectedPunct ":" "const/static" false) (no_colon y)).
      { intro u. rewrite U by (rewrite Eq; reflexivity). apply B3. }
      rewrite K in H. injection H as <- <-. rewrite <- Eq. repeat split; auto.
Qed.

(** ** C100: whatever a message shows was in the input *)
Lemma parse_item_died ts p why : fst (i_parse_item ts) = Died p why ->
  (fst (i_consume_item ts) = Died p why /\ p <> PTrailingTokens /\ parse_item ts = Panic p)
  \/ (p = PTrailingTokens /\ exists d t r, fst (i_consume_item ts) = Got (d, t :: r) /\ shown why = t :: r).
Proof.
  intro H. pose proof (C97_parse_item ts) as X. unfold run in X. rewrite H in X. cbn [plainly] in X.
  unfold i_parse_item in H. rewrite fst_andthen in H. destruct (fst (i_consume_item ts)) as [[d r]|q w|] eqn:Ec; [| |discriminate].
  - right. rewrite fst_andthen in H. cbn [fst peek] in H. destruct r as [|t r]; [discriminate|]. cbn [hd_error] in H. rewrite fst_andthen in H. cbn in H. injection H as <- <-.
    split; auto. exists d, t, r. split; auto. cbn. rewrite ?app_nil_r. reflexivity.
  - left. injection H as -> ->. split; auto. pose proof (o_consume_item (fun _ => True) (fun g _ => proj2 (Forall_forall _ _) (fun _ _ => I)) ts) as O. rewrite Ec in O.
    split; [apply O; apply Forall_forall; auto|]. destruct (parse_item ts); cbn in X; congruence.
Qed.
Definition from (ts : list tok) (x : tok) : Prop := exists t, In t ts /\ part x t.
Lemma from_closed ts : forall g, from ts (TGroup g) -> Forall (from ts) (g_stream g).
Proof.
  intros g (t & Ht & Hg). apply Forall_forall. intros x Hx. exists t. split; auto. eapply part_trans; [|exact Hg]. econstructor; [exact Hx|constructor].
Qed.
Lemma from_self ts : Forall (from ts) ts.
Proof. apply Forall_forall. intros x Hx. exists x. split; auto. constructor. Qed.

(** "found token ..." names a token of the input, at the top or inside a group. *)
Theorem C100_origin (ts : list tok) (p : panic) (why : list piece) :
  fst (i_parse_item ts) = Died p why -> forall x, In x (shown why) -> exists t, In t ts /\ part x t.
Proof.
  intros H x Hx. destruct (parse_item_died _ _ _ H) as [(H1 & _)|(_ & d & t & r & H1 & H2)]; pose proof (o_consume_item (from ts) (from_closed ts) ts (from_self ts)) as O; rewrite H1 in O.
  - destruct O as [O _]. rewrite Forall_forall in O. exact (O x Hx).
  - destruct O as [O _]. rewrite Forall_forall in O. rewrite <- H2 in O. exact (O x Hx).
Qed.
Theorem C100_path (ts : list tok) (p : panic) (why : list piece) :
  fst (i_path ts) = Died p why -> forall x, In x (shown why) -> exists t, In t ts /\ part x t.
Proof.
  intros H x Hx. pose proof (o_path (from ts) ts (from_self ts)) as O. rewrite H in O.
  destruct O as [O _]. rewrite Forall_forall in O. exact (O x Hx).
Qed.
(** A site that never shows a token. *)
Theorem C100_silent (ts : list tok) (p : panic) (why : list piece) :
  fst (i_parse_item ts) = Died p why -> mute p = true -> shown why = [].
Proof.
  intros H M. destruct (parse_item_died _ _ _ H) as [(H1 & _)|(-> & _)]; [|discriminate M].
  pose proof (o_consume_item (from ts) (from_closed ts) ts (from_self ts)) as O. rewrite H1 in O. destruct O as (_ & [O|O] & _); [exact O|congruence].
Qed.

(** ** C101: the token that is shown is the one that is wrong *)
Lemma last_of (l l4 : list tok) t t4 r4 : l ++ [t] = l4 ++ t4 :: r4 -> (l4 = l /\ t4 = t) \/ exists r', l = l4 ++ t4 :: r'.
Proof.
  destruct (exists_last (l := t4 :: r4)) as (r' & x & E); [discriminate|]. rewrite E, app_assoc. intro H. apply app_inj_tail in H. destruct H as [-> ->].
  destruct r' as [|y r']; cbn in E; injection E as -> ->; [left|right].
  - rewrite app_nil_r. auto.
  - eauto.
Qed.
Lemma viable_got N l c i : S (toks_depth (l ++ c)) <= N -> parse_item (l ++ c) = Ret (Ok i) -> fst (fst (i_nest N) (l ++ c)) = Got (Ok i, []).
Proof.
  intros HN H. rewrite consume_more by exact HN. pose proof (C97_consume_item (l ++ c)) as X. unfold run in X. unfold parse_item in H. rewrite <- X in H.
  destruct (fst (i_consume_item (l ++ c))) as [[d [|t r]]|p why|]; cbn in H; try discriminate. injection H as ->. reflexivity.
Qed.

(** The message that the parser dies with shows nothing, or only the first token that no
    continuation of what precedes can have (or parts of it). There are two exceptions: a lone
    identifier is shown although it is the next token that rules it out as a macro call; and after [const]
    with two more qualifiers [static] is the wrong token, but the second of these qualifiers is shown. *)
Theorem C101_blame (ts : list tok) (p : panic) (why : list piece) :
  fst (i_parse_item ts) = Died p why -> p <> PTrailingTokens -> ~ viable ts ->
  exists l t r, ts = l ++ t :: r /\ viable l /\ ~ viable (l ++ [t])
    /\ ((forall x, In x (shown why) -> part x t)
        \/ (p = PNoDeclaration /\ exists l0 i, l = l0 ++ [TIdent i] /\ shown why = [TIdent i])
        \/ (p = PExpectedPunct ":" "const/static" false /\ is_ident "static" t = true
            /\ exists l0 k x y l1, l = l0 ++ k :: x :: y :: l1 /\ is_ident "const" k = true /\ shown why = [y])).
Proof.
  intros H NT NV. destruct (C95_first ts NV) as (l & t & r & E & Vl & Nt & F). exists l, t, r. split; [exact E|]. split; [exact Vl|]. split; [exact Nt|].
  destruct (mute p) eqn:M; [left; rewrite (C100_silent _ _ _ H M); intros x []|].
  destruct (parse_item_died _ _ _ H) as [(H1 & _ & H2)|(X & _)]; [|congruence].
  destruct F as [F|(_ & F)]; [|congruence]. rewrite H2 in F. symmetry in F.
  destruct Vl as (c & i & Vl).
  set (N := toks_depth ts + toks_depth (l ++ [t]) + toks_depth (l ++ c)).
  assert (Gl : fst (fst (i_nest (S N)) (l ++ c)) = Got (Ok i, [])) by (apply viable_got; [unfold N; lia|exact Vl]).
  assert (Gs : fst (fst (i_nest (S N)) ts) = Died p why) by (rewrite consume_more by (unfold N; lia); exact H1).
  assert (Gt : exists why', fst (fst (i_nest (S N)) (l ++ [t])) = Died p why').
  { rewrite consume_more by (unfold N; lia). pose proof (C97_consume_item (l ++ [t])) as X. unfold run in X. unfold parse_item in F. rewrite <- X in F.
    destruct (fst (i_consume_item (l ++ [t]))) as [[d [|y s]]|q w|]; cbn in F; try congruence. injection F as ->. eauto. }
  clearbody N. clear H H1 H2 F Vl NV. destruct Gt as (why' & Gt).
  destruct (ways N _ _ _ Gt M) as [(l4 & t4 & r4 & E4 & C4 & U4)|[(l4 & j & r4 & E4 & V4 & P4 & S4 & U4)|(l4 & k & x & y & l1 & s & r4 & E4 & V4 & K4 & S4 & P4 & W4 & U4)]].
  - left. destruct (last_of _ _ _ _ _ E4) as [[-> ->]|(r' & ->)].
    + destruct (U4 r) as [Y|Y]; rewrite <- E, Gs in Y; [|discriminate]. injection Y as ->. unfold covers in C4. rewrite Forall_forall in C4. exact C4.
    + destruct (U4 (r' ++ c)) as [Y|Y]; rewrite <- app_assoc in Gl; cbn [app] in Gl; rewrite Gl in Y; discriminate.
  - right. left. split; auto. destruct r4 as [|t' s]; [rewrite E4 in Nt; contradiction|]. change (TIdent j :: t' :: s) with ([TIdent j] ++ t' :: s) in E4. rewrite app_assoc in E4.
    destruct (last_of _ _ _ _ _ E4) as [[El ->]|(r' & ->)].
    + exists l4, j. split; auto. specialize (U4 t s r eq_refl). rewrite E, <- El, <- app_assoc in Gs. cbn [app] in Gs. rewrite Gs in U4. injection U4 as ->. exact S4.
    + specialize (U4 t' s (r' ++ c) eq_refl). rewrite <- !app_assoc in Gl. cbn [app] in Gl. rewrite Gl in U4. discriminate.
  - right. right. rewrite app_assoc in E4. destruct (last_of _ _ _ _ _ E4) as [[El <-]|(r' & ->)].
    + split; auto. split; [exact S4|]. exists l4, (TIdent k), x, y, l1. split; auto. split; [exact K4|].
      specialize (U4 r). rewrite E, <- El, <- app_assoc in Gs. rewrite Gs in U4. injection U4 as ->. exact W4.
    + specialize (U4 (r' ++ c)). rewrite <- !app_assoc in Gl. cbn [app] in Gl, U4. rewrite Gl in U4. discriminate.
Qed.

(** If the tokens merely end too early, no token is blamed, save the lone identifier at the end. *)
Theorem C101_early (ts : list tok) (p : panic) (why : list piece) :
  fst (i_parse_item ts) = Died p why -> viable ts ->
  shown why = [] \/ (p = PNoDeclaration /\ exists l i, ts = l ++ [TIdent i] /\ shown why = [TIdent i]).
Proof.
  intros H (c & d & V). destruct (mute p) eqn:M; [left; exact (C100_silent _ _ _ H M)|right].
  destruct (parse_item_died _ _ _ H) as [(H1 & _ & H2)|(-> & _)].
  2:{ pose proof (C97_parse_item ts) as X. unfold run in X. rewrite H in X. cbn in X.
      assert (Hp : parse_item ts = Panic PTrailingTokens) by (destruct (parse_item ts); cbn in X; congruence).
      assert (In PTrailingTokens (map fst missing)) as HI by (apply C92_missing; eauto). cbn in HI.
      repeat (destruct HI as [HI|HI]; [discriminate|]). destruct HI. }
  set (N := toks_depth ts + toks_depth (ts ++ c)).
  assert (Gl : fst (fst (i_nest (S N)) (ts ++ c)) = Got (Ok d, [])) by (apply viable_got; [unfold N; lia|exact V]).
  assert (Gs : fst (fst (i_nest (S N)) ts) = Died p why) by (rewrite consume_more by (unfold N; lia); exact H1).
  clearbody N.
  destruct (ways N _ _ _ Gs M) as [(l4 & t4 & r4 & -> & C4 & U4)|[(l4 & j & r4 & -> & V4 & P4 & S4 & U4)|(l4 & k & x & y & l1 & s & r4 & -> & V4 & K4 & S4 & P4 & W4 & U4)]].
  - destruct (U4 (r4 ++ c)) as [Y|Y]; rewrite <- app_assoc in Gl; cbn [app] in Gl; rewrite Gl in Y; discriminate.
  - split; auto. exists l4, j. split; auto. destruct r4 as [|t s]; auto. specialize (U4 t s (s ++ c) eq_refl). rewrite <- app_assoc in Gl. cbn [app] in Gl. rewrite Gl in U4. discriminate.
  - specialize (U4 (r4 ++ c)). rewrite <- !app_assoc in Gl. cbn [app] in Gl, U4. rewrite Gl in U4. discriminate.
Qed.
Lemma got_local n ts x r : fst (fst (i_nest (S n)) ts) = Got (x, r) ->
  exists l, ts = l ++ r /\ forall u, hd_error u = hd_error r -> like (Got (x, u)) (fst (fst (i_nest (S n)) (l ++ u))).
Proof.
  intro H. assert (G : at_ 0 yes None (fst (i_nest (S n))) ts).
  { apply a_item. intros s Hs. destruct (opens_run _ _ Hs) as (pre & a & v & -> & U). rewrite U in H by reflexivity. split.
    - intros (i & w & -> & Ei & Hm). destruct (bare_run (fst (i_nest n)) (snd (i_nest n)) a v i Ei) as (_ & B2 & B3).
      destruct w as [|t w]; [congruence|]. rewrite B3 in H; [discriminate|]. destruct t; auto.
    - intros (q & k & w & -> & W & D & C & L & S). destruct (stray_run (fst (i_nest n)) (snd (i_nest n)) a v q k W D C L S) as (_ & ? & ? & ? & ? & ? & ? & B3).
      rewrite B3 in H. discriminate. }
  unfold at_ in G. rewrite H in G. destruct G as (_ & l & E & _ & U). eauto.
Qed.
(** Trailing tokens are shown as they are; if an item precedes them, the first of them is the wrong one. *)
Theorem C101_trailing (ts : list tok) (why : list piece) :
  fst (i_parse_item ts) = Died PTrailingTokens why ->
  exists l t r d, ts = l ++ t :: r /\ shown why = t :: r /\ consume_item ts = Ret (d, t :: r)
    /\ ~ viable (l ++ [t]) /\ (forall i, d = Ok i -> viable l).
Proof.
  intro H. destruct (parse_item_died _ _ _ H) as [(_ & X & _)|(_ & d & t & r & H1 & H2)]; [congruence|].
  assert (Hc : consume_item ts = Ret (d, t :: r)) by (pose proof (C97_consume_item ts) as X; unfold run in X; rewrite H1 in X; symmetry; exact X).
  set (n := toks_depth ts). assert (Gs : fst (fst (i_nest (S n)) ts) = Got (d, t :: r)) by exact H1.
  destruct (got_local _ _ _ _ Gs) as (l & -> & U).
  assert (Nl : consume_item (l ++ [t]) = Ret (d, [t])).
  { set (N := n + toks_depth (l ++ [t])). assert (GN : fst (fst (i_nest (S N)) (l ++ t :: r)) = Got (d, t :: r)) by (rewrite consume_more by (unfold N, n; lia); exact H1).
    destruct (got_local _ _ _ _ GN) as (l' & E & U'). apply app_inv_tail in E. subst l'. specialize (U' [t] eq_refl).
    rewrite consume_more in U' by (unfold N; lia). pose proof (C97_consume_item (l ++ [t])) as X. unfold run in X.
    destruct U' as [U'|U']; rewrite U' in X; [symmetry; exact X|]. exfalso. pose proof (consume_item_safe (l ++ [t])) as Sf. rewrite <- X in Sf. exact Sf. }
  assert (NV : forall c, parse_item (l ++ t :: c) = Panic PTrailingTokens).
  { intro c. replace (l ++ t :: c) with ((l ++ [t]) ++ c) by (rewrite <- app_assoc; reflexivity). unfold parse_item. rewrite (C92_prefix _ c _ _ _ Nl). reflexivity. }
  assert (NV1 : ~ viable (l ++ [t])).
  { intros (c & i & V). rewrite <- app_assoc in V. cbn [app] in V. rewrite NV in V. discriminate. }
  exists l, t, r, d. split; auto. split; auto. split; auto. split; auto.
  intros i ->. destruct (C95_verdict l) as [V|V]; auto. exfalso.
  assert (NL : ~ viable l) by (apply not_viable; exact V).
  destruct (C95_first l NL) as (l' & t' & r' & E & Vl & Nt & _).
  destruct (consume_item_lively (l' ++ [t'])) as [S|(c & x & Gx & Hx)].
  - red in S. specialize (S (r' ++ [t])). assert (E2 : (l' ++ [t']) ++ r' ++ [t] = l ++ [t]) by (rewrite E, <- !app_assoc; reflexivity).
    rewrite E2, Nl in S. destruct (consume_item (l' ++ [t'])) as [[x s]|q|] eqn:Ec; cbn [follows] in S; [|discriminate|].
    + injection S as <- Es. destruct s as [|y s].
      * apply Nt. exists [], i. rewrite app_nil_r. unfold parse_item. rewrite Ec. reflexivity.
      * exfalso. assert (L : 1 = List.length ((y :: s) ++ r' ++ [t])) by (rewrite <- Es; reflexivity). rewrite !app_length in L. cbn in L. lia.
    + pose proof (consume_item_safe (l' ++ [t'])) as Sf. rewrite Ec in Sf. exact Sf.
  - apply Nt. destruct x as [x|]; [|destruct Gx]. exists c, x. unfold parse_item. specialize (Hx [] eq_refl). rewrite app_nil_r in Hx. rewrite Hx. reflexivity.
Qed.

(** ** Examples *)
Definition died (s : string) : option (panic * list string) :=
  match fst (i_parse_item (lex s)) with Died p why => Some (p, map (fun t => show_tokens [t]) (shown why)) | _ => None end.
Ltac hopeless := let c := fresh in let i := fresh in let H := fresh in intros (c & i & H); unfold parse_item in H; rewrite consume_item_unfold in H; vm_compute in H; discriminate H.
Ltac completed w := exists (lex w); eexists; vm_compute; reflexivity.

(** The token that is shown stands three groups deep. *)
Example C100_ex1 : let s := "pub mod m { struct S; mod n { enum E { A { a: u8, b c } } } }" in
  died s = Some (PExpectedPunct ":" "named fields" false, ["c"])
  /\ dies s = Some "cannot parse named fields: expected `:` punct, got Some(Ident { sym: c })".
Proof. split; reflexivity. Qed.
Example C100_ex2 : match fst (i_path (lex "a::Vec<'3>")) with
  | Died _ why as o => message_of o = Some "expected identifier after ' lifetime symbol, got Literal { lit: 3 }" /\ map (fun t => show_tokens [t]) (shown why) = ["3"]
  | _ => False end.
Proof. split; reflexivity. Qed.
Example C100_ex3 : dies "struct S where T: U, 'a;" = Some "cannot parse where clause: expected colon, found end of stream"
  /\ died "struct S where T: U, 'a;" = Some (PWhereColonEnd, []) /\ mute PWhereColonEnd = true.
Proof. repeat split; reflexivity. Qed.
(** The message that src/tests.rs:129 expects is a part of this one. *)
Example C100_ex4 : dies "struct Good {} trailing junk" = Some "unexpected trailing tokens after declaration: trailing junk".
Proof. reflexivity. Qed.

(** The rule: the group is the first wrong token and what is shown is in it. *)
Example C101_ex1 : let s := "struct S<T> { a: u8, b c } fn f() {}" in
  died s = Some (PExpectedPunct ":" "named fields" false, ["c"])
  /\ viable (lex "struct S<T>") /\ ~ viable (lex "struct S<T> { a: u8, b c }").
Proof. split; [reflexivity|]. split; [completed "{}"|hopeless]. Qed.
Example C101_ex2 : died "struct S<T, +>;" = Some (PGenericParamsToken, ["+"])
  /\ viable (lex "struct S<T,") /\ ~ viable (lex "struct S<T, +").
Proof. split; [reflexivity|]. split; [completed "> {}"|hopeless]. Qed.
(** The first exception: [bar] is wrong, as [foo] may begin a macro call; [foo] is shown. *)
Example C101_ex3 : died "pub foo bar" = Some (PNoDeclaration, ["foo"])
  /\ viable (lex "pub foo") /\ ~ viable (lex "pub foo bar").
Proof. split; [reflexivity|]. split; [completed "! {}"|]. hopeless. Qed.
(** The second: [static] is wrong, as [const async unsafe] may begin a function; [unsafe] is shown. *)
Example C101_ex4 : died "const async unsafe static X: u8 = 1;" = Some (PExpectedPunct ":" "const/static" false, ["unsafe"])
  /\ dies "const async unsafe static X: u8 = 1;" = Some "cannot parse const/static: expected `:` punct, got Some(Ident { sym: unsafe })"
  /\ viable (lex "const async unsafe") /\ ~ viable (lex "const async unsafe static").
Proof. split; [reflexivity|]. split; [reflexivity|]. split; [completed "fn f();"|hopeless]. Qed.
Example C101_ex5 : died "pub" = Some (PEndOfStream, []) /\ viable (lex "pub") /\ died "pub foo" = Some (PNoDeclaration, ["foo"]) /\ viable (lex "pub foo").
Proof. split; [reflexivity|]. split; [completed "struct S;"|]. split; [reflexivity|completed "! {}"]. Qed.
(** After an enum that is returned as an error the tokens that follow are blamed, but it is the
    enum's group that was wrong. *)
Example C101_ex6 : died "enum E { A = 1 + 1 } foo" = Some (PTrailingTokens, ["foo"])
  /\ viable (lex "enum E") /\ ~ viable (lex "enum E { A = 1 + 1 }").
Proof.
  split; [reflexivity|]. split; [completed "{}"|]. apply not_viable. right. eexists. split; [vm_compute; reflexivity|].
  intros t c. unfold parse_item. rewrite consume_item_unfold. vm_compute. reflexivity.
Qed.
Example C101_ex7 : died "struct S; fn f() {}" = Some (PTrailingTokens, ["fn"; "f"; "()"; "{ }"]) /\ viable (lex "struct S;") /\ ~ viable (lex "struct S; fn").
Proof. split; [reflexivity|]. split; [completed ""|hopeless]. Qed.
(** So the rule without exceptions does not hold. *)
Theorem C101_rule_refuted : ~ (forall ts p why, fst (i_parse_item ts) = Died p why -> ~ viable ts ->
  exists l t r, ts = l ++ t :: r /\ viable l /\ ~ viable (l ++ [t]) /\ forall x, In x (shown why) -> part x t).
Proof.
  intro H. destruct (H (lex "foo bar") _ _ eq_refl ltac:(hopeless)) as (l & t & r & E & V & N & S).
  specialize (S (hd (TIdent (mkIdent "" call_site)) (lex "foo bar")) (or_introl eq_refl)).
  destruct l as [|x l]; cbn in E; injection E as <- E.
  - apply N. completed "! {}".
  - destruct l as [|y l]; cbn in E; injection E as <- E; [inversion S|]. destruct l; discriminate E.
Qed.

(** C92: which panics can be due to missing tokens.

    A panic of [parse_item] at one of the sites of [missing] can go away when more tokens
    follow, and the table gives a text and its continuation for each.  At every other site
    the tokens read so far are to blame: whatever follows, the same site panics. *)
From Verif Require Import Samples Safe Edit PathProof Unfold PropPanics.
Local Open Scope string_scope.
Local Open Scope list_scope.

Definition missing : list (panic * (string * string)) := [
  (PStructNoBody, ("struct S", ";")); (PEndOfStream, ("#[a] pub", "struct S;")); (PNoDeclaration, ("foo", "! {}"));
  (PUnwrapNone AtEnum, ("enum E", "{ A }")); (PUnwrapNone AtUnion, ("union U", "{ a: A }"));
  (PUnwrapNone AtFnParams, ("fn f", "();")); (PUnwrapNone AtFnBody, ("fn f()", "{ }"));
  (PUnwrapNone AtTraitBody, ("trait T: A", "{ }")); (PUnwrapNone AtModBody, ("unsafe mod m", "{ }"));
  (PUnwrapNone AtBound, ("struct S<T", "> ;"));
  (PExpectedIdent "item" true, ("struct", "S;")); (PExpectedIdent "generic param name" true, ("struct S<'", "a>;"));
  (PExpectedIdent "const/static" true, ("static", "A: u8 = 1;")); (PExpectedIdent "associated type" true, ("type", "A = B;"));
  (PExpectedIdent "extern crate" true, ("extern crate", "a;")); (PExpectedIdent "extern crate: alias" true, ("extern crate a as", "b;"));
  (PExpectedIdent "trait name" true, ("unsafe trait", "T { }"));
  (PExpectedPunct ":" "const/static" true, ("const A", ": u8;"));
  (PExpectedPunct ";" "macro invocation semicolon" true, ("m!()", ";")); (PExpectedPunct ";" "associated type" true, ("type A: B", ";"));
  (PExpectedPunct ";" "extern crate" true, ("extern crate a", ";"));
  (POuterAttrBracket, ("#", "[a] struct S;")); (PTypeEnd, ("use a", "::b;")); (PGenericParamsEnd, ("struct S<", "T>;"));
  (PWhereEnd, ("struct S where", ";")); (PWhereColonEnd, ("struct S where T", ": U;")); (PFnReturn, ("fn f() -", "> u8 { }"));
  (PFnKeyword, ("async", "fn f();")); (PMacroEnd, ("m!", "{ }")) ].

(** The same set as a test. *)
Definition fixable (p : panic) : bool :=
  match p with
  | PStructNoBody | PEndOfStream | PNoDeclaration | POuterAttrBracket | PTypeEnd | PGenericParamsEnd
  | PWhereEnd | PWhereColonEnd | PFnReturn | PFnKeyword | PMacroEnd => true
  | PUnwrapNone (AtEnum | AtUnion | AtFnParams | AtFnBody | AtTraitBody | AtModBody | AtBound) => true
  | PExpectedIdent c at_end =>
      at_end && existsb (String.eqb c) ["item"; "generic param name"; "const/static"; "associated type"; "extern crate";
        "extern crate: alias"; "trait name"]
  | PExpectedPunct x c at_end =>
      at_end && ((Ascii.eqb x ":" && String.eqb c "const/static")
      || (Ascii.eqb x ";" && existsb (String.eqb c) ["macro invocation semicolon"; "associated type"; "extern crate"]))
  | _ => false
  end.
Lemma fixable_missing p : fixable p = true -> In p (map fst missing).
Proof.
  intro H. destruct p; cbn [fixable] in H; try discriminate; try (cbn; tauto).
  - destruct at_; try discriminate; cbn; tauto.
  - apply andb_prop in H. destruct H as [He0 H]. apply existsb_exists in H. destruct H as (x & Hx & He). apply String.eqb_eq in He. subst.
    cbn in Hx. cbn. intuition (subst; auto 50).
  - apply andb_prop in H. destruct H as [He0 H]. apply orb_prop in H. destruct H as [H|H]; apply andb_prop in H; destruct H as [H1 H2]; apply Ascii.eqb_eq in H1.
    + apply String.eqb_eq in H2. subst. cbn. tauto.
    + apply existsb_exists in H2; destruct H2 as (x & Hx & He); apply String.eqb_eq in He; subst;
      cbn in Hx; cbn; intuition (subst; auto 50).
Qed.

(** ** Runs on a list and on an extension of it *)
(** The sites that need not survive an extension: dead ones are included for convenience. *)
Definition soft (p : panic) : bool := fixable p || negb (alive p).

Definition agree {A} (u : list tok) (m m' : outcome (A * list tok)) : Prop :=
  match m with
  | Ret (x, r) => r = [] \/ m' = Ret (x, r ++ u)
  | Panic e => soft e = true \/ m' = Panic e
  | OutOfFuel => True
  end.
Definition ended {A} (m : outcome (A * list tok)) : Prop :=
  match m with Ret (_, r) => r = [] | Panic e => soft e = true | OutOfFuel => True end.
Lemma ended_agree {A} u (m m' : outcome (A * list tok)) : ended m -> agree u m m'.
Proof. destruct m as [[? ?]| |]; simpl; auto. Qed.

(** A parser that has nothing to say against an extension: it behaves the same on it, unless
    it reads up to the end; and at the end it does not blame the tokens before. *)
Definition grows {A} (p : parser A) : Prop := (forall ts u, agree u (p ts) (p (ts ++ u))) /\ ended (p []).

Lemma agree_bind2 {A B} u (m m' : outcome (A * list tok)) (k k' : A * list tok -> outcome (B * list tok)) :
  agree u m m' -> (forall x t r, m = Ret (x, t :: r) -> agree u (k (x, t :: r)) (k' (x, (t :: r) ++ u))) ->
  (forall x, m = Ret (x, []) -> ended (k (x, []))) -> agree u (bind m k) (bind m' k').
Proof.
  intros H H1 H2. destruct m as [[x r]|e|]; simpl in *; auto.
  - destruct r as [|t r]; [apply ended_agree; auto|]. destruct H as [|H]; [discriminate|]. rewrite H. simpl. apply H1. reflexivity.
  - destruct H as [H|H]; auto. rewrite H. auto.
Qed.
Lemma agree_bind {A B} u (m m' : outcome (A * list tok)) (k : A * list tok -> outcome (B * list tok)) :
  agree u m m' -> (forall x t r, m = Ret (x, t :: r) -> agree u (k (x, t :: r)) (k (x, (t :: r) ++ u))) ->
  (forall x, m = Ret (x, []) -> ended (k (x, []))) -> agree u (bind m k) (bind m' k).
Proof. apply agree_bind2. Qed.
Lemma agree_same {A B} u (m : outcome A) (k k' : A -> outcome (B * list tok)) :
  (forall x, m = Ret x -> agree u (k x) (k' x)) -> agree u (bind m k) (bind m k').
Proof. destruct m; simpl; auto. Qed.
Lemma ended_bind {A B} (m : outcome (A * list tok)) (k : A * list tok -> outcome (B * list tok)) :
  ended m -> (forall x, m = Ret (x, []) -> ended (k (x, []))) -> ended (bind m k).
Proof. destruct m as [[x r]|e|]; simpl; auto. intros -> H. auto. Qed.
Lemma grows_bind {A B} (p : parser A) (k : A * list tok -> outcome (B * list tok)) :
  grows p -> (forall x, grows (fun ts => k (x, ts))) -> grows (fun ts => bind (p ts) k).
Proof.
  intros [H1 H2] Hk. split.
  - intros ts u. apply agree_bind; auto; intros; apply Hk.
  - apply ended_bind; auto. intros; apply Hk.
Qed.
Lemma grows_eq {A} (p q : parser A) : (forall ts, p ts = q ts) -> grows q -> grows p.
Proof. intros E [H1 H2]. split; intros; rewrite !E; auto. Qed.

(** Optional tokens. *)
Definition reads {A} (f : list tok -> A * list tok) : Prop :=
  (forall t r u, snd (f (t :: r)) = [] \/ f ((t :: r) ++ u) = (fst (f (t :: r)), snd (f (t :: r)) ++ u)) /\ snd (f []) = [].
Lemma grows_let {A B} (f : list tok -> A * list tok) (k : A -> parser B) :
  reads f -> (forall x, grows (k x)) -> grows (fun ts => let (x, r) := f ts in k x r).
Proof.
  intros [H1 H2] Hk. split.
  - intros [|t r] u.
    + apply ended_agree. destruct (f []) as [x r]. simpl in H2. subst. apply Hk.
    + destruct (H1 t r u) as [E|E].
      * apply ended_agree. destruct (f (t :: r)) as [x q]. simpl in E. subst. apply Hk.
      * rewrite E. destruct (f (t :: r)) as [x q]. simpl. apply Hk.
  - destruct (f []) as [x r]. simpl in H2. subst. apply Hk.
Qed.
Lemma ident_reads s : reads (consume_ident s).
Proof. split; auto. intros [g|i|p|l] r u; auto. right. simpl. destruct (id_is s i); reflexivity. Qed.
Lemma any_ident_reads : reads consume_any_ident.
Proof. split; auto. intros [g|i|p|l] r u; auto. Qed.
Lemma punct_reads c : reads (consume_punct c).
Proof. split; auto. intros [g|i|p|l] r u; auto. right. simpl. destruct (p_is c p); reflexivity. Qed.
Lemma comma_reads : reads consume_comma.
Proof. apply punct_reads. Qed.
Lemma literal_reads : reads consume_literal.
Proof. split; auto. intros [g|i|p|l] r u; auto. Qed.
Lemma vis_reads : reads consume_vis_marker.
Proof.
  split; auto. intros [g|i|p|l] r u; auto. simpl. destruct (id_is "pub" i); [|destruct (id_is "crate" i); auto].
  destruct r as [|[g|j|p|l] r]; auto. simpl. destruct (delim_eqb (g_delim g) Parenthesis); auto.
Qed.
Lemma qualifiers_reads : reads consume_fn_qualifiers.
Proof.
  assert (G : forall (A B : Type) (f : list tok -> A * list tok) (k : A -> list tok -> B * list tok),
    reads f -> (forall x, reads (k x)) -> reads (fun ts => let (x, r) := f ts in k x r)).
  { intros A B f k [H1 H2] Hk. split.
    - intros t r u. destruct (H1 t r u) as [E|E].
      + left. destruct (f (t :: r)) as [x q]. simpl in E. subst. apply Hk.
      + rewrite E. destruct (f (t :: r)) as [x [|t' q]]; cbn [fst snd].
        * left. apply Hk.
        * apply Hk.
    - destruct (f []) as [x q]. simpl in H2. subst. apply Hk. }
  unfold consume_fn_qualifiers. apply G; [apply ident_reads|]. intro. apply G; [apply ident_reads|]. intro.
  apply G; [apply ident_reads|]. intro. apply G; [apply ident_reads|]. intro.
  set (k := fun (o : option ident) (ts : list tok) => match o with
    | Some e => let (abi, ts) := consume_literal ts in (mkFnQualifiers x x0 x1 x2 (Some e) abi, ts)
    | None => (mkFnQualifiers x x0 x1 x2 None None, ts) end).
  assert (K : reads (fun ts => let (o, r) := consume_ident "extern" ts in k o r)).
  { apply G; [apply ident_reads|]. intros [e|]; unfold k.
    - apply G; [apply literal_reads|]. intro. split; auto.
    - split; auto. }
  exact K.
Qed.

Create HintDb grows.
Lemma ret_grows {A} (x : A) : grows (fun ts => Ret (x, ts)).
Proof. split; simpl; auto. Qed.
Lemma any_ident_grows c : fixable (PExpectedIdent c true) = true -> grows (parse_any_ident c).
Proof. intro H. assert (S : soft (PExpectedIdent c true) = true) by (unfold soft; rewrite H; auto). split; auto. intros [|[] r] u; simpl; auto. Qed.
Lemma keyword_grows k c : grows (parse_ident k c).
Proof. split; [|reflexivity]. intros [|[g|i|p|l] r] u; simpl; auto. destruct (id_is k i); simpl; auto. Qed.
Lemma punct_grows x c : soft (PExpectedPunct x c true) = true -> grows (parse_punct x c).
Proof. intro S. split; auto. intros [|[g|i|p|l] r] u; simpl; auto. destruct (p_is x p); simpl; auto. Qed.
Lemma item_name_grows : grows consume_item_name.
Proof. apply any_ident_grows. reflexivity. Qed.
Global Hint Resolve keyword_grows item_name_grows ident_reads any_ident_reads punct_reads comma_reads literal_reads vis_reads
  qualifiers_reads : grows.

(** ** Token runs *)
Lemma stuff_extend P u : forall ts bc d,
  let '(o, met, r) := stuff_loop P bc d ts in r <> [] -> stuff_loop P bc d (ts ++ u) = (o, met, r ++ u).
Proof.
  induction ts as [|t ts IH]; intros bc d; [simpl; congruence|]. cbn [stuff_loop app].
  assert (K : forall bc d, let '(o, met, r) := (if Z.ltb bc 0 then ([], false, t :: ts)
      else let '(out, met, rest) := stuff_loop P bc d ts in (t :: out, met, rest)) in
    r <> [] -> (if Z.ltb bc 0 then ([], false, t :: ts ++ u)
      else let '(out, met, rest) := stuff_loop P bc d (ts ++ u) in (t :: out, met, rest)) = (o, met, r ++ u)).
  { intros b e. destruct (Z.ltb b 0); [reflexivity|]. specialize (IH b e).
    destruct (stuff_loop P b e ts) as [[o m] r]. intro H. rewrite (IH H). reflexivity. }
  destruct (is_punct "<" t); [apply K|]. destruct (is_punct ">" t && negb d); [apply K|]. destruct (is_punct "-" t); [apply K|].
  destruct (P t && Z.eqb bc 0); [intros; reflexivity|apply K].
Qed.
Lemma stuff_at_end P ts : forall bc d o met, stuff_loop P bc d ts = (o, met, []) -> met = false.
Proof.
  induction ts as [|t ts IH]; intros bc d o met H; [injection H; auto|]. cbn [stuff_loop] in H.
  repeat match type of H with (if ?b then _ else _) = _ => destruct b end; try discriminate;
    destruct (stuff_loop P _ _ ts) as [[o' m'] r'] eqn:E in H; injection H as <- <- ->; eauto.
Qed.
Lemma until_grows P must : grows (consume_stuff_until P must).
Proof.
  split; [|unfold consume_stuff_until; simpl; destruct must; reflexivity].
  intros ts u. unfold consume_stuff_until. pose proof (stuff_extend P u ts 0 false) as E. pose proof (stuff_at_end P ts 0 false) as N.
  destruct (stuff_loop P 0 false ts) as [[o met] r]. destruct r as [|t r].
  - destruct must, met; simpl; auto.
  - rewrite E by discriminate. destruct (must && negb met); simpl; auto. destruct t as [g|i|p|l]; simpl; auto.
    destruct (p_is ">" p); simpl; auto.
Qed.
Global Hint Resolve until_grows : grows.

Lemma attributes_grow : grows consume_outer_attributes.
Proof.
  split; [|reflexivity]. intros ts u. unfold consume_outer_attributes.
  assert (K : forall n ts, List.length ts <= n -> agree u (consume_attributes_with_inner false ts) (consume_attributes_with_inner false (ts ++ u))).
  { clear ts. induction n as [|n IH]; intros ts Hn.
    { destruct ts; [simpl; auto|simpl in Hn; lia]. }
    destruct ts as [|[g|i|p|l] r]; try (simpl; auto; fail).
    Local Arguments consume_attributes_with_inner expect_inner !ts.
    cbn [consume_attributes_with_inner app]. destruct (p_is "#" p); [|simpl; auto].
    destruct r as [|[g|j|q|ll] r]; [left; reflexivity| |right; reflexivity|right; reflexivity|right; reflexivity]. cbn [app].
    destruct (delim_eqb (g_delim g) Bracket); [|simpl; auto].
    apply agree_same. intros a _. apply agree_bind; [apply IH; simpl in Hn; lia| |]; intros; simpl; auto. }
  eapply K. eauto.
Qed.
Global Hint Resolve attributes_grow : grows.

(** Go through a parser. *)
Ltac grow1 :=
  match goal with
  | |- grows (fun ts => Ret (_, ts)) => apply ret_grows
  | |- grows (fun ts => bind (?p ts) _) => apply (grows_bind p); [|intro]
  | |- grows (fun ts => let (x, r) := ?f ts in @?k ts x r) => apply (grows_let f)
  | |- grows (parse_any_ident _) => apply any_ident_grows; reflexivity
  | |- grows (parse_punct _ _) => apply punct_grows; reflexivity
  | |- _ => solve [auto with grows]
  end.
Ltac grow := repeat (cbv zeta; cbv beta; grow1).

(** ** Loops *)
Lemma loop_grows {A} stop (elem : parser A) :
  (forall t r u, stop ((t :: r) ++ u) = stop (t :: r)) -> grows elem -> (forall acc f, ended (punct_loop stop elem f acc [])) ->
  forall acc, grows (fun ts => punct_loop stop elem (loop_fuel ts) acc ts).
Proof.
  intros Hs He H0 acc. split; [|apply H0]. intros ts u.
  assert (K : forall f f' acc ts, f <= f' -> agree u (punct_loop stop elem f acc ts) (punct_loop stop elem f' acc (ts ++ u))).
  { clear acc ts. induction f as [|f IH]; intros f' acc ts Hf; [exact I|]. destruct f' as [|f']; [lia|].
    destruct ts as [|t r]; [apply ended_agree, H0|]. cbn [punct_loop]. rewrite Hs. apply agree_same. intros [] _; [simpl; auto|].
    apply agree_bind2; [apply He| |].
    - intros x t' r' _. destruct (proj1 comma_reads t' r' u) as [E|E].
      + apply ended_agree. destruct (consume_comma (t' :: r')) as [c q]. simpl in E. subst. apply H0.
      + rewrite E. destruct (consume_comma (t' :: r')) as [c q]. cbn [fst snd]. apply IH. lia.
    - intros x _. cbn. apply H0. }
  apply K. unfold loop_fuel. rewrite app_length. lia.
Qed.

Lemma bound_grows P : grows (consume_bound P).
Proof.
  split; [|reflexivity]. intros [|t r] u; [left; reflexivity|]. cbn [consume_bound app].
  destruct t as [g|i|p|l]; try (destruct (P _); simpl; auto; fail).
  destruct (p_is ":" p); [|destruct (P _); simpl; auto]. apply agree_bind; [apply until_grows| |]; intros; simpl; auto.
Qed.
Global Hint Resolve bound_grows : grows.
Lemma generic_param_grows : grows parse_generic_param.
Proof.
  unfold parse_generic_param. apply (grows_bind (fun ts => match ts with
    | [] => Panic PGenericParamsEnd
    | t :: r => match t with
        | TPunct p => if p_is "'" p then Ret (Some t, r) else Panic PGenericParamsToken
        | TIdent i => if id_is "const" i then Ret (Some t, r) else Ret (None, ts)
        | _ => Panic PGenericParamsToken
        end end)).
  - split; [|reflexivity]. intros [|[g|i|p|l] r] u; simpl; auto; [destruct (id_is "const" i)|destruct (p_is "'" p)]; simpl; auto.
  - intro. grow.
Qed.
Lemma generics_grow : grows consume_generic_params.
Proof.
  set (k := fun (o : option punct) (ts : list tok) => match o with
    | None => Ret (None, ts)
    | Some l => do (params, ts) <- punct_loop stop_generic_params parse_generic_param (loop_fuel ts) pu_new ts ;;
      match ts with TPunct r :: ts => Ret (Some (mkGenericParamList l params r), ts) | _ => Panic PUnreachable end end).
  apply (grows_eq _ (fun ts => let (o, r) := consume_punct "<" ts in k o r)).
  { intro ts. unfold consume_generic_params, k. destruct (consume_punct "<" ts) as [[]]; reflexivity. }
  apply grows_let; [grow|]. intros [l|]; unfold k; [|grow].
  apply (grows_bind (fun ts => punct_loop stop_generic_params parse_generic_param (loop_fuel ts) pu_new ts)).
  - apply loop_grows; [reflexivity|apply generic_param_grows|]. intros acc [|]; simpl; auto.
  - intro ps. split; [|reflexivity]. intros [|[g|i|p|ll] r] u; simpl; auto.
Qed.
Lemma where_predicate_grows : grows parse_where_predicate.
Proof.
  unfold parse_where_predicate. apply grows_bind; [grow|]. intro lhs. split; [|reflexivity].
  intros [|[g|i|p|l] r] u; simpl; auto. destruct (p_is ":" p); [|simpl; auto].
  apply agree_bind; [apply until_grows| |]; intros; simpl; auto.
Qed.
Lemma where_grow : grows consume_where_clause.
Proof.
  set (k := fun (o : option ident) (ts : list tok) => match o with
    | None => Ret (None, ts)
    | Some kw => do (items, ts) <- punct_loop stop_where parse_where_predicate (loop_fuel ts) pu_new ts ;;
        Ret (Some (mkWhereClause kw items), ts) end).
  apply (grows_eq _ (fun ts => let (o, r) := consume_ident "where" ts in k o r)).
  { intro ts. unfold consume_where_clause, k. destruct (consume_ident "where" ts) as [[]] eqn:E; auto.
    apply consume_ident_sound in E. destruct E as (-> & _). reflexivity. }
  apply grows_let; [grow|]. intros [l|]; unfold k; [|grow].
  apply (grows_bind (fun ts => punct_loop stop_where parse_where_predicate (loop_fuel ts) pu_new ts)).
  - apply loop_grows; [reflexivity|apply where_predicate_grows|]. intros acc [|]; simpl; auto.
  - intro ps. grow.
Qed.
Global Hint Resolve generics_grow where_grow : grows.

(** ** Functions *)
Lemma fn_parens_grow : grows parse_fn_parens.
Proof.
  split; [|reflexivity]. intros [|[g|i|p|l] r] u; simpl; auto. destruct (delim_eqb (g_delim g) Parenthesis); [|simpl; auto].
  apply agree_same. intros; simpl; auto.
Qed.
Lemma fn_return_grow : grows consume_fn_return.
Proof.
  split; [|reflexivity]. unfold consume_fn_return. intros [|[g|i|p|l] r] u; cbn [consume_punct app]; try (simpl; auto; fail).
  destruct (p_is "-" p); [|simpl; auto]. destruct r as [|[g|i|q|l] r]; cbn [app]; try (simpl; auto; fail).
  destruct (p_is ">" q); [|simpl; auto]. apply agree_bind; [apply until_grows| |]; intros; simpl; auto.
Qed.
Lemma fn_body_grow : grows parse_fn_body.
Proof.
  split; [|reflexivity]. intros [|[g|i|p|l] r] u; simpl; auto; [destruct (delim_eqb (g_delim g) Brace)|destruct (p_is ";" p)]; simpl; auto.
Qed.
Lemma classify_grows q : grows (classify_fn q).
Proof.
  split; [|reflexivity]. intros [|[g|i|p|l] r] u; cbn [classify_fn app]; cbv zeta; try (simpl; auto; fail);
    repeat match goal with |- context [if ?b then _ else _] => destruct b end; simpl; auto.
Qed.
Global Hint Resolve fn_parens_grow fn_return_grow fn_body_grow classify_grows : grows.
(** [consume_fn] returns to its start when it finds no function: what it found is still there. *)
Lemma fn_grows attrs vis ts u : match consume_fn attrs vis ts with
  | Ret (Err nf, r) => r = ts /\ consume_fn attrs vis (ts ++ u) = Ret (Err nf, ts ++ u)
  | m => agree u m (consume_fn attrs vis (ts ++ u))
  end.
Proof.
  set (rest := fun (q : fn_qualifiers) (kw : ident) (ts : list tok) =>
      do (name, ts) <- consume_item_name ts ;;
      do (generics, ts) <- consume_generic_params ts ;;
      do (params, ts) <- parse_fn_parens ts ;;
      do (ret, ts) <- consume_fn_return ts ;;
      do (wh, ts) <- consume_where_clause ts ;;
      do (body, ts) <- parse_fn_body ts ;;
      Ret (Ok (E := not_function) (mkFunction attrs vis q kw name generics (snd params) (fst params) wh
                 (option_map fst ret) (option_map snd ret) (snd body) (fst body)), ts)).
  assert (G : forall q kw, grows (rest q kw)).
  { intros q kw. unfold rest. grow. }
  assert (N : forall q kw ts nf r, rest q kw ts <> Ret (Err nf, r)).
  { intros q kw t nf r H. unfold rest in H. repeat (inv_bind H; repeat match goal with y : _ * _ |- _ => destruct y end). discriminate. }
  assert (U : forall ts, consume_fn attrs vis ts = let (q, t1) := consume_fn_qualifiers ts in
     do (kw, t2) <- classify_fn q t1 ;; match kw with Err nf => Ret (Err nf, ts) | Ok kw => rest q kw t2 end).
  { intro. unfold consume_fn. destruct (consume_fn_qualifiers _). reflexivity. }
  rewrite !U. clear U.
  assert (Q0 : forall q, classify_fn q [] = Panic PFnKeyword) by reflexivity.
  destruct ts as [|t r0].
  { left. reflexivity. }
  destruct (proj1 qualifiers_reads t r0 u) as [E|E].
  { destruct (consume_fn_qualifiers (t :: r0)) as [q t1]. cbn [snd] in E. subst t1. rewrite Q0. left. reflexivity. }
  rewrite E. destruct (consume_fn_qualifiers (t :: r0)) as [q t1]. cbn [fst snd].
  destruct t1 as [|t1 r1]; [rewrite Q0; left; reflexivity|].
  pose proof (proj1 (classify_grows q) (t1 :: r1) u) as C.
  assert (C' : match classify_fn q (t1 :: r1) with Ret (x, r) => classify_fn q ((t1 :: r1) ++ u) = Ret (x, r ++ u) | _ => True end).
  { cbn [classify_fn app]. cbv zeta. destruct t1 as [g|i|p|l];
      repeat match goal with |- context [if ?b then _ else _] => destruct b end; simpl; auto. }
  generalize dependent (classify_fn q ((t1 :: r1) ++ u)). generalize (classify_fn q (t1 :: r1)). intros m m' C C'.
  destruct m as [[[kw|nf] t2]|e|].
  - rewrite C'. cbn [bind]. pose proof (proj1 (G q kw) t2 u) as A. destruct (rest q kw t2) as [[[f|nf] r]|e|] eqn:Er; auto.
    exfalso. eapply N. eauto.
  - rewrite C'. cbn [bind]. auto.
  - cbn [bind]. simpl in C. destruct C as [C|C]; [left; auto|]. rewrite C. right. reflexivity.
  - exact I.
Qed.

(** ** Simple items *)
Lemma constant_grows attrs vis t r u : agree u (parse_const_or_static attrs vis (t :: r)) (parse_const_or_static attrs vis ((t :: r) ++ u)).
Proof.
  unfold parse_const_or_static. destruct t as [g|i|p|l]; try (simpl; auto; fail). cbn [app].
  assert (G : forall kw m, grows (fun ts => 
    do (name, ts) <- parse_any_ident "const/static" ts ;;
    do (colon, ts) <- parse_punct ":" "const/static" ts ;;
    do (ty, ts) <- consume_stuff_until end_eq_or_semi true ts ;;
    let (equals, ts) := consume_punct "=" ts in
    do (value, ts) <- consume_stuff_until end_semi true ts ;;
    let init := match value with [] => None | _ :: _ => Some (mkValueExpr value) end in
    do (semi, ts) <- parse_punct ";" "const/static" ts ;;
    Ret (mkConstant attrs vis kw m name colon (mkTypeExpr ty) equals init semi, ts))).
  { intros kw m. grow. intro. grow. }
  assert (K : forall b, agree u
    (bind match r with TIdent i :: _ => if id_is "mut" i then (if b : bool then Panic PConstMut else Ret (Some i)) else Ret None | _ => Ret None end
     (fun m => do (name, ts) <- parse_any_ident "const/static" r ;;
    do (colon, ts) <- parse_punct ":" "const/static" ts ;;
    do (ty, ts) <- consume_stuff_until end_eq_or_semi true ts ;;
    let (equals, ts) := consume_punct "=" ts in
    do (value, ts) <- consume_stuff_until end_semi true ts ;;
    let init := match value with [] => None | _ :: _ => Some (mkValueExpr value) end in
    do (semi, ts) <- parse_punct ";" "const/static" ts ;;
    Ret (mkConstant attrs vis i m name colon (mkTypeExpr ty) equals init semi, ts)))
    (bind match r ++ u with TIdent i :: _ => if id_is "mut" i then (if b : bool then Panic PConstMut else Ret (Some i)) else Ret None | _ => Ret None end
     (fun m => do (name, ts) <- parse_any_ident "const/static" (r ++ u) ;;
    do (colon, ts) <- parse_punct ":" "const/static" ts ;;
    do (ty, ts) <- consume_stuff_until end_eq_or_semi true ts ;;
    let (equals, ts) := consume_punct "=" ts in
    do (value, ts) <- consume_stuff_until end_semi true ts ;;
    let init := match value with [] => None | _ :: _ => Some (mkValueExpr value) end in
    do (semi, ts) <- parse_punct ";" "const/static" ts ;;
    Ret (mkConstant attrs vis i m name colon (mkTypeExpr ty) equals init semi, ts)))).
  { intro b. destruct r as [|t' r]; [left; reflexivity|]. cbn [app]. apply agree_same. intros m _. apply (proj1 (G i m) (t' :: r) u). }
  destruct (id_is "const" i); [apply (K true)|]. destruct (id_is "static" i); [apply (K false)|]. right. reflexivity.
Qed.
Lemma type_alias_grows attrs vis : grows (consume_ty_definition attrs vis).
Proof.
  unfold consume_ty_definition. grow. intros [e|]; cbv beta.
  - apply (grows_bind (fun ts => do (ty, ts) <- consume_stuff_until end_semi true ts ;; Ret (Some (mkTypeExpr ty), ts))); [grow|]. intro. grow.
  - apply (grows_bind (fun ts => Ret (None, ts))); [grow|]. intro. grow.
Qed.
Lemma use_grows attrs vis : grows (parse_use_declaration attrs vis).
Proof. unfold parse_use_declaration. grow. Qed.
Lemma extern_crate_grows attrs vis t t' r u :
  agree u (parse_extern_crate attrs vis (t :: t' :: r)) (parse_extern_crate attrs vis ((t :: t' :: r) ++ u)).
Proof.
  unfold parse_extern_crate, consume_extern_crate. destruct t as [g|i|p|l]; try (simpl; auto; fail). cbn [consume_ident app].
  destruct (id_is "extern" i); [|simpl; auto]. destruct t' as [g|j|p|l]; try (simpl; auto; fail). cbn [consume_ident app].
  destruct (id_is "crate" j); [|simpl; auto].
  assert (G : grows (fun ts => do (name, ts) <- parse_any_ident "extern crate" ts ;;
          let (tk_as, ts) := consume_ident "as" ts in
          do (alias, ts) <-
            match tk_as with
            | Some _ => do (a, ts) <- parse_any_ident "extern crate: alias" ts ;; Ret (Some a, ts)
            | None => Ret (None, ts)
            end ;;
          do (semi, ts) <- parse_punct ";" "extern crate" ts ;;
          Ret (Some (mkExternCrate attrs vis i j name tk_as alias None semi), ts))).
  { grow. intros [a|]; cbv beta.
    - apply (grows_bind (fun ts => do (a, ts) <- parse_any_ident "extern crate: alias" ts ;; Ret (Some a, ts))); [grow|]. intro. grow.
    - apply (grows_bind (fun ts => Ret (None, ts))); [grow|]. intro. grow. }
  apply agree_bind; [apply G| |].
  - intros [c|] t2 r2 H; [simpl; auto|]. exfalso. repeat (inv_bind H; repeat match goal with y : _ * _ |- _ => destruct y end).
    destruct (consume_ident "as" _) in H. repeat (inv_bind H; repeat match goal with y : _ * _ |- _ => destruct y end). discriminate.
  - intros [c|] H; [simpl; auto|]. exfalso. repeat (inv_bind H; repeat match goal with y : _ * _ |- _ => destruct y end).
    destruct (consume_ident "as" _) in H. repeat (inv_bind H; repeat match goal with y : _ * _ |- _ => destruct y end). discriminate.
Qed.
Lemma item_macro_grows attrs : grows (parse_item_macro attrs).
Proof.
  split; [|reflexivity]. intros [|[g|i|p|l] r] u; try (simpl; auto; fail).
  unfold parse_item_macro, consume_macro, consume_macro_inner. cbn [consume_any_ident app].
  destruct r as [|[g|j|p|l] r]; try (simpl; auto; fail). cbn [consume_punct app].
  destruct (p_is "!" p); [|simpl; auto].
  assert (P : forall g m bef bef' r, agree u (bind (bind (bind (parse_punct ";" "macro invocation semicolon" r)
     (fun '(semi, ts) => Ret (Some (mkMacro attrs i p m (group_span_new g) (g_stream g) (Some semi)), ts)))
       (fun '(m, ts) => match m with Some m => Ret (Some m, ts) | None => Ret (None, bef) end))
       (fun '(m, ts) => match m with Some m => Ret (IMacro m, ts) | None => Panic PNoDeclaration end))
     (bind (bind (bind (parse_punct ";" "macro invocation semicolon" (r ++ u))
     (fun '(semi, ts) => Ret (Some (mkMacro attrs i p m (group_span_new g) (g_stream g) (Some semi)), ts)))
       (fun '(m, ts) => match m with Some m => Ret (Some m, ts) | None => Ret (None, bef') end))
       (fun '(m, ts) => match m with Some m => Ret (IMacro m, ts) | None => Panic PNoDeclaration end))).
  { clear. intros g m bef bef' [|[g'|j|q|l] r]; simpl; auto. destruct (p_is ";" q); simpl; auto. }
  destruct r as [|[g|j|q|l] r]; cbn [consume_any_ident app].
  - left. reflexivity.
  - destruct (delim_eqb (g_delim g) Parenthesis); [apply (P g None _ _ r)|]. destruct (delim_eqb (g_delim g) Brace); simpl; auto.
  - destruct r as [|[g|k|q|l] r]; cbn [app]; try (simpl; auto; fail).
    destruct (delim_eqb (g_delim g) Parenthesis); [apply (P g (Some j) _ _ r)|]. destruct (delim_eqb (g_delim g) Brace); simpl; auto.
  - simpl; auto.
  - simpl; auto.
Qed.
Lemma struct_grows attrs vis kw : grows (parse_struct attrs vis kw).
Proof.
  unfold parse_struct. apply grows_bind; [grow|]. intro name. apply grows_bind; [grow|]. intro gen. apply grows_bind; [grow|]. intro wh.
  apply (grows_bind (fun ts => match ts with
    | [] => Panic PStructNoBody
    | TPunct p :: _ => if p_is ";" p then Ret (FUnit, ts) else Panic PStructToken
    | TGroup g :: r =>
        if delim_eqb (g_delim g) Parenthesis then do f <- parse_tuple_fields g ;; Ret (FTuple f, r)
        else if delim_eqb (g_delim g) Brace then do f <- parse_named_fields g ;; Ret (FNamed f, r)
        else Panic PStructToken
    | _ => Panic PStructToken
    end)).
  - split; [|reflexivity]. intros [|[g|i|p|l] r] u; cbn [app]; try (simpl; auto; fail).
    + destruct (delim_eqb (g_delim g) Parenthesis); [|destruct (delim_eqb (g_delim g) Brace); [|simpl; auto]];
        apply agree_same; intros; simpl; auto.
    + destruct (p_is ";" p); simpl; auto.
  - intro fs. apply (grows_bind (fun ts => match fs with
      | FTuple _ => match wh with Some _ => Panic PAssertTupleWhere | None => consume_where_clause ts end
      | _ => Ret (wh, ts) end)).
    + destruct fs; try (split; simpl; auto; fail). destruct wh; [split; simpl; auto|]. grow.
    + intro. grow. intro. grow.
Qed.
Lemma enum_grows attrs vis kw : grows (parse_enum attrs vis kw).
Proof.
  unfold parse_enum. apply grows_bind; [grow|]. intro name. apply grows_bind; [grow|]. intro gen. apply grows_bind; [grow|]. intro wh.
  split; [|reflexivity]. intros [|[g|i|p|l] r] u; cbn [app]; try (simpl; auto; fail).
  destruct (delim_eqb (g_delim g) Brace); [|simpl; auto]. apply agree_same. intros []; simpl; auto.
Qed.
Lemma union_grows attrs vis kw : grows (parse_union attrs vis kw).
Proof.
  unfold parse_union. apply grows_bind; [grow|]. intro name. apply grows_bind; [grow|]. intro gen. apply grows_bind; [grow|]. intro wh.
  split; [|reflexivity]. intros [|[g|i|p|l] r] u; cbn [app]; try (simpl; auto; fail).
  destruct (delim_eqb (g_delim g) Brace); [|simpl; auto]. apply agree_same. intros; simpl; auto.
Qed.

(** ** Nested items: the contents of groups do not change *)
Section Grows.
Variable R : parser (result item error).
Variable E : list attribute -> option vis_marker -> parser item.

Lemma body_group_grows site bad : soft (PUnwrapNone site) = true -> grows (parse_body_group E site bad).
Proof.
  intro S. split; [|exact S]. intros [|[g|i|p|l] r] u; cbn [parse_body_group app]; try (simpl; auto; fail).
  destruct (delim_eqb (g_delim g) Brace); [|simpl; auto]. apply agree_same. intros; simpl; auto.
Qed.
Lemma trait_grows attrs vis : grows (parse_trait E attrs vis).
Proof.
  unfold parse_trait. grow. intro. grow. 
  - apply body_group_grows. reflexivity.
  - match goal with x : _ * _ * _ |- _ => destruct x as [[? ?] ?] end. grow.
Qed.
Lemma impl_grows attrs : grows (parse_impl E attrs).
Proof.
  unfold parse_impl. grow. intro un. apply grows_bind; [grow|]. intro kw. apply grows_bind; [grow|]. intro gen.
  apply grows_bind; [grow|]. intro ty1.
  set (k := fun (o : option ident) (ts : list tok) => match o with
    | Some tk_for => do (ty2, ts) <- consume_stuff_until end_impl_self_ty true ts ;;
        Ret ((Some tk_for, Some (mkTypeExpr ty1), mkTypeExpr ty2), ts)
    | None => Ret ((None, None, mkTypeExpr ty1), ts) end).
  apply (grows_bind (fun ts => match consume_ident "for" ts with
    | (Some tk_for, ts) =>
        do (ty2, ts) <- consume_stuff_until end_impl_self_ty true ts ;;
        Ret ((Some tk_for, Some (mkTypeExpr ty1), mkTypeExpr ty2), ts)
    | (None, ts) => Ret ((None, None, mkTypeExpr ty1), ts)
    end)).
  - apply (grows_eq _ (fun ts => let (o, r) := consume_ident "for" ts in k o r)).
    { intro ts. unfold k. destruct (consume_ident "for" ts) as [[]]; reflexivity. }
    apply grows_let; [grow|]. intros [f|]; unfold k; grow.
  - intros [[f tr] self]. apply grows_bind; [grow|]. intro wh. apply grows_bind; [apply body_group_grows; reflexivity|].
    intros [[? ?] ?]. grow.
Qed.
Lemma mod_grows attrs vis : grows (parse_mod R attrs vis).
Proof.
  unfold parse_mod. grow. intro un. apply grows_bind; [grow|]. intro kw. apply grows_bind; [grow|]. intro name.
  split; [|reflexivity]. intros [|[g|i|p|l] r] u; cbn [app]; try (simpl; auto; fail).
  - destruct (delim_eqb (g_delim g) Brace); [|simpl; auto]. apply agree_same. intros [inner ts] _. apply agree_same. intros; simpl; auto.
  - destruct (p_is ";" p); simpl; auto.
Qed.
(** An extern block is only read where [consume_fn] saw one. *)
Lemma extern_block_grows attrs vis ts r u : consume_fn attrs vis ts = Ret (Err NFExternBlock, r) ->
  agree u (parse_extern_block E attrs vis ts) (parse_extern_block E attrs vis (ts ++ u)).
Proof.
  unfold consume_fn, parse_extern_block, consume_extern_block. intro H.
  destruct ts as [|t ts]; [discriminate|].
  destruct t as [g|i|p|l]; try (simpl; auto; fail). cbn [app].
  assert (F : forall u', id_is "unsafe" i = false -> id_is "extern" i = false ->
    consume_extern_block E attrs vis (TIdent i :: u') = Ret (None, TIdent i :: u')).
  { intros u' H1 H2. unfold consume_extern_block. cbn [consume_ident]. rewrite H1. cbn [consume_ident]. rewrite H2. reflexivity. }
  assert (G : forall un kw r1, (exists q x nf, classify_fn q (snd (consume_literal r1)) = Ret (x, nf)) ->
    agree u (bind (let (abi, ts) := consume_literal r1 in
      match ts with
      | TGroup g :: ts =>
          if delim_eqb (g_delim g) Brace then
            do (braces, inner, items) <- parse_impl_body E g true ;;
            Ret (Some (mkExternBlock attrs vis un kw abi braces inner items), ts)
          else Ret (None, ts)
      | _ => Ret (None, tl ts)
      end) (fun '(b, ts) => match b with Some b => Ret (b, ts) | None => Panic PExternBlock end))
    (bind (let (abi, ts) := consume_literal (r1 ++ u) in
      match ts with
      | TGroup g :: ts =>
          if delim_eqb (g_delim g) Brace then
            do (braces, inner, items) <- parse_impl_body E g true ;;
            Ret (Some (mkExternBlock attrs vis un kw abi braces inner items), ts)
          else Ret (None, ts)
      | _ => Ret (None, tl ts)
      end) (fun '(b, ts) => match b with Some b => Ret (b, ts) | None => Panic PExternBlock end))).
  { intros un kw r1 (q & x & nf & Hc).
    assert (N : snd (consume_literal r1) <> []) by (intro N; rewrite N in Hc; discriminate).
    assert (K : forall abi t r2, agree u
      (bind (match t :: r2 with TGroup g :: ts => if delim_eqb (g_delim g) Brace then
            do (braces, inner, items) <- parse_impl_body E g true ;;
            Ret (Some (mkExternBlock attrs vis un kw abi braces inner items), ts)
          else Ret (None, ts) | _ => Ret (None, tl (t :: r2)) end)
          (fun '(b, ts) => match b with Some b => Ret (b, ts) | None => Panic PExternBlock end))
      (bind (match t :: r2 ++ u with TGroup g :: ts => if delim_eqb (g_delim g) Brace then
            do (braces, inner, items) <- parse_impl_body E g true ;;
            Ret (Some (mkExternBlock attrs vis un kw abi braces inner items), ts)
          else Ret (None, ts) | _ => Ret (None, tl (t :: r2 ++ u)) end)
          (fun '(b, ts) => match b with Some b => Ret (b, ts) | None => Panic PExternBlock end))).
    { intros abi t r2. destruct t as [g|i'|p'|l']; try (simpl; auto; fail).
      destruct (delim_eqb (g_delim g) Brace); [|simpl; auto].
      destruct (parse_impl_body E g true) as [[[a b] c]|e|]; simpl; auto. }
    destruct r1 as [|[g|i'|p'|l'] r1]; cbn [consume_literal snd] in N; [congruence| | | |].
    - apply (K None (TGroup g) r1).
    - apply (K None (TIdent i') r1).
    - apply (K None (TPunct p') r1).
    - destruct r1 as [|t' r1]; [congruence|]. apply (K (Some l') t' r1). }
  destruct (id_is "unsafe" i) eqn:Eu.
  - cbn [consume_ident]. rewrite Eu. destruct ts as [|t' ts].
    { exfalso. apply String.eqb_eq in Eu. destruct i. cbn in Eu. subst. discriminate. }
    destruct t' as [g|j|p|l]; try (simpl; auto; fail). cbn [consume_ident app]. destruct (id_is "extern" j) eqn:Ex; [|simpl; auto].
    apply G. apply String.eqb_eq in Eu, Ex. destruct i, j. cbn in Eu, Ex. subst.
    unfold consume_fn_qualifiers in H. cbn -[classify_fn consume_literal] in H.
    destruct (consume_literal ts) as [abi t2]. inv_bind H. destruct x as [x t3]. cbn [snd]. eauto.
  - cbn [consume_ident]. rewrite Eu. cbn [consume_ident]. destruct (id_is "extern" i) eqn:Ex; [|simpl; auto].
    apply G. apply String.eqb_eq in Ex. destruct i. cbn in Ex. subst.
    unfold consume_fn_qualifiers in H. cbn -[classify_fn consume_literal] in H.
    destruct (consume_literal ts) as [abi t2]. inv_bind H. destruct x as [x t3]. cbn [snd]. eauto.
Qed.

Lemma wrap_agree {A} u (c : A -> item) m m' : agree u m m' -> agree u (wrap c m) (wrap c m').
Proof. intro H. unfold wrap. apply agree_bind; auto; intros; simpl; auto. Qed.
Lemma after_agree {A} u (c : A -> item) (m m' : outcome (A * list tok)) :
  agree u m m' -> agree u (do (x, ts) <- m ;; Ret (c x, ts)) (do (x, ts) <- m' ;; Ret (c x, ts)).
Proof. intro H. apply agree_bind; auto; intros; simpl; auto. Qed.

Lemma either_agree attrs vis i r u : either_keyword i = true ->
  agree u (consume_either R E attrs vis (TIdent i :: r)) (consume_either R E attrs vis ((TIdent i :: r) ++ u)).
Proof.
  intro K. unfold consume_either. cbn [app]. destruct (id_is "type" i) eqn:Et.
  - apply agree_bind; [apply (proj1 (type_alias_grows attrs vis) (TIdent i :: r) u)| |].
    + intros [t|] t1 r1 H; simpl; auto.
    + intros [t|] H; simpl; auto.
  - assert (F : fn_like_keyword i = true).
    { unfold either_keyword, fn_like_keyword in *. rewrite Et in K. destruct (id_is "static" i); rewrite ?orb_true_r, ?orb_false_r in *; auto. }
    rewrite F. pose proof (fn_grows attrs vis (TIdent i :: r) u) as G. cbn [app] in G.
    destruct (consume_fn attrs vis (TIdent i :: r)) as [[[f|nf] t2]|e|] eqn:Ef.
    + simpl in G. destruct G as [->|G]; [simpl; auto|]. rewrite G. simpl. auto.
    + destruct G as [-> G]. rewrite G. cbn [bind]. destruct nf; apply after_agree.
      * apply (constant_grows attrs vis (TIdent i) r u).
      * apply (constant_grows attrs vis (TIdent i) r u).
      * apply (proj1 (trait_grows attrs vis) (TIdent i :: r) u).
      * apply (proj1 (impl_grows attrs) (TIdent i :: r) u).
      * apply (proj1 (mod_grows attrs vis) (TIdent i :: r) u).
      * destruct r as [|t r]; [|apply (extern_crate_grows attrs vis (TIdent i) t r u)].
        exfalso. unfold consume_fn in Ef. destruct (consume_fn_qualifiers [TIdent i]) as [q t1] eqn:Eq.
        inv_bind Ef. destruct x as [[kw|nf] t2].
        { repeat (inv_bind Ef; repeat match goal with y : _ * _ |- _ => destruct y end). discriminate. }
        injection Ef as ->. unfold classify_fn in Hx. destruct t1 as [|[g|j|p|l] t1]; try discriminate.
        all: cbv zeta in Hx; repeat match type of Hx with (if ?b then _ else _) = _ => destruct b eqn:? end; try discriminate.
        unfold consume_fn_qualifiers in Eq. cbn [consume_ident] in Eq.
        repeat (match type of Eq with context [if id_is ?s ?x then _ else _] => destruct (id_is s x) end; cbn in Eq); 
          injection Eq as <- ?; subst; discriminate.
      * apply (extern_block_grows attrs vis (TIdent i :: r) _ u Ef).
    + simpl in G. destruct G as [G|G]; [left; auto|]. rewrite G. right. reflexivity.
    + exact I.
Qed.
Lemma item_body_grows ts u : agree u (consume_item_body R E ts) (consume_item_body R E (ts ++ u)).
Proof.
  revert ts u. apply (grows_bind consume_outer_attributes); [grow|]. intro attrs. apply grows_let; [grow|]. intro vis.
  split; [|reflexivity]. intros [|[g|kw|p|l] r] u; [left; reflexivity| | | |]; cbn [app].
  all: try (apply wrap_agree; apply (proj1 (item_macro_grows attrs) (_ :: r) u)).
  destruct (id_is "struct" kw); [apply wrap_agree, struct_grows|].
  destruct (id_is "enum" kw).
  { apply agree_bind; [apply enum_grows| |]; intros []; intros; simpl; auto. }
  destruct (id_is "union" kw); [apply wrap_agree, union_grows|].
  destruct (id_is "mod" kw); [apply wrap_agree, (proj1 (mod_grows attrs vis) (TIdent kw :: r) u)|].
  destruct (id_is "trait" kw); [apply wrap_agree, (proj1 (trait_grows attrs vis) (TIdent kw :: r) u)|].
  destruct (id_is "impl" kw); [apply wrap_agree, (proj1 (impl_grows attrs) (TIdent kw :: r) u)|].
  destruct (id_is "static" kw); [apply wrap_agree, (constant_grows attrs vis (TIdent kw) r u)|].
  destruct (id_is "use" kw); [apply wrap_agree, (proj1 (use_grows attrs vis) (TIdent kw :: r) u)|].
  destruct (either_keyword kw) eqn:Ek; [apply wrap_agree, (either_agree attrs vis kw r u Ek)|].
  apply wrap_agree. apply (proj1 (item_macro_grows attrs) (TIdent kw :: r) u).
Qed.
End Grows.

Lemma consume_item_agree ts u : agree u (consume_item ts) (consume_item (ts ++ u)).
Proof. rewrite !consume_item_unfold. apply item_body_grows. Qed.

(** ** C92 *)
(** Every other panic is final: no continuation avoids it, or even changes the site. *)
Theorem C92_final (ts u : list tok) (p : panic) :
  parse_item ts = Panic p -> ~ In p (map fst missing) -> parse_item (ts ++ u) = Panic p.
Proof.
  intros H N. pose proof (parse_item_quiet ts) as Q. rewrite H in Q. simpl in Q.
  assert (S : soft p = false).
  { unfold soft. rewrite Q. destruct (fixable p) eqn:F; [|reflexivity]. exfalso. apply N, fixable_missing, F. }
  pose proof (consume_item_agree ts u) as A. unfold parse_item in *.
  destruct (consume_item ts) as [[d r]|e|] eqn:E; simpl in *; try discriminate.
  - destruct r as [|t r]; [discriminate|]. destruct A as [A|A]; [discriminate|]. rewrite A. simpl. auto.
  - injection H as ->. destruct A as [A|A]; [congruence|]. rewrite A. reflexivity.
Qed.
(** The sites of the table are exactly those where a continuation helps. *)
Theorem C92_missing (p : panic) :
  (exists ts u d, parse_item ts = Panic p /\ parse_item (ts ++ u) = Ret (Ok d)) <-> In p (map fst missing).
Proof.
  split.
  - intros (ts & u & d & H1 & H2). destruct (in_dec panic_eq_dec p (map fst missing)) as [|N]; auto.
    rewrite (C92_final _ u _ H1 N) in H2. discriminate.
  - intro H. apply in_map_iff in H. destruct H as ([q [a b]] & <- & H). cbn [fst]. exists (lex a), (lex b).
    assert (G : forallb (fun '(q, (a, b)) => match parse_item (lex a), parse_item (lex a ++ lex b) with
      | Panic q', Ret (Ok _) => if panic_eq_dec q q' then true else false | _, _ => false end) missing = true)
      by (vm_compute; reflexivity).
    rewrite forallb_forall in G. specialize (G _ H). cbn in G.
    destruct (parse_item (lex a)) as [?|q'|]; try discriminate.
    destruct (parse_item (lex a ++ lex b)) as [[d|]|?|]; try discriminate.
    destruct (panic_eq_dec q q'); [|discriminate]. exists d. subst. auto.
Qed.
(** What was parsed in front of other tokens stays, whatever those are followed by. *)
Theorem C92_prefix (ts u : list tok) d t r :
  consume_item ts = Ret (d, t :: r) -> consume_item (ts ++ u) = Ret (d, t :: r ++ u).
Proof. intro H. pose proof (consume_item_agree ts u) as A. rewrite H in A. destruct A as [A|A]; [discriminate|exact A]. Qed.

Example C92_example :
  (let ts := lex "struct S { a: u8, b }" in let p := PExpectedPunct ":" "named fields" true in
   parse_item ts = Panic p /\ ~ In p (map fst missing) /\ parse_item (ts ++ lex "where T: U { } fn f();") = Panic p)
  /\ (exists d t, consume_item (lex "#[a] fn f() { } struct") = Ret (d, [t])).
Proof.
  split; [|eexists _, _; vm_compute; reflexivity]. cbv zeta. split; [vm_compute; reflexivity|]. split; [|vm_compute; reflexivity].
  cbn. intuition discriminate.
Qed.

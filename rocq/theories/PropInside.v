(** C101 inside groups: where the parsers of parameters, variants, fields, generic arguments and
    attribute paths are decided, on the tokens of their own group. *)
From Verif Require Import Imp PropErase Debug Samples Safe Edit Unfold PropPanics PropMissing PathProof Blame PropBlame.
Local Open Scope string_scope.
Local Open Scope list_scope.

Lemma a_lifetime c e ts : at_ 0 yes c (i_lifetime e) ts.
Proof. unfold i_lifetime. as_. Qed.
Lemma a_field_type c ts : at_ 0 yes c i_field_type ts.
Proof. unfold i_field_type. as_. Qed.
Lemma a_enum_discriminant c ts : at_ 0 yes c i_enum_discriminant ts.
Proof. unfold i_enum_discriminant. as_. Qed.
Global Hint Resolve a_lifetime a_field_type a_enum_discriminant : spot.
Lemma a_fn_params c ts : at_ 0 yes c i_fn_params ts.
Proof. unfold i_fn_params. as_. Qed.
Lemma a_enum_variants c ts : at_ 0 yes c i_enum_variants ts.
Proof. unfold i_enum_variants. as_. Qed.
Lemma a_attribute_path c ts : at_ 0 yes c i_attribute_path ts.
Proof. unfold i_attribute_path. as_. Qed.

(** ** The contents of a group *)
(** Parameters: the message names the token (or a part of the token) after which nothing can
    save the list. *)
Theorem C101_params (ts : list tok) (p : panic) (why : list piece) :
  fst (i_fn_params ts) = Died p why -> mute p = false ->
  exists l t r, ts = l ++ t :: r /\ (forall x, In x (shown why) -> part x t)
    /\ forall u, fst (i_fn_params (l ++ t :: u)) = Died p why.
Proof.
  intros H M. pose proof (a_fn_params None ts) as A. unfold at_ in A. rewrite H in A.
  destruct A as [A|[(l & t & r & E & _ & C & U)|(t & _ & E & _)]]; [congruence| |discriminate].
  exists l, t, r. split; auto. split; [apply Forall_forall; exact C|]. intro u. destruct (U u) as [X|X]; auto. exfalso.
  pose proof (fn_params_safe (l ++ t :: u)) as S. rewrite <- e_fn_params in S. unfold run in S. rewrite X in S. exact S.
Qed.
Theorem C101_variants (ts : list tok) (p : panic) (why : list piece) :
  fst (i_enum_variants ts) = Died p why -> mute p = false ->
  exists l t r, ts = l ++ t :: r /\ (forall x, In x (shown why) -> part x t)
    /\ forall u, fst (i_enum_variants (l ++ t :: u)) = Died p why.
Proof.
  intros H M. pose proof (a_enum_variants None ts) as A. unfold at_ in A. rewrite H in A.
  destruct A as [A|[(l & t & r & E & _ & C & U)|(t & _ & E & _)]]; [congruence| |discriminate].
  exists l, t, r. split; auto. split; [apply Forall_forall; exact C|]. intro u. destruct (U u) as [X|X]; auto. exfalso.
  pose proof (variants_safe (l ++ t :: u)) as S. rewrite <- e_enum_variants in S. unfold run in S. rewrite X in S. exact S.
Qed.
Lemma fst_within {A} s (m : T A) us : fst (within s m us) = match fst (m s) with Got (x, _) => Got (x, us) | Died p why => Died p why | Stuck => Stuck end.
Proof. unfold within. rewrite fst_andthen. cbn [fst copied]. unfold on. destruct (m s) as [[[x r]|p why|] cc]; reflexivity. Qed.
(** Fields: the rest [w] after the group does not matter. *)
Theorem C101_named (d : delimiter) (sp : span) (ts w : list tok) (p : panic) (why : list piece) :
  fst (i_named_fields (mkGroup d ts sp) w) = Died p why -> mute p = false ->
  exists l t r, ts = l ++ t :: r /\ (forall x, In x (shown why) -> part x t)
    /\ forall u w', fst (i_named_fields (mkGroup d (l ++ t :: u) sp) w') = Died p why.
Proof.
  intros H M.
  assert (K : exists m, (forall c us, at_ 0 yes c m us) /\ forall us w, fst (i_named_fields (mkGroup d us sp) w)
     = match fst (m us) with Got (x, _) => Got (mkNamedFields x (group_span_new (mkGroup d us sp)), w) | Died p why => Died p why | Stuck => Stuck end).
  { unfold i_named_fields. cbn [g_stream]. eexists. split; [|intros us w0; rewrite fst_andthen, fst_within;
      match goal with |- context [loop ?b ?s us] => instantiate (1 := loop b s) end; destruct (fst (loop _ _ us)) as [[x r]|q y|]; reflexivity].
    intros c us. as_. }
  destruct K as (m & A & K). rewrite K in H. specialize (A None ts). unfold at_ in A. destruct (fst (m ts)) as [[x r]|q y|]; try discriminate. injection H as -> ->.
  destruct A as [A|[(l & t & r & E & _ & C & U)|(t & _ & E & _)]]; [congruence| |discriminate].
  exists l, t, r. split; auto. split; [apply Forall_forall; exact C|]. intros u w'. rewrite K. destruct (U u) as [X|X]; [rewrite X; auto|]. exfalso.
  pose proof (named_fields_safe (mkGroup d (l ++ t :: u) sp)) as S. pose proof (e_named_fields (mkGroup d (l ++ t :: u) sp) w') as Y.
  unfold run in Y. rewrite K, X in Y. destruct (parse_named_fields _); [discriminate|discriminate|exact S].
Qed.
Theorem C101_tuple (d : delimiter) (sp : span) (ts w : list tok) (p : panic) (why : list piece) :
  fst (i_tuple_fields (mkGroup d ts sp) w) = Died p why -> mute p = false ->
  exists l t r, ts = l ++ t :: r /\ (forall x, In x (shown why) -> part x t)
    /\ forall u w', fst (i_tuple_fields (mkGroup d (l ++ t :: u) sp) w') = Died p why.
Proof.
  intros H M.
  assert (K : exists m, (forall c us, at_ 0 yes c m us) /\ forall us w, fst (i_tuple_fields (mkGroup d us sp) w)
     = match fst (m us) with Got (x, _) => Got (mkTupleFields x (group_span_new (mkGroup d us sp)), w) | Died p why => Died p why | Stuck => Stuck end).
  { unfold i_tuple_fields. cbn [g_stream]. eexists. split; [|intros us w0; rewrite fst_andthen, fst_within;
      match goal with |- context [loop ?b ?s us] => instantiate (1 := loop b s) end; destruct (fst (loop _ _ us)) as [[x r]|q y|]; reflexivity].
    intros c us. as_. }
  destruct K as (m & A & K). rewrite K in H. specialize (A None ts). unfold at_ in A. destruct (fst (m ts)) as [[x r]|q y|]; try discriminate. injection H as -> ->.
  destruct A as [A|[(l & t & r & E & _ & C & U)|(t & _ & E & _)]]; [congruence| |discriminate].
  exists l, t, r. split; auto. split; [apply Forall_forall; exact C|]. intros u w'. rewrite K. destruct (U u) as [X|X]; [rewrite X; auto|]. exfalso.
  pose proof (tuple_fields_safe (mkGroup d (l ++ t :: u) sp)) as S. pose proof (e_tuple_fields (mkGroup d (l ++ t :: u) sp) w') as Y.
  unfold run in Y. rewrite K, X in Y. destruct (parse_tuple_fields _); [discriminate|discriminate|exact S].
Qed.

(** ** Generic arguments of a path *)
Definition quote (q : punct) : Prop := p_is "'" q = true.
Definition path_fault (ts : list tok) (p : panic) (why : list piece) : Prop :=
  mute p = true
  \/ (p = PLifetimeToken /\ exists l q t r, ts = l ++ TPunct q :: t :: r /\ quote q /\ (forall i, t <> TIdent i) /\ shown why = [t])
  \/ (exists c, p = PExpectedPunct ">" c false /\ exists l t r, ts = l ++ t :: r /\ is_punct ">" t = false /\ shown why = [t]).
Definition tells {A} (m : T A) : Prop := forall ts, match fst (m ts) with
  | Got (_, r) => exists l, ts = l ++ r | Died p why => path_fault ts p why | Stuck => True end.
Lemma fault_later l ts p why : path_fault ts p why -> path_fault (l ++ ts) p why.
Proof.
  intros [H|[(H & l2 & q & t & r & -> & H1)|(c & H & l2 & t & r & -> & H1)]]; [left; auto| |]; right; [left|right].
  - split; auto. exists (l ++ l2), q, t, r. rewrite <- app_assoc. auto.
  - exists c. split; auto. exists (l ++ l2), t, r. rewrite <- app_assoc. auto.
Qed.
Lemma fault_before u ts p why : path_fault ts p why -> path_fault (ts ++ u) p why.
Proof.
  intros [H|[(H & l2 & q & t & r & -> & H1)|(c & H & l2 & t & r & -> & H1)]]; [left; auto| |]; right; [left|right].
  - split; auto. exists l2, q, t, (r ++ u). rewrite <- app_assoc. auto.
  - exists c. split; auto. exists l2, t, (r ++ u). rewrite <- app_assoc. auto.
Qed.
Lemma tells_bind {A B} (m : T A) (k : A -> T B) : tells m -> (forall x, tells (k x)) -> tells (andthen m k).
Proof.
  intros H Hk ts. rewrite fst_andthen. specialize (H ts). destruct (fst (m ts)) as [[x r]|p why|]; auto. destruct H as [l ->].
  specialize (Hk x r). destruct (fst (k x r)) as [[y s]|p why|]; auto; [|apply fault_later; auto]. destruct Hk as [l2 ->]. exists (l ++ l2). rewrite app_assoc. auto.
Qed.
Lemma tells_ret {A} (x : A) : tells (ret x).
Proof. intro ts. exists []. reflexivity. Qed.
Lemma tells_peek : tells peek.
Proof. intro ts. exists []. reflexivity. Qed.
Lemma tells_next : tells next.
Proof. intro ts. cbn. destruct ts as [|t r]; [exists []|exists [t]]; reflexivity. Qed.
Lemma tells_loop {S R} (body : S -> T (S + R)) s : (forall s, tells (body s)) -> tells (loop body s).
Proof.
  intros H ts. unfold loop. generalize (loop_fuel ts) as n. intro n. revert s ts.
  induction n as [|n IH]; intros s ts; [exact I|]. cbn [rounds]. apply (tells_bind (body s)); [apply H|]. intros [s'|x] us; [apply IH|apply tells_ret].
Qed.
Lemma tells_at {A} (m : T A) : (forall ts, at_ 0 yes None m ts) -> (forall ts p why, fst (m ts) = Died p why -> mute p = true) -> tells m.
Proof.
  intros H Hm ts. specialize (H ts). unfold at_ in H. destruct (fst (m ts)) as [[x r]|p why|] eqn:E; auto.
  - destruct H as (_ & l & H & _). exists l. exact H.
  - left. eapply Hm; eauto.
Qed.
Lemma tells_run {A} (m : T A) f : (forall ts, run m ts = Ret (f ts)) -> (forall ts, exists l, ts = l ++ snd (f ts)) -> tells m.
Proof.
  intros H Hs ts. specialize (H ts). specialize (Hs ts). unfold run in H. destruct (fst (m ts)) as [[x r]|p why|]; auto; [|discriminate].
  injection H as H. rewrite <- H in Hs. exact Hs.
Qed.
Lemma tells_colon2 : tells i_colon2.
Proof.
  eapply tells_run; [apply e_colon2|]. intro ts. destruct (consume_colon2 ts) as [o r] eqn:E. apply colon2_sound in E. destruct E as [-> _]. eexists. reflexivity.
Qed.
Lemma tells_comma : tells i_consume_comma.
Proof.
  intro ts. cbn. destruct ts as [|[g|i|p|l] r]; cbn; try (exists []; reflexivity). destruct (p_is "," p); cbn; [exists [TPunct p]|exists []]; reflexivity.
Qed.
Lemma tells_close c : tells (i_parse_punct ">" c).
Proof.
  intro ts. unfold i_parse_punct. cbn. destruct ts as [|t r]; cbn; [left; reflexivity|].
  assert (F : is_punct ">" t = false -> forall w, shown w = [t] -> path_fault (t :: r) (PExpectedPunct ">" c false) w).
  { intros H w Hw. right. right. exists c. split; auto. exists [], t, r. auto. }
  destruct t as [g|i|p|l]; cbn; try (apply F; reflexivity). destruct (p_is ">" p) eqn:E; cbn; [exists [TPunct p]; reflexivity|]. apply F; auto.
Qed.
Lemma arg_fault ts : match fst (i_generic_arg ts) with Died p why => path_fault ts p why | _ => True end.
Proof.
  unfold i_generic_arg. rewrite fst_andthen.
  destruct (fst (i_lifetime true ts)) as [[[lt|] r]|p why|] eqn:L; auto.
  - cbn. exact I.
  - destruct r as [|[g|i|p|l] [|[g2|i2|p2|l2] r]]; rewrite fst_andthen; cbn [fst save]; rewrite fst_andthen; cbn [fst next hd_error tl]; rewrite fst_andthen;
      try rewrite fst_andthen; cbn [fst next hd_error tl]; try (destruct (p_is "=" p2)); try exact I; left; reflexivity.
  - revert L. unfold i_lifetime. rewrite fst_andthen. cbn [fst peek hd_error].
    destruct ts as [|[g|i|q|l] r]; cbn; try discriminate. destruct (p_is "'" q) eqn:E; [|discriminate].
    destruct r as [|[g|i|q2|l] r]; cbn.
    + intro H. injection H as <- <-. left. reflexivity.
    + intro H. injection H as <- <-. right. left. split; auto. exists [], q, (TGroup g), r. repeat split; auto. discriminate.
    + destruct r; cbn; [discriminate|]. intro H. injection H as <- <-. left. reflexivity.
    + intro H. injection H as <- <-. right. left. split; auto. exists [], q, (TPunct q2), r. repeat split; auto. discriminate.
    + intro H. injection H as <- <-. right. left. split; auto. exists [], q, (TLit l), r. repeat split; auto. discriminate.
Qed.
Lemma tells_arg_round args : tells (arg <~ i_stuff_until (is_punct ",") false ;; comma <~ i_consume_comma ;;
  match arg with
  | [] => ret (inr args)
  | _ :: _ => a <~ on arg i_generic_arg ;; ret (inl (pu_push args a comma))
  end : T (punctuated generic_arg + punctuated generic_arg)).
Proof.
  intro ts. rewrite fst_andthen. pose proof (e_stuff (is_punct ",") false ts) as X. unfold run in X.
  destruct (fst (i_stuff_until (is_punct ",") false ts)) as [[arg r]|p why|]; cbn [plainly] in X; auto.
  - symmetry in X. apply until_sound in X. destruct X as [-> _]. rewrite fst_andthen. pose proof (tells_comma r) as C.
    destruct (fst (i_consume_comma r)) as [[comma r2]|p why|]; auto; [|apply fault_later; auto]. destruct C as [l ->].
    destruct arg as [|t arg]; [cbn; exists l; reflexivity|]. rewrite fst_andthen. unfold on. pose proof (arg_fault (t :: arg)) as F.
    destruct (i_generic_arg (t :: arg)) as [[[x r]|p why|] cc]; cbn [fst ret] in *; auto; [|apply fault_before; auto].
    exists ((t :: arg) ++ l). rewrite <- app_assoc. reflexivity.
  - unfold consume_stuff_until in X. destruct (stuff_loop _ _ _ _) as [[o m] r]. discriminate.
Qed.
Lemma tells_generic_args : tells i_generic_args.
Proof.
  intro ts. unfold i_generic_args. rewrite fst_andthen. cbn [fst save]. rewrite fst_andthen. pose proof (tells_colon2 ts) as C.
  destruct (fst (i_colon2 ts)) as [[o r]|p why|]; auto. destruct C as [l ->]. rewrite fst_andthen. cbn [fst peek].
  destruct r as [|[g|i|q|x] r]; cbn [hd_error]; try (cbn; exists []; reflexivity).
  destruct (p_is "<" q); [|cbn; exists []; reflexivity].
  match goal with |- match fst (?m _) with _ => _ end => assert (Y : tells m) end.
  { apply tells_bind; [apply tells_next|intros _]. apply tells_bind; [apply tells_loop; intro; apply tells_arg_round|intro].
    apply tells_bind; [apply tells_close|intro; apply tells_ret]. }
  specialize (Y (TPunct q :: r)). match type of Y with match ?o with _ => _ end => destruct o as [[y s]|p why|] end; auto; [|apply fault_later; auto].
  destruct Y as [l2 ->]. exists (l ++ l2). apply app_assoc.
Qed.
(** The only messages of [Path::parse] that show a token: the one after an apostrophe, and the
    one in the place of the closing angle bracket. *)
Theorem C101_path (ts : list tok) (p : panic) (why : list piece) :
  fst (i_path ts) = Died p why -> mute p = false ->
  (p = PLifetimeToken /\ exists l q t r, ts = l ++ TPunct q :: t :: r /\ p_is "'" q = true /\ (forall i, t <> TIdent i) /\ shown why = [t])
  \/ (exists c, p = PExpectedPunct ">" c false /\ exists l t r, ts = l ++ t :: r /\ is_punct ">" t = false /\ shown why = [t]).
Proof.
  intros H M. assert (Y : tells i_path).
  { unfold i_path. apply tells_bind; [apply tells_colon2|intro c]. apply tells_loop. intros [c2 segs]. apply tells_bind; [apply tells_next|].
    intros [[g|i|q|x]|]; try apply tells_ret. apply tells_bind; [apply tells_generic_args|intro]. apply tells_bind; [apply tells_peek|].
    intros [u|]; [|apply tells_ret]. apply tells_bind; [apply tells_colon2|]. intros [sep|]; apply tells_ret. }
  specialize (Y ts). rewrite H in Y. destruct Y as [Y|Y]; [congruence|exact Y].
Qed.

(** ** Examples *)
Definition fate {A} (m : T A) (s : string) : option (panic * list string) :=
  match fst (m (lex s)) with Died p why => Some (p, map (fun t => show_tokens [t]) (shown why)) | _ => None end.
(** The literal is to blame: an identifier in its place is fine, anything behind it is not. *)
Example C101_params_ex : fate i_fn_params "a: u8, &'3 self" = Some (PLifetimeToken, ["3"]) /\ fate i_fn_params "a: u8, &'3" = Some (PLifetimeToken, ["3"])
  /\ fate i_fn_params "a: u8, &'a self" = None.
Proof. repeat split; reflexivity. Qed.
Example C101_variants_ex : fate i_enum_variants "A, B { x: u8, y z }, C" = Some (PExpectedPunct ":" "named fields" false, ["z"])
  /\ fate i_enum_variants "A, B -" = Some (PVariantToken, ["-"]).
Proof. repeat split; reflexivity. Qed.
Example C101_named_ex : fst (i_named_fields (mkGroup Brace (lex "pub x: u8, = y") call_site) []) = fst (i_named_fields (mkGroup Brace (lex "pub x: u8, =") call_site) (lex "z"))
  /\ match fst (i_named_fields (mkGroup Brace (lex "pub x: u8, = y") call_site) []) with Died p why => mute p = false /\ map (fun t => show_tokens [t]) (shown why) = ["="] | _ => False end.
Proof. repeat split; reflexivity. Qed.
Example C101_tuple_ex : match fst (i_tuple_fields (mkGroup Parenthesis (lex "u8, #[a 1] u8") call_site) []) with
  Died p why => p = PAttrPath /\ mute p = false /\ map (fun t => show_tokens [t]) (shown why) = ["1"] | _ => False end.
Proof. repeat split; reflexivity. Qed.
Example C101_path_ex : fate i_path "a::Vec<'a, '3>" = Some (PLifetimeToken, ["3"]) /\ fate i_path "Vec<A, ,B>" = Some (PExpectedPunct ">" "end of generic argument list" false, ["B"]).
Proof. repeat split; reflexivity. Qed.

(** C95: the parser gives up only, and at once, when nothing can follow.

    For every token list there are three cases.  It can be completed to an item; or it
    panics and the same site panics whatever follows; or it is a whole enum with a
    rejected discriminant.  So the verdict on a rejected list is already the verdict on
    its shortest prefix that cannot be completed, and a panic which some continuation
    changes is one which some continuation repairs. *)
From Verif Require Import Samples Safe Edit PathProof Unfold PropPanics PropMissing.
Local Open Scope string_scope.
Local Open Scope list_scope.

(** ** The three cases, for a parser in front of other tokens *)
(** The run on an extension is the run on the list. *)
Definition follows {A} (u : list tok) (m m' : outcome (A * list tok)) : Prop :=
  match m with
  | Ret (x, r) => m' = Ret (x, r ++ u)
  | Panic e => m' = Panic e
  | OutOfFuel => True
  end.
Definition settled {A} (p : parser A) (ts : list tok) : Prop := forall u, follows u (p ts) (p (ts ++ u)).
(** Some tokens complete it, whatever comes next, as long as that is [ok]. *)
Definition fills {A} (good : A -> Prop) (ok : list tok -> Prop) (p : parser A) (ts : list tok) : Prop :=
  exists c x, good x /\ forall w, ok w -> p (ts ++ c ++ w) = Ret (x, w).
Definition lively {A} good ok (p : parser A) : Prop := forall ts, settled p ts \/ fills good ok p ts.

Definition any {A} (x : A) : Prop := True.
Definition is_ok {A E} (x : result A E) : Prop := match x with Ok _ => True | Err _ => False end.
Definition done (w : list tok) : Prop := w = [].
Definition every (w : list tok) : Prop := True.
Definition starts (P : tok -> bool) (w : list tok) : Prop := match w with t :: _ => P t = true | [] => False end.

(** ** Composition *)
Lemma at_equal {A} good ok (p q : parser A) ts : (forall u, p (ts ++ u) = q (ts ++ u)) ->
  settled q ts \/ fills good ok q ts -> settled p ts \/ fills good ok p ts.
Proof.
  intros E [H|(c & x & Hx & H)].
  - left. intro u. specialize (H u). specialize (E []) as E0. rewrite !app_nil_r in E0. rewrite E, E0. exact H.
  - right. exists c, x. split; auto. intros w Hw. rewrite E. auto.
Qed.
Lemma lively_equal {A} good ok (p q : parser A) : (forall ts, p ts = q ts) -> lively good ok q -> lively good ok p.
Proof. intros E H ts. apply (at_equal _ _ p q); auto. Qed.
Lemma at_panic {A} good ok (p : parser A) ts e : (forall u, p (ts ++ u) = Panic e) -> settled p ts \/ fills good ok p ts.
Proof. intro H. left. intro u. pose proof (H []) as H0. rewrite app_nil_r in H0. rewrite H, H0. reflexivity. Qed.
(** After a prefix that is read for good. *)
Lemma at_after {A B} good ok (p : parser A) (q : parser B) (f : A -> B) ts r :
  (forall u, q (ts ++ u) = do (x, w) <- p (r ++ u) ;; Ret (f x, w)) ->
  settled p r \/ fills (fun x => good (f x)) ok p r -> settled q ts \/ fills good ok q ts.
Proof.
  intros E [H|(c & x & Hx & H)].
  - left. intro u. specialize (H u). pose proof (E []) as E0. rewrite !app_nil_r in E0. rewrite E, E0.
    destruct (p r) as [[x w]|e|]; simpl in *; auto; rewrite H; reflexivity.
  - right. exists c, (f x). split; auto. intros w Hw. rewrite E, H; auto.
Qed.
Lemma at_skip {A} good ok (p q : parser A) ts r :
  (forall u, q (ts ++ u) = p (r ++ u)) -> settled p r \/ fills good ok p r -> settled q ts \/ fills good ok q ts.
Proof.
  intros E [H|(c & x & Hx & H)].
  - left. intro u. specialize (H u). pose proof (E []) as E0. rewrite !app_nil_r in E0. rewrite E, E0. exact H.
  - right. exists c, x. split; auto. intros w Hw. rewrite E; auto.
Qed.
Lemma at_bind {A B} good1 good2 ok1 ok2 (p : parser A) (k : A * list tok -> outcome (B * list tok)) ts :
  settled p ts \/ fills good1 ok1 p ts ->
  (forall x, lively good2 ok2 (fun ts => k (x, ts))) ->
  (forall x, good1 x -> exists c y, good2 y /\ forall w, ok2 w -> ok1 (c ++ w) /\ k (x, c ++ w) = Ret (y, w)) ->
  settled (fun ts => bind (p ts) k) ts \/ fills good2 ok2 (fun ts => bind (p ts) k) ts.
Proof.
  intros [H|(c & x & Hx & H)] Hk Ho.
  - unfold settled in H. destruct (p ts) as [[x r]|e|] eqn:E.
    + simpl in H. apply (at_skip good2 ok2 (fun ts => k (x, ts)) _ ts r); [|apply Hk]. intro u. rewrite H. reflexivity.
    + left. intro u. rewrite E. simpl. rewrite (H u). reflexivity.
    + left. intro u. rewrite E. exact I.
  - destruct (Ho x Hx) as (c2 & y & Hy & H2). right. exists (c ++ c2), y. split; auto. intros w Hw. destruct (H2 w Hw) as [G1 G2].
    rewrite <- app_assoc, (H (c2 ++ w)) by auto. exact G2.
Qed.
Lemma lively_bind {A B} good1 good2 ok1 ok2 (p : parser A) (k : A * list tok -> outcome (B * list tok)) :
  lively good1 ok1 p -> (forall x, lively good2 ok2 (fun ts => k (x, ts))) ->
  (forall x, good1 x -> exists c y, good2 y /\ forall w, ok2 w -> ok1 (c ++ w) /\ k (x, c ++ w) = Ret (y, w)) ->
  lively good2 ok2 (fun ts => bind (p ts) k).
Proof. intros H Hk Ho ts. eapply at_bind; eauto. Qed.
Lemma lively_ret {A} (good : A -> Prop) ok x : lively good ok (fun ts => Ret (x, ts)).
Proof. intro ts. left. intro u. reflexivity. Qed.

Lemma at_weaken {A} (good good' : A -> Prop) (ok ok' : list tok -> Prop) (p : parser A) ts :
  (forall x, good x -> good' x) -> (forall w, ok' w -> ok w) ->
  settled p ts \/ fills good ok p ts -> settled p ts \/ fills good' ok' p ts.
Proof. intros H1 H2 [H|(c & x & Hx & H)]; [auto|]. right. exists c, x. auto. Qed.
Lemma starts_weaken (P Q : tok -> bool) : (forall t, P t = true -> Q t = true) -> forall w, starts P w -> starts Q w.
Proof. intros H [|t w]; simpl; auto. Qed.

(** Optional tokens. *)
Definition looks {A} (f : list tok -> A * list tok) : Prop :=
  forall t r u, f ((t :: r) ++ u) = (fst (f (t :: r)), snd (f (t :: r)) ++ u).
Lemma lively_let {A B} good ok (f : list tok -> A * list tok) (k : A -> parser B) :
  looks f -> (forall x, lively good ok (k x)) ->
  (exists c y, good y /\ forall w, ok w -> (let (x, r) := f (c ++ w) in k x r) = Ret (y, w)) ->
  lively good ok (fun ts => let (x, r) := f ts in k x r).
Proof.
  intros Hf Hk Ho [|t r].
  - right. exact Ho.
  - apply (at_skip good ok (k (fst (f (t :: r)))) _ (t :: r) (snd (f (t :: r)))); [|apply Hk]. intro u. rewrite Hf. reflexivity.
Qed.
Lemma ident_looks s : looks (consume_ident s).
Proof. intros [g|i|p|l] r u; auto. simpl. destruct (id_is s i); reflexivity. Qed.
Lemma any_ident_looks : looks consume_any_ident.
Proof. intros [g|i|p|l] r u; auto. Qed.
Lemma punct_looks c : looks (consume_punct c).
Proof. intros [g|i|p|l] r u; auto. simpl. destruct (p_is c p); reflexivity. Qed.
Lemma literal_looks : looks consume_literal.
Proof. intros [g|i|p|l] r u; auto. Qed.

(** ** The tokens used to complete *)
Definition word (s : string) : tok := TIdent (mkIdent s call_site).
Definition mark (c : ascii) : tok := TPunct (mkPunct c Alone call_site).
Definition block (d : delimiter) : tok := TGroup (mkGroup d [] call_site).

Ltac filled c := exists c; eexists; split; [|intros ? ?; reflexivity]; exact I.

Lemma any_ident_lively c : lively any every (parse_any_ident c).
Proof.
  intros [|t r].
  - right. filled [word "x"].
  - left. intro u. destruct t; reflexivity.
Qed.
Lemma item_name_lively : lively any every consume_item_name.
Proof. apply any_ident_lively. Qed.
Lemma keyword_lively k c : lively any every (parse_ident k c).
Proof.
  intros [|t r].
  - right. exists [word k]. eexists. split; [exact I|]. intros w _. cbn. unfold id_is. cbn. rewrite String.eqb_refl. reflexivity.
  - left. intro u. destruct t as [g|i|p|l]; try reflexivity. simpl. destruct (id_is k i); reflexivity.
Qed.
Lemma punct_lively x c : lively any every (parse_punct x c).
Proof.
  intros [|t r].
  - right. exists [mark x]. eexists. split; [exact I|]. intros w _. cbn. unfold p_is. cbn. rewrite Ascii.eqb_refl. reflexivity.
  - left. intro u. destruct t as [g|i|p|l]; try reflexivity. simpl. destruct (p_is x p); reflexivity.
Qed.

(** ** Token runs *)
(** A run that stopped at the end is completed by an identifier and the missing [>]. *)
Definition closes (P : tok -> bool) (must : bool) (t : tok) : bool :=
  negb (is_punct "<" t) && negb (is_punct "-" t) && (if is_punct ">" t then negb must else P t).
Lemma angles_close P t w : forall n, closes P false t = true ->
  exists met, stuff_loop P (Z.of_nat n) false (repeat (mark ">") n ++ t :: w) = (repeat (mark ">") n, met, t :: w)
    /\ (is_punct ">" t = false -> met = true).
Proof.
  unfold closes. intros n H. apply andb_prop in H. destruct H as [H H3]. apply andb_prop in H. destruct H as [H1 H2].
  apply negb_true_iff in H1, H2. induction n as [|n IH].
  - cbn [repeat app stuff_loop Z.of_nat]. cbv zeta. rewrite H1, H2. destruct (is_punct ">" t).
    + exists false. split; [reflexivity|discriminate].
    + rewrite H3. exists true. auto.
  - destruct IH as (met & IH & IM). exists met. split; auto. cbn [repeat app stuff_loop]. cbv zeta.
    replace (is_punct "<" (mark ">")) with false by reflexivity. replace (is_punct ">" (mark ">")) with true by reflexivity.
    cbn [negb andb]. replace (Z.of_nat (S n) - 1)%Z with (Z.of_nat n) by lia.
    destruct (Z.ltb_spec (Z.of_nat n) 0); [lia|]. rewrite IH. reflexivity.
Qed.
Lemma stuff_close P (HP : P (word "x") = false) : forall ts bc d o met, (0 <= bc)%Z -> stuff_loop P bc d ts = (o, met, []) ->
  exists c o', forall t w, closes P false t = true ->
    exists met', stuff_loop P bc d (ts ++ c ++ t :: w) = (o', met', t :: w) /\ (is_punct ">" t = false -> met' = true).
Proof.
  induction ts as [|t ts IH]; intros bc d o met Hb H.
  - exists (word "x" :: repeat (mark ">") (Z.to_nat bc)), (word "x" :: repeat (mark ">") (Z.to_nat bc)). intros t w Ht.
    destruct (angles_close P t w (Z.to_nat bc) Ht) as (met' & E & M). exists met'. split; auto.
    cbn [app stuff_loop]. cbv zeta. rewrite HP. cbn [is_punct word andb].
    destruct (Z.ltb_spec bc 0); [lia|]. rewrite Z2Nat.id in E by auto. rewrite E. reflexivity.
  - cbn [stuff_loop app] in *. cbv zeta in *.
    assert (K : forall b e, (if Z.ltb b 0 then ([], false, t :: ts)
        else let '(out, met, rest) := stuff_loop P b e ts in (t :: out, met, rest)) = (o, met, []) ->
      exists c o', forall t' w, closes P false t' = true -> exists met',
        (if Z.ltb b 0 then ([], false, t :: ts ++ c ++ t' :: w)
        else let '(out, met, rest) := stuff_loop P b e (ts ++ c ++ t' :: w) in (t :: out, met, rest)) = (o', met', t' :: w)
        /\ (is_punct ">" t' = false -> met' = true)).
    { intros b e E. destruct (Z.ltb_spec b 0); [discriminate|]. destruct (stuff_loop P b e ts) as [[o1 m1] r1] eqn:E1.
      injection E as _ _ ->. destruct (IH b e o1 m1) as (c & o' & G); auto. exists c, (t :: o'). intros t' w Ht.
      destruct (G t' w Ht) as (met' & E2 & M). exists met'. rewrite E2. auto. }
    destruct (is_punct "<" t); [apply (K _ _ H)|]. destruct (is_punct ">" t && negb d); [apply (K _ _ H)|].
    destruct (is_punct "-" t); [apply (K _ _ H)|]. destruct (P t && Z.eqb bc 0); [discriminate|apply (K _ _ H)].
Qed.
Lemma until_lively P must : P (word "x") = false -> lively any (starts (closes P must)) (consume_stuff_until P must).
Proof.
  intros HP ts. pose proof (fun u => stuff_extend P u ts 0 false) as E. pose proof (stuff_close P HP ts 0 false) as C.
  destruct (stuff_loop P 0 false ts) as [[o met] r] eqn:El. destruct r as [|t r].
  - right. destruct (C o met) as (c & o' & G); [lia|reflexivity|]. exists c, o'. split; [exact I|].
    intros [|t w] Ht; [contradiction|]. cbn [starts] in Ht.
    assert (Ht' : closes P false t = true).
    { unfold closes in *. destruct (is_punct ">" t); auto. destruct must; rewrite ?andb_false_r in Ht; [discriminate|auto]. }
    destruct (G t w Ht') as (met' & E2 & M). unfold consume_stuff_until. rewrite E2.
    destruct must; [|reflexivity]. rewrite M; [reflexivity|]. unfold closes in Ht. destruct (is_punct ">" t); auto.
    rewrite andb_false_r in Ht. discriminate.
  - left. intro u. unfold consume_stuff_until. rewrite El, E by discriminate. destruct (must && negb met); [|reflexivity].
    destruct t as [g|i|p|l]; cbn [app]; try reflexivity. destruct (p_is ">" p); reflexivity.
Qed.

(** ** Loops *)
Lemma loop_lively {A} stop (elem : parser A) good (ok oke : list tok -> Prop) e :
  stop [] = Panic e -> (forall t r u, stop ((t :: r) ++ u) = stop (t :: r)) ->
  (forall w, ok w -> stop w = Ret true /\ oke w /\ consume_comma w = (None, w) /\ w <> []) ->
  lively good oke elem ->
  (forall ts x r, stop ts = Ret false -> elem ts = Ret (x, r) -> List.length r < List.length ts) ->
  forall acc, lively any ok (fun ts => punct_loop stop elem (loop_fuel ts) acc ts).
Proof.
  intros H0 Hs Hok He Hp acc ts.
  assert (K : forall f acc ts,
    (forall u f', f <= f' -> follows u (punct_loop stop elem f acc ts) (punct_loop stop elem f' acc (ts ++ u)))
    \/ (exists c x, forall w f', ok w -> List.length (ts ++ c ++ w) < f' -> punct_loop stop elem f' acc (ts ++ c ++ w) = Ret (x, w))).
  { clear acc ts. induction f as [|f IH]; intros acc ts; [left; intros; exact I|]. destruct ts as [|t r].
    - right. exists [], acc. intros w f' Hw Hf. destruct (Hok w Hw) as (W & _). destruct f' as [|f']; [lia|].
      cbn [app punct_loop]. rewrite W. reflexivity.
    - destruct (stop (t :: r)) as [[|]|e'|] eqn:Es.
      + left. intros u f' Hf. destruct f' as [|f']; [lia|]. cbn [punct_loop]. rewrite Hs, Es. reflexivity.
      + assert (Hend : forall c x, (forall w, oke w -> elem ((t :: r) ++ c ++ w) = Ret (x, w)) ->
          forall w f', ok w -> List.length ((t :: r) ++ c ++ w) < f' ->
            punct_loop stop elem f' acc ((t :: r) ++ c ++ w) = Ret (pu_push acc x None, w)).
        { intros c x G w f' Hw Hf. destruct (Hok w Hw) as (W1 & W2 & W3 & W4). destruct f' as [|f']; [lia|].
          cbn [punct_loop]. rewrite Hs, Es. cbn [bind]. rewrite (G w W2). cbn [bind]. rewrite W3.
          destruct f' as [|f']; [exfalso; rewrite !app_length in Hf; destruct w; [congruence|simpl in Hf; lia]|].
          cbn [punct_loop]. rewrite W1. reflexivity. }
        destruct (He (t :: r)) as [G|(c & x & _ & G)].
        * unfold settled in G. destruct (elem (t :: r)) as [[x r1]|e'|] eqn:Ee; cbn [follows] in G.
          { destruct r1 as [|t1 r1].
            - right. exists [], (pu_push acc x None). apply (Hend [] x). intros w _. cbn [app]. apply (G w).
            - specialize (Hp _ _ _ Es Ee).
              assert (L : List.length (snd (consume_comma (t1 :: r1))) < List.length (t :: r)).
              { pose proof (consume_punct_length "," (t1 :: r1)) as L. unfold consume_comma.
                destruct (consume_punct "," (t1 :: r1)). simpl in *. lia. }
              pose proof (fun u => punct_looks "," t1 r1 u) as Q. fold consume_comma in Q.
              destruct (consume_comma (t1 :: r1)) as [cm r2] eqn:Ec. cbn [fst snd] in *.
              destruct (IH (pu_push acc x cm) r2) as [I2|(c & y & I2)].
              + left. intros u f' Hf. destruct f' as [|f']; [lia|]. cbn [punct_loop]. rewrite Hs, Es. cbn [bind].
                rewrite Ee. cbn [bind]. rewrite (G u). cbn [bind]. change (t1 :: r1 ++ u) with ((t1 :: r1) ++ u).
                rewrite Q, Ec. apply I2. lia.
              + right. exists c, y. intros w f' Hw Hf. destruct f' as [|f']; [lia|]. cbn [punct_loop]. rewrite Hs, Es. cbn [bind].
                rewrite (G (c ++ w)). cbn [bind]. change (t1 :: r1 ++ c ++ w) with ((t1 :: r1) ++ c ++ w). rewrite Q.
                apply I2; auto. rewrite app_length in *. lia. }
          { left. intros u f' Hf. destruct f' as [|f']; [lia|]. cbn [punct_loop]. rewrite Hs, Es. cbn [bind]. rewrite Ee, (G u). reflexivity. }
          { left. intros u f' Hf. cbn [punct_loop]. rewrite Es. cbn [bind]. rewrite Ee. exact I. }
        * right. exists c, (pu_push acc x None). apply (Hend c x G).
      + left. intros u f' Hf. destruct f' as [|f']; [lia|]. cbn [punct_loop]. rewrite Hs, Es. reflexivity.
      + left. intros u f' Hf. cbn [punct_loop]. rewrite Es. exact I. }
  destruct (K (loop_fuel ts) acc ts) as [G|(c & x & G)].
  - left. intro u. apply G. unfold loop_fuel. rewrite app_length. lia.
  - right. exists c, x. split; [exact I|]. intros w Hw. apply G; auto.
Qed.

Ltac opened c := exists c; eexists; split; [|intros ? ?; split; [first [exact I|reflexivity|eassumption]|reflexivity]]; exact I.

(** ** Bounds, generic parameters, where clauses *)
Lemma bound_lively P : P (word "x") = false -> lively any (starts (fun t => closes P false t && P t && negb (is_punct ":" t))) (consume_bound P).
Proof.
  intros HP [|t r].
  - right. exists [], None. split; [exact I|]. intros [|t w] H; [contradiction|]. cbn [starts] in H.
    apply andb_prop in H. destruct H as [H H3]. apply andb_prop in H. destruct H as [H1 H2]. cbn [app consume_bound]. rewrite H2.
    destruct t as [g|i|p|l]; try reflexivity. cbn [is_punct] in H3. destruct (p_is ":" p); [discriminate|reflexivity].
  - assert (O : (forall u, consume_bound P ((t :: r) ++ u) = if P t then Ret (None, (t :: r) ++ u) else Panic PBoundToken) ->
      settled (consume_bound P) (t :: r) \/ fills any (starts (fun t => closes P false t && P t && negb (is_punct ":" t))) (consume_bound P) (t :: r)).
    { intro E. left. intro u. pose proof (E []) as E0. rewrite app_nil_r in E0. rewrite E, E0. destruct (P t); reflexivity. }
    destruct t as [g|i|p|l]; try (apply O; reflexivity). destruct (p_is ":" p) eqn:Ep.
    + eapply (at_after any _ (consume_stuff_until P false) _ (fun b => Some (mkBound p b)) _ r).
      * intro u. cbn [app consume_bound]. rewrite Ep. reflexivity.
      * eapply at_weaken; [intros; exact I| |apply (until_lively P false HP r)]. apply starts_weaken.
        intros t H. apply andb_prop in H. destruct H as [H _]. apply andb_prop in H. tauto.
    + apply O. intro u. cbn [app consume_bound]. rewrite Ep. reflexivity.
Qed.
Definition after_generic : tok -> bool := fun t => is_punct "," t || is_punct ">" t.
Lemma is_punct_iff c t : is_punct c t = true <-> exists s sp, t = TPunct (mkPunct c s sp).
Proof.
  split.
  - destruct t as [g|i|[x s sp]|l]; try discriminate. cbn [is_punct]. unfold p_is. cbn [p_char]. intro H. apply Ascii.eqb_eq in H. subst. eauto.
  - intros (s & sp & ->). cbn. unfold p_is. cbn. apply Ascii.eqb_refl.
Qed.
Lemma is_group_iff d t : is_group d t = true <-> exists ts sp, t = TGroup (mkGroup d ts sp).
Proof.
  split.
  - destruct t as [[e ts sp]|i|p|l]; try discriminate. cbn. intro H. destruct d, e; try discriminate; eauto.
  - intros (ts & sp & ->). destruct d; reflexivity.
Qed.
(** The first token is known up to what the parsers do not look at. *)
Ltac heads H :=
  repeat match type of H with _ || _ = true => apply orb_prop in H; destruct H as [H|H] end;
  first [apply is_punct_iff in H|apply is_group_iff in H]; destruct H as (? & ? & ->); reflexivity.
Lemma generic_param_lively : lively any (starts after_generic) parse_generic_param.
Proof.
  set (k := fun '(prefix, ts) => do (name, ts) <- parse_any_ident "generic param name" ts ;;
    do (bound, ts) <- consume_bound end_generic_param ts ;; Ret (mkGenericParam prefix name bound, ts)).
  assert (K : forall x, lively any (starts after_generic) (fun ts => k (x, ts))).
  { intro x. unfold k. eapply lively_bind; [apply any_ident_lively| |].
    - intro name. eapply lively_bind; [apply bound_lively; reflexivity|intro; apply lively_ret|].
      intros b _. exists []. eexists. split; [exact I|]. intros w Hw. split; [|reflexivity]. revert Hw. apply starts_weaken.
      intros t H. unfold after_generic in H. heads H.
    - intros i _. exists []. eexists. split; [exact I|]. intros [|t w] Hw; [contradiction|]. split; [exact I|].
      unfold starts, after_generic in Hw. heads Hw. }
  intros [|t r].
  - right. exists [word "x"]. eexists. split; [exact I|]. intros [|t w] Hw; [contradiction|]. unfold starts, after_generic in Hw. heads Hw.
  - destruct t as [g|i|p|l].
    + eapply at_panic. reflexivity.
    + destruct (id_is "const" i) eqn:E.
      * apply (at_skip any _ (fun ts => k (Some (TIdent i), ts)) _ _ r); [|apply K]. intro u. unfold parse_generic_param. cbn [app].
        rewrite E. reflexivity.
      * apply (at_skip any _ (fun ts => k (None, ts)) _ _ (TIdent i :: r)); [|apply K]. intro u. unfold parse_generic_param. cbn [app].
        rewrite E. reflexivity.
    + destruct (p_is "'" p) eqn:E.
      * apply (at_skip any _ (fun ts => k (Some (TPunct p), ts)) _ _ r); [|apply K]. intro u. unfold parse_generic_param. cbn [app].
        rewrite E. reflexivity.
      * eapply at_panic. intro u. unfold parse_generic_param. cbn [app]. rewrite E. reflexivity.
    + eapply at_panic. reflexivity.
Qed.
Lemma generics_lively : lively any every consume_generic_params.
Proof.
  intros [|t r].
  - right. filled [mark "<"; mark ">"].
  - assert (O : (forall u, consume_generic_params ((t :: r) ++ u) = Ret (None, (t :: r) ++ u)) ->
      settled consume_generic_params (t :: r) \/ fills any every consume_generic_params (t :: r)).
    { intro E. left. intro u. pose proof (E []) as E0. rewrite app_nil_r in E0. rewrite E, E0. reflexivity. }
    destruct t as [g|i|p|l]; try (apply O; reflexivity). destruct (p_is "<" p) eqn:Ep.
    + eapply at_skip; [|eapply (at_bind any any (starts (is_punct ">")) every
        (fun ts => punct_loop stop_generic_params parse_generic_param (loop_fuel ts) pu_new ts)
        (fun '(params, ts) => match ts with
          | TPunct r :: ts => Ret (Some (mkGenericParamList p params r), ts) | _ => Panic PUnreachable end) r)].
      * intro u. unfold consume_generic_params. cbn [app consume_punct]. rewrite Ep. reflexivity.
      * apply (loop_lively _ _ any _ (starts after_generic) PGenericParamsEnd); [reflexivity|reflexivity| |apply generic_param_lively|].
        { intros [|t w] Hw; [contradiction|]. cbn [starts] in Hw. apply is_punct_iff in Hw. destruct Hw as (s & sp & ->).
          repeat split. discriminate. }
        intros ts' x rest Hs H. apply generic_param_sound in H; auto. destruct H as (c & -> & -> & _).
        apply length_lt. unfold print_generic_param. intro H. apply app_eq_nil in H. destruct H; discriminate.
      * intros ps [|[g|i|q|l] r'].
        { right. filled [mark ">"]. }
        { eapply at_panic. reflexivity. }
        { eapply at_panic. reflexivity. }
        { left. intro u. reflexivity. }
        { eapply at_panic. reflexivity. }
      * intros ps _. opened [mark ">"].
    + apply O. intro u. unfold consume_generic_params. cbn [app consume_punct]. rewrite Ep. reflexivity.
Qed.

(** A where clause ends in front of a brace group or a semicolon. *)
Definition after_where : tok -> bool := fun t => is_group Brace t || is_punct ";" t.
Lemma where_predicate_lively : lively any (starts after_where) parse_where_predicate.
Proof.
  unfold parse_where_predicate. eapply lively_bind; [apply (until_lively _ false); reflexivity| |].
  - intros lhs [|[g|i|p|l] r].
    + right. exists [mark ":"]. eexists. split; [exact I|]. intros [|t w] Hw; [contradiction|]. unfold starts, after_where in Hw. heads Hw.
    + eapply at_panic. reflexivity.
    + eapply at_panic. reflexivity.
    + destruct (p_is ":" p) eqn:Ep.
      * eapply (at_after any _ (consume_stuff_until end_where_bound true) _ (fun b => mkWherePredicate lhs (mkBound p b)) _ r).
        { intro u. cbn [app]. rewrite Ep. reflexivity. }
        eapply at_weaken; [intros; exact I| |apply (until_lively end_where_bound true eq_refl r)]. apply starts_weaken.
        intros t H. unfold after_where in H. heads H.
      * eapply at_panic. intro u. cbn [app]. rewrite Ep. reflexivity.
    + eapply at_panic. reflexivity.
  - intros lhs _. exists [mark ":"]. eexists. split; [exact I|]. intros [|t w] Hw; [contradiction|]. split; [reflexivity|].
    unfold starts, after_where in Hw. heads Hw.
Qed.
Lemma where_lively : lively any (starts after_where) consume_where_clause.
Proof.
  intros [|t r].
  - right. exists []. eexists. split; [exact I|]. intros [|t w] Hw; [contradiction|]. unfold starts, after_where in Hw. heads Hw.
  - assert (O : (forall u, consume_where_clause ((t :: r) ++ u) = Ret (None, (t :: r) ++ u)) ->
      settled consume_where_clause (t :: r) \/ fills any (starts after_where) consume_where_clause (t :: r)).
    { intro E. left. intro u. pose proof (E []) as E0. rewrite app_nil_r in E0. rewrite E, E0. reflexivity. }
    destruct t as [g|i|p|l]; try (apply O; reflexivity). destruct (id_is "where" i) eqn:Ep.
    + eapply (at_after any _ (fun ts => punct_loop stop_where parse_where_predicate (loop_fuel ts) pu_new ts) _
        (fun items => Some (mkWhereClause i items)) _ r).
      * intro u. unfold consume_where_clause. cbn [app consume_ident]. rewrite Ep. reflexivity.
      * eapply at_weaken; [intros; exact I|intros w Hw; exact Hw|].
        apply (loop_lively _ _ any (starts after_where) (starts after_where) PWhereEnd);
          [reflexivity|reflexivity| |apply where_predicate_lively|].
        { intros [|t w] Hw; [contradiction|]. split; [|split; [exact Hw|split; [|discriminate]]];
            unfold starts, after_where in Hw; heads Hw. }
        intros ts' x rest Hs H. apply where_predicate_sound in H; auto. destruct H as (c & -> & -> & _).
        apply length_lt. unfold print_where_predicate, print_bound. intro H. apply app_eq_nil in H. destruct H; discriminate.
    + apply O. intro u. unfold consume_where_clause. cbn [app consume_ident]. rewrite Ep. reflexivity.
Qed.

(** ** Functions *)
Lemma fn_parens_lively : lively any every parse_fn_parens.
Proof.
  intros [|[g|i|p|l] r].
  - right. filled [block Parenthesis].
  - left. intro u. cbn [parse_fn_parens app]. destruct (delim_eqb (g_delim g) Parenthesis); [|reflexivity].
    destruct (parse_fn_params (g_stream g)); reflexivity.
  - eapply at_panic. reflexivity.
  - eapply at_panic. reflexivity.
  - eapply at_panic. reflexivity.
Qed.
Lemma fn_return_lively : lively any (starts after_where) consume_fn_return.
Proof.
  intros [|t r].
  - right. exists []. eexists. split; [exact I|]. intros [|t w] Hw; [contradiction|]. unfold starts, after_where in Hw. heads Hw.
  - destruct t as [g|i|p|l]; try (left; intro u; reflexivity). destruct (p_is "-" p) eqn:Ep.
    + destruct r as [|[g|i|q|l] r].
      * right. exists [mark ">"]. eexists. split; [exact I|]. intros [|t w] Hw; [contradiction|]. unfold consume_fn_return.
        cbn [app consume_punct]. rewrite Ep. unfold starts, after_where in Hw. heads Hw.
      * eapply at_panic. intro u. unfold consume_fn_return. cbn [app consume_punct]. rewrite Ep. reflexivity.
      * eapply at_panic. intro u. unfold consume_fn_return. cbn [app consume_punct]. rewrite Ep. reflexivity.
      * destruct (p_is ">" q) eqn:Eq.
        { eapply (at_after any _ (consume_stuff_until end_fn_return true) _ (fun ty => Some ((p, q), mkTypeExpr ty)) _ r).
          - intro u. unfold consume_fn_return. cbn [app consume_punct]. rewrite Ep, Eq. reflexivity.
          - eapply at_weaken; [intros; exact I| |apply (until_lively end_fn_return true eq_refl r)]. apply starts_weaken.
            intros t H. unfold after_where in H. heads H. }
        eapply at_panic. intro u. unfold consume_fn_return. cbn [app consume_punct]. rewrite Ep, Eq. reflexivity.
      * eapply at_panic. intro u. unfold consume_fn_return. cbn [app consume_punct]. rewrite Ep. reflexivity.
    + left. intro u. unfold consume_fn_return. cbn [app consume_punct]. rewrite Ep. reflexivity.
Qed.
Lemma fn_body_lively : lively any every parse_fn_body.
Proof.
  intros [|[g|i|p|l] r].
  - right. filled [mark ";"].
  - left. intro u. cbn [parse_fn_body app]. destruct (delim_eqb (g_delim g) Brace); reflexivity.
  - eapply at_panic. reflexivity.
  - left. intro u. cbn [parse_fn_body app]. destruct (p_is ";" p); reflexivity.
  - eapply at_panic. reflexivity.
Qed.
Definition fn_rest attrs vis (q : fn_qualifiers) (kw : ident) : parser function := fun ts =>
  do (name, ts) <- consume_item_name ts ;;
  do (generics, ts) <- consume_generic_params ts ;;
  do (params, ts) <- parse_fn_parens ts ;;
  do (ret, ts) <- consume_fn_return ts ;;
  do (wh, ts) <- consume_where_clause ts ;;
  do (body, ts) <- parse_fn_body ts ;;
  Ret (mkFunction attrs vis q kw name generics (snd params) (fst params) wh
         (option_map fst ret) (option_map snd ret) (snd body) (fst body), ts).
Ltac seq L := eapply lively_bind; [apply L|intro|].
Lemma fn_rest_lively attrs vis q kw : lively any every (fn_rest attrs vis q kw).
Proof.
  unfold fn_rest. seq item_name_lively; [|intros; opened [block Parenthesis; mark ";"]].
  seq generics_lively; [|intros; opened [block Parenthesis; mark ";"]]. seq fn_parens_lively; [|intros; opened [mark ";"]].
  seq fn_return_lively; [|intros; opened [mark ";"]]. seq where_lively; [|intros; opened [mark ";"]].
  seq fn_body_lively; [|intros; opened (@nil tok)]. apply lively_ret.
Qed.

(** ** Simple items *)
Lemma constant_lively attrs vis : lively any every (parse_const_or_static attrs vis).
Proof.
  set (k := fun kw m ts => do (name, ts) <- parse_any_ident "const/static" ts ;;
    do (colon, ts) <- parse_punct ":" "const/static" ts ;;
    do (ty, ts) <- consume_stuff_until end_eq_or_semi true ts ;;
    let (equals, ts) := consume_punct "=" ts in
    do (value, ts) <- consume_stuff_until end_semi true ts ;;
    let init := match value with [] => None | _ :: _ => Some (mkValueExpr value) end in
    do (semi, ts) <- parse_punct ";" "const/static" ts ;;
    Ret (mkConstant attrs vis kw m name colon (mkTypeExpr ty) equals init semi, ts)).
  assert (K : forall kw m, lively any every (k kw m)).
  { intros kw m. unfold k. seq any_ident_lively; [|intros; opened [mark ":"; mark ";"]].
    seq punct_lively; [|intros; opened [mark ";"]]. seq (until_lively end_eq_or_semi true eq_refl); [|intros; opened [mark ";"]].
    apply lively_let; [apply punct_looks| |filled [mark ";"]]. intro eq.
    seq (until_lively end_semi true eq_refl); [|intros; opened [mark ";"]]. cbv zeta.
    seq punct_lively; [|intros; opened (@nil tok)]. apply lively_ret. }
  intros [|t r].
  - right. filled [word "static"; word "x"; mark ":"; mark ";"].
  - destruct t as [g|i|p|l]; try (eapply at_panic; reflexivity).
    assert (H : id_is "const" i = true \/ id_is "const" i = false /\ id_is "static" i = true \/ id_is "const" i = false /\ id_is "static" i = false)
      by (destruct (id_is "const" i), (id_is "static" i); auto).
    assert (C : forall b : bool, (forall ts, parse_const_or_static attrs vis (TIdent i :: ts) =
        do m <- match ts with TIdent i :: _ => if id_is "mut" i then (if b : bool then Panic PConstMut else Ret (Some i)) else Ret None
                | _ => Ret None end ;; k i m ts) ->
      settled (parse_const_or_static attrs vis) (TIdent i :: r) \/ fills any every (parse_const_or_static attrs vis) (TIdent i :: r)).
    { intros b E. destruct r as [|t r].
      - right. exists [word "x"; mark ":"; mark ";"]. eexists. split; [exact I|]. intros w _. cbn [app]. rewrite E. reflexivity.
      - destruct t as [g|j|p|l].
        + eapply at_panic. intro u. cbn [app]. rewrite E. reflexivity.
        + destruct (id_is "mut" j) eqn:Em.
          * destruct b.
            { eapply at_panic. intro u. cbn [app]. rewrite E, Em. reflexivity. }
            apply (at_skip any _ (k i (Some j)) _ _ (TIdent j :: r)); [|apply K]. intro u. cbn [app]. rewrite E, Em. reflexivity.
          * apply (at_skip any _ (k i None) _ _ (TIdent j :: r)); [|apply K]. intro u. cbn [app]. rewrite E, Em. reflexivity.
        + eapply at_panic. intro u. cbn [app]. rewrite E. reflexivity.
        + eapply at_panic. intro u. cbn [app]. rewrite E. reflexivity. }
    destruct H as [H|[[H1 H2]|[H1 H2]]].
    + apply (C true). intro ts. unfold parse_const_or_static. rewrite H. reflexivity.
    + apply (C false). intro ts. unfold parse_const_or_static. rewrite H1, H2. reflexivity.
    + eapply at_panic. intro u. unfold parse_const_or_static. cbn [app]. rewrite H1, H2. reflexivity.
Qed.
Lemma type_alias_lively attrs vis : lively (fun t => t <> None) every (consume_ty_definition attrs vis).
Proof.
  unfold consume_ty_definition.
  seq keyword_lively; [|intros; exists [word "x"; mark ";"]; eexists; split; [|intros; split; [exact I|reflexivity]]; discriminate].
  seq any_ident_lively; [|intros; exists [mark ";"]; eexists; split; [|intros; split; [exact I|reflexivity]]; discriminate].
  seq (bound_lively end_eq_or_semi eq_refl).
  2: { intros. exists [mark ";"]. eexists. split; [|intros; split; reflexivity]. discriminate. }
  apply lively_let; [apply punct_looks| |].
  2: { exists [mark ";"]. eexists. split; [|intros; reflexivity]. discriminate. }
  intros [e|].
  - apply (lively_bind any _ (starts (closes end_semi true)) _
      (fun ts => do (ty, ts) <- consume_stuff_until end_semi true ts ;; Ret (Some (mkTypeExpr ty), ts))).
    + seq (until_lively end_semi true eq_refl); [apply lively_ret|]. intros ty _. exists []. eexists. split; [exact I|].
      intros w Hw. split; [exact Hw|reflexivity].
    + intro. seq punct_lively; [apply lively_ret|]. intros. exists []. eexists. split; [|intros; split; [exact I|reflexivity]]. discriminate.
    + intros. exists [mark ";"]. eexists. split; [|intros; split; reflexivity]. discriminate.
  - apply (lively_bind any _ every _ (fun ts => Ret (None, ts))); [apply lively_ret| |].
    + intro. seq punct_lively; [apply lively_ret|]. intros. exists []. eexists. split; [|intros; split; [exact I|reflexivity]]. discriminate.
    + intros. exists [mark ";"]. eexists. split; [|intros; split; [exact I|reflexivity]]. discriminate.
Qed.
Lemma use_lively attrs vis : lively any every (parse_use_declaration attrs vis).
Proof.
  unfold parse_use_declaration. seq keyword_lively; [|intros; opened [mark ";"]].
  seq (until_lively end_semi true eq_refl); [|intros; opened [mark ";"]]. seq punct_lively; [|intros; opened (@nil tok)]. apply lively_ret.
Qed.
Lemma extern_crate_lively attrs vis : lively any every (parse_extern_crate attrs vis).
Proof.
  set (k := fun kw kw2 ts => do (name, ts) <- parse_any_ident "extern crate" ts ;;
          let (tk_as, ts) := consume_ident "as" ts in
          do (alias, ts) <-
            match tk_as with
            | Some _ => do (a, ts) <- parse_any_ident "extern crate: alias" ts ;; Ret (Some a, ts)
            | None => Ret (None, ts)
            end ;;
          do (semi, ts) <- parse_punct ";" "extern crate" ts ;;
          Ret (mkExternCrate attrs vis kw kw2 name tk_as alias None semi, ts)).
  assert (K : forall kw kw2, lively any every (k kw kw2)).
  { intros kw kw2. unfold k. seq any_ident_lively; [|intros; opened [mark ";"]].
    apply lively_let; [apply ident_looks| |filled [mark ";"]]. intros [a|].
    - apply (lively_bind any _ every _ (fun ts => do (a, ts) <- parse_any_ident "extern crate: alias" ts ;; Ret (Some a, ts))).
      + seq any_ident_lively; [apply lively_ret|]. intros; opened (@nil tok).
      + intro. seq punct_lively; [apply lively_ret|]. intros; opened (@nil tok).
      + intros. opened [mark ";"].
    - apply (lively_bind any _ every _ (fun ts => Ret (None, ts))); [apply lively_ret| |].
      + intro. seq punct_lively; [apply lively_ret|]. intros; opened (@nil tok).
      + intros. opened [mark ";"]. }
  intros [|t r].
  { right. filled [word "extern"; word "crate"; word "x"; mark ";"]. }
  destruct t as [g|i|p|l]; try (eapply at_panic; reflexivity). destruct (id_is "extern" i) eqn:E1.
  2: { eapply at_panic. intro u. unfold parse_extern_crate, consume_extern_crate. cbn [consume_ident app]. rewrite E1. reflexivity. }
  destruct r as [|t r].
  { right. exists [word "crate"; word "x"; mark ";"]. eexists. split; [exact I|]. intros w _. unfold parse_extern_crate, consume_extern_crate.
    cbn [consume_ident app]. rewrite E1. reflexivity. }
  destruct t as [g|j|p|l];
    try (eapply at_panic; intro u; unfold parse_extern_crate, consume_extern_crate; cbn [consume_ident app]; rewrite E1; reflexivity).
  destruct (id_is "crate" j) eqn:E2.
  2: { eapply at_panic. intro u. unfold parse_extern_crate, consume_extern_crate. cbn [consume_ident app]. rewrite E1. cbn [consume_ident].
       rewrite E2. reflexivity. }
  apply (at_skip any _ (k i j) _ _ r); [|apply K]. intro u. unfold parse_extern_crate, consume_extern_crate, k.
  cbn [consume_ident app]. rewrite E1. cbn [consume_ident]. rewrite E2.
  destruct (parse_any_ident _ (r ++ u)) as [[name t1]|e|]; cbn [bind]; try reflexivity.
  destruct (consume_ident "as" t1) as [[a|] t2]; cbn [bind].
  - destruct (parse_any_ident _ t2) as [[al t3]|e|]; cbn [bind]; try reflexivity.
    destruct (parse_punct _ _ t3) as [[s t4]|e|]; reflexivity.
  - destruct (parse_punct _ _ t2) as [[s t4]|e|]; reflexivity.
Qed.
Lemma item_macro_lively attrs : lively any every (parse_item_macro attrs).
Proof.
  intros [|t r].
  { right. filled [word "x"; mark "!"; block Brace]. }
  destruct t as [g|i|p|l]; try (eapply at_panic; reflexivity). destruct r as [|t r].
  { right. filled [mark "!"; block Brace]. }
  destruct t as [g|j|p|l]; try (eapply at_panic; reflexivity). destruct (p_is "!" p) eqn:Ep.
  2: { eapply at_panic. intro u. unfold parse_item_macro, consume_macro, consume_macro_inner. cbn [consume_any_ident consume_punct app].
       rewrite Ep. reflexivity. }
  set (body := fun (declared : option ident) (ts : list tok) => match ts with
          | [] => Panic PMacroEnd
          | TGroup g :: ts =>
              if delim_eqb (g_delim g) Parenthesis then
                do (semi, ts) <- parse_punct ";" "macro invocation semicolon" ts ;;
                Ret (IMacro (mkMacro attrs i p declared (group_span_new g) (g_stream g) (Some semi)), ts)
              else if delim_eqb (g_delim g) Brace then
                Ret (IMacro (mkMacro attrs i p declared (group_span_new g) (g_stream g) None), ts)
              else Panic PMacroBody
          | _ => Panic PMacroBody end).
  apply (at_skip any _ (fun ts => let (declared, ts) := consume_any_ident ts in body declared ts) _ _ r).
  { intro u. unfold parse_item_macro, consume_macro, consume_macro_inner. cbn [consume_any_ident consume_punct app]. rewrite Ep. unfold body.
    destruct (consume_any_ident (r ++ u)) as [d [|[g|j|q|l] ts]]; try reflexivity.
    destruct (delim_eqb (g_delim g) Parenthesis); [|destruct (delim_eqb (g_delim g) Brace); reflexivity].
    destruct (parse_punct _ _ ts) as [[s t1]|e|]; reflexivity. }
  apply lively_let; [apply any_ident_looks| |filled [block Brace]]. intros d [|[g|j|q|l] ts].
  - right. filled [block Brace].
  - destruct (delim_eqb (g_delim g) Parenthesis) eqn:E1.
    + apply (at_after any _ (parse_punct ";" "macro invocation semicolon") _
        (fun s => IMacro (mkMacro attrs i p d (group_span_new g) (g_stream g) (Some s))) _ ts); [|apply punct_lively].
      intro u. unfold body. cbn [app]. rewrite E1. reflexivity.
    + left. intro u. unfold body. cbn [app]. rewrite E1. destruct (delim_eqb (g_delim g) Brace); reflexivity.
  - eapply at_panic. reflexivity.
  - eapply at_panic. reflexivity.
  - eapply at_panic. reflexivity.
Qed.
Lemma struct_lively attrs vis kw : lively any every (parse_struct attrs vis kw).
Proof.
  unfold parse_struct. seq item_name_lively; [|intros; opened [mark ";"]]. seq generics_lively; [|intros; opened [mark ";"]].
  eapply lively_bind; [apply where_lively|intro wh|intros; opened [mark ";"]].
  apply (lively_bind (fun fs => match fs with FNamed _ => True | _ => False end) _ every _ (fun ts => match ts with
    | [] => Panic PStructNoBody
    | TPunct p :: _ => if p_is ";" p then Ret (FUnit, ts) else Panic PStructToken
    | TGroup g :: r =>
        if delim_eqb (g_delim g) Parenthesis then do f <- parse_tuple_fields g ;; Ret (FTuple f, r)
        else if delim_eqb (g_delim g) Brace then do f <- parse_named_fields g ;; Ret (FNamed f, r)
        else Panic PStructToken
    | _ => Panic PStructToken
    end)).
  - intros [|[g|i|p|l] r].
    + right. filled [block Brace].
    + left. intro u. cbn [app]. destruct (delim_eqb (g_delim g) Parenthesis); [destruct (parse_tuple_fields g); reflexivity|].
      destruct (delim_eqb (g_delim g) Brace); [destruct (parse_named_fields g)|]; reflexivity.
    + eapply at_panic. reflexivity.
    + left. intro u. cbn [app]. destruct (p_is ";" p); reflexivity.
    + eapply at_panic. reflexivity.
  - intro fs. apply (lively_bind any _ (starts after_where) _ (fun ts => match fs with
      | FTuple _ => match wh with Some _ => Panic PAssertTupleWhere | None => consume_where_clause ts end
      | _ => Ret (wh, ts) end)).
    + destruct fs; try apply lively_ret. destruct wh; [intro; eapply at_panic; reflexivity|apply where_lively].
    + intro. apply lively_let; [apply punct_looks|intro; apply lively_ret|filled [mark ";"]].
    + intros. opened [mark ";"].
  - intros [|f|f] Hf; try contradiction. opened [mark ";"].
Qed.
Lemma enum_lively attrs vis kw : lively is_ok every (parse_enum attrs vis kw).
Proof.
  unfold parse_enum. seq item_name_lively; [|intros; opened [block Brace]]. seq generics_lively; [|intros; opened [block Brace]].
  seq where_lively; [|intros; opened [block Brace]]. intros [|[g|i|p|l] r].
  - right. filled [block Brace].
  - left. intro u. cbn [app]. destruct (delim_eqb (g_delim g) Brace); [|reflexivity]. destruct (parse_enum_variants (g_stream g)) as [[]| |]; reflexivity.
  - eapply at_panic. reflexivity.
  - eapply at_panic. reflexivity.
  - eapply at_panic. reflexivity.
Qed.
Lemma union_lively attrs vis kw : lively any every (parse_union attrs vis kw).
Proof.
  unfold parse_union. seq item_name_lively; [|intros; opened [block Brace]]. seq generics_lively; [|intros; opened [block Brace]].
  seq where_lively; [|intros; opened [block Brace]]. intros [|[g|i|p|l] r].
  - right. filled [block Brace].
  - left. intro u. cbn [app]. destruct (delim_eqb (g_delim g) Brace); [|reflexivity]. destruct (parse_named_fields g); reflexivity.
  - eapply at_panic. reflexivity.
  - eapply at_panic. reflexivity.
  - eapply at_panic. reflexivity.
Qed.

(** The words in front of [fn]: when they reach the end, [fn] can follow. *)
Lemma qualifiers_end w : forall ts q, consume_fn_qualifiers ts = (q, []) ->
  consume_fn_qualifiers (ts ++ word "fn" :: w) = (q, word "fn" :: w).
Proof.
  set (Q := fun A (f : list tok -> A * list tok) => forall ts x, f ts = (x, []) -> f (ts ++ word "fn" :: w) = (x, word "fn" :: w)).
  assert (G : forall A B (f : list tok -> A * list tok) (k : A -> list tok -> B * list tok), looks f -> snd (f []) = [] -> Q A f ->
    (forall x, Q B (k x)) -> Q B (fun ts => let (x, r) := f ts in k x r)).
  { intros A B f k Hl H0 Hf Hk ts y H. destruct ts as [|t r0].
    - specialize (Hf []). destruct (f []) as [x r]. cbn [snd] in H0. subst r. rewrite (Hf x eq_refl). apply (Hk x []). exact H.
    - specialize (Hf (t :: r0)). pose proof (Hl t r0 (word "fn" :: w)) as L. destruct (f (t :: r0)) as [x [|t1 r]].
      + rewrite (Hf x eq_refl). apply (Hk x []). exact H.
      + rewrite L. cbn [fst snd]. apply Hk. exact H. }
  assert (QI : forall s, id_is s (mkIdent "fn" call_site) = false -> Q _ (consume_ident s)).
  { intros s Hs ts x H. destruct ts as [|[g|i|p|l] r]; cbn [consume_ident app] in *; try discriminate.
    - injection H as <-. unfold word. rewrite Hs. reflexivity.
    - destruct (id_is s i); [|discriminate]. injection H as <- ->. reflexivity. }
  assert (QR : forall A (y : A), Q _ (fun ts => (y, ts))) by (intros A y ts x H; injection H as <- ->; reflexivity).
  assert (QL : Q _ consume_literal).
  { intros ts x H. destruct ts as [|[g|i|p|l] r]; cbn [consume_literal app] in *; try discriminate; injection H; intros; subst; reflexivity. }
  enough (K : Q _ consume_fn_qualifiers) by (intros; apply K; auto).
  unfold consume_fn_qualifiers. apply G; [apply ident_looks|reflexivity|apply QI; reflexivity|intro d].
  apply G; [apply ident_looks|reflexivity|apply QI; reflexivity|intro c]. apply G; [apply ident_looks|reflexivity|apply QI; reflexivity|intro a].
  apply G; [apply ident_looks|reflexivity|apply QI; reflexivity|intro u].
  set (k := fun (o : option ident) (ts : list tok) => match o with
    | Some e => let (abi, ts) := consume_literal ts in (mkFnQualifiers d c a u (Some e) abi, ts)
    | None => (mkFnQualifiers d c a u None None, ts) end).
  assert (K : Q _ (fun ts => let (o, r) := consume_ident "extern" ts in k o r)).
  { apply G; [apply ident_looks|reflexivity|apply QI; reflexivity|]. intros [e|]; unfold k; [|apply QR].
    apply G; [apply literal_looks|reflexivity|exact QL|]. intro. apply QR. }
  exact K.
Qed.

(** ** Attributes and visibilities *)
Definition is_word (t : tok) : bool := match t with TIdent i => negb (id_is "pub" i) | _ => false end.
Local Arguments consume_attributes_with_inner expect_inner !ts.
Lemma attributes_lively : lively any (starts is_word) consume_outer_attributes.
Proof.
  intro ts. remember (List.length ts) as n eqn:Hn. assert (Hl : List.length ts <= n) by lia. clear Hn. revert ts Hl.
  unfold consume_outer_attributes. induction n as [|n IH]; intros ts Hl.
  { destruct ts; [|simpl in Hl; lia]. right. exists [], []. split; [exact I|]. intros [|[g|i|p|l] w] Hw; try contradiction Hw; try discriminate Hw. reflexivity. }
  destruct ts as [|t r].
  { apply IH. simpl. lia. }
  destruct t as [g|i|p|l]; try (left; intro u; reflexivity). destruct (p_is "#" p) eqn:Ep.
  2: { left. intro u. cbn [app consume_attributes_with_inner]. rewrite Ep. reflexivity. }
  destruct r as [|t r].
  { right. exists [TGroup (mkGroup Bracket [word "x"] call_site)]. eexists. split; [exact I|].
    intros [|[g|i|q|l] w] Hw; try contradiction Hw; try discriminate Hw. cbn [app consume_attributes_with_inner]. rewrite Ep. reflexivity. }
  destruct t as [g|i|q|l];
    try (eapply at_panic; intro u; cbn [app consume_attributes_with_inner]; rewrite Ep; reflexivity).
  destruct (delim_eqb (g_delim g) Bracket) eqn:Eg.
  2: { eapply at_panic; intro u; cbn [app consume_attributes_with_inner]; rewrite Ep, Eg; reflexivity. }
  destruct (parse_attribute p None g) as [a|e|] eqn:Ea.
  - apply (at_after any _ (consume_attributes_with_inner false) _ (fun l => a :: l) _ r).
    + intro u. cbn [app]. cbn [consume_attributes_with_inner]. rewrite Ep, Eg, Ea. reflexivity.
    + eapply at_weaken; [intros; exact I|intros w Hw; exact Hw|]. apply IH. simpl in Hl. lia.
  - eapply at_panic. intro u. cbn [app consume_attributes_with_inner]. rewrite Ep, Eg, Ea. reflexivity.
  - left. intro u. cbn [app consume_attributes_with_inner]. rewrite Ep, Eg, Ea. exact I.
Qed.

(** ** Nested items *)
Section Lively.
Variable R : parser (result item error).
Variable E : list attribute -> option vis_marker -> parser item.

Lemma body_group_lively site bad : lively any every (parse_body_group E site bad).
Proof.
  intros [|[g|i|p|l] r].
  - right. filled [block Brace].
  - left. intro u. cbn [parse_body_group app]. destruct (delim_eqb (g_delim g) Brace); [|reflexivity]. destruct (parse_impl_body E g false); reflexivity.
  - eapply at_panic. reflexivity.
  - eapply at_panic. reflexivity.
  - eapply at_panic. reflexivity.
Qed.
Lemma trait_lively attrs vis : lively any every (parse_trait E attrs vis).
Proof.
  unfold parse_trait. apply lively_let; [apply ident_looks| |filled [word "trait"; word "x"; block Brace]]. intro un.
  seq keyword_lively; [|intros; opened [word "x"; block Brace]]. seq any_ident_lively; [|intros; opened [block Brace]].
  seq generics_lively; [|intros; opened [block Brace]]. seq (bound_lively end_trait_bound eq_refl); [|intros; opened [block Brace]].
  seq where_lively; [|intros; opened [block Brace]]. seq body_group_lively; [|intros [[b i] l] _; opened (@nil tok)].
  match goal with x : _ * _ * _ |- _ => destruct x as [[? ?] ?] end. apply lively_ret.
Qed.
Lemma impl_lively attrs : lively any every (parse_impl E attrs).
Proof.
  unfold parse_impl. apply lively_let; [apply ident_looks| |filled [word "impl"; block Brace]]. intro un.
  seq keyword_lively; [|intros; opened [block Brace]]. seq generics_lively; [|intros; opened [block Brace]].
  eapply lively_bind; [apply (until_lively end_impl_ty true eq_refl)|intro ty1|intros; opened [block Brace]].
  set (k := fun (o : option ident) (ts : list tok) => match o with
    | Some tk_for => do (ty2, ts) <- consume_stuff_until end_impl_self_ty true ts ;;
        Ret ((Some tk_for, Some (mkTypeExpr ty1), mkTypeExpr ty2), ts)
    | None => Ret ((None, None, mkTypeExpr ty1), ts) end).
  apply (lively_bind any _ (starts (is_group Brace)) _ (fun ts => match consume_ident "for" ts with
    | (Some tk_for, ts) =>
        do (ty2, ts) <- consume_stuff_until end_impl_self_ty true ts ;;
        Ret ((Some tk_for, Some (mkTypeExpr ty1), mkTypeExpr ty2), ts)
    | (None, ts) => Ret ((None, None, mkTypeExpr ty1), ts)
    end)).
  - apply (lively_equal _ _ _ (fun ts => let (o, r) := consume_ident "for" ts in k o r)).
    { intro ts. unfold k. destruct (consume_ident "for" ts) as [[]]; reflexivity. }
    apply lively_let; [apply ident_looks| |].
    + intros [f|]; unfold k; [|apply lively_ret]. seq (until_lively end_impl_self_ty true eq_refl); [apply lively_ret|].
      intros ty2 _. exists []. eexists. split; [exact I|]. intros w Hw. split; [|reflexivity]. revert Hw. apply starts_weaken.
      intros t H. apply is_group_iff in H. destruct H as (? & ? & ->). reflexivity.
    + exists []. eexists. split; [exact I|]. intros [|t w] Hw; [contradiction|]. cbn [starts] in Hw.
      apply is_group_iff in Hw. destruct Hw as (? & ? & ->). reflexivity.
  - intros [[f tr] self]. seq where_lively; [|intros; opened [block Brace]].
    eapply lively_bind; [apply body_group_lively|intros [[b i] l]; apply lively_ret|intros [[b i] l] _; opened (@nil tok)].
  - intros [[f tr] self] _. opened [block Brace].
Qed.
Lemma mod_lively attrs vis : lively any every (parse_mod R attrs vis).
Proof.
  unfold parse_mod. apply lively_let; [apply ident_looks| |filled [word "mod"; word "x"; mark ";"]]. intro un.
  seq keyword_lively; [|intros; opened [word "x"; mark ";"]]. seq item_name_lively; [|intros; opened [mark ";"]].
  intros [|[g|i|p|l] r].
  - right. filled [mark ";"].
  - left. intro u. cbn [app]. destruct (delim_eqb (g_delim g) Brace); [|reflexivity].
    destruct (consume_inner_attributes (g_stream g)) as [[inner ts]| |]; cbn [bind]; try reflexivity.
    destruct (many_loop _ _ ts); reflexivity.
  - eapply at_panic. reflexivity.
  - left. intro u. cbn [app]. destruct (p_is ";" p); reflexivity.
  - eapply at_panic. reflexivity.
Qed.
Lemma extern_block_lively attrs vis : lively any every (parse_extern_block E attrs vis).
Proof.
  set (body := fun un kw (abi : option literal) (ts : list tok) => match ts with
      | TGroup g :: ts =>
          if delim_eqb (g_delim g) Brace then
            do (braces, inner, items) <- parse_impl_body E g true ;;
            Ret (mkExternBlock attrs vis un kw abi braces inner items, ts)
          else Panic PExternBlock
      | _ => Panic PExternBlock end).
  set (k := fun un (o : option ident) ts => match o with
    | None => Panic PExternBlock
    | Some kw => let (abi, ts) := consume_literal ts in body un kw abi ts end).
  apply (lively_equal _ _ _ (fun ts => let (un, ts) := consume_ident "unsafe" ts in
    let (o, ts) := consume_ident "extern" ts in k un o ts)).
  { intro ts. unfold parse_extern_block, consume_extern_block, k, body. destruct (consume_ident "unsafe" ts) as [un t1].
    destruct (consume_ident "extern" t1) as [[kw|] t2]; [|reflexivity]. destruct (consume_literal t2) as [abi [|[g|i|p|l] t3]]; try reflexivity.
    destruct (delim_eqb (g_delim g) Brace); [|reflexivity]. destruct (parse_impl_body E g true) as [[[a b] c]| |]; reflexivity. }
  apply lively_let; [apply ident_looks| |filled [word "extern"; block Brace]]. intro un.
  apply (lively_let _ _ (consume_ident "extern") (k un)); [apply ident_looks| |filled [word "extern"; block Brace]].
  intros [kw|]; unfold k; [|intro; eapply at_panic; reflexivity].
  apply lively_let; [apply literal_looks| |filled [block Brace]]. intros abi [|[g|i|p|l] r].
  - right. filled [block Brace].
  - left. intro u. unfold body. cbn [app]. destruct (delim_eqb (g_delim g) Brace); [|reflexivity].
    destruct (parse_impl_body E g true) as [[[a b] c]| |]; reflexivity.
  - eapply at_panic. reflexivity.
  - eapply at_panic. reflexivity.
  - eapply at_panic. reflexivity.
Qed.

Lemma wrap_lively {A} (c : A -> item) (p : parser A) ts : settled p ts \/ fills any every p ts ->
  settled (fun ts => wrap c (p ts)) ts \/ fills is_ok every (fun ts => wrap c (p ts)) ts.
Proof.
  intro H. apply (at_after is_ok every p _ (fun x => Ok (c x)) ts ts); [reflexivity|]. eapply at_weaken; [| |exact H]; auto.
Qed.
Lemma either_lively attrs vis i r : either_keyword i = true ->
  settled (consume_either R E attrs vis) (TIdent i :: r) \/ fills any every (consume_either R E attrs vis) (TIdent i :: r).
Proof.
  intro K. destruct (id_is "type" i) eqn:Et.
  { apply (at_skip any every (fun ts => do (t, ts) <- consume_ty_definition attrs vis ts ;;
        match t with Some t => Ret (ITypeAlias t, ts) | None => Panic (PUnwrapNone AtTypeAlias) end) _ _ (TIdent i :: r)).
    { intro u. cbn [app consume_either]. rewrite Et. reflexivity. }
    eapply lively_bind; [apply type_alias_lively| |].
    - intros [t|]; [apply lively_ret|]. intro ts. eapply at_panic. reflexivity.
    - intros [t|] Ht; [|congruence]. opened (@nil tok). }
  assert (F : fn_like_keyword i = true).
  { unfold either_keyword, fn_like_keyword in *. rewrite Et in K. destruct (id_is "static" i); rewrite ?orb_true_r, ?orb_false_r in *; auto. }
  set (alt := fun (nf : not_function) (ts : list tok) => match nf with
        | NFConst | NFStatic => do (c, ts) <- parse_const_or_static attrs vis ts ;; Ret (IConstant c, ts)
        | NFTrait => do (t, ts) <- parse_trait E attrs vis ts ;; Ret (ITrait t, ts)
        | NFImpl => do (i, ts) <- parse_impl E attrs ts ;; Ret (IImpl i, ts)
        | NFMod => do (m, ts) <- parse_mod R attrs vis ts ;; Ret (IModule m, ts)
        | NFExternBlock => do (b, ts) <- parse_extern_block E attrs vis ts ;; Ret (IExternBlock b, ts)
        | NFExternCrate => do (c, ts) <- parse_extern_crate attrs vis ts ;; Ret (IExternCrate c, ts)
        end).
  set (fn := fun q kw ts => do (f, ts) <- fn_rest attrs vis q kw ts ;; Ret (IFunction f, ts)).
  set (all := fun ts => let (q, t1) := consume_fn_qualifiers ts in
     do (kw, t2) <- classify_fn q t1 ;; match kw with Err nf => alt nf ts | Ok kw => fn q kw t2 end).
  assert (U : forall ts, consume_either R E attrs vis (TIdent i :: ts) = all (TIdent i :: ts)).
  { intro ts. cbn [consume_either]. rewrite Et, F. unfold all, consume_fn, fn, fn_rest. destruct (consume_fn_qualifiers (TIdent i :: ts)) as [q t1].
    destruct (classify_fn q t1) as [[[kw|nf] t2]|e|]; cbn [bind]; try reflexivity.
    destruct (consume_item_name t2) as [[name t3]| |]; cbn [bind]; try reflexivity.
    destruct (consume_generic_params t3) as [[gen t4]| |]; cbn [bind]; try reflexivity.
    destruct (parse_fn_parens t4) as [[ps t5]| |]; cbn [bind]; try reflexivity.
    destruct (consume_fn_return t5) as [[ret t6]| |]; cbn [bind]; try reflexivity.
    destruct (consume_where_clause t6) as [[wh t7]| |]; cbn [bind]; try reflexivity.
    destruct (parse_fn_body t7) as [[b t8]| |]; reflexivity. }
  apply (at_skip any every all _ _ (TIdent i :: r)); [intro u; apply (U (r ++ u))|]. clear U.
  assert (Q0 : forall q, classify_fn q [] = Panic PFnKeyword) by reflexivity.
  destruct (consume_fn_qualifiers (TIdent i :: r)) as [q t1] eqn:Eq. destruct t1 as [|t1 r1].
  - right. exists [word "fn"; word "x"; block Parenthesis; mark ";"]. eexists. split; [exact I|]. intros w _.
    unfold all. cbn [app]. pose proof (qualifiers_end (word "x" :: block Parenthesis :: mark ";" :: w) _ _ Eq) as L. cbn [app] in L. rewrite L.
    reflexivity.
  - assert (L : forall u, consume_fn_qualifiers ((TIdent i :: r) ++ u) = (q, (t1 :: r1) ++ u)).
    { intro u. destruct (proj1 qualifiers_reads (TIdent i) r u) as [X|X]; rewrite Eq in X; [discriminate|exact X]. }
    assert (C : forall u, follows u (classify_fn q (t1 :: r1)) (classify_fn q ((t1 :: r1) ++ u))).
    { intro u. cbn [classify_fn app]. cbv zeta. destruct t1 as [g|j|p|l];
        repeat match goal with |- context [if ?b then _ else _] => destruct b end; reflexivity. }
    destruct (classify_fn q (t1 :: r1)) as [[[kw|nf] t2]|e|] eqn:Ec; cbn [follows] in C.
    + apply (at_skip any every (fn q kw) _ _ t2).
      { intro u. unfold all. rewrite L, C. reflexivity. }
      apply (at_after any every (fn_rest attrs vis q kw) _ IFunction t2 t2); [reflexivity|]. apply fn_rest_lively.
    + apply (at_skip any every (alt nf) _ _ (TIdent i :: r)).
      { intro u. unfold all. rewrite L, C. reflexivity. }
      destruct nf; (eapply (at_after any every); [unfold alt; reflexivity|]).
      * apply constant_lively.
      * apply constant_lively.
      * apply trait_lively.
      * apply impl_lively.
      * apply mod_lively.
      * apply extern_crate_lively.
      * apply extern_block_lively.
    + eapply at_panic. intro u. unfold all. rewrite L, C. reflexivity.
    + left. intro u. unfold all. rewrite Eq, Ec. exact I.
Qed.
Lemma item_body_lively : lively is_ok done (consume_item_body R E).
Proof.
  unfold consume_item_body. eapply lively_bind; [apply attributes_lively|intro attrs|].
  2: { intros attrs _. exists [word "struct"; word "x"; mark ";"]. eexists. split; [|intros w ->; split; reflexivity]. exact I. }
  set (k := fun vis (ts : list tok) => match ts with
    | [] => Panic PEndOfStream
    | TIdent kw :: r =>
      if id_is "struct" kw then wrap IStruct (parse_struct attrs vis kw r)
      else if id_is "enum" kw then
        do (e, ts) <- parse_enum attrs vis kw r ;;
        match e with Ok e => Ret (Ok (IEnum e), ts) | Err er => Ret (Err er, ts) end
      else if id_is "union" kw then wrap IUnion (parse_union attrs vis kw r)
      else if id_is "mod" kw then wrap IModule (parse_mod R attrs vis ts)
      else if id_is "trait" kw then wrap ITrait (parse_trait E attrs vis ts)
      else if id_is "impl" kw then wrap IImpl (parse_impl E attrs ts)
      else if id_is "static" kw then wrap IConstant (parse_const_or_static attrs vis ts)
      else if id_is "use" kw then wrap IUse (parse_use_declaration attrs vis ts)
      else if either_keyword kw then wrap (fun i => i) (consume_either R E attrs vis ts)
      else wrap (fun i => i) (parse_item_macro attrs ts)
    | _ => wrap (fun i => i) (parse_item_macro attrs ts)
    end).
  assert (D : forall (p : parser (result item error)) ts, settled p ts \/ fills is_ok every p ts -> settled p ts \/ fills is_ok done p ts).
  { intros p ts. apply at_weaken; auto. intros; exact I. }
  assert (H : forall vis, lively is_ok done (k vis)).
  { intros vis [|[g|kw|p|l] r].
    - right. exists [word "struct"; word "x"; mark ";"]. eexists. split; [|intros w ->; reflexivity]. exact I.
    - apply D. eapply at_skip; [|apply (wrap_lively (fun i => i) (parse_item_macro attrs) (TGroup g :: r) (item_macro_lively attrs _))]. reflexivity.
    - apply D. destruct (id_is "struct" kw) eqn:E1.
      { eapply at_skip; [|apply (wrap_lively IStruct _ r (struct_lively attrs vis kw _))]. intro u. unfold k. cbn [app]. rewrite E1. reflexivity. }
      destruct (id_is "enum" kw) eqn:E2.
      { eapply (at_skip is_ok every (fun r => do (e, ts) <- parse_enum attrs vis kw r ;;
          match e with Ok e => Ret (Ok (IEnum e), ts) | Err er => Ret (Err er, ts) end) _ _ r).
        - intro u. unfold k. cbn [app]. rewrite E1, E2. reflexivity.
        - apply (at_after is_ok every (parse_enum attrs vis kw) _ (fun e => match e with Ok e => Ok (IEnum e) | Err er => Err er end) r r).
          + intro u. destruct (parse_enum attrs vis kw (r ++ u)) as [[[] ?]| |]; reflexivity.
          + eapply at_weaken; [| |apply enum_lively]; auto. intros []; auto. }
      destruct (id_is "union" kw) eqn:E3.
      { eapply at_skip; [|apply (wrap_lively IUnion _ r (union_lively attrs vis kw _))]. intro u. unfold k. cbn [app]. rewrite E1, E2, E3. reflexivity. }
      destruct (id_is "mod" kw) eqn:E4.
      { eapply at_skip; [|apply (wrap_lively IModule _ (TIdent kw :: r) (mod_lively attrs vis _))]. intro u. unfold k. cbn [app].
        rewrite E1, E2, E3, E4. reflexivity. }
      destruct (id_is "trait" kw) eqn:E5.
      { eapply at_skip; [|apply (wrap_lively ITrait _ (TIdent kw :: r) (trait_lively attrs vis _))]. intro u. unfold k. cbn [app].
        rewrite E1, E2, E3, E4, E5. reflexivity. }
      destruct (id_is "impl" kw) eqn:E6.
      { eapply at_skip; [|apply (wrap_lively IImpl _ (TIdent kw :: r) (impl_lively attrs _))]. intro u. unfold k. cbn [app].
        rewrite E1, E2, E3, E4, E5, E6. reflexivity. }
      destruct (id_is "static" kw) eqn:E7.
      { eapply at_skip; [|apply (wrap_lively IConstant _ (TIdent kw :: r) (constant_lively attrs vis _))]. intro u. unfold k. cbn [app].
        rewrite E1, E2, E3, E4, E5, E6, E7. reflexivity. }
      destruct (id_is "use" kw) eqn:E8.
      { eapply at_skip; [|apply (wrap_lively IUse _ (TIdent kw :: r) (use_lively attrs vis _))]. intro u. unfold k. cbn [app].
        rewrite E1, E2, E3, E4, E5, E6, E7, E8. reflexivity. }
      destruct (either_keyword kw) eqn:E9.
      { eapply at_skip; [|apply (wrap_lively (fun i => i) _ (TIdent kw :: r) (either_lively attrs vis kw r E9))]. intro u. unfold k. cbn [app].
        rewrite E1, E2, E3, E4, E5, E6, E7, E8, E9. reflexivity. }
      eapply at_skip; [|apply (wrap_lively (fun i => i) (parse_item_macro attrs) (TIdent kw :: r) (item_macro_lively attrs _))].
      intro u. unfold k. cbn [app]. rewrite E1, E2, E3, E4, E5, E6, E7, E8, E9. reflexivity.
    - apply D. eapply at_skip; [|apply (wrap_lively (fun i => i) (parse_item_macro attrs) (TPunct p :: r) (item_macro_lively attrs _))]. reflexivity.
    - apply D. eapply at_skip; [|apply (wrap_lively (fun i => i) (parse_item_macro attrs) (TLit l :: r) (item_macro_lively attrs _))]. reflexivity. }
  (* a visibility looks at two tokens *)
  intros [|t r].
  { right. exists [word "struct"; word "x"; mark ";"]. eexists. split; [|intros w ->; reflexivity]. exact I. }
  assert (V : (exists i, t = TIdent i /\ id_is "pub" i = true /\ r = []) \/
    forall u, consume_vis_marker ((t :: r) ++ u) = (fst (consume_vis_marker (t :: r)), snd (consume_vis_marker (t :: r)) ++ u)).
  { destruct t as [g|i|p|l]; try (right; reflexivity). destruct r as [|t r].
    - destruct (id_is "pub" i) eqn:Ep; [left; eauto|]. right. intro u. cbn [consume_vis_marker app]. rewrite Ep. destruct (id_is "crate" i); reflexivity.
    - right. intro u. cbn [consume_vis_marker app]. destruct (id_is "pub" i); [|destruct (id_is "crate" i); reflexivity].
      destruct t as [g|j|p|l]; try reflexivity. destruct (delim_eqb (g_delim g) Parenthesis); reflexivity. }
  destruct V as [(i & -> & Ei & ->)|V].
  - right. exists [word "struct"; word "x"; mark ";"]. eexists. split; [|intros w ->; cbn [app consume_vis_marker]; rewrite Ei; reflexivity]. exact I.
  - apply (at_skip is_ok done (k (fst (consume_vis_marker (t :: r)))) _ _ (snd (consume_vis_marker (t :: r)))); [|apply H].
    intro u. rewrite V. reflexivity.
Qed.
End Lively.

(** ** C95 *)
(** Some tokens can follow such that the whole is an item. *)
Definition viable (ts : list tok) : Prop := exists c i, parse_item (ts ++ c) = Ret (Ok i).

Lemma consume_item_lively : lively is_ok done consume_item.
Proof. apply (lively_equal _ _ _ _ consume_item_unfold). apply item_body_lively. Qed.

(** Every list can be completed, or panics at a fixed site whatever follows, or is a whole
    enum whose error is returned at once. *)
Theorem C95_verdict (ts : list tok) :
  viable ts
  \/ (exists p, forall c, parse_item (ts ++ c) = Panic p)
  \/ (exists e, parse_item ts = Ret (Err e) /\ forall t c, parse_item (ts ++ t :: c) = Panic PTrailingTokens).
Proof.
  destruct (consume_item_lively ts) as [H|(c & [i|e] & Hx & H)]; [| |contradiction].
  - unfold settled in H. pose proof (consume_item_safe ts) as S. destruct (consume_item ts) as [[d r]|p|] eqn:E; [| |contradiction].
    + cbn [follows] in H. destruct r as [|t r].
      * destruct d as [i|e].
        { left. exists [], i. unfold parse_item. rewrite H. reflexivity. }
        right. right. exists e. unfold parse_item. rewrite E. split; [reflexivity|]. intros t c. rewrite H. reflexivity.
      * right. left. exists PTrailingTokens. intro c. unfold parse_item. rewrite H. reflexivity.
    + right. left. exists p. intro c. unfold parse_item. rewrite H. reflexivity.
  - left. exists c, i. specialize (H [] eq_refl). rewrite app_nil_r in H. unfold parse_item. rewrite H. reflexivity.
Qed.
(** The first case excludes the other two. *)
Lemma not_viable ts : ~ viable ts <->
  (exists p, forall c, parse_item (ts ++ c) = Panic p)
  \/ (exists e, parse_item ts = Ret (Err e) /\ forall t c, parse_item (ts ++ t :: c) = Panic PTrailingTokens).
Proof.
  split.
  - intro N. destruct (C95_verdict ts) as [V|V]; [contradiction|exact V].
  - intros [(p & H)|(e & H1 & H2)] (c & i & V).
    + rewrite H in V. discriminate.
    + destruct c as [|t c]; [rewrite app_nil_r, H1 in V|rewrite H2 in V]; discriminate.
Qed.
(** A panic that some continuation changes is one that some continuation repairs. *)
Theorem C95_repair (ts c : list tok) (p : panic) :
  parse_item ts = Panic p -> parse_item (ts ++ c) <> Panic p -> viable ts.
Proof.
  intros H N. destruct (C95_verdict ts) as [V|[(q & V)|(e & V & _)]]; [exact V| |].
  - exfalso. apply N. pose proof (V []) as V0. rewrite app_nil_r in V0. rewrite V. congruence.
  - congruence.
Qed.
(** What cannot be completed has one first token to blame: the tokens in front of it can be
    completed, and the verdict does not depend on the tokens after it. *)
Lemma viable_prefix l r : viable (l ++ r) -> viable l.
Proof. intros (c & i & H). exists (r ++ c), i. rewrite app_assoc. exact H. Qed.
Theorem C95_first (ts : list tok) : ~ viable ts ->
  exists l t r, ts = l ++ t :: r /\ viable l /\ ~ viable (l ++ [t])
    /\ (parse_item ts = parse_item (l ++ [t])
        \/ (exists e, parse_item (l ++ [t]) = Ret (Err e)) /\ parse_item ts = Panic PTrailingTokens).
Proof.
  intro N. assert (D : forall ts, viable ts \/ ~ viable ts).
  { intro x. destruct (C95_verdict x) as [V|V]; [auto|]. right. apply not_viable. exact V. }
  assert (G : forall r l, viable l -> ~ viable (l ++ r) -> exists l' t r', l ++ r = l' ++ t :: r' /\ viable l' /\ ~ viable (l' ++ [t])).
  { induction r as [|t r IH]; intros l V W; [rewrite app_nil_r in W; contradiction|]. destruct (D (l ++ [t])) as [X|X].
    - destruct (IH (l ++ [t]) X) as (l' & t' & r' & E & H); [rewrite <- app_assoc; exact W|]. exists l', t', r'.
      rewrite <- app_assoc in E. auto.
    - exists l, t, r. auto. }
  destruct (G ts []) as (l & t & r & E & V & W).
  { exists (lex "struct S;"). eexists. vm_compute. reflexivity. }
  { exact N. }
  cbn [app] in E. exists l, t, r. split; [exact E|]. split; [exact V|]. split; [exact W|].
  assert (Es : ts = (l ++ [t]) ++ r) by (rewrite <- app_assoc; exact E). clear E. subst ts.
  apply not_viable in W. destruct W as [(p & H)|(e & H1 & H2)].
  - left. rewrite H. specialize (H []). rewrite app_nil_r in H. auto.
  - destruct r as [|t' r]; [left; rewrite app_nil_r; reflexivity|]. right. split; [eauto|]. apply H2.
Qed.

(** A list in each case, and the token to blame. *)
Example C95_example :
  viable (lex "pub unsafe trait T<A: B<C -> D, const N: u8")
  /\ (forall c, parse_item (lex "fn f() where A > : B" ++ c) = Panic PWhereToken)
  /\ (exists l t r, lex "fn f() where A > : B" = l ++ t :: r /\ is_punct ">" t = true /\ viable l /\ ~ viable (l ++ [t]))
  /\ ~ viable (lex "enum E { A = 1 + 1 }").
Proof.
  split; [|split; [|split]].
  - exists (lex ">> { }"). eexists. vm_compute. reflexivity.
  - intro c. destruct (C95_verdict (lex "fn f() where A > : B")) as [(c' & i & V)|[(p & V)|(e & V & _)]].
    + exfalso. assert (H : parse_item (lex "fn f() where A > : B") = Panic PWhereToken) by (vm_compute; reflexivity).
      rewrite (C92_final _ c' _ H) in V; [discriminate|]. cbn. intuition discriminate.
    + rewrite V. specialize (V []). rewrite app_nil_r in V. rewrite <- V. vm_compute. reflexivity.
    + discriminate V.
  - exists (firstn 5 (lex "fn f() where A > : B")), (hd (word "x") (skipn 5 (lex "fn f() where A > : B"))), (skipn 6 (lex "fn f() where A > : B")).
    split; [vm_compute; reflexivity|]. split; [reflexivity|]. split.
    + exists (lex ": B;"). eexists. vm_compute. reflexivity.
    + assert (H : parse_item (firstn 5 (lex "fn f() where A > : B") ++ [hd (word "x") (skipn 5 (lex "fn f() where A > : B"))]) = Panic PWhereToken)
        by (vm_compute; reflexivity).
      intros (c' & i & V). rewrite (C92_final _ c' _ H) in V; [discriminate|]. cbn. intuition discriminate.
  - apply not_viable. right. eexists. split; [vm_compute; reflexivity|]. intros t c. unfold parse_item. rewrite consume_item_unfold. reflexivity.
Qed.

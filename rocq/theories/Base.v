(** Small lemmas and tactics shared by the proofs. *)
From Verif Require Export ParseItem Spelling.

Ltac bsplit :=
  repeat match goal with
  | H : _ /\ _ |- _ => destruct H
  | H : exists _, _ |- _ => destruct H
  | H : andb _ _ = true |- _ => apply andb_true_iff in H; destruct H
  | H : negb _ = true |- _ => apply negb_true_iff in H
  | H : orb _ _ = false |- _ => apply orb_false_iff in H; destruct H
  | H : andb _ _ && _ = true |- _ => apply andb_true_iff in H; destruct H
  | H : Ret _ = Ret _ |- _ => injection H as H; subst
  | H : (_, _) = (_, _) |- _ => injection H; clear H; intros; subst
  | H : Some _ = Some _ |- _ => injection H; clear H; intros; subst
  | H : _ :: _ = _ :: _ |- _ => injection H; clear H; intros; subst
  | H : true = false |- _ => discriminate H
  | H : false = true |- _ => discriminate H
  | H : None = Some _ |- _ => discriminate H
  | H : Some _ = None |- _ => discriminate H
  | H : [] = _ :: _ |- _ => discriminate H
  | H : _ :: _ = [] |- _ => discriminate H
  | H : Panic _ = Ret _ |- _ => discriminate H
  | H : Ret _ = Panic _ |- _ => discriminate H
  | H : OutOfFuel = Ret _ |- _ => discriminate H
  end.

Lemma id_is_eq s i : id_is s i = true <-> exists sp, i = mkIdent s sp.
Proof.
  destruct i as [t sp]; unfold id_is; simpl. split.
  - intro H. apply String.eqb_eq in H. subst. eauto.
  - intros [sp' H]. inversion H; subst. apply String.eqb_refl.
Qed.
Lemma p_is_eq c p : p_is c p = true <-> exists s sp, p = mkPunct c s sp.
Proof.
  destruct p as [d s sp]; unfold p_is; simpl. split.
  - intro H. apply Ascii.eqb_eq in H. subst. eauto.
  - intros (s' & sp' & H). inversion H; subst. apply Ascii.eqb_refl.
Qed.
Lemma delim_eqb_eq a b : delim_eqb a b = true <-> a = b.
Proof. destruct a, b; simpl; split; congruence. Qed.
Lemma delim_eqb_refl a : delim_eqb a a = true.
Proof. destruct a; reflexivity. Qed.

(** Rewrite with all boolean hypotheses. *)
Ltac rwb :=
  repeat match goal with
  | H : true = true |- _ => clear H
  | H : false = false |- _ => clear H
  | H : ?b = true |- context [?b] => rewrite H
  | H : ?b = false |- context [?b] => rewrite H
  end.

(** Case on a boolean disjunction among the hypotheses. *)
Ltac bcase := match goal with H : orb _ _ = true |- _ => apply orb_true_iff in H; destruct H end.

(** Replace idents, puncts and delimiters known by a boolean test by their value. *)
Ltac known :=
  repeat match goal with
  | H : id_is _ ?i = true |- _ => apply id_is_eq in H; destruct H as [? H]; subst i
  | H : p_is _ ?p = true |- _ => apply p_is_eq in H; destruct H as (? & ? & H); subst p
  | H : delim_eqb ?d _ = true |- _ => apply delim_eqb_eq in H; subst d
  end.

Lemma bind_ret {A B} (m : outcome A) (k : A -> outcome B) y :
  bind m k = Ret y -> exists x, m = Ret x /\ k x = Ret y.
Proof. destruct m; simpl; intros; try discriminate; eauto. Qed.

(** Invert a successful [do]. *)
Ltac inv_bind H :=
  let x := fresh "x" in let Hx := fresh "Hx" in
  apply bind_ret in H; destruct H as (x & Hx & H).

Lemma app_nil_l' {A} (l : list A) : [] ++ l = l. Proof. reflexivity. Qed.

Ltac app_norm := repeat (rewrite <- app_assoc || rewrite <- app_comm_cons || rewrite app_nil_r || rewrite app_nil_l').

Lemma group_eta g : mkGroup (g_delim g) (g_stream g) (g_span g) = g.
Proof. destruct g; reflexivity. Qed.

Lemma print_opt_none {A} (pr : A -> list tok) : print_opt pr None = []. Proof. reflexivity. Qed.

(** ** The scanning loop *)
Lemma stops_false_lt P d dash t : opens t = true -> stops P d dash t = false.
Proof. intro H. unfold stops. rewrite H. rewrite andb_false_r. reflexivity. Qed.

Lemma punct_excl a b t : a <> b -> is_punct a t = true -> is_punct b t = false.
Proof.
  intros Hab H. destruct t; try discriminate. simpl in *.
  unfold p_is in *. apply Ascii.eqb_eq in H. apply Ascii.eqb_neq. congruence.
Qed.

(** [stuff_loop], one step, in terms of the specification. *)
Lemma stuff_loop_step P d dash t r : (0 <= d)%Z ->
  stuff_loop P d dash (t :: r) =
  if stops P d dash t then ([], negb (closes dash t), t :: r)
  else let '(out, met, rest) := stuff_loop P (next_depth d dash t) (is_punct "-" t) r in
       (t :: out, met, rest).
Proof.
  intros Hd. unfold stops, next_depth, closes, opens. cbn [stuff_loop].
  destruct (is_punct "<" t) eqn:Elt.
  { rewrite (punct_excl "<" "-" t) by (congruence || assumption).
    replace (d + 1 <? 0)%Z with false by (symmetry; apply Z.ltb_ge; lia).
    rewrite andb_false_r. reflexivity. }
  destruct (is_punct ">" t && negb dash) eqn:Egt.
  { apply andb_true_iff in Egt. destruct Egt as [Egt Edash].
    rewrite (punct_excl ">" "-" t) by (congruence || assumption).
    destruct (Z.eqb_spec d 0).
    - subst. replace (0 - 1 <? 0)%Z with true by reflexivity. reflexivity.
    - replace (d - 1 <? 0)%Z with false by (symmetry; apply Z.ltb_ge; lia). reflexivity. }
  destruct (is_punct "-" t) eqn:Em.
  { replace (d <? 0)%Z with false by (symmetry; apply Z.ltb_ge; lia).
    simpl. rewrite andb_false_r. reflexivity. }
  simpl. destruct (Z.eqb d 0), (P t); simpl;
    replace (d <? 0)%Z with false by (symmetry; apply Z.ltb_ge; lia); reflexivity.
Qed.

Lemma next_depth_nonneg P d dash t :
  (0 <= d)%Z -> stops P d dash t = false -> (0 <= next_depth d dash t)%Z.
Proof.
  unfold stops, next_depth. intros Hd H.
  destruct (opens t); [lia|]. destruct (closes dash t); [|lia].
  rewrite orb_true_l, !andb_true_r in H. apply Z.eqb_neq in H. lia.
Qed.

(** Where the run ends. *)
Definition run_end (P : tok -> bool) (d : Z) (dash : bool) (rest : list tok) : Prop :=
  match rest with [] => True | t :: _ => stops P d dash t = true end.
Definition run_met (dash : bool) (rest : list tok) : bool :=
  match rest with [] => false | t :: _ => negb (closes dash t) end.

Lemma stuff_loop_complete P : forall body d dash d' dash' rest,
  (0 <= d)%Z -> scan P d dash body = Some (d', dash') -> run_end P d' dash' rest ->
  stuff_loop P d dash (body ++ rest) = (body, run_met dash' rest, rest).
Proof.
  induction body as [|t r IH]; intros d dash d' dash' rest Hd Hs He.
  - simpl in Hs. injection Hs as <- <-. destruct rest as [|t r]; [reflexivity|].
    simpl in He. simpl app. rewrite stuff_loop_step by assumption. rewrite He. reflexivity.
  - simpl in Hs. destruct (stops P d dash t) eqn:E; [discriminate|].
    simpl app. rewrite stuff_loop_step by assumption. rewrite E.
    rewrite (IH _ _ d' dash' rest); auto. eapply next_depth_nonneg; eauto.
Qed.

Lemma stuff_loop_sound P : forall ts d dash out met rest,
  (0 <= d)%Z -> stuff_loop P d dash ts = (out, met, rest) ->
  ts = out ++ rest /\
  exists d' dash', (0 <= d')%Z /\ scan P d dash out = Some (d', dash')
    /\ run_end P d' dash' rest /\ met = run_met dash' rest.
Proof.
  induction ts as [|t r IH]; intros d dash out met rest Hd H.
  - simpl in H. injection H as <- <- <-. simpl. split; auto. exists d, dash. auto.
  - rewrite stuff_loop_step in H by assumption.
    destruct (stops P d dash t) eqn:E.
    + injection H as <- <- <-. split; auto. exists d, dash. simpl. auto.
    + destruct (stuff_loop P (next_depth d dash t) (is_punct "-" t) r) as [[o m] rs] eqn:F.
      injection H as <- <- <-.
      destruct (IH _ _ _ _ _ (next_depth_nonneg _ _ _ _ Hd E) F)
        as [-> (d' & dash' & H1 & H2 & H3 & H4)].
      split; auto. exists d', dash'. simpl. rewrite E. auto.
Qed.

(** A terminator: satisfies [P] and is not ['<'] or ['-']; [strict] ones are not ['>']. *)
Definition term (P : tok -> bool) (t : tok) : bool :=
  P t && negb (is_punct "<" t) && negb (is_punct "-" t) && negb (is_punct ">" t).

Lemma term_stops P dash t : term P t = true -> stops P 0 dash t = true /\ closes dash t = false.
Proof.
  unfold term, stops, closes, opens. intros H. bsplit.
  rewrite H0, H1, H2, H. split; reflexivity.
Qed.

Lemma until_sound P must ts out rest :
  consume_stuff_until P must ts = Ret (out, rest) ->
  ts = out ++ rest /\
  exists d dash, (0 <= d)%Z /\ scan P 0 false out = Some (d, dash) /\ run_end P d dash rest
    /\ (must = true -> run_met dash rest = true).
Proof.
  unfold consume_stuff_until.
  destruct (stuff_loop P 0 false ts) as [[o m] rs] eqn:E.
  apply stuff_loop_sound in E; [|lia].
  destruct E as [-> (d & dash & H1 & H2 & H3 & ->)].
  destruct must; simpl.
  - destruct (run_met dash rs) eqn:F; simpl.
    + intro H. bsplit. split; auto. exists d, dash. auto.
    + intro H. exfalso. repeat (match type of H with context [match ?x with _ => _ end] => destruct x end; try discriminate).
  - intro H. bsplit. split; auto. exists d, dash. repeat split; auto. discriminate.
Qed.

Lemma until_complete P must body d dash rest :
  scan P 0 false body = Some (d, dash) -> run_end P d dash rest ->
  (must = true -> run_met dash rest = true) ->
  consume_stuff_until P must (body ++ rest) = Ret (body, rest).
Proof.
  intros H1 H2 H3. unfold consume_stuff_until.
  rewrite (stuff_loop_complete P body 0 false d dash rest); auto; [|lia].
  destruct must; simpl; auto. rewrite H3; auto.
Qed.

(** With a proper terminator next. *)
Lemma until_term P must body rest :
  run_closed P body = true -> head_is (term P) rest = true ->
  consume_stuff_until P must (body ++ rest) = Ret (body, rest).
Proof.
  unfold run_closed. intros H1 H2. destruct (scan P 0 false body) as [[d dash]|] eqn:E; [|discriminate].
  apply Z.eqb_eq in H1. subst d. destruct rest as [|t r]; [discriminate|]. simpl in H2.
  destruct (term_stops P dash t H2) as [Hs Hc].
  eapply until_complete; eauto. intros _. simpl. rewrite Hc. reflexivity.
Qed.

Lemma until_end P body :
  run_any P body = true -> consume_stuff_until P false body = Ret (body, []).
Proof.
  unfold run_any. intros H1. destruct (scan P 0 false body) as [[d dash]|] eqn:E; [|discriminate].
  rewrite <- (app_nil_r body) at 1. eapply until_complete; eauto; try exact I; discriminate.
Qed.

(** Converse, when the next token is known. *)
Lemma until_sound_term P must ts out rest :
  consume_stuff_until P must ts = Ret (out, rest) ->
  ts = out ++ rest /\ run_any P out = true /\
  match rest with
  | [] => must = false
  | t :: _ => run_closed P out = true /\ (term P t = true \/ is_punct ">" t = true)
              /\ (must = true -> P t = true)
  end.
Proof.
  intro H. apply until_sound in H. destruct H as [-> (d & dash & H1 & H2 & H3 & H4)].
  split; auto. unfold run_any, run_closed. rewrite H2. split; auto.
  destruct rest as [|t r].
  - destruct must; auto. discriminate (H4 eq_refl).
  - simpl in H3, H4. unfold stops in H3. bsplit. unfold opens in *. split; auto.
    unfold closes in *. unfold term.
    destruct (is_punct ">" t) eqn:E1; simpl in *.
    + split; auto. intro Hm. specialize (H4 Hm). rewrite negb_involutive in H4. subst. simpl in *.
      bsplit. auto.
    + bsplit. rewrite H5, H0, H3. auto.
Qed.

(** Runs do not depend on which extensionally equal terminator test is used. *)
Lemma scan_ext P Q : (forall t, P t = Q t) -> forall ts d dash, scan P d dash ts = scan Q d dash ts.
Proof.
  intros H. induction ts as [|t r IH]; intros; simpl; auto.
  unfold stops. rewrite H, IH. reflexivity.
Qed.

(** ** Depth *)
Lemma toks_depth_app a b : toks_depth (a ++ b) = Nat.max (toks_depth a) (toks_depth b).
Proof. induction a; simpl; auto. rewrite IHa. lia. Qed.
Lemma tok_depth_group d s sp : tok_depth (TGroup (mkGroup d s sp)) = S (toks_depth s).
Proof.
  reflexivity.
Qed.

(** Keep [simpl] from opening the larger printers. *)
Global Arguments print_attribute : simpl never.
Global Arguments print_generic_param : simpl never.
Global Arguments print_generic_params : simpl never.
Global Arguments print_where : simpl never.
Global Arguments print_where_predicate : simpl never.
Global Arguments print_tuple_field : simpl never.
Global Arguments print_named_field : simpl never.
Global Arguments print_variant : simpl never.
Global Arguments print_fn_param : simpl never.
Global Arguments print_qualifiers : simpl never.
Global Arguments print_punctuated : simpl never.

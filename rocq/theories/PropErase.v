(** C97: the statement-by-statement transcription of Imp.v computes the same as the model. *)
From Verif Require Import Imp Base Samples.
Local Open Scope string_scope.
Local Open Scope list_scope.

(** What the model says: the message and the cost are left out. *)
Definition plainly {A} (e : ending A) : outcome A :=
  match e with Got x => Ret x | Died p _ => Panic p | Stuck => OutOfFuel end.
Definition run {A} (m : T A) (ts : list tok) : outcome (A * list tok) := plainly (fst (m ts)).

Lemma run_andthen {A B} (m : T A) (k : A -> T B) ts :
  run (andthen m k) ts = bind (run m ts) (fun p => run (k (fst p)) (snd p)).
Proof.
  unfold run, andthen. destruct (m ts) as [o [c d]]. cbn [fst].
  destruct o as [[x ts1]| |]; try reflexivity. cbn. destruct (k x ts1) as [? [? ?]]. reflexivity.
Qed.
Lemma run_ret {A} (x : A) ts : run (ret x) ts = Ret (x, ts). Proof. reflexivity. Qed.
Lemma run_fail {A} p msg ts : run (@fail A p msg) ts = Panic p. Proof. reflexivity. Qed.
Lemma run_peek ts : run peek ts = Ret (hd_error ts, ts). Proof. reflexivity. Qed.
Lemma run_next ts : run next ts = Ret (hd_error ts, tl ts). Proof. reflexivity. Qed.
Lemma run_save ts : run save ts = Ret (ts, ts). Proof. reflexivity. Qed.
Lemma run_restore s ts : run (restore s) ts = Ret (tt, s). Proof. reflexivity. Qed.
Lemma run_collect ts : run collect ts = Ret (ts, []). Proof. reflexivity. Qed.
Lemma run_on {A} s (m : T A) ts : run (on s m) ts = bind (run m s) (fun p => Ret (fst p, ts)).
Proof. unfold run, on. destruct (m s) as [[[x r]| |] c]; reflexivity. Qed.
Lemma run_within {A} s (m : T A) ts : run (within s m) ts = bind (run m s) (fun p => Ret (fst p, ts)).
Proof. unfold within. rewrite run_andthen. apply run_on. Qed.
Lemma run_loop {S R} (body : S -> T (S + R)) s ts : run (loop body s) ts = run (rounds (loop_fuel ts) body s) ts.
Proof. reflexivity. Qed.

Lemma bind_ext {A B} (m : outcome A) (k k' : A -> outcome B) : (forall x, k x = k' x) -> bind m k = bind m k'.
Proof. intro H. destruct m; cbn; auto. Qed.
Lemma bind_assoc {A B C} (m : outcome A) (k : A -> outcome B) (l : B -> outcome C) :
  bind (bind m k) l = bind m (fun x => bind (k x) l).
Proof. destruct m; reflexivity. Qed.
Lemma bind_Ret {A B} (x : A) (k : A -> outcome B) : bind (Ret x) k = k x. Proof. reflexivity. Qed.
Lemma bind_Panic {A B} p (k : A -> outcome B) : bind (Panic p) k = Panic p. Proof. reflexivity. Qed.

Global Hint Rewrite @run_andthen @run_ret @run_fail run_peek run_next run_save run_restore run_collect
  @run_on @run_within @bind_assoc @bind_Ret @bind_Panic : run.

Ltac simple_term x := match x with context [match _ with _ => _ end] => fail 1 | _ => idtac end.
Ltac er1 :=
  match goal with
  | |- ?x = ?x => reflexivity
  | |- bind ?m _ = bind ?m _ => apply bind_ext; intros []
  | |- context [hd_error ?l] => is_var l; destruct l
  | |- context [tl ?l] => is_var l; destruct l
  | |- context [match ?x with _ => _ end] => is_var x; destruct x
  | H : ?b = true |- context [?b] => rewrite H
  | H : ?b = false |- context [?b] => rewrite H
  | |- context [if ?b then _ else _] => match type of b with bool => simple_term b; destruct b eqn:? end
  | |- context [match ?x with pair _ _ => _ end] => simple_term x; destruct x
  | |- context [fst ?p] => simple_term p; destruct p
  | |- context [match ?x with _ => _ end] => simple_term x; destruct x
  end.
Ltac er := repeat (autorewrite with run; cbn [fst snd hd_error tl]; try reflexivity; er1).

Lemma e_parse_any_ident c ts : run (i_parse_any_ident c) ts = parse_any_ident c ts.
Proof. unfold i_parse_any_ident, parse_any_ident. er. Qed.
Lemma e_parse_ident x c ts : run (i_parse_ident x c) ts = parse_ident x c ts.
Proof. unfold i_parse_ident, parse_ident. er. Qed.
Lemma e_consume_any_ident ts : run i_consume_any_ident ts = Ret (consume_any_ident ts).
Proof. unfold i_consume_any_ident, consume_any_ident. er. Qed.
Lemma e_consume_ident x ts : run (i_consume_ident x) ts = Ret (consume_ident x ts).
Proof. unfold i_consume_ident, consume_ident. er. Qed.
Lemma e_parse_punct x c ts : run (i_parse_punct x c) ts = parse_punct x c ts.
Proof. unfold i_parse_punct, parse_punct. er. Qed.
Lemma e_consume_punct x ts : run (i_consume_punct x) ts = Ret (consume_punct x ts).
Proof. unfold i_consume_punct, consume_punct. er. Qed.
Lemma e_consume_comma ts : run i_consume_comma ts = Ret (consume_comma ts).
Proof. apply e_consume_punct. Qed.
Global Hint Rewrite e_parse_any_ident e_parse_ident e_consume_any_ident e_consume_ident e_parse_punct e_consume_punct
  e_consume_comma : run.

Lemma run_rounds {S R} n (body : S -> T (S + R)) s ts :
  run (rounds (Datatypes.S n) body s) ts =
  bind (run (body s) ts) (fun p => match fst p with inl s' => run (rounds n body s') (snd p) | inr x => Ret (x, snd p) end).
Proof. cbn [rounds]. rewrite run_andthen. apply bind_ext. intros [[s'|x] ts1]; reflexivity. Qed.

Ltac more := cbn [List.length] in *; lia.

Lemma e_attribute_path ts : run i_attribute_path ts = attribute_path ts.
Proof.
  unfold i_attribute_path. rewrite run_loop. unfold loop_fuel.
  match goal with |- run (rounds _ ?b _) _ = _ => set (body := b) end.
  assert (H : forall n path ts, List.length ts < n ->
            run (rounds n body path) ts = bind (attribute_path ts) (fun p => Ret (path ++ fst p, snd p))).
  { induction n as [|n IH]; intros path l Hn; [lia|]. rewrite run_rounds. unfold body at 1.
    destruct l as [|t r]; [autorewrite with run; cbn; rewrite app_nil_r; reflexivity|].
    destruct t; cbn [attribute_path]; autorewrite with run; cbn [hd_error tl fst snd].
    - autorewrite with run. cbn. rewrite app_nil_r. reflexivity.
    - autorewrite with run. cbn [hd_error tl fst snd]. autorewrite with run. cbn [fst snd].
      rewrite IH by more. apply bind_ext. intros [p q]. cbn. rewrite <- app_assoc. reflexivity.
    - destruct (p_is "=" _); autorewrite with run; cbn [fst snd]; autorewrite with run; [rewrite app_nil_r; reflexivity|].
      destruct (p_is ":" _); autorewrite with run; [|reflexivity]. cbn [hd_error tl fst snd]. autorewrite with run. cbn [fst snd].
      rewrite IH by more. apply bind_ext. intros [q q']. cbn. rewrite <- app_assoc. reflexivity.
    - reflexivity. }
  rewrite H by lia. destruct (attribute_path ts) as [[]| |]; reflexivity.
Qed.
Lemma e_attribute hash bang g ts :
  run (i_attribute hash bang g) ts = bind (parse_attribute hash bang g) (fun a => Ret (a, ts)).
Proof.
  unfold i_attribute, parse_attribute. autorewrite with run. rewrite e_attribute_path.
  apply bind_ext. intros [path rest]. cbn [fst snd]. unfold i_attribute_value, attribute_value_of. er.
Qed.
Global Hint Rewrite e_attribute : run.

Lemma e_attributes inner ts : run (i_attributes inner) ts = consume_attributes_with_inner inner ts.
Proof.
  unfold i_attributes. rewrite run_loop. unfold loop_fuel.
  match goal with |- run (rounds _ ?b _) _ = _ => set (body := b) end.
  assert (H : forall n l ts, List.length ts < n ->
            run (rounds n body l) ts = bind (consume_attributes_with_inner inner ts) (fun p => Ret (l ++ fst p, snd p))).
  { induction n as [|n IH]; intros l [|t r] Hn; try (cbn in Hn; lia).
    { cbn. rewrite app_nil_r. reflexivity. }
    rewrite run_rounds. unfold body at 1. cbn [consume_attributes_with_inner].
    destruct t; autorewrite with run; cbn [hd_error fst snd]; autorewrite with run; cbn [fst snd];
      try (rewrite app_nil_r; reflexivity).
    destruct (p_is "#" _); autorewrite with run; cbn [fst snd]; [|rewrite app_nil_r; reflexivity].
    destruct inner.
    - autorewrite with run. cbn [hd_error tl fst snd]. autorewrite with run. cbn [hd_error tl fst snd].
      destruct r as [|[g| |bang|] r1]; autorewrite with run; cbn [hd_error tl fst snd]; try reflexivity.
      + destruct (delim_eqb _ _); autorewrite with run; cbn [fst snd]; [|reflexivity].
        autorewrite with run. cbn [fst snd]. rewrite app_nil_r. reflexivity.
      + destruct (p_is "!" bang); autorewrite with run; cbn [fst snd tl hd_error]; [|reflexivity].
        autorewrite with run. cbn [fst snd tl hd_error].
        destruct r1 as [|[g| | |] r2]; autorewrite with run; cbn [hd_error tl fst snd]; try reflexivity.
        destruct (delim_eqb _ _); autorewrite with run; cbn [fst snd]; [|reflexivity].
        autorewrite with run. apply bind_ext. intro a. autorewrite with run. cbn [fst snd].
        autorewrite with run. cbn [fst snd].
        rewrite IH by more. apply bind_ext. intros [q q']. cbn. rewrite <- app_assoc. reflexivity.
    - autorewrite with run. cbn [hd_error tl fst snd]. autorewrite with run. cbn [hd_error tl fst snd].
      destruct r as [|[g| |bang|] r1]; autorewrite with run; cbn [hd_error tl fst snd]; try reflexivity.
      destruct (delim_eqb _ _); autorewrite with run; cbn [fst snd]; [|reflexivity].
      autorewrite with run. apply bind_ext. intro a. autorewrite with run. cbn [fst snd].
      autorewrite with run. cbn [fst snd].
      rewrite IH by more. apply bind_ext. intros [q q']. cbn. rewrite <- app_assoc. reflexivity. }
  rewrite H by lia. destruct (consume_attributes_with_inner inner ts) as [[]| |]; reflexivity.
Qed.
Lemma e_outer ts : run (i_attributes false) ts = consume_outer_attributes ts.
Proof. apply e_attributes. Qed.
Lemma e_inner ts : run (i_attributes true) ts = consume_inner_attributes ts.
Proof. apply e_attributes. Qed.
Lemma e_vis ts : run i_vis_marker ts = Ret (consume_vis_marker ts).
Proof. unfold i_vis_marker, consume_vis_marker. er. Qed.
Global Hint Rewrite e_outer e_inner e_vis : run.

Lemma e_stuff P must ts : run (i_stuff_until P must) ts = consume_stuff_until P must ts.
Proof.
  unfold i_stuff_until, consume_stuff_until. rewrite run_andthen, run_loop. unfold loop_fuel.
  match goal with |- context [rounds _ ?b _] => set (body := b) end.
  assert (H : forall n out c dash ts, List.length ts < n ->
            run (rounds n body (out, c, dash)) ts =
            let '(o, met, rest) := stuff_loop P c dash ts in Ret ((out ++ o, met), rest)).
  { induction n as [|n IH]; intros out c dash [|t r] Hn; try (cbn in Hn; lia).
    { cbn. rewrite app_nil_r. reflexivity. }
    assert (G : forall c' dash',
      bind (run (if Z.ltb c' 0 then ret (inr (out, false))
            else u <~ next ;; match u with Some u => ret (inl (out ++ [u], c', dash')) | None => fail PUnreachable unwrap_none end) (t :: r))
        (fun p : (list tok * Z * bool + list tok * bool) * list tok => match fst p with inl s' => run (rounds n body s') (snd p) | inr x => Ret (x, snd p) end)
      = let '(o, met, rest) := if Z.ltb c' 0 then ([], false, t :: r) else let '(o, m, q) := stuff_loop P c' dash' r in (t :: o, m, q) in
        Ret ((out ++ o, met), rest)).
    { intros c' dash'. destruct (c' <? 0)%Z; autorewrite with run; cbn [fst snd]; [rewrite app_nil_r; reflexivity|].
      cbn [hd_error tl]. autorewrite with run. cbn [fst snd]. rewrite IH by more.
      destruct (stuff_loop P c' dash' r) as [[o m] q]. rewrite <- app_assoc. reflexivity. }
    rewrite run_rounds. unfold body at 1. cbn [stuff_loop].
    autorewrite with run. cbn [hd_error fst snd].
    destruct (is_punct "<" t); [apply G|].
    destruct (is_punct ">" t && negb dash); [apply G|].
    destruct (is_punct "-" t); [apply G|].
    destruct (P t && (c =? 0)%Z); [|apply G].
    autorewrite with run. cbn [fst snd]. rewrite app_nil_r. reflexivity. }
  rewrite H by lia. destruct (stuff_loop P 0 false ts) as [[o met] rest]. cbn [bind fst snd app]. er.
Qed.
Lemma e_colon2 ts : run i_colon2 ts = Ret (consume_colon2 ts).
Proof.
  unfold i_colon2, consume_colon2. autorewrite with run. cbn [fst snd].
  destruct ts as [|[| |a|] [|[| |b|] r]]; try reflexivity;
    autorewrite with run; cbn [hd_error tl fst snd];
    destruct (p_is ":" a), (is_joint (p_spacing a)); autorewrite with run; cbn [hd_error tl fst snd andb];
    autorewrite with run; cbn [hd_error tl fst snd andb]; try reflexivity.
  destruct (p_is ":" b), (negb (is_joint (p_spacing b))); autorewrite with run; cbn [andb fst snd]; er.
Qed.
Global Hint Rewrite e_stuff e_colon2 : run.

(** The loops of [punct_loop]. *)
Lemma e_punct_loop {A} (stop : list tok -> outcome bool) (elem : parser A) (body : punctuated A -> T (punctuated A + punctuated A)) :
  (forall acc ts, run (body acc) ts =
     bind (stop ts) (fun b => if b : bool then Ret (inr acc, ts) else
       bind (elem ts) (fun '(x, ts1) => let (comma, ts2) := consume_comma ts1 in Ret (inl (pu_push acc x comma), ts2)))) ->
  forall n acc ts, run (rounds n body acc) ts = punct_loop stop elem n acc ts.
Proof.
  intros H. induction n as [|n IH]; intros acc ts; [reflexivity|].
  rewrite run_rounds, H. cbn [punct_loop]. rewrite bind_assoc. apply bind_ext. intros [|]; [reflexivity|].
  rewrite bind_assoc. apply bind_ext. intros [x ts1]. destruct (consume_comma ts1) as [comma ts2].
  cbn [bind fst snd]. apply IH.
Qed.
Lemma e_many_loop {A} (elem : parser A) (body : list A -> T (list A + list A)) :
  (forall acc ts, run (body acc) ts =
     match ts with [] => Ret (inr acc, []) | _ :: _ => bind (elem ts) (fun '(x, ts1) => Ret (inl (acc ++ [x]), ts1)) end) ->
  forall n acc ts, run (rounds n body acc) ts = bind (many_loop elem n ts) (fun l => Ret (acc ++ l, [])).
Proof.
  intros H. induction n as [|n IH]; intros acc ts; [reflexivity|].
  rewrite run_rounds, H. cbn [many_loop]. destruct ts as [|t r].
  { cbn. rewrite app_nil_r. reflexivity. }
  rewrite !bind_assoc. apply bind_ext. intros [x ts1]. cbn [bind fst snd]. rewrite IH.
  rewrite bind_assoc. apply bind_ext. intro l. cbn. rewrite <- app_assoc. reflexivity.
Qed.

Lemma e_bound P ts : run (i_bound P) ts = consume_bound P ts.
Proof. unfold i_bound, consume_bound. er. Qed.
Lemma e_item_name ts : run i_item_name ts = consume_item_name ts.
Proof. apply e_parse_any_ident. Qed.
Lemma e_lifetime e ts : run (i_lifetime e) ts = consume_lifetime e ts.
Proof. unfold i_lifetime, consume_lifetime, consume_punct. er. Qed.
Global Hint Rewrite e_bound e_item_name e_lifetime : run.
Lemma e_generic_arg ts : bind (run i_generic_arg ts) (fun p => Ret (fst p)) = parse_generic_arg ts.
Proof. unfold i_generic_arg, parse_generic_arg. er. Qed.

Ltac body_of := match goal with |- context [rounds _ ?b _] => set (body := b) end.

Lemma e_generic_params ts : run i_generic_params ts = consume_generic_params ts.
Proof.
  unfold i_generic_params, consume_generic_params. autorewrite with run. cbn [fst snd].
  destruct (consume_punct "<" ts) as [[l|] ts0]; cbn [fst snd]; [|reflexivity].
  autorewrite with run. rewrite run_loop. body_of.
  assert (H : forall n acc ts, run (rounds n body acc) ts =
            bind (punct_loop stop_generic_params parse_generic_param n acc ts)
              (fun p => match snd p with TPunct r :: _ => Ret ((fst p, r), snd p) | _ => Panic PUnreachable end)).
  { induction n as [|n IH]; intros acc l0; [reflexivity|]. rewrite run_rounds. cbn [punct_loop].
    unfold body at 1. autorewrite with run. cbn [fst snd].
    destruct l0 as [|t r]; [reflexivity|]. cbn [hd_error stop_generic_params bind].
    assert (G : forall prefix q,
      bind (run (name <~ i_parse_any_ident "generic param name" ;; bound <~ i_bound end_generic_param ;;
                 comma <~ i_consume_comma ;; ret (inl (pu_push acc (mkGenericParam prefix name bound) comma))) q)
        (fun p : (punctuated generic_param + punctuated generic_param * punct) * list tok =>
           match fst p with inl s' => run (rounds n body s') (snd p) | inr x => Ret (x, snd p) end)
      = bind (bind (do (name, ts) <- parse_any_ident "generic param name" q ;;
              do (bound, ts) <- consume_bound end_generic_param ts ;;
              Ret (mkGenericParam prefix name bound, ts))
          (fun '(x, ts1) => let (comma, ts2) := consume_comma ts1 in
             punct_loop stop_generic_params parse_generic_param n (pu_push acc x comma) ts2))
          (fun p => match snd p with TPunct r :: _ => Ret ((fst p, r), snd p) | _ => Panic PUnreachable end)).
    { intros prefix q. autorewrite with run. apply bind_ext. intros [name q1]. autorewrite with run. cbn [fst snd].
      autorewrite with run. apply bind_ext. intros [bound q2]. autorewrite with run. cbn [fst snd].
      autorewrite with run. cbn [fst snd]. destruct (consume_comma q2) as [comma q3]. cbn [fst snd]. apply IH. }
    destruct t as [g|i|p|li]; try reflexivity.
    - cbn [is_punct]. unfold parse_generic_param at 1. destruct (id_is "const" i) eqn:E.
      + rewrite run_andthen, run_next, bind_Ret. cbn [tl snd]. rewrite (G (Some (TIdent i)) r). autorewrite with run. reflexivity.
      + rewrite (G None (TIdent i :: r)). autorewrite with run. reflexivity.
    - cbn [is_punct]. destruct (p_is ">" p) eqn:E; autorewrite with run; cbn [fst snd]; [reflexivity|].
      unfold parse_generic_param at 1. destruct (p_is "'" p) eqn:E2; [|reflexivity].
      rewrite run_andthen, run_next, bind_Ret. cbn [tl snd].
      rewrite (G (Some (TPunct p)) r). autorewrite with run. reflexivity. }
  rewrite H. autorewrite with run. apply bind_ext. intros [ps q]. cbn [fst snd]. er.
Qed.
Global Hint Rewrite e_generic_params : run.

Lemma e_generic_args ts : run i_generic_args ts = consume_generic_args ts.
Proof.
  unfold i_generic_args, consume_generic_args. autorewrite with run. cbn [fst snd]. autorewrite with run. cbn [fst snd].
  destruct (consume_colon2 ts) as [tf ts0]. cbn [fst snd]. autorewrite with run. cbn [fst snd].
  unfold consume_punct. destruct ts0 as [|[| |l|] r]; autorewrite with run; cbn [hd_error]; try (autorewrite with run; reflexivity).
  destruct (p_is "<" l); autorewrite with run; cbn [fst snd tl]; [|reflexivity].
  autorewrite with run. rewrite run_loop. body_of.
  assert (H : forall n acc q, run (rounds n body acc) q = generic_args_loop n acc q).
  { induction n as [|n IH]; intros acc q; [reflexivity|]. rewrite run_rounds. unfold body at 1. cbn [generic_args_loop].
    autorewrite with run. apply bind_ext. intros [arg q1]. autorewrite with run. cbn [fst snd].
    autorewrite with run. cbn [fst snd]. destruct (consume_comma q1) as [comma q2]. cbn [fst snd].
    destruct arg as [|t u]; [reflexivity|]. rewrite <- e_generic_arg. autorewrite with run.
    apply bind_ext. intros [a q3]. autorewrite with run. cbn [fst snd]. autorewrite with run. cbn [fst snd]. apply IH. }
  rewrite H. apply bind_ext. intros [args q]. er.
Qed.
Global Hint Rewrite e_generic_args : run.

Lemma e_where_clause ts : run i_where_clause ts = consume_where_clause ts.
Proof.
  unfold i_where_clause, consume_where_clause. autorewrite with run. cbn [fst snd].
  destruct (consume_ident "where" ts) as [[kw|] ts0] eqn:E; cbn [fst snd].
  2: { unfold consume_ident in E. destruct ts as [|[| | |] ?]; try (injection E as <-; reflexivity).
       destruct (id_is _ _); [discriminate|]. injection E as <-. reflexivity. }
  autorewrite with run. rewrite run_loop. body_of.
  rewrite (e_punct_loop stop_where parse_where_predicate).
  - apply bind_ext. intros []. reflexivity.
  - intros acc q. unfold body. autorewrite with run. cbn [fst snd]. destruct q as [|t r]; [reflexivity|].
    cbn [hd_error stop_where bind]. destruct (is_group Brace t); [reflexivity|]. destruct (is_punct ";" t); [reflexivity|].
    cbn [orb]. unfold parse_where_predicate. autorewrite with run. apply bind_ext. intros [lhs q1].
    autorewrite with run. cbn [fst snd]. destruct q1 as [|[| |c|] q2]; try reflexivity. cbn [hd_error tl].
    destruct (p_is ":" c); [|reflexivity]. autorewrite with run. apply bind_ext. intros [b q3].
    autorewrite with run. cbn [fst snd]. autorewrite with run. cbn [fst snd]. destruct (consume_comma q3). reflexivity.
Qed.
Lemma e_field_type ts : run i_field_type ts = consume_field_type ts.
Proof. unfold i_field_type, consume_field_type. er. Qed.
Lemma e_enum_discriminant ts : run i_enum_discriminant ts = consume_enum_discriminant ts.
Proof.
  unfold i_enum_discriminant, consume_enum_discriminant. rewrite run_andthen, e_consume_punct.
  destruct (consume_punct "=" ts) as [[p|] q]; [|reflexivity]. er.
Qed.
Global Hint Rewrite e_where_clause e_field_type e_enum_discriminant : run.

(** An element read up to a comma. *)
Ltac norm := repeat (progress (autorewrite with run; cbn [fst snd hd_error tl])).
Ltac element := repeat (norm; first
  [ reflexivity
  | match goal with |- bind ?m _ = bind ?m _ => apply bind_ext; intros [] end
  | match goal with |- context [match ?x with pair _ _ => _ end] => destruct x end
  | match goal with |- context [fst ?x] => destruct x end ]).

Lemma e_tuple_fields g ts : run (i_tuple_fields g) ts = bind (parse_tuple_fields g) (fun f => Ret (f, ts)).
Proof.
  unfold i_tuple_fields, parse_tuple_fields. autorewrite with run. rewrite run_loop. body_of.
  rewrite (e_punct_loop stop_at_end parse_tuple_field).
  - apply bind_ext. intros []. reflexivity.
  - intros acc q. unfold body. autorewrite with run. cbn [fst snd]. destruct q as [|t r]; [reflexivity|].
    cbn [hd_error stop_at_end bind]. unfold parse_tuple_field. element.
Qed.
Lemma e_named_fields g ts : run (i_named_fields g) ts = bind (parse_named_fields g) (fun f => Ret (f, ts)).
Proof.
  unfold i_named_fields, parse_named_fields. autorewrite with run. rewrite run_loop. body_of.
  rewrite (e_punct_loop stop_at_end parse_named_field).
  - apply bind_ext. intros []. reflexivity.
  - intros acc q. unfold body. autorewrite with run. cbn [fst snd]. destruct q as [|t r]; [reflexivity|].
    cbn [hd_error stop_at_end bind]. unfold parse_named_field. element.
Qed.
Global Hint Rewrite e_tuple_fields e_named_fields : run.

Lemma e_enum_variants ts : bind (run i_enum_variants ts) (fun p => Ret (fst p)) = parse_enum_variants ts.
Proof.
  unfold i_enum_variants, parse_enum_variants. rewrite run_loop. body_of.
  assert (H : forall n acc q, bind (run (rounds n body acc) q) (fun p => Ret (fst p)) = enum_variants_loop n acc q).
  { induction n as [|n IH]; intros acc q; [reflexivity|]. rewrite run_rounds. unfold body at 1. cbn [enum_variants_loop].
    autorewrite with run. cbn [fst snd]. destruct q as [|t r]; [reflexivity|]. cbn [hd_error].
    autorewrite with run. apply bind_ext. intros [attrs q1]. autorewrite with run. cbn [fst snd].
    autorewrite with run. cbn [fst snd]. destruct (consume_vis_marker q1) as [vis q2]. cbn [fst snd].
    autorewrite with run. apply bind_ext. intros [name q3]. autorewrite with run. cbn [fst snd].
    autorewrite with run. cbn [fst snd].
    set (rest := fun contents q => bind (bind (run (value <~ i_enum_discriminant ;; comma <~ i_consume_comma ;;
        match value with
        | Err e => ret (inr (Err e))
        | Ok value => ret (inl (pu_push acc (mkVariant attrs vis name contents value) comma))
        end) q) (fun p : (punctuated enum_variant + result (punctuated enum_variant) error) * list tok =>
          match fst p with inl s' => run (rounds n body s') (snd p) | inr x => Ret (x, snd p) end))
        (fun p => Ret (fst p))).
    assert (G : forall contents q, rest contents q =
      (do (discriminant, ts) <- consume_enum_discriminant q ;;
       let (comma, ts) := consume_comma ts in
       match discriminant with
       | Err e => Ret (Err e)
       | Ok value => enum_variants_loop n (pu_push acc (mkVariant attrs vis name contents value) comma) ts
       end)).
    { intros contents q. unfold rest. autorewrite with run. apply bind_ext. intros [d q4].
      autorewrite with run. cbn [fst snd]. autorewrite with run. cbn [fst snd].
      destruct (consume_comma q4) as [comma q5]. cbn [fst snd]. destruct d; cbn; [apply IH|reflexivity]. }
    unfold parse_variant_fields. destruct q3 as [|[g| |p|] q4]; autorewrite with run; cbn [hd_error fst snd]; try reflexivity.
    - autorewrite with run. cbn [fst snd]. rewrite <- G. unfold rest. autorewrite with run. reflexivity.
    - destruct (delim_eqb (g_delim g) Parenthesis); [|destruct (delim_eqb (g_delim g) Brace)]; autorewrite with run; cbn [fst snd tl];
        try reflexivity; autorewrite with run; apply bind_ext; intro f; autorewrite with run; cbn [fst snd];
        autorewrite with run; cbn [fst snd]; rewrite <- G; unfold rest; autorewrite with run; reflexivity.
    - destruct (p_is "," p); [|destruct (p_is "=" p)]; autorewrite with run; cbn [fst snd orb];
        try reflexivity; autorewrite with run; rewrite <- G; unfold rest; autorewrite with run; reflexivity. }
  apply H.
Qed.

Lemma e_fn_qualifiers ts : run i_fn_qualifiers ts = Ret (consume_fn_qualifiers ts).
Proof.
  unfold i_fn_qualifiers, consume_fn_qualifiers.
  do 4 (rewrite run_andthen, e_consume_ident, bind_Ret; destruct (consume_ident _ ts) as [? ts0]; clear ts; rename ts0 into ts; cbn [fst snd]).
  unfold consume_ident, consume_literal. er.
Qed.
Global Hint Rewrite e_fn_qualifiers : run.
Lemma e_fn_params ts : bind (run i_fn_params ts) (fun p => Ret (fst p)) = parse_fn_params ts.
Proof.
  unfold i_fn_params, parse_fn_params. rewrite run_loop. body_of.
  rewrite (e_punct_loop stop_at_end parse_fn_param).
  - apply bind_ext. intros []. reflexivity.
  - intros acc q. unfold body. autorewrite with run. cbn [fst snd]. destruct q as [|t r]; [reflexivity|].
    cbn [hd_error stop_at_end bind]. unfold parse_fn_param.
    element. match goal with |- context [match fst (?x, _) with _ => _ end] => destruct x end; element.
Qed.

Lemma e_fn_return ts : run i_fn_return ts = consume_fn_return ts.
Proof.
  unfold i_fn_return, consume_fn_return. unfold i_consume_punct, consume_punct. er.
Qed.
Global Hint Rewrite e_fn_return : run.
Lemma e_fn attributes vis ts : run (i_fn attributes vis) ts = consume_fn attributes vis ts.
Proof.
  unfold i_fn, consume_fn, i_fn_head. rewrite run_andthen. rewrite run_andthen, run_save, bind_Ret. cbn [fst snd].
  rewrite run_andthen, e_fn_qualifiers, bind_Ret. destruct (consume_fn_qualifiers ts) as [q ts0]. cbn [fst snd].
  rewrite run_andthen, run_next, bind_Ret. cbn [fst snd]. rewrite run_andthen, bind_assoc.
  unfold classify_fn.
  assert (G : forall kw ts1,
    run (name <~ i_item_name ;;
      generics <~ i_generic_params ;;
      u <~ next ;;
      params <~
        (match u with
         | None => fail (PUnwrapNone AtFnParams) unwrap_none
         | Some (TGroup g) =>
             if delim_eqb (g_delim g) Parenthesis then ps <~ within (g_stream g) i_fn_params ;; ret (ps, group_span_new g)
             else fail PFnParams no_fn_params
         | Some _ => fail PFnParams no_fn_params
         end) ;;
      r <~ i_fn_return ;;
      wh <~ i_where_clause ;;
      v <~ next ;;
      body <~
        (match v with
         | None => fail (PUnwrapNone AtFnBody) unwrap_none
         | Some (TGroup g) => if delim_eqb (g_delim g) Brace then ret (Some g, None) else fail PFnBody no_fn_body
         | Some (TPunct p) => if p_is ";" p then ret (None, Some p) else fail PFnBody no_fn_body
         | Some _ => fail PFnBody no_fn_body
         end) ;;
      ret (Ok (mkFunction attributes vis q kw name generics (snd params) (fst params) wh
                 (option_map fst r) (option_map snd r) (snd body) (fst body)))) ts1
    = (do (name, ts) <- consume_item_name ts1 ;;
      do (generics, ts) <- consume_generic_params ts ;;
      do (params, ts) <- parse_fn_parens ts ;;
      do (ret, ts) <- consume_fn_return ts ;;
      do (wh, ts) <- consume_where_clause ts ;;
      do (body, ts) <- parse_fn_body ts ;;
      Ret (@Ok function not_function (mkFunction attributes vis q kw name generics (snd params) (fst params) wh
                 (option_map fst ret) (option_map snd ret) (snd body) (fst body)), ts))).
  { intros kw ts1. rewrite run_andthen, e_item_name. apply bind_ext. intros [name q1]. cbn [fst snd].
    rewrite run_andthen, e_generic_params. apply bind_ext. intros [generics q2]. cbn [fst snd].
    rewrite run_andthen, run_next, bind_Ret. cbn [fst snd]. rewrite run_andthen. unfold parse_fn_parens.
    assert (E : forall params q3,
      run (r <~ i_fn_return ;;
      wh <~ i_where_clause ;;
      v <~ next ;;
      body <~
        (match v with
         | None => fail (PUnwrapNone AtFnBody) unwrap_none
         | Some (TGroup g) => if delim_eqb (g_delim g) Brace then ret (Some g, None) else fail PFnBody no_fn_body
         | Some (TPunct p) => if p_is ";" p then ret (None, Some p) else fail PFnBody no_fn_body
         | Some _ => fail PFnBody no_fn_body
         end) ;;
      ret (Ok (mkFunction attributes vis q kw name generics (snd params) (fst params) wh
                 (option_map fst r) (option_map snd r) (snd body) (fst body)))) q3
      = (do (ret, ts) <- consume_fn_return q3 ;;
      do (wh, ts) <- consume_where_clause ts ;;
      do (body, ts) <- parse_fn_body ts ;;
      Ret (@Ok function not_function (mkFunction attributes vis q kw name generics (snd params) (fst params) wh
                 (option_map fst ret) (option_map snd ret) (snd body) (fst body)), ts))).
    { intros params q3. autorewrite with run. apply bind_ext. intros [r q4]. autorewrite with run. cbn [fst snd].
      autorewrite with run. apply bind_ext. intros [wh q5]. autorewrite with run. cbn [fst snd]. autorewrite with run.
      unfold parse_fn_body. destruct q5 as [|[]]; try reflexivity; cbn [fst snd hd_error tl];
        match goal with |- context [if ?b then _ else _] => destruct b end; reflexivity. }
    destruct q2 as [|[g| | |] q2]; try reflexivity. cbn [hd_error tl].
    destruct (delim_eqb (g_delim g) Parenthesis); [|reflexivity]. rewrite <- e_fn_params.
    rewrite run_andthen, run_within, !bind_assoc. apply bind_ext. intros [ps q3]. cbn [bind fst snd].
    rewrite run_ret. cbn [bind fst snd]. apply (E (ps, group_span_new g)). }
  destruct ts0 as [|[g|i|p|l] r]; cbn [hd_error tl fst snd]; try reflexivity.
  - destruct (is_some (fq_extern q) && delim_eqb (g_delim g) Brace); reflexivity.
  - destruct (id_is "fn" i); [exact (G i r)|].
    repeat (match goal with |- context [if ?b then _ else _] => destruct b end; try reflexivity).
  - destruct (is_some (fq_extern q)); reflexivity.
Qed.
Lemma e_macro_inner attributes ts : run (i_macro_inner attributes) ts = consume_macro_inner attributes ts.
Proof.
  unfold i_macro_inner, consume_macro_inner. rewrite run_andthen, e_consume_any_ident, bind_Ret.
  destruct (consume_any_ident ts) as [[name|] q]; [|reflexivity]. cbn [fst snd].
  rewrite run_andthen, e_consume_punct, bind_Ret. destruct (consume_punct "!" q) as [[bang|] q1]; [|reflexivity]. cbn [fst snd].
  rewrite run_andthen, e_consume_any_ident, bind_Ret. destruct (consume_any_ident q1) as [declared q2]. cbn [fst snd].
  er.
Qed.
Global Hint Rewrite e_fn e_macro_inner : run.
Lemma e_macro attributes ts : run (i_macro attributes) ts = consume_macro attributes ts.
Proof. unfold i_macro, consume_macro. er. Qed.
Lemma e_const_or_static attributes vis ts : run (i_const_or_static attributes vis) ts = parse_const_or_static attributes vis ts.
Proof.
  unfold i_const_or_static, parse_const_or_static.
  rewrite run_andthen, run_next, bind_Ret. cbn [fst snd]. rewrite run_andthen.
  assert (G : forall kw (is_const : bool) ts,
    run (u <~ peek ;;
  tk_mut <~
    (match u with
     | Some (TIdent i) => if id_is "mut" i then (if is_const then fail PConstMut [Txt "`const mut` is not a valid declaration"] else ret (Some i)) else ret None
     | _ => ret None
     end) ;;
  name <~ i_parse_any_ident "const/static" ;;
  colon <~ i_parse_punct ":" "const/static" ;;
  ty <~ i_stuff_until end_eq_or_semi true ;;
  equals <~ i_consume_punct "=" ;;
  value <~ i_stuff_until end_semi true ;;
  let init := match value with [] => None | _ :: _ => Some (mkValueExpr value) end in
  semi <~ i_parse_punct ";" "const/static" ;;
  ret (mkConstant attributes vis kw tk_mut name colon (mkTypeExpr ty) equals init semi)) ts
  = (do tk_mut <-
    match ts with
    | TIdent i :: _ =>
        if id_is "mut" i then (if is_const : bool then Panic PConstMut else Ret (Some i)) else Ret None
    | _ => Ret None
    end ;;
  do (name, ts) <- parse_any_ident "const/static" ts ;;
  do (colon, ts) <- parse_punct ":" "const/static" ts ;;
  do (ty, ts) <- consume_stuff_until end_eq_or_semi true ts ;;
  let (equals, ts) := consume_punct "=" ts in
  do (value, ts) <- consume_stuff_until end_semi true ts ;;
  let init := match value with [] => None | _ :: _ => Some (mkValueExpr value) end in
  do (semi, ts) <- parse_punct ";" "const/static" ts ;;
  Ret (mkConstant attributes vis kw tk_mut name colon (mkTypeExpr ty) equals init semi, ts))).
  { intros kw is_const q. rewrite run_andthen, run_peek, bind_Ret. cbn [fst snd]. rewrite run_andthen.
    match goal with |- bind ?m _ = bind ?n _ => assert (E : m = bind n (fun x => Ret (x, q))) end.
    { destruct q as [|[]]; try reflexivity. cbn [hd_error]. destruct (id_is "mut" _), is_const; reflexivity. }
    rewrite E, bind_assoc. apply bind_ext. intro tk_mut. cbn [bind fst snd]. element. }
  destruct ts as [|[| | |] r]; try reflexivity. cbn [hd_error tl].
  destruct (id_is "const" _); [exact (G _ true r)|destruct (id_is "static" _); [exact (G _ false r)|reflexivity]].
Qed.
Lemma e_ty_definition attributes vis ts : run (i_ty_definition attributes vis) ts = consume_ty_definition attributes vis ts.
Proof. unfold i_ty_definition, consume_ty_definition. element. match goal with |- context [match fst (?x, _) with _ => _ end] => destruct x end; element. Qed.
Lemma e_use attributes vis ts : run (i_use attributes vis) ts = parse_use_declaration attributes vis ts.
Proof. unfold i_use, parse_use_declaration. element. Qed.
Lemma e_extern_crate attributes vis ts : run (i_extern_crate attributes vis) ts = parse_extern_crate attributes vis ts.
Proof.
  unfold i_extern_crate, parse_extern_crate. rewrite run_andthen.
  assert (E : run (i_consume_extern_crate attributes vis) ts = consume_extern_crate attributes vis ts).
  { unfold i_consume_extern_crate, consume_extern_crate. rewrite run_andthen, e_consume_ident, bind_Ret.
    destruct (consume_ident _ ts) as [[?|] q]; [|reflexivity]. cbn [fst snd].
    rewrite run_andthen, e_consume_ident, bind_Ret.
    destruct (consume_ident _ q) as [[?|] q1]; [|reflexivity]. cbn [fst snd].
    element. match goal with |- context [match fst (?x, _) with _ => _ end] => destruct x end; element. }
  rewrite E. apply bind_ext. intros [[]]; reflexivity.
Qed.
Global Hint Rewrite e_macro e_const_or_static e_ty_definition e_use e_extern_crate : run.

Section Nested.
Variable rec_item : parser (result item error).
Variable rec_either : list attribute -> option vis_marker -> parser item.
Variable i_rec_item : T (result item error).
Variable i_rec_either : list attribute -> option vis_marker -> T item.
Hypothesis Hitem : forall ts, run i_rec_item ts = rec_item ts.
Hypothesis Heither : forall attributes vis ts, run (i_rec_either attributes vis) ts = rec_either attributes vis ts.

Lemma e_impl_body g static ts :
  run (i_impl_body i_rec_either g static) ts = bind (parse_impl_body rec_either g static) (fun b => Ret (b, ts)).
Proof.
  unfold i_impl_body, parse_impl_body. autorewrite with run. apply bind_ext. intros [inner q]. cbn [fst snd].
  autorewrite with run. rewrite run_loop. body_of.
  rewrite (e_many_loop (parse_impl_member rec_either static)).
  - autorewrite with run. apply bind_ext. intro l. reflexivity.
  - intros acc q0. unfold body. rewrite run_andthen, run_peek, bind_Ret. cbn [fst snd].
    destruct q0 as [|t r]; [reflexivity|]. cbn [hd_error]. unfold parse_impl_member.
    autorewrite with run. apply bind_ext. intros [attrs q1]. autorewrite with run. cbn [fst snd].
    autorewrite with run. destruct (consume_vis_marker q1) as [vis q2]. cbn [fst snd]. autorewrite with run.
    rewrite Heither. apply bind_ext. intros [i q3]. autorewrite with run. cbn [fst snd].
    unfold impl_member_of_item. destruct i; try reflexivity.
    destruct (id_is "const" _); [reflexivity|]. destruct static; reflexivity.
Qed.
Lemma e_body_group site bad text ts :
  run (i_body_group i_rec_either site bad text) ts = parse_body_group rec_either site bad ts.
Proof.
  unfold i_body_group, parse_body_group. rewrite run_andthen, run_next, bind_Ret. cbn [fst snd].
  destruct ts as [|[g| | |] r]; try reflexivity. cbn [hd_error tl]. destruct (delim_eqb _ _); [|reflexivity].
  apply e_impl_body.
Qed.
Hint Rewrite e_body_group : run.
Lemma e_impl attributes ts : run (i_impl i_rec_either attributes) ts = parse_impl rec_either attributes ts.
Proof.
  unfold i_impl, parse_impl. element. match goal with |- context [match fst (?x, _) with _ => _ end] => destruct x end;
    element; match goal with p : _ * _ * _ |- _ => destruct p as [[]] end; reflexivity.
Qed.
Lemma e_trait attributes vis ts : run (i_trait i_rec_either attributes vis) ts = parse_trait rec_either attributes vis ts.
Proof.
  unfold i_trait, parse_trait. element.
Qed.
Lemma e_extern_block attributes vis ts :
  run (i_extern_block i_rec_either attributes vis) ts = parse_extern_block rec_either attributes vis ts.
Proof.
  unfold i_extern_block, parse_extern_block. rewrite run_andthen.
  assert (E : run (i_consume_extern_block i_rec_either attributes vis) ts = consume_extern_block rec_either attributes vis ts).
  { unfold i_consume_extern_block, consume_extern_block. rewrite run_andthen, e_consume_ident, bind_Ret.
    destruct (consume_ident _ ts) as [u q]. cbn [fst snd].
    rewrite run_andthen, e_consume_ident, bind_Ret.
    destruct (consume_ident _ q) as [[?|] q1]; [|reflexivity]. cbn [fst snd].
    rewrite run_andthen, run_peek, bind_Ret. cbn [fst snd]. rewrite run_andthen.
    match goal with |- bind ?m _ = _ => assert (E : m = Ret (consume_literal q1)) end.
    { destruct q1 as [|[]]; reflexivity. }
    rewrite E, bind_Ret. destruct (consume_literal q1) as [abi q2]. cbn [fst snd].
    rewrite run_andthen, run_next, bind_Ret. cbn [fst snd].
    destruct q2 as [|[g| | |] q2]; try reflexivity. cbn [hd_error tl]. destruct (delim_eqb _ _); [|reflexivity].
    rewrite run_andthen, e_impl_body, bind_assoc. apply bind_ext. intros [[] ?]. reflexivity. }
  rewrite E. apply bind_ext. intros [[]]; reflexivity.
Qed.
Lemma e_mod attributes vis ts : run (i_mod i_rec_item attributes vis) ts = parse_mod rec_item attributes vis ts.
Proof.
  unfold i_mod, parse_mod. rewrite run_andthen, e_consume_ident, bind_Ret.
  destruct (consume_ident _ ts) as [u q]. cbn [fst snd].
  rewrite run_andthen, e_parse_ident. apply bind_ext. intros [kw q1]. cbn [fst snd].
  rewrite run_andthen, e_item_name. apply bind_ext. intros [name q2]. cbn [fst snd].
  rewrite run_andthen, run_next, bind_Ret. cbn [fst snd].
  destruct q2 as [|[g| |p|] q2]; try reflexivity; cbn [hd_error tl].
  - destruct (delim_eqb _ _); [|reflexivity]. autorewrite with run. apply bind_ext. intros [inner q3]. cbn [fst snd].
    autorewrite with run. rewrite run_loop. body_of. rewrite (e_many_loop (parse_mod_member rec_item)).
    + autorewrite with run. apply bind_ext. intro l. reflexivity.
    + intros acc q0. unfold body. rewrite run_andthen, run_peek, bind_Ret. cbn [fst snd].
      destruct q0 as [|t r]; [reflexivity|]. cbn [hd_error]. unfold parse_mod_member.
      rewrite run_andthen, Hitem, bind_assoc. apply bind_ext. intros [[i|e] q4]; reflexivity.
  - destruct (p_is ";" p); reflexivity.
Qed.
Hint Rewrite e_impl e_trait e_extern_block e_mod : run.
Lemma e_either context attributes vis ts :
  run (i_either i_rec_item i_rec_either context attributes vis) ts = consume_either rec_item rec_either attributes vis ts.
Proof.
  unfold i_either, consume_either. rewrite run_andthen, run_peek, bind_Ret. cbn [fst snd].
  destruct ts as [|[|i| |] r]; try reflexivity. cbn [hd_error].
  destruct (id_is "type" i).
  { autorewrite with run. apply bind_ext. intros [[]]; reflexivity. }
  destruct (fn_like_keyword i).
  - rewrite run_andthen, e_fn. apply bind_ext. intros [[f|[]] q]; cbn [fst snd]; [reflexivity|..];
      autorewrite with run; apply bind_ext; intros []; reflexivity.
  - destruct vis; [reflexivity|]. autorewrite with run. apply bind_ext. intros [[]]; reflexivity.
Qed.
Lemma e_struct attributes vis kw ts : run (i_struct attributes vis kw) ts = parse_struct attributes vis kw ts.
Proof.
  unfold i_struct, parse_struct. rewrite run_andthen, e_item_name. apply bind_ext. intros [name q]. cbn [fst snd].
  rewrite run_andthen, e_generic_params. apply bind_ext. intros [generics q0]. cbn [fst snd].
  rewrite run_andthen, e_where_clause. apply bind_ext. intros [wh q1]. cbn [fst snd].
  rewrite run_andthen, run_peek, bind_Ret. cbn [fst snd]. rewrite run_andthen.
  match goal with |- bind ?m _ = bind ?n _ => assert (E : m = n) end.
  { destruct q1 as [|[g| |p|] q2]; try reflexivity; cbn [hd_error].
    - destruct (delim_eqb _ Parenthesis); [|destruct (delim_eqb _ Brace)]; autorewrite with run; cbn [fst snd tl];
        try reflexivity; autorewrite with run; apply bind_ext; intro f; reflexivity.
    - destruct (p_is ";" p); reflexivity. }
  rewrite E. apply bind_ext. intros [fs q2]. cbn [fst snd]. rewrite run_andthen.
  match goal with |- bind ?m _ = bind ?n _ => assert (E2 : m = n) end.
  { destruct fs; try reflexivity. destruct wh; [reflexivity|]. apply e_where_clause. }
  rewrite E2. apply bind_ext. intros [wh2 q3]. element.
Qed.
Lemma e_enum attributes vis kw ts : run (i_enum attributes vis kw) ts = parse_enum attributes vis kw ts.
Proof.
  unfold i_enum, parse_enum. rewrite run_andthen, e_item_name. apply bind_ext. intros [name q]. cbn [fst snd].
  rewrite run_andthen, e_generic_params. apply bind_ext. intros [generics q0]. cbn [fst snd].
  rewrite run_andthen, e_where_clause. apply bind_ext. intros [wh q1]. cbn [fst snd].
  rewrite run_andthen, run_next, bind_Ret. cbn [fst snd].
  destruct q1 as [|[g| | |] q2]; try reflexivity; cbn [hd_error tl].
  destruct (delim_eqb _ _); [|reflexivity]. rewrite run_andthen, run_within, <- e_enum_variants, !bind_assoc.
  apply bind_ext. intros [[vs|e] ?]; reflexivity.
Qed.
Lemma e_union attributes vis kw ts : run (i_union attributes vis kw) ts = parse_union attributes vis kw ts.
Proof.
  unfold i_union, parse_union. rewrite run_andthen, e_item_name. apply bind_ext. intros [name q]. cbn [fst snd].
  rewrite run_andthen, e_generic_params. apply bind_ext. intros [generics q0]. cbn [fst snd].
  rewrite run_andthen, e_where_clause. apply bind_ext. intros [wh q1]. cbn [fst snd].
  rewrite run_andthen, run_next, bind_Ret. cbn [fst snd].
  destruct q1 as [|[g| | |] q2]; try reflexivity; cbn [hd_error tl].
  destruct (delim_eqb _ _); [|reflexivity]. autorewrite with run. apply bind_ext. intro f. reflexivity.
Qed.
Hint Rewrite e_either e_struct e_enum e_union : run.
Lemma e_item_body ts : run (i_item_body i_rec_item i_rec_either) ts = consume_item_body rec_item rec_either ts.
Proof.
  unfold i_item_body, consume_item_body. rewrite run_andthen, e_outer. apply bind_ext. intros [attrs q]. cbn [fst snd].
  rewrite run_andthen, e_vis, bind_Ret. destruct (consume_vis_marker q) as [vis q0]. cbn [fst snd].
  rewrite run_andthen, run_peek, bind_Ret. cbn [fst snd].
  assert (O : forall msg q, run (m <~ i_macro attrs ;; match m with Some m => ret (Ok (IMacro m)) | None => fail PNoDeclaration msg end) q
            = @wrap item (fun i => i) (parse_item_macro attrs q)).
  { intros msg q1. unfold wrap, parse_item_macro. autorewrite with run. apply bind_ext. intros [[]]; reflexivity. }
  destruct q0 as [|[g|kw|p|l] r]; try reflexivity; cbn [hd_error]; try apply O.
  unfold wrap at 1 2 3 4 5 6 7 8.
  repeat (match goal with |- run (if ?b then _ else _) _ = _ => destruct b end;
    [autorewrite with run; cbn [tl snd fst]; autorewrite with run; apply bind_ext; intros [[] ?] || intros []; reflexivity|]).
  apply O.
Qed.
End Nested.

Lemma e_nest n :
  (forall ts, run (fst (i_nest n)) ts = fst (nest n) ts)
  /\ (forall attributes vis ts, run (snd (i_nest n) attributes vis) ts = snd (nest n) attributes vis ts).
Proof.
  induction n as [|n [H1 H2]]; [split; reflexivity|]. cbn [i_nest nest].
  destruct (i_nest n) as [ri re], (nest n) as [mi me]. cbn [fst snd] in *.
  split; intros; [apply e_item_body|apply e_either]; assumption.
Qed.

Theorem C97_consume_item ts : run i_consume_item ts = consume_item ts.
Proof. apply e_nest. Qed.
Theorem C97_parse_item ts : run i_parse_item ts = bind (parse_item ts) (fun d => Ret (d, [])).
Proof.
  unfold i_parse_item, parse_item. rewrite run_andthen, C97_consume_item, bind_assoc. apply bind_ext. intros [d q].
  cbn [fst snd]. rewrite run_andthen, run_peek, bind_Ret. destruct q; reflexivity.
Qed.
Theorem C97_consume_path ts : bind (run i_path ts) (fun p => Ret (fst p)) = consume_path ts.
Proof.
  unfold i_path, consume_path. rewrite run_andthen, e_colon2, bind_Ret. destruct (consume_colon2 ts) as [c q]. cbn [fst snd].
  rewrite run_loop. body_of.
  assert (H : forall n c l q, bind (run (rounds n body (c, l)) q) (fun p => Ret (fst p)) = path_loop n c l q).
  { clear c q. induction n as [|n IH]; intros c l q; [reflexivity|]. rewrite run_rounds. unfold body at 1. cbn [path_loop].
    rewrite run_andthen, run_next, bind_Ret. cbn [fst snd]. destruct q as [|[|id| |] q]; try reflexivity. cbn [hd_error tl].
    rewrite run_andthen, e_generic_args, !bind_assoc. apply bind_ext. intros [args q1]. cbn [fst snd].
    rewrite run_andthen, run_peek, bind_Ret. cbn [fst snd]. destruct q1 as [|t q1]; [reflexivity|]. cbn [hd_error].
    rewrite run_andthen, e_colon2, bind_Ret. destruct (consume_colon2 (t :: q1)) as [[sep|] q2]; cbn [fst snd].
    - rewrite run_ret. cbn [bind fst snd]. apply IH.
    - reflexivity. }
  apply H.
Qed.

(** Concrete runs of the second transcription: every kind of item, an error, two panics, a path. *)
Example C97_ex1 : run i_parse_item (lex rich_text) = Ret (Ok (item_of rich_text), []).
Proof. vm_compute. reflexivity. Qed.
Example C97_ex2 : run i_parse_item (lex "enum E { A = 1 + 2, B }") = bind (parse_item (lex "enum E { A = 1 + 2, B }")) (fun d => Ret (d, []))
  /\ match run i_parse_item (lex "enum E { A = 1 + 2, B }") with Ret (Err _, _) => True | _ => False end.
Proof. vm_compute. split; [reflexivity|exact I]. Qed.
Example C97_ex3 : panic_of (run i_parse_item (lex "fn f() {} fn")) = Some PTrailingTokens
  /\ panic_of (run i_parse_item (lex "struct S<T")) = panic_of (parse_item (lex "struct S<T"))
  /\ panic_of (run i_parse_item (lex "struct S<T")) <> None.
Proof. vm_compute. split; [reflexivity|]. split; [reflexivity|discriminate]. Qed.
Example C97_ex4 : match run i_path (lex "::std::vec::Vec<u8, 'a, T = u8>::new") with Ret (Some p, []) => List.length (pa_segments p) = 4 | _ => False end.
Proof. vm_compute. reflexivity. Qed.

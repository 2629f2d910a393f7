(** C34-C36, C38, C41, C56-C58: builders and mutable accessors. *)
From Verif Require Import Unfold Samples Edit PathProof ScanSpec PropScan PropRoundTrip PropPunct PropShape PropLimits.
Local Open Scope string_scope.
Local Open Scope list_scope.

(** ** The three declarations with builder methods *)
(** [with_param], [with_where_predicate] and [create_derive_where_clause] on an item. *)
Definition item_with_param (i : item) (p : generic_param) : option (outcome item) :=
  match i with
  | IStruct s => Some (do s <- struct_with_param s p ;; Ret (IStruct s))
  | IEnum e => Some (do e <- enum_with_param e p ;; Ret (IEnum e))
  | IUnion u => Some (do u <- union_with_param u p ;; Ret (IUnion u))
  | _ => None
  end.
Definition item_with_where (i : item) (p : where_predicate) : option item :=
  match i with
  | IStruct s => Some (IStruct (struct_with_where s p))
  | IEnum e => Some (IEnum (enum_with_where e p))
  | IUnion u => Some (IUnion (union_with_where u p))
  | _ => None
  end.
Definition item_derive_where (i : item) (tr : list tok) : option where_clause :=
  match i with
  | IStruct s => Some (struct_derive_where s tr)
  | IEnum e => Some (enum_derive_where e tr)
  | IUnion u => Some (union_derive_where u tr)
  | _ => None
  end.
Definition item_where (i : item) : option where_clause :=
  match i with IStruct s => st_where s | IEnum e => en_where e | IUnion u => un_where u | _ => None end.
(** The parameters and predicates of a declaration. *)
Definition params_of (i : item) : list generic_param :=
  match item_generic_params i with Some g => pu_items (gpl_params g) | None => [] end.
Definition predicates (w : option where_clause) : list where_predicate :=
  match w with Some w => pu_items (wc_items w) | None => [] end.
(** Everything else: the item with its generics or its where clause removed. *)
Definition without_generics (i : item) : item :=
  match i with
  | IStruct s => IStruct (mkStruct (st_attributes s) (st_vis s) (st_struct s) (st_name s) None (st_where s) (st_fields s) (st_semicolon s))
  | IEnum e => IEnum (mkEnum (en_attributes e) (en_vis e) (en_enum e) (en_name e) None (en_where e) (en_braces e) (en_variants e))
  | IUnion u => IUnion (mkUnion (un_attributes u) (un_vis u) (un_union u) (un_name u) None (un_where u) (un_fields u))
  | i => i
  end.
Definition without_where (i : item) : item :=
  match i with
  | IStruct s => IStruct (mkStruct (st_attributes s) (st_vis s) (st_struct s) (st_name s) (st_generics s) None (st_fields s) (st_semicolon s))
  | IEnum e => IEnum (mkEnum (en_attributes e) (en_vis e) (en_enum e) (en_name e) (en_generics e) None (en_braces e) (en_variants e))
  | IUnion u => IUnion (mkUnion (un_attributes u) (un_vis u) (un_union u) (un_name u) (un_generics u) None (un_fields u))
  | i => i
  end.

(** ** Well-formed lists stay well-formed *)
Lemma wf_inner_push {A} (wf : bool -> A -> bool) skip l x :
  (forall b c y, wf b y = wf c y) -> wf_inner wf skip l = true -> wf true x = true ->
  wf_inner wf true (l ++ [(x, punct_new "," Alone)]) = true.
Proof.
  intros Hm. induction l as [|[y c] l IH]; intros H Hx.
  - cbn. rewrite (Hm _ true), Hx. reflexivity.
  - destruct l as [|[z d] l].
    + cbn in H |- *. bsplit. rewrite (Hm true (negb skip)), H, (Hm false true), Hx.
      assert (E : p_is "," c = true) by (destruct skip; auto using default_comma_is). rewrite E. reflexivity.
    + change (wf true y && p_is "," c && wf_inner wf skip ((z, d) :: l) = true) in H. bsplit.
      change (wf true y && p_is "," c && wf_inner wf true (((z, d) :: l) ++ [(x, punct_new "," Alone)]) = true).
      rwb. simpl andb. auto.
Qed.
Lemma wf_inner_first {A} (wf : bool -> A -> bool) skip l x :
  l <> [] -> wf_inner wf skip l = true -> wf true x = true ->
  wf_inner wf skip ((x, punct_new "," Alone) :: l) = true.
Proof. destruct l as [|[y c] l]; [congruence|]. intros _ H Hx. change (wf true x && p_is "," (punct_new "," Alone) && wf_inner wf skip ((y, c) :: l) = true). rewrite Hx, H. reflexivity. Qed.
Lemma wf_where_predicate_any b c w : wf_where_predicate b w = wf_where_predicate c w.
Proof. reflexivity. Qed.
Lemma wf_generic_param_any b c w : wf_generic_param b w = wf_generic_param c w.
Proof. reflexivity. Qed.

(** ** C34: [with_param] *)
(** A lifetime is put first, anything else last. *)
Definition placed (p : generic_param) (l : list generic_param) : list generic_param :=
  match gp_prefix p with
  | Some (TPunct q) => if p_is "'" q then p :: l else l ++ [p]
  | _ => l ++ [p]
  end.
Lemma gpl_with_param_spec l p : exists l', gpl_with_param l p = Ret l'
  /\ pu_items (gpl_params l') = placed p (pu_items (gpl_params l)) /\ gpl_l l' = gpl_l l /\ gpl_r l' = gpl_r l
  /\ (wf_generics l = true -> wf_generic_param true p = true -> wf_generics l' = true).
Proof.
  unfold gpl_with_param, placed, gp_is_lifetime, wf_generics, wf_punctuated, pu_items.
  assert (Push : exists l', Ret (mkGenericParamList (gpl_l l) (pu_push (gpl_params l) p None) (gpl_r l)) = Ret l'
    /\ map fst (pu_inner (gpl_params l')) = map fst (pu_inner (gpl_params l)) ++ [p] /\ gpl_l l' = gpl_l l /\ gpl_r l' = gpl_r l
    /\ (p_is "<" (gpl_l l) && wf_inner wf_generic_param (pu_skip_last (gpl_params l)) (pu_inner (gpl_params l)) && p_is ">" (gpl_r l) = true
        -> wf_generic_param true p = true ->
        p_is "<" (gpl_l l') && wf_inner wf_generic_param (pu_skip_last (gpl_params l')) (pu_inner (gpl_params l')) && p_is ">" (gpl_r l') = true)).
  { eexists. split; [reflexivity|]. cbn. split; [apply map_app|]. repeat split. intros H Hp. apply andb_prop in H. destruct H as [H E3]. apply andb_prop in H. destruct H as [E1 E2]. rewrite E1, E3.
    erewrite wf_inner_push; eauto using wf_generic_param_any. }
  destruct (gp_prefix p) as [[g|i|q|t]|]; auto. destruct (p_is "'" q); auto.
  unfold pu_insert, pu_len. cbn [Nat.leb negb]. destruct l as [a [inner skip] b]. cbn in *.
  destruct inner as [|x inner]; cbn [List.length Nat.eqb bind].
  - destruct Push as (l' & E & H). exists l'. rewrite E in *. split; auto.
  - eexists. split; [reflexivity|]. cbn -[wf_inner]. repeat split. intros H Hp. apply andb_prop in H. destruct H as [H E3]. apply andb_prop in H. destruct H as [E1 E2]. rewrite E1, E3.
    rewrite wf_inner_first; auto. discriminate.
Qed.
Lemma default_wf : wf_generics generic_params_default = true.
Proof. reflexivity. Qed.
Lemma generics_with_param_spec g p : exists l, generics_with_param g p = Ret (Some l)
  /\ pu_items (gpl_params l) = placed p (match g with Some g => pu_items (gpl_params g) | None => [] end)
  /\ gpl_l l = match g with Some g => gpl_l g | None => mkPunct "<" Alone call_site end
  /\ gpl_r l = match g with Some g => gpl_r g | None => mkPunct ">" Alone call_site end
  /\ (wf_opt wf_generics g = true -> wf_generic_param true p = true -> wf_generics l = true).
Proof.
  unfold generics_with_param.
  destruct (gpl_with_param_spec (match g with Some l => l | None => generic_params_default end) p) as (l & E & H1 & H2 & H3 & H4).
  exists l. rewrite E. destruct g; simpl in *; repeat split; auto.
Qed.
(** It never panics, adds exactly the parameter at its place, keeps the brackets and
    everything else. *)
Theorem C34_with_param (i : item) (p : generic_param) (o : outcome item) :
  item_with_param i p = Some o ->
  exists j g, o = Ret j /\ params_of j = placed p (params_of i) /\ without_generics j = without_generics i
    /\ item_generic_params j = Some g
    /\ gpl_l g = match item_generic_params i with Some g => gpl_l g | None => mkPunct "<" Alone call_site end
    /\ gpl_r g = match item_generic_params i with Some g => gpl_r g | None => mkPunct ">" Alone call_site end.
Proof.
  unfold item_with_param, params_of. destruct i; try discriminate; intro H; injection H as <-;
    unfold struct_with_param, enum_with_param, union_with_param; cbn [item_generic_params];
    match goal with |- context [generics_with_param ?g p] => destruct (generics_with_param_spec g p) as (l & E & H1 & H2 & H3 & _) end;
    rewrite E; cbn [bind]; do 2 eexists; repeat split; auto.
Qed.
(** The printed result parses back to exactly that item. *)
Theorem C34_reparse (i : item) (p : generic_param) :
  wf_item i = true -> follow_ok i [] = true -> wf_generic_param true p = true ->
  match item_with_param i p with
  | Some o => exists j, o = Ret j /\ parse_item (print_item j) = Ret (Ok j)
  | None => True
  end.
Proof.
  intros Hw Hf Hp. unfold item_with_param. destruct i; auto;
    unfold struct_with_param, enum_with_param, union_with_param;
    match goal with |- context [generics_with_param ?g p] => destruct (generics_with_param_spec g p) as (l & E & _ & _ & _ & H4) end;
    rewrite E; cbn [bind]; (eexists; split; [reflexivity|]); apply C01_print_parse_identity; auto;
    unfold wf_item in *; cbn [shape_item stable_item] in *; unfold shape_struct, wf_enum, wf_union in *; cbn -[wf_generics] in *; bsplit;
    rewrite H4; auto; rwb; auto.
Qed.
(** What is printed between the brackets. *)
Theorem C34_printed (l l' : generic_param_list) (p : generic_param) :
  gpl_with_param l p = Ret l' -> pu_items (gpl_params l) <> [] ->
  print_generic_params l' =
  TPunct (gpl_l l)
  :: (match gp_prefix p with
      | Some (TPunct q) =>
          if p_is "'" q then print_generic_param p ++ TPunct (mkPunct "," Alone call_site) :: print_punctuated print_generic_param (gpl_params l)
          else flat_map (fun x => print_generic_param (fst x) ++ [TPunct (snd x)]) (pu_inner (gpl_params l)) ++ print_generic_param p
      | _ => flat_map (fun x => print_generic_param (fst x) ++ [TPunct (snd x)]) (pu_inner (gpl_params l)) ++ print_generic_param p
      end) ++ [TPunct (gpl_r l)].
Proof.
  unfold gpl_with_param, gp_is_lifetime, print_generic_params. intros H Hn.
  assert (Push : forall l'', Ret (mkGenericParamList (gpl_l l) (pu_push (gpl_params l) p None) (gpl_r l)) = Ret l'' ->
    TPunct (gpl_l l'') :: print_punctuated print_generic_param (gpl_params l'') ++ [TPunct (gpl_r l'')]
    = TPunct (gpl_l l) :: (flat_map (fun x => print_generic_param (fst x) ++ [TPunct (snd x)]) (pu_inner (gpl_params l)) ++ print_generic_param p) ++ [TPunct (gpl_r l)]).
  { intros l'' E. injection E as <-. cbn [gpl_l gpl_params gpl_r]. rewrite C31_print_push. cbn [print_opt]. rewrite app_nil_r. reflexivity. }
  destruct (gp_prefix p) as [[g|i|q|t]|]; auto. destruct (p_is "'" q); auto.
  clear Push. revert H. unfold pu_insert, pu_len. cbn [Nat.leb negb]. destruct l as [a [inner skip] b]. cbn in *.
  destruct inner as [|[x c] inner]; [exfalso; apply Hn; reflexivity|]. cbn [List.length Nat.eqb bind]. intro H. injection H as <-. cbn.
  reflexivity.
Qed.
Example C34_example :
  match item_with_param (item_of "struct S<T: X, U,>(T);") (gp_bounded_lifetime "a" (lex "'b")),
        item_with_param (item_of "struct S<T: X, U,>(T);") (gp_const_param "N" (lex "usize")),
        item_with_param (item_of "enum E {}") (gp_ty "T") with
  | Some (Ret a), Some (Ret b), Some (Ret c) =>
      map (fun p => id_str (gp_name p)) (params_of a) = ["a"; "T"; "U"]
      /\ map (fun p => id_str (gp_name p)) (params_of b) = ["T"; "U"; "N"]
      /\ map (fun p => id_str (gp_name p)) (params_of c) = ["T"]
      /\ wf_item (item_of "struct S<T: X, U,>(T);") = true
  | _, _, _ => False
  end.
Proof. vm_compute. auto. Qed.

(** ** C35: [with_where_predicate] *)
Theorem C35_with_where (i j : item) (p : where_predicate) :
  item_with_where i p = Some j ->
  predicates (item_where j) = predicates (item_where i) ++ [p] /\ without_where j = without_where i
  /\ exists w, item_where j = Some w
     /\ wc_where w = match item_where i with Some w => wc_where w | None => mkIdent "where" call_site end.
Proof.
  assert (G : forall o, exists w, where_with_predicate o p = Some w /\ predicates (Some w) = predicates o ++ [p]
                /\ wc_where w = match o with Some w => wc_where w | None => mkIdent "where" call_site end).
  { intros [w|]; (eexists; split; [reflexivity|]); cbn; split; auto. unfold pu_items. cbn. apply map_app. }
  destruct i; try discriminate; intro H; injection H as <-; cbn [item_where];
    unfold struct_with_where, enum_with_where, union_with_where; cbn [st_where en_where un_where item_where];
    match goal with |- context [where_with_predicate ?o p] => destruct (G o) as (w & -> & H1 & H2) end;
    (split; [auto|split; [reflexivity|eauto]]).
Qed.
Lemma where_with_wf o p : wf_opt wf_where o = true -> wf_where_predicate true p = true ->
  wf_opt wf_where (where_with_predicate o p) = true.
Proof.
  intros H Hp. destruct o as [w|]; cbn in *.
  - unfold wf_where, wf_punctuated in *. cbn in *. bsplit. rewrite H. erewrite wf_inner_push; eauto using wf_where_predicate_any.
  - unfold wf_where, wf_punctuated. cbn. rewrite (wf_where_predicate_any false true), Hp. reflexivity.
Qed.
(** A tuple struct without its semicolon, which [parse_item] accepts. *)
Definition unfinished (i : item) : bool :=
  match i with
  | IStruct s => match st_fields s, st_semicolon s with FTuple _, None => true | _, _ => false end
  | _ => false
  end.
(** The printed result parses back to exactly that item, except for such structs. *)
Theorem C35_reparse (i j : item) (p : where_predicate) :
  wf_item i = true -> wf_where_predicate true p = true -> item_with_where i p = Some j ->
  (parse_item (print_item j) = Ret (Ok j) <-> follow_ok j [] = true)
  /\ (follow_ok j [] = true <-> unfinished i = false).
Proof.
  intros Hw Hp Hj. assert (W : wf_item j = true).
  { destruct i; try discriminate; injection Hj as <-; unfold wf_item in *; cbn [shape_item stable_item] in *;
      unfold shape_struct, wf_enum, wf_union in *; cbn -[where_with_predicate] in *; bsplit;
      rewrite where_with_wf; auto; rwb; auto. }
  split.
  - rewrite C01_print_parse_iff. tauto.
  - destruct i as [s| | | | | | | | | | | |]; try discriminate; injection Hj as <-; cbn -[where_with_predicate]; try tauto.
    unfold struct_follow, struct_with_where. cbn [st_fields st_semicolon st_where].
    unfold wf_item in Hw. cbn [shape_item stable_item] in Hw. unfold stable_struct in Hw. bsplit.
    destruct (st_fields s), (st_semicolon s); try tauto; try (simpl in *; discriminate).
    + destruct (st_where s); simpl; split; discriminate.
Qed.
Theorem C35_unfinished_refuted : exists i j p pn,
  parse_item (lex "struct S<T>(T)") = Ret (Ok i) /\ wf_item i = true /\ wf_where_predicate true p = true
  /\ item_with_where i p = Some j /\ parse_item (print_item j) = Panic pn.
Proof.
  eexists. eexists. exists (mkWherePredicate (lex "T") (mkBound (punct_new ":" Alone) (lex "Copy"))). eexists.
  vm_compute. auto 10.
Qed.
Example C35_example :
  let i := item_of "struct S<T>(T) where T: A;" in
  let p := mkWherePredicate (lex "T") (mkBound (punct_new ":" Alone) (lex "Copy")) in
  wf_item i = true /\ wf_where_predicate true p = true /\ unfinished i = false
  /\ match item_with_where i p with Some j => parse_item (print_item j) = Ret (Ok j) | None => False end.
Proof. vm_compute. auto. Qed.

(** ** C36: [create_derive_where_clause] *)
(** A type parameter: printed without a leading ['] or [const]. *)
Definition is_type_param (p : generic_param) : bool := match gp_prefix p with None => true | Some _ => false end.
Lemma derive_fold tr l w :
  let r := fold_left (fun wc (p : generic_param) =>
             wc_with_predicate wc (mkWherePredicate [TIdent (gp_name p)] (mkBound (punct_new ":" Alone) tr))) l w in
  pu_items (wc_items r) = pu_items (wc_items w)
     ++ map (fun p => mkWherePredicate [TIdent (gp_name p)] (mkBound (mkPunct ":" Alone call_site) tr)) l
  /\ wc_where r = wc_where w.
Proof.
  revert w. induction l as [|p l IH]; intro w; cbn [fold_left map]; [rewrite app_nil_r; auto|].
  destruct (IH (wc_with_predicate w (mkWherePredicate [TIdent (gp_name p)] (mkBound (punct_new ":" Alone) tr)))) as [H1 H2].
  cbn zeta. rewrite H1, H2. split; [|reflexivity]. unfold pu_items at 1. cbn. rewrite map_app, <- app_assoc. reflexivity.
Qed.
Theorem C36_derive (i : item) (tr : list tok) (w : where_clause) :
  item_derive_where i tr = Some w ->
  pu_items (wc_items w) = predicates (item_where i)
     ++ map (fun p => mkWherePredicate [TIdent (gp_name p)] (mkBound (mkPunct ":" Alone call_site) tr))
          (filter is_type_param (params_of i))
  /\ wc_where w = match item_where i with Some w => wc_where w | None => mkIdent "where" call_site end.
Proof.
  assert (F : forall g, type_params g = filter is_type_param (match g with Some g => pu_items (gpl_params g) | None => [] end)).
  { intro g. unfold type_params, generics_params. transitivity (filter gp_is_ty (match g with Some g => pu_items (gpl_params g) | None => [] end)).
    - destruct g; reflexivity.
    - apply filter_ext. intro p. unfold gp_is_ty, is_type_param, is_none, is_some. destruct (gp_prefix p); reflexivity. }
  unfold item_derive_where, params_of. destruct i; try discriminate; intro H; injection H as <-;
    unfold struct_derive_where, enum_derive_where, union_derive_where, derive_where; cbn [item_where item_generic_params];
    match goal with |- context [fold_left _ (type_params ?g) ?w0] => pose proof (derive_fold tr (type_params g) w0) as D end;
    cbn zeta in D; destruct D as [-> ->]; rewrite F;
    match goal with |- context [match ?o with Some w => w | None => where_default end] => destruct o; auto end.
Qed.
(** In front of a body, it is read back as it is. *)
Theorem C36_reads_back (i : item) (tr rest : list tok) (w : where_clause) s sp :
  shape_item i = true -> run_closed end_where_item tr = true -> item_derive_where i tr = Some w ->
  consume_where_clause (print_where w ++ TGroup (mkGroup Brace s sp) :: rest)
  = Ret (Some w, TGroup (mkGroup Brace s sp) :: rest).
Proof.
  intros Hw Ht Hd. assert (G : forall l w0, wf_where w0 = true ->
    wf_where (fold_left (fun wc (p : generic_param) =>
             wc_with_predicate wc (mkWherePredicate [TIdent (gp_name p)] (mkBound (punct_new ":" Alone) tr))) l w0) = true).
  { induction l as [|p l IH]; intros w0 H0; auto. cbn [fold_left]. apply IH.
    apply (where_with_wf (Some w0)); auto. }
  apply (where_brace_complete (Some w)). cbn [wf_opt].
  destruct i; try discriminate; injection Hd as <-; apply G; cbn [shape_item] in Hw;
    unfold shape_struct, wf_enum, wf_union in Hw; bsplit;
    match goal with |- wf_where (match ?o with _ => _ end) = true => destruct o; auto end.
Qed.
Example C36_example :
  match item_derive_where (item_of "struct S<'a, T, const N: usize, U: X>(T) where T: Clone;") (lex "Tr<u8>") with
  | Some w => map (fun p => texts (print_where_predicate p)) (pu_items (wc_items w))
              = [["T"; ":"; "Clone"]; ["T"; ":"; "Tr"; "<"; "u8"; ">"]; ["U"; ":"; "Tr"; "<"; "u8"; ">"]]
  | None => False
  end /\ run_closed end_where_item (lex "Tr<u8>") = true.
Proof. vm_compute. auto. Qed.

(** ** C38: kinds of parameters *)
(** The three kinds, told apart by the first printed token. *)
Definition prints_lifetime (p : generic_param) : bool := head_is (is_punct "'") (print_generic_param p).
Definition prints_const (p : generic_param) : bool := head_is (is_ident "const") (print_generic_param p).
Definition prints_type (p : generic_param) : bool := negb (prints_lifetime p) && negb (prints_const p).
Lemma kinds_agree p : wf_generic_param true p = true ->
  gp_is_lifetime p = prints_lifetime p /\ gp_is_const p = prints_const p /\ gp_is_ty p = prints_type p.
Proof.
  unfold wf_generic_param, gp_is_lifetime, gp_is_const, gp_is_ty, prints_type, prints_lifetime, prints_const, print_generic_param, is_none, is_some.
  intro H. bsplit. destruct (gp_prefix p) as [[g|i|q|t]|]; try discriminate; simpl; auto.
  - rewrite H. auto.
  - rewrite H. auto.
  - simpl in H. apply negb_true_iff in H. rewrite H. auto.
Qed.
Definition exactly_one (l : list bool) : Prop := List.length (filter (fun b => b) l) = 1.
Lemma filter_ext_forall {A} (f g : A -> bool) l : Forall (fun x => f x = g x) l -> filter f l = filter g l.
Proof. induction 1; simpl; auto. rewrite H, IHForall. reflexivity. Qed.
Theorem C38_partition (g : generic_param_list) :
  wf_generics g = true ->
  lifetime_params (Some g) = filter prints_lifetime (pu_items (gpl_params g))
  /\ type_params (Some g) = filter prints_type (pu_items (gpl_params g))
  /\ const_params (Some g) = filter prints_const (pu_items (gpl_params g))
  /\ Forall (fun p => exactly_one [prints_lifetime p; prints_type p; prints_const p]) (pu_items (gpl_params g)).
Proof.
  intro H. unfold wf_generics, wf_punctuated in H. bsplit.
  assert (F : Forall (fun p => wf_generic_param true p = true) (pu_items (gpl_params g))).
  { apply Forall_forall. intros p Hp. match goal with H : wf_inner _ _ _ = true |- _ => destruct (wf_inner_in _ _ _ _ H Hp) as [b Hb] end.
    rewrite (wf_generic_param_any _ b). auto. }
  unfold lifetime_params, type_params, const_params, generics_params.
  change (map fst (pu_inner (gpl_params g))) with (pu_items (gpl_params g)).
  repeat split; try (apply filter_ext_forall; eapply Forall_impl; [|exact F]; intros p Hp; apply kinds_agree; auto).
  eapply Forall_impl; [|exact F]. intros p Hp. destruct (kinds_agree p Hp) as (E1 & E2 & E3).
  rewrite <- E1, <- E2, <- E3. unfold gp_is_lifetime, gp_is_ty, gp_is_const, is_none, is_some.
  unfold wf_generic_param in Hp. bsplit. destruct (gp_prefix p) as [[|i|q|]|]; try discriminate; rwb; vm_compute; auto.
Qed.
(** For every parsed item, at any depth. *)
Theorem C38_parsed (ts rest : list tok) i j g :
  consume_item ts = Ret (Ok i, rest) -> In j (all_items i) -> item_generic_params j = Some g -> wf_generics g = true.
Proof.
  intros H Hj Hg. pose proof (parsed_shape _ _ _ _ H Hj) as Hw. destruct j; try discriminate; cbn [item_generic_params shape_item] in *;
    unfold shape_struct, wf_enum, wf_union, shape_trait, wf_function, shape_impl in Hw; rewrite Hg in Hw; bsplit; auto.
Qed.
Example C38_example :
  match item_generic_params (item_of "impl<'a, T: X, const N: usize> S<T> {}") with
  | Some g => wf_generics g = true
      /\ map (fun p => id_str (gp_name p)) (type_params (Some g)) = ["T"]
      /\ map (fun p => id_str (gp_name p)) (const_params (Some g)) = ["N"]
  | None => False
  end.
Proof. vm_compute. auto. Qed.

(** ** C41: mutable accessors *)
Theorem C41_attributes_lens (i : item) (a b : list attribute) :
  item_attributes (item_set_attributes i a) = a
  /\ item_set_attributes i (item_attributes i) = i
  /\ item_set_attributes (item_set_attributes i a) b = item_set_attributes i b.
Proof. destruct i as [[]|[]|[]|[]|[]|[]|[]|[]|[]|[]|[]|[]|[]]; cbn; auto. Qed.
(** Writing changes the printed form only in the attributes at its head, and nothing else the
    other accessors show. *)
Theorem C41_attributes_frame (i : item) :
  (exists body, forall a, print_item (item_set_attributes i a) = print_attributes a ++ body)
  /\ forall a, item_name (item_set_attributes i a) = item_name i
      /\ item_generic_params (item_set_attributes i a) = item_generic_params i
      /\ item_where (item_set_attributes i a) = item_where i.
Proof.
  split.
  - exists (print_item (item_set_attributes i [])). intro a. destruct i as [[]|[]|[]|[]|[]|[]|[]|[]|[]|[]|[]|[]|[]]; reflexivity.
  - intro a. destruct i as [[]|[]|[]|[]|[]|[]|[]|[]|[]|[]|[]|[]|[]]; cbn; auto.
Qed.
(** And the result still parses back. *)
Theorem C41_attributes_reparse (i : item) (a : list attribute) :
  wf_item i = true -> follow_ok i [] = true -> wf_outer a = true ->
  parse_item (print_item (item_set_attributes i a)) = Ret (Ok (item_set_attributes i a)).
Proof.
  intros H Hf Ha. apply C01_print_parse_identity.
  - unfold wf_item in *. destruct i as [[]|[]|[]|[]|[]|[]|[]|[]|[]|[]|[]|[]|[]]; cbn -[wf_outer] in *;
      unfold shape_struct, wf_enum, wf_union, shape_module, shape_trait, shape_impl, wf_type_alias, wf_function, shape_constant,
        wf_use, shape_macro, shape_extern_block, wf_extern_crate in *; cbn -[wf_outer] in *; bsplit; rewrite Ha; rwb; auto.
  - destruct i as [[]|[]|[]|[]|[]|[]|[]|[]|[]|[]|[]|[]|[]]; auto.
Qed.
Theorem C41_generics_lens (i j : item) (v : generic_param_list) :
  item_set_generic_params i v = Some j ->
  item_generic_params j = Some v
  /\ (forall w, item_set_generic_params j w = item_set_generic_params i w)
  /\ (forall w, item_generic_params i = Some w -> item_set_generic_params j w = Some i).
Proof.
  destruct i as [[]|[]|[]|[]|[]|[]|[]|[]|[]|[]|[]|[]|[]]; cbn; try discriminate;
    match goal with |- context [match ?g with Some _ => _ | None => None end] => destruct g end; try discriminate;
    intro H; injection H as <-; cbn; repeat split; auto; intros w E; injection E as ->; reflexivity.
Qed.
Theorem C41_generics_available (i : item) (v : generic_param_list) :
  (exists j, item_set_generic_params i v = Some j) <-> (exists g, item_generic_params i = Some g).
Proof.
  destruct i as [[]|[]|[]|[]|[]|[]|[]|[]|[]|[]|[]|[]|[]]; cbn;
    try match goal with |- context [match ?g with Some _ => _ | None => None end] => destruct g end;
    split; intros [x Hx]; try discriminate; eauto.
Qed.
Theorem C41_generics_frame (i : item) (g : generic_param_list) :
  item_generic_params i = Some g ->
  exists pre post, print_item i = pre ++ print_generic_params g ++ post
  /\ forall v j, item_set_generic_params i v = Some j -> print_item j = pre ++ print_generic_params v ++ post
      /\ item_name j = item_name i /\ item_attributes j = item_attributes i /\ item_where j = item_where i.
Proof.
  assert (G : forall (pre post : list tok) (mk : generic_param_list -> item),
    (forall v, print_item (mk v) = pre ++ print_generic_params v ++ post) -> (forall v, item_set_generic_params (mk g) v = Some (mk v)) ->
    (forall v, item_name (mk v) = item_name (mk g) /\ item_attributes (mk v) = item_attributes (mk g) /\ item_where (mk v) = item_where (mk g)) ->
    exists pre post, print_item (mk g) = pre ++ print_generic_params g ++ post
    /\ forall v j, item_set_generic_params (mk g) v = Some j -> print_item j = pre ++ print_generic_params v ++ post
      /\ item_name j = item_name (mk g) /\ item_attributes j = item_attributes (mk g) /\ item_where j = item_where (mk g)).
  { intros pre post mk H1 H2 H3. exists pre, post. split; auto. intros v j E. rewrite H2 in E. injection E as <-. split; auto. }
  intro H. destruct i as [[a vi kw n ge w f se]|[a vi kw n ge w br va]|[a vi kw n ge w f]| |[a vi u kw n ge bd w br ia its]
    |[a u kw ge ti fo sf w br ia its]| |[a vi q kw n ge pa ps w ar re se bo]| | | | |]; cbn in H; try discriminate; subst ge.
  - apply (G (print_attributes a ++ print_opt print_vis vi ++ [TIdent kw; TIdent n])
      (match f with
       | FNamed _ => print_opt print_where w ++ print_fields f
       | _ => print_fields f ++ print_opt print_where w ++ print_opt print_punct se end)
      (fun v => IStruct (mkStruct a vi kw n (Some v) w f se))); auto. intro v. cbn -[print_generic_params]. unfold print_struct.
    cbn -[print_generic_params]. rewrite <- !app_assoc. cbn [app]. reflexivity.
  - eapply (G (print_attributes a ++ print_opt print_vis vi ++ [TIdent kw; TIdent n]) _
      (fun v => IEnum (mkEnum a vi kw n (Some v) w br va))); auto. intro v. cbn -[print_generic_params]. unfold print_enum.
    cbn -[print_generic_params]. rewrite <- !app_assoc. cbn [app]. reflexivity.
  - eapply (G (print_attributes a ++ print_opt print_vis vi ++ [TIdent kw; TIdent n]) _
      (fun v => IUnion (mkUnion a vi kw n (Some v) w f))); auto. intro v. cbn -[print_generic_params]. unfold print_union.
    cbn -[print_generic_params]. rewrite <- !app_assoc. cbn [app]. reflexivity.
  - eapply (G (print_attributes a ++ print_opt print_vis vi ++ print_opt print_ident u ++ [TIdent kw; TIdent n]) _
      (fun v => ITrait (mkTrait a vi u kw n (Some v) bd w br ia its))); auto. intro v. cbn -[print_generic_params]. unfold print_trait.
    cbn -[print_generic_params]. rewrite <- !app_assoc. cbn [app]. reflexivity.
  - eapply (G (print_attributes a ++ print_opt print_ident u ++ [TIdent kw]) _
      (fun v => IImpl (mkImpl a u kw (Some v) ti fo sf w br ia its))); auto. intro v. cbn -[print_generic_params]. unfold print_impl.
    cbn -[print_generic_params]. rewrite <- !app_assoc. cbn [app]. reflexivity.
  - eapply (G (print_attributes a ++ print_opt print_vis vi ++ print_qualifiers q ++ [TIdent kw; TIdent n]) _
      (fun v => IFunction (mkFunction a vi q kw n (Some v) pa ps w ar re se bo))); auto. intro v. cbn -[print_generic_params]. unfold print_function.
    cbn -[print_generic_params print_qualifiers]. rewrite <- !app_assoc. cbn [app]. reflexivity.
Qed.
Example C41_example :
  let i := item_of "#[a] pub trait T<A>: B where A: C { fn f(); }" in
  let v := gpl_params generic_params_default in
  wf_item i = true /\ match item_set_generic_params i generic_params_default with
                      | Some j => texts (print_item j) = ["#"; "(..)"; "pub"; "trait"; "T"; "<"; ">"; ":"; "B"; "where"; "A"; ":"; "C"; "(..)"]
                      | None => False
                      end.
Proof. vm_compute. auto. Qed.

(** ** C56: parameters made by the constructors *)
(** A constructed parameter prints as expected and is of the expected kind. *)
Theorem C56_constructors (name : string) (ts : list tok) :
  let id := TIdent (mkIdent name call_site) in
  let colon := TPunct (mkPunct ":" Alone call_site) in
  print_generic_param (gp_lifetime name) = [TPunct (mkPunct "'" Joint call_site); id]
  /\ print_generic_param (gp_bounded_lifetime name ts) = TPunct (mkPunct "'" Alone call_site) :: id :: colon :: ts
  /\ print_generic_param (gp_ty name) = [id]
  /\ print_generic_param (gp_bounded_ty name ts) = id :: colon :: ts
  /\ print_generic_param (gp_const_param name ts) = TIdent (mkIdent "const" call_site) :: id :: colon :: ts
  /\ gp_is_lifetime (gp_lifetime name) = true /\ gp_is_lifetime (gp_bounded_lifetime name ts) = true
  /\ gp_is_ty (gp_ty name) = true /\ gp_is_ty (gp_bounded_ty name ts) = true /\ gp_is_const (gp_const_param name ts) = true.
Proof. repeat split. Qed.
(** Which ones survive a print and a parse, alone in a list. *)
Definition only (p : generic_param) : generic_param_list :=
  mkGenericParamList (punct_new "<" Alone) (pu_push pu_new p None) (punct_new ">" Alone).
Lemma generics_sound_exact g rest :
  consume_generic_params (print_generic_params g ++ rest) = Ret (Some g, rest) <-> wf_generics g = true.
Proof.
  split.
  - intro H. destruct (generics_sound _ _ _ H) as (_ & Hw & _). exact Hw.
  - intro H. apply (generics_complete (Some g)); auto. discriminate.
Qed.
Theorem C56_survive (name : string) (ts rest : list tok) :
  let back p := consume_generic_params (print_generic_params (only p) ++ rest) = Ret (Some (only p), rest) in
  back (gp_lifetime name)
  /\ (back (gp_ty name) <-> name <> "const")
  /\ (back (gp_bounded_lifetime name ts) <-> run_closed end_param ts = true)
  /\ (back (gp_bounded_ty name ts) <-> name <> "const" /\ run_closed end_param ts = true)
  /\ (back (gp_const_param name ts) <-> run_closed end_param ts = true).
Proof.
  cbn zeta. rewrite !generics_sound_exact. unfold wf_generics, wf_punctuated, only, wf_generic_param, wf_bound. cbn -[run_closed end_param].
  unfold id_is, p_is. cbn -[run_closed end_param]. rewrite !andb_true_r. pose proof (String.eqb_spec name "const") as S.
  repeat split; try tauto; destruct (run_closed end_param ts); inversion S as [E N|E N]; rewrite <- ?N in *; simpl; try tauto; try discriminate.
Qed.
Example C56_example : run_closed end_param (lex "Fn() -> T") = false /\ run_closed end_param (lex "Iterator<Item = U> + 'a") = true.
Proof. vm_compute. auto. Qed.

(** ** C57: [WhereClausePredicate::parse] *)
(** It splits at the first colon outside of angle brackets, losing nothing. *)
Theorem C57_parse (ts : list tok) (w : where_predicate) :
  where_predicate_parse ts = Ret w <->
  ts = print_where_predicate w /\ p_char (gb_colon (wp_bound w)) = ":"%char
  /\ top_level (wp_left w) /\ (forall a t b, wp_left w = a ++ t :: b -> ~ ends_run (is_punct ":") a t).
Proof.
  unfold where_predicate_parse, print_where_predicate, print_bound. split.
  - intro H. inv_bind H. destruct x as [lhs r]. apply C13_run in Hx. destruct Hx as [-> [Hn Hr]].
    destruct r as [|[g|i|colon|l] r]; try discriminate. destruct (p_is ":" colon) eqn:E; [|discriminate].
    injection H as <-. cbn. repeat split; auto.
    + unfold p_is in E. apply Ascii.eqb_eq in E. auto.
    + destruct Hr as [Hr _]. auto.
  - intros (-> & Hc & Ht & Hn). destruct w as [lhs [colon r]]. cbn in *.
    assert (E : consume_stuff_until (is_punct ":") false (lhs ++ TPunct colon :: r) = Ret (lhs, TPunct colon :: r)).
    { apply C13_run. split; auto. split; auto. split; auto. right. cbn. unfold p_is. rewrite Hc. auto. }
    rewrite E. cbn. unfold p_is. rewrite Hc. reflexivity.
Qed.
Theorem C57_panics (ts : list tok) :
  (forall w, where_predicate_parse ts <> Ret w) ->
  where_predicate_parse ts = Panic PPredicateToken \/ where_predicate_parse ts = Panic PPredicateEnd.
Proof.
  unfold where_predicate_parse. intro H. destruct (consume_stuff_until (is_punct ":") false ts) as [[lhs r]|p|] eqn:E.
  - cbn in *. destruct r as [|[g|i|colon|l] r]; auto. destruct (p_is ":" colon); auto. exfalso. eapply H. reflexivity.
  - exfalso. unfold consume_stuff_until in E. destruct (stuff_loop (is_punct ":") 0 false ts) as [[? ?] ?]. discriminate.
  - exfalso. unfold consume_stuff_until in E. destruct (stuff_loop (is_punct ":") 0 false ts) as [[? ?] ?]. discriminate.
Qed.
Example C57_example : exists w, where_predicate_parse (lex "Vec<A: B>: Tr, U") = Ret w
  /\ texts (wp_left w) = ["Vec"; "<"; "A"; ":"; "B"; ">"] /\ texts (gb_tokens (wp_bound w)) = ["Tr"; ","; "U"].
Proof. eexists. vm_compute. auto. Qed.

(** ** C58: a parsed predicate added to a where clause *)
(** Not always one predicate once printed: the bound is not checked. *)
Theorem C58_one_predicate_refuted : exists w i j k,
  where_predicate_parse (lex "T: A, U: B") = Ret w /\ parse_item (lex "enum E<T, U> {}") = Ret (Ok i)
  /\ item_with_where i w = Some j /\ List.length (predicates (item_where j)) = 1
  /\ parse_item (print_item j) = Ret (Ok k) /\ List.length (predicates (item_where k)) = 2.
Proof. do 4 eexists. vm_compute. auto 10. Qed.
(** Exactly when its bound has no comma, brace group or semicolon outside of brackets and the
    left side does not start with a brace group or semicolon. *)
Theorem C58_one_predicate_iff (ts : list tok) (w : where_predicate) (i j : item) :
  where_predicate_parse ts = Ret w -> wf_item i = true -> unfinished i = false -> item_with_where i w = Some j ->
  (parse_item (print_item j) = Ret (Ok j) <->
   run_closed end_where_item (gb_tokens (wp_bound w)) = true
   /\ head_is (is_group Brace) (wp_left w) = false /\ head_is (is_punct ";") (wp_left w) = false).
Proof.
  intros Hp Hw Hu Hj. apply C57_parse in Hp. destruct Hp as (-> & Hc & Ht & Hn).
  assert (E : wf_where_predicate true w = run_closed end_where_item (gb_tokens (wp_bound w))
     && negb (head_is (is_group Brace) (wp_left w)) && negb (head_is (is_punct ";") (wp_left w))).
  { unfold wf_where_predicate, wf_bound, p_is. rewrite Hc.
    assert (R : run_closed (is_punct ":") (wp_left w) = true).
    { unfold run_closed. assert (S : scan (is_punct ":") 0 false (wp_left w) = Some (state (wp_left w), after_dash (wp_left w))) by (apply scan_run; auto).
      rewrite S. apply Z.eqb_eq. unfold top_level in Ht. unfold state. lia. }
    rewrite R. cbn -[run_closed]. destruct (run_closed end_where_item (gb_tokens (wp_bound w))), (head_is (is_group Brace) (wp_left w)), (head_is (is_punct ";") (wp_left w)); reflexivity. }
  rewrite C01_print_parse_iff.
  assert (F : wf_where_predicate true w = true -> wf_item j = true /\ follow_ok j [] = true).
  { intro Hq. destruct (C35_reparse i j w Hw Hq Hj) as [H1 H2]. apply H2 in Hu. split; auto.
    apply H1, C01_print_parse_iff in Hu. tauto. }
  assert (B : wf_item j = true -> wf_where_predicate true w = true).
  { intro H. assert (V : exists c, item_where j = Some c /\ wf_where c = true /\ In w (pu_items (wc_items c))).
    { destruct (C35_with_where _ _ _ Hj) as (P & _ & c & Hc' & _). exists c. split; auto. rewrite Hc' in P. cbn in P. rewrite P. split; [|apply in_or_app; right; left; auto].
      unfold wf_item in H. destruct j; try discriminate; cbn [item_where shape_item stable_item] in *;
        unfold shape_struct, wf_enum, wf_union in H; rewrite Hc' in H; bsplit; auto. }
    destruct V as (c & _ & V1 & V2). unfold wf_where, wf_punctuated in V1. bsplit.
    match goal with H : wf_inner _ _ _ = true |- _ => destruct (wf_inner_in _ _ _ _ H V2) as [b Hb] end.
    rewrite (wf_where_predicate_any _ b). auto. }
  rewrite E in F, B. rewrite !andb_true_iff, !negb_true_iff in F, B. tauto.
Qed.
Example C58_example :
  let w := mkWherePredicate (lex "T") (mkBound (punct_new ":" Joint) (lex "Fn(A, B) -> C")) in
  run_closed end_where_item (gb_tokens (wp_bound w)) = true /\ wf_item (item_of "union U { x: u8 }") = true.
Proof. vm_compute. auto. Qed.
Example C58_example_all :
  let ts := lex "for<'a> F: Fn(A, B) -> C" in
  exists w j, where_predicate_parse ts = Ret w /\ item_with_where (item_of "union U { x: u8 }") w = Some j
  /\ unfinished (item_of "union U { x: u8 }") = false /\ wf_item (item_of "union U { x: u8 }") = true
  /\ parse_item (print_item j) = Ret (Ok j).
Proof. eexists. eexists. split; [vm_compute; reflexivity|]. split; [vm_compute; reflexivity|]. vm_compute. auto. Qed.

Print Assumptions C34_with_param.
Print Assumptions C34_reparse.
Print Assumptions C34_printed.
Print Assumptions C35_with_where.
Print Assumptions C35_reparse.
Print Assumptions C36_derive.
Print Assumptions C36_reads_back.
Print Assumptions C38_partition.
Print Assumptions C41_attributes_frame.
Print Assumptions C41_attributes_reparse.
Print Assumptions C41_generics_frame.
Print Assumptions C56_survive.
Print Assumptions C57_parse.
Print Assumptions C58_one_predicate_iff.

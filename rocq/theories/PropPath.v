(** C09, C10, C37, C44-C48, C53: termination, paths, generic arguments, predicates. *)
From Verif Require Import PathProof Unfold Edit ScanSpec PropScan Samples.

(** ** C09: termination.  [OutOfFuel] is the outcome of a loop or recursion that did not end
    within its bound: the number of tokens for loops, the group depth for recursion. *)
Lemma where_predicate_parse_safe ts : safe (where_predicate_parse ts).
Proof.
  unfold where_predicate_parse. apply safe_bind; [apply until_safe|]. intros [l r] _.
  destruct r as [|[] ?]; simpl; auto. destruct (p_is ":" p); simpl; auto.
Qed.
Theorem C09_terminates (ts : list tok) :
  consume_item ts <> OutOfFuel /\ parse_item ts <> OutOfFuel
  /\ as_path (mkTypeExpr ts) <> OutOfFuel /\ where_predicate_parse ts <> OutOfFuel.
Proof.
  pose proof (consume_item_safe ts). pose proof (parse_item_safe ts).
  pose proof (as_path_safe (mkTypeExpr ts)). pose proof (where_predicate_parse_safe ts).
  repeat split; intro E; rewrite E in *; contradiction.
Qed.
(** The bound on the recursion is only a bound: any larger one gives the same result, and the
    result satisfies the recursion equation of the source, in which nothing is bounded. *)
Theorem C09_depth_irrelevant (ts : list tok) n :
  toks_depth ts < n -> fst (nest n) ts = consume_item ts.
Proof. intro H. unfold consume_item. apply nest_agree; lia. Qed.
Theorem C09_recursion_equation ts :
  consume_item ts = consume_item_body consume_item consume_either_item ts.
Proof. apply consume_item_unfold. Qed.
Theorem C09_recursion_equation_either attrs vis ts :
  consume_either_item attrs vis ts = consume_either consume_item consume_either_item attrs vis ts.
Proof. apply consume_either_unfold. Qed.
(** Modules in modules, [n] deep. *)
Fixpoint tower (n : nat) : list tok :=
  match n with
  | O => []
  | S n => [TIdent (mkIdent "mod" 1%N); TIdent (mkIdent "m" 2%N); TGroup (mkGroup Brace (tower n) 3%N)]
  end.
Example C09_example : toks_depth (tower 50) = 50 /\
  match parse_item (tower 50) with Ret (Ok (IModule m)) => List.length (mo_members m) = 1 | _ => False end.
Proof. vm_compute. auto. Qed.

(** ** C10: the panics the source declares impossible *)
Theorem C10_no_impossible_panic (ts : list tok) p :
  parse_item ts = Panic p \/ consume_item ts = Panic p
  \/ as_path (mkTypeExpr ts) = Panic p \/ where_predicate_parse ts = Panic p ->
  p <> PUnreachable /\ p <> PAssertTupleWhere.
Proof.
  pose proof (consume_item_safe ts). pose proof (parse_item_safe ts).
  pose proof (as_path_safe (mkTypeExpr ts)). pose proof (where_predicate_parse_safe ts).
  intros [E|[E|[E|E]]]; rewrite E in *; split; intros ->; discriminate.
Qed.
(** Inputs at the edge of these assertions. *)
Example C10_example :
  map (fun s => panic_of (parse_item (lex s)))
    ["struct S where T: A (B);"; "struct S where T: A {} (B);"; "struct S(A) where T: B {}"; "unsafe x";
     "struct S<T>(A>) ;"; "use a>b;"; "use a"]%string
  = [None; Some PTrailingTokens; Some PTrailingTokens; Some PUnsafeIdent; Some PTypeMissing;
     Some PUnbalancedAngle; Some PTypeEnd].
Proof. vm_compute. reflexivity. Qed.

(** ** C44: as_path *)
Lemma print_spells_args g : spells_generic_args g (print_generic_args g).
Proof. exists None. split; [|reflexivity]. unfold print_generic_args. simpl. reflexivity. Qed.
Lemma print_spells_path p : spells_path p (print_path p).
Proof.
  unfold spells_path, print_path. induction (pa_segments p) as [|s l IH]; [reflexivity|].
  cbn [flat_map spells_segments]. exists (print_path_segment s), (flat_map print_path_segment l). split; auto. split; auto.
  unfold print_path_segment. exists (print_opt print_generic_args (ps_args s)). split; auto.
  destruct (ps_args s); simpl; auto. apply print_spells_args.
Qed.
Lemma path_not_group p ts : spells_path p ts -> wf_path p = true -> unwrap_invisible_group (mkTypeExpr ts) = None.
Proof.
  unfold spells_path, wf_path. destruct (pa_segments p) as [|s l]; [discriminate|]. intros (c1 & c2 & -> & (ca & _ & ->) & _) _.
  destruct (ps_colons s); reflexivity.
Qed.
(** Every well-formed path is recognised from its printed tokens. *)
Theorem C44_as_path_print (p : path) :
  wf_path p = true -> as_path (mkTypeExpr (print_path p)) = Ret (Some p).
Proof.
  intro H. pose proof (print_spells_path p) as Hs. unfold as_path. rewrite (path_not_group p) by auto.
  apply path_complete; auto.
Qed.
(** The result, when there is one, is a well-formed path spelled by the tokens; the
    spellings of a path are its printed tokens plus surplus commas. *)
Definition visible_tokens (t : type_expr) : list tok :=
  match te_tokens t with
  | [TGroup (mkGroup NoDelim ts _)] => ts
  | ts => ts
  end.
Lemma as_path_visible t : as_path t = consume_path (visible_tokens t).
Proof.
  destruct t as [ts]. unfold as_path, unwrap_invisible_group, visible_tokens. simpl. destruct ts as [|[[[] s sp]| | |] [|? ?]]; reflexivity.
Qed.
Theorem C44_as_path_iff (t : type_expr) (p : path) :
  as_path t = Ret (Some p) <-> wf_path p = true /\ spells_path p (visible_tokens t).
Proof. rewrite as_path_visible. apply consume_path_iff. Qed.
(** Removing the surplus commas: what is kept is the printed form. *)
Inductive drop_commas : list tok -> list tok -> Prop :=
| dc_nil : drop_commas [] []
| dc_keep t a b : drop_commas a b -> drop_commas (t :: a) (t :: b)
| dc_drop c r a b : p_is "," c = true -> is_punct ">" r = true -> drop_commas a b ->
    drop_commas (TPunct c :: r :: a) (r :: b).
Lemma dc_refl a : drop_commas a a. Proof. induction a; constructor; auto. Qed.
Lemma dc_app a b c d : drop_commas a b -> drop_commas c d -> drop_commas (a ++ c) (b ++ d).
Proof. induction 1; intros; simpl; [auto|apply dc_keep; auto|apply dc_drop; auto]. Qed.
Theorem C44_as_path_tokens (t : type_expr) (p : path) :
  as_path t = Ret (Some p) -> drop_commas (visible_tokens t) (print_path p).
Proof.
  intro H. apply C44_as_path_iff in H. destruct H as [Hw H]. revert H. generalize (visible_tokens t). clear t.
  unfold spells_path, print_path, wf_path in *.
  assert (Hr : forallb (fun s => wf_opt wf_generic_args (ps_args s)) (pa_segments p) = true).
  { destruct (pa_segments p) as [|s l]; auto. simpl. bsplit. unfold wf_segment in H. bsplit. rewrite H1. simpl.
    clear - H0. induction l; auto. simpl in *. bsplit. unfold wf_segment in H. bsplit. rewrite H1. auto. }
  clear Hw. induction (pa_segments p) as [|s l IH]; intros c H; cbn [spells_segments flat_map] in *.
  - subst. constructor.
  - destruct H as (c1 & c2 & -> & (ca & Ha & ->) & H2). simpl in Hr. bsplit. apply dc_app; auto.
    unfold print_path_segment. apply dc_app; [apply dc_refl|]. apply dc_keep.
    destruct (ps_args s) as [g|]; simpl; [|subst; constructor].
    destruct Ha as (surplus & -> & Hs). unfold print_generic_args. apply dc_app; [apply dc_refl|]. apply dc_keep.
    apply dc_app; [apply dc_refl|]. simpl in H. unfold wf_generic_args in H. bsplit.
    destruct surplus; simpl; [|apply dc_refl]. simpl in Hs. bsplit. apply dc_drop; auto. constructor.
Qed.
Example C44_example : exists p,
  as_path (mkTypeExpr (lex "::std::map::Map<'a, Vec<u8>, Item = B<C, D>, 3,>::Key")) = Ret (Some p)
  /\ List.length (pa_segments p) = 4 /\ wf_path p = true /\
  print_path p = lex "::std::map::Map<'a, Vec<u8>, Item = B<C, D>, 3,>::Key".
Proof. eexists. vm_compute. auto. Qed.

(** ** C45: as_path is total?  No. *)
Theorem C45_as_path_total_refuted :
  (exists p, as_path (mkTypeExpr (lex "Foo<'a + 'b>")) = Panic p)
  /\ (exists p, as_path (mkTypeExpr (lex "Foo<A")) = Panic p)
  /\ (exists p, as_path (mkTypeExpr (lex "Foo<'>")) = Panic p).
Proof. vm_compute. repeat split; eexists; reflexivity. Qed.
(** It panics only on types that contain a ['<'] outside of groups. *)
Theorem C45_no_panic_without_angle (t : type_expr) :
  existsb (is_punct "<") (visible_tokens t) = false -> exists o, as_path t = Ret o.
Proof.
  rewrite as_path_visible. generalize (visible_tokens t). clear t. intros ts H. unfold consume_path.
  destruct (consume_colon2 ts) as [c ts1] eqn:E. apply colon2_sound in E. destruct E as [-> _].
  rewrite existsb_app in H. apply orb_false_iff in H. destruct H as [_ H].
  assert (G : forall fuel colons acc ts1, existsb (is_punct "<") ts1 = false -> List.length ts1 < fuel ->
     exists o, path_loop fuel colons acc ts1 = Ret o).
  { clear. induction fuel as [|fuel IH]; intros colons acc ts H Hf; [lia|]. cbn [path_loop].
    destruct ts as [|[|id| |] ts]; eauto. simpl in H.
    assert (E : consume_generic_args ts = Ret (None, ts)).
    { unfold consume_generic_args. destruct (consume_colon2 ts) as [c r] eqn:Ec. apply colon2_sound in Ec. destruct Ec as [-> _].
      rewrite consume_punct_no; auto. rewrite existsb_app in H. apply orb_false_iff in H. destruct H as [_ H].
      destruct r; auto. simpl in *. apply orb_false_iff in H. tauto. }
    rewrite E. cbn [bind]. destruct ts as [|t ts]; eauto.
    destruct (consume_colon2 (t :: ts)) as [[sep|] r] eqn:Ec; eauto. apply colon2_sound in Ec. destruct Ec as [Ec _].
    apply IH.
    - rewrite Ec, existsb_app in H. apply orb_false_iff in H. tauto.
    - apply (f_equal (@List.length tok)) in Ec. rewrite app_length in Ec. simpl in *. lia. }
  apply G; auto.
Qed.
(** No path, no panic: [None]. *)
Theorem C45_none_iff (t : type_expr) :
  as_path t = Ret None <->
  (forall p, as_path t <> Panic p) /\ (forall p, ~ (wf_path p = true /\ spells_path p (visible_tokens t))).
Proof.
  split.
  - intro H. split; [intros p E; congruence|]. intros p E. apply C44_as_path_iff in E. congruence.
  - intros [H1 H2]. pose proof (as_path_safe t). destruct (as_path t) as [[p|]|p|] eqn:E; auto.
    + exfalso. apply (H2 p). apply C44_as_path_iff. auto.
    + exfalso. apply (H1 p). auto.
    + contradiction.
Qed.
Example C45_example :
  map (fun s => as_path (mkTypeExpr (lex s))) ["&T"; "(A, B)"; "fn(A) -> B"; "a::"; "a b"; "dyn A"; ""; "a:b"]%string
  = repeat (Ret None) 8.
Proof. vm_compute. reflexivity. Qed.

(** ** C46: separators whatever follows.  False: the second colon must not be joint, so
    [Vec::<T>] as lexed by rustc ([:] joint, [:] joint with ['<']) is not a path. *)
Definition respace (s : spacing) (p : punct) : punct := mkPunct (p_char p) s (p_span p).
Theorem C46_separator_spacing_refuted : exists a b c d e f g,
  as_path (mkTypeExpr [TIdent a; TPunct b; TPunct c; TPunct d; TIdent e; TPunct f]) = Ret (Some g)
  /\ as_path (mkTypeExpr [TIdent a; TPunct b; TPunct (respace Joint c); TPunct d; TIdent e; TPunct f]) = Ret None.
Proof.
  exists (mkIdent "Vec" 1%N), (mkPunct ":" Joint 2%N), (mkPunct ":" Alone 3%N), (mkPunct "<" Alone 4%N),
    (mkIdent "T" 5%N), (mkPunct ">" Alone 6%N). eexists. vm_compute. auto.
Qed.
(** Precisely: the separators of a recognised path are a joint and a non-joint colon. *)
Theorem C46_separators (t : type_expr) (p : path) s c :
  as_path t = Ret (Some p) -> In s (pa_segments p) -> ps_colons s = Some c ->
  p_char (fst c) = ":"%char /\ p_spacing (fst c) = Joint /\ p_char (snd c) = ":"%char /\ p_spacing (snd c) = Alone.
Proof.
  intros H Hi Hc. apply C44_as_path_iff in H. destruct H as [H _]. unfold wf_path in H.
  assert (W : wf_colon2 c = true).
  { destruct (pa_segments p) as [|s0 l]; [contradiction|]. bsplit. destruct Hi as [->|Hi].
    - unfold wf_segment in H. bsplit. rewrite Hc in H. auto.
    - rewrite forallb_forall in H0. specialize (H0 _ Hi). unfold wf_segment in H0. bsplit. rewrite Hc in H0. auto. }
  unfold wf_colon2, p_is in W. bsplit. repeat match goal with H : Ascii.eqb _ _ = true |- _ => apply Ascii.eqb_eq in H end.
  destruct (p_spacing (fst c)), (p_spacing (snd c)); try discriminate; auto.
Qed.
Example C46_example : exists p a s c, as_path (mkTypeExpr (lex "std::Vec::<T>")) = Ret (Some p) /\ pa_segments p = [a; s]
  /\ ps_colons s = Some c /\ ps_colons a = None.
Proof. do 4 eexists. vm_compute. auto 10. Qed.

(** ** C47: one invisible group is looked through *)
Theorem C47_invisible_group (ts : list tok) sp :
  (forall ts' sp', ts <> [TGroup (mkGroup NoDelim ts' sp')]) ->
  as_path (mkTypeExpr [TGroup (mkGroup NoDelim ts sp)]) = as_path (mkTypeExpr ts).
Proof.
  intro H. rewrite !as_path_visible. unfold visible_tokens. simpl.
  destruct ts as [|[[[] s q]| | |] [|? ?]]; auto. exfalso. eapply H. reflexivity.
Qed.
(** Only one: two invisible groups never make a path. *)
Theorem C47_two_groups (ts : list tok) sp sp' :
  as_path (mkTypeExpr [TGroup (mkGroup NoDelim [TGroup (mkGroup NoDelim ts sp)] sp')]) = Ret None.
Proof. reflexivity. Qed.
Example C47_example : exists p, as_path (mkTypeExpr [TGroup (mkGroup NoDelim (lex "a::B<C>") 1%N)]) = Ret (Some p)
  /\ print_path p = lex "a::B<C>".
Proof. eexists. vm_compute. auto. Qed.

(** ** C53: commas of generic argument lists.  False: one surplus comma is dropped. *)
Theorem C53_all_commas_refuted :
  (exists g, consume_generic_args (lex "<A,,>") = Ret (Some g, []) /\ print_generic_args g <> lex "<A,,>")
  /\ (exists g, consume_generic_args (lex "<,>") = Ret (Some g, []) /\ print_generic_args g <> lex "<,>").
Proof. split; eexists; vm_compute; (split; [reflexivity|discriminate]). Qed.
(** At most one, just before the ['>']. *)
Theorem C53_one_comma_dropped (ts rest : list tok) g :
  consume_generic_args ts = Ret (Some g, rest) ->
  exists c, ts = c ++ rest /\
    (c = print_generic_args g \/
     exists front comma r, c = front ++ [TPunct comma; TPunct r] /\ print_generic_args g = front ++ [TPunct r]
       /\ p_is "," comma = true /\ p_is ">" r = true).
Proof.
  intro H. apply generic_args_sound in H. destruct H as (W & c & -> & (surplus & -> & Hs)).
  eexists. split; [reflexivity|]. unfold print_generic_args. destruct surplus as [s|].
  - right. exists (print_opt print_punct2 (gal_turbofish g) ++ TPunct (gal_l g) :: print_punctuated print_generic_arg (gal_args g)), s, (gal_r g).
    simpl in Hs. unfold wf_generic_args in W. bsplit. rewrite <- !app_assoc. simpl. auto.
  - left. reflexivity.
Qed.
(** And no more than that: well-formed argument lists are read back from their tokens. *)
Theorem C53_round_trip (g : generic_arg_list) (rest : list tok) :
  wf_generic_args g = true -> consume_generic_args (print_generic_args g ++ rest) = Ret (Some g, rest).
Proof. intro H. apply generic_args_complete; auto using print_spells_args. Qed.
Example C53_example : exists g,
  consume_generic_args (lex "::<'a, A = B<C, D>, -1, fn() -> X,>") = Ret (Some g, [])
  /\ wf_generic_args g = true /\ print_generic_args g = lex "::<'a, A = B<C, D>, -1, fn() -> X,>"
  /\ List.length (pu_items (gal_args g)) = 4.
Proof. eexists. split; [vm_compute; reflexivity|]. vm_compute. auto. Qed.
Example C53_example_dropped : exists g rest, consume_generic_args (lex "<A, B,,> c") = Ret (Some g, rest) /\ List.length rest = 1
  /\ List.length (print_generic_args g) = 6.
Proof. eexists. eexists. vm_compute. auto. Qed.

(** ** C37: inline generic arguments *)
Definition arg_of (p : generic_param) : generic_arg :=
  match gp_prefix p with
  | Some (TPunct q) => GALifetime (mkLifetime q (gp_name p))
  | _ => GATypeOrConst (mkTypeExpr [TIdent (gp_name p)])
  end.
Lemma inner_params skip l : wf_inner wf_generic_param skip l = true ->
  Forall (fun x => wf_generic_param true (fst x) = true) l.
Proof.
  induction l as [|[x c] l IH]; intro H; constructor; destruct l as [|[y q] l]; auto.
  - simpl in H |- *. bsplit. rewrite wf_generic_param_comma in H. auto.
  - change (wf_generic_param true x && p_is "," c && wf_inner wf_generic_param skip ((y, q) :: l) = true) in H. bsplit. auto.
  - apply IH. change (wf_generic_param true x && p_is "," c && wf_inner wf_generic_param skip ((y, q) :: l) = true) in H. bsplit. auto.
Qed.
Lemma owned_arg_of p : wf_generic_param true p = true -> owned_arg p = Ret (arg_of p).
Proof.
  unfold wf_generic_param, owned_arg, arg_of. intro H. bsplit. destruct (gp_prefix p) as [[]|]; try discriminate; auto; rewrite H; reflexivity.
Qed.
Lemma arg_of_wf p b : wf_generic_param true p = true -> wf_generic_arg b (arg_of p) = true.
Proof.
  unfold wf_generic_param, wf_generic_arg, arg_of, arg_run. intro H. bsplit.
  destruct (gp_prefix p) as [[]|]; try discriminate; simpl; rewrite ?orb_true_r; auto.
  unfold wf_lifetime. simpl. rewrite H. known. simpl. rewrite orb_true_r. reflexivity.
Qed.
(** The owned arguments: one per parameter, in order, without bounds, with the same commas
    and brackets; they never panic and are read back from their tokens. *)
Theorem C37_owned_args (l : generic_param_list) (rest : list tok) :
  wf_generics l = true ->
  exists a, to_owned_args l = Ret a
    /\ pu_items (gal_args a) = map arg_of (pu_items (gpl_params l))
    /\ map snd (pu_inner (gal_args a)) = map snd (pu_inner (gpl_params l))
    /\ pu_skip_last (gal_args a) = pu_skip_last (gpl_params l)
    /\ gal_turbofish a = None /\ gal_l a = gpl_l l /\ gal_r a = gpl_r l
    /\ consume_generic_args (print_generic_args a ++ rest) = Ret (Some a, rest).
Proof.
  unfold wf_generics. intro H. bsplit. unfold wf_punctuated in H1.
  assert (E : owned_args (pu_inner (gpl_params l)) = Ret (map (fun x => (arg_of (fst x), snd x)) (pu_inner (gpl_params l)))).
  { apply inner_params in H1. clear - H1. induction H1 as [|[x c] r Hx _ IH]; auto. simpl in *. rewrite owned_arg_of, IH by auto. reflexivity. }
  eexists. unfold to_owned_args. rewrite E. split; [reflexivity|]. unfold pu_items. cbn [gal_args pu_inner pu_skip_last gal_turbofish gal_l gal_r].
  rewrite !map_map. do 6 (split; [reflexivity|]). apply C53_round_trip. unfold wf_generic_args. cbn [gal_args gal_turbofish gal_l gal_r]. rewrite H, H0, andb_true_r. cbn [wf_opt andb].
  unfold wf_punctuated. simpl. pose proof (inner_params _ _ H1) as Hf. clear - H1 Hf.
  induction Hf as [|[x c] r Hx Hr IH]; auto. destruct r as [|[y q] r].
  - simpl in *. bsplit. rewrite arg_of_wf by auto. auto.
  - change (wf_generic_param true x && p_is "," c && wf_inner wf_generic_param (pu_skip_last (gpl_params l)) ((y, q) :: r) = true) in H1.
    bsplit. specialize (IH H0).
    change (wf_generic_arg true (arg_of x) && p_is "," c && wf_inner wf_generic_arg (pu_skip_last (gpl_params l)) (map (fun x => (arg_of (fst x), snd x)) ((y, q) :: r)) = true).
    rewrite arg_of_wf, H1, IH by auto. reflexivity.
Qed.
(** For any list, parsed or built by hand: exactly if some parameter has a prefix that is
    neither ['] nor [const], the owned arguments panic. *)
Definition known_prefix (p : generic_param) : Prop :=
  match gp_prefix p with
  | None => True
  | Some (TPunct q) => p_char q = "'"%char
  | Some (TIdent i) => id_str i = "const"%string
  | Some _ => False
  end.
Lemma owned_arg_known p : known_prefix p -> owned_arg p = Ret (arg_of p).
Proof.
  unfold known_prefix, owned_arg, arg_of, p_is, id_is. destruct (gp_prefix p) as [[]|]; try contradiction; auto; intros ->; reflexivity.
Qed.
Lemma owned_arg_unknown p : ~ known_prefix p -> owned_arg p = Panic PBadPrefix.
Proof.
  unfold known_prefix, owned_arg, p_is, id_is. intro H. destruct (gp_prefix p) as [[g|i|q|l]|]; auto; try tauto.
  - destruct (String.eqb (id_str i) "const") eqn:E; auto. apply String.eqb_eq in E. tauto.
  - destruct (Ascii.eqb (p_char q) "'") eqn:E; auto. apply Ascii.eqb_eq in E. tauto.
Qed.
Theorem C37_prefixes (l : generic_param_list) :
  (Forall known_prefix (pu_items (gpl_params l)) /\ exists a, to_owned_args l = Ret a
     /\ pu_items (gal_args a) = map arg_of (pu_items (gpl_params l)))
  \/ (Exists (fun p => ~ known_prefix p) (pu_items (gpl_params l)) /\ to_owned_args l = Panic PBadPrefix).
Proof.
  assert (G : forall r : list (generic_param * punct),
    (Forall known_prefix (map fst r) /\ owned_args r = Ret (map (fun x => (arg_of (fst x), snd x)) r))
    \/ (Exists (fun p => ~ known_prefix p) (map fst r) /\ owned_args r = Panic PBadPrefix)).
  { induction r as [|[p c] r IH]; [left; split; [constructor|reflexivity]|]. cbn [map fst owned_args].
    assert (D : known_prefix p \/ ~ known_prefix p).
    { unfold known_prefix. destruct (gp_prefix p) as [[g|i|q|t]|]; auto; [destruct (string_dec (id_str i) "const")|destruct (ascii_dec (p_char q) "'")]; auto. }
    destruct D as [D|D].
    - rewrite (owned_arg_known p D). cbn [bind]. destruct IH as [[H1 ->]|[H1 ->]]; cbn [bind]; [left|right]; auto.
    - right. split; auto. rewrite (owned_arg_unknown p D). reflexivity. }
  unfold to_owned_args, pu_items. destruct (G (pu_inner (gpl_params l))) as [[H1 ->]|[H1 ->]]; [left|right]; split; auto.
  eexists. split; [reflexivity|]. cbn [gal_args pu_inner]. rewrite !map_map. reflexivity.
Qed.
Example C37_prefixes_example : exists l, consume_generic_params (lex "<'a, const N: u8, T>") = Ret (Some l, [])
  /\ Forall known_prefix (pu_items (gpl_params l))
  /\ to_owned_args (mkGenericParamList (gpl_l l)
       (pu_push (gpl_params l) (mkGenericParam (Some (TGroup (mkGroup Parenthesis [] call_site))) (ident_new "X") None) None) (gpl_r l))
     = Panic PBadPrefix.
Proof. eexists. split; [vm_compute; reflexivity|]. split; [repeat constructor|vm_compute; reflexivity]. Qed.
(** The inline form: the same arguments, each followed by a comma. *)
Theorem C37_inline_args (l : generic_param_list) (rest : list tok) :
  wf_generics l = true ->
  exists a g, to_owned_args l = Ret a
    /\ consume_generic_args (print_inline_args l ++ rest) = Ret (Some g, rest)
    /\ pu_items (gal_args g) = pu_items (gal_args a)
    /\ pu_items (gal_args g) = map arg_of (pu_items (gpl_params l))
    /\ gal_turbofish g = None /\ print_generic_args g = print_inline_args l.
Proof.
  intro H. destruct (C37_owned_args l [] H) as (a & A1 & A2 & _).
  unfold wf_generics in H. bsplit. unfold wf_punctuated in H1. apply inner_params in H1.
  set (c := punct_new "," Alone).
  exists a, (mkGenericArgList None (punct_new "<" Alone)
     (mkPunctuated (map (fun x => (arg_of (fst x), c)) (pu_inner (gpl_params l))) false) (punct_new ">" Alone)).
  split; auto.
  assert (P : print_generic_args (mkGenericArgList None (punct_new "<" Alone)
     (mkPunctuated (map (fun x => (arg_of (fst x), c)) (pu_inner (gpl_params l))) false) (punct_new ">" Alone)) = print_inline_args l).
  { unfold print_generic_args, print_inline_args. simpl. f_equal. f_equal. unfold print_punctuated. simpl. rewrite inner_print, app_nil_r.
    clear - H1. induction H1 as [|[x q] r Hx _ IH]; auto. cbn [map flat_map fst snd]. rewrite IH. f_equal.
    simpl in Hx. unfold wf_generic_param in Hx. bsplit. unfold arg_of, gp_is_lifetime.
    destruct (gp_prefix x) as [[]|]; try discriminate; try reflexivity. rewrite H. reflexivity. }
  split; [|split; [|split; [|split]]]; auto.
  - rewrite <- P. apply C53_round_trip. unfold wf_generic_args. simpl. rewrite andb_true_r. unfold wf_punctuated. simpl.
    clear - H1. induction H1 as [|[x q] r Hx Hr IH]; auto. destruct r as [|[y z] r].
    + simpl in *. rewrite arg_of_wf by auto. reflexivity.
    + change (wf_generic_arg true (arg_of x) && p_is "," c && wf_inner wf_generic_arg false (map (fun x => (arg_of (fst x), c)) ((y, z) :: r)) = true).
      rewrite arg_of_wf, IH by auto. reflexivity.
  - rewrite A2. unfold pu_items. simpl. rewrite !map_map. reflexivity.
  - unfold pu_items. simpl. rewrite !map_map. reflexivity.
Qed.
Example C37_example : exists l, consume_generic_params (lex "<'a, T: 'a + Clone, const N: usize>") = Ret (Some l, [])
  /\ wf_generics l = true
  /\ exists a, to_owned_args l = Ret a /\ map print_generic_arg (pu_items (gal_args a))
     = [firstn 2 (skipn 1 (lex "<'a, T: 'a + Clone, const N: usize>"));
        firstn 1 (skipn 4 (lex "<'a, T: 'a + Clone, const N: usize>"));
        firstn 1 (skipn 12 (lex "<'a, T: 'a + Clone, const N: usize>"))].
Proof.
  eexists. split; [vm_compute; reflexivity|]. split; [vm_compute; reflexivity|].
  eexists. split; [vm_compute; reflexivity|]. vm_compute. reflexivity.
Qed.

(** ** C48: WhereClausePredicate::parse *)
Theorem C48_keeps_tokens (ts : list tok) (w : where_predicate) :
  where_predicate_parse ts = Ret w <->
  ts = print_where_predicate w /\ p_is ":" (gb_colon (wp_bound w)) = true
  /\ is_run (is_punct ":") (wp_left w) (print_bound (wp_bound w)).
Proof.
  unfold where_predicate_parse. split.
  - intro H. inv_bind H. destruct x as [l r]. destruct r as [|[| |p|] r]; try discriminate.
    destruct (p_is ":" p) eqn:E; [|discriminate]. bsplit. apply C13_run in Hx. destruct Hx as [-> Hx]. simpl. auto.
  - intros (-> & H1 & H2). unfold print_where_predicate.
    assert (X : consume_stuff_until (is_punct ":") false (wp_left w ++ print_bound (wp_bound w)) = Ret (wp_left w, print_bound (wp_bound w)))
      by (apply C13_run; auto).
    rewrite X. destruct w as [l [c b]]. simpl in *. rewrite H1. reflexivity.
Qed.
Theorem C48_panics_iff (ts : list tok) :
  (exists p, where_predicate_parse ts = Panic p) <->
  exists out rest, ts = out ++ rest /\ is_run (is_punct ":") out rest /\ head_is (is_punct ":") rest = false.
Proof.
  unfold where_predicate_parse. destruct (C13_exists (is_punct ":") ts) as (out & rest & -> & Hr).
  assert (X : consume_stuff_until (is_punct ":") false (out ++ rest) = Ret (out, rest)) by (apply C13_run; auto).
  rewrite X. simpl. split.
  - intros [p H]. exists out, rest. split; auto. split; auto. destruct rest as [|[| |q|] r]; auto. simpl.
    destruct (p_is ":" q); [discriminate|auto].
  - intros (o & r & E & Hr' & Hh). destruct (C13_unique _ _ _ _ _ Hr Hr' E). subst o r.
    destruct rest as [|[| |q|] r]; eauto. simpl in Hh. rewrite Hh. eauto.
Qed.
Example C48_example : exists w, where_predicate_parse (lex "Vec<A::B>: Clone + 'a") = Ret w
  /\ wp_left w = firstn 7 (lex "Vec<A::B>: Clone + 'a").
Proof. eexists. vm_compute. auto. Qed.

Print Assumptions C09_terminates.
Print Assumptions C10_no_impossible_panic.
Print Assumptions C37_owned_args.
Print Assumptions C37_inline_args.
Print Assumptions C44_as_path_iff.
Print Assumptions C44_as_path_tokens.
Print Assumptions C45_no_panic_without_angle.
Print Assumptions C48_panics_iff.
Print Assumptions C53_one_comma_dropped.

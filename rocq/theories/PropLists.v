(** C79: comma separated lists are read element by element.  C80: emitted errors are items. *)
From Verif Require Import Edit PrintSpells Complete3 Sound2 Unfold Samples PropRoundTrip PropErr PropMore PropCompose PropAccess.
Local Open Scope string_scope.
Local Open Scope list_scope.

(** ** Lists *)
(** The elements of both, with the last comma of the second. *)
Definition joined_lists {A} (p q : punctuated A) : punctuated A := mkPunctuated (pu_inner p ++ pu_inner q) (pu_skip_last q).
Definition first_part {A} (n : nat) (trailing : bool) (p : punctuated A) : punctuated A := mkPunctuated (firstn n (pu_inner p)) (negb trailing).
Definition last_part {A} (n : nat) (p : punctuated A) : punctuated A := mkPunctuated (skipn n (pu_inner p)) (pu_skip_last p).

Section Generic.
Context {A : Type} (sp : A -> list tok -> Prop) (gap : A -> bool) (wf : bool -> A -> bool).
(** [p] is what the list [c] is read as. *)
Definition reads (p : punctuated A) (c : list tok) : Prop := spells_punctuated sp gap p c /\ wf_punctuated wf p = true.
Lemma inner_app s l1 l2 c1 c2 : spells_inner sp gap false l1 c1 -> spells_inner sp gap s l2 c2 -> l2 <> [] -> spells_inner sp gap s (l1 ++ l2) (c1 ++ c2).
Proof.
  revert c1. induction l1 as [|[x c] l1 IH]; intros c1 H1 H2 N; [cbn in H1; subst; auto|]. destruct H1 as (a & b & Ha & Hb & E).
  exists a. destruct l1 as [|y l1].
  - cbn in Hb. subst b c1. exists c2. split; [exact Ha|]. split; [exact H2|]. destruct l2; [contradiction|]. left. app_norm. reflexivity.
  - exists (b ++ c2). split; [exact Ha|]. split; [apply IH; auto|]. change ((y :: l1) ++ l2) with (y :: l1 ++ l2).
    destruct E as [->|(G & D & ->)]; [left|right; split; [exact G|split; [exact D|]]]; app_norm; reflexivity.
Qed.
Lemma wf_inner_app s l1 l2 : wf_inner wf false l1 = true -> wf_inner wf s l2 = true -> wf_inner wf s (l1 ++ l2) = true.
Proof.
  induction l1 as [|[x c] l1 IH]; intros H1 H2; [exact H2|]. destruct l1 as [|y l1].
  - cbn in H1. bsplit. destruct l2 as [|z l2]; cbn in H2 |- *.
    + destruct s; [discriminate|]. cbn. rewrite H, H0. reflexivity.
    + rewrite H, H0. exact H2.
  - change (wf true x && p_is "," c && wf_inner wf false (y :: l1) = true) in H1.
    change (wf true x && p_is "," c && wf_inner wf s ((y :: l1) ++ l2) = true). bsplit. rwb. apply IH; auto.
Qed.
Lemma reads_app p q a b : reads p a -> pu_skip_last p = false -> reads q b -> reads (joined_lists p q) (a ++ b).
Proof.
  destruct p as [l1 s1], q as [l2 s2]. intros [H1 H2] E [H3 H4]. unfold spells_punctuated, wf_punctuated in *. cbn [pu_inner pu_skip_last] in *. subst s1.
  split; unfold spells_punctuated, wf_punctuated, joined_lists; cbn [pu_inner pu_skip_last].
  - destruct l2 as [|y l2]; [|apply inner_app; auto; discriminate]. cbn in H3, H4. subst b. destruct s2; [discriminate|]. rewrite !app_nil_r. exact H1.
  - apply wf_inner_app; auto.
Qed.
Hypothesis gap_wf : forall x, gap x = true -> wf false x = wf true x.
Lemma inner_split s l1 l2 c : l1 <> [] -> l2 <> [] -> spells_inner sp gap s (l1 ++ l2) c -> wf_inner wf s (l1 ++ l2) = true ->
  exists a b t, c = a ++ b /\ spells_inner sp gap (negb t) l1 a /\ wf_inner wf (negb t) l1 = true
    /\ spells_inner sp gap s l2 b /\ wf_inner wf s l2 = true /\ (t = false -> exists x d k, l1 = k ++ [(x, d)] /\ gap x = true).
Proof.
  intros N1 N2. revert c. induction l1 as [|[x p] l1 IH]; intros c H W; [contradiction|]. clear N1. destruct l1 as [|y l1].
  - destruct H as (a & b & Ha & Hb & E). cbn [app] in *. destruct l2 as [|z l2]; [contradiction|].
    change (wf true x && p_is "," p && wf_inner wf s (z :: l2) = true) in W. bsplit. destruct E as [->|(G & D & ->)].
    + exists (a ++ [TPunct p]), b, true. split; [app_norm; reflexivity|]. split; [exists a, []; cbn; auto|]. split; [cbn; rwb; reflexivity|].
      split; [exact Hb|]. split; [auto|discriminate].
    + exists a, b, false. split; [reflexivity|]. split; [exists a, []; cbn; rewrite app_nil_r; auto|]. split; [cbn; rewrite gap_wf, D by auto; rwb; reflexivity|].
      split; [exact Hb|]. split; [auto|]. intros _. exists x, p, []. auto.
  - destruct H as (a & b & Ha & Hb & E). change (((x, p) :: y :: l1) ++ l2) with ((x, p) :: (y :: l1) ++ l2) in *.
    change (wf true x && p_is "," p && wf_inner wf s ((y :: l1) ++ l2) = true) in W. bsplit.
    destruct (IH ltac:(discriminate) b Hb H0) as (a' & b' & t & -> & S1 & W1 & S2 & W2 & G).
    assert (G' : t = false -> exists x0 d k, (x, p) :: y :: l1 = k ++ [(x0, d)] /\ gap x0 = true).
    { intro Et. destruct (G Et) as (x0 & d & k & -> & Gx). exists x0, d, ((x, p) :: k). auto. }
    assert (W' : wf_inner wf (negb t) ((x, p) :: y :: l1) = true).
    { change (wf true x && p_is "," p && wf_inner wf (negb t) (y :: l1) = true). rwb. reflexivity. }
    cbn [app] in E. destruct E as [->|(Gx & D & ->)].
    + exists (a ++ TPunct p :: a'), b', t. split; [app_norm; reflexivity|]. split; [exists a, a'; auto|]. auto 6.
    + exists (a ++ a'), b', t. split; [app_norm; reflexivity|]. split; [exists a, a'; auto 6|]. auto 6.
Qed.
Lemma reads_split n p c : reads p c -> 0 < n < List.length (pu_inner p) ->
  exists a b t, c = a ++ b /\ reads (first_part n t p) a /\ reads (last_part n p) b
    /\ (t = false -> exists x d k, firstn n (pu_inner p) = k ++ [(x, d)] /\ gap x = true).
Proof.
  intros [H W] N. unfold spells_punctuated, wf_punctuated in *. rewrite <- (firstn_skipn n (pu_inner p)) in H, W.
  destruct (inner_split (pu_skip_last p) (firstn n (pu_inner p)) (skipn n (pu_inner p)) c) as (a & b & t & E & S1 & W1 & S2 & W2 & G); auto.
  - intro E. apply (f_equal (@List.length _)) in E. rewrite firstn_length in E. cbn in E. lia.
  - intro E. apply (f_equal (@List.length _)) in E. rewrite skipn_length in E. cbn in E. lia.
  - exists a, b, t. repeat split; auto.
Qed.
End Generic.

(** ** Lists in items *)
(** [set p] is the item with the list [p]; the list is between [h] and [tail], and [rest] follows the item. *)
Definition element_wise {A} (set : punctuated A -> item) (gap : A -> bool) (d : delimiter) (sp : span) (h tail rest : list tok) : Prop :=
  let read body p := consume_item (h ++ TGroup (mkGroup d body sp) :: tail ++ rest) = Ret (Ok (set p), rest) in
  (* The empty list. *)
  (forall a p, read a p -> read [] (mkPunctuated [] false))
  (* What is after a comma that ends a list is read as if it were alone. *)
  /\ (forall a b p q, read a p -> read b q -> pu_skip_last p = false -> read (a ++ b) (joined_lists p q))
  (* A list may be cut after any element; its comma is missing only after some kinds of elements. *)
  /\ (forall c p n, read c p -> 0 < n < List.length (pu_inner p) ->
        exists a b t, c = a ++ b /\ read a (first_part n t p) /\ read b (last_part n p)
        /\ (t = false -> exists x comma l, firstn n (pu_inner p) = l ++ [(x, comma)] /\ gap x = true)).

Section Slot.
Context {A : Type} (sp : A -> list tok -> Prop) (gap : A -> bool) (wf : bool -> A -> bool).
Record slot (set : punctuated A -> item) (gs : group_span) (tail : list tok) := {
  sl_head : list tok -> Prop; sl_shape : bool; sl_follow : list tok -> bool;
  sl_spells : forall p c, spells_item (set p) c <-> exists h s, sl_head h /\ spells_punctuated sp gap p s
    /\ c = h ++ TGroup (mkGroup (gs_delim gs) s (gs_span gs)) :: tail;
  sl_shaped : forall p, shape_item (set p) = sl_shape && wf_punctuated wf p;
  sl_followed : forall p rest, follow_ok (set p) rest = sl_follow rest }.
Lemma same_tail (h h' t rest : list tok) g g' : h ++ TGroup g :: t ++ rest = (h' ++ TGroup g' :: t) ++ rest -> h = h' /\ g = g'.
Proof.
  intro E. rewrite <- app_assoc in E. change ((TGroup g' :: t) ++ rest) with ([TGroup g'] ++ t ++ rest) in E. change (TGroup g :: t ++ rest) with ([TGroup g] ++ t ++ rest) in E.
  rewrite !app_assoc in E. do 2 apply app_inv_tail in E. apply app_inj_tail in E. destruct E as [-> E]. injection E as ->. auto.
Qed.
Lemma slot_read set gs tail (S : slot set gs tail) h d s0 a0 p0 rest :
  consume_item (h ++ TGroup (mkGroup d a0 s0) :: tail ++ rest) = Ret (Ok (set p0), rest) ->
  forall p body, consume_item (h ++ TGroup (mkGroup d body s0) :: tail ++ rest) = Ret (Ok (set p), rest) <-> reads sp gap wf p body.
Proof.
  intros H p body. destruct S as [Hd B F S1 S2 S3]. apply consume_item_iff in H. destruct H as (c & E & H1 & H2 & H3).
  apply S1 in H1. destruct H1 as (h' & s & Hh & Hs & ->). apply same_tail in E. destruct E as [<- E]. injection E as -> <- ->.
  rewrite S2 in H2. rewrite S3 in H3. bsplit. rewrite consume_item_iff. split.
  - intros (c & E & G1 & G2 & _). apply S1 in G1. destruct G1 as (h' & s & _ & Gs & ->). apply same_tail in E. destruct E as [<- E]. injection E as <-.
    rewrite S2 in G2. bsplit. split; auto.
  - intros [G1 G2]. exists (h ++ TGroup (mkGroup (gs_delim gs) body (gs_span gs)) :: tail). split; [rewrite <- app_assoc; reflexivity|].
    rewrite S1, S2, S3. rwb. split; [exists h, body; auto|auto].
Qed.
Lemma slot_element_wise set gs tail (S : slot set gs tail) d s0 h rest : (forall x, gap x = true -> wf false x = wf true x) ->
  element_wise set gap d s0 h tail rest.
Proof.
  intro G. split; [|split].
  - intros a p H. apply (slot_read _ _ _ S _ _ _ _ _ _ H). split; reflexivity.
  - intros a b p q H1 H2 L. pose proof (slot_read _ _ _ S _ _ _ _ _ _ H1) as I. apply I. apply I in H1, H2. apply reads_app; auto.
  - intros c p n H N. pose proof (slot_read _ _ _ S _ _ _ _ _ _ H) as I. apply I in H. destruct (reads_split _ _ _ G n p c H N) as (a & b & t & E & R1 & R2 & K).
    exists a, b, t. rewrite !I. auto.
Qed.
End Slot.

Definition enum_with (e : enum_) (p : punctuated enum_variant) : item :=
  IEnum (mkEnum (en_attributes e) (en_vis e) (en_enum e) (en_name e) (en_generics e) (en_where e) (en_braces e) p).
Definition union_with (u : union_) (p : punctuated named_field) : item :=
  IUnion (mkUnion (un_attributes u) (un_vis u) (un_union u) (un_name u) (un_generics u) (un_where u) (mkNamedFields p (nfs_braces (un_fields u)))).
Definition named_struct_with (s : struct_) (gs : group_span) (p : punctuated named_field) : item :=
  IStruct (mkStruct (st_attributes s) (st_vis s) (st_struct s) (st_name s) (st_generics s) (st_where s) (FNamed (mkNamedFields p gs)) (st_semicolon s)).
Definition tuple_struct_with (s : struct_) (gs : group_span) (p : punctuated tuple_field) : item :=
  IStruct (mkStruct (st_attributes s) (st_vis s) (st_struct s) (st_name s) (st_generics s) (st_where s) (FTuple (mkTupleFields p gs)) (st_semicolon s)).
Definition fn_with (f : function) (p : punctuated fn_param) : item :=
  IFunction (mkFunction (fn_attributes f) (fn_vis f) (fn_qualifiers_ f) (fn_kw f) (fn_name f) (fn_generics f) (fn_parens f) p
    (fn_where f) (fn_arrow f) (fn_ret f) (fn_semicolon f) (fn_body f)).
Definition fn_tail (f : function) : list tok :=
  print_opt print_punct2 (fn_arrow f) ++ print_opt print_type (fn_ret f) ++ print_opt print_where (fn_where f)
  ++ print_opt print_group (fn_body f) ++ print_opt print_punct (fn_semicolon f).

Theorem C79_variants (e : enum_) (sp : span) (h rest : list tok) : element_wise (enum_with e) gap_variant Brace sp h [] rest.
Proof.
  apply (slot_element_wise spells_variant gap_variant wf_variant (enum_with e) (en_braces e)); [|reflexivity].
  refine {| sl_head h := exists ca, spells_attributes (en_attributes e) ca /\ h = ca ++ print_opt print_vis (en_vis e) ++ TIdent (en_enum e) :: TIdent (en_name e)
         :: print_opt print_generic_params (en_generics e) ++ print_opt print_where (en_where e);
     sl_shape := wf_outer (en_attributes e) && wf_opt wf_vis (en_vis e) && id_is "enum" (en_enum e)
       && wf_opt wf_generics (en_generics e) && wf_opt wf_where (en_where e) && delim_eqb (gs_delim (en_braces e)) Brace;
     sl_follow _ := true |}.
  - intros p c. split.
    + intros (ca & cv & H1 & (s & H2 & ->) & ->). eexists. exists s. split; [exists ca; split; [exact H1|reflexivity]|]. split; [exact H2|]. cbn. app_norm. reflexivity.
    + intros (h0 & s & (ca & H1 & ->) & H2 & ->). exists ca. eexists. split; [exact H1|]. split; [exists s; split; [exact H2|reflexivity]|]. cbn. app_norm. reflexivity.
  - intro p. reflexivity.
  - reflexivity.
Qed.
Theorem C79_union_fields (u : union_) (sp : span) (h rest : list tok) : element_wise (union_with u) no_gap Brace sp h [] rest.
Proof.
  apply (slot_element_wise spells_named_field no_gap wf_named_field (union_with u) (nfs_braces (un_fields u))); [|discriminate].
  refine {| sl_head h := exists ca, spells_attributes (un_attributes u) ca /\ h = ca ++ print_opt print_vis (un_vis u) ++ TIdent (un_union u) :: TIdent (un_name u)
         :: print_opt print_generic_params (un_generics u) ++ print_opt print_where (un_where u);
     sl_shape := wf_outer (un_attributes u) && wf_opt wf_vis (un_vis u) && id_is "union" (un_union u)
       && wf_opt wf_generics (un_generics u) && wf_opt wf_where (un_where u) && delim_eqb (gs_delim (nfs_braces (un_fields u))) Brace;
     sl_follow _ := true |}.
  - intros p c. split.
    + intros (ca & cv & H1 & (s & H2 & ->) & ->). eexists. exists s. split; [exists ca; split; [exact H1|reflexivity]|]. split; [exact H2|]. cbn. app_norm. reflexivity.
    + intros (h0 & s & (ca & H1 & ->) & H2 & ->). exists ca. eexists. split; [exact H1|]. split; [exists s; split; [exact H2|reflexivity]|]. cbn. app_norm. reflexivity.
  - intro p. unfold union_with. cbn [shape_item]. unfold wf_union, wf_named_fields. cbn. rewrite andb_assoc. reflexivity.
  - reflexivity.
Qed.
Theorem C79_named_fields (s : struct_) (gs : group_span) (sp : span) (h rest : list tok) :
  element_wise (named_struct_with s gs) no_gap Brace sp h (print_opt print_punct (st_semicolon s)) rest.
Proof.
  apply (slot_element_wise spells_named_field no_gap wf_named_field (named_struct_with s gs) gs); [|discriminate].
  refine {| sl_head h := exists ca, spells_attributes (st_attributes s) ca /\ h = ca ++ print_opt print_vis (st_vis s) ++ TIdent (st_struct s) :: TIdent (st_name s)
         :: print_opt print_generic_params (st_generics s) ++ print_opt print_where (st_where s);
     sl_shape := wf_outer (st_attributes s) && wf_opt wf_vis (st_vis s) && id_is "struct" (st_struct s)
       && wf_opt wf_generics (st_generics s) && wf_opt wf_where (st_where s) && wf_opt (p_is ";") (st_semicolon s) && delim_eqb (gs_delim gs) Brace;
     sl_follow := follow_ok (named_struct_with s gs (mkPunctuated [] false)) |}.
  - intros p c. split.
    + intros (ca & cv & H1 & (b & H2 & ->) & ->). eexists. exists b. split; [exists ca; split; [exact H1|reflexivity]|]. split; [exact H2|]. cbn. app_norm. reflexivity.
    + intros (h0 & b & (ca & H1 & ->) & H2 & ->). exists ca. eexists. split; [exact H1|]. split; [exists b; split; [exact H2|reflexivity]|]. cbn. app_norm. reflexivity.
  - intro p. unfold named_struct_with. cbn [shape_item]. unfold shape_struct, wf_fields, wf_named_fields. cbn. rewrite !andb_true_r. rewrite <- !andb_assoc.
    do 5 f_equal. rewrite !andb_assoc. rewrite (andb_comm _ (wf_opt (p_is ";") (st_semicolon s))), !andb_assoc. reflexivity.
  - reflexivity.
Qed.
Theorem C79_tuple_fields (s : struct_) (gs : group_span) (sp : span) (h rest : list tok) :
  element_wise (tuple_struct_with s gs) no_gap Parenthesis sp h (print_opt print_where (st_where s) ++ print_opt print_punct (st_semicolon s)) rest.
Proof.
  apply (slot_element_wise spells_tuple_field no_gap wf_tuple_field (tuple_struct_with s gs) gs); [|discriminate].
  refine {| sl_head h := exists ca, spells_attributes (st_attributes s) ca /\ h = ca ++ print_opt print_vis (st_vis s) ++ TIdent (st_struct s) :: TIdent (st_name s)
         :: print_opt print_generic_params (st_generics s);
     sl_shape := wf_outer (st_attributes s) && wf_opt wf_vis (st_vis s) && id_is "struct" (st_struct s)
       && wf_opt wf_generics (st_generics s) && wf_opt wf_where (st_where s) && wf_opt (p_is ";") (st_semicolon s) && delim_eqb (gs_delim gs) Parenthesis;
     sl_follow := follow_ok (tuple_struct_with s gs (mkPunctuated [] false)) |}.
  - intros p c. split.
    + intros (ca & cv & H1 & (b & H2 & ->) & ->). eexists. exists b. split; [exists ca; split; [exact H1|reflexivity]|]. split; [exact H2|]. cbn. app_norm. reflexivity.
    + intros (h0 & b & (ca & H1 & ->) & H2 & ->). exists ca. eexists. split; [exact H1|]. split; [exists b; split; [exact H2|reflexivity]|]. cbn. app_norm. reflexivity.
  - intro p. unfold tuple_struct_with. cbn [shape_item]. unfold shape_struct, wf_fields, wf_tuple_fields. cbn. rewrite !andb_true_r. rewrite <- !andb_assoc.
    do 5 f_equal. rewrite !andb_assoc. rewrite (andb_comm _ (wf_opt (p_is ";") (st_semicolon s))), !andb_assoc. reflexivity.
  - reflexivity.
Qed.
Theorem C79_params (f : function) (sp : span) (h rest : list tok) : element_wise (fn_with f) gap_param Parenthesis sp h (fn_tail f) rest.
Proof.
  apply (slot_element_wise spells_fn_param gap_param wf_fn_param (fn_with f) (fn_parens f)); [|intros []; [reflexivity|discriminate]].
  refine {| sl_head h := exists ca, spells_attributes (fn_attributes f) ca /\ h = ca ++ print_opt print_vis (fn_vis f) ++ print_qualifiers (fn_qualifiers_ f)
         ++ TIdent (fn_kw f) :: TIdent (fn_name f) :: print_opt print_generic_params (fn_generics f);
     sl_shape := wf_function (mkFunction (fn_attributes f) (fn_vis f) (fn_qualifiers_ f) (fn_kw f) (fn_name f) (fn_generics f) (fn_parens f) (mkPunctuated [] false)
       (fn_where f) (fn_arrow f) (fn_ret f) (fn_semicolon f) (fn_body f));
     sl_follow _ := true |}.
  - intros p c. split.
    + intros (ca & cv & H1 & (b & H2 & ->) & ->). eexists. exists b. split; [exists ca; split; [exact H1|reflexivity]|]. split; [exact H2|]. cbn. unfold fn_tail. app_norm. reflexivity.
    + intros (h0 & b & (ca & H1 & ->) & H2 & ->). exists ca. eexists. split; [exact H1|]. split; [exists b; split; [exact H2|reflexivity]|]. cbn. unfold fn_tail. app_norm. reflexivity.
  - intro p. unfold fn_with. cbn [shape_item]. unfold wf_function. cbn. rewrite !andb_true_r.
    destruct (wf_punctuated wf_fn_param p); rewrite ?andb_true_r, ?andb_false_r; reflexivity.
  - reflexivity.
Qed.
(** Premises met: a list ending with a comma, a list that does not, and a missing comma. *)
Definition sample_enum (body : list tok) : list tok := lex "#[a] pub enum E<T> where T: Copy" ++ TGroup (mkGroup Brace body call_site) :: lex "fn".
Example C79_example : exists e p q,
  let a := lex "A, #[b] B(T, u8)," in let b := lex "C { x: T } D = 5" in
  let read body l := consume_item (sample_enum body) = Ret (Ok (enum_with e l), lex "fn") in
  read a p /\ read b q /\ pu_skip_last p = false /\ List.length (pu_inner p) = 2 /\ List.length (pu_inner q) = 2
  /\ read (a ++ b) (joined_lists p q) /\ read (firstn 2 b) (first_part 1 false q) /\ read (skipn 2 b) (last_part 1 q).
Proof.
  destruct (consume_item (sample_enum (lex "A, #[b] B(T, u8),"))) as [[[[]|] r]| |] eqn:E1; try (vm_compute in E1; discriminate E1).
  destruct (consume_item (sample_enum (lex "C { x: T } D = 5"))) as [[[[]|] r2]| |] eqn:E2; try (vm_compute in E2; discriminate E2).
  exists e, (en_variants e), (en_variants e0). vm_compute in E1, E2. injection E1 as <- <-. injection E2 as <- <-. do 7 (split; [vm_compute; reflexivity|]). vm_compute; reflexivity.
Qed.
(** So is the premise of the other four theorems. *)
Example C79_example_others :
  let read i := exists rest, consume_item (lex i) = Ret (Ok (item_of i), rest) in
  read "union U { pub a: u8, b: f32, }" /\ read "struct S<T> { #[x] a: T, b: [u8; 4] }" /\ read "struct S(pub u8, Vec<(A, B)>,) where u8: Copy;"
  /\ read "fn f(&mut self x: u8, _y: T) -> T where T: Copy { x }".
Proof. repeat split; eexists; vm_compute; reflexivity. Qed.

(** ** C80: emitted errors are items *)
Section Emitted.
Variable lit_string : string -> string.
(** The call of [compile_error] for one message. *)
Definition error_call (m : error_message) : macro :=
  mkMacro [] (mkIdent "compile_error" (em_start m)) (mkPunct "!" Alone (em_start m)) None (mkGroupSpan Brace (em_end m))
    [TLit (mkLit (lit_string (em_text m)) (em_end m))] None.
Lemma one_call m rest : consume_item (invocation lit_string (em_start m) (em_end m) (em_text m) ++ rest) = Ret (Ok (IMacro (error_call m)), rest).
Proof. apply consume_item_iff. eexists. split; [reflexivity|]. split; [exists None; do 2 (split; [reflexivity|]); exists []; split; reflexivity|]. split; reflexivity. Qed.
Theorem C80_calls (e : error) (rest : list tok) :
  consumes (to_compile_error lit_string e ++ rest) (map (fun m => IMacro (error_call m)) (er_messages e)) rest.
Proof.
  rewrite C49_one_invocation_per_message. induction (er_messages e) as [|m l IH]; cbn [flat_map map]; [constructor|].
  rewrite <- app_assoc. econstructor; [apply one_call|exact IH].
Qed.
(** No item that ended at the end of the input is continued by them. *)
Theorem C80_after_item (ts : list tok) (i : item) (e : error) : parse_item ts = Ret (Ok i) ->
  consumes (ts ++ to_compile_error lit_string e) (i :: map (fun m => IMacro (error_call m)) (er_messages e)) [].
Proof.
  unfold parse_item. intro H. inv_bind H. destruct x as [d [|t l]]; [|discriminate]. injection H as ->.
  econstructor; [|pose proof (C80_calls e []) as K; rewrite app_nil_r in K; exact K].
  assert (F : follow_ok i [] = true) by (apply consume_item_iff in Hx; destruct Hx as (c & _ & _ & _ & F); exact F).
  assert (H0 : consume_item (ts ++ []) = Ret (Ok i, [])) by (rewrite app_nil_r; exact Hx).
  apply (C64_ok ts [] (to_compile_error lit_string e) i H0).
  destruct i; auto. cbn in *. unfold struct_follow in *. rewrite C49_one_invocation_per_message.
  destruct (er_messages e) as [|m l]; [exact F|]. cbn [flat_map]. destruct (st_fields s); auto.
Qed.
Theorem C80_instead (ts : list tok) (e : error) : parse_item ts = Ret (Err e) ->
  exists m, er_messages e = [m] /\ parse_item (to_compile_error lit_string e) = Ret (Ok (IMacro (error_call m))).
Proof.
  unfold parse_item. intro H. inv_bind H. destruct x as [d [|t l]]; [|discriminate]. injection H as ->.
  apply C11_err_iff in Hx. destruct Hx as (? & ? & ? & ? & ? & ? & v & _ & _ & _ & _ & _ & ->). eexists. split; [reflexivity|].
  match goal with |- context [to_compile_error _ ?x] => pose proof (C80_calls x []) as K end. rewrite app_nil_r in K. inversion K as [|? ? ? ? ? K1 K2]; subst.
  inversion K2; subst. rewrite K1. reflexivity.
Qed.

(** In a block, they are members. *)
Lemma member_call m : spells_impl_member (IMMacro (error_call m)) (invocation lit_string (em_start m) (em_end m) (em_text m)).
Proof. exists []. split; reflexivity. Qed.
Lemma member_calls e : spells_list spells_impl_member (map (fun m => IMMacro (error_call m)) (er_messages e)) (to_compile_error lit_string e).
Proof.
  rewrite C49_one_invocation_per_message. induction (er_messages e) as [|m l IH]; cbn [flat_map map]; [reflexivity|].
  eexists _, _. split; [reflexivity|]. split; [apply member_call|exact IH].
Qed.
Lemma member_calls_shape b l : forallb (shape_impl_member b) (map (fun m => IMMacro (error_call m)) l) = true.
Proof. apply forallb_forall. intros x H. apply in_map_iff in H. destruct H as (m & <- & _). reflexivity. Qed.
Lemma spells_list_app {A} (sp : A -> list tok -> Prop) l1 l2 c1 c2 : spells_list sp l1 c1 -> spells_list sp l2 c2 -> spells_list sp (l1 ++ l2) (c1 ++ c2).
Proof.
  revert c1. induction l1 as [|x l1 IH]; intros c1 H1 H2; [cbn in H1; subst; exact H2|]. destruct H1 as (a & b & -> & H1 & H3).
  exists a, (b ++ c2). rewrite app_assoc. auto.
Qed.
Definition impl_and (i : impl_) (ms : list impl_member) : impl_ :=
  mkImpl (im_attributes i) (im_unsafe i) (im_impl i) (im_generics i) (im_trait i) (im_for i) (im_self i) (im_where i) (im_braces i) (im_inner_attributes i) (im_items i ++ ms).
Definition trait_and (t : trait_) (ms : list trait_member) : trait_ :=
  mkTrait (tr_attributes t) (tr_vis t) (tr_unsafe t) (tr_trait t) (tr_name t) (tr_generics t) (tr_bound t) (tr_where t) (tr_braces t) (tr_inner_attributes t) (tr_items t ++ ms).
Theorem C80_in_impl (h body rest : list tok) sp i e :
  consume_item (h ++ TGroup (mkGroup Brace body sp) :: rest) = Ret (Ok (IImpl i), rest) ->
  consume_item (h ++ TGroup (mkGroup Brace (body ++ to_compile_error lit_string e) sp) :: rest)
  = Ret (Ok (IImpl (impl_and i (map (fun m => IMMacro (error_call m)) (er_messages e)))), rest).
Proof.
  intro H. apply consume_item_iff in H. destruct H as (c & E & S & W & _). cbn [spells_item] in S. apply impl_split in S.
  destruct S as (h' & s & Hh & (ci & cm & Hi & Hm & ->) & ->). destruct (brace_tail _ _ _ _ _ E) as [<- Eg]. injection Eg as Ed -> ->.
  apply consume_item_iff. exists (h ++ [TGroup (mkGroup Brace ((ci ++ cm) ++ to_compile_error lit_string e) (gs_span (im_braces i)))]). split; [|split; [|split]].
  - app_norm. reflexivity.
  - cbn [spells_item]. apply impl_split. exists h. eexists. split; [exact Hh|]. split; [|cbn; rewrite <- Ed; reflexivity].
    exists ci, (cm ++ to_compile_error lit_string e). split; [exact Hi|]. split; [|app_norm; reflexivity]. apply spells_list_app; [exact Hm|apply member_calls].
  - cbn [shape_item] in *. unfold shape_impl in *. cbn. bsplit. rwb. rewrite forallb_app, member_calls_shape. rwb. reflexivity.
  - reflexivity.
Qed.
Lemma trait_calls l : map impl_of_trait_member (map (fun m => TMMacro (error_call m)) l) = map (fun m => IMMacro (error_call m)) l.
Proof. rewrite map_map. reflexivity. Qed.
Lemma spells_list_map {A B} (f : B -> A) (sp : A -> list tok -> Prop) l c : spells_list sp (map f l) c -> spells_list (fun x => sp (f x)) l c.
Proof. revert c. induction l as [|x l IH]; intros c H; [exact H|]. destruct H as (a & b & -> & H1 & H2). exists a, b. auto. Qed.
Theorem C80_in_trait (h body rest : list tok) sp t e :
  consume_item (h ++ TGroup (mkGroup Brace body sp) :: rest) = Ret (Ok (ITrait t), rest) ->
  consume_item (h ++ TGroup (mkGroup Brace (body ++ to_compile_error lit_string e) sp) :: rest)
  = Ret (Ok (ITrait (trait_and t (map (fun m => TMMacro (error_call m)) (er_messages e)))), rest).
Proof.
  intro H. apply consume_item_iff in H. destruct H as (c & E & S & W & _). cbn [spells_item] in S. apply trait_split in S.
  destruct S as (h' & s & Hh & (ci & cm & Hi & Hm & ->) & ->). destruct (brace_tail _ _ _ _ _ E) as [<- Eg]. injection Eg as Ed -> ->.
  apply consume_item_iff. exists (h ++ [TGroup (mkGroup Brace ((ci ++ cm) ++ to_compile_error lit_string e) (gs_span (tr_braces t)))]). split; [|split; [|split]].
  - app_norm. reflexivity.
  - cbn [spells_item]. apply trait_split. exists h. eexists. split; [exact Hh|]. split; [|cbn; rewrite <- Ed; reflexivity].
    exists ci, (cm ++ to_compile_error lit_string e). split; [exact Hi|]. split; [|app_norm; reflexivity]. apply spells_list_app; [exact Hm|].
    apply (spells_list_map impl_of_trait_member spells_impl_member). rewrite trait_calls. apply member_calls.
  - cbn [shape_item] in *. unfold shape_trait in *. cbn. bsplit. rwb. rewrite forallb_app. rwb. 
    replace (forallb shape_trait_member (map (fun m => TMMacro (error_call m)) (er_messages e))) with true; [reflexivity|].
    symmetry. apply forallb_forall. intros x Hx. apply in_map_iff in Hx. destruct Hx as (m & <- & _). reflexivity.
  - reflexivity.
Qed.
End Emitted.
Example C80_example :
  let q := fun s => String.append """" (String.append s """") in
  (exists e, parse_item (lex "enum E { A = 1 + 2 }") = Ret (Err e) /\ exists i, parse_item (to_compile_error q e) = Ret (Ok i))
  /\ exists i, parse_item (lex "struct S<T>(T)") = Ret (Ok i)
     /\ exists l, consumes (lex "struct S<T>(T)" ++ to_compile_error q (error_combine (error_new "a") (error_new "b"))) (i :: l) [] /\ List.length l = 2.
Proof.
  cbv zeta. split.
  - eexists. split; [vm_compute; reflexivity|]. eexists. vm_compute. reflexivity.
  - eexists. split; [vm_compute; reflexivity|]. eexists. split; [apply C80_after_item; vm_compute; reflexivity|reflexivity].
Qed.
Example C80_example_members :
  let q := fun s => String.append """" (String.append s """") in
  let g b := TGroup (mkGroup Brace b 7%N) in
  let e := error_combine (error_new "a") (error_new_at_span 4%N "b") in
  (exists i, consume_item (lex "impl A for B" ++ g (lex "fn f();") :: lex "fn") = Ret (Ok (IImpl i), lex "fn") /\ List.length (im_items i) = 1)
  /\ (exists i, consume_item (lex "impl A for B" ++ g (lex "fn f();" ++ to_compile_error q e) :: lex "fn") = Ret (Ok (IImpl i), lex "fn") /\ List.length (im_items i) = 3)
  /\ (exists t, consume_item (lex "trait T" ++ g (lex "fn f();") :: lex "fn") = Ret (Ok (ITrait t), lex "fn") /\ List.length (tr_items t) = 1)
  /\ (exists t, consume_item (lex "trait T" ++ g (lex "fn f();" ++ to_compile_error q e) :: lex "fn") = Ret (Ok (ITrait t), lex "fn") /\ List.length (tr_items t) = 3).
Proof. cbv zeta. repeat split; eexists; vm_compute; auto. Qed.

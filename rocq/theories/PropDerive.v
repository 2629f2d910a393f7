(** C67: the pipeline of a derive macro.  From a parsed struct, enum or union, build the tokens
    [impl <generics> Trait for Name <args> where ... { members }] with the accessors of the
    crate, and parse them again. *)
From Verif Require Import Unfold Samples Edit PathProof ScanSpec PropScan PropRoundTrip PropLimits PropEdit PropPath.
Local Open Scope string_scope.
Local Open Scope list_scope.

(** [get_inline_generic_args], src/types_edition.rs:436-438, printed. *)
Definition inline_args_of (i : item) : list tok :=
  match item_generic_params i with Some g => print_inline_args g | None => [] end.
Definition derive_stream (i : item) (n : ident) (w : where_clause) (tr : list tok) (ms : list impl_member) : list tok :=
  TIdent (mkIdent "impl" call_site) :: print_opt print_generic_params (item_generic_params i) ++ tr
  ++ TIdent (mkIdent "for" call_site) :: TIdent n :: inline_args_of i ++ print_where w
  ++ [TGroup (mkGroup Brace (flat_map print_impl_member ms) call_site)].

Lemma scan_inline P d l rest : (0 < d)%Z -> Forall (fun x : generic_param * punct => wf_generic_param true (fst x) = true) l ->
  scan P d false (flat_map
       (fun x : generic_param * punct =>
          (if gp_is_lifetime (fst x) then print_opt print_tok (gp_prefix (fst x)) else [])
          ++ [TIdent (gp_name (fst x)); TPunct (punct_new "," Alone)]) l ++ rest) = scan P d false rest.
Proof.
  intros Hd H. assert (S : forall b t, stops P d b t = false). { intros. unfold stops. destruct (Z.eqb_spec d 0); [lia|reflexivity]. }
  assert (F : forall (n : ident) r, scan P d false (TIdent n :: TPunct (punct_new "," Alone) :: r) = scan P d false r).
  { intros. cbn [scan]. rewrite S. change (next_depth d false (TIdent n)) with d. cbn [is_punct]. rewrite S. reflexivity. }
  induction H as [|[x q] r Hx _ IH]; auto. cbn [flat_map fst]. cbn [fst] in Hx.
  unfold wf_generic_param in Hx. bsplit. unfold gp_is_lifetime.
  destruct (gp_prefix x) as [[g|i|p|li]|]; try discriminate; cbn [app]; rewrite ?F; try apply IH.
  rewrite H. cbn [print_opt print_tok app]. cbn [scan]. rewrite S.
  assert (E : next_depth d false (TPunct p) = d /\ is_punct "-" (TPunct p) = false).
  { unfold p_is in H. destruct p as [c s sp]. cbn in H. apply Ascii.eqb_eq in H. subst c. auto. }
  destruct E as [-> ->]. setoid_rewrite F. apply IH.
Qed.

Lemma self_closed P n l : P (TIdent n) = false -> wf_opt wf_generics l = true ->
  run_closed P (TIdent n :: match l with Some g => print_inline_args g | None => [] end) = true.
Proof.
  intros Hn Hl. unfold run_closed. cbn [scan]. replace (stops P 0 false (TIdent n)) with false
    by (unfold stops; cbn [opens closes is_punct negb]; rewrite Hn; reflexivity).
  change (next_depth 0 false (TIdent n)) with 0%Z. cbn [is_punct]. destruct l as [g|]; [|reflexivity].
  cbn [wf_opt] in Hl. unfold wf_generics, wf_punctuated in Hl. bsplit. unfold print_inline_args. cbn [scan app].
  replace (stops P 0 false (TPunct (punct_new "<" Alone))) with false by reflexivity.
  change (next_depth 0 false (TPunct (punct_new "<" Alone))) with 1%Z. change (is_punct "-" (TPunct (punct_new "<" Alone))) with false.
  rewrite scan_inline; [reflexivity|lia|eapply inner_params; eauto].
Qed.
Lemma derive_parts (i : item) (tr : list tok) (w : where_clause) :
  shape_item i = true -> run_closed end_where_item tr = true -> item_derive_where i tr = Some w ->
  wf_where w = true /\ wf_opt wf_generics (item_generic_params i) = true.
Proof.
  intros Hw Ht Hd. assert (G : forall l w0, wf_where w0 = true ->
    wf_where (fold_left (fun wc (p : generic_param) =>
             wc_with_predicate wc (mkWherePredicate [TIdent (gp_name p)] (mkBound (punct_new ":" Alone) tr))) l w0) = true).
  { induction l as [|p l IH]; intros w0 H0; auto. cbn [fold_left]. apply IH.
    apply (where_with_wf (Some w0)); auto. }
  destruct i; try discriminate; injection Hd as <-; (split; [apply G|]); cbn [shape_item item_generic_params] in *;
    unfold shape_struct, wf_enum, wf_union in Hw; bsplit; auto;
    match goal with |- wf_where (match ?o with _ => _ end) = true => destruct o; auto end.
Qed.

(** For every parsed (or built) struct, enum or union, every trait and every list of members, the
    generated tokens read back as an [impl] with exactly the generics of the declaration, that
    trait, the where clause of [create_derive_where_clause] and those members.  Its self type is
    the path [Name<...>] whose arguments are the declaration's parameters, in order. *)
Theorem C67_derive (i : item) (n : ident) (tr : list tok) (w : where_clause) (ms : list impl_member) (rest : list tok) :
  shape_item i = true -> item_derive_where i tr = Some w -> item_name i = Some n -> id_str n <> "where" ->
  run_closed end_where_item tr = true -> run_closed end_impl_header tr = true ->
  (item_generic_params i = None -> head_is (is_punct "<") tr = false) ->
  forallb (shape_impl_member false) ms = true -> forallb stable_impl_member ms = true ->
  exists J, consume_item (derive_stream i n w tr ms ++ rest) = Ret (Ok (IImpl J), rest)
    /\ im_attributes J = [] /\ im_unsafe J = None /\ im_generics J = item_generic_params i
    /\ im_trait J = Some (mkTypeExpr tr) /\ im_where J = Some w /\ im_inner_attributes J = [] /\ im_items J = ms
    /\ exists args, as_path (im_self J) = Ret (Some (mkPath [mkPathSegment None n args]))
         /\ option_map (fun a => (gal_turbofish a, pu_items (gal_args a))) args
            = option_map (fun g => (None, map arg_of (pu_items (gpl_params g)))) (item_generic_params i).
Proof.
  intros Hs Hd Hn Hw T1 T2 T3 M1 M2. destruct (derive_parts i tr w Hs T1 Hd) as [W G].
  exists (mkImpl [] None (mkIdent "impl" call_site) (item_generic_params i) (Some (mkTypeExpr tr)) (Some (mkIdent "for" call_site))
    (mkTypeExpr (TIdent n :: inline_args_of i)) (Some w) (mkGroupSpan Brace call_site) [] ms).
  split.
  - match goal with |- consume_item _ = Ret (Ok ?j, _) => assert (P : print_item j = derive_stream i n w tr ms) end.
    { cbn [print_item]. unfold print_impl, derive_stream. cbn. reflexivity. }
    rewrite <- P. apply C01_print_consume; [|reflexivity]. unfold wf_item. cbn [shape_item stable_item im_items].
    rewrite M2, andb_true_r. unfold shape_impl. cbn [im_attributes im_unsafe im_impl im_generics im_trait im_for im_self im_where im_braces
      im_inner_attributes im_items te_tokens]. rewrite G, T2, M1. cbn [wf_opt]. rewrite W.
    unfold inline_args_of. rewrite self_closed; auto; cycle 1.
    { unfold end_impl_self. cbn. unfold id_is. destruct (String.eqb_spec (id_str n) "where"); [contradiction|reflexivity]. }
    destruct (item_generic_params i); cbn [some orb]; [reflexivity|]. rewrite T3 by reflexivity. reflexivity.
  - cbn [im_attributes im_unsafe im_impl im_generics im_trait im_for im_self im_where im_braces im_inner_attributes im_items te_tokens].
    do 7 (split; [reflexivity|]). unfold inline_args_of. destruct (item_generic_params i) as [g|]; cbn [wf_opt] in G.
    + destruct (C37_inline_args g [] G) as (a & ga & _ & C & _ & E & F & P). exists (Some ga).
      split; [|cbn; rewrite E, F; reflexivity]. apply generic_args_sound in C. destruct C as [C _].
      rewrite <- P. rewrite <- (C44_as_path_print (mkPath [mkPathSegment None n (Some ga)])); [cbn; rewrite app_nil_r; reflexivity|].
      unfold wf_path, wf_segment. cbn. rewrite C. reflexivity.
    + exists None. split; [|reflexivity]. apply (C44_as_path_print (mkPath [mkPathSegment None n None])). reflexivity.
Qed.
Example C67_example :
  let i := item_of "#[a] pub struct S<'a, T: 'a + X = u8, const N: usize>(&'a [T; N]) where T: Y;" in
  let tr := lex "tr::Tr<u8, { 1 }>" in
  match item_derive_where i tr, item_name i with
  | Some w, Some n =>
      shape_item i = true /\ run_closed end_where_item tr = true /\ run_closed end_impl_header tr = true
      /\ forallb (shape_impl_member false) (match item_of "impl A { fn f(&self) { 1 } const X: u8 = 1; }" with IImpl j => im_items j | _ => [] end) = true
      /\ texts (derive_stream i n w tr [])
         = texts (lex "impl<'a, T: 'a + X = u8, const N: usize> tr::Tr<u8, { 1 }> for S<'a, T, N,> where T: Y, T: tr::Tr<u8, { 1 }> { }")
  | _, _ => False
  end.
Proof. vm_compute. auto 10. Qed.

(** ** C68: chains of builder calls *)
Inductive edit := EParam (p : generic_param) | EWhere (p : where_predicate).
(** [edited i l j]: the calls [l], one after the other, turn [i] into [j]. *)
Inductive edited : item -> list edit -> item -> Prop :=
| ed_nil i : edited i [] i
| ed_param i p j l k : item_with_param i p = Some (Ret j) -> edited j l k -> edited i (EParam p :: l) k
| ed_where i p j l k : item_with_where i p = Some j -> edited j l k -> edited i (EWhere p :: l) k.
Definition is_lifetime_param (p : generic_param) : bool :=
  match gp_prefix p with Some (TPunct q) => p_is "'" q | _ => false end.
Definition new_params (l : list edit) : list generic_param := flat_map (fun e => match e with EParam p => [p] | _ => [] end) l.
Definition new_predicates (l : list edit) : list where_predicate := flat_map (fun e => match e with EWhere p => [p] | _ => [] end) l.

(** No chain fails. *)
Theorem C68_total (i : item) (l : list edit) : item_derive_where i [] <> None -> exists j, edited i l j.
Proof.
  revert i. induction l as [|[p|p] l IH]; intros i H; [exists i; constructor|..].
  - destruct (item_with_param i p) as [o|] eqn:E; [|destruct i; try discriminate; destruct (H eq_refl)].
    destruct (C34_with_param i p o E) as (j & g & -> & _ & _ & _ & _).
    destruct (IH j) as [k Hk]; [|exists k; econstructor; eauto].
    destruct i; try discriminate; injection E as E; inv_bind E; injection E as <-; discriminate.
  - destruct (item_with_where i p) as [j|] eqn:E; [|destruct i; try discriminate; destruct (H eq_refl)].
    destruct (IH j) as [k Hk]; [|exists k; econstructor; eauto]. destruct i; try discriminate; injection E as <-; discriminate.
Qed.
(** The new lifetimes come first, the last one leftmost; then the old parameters; then the other
    new parameters in order.  The new predicates follow the old ones.  Nothing else changes. *)
Theorem C68_result (i j : item) (l : list edit) : edited i l j ->
  params_of j = rev (filter is_lifetime_param (new_params l)) ++ params_of i
                ++ filter (fun p => negb (is_lifetime_param p)) (new_params l)
  /\ predicates (item_where j) = predicates (item_where i) ++ new_predicates l
  /\ without_generics (without_where j) = without_generics (without_where i).
Proof.
  induction 1 as [i|i p j l k H _ IH|i p j l k H _ IH].
  - cbn. rewrite !app_nil_r. auto.
  - destruct IH as (-> & -> & ->). destruct (C34_with_param i p _ H) as (j' & g & E & P & B & _). injection E as <-. rewrite P.
    assert (W : item_where j = item_where i /\ without_generics (without_where j) = without_generics (without_where i)).
    { destruct i; try discriminate; injection H as H; inv_bind H; injection H as <-; cbn in B |- *.
      - unfold struct_with_param in Hx. inv_bind Hx. injection Hx as <-. auto.
      - unfold enum_with_param in Hx. inv_bind Hx. injection Hx as <-. auto.
      - unfold union_with_param in Hx. inv_bind Hx. injection Hx as <-. auto. }
    destruct W as [-> ->]. split; [|auto]. cbn [new_params flat_map app filter].
    assert (L : placed p (params_of i) = if is_lifetime_param p then p :: params_of i else params_of i ++ [p]).
    { unfold placed, is_lifetime_param. destruct (gp_prefix p) as [[]|]; reflexivity. }
    rewrite L. destruct (is_lifetime_param p); cbn [negb rev]; unfold new_params; app_norm; reflexivity.
  - destruct IH as (-> & -> & ->). destruct (C35_with_where i j p H) as (P & B & _). rewrite P.
    assert (W : params_of j = params_of i) by (destruct i; try discriminate; injection H as <-; reflexivity).
    rewrite W, B. cbn [new_params new_predicates flat_map app]. unfold new_predicates. app_norm. auto.
Qed.
Definition wf_edit (e : edit) : bool :=
  match e with EParam p => wf_generic_param true p | EWhere p => wf_where_predicate true p end.
(** The printed result parses back to exactly that item (a tuple struct without semicolon must
    not get a where clause). *)
Theorem C68_reparse (i j : item) (l : list edit) :
  edited i l j -> wf_item i = true -> follow_ok i [] = true -> forallb wf_edit l = true ->
  new_predicates l = [] \/ unfinished i = false -> parse_item (print_item j) = Ret (Ok j).
Proof.
  induction 1 as [i|i p j l k H _ IH|i p j l k H _ IH]; intros W F E U; cbn [forallb wf_edit] in E; bsplit.
  - apply C01_print_parse_iff. auto.
  - pose proof (C34_reparse i p W F H0) as R. rewrite H in R. destruct R as (j' & R1 & R2). injection R1 as <-.
    apply C01_print_parse_iff in R2. destruct R2. apply IH; auto. destruct U as [U|U]; [left; exact U|right].
    destruct i; try discriminate; injection H as H; inv_bind H; injection H as <-; auto.
    unfold struct_with_param in Hx. inv_bind Hx. injection Hx as <-. exact U.
  - destruct U as [U|U]; [discriminate|]. destruct (C35_reparse i j p W H0 H) as [R1 R2].
    pose proof (proj2 R2 U) as F'. pose proof (proj2 R1 F') as P. apply C01_print_parse_iff in P. destruct P. apply IH; auto.
    right. destruct i; try discriminate; injection H as <-; auto.
Qed.
(** Adding a parameter and adding a predicate commute. *)
Theorem C68_commute (i j k : item) (p : generic_param) (q : where_predicate) :
  edited i [EParam p; EWhere q] j -> edited i [EWhere q; EParam p] k -> j = k.
Proof.
  intros A B. inversion A as [|? ? a ? ? A1 A2|]; subst. inversion A2 as [| |? ? b ? ? A3 A4]; subst. inversion A4; subst.
  inversion B as [| |? ? a' ? ? B1 B2]; subst. inversion B2 as [|? ? b' ? ? B3 B4|]; subst. inversion B4; subst.
  destruct i; try discriminate; cbn in A1, B1; injection A1 as A1; injection B1 as <-; inv_bind A1; injection A1 as <-;
    cbn in A3, B3; injection A3 as <-; injection B3 as B3; inv_bind B3; injection B3 as <-; f_equal.
  - unfold struct_with_param, struct_with_where in *. cbn in *. inv_bind Hx. injection Hx as <-. rewrite Hx1 in Hx0. cbn in Hx0. injection Hx0 as <-. reflexivity.
  - unfold enum_with_param, enum_with_where in *. cbn in *. inv_bind Hx. injection Hx as <-. rewrite Hx1 in Hx0. cbn in Hx0. injection Hx0 as <-. reflexivity.
  - unfold union_with_param, union_with_where in *. cbn in *. inv_bind Hx. injection Hx as <-. rewrite Hx1 in Hx0. cbn in Hx0. injection Hx0 as <-. reflexivity.
Qed.
Example C68_example :
  let i := item_of "struct S<T>(T) where T: A;" in
  let ps := params_of (item_of "struct S<'a, const N: usize, 'b, U>;") in
  let l := [EParam (nth 0 ps (mkGenericParam None (mkIdent "x" call_site) None));
            EWhere (mkWherePredicate (lex "U") (mkBound (punct_new ":" Alone) (lex "Copy")));
            EParam (nth 1 ps (mkGenericParam None (mkIdent "x" call_site) None));
            EParam (nth 2 ps (mkGenericParam None (mkIdent "x" call_site) None))] in
  exists j, edited i l j /\ wf_item i = true /\ follow_ok i [] = true /\ forallb wf_edit l = true /\ unfinished i = false
    /\ texts (print_item j) = texts (lex "struct S<'b, 'a, T, const N: usize>(T) where T: A, U: Copy;").
Proof.
  eexists. split.
  - eapply ed_param; [vm_compute; reflexivity|]. eapply ed_where; [reflexivity|]. eapply ed_param; [vm_compute; reflexivity|].
    eapply ed_param; [vm_compute; reflexivity|]. apply ed_nil.
  - vm_compute. auto 10.
Qed.

(** C71: blocks are read independently of their headers, and what is inside a block is
    read like top-level items. *)
From Verif Require Import Debug PrintSpells Complete3 Sound2 Unfold Samples PropRoundTrip PropErr.
Local Open Scope string_scope.
Local Open Scope list_scope.

(** ** Members as items *)
Definition member_item (m : impl_member) : item :=
  match m with
  | IMFunction f => IFunction f
  | IMConstant c => IConstant c
  | IMType t => ITypeAlias t
  | IMMacro m => IMacro m
  end.
(** Not a macro call; a [static] only where one is allowed. *)
Definition plain_member (static_allowed : bool) (m : impl_member) : bool :=
  match m with
  | IMConstant c => static_allowed || id_is "const" (co_kw c)
  | IMMacro _ => false
  | _ => true
  end.
Definition plain_trait_member (m : trait_member) : bool := plain_member false (impl_of_trait_member m).

(** The piece [c], taken alone, is exactly the item [i]. *)
Definition alone (c : list tok) (i : item) : Prop := consume_item c = Ret (Ok i, []).

Lemma alone_iff c i : alone c i <-> spells_item i c /\ shape_item i = true /\ follow_ok i [] = true.
Proof.
  unfold alone. rewrite consume_item_iff. split.
  - intros (c' & -> & H). rewrite app_nil_r. exact H.
  - intro H. exists c. rewrite app_nil_r. auto.
Qed.
Lemma member_alone st m c : plain_member st m = true ->
  (alone c (member_item m) <-> spells_impl_member m c /\ shape_impl_member st m = true).
Proof.
  intro P. rewrite alone_iff. destruct m as [f|k|t|m]; cbn in *; try discriminate.
  - tauto.
  - split; [intros (A & B & _)|intros [A B]; apply andb_prop in B]; rewrite ?P, ?andb_true_r; tauto.
  - tauto.
Qed.

Definition pieces {A} (it : A -> item) (body : list tok) (ms : list A) : Prop :=
  exists cs, body = List.concat cs /\ Forall2 (fun c m => alone c (it m)) cs ms.

Lemma pieces_spells {A} (it : A -> item) (sp : A -> list tok -> Prop) (shape : A -> bool) ms body :
  (forall m c, In m ms -> (alone c (it m) <-> sp m c /\ shape m = true)) ->
  (pieces it body ms <-> spells_list sp ms body /\ forallb shape ms = true).
Proof.
  revert body. induction ms as [|m ms IH]; intros body H.
  - split.
    + intros (cs & -> & F). inversion F; subst. cbn. auto.
    + intros [E _]. cbn in E. subst. exists []. cbn. auto.
  - assert (IH' : forall b, pieces it b ms <-> spells_list sp ms b /\ forallb shape ms = true)
      by (intro b; apply IH; intros; apply H; right; auto).
    clear IH. split.
    + intros (cs & -> & F). inversion F as [|c ? cs' ? F1 F2]; subst. cbn [List.concat].
      apply H in F1; [|left; auto]. destruct F1 as [F1 F3].
      destruct (proj1 (IH' (List.concat cs'))) as [G1 G2]; [exists cs'; auto|].
      cbn. rewrite F3, G2. split; auto. exists c, (List.concat cs'). auto.
    + intros [(c1 & c2 & -> & S1 & S2) B]. cbn in B. apply andb_prop in B. destruct B as [B1 B2].
      destruct (proj2 (IH' c2)) as (cs & -> & F); auto. exists (c1 :: cs). split; auto.
      constructor; auto. apply H; [left|]; auto.
Qed.

Lemma brace_tail h (c : list tok) g g' (rest : list tok) :
  h ++ TGroup g :: rest = (c ++ [TGroup g']) ++ rest -> h = c /\ g = g'.
Proof.
  intro E. change (TGroup g :: rest) with ([TGroup g] ++ rest) in E. rewrite app_assoc in E.
  apply app_inv_tail in E. apply app_inj_tail in E. destruct E as [-> E]. injection E as ->. auto.
Qed.

(** ** Impl blocks *)
Definition impl_with_items (j : impl_) (ms : list impl_member) : impl_ :=
  mkImpl (im_attributes j) (im_unsafe j) (im_impl j) (im_generics j) (im_trait j) (im_for j)
    (im_self j) (im_where j) (im_braces j) [] ms.

Definition impl_head (j : impl_) (h : list tok) : Prop :=
  exists ca vis, spells_attributes (im_attributes j) ca /\ wf_opt wf_vis vis = true
  /\ h = ca ++ print_opt print_vis vis ++ print_opt print_ident (im_unsafe j)
         ++ TIdent (im_impl j) :: print_opt print_generic_params (im_generics j)
         ++ print_opt print_type (im_trait j) ++ print_opt print_ident (im_for j)
         ++ te_tokens (im_self j) ++ print_opt print_where (im_where j).
Lemma impl_split j c : spells_impl j c <-> exists h s, impl_head j h
  /\ spells_body spells_impl_member (im_inner_attributes j) (im_items j) s
  /\ c = h ++ [TGroup (mkGroup (gs_delim (im_braces j)) s (gs_span (im_braces j)))].
Proof.
  split.
  - intros (ca & vis & cb & H1 & H2 & (s & H3 & ->) & ->). eexists. exists s. split; [exists ca, vis; split; [|split]; eauto|].
    split; auto. app_norm. reflexivity.
  - intros (h & s & (ca & vis & H1 & H2 & ->) & H3 & ->). exists ca, vis. eexists. split; [|split; [|split; [exists s; split; [exact H3|reflexivity]|]]]; auto.
    app_norm. reflexivity.
Qed.

Theorem C71_impl (h body0 rest : list tok) sp j body ms :
  consume_item (h ++ TGroup (mkGroup Brace body0 sp) :: rest) = Ret (Ok (IImpl j), rest) ->
  forallb (plain_member false) ms = true ->
  (consume_item (h ++ TGroup (mkGroup Brace body sp) :: rest) = Ret (Ok (IImpl (impl_with_items j ms)), rest)
   <-> pieces member_item body ms).
Proof.
  intros H P. apply consume_item_iff in H. destruct H as (c & E & S & W & _).
  cbn [spells_item] in S. apply impl_split in S. destruct S as (h' & s & Hh & _ & ->).
  destruct (brace_tail _ _ _ _ _ E) as [<- Eg]. injection Eg as Ed _ Es. cbn [shape_item] in W.
  rewrite (pieces_spells _ spells_impl_member (shape_impl_member false)).
  2:{ intros m c Hm. apply member_alone. rewrite forallb_forall in P. auto. }
  rewrite consume_item_iff. unfold shape_impl in W. bsplit. split.
  - intros (c & E' & S' & W' & _). cbn [spells_item] in S'. apply impl_split in S'. destruct S' as (h' & s' & _ & Hb & ->).
    destruct (brace_tail _ _ _ _ _ E') as [<- Eg]. injection Eg as _ <- _. destruct Hb as (ci & cm & Hi & Hm & ->).
    cbn in Hi. subst ci. cbn in *. split; auto. unfold shape_impl in W'. bsplit. auto.
  - intros [Hs Hf]. exists (h ++ [TGroup (mkGroup Brace body sp)]). split; [|split; [|split]].
    + rewrite <- app_assoc. reflexivity.
    + cbn [spells_item]. apply impl_split. exists h, body. split; [exact Hh|]. split.
      * exists [], body. cbn. auto.
      * cbn. rewrite Ed, Es. reflexivity.
    + cbn [shape_item]. unfold shape_impl. cbn. rwb. auto.
    + reflexivity.
Qed.

(** ** Traits *)
Definition trait_with_items (t : trait_) (ms : list trait_member) : trait_ :=
  mkTrait (tr_attributes t) (tr_vis t) (tr_unsafe t) (tr_trait t) (tr_name t) (tr_generics t)
    (tr_bound t) (tr_where t) (tr_braces t) [] ms.
Definition trait_head (t : trait_) (h : list tok) : Prop :=
  exists ca, spells_attributes (tr_attributes t) ca
  /\ h = ca ++ print_opt print_vis (tr_vis t) ++ print_opt print_ident (tr_unsafe t)
         ++ TIdent (tr_trait t) :: TIdent (tr_name t) :: print_opt print_generic_params (tr_generics t)
         ++ print_opt print_bound (tr_bound t) ++ print_opt print_where (tr_where t).
Lemma trait_split t c : spells_trait t c <-> exists h s, trait_head t h
  /\ spells_body spells_trait_member (tr_inner_attributes t) (tr_items t) s
  /\ c = h ++ [TGroup (mkGroup (gs_delim (tr_braces t)) s (gs_span (tr_braces t)))].
Proof.
  split.
  - intros (ca & cb & H1 & (s & H3 & ->) & ->). eexists. exists s. split; [exists ca; split; eauto|].
    split; auto. app_norm. reflexivity.
  - intros (h & s & (ca & H1 & ->) & H3 & ->). exists ca. eexists. split; [|split; [exists s; split; [exact H3|reflexivity]|]]; auto.
    app_norm. reflexivity.
Qed.
Theorem C71_trait (h body0 rest : list tok) sp t body ms :
  consume_item (h ++ TGroup (mkGroup Brace body0 sp) :: rest) = Ret (Ok (ITrait t), rest) ->
  forallb plain_trait_member ms = true ->
  (consume_item (h ++ TGroup (mkGroup Brace body sp) :: rest) = Ret (Ok (ITrait (trait_with_items t ms)), rest)
   <-> pieces (fun m => member_item (impl_of_trait_member m)) body ms).
Proof.
  intros H P. apply consume_item_iff in H. destruct H as (c & E & S & W & _).
  cbn [spells_item] in S. apply trait_split in S. destruct S as (h' & s & Hh & _ & ->).
  destruct (brace_tail _ _ _ _ _ E) as [<- Eg]. injection Eg as Ed _ Es. cbn [shape_item] in W.
  rewrite (pieces_spells _ spells_trait_member shape_trait_member).
  2:{ intros m c Hm. apply member_alone. rewrite forallb_forall in P. apply P in Hm. exact Hm. }
  rewrite consume_item_iff. unfold shape_trait in W. bsplit. split.
  - intros (c & E' & S' & W' & _). cbn [spells_item] in S'. apply trait_split in S'. destruct S' as (h' & s' & _ & Hb & ->).
    destruct (brace_tail _ _ _ _ _ E') as [<- Eg]. injection Eg as _ <- _. destruct Hb as (ci & cm & Hi & Hm & ->).
    cbn in Hi. subst ci. cbn in *. split; auto. unfold shape_trait in W'. bsplit. auto.
  - intros [Hs Hf]. exists (h ++ [TGroup (mkGroup Brace body sp)]). split; [|split; [|split]].
    + rewrite <- app_assoc. reflexivity.
    + cbn [spells_item]. apply trait_split. exists h, body. split; [exact Hh|]. split.
      * exists [], body. cbn. auto.
      * cbn. rewrite Ed, Es. reflexivity.
    + cbn [shape_item]. unfold shape_trait. cbn. rwb. auto.
    + reflexivity.
Qed.

(** ** Extern blocks *)
Definition extern_with_items (b : extern_block) (ms : list impl_member) : extern_block :=
  mkExternBlock (eb_attributes b) (eb_vis b) (eb_unsafe b) (eb_extern b) (eb_abi b) (eb_braces b) [] ms.
Definition extern_head (b : extern_block) (h : list tok) : Prop :=
  exists ca, spells_attributes (eb_attributes b) ca
  /\ h = ca ++ print_opt print_vis (eb_vis b) ++ print_opt print_ident (eb_unsafe b)
         ++ TIdent (eb_extern b) :: print_opt print_lit (eb_abi b).
Lemma extern_split b c : spells_extern_block b c <-> exists h s, extern_head b h
  /\ spells_body spells_impl_member (eb_inner_attributes b) (eb_items b) s
  /\ c = h ++ [TGroup (mkGroup (gs_delim (eb_braces b)) s (gs_span (eb_braces b)))].
Proof.
  split.
  - intros (ca & cb & H1 & (s & H3 & ->) & ->). eexists. exists s. split; [exists ca; split; eauto|].
    split; auto. app_norm. reflexivity.
  - intros (h & s & (ca & H1 & ->) & H3 & ->). exists ca. eexists. split; [|split; [exists s; split; [exact H3|reflexivity]|]]; auto.
    app_norm. reflexivity.
Qed.
Theorem C71_extern_block (h body0 rest : list tok) sp b body ms :
  consume_item (h ++ TGroup (mkGroup Brace body0 sp) :: rest) = Ret (Ok (IExternBlock b), rest) ->
  forallb (plain_member true) ms = true ->
  (consume_item (h ++ TGroup (mkGroup Brace body sp) :: rest) = Ret (Ok (IExternBlock (extern_with_items b ms)), rest)
   <-> pieces member_item body ms).
Proof.
  intros H P. apply consume_item_iff in H. destruct H as (c & E & S & W & _).
  cbn [spells_item] in S. apply extern_split in S. destruct S as (h' & s & Hh & _ & ->).
  destruct (brace_tail _ _ _ _ _ E) as [<- Eg]. injection Eg as Ed _ Es. cbn [shape_item] in W.
  rewrite (pieces_spells _ spells_impl_member (shape_impl_member true)).
  2:{ intros m c Hm. apply member_alone. rewrite forallb_forall in P. auto. }
  rewrite consume_item_iff. unfold shape_extern_block in W. bsplit. split.
  - intros (c & E' & S' & W' & _). cbn [spells_item] in S'. apply extern_split in S'. destruct S' as (h' & s' & _ & Hb & ->).
    destruct (brace_tail _ _ _ _ _ E') as [<- Eg]. injection Eg as _ <- _. destruct Hb as (ci & cm & Hi & Hm & ->).
    cbn in Hi. subst ci. cbn in *. split; auto. unfold shape_extern_block in W'. bsplit. auto.
  - intros [Hs Hf]. exists (h ++ [TGroup (mkGroup Brace body sp)]). split; [|split; [|split]].
    + rewrite <- app_assoc. reflexivity.
    + cbn [spells_item]. apply extern_split. exists h, body. split; [exact Hh|]. split.
      * exists [], body. cbn. auto.
      * cbn. rewrite Ed, Es. reflexivity.
    + cbn [shape_item]. unfold shape_extern_block. cbn. rwb. auto.
    + reflexivity.
Qed.

(** ** Modules: the members are what repeated calls of [consume_item] give on the body. *)
Definition module_with_members (m : module_ item) (l : list item) : module_ item :=
  mkModule (mo_attributes m) (mo_vis m) (mo_unsafe m) (mo_mod m) (mo_name m) None (mo_braces m) [] l.

Lemma consumes_members l body :
  consumes body l [] <-> spells_members spells_item follow_ok l body /\ forallb shape_item l = true.
Proof.
  revert body. induction l as [|i l IH]; intro body.
  - split.
    + intro H. inversion H; subst. cbn. auto.
    + intros [E _]. cbn in E. subst. constructor.
  - split.
    + intro H. inversion H as [|? ? ts1 ? ? H1 H2]; subst. apply consume_item_iff in H1. destruct H1 as (c & -> & S & W & F).
      apply IH in H2. destruct H2 as [H2 H3]. cbn. rewrite W, H3. split; auto. exists c, ts1. auto.
    + intros [(c1 & c2 & -> & S & F & R) B]. cbn in B. apply andb_prop in B. destruct B as [B1 B2].
      econstructor; [apply consume_item_iff; exists c1; auto|]. apply IH. auto.
Qed.
Definition module_head (m : module_ item) (h : list tok) : Prop :=
  exists ca, spells_attributes (mo_attributes m) ca
  /\ h = ca ++ print_opt print_vis (mo_vis m) ++ print_opt print_ident (mo_unsafe m)
         ++ [TIdent (mo_mod m); TIdent (mo_name m)].
Lemma module_split (m : module_ item) h (g : group) :
  spells_module spells_item follow_ok m (h ++ [TGroup g]) <->
  mo_semicolon m = None /\ module_head m h /\ exists gs, mo_braces m = Some gs
  /\ g_delim g = gs_delim gs /\ g_span g = gs_span gs
  /\ exists ci cm, spells_attributes (mo_inner_attributes m) ci
     /\ spells_members spells_item follow_ok (mo_members m) cm /\ g_stream g = ci ++ cm.
Proof.
  assert (N : forall ca x, h ++ [TGroup g] = ca ++ print_opt print_vis (mo_vis m) ++ print_opt print_ident (mo_unsafe m)
         ++ TIdent (mo_mod m) :: TIdent (mo_name m) :: [x] ->
     h = ca ++ print_opt print_vis (mo_vis m) ++ print_opt print_ident (mo_unsafe m) ++ [TIdent (mo_mod m); TIdent (mo_name m)]
     /\ TGroup g = x).
  { intros ca x E. apply app_inj_tail. rewrite E. app_norm. reflexivity. }
  split.
  - intros (ca & cb & H1 & H2 & E). destruct (mo_semicolon m) as [p|].
    + subst cb. apply N in E. destruct E; discriminate.
    + destruct (mo_braces m) as [gs|].
      * destruct H2 as (s & Hs & ->). apply N in E. destruct E as [-> E]. unfold quote_with in E. injection E as ->.
        split; [auto|]. split; [exists ca; auto|]. exists gs. cbn. destruct Hs as (ci & cm & A & B & C). repeat split; eauto 6.
      * subst cb. exfalso. 
        assert (E' : h ++ [TGroup g] = (ca ++ print_opt print_vis (mo_vis m) ++ print_opt print_ident (mo_unsafe m) ++ [TIdent (mo_mod m)]) ++ [TIdent (mo_name m)]).
        { rewrite E. app_norm. reflexivity. }
        apply app_inj_tail in E'. destruct E'. discriminate.
  - intros (H0 & (ca & H1 & ->) & gs & Hg & Hd & Hsp & ci & cm & A & B & C). exists ca. eexists. rewrite H0, Hg.
    split; [auto|]. split; [exists (g_stream g); split; [exists ci, cm; auto|reflexivity]|].
    unfold quote_with. destruct g; cbn in *. subst. app_norm. reflexivity.
Qed.

Theorem C71_module (h body0 rest : list tok) sp m body l :
  consume_item (h ++ TGroup (mkGroup Brace body0 sp) :: rest) = Ret (Ok (IModule m), rest) ->
  (consume_item (h ++ TGroup (mkGroup Brace body sp) :: rest) = Ret (Ok (IModule (module_with_members m l)), rest)
   <-> consumes body l []).
Proof.
  assert (T : forall g (c : list tok), h ++ TGroup g :: rest = c ++ rest -> c = h ++ [TGroup g]).
  { intros g c E. change (TGroup g :: rest) with ([TGroup g] ++ rest) in E. rewrite app_assoc in E. apply app_inv_tail in E. auto. }
  intro H. apply consume_item_iff in H. destruct H as (c & E & S & W & _). apply T in E. subst c.
  cbn [spells_item] in S. apply module_split in S. destruct S as (Hn & Hh & gs & Hgs & Hd & Hsp & _). cbn in Hd, Hsp.
  cbn [shape_item] in W. unfold shape_module in W. rewrite Hn, Hgs in W. bsplit.
  rewrite consumes_members, consume_item_iff. split.
  - intros (c & E' & S' & W' & _). apply T in E'. subst c. cbn [spells_item] in S'. apply module_split in S'.
    destruct S' as (_ & _ & gs' & _ & _ & _ & ci & cm & Hi & Hm & Hb). cbn in Hi, Hm, Hb. subst ci body. split; auto.
    cbn [shape_item] in W'. unfold shape_module in W'. cbn in W'. rewrite Hgs in W'. bsplit. auto.
  - intros [Hs Hf]. exists (h ++ [TGroup (mkGroup Brace body sp)]). split; [|split; [|split]].
    + rewrite <- app_assoc. reflexivity.
    + cbn [spells_item]. apply module_split. split; [reflexivity|]. split; [exact Hh|]. exists gs. cbn. repeat split; auto.
      exists [], body. cbn. auto.
    + cbn [shape_item]. unfold shape_module. cbn. rewrite Hgs. rwb. auto.
    + reflexivity.
Qed.

Example C71_example :
  let h := lex "#[a] unsafe impl<T: X> Y<T> for (T,) where T: Z" in
  let g b := TGroup (mkGroup Brace (lex b) 7%N) in
  (exists k, consume_item (h ++ g "" :: lex "fn") = Ret (Ok (IImpl k), lex "fn"))
  /\ (exists ms, pieces member_item (lex "pub fn f(self) {}" ++ lex "const A: u8 = 1;" ++ lex "type T = u8;") ms
                 /\ List.length ms = 3 /\ forallb (plain_member false) ms = true).
Proof.
  split.
  - eexists. vm_compute. reflexivity.
  - exists (match item_of "pub fn f(self) {}", item_of "const A: u8 = 1;", item_of "type T = u8;" with
            | IFunction f, IConstant c, ITypeAlias t => [IMFunction f; IMConstant c; IMType t] | _, _, _ => [] end).
    split; [|split; vm_compute; reflexivity].
    exists [lex "pub fn f(self) {}"; lex "const A: u8 = 1;"; lex "type T = u8;"]. split; [reflexivity|].
    repeat constructor; vm_compute; reflexivity.
Qed.
Example C71_example_others :
  let g b := TGroup (mkGroup Brace (lex b) 7%N) in
  (exists t, consume_item (lex "pub unsafe trait T<A>: B where A: C" ++ g "fn f();" :: lex "fn") = Ret (Ok (ITrait t), lex "fn"))
  /\ (exists b, consume_item (lex "#[a] unsafe extern ""C""" ++ g "#![b] static A: u8;" :: lex "fn") = Ret (Ok (IExternBlock b), lex "fn"))
  /\ (exists m, consume_item (lex "pub mod m" ++ g "#![b] use a;" :: lex "fn") = Ret (Ok (IModule m), lex "fn"))
  /\ (exists ms, pieces (fun m => member_item (impl_of_trait_member m)) (lex "fn f(self) {}" ++ lex "type T: X = u8;") ms
                 /\ List.length ms = 2 /\ forallb plain_trait_member ms = true)
  /\ (exists ms, pieces member_item (lex "pub static A: u8;" ++ lex "fn f();") ms
                 /\ List.length ms = 2 /\ forallb (plain_member true) ms = true /\ forallb (plain_member false) ms = false)
  /\ exists l, consumes (lex "struct A(u8) struct B; fn f() {}") l [] /\ List.length l = 3.
Proof.
  cbv zeta. split; [eexists; vm_compute; reflexivity|]. split; [eexists; vm_compute; reflexivity|]. split; [eexists; vm_compute; reflexivity|].
  split; [|split].
  - exists (match item_of "fn f(self) {}", item_of "type T: X = u8;" with
            | IFunction f, ITypeAlias t => [TMFunction f; TMType t] | _, _ => [] end).
    split; [|split; vm_compute; reflexivity].
    exists [lex "fn f(self) {}"; lex "type T: X = u8;"]. split; [reflexivity|]. repeat constructor; vm_compute; reflexivity.
  - exists (match item_of "pub static A: u8;", item_of "fn f();" with
            | IConstant c, IFunction f => [IMConstant c; IMFunction f] | _, _ => [] end).
    split; [|split; [|split]; vm_compute; reflexivity].
    exists [lex "pub static A: u8;"; lex "fn f();"]. split; [reflexivity|]. repeat constructor; vm_compute; reflexivity.
  - eexists. split; [|]. 
    + repeat (eapply consumes_cons; [vm_compute; reflexivity|]). constructor.
    + reflexivity.
Qed.
(** Macro calls are left out above because they do differ: a member macro may be named
    [struct], a top-level one may follow a visibility. *)
Example C71_macros_differ :
  (exists i, consume_item (lex "impl A { struct! {} }") = Ret (Ok i, []))
  /\ (exists p, consume_item (lex "struct! {}") = Panic p)
  /\ (exists i, consume_item (lex "pub m! {}") = Ret (Ok i, []))
  /\ (exists p, consume_item (lex "impl A { pub m! {} }") = Panic p).
Proof. vm_compute. repeat split; eexists; reflexivity. Qed.

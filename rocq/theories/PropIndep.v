(** C107: names and runs of tokens can be edited independently. *)
From Verif Require Import RustSyntax Debug PrintSpells Complete3 Sound2 Unfold Samples ScanSpec PropScan PropRoundTrip PropErr PropMore PropLimits PropRust PropSubst PropRename PropFill.
From Verif Require PropDecorate.
Local Open Scope string_scope.
Local Open Scope list_scope.

Section Indep.
Variable r : role -> ident -> ident.
Variable f : place -> list tok -> list tok.

(** ** Renaming and filling commute *)
Lemma pu_swap {A} (k : A -> A) (h : bool -> A -> A) p : (forall b x, h b (k x) = k (h b x)) -> fill_pu h (sub_pu k p) = sub_pu k (fill_pu h p).
Proof.
  intro H. unfold fill_pu, sub_pu. cbn [pu_inner pu_skip_last]. f_equal. generalize (pu_skip_last p). intro sk. induction (pu_inner p) as [|[x c] l IH]; [reflexivity|].
  destruct l as [|[y e] l]; [cbn; rewrite H; reflexivity|].
  change (fill_inner h sk ((x, c) :: (y, e) :: l)) with ((h true x, c) :: fill_inner h sk ((y, e) :: l)). cbn [map fst snd] in *. rewrite <- IH, <- H. reflexivity.
Qed.
Lemma pu_runs_kept {A} (k : A -> A) (d : bool -> A -> list run) p : (forall b x, d b (k x) = d b x) -> runs_pu d (sub_pu k p) = runs_pu d p.
Proof.
  intro H. unfold runs_pu, sub_pu. cbn [pu_inner pu_skip_last]. generalize (pu_skip_last p). intro sk. induction (pu_inner p) as [|[x c] l IH]; [reflexivity|].
  destruct l as [|[y e] l]; [cbn; apply H|]. change (runs_inner d sk ((x, c) :: (y, e) :: l)) with (d true x ++ runs_inner d sk ((y, e) :: l)). rewrite <- IH, <- (H true x). reflexivity.
Qed.
Lemma pu_names_kept {A} (h : bool -> A -> A) (d : A -> list (role * ident)) p : (forall b x, d (h b x) = d x) -> names_pu d (fill_pu h p) = names_pu d p.
Proof.
  intro H. unfold names_pu, fill_pu. cbn [pu_inner]. generalize (pu_skip_last p). intro sk. induction (pu_inner p) as [|[x c] l IH]; [reflexivity|].
  destruct l as [|[y e] l]; [cbn; rewrite H; reflexivity|].
  change (fill_inner h sk ((x, c) :: (y, e) :: l)) with ((h true x, c) :: fill_inner h sk ((y, e) :: l)). cbn [flat_map fst] in *. rewrite H, IH. reflexivity.
Qed.
Lemma generics_swap g : fill_generics f (ren_generics r g) = ren_generics r (fill_generics f g).
Proof. destruct g as [[l p e]|]; [|reflexivity]. cbn -[fill_pu sub_pu]. rewrite pu_swap; reflexivity. Qed.
Lemma fields_swap x : fill_fields f (ren_fields r x) = ren_fields r (fill_fields f x).
Proof. destruct x as [| |[]]; [reflexivity|reflexivity|]. cbn -[fill_pu sub_pu]. rewrite pu_swap; reflexivity. Qed.
Lemma function_swap x : fill_function f (ren_function r x) = ren_function r (fill_function f x).
Proof. unfold fill_function, ren_function. cbn -[fill_pu sub_pu fill_generics ren_generics fill_where]. rewrite generics_swap, pu_swap; [reflexivity|]. intros b []; reflexivity. Qed.
Lemma impl_member_swap m : fill_impl_member f (ren_impl_member r m) = ren_impl_member r (fill_impl_member f m).
Proof. destruct m; try reflexivity. cbn [fill_impl_member ren_impl_member]. rewrite function_swap. reflexivity. Qed.
Lemma trait_member_swap m : fill_trait_member f (ren_trait_member r m) = ren_trait_member r (fill_trait_member f m).
Proof. destruct m; try reflexivity. cbn [fill_trait_member ren_trait_member]. rewrite function_swap. reflexivity. Qed.
Theorem C107_commute (i : item) : fill_item f (ren_item r i) = ren_item r (fill_item f i).
Proof.
  induction i as [m IH|i No] using item_nested_ind.
  - destruct m. cbn [fill_item ren_item]. do 2 f_equal. rewrite !map_map. apply map_ext_in, Forall_forall, IH.
  - destruct i as [[xa xv xk xn xg xw xf xs]|[xa xv xk xn xg xw xb xvs]|[xa xv xk xn xg xw [xf xb]]|m|[xa xv xu xk xn xg xbd xw xbr xia xms]|[xa xu xk xg xt xf xs xw xbr xia xms]|t|x|k|[xa xv xk xt xs]|m|[xa xv xu xe xab xbr xia xms]|c];
      cbn [fill_item ren_item]; rewrite ?generics_swap, ?fields_swap; try reflexivity.
    + rewrite pu_swap; [reflexivity|]. intros b [a v n x e]. unfold fill_variant, ren_variant. cbn [ev_fields ev_attributes ev_vis ev_name ev_value]. rewrite fields_swap. reflexivity.
    + rewrite pu_swap by reflexivity. reflexivity.
    + exfalso. eapply No. reflexivity.
    + rewrite !map_map, (map_ext _ _ trait_member_swap). reflexivity.
    + rewrite !map_map, (map_ext _ _ impl_member_swap). assert (G : some (ren_generics r xg) = some xg) by (destruct xg; reflexivity). rewrite G. reflexivity.
    + rewrite function_swap. reflexivity.
    + rewrite !map_map, (map_ext _ _ impl_member_swap). reflexivity.
    + destruct c. reflexivity.
Qed.

(** ** Renaming keeps the runs, filling keeps the names *)
Lemma generics_runs_kept g : runs_generics (ren_generics r g) = runs_generics g.
Proof. destruct g as [g|]; [|reflexivity]. apply pu_runs_kept. reflexivity. Qed.
Lemma fields_runs_kept x : runs_fields (ren_fields r x) = runs_fields x.
Proof. destruct x; [reflexivity|reflexivity|]. apply pu_runs_kept. reflexivity. Qed.
Lemma function_runs_kept x : runs_function (ren_function r x) = runs_function x.
Proof. unfold runs_function. cbn [ren_function fn_generics fn_params fn_ret fn_where]. rewrite generics_runs_kept, pu_runs_kept; [reflexivity|]. intros b []; reflexivity. Qed.
Lemma impl_member_runs_kept m : runs_impl_member (ren_impl_member r m) = runs_impl_member m.
Proof. destruct m; try reflexivity. apply function_runs_kept. Qed.
Lemma trait_member_runs_kept m : runs_trait_member (ren_trait_member r m) = runs_trait_member m.
Proof. destruct m; try reflexivity. apply function_runs_kept. Qed.
Lemma flat_kept {A B} (d : A -> list B) (k : A -> A) l : (forall x, In x l -> d (k x) = d x) -> flat_map d (map k l) = flat_map d l.
Proof. intro H. induction l as [|x l IH]; [reflexivity|]. cbn. rewrite H, IH; auto using in_eq, in_cons. Qed.
Theorem C107_runs (i : item) : runs_item (ren_item r i) = runs_item i.
Proof.
  induction i as [m IH|i No] using item_nested_ind.
  - destruct m as [a v u k n s b ia ms]. cbn [mo_members] in IH. cbn [ren_item runs_item mo_members]. apply flat_kept, Forall_forall, IH.
  - destruct i as [[xa xv xk xn xg xw xf xs]|[xa xv xk xn xg xw xb xvs]|[xa xv xk xn xg xw [xf xb]]|m|[xa xv xu xk xn xg xbd xw xbr xia xms]|[xa xu xk xg xt xf xs xw xbr xia xms]|t|x|k|[xa xv xk xt xs]|m|[xa xv xu xe xab xbr xia xms]|c];
      cbn [ren_item runs_item st_generics st_where st_fields en_generics en_where en_variants un_generics un_where un_fields tr_generics tr_bound tr_where tr_items im_generics im_trait im_self im_where im_items eb_items];
      rewrite ?generics_runs_kept, ?fields_runs_kept; auto using function_runs_kept.
    + do 2 f_equal. apply pu_runs_kept. intros b v. apply fields_runs_kept.
    + do 2 f_equal. cbn [runs_fields nfs_fields]. apply pu_runs_kept. reflexivity.
    + exfalso. eapply No. reflexivity.
    + do 3 f_equal. apply flat_kept. auto using trait_member_runs_kept.
    + assert (G : some (ren_generics r xg) = some xg) by (destruct xg; reflexivity). rewrite G. do 4 f_equal. apply flat_kept. auto using impl_member_runs_kept.
    + apply flat_kept. auto using impl_member_runs_kept.
    + destruct c. reflexivity.
Qed.
Lemma generics_names_kept g : names_generics (fill_generics f g) = names_generics g.
Proof. destruct g as [g|]; [|reflexivity]. apply pu_names_kept. reflexivity. Qed.
Lemma fields_names_kept x : names_fields (fill_fields f x) = names_fields x.
Proof. destruct x; [reflexivity|reflexivity|]. apply pu_names_kept. reflexivity. Qed.
Lemma function_names_kept x : names_function (fill_function f x) = names_function x.
Proof. unfold names_function. cbn [fill_function fn_generics fn_params fn_name]. rewrite generics_names_kept, pu_names_kept; [reflexivity|]. intros b []; reflexivity. Qed.
Lemma impl_member_names_kept m : names_impl_member (fill_impl_member f m) = names_impl_member m.
Proof. destruct m; try reflexivity. apply function_names_kept. Qed.
Lemma trait_member_names_kept m : names_trait_member (fill_trait_member f m) = names_trait_member m.
Proof. destruct m; try reflexivity. apply function_names_kept. Qed.
Theorem C107_names (i : item) : names_item (fill_item f i) = names_item i.
Proof.
  induction i as [m IH|i No] using item_nested_ind.
  - destruct m as [a v u k n s b ia ms]. cbn [mo_members] in IH. cbn [fill_item names_item mo_members mo_name]. f_equal. apply flat_kept, Forall_forall, IH.
  - destruct i as [[xa xv xk xn xg xw xf xs]|[xa xv xk xn xg xw xb xvs]|[xa xv xk xn xg xw [xf xb]]|m|[xa xv xu xk xn xg xbd xw xbr xia xms]|[xa xu xk xg xt xf xs xw xbr xia xms]|t|x|k|[xa xv xk xt xs]|m|[xa xv xu xe xab xbr xia xms]|c];
      cbn [fill_item names_item st_name st_generics st_fields en_name en_generics en_variants un_name un_generics un_fields tr_name tr_generics tr_items im_generics im_items eb_items];
      rewrite ?generics_names_kept, ?fields_names_kept; auto using function_names_kept.
    + do 2 f_equal. apply pu_names_kept. intros b v. unfold names_variant. cbn [fill_variant ev_vis ev_name ev_fields]. rewrite fields_names_kept. reflexivity.
    + do 2 f_equal. cbn [names_fields nfs_fields]. apply pu_names_kept. reflexivity.
    + exfalso. eapply No. reflexivity.
    + do 2 f_equal. apply flat_kept. auto using trait_member_names_kept.
    + f_equal. apply flat_kept. auto using impl_member_names_kept.
    + apply flat_kept. auto using impl_member_names_kept.
Qed.
End Indep.

(** ** C107 *)
(** After both edits the item is preserved exactly if every new name may be declared where it is and every new run fits where it is. *)
Theorem C107_both (r : role -> ident -> ident) (f : place -> list tok -> list tok) (i : item) : parse_item (print_item i) = Ret (Ok i) ->
  let j := ren_item r (fill_item f i) in
  parse_item (print_item j) = Ret (Ok j) <->
    Forall (fun x => may_declare (fst x) (r (fst x) (snd x))) (names_item i) /\ Forall (fun x => fits (fst x) (f (fst x) (snd x))) (runs_item i).
Proof.
  intros H j. subst j. pose proof (proj1 (C106_skeleton i) H) as [B _].
  rewrite C106_skeleton, C107_commute, C106_twice, C107_runs, C106_runs.
  change (fill_item (fun p ts => blank p (f p ts)) i) with (fill_item blank i). rewrite (C93_rename r _ B), C107_names.
  assert (E : Forall (fun x => fits (fst x) (snd x)) (map (fun y : run => (fst y, f (fst y) (snd y))) (runs_item i)) <-> Forall (fun x => fits (fst x) (f (fst x) (snd x))) (runs_item i)).
  { rewrite !Forall_forall. split.
    - intros A x Hx. apply (A (fst x, f (fst x) (snd x))), in_map_iff. eauto.
    - intros A x Hx. apply in_map_iff in Hx. destruct Hx as (y & <- & Hy). exact (A y Hy). }
  rewrite E. reflexivity.
Qed.
(** In particular a failure of both edits together is a failure of one of them alone. *)
Theorem C107_alone (r : role -> ident -> ident) (f : place -> list tok -> list tok) (i : item) : parse_item (print_item i) = Ret (Ok i) ->
  let preserved j := parse_item (print_item j) = Ret (Ok j) in
  preserved (ren_item r (fill_item f i)) <-> preserved (ren_item r i) /\ preserved (fill_item f i).
Proof. intros H p. unfold p. rewrite (C107_both r f i H), (C93_rename r i H), (C106_fill f i H). reflexivity. Qed.

(** Both edits of one item, kept and lost. *)
Example C107_example :
  let i := item_of "mod m { struct S<T: A> { pub x: T, y: T } impl S<T> { fn f(a: T) -> T { a } } }" in
  let both n s := ren_item (called n) (fill_item (fun p ts => match p with PType _ => lex s | _ => ts end) i) in
  parse_item (print_item i) = Ret (Ok i)
  /\ (let j := both "name" "Vec<T, U>" in parse_item (print_item j) = Ret (Ok j)
      /\ texts (print_item j) = texts (lex "mod name { struct name<name: A> { pub name: Vec<T, U>, name: Vec<T, U> } impl S<T> { fn name(name: Vec<T, U>) -> T { a } } }"))
  /\ (let j := both "self" "Vec<T, U>" in parse_item (print_item j) <> Ret (Ok j))
  /\ (let j := both "name" "T, U" in parse_item (print_item j) <> Ret (Ok j)).
Proof. vm_compute. repeat split; discriminate. Qed.

(** Visibilities and runs are not independent in this way: each edit alone may be harmless and both together
    not, and an edit that is lost alone may be saved by the other. *)
Theorem C107_visibility :
  let preserved j := parse_item (print_item j) = Ret (Ok j) in
  exists (publish hide : item -> item) (f : place -> list tok -> list tok) (i j : item),
    publish = PropDecorate.dec_item (fun a => a) (fun a => a) (fun _ => Some (mkVis (TIdent (mkIdent "pub" 7%N)) None))
    /\ hide = PropDecorate.dec_item (fun a => a) (fun a => a) (fun _ => None)
    /\ (preserved i /\ preserved (publish i) /\ preserved (fill_item f i) /\ ~ preserved (publish (fill_item f i)))
    /\ (preserved j /\ preserved (hide j) /\ ~ preserved (fill_item f j) /\ preserved (hide (fill_item f j))).
Proof.
  intro preserved. unfold preserved. do 2 eexists. exists (fun _ _ => lex "(u8, u8)"), (item_of "struct S(A);"), (item_of "struct S(pub A);").
  split; [reflexivity|]. split; [reflexivity|]. vm_compute. repeat split; discriminate.
Qed.

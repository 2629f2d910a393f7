(** C108: attributes, names and runs of tokens can be edited independently. *)
From Verif Require Import RustSyntax Debug PrintSpells Complete3 Sound2 Unfold Samples ScanSpec PropScan PropRoundTrip PropErr PropMore PropLimits PropRust PropSubst PropRename PropFill PropIndep.
From Verif Require PropDecorate.
Local Open Scope string_scope.
Local Open Scope list_scope.

(** The item with other outer and inner attributes, at every depth. *)
Definition att_item (fa fi : list attribute -> list attribute) : item -> item := PropDecorate.dec_item fa fi (fun v => v).

Section Triple.
Variables (fa fi : list attribute -> list attribute).
Variable r : role -> ident -> ident.
Variable f : place -> list tok -> list tok.
Local Notation att := (PropDecorate.dec_item fa fi (fun v => v)).
Local Notation att_fields := (PropDecorate.dec_fields fa (fun v => v)).
Local Notation att_function := (PropDecorate.dec_function fa (fun v => v)).
Local Notation att_im := (PropDecorate.dec_impl_member fa (fun v => v)).
Local Notation att_tm := (PropDecorate.dec_trait_member fa (fun v => v)).

(** ** Attributes and runs *)
Lemma att_fields_fill x : fill_fields f (att_fields x) = att_fields (fill_fields f x).
Proof. destruct x as [|[]|[]]; [reflexivity| |]; cbn -[fill_pu sub_pu]; rewrite pu_swap; reflexivity. Qed.
Lemma att_function_fill x : fill_function f (att_function x) = att_function (fill_function f x).
Proof. unfold fill_function, PropDecorate.dec_function. cbn -[fill_pu sub_pu fill_generics fill_where]. rewrite pu_swap; [reflexivity|]. intros b []; reflexivity. Qed.
Lemma att_im_fill m : fill_impl_member f (att_im m) = att_im (fill_impl_member f m).
Proof. destruct m; try reflexivity. cbn [fill_impl_member PropDecorate.dec_impl_member]. rewrite att_function_fill. reflexivity. Qed.
Lemma att_tm_fill m : fill_trait_member f (att_tm m) = att_tm (fill_trait_member f m).
Proof. destruct m; try reflexivity. cbn [fill_trait_member PropDecorate.dec_trait_member]. rewrite att_function_fill. reflexivity. Qed.
Theorem C108_attributes_runs (i : item) : fill_item f (att i) = att (fill_item f i).
Proof.
  induction i as [m IH|i No] using item_nested_ind.
  - destruct m. cbn [fill_item PropDecorate.dec_item]. do 2 f_equal. rewrite !map_map. apply map_ext_in, Forall_forall, IH.
  - destruct i as [[xa xv xk xn xg xw xf xs]|[xa xv xk xn xg xw xb xvs]|[xa xv xk xn xg xw [xf xb]]|m|[xa xv xu xk xn xg xbd xw xbr xia xms]|[xa xu xk xg xt xf xs xw xbr xia xms]|t|x|k|[xa xv xk xt xs]|m|[xa xv xu xe xab xbr xia xms]|c];
      cbn [fill_item PropDecorate.dec_item]; rewrite ?att_fields_fill; try reflexivity.
    + rewrite pu_swap; [reflexivity|]. intros b [a v n x e]. unfold fill_variant, PropDecorate.dec_variant. cbn [ev_fields ev_attributes ev_vis ev_name ev_value]. rewrite att_fields_fill. reflexivity.
    + rewrite pu_swap by reflexivity. reflexivity.
    + exfalso. eapply No. reflexivity.
    + rewrite !map_map, (map_ext _ _ att_tm_fill). reflexivity.
    + rewrite !map_map, (map_ext _ _ att_im_fill). reflexivity.
    + rewrite att_function_fill. reflexivity.
    + rewrite !map_map, (map_ext _ _ att_im_fill). reflexivity.
    + destruct c. reflexivity.
Qed.
Lemma att_fields_runs x : runs_fields (att_fields x) = runs_fields x.
Proof. destruct x; [reflexivity| |]; apply pu_runs_kept; reflexivity. Qed.
Lemma att_function_runs x : runs_function (att_function x) = runs_function x.
Proof. unfold runs_function. cbn [PropDecorate.dec_function fn_generics fn_params fn_ret fn_where]. rewrite pu_runs_kept; [reflexivity|]. intros b []; reflexivity. Qed.
Lemma att_im_runs m : runs_impl_member (att_im m) = runs_impl_member m.
Proof. destruct m; try reflexivity. apply att_function_runs. Qed.
Lemma att_tm_runs m : runs_trait_member (att_tm m) = runs_trait_member m.
Proof. destruct m; try reflexivity. apply att_function_runs. Qed.
Lemma att_runs i : runs_item (att i) = runs_item i.
Proof.
  induction i as [m IH|i No] using item_nested_ind.
  - destruct m as [a v u k n s b ia ms]. cbn [mo_members] in IH. cbn [PropDecorate.dec_item runs_item mo_members]. apply flat_kept, Forall_forall, IH.
  - destruct i as [[xa xv xk xn xg xw xf xs]|[xa xv xk xn xg xw xb xvs]|[xa xv xk xn xg xw [xf xb]]|m|[xa xv xu xk xn xg xbd xw xbr xia xms]|[xa xu xk xg xt xf xs xw xbr xia xms]|t|x|k|[xa xv xk xt xs]|m|[xa xv xu xe xab xbr xia xms]|c];
      cbn [PropDecorate.dec_item runs_item st_generics st_where st_fields en_generics en_where en_variants un_generics un_where un_fields tr_generics tr_bound tr_where tr_items im_generics im_trait im_self im_where im_items eb_items];
      rewrite ?att_fields_runs; auto using att_function_runs.
    + do 2 f_equal. apply pu_runs_kept. intros b v. apply att_fields_runs.
    + do 2 f_equal. cbn [runs_fields nfs_fields]. apply pu_runs_kept. reflexivity.
    + exfalso. eapply No. reflexivity.
    + do 3 f_equal. apply flat_kept. auto using att_tm_runs.
    + do 4 f_equal. apply flat_kept. auto using att_im_runs.
    + apply flat_kept. auto using att_im_runs.
    + destruct c. reflexivity.
Qed.

(** ** Attributes and names *)
Lemma sub_swap {A} (k h : A -> A) p : (forall x, h (k x) = k (h x)) -> sub_pu h (sub_pu k p) = sub_pu k (sub_pu h p).
Proof. intro H. unfold sub_pu. cbn. f_equal. rewrite !map_map. apply map_ext. intros [x c]. cbn. rewrite H. reflexivity. Qed.
Lemma att_fields_ren x : ren_fields r (att_fields x) = att_fields (ren_fields r x).
Proof. destruct x as [| |[]]; [reflexivity|reflexivity|]. cbn -[sub_pu]. rewrite sub_swap; reflexivity. Qed.
Lemma att_function_ren x : ren_function r (att_function x) = att_function (ren_function r x).
Proof. unfold ren_function, PropDecorate.dec_function. cbn -[sub_pu ren_generics]. rewrite sub_swap; [reflexivity|]. intros []; reflexivity. Qed.
Lemma att_im_ren m : ren_impl_member r (att_im m) = att_im (ren_impl_member r m).
Proof. destruct m; try reflexivity. cbn [ren_impl_member PropDecorate.dec_impl_member]. rewrite att_function_ren. reflexivity. Qed.
Lemma att_tm_ren m : ren_trait_member r (att_tm m) = att_tm (ren_trait_member r m).
Proof. destruct m; try reflexivity. cbn [ren_trait_member PropDecorate.dec_trait_member]. rewrite att_function_ren. reflexivity. Qed.
Theorem C108_attributes_names (i : item) : ren_item r (att i) = att (ren_item r i).
Proof.
  induction i as [m IH|i No] using item_nested_ind.
  - destruct m. cbn [ren_item PropDecorate.dec_item]. do 2 f_equal. rewrite !map_map. apply map_ext_in, Forall_forall, IH.
  - destruct i as [[xa xv xk xn xg xw xf xs]|[xa xv xk xn xg xw xb xvs]|[xa xv xk xn xg xw [xf xb]]|m|[xa xv xu xk xn xg xbd xw xbr xia xms]|[xa xu xk xg xt xf xs xw xbr xia xms]|t|x|k|[xa xv xk xt xs]|m|[xa xv xu xe xab xbr xia xms]|c];
      cbn [ren_item PropDecorate.dec_item]; rewrite ?att_fields_ren; try reflexivity.
    + rewrite sub_swap; [reflexivity|]. intros [a v n x e]. unfold ren_variant, PropDecorate.dec_variant. cbn [ev_fields ev_attributes ev_vis ev_name ev_value]. rewrite att_fields_ren. reflexivity.
    + rewrite sub_swap by reflexivity. reflexivity.
    + exfalso. eapply No. reflexivity.
    + rewrite !map_map, (map_ext _ _ att_tm_ren). reflexivity.
    + rewrite !map_map, (map_ext _ _ att_im_ren). reflexivity.
    + rewrite att_function_ren. reflexivity.
    + rewrite !map_map, (map_ext _ _ att_im_ren). reflexivity.
    + destruct c. reflexivity.
Qed.
Lemma sub_names {A} (k : A -> A) (d : A -> list (role * ident)) p : (forall x, d (k x) = d x) -> names_pu d (sub_pu k p) = names_pu d p.
Proof. intro H. unfold names_pu, sub_pu. cbn [pu_inner]. induction (pu_inner p) as [|[x c] l IH]; [reflexivity|]. cbn. rewrite H, IH. reflexivity. Qed.
Lemma att_fields_names x : names_fields (att_fields x) = names_fields x.
Proof. destruct x; [reflexivity|reflexivity|]. apply sub_names. reflexivity. Qed.
Lemma att_function_names x : names_function (att_function x) = names_function x.
Proof. unfold names_function. cbn [PropDecorate.dec_function fn_generics fn_params fn_name]. rewrite sub_names; [reflexivity|]. intros []; reflexivity. Qed.
Lemma att_im_names m : names_impl_member (att_im m) = names_impl_member m.
Proof. destruct m; try reflexivity. apply att_function_names. Qed.
Lemma att_tm_names m : names_trait_member (att_tm m) = names_trait_member m.
Proof. destruct m; try reflexivity. apply att_function_names. Qed.
Lemma att_names i : names_item (att i) = names_item i.
Proof.
  induction i as [m IH|i No] using item_nested_ind.
  - destruct m as [a v u k n s b ia ms]. cbn [mo_members] in IH. cbn [PropDecorate.dec_item names_item mo_members mo_name]. f_equal. apply flat_kept, Forall_forall, IH.
  - destruct i as [[xa xv xk xn xg xw xf xs]|[xa xv xk xn xg xw xb xvs]|[xa xv xk xn xg xw [xf xb]]|m|[xa xv xu xk xn xg xbd xw xbr xia xms]|[xa xu xk xg xt xf xs xw xbr xia xms]|t|x|k|[xa xv xk xt xs]|m|[xa xv xu xe xab xbr xia xms]|c];
      cbn [PropDecorate.dec_item names_item st_name st_generics st_fields en_name en_generics en_variants un_name un_generics un_fields tr_name tr_generics tr_items im_generics im_items eb_items];
      rewrite ?att_fields_names; auto using att_function_names.
    + do 2 f_equal. apply sub_names. intros v. unfold names_variant. cbn [PropDecorate.dec_variant ev_vis ev_name ev_fields]. rewrite att_fields_names. reflexivity.
    + do 2 f_equal. cbn [names_fields nfs_fields]. apply sub_names. reflexivity.
    + exfalso. eapply No. reflexivity.
    + do 2 f_equal. apply flat_kept. auto using att_tm_names.
    + f_equal. apply flat_kept. auto using att_im_names.
    + apply flat_kept. auto using att_im_names.
    + destruct c. reflexivity.
Qed.
End Triple.

(** ** Renaming keeps the places of attributes *)
Definition deco (l : list PropDecorate.place) : list PropDecorate.place :=
  filter (fun p => match p with PropDecorate.PVis _ _ => false | _ => true end) l.
Lemma deco_app a b : deco (a ++ b) = deco a ++ deco b.
Proof. apply filter_app. Qed.
Lemma deco_flat {A} (d : A -> list PropDecorate.place) (k : A -> A) l : (forall x, In x l -> deco (d (k x)) = deco (d x)) -> deco (flat_map d (map k l)) = deco (flat_map d l).
Proof. intro H. induction l as [|x l IH]; [reflexivity|]. cbn [map flat_map]. rewrite !deco_app, H, IH; auto using in_eq, in_cons. Qed.
Lemma deco_pu {A} (d : A -> list PropDecorate.place) (k : A -> A) p : (forall x, deco (d (k x)) = deco (d x)) -> deco (PropDecorate.places_pu d (sub_pu k p)) = deco (PropDecorate.places_pu d p).
Proof. intro H. unfold PropDecorate.places_pu, sub_pu. cbn [pu_inner]. induction (pu_inner p) as [|[x c] l IH]; [reflexivity|]. cbn [map flat_map fst]. rewrite !deco_app, H, IH. reflexivity. Qed.
Section Deco.
Variable r : role -> ident -> ident.
Lemma deco_fields x : deco (PropDecorate.places_fields (ren_fields r x)) = deco (PropDecorate.places_fields x).
Proof. destruct x; [reflexivity|reflexivity|]. apply deco_pu. reflexivity. Qed.
Lemma deco_function x : deco (PropDecorate.places_function (ren_function r x)) = deco (PropDecorate.places_function x).
Proof. unfold PropDecorate.places_function, deco. cbn -[PropDecorate.places_pu sub_pu]. f_equal. apply deco_pu. intros []; reflexivity. Qed.
Lemma deco_im m : deco (PropDecorate.places_impl_member (ren_impl_member r m)) = deco (PropDecorate.places_impl_member m).
Proof. destruct m; try reflexivity. apply deco_function. Qed.
Lemma deco_tm m : deco (PropDecorate.places_trait_member (ren_trait_member r m)) = deco (PropDecorate.places_trait_member m).
Proof. destruct m; try reflexivity. apply deco_function. Qed.
Lemma open_ren i : PropDecorate.open_struct (ren_item r i) = PropDecorate.open_struct i.
Proof. destruct i as [[xa xv xk xn xg xw xf xs]|[]|[? ? ? ? ? ? []]|[]|[]|[]|[]|[]|[]|[]|[]|[]|[]]; try reflexivity. destruct xw, xf, xs; reflexivity. Qed.
Lemma between_ren l : PropDecorate.places_between (map (ren_item r) l) = PropDecorate.places_between l.
Proof.
  induction l as [|i l IH]; [reflexivity|]. destruct l as [|j l]; [reflexivity|]. cbn [map PropDecorate.places_between] in *. rewrite IH. f_equal.
  unfold PropDecorate.place_between. rewrite open_ren. destruct j as [[]|[]|[? ? ? ? ? ? []]|[]|[]|[]|[]|[]|[]|[]|[]|[]|[]]; reflexivity.
Qed.
Lemma deco_item i : deco (PropDecorate.places_item (ren_item r i)) = deco (PropDecorate.places_item i).
Proof.
  induction i as [m IH|i No] using item_nested_ind.
  - destruct m as [a v u k n s b ia ms]. cbn [mo_members] in IH. cbn [ren_item PropDecorate.places_item mo_members mo_attributes mo_vis mo_braces mo_inner_attributes].
    rewrite between_ren. unfold deco. cbn [filter]. f_equal. rewrite !filter_app. f_equal. f_equal. apply deco_flat, Forall_forall, IH.
  - destruct i as [[xa xv xk xn xg xw xf xs]|[xa xv xk xn xg xw xb xvs]|[xa xv xk xn xg xw [xf xb]]|m|[xa xv xu xk xn xg xbd xw xbr xia xms]|[xa xu xk xg xt xf xs xw xbr xia xms]|t|x|k|[xa xv xk xt xs]|m|[xa xv xu xe xab xbr xia xms]|c];
      cbn [ren_item PropDecorate.places_item st_attributes st_vis st_fields en_attributes en_vis en_variants un_attributes un_vis un_fields tr_attributes tr_vis tr_inner_attributes tr_items im_attributes im_inner_attributes im_items eb_attributes eb_vis eb_inner_attributes eb_items];
      auto using deco_function; unfold deco; cbn [filter].
    + f_equal. apply deco_fields.
    + f_equal. apply deco_pu. intros v. unfold PropDecorate.places_variant, deco. cbn [ren_variant ev_attributes ev_vis ev_name ev_fields filter]. f_equal. apply deco_fields.
    + f_equal. cbn [PropDecorate.places_fields nfs_fields]. apply deco_pu. reflexivity.
    + exfalso. eapply No. reflexivity.
    + do 2 f_equal. apply deco_flat. auto using deco_tm.
    + do 2 f_equal. apply deco_flat. auto using deco_im.
    + do 2 f_equal. apply deco_flat. auto using deco_im.
    + destruct c. reflexivity.
Qed.
End Deco.

(** ** C108 *)
Definition preserved (j : item) : Prop := parse_item (print_item j) = Ret (Ok j).
Section Main.
Variables (fa fi : list attribute -> list attribute) (r : role -> ident -> ident) (f : place -> list tok -> list tok).
Lemma attributes_iff i : preserved i ->
  (preserved (att_item fa fi i) <-> Forall (PropDecorate.may_stand fa fi (fun v => v)) (deco (PropDecorate.places_item i))).
Proof.
  intro H. unfold preserved, att_item. rewrite (PropDecorate.C94_decorate fa fi (fun v => v) i H).
  assert (E : Forall (PropDecorate.may_stand (fun x => x) (fun x => x) (fun x => x)) (PropDecorate.places_item i)) by (apply PropDecorate.C94_decorate; rewrite ?PropDecorate.C94_identity; auto).
  rewrite !Forall_forall in *. unfold deco. split.
  - intros A p Hp. apply filter_In in Hp. apply A, Hp.
  - intros A p Hp. destruct p as [a|a|v b|a]; [| |exact (E _ Hp)|]; apply A, filter_In; auto.
Qed.
Lemma names_legal i : preserved i -> Forall (fun x => may_declare (fst x) (snd x)) (names_item i).
Proof. intro H. apply (C93_rename (fun _ n => n) i H). rewrite C93_identity. exact H. Qed.

(** Attributes and names. *)
Theorem C108_names (i : item) : preserved i ->
  (preserved (att_item fa fi (ren_item r i)) <-> preserved (att_item fa fi i) /\ preserved (ren_item r i)).
Proof.
  intro H.
  assert (B : preserved (att_item fa fi (ren_item r i)) -> preserved (ren_item r i)).
  { intro A. apply (C93_rename r i H). apply names_legal in A. unfold att_item in A. rewrite att_names, C93_names in A.
    rewrite Forall_forall in *. intros x Hx. apply (A (fst x, r (fst x) (snd x))), in_map_iff. eauto. }
  split.
  - intro A. pose proof (B A) as R. split; [|exact R]. apply (attributes_iff (ren_item r i) R) in A. rewrite deco_item in A. apply attributes_iff; auto.
  - intros [A R]. apply (attributes_iff (ren_item r i) R). rewrite deco_item. apply attributes_iff; auto.
Qed.
(** Attributes and runs. *)
Lemma att_fill_of (g : place -> list tok -> list tok) (i : item) : preserved i ->
  (preserved (att_item fa fi (fill_item g i)) <-> preserved (att_item fa fi i) /\ preserved (fill_item g i)).
Proof.
  intro H. pose proof (proj1 (C106_skeleton i) H) as [Hb Hr].
  assert (S : forall j, preserved (att_item fa fi j) <-> preserved (att_item fa fi (fill_item blank j)) /\ Forall (fun x => fits (fst x) (snd x)) (runs_item j)).
  { intro j. unfold preserved, att_item. rewrite (C106_skeleton (PropDecorate.dec_item _ _ _ j)), C108_attributes_runs, att_runs. reflexivity. }
  assert (P : preserved (fill_item g i) <-> preserved (fill_item blank (fill_item g i)) /\ Forall (fun x => fits (fst x) (snd x)) (runs_item (fill_item g i))) by apply C106_skeleton.
  rewrite (S (fill_item g i)), (S i), P, C106_twice. change (fill_item (fun p ts => blank p (g p ts)) i) with (fill_item blank i). unfold preserved in *. tauto.
Qed.
Theorem C108_runs (i : item) : preserved i ->
  (preserved (att_item fa fi (fill_item f i)) <-> preserved (att_item fa fi i) /\ preserved (fill_item f i)).
Proof. apply att_fill_of. Qed.
(** All three: the edits may be checked one by one. *)
Theorem C108_three (i : item) : preserved i ->
  (preserved (att_item fa fi (ren_item r (fill_item f i))) <-> preserved (att_item fa fi i) /\ preserved (ren_item r i) /\ preserved (fill_item f i)).
Proof.
  intro H. pose proof (proj1 (C106_skeleton i) H) as [Hb Hr].
  assert (E : forall j, preserved j <-> preserved (fill_item blank j) /\ Forall (fun x => fits (fst x) (snd x)) (runs_item j)) by (intro j; apply C106_skeleton).
  rewrite (E (att_item fa fi (ren_item r (fill_item f i)))). unfold att_item at 1 2. rewrite C108_attributes_runs, att_runs, C107_commute, C107_runs, C106_twice.
  change (fill_item (fun p ts => blank p (f p ts)) i) with (fill_item blank i).
  rewrite (C108_names (fill_item blank i) Hb), (att_fill_of blank i H). pose proof (C107_alone r blank i H) as N. cbv zeta in N. fold (preserved (ren_item r (fill_item blank i))) in N.
  rewrite N. rewrite (E (fill_item f i)), C106_twice. change (fill_item (fun p ts => blank p (f p ts)) i) with (fill_item blank i). unfold preserved. tauto.
Qed.
End Main.

(** One item and one edit of each kind: all together kept; then each one that is lost alone is lost with the others. *)
Definition stripped (a : list attribute) : list attribute := [].
Definition swapped (a : list attribute) : list attribute :=
  map (fun x => mkAttribute (at_hash x) (match at_bang x with Some _ => None | None => Some (mkPunct "!" Alone call_site) end) (at_brackets x) (at_path x) (at_value x)) a.
Example C108_example :
  let i := item_of "#[a] mod m { #![b] #[c] struct S<T: A> { #[d] pub x: T, y: T } impl S<T> { #[e = 1] fn f(#[g] a: T) -> T { a } } }" in
  let three fa n s := att_item fa fa (ren_item (called n) (fill_item (fun p ts => match p with PType _ => lex s | _ => ts end) i)) in
  preserved i
  /\ (preserved (three stripped "name" "Vec<T, U>")
      /\ texts (print_item (three stripped "name" "Vec<T, U>"))
         = texts (lex "mod name { struct name<name: A> { pub name: Vec<T, U>, name: Vec<T, U> } impl S<T> { fn name(name: Vec<T, U>) -> T { a } } }"))
  /\ ~ preserved (three swapped "name" "Vec<T, U>") /\ ~ preserved (three stripped "self" "Vec<T, U>") /\ ~ preserved (three stripped "name" "T, U").
Proof. vm_compute. repeat split; discriminate. Qed.

(** Visibilities and names are not independent: both edits alone may be kept and both together lost. *)
Theorem C108_visibility :
  exists (hide : item -> item) (r : role -> ident -> ident) (i : item),
    hide = PropDecorate.dec_item (fun a => a) (fun a => a) (fun _ => None)
    /\ preserved i /\ preserved (hide i) /\ preserved (ren_item r i) /\ ~ preserved (hide (ren_item r i)).
Proof.
  eexists. exists (fun k n => match k with RMember true => mkIdent "crate" call_site | _ => n end), (item_of "struct S { pub x: T, y: T }").
  split; [reflexivity|]. vm_compute. repeat split; discriminate.
Qed.

Print Assumptions C108_three.
Print Assumptions C108_visibility.

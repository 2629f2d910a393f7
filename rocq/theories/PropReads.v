(** C98, the other direction: a parser that returns has taken every token that it does not leave. *)
From Verif Require Import Imp PropErase PropCost Samples.
Local Open Scope string_scope.
Local Open Scope list_scope.

Create HintDb eats.
(** From at most [B] tokens [m] leaves at most [B], and what is gone was paid for. *)
Definition eats {A} (B : nat) (m : T A) : Prop := forall ts, List.length ts <= B ->
  match fst (m ts) with
  | Got (_, r) => List.length r <= B /\ List.length ts <= List.length r + fst (snd (m ts))
  | _ => True
  end.
Lemma eats_ret {A} B (x : A) : eats B (ret x).
Proof. intros ts H. cbn. lia. Qed.
Lemma eats_fail {A} B p why : eats B (@fail A p why).
Proof. intros ts H. exact I. Qed.
Lemma eats_peek B : eats B peek.
Proof. intros ts H. cbn. lia. Qed.
Lemma eats_next B : eats B next.
Proof. intros [|t ts] H; cbn in *; lia. Qed.
Lemma eats_collect B : eats B collect.
Proof. intros ts H. cbn. lia. Qed.
Lemma eats_restore s : eats (List.length s) (restore s).
Proof. intros ts H. cbn. lia. Qed.
Lemma eats_bind {A C} B (m : T A) (k : A -> T C) : eats B m -> (forall x, eats B (k x)) -> eats B (andthen m k).
Proof.
  intros H Hk ts L. specialize (H ts L). unfold andthen. destruct (m ts) as [[[x r]|p why|] [c d]]; cbn [fst snd] in *; auto.
  destruct H as [H1 H2]. specialize (Hk x r H1). destruct (k x r) as [o [c2 d2]]. cbn [fst snd] in *. destruct o as [[y s]| |]; auto. lia.
Qed.
Lemma eats_save {A} B (k : list tok -> T A) : (forall s, eats (List.length s) (k s)) -> eats B (andthen save k).
Proof.
  intros Hk ts L. specialize (Hk ts ts (le_n _)). unfold andthen, save. destruct (k ts ts) as [o [c2 d2]]. cbn [fst snd] in *. destruct o as [[y s]| |]; auto. lia.
Qed.
Lemma eats_on {A} B s (m : T A) : eats B (on s m).
Proof. intros ts H. unfold on. destruct (m s) as [[[x r]|p why|] c]; cbn [fst snd]; auto. lia. Qed.
Lemma eats_within {A} B s (m : T A) : eats B (within s m).
Proof. unfold within. apply eats_bind; [|intro; apply eats_on]. intros ts H. cbn. lia. Qed.
Lemma eats_loop {S R} B (body : S -> T (S + R)) s : (forall s, eats B (body s)) -> eats B (loop body s).
Proof.
  intros H ts L. unfold loop. generalize (loop_fuel ts). intro n. revert s ts L.
  induction n as [|n IH]; intros s ts L; [exact I|]. cbn [rounds]. apply eats_bind; auto.
  intros [s'|x]; [exact (IH s')|apply eats_ret].
Qed.
Lemma fst_seq {A C} (m : T A) (k : A -> T C) ts :
  fst (andthen m k ts) = match fst (m ts) with Got (x, r) => fst (k x r) | Died p why => Died p why | Stuck => Stuck end.
Proof. unfold andthen. destruct (m ts) as [[[x r]|p why|] [c d]]; cbn [fst]; auto. destruct (k x r) as [o [c2 d2]]. reflexivity. Qed.
Ltac e1 :=
  match goal with
  | |- eats _ (andthen save _) => apply eats_save; intro
  | |- eats _ (andthen _ _) => apply eats_bind; [|intro]
  | |- eats _ (ret _) => apply eats_ret
  | |- eats _ (fail _ _) => apply eats_fail
  | |- eats _ peek => apply eats_peek
  | |- eats _ next => apply eats_next
  | |- eats _ collect => apply eats_collect
  | |- eats _ (restore _) => apply eats_restore
  | |- eats _ (on _ _) => apply eats_on
  | |- eats _ (within _ _) => apply eats_within
  | |- eats _ (loop _ _) => apply eats_loop; intro
  | |- eats _ _ => solve [auto with eats]
  | |- eats _ (match ?x with _ => _ end) => destruct x
  | |- eats _ (let '(_, _) := ?x in _) => destruct x
  end.
Ltac es := repeat (cbv zeta; e1).
Ltac ee f := intros; unfold f; es.
Lemma y_parse_any_ident B c : eats B (i_parse_any_ident c). Proof. ee i_parse_any_ident. Qed.
Lemma y_parse_ident B x c : eats B (i_parse_ident x c). Proof. ee i_parse_ident. Qed.
Lemma y_consume_any_ident B : eats B i_consume_any_ident. Proof. ee i_consume_any_ident. Qed.
Lemma y_consume_ident B x : eats B (i_consume_ident x). Proof. ee i_consume_ident. Qed.
Lemma y_parse_punct B x c : eats B (i_parse_punct x c). Proof. ee i_parse_punct. Qed.
Lemma y_consume_punct B x : eats B (i_consume_punct x). Proof. ee i_consume_punct. Qed.
Global Hint Resolve y_parse_any_ident y_parse_ident y_consume_any_ident y_consume_ident y_parse_punct y_consume_punct : eats.
Lemma y_consume_comma B : eats B i_consume_comma. Proof. ee i_consume_comma. Qed.
Lemma y_attribute B h b g : eats B (i_attribute h b g). Proof. ee i_attribute. Qed.
Global Hint Resolve y_consume_comma y_attribute : eats.
Lemma y_attributes B x : eats B (i_attributes x). Proof. ee i_attributes. Qed.
Lemma y_vis_marker B : eats B i_vis_marker. Proof. ee i_vis_marker. Qed.
Lemma y_stuff_until B p x : eats B (i_stuff_until p x). Proof. ee i_stuff_until. Qed.
Lemma y_colon2 B : eats B i_colon2. Proof. ee i_colon2. Qed.
Global Hint Resolve y_attributes y_vis_marker y_stuff_until y_colon2 : eats.
Lemma y_item_name B : eats B i_item_name. Proof. ee i_item_name. Qed.
Lemma y_bound B p : eats B (i_bound p). Proof. ee i_bound. Qed.
Global Hint Resolve y_item_name y_bound : eats.
Lemma y_generic_params B : eats B i_generic_params. Proof. ee i_generic_params. Qed.
Lemma y_generic_args B : eats B i_generic_args. Proof. ee i_generic_args. Qed.
Lemma y_where_clause B : eats B i_where_clause. Proof. ee i_where_clause. Qed.
Lemma y_tuple_fields B g : eats B (i_tuple_fields g). Proof. ee i_tuple_fields. Qed.
Lemma y_named_fields B g : eats B (i_named_fields g). Proof. ee i_named_fields. Qed.
Lemma y_fn_qualifiers B : eats B i_fn_qualifiers. Proof. ee i_fn_qualifiers. Qed.
Lemma y_fn_return B : eats B i_fn_return. Proof. ee i_fn_return. Qed.
Global Hint Resolve y_generic_params y_generic_args y_where_clause y_tuple_fields y_named_fields y_fn_qualifiers y_fn_return : eats.
Lemma y_fn_head B : eats B i_fn_head. Proof. ee i_fn_head. Qed.
Global Hint Resolve y_fn_head : eats.
Lemma y_fn B a v : eats B (i_fn a v). Proof. ee i_fn. Qed.
Lemma y_macro_inner B a : eats B (i_macro_inner a). Proof. ee i_macro_inner. Qed.
Global Hint Resolve y_fn y_macro_inner : eats.
Lemma y_macro B a : eats B (i_macro a). Proof. ee i_macro. Qed.
Lemma y_const_or_static B a v : eats B (i_const_or_static a v). Proof. ee i_const_or_static. Qed.
Lemma y_ty_definition B a v : eats B (i_ty_definition a v). Proof. ee i_ty_definition. Qed.
Lemma y_use B a v : eats B (i_use a v). Proof. ee i_use. Qed.
Lemma y_consume_extern_crate B a v : eats B (i_consume_extern_crate a v). Proof. ee i_consume_extern_crate. Qed.
Global Hint Resolve y_macro y_const_or_static y_ty_definition y_use y_consume_extern_crate : eats.
Lemma y_extern_crate B a v : eats B (i_extern_crate a v). Proof. ee i_extern_crate. Qed.
Lemma y_impl_body B R g x : eats B (i_impl_body R g x). Proof. ee i_impl_body. Qed.
Global Hint Resolve y_extern_crate y_impl_body : eats.
Lemma y_body_group B R s p x : eats B (i_body_group R s p x). Proof. ee i_body_group. Qed.
Global Hint Resolve y_body_group : eats.
Lemma y_impl B R a : eats B (i_impl R a). Proof. ee i_impl. Qed.
Lemma y_trait B R a v : eats B (i_trait R a v). Proof. ee i_trait. Qed.
Lemma y_consume_extern_block B R a v : eats B (i_consume_extern_block R a v). Proof. ee i_consume_extern_block. Qed.
Global Hint Resolve y_impl y_trait y_consume_extern_block : eats.
Lemma y_extern_block B R a v : eats B (i_extern_block R a v). Proof. ee i_extern_block. Qed.
Lemma y_mod B R a v : eats B (i_mod R a v). Proof. ee i_mod. Qed.
Global Hint Resolve y_extern_block y_mod : eats.
Lemma y_either B R E c a v : eats B (i_either R E c a v). Proof. ee i_either. Qed.
Lemma y_struct B a v k : eats B (i_struct a v k). Proof. ee i_struct. Qed.
Lemma y_enum B a v k : eats B (i_enum a v k). Proof. ee i_enum. Qed.
Lemma y_union B a v k : eats B (i_union a v k). Proof. ee i_union. Qed.
Global Hint Resolve y_either y_struct y_enum y_union : eats.
Lemma y_item_body B R E : eats B (i_item_body R E). Proof. ee i_item_body. Qed.
Lemma y_consume_item B : eats B i_consume_item.
Proof. intros ts. unfold i_consume_item. cbn [i_nest]. destruct (i_nest (toks_depth ts)) as [R E]. cbn [fst]. apply y_item_body. Qed.
Global Hint Resolve y_consume_item : eats.
Lemma y_path B : eats B i_path. Proof. ee i_path. Qed.

Theorem C98_reads_item (ts : list tok) d r : consume_item ts = Ret (d, r) -> List.length ts <= List.length r + ops i_consume_item ts.
Proof.
  intro H. pose proof (C97_consume_item ts) as X. unfold run in X. rewrite H in X. pose proof (y_consume_item _ ts (le_n _)) as Y.
  unfold ops. destruct (fst (i_consume_item ts)) as [[x s]|p why|]; cbn in X; try discriminate. injection X as -> ->. apply Y.
Qed.
(** So an item is never accepted with fewer operations than it has tokens outside of groups; with C98
    the number of operations is linear in both directions. *)
Theorem C98_reads (ts : list tok) d : parse_item ts = Ret d -> List.length ts <= ops i_parse_item ts.
Proof.
  intro H. assert (G : exists x, consume_item ts = Ret (x, [])).
  { unfold parse_item in H. destruct (consume_item ts) as [[x [|t r]]|p|]; cbn in H; try discriminate. eauto. }
  destruct G as [x G]. apply C98_reads_item in G. cbn [List.length] in G. unfold ops in *. unfold i_parse_item, andthen. destruct (i_consume_item ts) as [[[y s]|p why|] [c d1]]; cbn [fst snd] in *; try lia.
  unfold peek. destruct s; cbn; lia.
Qed.
Lemma path_to_end ts p r : fst (i_path ts) = Got (Some p, r) -> r = [].
Proof.
  unfold i_path. rewrite fst_seq. destruct (fst (i_colon2 ts)) as [[c q]| |]; [|discriminate..]. unfold loop. generalize (loop_fuel q). intro n.
  match goal with |- fst (rounds _ ?b _ _) = _ -> _ => set (body := b) end.
  enough (G : forall n c q l, fst (rounds n body (c, l) q) = Got (Some p, r) -> r = []) by apply G. clear n c q.
  induction n as [|n IH]; intros c q l; [discriminate|]. cbn [rounds]. unfold body at 1. rewrite !fst_seq. cbn [fst next]. destruct q as [|[g|i|x|x] q]; cbn [hd_error tl]; try discriminate.
  rewrite !fst_seq. destruct (fst (i_generic_args q)) as [[a w]| |]; [|discriminate..]. rewrite fst_seq. cbn [fst peek]. destruct w as [|t w]; cbn [hd_error].
  - cbn. intro H. injection H as _ <-. reflexivity.
  - rewrite fst_seq. destruct (fst (i_colon2 (t :: w))) as [[[x|] z]| |]; [|discriminate..]. cbn. apply IH.
Qed.
Theorem C98_reads_path (ts : list tok) p : consume_path ts = Ret (Some p) -> List.length ts <= ops i_path ts.
Proof.
  intro H. pose proof (C97_consume_path ts) as X. rewrite H in X. unfold run in X. pose proof (y_path _ ts (le_n _)) as Y. unfold ops.
  destruct (fst (i_path ts)) as [[x s]|q why|] eqn:E; cbn in X; try discriminate. injection X as ->. apply path_to_end in E. subst s. apply Y.
Qed.
Example C98_ex4 : let ts := lex "pub struct S<T> where T: U { a: u8 }" in
  (List.length ts, size ts, ops i_parse_item ts) = (11, 14, 42) /\ exists d, parse_item ts = Ret d.
Proof. split; [vm_compute; reflexivity|]. eexists. vm_compute. reflexivity. Qed.
Example C98_ex5 : let ts := lex "::std::vec::Vec<u8>" in (List.length ts, ops i_path ts) = (12, 43) /\ exists p, consume_path ts = Ret (Some p).
Proof. split; [vm_compute; reflexivity|]. eexists. vm_compute. reflexivity. Qed.

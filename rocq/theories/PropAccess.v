(** C39, C40, C49-C52, C54: accessors, errors, spans, and what the consumers leave. *)
From Coq Require Import DecimalString DecimalNat DecimalFacts FinFun.
From Verif Require Import Unfold Samples Edit PropErr PropRoundTrip PropPunct PropShape PropLimits.
Local Open Scope string_scope.
Local Open Scope list_scope.

(** ** C39: field accessors *)
(** Reading a decimal numeral. *)
Definition digit (c : ascii) : option nat :=
  let n := Ascii.nat_of_ascii c in if ((48 <=? n) && (n <=? 57))%nat then Some (n - 48) else None.
Fixpoint read_decimal (acc : nat) (s : string) : option nat :=
  match s with
  | EmptyString => Some acc
  | String c r => match digit c with Some d => read_decimal (10 * acc + d)%nat r | None => None end
  end.
(** [s] is the decimal numeral of [n]: at least one digit, no leading zero (but ["0"]). *)
Definition numeral (n : nat) (s : string) : Prop :=
  read_decimal 0 s = Some n /\ s <> "" /\ (n <> 0 -> forall r, s <> String "0" r).
Lemma read_uint d : forall acc, read_decimal acc (NilEmpty.string_of_uint d) = Some (Nat.of_uint_acc d acc).
Proof.
  induction d; intro acc; auto; cbn -[Nat.tail_mul Nat.mul digit];
    match goal with |- context [digit ?c] => let x := eval vm_compute in (digit c) in change (digit c) with x end; cbv iota beta;
    rewrite IHd; do 2 f_equal; rewrite Nat.tail_mul_spec; lia.
Qed.
Lemma numeral_usize n : numeral n (string_of_usize n).
Proof.
  unfold numeral, string_of_usize. repeat split.
  - rewrite read_uint. f_equal. apply Unsigned.of_to.
  - destruct (Nat.to_uint n) eqn:E; try discriminate. pose proof (Unsigned.of_to n) as H. rewrite E in H. cbn in H. subst.
    discriminate.
  - intros Hn r E. pose proof (Unsigned.to_of (Nat.to_uint n)) as U. rewrite Unsigned.of_to in U.
    destruct (Nat.to_uint n) as [|d|d|d|d|d|d|d|d|d|d] eqn:T; try discriminate. unfold Decimal.unorm in U.
    assert (Z : Decimal.nzhead (Decimal.D0 d) <> Decimal.Nil).
    { intro N. rewrite N in U. injection U as ->. pose proof (Unsigned.of_to n) as H. rewrite T in H. cbn in H. congruence. }
    destruct (Decimal.nzhead (Decimal.D0 d)) as [|e|e|e|e|e|e|e|e|e|e] eqn:N; try congruence.
    exact (nzhead_nonzero _ _ N).
Qed.
(** The number of fields, their types. *)
Definition field_count (s : struct_) : nat :=
  match st_fields s with
  | FUnit => 0
  | FTuple f => List.length (pu_inner (tfs_fields f))
  | FNamed f => List.length (pu_inner (nfs_fields f))
  end.
Theorem C39_lengths (s : struct_) :
  List.length (field_names s) = field_count s /\ List.length (field_tokens s) = field_count s
  /\ List.length (field_types s) = field_count s.
Proof.
  unfold field_names, field_tokens, field_types, field_count, pu_items, pu_len.
  destruct (st_fields s); repeat split; rewrite ?map_length, ?seq_length; reflexivity.
Qed.
Lemma nth_map_seq {B} (f : nat -> B) n k x : nth_error (map f (seq 0 n)) k = Some x -> x = f k.
Proof.
  intro H. rewrite nth_error_map in H. destruct (nth_error (seq 0 n) k) as [y|] eqn:E; [|discriminate]. injection H as <-.
  assert (L : k < List.length (seq 0 n)) by (apply nth_error_Some; congruence).
  pose proof (nth_error_nth _ _ 0 E) as N. rewrite seq_length in L. rewrite seq_nth in N by auto. subst. reflexivity.
Qed.
(** Tuple structs: the [k]-th name is the numeral of [k]; the token is that literal without a
    span of its own; the type is the [k]-th type.  All names differ. *)
Theorem C39_tuple (s : struct_) (f : tuple_fields) :
  st_fields s = FTuple f ->
  (forall k n, nth_error (field_names s) k = Some n -> numeral k n
     /\ nth_error (field_tokens s) k = Some (TLit (mkLit n call_site)))
  /\ NoDup (field_names s)
  /\ field_types s = map tf_ty (pu_items (tfs_fields f)).
Proof.
  intro H. unfold field_names, field_tokens, field_types. rewrite H. split; [intros k n H0; split|split; [|reflexivity]].
  - rewrite (nth_map_seq _ _ _ _ H0). apply numeral_usize.
  - rewrite (nth_map_seq _ _ _ _ H0). rewrite nth_error_map in H0 |- *.
    destruct (nth_error (seq 0 (pu_len (tfs_fields f))) k) as [y|] eqn:E; [|discriminate]. cbn in *. injection H0 as H0.
    assert (y = k). { assert (E' : nth_error (map (fun x => x) (seq 0 (pu_len (tfs_fields f)))) k = Some y) by (rewrite map_id; auto).
      apply nth_map_seq in E'. auto. }
    subst. rewrite ?H0. reflexivity.
  - apply Injective_map_NoDup; [|apply seq_NoDup]. intros a b E.
    destruct (numeral_usize a) as [Ha _], (numeral_usize b) as [Hb _]. rewrite E in Ha. congruence.
Qed.
Theorem C39_named (s : struct_) (f : named_fields) :
  st_fields s = FNamed f ->
  field_names s = map (fun x => id_str (nf_name x)) (pu_items (nfs_fields f))
  /\ field_tokens s = map (fun x => TIdent (nf_name x)) (pu_items (nfs_fields f))
  /\ field_types s = map nf_ty (pu_items (nfs_fields f)).
Proof. intro H. unfold field_names, field_tokens, field_types. rewrite H. auto. Qed.
Example C39_example :
  match item_of "struct S(A, B, C, D, E, F, G, H, I, J, K);" with
  | IStruct s => nth_error (field_names s) 10 = Some "10" /\ field_count s = 11 /\ hd "" (field_names s) = "0"
  | _ => False
  end.
Proof. vm_compute. auto. Qed.

(** ** C40 *)
Theorem C40_is_c_enum (e : enum_) :
  is_c_enum e = true <-> forall v, In v (pu_items (en_variants e)) -> ev_fields v = FUnit.
Proof.
  unfold is_c_enum. induction (pu_items (en_variants e)) as [|v l IH]; cbn; [tauto|].
  unfold is_empty_variant. split.
  - intros H w [<-|Hw]; destruct (ev_fields v) eqn:E; cbn in H; try discriminate; auto. apply IH; auto.
  - intro H. rewrite (H v) by auto. cbn. apply IH. auto.
Qed.
Theorem C40_get_single_type (v : enum_variant) (f : tuple_field) :
  get_single_type v = Some f <-> exists t, ev_fields v = FTuple t /\ pu_items (tfs_fields t) = [f].
Proof.
  unfold get_single_type, pu_items. split.
  - destruct (ev_fields v) as [|t|]; try discriminate. destruct (pu_inner (tfs_fields t)) as [|[x c] [|]] eqn:E; try discriminate.
    cbn. intro H. injection H as <-. exists t. rewrite E. auto.
  - intros (t & -> & H). destruct (pu_inner (tfs_fields t)) as [|[x c] [|]]; try discriminate. cbn in *. congruence.
Qed.
Example C40_example :
  match item_of "enum E { A = 1, B(), C(T), D {} }" with
  | IEnum e => is_c_enum e = false /\ map is_empty_variant (pu_items (en_variants e)) = [true; false; false; false]
      /\ map (fun v => match get_single_type v with Some _ => true | None => false end) (pu_items (en_variants e)) = [false; false; true; false]
  | _ => False
  end.
Proof. vm_compute. auto. Qed.

(** ** C49: errors *)
(** Errors that the public functions can make. *)
Inductive built : error -> Prop :=
| built_new m : built (error_new m)
| built_span s m : built (error_new_at_span s m)
| built_tokens ts m : built (error_new_at_tokens ts m)
| built_combine a b : built a -> built b -> built (error_combine a b).
Theorem C49_parser_errors (ts rest : list tok) (e : error) : consume_item ts = Ret (Err e, rest) -> built e.
Proof. intro H. apply C11_err_iff in H. destruct H as (? & ? & ? & ? & ? & ? & v & H). bsplit. subst. apply built_span. Qed.
Section External.
Variable join : span -> span -> option span.
Variable lit_string : string -> string.

Lemma built_messages e : built e -> exists m l, er_messages e = m :: l.
Proof.
  induction 1 as [m|s m|ts m|a b _ IHa _ _]; cbn; eauto. destruct IHa as (m & l & ->). cbn. eauto.
Qed.
Theorem C49_never_panics (e : error) : built e ->
  exists m l, er_messages e = m :: l /\ error_display e = Ret (em_text m)
    /\ error_span join e = Ret (match join (em_start m) (em_end m) with Some s => s | None => em_start m end).
Proof.
  intro H. destruct (built_messages e H) as (m & l & E). exists m, l. unfold error_display, error_span. rewrite E.
  repeat split.
Qed.
Theorem C49_combine (a b c : error) : built a ->
  error_combine (error_combine a b) c = error_combine a (error_combine b c)
  /\ error_display (error_combine a b) = error_display a
  /\ error_span join (error_combine a b) = error_span join a
  /\ to_compile_error lit_string (error_combine a b) = to_compile_error lit_string a ++ to_compile_error lit_string b.
Proof.
  intro H. destruct (built_messages a H) as (m & l & E). unfold error_combine, error_display, error_span, to_compile_error.
  cbn [er_messages]. rewrite E. cbn [app]. rewrite <- app_assoc. repeat split. rewrite <- flat_map_app. reflexivity.
Qed.
(** One invocation [compile_error ! { "text" }] per message, in order. *)
Definition invocation (start fin : span) (text : string) : list tok :=
  [TIdent (mkIdent "compile_error" start); TPunct (mkPunct "!" Alone start);
   TGroup (mkGroup Brace [TLit (mkLit (lit_string text) fin)] fin)].
Theorem C49_one_invocation_per_message (e : error) :
  to_compile_error lit_string e = flat_map (fun m => invocation (em_start m) (em_end m) (em_text m)) (er_messages e).
Proof. reflexivity. Qed.

(** ** C50: where errors point *)
Lemma last_span_app ts t : last_span (ts ++ [t]) = Some (tok_span t).
Proof. unfold last_span. rewrite fold_left_app. reflexivity. Qed.
Theorem C50_locations (m : string) (s : span) (a b : tok) (ts : list tok) :
  to_compile_error lit_string (error_new m) = invocation call_site call_site m
  /\ to_compile_error lit_string (error_new_at_span s m) = invocation s s m
  /\ to_compile_error lit_string (error_new_at_tokens [] m) = invocation call_site call_site m
  /\ to_compile_error lit_string (error_new_at_tokens [a] m) = invocation (tok_span a) (tok_span a) m
  /\ to_compile_error lit_string (error_new_at_tokens (a :: ts ++ [b]) m) = invocation (tok_span a) (tok_span b) m.
Proof.
  repeat split. unfold to_compile_error, error_new_at_tokens. cbn [tl]. rewrite last_span_app. reflexivity.
Qed.
(** The span reported for an error at some tokens is the span of those tokens. *)
Theorem C50_span (ts : list tok) (m : string) : (forall x, join x x = Some x) ->
  error_span join (error_new_at_tokens ts m) = Ret (join_spans join ts).
Proof.
  intro J. unfold error_span, error_new_at_tokens, join_spans. cbn. destruct ts as [|t r].
  - cbn. rewrite J. reflexivity.
  - cbn [tl]. destruct (last_span r) as [l|]; cbn; [|rewrite J]; reflexivity.
Qed.

(** ** C51: spans *)
(** First and last token of a stream. *)
Definition joined (ts : list tok) (s : span) : Prop :=
  exists first last, (exists r, ts = first :: r) /\ (exists r, ts = r ++ [last])
  /\ s = (if Nat.eqb (List.length ts) 1 then tok_span first
          else match join (tok_span first) (tok_span last) with Some x => x | None => tok_span first end).
Theorem C51_span {A} (pr : A -> list tok) (x : A) :
  (pr x = [] -> span_of join pr x = call_site) /\ (pr x <> [] -> joined (pr x) (span_of join pr x)).
Proof.
  unfold span_of, join_spans. split; [intros ->; reflexivity|]. intro H. destruct (pr x) as [|t r]; [congruence|].
  destruct r as [|u r] using rev_ind.
  - exists t, t. repeat split; [exists []; auto|exists []; auto].
  - clear IHr. exists t, u. repeat split; [eauto|exists (t :: r); auto|]. rewrite last_span_app.
    rewrite (proj2 (Nat.eqb_neq _ _)); [unfold unwrap_or; destruct (join (tok_span t) (tok_span u)); reflexivity|].
    cbn. rewrite app_length. cbn. lia.
Qed.
(** An item always has tokens. *)
Theorem C51_item (i : item) : joined (print_item i) (span_of join print_item i).
Proof.
  apply C51_span. assert (G : forall (a : list tok) t r, a ++ t :: r <> []) by (intros [|]; discriminate).
  destruct i; cbn [print_item]; unfold print_struct, print_enum, print_union, print_module, print_trait, print_impl,
    print_type_alias, print_function, print_constant, print_use, print_macro, print_extern_block, print_extern_crate;
    rewrite ?app_assoc; apply G.
Qed.
End External.
Example C51_example :
  span_of (fun a b => Some (1000 * a + b)%N) print_item (IStruct (mkStruct [] None (mkIdent "struct" 3%N) (mkIdent "S" 4%N) None None FUnit (Some (mkPunct ";" Alone 5%N)))) = 3005%N.
Proof. reflexivity. Qed.
Example C50_example :
  let join := fun a b => Some (if N.eqb a b then a else (1000 * a + b)%N) in
  let t n := TIdent (mkIdent "x" n) in
  (forall x, join x x = Some x)
  /\ error_span join (error_new_at_tokens [t 3%N; t 4%N; t 5%N] "m") = Ret 3005%N
  /\ error_span (fun _ _ => None) (error_new_at_tokens [t 3%N; t 4%N; t 5%N] "m") = Ret 3%N
  /\ map tok_span (to_compile_error (fun s => s) (error_new_at_tokens [t 3%N; t 4%N; t 5%N] "m")) = [3%N; 3%N; 5%N].
Proof. cbn. split; [intro x; rewrite N.eqb_refl; reflexivity|auto]. Qed.
Example C49_example : built (error_combine (error_new "a") (error_combine (error_new_at_span 3%N "b") (error_new_at_tokens (lex "x y") "c"))).
Proof. repeat constructor. Qed.

(** ** C52: attribute accessors *)
Lemma idents_app a b : idents_of (a ++ b) = idents_of a ++ idents_of b.
Proof. apply flat_map_app. Qed.
Theorem C52_single_segment (a : attribute) (i : ident) :
  get_single_path_segment a = Some i <->
  exists l r, at_path a = l ++ TIdent i :: r /\ forall k, ~ In (TIdent k) (l ++ r).
Proof.
  unfold get_single_path_segment. split.
  - intro H. destruct (idents_of (at_path a)) as [|x [|]] eqn:E; try discriminate. injection H as ->.
    assert (Hi : In i (idents_of (at_path a))) by (rewrite E; left; auto).
    unfold idents_of in Hi. apply in_flat_map in Hi. destruct Hi as (t & Ht & Hi). destruct t as [|k| |]; try contradiction.
    destruct Hi as [->|[]]. apply in_split in Ht. destruct Ht as (l & r & Hp). exists l, r. split; auto. intros k Hk.
    rewrite Hp, idents_app in E. cbn in E.
    assert (In k (idents_of l ++ idents_of r)).
    { rewrite <- idents_app. unfold idents_of. apply in_flat_map. exists (TIdent k). split; auto. left. auto. }
    destruct (idents_of l) as [|y l']; cbn in E.
    + injection E as E. fold (idents_of r) in E. rewrite E in H. contradiction.
    + injection E as -> E. destruct l'; discriminate.
  - intros (l & r & -> & H). rewrite idents_app. cbn. fold (idents_of r).
    assert (N : forall x, (forall k, ~ In (TIdent k) x) -> idents_of x = []).
    { intros x Hx. destruct (idents_of x) as [|k y] eqn:E; auto. exfalso.
      assert (Hk : In k (idents_of x)) by (rewrite E; left; auto). unfold idents_of in Hk. apply in_flat_map in Hk.
      destruct Hk as (t & Ht & Hk). destruct t; try contradiction. destruct Hk as [->|[]]. eapply Hx; eauto. }
    rewrite (N l), (N r); auto; intros k Hk; apply (H k), in_or_app; auto.
Qed.
(** The value tokens, by what is printed in the brackets. *)
Theorem C52_value (a : attribute) :
  exists inside, print_attribute a = TPunct (at_hash a) :: print_opt print_punct (at_bang a)
                   ++ [TGroup (mkGroup (gs_delim (at_brackets a)) inside (gs_span (at_brackets a)))]
  /\ (inside = at_path a /\ get_value_tokens a = []
      \/ (exists e, inside = at_path a ++ TPunct e :: get_value_tokens a)
      \/ (exists d sp, inside = at_path a ++ [TGroup (mkGroup d (get_value_tokens a) sp)])).
Proof.
  unfold print_attribute, quote_with, get_value_tokens. eexists. split; [reflexivity|].
  destruct (at_value a) as [gs v|e v|]; cbn; [right; right; exists (gs_delim gs), (gs_span gs); reflexivity|right; left; eauto|left; rewrite app_nil_r; auto].
Qed.
Example C52_example :
  match item_attributes (item_of "#[a = x + y] #[b::c(z, z)] #[d] struct S;") with
  | [a; b; c] => option_map id_str (get_single_path_segment a) = Some "a" /\ texts (get_value_tokens a) = ["x"; "+"; "y"]
      /\ get_single_path_segment b = None /\ texts (get_value_tokens b) = ["z"; ","; "z"]
      /\ option_map id_str (get_single_path_segment c) = Some "d" /\ get_value_tokens c = []
  | _ => False
  end.
Proof. vm_compute. auto 10. Qed.

(** ** C54: consumers that find nothing leave the stream as it was *)
Theorem C54_pure_consumers (s : string) (c : ascii) (ts rest : list tok) :
  (consume_any_ident ts = (None, rest) -> rest = ts)
  /\ (consume_ident s ts = (None, rest) -> rest = ts)
  /\ (consume_punct c ts = (None, rest) -> rest = ts)
  /\ (consume_comma ts = (None, rest) -> rest = ts)
  /\ (consume_colon2 ts = (None, rest) -> rest = ts)
  /\ (consume_vis_marker ts = (None, rest) -> rest = ts)
  /\ (consume_fn_qualifiers ts = (mkFnQualifiers None None None None None None, rest) -> rest = ts).
Proof.
  assert (I : forall s ts rest, consume_ident s ts = (None, rest) -> rest = ts).
  { intros s' [|[|i| |] r] rest'; cbn; try congruence. destruct (id_is s' i); congruence. }
  assert (P : forall c rest, consume_punct c ts = (None, rest) -> rest = ts).
  { intros c' rest'. destruct ts as [|[| |p|] r]; cbn; try congruence. destruct (p_is c' p); congruence. }
  repeat split; eauto; try apply P.
  - destruct ts as [|[|i| |] r]; cbn; congruence.
  - destruct ts as [|[| |p|] [|[| |q|] r]]; cbn; try congruence. destruct (_ && _); congruence.
  - unfold consume_vis_marker. destruct ts as [|[|i| |] r]; try congruence. destruct (id_is "pub" i).
    + destruct r as [|[g| | |] r]; try discriminate. destruct (delim_eqb (g_delim g) Parenthesis); discriminate.
    + destruct (id_is "crate" i); congruence.
  - unfold consume_fn_qualifiers.
    destruct (consume_ident "default" ts) as [[]t1] eqn:E1, (consume_ident "const" t1) as [[]t2] eqn:E2,
      (consume_ident "async" t2) as [[]t3] eqn:E3, (consume_ident "unsafe" t3) as [[]t4] eqn:E4,
      (consume_ident "extern" t4) as [[]t5] eqn:E5; try (destruct (consume_literal t5)); try discriminate.
    intro H. injection H as <-. apply I in E1, E2, E3, E4, E5. congruence.
Qed.
Theorem C54_consumers (P : tok -> bool) (b : bool) (at_ : list attribute) (v : option vis_marker) (ts rest : list tok) :
  (consume_outer_attributes ts = Ret ([], rest) -> rest = ts)
  /\ (consume_inner_attributes ts = Ret ([], rest) -> rest = ts)
  /\ (consume_stuff_until P b ts = Ret ([], rest) -> rest = ts)
  /\ (consume_bound P ts = Ret (None, rest) -> rest = ts)
  /\ (consume_generic_params ts = Ret (None, rest) -> rest = ts)
  /\ (consume_lifetime b ts = Ret (None, rest) -> rest = ts)
  /\ (consume_generic_args ts = Ret (None, rest) -> rest = ts)
  /\ (consume_where_clause ts = Ret (None, rest) -> rest = ts)
  /\ (consume_enum_discriminant ts = Ret (Ok None, rest) -> rest = ts)
  /\ (consume_fn_return ts = Ret (None, rest) -> rest = ts)
  /\ (consume_macro at_ ts = Ret (None, rest) -> rest = ts)
  /\ (forall nf, consume_fn at_ v ts = Ret (Err nf, rest) -> rest = ts)
  /\ consume_ty_definition at_ v ts <> Ret (None, rest).
Proof.
  assert (I : forall s ts rest, consume_ident s ts = (None, rest) -> rest = ts) by (intros s t r; apply (C54_pure_consumers s ",")).
  assert (Pu : forall c ts rest, consume_punct c ts = (None, rest) -> rest = ts) by (intros c t r; apply (C54_pure_consumers "" c)).
  assert (A : forall inner, consume_attributes_with_inner inner ts = Ret ([], rest) -> rest = ts).
  { intros inner. unfold consume_attributes_with_inner. destruct ts as [|[| |h|] r]; try congruence. destruct (p_is "#" h); [|congruence].
    fold consume_attributes_with_inner. destruct inner.
    - destruct r as [|[g| |q|] r]; try discriminate.
      + destruct (delim_eqb (g_delim g) Bracket); [congruence|discriminate].
      + destruct (p_is "!" q); [|discriminate]. destruct r as [|[g| | |] r]; try discriminate.
        destruct (delim_eqb (g_delim g) Bracket); [|discriminate]. intro H. inv_bind H. inv_bind H. destruct x0. discriminate.
    - destruct r as [|[g| |q|] r]; try discriminate. destruct (delim_eqb (g_delim g) Bracket); [|discriminate].
      intro H. inv_bind H. inv_bind H. destruct x0. discriminate. }
  repeat split.
  - apply A.
  - apply A.
  - intro H. apply until_sound in H. destruct H as [-> _]. reflexivity.
  - unfold consume_bound. destruct ts as [|t r]; [discriminate|]. destruct t as [| |c|]; try (destruct (P _); [congruence|discriminate]).
    destruct (p_is ":" c); [|destruct (P _); [congruence|discriminate]]. intro H. inv_bind H. destruct x. discriminate.
  - unfold consume_generic_params. destruct (consume_punct "<" ts) as [[l|] t] eqn:E.
    + intro H. inv_bind H. destruct x as [ps [|[| |q|] u]]; discriminate.
    + apply Pu in E. congruence.
  - unfold consume_lifetime. destruct (consume_punct "'" ts) as [[l|] t] eqn:E; [|congruence].
    destruct t as [|[|n| |] u]; try discriminate. destruct b, u; discriminate.
  - unfold consume_generic_args. destruct (consume_colon2 ts) as [tf t]. destruct (consume_punct "<" t) as [[l|] u]; [|congruence].
    intro H. inv_bind H. destruct x. inv_bind H. destruct x. discriminate.
  - unfold consume_where_clause. destruct (consume_ident "where" ts) as [[l|] t]; [|congruence].
    intro H. inv_bind H. destruct x. discriminate.
  - unfold consume_enum_discriminant. destruct (consume_punct "=" ts) as [[l|] t] eqn:E.
    + destruct t as [|x [|y u]]; try discriminate. destruct (is_punct "," y); discriminate.
    + apply Pu in E. congruence.
  - unfold consume_fn_return. destruct (consume_punct "-" ts) as [[l|] t]; [|congruence].
    destruct t as [|[| |q|] u]; try discriminate. destruct (p_is ">" q); [|discriminate]. intro H. inv_bind H. destruct x. discriminate.
  - unfold consume_macro. intro H. inv_bind H. destruct x as [[m|] t]; [discriminate|congruence].
  - intros nf. unfold consume_fn. destruct (consume_fn_qualifiers ts) as [q t]. intro H. inv_bind H. destruct x as [[kw|nf'] u]; [|congruence].
    inv_bind H. destruct x. inv_bind H. destruct x. inv_bind H. destruct x. inv_bind H. destruct x. inv_bind H. destruct x. inv_bind H. destruct x. discriminate.
  - unfold consume_ty_definition. intro H. inv_bind H. destruct x. inv_bind H. destruct x. inv_bind H. destruct x as [bd t].
    destruct (consume_punct "=" t) as [eq t']. inv_bind H. destruct x. inv_bind H. destruct x. discriminate.
Qed.
(** Two exceptions. *)
Theorem C54_extern_refuted rec :
  (exists ts rest, consume_extern_crate [] None ts = Ret (None, rest) /\ rest <> ts)
  /\ (exists ts rest, consume_extern_block rec [] None ts = Ret (None, rest) /\ rest <> ts).
Proof.
  split; [exists (lex "extern fn"), (tl (lex "extern fn"))|exists (lex "unsafe fn"), (tl (lex "unsafe fn"))]; vm_compute; split; auto; discriminate.
Qed.
(** What they leave in general. *)
Definition starts_with (word : string) (ts : list tok) : Prop := exists i r, ts = TIdent i :: r /\ id_str i = word.
Lemma consume_ident_spec s ts :
  (exists i r, ts = TIdent i :: r /\ id_str i = s /\ consume_ident s ts = (Some i, r))
  \/ ~ starts_with s ts /\ consume_ident s ts = (None, ts).
Proof.
  unfold starts_with, consume_ident. destruct ts as [|[|i| |] r]; try (right; split; [intros (? & ? & ? & ?); discriminate|reflexivity]).
  unfold id_is. destruct (String.eqb (id_str i) s) eqn:E.
  - left. apply String.eqb_eq in E. eauto.
  - right. split; auto. apply String.eqb_neq in E. intros (? & ? & H & ?). injection H as -> ->. auto.
Qed.
Theorem C54_extern_crate at_ v ts rest :
  consume_extern_crate at_ v ts = Ret (None, rest) <->
  (~ starts_with "extern" ts /\ rest = ts)
  \/ (exists i, ts = TIdent i :: rest /\ id_str i = "extern" /\ ~ starts_with "crate" rest).
Proof.
  unfold consume_extern_crate.
  destruct (consume_ident_spec "extern" ts) as [(i & r & -> & Hi & ->)|[Hn ->]].
  - destruct (consume_ident_spec "crate" r) as [(j & q & -> & Hj & ->)|[Hn ->]].
    + split.
      * intro H. exfalso. inv_bind H. destruct x as [nm t]. destruct (consume_ident "as" t) as [o t']. inv_bind H. destruct x. inv_bind H. destruct x. discriminate.
      * intros [[H _]|(k & H & _ & Hc)]; exfalso; [apply H; exists i, (TIdent j :: q); auto|].
        injection H as -> <-. apply Hc. exists j, q. auto.
    + split.
      * intro H. injection H as <-. right. eauto.
      * intros [[H _]|(k & H & _ & Hc)]; [exfalso; apply H; exists i, r; auto|]. injection H as -> ->. reflexivity.
  - split; [intro H; injection H as <-; auto|]. intros [[_ ->]|(k & -> & Hk & _)]; auto. exfalso. apply Hn. exists k, rest. auto.
Qed.
Theorem C54_extern_block rec at_ v ts rest :
  consume_extern_block rec at_ v ts = Ret (None, rest) ->
  exists u e, ts = u ++ e ++ rest
  /\ (u = [] \/ exists i, u = [TIdent i] /\ id_str i = "unsafe")
  /\ ((e = [] /\ ~ starts_with "extern" rest)
      \/ exists i abi t, e = TIdent i :: abi ++ t /\ id_str i = "extern"
           /\ (abi = [] \/ exists l, abi = [TLit l]) /\ List.length t <= 1
           /\ (t = [] -> rest = [])
           /\ forall g, t = [TGroup g] -> g_delim g <> Brace).
Proof.
  unfold consume_extern_block.
  assert (U : exists u r o, ts = u ++ r /\ consume_ident "unsafe" ts = (o, r) /\ (u = [] \/ exists i, u = [TIdent i] /\ id_str i = "unsafe")).
  { destruct (consume_ident_spec "unsafe" ts) as [(i & r & -> & Hi & ->)|[_ ->]]; [exists [TIdent i], r, (Some i)|exists [], ts, None]; eauto 8. }
  destruct U as (u & r & o & -> & -> & Hu).
  destruct (consume_ident_spec "extern" r) as [(i & q & -> & Hi & ->)|[Hn ->]].
  - assert (L : exists abi o t, q = abi ++ t /\ consume_literal q = (o, t) /\ (abi = [] \/ exists l, abi = [TLit l])).
    { destruct q as [|[| | |l] w]; [exists [], None, []|exists [], None, (TGroup g :: w)|exists [], None, (TIdent i0 :: w)|exists [], None, (TPunct p :: w)|exists [TLit l], (Some l), w];
        repeat split; eauto. }
    destruct L as (abi & o' & t & -> & -> & Ha). intro H.
    exists u, (TIdent i :: abi ++ firstn 1 t). split; [|split; [exact Hu|right; exists i, abi, (firstn 1 t)]].
    + destruct t as [|[g| | |] t]; cbn in H; try (destruct (delim_eqb (g_delim g) Brace); [inv_bind H; destruct x as [[? ?] ?]; discriminate|]);
        injection H as <-; cbn; rewrite <- ?app_assoc; reflexivity.
    + repeat split; auto.
      * rewrite firstn_length. lia.
      * destruct t; [cbn in H; congruence|discriminate].
      * intros g E. destruct t as [|x t]; [discriminate|]. cbn in E. injection E as ->. cbn in H. destruct (delim_eqb (g_delim g) Brace) eqn:D.
        -- inv_bind H. destruct x as [[? ?] ?]. discriminate.
        -- intro F. rewrite F in D. discriminate.
  - intro H. injection H as <-. exists u, []. split; auto.
Qed.
Example C54_example :
  let ts := lex "= 5, x" in let us := lex "unsafe impl A {}" in
  consume_vis_marker ts = (None, ts) /\ consume_colon2 (lex ": : a") = (None, lex ": : a")
  /\ consume_outer_attributes ts = Ret ([], ts) /\ consume_where_clause ts = Ret (None, ts)
  /\ consume_bound (is_punct "=") ts = Ret (None, ts) /\ consume_fn_return ts = Ret (None, ts)
  /\ consume_generic_args (lex "::a") = Ret (None, lex "::a")
  /\ (exists nf, consume_fn [] None us = Ret (Err nf, us))
  /\ consume_extern_crate [] None us = Ret (None, us) /\ consume_extern_block consume_either_item [] None us = Ret (None, tl us)
  /\ exists r, consume_extern_block consume_either_item [] None (lex "extern ""C"" fn f();") = Ret (None, r) /\ List.length r = 3.
Proof. repeat split; try (eexists; split; [vm_compute; reflexivity|vm_compute; reflexivity]); try (eexists; vm_compute; reflexivity). Qed.

Print Assumptions C39_tuple.
Print Assumptions C49_combine.
Print Assumptions C51_item.
Print Assumptions C52_single_segment.
Print Assumptions C54_consumers.
Print Assumptions C54_extern_block.

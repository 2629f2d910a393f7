(** C01-C08, C15: printing and parsing.

    Specifications: [wf_item], [shape_item], [stable_item], [follow_ok] (Grammar.v) are
    predicates on syntax trees; [lossy] (Lossy.v) relates token lists. *)
From Verif Require Import Unfold Stable LossyProof Samples.

(** ** C01: print, then parse *)
Theorem C01_print_parse_identity (x : item) :
  wf_item x = true -> follow_ok x [] = true -> parse_item (print_item x) = Ret (Ok x).
Proof.
  intros H Hf. pose proof (print_spells_item x H) as Hs.
  unfold wf_item in H. bsplit. unfold parse_item.
  rewrite <- (app_nil_r (print_item x)). rewrite (consume_item_complete x); auto.
Qed.
(** The conditions are necessary, so [wf_item] is exactly the set of trees that survive. *)
Theorem C01_print_parse_iff (x : item) :
  parse_item (print_item x) = Ret (Ok x) <-> wf_item x = true /\ follow_ok x [] = true.
Proof.
  split; [|intros []; apply C01_print_parse_identity; auto].
  unfold parse_item. intro H. inv_bind H. destruct x0 as [r rest]. destruct rest; [|discriminate].
  injection H as ->. apply consume_item_iff in Hx. destruct Hx as (c & Hc & Hs & Hsh & Hf).
  rewrite app_nil_r in Hc. subst c. split; auto.
  unfold wf_item. rewrite Hsh. simpl. apply spells_print_stable; auto.
Qed.
(** In front of other tokens: the prefix is read back and the rest is left. *)
Theorem C01_print_consume (x : item) (rest : list tok) :
  wf_item x = true -> follow_ok x rest = true -> consume_item (print_item x ++ rest) = Ret (Ok x, rest).
Proof.
  intros H Hf. pose proof (print_spells_item x H) as Hs. unfold wf_item in H. bsplit.
  apply consume_item_complete; auto.
Qed.
Example C01_example : wf_item rich_module = true /\ follow_ok rich_module [] = true
  /\ print_item rich_module = lex rich_text.
Proof. vm_compute. auto. Qed.

(** ** C02: shape of parsed items *)
Theorem C02_parsed_shape (ts rest : list tok) (x : item) :
  consume_item ts = Ret (Ok x, rest) -> shape_item x = true.
Proof. intro H. apply consume_item_iff in H. bsplit. auto. Qed.
Theorem C02_parse_item_shape (ts : list tok) (x : item) :
  parse_item ts = Ret (Ok x) -> shape_item x = true /\ follow_ok x [] = true.
Proof.
  unfold parse_item. intro H. inv_bind H. destruct x0 as [r rest]. destruct rest; [|discriminate].
  injection H as ->. apply consume_item_iff in Hx. bsplit. auto.
Qed.

(** The exact set of accepted streams, and of results. *)
Theorem C02_grammar (ts rest : list tok) (x : item) :
  consume_item ts = Ret (Ok x, rest) <->
  exists c, ts = c ++ rest /\ spells_item x c /\ shape_item x = true /\ follow_ok x rest = true.
Proof. apply consume_item_iff. Qed.
Example C02_example :
  let ts := lex "pub struct S<T,>(#[a] T, crate B,) where T: X, B: Y; fn" in
  exists x rest, consume_item ts = Ret (Ok x, rest) /\ List.length rest = 1 /\ shape_item x = true /\ follow_ok x rest = true
  /\ spells_item x (print_item x) /\ parse_item (print_item x) = Ret (Ok x).
Proof.
  eexists. eexists. split; [vm_compute; reflexivity|]. repeat split; try (vm_compute; reflexivity).
  match goal with |- spells_item ?x _ => assert (H : consume_item (print_item x ++ []) = Ret (Ok x, [])) by (vm_compute; reflexivity) end.
  apply C02_grammar in H. destruct H as (c & E & H & _). rewrite !app_nil_r in E. subst c. exact H.
Qed.
(** A tree that no stream gives. *)
Example C02_example_shape :
  shape_item (IStruct (mkStruct [] None (mkIdent "enum" call_site) (mkIdent "S" call_site) None None FUnit None)) = false.
Proof. reflexivity. Qed.

(** ** C03: reparsing the printed form *)
Theorem C03_reparse_identity (ts : list tok) (x : item) :
  parse_item ts = Ret (Ok x) -> stable_item x = true -> parse_item (print_item x) = Ret (Ok x).
Proof.
  intros H Hs. apply C02_parse_item_shape in H. destruct H. apply C01_print_parse_identity; auto.
  unfold wf_item. rewrite H, Hs. reflexivity.
Qed.
(** The exceptions are exactly the trees that are not [stable_item]. *)
Theorem C03_reparse_identity_iff (ts : list tok) (x : item) :
  parse_item ts = Ret (Ok x) -> (parse_item (print_item x) = Ret (Ok x) <-> stable_item x = true).
Proof.
  intro H. split; [|eapply C03_reparse_identity; eauto]. intro Hp. apply C01_print_parse_iff in Hp.
  destruct Hp as [Hp _]. unfold wf_item in Hp. bsplit. auto.
Qed.
Example C03_example : parse_item (lex "pub impl A { fn f(self b: u8, &c: u8) {} }") =
    Ret (Ok (item_of "pub impl A { fn f(self b: u8, &c: u8) {} }"))
  /\ stable_item (item_of "pub impl A { fn f(self b: u8, &c: u8) {} }") = true
  /\ print_item (item_of "pub impl A { fn f(self b: u8, &c: u8) {} }") <> lex "pub impl A { fn f(self b: u8, &c: u8) {} }".
Proof. split; [vm_compute; reflexivity|]. split; [vm_compute; reflexivity|]. vm_compute. discriminate. Qed.

(** C03 as stated allows only two kinds of exception (a braced struct with a semicolon, a
    constant with a [mut] token).  That is false: a macro named [pub] (after a visibility
    that is dropped) is printed as [pub ! { }], which does not parse; and a macro named
    [where] in a module changes the struct printed before it. *)
Theorem C03_two_exceptions_refuted :
  (exists ts x, parse_item ts = Ret (Ok x) /\ (exists m, x = IMacro m)
     /\ exists p, parse_item (print_item x) = Panic p)
  /\ (exists ts x, parse_item ts = Ret (Ok x)
     /\ (exists m s k, x = IModule m /\ mo_members m = [IStruct s; IMacro k] /\ st_semicolon s = None)
     /\ exists p, parse_item (print_item x) = Panic p).
Proof.
  split.
  - exists (lex "pub pub! {}"), (item_of "pub pub! {}"). vm_compute. eauto.
  - exists (lex "mod m { struct S(A) pub where! {} }"), (item_of "mod m { struct S(A) pub where! {} }").
    vm_compute. split; [reflexivity|]. split; [|eauto]. do 3 eexists. eauto.
Qed.
Example C03_exceptions :
  map (fun s => stable_item (item_of s))
    ["struct S { } ;"; "static mut: u8 = 1;"; "pub pub! {}"; "mod m { struct S(A) pub where! {} }";
     "mod m { mod n { struct S { } ; } }"; "extern { static mut: u8; }"]%string
  = [false; false; false; false; false; false].
Proof. vm_compute. reflexivity. Qed.

(** ** C04: what reprinting changes *)
Theorem C04_reprint_lossy (ts rest : list tok) (x : item) :
  consume_item ts = Ret (Ok x, rest) -> exists src, ts = src ++ rest /\ lossy src (print_item x).
Proof.
  intro H. apply consume_item_iff in H. destruct H as (c & -> & Hs & Hsh & _).
  exists c. split; auto. apply lossy_item; auto.
Qed.
(** All the edits at once. *)
Definition lossy_text : string := "mod m { #[a(b) c] struct S { x: u8 } ; pub impl A { fn f(self b: u8, &'a mut c: u8) {} } pub m! {} static mut: u8 = 1; enum E { A(u8) B } }".
Example C04_example :
  parse_item (lex lossy_text) = Ret (Ok (item_of lossy_text))
  /\ List.length (print_item (item_of lossy_text)) = 3
  /\ match print_item (item_of lossy_text) with
     | [_; _; TGroup g] => List.length (g_stream g) = List.length (g_stream (match lex lossy_text with [_; _; TGroup g] => g | _ => g end)) - 2
     | _ => False
     end.
Proof. vm_compute. auto. Qed.

(** ** C05, C06: exact round trip *)
Theorem C05_exact_round_trip (x : item) (ts : list tok) :
  wf_item x = true -> follow_ok x [] = true -> ts = print_item x ->
  exists y, parse_item ts = Ret (Ok y) /\ print_item y = ts.
Proof. intros H Hf ->. exists x. split; auto. apply C01_print_parse_identity; auto. Qed.
(** The streams that survive are exactly the printed forms of well-formed items. *)
Theorem C05_exact_round_trip_iff (ts : list tok) :
  (exists y, parse_item ts = Ret (Ok y) /\ print_item y = ts) <->
  (exists x, wf_item x = true /\ follow_ok x [] = true /\ ts = print_item x).
Proof.
  split.
  - intros (y & H & <-). exists y. apply C01_print_parse_iff in H. tauto.
  - intros (x & H & Hf & ->). eapply C05_exact_round_trip; eauto.
Qed.
Example C05_example : exists y, parse_item (lex rich_text) = Ret (Ok y) /\ print_item y = lex rich_text.
Proof. exists rich_module. vm_compute. auto. Qed.

Theorem C06_lossless_refuted :
  exists ts x, parse_item ts = Ret (Ok x) /\ print_item x <> ts.
Proof.
  exists (lex "struct S { x: u8 };"), (item_of "struct S { x: u8 };"). split; vm_compute; [reflexivity|discriminate].
Qed.

(** ** C07: a proper suffix is left (the [Err] case is C07_err in PropErr.v) *)
Theorem C07_consumes_prefix (ts rest : list tok) (x : item) :
  consume_item ts = Ret (Ok x, rest) -> exists src, ts = src ++ rest /\ src <> [].
Proof.
  intro H. apply consume_item_iff in H. destruct H as (c & -> & Hs & _). exists c. split; auto.
  eapply item_ne; eauto.
Qed.
Example C07_example : exists x rest, consume_item (lex "#[a] pub(crate) mod m; struct S;") = Ret (Ok x, rest) /\ List.length rest = 3.
Proof. eexists. eexists. vm_compute. auto. Qed.

(** ** C08: parse_item and consume_item *)
Theorem C08_parse_item_ret (ts : list tok) r :
  parse_item ts = Ret r <-> consume_item ts = Ret (r, []).
Proof.
  unfold parse_item. destruct (consume_item ts) as [[v [|t rest]]| |]; simpl; split; intro H; try discriminate;
    injection H as ->; auto.
Qed.
Theorem C08_parse_item_panic (ts : list tok) p :
  parse_item ts = Panic p <->
  consume_item ts = Panic p \/ (p = PTrailingTokens /\ exists r t rest, consume_item ts = Ret (r, t :: rest)).
Proof.
  unfold parse_item. destruct (consume_item ts) as [[v [|t rest]]| |] eqn:E; simpl; split; intro H; try discriminate;
    try (destruct H as [H|(_ & ? & ? & ? & H)]; discriminate).
  - injection H as <-. right. split; eauto.
  - destruct H as [H|(-> & _)]; [discriminate|reflexivity].
  - injection H as <-. auto.
  - destruct H as [H|(_ & ? & ? & ? & H)]; [injection H as <-; auto|discriminate].
Qed.
Example C08_example :
  parse_item (lex "struct S; struct T;") = Panic PTrailingTokens
  /\ parse_item (lex "enum E { A = 1 + 1 } x") = Panic PTrailingTokens
  /\ parse_item (lex "struct") = Panic (PExpectedIdent "item" true).
Proof. vm_compute. auto. Qed.

(** ** C15: items one after another *)
Inductive consumes : list tok -> list item -> list tok -> Prop :=
| consumes_nil ts : consumes ts [] ts
| consumes_cons ts i ts1 l rest :
    consume_item ts = Ret (Ok i, ts1) -> consumes ts1 l rest -> consumes ts (i :: l) rest.
(** No item is continued by what follows it. *)
Fixpoint separable (l : list item) (rest : list tok) : Prop :=
  match l with
  | [] => True
  | i :: r => follow_ok i (flat_map print_item r ++ rest) = true /\ separable r rest
  end.
Theorem C15_sequence (l : list item) (rest : list tok) :
  forallb wf_item l = true -> separable l rest -> consumes (flat_map print_item l ++ rest) l rest.
Proof.
  induction l as [|i l IH]; intros Hw Hs; [constructor|]. simpl in Hw, Hs. bsplit.
  cbn [flat_map]. rewrite <- app_assoc. econstructor; [apply C01_print_consume; auto|auto].
Qed.
(** The result is determined by the stream and the number of calls. *)
Theorem C15_deterministic ts l rest l' rest' :
  consumes ts l rest -> consumes ts l' rest' -> List.length l = List.length l' -> l = l' /\ rest = rest'.
Proof.
  intro H. revert l' rest'. induction H; intros l' rest' H' Hl; inversion H'; subst; try discriminate; auto.
  rewrite H in H1. bsplit. destruct (IHconsumes _ _ H2); auto. subst. auto.
Qed.
(** A sufficient condition: every tuple struct ends with its semicolon, and what follows the
    last item does not start with one. *)
Definition ends_itself (i : item) : bool :=
  match i with
  | IStruct s => match st_fields s with FTuple _ => some (st_semicolon s) | _ => true end
  | _ => true
  end.
Theorem C15_sequence_simple (l : list item) (rest : list tok) :
  forallb wf_item l = true -> forallb ends_itself l = true -> head_is (is_punct ";") rest = false ->
  consumes (flat_map print_item l ++ rest) l rest.
Proof.
  intros Hw He Hr. apply C15_sequence; auto. induction l as [|i l IH]; simpl; auto. simpl in Hw, He. bsplit.
  split; auto. destruct i; auto. simpl. unfold struct_follow. unfold ends_itself in H.
  assert (Hh : head_is (is_punct ";") (flat_map print_item l ++ rest) = false).
  { destruct l as [|j l]; auto. cbn [flat_map]. rewrite <- app_assoc. apply print_head_semi.
    simpl in H2. bsplit. unfold wf_item in H2. bsplit. auto. }
  destruct (st_fields s); auto.
  - destruct (st_semicolon s); [reflexivity|discriminate].
  - rewrite Hh. apply orb_true_r.
Qed.
Example C15_example :
  let l := items_of 9 (lex "struct A(u8) struct B; use a::b; mod m { fn f() {} } x!();") in
  List.length l = 5 /\ forallb wf_item l = true /\ separable l (lex "rest of file").
Proof. vm_compute. auto 10. Qed.

Print Assumptions C01_print_parse_identity.
Print Assumptions C01_print_parse_iff.
Print Assumptions C03_reparse_identity_iff.
Print Assumptions C04_reprint_lossy.
Print Assumptions C05_exact_round_trip_iff.
Print Assumptions C15_sequence_simple.

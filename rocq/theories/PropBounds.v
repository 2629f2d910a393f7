(** C81: names given to the constructors.  C82: the range of the bracket counter.
    C83: how deep the parser recurses. *)
From Verif Require Import Machine PrintSpells Complete3 Sound2 Unfold Samples PropRoundTrip PropLimits.
Local Open Scope string_scope.
Local Open Scope list_scope.

(** ** C81 *)
Theorem C81_panics_iff (name : string) (ts : list tok) :
  if valid_name name then
    new_lifetime name = Ret (gp_lifetime name) /\ new_bounded_lifetime name ts = Ret (gp_bounded_lifetime name ts)
    /\ new_ty name = Ret (gp_ty name) /\ new_bounded_ty name ts = Ret (gp_bounded_ty name ts)
    /\ new_const_param name ts = Ret (gp_const_param name ts)
  else
    new_lifetime name = Panic PIdentNew /\ new_bounded_lifetime name ts = Panic PIdentNew
    /\ new_ty name = Panic PIdentNew /\ new_bounded_ty name ts = Panic PIdentNew
    /\ new_const_param name ts = Panic PIdentNew.
Proof.
  unfold new_lifetime, new_bounded_lifetime, new_ty, new_bounded_ty, new_const_param, ident_checked.
  destruct (valid_name name); cbn; auto 6.
Qed.
(** The valid names, with their characters written out. *)
Definition letters : list ascii := list_ascii_of_string "abcdefghijklmnopqrstuvwxyzABCDEFGHIJKLMNOPQRSTUVWXYZ_".
Definition digits : list ascii := list_ascii_of_string "0123456789".
Lemma listed l c : existsb (Ascii.eqb c) l = true <-> In c l.
Proof.
  rewrite existsb_exists. split; [intros (x & I & E)|intro I].
  - apply Ascii.eqb_eq in E. subst. exact I.
  - exists c. split; [exact I|apply Ascii.eqb_refl].
Qed.
Theorem C81_names (s : string) : valid_name s = true <->
  exists c r, list_ascii_of_string s = c :: r /\ In c letters /\ Forall (fun d => In d letters \/ In d digits) r.
Proof.
  assert (L : forall c, name_start c = existsb (Ascii.eqb c) letters) by (intros [[] [] [] [] [] [] [] []]; reflexivity).
  assert (D : forall c, name_continue c = existsb (Ascii.eqb c) (letters ++ digits)) by (intros [[] [] [] [] [] [] [] []]; reflexivity).
  assert (R : forall r, all_chars name_continue r = true <-> Forall (fun d => In d letters \/ In d digits) (list_ascii_of_string r)).
  { induction r as [|d r IH]; cbn; [split; auto|]. rewrite andb_true_iff, IH, D, listed, in_app_iff. split.
    - intros []. constructor; auto.
    - inversion 1; subst; auto. }
  destruct s as [|c r]; cbn.
  - split; [discriminate|]. intros (c & r & E & _). discriminate.
  - rewrite andb_true_iff, L, listed, R. split.
    + intros []. exists c, (list_ascii_of_string r). auto.
    + intros (c' & r' & E & H1 & H2). injection E as <- <-. auto.
Qed.
(** A lifetime is given without its apostrophe, and no name may be raw. *)
Lemma valid_name_chars s c : valid_name s = true -> In c (list_ascii_of_string s) -> name_continue c = true.
Proof.
  destruct s as [|d s]; [discriminate|]. cbn. intros H I. apply andb_prop in H. destruct H as [H1 H2].
  destruct I as [<-|I]; [unfold name_continue; rewrite H1; reflexivity|]. induction s as [|e s IH]; [contradiction|].
  cbn in *. apply andb_prop in H2. destruct H2 as [H2 H3]. destruct I as [<-|I]; auto.
Qed.
Theorem C81_illegal (s t : string) : valid_name (String "'" s) = false /\ valid_name (s ++ String "#" t) = false /\ valid_name (s ++ String " " t) = false.
Proof.
  assert (G : forall c, name_continue c = false -> valid_name (s ++ String c t) = false).
  { intros c Hc. destruct (valid_name (s ++ String c t)) eqn:E; auto. apply (valid_name_chars _ c) in E; [congruence|].
    clear. induction s; cbn; auto. }
  split; [reflexivity|]. split; apply G; reflexivity.
Qed.

(** A parameter rebuilt from its own name, its kind and its bound. *)
Definition rebuilt (p : generic_param) : outcome generic_param :=
  let name := id_str (gp_name p) in
  match gp_prefix p, gp_bound p with
  | None, None => new_ty name
  | None, Some b => new_bounded_ty name (gb_tokens b)
  | Some (TPunct _), None => new_lifetime name
  | Some (TPunct _), Some b => new_bounded_lifetime name (gb_tokens b)
  | Some _, Some b => new_const_param name (gb_tokens b)
  | Some _, None => new_const_param name []
  end.
Theorem C81_rebuilt (comma : bool) (p : generic_param) :
  wf_generic_param comma p = true -> (gp_is_const p = true -> some (gp_bound p) = true) -> valid_name (id_str (gp_name p)) = true ->
  exists q, rebuilt p = Ret q /\ texts (print_generic_param q) = texts (print_generic_param p)
    /\ option_map gb_tokens (gp_bound q) = option_map gb_tokens (gp_bound p)
    /\ gp_is_lifetime q = gp_is_lifetime p /\ gp_is_ty q = gp_is_ty p /\ gp_is_const q = gp_is_const p.
Proof.
  destruct p as [pre [name sp] b]. unfold wf_generic_param, rebuilt, gp_is_const. cbn [gp_prefix gp_name gp_bound id_str]. intros W K V.
  assert (H : forall l, _) by (intro l; exact (C81_panics_iff name l)). rewrite V in H. apply andb_prop in W. destruct W as [W B].
  assert (C : forall b', b = Some b' -> p_char (gb_colon b') = ":"%char).
  { intros b' ->. cbn in B. unfold wf_bound in B. apply andb_prop in B. destruct B as [B _]. unfold p_is in B. apply Ascii.eqb_eq in B. exact B. }
  destruct pre as [[g|i|q|l]|]; try discriminate.
  - destruct b as [b|]; [|specialize (K W); discriminate]. destruct (H (gb_tokens b)) as (_ & _ & _ & _ & ->). eexists. split; [reflexivity|].
    unfold id_is in *. apply String.eqb_eq in W. unfold texts, print_generic_param, print_opt, print_bound. cbn. unfold id_is. rewrite W, (C b) by reflexivity. auto.
  - apply Ascii.eqb_eq in W. destruct b as [b|]; [destruct (H (gb_tokens b)) as (_ & -> & _)|destruct (H []) as (-> & _)];
      (eexists; split; [reflexivity|]); unfold texts, print_generic_param, print_opt, print_bound; cbn; unfold p_is; rewrite W, ?(C _ eq_refl); auto.
  - destruct b as [b|]; [destruct (H (gb_tokens b)) as (_ & _ & _ & -> & _)|destruct (H []) as (_ & _ & -> & _)];
      (eexists; split; [reflexivity|]); unfold texts, print_generic_param, print_opt, print_bound; cbn; rewrite ?(C _ eq_refl); auto.
Qed.
Definition params_of (i : item) : list generic_param :=
  match i with IStruct s => generics_params (st_generics s) | _ => [] end.
(** Not so for a raw name, although it is parsed and printed. *)
Theorem C81_rebuilt_refuted : exists ts i p, parse_item ts = Ret (Ok i) /\ wf_item i = true /\ params_of i = [p]
  /\ id_str (gp_name p) = "r#type" /\ rebuilt p = Panic PIdentNew.
Proof.
  set (ts := map (fun t => if is_ident "T" t then TIdent (mkIdent "r#type" call_site) else t) (lex "struct S<T>(u8);")).
  exists ts, (hd dummy_item (items_of 1 ts)). eexists.
  do 4 (split; [vm_compute; reflexivity|]). vm_compute; reflexivity.
Qed.
Example C81_example : exists a b c d,
  params_of (item_of "struct S<'a, 'b: 'a, T: Copy + ?Sized, const N: usize>(u8);") = [a; b; c; d]
  /\ forallb (wf_generic_param true) [a; b; c; d] = true /\ gp_is_const d = true /\ some (gp_bound d) = true
  /\ forallb (fun p => valid_name (id_str (gp_name p))) [a; b; c; d] = true /\ valid_name "_T9" = true /\ valid_name "9T" = false /\ valid_name "" = false.
Proof. do 4 eexists. split; [vm_compute; reflexivity|]. vm_compute. auto 10. Qed.

(** ** C82 *)
(** The number of [<] among the tokens. *)
Definition opening (ts : list tok) : nat := List.length (filter (is_punct "<") ts).
Lemma in_range z : (i32_min <= z <= i32_max)%Z -> forall checks, i32_of checks z = Ret z.
Proof. intros H checks. unfold i32_of. destruct (Z.leb_spec i32_min z), (Z.leb_spec z i32_max); try lia. reflexivity. Qed.
Lemma loop_i32 checks P ts : forall bc dash, (0 <= bc)%Z -> (bc + Z.of_nat (opening ts) <= i32_max)%Z ->
  stuff_loop_i32 checks P bc dash ts = Ret (stuff_loop P bc dash ts).
Proof.
  induction ts as [|t r IH]; intros bc dash H0 H; [reflexivity|]. cbn [stuff_loop_i32 stuff_loop]. unfold opening in *. cbn [filter] in H.
  assert (K : forall bc' d, (bc' + Z.of_nat (List.length (filter (is_punct "<") r)) <= i32_max)%Z ->
     (if (bc' <? 0)%Z then Ret ([], false, t :: r) else do (out, met, rest) <- stuff_loop_i32 checks P bc' d r ;; Ret (t :: out, met, rest))
     = Ret (if (bc' <? 0)%Z then ([], false, t :: r) else let '(out, met, rest) := stuff_loop P bc' d r in (t :: out, met, rest))).
  { intros bc' d H'. destruct (Z.ltb_spec bc' 0); auto. rewrite IH by auto. cbn. destruct (stuff_loop P bc' d r) as [[? ?] ?]. reflexivity. }
  unfold i32_max, i32_min in *.
  destruct (is_punct "<" t).
  - cbn [List.length] in H. rewrite in_range by (unfold i32_min, i32_max; lia). cbn [bind]. apply K. lia.
  - destruct (is_punct ">" t && negb dash).
    + rewrite in_range by (unfold i32_min, i32_max; lia). cbn [bind]. apply K. lia.
    + destruct (is_punct "-" t); [apply K; lia|]. destruct (P t && (bc =? 0)%Z); [reflexivity|]. apply K; lia.
Qed.
Theorem C82_in_range (checks : bool) (P : tok -> bool) (must_find : bool) (ts : list tok) :
  (Z.of_nat (opening ts) < 2 ^ 31)%Z -> consume_stuff_until_i32 checks P must_find ts = consume_stuff_until P must_find ts.
Proof.
  intro H. unfold consume_stuff_until_i32, consume_stuff_until. rewrite loop_i32; [|lia|unfold i32_max; lia].
  cbn [bind]. destruct (stuff_loop P 0 false ts) as [[? ?] ?]. reflexivity.
Qed.
(** The bound is exact: with 2^31 of them, a panic or an early end of the type. *)
Lemma loop_out checks P p n : p_is "<" p = true -> forall bc dash rest, (0 <= bc)%Z -> (bc + Z.of_nat n = i32_max)%Z ->
  stuff_loop_i32 checks P bc dash (repeat (TPunct p) n ++ TPunct p :: rest)
  = if checks then Panic POverflow else Ret (repeat (TPunct p) n, false, TPunct p :: rest).
Proof.
  intro Hp. induction n as [|n IH]; intros bc dash rest H0 H; cbn [repeat app stuff_loop_i32 is_punct]; rewrite Hp.
  - unfold i32_of. destruct (Z.leb_spec i32_min (bc + 1)), (Z.leb_spec (bc + 1) i32_max); unfold i32_min in *; try lia.
    destruct checks; auto. cbn [andb bind]. replace (bc + 1)%Z with (2 ^ 31)%Z by (unfold i32_max in H; lia). reflexivity.
  - rewrite in_range by (unfold i32_min, i32_max in *; lia). cbn [bind]. destruct (Z.ltb_spec (bc + 1) 0); [lia|].
    rewrite IH by lia. destruct checks; reflexivity.
Qed.
Theorem C82_out_of_range (P : tok -> bool) (p : punct) (n : nat) (rest : list tok) :
  p_is "<" p = true -> (Z.of_nat n = 2 ^ 31 - 1)%Z ->
  let ts := repeat (TPunct p) n ++ TPunct p :: rest in
  consume_stuff_until_i32 true P false ts = Panic POverflow
  /\ consume_stuff_until_i32 false P false ts = Ret (repeat (TPunct p) n, TPunct p :: rest).
Proof. intros Hp H. unfold consume_stuff_until_i32. rewrite !loop_out by (auto; unfold i32_max; lia). split; reflexivity. Qed.
Example C82_example : (Z.of_nat (opening (lex "Vec<Vec<u8>>, x")) < 2 ^ 31)%Z
  /\ consume_stuff_until_i32 true (is_punct ",") true (lex "Vec<Vec<u8>>, x") = Ret (firstn 7 (lex "Vec<Vec<u8>>, x"), skipn 7 (lex "Vec<Vec<u8>>, x"))
  /\ exists n, (Z.of_nat n = 2 ^ 31 - 1)%Z.
Proof. split; [reflexivity|]. split; [vm_compute; reflexivity|]. exists (Z.to_nat (2 ^ 31 - 1)). apply Z2Nat.id. lia. Qed.

(** ** C83 *)
(** Modules inside modules count, and a block of members; nothing else does. *)
Fixpoint levels (i : item) : nat :=
  match i with
  | IModule m => S (fold_right (fun j n => Nat.max (levels j) n) 0 (mo_members m))
  | ITrait _ | IImpl _ | IExternBlock _ => 2
  | _ => 1
  end.
Lemma levels_in j m : In j (mo_members m) -> levels j < levels (IModule m).
Proof.
  cbn [levels]. induction (mo_members m) as [|k l IH]; [contradiction|]. intros [<-|H]; cbn [fold_right]; [lia|]. specialize (IH H). lia.
Qed.
Lemma nest_levels n : forall i c rest, levels i <= n -> shape_item i = true -> spells_item i c -> follow_ok i rest = true ->
  fst (nest n) (c ++ rest) = Ret (Ok i, rest).
Proof.
  induction n as [|n IH]; intros i c rest L Hsh Hst Hf; [destruct i; cbn in L; lia|].
  cbn [nest]. destruct (nest n) as [R E] eqn:En. cbn [fst] in *. apply item_body_complete; auto.
  - intros j d r Hj _ Hsj Htj Hfj. apply IH; auto. destruct i; try contradiction. cbn [inner_items] in Hj. apply levels_in in Hj. lia.
  - intros _ Hb. destruct n as [|n]; [destruct i; cbn in *; try discriminate; lia|]. cbn [nest] in En. destruct (nest n) as [R' E'].
    injection En as <- <-. eauto.
Qed.
(** [nest n] is the parser that gives up when it recurses more than [n] deep. *)
Theorem C83_depth (ts rest : list tok) (i : item) (n : nat) :
  consume_item ts = Ret (Ok i, rest) -> levels i <= n -> fst (nest n) ts = Ret (Ok i, rest).
Proof. intros H L. apply consume_item_iff in H. destruct H as (c & -> & H1 & H2 & H3). apply nest_levels; auto. Qed.
(** Groups in bodies, types and values do not count; the second bound is reached. *)
Example C83_example :
  (exists i, consume_item (lex "fn f() { {{{{ [[[[ ((((x)))) ]]]] }}}} }") = Ret (Ok i, []) /\ levels i = 1
     /\ toks_depth (lex "fn f() { {{{{ [[[[ ((((x)))) ]]]] }}}} }") = 13 /\ fst (nest 1) (lex "fn f() { {{{{ [[[[ ((((x)))) ]]]] }}}} }") = Ret (Ok i, []))
  /\ (exists i, consume_item (lex "mod a { mod b { impl X { fn f() {} } } struct S; }") = Ret (Ok i, []) /\ levels i = 4
     /\ fst (nest 3) (lex "mod a { mod b { impl X { fn f() {} } } struct S; }") = OutOfFuel).
Proof. split; eexists; (split; [vm_compute; reflexivity|]); vm_compute; auto. Qed.

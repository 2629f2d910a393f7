(** C31-C33: [Punctuated]. *)
From Verif Require Import Samples PrintSpells.

(** ** C31: pushes *)
Definition push_all {A} (l : list (A * option punct)) (p : punctuated A) : punctuated A :=
  fold_left (fun p x => pu_push p (fst x) (snd x)) l p.
(** The comma shown between two values: the given one, else [","] alone at the call site. *)
Definition comma_or_default (c : option punct) : punct :=
  match c with Some c => c | None => mkPunct "," Alone call_site end.
(** The text of the pushed values: each followed by its comma, the last one only if given. *)
Fixpoint listing {A} (pr : A -> list tok) (l : list (A * option punct)) : list tok :=
  match l with
  | [] => []
  | [(v, c)] => pr v ++ match c with Some c => [TPunct c] | None => [] end
  | (v, c) :: r => pr v ++ TPunct (comma_or_default c) :: listing pr r
  end.

Lemma push_inner {A} (l : list (A * option punct)) p :
  pu_inner (push_all l p) = pu_inner p ++ map (fun x => (fst x, comma_or_default (snd x))) l.
Proof.
  revert p. induction l as [|[v c] l IH]; intro p; simpl; [rewrite app_nil_r; auto|].
  unfold push_all in *. simpl. rewrite IH. simpl. rewrite <- app_assoc. destruct c; reflexivity.
Qed.
Lemma push_skip {A} (l : list (A * option punct)) v c p :
  pu_skip_last (push_all (l ++ [(v, c)]) p) = match c with Some _ => false | None => true end.
Proof. unfold push_all. rewrite fold_left_app. destruct c; reflexivity. Qed.

Theorem C31_push_all {A} (l : list (A * option punct)) (p : punctuated A) :
  pu_items (push_all l p) = pu_items p ++ map fst l
  /\ pu_len (push_all l p) = pu_len p + List.length l
  /\ (pu_is_empty (push_all l p) = true <-> pu_is_empty p = true /\ l = []).
Proof.
  unfold pu_items, pu_len, pu_is_empty. rewrite push_inner. repeat split.
  - rewrite map_app, map_map. simpl. reflexivity.
  - rewrite app_length, map_length. reflexivity.
  - destruct (pu_inner p); [reflexivity|discriminate].
  - destruct (pu_inner p), l; simpl in *; congruence.
  - intros [H ->]. rewrite app_nil_r. exact H.
Qed.
Theorem C31_print_pushes {A} (pr : A -> list tok) (l : list (A * option punct)) :
  print_punctuated pr (push_all l pu_new) = listing pr l.
Proof.
  unfold print_punctuated. rewrite push_inner. simpl app.
  destruct l as [|x l] using rev_ind; [reflexivity|]. clear IHl. destruct x as [v c]. rewrite push_skip.
  induction l as [|[w d] l IH].
  - simpl. destruct c; reflexivity.
  - cbn [app map fst snd listing]. destruct (l ++ [(v, c)]) as [|[y e] r] eqn:E; [destruct l; discriminate|].
    rewrite <- IH. reflexivity.
Qed.
(** A push on any list adds the value (and its comma, if given) after the old values, the
    last of which now shows the comma that was stored with it. *)
Theorem C31_print_push {A} (pr : A -> list tok) (p : punctuated A) v c :
  print_punctuated pr (pu_push p v c)
  = flat_map (fun x => pr (fst x) ++ [TPunct (snd x)]) (pu_inner p) ++ pr v ++ print_opt print_punct c.
Proof.
  unfold print_punctuated, pu_push. simpl. induction (pu_inner p) as [|[x d] l IH].
  - simpl. destruct c; reflexivity.
  - cbn [app flat_map fst snd]. rewrite <- !app_assoc. rewrite <- IH.
    destruct l as [|[y e] l]; reflexivity.
Qed.
Example C31_example :
  let c := mkPunct "," Alone 7%N in let d := mkPunct "," Joint 8%N in
  let p := push_all [(1, Some c); (2, None); (3, Some d); (4, None)] pu_new in
  pu_items p = [1; 2; 3; 4] /\ pu_punct p = [c; mkPunct "," Alone call_site; d]
  /\ print_punctuated (fun n => [TLit (mkLit "n" (N.of_nat n))]) p
     = [TLit (mkLit "n" 1); TPunct c; TLit (mkLit "n" 2); TPunct (mkPunct "," Alone call_site);
        TLit (mkLit "n" 3); TPunct d; TLit (mkLit "n" 4)]%N.
Proof. vm_compute. auto. Qed.

(** ** C32: insert *)
Theorem C32_insert_panics_iff {A} (p : punctuated A) i v c :
  (exists e, pu_insert p i v c = Panic e) <-> pu_len p < i.
Proof.
  unfold pu_insert. destruct (Nat.leb_spec i (pu_len p)); cbn [negb].
  - split; [|lia]. intros [e He]. destruct (Nat.eqb i (pu_len p)); discriminate.
  - split; eauto.
Qed.
Theorem C32_insert {A} (p : punctuated A) i v c :
  i <= pu_len p ->
  exists q, pu_insert p i v c = Ret q
  /\ pu_items q = firstn i (pu_items p) ++ v :: skipn i (pu_items p)
  (* the other values keep their commas, and the new one has *)
  /\ map snd (pu_inner q) = firstn i (map snd (pu_inner p))
       ++ (if Nat.eqb i (pu_len p) then comma_or_default c else mkPunct "," Alone call_site)
       :: skipn i (map snd (pu_inner p))
  /\ pu_skip_last q = (if Nat.eqb i (pu_len p) then match c with None => true | Some _ => false end else pu_skip_last p).
Proof.
  intro H. unfold pu_insert. rewrite (proj2 (Nat.leb_le _ _) H). cbn [negb].
  destruct (Nat.eqb_spec i (pu_len p)) as [->|Hne].
  - eexists. split; [reflexivity|]. unfold pu_items, pu_push, pu_len. cbn [pu_inner pu_skip_last].
    rewrite !map_app, !firstn_all2, !skipn_all2 by (rewrite map_length; lia).
    repeat split; destruct c; reflexivity.
  - eexists. split; [reflexivity|]. unfold pu_items, vec_insert. cbn [pu_inner pu_skip_last].
    rewrite !map_app, !firstn_map, !skipn_map. repeat split; reflexivity.
Qed.
Theorem C32_insert_at_end_is_push {A} (p : punctuated A) v c :
  pu_insert p (pu_len p) v c = Ret (pu_push p v c).
Proof. unfold pu_insert. rewrite Nat.leb_refl, Nat.eqb_refl. reflexivity. Qed.
(** ** C55: the given comma is used only at the end; in the middle it is thrown away *)
Theorem C55_given_comma_used_refuted :
  exists (p : punctuated nat) c q, pu_insert p 0 5 (Some c) = Ret q /\ ~ In c (map snd (pu_inner q)).
Proof.
  exists (mkPunctuated [(1, mkPunct "," Alone 3%N)] false), (mkPunct "," Alone 9%N). eexists.
  split; [reflexivity|]. simpl. intros [H|[H|[]]]; discriminate.
Qed.
Theorem C55_stored_comma {A} (p q : punctuated A) i v c : pu_insert p i v (Some c) = Ret q ->
  nth_error (pu_inner q) i = Some (v, if i =? pu_len p then c else punct_new "," Alone).
Proof.
  unfold pu_insert. destruct (i <=? pu_len p) eqn:E; [|discriminate]. intro H. apply Nat.leb_le in E.
  unfold pu_len in *. destruct (i =? List.length (pu_inner p)) eqn:E2; inversion H; subst; clear H.
  - apply Nat.eqb_eq in E2. subst. cbn. rewrite nth_error_app2, Nat.sub_diag by lia. reflexivity.
  - cbn. unfold vec_insert. rewrite nth_error_app2; rewrite firstn_length_le by lia; [rewrite Nat.sub_diag; reflexivity|lia].
Qed.
Example C55_example : exists q, pu_insert (pu_push pu_new 1 None) 1 5 (Some (mkPunct "," Joint 3%N)) = Ret q.
Proof. eexists. reflexivity. Qed.
Example C32_example :
  let c := mkPunct "," Alone 7%N in
  let p := push_all [(1, Some c); (2, None)] pu_new in
  match pu_insert p 1 9 None with Ret q => pu_items q = [1; 9; 2] /\ pu_len p = 2 | _ => False end.
Proof. vm_compute. auto. Qed.

(** ** C33: items and commas *)
(** Values and commas alternating, starting with a value. *)
Fixpoint alternate {A} (pr : A -> list tok) (xs : list A) (cs : list punct) : list tok :=
  match xs with
  | [] => []
  | x :: xs => pr x ++ match cs with
                       | [] => alternate pr xs []
                       | c :: cs => TPunct c :: alternate pr xs cs
                       end
  end.
Lemma punct_of {A} (l : list (A * punct)) skip :
  pu_punct (mkPunctuated l skip) = match l with [] => [] | _ => map snd (if skip then removelast l else l) end.
Proof.
  unfold pu_punct. cbn [pu_skip_last pu_inner]. destruct l as [|x l]; [destruct skip; reflexivity|].
  destruct skip; [|reflexivity]. simpl Nat.ltb. cbn [andb]. rewrite removelast_firstn_len.
  rewrite Nat.sub_1_r. reflexivity.
Qed.
Theorem C33_print_alternates {A} (pr : A -> list tok) (p : punctuated A) :
  print_punctuated pr p = alternate pr (pu_items p) (pu_punct p).
Proof.
  destruct p as [l skip]. rewrite punct_of. unfold print_punctuated, pu_items. cbn [pu_skip_last pu_inner].
  induction l as [|[x c] l IH]; [reflexivity|].
  destruct l as [|[y d] l].
  - destruct skip; simpl; rewrite ?app_nil_r; reflexivity.
  - change (print_inner pr skip ((x, c) :: (y, d) :: l)) with (pr x ++ TPunct c :: print_inner pr skip ((y, d) :: l)).
    rewrite IH. destruct skip; reflexivity.
Qed.
Theorem C33_lengths {A} (p : punctuated A) :
  List.length (pu_items p) = pu_len p
  /\ List.length (pu_punct p) = (if pu_skip_last p then pu_len p - 1 else pu_len p).
Proof.
  split; [apply map_length|]. unfold pu_punct, pu_len. destruct (pu_inner p) as [|x l]; [destruct (pu_skip_last p); reflexivity|].
  destruct (pu_skip_last p); cbn [andb]; rewrite map_length; auto.
  change (Nat.ltb 0 (List.length (x :: l))) with true. cbv iota. rewrite firstn_length. lia.
Qed.
(** Read back from a printed list: parsing any comma-separated syntax then asking for the
    values and commas loses nothing, since both determine the list up to an unshown comma. *)
Theorem C33_determined {A} (p q : punctuated A) :
  pu_items p = pu_items q -> map snd (pu_inner p) = map snd (pu_inner q) -> pu_inner p = pu_inner q.
Proof.
  unfold pu_items. generalize (pu_inner p) (pu_inner q). clear p q.
  induction l as [|[x c] l IH]; intros [|[y d] r]; simpl; intros H1 H2; try discriminate; auto.
  injection H1 as -> H1. injection H2 as -> H2. f_equal; auto.
Qed.
Example C33_example :
  let p := match item_of "enum E { A, B = 1, C(u8) }" with IEnum e => en_variants e | _ => pu_new end in
  List.length (pu_items p) = 3 /\ List.length (pu_punct p) = 2
  /\ alternate print_variant (pu_items p) (pu_punct p) <> [].
Proof. vm_compute. repeat split; discriminate. Qed.

Print Assumptions C31_print_pushes.
Print Assumptions C32_insert.
Print Assumptions C33_print_alternates.

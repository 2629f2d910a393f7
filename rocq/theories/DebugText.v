(** The text printed by [{:?}] and [{:#?}] can be read back.

    A text is cut into lexemes by an automaton that knows quotes, escapes and raw strings.
    A description whose leaves are lexemes is determined by its plain text and by its
    pretty text, except that the leaf [[]] and the empty list look alike. *)
From Verif Require Import Debug PropDebug PropShown.
Local Open Scope string_scope.
Local Open Scope list_scope.

(** ** Strings *)
Lemma sapp_assoc a b c : ((a ++ b) ++ c = a ++ b ++ c)%string.
Proof. induction a; cbn; congruence. Qed.
Lemma sapp_nil a : (a ++ "" = a)%string.
Proof. induction a; cbn; congruence. Qed.

(** ** Lexemes *)
Definition stop_char (c : ascii) : bool :=
  existsb (Ascii.eqb c) [" "; newline; ","; "("; ")"; "["; "]"; "{"; "}"]%char.
Inductive lexing :=
| Start | Byte | Hashes (n : nat) | Word                 (* outside of quotes *)
| Text (q : ascii) | Escaped (q : ascii)                 (* inside of quotes *)
| RawText (n : nat) | RawEnd (n k : nat)                 (* inside of a raw string; [k] hashes are missing *)
| Suffix.                                                (* behind a closing quote *)
Definition is_quote (c : ascii) : bool := Ascii.eqb c quote_str || Ascii.eqb c quote_char.
Definition lex_step (st : lexing) (c : ascii) : option lexing :=
  let outside raw :=
    if stop_char c then None else if is_quote c then Some (Text c) else Some raw in
  match st with
  | Start => if Ascii.eqb c "b" || Ascii.eqb c "c" then Some Byte
             else if Ascii.eqb c "r" then Some (Hashes 0) else outside Word
  | Byte => if Ascii.eqb c "r" then Some (Hashes 0) else outside Word
  | Hashes n => if Ascii.eqb c "#" then Some (Hashes (S n))
                else if Ascii.eqb c quote_str then Some (RawText n) else outside Word
  | Word => outside Word
  | Suffix => outside Suffix
  | Text q => if Ascii.eqb c backslash then Some (Escaped q) else if Ascii.eqb c q then Some Suffix else Some (Text q)
  | Escaped q => Some (Text q)
  | RawText n => if Ascii.eqb c quote_str then Some (match n with 0 => Suffix | S _ => RawEnd n n end) else Some (RawText n)
  | RawEnd n k => if Ascii.eqb c "#" then Some (match k with S (S k) => RawEnd n (S k) | _ => Suffix end)
                  else if Ascii.eqb c quote_str then Some (RawEnd n n) else Some (RawText n)
  end.
Definition lex_ends (st : lexing) : bool :=
  match st with Byte | Hashes _ | Word | Suffix => true | _ => false end.
Fixpoint lexed (st : lexing) (s : string) : bool :=
  match s with
  | EmptyString => lex_ends st
  | String c r => match lex_step st c with Some st => lexed st r | None => false end
  end.
Definition lexeme (s : string) : bool := lexed Start s.

Definition stopped (r : string) : Prop := match r with EmptyString => True | String c _ => stop_char c = true end.
Lemma stop_step st c : lex_ends st = true -> stop_char c = true -> lex_step st c = None.
Proof.
  intros E S. assert (N : forall x, stop_char x = false -> Ascii.eqb c x = false).
  { intros x H. destruct (Ascii.eqb_spec c x); auto. subst. congruence. }
  destruct st; try discriminate E; unfold lex_step; rewrite ?S, ?(N "r"%char), ?(N "#"%char), ?(N quote_str) by reflexivity; reflexivity.
Qed.
Lemma lexed_split st a b r1 r2 : lexed st a = true -> lexed st b = true -> stopped r1 -> stopped r2 ->
  (a ++ r1 = b ++ r2)%string -> a = b /\ r1 = r2.
Proof.
  revert st b. induction a as [|x a IH]; intros st [|y b] A B S1 S2 E; cbn in *.
  - auto.
  - subst r1. cbn in S1. rewrite (stop_step st y A S1) in B. discriminate.
  - subst r2. cbn in S2. rewrite (stop_step st x B S2) in A. discriminate.
  - injection E as -> E. destruct (lex_step st y); [|discriminate]. destruct (IH l b A B S1 S2 E). subst. auto.
Qed.
Lemma lexeme_split a b r1 r2 : lexeme a = true -> lexeme b = true -> stopped r1 -> stopped r2 ->
  (a ++ r1 = b ++ r2)%string -> a = b /\ r1 = r2.
Proof. apply lexed_split. Qed.
Lemma lexeme_head s : lexeme s = true -> exists c r, s = String c r /\ stop_char c = false.
Proof.
  destruct s as [|c r]; [discriminate|]. unfold lexeme. cbn [lexed]. intro H. exists c, r. split; auto.
  unfold lex_step in H. destruct (stop_char c) eqn:E; auto. assert (N : forall x, stop_char x = false -> Ascii.eqb c x = false).
  { intros x Hx. destruct (Ascii.eqb_spec c x); auto. subst. congruence. }
  rewrite !N in H by reflexivity. discriminate.
Qed.

(** ** Descriptions that can be read *)
Definition brackets_text (s : string) : bool := String.eqb s "()" || String.eqb s "{}" || String.eqb s "[]".
Definition nonnil {A} (l : list A) : bool := match l with [] => false | _ => true end.
Fixpoint readable (d : dbg) : bool :=
  match d with
  | DText s => lexeme s || brackets_text s
  | DStruct n fs => lexeme n && nonnil fs && forallb (fun f => lexeme (fst f ++ ":")%string && readable (snd f)) fs
  | DTuple n fs => lexeme n && nonnil fs && forallb readable fs
  | DList l => forallb readable l
  | DPrefix s d => String.eqb s "TokenStream " && match d with DList l => forallb readable l | _ => false end
  | DPanic => false
  end.
(** The same up to the ambiguity. *)
Inductive like : dbg -> dbg -> Prop :=
| like_text s : like (DText s) (DText s)
| like_left : like (DText "[]") (DList [])
| like_right : like (DList []) (DText "[]")
| like_struct n fs gs : Forall2 (fun f g => fst f = fst g /\ like (snd f) (snd g)) fs gs -> like (DStruct n fs) (DStruct n gs)
| like_tuple n fs gs : Forall2 like fs gs -> like (DTuple n fs) (DTuple n gs)
| like_list l m : Forall2 like l m -> like (DList l) (DList m)
| like_prefix s d e : like d e -> like (DPrefix s d) (DPrefix s e).

(** What can stand behind a description. *)
Definition after (r : string) : Prop :=
  match r with
  | EmptyString => True
  | String c r => c = ","%char \/ c = ")"%char \/ c = "]"%char \/ (c = " "%char /\ exists r', r = String "}" r')
  end.
Lemma after_stopped r : after r -> stopped r.
Proof. destruct r as [|c r]; cbn; auto. intros [->|[->|[->|[-> _]]]]; reflexivity. Qed.

Lemma lex_against a c x y : lexeme a = true -> stop_char c = true -> (a ++ x)%string <> String c y.
Proof. intros H Hc E. apply lexeme_head in H. destruct H as (d & t & -> & Hd). cbn in E. injection E as -> _. congruence. Qed.
Lemma brackets_cases s : brackets_text s = true -> s = "()" \/ s = "{}" \/ s = "[]".
Proof. unfold brackets_text. intro H. repeat (apply orb_prop in H; destruct H as [H|H]); apply String.eqb_eq in H; auto. Qed.

(** ** Reading a format *)
(** The format of the entries: where the text behind the opening bracket ends and how it is
    divided into entries is determined by the text, if this holds for each entry. *)
Definition splits (w : list string -> string) : Prop :=
  forall A (R : A -> A -> Prop) (tx : A -> outcome string) (l m : list A) ls ms r1 r2,
  nonnil l = true -> nonnil m = true -> all_ret (map tx l) = Ret ls -> all_ret (map tx m) = Ret ms ->
  (forall x y s t u v, In x l -> In y m -> tx x = Ret s -> tx y = Ret t -> after u -> after v ->
     (s ++ u = t ++ v)%string -> R x y /\ u = v) ->
  (w ls ++ r1 = w ms ++ r2)%string -> Forall2 R l m /\ r1 = r2.

Section Format.
Variable f : dbg -> outcome string.
Variables ws wt wl : list string -> string.
Let field (g : string * dbg) := do s <- f (snd g) ;; Ret (fst g ++ ": " ++ s)%string.
Hypothesis f_text : forall s, f (DText s) = Ret s.
Hypothesis f_struct : forall n x fs, f (DStruct n (x :: fs)) = do l <- all_ret (map field (x :: fs)) ;; Ret (n ++ String " " (String "{" (ws l)))%string.
Hypothesis f_tuple : forall n x fs, f (DTuple n (x :: fs)) = do l <- all_ret (map f (x :: fs)) ;; Ret (n ++ String "(" (wt l))%string.
Hypothesis f_nil : f (DList []) = Ret "[]".
Hypothesis f_list : forall x l, f (DList (x :: l)) = do l <- all_ret (map f (x :: l)) ;; Ret (String "[" (wl l)).
Hypothesis f_prefix : forall s d, f (DPrefix s d) = do t <- f d ;; Ret (s ++ t)%string.
Hypothesis s_struct : splits ws.
Hypothesis s_tuple : splits wt.
Hypothesis s_list : splits wl.
Hypothesis w_head : forall c s l, c <> "]"%char -> exists d r, wl (String c s :: l) = String d r /\ d <> "]"%char.

(** How the text of a readable description begins. *)
Inductive view : dbg -> string -> Prop :=
| v_text s : lexeme s = true -> view (DText s) s
| v_brackets s : brackets_text s = true -> view (DText s) s
| v_struct n fs l : lexeme n = true -> nonnil fs = true ->
    forallb (fun f => lexeme (fst f ++ ":")%string && readable (snd f)) fs = true ->
    all_ret (map field fs) = Ret l -> view (DStruct n fs) (n ++ String " " (String "{" (ws l)))
| v_tuple n fs l : lexeme n = true -> nonnil fs = true -> forallb readable fs = true ->
    all_ret (map f fs) = Ret l -> view (DTuple n fs) (n ++ String "(" (wt l))
| v_list l s : forallb readable l = true -> f (DList l) = Ret s -> view (DList l) s
| v_prefix l s : forallb readable l = true -> f (DList l) = Ret s ->
    view (DPrefix "TokenStream " (DList l)) ("TokenStream" ++ String " " s).
Lemma viewed d s : readable d = true -> f d = Ret s -> view d s.
Proof.
  destruct d as [t|n fs|n fs|l|p d|]; cbn [readable]; intros R H.
  - rewrite f_text in H. injection H as <-. apply orb_prop in R. destruct R; [apply v_text|apply v_brackets]; auto.
  - apply andb_prop in R. destruct R as [R R3]. apply andb_prop in R. destruct R as [R1 R2]. destruct fs as [|x fs]; [discriminate|].
    rewrite f_struct in H. destruct (all_ret (map field (x :: fs))) eqn:E; try discriminate. injection H as <-. apply v_struct; auto.
  - apply andb_prop in R. destruct R as [R R3]. apply andb_prop in R. destruct R as [R1 R2]. destruct fs as [|x fs]; [discriminate|].
    rewrite f_tuple in H. destruct (all_ret (map f (x :: fs))) eqn:E; try discriminate. injection H as <-. apply v_tuple; auto.
  - apply v_list; auto.
  - apply andb_prop in R. destruct R as [R1 R2]. apply String.eqb_eq in R1. subst p. destruct d as [| | |l| |]; try discriminate.
    rewrite f_prefix in H. destruct (f (DList l)) eqn:E; try discriminate. injection H as <-.
    change ("TokenStream " ++ a)%string with ("TokenStream" ++ String " " a)%string. apply v_prefix; auto.
  - discriminate.
Qed.
Lemma list_head l s : f (DList l) = Ret s -> exists t, s = String "[" t.
Proof.
  destruct l as [|x l]; [rewrite f_nil|rewrite f_list]; intro H; [injection H as <-; eauto|].
  destruct (all_ret (map f (x :: l))); try discriminate. injection H as <-. eauto.
Qed.
Lemma view_head d s : view d s -> exists c r, s = String c r /\ c <> "]"%char.
Proof.
  intro V. destruct V as [s H|s H|n fs l H _ _ _|n fs l H _ _ _|l s _ H|l s _ _]; cbn [append].
  1, 3, 4: apply lexeme_head in H; destruct H as (c & t & -> & Hc); cbn [append]; do 2 eexists; split; [reflexivity|intros ->; discriminate].
  1: apply brackets_cases in H; destruct H as [->|[->| ->]].
  4: apply list_head in H; destruct H as [t ->].
  all: do 2 eexists; split; [reflexivity|discriminate].
Qed.
Lemma field_entry x y s t u v : lexeme (fst x ++ ":")%string = true -> lexeme (fst y ++ ":")%string = true ->
  (forall s t, f (snd x) = Ret s -> f (snd y) = Ret t -> (s ++ u = t ++ v)%string -> like (snd x) (snd y) /\ u = v) ->
  field x = Ret s -> field y = Ret t -> (s ++ u = t ++ v)%string -> (fst x = fst y /\ like (snd x) (snd y)) /\ u = v.
Proof.
  unfold field. intros Lx Ly IH Hx Hy E. destruct (f (snd x)) as [a| |] eqn:Ex; try discriminate. destruct (f (snd y)) as [b| |] eqn:Ey; try discriminate.
  injection Hx as <-. injection Hy as <-.
  assert (F : ((fst x ++ ":") ++ String " " (a ++ u) = (fst y ++ ":") ++ String " " (b ++ v))%string) by (rewrite !sapp_assoc in *; exact E).
  apply lexeme_split in F; auto; try reflexivity. destruct F as [E1 E2].
  apply append_quote_inj in E1; [|reflexivity]. cbn in E2. injection E2 as E2. destruct (IH a b eq_refl eq_refl E2). auto.
Qed.
Lemma nil_text l s r1 r2 : forallb readable l = true -> f (DList l) = Ret s -> (s ++ r1 = "[]" ++ r2)%string -> l = [] /\ r1 = r2.
Proof.
  intros R H E. destruct l as [|x l]; [rewrite f_nil in H; injection H as <-; cbn in E; injection E; auto|]. exfalso.
  rewrite f_list in H. cbn [map all_ret] in H. destruct (f x) as [a| |] eqn:Ex; try discriminate. cbn [bind] in H.
  destruct (all_ret (map f l)); try discriminate. cbn [bind] in H. injection H as <-. cbn in R. apply andb_prop in R. destruct R as [R _].
  destruct (view_head x a (viewed x a R Ex)) as (c & t & -> & Hc). destruct (w_head c t a0 Hc) as (d & r & W & Hd). rewrite W in E. cbn in E.
  injection E as E _. congruence.
Qed.
Definition decodes (d : dbg) : Prop := forall e s t r1 r2,
  readable d = true -> readable e = true -> f d = Ret s -> f e = Ret t -> after r1 -> after r2 ->
  (s ++ r1 = t ++ r2)%string -> like d e /\ r1 = r2.
Lemma list_decodes l m s t r1 r2 : (forall x, In x l -> decodes x) -> forallb readable l = true -> forallb readable m = true ->
  f (DList l) = Ret s -> f (DList m) = Ret t -> (s ++ r1 = t ++ r2)%string -> Forall2 like l m /\ r1 = r2.
Proof.
  intros IH Rl Rm Hs Ht E. destruct m as [|y m].
  - rewrite f_nil in Ht. injection Ht as <-. destruct (nil_text l s r1 r2 Rl Hs E). subst. auto.
  - destruct l as [|x l].
    + rewrite f_nil in Hs. injection Hs as <-. symmetry in E. destruct (nil_text _ t r2 r1 Rm Ht E). discriminate.
    + rewrite f_list in Hs, Ht. destruct (all_ret (map f (x :: l))) as [ls| |] eqn:E1; try discriminate. destruct (all_ret (map f (y :: m))) as [ms| |] eqn:E2; try discriminate.
      injection Hs as <-. injection Ht as <-. cbn in E. injection E as E. apply (s_list dbg like f (x :: l) (y :: m) ls ms); auto.
      intros a b s t u v Ha Hb Fa Fb Au Av Eab. rewrite forallb_forall in Rl, Rm. apply (IH a Ha b s t); auto.
Qed.
Ltac stops := first [assumption | reflexivity].
Ltac lex_case E := first
  [ apply lexeme_split in E; [|assumption|assumption|cbn; stops|cbn; stops]
  | exfalso; revert E; apply lex_against; [assumption|reflexivity]
  | exfalso; symmetry in E; revert E; apply lex_against; [assumption|reflexivity] ].
Lemma after_not r s : after r -> r = s -> match s with String " " (String "}" _) | EmptyString | String "," _ | String ")" _ | String "]" _ => True | _ => False end.
Proof. intros A <-. destruct r as [|c r]; auto. cbn in A. destruct A as [->|[->|[->|[-> [r' ->]]]]]; exact I. Qed.
Ltac conflict E A1 A2 := solve
  [ exfalso; lex_case E
  | exfalso; lex_case E; destruct E as [_ E]; first [discriminate E | apply (after_not _ _ A1) in E; destruct E | symmetry in E; apply (after_not _ _ A2) in E; destruct E]
  | discriminate E ].
Lemma stream_lexeme : lexeme "TokenStream" = true.
Proof. reflexivity. Qed.
Lemma like_nil l : Forall2 like [] l -> l = [].
Proof. inversion 1. auto. Qed.
Lemma decode d : decodes d.
Proof.
  pose proof stream_lexeme as LT.
  induction d as [s0|n fs IH|n fs IH|l IH|s0 d IH|] using dbg_rect'; intros e s t r1 r2 Rd Re Hs Ht A1 A2 E;
    pose proof (viewed _ _ Rd Hs) as V; pose proof (viewed _ _ Re Ht) as W; pose proof (after_stopped _ A1) as S1; pose proof (after_stopped _ A2) as S2.
  - clear Hs Ht Rd Re. inversion V as [? L|? B| | | |]; subst; clear V.
    + inversion W as [? L2|? B|? ? ? L2|? ? ? L2|? ? _ H|? ? _ H]; subst; clear W; rewrite ?sapp_assoc in E.
      * lex_case E. destruct E as [-> ->]. split; auto using like_text.
      * apply brackets_cases in B. destruct B as [->|[->| ->]]; conflict E A1 A2.
      * conflict E A1 A2.
      * conflict E A1 A2.
      * apply list_head in H. destruct H as [t' ->]. conflict E A1 A2.
      * apply list_head in H. destruct H as [t' ->]. conflict E A1 A2.
    + apply brackets_cases in B.
      inversion W as [? L2|? B2|? ? ? L2|? ? ? L2|? ? R H|? ? _ H]; subst; clear W; rewrite ?sapp_assoc in E.
      * destruct B as [->|[->| ->]]; conflict E A1 A2.
      * apply brackets_cases in B2. destruct B as [->|[->| ->]], B2 as [->|[->| ->]]; cbn in E; try discriminate E; injection E as E; split; auto using like_text.
      * destruct B as [->|[->| ->]]; conflict E A1 A2.
      * destruct B as [->|[->| ->]]; conflict E A1 A2.
      * destruct B as [->|[->| ->]].
        -- apply list_head in H. destruct H as [t' ->]. conflict E A1 A2.
        -- apply list_head in H. destruct H as [t' ->]. conflict E A1 A2.
        -- symmetry in E. destruct (nil_text _ _ _ _ R H E). subst. split; auto using like_left.
      * destruct B as [->|[->| ->]]; conflict E A1 A2.
  - clear Hs Ht Rd Re. inversion V as [ | |? ? ls L N R F| | |]; subst; clear V.
    inversion W as [? L2|? B|? ? ? L2 N2 R2 F2|? ? ? L2|? ? _ H|? ? _ H]; subst; clear W; rewrite ?sapp_assoc in E.
    + conflict E A1 A2.
    + apply brackets_cases in B. destruct B as [->|[->| ->]]; conflict E A1 A2.
    + lex_case E. destruct E as [-> E]. cbn in E. injection E as E.
      destruct (s_struct _ (fun f g => fst f = fst g /\ like (snd f) (snd g)) field fs fs0 ls l r1 r2) as [G ->]; auto.
      * intros x y a b u v Hx Hy Fx Fy Au Av Exy. rewrite forallb_forall in R, R2. pose proof (R x Hx) as Rx. pose proof (R2 y Hy) as Ry.
        apply andb_prop in Rx. destruct Rx as [Rx1 Rx2]. apply andb_prop in Ry. destruct Ry as [Ry1 Ry2].
        apply (field_entry x y a b u v); auto. intros a' b' Ea Eb Eab. apply (IH x Hx (snd y) a' b' u v); auto.
      * split; auto. apply like_struct, G.
    + conflict E A1 A2.
    + apply list_head in H. destruct H as [t' ->]. conflict E A1 A2.
    + apply list_head in H. destruct H as [t' ->]. conflict E A1 A2.
  - clear Hs Ht Rd Re. inversion V as [ | | |? ? ls L N R F| |]; subst; clear V.
    inversion W as [? L2|? B|? ? ? L2|? ? ? L2 N2 R2 F2|? ? _ H|? ? _ H]; subst; clear W; rewrite ?sapp_assoc in E.
    + conflict E A1 A2.
    + apply brackets_cases in B. destruct B as [->|[->| ->]]; conflict E A1 A2.
    + conflict E A1 A2.
    + lex_case E. destruct E as [-> E]. cbn in E. injection E as E.
      destruct (s_tuple _ like f fs fs0 ls l r1 r2) as [G ->]; auto.
      * intros x y a b u v Hx Hy Fx Fy Au Av Exy. rewrite forallb_forall in R, R2. apply (IH x Hx y a b u v); auto.
      * split; auto. apply like_tuple, G.
    + apply list_head in H. destruct H as [t' ->]. conflict E A1 A2.
    + apply list_head in H. destruct H as [t' ->]. conflict E A1 A2.
  - inversion V as [ | | | |? ? R H0|]; subst; clear V.
    inversion W as [? L2|? B|? ? ? L2|? ? ? L2|? ? R2 H|? ? _ H]; subst; clear W; rewrite ?sapp_assoc in E.
    + apply list_head in H0. destruct H0 as [t' ->]. conflict E A1 A2.
    + apply brackets_cases in B. destruct B as [->|[->| ->]].
      * apply list_head in H0. destruct H0 as [t' ->]. conflict E A1 A2.
      * apply list_head in H0. destruct H0 as [t' ->]. conflict E A1 A2.
      * destruct (nil_text _ _ _ _ R H0 E). subst. split; auto using like_right.
    + apply list_head in H0. destruct H0 as [t' ->]. conflict E A1 A2.
    + apply list_head in H0. destruct H0 as [t' ->]. conflict E A1 A2.
    + destruct (list_decodes l l0 s t r1 r2 IH R R2 H0 H E) as [G ->]. split; auto using like_list.
    + apply list_head in H0. destruct H0 as [t' ->]. conflict E A1 A2.
  - inversion V as [ | | | | |l s' R H0]; subst; clear V.
    inversion W as [? L2|? B|? ? ? L2|? ? ? L2|? ? R2 H|l2 s2 R2 H]; subst; clear W; rewrite ?sapp_assoc in E.
    + apply list_head in H0. destruct H0 as [t' ->]. conflict E A1 A2.
    + apply brackets_cases in B. destruct B as [->|[->| ->]]; conflict E A1 A2.
    + apply list_head in H0. destruct H0 as [t' ->]. conflict E A1 A2.
    + conflict E A1 A2.
    + apply list_head in H. destruct H as [t' ->]. conflict E A1 A2.
    + cbn in E. injection E as E. destruct (IH (DList l2) s' s2 r1 r2 R R2 H0 H A1 A2 E). split; auto using like_prefix.
  - discriminate.
Qed.
End Format.

(** *** The plain form *)
Definition plain_entries (pre close : string) (l : list string) : string := (pre ++ concat ", " l ++ close)%string.
Lemma after_comma r : after (String "," r).
Proof. left. reflexivity. Qed.
Lemma concat_cons sep x y l : concat sep (x :: y :: l) = (x ++ sep ++ concat sep (y :: l))%string.
Proof. reflexivity. Qed.
Lemma sapp_inj a b c : (a ++ b = a ++ c)%string -> b = c.
Proof. induction a; cbn; intro H; [auto|injection H; auto]. Qed.
Lemma plain_splits pre close : (forall r, after (close ++ r)) -> (forall r s, (close ++ r)%string <> String "," s) -> splits (plain_entries pre close).
Proof.
  intros Hc Hn A R tx l m ls ms r1 r2 Nl Nm. unfold plain_entries. revert m ls ms Nm. induction l as [|x l IH]; [discriminate|]. clear Nl.
  intros [|y m] ls ms Nm Hl Hm IHx E; [discriminate|]. clear Nm.
  rewrite !sapp_assoc in E. apply sapp_inj in E.
  cbn [map all_ret] in Hl, Hm. destruct (tx x) as [s| |] eqn:Ex; try discriminate. destruct (tx y) as [t| |] eqn:Ey; try discriminate. cbn [bind] in Hl, Hm.
  destruct (all_ret (map tx l)) as [ls'| |] eqn:El; try discriminate. destruct (all_ret (map tx m)) as [ms'| |] eqn:Em; try discriminate.
  cbn [bind] in Hl, Hm. injection Hl as <-. injection Hm as <-.
  destruct l as [|x2 l], m as [|y2 m].
  - cbn in El, Em. injection El as <-. injection Em as <-. cbn [concat] in E.
    destruct (IHx x y s t _ _ (or_introl eq_refl) (or_introl eq_refl) Ex Ey (Hc r1) (Hc r2) E) as [Rxy F]. apply sapp_inj in F. auto.
  - exfalso. cbn in El. injection El as <-. cbn [map all_ret] in Em. destruct (tx y2) eqn:Ey2; try discriminate. cbn [bind] in Em. destruct (all_ret (map tx m)); try discriminate. injection Em as <-.
    rewrite concat_cons, !sapp_assoc in E. cbn [concat] in E.
    destruct (IHx x y s t _ _ (or_introl eq_refl) (or_introl eq_refl) Ex Ey (Hc r1) (after_comma _) E) as [_ F]. apply Hn in F. auto.
  - exfalso. cbn in Em. injection Em as <-. cbn [map all_ret] in El. destruct (tx x2) eqn:Ex2; try discriminate. cbn [bind] in El. destruct (all_ret (map tx l)); try discriminate. injection El as <-.
    rewrite concat_cons, !sapp_assoc in E. cbn [concat] in E.
    destruct (IHx x y s t _ _ (or_introl eq_refl) (or_introl eq_refl) Ex Ey (after_comma _) (Hc r2) E) as [_ F]. symmetry in F. apply Hn in F. auto.
  - destruct ls' as [|s2 ls']; [cbn [map all_ret] in El; destruct (tx x2); try discriminate; cbn [bind] in El; destruct (all_ret (map tx l)); discriminate|].
    destruct ms' as [|t2 ms']; [cbn [map all_ret] in Em; destruct (tx y2); try discriminate; cbn [bind] in Em; destruct (all_ret (map tx m)); discriminate|].
    rewrite !concat_cons, !sapp_assoc in E.
    destruct (IHx x y s t _ _ (or_introl eq_refl) (or_introl eq_refl) Ex Ey (after_comma _) (after_comma _) E) as [Rxy F].
    destruct (IH eq_refl (y2 :: m) (s2 :: ls') (t2 :: ms') eq_refl eq_refl Em) as [G ->].
    + intros a b s' t' u v Ha Hb. apply IHx; right; auto.
    + injection F as F. rewrite !sapp_assoc. f_equal. exact F.
    + auto.
Qed.
Lemma plain_decode d : decodes plain d.
Proof.
  apply (decode plain (plain_entries " " " }") (plain_entries "" ")") (plain_entries "" "]")); auto.
  1-3: apply plain_splits; [intro r; cbn; eauto 6|discriminate].
  intros c s l Hc. unfold plain_entries. destruct l; cbn; eauto.
Qed.

(** *** The alternate form *)
Definition line (s : string) : string := (s ++ "," ++ nl)%string.
Definition pretty_entries (close : string) (l : list string) : string :=
  (nl ++ concat "" (map (fun s => pad true (s ++ "," ++ nl)) l) ++ close)%string.
Fixpoint ending (on : bool) (s : string) : bool :=
  match s with EmptyString => on | String c r => ending (Ascii.eqb c newline) r end.
Lemma pad_app on a b : pad on (a ++ b) = (pad on a ++ pad (ending on a) b)%string.
Proof. revert on. induction a as [|c a IH]; intros on; cbn; auto. rewrite IH. destruct on; reflexivity. Qed.
Lemma ending_app on a b : ending on (a ++ b) = ending (ending on a) b.
Proof. revert on. induction a as [|c a IH]; intros on; cbn; auto. Qed.
Lemma pad_inj a b c d x y : forall on, ending on a = true -> ending on b = true -> c <> " "%char -> d <> " "%char ->
  (pad on a ++ String c x = pad on b ++ String d y)%string -> a = b /\ String c x = String d y.
Proof.
  revert b. induction a as [|e a IH]; intros [|g b] on Ea Eb Hc Hd E; cbn [pad ending append] in *.
  - auto.
  - subst on. cbn in E. injection E as E _. congruence.
  - subst on. cbn in E. injection E as E _. congruence.
  - assert (F : String e (pad (Ascii.eqb e newline) a ++ String c x)%string = String g (pad (Ascii.eqb g newline) b ++ String d y)%string)
      by (destruct on; cbn [append] in E; congruence).
    injection F as -> F. destruct (IH b _ Ea Eb Hc Hd F) as [-> G]. auto.
Qed.
Fixpoint lines (l : list string) : string := match l with [] => "" | s :: r => (s ++ "," ++ nl ++ lines r)%string end.
Lemma concat_empty l : concat "" l = fold_right append EmptyString l.
Proof. induction l as [|x [|y l] IH]; auto; [cbn; rewrite sapp_nil; auto|]. change (concat "" (x :: y :: l)) with (x ++ "" ++ concat "" (y :: l))%string. rewrite IH. reflexivity. Qed.
Lemma pad_lines l : concat "" (map (fun s => pad true (s ++ "," ++ nl)) l) = pad true (lines l).
Proof.
  rewrite concat_empty. induction l as [|s l IH]; [reflexivity|]. cbn [map fold_right lines]. rewrite IH.
  replace (s ++ "," ++ nl ++ lines l)%string with ((s ++ "," ++ nl) ++ lines l)%string by (rewrite !sapp_assoc; reflexivity).
  rewrite (pad_app true (s ++ "," ++ nl)), ending_app. reflexivity.
Qed.
Lemma ending_lines l : ending true (lines l) = true.
Proof. induction l as [|s l IH]; auto. cbn [lines]. rewrite ending_app. cbn. exact IH. Qed.
Lemma pretty_splits c : c <> " "%char -> splits (pretty_entries (String c "")).
Proof.
  intros Hc A R tx l m ls ms r1 r2 _ _ Hl Hm IHx E. unfold pretty_entries in E. rewrite !pad_lines, !sapp_assoc in E. apply sapp_inj in E.
  cbn [append] in E. destruct (pad_inj _ _ _ _ _ _ _ (ending_lines ls) (ending_lines ms) Hc Hc E) as [F G]. injection G as ->. split; auto.
  clear E Hc. revert m ls ms Hl Hm IHx F. induction l as [|x l IH]; intros [|y m] ls ms Hl Hm IHx F; cbn [map all_ret] in Hl, Hm.
  - auto.
  - injection Hl as <-. destruct (tx y) as [t| |]; try discriminate. cbn [bind] in Hm. destruct (all_ret (map tx m)); try discriminate. injection Hm as <-.
    cbn in F. destruct t; discriminate.
  - injection Hm as <-. destruct (tx x) as [t| |]; try discriminate. cbn [bind] in Hl. destruct (all_ret (map tx l)); try discriminate. injection Hl as <-.
    cbn in F. destruct t; discriminate.
  - destruct (tx x) as [s| |] eqn:Ex; try discriminate. destruct (tx y) as [t| |] eqn:Ey; try discriminate. cbn [bind] in Hl, Hm.
    destruct (all_ret (map tx l)) as [ls'| |] eqn:El; try discriminate. destruct (all_ret (map tx m)) as [ms'| |] eqn:Em; try discriminate.
    cbn [bind] in Hl, Hm. injection Hl as <-. injection Hm as <-. cbn [lines] in F.
    destruct (IHx x y s t _ _ (or_introl eq_refl) (or_introl eq_refl) Ex Ey (after_comma _) (after_comma _) F) as [Rxy G].
    constructor; auto. apply (IH m ls' ms'); auto; [|cbn in G; injection G; auto]. intros a b s' t' u v Ha Hb. apply IHx; right; auto.
Qed.
Lemma pretty_decode d : decodes pretty d.
Proof.
  apply (decode pretty (pretty_entries "}") (pretty_entries ")") (pretty_entries "]")); auto.
  1-2: intros n x fs; cbn [pretty]; destruct (all_ret _); auto; cbn [bind]; rewrite !sapp_assoc; reflexivity.
  1-3: apply pretty_splits; discriminate.
  intros c s l Hc. unfold pretty_entries. cbn. do 2 eexists. split; [reflexivity|discriminate].
Qed.
(** Equal texts describe the same up to the ambiguity. *)
Lemma same_plain d e s : readable d = true -> readable e = true -> plain d = Ret s -> plain e = Ret s -> like d e.
Proof. intros Rd Re Hd He. apply (plain_decode d e s s "" ""); cbn; auto. Qed.
Lemma same_pretty d e s : readable d = true -> readable e = true -> pretty d = Ret s -> pretty e = Ret s -> like d e.
Proof. intros Rd Re Hd He. apply (pretty_decode d e s s "" ""); cbn; auto. Qed.

(** C98, C99: how often the parser touches its token iterators. *)
From Verif Require Import Imp PropErase Base Samples.
Local Open Scope string_scope.
Local Open Scope list_scope.

(** ** The number of tokens, with those of all groups inside *)
Fixpoint tok_size (t : tok) : nat :=
  match t with
  | TGroup (mkGroup _ s _) =>
      S ((fix go (l : list tok) : nat := match l with [] => 0 | x :: r => tok_size x + go r end) s)
  | _ => 1
  end.
Fixpoint size (ts : list tok) : nat := match ts with [] => 0 | t :: r => tok_size t + size r end.
(** The tokens inside groups only. *)
Definition inside (t : tok) : nat := match t with TGroup g => size (g_stream g) | _ => 0 end.
Fixpoint nested (ts : list tok) : nat := match ts with [] => 0 | t :: r => inside t + nested r end.

Lemma tok_size_eq t : tok_size t = S (inside t).
Proof. destruct t as [[d s sp]| | |]; reflexivity. Qed.
Lemma size_split ts : size ts = List.length ts + nested ts.
Proof. induction ts as [|t r IH]; [reflexivity|]. cbn [size nested List.length]. rewrite tok_size_eq. lia. Qed.

(** ** Counting *)
Section Lin.
(** [rate]: the price of a token inside a group; [most]: a bound for the size of any stream. *)
Variables rate most : nat.

Definition phi (k : nat) (ts : list tok) : nat := k * List.length ts + rate * nested ts.

(** From [ts], and with [E] tokens of groups already read in store: [m] takes at most [a] steps
    and [k] steps for every token that it reads, [rate] for those in groups.  [P] relates its
    result and the number of tokens left. *)
Definition lin {A} (P : A -> nat -> Prop) (E a k : nat) (m : T A) (ts : list tok) : Prop :=
  size ts + E <= most ->
  let '(o, (c, d)) := m ts in
  d <= c * most /\
  match o with
  | Got (x, ts') => c + phi k ts' <= a + phi k ts + rate * E /\ P x (List.length ts') /\ size ts' <= most
  | _ => c <= a + phi k ts + rate * E
  end.
(** The same for a computation on an iterator that is then dropped. *)
Definition lend {A} (E a k : nat) (m : T A) (ts : list tok) : Prop :=
  size ts + E <= most -> let '(o, (c, d)) := m ts in d <= c * most /\ c <= a + phi k ts + rate * E.

Lemma lin_lend {A} P E a k (m : T A) ts : lin P E a k m ts -> lend E a k m ts.
Proof.
  unfold lin, lend. intros H HM. specialize (H HM). destruct (m ts) as [o [c d]].
  destruct o as [[x ts']| |]; intuition lia.
Qed.
Lemma lin_weak {A} (P P' : A -> nat -> Prop) E E' a a' k (m : T A) ts :
  lin P E a k m ts -> E <= E' -> a <= a' -> (forall x n, P x n -> P' x n) -> lin P' E' a' k m ts.
Proof.
  unfold lin. intros H HE Ha HP HM. specialize (H ltac:(lia)). destruct (m ts) as [o [c d]].
  assert (rate * E <= rate * E') by nia.
  destruct H as [Hcd H]. split; [assumption|]. destruct o as [[x ts']| |]; [|lia|lia].
  destruct H as (H1 & H2 & H3). repeat split; auto; lia.
Qed.
Lemma lin_k {A} (P : A -> nat -> Prop) E a k k' (m : T A) ts :
  lin P E a k m ts -> k <= k' -> (forall x n, P x n -> n <= List.length ts) -> lin P E a k' m ts.
Proof.
  unfold lin, phi. intros H Hk HP HM. specialize (H HM). destruct (m ts) as [o [c d]].
  destruct H as [Hcd H]. split; [assumption|].
  assert (k * List.length ts <= k' * List.length ts) by nia.
  destruct o as [[x ts']| |]; [|lia|lia].
  destruct H as (H1 & H2 & H3). repeat split; auto. specialize (HP _ _ H2). nia.
Qed.

Lemma lin_ret {A} (P : A -> nat -> Prop) E a k (x : A) ts : P x (List.length ts) -> lin P E a k (ret x) ts.
Proof. unfold lin. cbn. intros. repeat split; auto; lia. Qed.
Lemma lin_fail {A} (P : A -> nat -> Prop) E a k p msg ts : lin P E a k (@fail A p msg) ts.
Proof. unfold lin. cbn. intros. repeat split; auto; lia. Qed.
Lemma lin_seq {A B} (Q : A -> nat -> Prop) (P : B -> nat -> Prop) E a1 a2 k (m : T A) (f : A -> T B) ts :
  lin Q E a1 k m ts -> (forall x ts', Q x (List.length ts') -> lin P 0 a2 k (f x) ts') ->
  lin P E (a1 + a2) k (andthen m f) ts.
Proof.
  unfold lin, andthen. intros H Hf HM. specialize (H HM). destruct (m ts) as [o [c d]].
  destruct H as [Hcd H]. destruct o as [[x ts']| |]; [|split; [assumption|lia]..].
  destruct H as (H1 & H2 & H3). specialize (Hf x ts' H2 ltac:(lia)).
  destruct (f x ts') as [o2 [c2 d2]]. destruct Hf as [Hd Hf]. split; [lia|].
  destruct o2 as [[y ts2]| |]; [|lia|lia]. destruct Hf as (? & ? & ?). repeat split; auto; lia.
Qed.
(** A call of a function with the bounds [a1], [k1]. *)
Lemma lin_call {A B} (Q : A -> nat -> Prop) (P : B -> nat -> Prop) E E1 a a1 k k1 (m : T A) (f : A -> T B) ts :
  lin Q E1 a1 k1 m ts -> E1 <= E -> a1 <= a -> k1 <= k -> (forall x n, Q x n -> n <= List.length ts) ->
  (forall x ts', Q x (List.length ts') -> lin P 0 (a - a1) k (f x) ts') ->
  lin P E a k (andthen m f) ts.
Proof.
  intros H HE Ha Hk HQ Hf. replace a with (a1 + (a - a1)) by lia. apply (lin_seq Q); auto.
  eapply lin_k; eauto. eapply lin_weak; eauto.
Qed.
(** The same, with what the function returned. *)
Lemma lin_call_run {A B} (Q : A -> nat -> Prop) (P : B -> nat -> Prop) E E1 a a1 k k1 (m : T A) (f : A -> T B) ts :
  lin Q E1 a1 k1 m ts -> E1 <= E -> a1 <= a -> k1 <= k -> (forall x n, Q x n -> n <= List.length ts) ->
  (forall x ts', run m ts = Ret (x, ts') -> Q x (List.length ts') -> lin P 0 (a - a1) k (f x) ts') ->
  lin P E a k (andthen m f) ts.
Proof.
  intros H HE Ha Hk HQ Hf. assert (G : lin Q E a1 k m ts) by (eapply lin_k; eauto; eapply lin_weak; eauto).
  clear H. revert G Hf. unfold lin, andthen, run. intros H Hf HM. specialize (H HM). destruct (m ts) as [o [c d]].
  destruct H as [Hcd H]. cbn [fst] in Hf. destruct o as [[x ts']| |]; [|split; [assumption|lia]..].
  destruct H as (H1 & H2 & H3). specialize (Hf x ts' eq_refl H2 ltac:(lia)).
  destruct (f x ts') as [o2 [c2 d2]]. destruct Hf as [Hd Hf]. split; [lia|].
  destruct o2 as [[y ts2]| |]; [|lia|lia]. destruct Hf as (? & ? & ?). repeat split; auto; lia.
Qed.
Lemma lin_tail {A} (Q P : A -> nat -> Prop) E E1 a a1 k k1 (m : T A) ts :
  lin Q E1 a1 k1 m ts -> E1 <= E -> a1 <= a -> k1 <= k -> (forall x n, Q x n -> n <= List.length ts) ->
  (forall x n, Q x n -> P x n) -> lin P E a k m ts.
Proof. intros. eapply lin_weak; eauto. eapply lin_k; eauto. Qed.

Lemma lin_assoc {A B C} (P : C -> nat -> Prop) E a k (m : T A) (f : A -> T B) (g : B -> T C) ts :
  lin P E a k (andthen m (fun x => andthen (f x) g)) ts -> lin P E a k (andthen (andthen m f) g) ts.
Proof.
  unfold lin, andthen. intros H HM. specialize (H HM). destruct (m ts) as [o [c d]].
  destruct o as [[x ts1]| |]; auto. destruct (f x ts1) as [o1 [c1 d1]].
  destruct o1 as [[y ts2]| |]; auto. destruct (g y ts2) as [o2 [c2 d2]].
  replace (c + c1 + c2) with (c + (c1 + c2)) by lia. replace (d + d1 + d2) with (d + (d1 + d2)) by lia. assumption.
Qed.
Lemma lin_ret_seq {A B} (P : B -> nat -> Prop) E a k (x : A) (f : A -> T B) ts :
  lin P E a k (f x) ts -> lin P E a k (andthen (ret x) f) ts.
Proof. unfold lin, andthen. cbn. destruct (f x ts) as [o [c d]]. auto. Qed.
Lemma lin_fail_seq {A B} (P : B -> nat -> Prop) E a k p msg (f : A -> T B) ts : lin P E a k (andthen (fail p msg) f) ts.
Proof. unfold lin, andthen. cbn. intros. split; lia. Qed.
Lemma lin_peek {B} (P : B -> nat -> Prop) E a k (f : option tok -> T B) ts :
  1 <= a -> lin P E (a - 1) k (f (hd_error ts)) ts -> lin P E a k (andthen peek f) ts.
Proof.
  unfold lin, andthen. cbn. intros Ha H HM. specialize (H HM). destruct (f (hd_error ts) ts) as [o [c d]].
  destruct o as [[x ts']| |]; intuition lia.
Qed.
Lemma lin_next {B} (P : B -> nat -> Prop) E a k (f : option tok -> T B) t r :
  1 <= a -> lin P (E + inside t) (a - 1) k (f (Some t)) r -> lin P E a k (andthen next f) (t :: r).
Proof.
  unfold lin, andthen. cbn. intros Ha H HM. rewrite tok_size_eq in HM. specialize (H ltac:(lia)).
  destruct (f (Some t) r) as [o [c d]]. unfold phi in *. cbn [nested List.length] in *.
  destruct o as [[x ts']| |]; intuition (try nia).
Qed.
Lemma lin_next_end {B} (P : B -> nat -> Prop) E a k (f : option tok -> T B) :
  1 <= a -> lin P E (a - 1) k (f None) [] -> lin P E a k (andthen next f) [].
Proof.
  unfold lin, andthen. cbn. intros Ha H HM. specialize (H HM). destruct (f None []) as [o [c d]].
  destruct o as [[x ts']| |]; intuition lia.
Qed.
Lemma lin_save {B} (P : B -> nat -> Prop) E a k (f : list tok -> T B) ts :
  1 <= a -> (size ts <= most -> lin P E (a - 1) k (f ts) ts) -> lin P E a k (andthen save f) ts.
Proof.
  unfold lin, andthen. cbn. intros Ha H HM. specialize (H ltac:(lia) HM). destruct (f ts ts) as [o [c d]].
  pose proof (size_split ts).
  destruct o as [[x ts']| |]; intuition lia.
Qed.
Lemma lin_restore {B} (P : B -> nat -> Prop) E a x k saved (f : unit -> T B) ts :
  size saved <= most -> x <= a -> phi k saved <= x + phi k ts + rate * E ->
  lin P 0 (a - x) k (f tt) saved -> lin P E a k (andthen (restore saved) f) ts.
Proof.
  unfold lin, andthen. cbn. intros Hs Ha Hp H HM. specialize (H ltac:(lia)). destruct (f tt saved) as [o [c d]].
  destruct o as [[y ts']| |]; intuition lia.
Qed.
Lemma lend_phi k s : k <= rate -> phi k s <= rate * size s.
Proof. intro H. unfold phi. rewrite size_split. nia. Qed.
(** A computation on the tokens of a group that was just read. *)
Lemma lin_on {A B} (P : B -> nat -> Prop) E a a1 k k1 s (m : T A) (f : A -> T B) ts :
  lend 0 a1 k1 m s -> k1 <= rate -> a1 <= a -> size s <= E ->
  (forall x, lin P 0 (a - a1) k (f x) ts) -> lin P E a k (andthen (on s m) f) ts.
Proof.
  unfold lin, lend, andthen, on. intros H Hk Ha HE Hf HM. specialize (H ltac:(lia)).
  destruct (m s) as [o [c d]]. destruct H as [Hd Hc].
  assert (rate * size s <= rate * E) by nia. pose proof (lend_phi k1 s Hk).
  destruct o as [[x s']| |]; [|split; [assumption|lia]..].
  specialize (Hf x ltac:(lia)). destruct (f x ts) as [o2 [c2 d2]]. destruct Hf as [Hf0 Hf]. split; [lia|].
  destruct o2 as [[y ts']| |]; intuition lia.
Qed.
Lemma lin_within {A B} (P : B -> nat -> Prop) E a a1 k k1 s (m : T A) (f : A -> T B) ts :
  lend 0 a1 k1 m s -> k1 <= rate -> S a1 <= a -> size s <= E ->
  (forall x, lin P 0 (a - S a1) k (f x) ts) -> lin P E a k (andthen (within s m) f) ts.
Proof.
  intros H Hk Ha HE Hf. unfold within. apply lin_assoc.
  assert (G : lin P E (a - 1) k (andthen (on s m) f) ts).
  { eapply lin_on; eauto; [lia|]. intro x. replace (a - 1 - a1) with (a - S a1) by lia. apply Hf. }
  intros HM. specialize (G HM). unfold andthen at 1. cbn.
  destruct (andthen (on s m) f ts) as [o [c d]]. pose proof (size_split s).
  destruct o as [[x ts']| |]; intuition nia.
Qed.
(** Loops in which every round reads a token. *)
Definition rounds_of {S R} (ts : list tok) (r : S + R) (n : nat) : Prop :=
  match r with inl _ => n < List.length ts | inr _ => n <= List.length ts end.
Lemma lin_rounds {S R} (body : S -> T (S + R)) a k :
  (forall s ts, lin (rounds_of ts) 0 a k (body s) ts) ->
  forall n s ts, lin (fun _ l => l <= List.length ts) 0 a (k + a) (rounds n body s) ts.
Proof.
  intros Hb. induction n as [|n IH]; intros s ts HM.
  { cbn. split; lia. }
  cbn [rounds]. unfold andthen. specialize (Hb s ts HM). destruct (body s ts) as [o [c d]].
  destruct Hb as [Hcd H]. unfold phi in *.
  destruct o as [[[s'|x] ts1]| |]; cbn [rounds_of] in *.
  - destruct H as (H1 & H2 & H3). specialize (IH s' ts1 ltac:(lia)).
    destruct (rounds n body s' ts1) as [o2 [c2 d2]]. destruct IH as [H4 H5]. split; [lia|].
    assert (a * List.length ts1 + a <= a * List.length ts) by nia.
    unfold phi in H5.
    destruct o2 as [[y ts2]| |]; [destruct H5 as (H5 & H6 & H7); repeat split|..]; rewrite ?Nat.mul_add_distr_r in *; lia.
  - destruct H as (H1 & H2 & H3). cbn. rewrite !Nat.mul_add_distr_r.
    assert (a * List.length ts1 <= a * List.length ts) by nia. split; [lia|]. repeat split; lia.
  - rewrite !Nat.mul_add_distr_r. split; [assumption|]. lia.
  - rewrite !Nat.mul_add_distr_r. split; [assumption|]. lia.
Qed.
Lemma lin_loop {S R} (body : S -> T (S + R)) a k s ts :
  (forall s ts, lin (rounds_of ts) 0 a k (body s) ts) ->
  lin (fun _ l => l <= List.length ts) 0 a (k + a) (loop body s) ts.
Proof. intros H. unfold loop. intro HM. apply (lin_rounds body a k H). assumption. Qed.
(** Loops until the end of the tokens: the last round is cheap. *)
Lemma lin_loop_end {X R} (body : X -> T (X + R)) a b k s ts :
  (forall s, lin (fun r n => match r with inl _ => False | inr _ => n = 0 end) 0 b k (body s) []) ->
  (forall s t r, lin (fun x n => match x with inl _ => n < S (List.length r) | inr _ => False end) 0 a k (body s) (t :: r)) ->
  lin (fun _ l => l <= List.length ts) 0 b (k + a) (loop body s) ts.
Proof.
  intros H0 H1. assert (G : forall n s ts, lin (fun _ l => l <= List.length ts) 0 b (k + a) (rounds n body s) ts).
  2:{ unfold loop. intro HM. apply G. assumption. }
  clear s ts. induction n as [|n IH]; intros s ts HM.
  { cbn. split; lia. }
  cbn [rounds]. unfold andthen. destruct ts as [|t r].
  - specialize (H0 s HM). destruct (body s []) as [o [c d]]. destruct H0 as [Hcd H]. unfold phi in *. cbn [List.length nested] in *.
    destruct o as [[[s'|x] ts1]| |]; [|destruct H as (H2 & H4 & H3)|..].
    + destruct H as (_ & [] & _).
    + cbn. rewrite H4, Nat.mul_0_r in *. split; [lia|]. repeat split; lia.
    + split; [assumption|lia].
    + split; [assumption|lia].
  - specialize (H1 s t r HM). destruct (body s (t :: r)) as [o [c d]]. destruct H1 as [Hcd H]. unfold phi in *.
    remember (t :: r) as ts eqn:Ets. assert (Hl : List.length ts = S (List.length r)) by (subst; reflexivity).
    destruct o as [[[s'|x] ts1]| |]; [|destruct H as (_ & [] & _)|..].
    + destruct H as (H2 & H3 & H4). specialize (IH s' ts1 ltac:(lia)).
      destruct (rounds n body s' ts1) as [o2 [c2 d2]]. destruct IH as [H5 H6]. unfold phi in H6. split; [lia|].
      assert (a * List.length ts1 + a <= a * List.length ts) by nia.
      destruct o2 as [[y ts2]| |]; [destruct H6 as (H6 & H7 & H8); repeat split|..]; rewrite ?Nat.mul_add_distr_r in *; lia.
    + split; [assumption|]. assert (a <= a * List.length ts) by nia. rewrite ?Nat.mul_add_distr_r. lia.
    + split; [assumption|]. assert (a <= a * List.length ts) by nia. rewrite ?Nat.mul_add_distr_r. lia.
Qed.
Lemma lin_collect {A} (Q : A -> nat -> Prop) E a k (f : list tok -> T A) ts :
  1 <= k -> 1 <= a -> (lin Q 0 (a - 1) k (f ts) []) -> lin Q E a k (andthen collect f) ts.
Proof.
  unfold lin, andthen. intros Hk Ha H HM. cbn in *. specialize (H ltac:(lia)).
  destruct (f ts []) as [o [c d]]. unfold phi in *. cbn [nested List.length] in *.
  destruct o as [[x ts']| |]; intuition nia.
Qed.
End Lin.

Section Functions.
Variables rate most : nat.
Hypothesis Hrate : 165 <= rate.
Local Notation lin := (lin rate most).
Local Notation lend := (lend rate most).

Definition upto {A} (ts : list tok) (_ : A) (n : nat) : Prop := n <= List.length ts.
Definition below {A} (ts : list tok) (_ : A) (n : nat) : Prop := n < List.length ts.
Definition maybe {A} (ts : list tok) (x : option A) (n : nat) : Prop :=
  match x with Some _ => n < List.length ts | None => n <= List.length ts end.

Ltac arith :=
  repeat match goal with x : option _ |- _ => destruct x | x : _ + _ |- _ => destruct x | x : result _ _ |- _ => destruct x end;
  unfold upto, below, maybe, rounds_of in *; cbn [List.length Nat.sub] in *; rewrite ?app_length in *; cbn [List.length Nat.sub] in *;
  try solve [intuition lia].
Ltac open ts := try (is_var ts; destruct ts as [|? ?]); cbn [hd_error].
Ltac simple_term x := match x with context [match _ with _ => _ end] => fail 1 | _ => idtac end.
Ltac step :=
  match goal with
  | |- lin _ _ _ _ (andthen peek _) ?ts => apply lin_peek; [lia|]; open ts; cbn [Nat.sub]
  | |- lin _ _ _ _ (andthen next _) (_ :: _) => apply lin_next; [lia|]; cbn [Nat.sub]
  | |- lin _ _ _ _ (andthen next _) [] => apply lin_next_end; [lia|]; cbn [Nat.sub]
  | |- lin _ _ _ _ (andthen next _) ?ts => is_var ts; destruct ts as [|? ?]
  | |- lin _ _ _ _ (andthen save _) _ => apply lin_save; [lia|intro]; cbn [Nat.sub]
  | |- lin _ _ _ _ (andthen (ret _) _) _ => apply lin_ret_seq
  | |- lin _ _ _ _ (andthen (fail _ _) _) _ => apply lin_fail_seq
  | |- lin _ _ _ _ (andthen (andthen _ _) _) _ => apply lin_assoc
  | |- lin _ _ _ _ (andthen collect _) _ => apply lin_collect; [lia|lia|]; cbn [Nat.sub]
  | |- lin _ _ _ _ (andthen (match ?x with _ => _ end) _) _ => simple_term x; destruct x
  | |- lin _ _ _ _ (match ?x with _ => _ end) _ => simple_term x; destruct x
  | |- lin _ _ _ _ (ret _) _ => apply lin_ret; solve [arith]
  | |- lin _ _ _ _ (fail _ _) _ => apply lin_fail
  | |- lin _ _ _ _ (andthen (within ?s _) _) _ =>
      eapply lin_within; [solve [eauto with lin | eapply lin_lend; eauto with lin] | lia | lia | solve [cbn [inside]; lia] | intro]; cbn [Nat.sub]
  | |- lin _ _ _ _ (andthen (on ?s _) _) _ =>
      eapply lin_on; [solve [eauto with lin | eapply lin_lend; eauto with lin] | lia | lia | solve [cbn [inside]; lia] | intro]; cbn [Nat.sub]
  | |- lin _ _ _ _ (andthen _ _) _ =>
      eapply lin_call; [solve [eauto with lin] | solve [cbn [inside]; lia] | lia | lia | solve [intros; arith] | intros ? ? ?; cbn [Nat.sub]]
  | |- lin _ _ _ _ _ _ =>
      eapply lin_tail; [solve [eauto with lin] | solve [cbn [inside]; lia] | lia | lia | solve [intros; arith] | solve [intros; arith]]
  end.
Ltac steps := repeat step.

Lemma l_parse_any_ident c ts : lin (below ts) 0 1 0 (i_parse_any_ident c) ts.
Proof. unfold i_parse_any_ident. steps. Qed.
Lemma l_parse_ident x c ts : lin (below ts) 0 1 0 (i_parse_ident x c) ts.
Proof. unfold i_parse_ident. steps. Qed.
Lemma l_consume_any_ident ts : lin (maybe ts) 0 2 0 i_consume_any_ident ts.
Proof. unfold i_consume_any_ident. steps. Qed.
Lemma l_consume_ident x ts : lin (maybe ts) 0 2 0 (i_consume_ident x) ts.
Proof. unfold i_consume_ident. steps. Qed.
Lemma l_parse_punct x c ts : lin (below ts) 0 1 0 (i_parse_punct x c) ts.
Proof. unfold i_parse_punct. steps. Qed.
Lemma l_consume_punct x ts : lin (maybe ts) 0 2 0 (i_consume_punct x) ts.
Proof. unfold i_consume_punct. steps. Qed.
Lemma l_consume_comma ts : lin (maybe ts) 0 2 0 i_consume_comma ts.
Proof. apply l_consume_punct. Qed.
Lemma l_item_name ts : lin (below ts) 0 1 0 i_item_name ts.
Proof. apply l_parse_any_ident. Qed.
Hint Resolve l_parse_any_ident l_parse_ident l_consume_any_ident l_consume_ident l_parse_punct l_consume_punct
  l_consume_comma l_item_name : lin.

Lemma l_attribute_path ts : lin (upto ts) 0 2 2 i_attribute_path ts.
Proof. apply (lin_loop _ _ _ 2 0). intros s q. steps. Qed.
Hint Resolve l_attribute_path : lin.
Lemma lend_attribute ts : lend 0 5 2 (p <~ i_attribute_path ;; v <~ i_attribute_value ;; ret (p, v)) ts.
Proof.
  intro HM. assert (H := l_attribute_path ts HM). unfold andthen at 1.
  destruct (i_attribute_path ts) as [o [c d]]. destruct H as [Hcd H].
  destruct o as [[path q]| |]; [|split; lia..]. destruct H as (H1 & H2 & H3).
  unfold andthen, i_attribute_value, peek, next, collect, within, on, copied, ret, phi in *. cbn [fst snd].
  destruct q as [|[g|i|p|l] r]; cbn; try (split; lia).
  - pose proof (size_split (g_stream g)). cbn [size] in H3. rewrite tok_size_eq in H3. cbn [inside] in H3.
    cbn [nested inside] in H1. split; nia.
  - unfold andthen. destruct (p_is "=" p); cbn; [|split; lia]. cbn [List.length] in H1. split; lia.
Qed.
Lemma l_attribute hash bang g ts : lin (upto ts) (size (g_stream g)) 6 0 (i_attribute hash bang g) ts.
Proof. unfold i_attribute. eapply lin_within; [apply lend_attribute|lia|lia|lia|]. intro. steps. Qed.
Hint Resolve l_attribute : lin.
Lemma l_attributes inner ts : lin (upto ts) 0 12 12 (i_attributes inner) ts.
Proof.
  apply (lin_loop _ _ _ 12 0). intros s q. steps.
  apply (lin_restore _ _ _ _ _ 0); [assumption|lia|unfold phi; cbn; lia|]. steps.
Qed.
Lemma l_vis ts : lin (upto ts) 0 4 0 i_vis_marker ts.
Proof. unfold i_vis_marker. steps. Qed.
Hint Resolve l_attributes l_vis : lin.

(** The length of a run counts. *)
Definition taken (ts : list tok) (out : list tok) (n : nat) : Prop := n + List.length out <= List.length ts.
Lemma l_stuff P must ts : lin (taken ts) 0 3 2 (i_stuff_until P must) ts.
Proof.
  unfold i_stuff_until.
  assert (H : lin (upto ts) 0 2 2 (loop (fun '(out, count, dash) =>
      t <~ peek ;;
      let go (count : Z) (dash : bool) :=
        if Z.ltb count 0 then ret (inr (out, false))
        else u <~ next ;; match u with Some u => ret (inl (out ++ [u], count, dash)) | None => fail PUnreachable unwrap_none end in
      match t with
      | None => ret (inr (out, false))
      | Some t =>
          if is_punct "<" t then go (count + 1)%Z false
          else if is_punct ">" t && negb dash then go (count - 1)%Z false
          else if is_punct "-" t then go count true
          else if P t && Z.eqb count 0 then ret (inr (out, true))
          else go count false
      end) ([], 0%Z, false)) ts).
  { apply (lin_loop _ _ _ 2 0). intros [[out count] dash] q. steps. }
  intro HM. assert (R := e_stuff P must ts). unfold run in R. unfold i_stuff_until in R.
  match goal with |- match ?m ts with _ => _ end => set (mm := m) in * end.
  assert (G : lin (upto ts) 0 3 2 mm ts).
  { unfold mm. eapply lin_call; [exact H|lia..| |]; [intros; arith|]. intros [out met] q Hq. cbn [Nat.sub]. steps. }
  specialize (G HM). destruct (mm ts) as [o [c d]]. cbn [fst] in R. destruct G as [G1 G2]. split; [assumption|].
  destruct o as [[out q]| |]; auto. destruct G2 as (G2 & G3 & G4). repeat split; auto.
  symmetry in R. unfold consume_stuff_until in R. destruct (stuff_loop P 0 false ts) as [[out' met] rest] eqn:E.
  apply stuff_loop_sound in E; [|lia]. destruct E as [-> _].
  unfold taken. rewrite app_length.
  destruct (must && negb met); [|injection R as -> ->; lia].
  destruct rest as [|[]]; try discriminate. destruct (p_is _ _); discriminate.
Qed.
Hint Resolve l_stuff : lin.
Ltac arith ::=
  repeat match goal with x : option _ |- _ => destruct x | x : _ + _ |- _ => destruct x | x : result _ _ |- _ => destruct x end;
  unfold upto, below, maybe, rounds_of, taken in *; cbn [List.length Nat.sub] in *; rewrite ?app_length in *; cbn [List.length Nat.sub] in *;
  try solve [intuition lia].
Lemma l_colon2 ts : lin (maybe ts) 0 3 0 i_colon2 ts.
Proof.
  unfold i_colon2. steps; (apply (lin_restore _ _ _ _ _ 0); [assumption|lia|unfold phi; cbn; lia|]); steps.
Qed.
Hint Resolve l_colon2 : lin.
Lemma l_bound P ts : lin (upto ts) 0 5 2 (i_bound P) ts.
Proof. unfold i_bound. steps. Qed.
Hint Resolve l_bound : lin.
Lemma l_generic_params ts : lin (upto ts) 0 13 12 i_generic_params ts.
Proof.
  unfold i_generic_params. step. step; [|steps].
  match goal with |- lin _ _ _ _ (andthen (loop ?b _) _) ?q => 
    eapply (lin_call _ _ (upto q) _ _ 0 _ 10 _ 12); [apply (lin_loop _ _ b 10 2); intros acc q0 |lia..| |] end; [|intros; arith|intros].
  - steps.
  - cbn [Nat.sub]. steps.
Qed.
Hint Resolve l_generic_params : lin.
Lemma l_lifetime e ts : lin (maybe ts) 0 4 0 (i_lifetime e) ts.
Proof. unfold i_lifetime. steps. Qed.
Hint Resolve l_lifetime : lin.
Lemma l_where_clause ts : lin (upto ts) 0 12 12 i_where_clause ts.
Proof.
  unfold i_where_clause. step. step; [|steps].
  match goal with |- lin _ _ _ _ (andthen (loop ?b _) _) ?q => 
    eapply (lin_call _ _ (upto q) _ _ 0 _ 10 _ 12); [apply (lin_loop _ _ b 10 2); intros acc q0 |lia..| |] end; [|intros; arith|intros].
  - steps.
  - cbn [Nat.sub]. steps.
Qed.
Lemma l_field_type ts : lin (below ts) 0 5 2 i_field_type ts.
Proof. unfold i_field_type. steps. Qed.
Hint Resolve l_where_clause l_field_type : lin.

Lemma l_enum_discriminant ts : lin (upto ts) 0 4 0 i_enum_discriminant ts.
Proof. unfold i_enum_discriminant. steps. Qed.
Hint Resolve l_enum_discriminant : lin.
Lemma l_tuple_fields g ts : lin (upto ts) (size (g_stream g)) 25 0 (i_tuple_fields g) ts.
Proof.
  unfold i_tuple_fields. eapply (lin_within _ _ _ _ _ 24 _ 36); [|lia|lia|lia|].
  - eapply lin_lend. apply (lin_loop _ _ _ 24 12). intros acc q. steps.
  - intro. steps.
Qed.
Lemma l_named_fields g ts : lin (upto ts) (size (g_stream g)) 27 0 (i_named_fields g) ts.
Proof.
  unfold i_named_fields. eapply (lin_within _ _ _ _ _ 26 _ 38); [|lia|lia|lia|].
  - eapply lin_lend. apply (lin_loop _ _ _ 26 12). intros acc q. steps.
  - intro. steps.
Qed.
Hint Resolve l_tuple_fields l_named_fields : lin.
Lemma l_enum_variants ts : lin (upto ts) 0 53 65 i_enum_variants ts.
Proof. apply (lin_loop _ _ _ 53 12). intros acc q. steps. Qed.
Hint Resolve l_enum_variants : lin.

Lemma l_fn_qualifiers ts : lin (upto ts) 0 12 0 i_fn_qualifiers ts.
Proof. unfold i_fn_qualifiers. steps. Qed.
Hint Resolve l_fn_qualifiers : lin.
Lemma l_fn_params ts : lin (upto ts) 0 32 44 i_fn_params ts.
Proof. apply (lin_loop _ _ _ 32 12). intros acc q. steps. Qed.
Lemma l_fn_return ts : lin (upto ts) 0 6 2 i_fn_return ts.
Proof. unfold i_fn_return. steps. Qed.
Hint Resolve l_fn_params l_fn_return : lin.

Lemma consume_ident_nested x ts o q : consume_ident x ts = (o, q) -> nested q = nested ts.
Proof.
  unfold consume_ident. destruct ts as [|[|i| |] r]; intro H; try (injection H as <- <-; reflexivity).
  destruct (id_is x i); injection H as <- <-; reflexivity.
Qed.
Lemma qualifiers_nested ts q0 q : consume_fn_qualifiers ts = (q0, q) -> nested q = nested ts.
Proof.
  unfold consume_fn_qualifiers.
  destruct (consume_ident "default" ts) as [o1 t1] eqn:E1. destruct (consume_ident "const" t1) as [o2 t2] eqn:E2.
  destruct (consume_ident "async" t2) as [o3 t3] eqn:E3. destruct (consume_ident "unsafe" t3) as [o4 t4] eqn:E4.
  destruct (consume_ident "extern" t4) as [[e|] t5] eqn:E5; apply consume_ident_nested in E1, E2, E3, E4, E5.
  - unfold consume_literal. destruct t5 as [|[] t6]; intro H; injection H as <- <-; cbn [nested inside] in *; lia.
  - intro H. injection H as <- <-. lia.
Qed.
Definition fn_or_not {A} {B} (ts : list tok) (x : result A B) (n : nat) : Prop :=
  match x with Ok _ => n < List.length ts | Err _ => n <= List.length ts end.
Lemma l_fn_head ts : lin (fun x n => fn_or_not ts (snd x) n) 0 14 0 i_fn_head ts.
Proof.
  unfold i_fn_head. step. eapply lin_call_run; [apply l_fn_qualifiers|lia|lia|lia|intros; arith|].
  intros q0 q Hq Hl. cbn [Nat.sub]. rewrite e_fn_qualifiers in Hq. injection Hq as Hq. apply qualifiers_nested in Hq.
  unfold upto in Hl. unfold fn_or_not.
  assert (R : forall E a nf t, inside t + nested (tl q) <= E + nested (tl q) -> nested q = inside t + nested (tl q) ->
    lin (fun x n => fn_or_not ts (snd x) n) E a 0 (restore ts ;;> andthen (ret (@Err ident not_function nf)) (fun kw => ret (q0, kw))) (tl q)).
  { intros E a nf t H1 H2. apply (lin_restore _ _ _ _ _ 0); [assumption|lia| |apply lin_ret_seq, lin_ret; cbn; lia].
    unfold phi. nia. }
  step; [steps|]. cbn [tl nested] in R. step.
  match goal with |- context [match ?t with TGroup _ => _ | _ => _ end] => destruct t as [g|i|p|l] end.
  - destruct (is_some (fq_extern q0) && delim_eqb (g_delim g) Brace); [|steps]. apply lin_assoc. eapply (R _ _ _ (TGroup g)); cbn [inside]; lia.
  - repeat (match goal with |- context [if ?b then _ else _] => destruct b end);
      repeat first [apply lin_assoc | apply lin_fail_seq | apply lin_ret_seq];
      try (eapply (R _ _ _ (TIdent i)); cbn [inside]; lia).
    apply lin_ret. cbn. cbn in Hl. lia.
  - steps.
  - destruct (is_some (fq_extern q0)); [|steps]. apply lin_assoc. eapply (R _ _ _ (TLit l)); cbn [inside]; lia.
Qed.
Hint Resolve l_fn_head : lin.
Ltac arith ::=
  repeat match goal with x : option _ |- _ => destruct x | x : _ + _ |- _ => destruct x | x : result _ _ |- _ => destruct x | x : _ * _ |- _ => destruct x end;
  unfold upto, below, maybe, rounds_of, taken, fn_or_not in *; cbn [List.length Nat.sub fst snd] in *; rewrite ?app_length in *; cbn [List.length Nat.sub] in *;
  try solve [intuition lia].
Lemma l_fn attributes vis ts : lin (fn_or_not ts) 0 83 12 (i_fn attributes vis) ts.
Proof. unfold i_fn. steps. Qed.
Hint Resolve l_fn : lin.

Lemma lend_collect ts : lend 0 1 1 collect ts.
Proof. intro HM. cbn. unfold phi. split; lia. Qed.
Hint Resolve lend_collect : lin.
Lemma l_macro_inner attributes ts : lin (maybe ts) 0 10 0 (i_macro_inner attributes) ts.
Proof. unfold i_macro_inner. steps. Qed.
Lemma consume_any_ident_nested ts o q : consume_any_ident ts = (o, q) -> nested q = nested ts.
Proof. destruct ts as [|[] r]; cbn; intro H; injection H as <- <-; reflexivity. Qed.
Lemma consume_punct_nested x ts o q : consume_punct x ts = (o, q) -> nested q = nested ts.
Proof.
  unfold consume_punct. destruct ts as [|[] r]; try (intro H; injection H as <- <-; reflexivity).
  destruct (p_is _ _); intro H; injection H as <- <-; reflexivity.
Qed.
Lemma macro_inner_nested attributes ts q : run (i_macro_inner attributes) ts = Ret (None, q) -> nested q = nested ts.
Proof.
  rewrite e_macro_inner. unfold consume_macro_inner.
  destruct (consume_any_ident ts) as [[n|] t1] eqn:E1; [|intro H; injection H as <-; eauto using consume_any_ident_nested].
  apply consume_any_ident_nested in E1.
  destruct (consume_punct "!" t1) as [[b|] t2] eqn:E2; [|intro H; injection H as <-; apply consume_punct_nested in E2; congruence].
  destruct (consume_any_ident t2) as [d [|[g|i|p|l] r]]; try discriminate.
  destruct (delim_eqb _ _); [|destruct (delim_eqb _ _); discriminate].
  destruct (parse_punct _ _ _) as [[]| |]; discriminate.
Qed.
Lemma l_macro attributes ts : lin (maybe ts) 0 11 0 (i_macro attributes) ts.
Proof.
  unfold i_macro. step. eapply lin_call_run; [apply l_macro_inner|lia|lia|lia|intros; arith|].
  intros [m|] q Hq Hl; [steps|]. apply macro_inner_nested in Hq.
  apply (lin_restore _ _ _ _ _ 0); [assumption|lia|unfold phi; lia|]. steps.
Qed.
Hint Resolve l_macro : lin.
Lemma l_const_or_static attributes vis ts : lin (below ts) 0 13 2 (i_const_or_static attributes vis) ts.
Proof. unfold i_const_or_static. steps. Qed.
Lemma l_ty_definition attributes vis ts : lin (below ts) 0 13 2 (i_ty_definition attributes vis) ts.
Proof. unfold i_ty_definition. steps. Qed.
Lemma l_use attributes vis ts : lin (below ts) 0 5 2 (i_use attributes vis) ts.
Proof. unfold i_use. steps. Qed.
Lemma l_consume_extern_crate attributes vis ts : lin (maybe ts) 0 9 0 (i_consume_extern_crate attributes vis) ts.
Proof. unfold i_consume_extern_crate. steps. Qed.
Hint Resolve l_const_or_static l_ty_definition l_use l_consume_extern_crate : lin.
Lemma l_extern_crate attributes vis ts : lin (below ts) 0 9 0 (i_extern_crate attributes vis) ts.
Proof. unfold i_extern_crate. steps. Qed.
Hint Resolve l_extern_crate : lin.

(** Paths: the arguments are cut out and read again. *)
Definition flat {A} (a : nat) (m : T A) (ts : list tok) : Prop :=
  List.length ts <= most -> let '(_, (c, d)) := m ts in d <= c * most /\ c <= a + List.length ts.
Lemma flat_generic_arg ts : flat 8 i_generic_arg ts.
Proof.
  intro HM. unfold i_generic_arg, i_lifetime, andthen, peek, next, save, restore, collect, ret, fail.
  destruct ts as [|[g|i|p|l] r]; [cbn; split; lia| | | |]; cbn [List.length] in HM.
  - cbn. split; lia.
  - destruct r as [|[g|i'|p|l] r]; cbn in *; try (split; lia). destruct (p_is "=" p); cbn; split; lia.
  - cbn. destruct (p_is "'" p); cbn; [|split; lia]. destruct r as [|[] [|]]; cbn; split; lia.
  - cbn. split; lia.
Qed.
Lemma lin_stuff_seq {B} (P : B -> nat -> Prop) a k p must (f : list tok -> T B) ts :
  3 <= k -> 3 <= a ->
  (forall out ts', taken ts out (List.length ts') -> List.length out <= most -> lin P 0 (a - 3 + List.length out) k (f out) ts') ->
  lin P 0 a k (andthen (i_stuff_until p must) f) ts.
Proof.
  intros Hk Ha Hf HM. assert (H := l_stuff p must ts HM). unfold andthen. destruct (i_stuff_until p must ts) as [o [c d]].
  destruct H as [Hd H]. unfold phi in *. assert (2 * List.length ts <= k * List.length ts) by nia.
  destruct o as [[out q]| |]; [|split; [assumption|lia]..]. destruct H as (H1 & H2 & H3).
  pose proof (size_split ts). unfold taken in H2.
  specialize (Hf out q H2 ltac:(lia) ltac:(lia)). destruct (f out q) as [o2 [c2 d2]]. destruct Hf as [Hd2 Hf]. unfold phi in Hf.
  assert (G : c + List.length out + k * List.length q + rate * nested q <= 3 + k * List.length ts + rate * nested ts) by nia.
  split; [lia|]. destruct o2 as [[y ts']| |]; [destruct Hf as (? & ? & ?); repeat split; auto|..]; lia.
Qed.
Lemma lin_on_flat {A B} (P : B -> nat -> Prop) a a1 k s (m : T A) (f : A -> T B) ts :
  flat a1 m s -> List.length s <= most -> a1 + List.length s <= a ->
  (forall x, lin P 0 (a - (a1 + List.length s)) k (f x) ts) -> lin P 0 a k (andthen (on s m) f) ts.
Proof.
  unfold lin, flat, andthen, on. intros H Hs Ha Hf HM. specialize (H Hs). destruct (m s) as [o [c d]]. destruct H as [Hd Hc].
  destruct o as [[x s']| |]; [|split; [assumption|lia]..].
  specialize (Hf x HM). destruct (f x ts) as [o2 [c2 d2]]. destruct Hf as [Hf0 Hf]. split; [lia|].
  destruct o2 as [[y ts']| |]; intuition lia.
Qed.
Lemma colon2_nested ts o q : run i_colon2 ts = Ret (o, q) -> nested q = nested ts /\ List.length ts <= 2 + List.length q.
Proof.
  rewrite e_colon2. intro H. injection H as H. revert H. unfold consume_colon2.
  destruct ts as [|[g|i|p|l] [|[g'|i'|p'|l'] r]]; cbn; try (intro H; injection H as <- <-; cbn; lia);
    repeat (match goal with |- context [if ?b then _ else _] => destruct b end); intro H; injection H as <- <-; cbn; lia.
Qed.
Lemma l_generic_args ts : lin (upto ts) 0 54 17 i_generic_args ts.
Proof.
  unfold i_generic_args. step. eapply lin_call_run; [apply l_colon2|lia|lia|lia|intros; arith|].
  intros turbo q Hq Hl. apply colon2_nested in Hq. cbn [Nat.sub].
  assert (N : forall a (f : unit -> T (option generic_arg_list)), f = (fun _ => ret None) -> 34 <= a -> lin (upto ts) 0 a 17 (andthen (restore ts) f) q).
  { intros a f -> Ha. apply (lin_restore _ _ _ _ _ 34); [assumption|lia| |steps]. unfold phi. rewrite (proj1 Hq). lia. }
  apply lin_peek; [lia|]. cbn [Nat.sub]. destruct q as [|[g|i|p|l] q]; cbn [hd_error]; try (apply N; [reflexivity|lia]).
  destruct (p_is "<" p); [|apply N; [reflexivity|lia]]. step.
  match goal with |- lin _ _ _ _ (andthen (loop ?b _) _) ?q => 
    eapply (lin_call _ _ (upto q) _ _ 0 _ 14 _ 17); [apply (lin_loop _ _ b 14 3); intros acc q0 |lia..| |] end; [|intros; arith|intros].
  - apply lin_stuff_seq; [lia|lia|]. intros out q1 Ht Hm. step. step; [steps|].
    eapply lin_on_flat; [apply flat_generic_arg|assumption|cbn [List.length Nat.sub]; lia|]. intro. cbn [List.length Nat.sub]. apply lin_ret. arith.
  - cbn [Nat.sub]. steps.
Qed.
Hint Resolve l_generic_args : lin.
Lemma l_path ts : lin (upto ts) 0 62 76 i_path ts.
Proof.
  unfold i_path. step.
  match goal with |- lin _ _ _ _ (loop ?b _) ?q => 
    eapply (lin_tail _ _ (upto q) _ _ 0 _ 59 _ 76); [apply (lin_loop _ _ b 59 17); intros [cc ss] q0 |lia..| |] end; [|intros; arith|intros; arith].
  steps.
Qed.

Section Recursion.
Variable rec_item : T (result item error).
Variable rec_either : list attribute -> option vis_marker -> T item.
Hypothesis l_rec_item : forall ts, lin (fn_or_not ts) 0 152 12 rec_item ts.
Hypothesis l_rec_either : forall attributes vis ts, lin (below ts) 0 135 12 (rec_either attributes vis) ts.
Hint Resolve l_rec_item l_rec_either : lin.

Lemma l_impl_body g allow ts : lin (upto ts) (size (g_stream g)) 14 0 (i_impl_body rec_either g allow) ts.
Proof.
  unfold i_impl_body. eapply (lin_within _ _ _ _ _ 13 _ 165); [|lia|lia|lia|intro; steps].
  eapply lin_lend. eapply (lin_call _ _ (upto _) (upto (g_stream g)) _ 0 _ 12 _ 12); [apply l_attributes|lia|lia|lia|intros; arith|].
  intros inner q Hq. cbn [Nat.sub].
  match goal with |- lin _ _ _ _ (andthen (loop ?b _) _) ?q => 
    eapply (lin_call _ _ (upto q) _ _ 0 _ 1 _ 165); [apply (lin_loop_end _ _ b 153 1 12)|lia..| |] end; [| |intros; arith|intros].
  - intros. steps.
  - intros. steps.
  - cbn [Nat.sub]. steps.
Qed.
Hint Resolve l_impl_body : lin.
Lemma l_body_group site bad text ts : lin (below ts) 0 15 0 (i_body_group rec_either site bad text) ts.
Proof. unfold i_body_group. steps. Qed.
Hint Resolve l_body_group : lin.
Lemma l_impl attributes ts : lin (below ts) 0 51 12 (i_impl rec_either attributes) ts.
Proof. unfold i_impl. steps. Qed.
Lemma l_trait attributes vis ts : lin (below ts) 0 49 12 (i_trait rec_either attributes vis) ts.
Proof. unfold i_trait. steps. Qed.
Lemma l_consume_extern_block attributes vis ts : lin (maybe ts) 0 21 0 (i_consume_extern_block rec_either attributes vis) ts.
Proof. unfold i_consume_extern_block. steps. Qed.
Hint Resolve l_impl l_trait l_consume_extern_block : lin.
Lemma l_extern_block attributes vis ts : lin (below ts) 0 21 0 (i_extern_block rec_either attributes vis) ts.
Proof. unfold i_extern_block. steps. Qed.
Lemma l_mod attributes vis ts : lin (below ts) 0 19 0 (i_mod rec_item attributes vis) ts.
Proof.
  unfold i_mod. do 4 step; [steps|]. step. step; [|steps..]. step; [|steps].
  match goal with |- lin _ _ _ _ (andthen (within (g_stream ?g) _) _) _ => set (gg := g) end.
  eapply (lin_within _ _ _ _ _ 13 _ 165); [|lia|lia|cbn [inside]; lia|intro; steps].
  eapply lin_lend. eapply (lin_call _ _ (upto _) (upto (g_stream gg)) _ 0 _ 12 _ 12); [apply l_attributes|lia|lia|lia|intros; arith|].
  intros inner q Hq. cbn [Nat.sub].
  match goal with |- lin _ _ _ _ (andthen (loop ?b _) _) ?q => 
    eapply (lin_call _ _ (upto q) _ _ 0 _ 1 _ 165); [apply (lin_loop_end _ _ b 153 1 12)|lia..| |] end; [| |intros; arith|intros].
  - intros. steps.
  - intros. steps.
  - cbn [Nat.sub]. steps.
Qed.
Hint Resolve l_extern_block l_mod : lin.
Lemma l_either context attributes vis ts : lin (below ts) 0 135 12 (i_either rec_item rec_either context attributes vis) ts.
Proof. unfold i_either. steps. Qed.
Hint Resolve l_either : lin.
Lemma l_struct attributes vis kw ts : lin (below ts) 0 70 12 (i_struct attributes vis kw) ts.
Proof. unfold i_struct. steps. Qed.
Lemma l_enum attributes vis kw ts : lin (below ts) 0 82 12 (i_enum attributes vis kw) ts.
Proof. unfold i_enum. steps. Qed.
Lemma l_union attributes vis kw ts : lin (below ts) 0 56 12 (i_union attributes vis kw) ts.
Proof. unfold i_union. steps. Qed.
Hint Resolve l_struct l_enum l_union : lin.
Lemma l_item_body ts : lin (fn_or_not ts) 0 152 12 (i_item_body rec_item rec_either) ts.
Proof. unfold i_item_body. steps. Qed.
End Recursion.
End Functions.

(** ** The whole parser *)
Lemma l_nest rate most : 165 <= rate -> forall n,
  (forall ts, lin rate most (fn_or_not ts) 0 152 12 (fst (i_nest n)) ts) /\
  (forall attributes vis ts, lin rate most (below ts) 0 135 12 (snd (i_nest n) attributes vis) ts).
Proof.
  intros Hr. induction n as [|n [IH1 IH2]].
  - split; intros; intro HM; cbn; split; lia.
  - cbn [i_nest]. destruct (i_nest n) as [r e]. cbn [fst snd] in *. split; intros.
    + apply l_item_body; assumption.
    + apply l_either; assumption.
Qed.

(** How many operations on token iterators a run takes, and how many tokens it copies. *)
Definition ops {A} (m : T A) (ts : list tok) : nat := fst (snd (m ts)).
Definition copies {A} (m : T A) (ts : list tok) : nat := snd (snd (m ts)).

Lemma lin_total {A} P a k (m : T A) ts : k <= 165 -> lin 165 (size ts) P 0 a k m ts ->
  ops m ts <= 165 * size ts + a /\ copies m ts <= ops m ts * size ts.
Proof.
  intros Hk H. specialize (H ltac:(lia)). unfold ops, copies. destruct (m ts) as [o [c d]]. cbn [fst snd].
  destruct H as [Hd H]. split; [|assumption]. pose proof (lend_phi 165 k ts Hk).
  destruct o as [[x q]| |]; lia.
Qed.
Theorem consume_item_cost ts :
  ops i_consume_item ts <= 165 * size ts + 152 /\ copies i_consume_item ts <= ops i_consume_item ts * size ts.
Proof.
  change (ops i_consume_item ts) with (ops (fst (i_nest (S (toks_depth ts)))) ts).
  change (copies i_consume_item ts) with (copies (fst (i_nest (S (toks_depth ts)))) ts).
  eapply lin_total with (k := 12); [lia|]. apply l_nest. lia.
Qed.
Theorem path_cost ts : ops i_path ts <= 165 * size ts + 62 /\ copies i_path ts <= ops i_path ts * size ts.
Proof. eapply lin_total with (k := 76); [lia|]. apply l_path. lia. Qed.

(** ** Functions in a module *)
Definition sp0 : span := call_site.
Definition void_fn : list tok :=
  [TIdent (mkIdent "fn" sp0); TIdent (mkIdent "f" sp0); TGroup (mkGroup Parenthesis [] sp0); TGroup (mkGroup Brace [] sp0)].
Fixpoint void_fns (n : nat) : list tok := match n with O => [] | S n => void_fn ++ void_fns n end.
Definition fns_module (n : nat) : list tok :=
  [TIdent (mkIdent "mod" sp0); TIdent (mkIdent "m" sp0); TGroup (mkGroup Brace (void_fns n) sp0)].
Definition void_item : item :=
  match consume_item void_fn with Ret (Ok i, _) => i | _ => IUse (mkUse [] None (mkIdent "" sp0) (mkTypeExpr []) (mkPunct ";" Alone sp0)) end.

Lemma void_fn_cost n r : fst (i_nest (S n)) (void_fn ++ r) = (Got (Ok void_item, r), (19, 4 + List.length r)).
Proof.
  cbn [i_nest]. destruct (i_nest n) as [ri re]. cbn [fst].
  transitivity (@Got (result item error * list tok) (Ok void_item, r), (19, 4 + ((((List.length r + 0) + 0) + 0) + 0))).
  - vm_compute. reflexivity.
  - do 2 f_equal. lia.
Qed.
Lemma void_fns_length n : List.length (void_fns n) = 4 * n.
Proof. induction n as [|n IH]; [reflexivity|]. cbn [void_fns void_fn app List.length]. lia. Qed.
Lemma void_fns_size n : size (void_fns n) = 4 * n.
Proof. induction n as [|n IH]; [reflexivity|]. cbn [void_fns void_fn app size tok_size]. lia. Qed.
Lemma fns_module_size n : size (fns_module n) = 3 + 4 * n.
Proof. unfold fns_module. cbn [size]. rewrite !tok_size_eq. cbn [inside g_stream]. rewrite void_fns_size. lia. Qed.

(** The loop of [i_mod] over the members. *)
Definition members_body (rec_item : T (result item error)) (members : list item) : T (list item + list item) :=
  t <~ peek ;;
  match t with
  | None => ret (inr members)
  | Some _ =>
      i <~ rec_item ;;
      match i with Ok i => ret (inl (members ++ [i])) | Err e => fail PDeclInMod [Txt "declaration in mod: "; Txt (error_text e)] end
  end.
Lemma void_fns_cost d n : forall fuel members, n < fuel ->
  rounds fuel (members_body (fst (i_nest (S d)))) members (void_fns n) =
  (Got (members ++ List.repeat void_item n, []), (1 + 20 * n, 2 * n * n + 2 * n)).
Proof.
  induction n as [|n IH]; intros fuel members Hf; (destruct fuel as [|fuel]; [lia|]).
  - cbn. rewrite app_nil_r. reflexivity.
  - cbn [rounds void_fns]. unfold andthen at 1. unfold members_body at 1.
    unfold andthen at 1. cbn [peek]. replace (hd_error (void_fn ++ void_fns n)) with (hd_error void_fn) by reflexivity. cbn [hd_error void_fn].
    change (TIdent (mkIdent "fn" sp0) :: TIdent (mkIdent "f" sp0) :: TGroup (mkGroup Parenthesis [] sp0) :: TGroup (mkGroup Brace [] sp0) :: [])
      with void_fn.
    unfold andthen at 1. rewrite void_fn_cost. cbn [ret fst snd]. rewrite IH by lia. rewrite <- app_assoc. cbn [List.repeat app].
    rewrite void_fns_length. do 2 f_equal; lia.
Qed.
Lemma void_fns_attributes n : i_attributes true (void_fns n) = (Got ([], void_fns n), (1, 0)).
Proof. destruct n; reflexivity. Qed.
Theorem fns_module_cost n :
  exists i, i_consume_item (fns_module n) = (Got (Ok i, []), (10 + 20 * n, 2 * n * n + 6 * n)).
Proof.
  unfold i_consume_item.
  assert (D : exists d, toks_depth (fns_module n) = S d).
  { unfold fns_module. cbn. eexists. reflexivity. }
  destruct D as [d ->]. remember (S d) as d1 eqn:Ed. cbn [i_nest]. destruct (i_nest d1) as [ri re] eqn:Ei. cbn [fst].
  assert (Eri : ri = fst (i_nest (S d))) by (rewrite <- Ed, Ei; reflexivity).
  unfold i_item_body. unfold andthen at 1.
  replace (i_attributes false (fns_module n)) with (@Got (list attribute * list tok) ([], fns_module n), (1, 0)) by reflexivity.
  cbv beta iota. unfold andthen at 1.
  replace (i_vis_marker (fns_module n)) with (@Got (option vis_marker * list tok) (None, fns_module n), (1, 0)) by reflexivity.
  cbv beta iota. unfold andthen at 1. cbn [peek fns_module hd_error].
  change (id_is "struct" {| id_str := "mod"; id_span := sp0 |}) with false.
  change (id_is "enum" {| id_str := "mod"; id_span := sp0 |}) with false.
  change (id_is "union" {| id_str := "mod"; id_span := sp0 |}) with false.
  change (id_is "mod" {| id_str := "mod"; id_span := sp0 |}) with true. cbv beta iota.
  unfold andthen at 1. unfold i_mod. unfold fns_module. unfold andthen at 1.
  match goal with |- context [i_consume_ident "unsafe" ?ts] => 
    replace (i_consume_ident "unsafe" ts) with (@Got (option ident * list tok) (None, ts), (1, 0)) by reflexivity end.
  cbv beta iota. unfold andthen at 1.
  match goal with |- context [i_parse_ident "mod" ?c (?x :: ?ts)] => 
    replace (i_parse_ident "mod" c (x :: ts)) with (@Got (ident * list tok) (mkIdent "mod" sp0, ts), (1, 0)) by reflexivity end.
  cbv beta iota. unfold andthen at 1.
  match goal with |- context [i_item_name (?x :: ?ts)] => 
    replace (i_item_name (x :: ts)) with (@Got (ident * list tok) (mkIdent "m" sp0, ts), (1, 0)) by reflexivity end.
  cbv beta iota. unfold andthen at 1. cbn [next hd_error tl g_delim delim_eqb g_stream].
  match goal with |- context [loop ?b []] => change b with (members_body ri) end.
  unfold within, copied, on, loop. unfold andthen. rewrite void_fns_attributes. cbv beta iota.
  rewrite Eri, (void_fns_cost d n (loop_fuel (void_fns n)) []) by (unfold loop_fuel; rewrite void_fns_length; lia).
  cbn [ret fst snd app]. rewrite void_fns_length. eexists. do 2 f_equal; lia.
Qed.

(** ** C98: the number of operations is linear in the input *)
Theorem C98_consume_item ts : ops i_consume_item ts <= 165 * size ts + 152.
Proof. apply consume_item_cost. Qed.
Theorem C98_parse_item ts : ops i_parse_item ts <= 165 * size ts + 154.
Proof.
  pose proof (proj1 (l_nest 165 (size ts) (le_n _) (S (toks_depth ts))) ts ltac:(lia)) as H.
  pose proof (lend_phi 165 12 ts ltac:(lia)). unfold ops, i_parse_item, andthen, i_consume_item in *.
  destruct (fst (i_nest (S (toks_depth ts))) ts) as [[[d r]| |] [c q]]; cbn [fst snd] in *; try lia.
  destruct H as (_ & H & _). unfold phi in *. destruct r; cbn in *; lia.
Qed.
Theorem C98_consume_path ts : ops i_path ts <= 165 * size ts + 62.
Proof. apply path_cost. Qed.

(** ** C99: the number of copied tokens *)
Theorem C99_linear_refuted :
  ~ exists c, forall ts d, run i_consume_item ts = Ret (Ok d, []) -> copies i_consume_item ts <= c * size ts + c.
Proof.
  intros [c H]. destruct (fns_module_cost (4 * c + 4)) as [i Hi].
  specialize (H (fns_module (4 * c + 4)) i). unfold run, copies in H. rewrite Hi in H. specialize (H eq_refl). cbn [fst snd] in H.
  rewrite fns_module_size in H. nia.
Qed.
Theorem C99_quadratic ts : copies i_consume_item ts <= (165 * size ts + 152) * size ts.
Proof. pose proof (consume_item_cost ts) as [H1 H2]. nia. Qed.
Theorem C99_parse_item_quadratic ts : copies i_parse_item ts <= (165 * size ts + 152) * size ts.
Proof.
  pose proof (C99_quadratic ts) as H. unfold copies, i_parse_item, andthen in *.
  destruct (i_consume_item ts) as [[[d r]| |] [c q]]; cbn in *; try lia. destruct r; cbn; lia.
Qed.
Theorem C99_consume_path_quadratic ts : copies i_path ts <= (165 * size ts + 62) * size ts.
Proof. pose proof (path_cost ts) as [H1 H2]. nia. Qed.
(** The square is reached: for every size there is a module at least as large. *)
Theorem C99_quadratic_reached n : exists ts d,
  n <= size ts /\ run i_consume_item ts = Ret (Ok d, []) /\ size ts * size ts <= 8 * copies i_consume_item ts + 9.
Proof.
  destruct (fns_module_cost n) as [i Hi]. exists (fns_module n), i. unfold run, copies. rewrite Hi, fns_module_size. cbn [fst snd].
  repeat split; nia.
Qed.

(** Concrete runs: a successful one, a panic at the very end, a path and the modules above. *)
Definition src : string := "#[derive(Debug)] pub mod m { use a::b; enum E<T> { A(T), B { x: u8 } } unsafe extern ""C"" fn f(x: u8) -> u8 where u8: Copy { g() } impl T for S { const N: u8 = 1; fn h(&self) {} } }".
Example C98_ex1 : (size (lex src), ops i_parse_item (lex src), copies i_parse_item (lex src)) = (67, 219, 93)
  /\ run i_parse_item (lex src) = Ret (Ok (item_of src), []).
Proof. vm_compute. split; reflexivity. Qed.
Example C98_ex2 : let s := (src ++ " fn")%string in
  (size (lex s), ops i_parse_item (lex s), copies i_parse_item (lex s)) = (68, 221, 93)
  /\ panic_of (run i_parse_item (lex s)) = Some PTrailingTokens.
Proof. vm_compute. split; reflexivity. Qed.
Example C98_ex3 : let s := "::std::vec::Vec<u8, [T; 2]>::new" in
  (size (lex s), ops i_path (lex s), copies i_path (lex s)) = (20, 62, 113).
Proof. vm_compute. reflexivity. Qed.
Example C99_ex : map (fun n => (size (fns_module n), ops i_consume_item (fns_module n), copies i_consume_item (fns_module n))) [1; 10; 20]
  = [(7, 30, 8); (43, 210, 260); (83, 410, 920)].
Proof. vm_compute. reflexivity. Qed.
